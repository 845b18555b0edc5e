(** C82: the hooks for calls and returns. *)
From Coq Require Import List Arith.
From Verif Require Import HookModel HookSpec HookProofs.
Import ListNotations.

(** C82: in every run of any number of fibers, the calls and returns told of one fiber are properly nested and each return names the
    function of its call; the calls without a return are as many as there are frames, and none when the fiber has ended. *)
Theorem C82_nested_partial : forall p, compiled p -> forall l v i f, run p start l = Some v -> nth_error (fibers v) i = Some f ->
  exists fs, opens (ofFiber i (log v)) fs /\ (alive f = false -> fs = []) /\
    (alive f = true -> length fs = length (filter (fun s => match s with SFrame => true | _ => false end) (stack f))).
Proof. exact nested. Qed.
Print Assumptions C82_nested_partial.

(** C82: so with one fiber all that is told is properly nested. *)
Theorem C82_single_partial : forall p, compiled p -> forall l v f, run p start l = Some v -> fibers v = [f] ->
  exists fs, opens (map snd (log v)) fs /\ (alive f = false -> fs = []).
Proof. exact single. Qed.
Print Assumptions C82_single_partial.

(** A function that calls another. *)
Definition exP : program :=
  Prog (fun k => nth_error [IEnter; ICall 5; IOther; ILeave; IRet; IEnter; IOther; ILeave; IRet] k) (fun k => if k <? 5 then 0 else 1).
Lemma exP_compiled : compiled exP.
Proof.
  split; intros k; do 9 (destruct k as [|k]; [cbn; intros; try discriminate; repeat split; try discriminate; try congruence;
    try (match goal with H : Some (ICall 5) = Some (ICall ?g) |- _ => injection H as <-; reflexivity end) |]); cbn; destruct k; discriminate.
Qed.
Definition goes (n : nat) (i : nat) : list op := repeat (Go i true) n.
Example C82_nested_partial_ex : compiled exP
  /\ exists v, run exP start (Make 0 :: goes 9 0) = Some v /\ map snd (log v) = [ECall 0; ECall 1; ERet 1; ERet 0]
       /\ map alive (fibers v) = [false].
Proof. split; [exact exP_compiled | eexists; split; [reflexivity | split; reflexivity]]. Qed.
Example C82_single_partial_ex : exists v f, run exP start (Make 0 :: goes 5 0) = Some v /\ fibers v = [f] /\ map snd (log v) = [ECall 0; ECall 1; ERet 1].
Proof. eexists. eexists. split; [reflexivity | split; reflexivity]. Qed.

(** The full claim, that what the hooks are told is properly nested, is false with fibers: here the first fiber calls and returns, then
    the second calls, then the first returns. *)
Theorem C82_nested_refuted : ~ forall p, compiled p -> forall l v, run p start l = Some v -> exists fs, opens (map snd (log v)) fs.
Proof.
  intros H. destruct (H exP exP_compiled (Make 0 :: goes 7 0 ++ Make 5 :: goes 2 1 ++ goes 1 0) _ eq_refl) as [fs O].
  apply check_complete in O. cbv in O. discriminate.
Qed.
Print Assumptions C82_nested_refuted.

(** C82: both hooks are told the name of the function and the line of its closing brace, whatever its body is. *)
Theorem C82_line : forall b f first last body,
  makeFn b f first last body = b ++ (IEnter, (f, last)) :: map (fun x => (fst x, (f, snd x))) body ++ [(ILeave, (f, last)); (IRet, (f, last))].
Proof. exact make_fn. Qed.
Print Assumptions C82_line.
Example C82_line_ex : makeFn [] 7 10 20 [(IOther, 11)] = [(IEnter, (7, 20)); (IOther, (7, 11)); (ILeave, (7, 20)); (IRet, (7, 20))].
Proof. reflexivity. Qed.
