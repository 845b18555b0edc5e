(** Proofs about the entry points. *)
From Coq Require Import ZArith Lia Bool List.
From Verif Require Import Base ApiModel ApiSpec.
Import ListNotations.
Local Open Scope Z_scope.

Ltac nl := repeat match goal with x := _ |- _ => unfold x in * end; cbn [nesting next jumper alive report]; lia.

Fixpoint act_ind' (P : act -> Prop) (H1 : forall m b, Forall P b -> P (ARun m b)) (H2 : forall d b, Forall P b -> P (ACall d b)) (H3 : forall b, Forall P b -> P (AInit b))
  (H4 : forall c m, P (AErr c m)) (H5 : forall c, P (AExit c)) (a : act) {struct a} : P a :=
  let fix go (l : list act) : Forall P l := match l with [] => Forall_nil P | x :: r => Forall_cons x (act_ind' P H1 H2 H3 H4 H5 x) (go r) end in
  match a with ARun m b => H1 m b (go b) | ACall d b => H2 d b (go b) | AInit b => H3 b (go b) | AErr c m => H4 c m | AExit c => H5 c end.

Fixpoint firstErrs (l : list act) : option Z := match l with [] => None | a :: r => match firstErr a with Some c => Some c | None => firstErrs r end end.
Fixpoint depths (l : list act) : Z := match l with [] => 0 | a :: r => Z.max (depth a) (depths r) end.
Lemma depths_pos : forall l, 0 <= depths l. Proof. induction l as [|a l IH]; cbn [depths]; lia. Qed.

Lemma exec_call : forall d b live s, exec (ACall d b) live s =
  let id := next s in
  let* s0 := incNesting (MkSt (if nesting s =? 0 then Some id else jumper s) (nesting s) (alive s) (S id) (report s)) in
  let* x := if negb (alive s0) then fail ERR_RUNTIME true (id :: live) s0 else if negb d then fail ERR_RUNTIME true (id :: live) s0 else execs b (id :: live) s0 in
  finish id x.
Proof. reflexivity. Qed.
Lemma exec_run : forall m b live s, exec (ARun m b) live s =
  let id := next s in
  let* s0 := incNesting (MkSt (Some id) (nesting s) (alive s) (S id) (report s)) in
  let* x := if negb m then Ok (s0, [], RDone) else if negb (alive s0) then fail ERR_RUNTIME true (id :: live) s0 else execs b (id :: live) s0 in
  finish id x.
Proof. reflexivity. Qed.
Lemma first_call : forall d b, firstErr (ACall d b) = if d then firstErrs b else Some (-1). Proof. reflexivity. Qed.
Lemma first_run : forall m b, firstErr (ARun m b) = if m then firstErrs b else None. Proof. reflexivity. Qed.
Lemma inner_call : forall d b, inner (ACall d b) = inners b. Proof. reflexivity. Qed.
Lemma depth_call : forall d b, depth (ACall d b) = 1 + depths b. Proof. reflexivity. Qed.
Lemma depth_run : forall d b, depth (ARun d b) = 1 + depths b. Proof. reflexivity. Qed.

(** Within a call. *)
Definition Within (run : list nat -> st -> outcome (st * list Z * res)) (e : option Z) (d : Z) : Prop :=
  forall live s j, jumper s = Some j -> In j live -> (j < next s)%nat -> 1 <= nesting s -> nesting s + d <= INT_MAX -> alive s = true ->
  match e with
  | None => exists n cs, (next s <= n)%nat /\ Forall (fun c => c = 0) cs /\ run live s = Ok (MkSt (Some j) (nesting s) true n (report s), cs, RDone)
  | Some c => exists s' cs, run live s = Ok (s', cs, RJump j) /\ report s' = Some c /\ jumper s' = Some j
  end.

Lemma in_existsb : forall j l, In j l -> existsb (Nat.eqb j) l = true.
Proof. intros j l H. apply existsb_exists. exists j. split; [exact H|apply Nat.eqb_refl]. Qed.

Lemma fail_within : forall c m live s j, jumper s = Some j -> In j live -> exists s', fail c m live s = Ok (s', [], RJump j) /\ report s' = Some c /\ jumper s' = Some j.
Proof. intros c m live s j J I. unfold fail. rewrite J, (in_existsb _ _ I). eexists. split; [reflexivity|]. split; reflexivity. Qed.

Lemma execs_within : forall b, Forall (fun a => inner a -> Within (exec a) (firstErr a) (depth a)) b -> inners b -> Within (execs b) (firstErrs b) (depths b).
Proof.
  induction b as [|a b IH]; intros F I live s j J Ij Lt N D A; cbn [firstErrs depths execs] in *.
  - exists (next s), []. split; [lia|]. split; [constructor|]. destruct s; cbn in *; subst. reflexivity.
  - inversion F as [|? ? Fa Fb]; subst. destruct I as [Ia Ib]. pose proof (depths_pos b). specialize (Fa Ia live s j J Ij Lt N ltac:(lia) A). destruct (firstErr a) as [c|].
    + destruct Fa as (s' & cs & E & R & J'). rewrite E. cbn [bind]. exists s', cs. auto.
    + destruct Fa as (n & cs & L & Z0 & E). rewrite E. cbn [bind]. set (s1 := MkSt (Some j) (nesting s) true n (report s)).
      specialize (IH Fb Ib live s1 j eq_refl Ij ltac:(nl) N ltac:(nl) eq_refl). destruct (firstErrs b) as [c|].
      * destruct IH as (s' & cs2 & E2 & R & J'). rewrite E2. cbn [bind]. exists s', (cs ++ cs2). auto.
      * destruct IH as (n2 & cs2 & L2 & Z2 & E2). rewrite E2. cbn [bind]. exists n2, (cs ++ cs2). split; [revert L2; nl|]. split; [apply Forall_app; auto|reflexivity].
Qed.

Lemma inc_ok : forall s, nesting s < INT_MAX -> incNesting s = Ok (MkSt (jumper s) (nesting s + 1) (alive s) (next s) (report s)).
Proof. intros s H. unfold incNesting. replace (INT_MAX <=? nesting s) with false by lia. reflexivity. Qed.
Lemma dec_ok : forall s, 1 <= nesting s -> decNesting s = Ok (MkSt (jumper s) (nesting s - 1) (alive s) (next s) (report s)).
Proof. intros s H. unfold decNesting. replace (nesting s <=? INT_MIN) with false; [reflexivity|]. symmetry. apply Z.leb_gt. unfold INT_MIN. unfold two31. lia. Qed.

Lemma exec_within : forall a, inner a -> Within (exec a) (firstErr a) (depth a).
Proof.
  induction a as [m b F|d b F|b F|c m|c] using act_ind'; intros I; try contradiction.
  - rewrite inner_call in I. intros live s j J Ij Lt N D A. rewrite depth_call in D. pose proof (depths_pos b). rewrite exec_call, first_call. cbv zeta.
    replace (nesting s =? 0) with false by lia. rewrite inc_ok by nl. cbn [bind nesting jumper alive next report]. rewrite A. cbn [negb].
    set (s0 := MkSt (jumper s) (nesting s + 1) true (S (next s)) (report s)).
    assert (NE : Nat.eqb j (next s) = false) by (apply Nat.eqb_neq; lia).
    destruct d; cbn [negb].
    + pose proof (execs_within b F I (next s :: live) s0 j J (or_intror Ij) ltac:(nl) ltac:(nl) ltac:(nl) eq_refl) as W. destruct (firstErrs b) as [c|].
      * destruct W as (s' & cs & E & R & J'). rewrite E. cbn [bind finish]. rewrite NE. exists s', []. auto.
      * destruct W as (n & cs & L & Z0 & E). rewrite E. cbn [bind finish]. rewrite dec_ok by nl. cbn [bind jumper nesting alive next report]. exists n, [0]. split; [revert L; nl|]. split; [repeat constructor|].
        replace (nesting s0 - 1) with (nesting s) by nl. reflexivity.
    + destruct (fail_within ERR_RUNTIME true (next s :: live) s0 j J (or_intror Ij)) as (s' & E & R & J'). rewrite E. cbn [bind finish]. rewrite NE. exists s', []. auto.
  - intros live s j J Ij Lt N D A. destruct (fail_within c m live s j J Ij) as (s' & E & R & J'). exists s', []. auto.
  - intros live s j J Ij Lt N D A. destruct (fail_within (s32 c) true live s j J Ij) as (s' & E & R & J'). exists s', []. auto.
Qed.

(** A call from the host. *)
Lemma outer_ok : forall a live s, outer a -> nesting s = 0 -> depth a <= INT_MAX -> alive s = true ->
  match firstErr a with
  | None => exists j n, exec a live s = Ok (MkSt j 0 true n (report s), [0], RDone)
  | Some c => exists s', exec a live s = Ok (s', [c], RDone) /\ report s' = Some c
  end.
Proof.
  intros a live s O N D A.
  assert (B : forall b (d : bool), inners b -> depths b + 1 <= INT_MAX -> let s0 := MkSt (Some (next s)) (0 + 1) true (S (next s)) (report s) in
    match (if d then firstErrs b else Some (-1)) with
    | None => exists j n, (let* x := if negb d then fail ERR_RUNTIME true (next s :: live) s0 else execs b (next s :: live) s0 in finish (next s) x) = Ok (MkSt j 0 true n (report s), [0], RDone)
    | Some c => exists s', (let* x := if negb d then fail ERR_RUNTIME true (next s :: live) s0 else execs b (next s :: live) s0 in finish (next s) x) = Ok (s', [c], RDone) /\ report s' = Some c
    end).
  { intros b d I Db s0. destruct d; cbn [negb].
    - assert (F : Forall (fun a => inner a -> Within (exec a) (firstErr a) (depth a)) b) by (apply Forall_forall; intros x _; apply exec_within).
      pose proof (execs_within b F I (next s :: live) s0 (next s) eq_refl (or_introl eq_refl) ltac:(nl) ltac:(nl) ltac:(nl) eq_refl) as W. destruct (firstErrs b) as [c|].
      + destruct W as (s' & cs & E & R & J'). rewrite E. cbn [bind finish]. rewrite Nat.eqb_refl. exists s'. unfold codeOf. rewrite R. auto.
      + destruct W as (n & cs & L & Z0 & E). rewrite E. cbn [bind finish]. rewrite dec_ok by nl. cbn [bind jumper nesting alive next report]. exists (Some (next s)), n. reflexivity.
    - destruct (fail_within ERR_RUNTIME true (next s :: live) s0 (next s) eq_refl (or_introl eq_refl)) as (s' & E & R & J'). rewrite E. cbn [bind finish]. rewrite Nat.eqb_refl. exists s'. unfold codeOf. rewrite R. auto. }
  destruct a as [m b|d b|b|c m|c]; try contradiction; cbn [outer] in O.
  - rewrite exec_run, first_run. rewrite depth_run in D. cbv zeta. rewrite inc_ok by (cbn [nesting]; rewrite N; unfold INT_MAX, two31; lia). cbn [bind nesting jumper alive next report]. rewrite A, N. cbn [negb].
    destruct m; cbn [negb].
    + apply (B b true O ltac:(lia)).
    + cbn [bind finish]. rewrite dec_ok by nl. cbn [bind jumper nesting alive next report]. exists (Some (next s)), (S (next s)). reflexivity.
  - rewrite exec_call, first_call. rewrite depth_call in D. cbv zeta. rewrite N. cbn [Z.eqb]. rewrite inc_ok by (cbn [nesting]; unfold INT_MAX, two31; lia). cbn [bind nesting jumper alive next report]. rewrite A. cbn [negb].
    apply (B b d O ltac:(lia)).
Qed.

Lemma outers_ok : forall l live s, Forall outer l -> Forall (fun a => depth a <= INT_MAX) l -> Forall (fun a => firstErr a = None) l -> nesting s = 0 -> alive s = true ->
  exists j n, execs l live s = Ok (MkSt j 0 true n (report s), repeat 0 (length l), RDone) /\ (l = [] -> j = jumper s).
Proof.
  induction l as [|a l IH]; intros live s O D F N A; cbn [execs length repeat].
  - exists (jumper s), (next s). split; [|reflexivity]. destruct s; cbn in *; subst; reflexivity.
  - inversion O; inversion D; inversion F; subst. pose proof (outer_ok a live s ltac:(assumption) N ltac:(assumption) A) as X. replace (firstErr a) with (@None Z) in X by congruence.
    destruct X as (j & n & E). rewrite E. cbn [bind]. destruct (IH live (MkSt j 0 true n (report s))) as (j2 & n2 & E2 & _); try assumption; try reflexivity. rewrite E2. cbn [bind app report]. exists j2, n2. split; [reflexivity|discriminate].
Qed.

Lemma host_start : exists s0, nesting s0 = 0 /\ alive s0 = true /\ report s0 = None /\ forall l, host l = let* (s, c, r) := execs l [] s0 in Ok (s, 0 :: 0 :: c, r).
Proof.
  exists (MkSt (Some 1%nat) 0 true 2 None). split; [reflexivity|]. split; [reflexivity|]. split; [reflexivity|]. intros l. unfold host, start. cbn [execs exec next nesting alive report bind].
  destruct (execs l [] (MkSt (Some 1%nat) 0 true 2 None)) as [[[s c] r]|e|]; reflexivity.
Qed.

Lemma execs_app : forall l1 l2 live s s1 c1, execs l1 live s = Ok (s1, c1, RDone) -> execs (l1 ++ l2) live s = let* (s2, c2, r) := execs l2 live s1 in Ok (s2, c1 ++ c2, r).
Proof.
  induction l1 as [|a l1 IH]; intros l2 live s s1 c1 H; cbn [execs app] in *.
  - injection H as <- <-. destruct (execs l2 live s) as [[[s2 c2] r]|e|]; reflexivity.
  - destruct (exec a live s) as [[[sa ca] ra]|e|]; try discriminate. cbn [bind] in *. destruct ra as [|j]; [|discriminate]. destruct (execs l1 live sa) as [[[sb cb] rb]|e|] eqn:E; try discriminate. cbn [bind] in H. injection H as <- <- ->.
    rewrite (IH l2 live sa sb cb E). destruct (execs l2 live sb) as [[[s2 c2] r]|e|]; cbn [bind]; rewrite ?app_assoc; reflexivity.
Qed.

Lemma api_thm : forall l a, Forall outer l -> outer a -> Forall (fun a => depth a <= INT_MAX) l -> depth a <= INT_MAX -> Forall (fun a => firstErr a = None) l ->
  match firstErr a with
  | None => exists s, host (l ++ [a]) = Ok (s, 0 :: 0 :: repeat 0 (length l) ++ [0], RDone) /\ nesting s = 0 /\ report s = None /\ alive s = true
  | Some c => exists s, host (l ++ [a]) = Ok (s, 0 :: 0 :: repeat 0 (length l) ++ [c], RDone) /\ report s = Some c
  end.
Proof.
  intros l a O Oa D Da F. destruct host_start as (s0 & N & A & R & H). destruct (outers_ok l [] s0 O D F N A) as (j & n & E & _).
  pose proof (outer_ok a [] (MkSt j 0 true n (report s0)) Oa eq_refl Da eq_refl) as X. destruct (firstErr a) as [c|].
  - destruct X as (s & X & Rs). exists s. split; [|exact Rs]. rewrite H, (execs_app l [a] [] s0 _ _ E). cbn [execs]. rewrite X. reflexivity.
  - destruct X as (j2 & n2 & X). exists (MkSt j2 0 true n2 (report s0)). split; [|split; [reflexivity|split; [exact R|reflexivity]]]. rewrite H, (execs_app l [a] [] s0 _ _ E). cbn [execs]. rewrite X. reflexivity.
Qed.
