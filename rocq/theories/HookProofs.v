(** Proofs for HookModel. *)
From Coq Require Import List Arith Lia.
From Verif Require Import HookModel HookSpec.
Import ListNotations.

Section Program.
Context (p : program) (C : compiled p).

(** What a return address and the stack below it are, with the functions in progress. *)
Inductive cont : option nat -> list slot -> list nat -> Prop :=
| K0 : cont None [] []
| K1 : forall j k s f fs, inner p j f -> cont k s fs -> cont (Some j) (SFrame :: SRet k :: s) (f :: fs).
Definition fibOK (f : fiber) (fs : list nat) : Prop :=
  if alive f then
    exists k s,
      (code p (ip f) = Some IEnter /\ stack f = SRet k :: s /\ cont k s fs) \/
      (code p (ip f) = Some IRet /\ stack f = SRet k :: s /\ cont k s fs) \/
      (exists g r, inner p (ip f) g /\ stack f = SFrame :: SRet k :: s /\ fs = g :: r /\ cont k s r)
  else fs = [].

Lemma exec_ok : forall c f f' es fs log, fibOK f fs -> exec p c f = Some (f', es) -> opens log fs ->
  exists fs', fibOK f' fs' /\ opens (log ++ es) fs'.
Proof.
  intros c f f' es fs log I H O. unfold exec, fibOK in *. destruct (alive f); [|discriminate].
  destruct I as (k & s & [(E & S & K)|[(E & S & K)|(g & r & (D & N1 & N2) & S & F & K)]]).
  - rewrite E in H. injection H as <- <-. exists (debug p (ip f) :: fs). split; [|constructor; exact O].
    cbn [alive ip stack]. exists k, s. right. right. exists (debug p (ip f)), fs. rewrite S.
    split; [exact (c_enter p C _ E)|]. repeat split. exact K.
  - rewrite E, S in H. exists fs. inversion K as [|j k' s' f0 fs0 J K']; subst.
    + injection H as <- <-. rewrite app_nil_r. split; [reflexivity | exact O].
    + injection H as <- <-. rewrite app_nil_r. split; [|exact O]. cbn [alive ip stack]. exists k', s'. right. right.
      exists f0, fs0. split; [exact J|]. repeat split. exact K'.
  - destruct (code p (ip f)) as [i|] eqn:E; [|discriminate]. destruct i as [| | |t|t|t|].
    + congruence.
    + rewrite S in H. injection H as <- <-. exists r. split.
      * cbn [alive ip stack]. exists k, s. right. left. split; [exact (c_leave p C _ E)|]. split; [reflexivity | exact K].
      * unfold hookRet. rewrite D. constructor. rewrite <- F. exact O.
    + congruence.
    + injection H as <- <-. rewrite app_nil_r. exists fs. split; [|exact O]. cbn [alive ip stack]. destruct (c_call p C _ _ E) as [X Y].
      rewrite D in Y. exists (Some (Datatypes.S (ip f))), (stack f). left. split; [exact X|]. split; [reflexivity|].
      rewrite S, F. constructor; assumption.
    + injection H as <- <-. rewrite app_nil_r. exists fs. split; [|exact O]. cbn [alive ip stack]. exists k, s. right. right.
      exists g, r. rewrite <- D. split; [exact (c_goto p C _ _ E)|]. rewrite D. repeat split; assumption.
    + injection H as <- <-. rewrite app_nil_r. exists fs. split; [|exact O]. cbn [alive ip stack]. exists k, s. right. right.
      exists g, r. destruct (c_if p C _ _ E) as [X Y]. rewrite D in X, Y. split; [destruct c; assumption|]. repeat split; assumption.
    + injection H as <- <-. rewrite app_nil_r. exists fs. split; [|exact O]. cbn [alive ip stack]. exists k, s. right. right.
      exists g, r. pose proof (c_other p C _ E) as X. rewrite D in X. split; [exact X|]. repeat split; assumption.
Qed.

Definition vmOK (v : vm) : Prop :=
  (forall i f, nth_error (fibers v) i = Some f -> exists fs, fibOK f fs /\ opens (ofFiber i (log v)) fs) /\
  (forall i, length (fibers v) <= i -> ofFiber i (log v) = []).

Lemma of_app : forall i a b, ofFiber i (a ++ b) = ofFiber i a ++ ofFiber i b.
Proof. intros i a b. unfold ofFiber. rewrite filter_app, map_app. reflexivity. Qed.
Lemma of_same : forall i es, ofFiber i (map (pair i) es) = es.
Proof. intros i es. unfold ofFiber. induction es as [|e es IH]; [reflexivity|]. cbn. rewrite Nat.eqb_refl. cbn. rewrite IH. reflexivity. Qed.
Lemma of_other : forall i j es, i <> j -> ofFiber i (map (pair j) es) = [].
Proof.
  intros i j es N. unfold ofFiber. induction es as [|e es IH]; [reflexivity|]. cbn [map filter fst].
  destruct (Nat.eqb_spec j i); [congruence | exact IH].
Qed.
Lemma set_length : forall l i f, length (setNth l i f) = length l.
Proof. induction l as [|a l IH]; intros [|i] f; cbn; try reflexivity. rewrite IH. reflexivity. Qed.
Lemma set_same : forall l i f g, nth_error l i = Some g -> nth_error (setNth l i f) i = Some f.
Proof. induction l as [|a l IH]; intros [|i] f g H; cbn in *; try discriminate; [reflexivity | exact (IH i f g H)]. Qed.
Lemma set_other : forall l i j f, i <> j -> nth_error (setNth l j f) i = nth_error l i.
Proof. induction l as [|a l IH]; intros [|i] [|j] f N; cbn; try reflexivity; [congruence | apply IH; congruence]. Qed.

Lemma step_ok : forall v o v', vmOK v -> step p v o = Some v' -> vmOK v'.
Proof.
  intros v o v' (I & Z) H. destruct o as [j c|k]; cbn [step] in H.
  - destruct (nth_error (fibers v) j) as [f|] eqn:N; [|discriminate]. destruct (exec p c f) as [[f' es]|] eqn:E; [|discriminate].
    injection H as <-. split; cbn [fibers log].
    + intros i g G. rewrite of_app. destruct (Nat.eq_dec i j) as [->|D].
      * rewrite (set_same _ _ _ _ N) in G. injection G as <-. rewrite of_same. destruct (I j f N) as (fs & A & B).
        exact (exec_ok c f f' es fs _ A E B).
      * rewrite set_other in G by exact D. rewrite of_other by exact D. rewrite app_nil_r. exact (I i g G).
    + intros i L. rewrite set_length in L. rewrite of_app, (Z i L).
      assert (D : i <> j) by (intros ->; assert (X : j < length (fibers v)) by (apply nth_error_Some; congruence); lia).
      rewrite of_other by exact D. reflexivity.
  - destruct (code p k) as [i0|] eqn:E; [|discriminate]. destruct i0; try discriminate. injection H as <-. split; cbn [fibers log].
    + intros i g G. destruct (Nat.lt_ge_cases i (length (fibers v))) as [L|L].
      * rewrite nth_error_app1 in G by exact L. exact (I i g G).
      * rewrite nth_error_app2 in G by exact L. destruct (i - length (fibers v)) as [|m] eqn:M; [|destruct m; discriminate].
        cbn in G. injection G as <-. exists []. rewrite (Z i L). split; [|constructor].
        unfold fibOK, newFiber. cbn [alive ip stack]. exists None, []. left. split; [exact E|]. split; [reflexivity | constructor].
    + intros i L. rewrite app_length in L. apply Z. lia.
Qed.
Lemma run_ok : forall l v v', vmOK v -> run p v l = Some v' -> vmOK v'.
Proof.
  induction l as [|o l IH]; intros v v' I H; cbn [run] in H; [injection H as <-; exact I|].
  destruct (step p v o) as [w|] eqn:E; [|discriminate]. exact (IH w v' (step_ok v o w I E) H).
Qed.
Lemma start_ok : vmOK start.
Proof. split; [intros [|i] f H; discriminate | reflexivity]. Qed.

(** The functions in progress, as the return addresses have it: that of the instruction and those returned to. *)
Lemma nested : forall l v i f, run p start l = Some v -> nth_error (fibers v) i = Some f ->
  exists fs, opens (ofFiber i (log v)) fs /\ (alive f = false -> fs = []) /\
    (alive f = true -> length fs = length (filter (fun s => match s with SFrame => true | _ => false end) (stack f))).
Proof.
  intros l v i f R N. destruct (proj1 (run_ok l start v start_ok R) i f N) as (fs & A & B). exists fs. split; [exact B|].
  assert (K : forall k s fs, cont k s fs -> length fs = length (filter (fun s => match s with SFrame => true | _ => false end) s))
    by (induction 1 as [|j k s g r J K IH]; cbn; [reflexivity | rewrite IH; reflexivity]).
  unfold fibOK in A. destruct (alive f); (split; [intros X; try discriminate | intros X; try discriminate]).
  - destruct A as (k & s & [(_ & S & Q)|[(_ & S & Q)|(g & r & _ & S & -> & Q)]]); rewrite S; cbn; rewrite (K _ _ _ Q); reflexivity.
  - exact A.
Qed.
Lemma of_all : forall i l, (forall x, In x l -> fst x = i) -> ofFiber i l = map snd l.
Proof.
  intros i l H. unfold ofFiber. induction l as [|a l IH]; [reflexivity|]. cbn [filter]. rewrite (H a (or_introl eq_refl)), Nat.eqb_refl.
  cbn [map]. rewrite IH; [reflexivity|]. intros x X. apply H. right. exact X.
Qed.
(** With one fiber all events are its. *)
Lemma single : forall l v f, run p start l = Some v -> fibers v = [f] -> exists fs, opens (map snd (log v)) fs /\ (alive f = false -> fs = []).
Proof.
  intros l v f R F. pose proof (run_ok l start v start_ok R) as (_ & Z).
  destruct (nested l v 0 f R) as (fs & A & B & _); [rewrite F; reflexivity|]. exists fs. split; [|exact B].
  rewrite <- (of_all 0 (log v)); [exact A|]. intros [i e] X. destruct i as [|i]; [reflexivity|]. exfalso.
  assert (Y : ofFiber (S i) (log v) = []) by (apply Z; rewrite F; cbn; lia).
  unfold ofFiber in Y. apply map_eq_nil in Y.
  assert (W : In (S i, e) (filter (fun x => fst x =? S i) (log v))) by (apply filter_In; split; [exact X | apply Nat.eqb_refl]).
  rewrite Y in W. exact W.
Qed.
End Program.

(** ** Nesting can be checked *)
Definition check1 (s : option (list nat)) (e : event) : option (list nat) :=
  match s, e with
  | Some fs, ECall f => Some (f :: fs)
  | Some (g :: fs), ERet f => if g =? f then Some fs else None
  | _, _ => None
  end.
Lemma check_complete : forall es fs, opens es fs -> fold_left check1 es (Some []) = Some fs.
Proof.
  induction 1 as [|es fs f O IH|es fs f O IH]; [reflexivity| |]; rewrite fold_left_app, IH; cbn; [destruct fs; reflexivity|].
  rewrite Nat.eqb_refl. reflexivity.
Qed.

(** ** Making a function *)
Lemma put_end : forall b i d, put b (length b) i d = b ++ [(i, d)].
Proof. intros b i d. unfold put. rewrite firstn_all, skipn_all2 by lia. reflexivity. Qed.
Lemma put_mid : forall b x r i d, put (b ++ x :: r) (length b) i d = b ++ (i, d) :: r.
Proof.
  intros b x r i d. unfold put. rewrite firstn_app, firstn_all, Nat.sub_diag. cbn [firstn]. rewrite app_nil_r.
  rewrite skipn_app, skipn_all2 by lia. replace (S (length b) - length b) with 1 by lia. reflexivity.
Qed.
Lemma body_end : forall f body b, fold_left (fun b x => put b (length b) (fst x) (f, snd x)) body b = b ++ map (fun x : instr * nat => (fst x, (f, snd x))) body.
Proof.
  intros f. induction body as [|x body IH]; intros b; cbn [fold_left map]; [rewrite app_nil_r; reflexivity|].
  rewrite IH, put_end, <- app_assoc. reflexivity.
Qed.
Lemma make_fn : forall b f first last body,
  makeFn b f first last body = b ++ (IEnter, (f, last)) :: map (fun x => (fst x, (f, snd x))) body ++ [(ILeave, (f, last)); (IRet, (f, last))].
Proof.
  intros b f first last body. unfold makeFn. cbv zeta. rewrite (put_end b), body_end.
  replace ((b ++ [(IOther, (f, first))]) ++ map (fun x => (fst x, (f, snd x))) body)
    with (b ++ (IOther, (f, first)) :: map (fun x => (fst x, (f, snd x))) body) by (rewrite <- app_assoc; reflexivity).
  rewrite put_mid, !put_end. repeat rewrite <- app_assoc. cbn [app]. repeat rewrite <- app_assoc. reflexivity.
Qed.
