(** Reference counting: removing references. *)
From Coq Require Import ZArith Lia Bool List ZifyBool Permutation.
From Verif Require Import Base RefModel RefSpec RefProofs RefLoop.
Import ListNotations.
Local Open Scope Z_scope.

Section Dec.
Variable env : nat -> ty.
(** The references chunks and variables will hold when all is done; a chunk that is being changed. *)
Variable K : nat -> list nat.
Variable R : list nat.
Variable h : option nat.
Variable N : nat.

Definition act (m : mem) (cs : list cand) (x : nat) : bool := live m x && (cnt x (defers cs) =? 0).
Definition tot (a : nat -> bool) (F : nat -> Z) : Z := sum (fun x => if a x then F x else 0) (seq 0 N).
Lemma tot_eq : forall a a' F, (forall x, (x < N)%nat -> a x = a' x) -> tot a F = tot a' F.
Proof. intros a a' F H. apply sum_ext. intros x I. apply in_seq in I. rewrite H by lia. reflexivity. Qed.
Lemma tot_change : forall a a' i F, (i < N)%nat -> (forall x, x <> i -> a x = a' x) -> tot a F + (if a' i then F i else 0) = tot a' F + (if a i then F i else 0).
Proof. intros a a' i F L H. unfold tot. exact (sum_change (fun x => if a x then F x else 0) (fun x => if a' x then F x else 0) i N L (fun x n => f_equal (fun b : bool => if b then F x else 0) (H x n))). Qed.
Lemma tot_ge : forall a F i, (forall x, 0 <= F x) -> (i < N)%nat -> a i = true -> F i <= tot a F.
Proof.
  intros a F i P L A. unfold tot. pose proof (sum_ge (fun x => if a x then F x else 0) (seq 0 N) i) as G. cbv beta in G. rewrite A in G. apply G; [|apply in_seq; lia].
  intros x _. destruct (a x); [apply P|lia].
Qed.
Lemma tot_nonneg : forall a F, (forall x, 0 <= F x) -> 0 <= tot a F.
Proof. intros. apply sum_nonneg. intros x _. destruct (a x); [auto|lia]. Qed.

Inductive reachK : nat -> Prop :=
| RKR b : In b R -> (b < N)%nat -> reachK b
| RKK b c : reachK b -> In c (K b) -> (c < N)%nat -> reachK c.

Record inv (m : mem) (cs : list cand) : Prop := MkInv {
  i_len : length (heap m) = N;
  i_cnt : forall b, (b < N)%nat -> c_ref (chunkAt m b) = cnt b R + tot (act m cs) (fun x => cnt b (K x)) + cnt b (pend m cs) + cnt b (defers cs);
  i_def : forall b, In b (defers cs) -> (b < N)%nat /\ c_ref (chunkAt m b) = 1;
  i_K : forall b, live m b = true -> Some b <> h -> K b = objRefs env m b;
  i_ok : forall b, live m b = true -> slotsOk env m (AHeap b 0) (objSlots env m b);
  i_h : match h with Some x => reachK x /\ content env m x <> None | None => True end;
  i_cands : Forall (candOk env m) cs }.
Definition cw (m : mem) (x : nat) : Z :=
  match c_obj (chunkAt m x) with OVal t => Z.of_nat (wt t) | OItems it => Z.of_nat (wt (TArray (env it) (lenOf (read m (AHeap x 0))))) | _ => 0 end.
Definition mu (m : mem) (cs : list cand) : Z := Z.of_nat (weights cs) + tot (act m cs) (fun x => 2 + cw m x).
Lemma cw_nonneg : forall m x, 0 <= cw m x. Proof. intros. unfold cw. destruct (c_obj _); lia. Qed.
Lemma cw_same : forall m m' x, sameData m m' -> cw m' x = cw m x.
Proof. intros m m' x S. unfold cw. rewrite (read_same m m' S). destruct S as (_ & _ & A & _). rewrite A. reflexivity. Qed.
Lemma live_lt : forall m b, live m b = true -> (b < length (heap m))%nat.
Proof. intros m b L. destruct (Nat.ltb_spec b (length (heap m))); [assumption|]. unfold live, chunkAt in L. rewrite nth_overflow in L by assumption. discriminate L. Qed.
Lemma K_nonneg : forall b x, 0 <= cnt b (K x). Proof. intros. apply cnt_nonneg. Qed.

Lemma reach_act : forall m cs b, inv m cs -> reachK b -> act m cs b = true /\ 1 <= cnt b R + tot (act m cs) (fun x => cnt b (K x)).
Proof.
  intros m cs b I H. assert (forall b, (b < N)%nat -> 1 <= cnt b R + tot (act m cs) (fun x => cnt b (K x)) -> act m cs b = true) as A.
  { intros x L Q. pose proof (i_cnt _ _ I x L). pose proof (cnt_nonneg x (pend m cs)). pose proof (cnt_nonneg x (defers cs)). unfold act, live.
    destruct (Z.eqb_spec (cnt x (defers cs)) 0); [lia|]. destruct (i_def _ _ I x) as [_ E]; [apply cnt_In; lia|]. lia. }
  induction H as [b H L|b c H [IH1 IH2] J L].
  - assert (1 <= cnt b R + tot (act m cs) (fun x => cnt b (K x))) as Q. { apply cnt_In in H. pose proof (tot_nonneg (act m cs) (fun x => cnt b (K x)) (K_nonneg b)). lia. } split; [apply A; assumption|exact Q].
  - assert (1 <= cnt c R + tot (act m cs) (fun x => cnt c (K x))) as Q.
    { apply cnt_In in J. pose proof (cnt_nonneg c R). assert (b < N)%nat as Lb. { rewrite <- (i_len _ _ I). apply live_lt. unfold act in IH1. apply andb_true_iff in IH1. apply IH1. }
      pose proof (tot_ge (act m cs) (fun x => cnt c (K x)) b (K_nonneg c) Lb IH1). cbv beta in *. lia. }
    split; [apply A; assumption|exact Q].
Qed.
Lemma i_cntT : forall m p t r b, inv m (Cand p t :: r) -> (b < N)%nat ->
  c_ref (chunkAt m b) = cnt b R + tot (act m r) (fun x => cnt b (K x)) + cnt b (candRefs m (Cand p t)) + cnt b (pend m r) + cnt b (defers r).
Proof. intros m p t r b I L. rewrite (i_cnt _ _ I b L). cbn [pend flat_map]. rewrite cnt_app. fold (pend m r). change (defers (Cand p t :: r)) with (defers r). unfold act. cbn [defers flat_map app]. fold (defers r). lia. Qed.

(** ** Transitions *)
Lemma t_plain : forall m p t r new, inv m (Cand p t :: r) -> pend m new = candRefs m (Cand p t) -> defers new = [] -> Forall (candOk env m) new -> (weights new < wt t)%nat ->
  inv m (rev new ++ r) /\ mu m (rev new ++ r) < mu m (Cand p t :: r).
Proof.
  intros m p t r new I P D O W. assert (forall x, cnt x (defers (rev new ++ r)) = cnt x (defers r)) as DE by (intros; rewrite defers_app, cnt_app, cnt_defers_rev, D, cnt_nil; lia).
  assert (forall F, tot (act m (rev new ++ r)) F = tot (act m (Cand p t :: r)) F) as TE. { intros F. apply tot_eq. intros x _. unfold act. rewrite DE. reflexivity. }
  split.
  - constructor; try apply I.
    + intros b L. rewrite TE, DE, pend_app, cnt_app, cnt_pend_rev, P. rewrite (i_cnt _ _ I b L). cbn [pend flat_map]. rewrite cnt_app. fold (pend m r). change (defers (Cand p t :: r)) with (defers r). lia.
    + intros b J. apply (i_def _ _ I). apply cnt_In. apply cnt_In in J. rewrite DE in J. exact J.
    + pose proof (i_cands _ _ I) as C. inversion C; subst. apply (proj2 (Forall_app _ _ _)). split; [apply Forall_rev; exact O|assumption].
  - unfold mu. rewrite TE, weights_app, weights_rev, weights_cons. cbn [weight]. lia.
Qed.
Lemma live_set : forall m b n x, (b < length (heap m))%nat -> live (setRef m b n) x = if Nat.eqb b x then 0 <? n else live m x.
Proof. intros. unfold live. rewrite ref_setRef by assumption. destruct (Nat.eqb b x); reflexivity. Qed.
(** The last step of a transition that changes counts: what depends on data only. *)
Lemma inv_data : forall m m' cs cs', inv m cs -> sameData m m' -> (forall b, live m' b = true -> live m b = true) -> Forall (candOk env m) cs' ->
  (forall b, (b < N)%nat -> c_ref (chunkAt m' b) = cnt b R + tot (act m' cs') (fun x => cnt b (K x)) + cnt b (pend m cs') + cnt b (defers cs')) ->
  (forall b, In b (defers cs') -> (b < N)%nat /\ c_ref (chunkAt m' b) = 1) -> inv m' cs'.
Proof.
  intros m m' cs cs' I S L O C D. constructor.
  - destruct S as (_ & E & _). rewrite E. apply I.
  - intros b Lb. rewrite (pend_same m m' cs' S). apply C. exact Lb.
  - exact D.
  - intros b Lb Nb. rewrite (objRefs_same env m m' S). apply (i_K _ _ I); auto.
  - intros b Lb. eapply slotsOk_same; [exact S|]. rewrite (objSlots_same env m m' S). apply (i_ok _ _ I). auto.
  - pose proof (i_h _ _ I) as H. destruct h; [|exact Logic.I]. rewrite (content_same env m m' S). exact H.
  - eapply Forall_impl; [|exact O]. intros c. apply candOk_same. exact S.
Qed.
Lemma mu_same : forall m m' cs cs', sameData m m' -> (weights cs' < weights cs)%nat -> (forall x, act m' cs' x = true -> act m cs x = true) -> mu m' cs' < mu m cs.
Proof.
  intros m m' cs cs' S W A. unfold mu. assert (tot (act m' cs') (fun x => 2 + cw m' x) <= tot (act m cs) (fun x => 2 + cw m x)) as T; [|lia].
  unfold tot. generalize (seq 0 N) as l. induction l as [|x l IH]; cbn [sum]; [lia|]. rewrite (cw_same m m' x S). pose proof (cw_nonneg m x). specialize (A x).
  destruct (act m' cs' x); [rewrite A by reflexivity; lia|]. destruct (act m cs x); lia.
Qed.
Lemma t_drop : forall m p t r b, inv m (Cand p t :: r) -> candRefs m (Cand p t) = [b] -> (b < N)%nat ->
  1 < c_ref (chunkAt m b) \/ (objRefs env m b = [] /\ Some b <> h) ->
  0 < c_ref (chunkAt m b) /\ inv (setRef m b (c_ref (chunkAt m b) - 1)) r /\ mu (setRef m b (c_ref (chunkAt m b) - 1)) r < mu m (Cand p t :: r).
Proof.
  intros m p t r b I P L C. set (m' := setRef m b (c_ref (chunkAt m b) - 1)). assert (sameData m m') as S by apply setRef_same. pose proof (i_len _ _ I) as LN.
  pose proof (i_cntT _ _ _ _ b I L) as Cb. rewrite P, cnt_cons, Nat.eqb_refl, cnt_nil in Cb. pose proof (cnt_nonneg b R). pose proof (tot_nonneg (act m r) (fun x => cnt b (K x)) (K_nonneg b)).
  pose proof (cnt_nonneg b (pend m r)). pose proof (cnt_nonneg b (defers r)).
  assert (In b (defers r) -> False) as ND. { intros J. destruct (i_def _ _ I b J) as [_ E]. apply cnt_In in J. lia. }
  assert (forall x, live m' x = true -> live m x = true) as LV. { intros x. unfold m'. rewrite live_set by lia. unfold live. destruct (Nat.eqb_spec b x) as [<-|]; lia. }
  assert (forall x, tot (act m' r) (fun y => cnt x (K y)) = tot (act m r) (fun y => cnt x (K y))) as TE.
  { intros x. pose proof (tot_change (act m' r) (act m r) b (fun y => cnt x (K y)) L) as T. cbv beta in T.
    assert (forall y, y <> b -> act m' r y = act m r y) as A. { intros y Ny. unfold act, m'. rewrite live_set by lia. destruct (Nat.eqb_spec b y); [congruence|reflexivity]. }
    specialize (T A). destruct C as [C|[C1 C2]].
    - assert (act m' r b = act m r b) as E. { unfold act, m'. rewrite live_set, Nat.eqb_refl by lia. unfold live. destruct (Z.ltb_spec 0 (c_ref (chunkAt m b) - 1)); destruct (Z.ltb_spec 0 (c_ref (chunkAt m b))); try reflexivity; lia. }
      rewrite E in T. lia.
    - rewrite (i_K _ _ I b) in T; [|unfold live; lia|exact C2]. rewrite C1, cnt_nil in T. destruct (act m r b), (act m' r b); lia. }
  split; [lia|]. split.
  - apply (inv_data m m' (Cand p t :: r) r I S LV).
    + pose proof (i_cands _ _ I) as O. inversion O; assumption.
    + intros x Lx. rewrite TE. unfold m'. rewrite ref_setRef by lia. destruct (Nat.eqb_spec b x) as [<-|Nx]; [lia|]. rewrite (i_cntT _ _ _ _ x I Lx), P, cnt_cons, cnt_nil.
      destruct (Nat.eqb_spec b x); [congruence|]. lia.
    + intros x J. destruct (i_def _ _ I x J) as [Lx E]. split; [exact Lx|]. unfold m'. rewrite ref_setRef by lia. destruct (Nat.eqb_spec b x) as [<-|]; [destruct (ND J)|exact E].
  - apply mu_same; [exact S|rewrite weights_cons; cbn [weight]; destruct t; cbn [wt]; lia|]. intros x A. unfold act in *. apply andb_true_iff in A. rewrite LV by apply A. exact (proj2 A).
Qed.
Lemma t_defer : forall m p t r b new, inv m (Cand p t :: r) -> candRefs m (Cand p t) = [b] -> (b < N)%nat -> c_ref (chunkAt m b) <= 1 -> Some b <> h ->
  pend m new = objRefs env m b -> defers new = [] -> Forall (candOk env m) new -> Z.of_nat (weights new) <= cw m b ->
  inv m (rev (Defer b :: new) ++ r) /\ mu m (rev (Defer b :: new) ++ r) < mu m (Cand p t :: r).
Proof.
  intros m p t r b new I P L C Nh Pn Dn On Wn. pose proof (i_len _ _ I) as LN. set (cs' := rev (Defer b :: new) ++ r).
  pose proof (i_cntT _ _ _ _ b I L) as Cb. rewrite P, cnt_cons, Nat.eqb_refl, cnt_nil in Cb. pose proof (cnt_nonneg b R). pose proof (tot_nonneg (act m r) (fun x => cnt b (K x)) (K_nonneg b)).
  pose proof (cnt_nonneg b (pend m r)). pose proof (cnt_nonneg b (defers r)). assert (c_ref (chunkAt m b) = 1) as C1 by lia.
  assert (forall x, cnt x (defers cs') = (if Nat.eqb b x then 1 else 0) + cnt x (defers r)) as DE.
  { intros x. unfold cs'. rewrite defers_app, cnt_app, cnt_defers_rev. cbn [defers flat_map app]. rewrite cnt_cons. fold (defers new). rewrite Dn, cnt_nil. lia. }
  assert (forall x, cnt x (pend m cs') = cnt x (objRefs env m b) + cnt x (pend m r)) as PE.
  { intros x. unfold cs'. rewrite pend_app, cnt_app, cnt_pend_rev. cbn [pend flat_map candRefs app]. fold (pend m new). rewrite Pn. reflexivity. }
  assert (act m r b = true) as A1. { unfold act, live. rewrite C1. cbn [Z.ltb Z.compare andb]. lia. }
  assert (act m cs' b = false) as A2. { unfold act. rewrite DE, Nat.eqb_refl. destruct (live m b); cbn [andb]; lia. }
  assert (forall x, x <> b -> act m cs' x = act m r x) as A3. { intros x Nx. unfold act. rewrite DE. destruct (Nat.eqb_spec b x); [congruence|]. f_equal. }
  assert (forall F, tot (act m cs') F + F b = tot (act m r) F) as TE. { intros F. pose proof (tot_change (act m cs') (act m r) b F L A3) as T. rewrite A1, A2 in T. lia. }
  split.
  - apply (inv_data m m (Cand p t :: r) cs' I (same_refl m)); [auto| | |].
    + pose proof (i_cands _ _ I) as O. inversion O; subst. unfold cs'. apply (proj2 (Forall_app _ _ _)). split; [|assumption]. apply Forall_rev. constructor; [exact Logic.I|exact On].
    + intros x Lx. rewrite PE, DE. pose proof (TE (fun y => cnt x (K y))) as T. cbv beta in T. rewrite (i_K _ _ I b) in T; [|unfold live; lia|exact Nh]. rewrite (i_cntT _ _ _ _ x I Lx), P, cnt_cons, cnt_nil. lia.
    + intros x J. apply cnt_In in J. rewrite DE in J. destruct (Nat.eqb_spec b x) as [E|Nx]; [subst x; auto|]. apply (i_def _ _ I). apply cnt_In. change (defers (Cand p t :: r)) with (defers r). lia.
  - unfold mu. pose proof (TE (fun x => 2 + cw m x)) as T. cbv beta in T. assert (tot (act m (Cand p t :: r)) (fun x => 2 + cw m x) = tot (act m r) (fun x => 2 + cw m x)) as -> by reflexivity.
    unfold cs'. rewrite weights_app, weights_rev, !weights_cons. cbn [weight]. fold cs'. lia.
Qed.
Lemma t_pop : forall m r b, inv m (Defer b :: r) -> c_ref (chunkAt m b) = 1 /\ inv (setRef m b (c_ref (chunkAt m b) - 1)) r /\ mu (setRef m b (c_ref (chunkAt m b) - 1)) r < mu m (Defer b :: r).
Proof.
  intros m r b I. destruct (i_def _ _ I b) as [L C]; [left; reflexivity|]. pose proof (i_len _ _ I) as LN. set (m' := setRef m b (c_ref (chunkAt m b) - 1)). assert (sameData m m') as S by apply setRef_same.
  assert (forall x, cnt x (defers (Defer b :: r)) = (if Nat.eqb b x then 1 else 0) + cnt x (defers r)) as DE. { intros x. cbn [defers flat_map app]. rewrite cnt_cons. reflexivity. }
  pose proof (i_cnt _ _ I b L) as Cb. rewrite DE, Nat.eqb_refl in Cb. pose proof (cnt_nonneg b R). pose proof (tot_nonneg (act m (Defer b :: r)) (fun x => cnt b (K x)) (K_nonneg b)).
  pose proof (cnt_nonneg b (pend m (Defer b :: r))). pose proof (cnt_nonneg b (defers r)).
  assert (forall x, live m' x = true -> live m x = true) as LV. { intros x. unfold m'. rewrite live_set by lia. unfold live. destruct (Nat.eqb_spec b x) as [<-|]; lia. }
  assert (forall x, act m' r x = act m (Defer b :: r) x) as AE.
  { intros x. unfold act. rewrite DE. unfold m'. rewrite live_set by lia. destruct (Nat.eqb_spec b x) as [<-|Nx]; [|reflexivity]. rewrite C. cbn [Z.ltb Z.compare andb]. destruct (live m b); cbn [andb]; lia. }
  split; [exact C|]. split.
  - apply (inv_data m m' (Defer b :: r) r I S LV).
    + pose proof (i_cands _ _ I) as O. inversion O; assumption.
    + intros x Lx. rewrite (tot_eq (act m' r) (act m (Defer b :: r))) by (intros; apply AE). unfold m'. rewrite ref_setRef by lia. pose proof (i_cnt _ _ I x Lx) as Cx. rewrite DE in Cx. cbn [pend flat_map candRefs app] in Cx. fold (pend m r) in Cx.
      destruct (Nat.eqb_spec b x) as [<-|]; [lia|]. lia.
    + intros x J. destruct (i_def _ _ I x) as [Lx E]; [right; exact J|]. split; [exact Lx|]. unfold m'. rewrite ref_setRef by lia. destruct (Nat.eqb_spec b x) as [<-|]; [apply cnt_In in J; lia|exact E].
  - apply mu_same; [exact S|rewrite weights_cons; cbn [weight]; lia|]. intros x A. rewrite <- AE. exact A.
Qed.
Lemma t_fiber : forall m p t r b s, inv m (Cand p t :: r) -> candRefs m (Cand p t) = [b] -> (b < N)%nat -> c_ref (chunkAt m b) <= 1 -> objRefs env m b = [s] -> Some b <> h -> s <> b -> (s < N)%nat ->
  objRefs env m s = [] -> Some s <> h ->
  let m1 := setRef m s (c_ref (chunkAt m s) - 1) in let m' := setRef m1 b (c_ref (chunkAt m1 b) - 1) in
  0 < c_ref (chunkAt m s) /\ 0 < c_ref (chunkAt m1 b) /\ inv m' r /\ mu m' r < mu m (Cand p t :: r).
Proof.
  intros m p t r b s I P L C Ob Nh Ns Ls Os Nhs m1 m'. pose proof (i_len _ _ I) as LN.
  assert (sameData m m1) as S1 by apply setRef_same. assert (sameData m m') as S by (eapply same_trans; [exact S1|apply setRef_same]). assert (length (heap m1) = N) as LN1 by (unfold m1; rewrite len_setRef; exact LN).
  pose proof (i_cntT _ _ _ _ b I L) as Cb. rewrite P, cnt_cons, Nat.eqb_refl, cnt_nil in Cb. pose proof (cnt_nonneg b R). pose proof (tot_nonneg (act m r) (fun x => cnt b (K x)) (K_nonneg b)).
  pose proof (cnt_nonneg b (pend m r)). pose proof (cnt_nonneg b (defers r)). assert (c_ref (chunkAt m b) = 1) as C1 by lia. assert (live m b = true) as Lb by (unfold live; lia).
  assert (K b = [s]) as Kb by (rewrite (i_K _ _ I b Lb Nh); exact Ob).
  assert (act m r b = true) as A1. { unfold act. rewrite Lb. cbn [andb]. lia. }
  pose proof (tot_ge (act m r) (fun x => cnt s (K x)) b (K_nonneg s) L A1) as G. cbv beta in G. rewrite Kb, cnt_cons, Nat.eqb_refl, cnt_nil in G.
  pose proof (i_cntT _ _ _ _ s I Ls) as Cs. rewrite P, cnt_cons, cnt_nil in Cs. destruct (Nat.eqb_spec b s) as [E|_]; [congruence|]. pose proof (cnt_nonneg s R). pose proof (cnt_nonneg s (pend m r)). pose proof (cnt_nonneg s (defers r)).
  assert (cnt s (defers r) = 0) as Ds. { destruct (Z.eq_dec (cnt s (defers r)) 0); [assumption|]. destruct (i_def _ _ I s) as [_ E]; [apply cnt_In; change (defers (Cand p t :: r)) with (defers r); lia|]. lia. }
  assert (live m s = true) as Lvs by (unfold live; lia). assert (K s = []) as Ks by (rewrite (i_K _ _ I s Lvs Nhs); exact Os).
  assert (forall x, c_ref (chunkAt m' x) = if Nat.eqb b x then 0 else if Nat.eqb s x then c_ref (chunkAt m s) - 1 else c_ref (chunkAt m x)) as CE.
  { intros x. unfold m'. rewrite ref_setRef by lia. unfold m1. rewrite !ref_setRef by lia. destruct (Nat.eqb_spec s b); [congruence|]. rewrite C1. reflexivity. }
  assert (forall x, live m' x = true -> live m x = true) as LV. { intros x. unfold live. rewrite CE. destruct (Nat.eqb_spec b x) as [<-|]; [lia|]. destruct (Nat.eqb_spec s x) as [<-|]; lia. }
  assert (forall x, tot (act m' r) (fun y => cnt x (K y)) + cnt x [s] = tot (act m r) (fun y => cnt x (K y))) as TE.
  { intros x. set (a1 := fun y => act m1 r y).
    assert (forall y, y <> s -> a1 y = act m r y) as Q1. { intros y Ny. unfold a1, act, live, m1. rewrite ref_setRef by lia. destruct (Nat.eqb_spec s y); [congruence|reflexivity]. }
    assert (forall y, y <> b -> act m' r y = a1 y) as Q2. { intros y Ny. unfold a1, act, live, m'. rewrite ref_setRef by lia. destruct (Nat.eqb_spec b y); [congruence|reflexivity]. }
    pose proof (tot_change a1 (act m r) s (fun y => cnt x (K y)) Ls Q1) as T1. pose proof (tot_change (act m' r) a1 b (fun y => cnt x (K y)) L Q2) as T2. cbv beta in T1, T2. rewrite Ks, cnt_nil in T1. rewrite Kb in T2.
    assert (a1 b = true) as E1 by (rewrite Q1 by congruence; exact A1). assert (act m' r b = false) as E2. { unfold act, live. rewrite CE, Nat.eqb_refl. reflexivity. }
    rewrite E1, E2 in T2. destruct (a1 s), (act m r s); lia. }
  split; [lia|]. split. { unfold m1. rewrite ref_setRef by lia. destruct (Nat.eqb_spec s b); [congruence|lia]. } split.
  - apply (inv_data m m' (Cand p t :: r) r I S LV).
    + pose proof (i_cands _ _ I) as O. inversion O; assumption.
    + intros x Lx. specialize (TE x). rewrite cnt_cons, cnt_nil in TE. rewrite CE. pose proof (i_cntT _ _ _ _ x I Lx) as Cx. rewrite P, cnt_cons, cnt_nil in Cx. destruct (Nat.eqb_spec b x) as [<-|]; [destruct (Nat.eqb_spec s b); [congruence|lia]|].
      destruct (Nat.eqb_spec s x) as [E|]; [subst x|]; lia.
    + intros x J. destruct (i_def _ _ I x J) as [Lx E]. split; [exact Lx|]. rewrite CE. apply cnt_In in J. change (defers (Cand p t :: r)) with (defers r) in J. destruct (Nat.eqb_spec b x) as [<-|]; [lia|]. destruct (Nat.eqb_spec s x) as [<-|]; lia.
  - apply mu_same; [exact S|rewrite weights_cons; cbn [weight]; destruct t; cbn [wt]; lia|]. intros x A. unfold act in *. apply andb_true_iff in A. rewrite LV by apply A. exact (proj2 A).
Qed.

(** ** One step, and the loop *)
Definition Good (m : mem) (c : cand) (r : list cand) (x : outcome (mem * list cand)) : Prop :=
  (exists m' new, x = Ok (m', new) /\ sameData m m' /\ (forall b, live m' b = true -> live m b = true) /\ inv m' (rev new ++ r) /\ mu m' (rev new ++ r) < mu m (c :: r)) \/
  (x = Err EOther /\ busy m).
Lemma live_dec : forall m b x, (b < length (heap m))%nat -> live (setRef m b (c_ref (chunkAt m b) - 1)) x = true -> live m x = true.
Proof. intros m b x L. rewrite live_set by exact L. unfold live. destruct (Nat.eqb_spec b x) as [<-|]; lia. Qed.
Lemma good_plain : forall m p t r new, inv m (Cand p t :: r) -> pend m new = candRefs m (Cand p t) -> defers new = [] -> Forall (candOk env m) new -> (weights new < wt t)%nat -> Good m (Cand p t) r (Ok (m, new)).
Proof. intros m p t r new I P D O W. left. exists m, new. destruct (t_plain m p t r new I P D O W) as [A B]. split; [reflexivity|]. split; [apply same_refl|]. auto. Qed.
Lemma good_drop : forall m p t r b, inv m (Cand p t :: r) -> candRefs m (Cand p t) = [b] -> (b < N)%nat -> 1 < c_ref (chunkAt m b) \/ (objRefs env m b = [] /\ Some b <> h) ->
  Good m (Cand p t) r (let* m1 := chunkRefCnt m b (-1) in Ok (m1, [])).
Proof.
  intros m p t r b I P L C. destruct (t_drop m p t r b I P L C) as (A & B & D). left. exists (setRef m b (c_ref (chunkAt m b) - 1)), []. unfold chunkRefCnt. destruct (Z.leb_spec (c_ref (chunkAt m b)) 0); [lia|].
  split; [reflexivity|]. split; [apply setRef_same|]. split; [|split; assumption]. intros x. apply live_dec. rewrite (i_len _ _ I). exact L.
Qed.
Lemma good_defer : forall m p t r b new, inv m (Cand p t :: r) -> candRefs m (Cand p t) = [b] -> (b < N)%nat -> c_ref (chunkAt m b) <= 1 -> content env m b <> None ->
  (Some b <> h -> pend m new = objRefs env m b /\ defers new = [] /\ Forall (candOk env m) new /\ Z.of_nat (weights new) <= cw m b) -> Good m (Cand p t) r (Ok (m, Defer b :: new)).
Proof.
  intros m p t r b new I P L C Ct Hn. assert (Some b <> h) as Nh.
  { intros E. pose proof (i_h _ _ I) as Hh. rewrite <- E in Hh. destruct Hh as [Rb _]. destruct (reach_act m _ b I Rb) as [_ Q]. pose proof (i_cnt _ _ I b L) as Cb. cbn [pend flat_map] in Cb. rewrite P in Cb. cbn [app] in Cb.
    rewrite cnt_cons, Nat.eqb_refl in Cb. fold (pend m r) in Cb. pose proof (cnt_nonneg b (pend m r)). pose proof (cnt_nonneg b (defers (Cand p t :: r))). lia. }
  destruct (Hn Nh) as (A & B & D & W). destruct (t_defer m p t r b new I P L C Nh A B D W) as [X Y]. left. exists m, (Defer b :: new). split; [reflexivity|]. split; [apply same_refl|]. auto.
Qed.
Lemma objRefs_val : forall m b t, c_obj (chunkAt m b) = OVal t -> objRefs env m b = refsAt m (AHeap b 0) (slots t) /\ objSlots env m b = slots t /\ cw m b = Z.of_nat (wt t).
Proof. intros m b t E. unfold objRefs, objSlots, cw. rewrite E. auto. Qed.
Lemma objRefs_items : forall m b it, c_obj (chunkAt m b) = OItems it -> let T := TArray (env it) (lenOf (read m (AHeap b 0))) in
  objRefs env m b = refsAt m (AHeap b 16) (slots T) /\ (slotsOk env m (AHeap b 0) (objSlots env m b) -> slotsOk env m (AHeap b 16) (slots T)) /\ cw m b = Z.of_nat (wt T).
Proof. intros m b it E T. unfold objRefs, objSlots, cw. rewrite E. rewrite refs_shift. split; [reflexivity|]. split; [|reflexivity]. intros H. apply slotsOk_shift in H. exact H. Qed.
(** What is pushed for the contents of a chunk to be released. *)
Lemma contents : forall m b o base, live m b = true -> slotsOk env m (AHeap b 0) (objSlots env m b) -> ptrOk env m base (WPtr (AHeap b o)) ->
  let new := match chunkType (c_obj (chunkAt m b)) with
             | Some (TArray u n) => [Cand (WPtr (AHeap b 0)) (TArray u n)]
             | Some (TMap nd) => [Cand (WPtr (AHeap b 0)) (TMap nd)]
             | Some (TStruct fs s) => [Cand (WPtr (AHeap b 0)) (TStruct fs s)]
             | Some (TIface s) => [Cand (WPtr (AHeap b 0)) (TIface s)]
             | Some (TDyn it) => addItems m (AHeap b 16) (env it) (lenOf (read m (AHeap b 0)))
             | _ => addPtrBase env m (WPtr (AHeap b o)) base
             end in
  pend m new = objRefs env m b /\ defers new = [] /\ Forall (candOk env m) new /\ Z.of_nat (weights new) <= cw m b.
Proof.
  intros m b o base L O P. cbn [ptrOk] in P. destruct P as [_ P]. destruct (c_obj (chunkAt m b)) as [t|it| | |] eqn:E; [| |destruct P|destruct P|destruct P].
  - destruct (objRefs_val m b t E) as (Er & Es & Ew). rewrite Es in O. rewrite Er, Ew.
    assert (composite t = true -> pend m [Cand (WPtr (AHeap b 0)) t] = refsAt m (AHeap b 0) (slots t) /\ defers [Cand (WPtr (AHeap b 0)) t] = [] /\ Forall (candOk env m) [Cand (WPtr (AHeap b 0)) t] /\ Z.of_nat (weights [Cand (WPtr (AHeap b 0)) t]) <= Z.of_nat (wt t)) as Comp.
    { intros C. split; [|split; [reflexivity|split]].
      - cbn [pend flat_map]. rewrite app_nil_r. destruct t; try discriminate C; reflexivity.
      - constructor; [|constructor]. destruct t; try discriminate C; (exists (AHeap b 0); split; [reflexivity|exact O]).
      - unfold weights. cbn. lia. }
    assert (composite t = false -> let l := addPtrBase env m (WPtr (AHeap b o)) base in pend m l = refsAt m (AHeap b 0) (slots t) /\ defers l = [] /\ Forall (candOk env m) l /\ Z.of_nat (weights l) <= Z.of_nat (wt t)) as Scal.
    { intros C. destruct P as [P|[[-> P]|[P1 P2]]]; [congruence| |].
      - cbv zeta. unfold addPtrBase. rewrite P. destruct (hasPtr t) eqn:H.
        + split; [|split; [reflexivity|split]].
          * cbn [pend flat_map]. rewrite app_nil_r. apply candRefs_deref. exact H.
          * constructor; [|constructor]. apply candOk_deref. exact O.
          * unfold weights. cbn [map weight list_sum fold_right]. lia.
        + rewrite (noPtr_slots _ H). repeat split; try constructor. unfold weights. cbn. lia.
      - cbv zeta. unfold addPtrBase. rewrite P2, (noPtr_slots _ P1). repeat split; try constructor. unfold weights. cbn. lia. }
    destruct t; cbn [chunkType]; try (apply Scal; reflexivity); apply Comp; reflexivity.
  - cbn [chunkType]. destruct (objRefs_items m b it E) as (Er & Es & Ew). rewrite Er, Ew. split; [apply items_refs|]. split; [apply items_defers|]. split; [apply items_ok; apply Es; exact O|]. pose proof (items_weight m (AHeap b 16) (env it) (lenOf (read m (AHeap b 0)))). lia.
Qed.
Lemma dec_step : forall m c r, inv m (c :: r) -> Good m c r (step env false m c).
Proof.
  intros m c r I. pose proof (i_len _ _ I) as LN. pose proof (i_cands _ _ I) as O. inversion O as [|x l Oc Or]; subst x l. destruct c as [p t|b].
  2:{ destruct (t_pop m r b I) as (A & B & D). left. exists (setRef m b (c_ref (chunkAt m b) - 1)), []. cbn [step]. unfold chunkRefCnt. destruct (Z.leb_spec (c_ref (chunkAt m b)) 0); [lia|].
      split; [reflexivity|]. split; [apply setRef_same|]. split; [|split; assumption]. intros x. apply live_dec. rewrite LN. destruct (i_def _ _ I b) as [L _]; [left; reflexivity|exact L]. }
  assert (forall b, candRefs m (Cand p t) = [b] -> (b < N)%nat -> 0 < c_ref (chunkAt m b)) as Pos.
  { intros b P L. pose proof (i_cntT _ _ _ _ b I L) as Cb. rewrite P, cnt_cons, Nat.eqb_refl, cnt_nil in Cb. pose proof (cnt_nonneg b R). pose proof (tot_nonneg (act m r) (fun x => cnt b (K x)) (K_nonneg b)).
    pose proof (cnt_nonneg b (pend m r)). pose proof (cnt_nonneg b (defers r)). lia. }
  destruct t; cbn [candOk] in Oc; try destruct Oc as (a & -> & Oc).
  - replace (step env false m (Cand p (TPlain size))) with (Ok (m, @nil cand)) by (destruct p; reflexivity). apply good_plain; [exact I|destruct p; reflexivity|reflexivity|constructor|cbn; lia].
  - cbn [step]. destruct p as [z|[z|b o]|tt]; try (apply good_plain; [exact I|reflexivity|reflexivity|constructor|cbn; lia]). pose proof Oc as (Lb & Ob). rewrite LN in Lb. pose proof (Pos b eq_refl Lb) as Pb. unfold pageFind.
    destruct (Z.leb_spec (c_ref (chunkAt m b)) 0); [lia|]. cbn [bind]. destruct (Z.ltb_spec 1 (c_ref (chunkAt m b))); [apply good_drop; auto; reflexivity|].
    assert (live m b = true) as Lv by (unfold live; lia).
    apply good_defer; auto; try reflexivity.
    { unfold content. destruct (c_obj (chunkAt m b)); try discriminate; destruct Ob. }
    intros _. apply contents; auto. apply (i_ok _ _ I). exact Lv.
  - cbn [step]. unfold strOk in Oc. destruct p as [z|[z|b o]|tt]; try (apply good_plain; [exact I|reflexivity|reflexivity|constructor|cbn; lia]). destruct Oc as (Lb & Ob). rewrite LN in Lb. pose proof (Pos b eq_refl Lb) as Pb. unfold pageFind.
    destruct (Z.leb_spec (c_ref (chunkAt m b)) 0); [lia|]. cbn [bind]. apply good_drop; auto. right. split; [unfold objRefs, objSlots; rewrite Ob; reflexivity|]. intros E. pose proof (i_h _ _ I) as Hh. rewrite <- E in Hh. apply (proj2 Hh). unfold content. rewrite Ob. reflexivity.
  - cbn [step]. unfold strOk in Oc. destruct p as [z|[z|b o]|tt]; try (apply good_plain; [exact I|reflexivity|reflexivity|constructor|cbn; lia]). destruct Oc as (Lb & Ob). rewrite LN in Lb. pose proof (Pos b eq_refl Lb) as Pb. unfold pageFind.
    destruct (Z.leb_spec (c_ref (chunkAt m b)) 0); [lia|]. cbn [bind]. destruct (Z.ltb_spec 1 (c_ref (chunkAt m b))); [apply good_drop; auto; reflexivity|].
    assert (live m b = true) as Lv by (unfold live; lia). pose proof (i_ok _ _ I b Lv) as Os. unfold objSlots in Os. rewrite Ob in Os. inversion Os as [|x l A B]; subst. unfold slotOk in A. cbn [fst snd plus] in A. replace (0 + FIBER_STACK) with FIBER_STACK in A by reflexivity.
    destruct A as (s & q & Es & Ls & Osk).
    assert ((exists z, read m (AHeap b FIBER_ALIVE) = WInt z /\ z = 0) \/ read m (AHeap b FIBER_ALIVE) <> WInt 0) as [(z & Ez & ->)|Bz]. { destruct (read m (AHeap b FIBER_ALIVE)) as [[| |]| |]; try (right; discriminate). left. exists 0. auto. }
    2:{ right. split; [destruct (read m (AHeap b FIBER_ALIVE)) as [[| |]| |]; try reflexivity; congruence|]. exists b. auto. }
    rewrite Ez, Es. assert (objRefs env m b = [s]) as Rb. { unfold objRefs, objSlots. rewrite Ob. rewrite refs1. cbn [plus]. replace (0 + FIBER_STACK) with FIBER_STACK by reflexivity. rewrite Es. reflexivity. }
    assert (objRefs env m s = []) as Rs by (unfold objRefs, objSlots; rewrite Osk; reflexivity).
    assert (Some b <> h) as Nb. { intros E. pose proof (i_h _ _ I) as Hh. rewrite <- E in Hh. apply (proj2 Hh). unfold content. rewrite Ob. reflexivity. }
    assert (Some s <> h) as Nss. { intros E. pose proof (i_h _ _ I) as Hh. rewrite <- E in Hh. apply (proj2 Hh). unfold content. rewrite Osk. reflexivity. }
    assert (s <> b) as Nsb. { intros ->. congruence. }
    rewrite LN in Ls. destruct (t_fiber m (WPtr (AHeap b o)) TFiber r b s I eq_refl Lb ltac:(lia) Rb Nb Nsb Ls Rs Nss) as (P1 & P2 & P3 & P4).
    set (m1 := setRef m s (c_ref (chunkAt m s) - 1)) in *. assert ((c_ref (chunkAt m s) <=? 0) = false) as Q1 by lia. assert ((c_ref (chunkAt m1 b) <=? 0) = false) as Q2 by lia.
    assert ((let* m2 := chunkRefCnt m s (-1) in chunkRefCnt m2 b (-1)) = Ok (setRef m1 b (c_ref (chunkAt m1 b) - 1))) as QE.
    { unfold chunkRefCnt at 1. rewrite Q1. cbn [bind]. replace (c_ref (chunkAt m s) + -1) with (c_ref (chunkAt m s) - 1) by lia. fold m1. unfold chunkRefCnt. rewrite Q2. f_equal. }
    left. rewrite Q1. cbn [bind]. rewrite QE. cbn [bind].
    eexists _, []. split; [reflexivity|]. split; [eapply same_trans; [apply setRef_same|apply setRef_same]|]. split; [|split; assumption].
    intros x Lx. apply live_dec in Lx; [|unfold m1; rewrite len_setRef; lia]. apply live_dec in Lx; [exact Lx|lia].
  - cbn [step]. apply good_plain; [exact I|apply items_refs|apply items_defers|apply items_ok; exact Oc|apply items_weight].
  - cbn [slots] in Oc. inversion Oc as [|x l A B]; subst x l. unfold slotOk in A. cbn [fst snd] in A. cbn [step]. assert (candRefs m (Cand (WPtr a) (TDyn item)) = tgt (read m (plus a 16))) as CR by (cbn [candRefs isPtrKind slots]; apply refs1).
    unfold pageFind. destruct (read m (plus a 16)) as [z|[z|b o]|tt]; try (apply good_plain; [exact I|rewrite CR; reflexivity|reflexivity|constructor|cbn; lia]). cbn [tgt] in CR. destruct A as (Lb & Ob & ->). rewrite LN in Lb. pose proof (Pos b CR Lb) as Pb.
    destruct (Z.leb_spec (c_ref (chunkAt m b)) 0); [lia|]. cbn [bind]. destruct (Z.ltb_spec 1 (c_ref (chunkAt m b))); [apply good_drop; auto|].
    assert (live m b = true) as Lv by (unfold live; lia). apply good_defer; auto; [unfold content; rewrite Ob; discriminate|]. intros _. destruct (objRefs_items m b item Ob) as (Er & Es & Ew). rewrite Er, Ew. replace (16 - 16) with 0 by lia.
    split; [apply items_refs|]. split; [apply items_defers|]. split; [apply items_ok; apply Es; apply (i_ok _ _ I); exact Lv|]. pose proof (items_weight m (AHeap b 16) (env item) (lenOf (read m (AHeap b 0)))). lia.
  - cbn [step]. apply good_plain; [exact I| |reflexivity| |cbn; lia].
    + cbn [pend flat_map candRefs isPtrKind slots]. rewrite refs1, app_nil_r. reflexivity.
    + constructor; [|constructor]. cbn [slots] in Oc. inversion Oc as [|x l A B]; subst. exact A.
  - cbn [step]. apply good_plain; [exact I|apply fields_refs|apply fields_defers|eapply fields_ok; exact Oc|apply fields_weight].
  - cbn [slots] in Oc. inversion Oc as [|x l A B]; subst x l. unfold slotOk in A. cbn [fst snd] in A. replace (0 + 8) with 8 in A by lia.
    assert (candRefs m (Cand (WPtr a) (TIface size)) = tgt (read m (plus a 0))) as CR by (cbn [candRefs isPtrKind slots]; apply refs1).
    assert (step env false m (Cand (WPtr a) (TIface size)) = Ok (m, []) /\ read m (plus a 0) = WInt 0 \/ exists base, ptrOk env m base (read m (plus a 0)) /\ step env false m (Cand (WPtr a) (TIface size)) = Ok (m, [Cand (read m (plus a 0)) (TPtr base)])) as [[E Z0]|(base & A2 & E)].
    { cbn [step]. destruct A as [A|(base & A1 & A2)]; [rewrite A; auto|]. rewrite A1. destruct (read m (plus a 0)) as [[|z|z]|q|tt]; auto; right; exists base; auto. }
    + rewrite E. apply good_plain; [exact I|rewrite CR, Z0; reflexivity|reflexivity|constructor|cbn; lia].
    + rewrite E. apply good_plain; [exact I| |reflexivity|constructor; [exact A2|constructor]|cbn; lia]. rewrite CR. cbn [pend flat_map candRefs isPtrKind]. apply app_nil_r.
Qed.
Lemma busy_same : forall m m', sameData m m' -> (forall b, live m' b = true -> live m b = true) -> busy m' -> busy m.
Proof. intros m m' S L (b & A & B & C). exists b. rewrite (read_same m m' S) in C. destruct S as (_ & _ & E & _). rewrite E in B. auto. Qed.
Lemma dec_loop : forall n m cs, inv m cs -> mu m cs <= Z.of_nat n ->
  (exists m', loop env n false m cs = Ok m' /\ sameData m m' /\ (forall b, live m' b = true -> live m b = true) /\ inv m' []) \/ (loop env n false m cs = Err EOther /\ busy m).
Proof.
  assert (forall m cs, 0 <= tot (act m cs) (fun x => 2 + cw m x)) as Tp. { intros. apply tot_nonneg. intros x. pose proof (cw_nonneg m x). lia. }
  induction n as [|n IH]; intros m cs I W.
  - destruct cs as [|c r]. { left. exists m. split; [reflexivity|]. split; [apply same_refl|auto]. }
    unfold mu in W. rewrite weights_cons in W. pose proof (weight_pos c). specialize (Tp m (c :: r)). lia.
  - destruct cs as [|c r]. { left. exists m. split; [reflexivity|]. split; [apply same_refl|auto]. }
    cbn [loop]. destruct (dec_step m c r I) as [(m1 & new & E & S & Lv & I1 & M1)|[E B]]; rewrite E; cbn [bind]; [|right; auto].
    destruct (IH m1 (rev new ++ r) I1 ltac:(lia)) as [(m2 & E2 & S2 & L2 & I2)|[E2 B2]].
    + left. exists m2. split; [exact E2|]. split; [eapply same_trans; eassumption|]. auto.
    + right. split; [exact E2|]. eapply busy_same; eassumption.
Qed.
End Dec.
