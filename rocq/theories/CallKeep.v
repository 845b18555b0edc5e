(** What an instruction leaves unchanged in the stacks of frames. *)
From Coq Require Import ZArith Lia Bool List ZifyBool.
From Verif Require Import Base CallModel CallSpec CallProofs CallSim.
Import ListNotations.
Local Open Scope Z_scope.

Lemma same_refl : forall s, same s s.
Proof. induction s; cbn; auto 10. Qed.
Lemma same_trans : forall s t u, same s t -> same t u -> same s u.
Proof.
  induction s as [o g|o loc l n r ps s IH]; intros [o2 g2|o2 loc2 l2 n2 r2 ps2 t] [o3 g3|o3 loc3 l3 n3 r3 ps3 u]; cbn; try contradiction.
  - intros (-> & ->) (-> & ->). auto.
  - intros (-> & A & -> & -> & B & C) (-> & D & -> & -> & E & F). split; [reflexivity|]. split; [congruence|]. split; [reflexivity|]. split; [reflexivity|].
    split; [congruence|]. eapply IH; eassumption.
Qed.
Lemma same_sym : forall s t, same s t -> same t s.
Proof.
  induction s as [o g|o loc l n r ps s IH]; intros [o2 g2|o2 loc2 l2 n2 r2 ps2 t]; cbn; try contradiction.
  - intros (-> & ->). auto.
  - intros (-> & A & -> & -> & B & C). auto 10.
Qed.
Lemma same_set : forall s t o, same s t -> same (set_ops s o) (set_ops t o).
Proof. intros [o1 g|o1 loc l n r ps s] [o2 g2|o2 loc2 l2 n2 r2 ps2 t] o; cbn; try contradiction; intuition. Qed.
Lemma same_ops : forall s t, same s t -> sops_of s = sops_of t.
Proof. intros [o1 g|o1 loc l n r ps s] [o2 g2|o2 loc2 l2 n2 r2 ps2 t]; cbn; try contradiction; intuition. Qed.
Lemma set_self : forall s, set_ops s (sops_of s) = s.
Proof. intros []; reflexivity. Qed.
Lemma same_slen : forall s t, same s t -> slen s = slen t.
Proof.
  induction s as [o g|o loc l n r ps s IH]; intros [o2 g2|o2 loc2 l2 n2 r2 ps2 t]; cbn [same slen]; try contradiction.
  - intros (-> & ->). auto.
  - intros (-> & A & -> & -> & B & C). rewrite (IH _ C). unfold len. rewrite A, B. reflexivity.
Qed.
Lemma same_kept : forall s t, same s t -> kept s t.
Proof. intros s t H. unfold kept. rewrite <- (same_ops _ _ H), set_self. exact H. Qed.
Lemma kept_refl : forall s, kept s s.
Proof. intros. apply same_kept, same_refl. Qed.
Lemma kept_set : forall s o, kept s (set_ops s o).
Proof. intros. unfold kept. rewrite sops_set. apply same_refl. Qed.
Lemma kept_trans : forall s t u, kept s t -> kept t u -> kept s u.
Proof.
  unfold kept. intros s t u A B. apply (same_set _ _ (sops_of u)) in A. rewrite set_set in A. eapply same_trans; eassumption.
Qed.
Lemma kept_sym : forall s t, kept s t -> kept t s.
Proof. unfold kept. intros s t A. apply same_sym in A. apply (same_set _ _ (sops_of s)) in A. rewrite set_set, set_self in A. exact A. Qed.
Lemma same_depth : forall s t, same s t -> depth s = depth t.
Proof.
  induction s as [o g|o loc l n r ps s IH]; intros [o2 g2|o2 loc2 l2 n2 r2 ps2 t]; cbn [same depth]; try contradiction; auto.
  intros (_ & _ & _ & _ & _ & C). f_equal. apply IH. exact C.
Qed.
Lemma depth_set : forall s o, depth (set_ops s o) = depth s.
Proof. intros []; reflexivity. Qed.
Lemma kept_depth : forall s t, kept s t -> depth s = depth t.
Proof. intros s t H. apply same_depth in H. rewrite depth_set in H. exact H. Qed.
Lemma writeS_same : forall size s i w s', writeS size s i w = Ok s' -> same s s'.
Proof.
  intros size s. induction s as [o g|o loc l n r ps u IH]; intros i w s' H; cbn [writeS] in H; [discriminate|].
  destruct (_ <=? _).
  - destruct (writeS size u i w) eqn:Q; cbn [bind] in H; try discriminate. injection H as <-. cbn. pose proof (IH _ _ _ Q). auto 10.
  - destruct (_ <=? _); [injection H as <-; cbn; rewrite length_upd; pose proof (same_refl u); auto 10|].
    destruct (_ && _); [|discriminate]. injection H as <-. cbn. rewrite length_upd. pose proof (same_refl u). auto 10.
Qed.
Lemma refS_same : forall size s i d s', refS size s i d = Ok s' -> same s s'.
Proof.
  intros size s. induction s as [o g|o loc l n r ps u IH]; intros i d s' H; cbn [refS] in H; [discriminate|].
  destruct (_ <? _); [injection H as <-; cbn; pose proof (same_refl u); auto 10|]. destruct (_ || _); [discriminate|].
  destruct (refS size u i d) eqn:Q; cbn [bind] in H; try discriminate. injection H as <-. cbn. pose proof (IH _ _ _ Q). auto 10.
Qed.

Lemma refsAt_set : forall d s o, refsAt d (set_ops s o) = refsAt d s.
Proof. intros d [] o; reflexivity. Qed.
Lemma writeS_refs : forall size s i w s' d, writeS size s i w = Ok s' -> refsAt d s' = refsAt d s.
Proof.
  intros size s. induction s as [o g|o loc l n r ps u IH]; intros i w s' d H; cbn [writeS] in H; [discriminate|].
  destruct (_ <=? _).
  - destruct (writeS size u i w) eqn:Q; cbn [bind] in H; try discriminate. injection H as <-. cbn [refsAt]. rewrite (IH _ _ _ _ Q), (same_depth _ _ (writeS_same _ _ _ _ _ Q)). reflexivity.
  - destruct (_ <=? _); [injection H as <-; reflexivity|]. destruct (_ && _); [|discriminate]. injection H as <-. reflexivity.
Qed.

(** ** All fibers *)
Section Refs.
Variable rr : bool.   (* reference counts of frames may change *)
Definition Kf (t : bool) (x y : fiber astk) : Prop :=
  a_size (f_stk _ x) = a_size (f_stk _ y) /\ kept (a_stk (f_stk _ x)) (a_stk (f_stk _ y)) /\ f_parent _ x = f_parent _ y /\
  (f_alive _ y = true -> f_alive _ x = true) /\ (rr = false -> forall d, refsAt d (a_stk (f_stk _ x)) = refsAt d (a_stk (f_stk _ y))) /\
  (t = false -> same (a_stk (f_stk _ x)) (a_stk (f_stk _ y)) /\ f_ip _ x = f_ip _ y /\ f_regs _ x = f_regs _ y /\ f_alive _ x = f_alive _ y).
Definition Ko (t : bool) (x y : option (fiber astk)) : Prop :=
  match x, y with Some a, Some b => Kf t a b | Some a, None => t = false -> f_alive _ a = false | None, None => True | None, Some _ => False end.
Definition pres (T : nat -> bool) (v w : avm) : Prop :=
  forall g x, nth_error (fibs _ v) g = Some x -> exists y, nth_error (fibs _ w) g = Some y /\ Ko (T g) x y.
Definition Q (T : nat -> bool) (v w : avm) : Prop := pres T v w /\ loopf _ w = loopf _ v /\ vmf _ w = vmf _ v /\ hosts _ w = hosts _ v.
Lemma Kf_refl : forall t x, Kf t x x.
Proof. intros. unfold Kf. pose proof (same_refl (a_stk (f_stk _ x))). auto 10 using kept_refl. Qed.
Lemma Kf_trans : forall t x y z, Kf t x y -> Kf t y z -> Kf t x z.
Proof.
  intros t x y z (A & B & C & D & G & E) (A2 & B2 & C2 & D2 & G2 & E2). split; [congruence|]. split; [eapply kept_trans; eassumption|]. split; [congruence|]. split; [auto|].
  split; [intros R d; rewrite G, G2 by exact R; reflexivity|].
  intros F. specialize (E F) as (E & E3 & E4 & E5). specialize (E2 F) as (F2 & F3 & F4 & F5). split; [eapply same_trans; eassumption|]. split; [congruence|]. split; congruence.
Qed.
Lemma pres_refl : forall T v, pres T v v.
Proof. intros T v g x N. exists x. split; [exact N|]. destruct x; cbn; [apply Kf_refl|exact Logic.I]. Qed.
Lemma Q_refl : forall T v, Q T v v.
Proof. intros. split; [apply pres_refl|auto]. Qed.
Lemma pres_trans : forall T u v w, pres T u v -> pres T v w -> pres T u w.
Proof.
  intros T u v w A B g x N. destruct (A g x N) as (y & N2 & K1). destruct (B g y N2) as (z & N3 & K2). exists z. split; [exact N3|].
  destruct x as [x|], y as [y|], z as [z|]; cbn in *; try contradiction; auto.
  - eapply Kf_trans; eassumption.
  - intros F. destruct K1 as (_ & _ & _ & _ & _ & E). specialize (E F) as (_ & _ & _ & E). rewrite E. auto.
Qed.
Lemma Q_trans : forall T u v w, Q T u v -> Q T v w -> Q T u w.
Proof. intros T u v w (A & B & C & D) (A2 & B2 & C2 & D2). split; [eapply pres_trans; eassumption|]. split; [congruence|]. split; congruence. Qed.
Ltac chain := solve [ eassumption | match goal with |- Q ?T ?v ?w => match goal with H : Q T v ?u |- _ => apply (Q_trans T v u w H); chain end end | apply Q_refl].
Lemma pres_setF : forall T v f x y, getF _ v f = Ok x -> Kf (T f) x y -> Q T v (setF _ v f (Some y)).
Proof.
  intros T v f x y G K. split; [|auto]. intros g z N. cbn [setF fibs]. rewrite nth_error_upd. destruct (Nat.eqb_spec f g) as [<-|NE].
  - apply getF_nth in G. rewrite G in N. injection N as <-. assert (f < length (fibs _ v))%nat as L by (apply nth_error_Some; congruence).
    destruct (Nat.ltb_spec f (length (fibs _ v))); [|lia]. exists (Some y). auto.
  - exists z. split; [exact N|]. destruct z; cbn; [apply Kf_refl|exact Logic.I].
Qed.
Lemma Q_getF : forall T v w f x, Q T v w -> getF _ v f = Ok x -> match nth_error (fibs _ w) f with Some (Some y) => Kf (T f) x y | Some None => T f = false -> f_alive _ x = false | None => False end.
Proof. intros T v w f x (P & _) G. apply getF_nth in G. destruct (P _ _ G) as (y & -> & K). destruct y; exact K. Qed.

Lemma pops_len : forall (S : Type) (o : sops S) (v : vm S) n ws v1, pops _ o v n = Ok (ws, v1) -> length (fibs _ v1) = length (fibs _ v).
Proof. intros S o v n ws v1 H. unfold pops in H. inv_bind H. injection H as <- <-. apply length_upd. Qed.
Lemma pop1_len : forall (S : Type) (o : sops S) (v : vm S) w v1, pop1 _ o v = Ok (w, v1) -> length (fibs _ v1) = length (fibs _ v).
Proof. intros S o v w v1 H. unfold pop1 in H. inv_bind H. dm H. dm H. injection H as <- <-. eapply pops_len. exact E. Qed.
Section Keep.
Variable T : nat -> bool.
Lemma store_Q : forall v p i w v1, store _ aops v p i w = Ok v1 -> Q T v v1.
Proof.
  intros v p i w v1 H. destruct p as [z|f j| | |]; cbn [store] in H; try discriminate.
  - destruct (z =? 0); [discriminate|]. injection H as <-. split; [exact (pres_refl T v)|auto].
  - inv_bind H. injection H as <-. cbn [aops o_write] in *. unfold a_write in E0. inv_bind E0. injection E0 as <-. pose proof (fun d => writeS_refs _ _ _ _ _ d E1) as ER. apply writeS_same in E1.
    eapply pres_setF; [exact E|]. unfold Kf. cbn. auto 10 using same_kept.
Qed.
Lemma stores_Q : forall ws v p i v1, stores _ aops v p i ws = Ok v1 -> Q T v v1.
Proof.
  induction ws as [|w ws IH]; intros v p i v1 H; cbn [stores] in H; [injection H as <-; apply Q_refl|]. inv_bind H.
  eapply Q_trans; [eapply store_Q; exact E|eapply IH; exact H].
Qed.
Lemma Kf_ops : forall t x o, t = true -> Kf t x (withStk _ x (MkA (a_size (f_stk _ x)) (set_ops (a_stk (f_stk _ x)) o))).
Proof. intros t x o ->. unfold Kf. cbn. split; [reflexivity|]. split; [apply kept_set|]. split; [reflexivity|]. split; [auto|]. split; [intros _ d; rewrite refsAt_set; reflexivity|discriminate]. Qed.
Lemma pushes_Q : forall v ws v1, pushes _ aops v ws = Ok v1 -> T (loopf _ v) = true -> Q T v v1.
Proof.
  intros v ws v1 H L. unfold pushes, onStk in H. inv_bind H. injection H as <-. injection E0 as <-. eapply pres_setF; [exact E|]. apply Kf_ops. exact L.
Qed.
Lemma pops_Q : forall v n ws v1, pops _ aops v n = Ok (ws, v1) -> T (loopf _ v) = true -> Q T v v1.
Proof.
  intros v n ws v1 H L. unfold pops in H. inv_bind H. injection H as <- <-. cbn [aops o_pop] in E0. unfold a_pop in E0. destruct (Nat.leb _ _); [|discriminate]. injection E0 as <- <-.
  eapply pres_setF; [exact E|]. apply Kf_ops. exact L.
Qed.
Lemma pop1_Q : forall v w v1, pop1 _ aops v = Ok (w, v1) -> T (loopf _ v) = true -> Q T v v1.
Proof. intros v w v1 H L. unfold pop1 in H. inv_bind H. dm H. dm H. injection H as <- <-. eapply pops_Q; eassumption. Qed.
Lemma pop2_Q : forall v w v1, pop2 _ aops v = Ok (w, v1) -> T (loopf _ v) = true -> Q T v v1.
Proof. intros v w v1 H L. unfold pop2 in H. inv_bind H. dm H. dm H. dm H. injection H as <- <-. eapply pops_Q; eassumption. Qed.
Lemma next_Q : forall v v1, next _ v = Ok v1 -> T (loopf _ v) = true -> Q T v v1.
Proof.
  intros v v1 H L. unfold next in H. inv_bind H. injection H as <-. eapply pres_setF; [exact E|]. rewrite L. unfold Kf. cbn. split; [reflexivity|]. split; [apply kept_refl|]. split; [reflexivity|]. split; [auto|]. split; [reflexivity || (intros _ d; rewrite ?refsAt_set; reflexivity)|discriminate].
Qed.
Lemma goto_Q : forall v ip v1, goto _ v ip = Ok v1 -> T (loopf _ v) = true -> Q T v v1.
Proof.
  intros v ip v1 H L. unfold goto in H. inv_bind H. injection H as <-. eapply pres_setF; [exact E|]. rewrite L. unfold Kf. cbn. split; [reflexivity|]. split; [apply kept_refl|]. split; [reflexivity|]. split; [auto|]. split; [reflexivity || (intros _ d; rewrite ?refsAt_set; reflexivity)|discriminate].
Qed.
Lemma ref_same : forall s i d s', a_ref s i d = Ok s' -> a_size s = a_size s' /\ same (a_stk s) (a_stk s').
Proof.
  intros s i d s' H. unfold a_ref in H. destruct (_ && _); [|injection H as <-; auto using same_refl]. destruct (a_stk s) eqn:ES; [injection H as <-; rewrite ES; auto using same_refl|].
  rewrite <- ES in *. inv_bind H. injection H as <-. cbn. apply refS_same in E. auto.
Qed.
Lemma refChain_Q : forall n v g f i d v1, refChain _ aops n v g f i d = Ok v1 -> rr = true -> Q T v v1.
Proof.
  induction n as [|n IH]; intros v g f i d v1 H RR; cbn [refChain] in H; [discriminate|]. inv_bind H.
  assert (Q T v a0) as HV.
  { destruct (Nat.eqb g f); [|injection E0 as <-; apply Q_refl]. inv_bind E0. injection E0 as <-. apply ref_same in E1 as (A & B).
    eapply pres_setF; [exact E|]. unfold Kf. cbn. rewrite RR. split; [exact A|]. split; [apply same_kept; exact B|]. split; [reflexivity|]. split; [auto|]. split; [discriminate|]. auto. }
  destruct (f_parent _ a); [|injection H as <-; exact HV]. eapply Q_trans; [exact HV|]. eapply IH; [exact H|exact RR].
Qed.
Lemma Q_loop : forall v w, Q T v w -> T (loopf _ v) = true -> T (loopf _ w) = true.
Proof. intros v w (_ & -> & _) L. exact L. Qed.
Ltac qs :=
  repeat match goal with
  | L : T (loopf _ ?v) = true, H : Q T ?v ?w |- _ =>
      match goal with M : T (loopf _ w) = true |- _ => fail 1 | _ => pose proof (Q_loop v w H L) end
  | H : next _ ?v = Ok ?w, L : T (loopf _ ?v) = true |- _ => apply (fun h => next_Q v w h L) in H
  | H : goto _ ?v ?i = Ok ?w, L : T (loopf _ ?v) = true |- _ => apply (fun h => goto_Q v i w h L) in H
  | H : pushes _ _ ?v ?i = Ok ?w, L : T (loopf _ ?v) = true |- _ => apply (fun h => pushes_Q v i w h L) in H
  | H : pops _ _ ?v ?n = Ok (?i, ?w), L : T (loopf _ ?v) = true |- _ => apply (fun h => pops_Q v n i w h L) in H
  | H : pop1 _ _ ?v = Ok (?i, ?w), L : T (loopf _ ?v) = true |- _ => apply (fun h => pop1_Q v i w h L) in H
  | H : pop2 _ _ ?v = Ok (?i, ?w), L : T (loopf _ ?v) = true |- _ => apply (fun h => pop2_Q v i w h L) in H
  | H : stores _ _ _ _ _ _ = Ok _ |- _ => apply stores_Q in H
  end.
Lemma makeFiber_Q : forall v v1, makeFiber _ aops v = Ok v1 -> T (loopf _ v) = true -> Q T v v1.
Proof.
  intros v v1 H L. unfold makeFiber in H. inv_bind H. do 6 dm H. inv_bind H. qs.
  match type of E4 with pushes _ _ ?w _ = _ => assert (Q T v0 w) as HM end.
  { split; [|auto]. intros g x N. cbn [fibs]. rewrite nth_error_app1 by (apply nth_error_Some; congruence). exists x. split; [exact N|].
    destruct x; cbn; [apply Kf_refl|exact Logic.I]. }
  qs. chain.
Qed.
(** Any instruction, but those that enter or leave a frame, before a possible switch to another fiber or return of the loop. *)
Definition Pr (v : avm) (r : sres astk) : Prop := match r with Go _ w => pres T v w | Stop _ w => pres T v w end.
Definition okv (v : avm) : Prop := T (vmf _ v) = true \/ exists y, getF _ v (vmf _ v) = Ok y /\ f_alive _ y = false.
Lemma runHost_Pr : forall v c ip h p r, runHost _ aops v c ip h p = Ok r -> T c = true -> okv v -> Pr v r.
Proof.
  intros v c ip h p r H TC TV. destruct p as [w|e ps k]; cbn [runHost] in H.
  - inv_bind H. injection H as <-. cbn. apply (pres_setF T v c a); [exact E|]. rewrite TC. unfold Kf. cbn. split; [reflexivity|]. split; [apply kept_refl|]. split; [reflexivity|]. split; [auto|]. split; [reflexivity || (intros _ d; rewrite ?refsAt_set; reflexivity)|discriminate].
  - unfold go in H. inv_bind H. injection H as <-. unfold enterCall in E. inv_bind E. dm E. dm E. inv_bind E. injection E as <-. injection E1 as <-. cbn.
    destruct TV as [TV|(y & GY & DY)]; [|rewrite E0 in GY; injection GY as <-; rewrite DY in Heqb; discriminate].
    apply (pres_setF T v (vmf _ v) a0); [exact E0|]. rewrite TV. unfold Kf. cbn. split; [reflexivity|]. split; [apply kept_set|]. split; [reflexivity|]. split; [auto|]. split; [reflexivity || (intros _ d; rewrite ?refsAt_set; reflexivity)|discriminate].
Qed.
Lemma endLoop_Pr : forall v r, endLoop _ aops v = Ok r -> (forall h, In h (hosts _ v) -> T (fst (fst h)) = true) -> okv v -> Pr v r.
Proof.
  intros v r H TH TV. unfold endLoop in H. destruct (hosts _ v) as [|[[c ip] k] h] eqn:EH; [injection H as <-; apply pres_refl|]. inv_bind H.
  eapply runHost_Pr; [exact H| |exact TV]. apply (TH (c, ip, k)). left. reflexivity.
Qed.
Lemma Pr_trans : forall v w r, pres T v w -> Pr w r -> Pr v r.
Proof. intros v w [u|u] A B; cbn in *; eapply pres_trans; eassumption. Qed.
Variable ext : nat -> list val -> hostprog.
Lemma exec_Pr : forall i v r, exec _ aops ext v i = Ok r -> (forall l, i <> IEnter l) -> i <> ILeave -> (forall g, involved v g = true -> T g = true) -> (rr = false -> forall d, i <> IRef d) -> Pr v r.
Proof.
  intros i v r H NE NL TT RR.
  assert (T (loopf _ v) = true) as L. { apply TT. unfold involved. rewrite Nat.eqb_refl. reflexivity. }
  assert (T (vmf _ v) = true) as LV0. { apply TT. unfold involved. rewrite Nat.eqb_refl. rewrite orb_true_r. reflexivity. }
  assert (okv v) as LV by (left; exact LV0).
  assert (forall h, In h (hosts _ v) -> T (fst (fst h)) = true) as LH.
  { intros h IN. apply TT. unfold involved. replace (existsb _ _) with true; [rewrite orb_true_r; reflexivity|]. symmetry. apply existsb_exists. exists h. split; [exact IN|]. apply Nat.eqb_refl. }
  unfold exec in H. inv_bind H.
  destruct i; try congruence;
    try (unfold go in H; inv_bind H; injection H as <-; cbn [Pr]; match goal with X : _ = Ok ?w |- pres T v ?w => assert (Q T v w) as (QQ & _); [|exact QQ]; inv_bind X; qs; chain end).
  - inv_bind H. dm H. unfold go in H. inv_bind H. injection H as <-. cbn [Pr]. match goal with X : _ = Ok ?w |- pres T v ?w => assert (Q T v w) as (QQ & _); [|exact QQ]; inv_bind X; qs; chain end.
  - unfold go in H; inv_bind H; injection H as <-; cbn [Pr]. match goal with X : _ = Ok ?w |- pres T v ?w => assert (Q T v w) as (QQ & _); [|exact QQ] end. inv_bind E0. qs.
    match type of E0 with next _ ?w = _ => assert (Q T v1 w) as HM end.
    { eapply pres_setF; [exact E2|]. rewrite H. unfold Kf. cbn. split; [reflexivity|]. split; [apply kept_refl|]. split; [reflexivity|]. split; [auto|]. split; [reflexivity || (intros _ d; rewrite ?refsAt_set; reflexivity)|discriminate]. }
    qs. chain.
  - destruct n as [n|].
    + inv_bind H. dm H. unfold go in H. inv_bind H. injection H as <-. cbn [Pr]. match goal with X : _ = Ok ?w |- pres T v ?w => assert (Q T v w) as (QQ & _); [|exact QQ]; inv_bind X; qs; chain end.
    + unfold go in H. inv_bind H. injection H as <-. cbn [Pr]. match goal with X : _ = Ok ?w |- pres T v ?w => assert (Q T v w) as (QQ & _); [|exact QQ]; inv_bind X; qs; chain end.
  - unfold go in H; inv_bind H; injection H as <-; cbn [Pr]. match goal with X : _ = Ok ?w |- pres T v ?w => assert (Q T v w) as (QQ & _); [|exact QQ] end. inv_bind E0.
    assert (Q T v a1) as HM. { destruct v0; try (injection E2 as <-; apply Q_refl). eapply refChain_Q; [exact E2|]. destruct rr; [reflexivity|]. exfalso. eapply RR; reflexivity. } qs. chain.
  - unfold go in H; inv_bind H; injection H as <-; cbn [Pr]. match goal with X : _ = Ok ?w |- pres T v ?w => assert (Q T v w) as (QQ & _); [|exact QQ] end. inv_bind E0. dm E0. dm E0; qs; chain.
  - unfold go in H; inv_bind H; injection H as <-; cbn [Pr]. match goal with X : _ = Ok ?w |- pres T v ?w => assert (Q T v w) as (QQ & _); [|exact QQ] end. inv_bind E0. dm E0. dm E0; qs; chain.
  - unfold go in H; inv_bind H; injection H as <-; cbn [Pr]. match goal with X : _ = Ok ?w |- pres T v ?w => assert (Q T v w) as (QQ & _); [|exact QQ] end. inv_bind E0. dm E0. dm E0. inv_bind E0. qs; chain.
  - inv_bind H. eapply runHost_Pr; [exact H|exact L|exact LV].
  - unfold go in H; inv_bind H; injection H as <-; cbn [Pr]. apply makeFiber_Q in E0; [|exact L]. apply E0.
  - unfold resume in H. inv_bind H. qs. match type of H with (if _ then endLoop _ _ ?w else _) = _ => assert (Q T v w) as QW by chain end.
    destruct QW as (QP & QL & QV & QH). dm H.
    + eapply Pr_trans; [exact QP|]. eapply endLoop_Pr; [exact H|rewrite QH; exact LH|left; rewrite QV; exact LV0].
    + injection H as <-. exact QP.
  - unfold go in H; inv_bind H; injection H as <-; cbn [Pr]. match goal with X : _ = Ok ?w |- pres T v ?w => assert (Q T v w) as (QQ & _); [|exact QQ] end. inv_bind E0. dm E0. inv_bind E0. dm E0. qs.
    match type of E0 with next _ ?w = _ => assert (Q T v1 w) as HM end.
    { split; [|auto]. intros g x N. cbn [setF fibs]. rewrite nth_error_upd. destruct (Nat.eqb_spec f g) as [<-|N2].
      - assert (f < length (fibs _ v1))%nat as LL by (apply nth_error_Some; congruence). destruct (Nat.ltb_spec f (length (fibs _ v1))); [|lia].
        exists None. split; [reflexivity|]. destruct x; cbn; [|exact Logic.I]. intros _. apply getF_nth in E2. congruence.
      - exists x. split; [exact N|]. destruct x; cbn; [apply Kf_refl|exact Logic.I]. }
    qs. chain.
  - unfold ret in H. inv_bind H. pose proof (pop1_len _ _ _ _ _ E0) as PL. dm H. inv_bind H. qs.
    assert (pres T v a0 /\ hosts _ a0 = hosts _ v /\ (negb (f_alive _ a1) || (f_ip _ a1 =? RETURN_FROM_VM) = true -> okv a0)) as (QP & QH & QO).
    { dm E1; inv_bind E1.
      - injection E1 as <-. assert (Q T v (setF _ v1 (loopf _ v1) (Some (die _ a2)))) as QD.
        { eapply Q_trans; [exact E0|]. eapply pres_setF; [exact E3|]. match goal with X : T (loopf _ v1) = true |- _ => rewrite X end. unfold Kf. cbn.
          split; [reflexivity|]. split; [apply kept_refl|]. split; [reflexivity|]. split; [discriminate|]. split; [reflexivity|discriminate]. }
        destruct (f_parent _ a2) as [p|] eqn:EP; cbn [switchTo fibs loopf vmf hosts] in *.
        + split; [exact (proj1 QD)|]. split; [apply QD|]. intros DD. unfold okv. cbn [vmf switchTo].
          destruct (f_alive _ a1) eqn:AL; [|right; exists a1; split; [exact E2|exact AL]]. left. cbn [negb orb] in DD.
          destruct (T p) eqn:TP; [reflexivity|]. exfalso. apply getF_nth in E2. cbn [fibs switchTo] in E2.
          assert (exists x, nth_error (fibs _ v) p = Some (Some x) /\ f_ip _ x = f_ip _ a1) as (x & NX & IX).
          { destruct (nth_error (fibs _ v) p) as [[x|]|] eqn:NP.
            - exists x. split; [reflexivity|]. destruct (proj1 QD _ _ NP) as (y & NY & KY). rewrite E2 in NY. injection NY as <-. cbn in KY. rewrite TP in KY. apply KY. reflexivity.
            - exfalso. destruct (proj1 QD _ _ NP) as (y & NY & KY). rewrite E2 in NY. injection NY as <-. exact KY.
            - exfalso. apply nth_error_None in NP. assert (p < length (fibs _ (setF _ v1 (loopf _ v1) (Some (die _ a2)))))%nat as LP by (apply nth_error_Some; congruence).
              cbn [setF fibs] in LP. rewrite length_upd in LP. lia. }
          rewrite (TT p) in TP; [discriminate|]. unfold involved. rewrite NX, IX, DD. apply orb_true_r.
        + split; [exact (proj1 QD)|]. split; [apply QD|]. intros _. left. destruct QD as (_ & _ & -> & _). exact LV0.
      - qs. assert (Q T v a0) as (QA & QB & QC & QD) by chain. split; [exact QA|]. split; [exact QD|]. intros _. left. rewrite QC. exact LV0. }
    destruct (_ || _).
    + eapply Pr_trans; [exact QP|]. eapply endLoop_Pr; [exact H|rewrite QH; exact LH|apply QO; reflexivity].
    + injection H as <-. exact QP.
  - inv_bind H. assert (Q T v (setF _ v (vmf _ v) (Some (die _ a0)))) as (QP & QL & QV & QH).
    { eapply pres_setF; [exact E0|]. rewrite LV0. unfold Kf. cbn. split; [reflexivity|]. split; [apply kept_refl|]. split; [reflexivity|]. split; [discriminate|]. split; [reflexivity|discriminate]. }
    eapply Pr_trans; [exact QP|]. eapply endLoop_Pr; [exact H|exact LH|left; exact LV0].
Qed.
End Keep.
End Refs.
