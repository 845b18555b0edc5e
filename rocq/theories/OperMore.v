(** Binary operators with operands of different types: execution, constants, short
    assignments. *)
From Coq Require Import ZArith Lia Bool List.
From Coq.Floats Require Import SpecFloat.
From Verif Require Import Base NumModel NumSpec NumProofs CmpOrder OperModel OperSpec OperProofs.
Import ListNotations.
Local Open Scope Z_scope.

Lemma nums_map zs : nums (map VNum zs) = Some zs.
Proof. induction zs as [|z zs IH]; cbn; auto. now rewrite IH. Qed.

Lemma upToZero_spec zs :
  (upToZero zs = zs \/ exists us, zs = upToZero zs ++ 0 :: us) /\ ~ In 0 (upToZero zs).
Proof.
  induction zs as [|z zs [IH N]]; cbn [upToZero]; [cbn; tauto|].
  destruct (Z.eqb_spec z 0) as [->|Z0].
  - split; [right; exists zs; reflexivity|intros []].
  - split; [|intros [E|E]; auto].
    destruct IH as [->|[us E]]; auto. right. exists us. cbn. now f_equal.
Qed.

Lemma toReal_denote k z : toReal k z = realSlot (real_of_int (denote k z)).
Proof. destruct k; reflexivity. Qed.

Lemma cut_unique (zs ys ys' : list Z) :
  (ys = zs \/ exists us, zs = ys ++ 0 :: us) -> ~ In 0 ys ->
  (ys' = zs \/ exists us, zs = ys' ++ 0 :: us) -> ~ In 0 ys' -> ys = ys'.
Proof.
  intros [->|[us E]] N [->|[us' E']] N'; auto.
  - exfalso. apply N. rewrite E'. apply in_or_app. cbn. auto.
  - exfalso. apply N'. rewrite E. apply in_or_app. cbn. auto.
  - rewrite E in E'. clear E. revert ys' E' N'. induction ys as [|y ys IH]; intros [|y' ys'] E' N';
      auto; cbn in *; injection E' as ? E'; subst.
    + exfalso. apply N'. auto.
    + exfalso. apply N. auto.
    + f_equal. apply IH; auto.
Qed.

Lemma str_not_int : ~ isInt TStr. Proof. intros (k & E & _). discriminate. Qed.

Lemma map_VNum_inj zs zs' : map VNum zs = map VNum zs' -> zs = zs'.
Proof.
  revert zs'. induction zs as [|z zs IH]; intros [|z' zs'] E; try discriminate; auto.
  cbn in E. injection E as -> E. f_equal. auto.
Qed.

Section Oper.
Variable cmpOther : nat -> bool.
Variable seqCmp : ty -> value -> value -> outcome comparison.
Variable lm : libm.
Variable strengthen : Z -> Z.

Notation valid := (valid cmpOther).
Notation applyOperator := (applyOperator cmpOther).
Notation run := (run seqCmp lm strengthen).
Notation binary := (binary seqCmp lm).
Notation operation := (operation cmpOther seqCmp lm strengthen).
Notation becomes := (becomes strengthen).

(** Reading at another type has one outcome. *)
Lemma becomes_unique s t v x y : becomes s t v x -> becomes s t v y -> x = y.
Proof.
  clear cmpOther seqCmp lm.
  assert (K : forall s t v y, (s = t \/ (isInt s /\ isInt t) \/ (isReal s /\ isReal t) \/
              (exists b c, s = TPtr b /\ t = TPtr c)) -> becomes s t v y -> y = Ok v).
  { clear s t v x y. intros s t v y H B.
    destruct B; auto; exfalso;
    repeat match goal with
    | H : _ \/ _ |- _ => destruct H
    | H : _ /\ _ |- _ => destruct H
    | H : exists _, _ |- _ => destruct H
    end; subst; try discriminate; eauto using int_not_real;
    try (match goal with H : isInt TStr |- _ => destruct H as (? & ? & _); discriminate end);
    try (match goal with H : isReal TStr |- _ => destruct H as (? & ? & _); discriminate end);
    try (match goal with H : isInt (TDyn _) |- _ => destruct H as (? & ? & _); discriminate end);
    try (match goal with H : isReal (TDyn _) |- _ => destruct H as (? & ? & _); discriminate end);
    try (match goal with H : isInt (TPtr _) |- _ => destruct H as (? & ? & _); discriminate end);
    try (match goal with H : isReal (TPtr _) |- _ => destruct H as (? & ? & _); discriminate end). }
  intros A B. pose proof A as A0.
  destruct A; [symmetry; eauto|..];
    (inversion B; subst; [eapply K; [eassumption|exact A0]|..]);
    repeat match goal with
    | H : isInt TStr |- _ => destruct H as (? & ? & _)
    | H : isReal TStr |- _ => destruct H as (? & ? & _)
    | H : isReal (TPtr _) |- _ => destruct H as (? & ? & _)
    | H : isReal (TArr _ _) |- _ => destruct H as (? & ? & _)
    | H : map VNum _ = map VNum _ |- _ => apply map_VNum_inj in H; subst
    | H : TNum _ _ = TNum _ _ |- _ => injection H; clear H; intros; subst
    | H : TDyn _ = TDyn _ |- _ => injection H; clear H; intros; subst
    | H : TArr _ _ = TArr _ _ |- _ => injection H; clear H; intros; subst
    end; try discriminate; try congruence; try lia.
  f_equal. f_equal. eapply cut_unique; eassumption.
Qed.

(** Only arrays that are too long stop. *)
Lemma becomes_outcome s t v x : becomes s t v x -> (exists w, x = Ok w) \/ x = Err EIllegalLen.
Proof. destruct 1; eauto. Qed.

Lemma makeStr_chars zs : exists ys, makeStr (TDyn tChar) (VSeq (map VNum zs)) = Ok (VStr ys) /\
  (ys = zs \/ exists us, zs = ys ++ 0 :: us) /\ ~ In 0 ys.
Proof.
  exists (upToZero zs). cbn [makeStr tChar]. rewrite nums_map. split; auto.
  apply upToZero_spec.
Qed.

Definition plainTy (t : ty) : Prop := (forall i, t <> TIface i) /\ (forall i, t <> TClosure i).

(** One conversion, of the value on the top or of the one below. *)
Lemma conv_run dest src lhs c v : convCase dest src lhs (dest, c) -> plainTy dest -> ofType src v ->
  exists o, becomes src dest v o /\
    (lhs = false -> forall rest st, run (c ++ rest) (v :: st) = let* w := o in run rest (w :: st)) /\
    (lhs = true -> forall rest x st, run (c ++ rest) (x :: v :: st) = let* w := o in run rest (x :: w :: st)).
Proof.
  intros H [Hi Hc] T.
  inversion H; subst; try (exfalso; eapply Hi; reflexivity); try (exfalso; eapply Hc; reflexivity).
  - destruct T as [z ->]. eexists. split; [eapply b_real; eauto|].
    rewrite <- toReal_denote. split; intros ->; reflexivity.
  - destruct T as [z ->]. destruct (Z.eqb_spec z 0) as [->|N].
    + eexists. split; [now apply b_zero|]. split; intros ->; reflexivity.
    + eexists. split; [now apply b_char|].
      split; intros ->; cbn; (destruct (Z.eqb_spec z 0); [contradiction|]); reflexivity.
  - destruct T as [zs ->]. destruct (makeStr_chars zs) as (ys & E & P & Q).
    eexists. split; [eapply b_chars; eauto|].
    split; intros ->; cbn [swapped app OperModel.run step]; rewrite ?E; cbn [bind];
      cbn [OperModel.run step bind]; rewrite ?E; reflexivity.
  - assert (T' : exists l, v = VSeq l).
    { destruct u as [[]| | | | | | | | | | |]; cbn in T; destruct T as [l ->]; eauto. }
    destruct T' as [l ->]. destruct (Nat.ltb_spec n (length l)) as [L|L].
    + eexists. split; [eapply b_long; eauto|].
      assert (E : makeArr n u (VSeq l) = Err EIllegalLen).
      { unfold makeArr. destruct (Nat.ltb_spec n (length l)); [reflexivity|lia]. }
      split; intros ->; cbn [swapped app OperModel.run step bind]; rewrite ?E; reflexivity.
    + eexists. split; [eapply b_arr; eauto|].
      assert (E : makeArr n u (VSeq l) = Ok (VSeq (l ++ repeat (zero u) (n - length l)))).
      { unfold makeArr. destruct (Nat.ltb_spec n (length l)); [lia|reflexivity]. }
      split; intros ->; cbn [swapped app OperModel.run step bind]; rewrite ?E; reflexivity.
  - exists (Ok v). split; [apply b_keep; eauto 10|]. split; intros ->; reflexivity.
  - exists (Ok v). split; [apply b_keep; eauto 10|]. split; intros ->; reflexivity.
  - destruct T as [z ->]. eexists. split; [eapply b_weak; eauto|]. split; intros ->; reflexivity.
  - exists (Ok v). split; [apply b_keep; eauto 10|]. split; intros ->; reflexivity.
Qed.

Lemma suits_plain o t : infix o = true -> valid t o = true -> plainTy t.
Proof.
  intros Ho V. split; intros i ->;
    [rewrite not_valid_iface in V by auto|rewrite not_valid_clos in V by auto]; discriminate.
Qed.

Theorem runs o l r t c a b st : proper l -> proper r -> infix o = true ->
  applyOperator o l r true = Ok (t, c) -> ofType l a -> ofType r b ->
  exists oa ob, becomes l t a oa /\ becomes r t b ob /\
    run c (b :: a :: st) = let* b' := ob in let* a' := oa in let* v := binary o t a' b' in Ok (v :: st).
Proof.
  intros Pl Pr Ho H Ta Tb. pose proof H as H0.
  apply apply_inv in H0 as (_ & _ & _ & _ & _ & _ & V & _).
  apply suits_plain in V; auto.
  destruct (apply_joins _ _ _ _ _ _ Pl Pr Ho H) as [J _].
  assert (F : forall a b, run [IBin o t] (b :: a :: st) = let* v := binary o t a b in Ok (v :: st)).
  { intros x y. cbn. destruct (binary o t x y); reflexivity. }
  destruct J as [c1 -> _ _ C _|c2 -> C _| -> D].
  - destruct (conv_run _ _ _ _ _ C V Tb) as (ob & B & R & _).
    exists (Ok a), ob. split; [apply b_keep; auto|]. split; auto. rewrite R by auto.
    destruct ob; cbn [bind]; auto.
  - destruct (conv_run _ _ _ _ _ C V Ta) as (oa & B & _ & R).
    exists oa, (Ok b). split; auto. split; [apply b_keep; auto|]. rewrite R by auto.
    cbn [bind]. destruct oa; cbn [bind]; auto.
  - exists (Ok a), (Ok b). split; [apply b_keep; auto|]. split; [|apply F].
    apply b_keep. destruct D as [->|[[A B]|[A B]]]; auto.
Qed.

Lemma apply_outcome o l r cv : (exists p, applyOperator o l r cv = Ok p) \/ applyOperator o l r cv = Err EOther.
Proof.
  unfold OperModel.applyOperator. destruct (conv l r false) as [r' c1].
  destruct (if cv then conv r' l true else (l, [])) as [l' c2].
  destruct (negb (compatible l' r')); auto. destruct (negb (valid l' o)); eauto.
Qed.

Theorem operation_is o l r t a b : proper l -> proper r -> infix o = true ->
  meet l r t -> suits cmpOther o t -> ofType l a -> ofType r b ->
  exists oa ob, becomes l t a oa /\ becomes r t b ob /\
    operation o l r a b = let* b' := ob in let* a' := oa in binary o t a' b'.
Proof.
  intros Pl Pr Ho M S Ta Tb.
  destruct (proj2 (accepted_iff cmpOther o l r t Pl Pr Ho) (conj M S)) as [c H].
  destruct (runs o l r t c a b [] Pl Pr Ho H Ta Tb) as (oa & ob & A & B & R).
  exists oa, ob. split; auto. split; auto. unfold OperModel.operation. rewrite H. cbn [bind]. rewrite R.
  destruct ob as [b'| |]; cbn [bind]; auto. destruct oa as [a'| |]; cbn [bind]; auto.
  destruct (binary o t a' b'); reflexivity.
Qed.

Theorem operation_rejected o l r a b : proper l -> proper r -> infix o = true ->
  (forall t, meet l r t -> ~ suits cmpOther o t) -> operation o l r a b = Err EOther.
Proof.
  intros Pl Pr Ho N. unfold OperModel.operation.
  destruct (apply_outcome o l r true) as [[[t c] H]| ->]; [|reflexivity].
  exfalso. destruct (proj1 (accepted_iff cmpOther o l r t Pl Pr Ho)) as [M S]; eauto.
  eapply N; eauto.
Qed.

(** * Integers *)
Lemma int_kind k : isInt (TNum k None) -> kindOrdinal k = true.
Proof.
  intros (k' & E & I). injection E as <-. cbn in I.
  repeat destruct I as [<-|I]; try reflexivity; destruct I.
Qed.

Lemma int_operation o k1 k2 a b : infix o = true -> isInt (TNum k1 None) -> isInt (TNum k2 None) ->
  operation o (TNum k1 None) (TNum k2 None) (VNum a) (VNum b) =
  let* z := doBinary lm o k1 a b in Ok (VNum z).
Proof.
  intros Ho A B.
  destruct (operation_is o (TNum k1 None) (TNum k2 None) (TNum k1 None) (VNum a) (VNum b))
    as (oa & ob & Ba & Bb & ->); auto.
  - left. now apply int_kind.
  - left. now apply int_kind.
  - now apply m_int.
  - destruct o; try discriminate Ho; cbn [suits]; auto; constructor.
  - eexists; reflexivity.
  - eexists; reflexivity.
  - assert (oa = Ok (VNum a)) as ->.
    { eapply becomes_unique; [exact Ba|]. apply b_keep. auto. }
    assert (ob = Ok (VNum b)) as ->.
    { eapply becomes_unique; [exact Bb|]. apply b_keep. auto. }
    reflexivity.
Qed.

Lemma alike_denote k1 k2 z : in_s64 z -> alike k1 k2 z -> denote k1 z = denote k2 z.
Proof.
  intros R [H|H].
  - destruct (kindEq k1 KUInt) as [->|N].
    + rewrite (proj1 H) by auto. reflexivity.
    + assert (k2 <> KUInt) by tauto. destruct k1, k2; congruence || reflexivity.
  - assert (E : forall k, denote k z = z).
    { intros k. destruct k; try reflexivity. apply Z.mod_small. unfold in_s64, INT64_MAX, two63 in R. lia. }
    now rewrite !E.
Qed.

Theorem integers_compare o R k1 k2 a b : rel_op o = Some R ->
  isInt (TNum k1 None) -> isInt (TNum k2 None) -> in_s64 a -> in_s64 b -> alike k1 k2 b ->
  exists c : bool, operation o (TNum k1 None) (TNum k2 None) (VNum a) (VNum b) = Ok (VNum (b2z c)) /\
    (c = true <-> R (denote k1 a) (denote k2 b)).
Proof.
  intros HR A B Ra Rb L.
  destruct (rel_exact lm o k1 a b R (int_kind _ A) HR Ra Rb) as (c & E & I).
  exists c. rewrite int_operation, E by (auto; destruct o; try discriminate HR; reflexivity).
  split; auto. rewrite <- (alike_denote k1 k2 b) by auto. exact I.
Qed.

Theorem integers_compute o k1 k2 a b m : arith_op o = true ->
  isInt (TNum k1 None) -> isInt (TNum k2 None) -> in_s64 a -> in_s64 b -> alike k1 k2 b ->
  math_op o (denote k1 a) (denote k2 b) = Some m ->
  in_range (if kindEq k1 KUInt then KUInt else KInt) m ->
  ((o = OpShl \/ o = OpShr) -> denote k2 b <= 63) ->
  (o = OpShl -> 0 <= denote k1 a) ->
  (o = OpMod -> ~ (denote k1 a = INT64_MIN /\ denote k2 b = -1)) ->
  exists z, operation o (TNum k1 None) (TNum k2 None) (VNum a) (VNum b) = Ok (VNum z) /\
    denote k1 z = m.
Proof.
  intros Ho A B Ra Rb L HM HI HS HL HD.
  rewrite int_operation by (auto; destruct o; try discriminate Ho; reflexivity).
  rewrite <- (alike_denote k1 k2 b) in HM, HS, HD by auto.
  destruct (kindEq k1 KUInt) as [->|N].
  - destruct (uint_exact lm o a b m) as (z & -> & Rz & E); auto.
    { destruct o; try discriminate Ho; auto 10. }
    exists z. split; [reflexivity|]. rewrite E. apply Z.mod_small.
    cbn in HI. unfold two64. lia.
  - assert (D : forall z, denote k1 z = z) by (intros; destruct k1; congruence || reflexivity).
    rewrite !D in *. exists m. rewrite (signed_exact lm o k1 a b m); auto.
    + now apply int_kind.
    + destruct o; try discriminate Ho; cbn [legal_shift]; auto; cbn [math_op] in HM;
        destruct (Z.ltb_spec b 0); try discriminate; auto.
Qed.

(** * The other way round *)
Lemma compares_infix o : compares o -> infix o = true.
Proof. unfold compares. destruct o; cbn; congruence. Qed.

Lemma strcmp_antisym x : forall y, strcmp y x = CompOpp (strcmp x y).
Proof.
  induction x as [|a x IH]; intros [|b y]; cbn; auto.
  rewrite (Z.compare_antisym a b). destruct (a ?= b); cbn; auto.
Qed.

Lemma ofCmp_mirror o c : compares o -> ofCmp (mirror o) (CompOpp c) = ofCmp o c.
Proof. unfold compares. destruct o, c; cbn; congruence. Qed.

Lemma doBinary_mirror o k x y : compares o -> doBinary lm (mirror o) k y x = doBinary lm o k x y.
Proof.
  intros H.
  assert (E : SFeqb (realVal y) (realVal x) = SFeqb (realVal x) (realVal y)).
  { unfold SFeqb. rewrite (sfcompare_antisym (realVal x) (realVal y)).
    destruct (SFcompare (realVal x) (realVal y)) as [[]|]; reflexivity. }
  unfold compares in H.
  destruct o; cbn [rel_op mirror] in *; try congruence; destruct k; cbn [mirror];
    unfold doBinary; cbn [kindReal];
    try reflexivity; try (rewrite E; reflexivity);
    try (rewrite (Z.eqb_sym y x); reflexivity); try (rewrite (Z.eqb_sym (u64 y) (u64 x)); reflexivity).
  all: unfold SFneb; rewrite E; reflexivity.
Qed.

Hypothesis seqAntisym : forall t x y, seqCmp t y x = fmap CompOpp (seqCmp t x y).

Lemma binary_mirror o t a b : compares o -> binary (mirror o) t b a = binary o t a b.
Proof.
  intros H.
  assert (S : (let* c := seqCmp t b a in ofCmp (mirror o) c) = let* c := seqCmp t a b in ofCmp o c).
  { rewrite seqAntisym. destruct (seqCmp t a b); cbn; auto. now apply ofCmp_mirror. }
  destruct t; cbn [OperModel.binary]; try exact S;
    destruct a, b; try reflexivity; try (rewrite doBinary_mirror by auto; reflexivity).
  rewrite strcmp_antisym. unfold compares in H.
  destruct o; cbn [mirror rel_op] in *; try congruence; destruct (strcmp s s0); reflexivity.
Qed.

Lemma compares_mirror o : compares o -> compares (mirror o).
Proof. unfold compares. destruct o; cbn; congruence. Qed.

Lemma suits_mirror o t : compares o -> suits cmpOther o t <-> suits cmpOther (mirror o) t.
Proof. unfold compares. destruct o; cbn; congruence || tauto. Qed.

Lemma compares_can o t : compares o -> suits cmpOther o t <-> canCompare cmpOther t.
Proof. unfold compares. destruct o; cbn; congruence || tauto. Qed.

Lemma num_can t : isInt t \/ isReal t -> canCompare cmpOther t.
Proof. intros [(k & -> & _)|(k & -> & _)]; constructor. Qed.

Lemma meet_swap l r t : meet l r t -> exists t', meet r l t' /\
  (t' = t \/ (isInt l /\ isInt r) \/ (isReal l /\ isReal r)).
Proof.
  intros M. destruct M;
    try (eexists; split; [meets|auto; fail]).
  - eexists. split; [apply m_int|]; auto.
  - eexists. split; [apply m_real|]; auto.
Qed.

Lemma int_rel_agree o k1 k2 x y : compares o ->
  isInt (TNum k1 None) -> isInt (TNum k2 None) -> in_s64 x -> in_s64 y ->
  alike k1 k2 x -> alike k1 k2 y ->
  doBinary lm o k2 x y = doBinary lm o k1 x y.
Proof.
  intros H A B Rx Ry Lx Ly.
  destruct (rel_op o) as [R|] eqn:E; [|contradiction].
  destruct (rel_exact lm o k1 x y R (int_kind _ A) E Rx Ry) as (c & -> & I).
  destruct (rel_exact lm o k2 x y R (int_kind _ B) E Rx Ry) as (c' & -> & I').
  rewrite <- (alike_denote k1 k2 x), <- (alike_denote k1 k2 y) in I' by auto.
  assert (c = c') as -> by (destruct c, c'; intuition congruence). reflexivity.
Qed.

Lemma real_rel_agree o k1 k2 x y : isReal (TNum k1 None) -> isReal (TNum k2 None) ->
  doBinary lm o k2 x y = doBinary lm o k1 x y.
Proof.
  intros (a & Ea & A) (b & Eb & B). injection Ea as <-. injection Eb as <-. cbn in A, B.
  destruct A as [<-|[<-|[]]], B as [<-|[<-|[]]]; reflexivity.
Qed.

Lemma meet_nums l r t : meet l r t -> (isInt l /\ isInt r) \/ (isReal l /\ isReal r) -> t = l.
Proof.
  intros M D. destruct M; auto; exfalso; destruct D as [[A B]|[A B]];
    eauto using int_not_real; destruct A as (? & A & _), B as (? & B & _); try discriminate.
Qed.

Theorem mirrored o l r a b : compares o -> proper l -> proper r -> ofType l a -> ofType r b ->
  signsAgree l r a b -> operation (mirror o) r l b a = operation o l r a b.
Proof.
  intros H Pl Pr Ta Tb G.
  destruct (apply_outcome o l r true) as [[[t c] E]|E].
  - destruct (proj1 (accepted_iff cmpOther o l r t Pl Pr (compares_infix _ H))) as [M S]; eauto.
    destruct (meet_swap _ _ _ M) as (t' & M' & D).
    assert (S' : suits cmpOther (mirror o) t').
    { apply (proj1 (suits_mirror o t' H)). destruct D as [->|D]; auto.
      apply (proj2 (compares_can o t' H)). apply num_can.
      rewrite (meet_nums _ _ _ M') by tauto. tauto. }
    destruct (operation_is o l r t a b) as (oa & ob & Ba & Bb & ->); auto using compares_infix.
    destruct (operation_is (mirror o) r l t' b a) as (ob' & oa' & Bb' & Ba' & ->);
      auto using compares_infix, compares_mirror.
    destruct D as [->|[[A B]|[A B]]].
    + assert (oa' = oa) as -> by (eapply becomes_unique; eauto).
      assert (ob' = ob) as -> by (eapply becomes_unique; eauto).
      destruct (becomes_outcome _ _ _ _ Ba) as [[a' ->]| ->];
        destruct (becomes_outcome _ _ _ _ Bb) as [[b' ->]| ->]; cbn [bind]; auto.
      now apply binary_mirror.
    + assert (t = l) as -> by (eapply meet_nums; eauto).
      assert (t' = r) as -> by (eapply meet_nums; eauto).
      assert (oa = Ok a) as -> by (eapply becomes_unique; [exact Ba|apply b_keep; auto]).
      assert (ob = Ok b) as -> by (eapply becomes_unique; [exact Bb|apply b_keep; auto]).
      assert (oa' = Ok a) as -> by (eapply becomes_unique; [exact Ba'|apply b_keep; auto]).
      assert (ob' = Ok b) as -> by (eapply becomes_unique; [exact Bb'|apply b_keep; auto]).
      cbn [bind]. rewrite binary_mirror by auto.
      pose proof A as (k1 & -> & _). pose proof B as (k2 & -> & _).
      destruct Ta as [x ->], Tb as [y ->].
      destruct (G k1 k2 x y) as (Rx & Ry & Q); auto.
      cbn [OperModel.binary]. cbn [kindOf].
      rewrite (int_rel_agree o k1 k2 x y); auto; unfold alike; tauto.
    + assert (t = l) as -> by (eapply meet_nums; eauto).
      assert (t' = r) as -> by (eapply meet_nums; eauto).
      assert (oa = Ok a) as -> by (eapply becomes_unique; [exact Ba|apply b_keep; auto]).
      assert (ob = Ok b) as -> by (eapply becomes_unique; [exact Bb|apply b_keep; auto]).
      assert (oa' = Ok a) as -> by (eapply becomes_unique; [exact Ba'|apply b_keep; auto]).
      assert (ob' = Ok b) as -> by (eapply becomes_unique; [exact Bb'|apply b_keep; auto]).
      cbn [bind]. rewrite binary_mirror by auto.
      pose proof A as (k1 & -> & _). pose proof B as (k2 & -> & _).
      destruct Ta as [x ->], Tb as [y ->].
      cbn [OperModel.binary kindOf]. rewrite (real_rel_agree o k1 k2 x y); auto.
  - rewrite (operation_rejected (mirror o) r l); auto using compares_infix, compares_mirror.
    + unfold OperModel.operation. rewrite E. reflexivity.
    + intros t M S. destruct (meet_swap _ _ _ M) as (t' & M' & D).
      assert (S' : suits cmpOther o t').
      { apply (proj2 (suits_mirror o t H)) in S. destruct D as [->|D]; auto.
        apply (proj2 (compares_can o t' H)). apply num_can.
        rewrite (meet_nums _ _ _ M') by tauto. tauto. }
      destruct (proj2 (accepted_iff cmpOther o l r t' Pl Pr (compares_infix _ H)) (conj M' S')) as [c K].
      congruence.
Qed.

(** * Constants *)
Lemma run_app c1 : forall c2 st, run (c1 ++ c2) st = let* s := run c1 st in run c2 s.
Proof.
  induction c1 as [|i c1 IH]; intros c2 st; auto. cbn [app OperModel.run].
  destruct (step seqCmp lm strengthen i st); cbn [bind]; auto.
Qed.

Lemma convConst_spec dest src v : constTy dest -> constTy src -> ofType src v ->
  exists v', convConst lm dest src v = Ok (fst (conv dest src false), v') /\
    fst (conv dest src true) = fst (conv dest src false) /\
    constTy (fst (conv dest src false)) /\ ofType (fst (conv dest src false)) v' /\
    (forall st, run (snd (conv dest src false)) (v :: st) = Ok (v' :: st)) /\
    (forall w st, run (snd (conv dest src true)) (w :: v :: st) = Ok (w :: v' :: st)).
Proof.
  intros Cd Cs T. unfold convConst, conv.
  destruct (real dest && integer src) eqn:E.
  - destruct src as [k e| | | | | | | | | | |]; try discriminate;
      try (rewrite andb_false_r in E; discriminate).
    destruct T as [z ->]. cbn [kindOf].
    exists (VNum (toReal k z)). cbn [fst snd].
    split; [destruct k; reflexivity|]. split; auto. split; auto. split.
    { destruct dest; try discriminate E. eexists; reflexivity. }
    split; intros; reflexivity.
  - destruct dest as [k e| | | | | | | | | | |]; try destruct Cd; clear E;
      destruct src as [k' e'| | | | | | | | | | |]; try destruct Cs;
      try (exists v; cbn [fst snd]; repeat split; auto; fail).
    destruct k'; try (exists v; cbn [fst snd]; repeat split; auto; fail).
    destruct T as [z ->]. cbn [fst snd].
    eexists. split; [reflexivity|]. repeat split; auto. eexists; reflexivity.
Qed.

Lemma binaryConst_is o t a b : infix o = true -> constTy t -> binaryConst seqCmp lm o t a b = binary o t a b.
Proof.
  intros Ho C. destruct t; try destruct C; cbn [binaryConst OperModel.binary].
  - destruct a, b; auto. now rewrite binary_agree.
  - destruct a, b; auto. destruct o; reflexivity || discriminate.
Qed.

(** What a constant expression is, is what the program would compute. *)
Theorem constants o l r a b : infix o = true -> constTy l -> constTy r -> ofType l a -> ofType r b ->
  operationConst cmpOther seqCmp lm o l r a b =
  let* (t, c) := applyOperator o l r true in
  let* v := operation o l r a b in Ok (t, v).
Proof.
  intros Ho Cl Cr Ta Tb. unfold operationConst, OperModel.operation, OperModel.applyOperator.
  destruct (convConst_spec l r b Cl Cr Tb) as (b' & E1 & _ & Cr' & Tb' & R1 & _).
  rewrite E1. destruct (conv l r false) as [r' c1] eqn:F1. cbn [fst snd bind] in *.
  destruct (convConst_spec r' l a Cr' Cl Ta) as (a' & E2 & Q & Cl' & Ta' & _ & R2).
  rewrite E2. destruct (conv r' l true) as [l' c2] eqn:F2. cbn [fst snd bind] in *. rewrite <- Q in *.
  destruct (compatible l' r'); cbn [negb]; [|reflexivity].
  destruct (valid l' o); cbn [negb]; [|reflexivity]. cbn [bind].
  rewrite run_app, R1. cbn [bind]. rewrite run_app, R2. cbn [bind OperModel.run step].
  rewrite binaryConst_is by auto. destruct (binary o l' a' b'); reflexivity.
Qed.

(** * Short assignments *)
Lemma valid_short l o : valid l (shortOp l o) = valid l o.
Proof. destruct l, o; reflexivity. Qed.

Lemma binary_short l o a b : binary (shortOp l o) l a b = binary o l a b.
Proof. destruct l, o; try reflexivity. Qed.

Theorem short_same o l r a b : proper l -> proper r -> infix o = true ->
  meet l r l -> suits cmpOther o l ->
  shortAssignment cmpOther seqCmp lm strengthen o l r a b = operation o l r a b.
Proof.
  intros Pl Pr Ho M S.
  destruct (proj2 (accepted_iff cmpOther o l r l Pl Pr Ho) (conj M S)) as [c H].
  unfold shortAssignment, OperModel.operation. rewrite H.
  apply apply_inv in H as (r' & c1 & c2 & E1 & E2 & C & V & ->).
  unfold OperModel.applyOperator. rewrite E1, C, valid_short, V. cbn [negb bind app].
  assert (c2 = []) as ->.
  { assert (Pr' : proper r').
    { pose proof (conv_case l r false Pl Pr) as K. rewrite E1 in K. inversion K; subst; auto. }
    pose proof (conv_case r' l true Pr' Pl) as K. rewrite E2 in K.
    destruct (tyEq r' l) as [->|N]; [rewrite conv_same in E2; congruence|].
    inversion K; subst; auto; congruence. }
  cbn [app]. rewrite !run_app. destruct (run c1 [b; a]) as [st| |]; auto.
  cbn [bind OperModel.run step]. destruct st as [|y [|x st]]; auto.
  rewrite binary_short. reflexivity.
Qed.

Theorem short_rejected o l r a b : proper l -> proper r -> infix o = true ->
  ~ (meet l r l /\ suits cmpOther o l) ->
  shortAssignment cmpOther seqCmp lm strengthen o l r a b = Err EOther.
Proof.
  intros Pl Pr Ho N. unfold shortAssignment.
  destruct (apply_outcome (shortOp l o) l r false) as [[[t c] H]| ->]; [|reflexivity].
  exfalso. apply N. apply accepted_iff; auto.
  unfold OperModel.applyOperator in *. destruct (conv l r false) as [r' c1] eqn:E1.
  rewrite valid_short in H.
  destruct (compatible l r') eqn:C; [|discriminate]. destruct (valid l o) eqn:V; [|discriminate].
  assert (Pr' : proper r').
  { pose proof (conv_case l r false Pl Pr) as K. rewrite E1 in K. inversion K; subst; auto. }
  assert (conv r' l true = (l, [])) as ->.
  { destruct (compatible_inv _ _ Pl Pr' C) as [->|[[A B]|[A B]]];
      [apply conv_same|now apply conv_int|now apply conv_real]. }
  rewrite C, V. cbn. eauto.
Qed.

(** * Texts *)
Lemma strcmp_spec s : forall t, match strcmp s t with
  | Eq => s = t | Lt => before s t | Gt => before t s end.
Proof.
  induction s as [|x s IH]; intros [|y t]; cbn; auto using before.
  destruct (Z.compare_spec x y) as [->|L|L]; auto using before.
  specialize (IH t). destruct (strcmp s t); subst; auto using before.
Qed.

Lemma before_irrefl s : ~ before s s.
Proof. induction s; intros H; inversion H; subst; try lia; auto. Qed.

Lemma before_asym s t : before s t -> before t s -> False.
Proof. induction 1; intros K; inversion K; subst; try lia; auto. Qed.

Lemma textOf_ofType t v s : textOf t v s -> ofType t v.
Proof. destruct 1; cbn; eauto. Qed.

Lemma textOf_becomes t v s : textOf t v s -> becomes t TStr v (Ok (VStr s)).
Proof.
  destruct 1.
  - apply b_keep; auto.
  - now apply b_char.
  - now apply b_zero.
  - apply b_chars; auto.
  - eapply b_chars; eauto.
Qed.

Lemma textOf_proper t v s : textOf t v s -> proper t.
Proof. destruct 1; cbn; auto. Qed.

Lemma text_operation o l r a b s t : infix o = true -> suits cmpOther o TStr ->
  l = TStr \/ r = TStr -> textOf l a s -> textOf r b t ->
  operation o l r a b = binary o TStr (VStr s) (VStr t).
Proof.
  intros Ho S D A B.
  assert (M : meet l r TStr).
  { destruct D as [->| ->]; [inversion B|inversion A]; subst; meets. }
  destruct (operation_is o l r TStr a b) as (oa & ob & Ba & Bb & ->);
    eauto using textOf_proper, textOf_ofType.
  rewrite (becomes_unique _ _ _ _ _ Ba (textOf_becomes _ _ _ A)).
  rewrite (becomes_unique _ _ _ _ _ Bb (textOf_becomes _ _ _ B)). reflexivity.
Qed.

Theorem texts_join l r a b s t : l = TStr \/ r = TStr -> textOf l a s -> textOf r b t ->
  operation OpPlus l r a b = Ok (VStr (s ++ t)).
Proof. intros D A B. rewrite (text_operation OpPlus l r a b s t); cbn; auto. Qed.

Theorem texts_compare o R l r a b s t : textRel o = Some R ->
  l = TStr \/ r = TStr -> textOf l a s -> textOf r b t ->
  exists c : bool, operation o l r a b = Ok (VNum (b2z c)) /\ (c = true <-> R s t).
Proof.
  intros HR D A B.
  rewrite (text_operation o l r a b s t); auto;
    [|destruct o; try discriminate; reflexivity|destruct o; try discriminate; constructor].
  pose proof (strcmp_spec s t) as K. cbn [OperModel.binary].
  destruct o; try discriminate HR; injection HR as <-; cbn [ofCmp];
    (eexists; split; [reflexivity|]); destruct (strcmp s t); subst; cbn;
    split; intros; try discriminate; auto;
    try (exfalso; eauto using before_irrefl, before_asym; fail);
    try (intros ->; eapply before_irrefl; eauto);
    try (exfalso; intuition (subst; eauto using before_irrefl, before_asym)).
Qed.
End Oper.
