From Coq Require Import ZArith Lia Bool List.
From Coq Require Import ZifyBool.
From Coq.Floats Require Import SpecFloat.
From Verif Require Import Base NumModel NumSpec NumProofs RealProofs MemModel.
Import ListNotations.
Local Open Scope Z_scope.
Ltac Zify.zify_post_hook ::= Z.div_mod_to_equations.

Definition bytes_ok (m : mem) : Prop := forall a, 0 <= m a < 256.

Lemma store_other n : forall m a v x, (x < a \/ a + Z.of_nat n <= x) -> store n m a v x = m x.
Proof.
  induction n as [|n IH]; intros m a v x H; cbn [store]; [reflexivity|].
  rewrite IH by lia. unfold upd. destruct (x =? a) eqn:E; [lia|reflexivity].
Qed.

Lemma load_ext n : forall m m' a, (forall x, a <= x < a + Z.of_nat n -> m x = m' x) -> load n m a = load n m' a.
Proof.
  induction n as [|n IH]; intros m m' a H; cbn [load]; [reflexivity|].
  rewrite (H a) by lia. rewrite (IH m m' (a + 1)); [reflexivity|]. intros x Hx. apply H. lia.
Qed.

Lemma load_store n : forall m a v, load n (store n m a v) a = v mod 256 ^ Z.of_nat n.
Proof.
  induction n as [|n IH]; intros m a v.
  - cbn [load store]. cbn. rewrite Z.mod_1_r. reflexivity.
  - cbn [load store]. rewrite IH. rewrite store_other by lia.
    unfold upd. rewrite Z.eqb_refl.
    rewrite Nat2Z.inj_succ, Z.pow_succ_r by lia.
    set (P := 256 ^ Z.of_nat n). assert (0 < P) by (apply Z.pow_pos_nonneg; lia).
    rewrite Z.rem_mul_r by lia. lia.
Qed.

Lemma store_bytes n : forall m a v, bytes_ok m -> bytes_ok (store n m a v).
Proof.
  induction n as [|n IH]; intros m a v H; cbn [store]; [exact H|].
  apply IH. intro x. unfold upd. destruct (x =? a); [lia|apply H].
Qed.

Lemma copy_other n : forall m0 m d s x, (x < d \/ d + Z.of_nat n <= x) -> copy_bytes n m0 m d s x = m x.
Proof.
  induction n as [|n IH]; intros m0 m d s x H; cbn [copy_bytes]; [reflexivity|].
  rewrite IH by lia. unfold upd. destruct (x =? d) eqn:E; [lia|reflexivity].
Qed.

Lemma copy_same n : forall m0 m d s i, 0 <= i < Z.of_nat n -> copy_bytes n m0 m d s (d + i) = m0 (s + i).
Proof.
  induction n as [|n IH]; intros m0 m d s i H; cbn [copy_bytes]; [lia|].
  destruct (Z.eq_dec i 0) as [->|Hi].
  - rewrite copy_other by lia. unfold upd. rewrite !Z.add_0_r, Z.eqb_refl. reflexivity.
  - replace (d + i) with (d + 1 + (i - 1)) by lia. rewrite IH by lia. f_equal. lia.
Qed.

Lemma Ok_inj {A} (x y : A) : Ok x = Ok y -> y = x.
Proof. intro H. injection H. auto. Qed.

(** Kinds whose variable is held by value in one slot and stored without rounding. *)
Definition scalar_kind (k : kind) : bool :=
  kindOrdinal k || match k with KReal | KPtr | KWeakPtr | KStr | KFiber | KFn => true | _ => false end.

Lemma assign_scalar m k lhs rhs size m' :
  scalar_kind k = true -> in_s64 rhs ->
  doAssign m k lhs rhs size = Ok m' ->
  doDeref m' k lhs = Ok rhs /\
  (forall x, (x < lhs \/ lhs + Z.of_nat (kind_bytes k) <= x) -> m' x = m x) /\
  (bytes_ok m -> bytes_ok m').
Proof.
  intros Hk Hr. unfold doAssign.
  destruct (lhs =? 0) eqn:L0; [discriminate|].
  destruct (typeOverflow k rhs) eqn:Ov; [discriminate|].
  unfold in_s64, INT64_MIN, INT64_MAX, two63 in Hr.
  destruct k; try discriminate Hk; intro A; apply Ok_inj in A; subst m';
  (split; [|split; [intros x Hx; apply store_other; exact Hx|intro B; apply store_bytes; exact B]]);
  unfold doDeref; rewrite L0;
  rewrite ?load_store;
  repeat match goal with |- context[256 ^ Z.of_nat ?n] =>
    let v := eval compute in (256 ^ Z.of_nat n) in change (256 ^ Z.of_nat n) with v end;
  unfold typeOverflow, typeConvOverflow, s64, wraps, wrapu, two8, two16, two32, two64 in *;
  cbn [kindSigned] in Ov;
  try (f_equal; lia).
  assert (rhs = 0 \/ rhs = 1) as [->| ->] by lia; reflexivity.
Qed.

Lemma assign_aggregate m k lhs rhs size m' :
  match k with KArray | KDynArray | KMap | KStruct | KInterface | KClosure => true | _ => false end = true ->
  0 <= size ->
  doAssign m k lhs rhs size = Ok m' ->
  (forall i, 0 <= i < size -> m' (lhs + i) = m (rhs + i)) /\
  (forall x, (x < lhs \/ lhs + size <= x) -> m' x = m x).
Proof.
  intros Hk Hs. unfold doAssign.
  destruct (lhs =? 0) eqn:L0; [discriminate|].
  destruct (typeOverflow k rhs) eqn:Ov; [discriminate|].
  destruct k; try discriminate Hk;
  (destruct (rhs =? 0) eqn:R0; [discriminate|];
   destruct (lhs =? rhs) eqn:LR;
   [ intro A; injection A as <-; apply Z.eqb_eq in LR; subst rhs; split; reflexivity
   | destruct ((lhs <? rhs + size) && (rhs <? lhs + size)) eqn:Hov; [discriminate|];
     intro A; injection A as <-; split;
     [ intros i Hi; apply copy_same; lia | intros x Hx; apply copy_other; lia ] ]).
Qed.

(** A rejected store is exactly an out-of-range value (null target aside). *)
Lemma assign_error_iff m k lhs rhs size :
  kindOrdinal k = true -> k <> KUInt -> in_s64 rhs -> lhs <> 0 ->
  (in_range k rhs -> exists m', doAssign m k lhs rhs size = Ok m') /\
  (~ in_range k rhs -> doAssign m k lhs rhs size = Err EOverflow).
Proof.
  intros Hk Hu Hr Hl. pose proof (overflow_exact k rhs Hk Hr Hu) as E.
  unfold doAssign. destruct (lhs =? 0) eqn:L0; [lia|]. clear L0.
  destruct (typeOverflow k rhs).
  - split; intro H; [|reflexivity]. exfalso. apply E; [reflexivity|exact H].
  - split; intro H.
    + destruct k; try discriminate Hk; eexists; reflexivity.
    + exfalso. apply E in H. discriminate.
Qed.

(** Compile-time and run-time stores and loads agree on non-null addresses. *)
Lemma const_assign_agree m k lhs rhs size :
  k <> KMap -> lhs <> 0 -> rhs <> 0 \/ scalar_kind k = true \/ k = KReal32 ->
  constAssign m k lhs rhs size = doAssign m k lhs rhs size.
Proof.
  intros Hk Hl Hr. unfold constAssign, doAssign.
  destruct (lhs =? 0) eqn:L0; [lia|].
  destruct (typeOverflow k rhs) eqn:Ov; [reflexivity|].
  destruct k; try congruence; try reflexivity;
  (destruct (rhs =? 0) eqn:R0; [|reflexivity]);
  apply Z.eqb_eq in R0; destruct Hr as [Hr|[Hr|Hr]]; congruence || discriminate.
Qed.

Lemma const_deref_agree m k p : k <> KMap -> constDeref m k p = doDeref m k p.
Proof. intro Hk. unfold constDeref, doDeref. destruct k; try congruence; reflexivity. Qed.
