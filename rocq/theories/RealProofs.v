(** Facts about the binary64 view of a slot: decoding yields canonical floats, encoding is its inverse,
    and the SpecFloat comparison is the comparison of extended real values. *)
From Coq Require Import ZArith Lia Bool List.
From Coq Require Import ZifyBool.
From Coq.Floats Require Import SpecFloat.
From Verif Require Import Base NumModel NumSpec NumProofs.
Import ListNotations.
Local Open Scope Z_scope.
Ltac Zify.zify_post_hook ::= Z.div_mod_to_equations.

Notation valid := (valid_binary 53 1024).

Lemma digits2_bounds p : 2 ^ (Zpos (digits2_pos p) - 1) <= Zpos p < 2 ^ Zpos (digits2_pos p).
Proof.
  induction p as [p IH|p IH|].
  - cbn [digits2_pos]. rewrite Pos2Z.inj_succ. rewrite Pos2Z.inj_xI.
    replace (Z.succ (Zpos (digits2_pos p)) - 1) with (Z.succ (Zpos (digits2_pos p) - 1)) by lia.
    rewrite !Z.pow_succ_r by lia. revert IH.
    generalize (2 ^ (Zpos (digits2_pos p) - 1)) (2 ^ Zpos (digits2_pos p)). intros; lia.
  - cbn [digits2_pos]. rewrite Pos2Z.inj_succ. rewrite (Pos2Z.inj_xO p).
    replace (Z.succ (Zpos (digits2_pos p)) - 1) with (Z.succ (Zpos (digits2_pos p) - 1)) by lia.
    rewrite !Z.pow_succ_r by lia. revert IH.
    generalize (2 ^ (Zpos (digits2_pos p) - 1)) (2 ^ Zpos (digits2_pos p)). intros; lia.
  - cbn. lia.
Qed.

Lemma digits2_unique p d : 0 < d -> 2 ^ (d - 1) <= Zpos p < 2 ^ d -> Zpos (digits2_pos p) = d.
Proof.
  intros Hd H. pose proof (digits2_bounds p) as B.
  set (x := Zpos (digits2_pos p)) in *.
  assert (0 < x) by (subst x; lia).
  destruct (Z.lt_trichotomy x d) as [L|[E|G]]; [|exact E|].
  - assert (2 ^ x <= 2 ^ (d - 1)) by (apply Z.pow_le_mono_r; lia). lia.
  - assert (2 ^ d <= 2 ^ (x - 1)) by (apply Z.pow_le_mono_r; lia). lia.
Qed.

(** Canonical finite binary64: either subnormal exponent with m < 2^53, or a 53-bit mantissa. *)
Lemma valid_finite s m e :
  valid (S754_finite s m e) = true <->
  (e = -1074 /\ Zpos m < 2 ^ 53) \/ (-1074 <= e <= 971 /\ 2 ^ 52 <= Zpos m < 2 ^ 53).
Proof.
  unfold valid_binary, bounded, canonical_mantissa, fexp, emin.
  rewrite andb_true_iff, Zle_is_le_bool.
  pose proof (Zeq_is_eq_bool (Z.max (Zpos (digits2_pos m) + e - 53) (3 - 1024 - 53)) e) as Q.
  rewrite <- Q. clear Q.
  pose proof (digits2_bounds m) as B.
  set (d := Zpos (digits2_pos m)) in *.
  assert (0 < d) by (subst d; lia).
  split.
  - intros [C L].
    destruct (Z.eq_dec e (-1074)) as [Ee|Ee].
    + left. split; [exact Ee|].
      assert (2 ^ d <= 2 ^ 53) by (apply Z.pow_le_mono_r; lia). lia.
    + right. assert (d = 53) as Hd by lia. rewrite Hd in B. lia.
  - intros [[He Hm]|[He Hm]].
    + split; [|lia].
      assert (d <= 53).
      { destruct (Z_le_gt_dec d 53); [assumption|].
        assert (2 ^ 53 <= 2 ^ (d - 1)) by (apply Z.pow_le_mono_r; lia). lia. }
      lia.
    + split; [|lia].
      assert (d = 53) by (subst d; apply digits2_unique; [lia|exact Hm]). lia.
Qed.

Lemma pow52 : 2 ^ 52 = 4503599627370496. Proof. reflexivity. Qed.
Lemma pow53 : 2 ^ 53 = 9007199254740992. Proof. reflexivity. Qed.

Lemma testbit63 b : 0 <= b < two64 -> Z.testbit b 63 = (two63 <=? b).
Proof.
  intro H. unfold two63, two64 in *.
  rewrite Z.testbit_eqb by lia.
  change (2 ^ 63) with 9223372036854775808. lia.
Qed.

Lemma real_of_bits_valid b : valid (real_of_bits b) = true.
Proof.
  unfold real_of_bits.
  set (s := Z.testbit b 63).
  pose proof (Z.mod_pos_bound (b / 4503599627370496) 2048 ltac:(lia)) as He.
  pose proof (Z.mod_pos_bound b 4503599627370496 ltac:(lia)) as Hm.
  set (e := (b / 4503599627370496) mod 2048) in *.
  set (m := b mod 4503599627370496) in *.
  clearbody e m s.
  destruct (e =? 2047) eqn:E1.
  { destruct (m =? 0); reflexivity. }
  destruct (e =? 0) eqn:E2.
  - destruct m as [|p|p] eqn:Em; try reflexivity.
    apply valid_finite. left. rewrite pow53. lia.
  - destruct (m + 4503599627370496) as [|p|p] eqn:Em; try reflexivity.
    apply valid_finite. right. rewrite pow52, pow53. lia.
Qed.

Lemma realVal_valid z : valid (realVal z) = true.
Proof. apply real_of_bits_valid. Qed.

Lemma bits_of_real_range x : valid x = true -> 0 <= bits_of_real x < two64.
Proof.
  destruct x as [s|s| |s m e]; unfold bits_of_real, two63, two64.
  - destruct s; lia.
  - destruct s; lia.
  - lia.
  - intro V. apply valid_finite in V. rewrite pow52, pow53 in V.
    destruct (Zpos m <? 4503599627370496) eqn:E; destruct s; lia.
Qed.

Lemma real_of_bits_of_real x : valid x = true -> real_of_bits (bits_of_real x) = x.
Proof.
  intro V. pose proof (bits_of_real_range x V) as R.
  unfold real_of_bits. rewrite (testbit63 _ R). clear R.
  destruct x as [s|s| |s m e]; unfold bits_of_real, two63.
  - destruct s; reflexivity.
  - destruct s; reflexivity.
  - reflexivity.
  - apply valid_finite in V. rewrite pow52, pow53 in V.
    destruct (Zpos m <? 4503599627370496) eqn:E.
    + assert (e = -1074) by lia. subst e.
      assert (forall d, d = 0 \/ d = 9223372036854775808 ->
         ((d + Zpos m) / 4503599627370496) mod 2048 = 0 /\ (d + Zpos m) mod 4503599627370496 = Zpos m) as A
        by (intros d [->| ->]; lia).
      destruct (A (if s then 9223372036854775808 else 0)) as [A1 A2]; [destruct s; lia|].
      rewrite A1, A2. cbn [Z.eqb].
      replace (9223372036854775808 <=? (if s then 9223372036854775808 else 0) + Zpos m) with s by (destruct s; lia).
      reflexivity.
    + set (b := (if s then 9223372036854775808 else 0) + (e + 1075) * 4503599627370496 + (Zpos m - 4503599627370496)).
      assert (b mod 4503599627370496 = Zpos m - 4503599627370496) as A2.
      { subst b. destruct s; lia. }
      assert ((b / 4503599627370496) mod 2048 = e + 1075) as A1.
      { subst b. destruct s; lia. }
      rewrite A1, A2.
      replace (e + 1075 =? 2047) with false by lia.
      replace (e + 1075 =? 0) with false by lia.
      replace (Zpos m - 4503599627370496 + 4503599627370496) with (Zpos m) by lia.
      replace (9223372036854775808 <=? b) with s by (subst b; destruct s; lia).
      replace (e + 1075 - 1075) with e by lia. reflexivity.
Qed.

Lemma realVal_realSlot x : valid x = true -> realVal (realSlot x) = x.
Proof.
  intro V. unfold realVal, realSlot.
  rewrite u64_s64 by (apply bits_of_real_range; exact V).
  apply real_of_bits_of_real. exact V.
Qed.

(** ** Comparison *)
Lemma scaled_lt_exp m1 e1 m2 e2 s1 s2 :
  valid (S754_finite s1 m1 e1) = true -> valid (S754_finite s2 m2 e2) = true ->
  e1 < e2 -> Zpos m1 * 2 ^ (e1 + 1074) < Zpos m2 * 2 ^ (e2 + 1074).
Proof.
  intros V1 V2 L. apply valid_finite in V1. apply valid_finite in V2.
  rewrite pow52, pow53 in V1. rewrite pow52, pow53 in V2.
  assert (-1074 <= e1) by lia.
  assert (4503599627370496 <= Zpos m2) by lia.
  assert (Zpos m1 < 9007199254740992) by lia.
  clear V1 V2.
  replace (e2 + 1074) with ((e1 + 1074) + (e2 - e1)) by lia.
  rewrite (Z.pow_add_r 2 (e1 + 1074) (e2 - e1)) by lia.
  assert (0 < 2 ^ (e1 + 1074)) by (apply Z.pow_pos_nonneg; lia).
  assert (2 ^ 1 <= 2 ^ (e2 - e1)) as P by (apply Z.pow_le_mono_r; lia).
  change (2 ^ 1) with 2 in P.
  assert (Zpos m1 < Zpos m2 * 2 ^ (e2 - e1)) by nia.
  nia.
Qed.

Lemma compare_finite s1 m1 e1 s2 m2 e2 :
  valid (S754_finite s1 m1 e1) = true -> valid (S754_finite s2 m2 e2) = true ->
  SFcompare (S754_finite s1 m1 e1) (S754_finite s2 m2 e2) = Some (scaled s1 m1 e1 ?= scaled s2 m2 e2).
Proof.
  intros V1 V2. cbn [SFcompare]. f_equal. unfold scaled.
  pose proof (scaled_lt_exp m1 e1 m2 e2 s1 s2 V1 V2) as L12.
  pose proof (scaled_lt_exp m2 e2 m1 e1 s2 s1 V2 V1) as L21.
  assert (P1 : 0 < 2 ^ (e1 + 1074)).
  { apply Z.pow_pos_nonneg; [lia|]. apply valid_finite in V1. lia. }
  assert (P2 : 0 < 2 ^ (e2 + 1074)).
  { apply Z.pow_pos_nonneg; [lia|]. apply valid_finite in V2. lia. }
  assert (Q1 : 0 < Zpos m1 * 2 ^ (e1 + 1074)) by nia.
  assert (Q2 : 0 < Zpos m2 * 2 ^ (e2 + 1074)) by nia.
  assert (Eq : e1 = e2 -> (Zpos m1 * 2 ^ (e1 + 1074) ?= Zpos m2 * 2 ^ (e2 + 1074)) = Pos.compare_cont Eq m1 m2).
  { intros ->. rewrite <- Zmult_compare_compat_r by lia. reflexivity. }
  destruct s1, s2.
  - replace (-1 * (Zpos m1 * 2 ^ (e1 + 1074))) with (- (Zpos m1 * 2 ^ (e1 + 1074))) by lia.
    replace (-1 * (Zpos m2 * 2 ^ (e2 + 1074))) with (- (Zpos m2 * 2 ^ (e2 + 1074))) by lia.
    rewrite Z.compare_opp.
    destruct (Z.compare_spec e1 e2) as [E|E|E].
    + rewrite (Z.compare_antisym (Zpos m1 * 2 ^ (e1 + 1074)) (Zpos m2 * 2 ^ (e2 + 1074))).
      rewrite (Eq E). reflexivity.
    + symmetry. apply Z.compare_gt_iff. apply L12. exact E.
    + symmetry. apply Z.compare_lt_iff. apply L21. exact E.
  - symmetry. apply Z.compare_lt_iff. lia.
  - symmetry. apply Z.compare_gt_iff. lia.
  - rewrite !Z.mul_1_l.
    destruct (Z.compare_spec e1 e2) as [E|E|E].
    + rewrite (Eq E). reflexivity.
    + symmetry. apply Z.compare_lt_iff. apply L12. exact E.
    + symmetry. apply Z.compare_gt_iff. apply L21. exact E.
Qed.

Lemma scaled_sign (s : bool) m e : -1074 <= e -> if s then scaled s m e < 0 else 0 < scaled s m e.
Proof.
  intro He. unfold scaled.
  assert (0 < 2 ^ (e + 1074)) by (apply Z.pow_pos_nonneg; lia). destruct s; nia.
Qed.

Ltac signs :=
  repeat match goal with
  | V : valid (S754_finite ?s ?m ?e) = true |- _ =>
      let Q := fresh "Q" in
      pose proof (scaled_sign s m e ltac:(apply valid_finite in V; lia)) as Q; revert V
  end; intros.
Ltac bools := repeat match goal with s : bool |- _ => destruct s end.
Ltac fin := split; intro; try congruence; try lia; try reflexivity; try contradiction; try exact I.

Lemma SFltb_spec x y : valid x = true -> valid y = true -> (SFltb x y = true <-> rlt x y).
Proof.
  intros Vx Vy. unfold SFltb.
  destruct x as [s|s| |s m e], y as [s'|s'| |s' m' e'];
  try (rewrite compare_finite by assumption; cbn [rlt]; rewrite <- Z.compare_lt_iff;
       destruct (scaled s m e ?= scaled s' m' e'); split; congruence);
  cbn [SFcompare rlt]; signs; bools; fin.
Qed.

Lemma SFeqb_spec x y : valid x = true -> valid y = true -> (SFeqb x y = true <-> req x y).
Proof.
  intros Vx Vy. unfold SFeqb.
  destruct x as [s|s| |s m e], y as [s'|s'| |s' m' e'];
  try (rewrite compare_finite by assumption; cbn [req]; rewrite <- Z.compare_eq_iff;
       destruct (scaled s m e ?= scaled s' m' e'); split; congruence);
  cbn [SFcompare req]; signs; bools; fin.
Qed.

(** ** Sign of a difference *)
Lemma shr_1_m_pos mrs : 1 < shr_m mrs -> 0 < shr_m (shr_1 mrs) /\ shr_m (shr_1 mrs) = shr_m mrs / 2.
Proof.
  destruct mrs as [m r s]. cbn [shr_m]. intro H.
  destruct m as [|p|p]; try lia. destruct p as [p|p|]; cbn [shr_1 shr_m]; try lia.
Qed.

Lemma iter_pos_iter {A} (f : A -> A) p x : iter_pos f p x = Pos.iter f x p.
Proof.
  revert x. induction p as [p IH|p IH|]; intro x; cbn [iter_pos Pos.iter].
  - rewrite !IH. rewrite <- Pos.iter_swap. f_equal. rewrite Pos.iter_swap. reflexivity.
  - rewrite !IH. reflexivity.
  - reflexivity.
Qed.

Lemma shr_iter_m p : forall mrs, 0 <= shr_m mrs -> shr_m (Pos.iter shr_1 mrs p) = shr_m mrs / 2 ^ Zpos p.
Proof.
  assert (St : forall mrs, 0 <= shr_m mrs -> shr_m (shr_1 mrs) = shr_m mrs / 2).
  { intros [m r s]. cbn [shr_m]. intro H. destruct m as [|q|q]; cbn [shr_1 shr_m]; try lia.
    destruct q as [q|q|]; cbn [shr_1 shr_m]; lia. }
  induction p as [|p IH] using Pos.peano_ind; intros mrs H.
  - cbn [Pos.iter]. rewrite St by exact H. reflexivity.
  - rewrite Pos.iter_succ. rewrite St.
    + rewrite IH by exact H. rewrite Z.div_div by lia. f_equal.
      rewrite Pos2Z.inj_succ, Z.pow_succ_r by lia. lia.
    + rewrite IH by exact H. apply Z.div_pos; [exact H|]. apply Z.pow_pos_nonneg; lia.
Qed.

(** After rescaling a positive mantissa to the binary64 exponent, at least one significant bit remains,
    provided the exponent was not below the minimum one. *)
Lemma shr_fexp_pos m e l :
  0 < m -> -1074 <= e ->
  0 < shr_m (fst (shr_fexp 53 1024 m e l)) /\ -1074 <= snd (shr_fexp 53 1024 m e l).
Proof.
  intros Hm He. unfold shr_fexp, shr.
  destruct m as [|p|p]; try lia. cbn [Zdigits2].
  pose proof (digits2_bounds p) as B.
  set (d := Zpos (digits2_pos p)) in *. assert (0 < d) by (subst d; lia).
  unfold fexp, emin.
  assert (Hr : shr_m (shr_record_of_loc (Zpos p) l) = Zpos p).
  { destruct l as [|[]]; reflexivity. }
  destruct (Z.max (d + e - 53) (3 - 1024 - 53) - e) as [|n|n] eqn:En; cbn [fst snd].
  - rewrite Hr. lia.
  - assert (Zpos n = d - 53) as Hn by lia.
    rewrite iter_pos_iter, shr_iter_m by (rewrite Hr; lia). rewrite Hr.
    split; [|lia].
    apply Z.div_str_pos. split; [apply Z.pow_pos_nonneg; lia|].
    etransitivity; [|apply B]. apply Z.pow_le_mono_r; lia.
  - rewrite Hr. lia.
Qed.

Lemma round_ne_pos m l : 0 < m -> 0 < round_nearest_even m l.
Proof. intro H. destruct l as [|[]]; cbn [round_nearest_even]; try lia. destruct (Z.even m); lia. Qed.

Lemma binary_round_aux_sign s m e l :
  0 < m -> -1074 <= e ->
  (exists m' e', binary_round_aux 53 1024 s m e l = S754_finite s m' e' /\ -1074 <= e') \/
  binary_round_aux 53 1024 s m e l = S754_infinity s.
Proof.
  intros Hm He. unfold binary_round_aux.
  pose proof (shr_fexp_pos m e l Hm He) as [P1 P2].
  destruct (shr_fexp 53 1024 m e l) as [mrs' e'] eqn:E1. cbn [fst snd] in *.
  pose proof (shr_fexp_pos (round_nearest_even (shr_m mrs') (loc_of_shr_record mrs')) e' loc_Exact
                (round_ne_pos _ _ P1) P2) as [Q1 Q2].
  destruct (shr_fexp 53 1024 _ e' loc_Exact) as [mrs'' e''] eqn:E2. cbn [fst snd] in *.
  destruct (shr_m mrs'') as [|q|q] eqn:Eq; try lia.
  destruct (Zle_bool e'' (1024 - 53)); [left|right; reflexivity].
  exists q, e''. split; [reflexivity|exact Q2].
Qed.

Lemma shl_align_spec m e e' : e' <= e -> Zpos (fst (shl_align m e e')) = Zpos m * 2 ^ (e - e').
Proof.
  intro H. unfold shl_align. destruct (e' - e) as [|p|p] eqn:E; try lia; cbn [fst].
  - replace (e - e') with 0 by lia. lia.
  - replace (e - e') with (Zpos p) by lia. rewrite Pos2Z.inj_pow_pos || idtac.
    rewrite shift_pos_correct. rewrite Zpower_pos_nat, Zpower_nat_Z. rewrite positive_nat_Z. lia.
Qed.

Lemma binary_round_sign s m e :
  -1074 <= e ->
  (exists m' e', binary_round 53 1024 s m e = S754_finite s m' e' /\ -1074 <= e') \/
  binary_round 53 1024 s m e = S754_infinity s.
Proof.
  intro He. unfold binary_round.
  set (t := fexp 53 1024 (Zpos (digits2_pos m) + e)).
  assert (Ht : -1074 <= t) by (subst t; unfold fexp, emin; lia).
  destruct (shl_align m e t) as [mz ez] eqn:E.
  assert (-1074 <= ez).
  { unfold shl_align in E. destruct (t - e); injection E as <- <-; lia. }
  apply binary_round_aux_sign; lia.
Qed.

(** The sign of the rounded difference decides the order, except for NaN operands and equal infinities. *)
Definition same_inf (x y : spec_float) : Prop :=
  match x, y with S754_infinity s, S754_infinity s' => s = s' | _, _ => False end.

Lemma sub_sign x y :
  valid x = true -> valid y = true -> x <> S754_nan -> y <> S754_nan -> ~ same_inf x y ->
  (SFeqb (SFsub64 x y) sfzero = true <-> req x y) /\
  (SFgtb (SFsub64 x y) sfzero = true <-> rlt y x).
Proof.
  intros Vx Vy Nx Ny NI. unfold SFsub64, SFgtb, sfzero.
  destruct x as [s|s| |s m e], y as [s'|s'| |s' m' e']; try congruence; cbn [same_inf] in NI;
  try (cbn [SFsub req rlt]; signs; bools; cbn in *; split; fin; fail).
  - cbn [SFsub req rlt].
    assert (Ve : -1074 <= e) by (apply valid_finite in Vx; lia).
    assert (Ve' : -1074 <= e') by (apply valid_finite in Vy; lia).
    set (ez := Z.min e e').
    assert (Hez : -1074 <= ez) by (subst ez; lia).
    rewrite !shl_align_spec by (subst ez; lia).
    assert (Hsc : forall t mm ee, ez <= ee ->
              scaled t mm ee = cond_Zopp t (Zpos mm * 2 ^ (ee - ez)) * 2 ^ (ez + 1074)).
    { intros t mm ee L. unfold scaled, cond_Zopp.
      replace (ee + 1074) with ((ee - ez) + (ez + 1074)) by lia.
      rewrite (Z.pow_add_r 2 (ee - ez) (ez + 1074)) by lia. destruct t; ring. }
    rewrite (Hsc s m e) by (subst ez; lia). rewrite (Hsc s' m' e') by (subst ez; lia).
    set (A := cond_Zopp s (Zpos m * 2 ^ (e - ez))). set (B := cond_Zopp s' (Zpos m' * 2 ^ (e' - ez))).
    assert (P : 0 < 2 ^ (ez + 1074)) by (apply Z.pow_pos_nonneg; lia).
    assert (R1 : (A * 2 ^ (ez + 1074) = B * 2 ^ (ez + 1074)) <-> A - B = 0) by nia.
    assert (R2 : (B * 2 ^ (ez + 1074) < A * 2 ^ (ez + 1074)) <-> 0 < A - B) by nia.
    rewrite R1, R2. clear R1 R2 Hsc. clearbody A B.
    destruct (A - B) as [|p|p] eqn:D.
    + cbn; split; fin.
    + cbn [binary_normalize].
      destruct (binary_round_sign false p ez Hez) as [(m1 & e1 & -> & _)| ->]; cbn; split; fin.
    + cbn [binary_normalize].
      destruct (binary_round_sign true p ez Hez) as [(m1 & e1 & -> & _)| ->]; cbn; split; fin.
Qed.

(** ** Rounding to integers *)
Definition unit1074 : Z := 2 ^ 1074.

Lemma fin_trunc_bounds m e : -1074 <= e ->
  fin_trunc m e * unit1074 <= Zpos m * 2 ^ (e + 1074) < (fin_trunc m e + 1) * unit1074 /\
  (fin_exact m e = true <-> fin_trunc m e * unit1074 = Zpos m * 2 ^ (e + 1074)).
Proof.
  intro He. unfold fin_trunc, fin_exact, unit1074.
  destruct (0 <=? e) eqn:E.
  - rewrite (Z.pow_add_r 2 e 1074) by lia.
    assert (0 < 2 ^ 1074) by (apply Z.pow_pos_nonneg; lia).
    set (U := 2 ^ 1074) in *. clearbody U. set (Q := 2 ^ e). clearbody Q.
    split; [nia|]. split; intros _; [ring|reflexivity].
  - replace (2 ^ 1074) with (2 ^ (- e) * 2 ^ (e + 1074)) by (rewrite <- Z.pow_add_r by lia; f_equal; lia).
    assert (0 < 2 ^ (e + 1074)) by (apply Z.pow_pos_nonneg; lia).
    assert (0 < 2 ^ (- e)) by (apply Z.pow_pos_nonneg; lia).
    set (P := 2 ^ (e + 1074)) in *. set (Q := 2 ^ (- e)) in *. clearbody P Q.
    pose proof (Z.div_mod (Zpos m) Q ltac:(lia)) as D.
    pose proof (Z.mod_pos_bound (Zpos m) Q ltac:(lia)) as B.
    set (q := Zpos m / Q) in *. set (r := Zpos m mod Q) in *. clearbody q r.
    rewrite D. split; [nia|].
    rewrite Z.eqb_eq. split; intro; nia.
Qed.

Lemma fin_round_bounds m e : -1074 <= e ->
  (2 * fin_round m e - 1) * unit1074 <= 2 * (Zpos m * 2 ^ (e + 1074)) < (2 * fin_round m e + 1) * unit1074.
Proof.
  intro He. unfold fin_round, unit1074.
  destruct (0 <=? e) eqn:E.
  - rewrite (Z.pow_add_r 2 e 1074) by lia.
    assert (0 < 2 ^ 1074) by (apply Z.pow_pos_nonneg; lia).
    set (U := 2 ^ 1074) in *. clearbody U. set (Q := 2 ^ e). clearbody Q. nia.
  - replace (2 ^ 1074) with (2 ^ (- e) * 2 ^ (e + 1074)) by (rewrite <- Z.pow_add_r by lia; f_equal; lia).
    assert (0 < 2 ^ (e + 1074)) by (apply Z.pow_pos_nonneg; lia).
    assert (0 < 2 ^ (- e)) by (apply Z.pow_pos_nonneg; lia).
    set (P := 2 ^ (e + 1074)) in *. set (Q := 2 ^ (- e)) in *. clearbody P Q.
    pose proof (Z.div_mod (2 * Zpos m + Q) (2 * Q) ltac:(lia)) as D.
    pose proof (Z.mod_pos_bound (2 * Zpos m + Q) (2 * Q) ltac:(lia)) as B.
    set (q := (2 * Zpos m + Q) / (2 * Q)) in *. set (r := (2 * Zpos m + Q) mod (2 * Q)) in *. clearbody q r.
    nia.
Qed.

(** Exact value of a finite double or zero, times 2^1074. *)
Definition scaled_sf (x : spec_float) : option Z :=
  match x with
  | S754_zero _ => Some 0
  | S754_finite s m e => Some (scaled s m e)
  | _ => None
  end.

Lemma rounding_spec x M :
  valid x = true -> scaled_sf x = Some M ->
  exists f c t r,
    sf_floor x = Some f /\ sf_ceil x = Some c /\ sf_trunc x = Some t /\ sf_round x = Some r /\
    f * unit1074 <= M < (f + 1) * unit1074 /\
    (c - 1) * unit1074 < M <= c * unit1074 /\
    t = (if M <? 0 then c else f) /\
    (0 <= M -> (2 * r - 1) * unit1074 <= 2 * M < (2 * r + 1) * unit1074) /\
    (M < 0 -> (2 * r - 1) * unit1074 < 2 * M <= (2 * r + 1) * unit1074).
Proof.
  intros V HM.
  assert (Hu : 0 < unit1074) by (apply Z.pow_pos_nonneg; lia).
  destruct x as [s|s| |s m e]; cbn [scaled_sf] in HM; try discriminate; injection HM as <-.
  - exists 0, 0, 0, 0. cbn [sf_floor sf_ceil sf_trunc sf_round sf_int].
    repeat (split; [reflexivity|]). split; [lia|]. split; [lia|]. split; [reflexivity|]. lia.
  - assert (He : -1074 <= e) by (apply valid_finite in V; lia).
    pose proof (fin_trunc_bounds m e He) as [T X].
    pose proof (fin_round_bounds m e He) as R.
    unfold sf_floor, sf_ceil, sf_trunc, sf_round, sf_int, scaled.
    assert (0 < Zpos m * 2 ^ (e + 1074)).
    { assert (0 < 2 ^ (e + 1074)) by (apply Z.pow_pos_nonneg; lia). nia. }
    set (N := Zpos m * 2 ^ (e + 1074)) in *. clearbody N.
    set (U := unit1074) in *. clearbody U.
    set (tr := fin_trunc m e) in *. set (rd := fin_round m e) in *. clearbody tr rd.
    do 4 eexists. repeat (split; [reflexivity|]).
    destruct s.
    + destruct (fin_exact m e).
      * assert (tr * U = N) by (apply X; reflexivity).
        split; [nia|]. split; [nia|]. split; [destruct (-1 * N <? 0) eqn:Z1; lia|]. lia.
      * assert (tr * U <> N) by (intro Q; apply X in Q; discriminate).
        split; [nia|]. split; [nia|]. split; [destruct (-1 * N <? 0) eqn:Z1; lia|]. lia.
    + destruct (fin_exact m e).
      * assert (tr * U = N) by (apply X; reflexivity).
        split; [nia|]. split; [nia|]. split; [destruct (1 * N <? 0) eqn:Z1; lia|]. lia.
      * assert (tr * U <> N) by (intro Q; apply X in Q; discriminate).
        split; [nia|]. split; [nia|]. split; [destruct (1 * N <? 0) eqn:Z1; lia|]. lia.
Qed.
