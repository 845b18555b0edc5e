From Coq Require Import ZArith Lia Bool List.
From Coq Require Import ZifyBool.
From Coq.Floats Require Import SpecFloat.
From Verif Require Import Base NumModel NumSpec NumProofs RealProofs MemModel MemProofs.
Import ListNotations.
Local Open Scope Z_scope.
Ltac Zify.zify_post_hook ::= Z.div_mod_to_equations.

Lemma FLT_MAX_valid : valid FLT_MAX = true. Proof. vm_compute. reflexivity. Qed.
Lemma DBL_MAX_valid : valid DBL_MAX = true. Proof. vm_compute. reflexivity. Qed.

Lemma opp_valid x : valid x = true -> valid (SFopp x) = true.
Proof. destruct x; auto. Qed.

Lemma dbl_max_bound s m e : valid (S754_finite s m e) = true -> scaled false m e <= scaled false 9007199254740991 971.
Proof.
  intro V. apply valid_finite in V. rewrite pow52, pow53 in V. unfold scaled. rewrite !Z.mul_1_l.
  assert (2 ^ (e + 1074) <= 2 ^ (971 + 1074)) by (apply Z.pow_le_mono_r; lia).
  assert (0 < 2 ^ (e + 1074)) by (apply Z.pow_pos_nonneg; lia). nia.
Qed.

Lemma real_conv_exact src v :
  (typeConvOverflow KReal32 src v = true <-> rlt (realVal v) (SFopp FLT_MAX) \/ rlt FLT_MAX (realVal v)) /\
  (typeConvOverflow KReal src v = true <-> exists s, realVal v = S754_infinity s).
Proof.
  unfold typeConvOverflow. rewrite !orb_true_iff.
  pose proof (realVal_valid v) as V.
  rewrite !SFltb_spec by (try apply opp_valid; try apply FLT_MAX_valid; try apply DBL_MAX_valid; exact V).
  split; [tauto|]. unfold DBL_MAX, SFopp.
  destruct (realVal v) as [s|s| |s m e] eqn:E.
  - cbn [rlt negb]. assert (scaled true 9007199254740991 971 < 0) by (apply (scaled_sign true 9007199254740991 971); lia).
    assert (0 < scaled false 9007199254740991 971) by (apply (scaled_sign false 9007199254740991 971); lia).
    split; [|intros [t H1]; congruence]. intros [H1|H1]; lia.
  - split; [intros _; exists s; reflexivity|]. intros _. destruct s; cbn; auto.
  - cbn. split; [tauto|]. intros [t H]. discriminate.
  - split; [|intros [t H]; discriminate]. cbn [rlt negb].
    pose proof (dbl_max_bound s m e V) as B.
    assert (scaled true 9007199254740991 971 = - scaled false 9007199254740991 971) as O by (unfold scaled; lia).
    assert (scaled s m e = (if s then - scaled false m e else scaled false m e)) as O2
      by (unfold scaled; destruct s; lia).
    assert (0 < scaled false m e).
    { apply (scaled_sign false m e). apply valid_finite in V. lia. }
    rewrite O, O2. intros [H1|H1]; destruct s; lia.
Qed.

Lemma const_mem_agree m k lhs rhs size :
  k <> KMap -> lhs <> 0 -> rhs <> 0 \/ scalar_kind k = true \/ k = KReal32 ->
  constAssign m k lhs rhs size = doAssign m k lhs rhs size /\ constDeref m k lhs = doDeref m k lhs.
Proof. intros. split; [apply const_assign_agree; assumption|apply const_deref_agree; assumption]. Qed.

Lemma increment_wraps :
  exists k v, holds k v /\ ~ in_range k (denote k v + 1) /\
    exists r, incdec k 1 v = Ok r /\ r <> v + 1 /\
    forall m lhs size, lhs <> 0 -> doAssign m k lhs (v + 1) size = Err EOverflow.
Proof.
  exists KInt8, 127. unfold holds, in_s64, in_range, denote, range, INT64_MIN, INT64_MAX, two63.
  split; [lia|]. split; [lia|]. exists (-128). split; [reflexivity|]. split; [lia|].
  intros m lhs size Hl. unfold doAssign. replace (lhs =? 0) with false by lia. reflexivity.
Qed.

Lemma incdec_in_range k d v :
  kindIntegerOrEnum k = true -> holds k v -> (d = 1 \/ d = -1) -> in_range k (denote k v + d) ->
  exists r, incdec k d v = Ok r /\ holds k r /\ denote k r = denote k v + d.
Proof.
  unfold holds, in_s64, INT64_MIN, INT64_MAX. intros Hk [Hs Hr] Hd H.
  destruct k; try discriminate Hk; unfold in_range, denote, range in *; unfold incdec.
  - exists (v + d). unfold wraps, two8. split; [f_equal; lia|unfold two63; lia].
  - exists (v + d). unfold wraps, two16. split; [f_equal; lia|unfold two63; lia].
  - exists (v + d). unfold INT_MIN, INT_MAX, two31.
    replace ((- (2147483648) <=? v + d) && (v + d <=? 2147483648 - 1)) with true by lia.
    split; [reflexivity|unfold two63; lia].
  - exists (v + d). rewrite chk64_ok by (unfold in_s64, INT64_MIN, INT64_MAX, two63; lia).
    split; [reflexivity|unfold two63; lia].
  - exists (v + d). unfold wrapu, two8. split; [f_equal; lia|unfold two63; lia].
  - exists (v + d). unfold wrapu, two16. split; [f_equal; lia|unfold two63; lia].
  - exists (v + d). unfold wrapu, two32. split; [f_equal; lia|unfold two63; lia].
  - exists (s64 (u64 v + d)). split; [reflexivity|].
    pose proof (s64_range (u64 v + d)) as R. unfold in_s64, INT64_MIN, INT64_MAX in R.
    assert (s64 (u64 v + d) mod 18446744073709551616 = v mod 18446744073709551616 + d) as E.
    { change (s64 (u64 v + d) mod 18446744073709551616) with (u64 (s64 (u64 v + d))).
      rewrite u64_s64; [reflexivity|]. unfold u64, wrapu, two64 in *. lia. }
    rewrite E. split; [split; [exact R|exact H]|reflexivity].
Qed.

Lemma folding_agree lm o k a b :
  constUnary o k a = doUnary o k a /\ constBinary lm o k a b = doBinary lm o k a b.
Proof. split; [apply unary_agree|apply binary_agree]. Qed.

Lemma builtin_folding lm f k a b rest :
  (f = FAtan2 -> SFeqb (realVal a) sfzero = SFeqb (realVal b) sfzero) ->
  doMathBuiltin lm f k (arg_stack f a b rest) =
  fmap (fun r => res_stack f r b rest) (constCallBuiltin lm f k a b).
Proof.
  intro H. destruct f; try (apply builtin_agree; discriminate).
  apply atan2_agree. apply H. reflexivity.
Qed.

Lemma atan2_disagree : forall lm, exists a b, forall rest,
    constCallBuiltin lm FAtan2 KReal a b = Err EDomain /\
    doMathBuiltin lm FAtan2 KReal (arg_stack FAtan2 a b rest) =
      Ok (realSlot (m_atan2 lm (realVal a) (realVal b)) :: rest) /\
    realVal a = S754_zero false /\ realVal b = real_of_int 1.
Proof.
  intro lm. exists 0, 4607182418800017408. intro rest. repeat split; reflexivity.
Qed.

Lemma ub_witnesses :
  forall lm, doBinary lm OpPlus KInt INT64_MAX 1 = UB /\ doBinary lm OpMinus KInt INT64_MIN 1 = UB /\
    doBinary lm OpMul KInt INT64_MAX 2 = UB /\ doBinary lm OpShl KInt 1 64 = UB /\ doBinary lm OpShr KInt 1 (-1) = UB /\
    doUnary OpMinus KInt INT64_MIN = UB /\ constBinary lm OpPlus KInt INT64_MAX 1 = UB /\
    doBinary lm OpShl KUInt 1 64 = UB.
Proof. intro lm. repeat split; reflexivity. Qed.

Lemma testbit_s64 z i : 0 <= i < 64 -> Z.testbit (s64 z) i = Z.testbit z i.
Proof.
  intro Hi.
  assert (E : exists q, s64 z = z + q * 2 ^ 64).
  { exists (- ((z + two64 / 2) / two64)). unfold s64, wraps.
    pose proof (Z.div_mod (z + two64 / 2) two64 ltac:(discriminate)).
    change (2 ^ 64) with two64. change (two64 / 2) with two63 in *. unfold two64, two63 in *. lia. }
  destruct E as [q ->].
  rewrite <- (Z.mod_pow2_bits_low (z + q * 2 ^ 64) 64) by lia.
  rewrite Z_mod_plus_full. rewrite Z.mod_pow2_bits_low by lia. reflexivity.
Qed.

Lemma testbit_u64 z i : 0 <= i < 64 -> Z.testbit (u64 z) i = Z.testbit z i.
Proof. intro Hi. unfold u64, wrapu. change two64 with (2 ^ 64). apply Z.mod_pow2_bits_low. lia. Qed.

Lemma s64_bits z : in_s64 z <-> forall i, 63 <= i -> Z.testbit z i = (z <? 0).
Proof.
  split.
  - intros H i Hi. unfold in_s64, INT64_MIN, INT64_MAX, two63 in H.
    destruct (z <? 0) eqn:Hz.
    + assert (Z.testbit (Z.lnot z) i = false) as T.
      { apply (Z.bits_above_log2); [unfold Z.lnot; lia|].
        apply Z.lt_le_trans with 63; [|exact Hi].
        destruct (Z.eq_dec (Z.lnot z) 0) as [->|Hn]; [reflexivity|].
        apply Z.log2_lt_pow2; unfold Z.lnot in *; lia. }
      rewrite Z.lnot_spec in T by lia. destruct (Z.testbit z i); [reflexivity|discriminate].
    + apply (Z.bits_above_log2); [lia|].
      apply Z.lt_le_trans with 63; [|exact Hi].
      destruct (Z.eq_dec z 0) as [->|Hn]; [reflexivity|].
      apply Z.log2_lt_pow2; lia.
  - intro H. unfold in_s64, INT64_MIN, INT64_MAX.
    change two63 with (2 ^ 63).
    destruct (z <? 0) eqn:Hz.
    + assert (Z.lnot z < 2 ^ 63); [|unfold Z.lnot in *; lia].
      destruct (Z.eq_dec (Z.lnot z) 0) as [->|Hn]; [reflexivity|].
      apply Z.log2_lt_pow2; [unfold Z.lnot in *; lia|].
      apply Z.nle_gt. intro C.
      pose proof (Z.bit_log2 (Z.lnot z) ltac:(unfold Z.lnot in *; lia)) as B.
      rewrite Z.lnot_spec in B by lia. rewrite H in B by exact C. discriminate.
    + assert (z < 2 ^ 63); [|lia].
      destruct (Z.eq_dec z 0) as [->|Hn]; [reflexivity|].
      apply Z.log2_lt_pow2; [lia|].
      apply Z.nle_gt. intro C.
      pose proof (Z.bit_log2 z ltac:(lia)) as B. rewrite H in B by exact C. discriminate.
Qed.

Lemma bitwise_exact lm o k a b :
  kindOrdinal k = true -> (o = OpAnd \/ o = OpOr \/ o = OpXor) -> in_s64 a -> in_s64 b ->
  exists z, doBinary lm o k a b = Ok z /\ in_s64 z /\
    forall i, 0 <= i < 64 -> Z.testbit z i =
      match o with
      | OpAnd => Z.testbit a i && Z.testbit b i
      | OpOr => Z.testbit a i || Z.testbit b i
      | _ => xorb (Z.testbit a i) (Z.testbit b i)
      end.
Proof.
  intros Hk Ho Ha Hb.
  destruct (kind_eq_uint k) as [->|Hu].
  - destruct Ho as [->|[->| ->]]; unfold doBinary; cbn [kindReal];
    (eexists; split; [reflexivity|]; split; [apply s64_range|]; intros i Hi;
     rewrite testbit_s64 by lia; rewrite ?Z.land_spec, ?Z.lor_spec, ?Z.lxor_spec;
     rewrite !testbit_u64 by lia; reflexivity).
  - rewrite (signed_dispatch lm o k a b Hk Hu).
    pose proof (proj1 (s64_bits a) Ha) as Ba. pose proof (proj1 (s64_bits b) Hb) as Bb.
    destruct Ho as [->|[->| ->]]; unfold doBinary; cbn [kindReal];
    (eexists; split; [reflexivity|]; split;
     [apply s64_bits; intros i Hi |
      intros i Hi; rewrite ?Z.land_spec, ?Z.lor_spec, ?Z.lxor_spec; reflexivity]).
    + rewrite Z.land_spec, Ba, Bb by lia.
      pose proof (Z.land_neg a b). destruct (a <? 0) eqn:?, (b <? 0) eqn:?, (Z.land a b <? 0) eqn:?; cbn; lia.
    + rewrite Z.lor_spec, Ba, Bb by lia.
      pose proof (Z.lor_neg a b). destruct (a <? 0) eqn:?, (b <? 0) eqn:?, (Z.lor a b <? 0) eqn:?; cbn; lia.
    + rewrite Z.lxor_spec, Ba, Bb by lia.
      pose proof (Z.lxor_nonneg a b). destruct (a <? 0) eqn:?, (b <? 0) eqn:?, (Z.lxor a b <? 0) eqn:?; cbn; lia.
Qed.

Lemma div_identity lm k a b q r :
  kindOrdinal k = true -> k <> KUInt -> in_s64 a -> in_s64 b ->
  doBinary lm OpDiv k a b = Ok q -> doBinary lm OpMod k a b = Ok r ->
  a = q * b + r /\ Z.abs r < Z.abs b /\ (r = 0 \/ Z.sgn r = Z.sgn a).
Proof.
  intros Hk Hu Ha Hb. rewrite !(signed_dispatch lm _ k a b Hk Hu). unfold doBinary; cbn [kindReal].
  destruct (b =? 0) eqn:B0; [discriminate|].
  destruct ((a =? INT64_MIN) && (b =? -1)) eqn:M; [discriminate|].
  unfold cdiv_s, cmod_s. rewrite B0, M. intros Hq Hr. injection Hq as <-. injection Hr as <-.
  assert (b <> 0) by lia.
  split; [pose proof (Z.quot_rem' a b); lia|].
  split; [apply Z.rem_bound_abs; assumption|].
  destruct (Z.eq_dec (Z.rem a b) 0); [left; assumption|right].
  pose proof (Z.rem_sign_mul a b ltac:(assumption)) as S.
  destruct (Z.lt_trichotomy a 0) as [L|[->|G]].
  - rewrite (Z.sgn_neg a L), Z.sgn_neg; [reflexivity|]. set (y := Z.rem a b) in *. clearbody y. nia.
  - rewrite Z.rem_0_l in n by assumption. congruence.
  - rewrite (Z.sgn_pos a G), Z.sgn_pos; [reflexivity|]. set (y := Z.rem a b) in *. clearbody y. nia.
Qed.

Lemma rounding_builtins lm x M v :
  valid x = true -> scaled_sf x = Some M -> v = realSlot x ->
  exists f c t r,
    (f * unit1074 <= M < (f + 1) * unit1074) /\
    ((c - 1) * unit1074 < M <= c * unit1074) /\
    t = (if M <? 0 then c else f) /\
    (0 <= M -> (2 * r - 1) * unit1074 <= 2 * M < (2 * r + 1) * unit1074) /\
    (M < 0 -> (2 * r - 1) * unit1074 < 2 * M <= (2 * r + 1) * unit1074) /\
    forall rest,
    doMathBuiltin lm FFloor KReal (v :: rest) = (if in_s64b f then Ok (f :: rest) else UB) /\
    doMathBuiltin lm FCeil KReal (v :: rest) = (if in_s64b c then Ok (c :: rest) else UB) /\
    doMathBuiltin lm FTrunc KReal (v :: rest) = (if in_s64b t then Ok (t :: rest) else UB) /\
    doMathBuiltin lm FRound KReal (v :: rest) = (if in_s64b r then Ok (r :: rest) else UB).
Proof.
  intros V HM ->. destruct (rounding_spec x M V HM) as (f & c & t & r & Hf & Hc & Ht & Hr & B1 & B2 & B3 & B4 & B5).
  exists f, c, t, r. repeat (split; [assumption|]).
  intro rest. cbn [doMathBuiltin]. rewrite (realVal_realSlot x V), Hf, Hc, Ht, Hr.
  cbn [cast_s64]. unfold chk64.
  destruct (in_s64b f), (in_s64b c), (in_s64b t), (in_s64b r); repeat split; reflexivity.
Qed.

Lemma round_ub : forall lm,
  doMathBuiltin lm FRound KReal [realSlot (real_of_int 10000000000000000000)] = UB /\
  doMathBuiltin lm FRound KReal [realSlot S754_nan] = UB.
Proof. intro lm. split; vm_compute; reflexivity. Qed.
