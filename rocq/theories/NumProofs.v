From Coq Require Import ZArith Lia Bool List.
From Coq Require Import ZifyBool.
From Coq.Floats Require Import SpecFloat.
From Verif Require Import Base NumModel NumSpec.
Import ListNotations.
Local Open Scope Z_scope.
Ltac Zify.zify_post_hook ::= Z.div_mod_to_equations.

(** ** Machine integers *)
Lemma u64_range z : 0 <= u64 z < two64.
Proof. unfold u64, wrapu. apply Z.mod_pos_bound. reflexivity. Qed.

Lemma s64_range z : in_s64 (s64 z).
Proof. unfold in_s64, s64, wraps, INT64_MIN, INT64_MAX, two63, two64. lia. Qed.

Lemma s64_id z : in_s64 z -> s64 z = z.
Proof. unfold in_s64, s64, wraps, INT64_MIN, INT64_MAX, two63, two64. lia. Qed.

Lemma u64_id z : 0 <= z < two64 -> u64 z = z.
Proof. intro H. unfold u64, wrapu. apply Z.mod_small. exact H. Qed.

Lemma s64_u64 z : in_s64 z -> s64 (u64 z) = z.
Proof. unfold in_s64, s64, u64, wraps, wrapu, INT64_MIN, INT64_MAX, two63, two64. lia. Qed.

Lemma u64_s64 z : 0 <= z < two64 -> u64 (s64 z) = z.
Proof. unfold in_s64, s64, u64, wraps, wrapu, INT64_MIN, INT64_MAX, two63, two64. lia. Qed.

Lemma u64_s64_mod z : u64 (s64 z) = u64 z.
Proof. unfold in_s64, s64, u64, wraps, wrapu, INT64_MIN, INT64_MAX, two63, two64. lia. Qed.

Lemma u64_nonneg z : in_s64 z -> 0 <= z -> u64 z = z.
Proof. unfold in_s64, u64, wrapu, INT64_MIN, INT64_MAX, two63, two64. lia. Qed.

Lemma u64_neg z : in_s64 z -> z < 0 -> u64 z = z + two64.
Proof. unfold in_s64, u64, wrapu, INT64_MIN, INT64_MAX, two63, two64. lia. Qed.

Lemma in_s64b_spec z : in_s64b z = true <-> in_s64 z.
Proof. unfold in_s64b, in_s64. lia. Qed.

Lemma chk64_ok z : in_s64 z -> chk64 z = Ok z.
Proof. intro H. unfold chk64. apply in_s64b_spec in H. rewrite H. reflexivity. Qed.

Lemma chk64_ub z : ~ in_s64 z -> chk64 z = UB.
Proof.
  intro H. unfold chk64. destruct (in_s64b z) eqn:E; [|reflexivity].
  apply in_s64b_spec in E. contradiction.
Qed.

Lemma chk64_inv z r : chk64 z = Ok r -> r = z /\ in_s64 z.
Proof.
  unfold chk64. destruct (in_s64b z) eqn:E; [|discriminate].
  intro H. injection H as <-. split; [reflexivity|]. apply in_s64b_spec. exact E.
Qed.

(** ** C01 *)
Lemma conv_exact dest src v :
  kindOrdinal dest = true -> holds src v ->
  (typeConvOverflow dest src v = true <-> ~ in_range dest (denote src v)).
Proof.
  unfold holds, in_s64, INT64_MIN, INT64_MAX, two63.
  intros Hd [Hs Hr].
  destruct dest; try discriminate Hd;
  destruct src; try contradiction Hr;
  unfold typeConvOverflow, in_range, denote, range in *; cbn [kindSigned] in *; lia.
Qed.

Lemma assert_range_exact dest src v :
  kindOrdinal dest = true -> holds src v ->
  (in_range dest (denote src v) ->
     doAssertRange dest src v = Ok v /\ holds dest v /\ denote dest v = denote src v) /\
  (~ in_range dest (denote src v) -> doAssertRange dest src v = Err EOverflow).
Proof.
  intros Hd Hs. pose proof (conv_exact dest src v Hd Hs) as E. unfold doAssertRange. split.
  - intro Hr. destruct (typeConvOverflow dest src v) eqn:Ov.
    { exfalso. apply E; [reflexivity|exact Hr]. }
    split; [reflexivity|].
    assert (denote dest v = denote src v) as Hden.
    { clear E. unfold holds, in_s64, INT64_MIN, INT64_MAX, two63 in *. destruct Hs as [Hs Hsr].
      destruct dest; try discriminate Hd; destruct src; try contradiction Hsr;
      unfold typeConvOverflow, in_range, denote, range in *; cbn [kindSigned] in *; lia. }
    split; [|exact Hden]. split; [apply Hs|]. rewrite Hden. exact Hr.
  - intro Hr. apply E in Hr. rewrite Hr. reflexivity.
Qed.

(** typeOverflow, the check on assignment, for narrow and 64-bit types. *)
Lemma overflow_exact k v :
  kindOrdinal k = true -> in_s64 v -> k <> KUInt ->
  (typeOverflow k v = true <-> ~ in_range k v).
Proof.
  intros Hk Hv Hu. unfold in_s64, INT64_MIN, INT64_MAX, two63 in Hv.
  destruct k; try discriminate Hk; try congruence;
  unfold typeOverflow, typeConvOverflow, in_range, range; lia.
Qed.

Lemma overflow_uint v : typeOverflow KUInt v = false.
Proof. unfold typeOverflow, typeConvOverflow, kindSigned. destruct (v <? 0); reflexivity. Qed.

(** ** C03 *)
Lemma unary_agree o k a : constUnary o k a = doUnary o k a.
Proof. reflexivity. Qed.

Lemma binary_agree lm o k a b : constBinary lm o k a b = doBinary lm o k a b.
Proof. destruct k; destruct o; reflexivity. Qed.

(** ** C04 *)
Definition is_left_conv (f : mathfn) : bool := match f with FMakeRealLeft => true | _ => false end.

(** Run-time stack on which the builtin finds argument [a] (and second argument [b]); [l] is what lies below. *)
Definition arg_stack (f : mathfn) (a b : Z) (rest : list Z) : list Z :=
  match f with
  | FAtan2 => b :: a :: rest
  | FMakeRealLeft => b :: a :: rest
  | _ => a :: rest
  end.
Definition res_stack (f : mathfn) (r b : Z) (rest : list Z) : list Z :=
  match f with FMakeRealLeft => b :: r :: rest | _ => r :: rest end.

Lemma builtin_agree lm f k a b rest :
  f <> FAtan2 ->
  doMathBuiltin lm f k (arg_stack f a b rest) =
  fmap (fun r => res_stack f r b rest) (constCallBuiltin lm f k a b).
Proof.
  intro Hf. destruct f; try congruence; cbn [arg_stack res_stack doMathBuiltin constCallBuiltin];
  try reflexivity;
  try (destruct k; reflexivity).
  - destruct (a =? INT64_MIN); reflexivity.
  - destruct (SFltb (realVal a) sfzero); reflexivity.
  - destruct (SFleb (realVal a) sfzero); reflexivity.
Qed.

Lemma atan2_agree lm k a b rest :
  SFeqb (realVal a) sfzero = SFeqb (realVal b) sfzero ->
  doMathBuiltin lm FAtan2 k (arg_stack FAtan2 a b rest) =
  fmap (fun r => res_stack FAtan2 r b rest) (constCallBuiltin lm FAtan2 k a b).
Proof.
  intro H. cbn [arg_stack res_stack doMathBuiltin constCallBuiltin].
  rewrite H. destruct (SFeqb (realVal b) sfzero); reflexivity.
Qed.

(** ** C05 *)
Definition int_ord (k : kind) : bool :=
  match k with KInt8 | KInt16 | KInt32 | KInt | KUInt8 | KUInt16 | KUInt32 | KBool | KChar => true | _ => false end.

Lemma quot_range a b : in_s64 a -> in_s64 b -> b <> 0 -> ~ (a = INT64_MIN /\ b = -1) -> in_s64 (Z.quot a b).
Proof.
  unfold in_s64, INT64_MIN, INT64_MAX, two63. intros Ha Hb Hz Hn.
  assert (Z.abs (Z.quot a b) <= Z.abs a) as Habs.
  { rewrite <- Z.quot_abs by exact Hz.
    rewrite Z.quot_div_nonneg by lia. apply Z.div_le_upper_bound; nia. }
  destruct (Z.eq_dec (Z.quot a b) 9223372036854775808) as [E|E].
  - exfalso. pose proof (Z.quot_rem' a b). pose proof (Z.rem_bound_abs a b Hz).
    rewrite E in *.
    assert (a = -9223372036854775808 \/ a = 9223372036854775808) by nia.
    assert (a = -9223372036854775808) by lia. subst a. nia.
  - lia.
Qed.

Lemma rem_range a b : in_s64 a -> in_s64 b -> b <> 0 -> in_s64 (Z.rem a b).
Proof.
  unfold in_s64, INT64_MIN, INT64_MAX, two63. intros Ha Hb Hz.
  pose proof (Z.rem_bound_abs a b Hz). lia.
Qed.

Lemma kind_eq_uint (k : kind) : k = KUInt \/ k <> KUInt.
Proof. destruct k; auto; right; discriminate. Qed.

(** All ordinal kinds except uint. *)
Lemma signed_dispatch lm o k a b :
  kindOrdinal k = true -> k <> KUInt -> doBinary lm o k a b = doBinary lm o KInt a b.
Proof. intros Hk Hu. destruct k; try discriminate Hk; try congruence; reflexivity. Qed.

Lemma quot_math a b : b <> 0 -> Z.quot a b = Z.sgn a * Z.sgn b * (Z.abs a / Z.abs b).
Proof. intro H. apply Z.quot_div. exact H. Qed.

Lemma rem_math a b : b <> 0 -> Z.rem a b = a - b * (Z.sgn a * Z.sgn b * (Z.abs a / Z.abs b)).
Proof. intro H. rewrite <- quot_math by exact H. pose proof (Z.quot_rem' a b). lia. Qed.

Lemma shr_range a n : 0 <= n -> in_s64 a -> in_s64 (a / 2 ^ n).
Proof.
  unfold in_s64, INT64_MIN, INT64_MAX, two63. intros Hn Ha.
  assert (0 < 2 ^ n) by (apply Z.pow_pos_nonneg; lia).
  split.
  - apply Z.div_le_lower_bound; nia.
  - apply Z.lt_succ_r. apply Z.div_lt_upper_bound; nia.
Qed.

(** Signed operators: exact whenever the result is representable and the shift is a legal C shift. *)
Definition legal_shift (o : op) (a b : Z) : Prop :=
  match o with OpShl => 0 <= a /\ 0 <= b <= 63 | OpShr => 0 <= b <= 63 | _ => True end.

Lemma signed_exact lm o k a b r :
  kindOrdinal k = true -> k <> KUInt -> arith_op o = true ->
  in_s64 a -> in_s64 b -> legal_shift o a b ->
  math_op o a b = Some r -> in_s64 r ->
  (o = OpMod -> ~ (a = INT64_MIN /\ b = -1)) ->
  doBinary lm o k a b = Ok r.
Proof.
  intros Hk Hu Ho Ha Hb Hl Hm Hr Hmin. rewrite (signed_dispatch lm o k a b Hk Hu).
  destruct o; try discriminate Ho; cbn [math_op] in Hm;
  unfold doBinary; cbn [kindReal].
  - injection Hm as <-. apply chk64_ok. exact Hr.
  - injection Hm as <-. apply chk64_ok. exact Hr.
  - injection Hm as <-. apply chk64_ok. exact Hr.
  - destruct (b =? 0) eqn:B0; [discriminate|]. injection Hm as <-.
    assert (b <> 0) by lia. rewrite <- quot_math in * by lia.
    unfold cdiv_s. rewrite B0.
    destruct ((a =? INT64_MIN) && (b =? -1)) eqn:M; [|reflexivity].
    exfalso. apply andb_true_iff in M. destruct M as [M1 M2].
    apply Z.eqb_eq in M1, M2. subst. destruct Hr as [_ Hr]. apply Hr. reflexivity.
  - destruct (b =? 0) eqn:B0; [discriminate|]. injection Hm as <-.
    assert (b <> 0) by lia. rewrite <- rem_math in * by lia.
    unfold cmod_s. rewrite B0.
    destruct ((a =? INT64_MIN) && (b =? -1)) eqn:M; [|reflexivity].
    exfalso. apply andb_true_iff in M. destruct M as [M1 M2].
    apply Z.eqb_eq in M1, M2. apply Hmin; [reflexivity|split; assumption].
  - cbn [legal_shift] in Hl. replace (b <? 0) with false in Hm by lia. injection Hm as <-.
    unfold cshl_s. replace ((b <? 0) || (63 <? b)) with false by lia.
    replace (a <? 0) with false by lia. apply chk64_ok. exact Hr.
  - cbn [legal_shift] in Hl. replace (b <? 0) with false in Hm by lia. injection Hm as <-.
    unfold cshr_s. replace ((b <? 0) || (63 <? b)) with false by lia. reflexivity.
Qed.

(** Whatever the operator returns is the mathematical result, and it stays in the int64 range. *)
Lemma signed_sound lm o k a b r :
  kindOrdinal k = true -> k <> KUInt -> arith_op o = true ->
  in_s64 a -> in_s64 b ->
  doBinary lm o k a b = Ok r -> math_op o a b = Some r /\ in_s64 r.
Proof.
  intros Hk Hu Ho Ha Hb. rewrite (signed_dispatch lm o k a b Hk Hu).
  destruct o; try discriminate Ho; unfold doBinary; cbn [kindReal math_op]; intro H.
  - apply chk64_inv in H as [-> H]. auto.
  - apply chk64_inv in H as [-> H]. auto.
  - apply chk64_inv in H as [-> H]. auto.
  - destruct (b =? 0) eqn:B0; [discriminate|]. assert (b <> 0) as Bn by lia.
    destruct ((a =? INT64_MIN) && (b =? -1)) eqn:M; [discriminate|].
    unfold cdiv_s in H. rewrite B0, M in H. injection H as <-.
    split; [rewrite quot_math by exact Bn; reflexivity|].
    apply quot_range; [exact Ha|exact Hb|exact Bn|].
    intros [-> ->]. rewrite !Z.eqb_refl in M. discriminate.
  - destruct (b =? 0) eqn:B0; [discriminate|]. assert (b <> 0) as Bn by lia.
    destruct ((a =? INT64_MIN) && (b =? -1)) eqn:M; [discriminate|].
    unfold cmod_s in H. rewrite B0, M in H. injection H as <-.
    split; [rewrite rem_math by exact Bn; reflexivity|].
    apply rem_range; assumption.
  - unfold cshl_s in H. destruct ((b <? 0) || (63 <? b)) eqn:E; [discriminate|].
    destruct (a <? 0); [discriminate|]. apply chk64_inv in H as [-> H].
    replace (b <? 0) with false by lia. auto.
  - unfold cshr_s in H. destruct ((b <? 0) || (63 <? b)) eqn:E; [discriminate|].
    injection H as <-. replace (b <? 0) with false by lia.
    split; [reflexivity|]. apply shr_range; [lia|exact Ha].
Qed.

(** Division and remainder are total: value or error, never undefined. *)
Lemma div_total lm o k a b :
  kindOrdinal k = true -> (o = OpDiv \/ o = OpMod) -> in_s64 a -> in_s64 b ->
  doBinary lm o k a b <> UB /\
  (denote k b = 0 -> doBinary lm o k a b = Err EDivZero) /\
  (k <> KUInt -> a = INT64_MIN -> b = -1 -> doBinary lm o k a b = Err EOverflow).
Proof.
  intros Hk Ho Ha Hb.
  destruct (kind_eq_uint k) as [->|Hu].
  - split; [|split].
    + destruct Ho as [-> | ->]; unfold doBinary; cbn [kindReal]; destruct (u64 b =? 0) eqn:E; try discriminate;
      unfold cdiv_u, cmod_u; rewrite E; cbn; discriminate.
    + cbn [denote]. intro Z. change (b mod 18446744073709551616) with (u64 b) in Z.
      destruct Ho as [-> | ->]; unfold doBinary; cbn [kindReal]; rewrite Z; reflexivity.
    + congruence.
  - rewrite (signed_dispatch lm o k a b Hk Hu).
    assert (denote k b = b) as Hd by (destruct k; try reflexivity; congruence). rewrite Hd.
    split; [|split].
    + destruct Ho as [-> | ->]; unfold doBinary; cbn [kindReal]; destruct (b =? 0) eqn:E; try discriminate;
      destruct ((a =? INT64_MIN) && (b =? -1)) eqn:M; try discriminate;
      unfold cdiv_s, cmod_s; rewrite E, M; discriminate.
    + intros ->. destruct Ho as [-> | ->]; reflexivity.
    + intros _ -> ->. destruct Ho as [-> | ->]; reflexivity.
Qed.

(** uint arithmetic is arithmetic modulo 2^64; in particular exact when representable. *)
Lemma uint_exact lm o a b r :
  (o = OpPlus \/ o = OpMinus \/ o = OpMul \/ o = OpDiv \/ o = OpMod \/
   ((o = OpShl \/ o = OpShr) /\ denote KUInt b <= 63)) ->
  math_op o (denote KUInt a) (denote KUInt b) = Some r ->
  exists z, doBinary lm o KUInt a b = Ok z /\ in_s64 z /\ denote KUInt z = r mod two64.
Proof.
  change (denote KUInt a) with (u64 a). change (denote KUInt b) with (u64 b).
  pose proof (u64_range a) as Ra. pose proof (u64_range b) as Rb.
  assert (Hden : forall z, denote KUInt (s64 z) = z mod two64) by (intro z; apply u64_s64_mod).
  intros Ho Hm.
  destruct Ho as [->|[->|[->|[->|[->|[[->| ->] Hs]]]]]]; cbn [math_op] in Hm; unfold doBinary; cbn [kindReal].
  1-3: injection Hm as <-; eexists; split; [reflexivity|split; [apply s64_range|apply Hden]].
  - destruct (u64 b =? 0) eqn:E; [discriminate|]. injection Hm as <-.
    unfold cdiv_u. rewrite E. cbn [fmap]. eexists. split; [reflexivity|]. split; [apply s64_range|].
    rewrite Hden. f_equal. rewrite !Z.abs_eq by lia.
    destruct (Z.eq_dec (u64 a) 0) as [->|]; [rewrite Z.div_0_l by lia; reflexivity|].
    rewrite !Z.sgn_pos by lia. lia.
  - destruct (u64 b =? 0) eqn:E; [discriminate|]. injection Hm as <-.
    unfold cmod_u. rewrite E. cbn [fmap]. eexists. split; [reflexivity|]. split; [apply s64_range|].
    rewrite Hden. f_equal. rewrite !Z.abs_eq by lia.
    rewrite Z.mod_eq by lia.
    destruct (Z.eq_dec (u64 a) 0) as [->|]; [rewrite Z.div_0_l by lia; reflexivity|].
    rewrite !Z.sgn_pos by lia. lia.
  - replace (u64 b <? 0) with false in Hm by lia. injection Hm as <-.
    unfold cshl_u. replace (63 <? u64 b) with false by lia. cbn [fmap].
    eexists. split; [reflexivity|]. split; [apply s64_range|]. rewrite Hden.
    unfold u64 at 1, wrapu. rewrite Z.mod_mod by discriminate. reflexivity.
  - replace (u64 b <? 0) with false in Hm by lia. injection Hm as <-.
    unfold cshr_u. replace (63 <? u64 b) with false by lia. cbn [fmap].
    eexists. split; [reflexivity|]. split; [apply s64_range|]. apply Hden.
Qed.

(** Relational operators decide the mathematical relation. *)
Lemma rel_exact lm o k a b R :
  kindOrdinal k = true -> rel_op o = Some R -> in_s64 a -> in_s64 b ->
  exists c : bool, doBinary lm o k a b = Ok (b2z c) /\ (c = true <-> R (denote k a) (denote k b)).
Proof.
  intros Hk HR Ha Hb.
  destruct (kind_eq_uint k) as [->|Hu].
  - change (denote KUInt a) with (u64 a). change (denote KUInt b) with (u64 b).
    destruct o; try discriminate HR; injection HR as <-; unfold doBinary; cbn [kindReal];
    (eexists; split; [reflexivity|lia]).
  - rewrite (signed_dispatch lm o k a b Hk Hu).
    assert (denote k a = a) as -> by (destruct k; try reflexivity; congruence).
    assert (denote k b = b) as -> by (destruct k; try reflexivity; congruence).
    destruct o; try discriminate HR; injection HR as <-; unfold doBinary; cbn [kindReal];
    (eexists; split; [reflexivity|lia]).
Qed.
