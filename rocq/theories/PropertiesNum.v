(** Property theorems C01-C05 and C46: integer/real values, conversions, operators, math builtins. *)
From Coq Require Import ZArith Lia Bool List.
From Coq.Floats Require Import SpecFloat.
From Verif Require Import Base NumModel NumSpec NumProofs RealProofs MemModel MemProofs NumExtra.
Import ListNotations.
Local Open Scope Z_scope.

(** C01: the overflow check on ordinal conversions is exact, and an accepted conversion keeps the value. *)
Theorem C01_ordinal_conversion_exact :
  forall dest src v, kindOrdinal dest = true -> holds src v ->
    (in_range dest (denote src v) ->
       doAssertRange dest src v = Ok v /\ holds dest v /\ denote dest v = denote src v) /\
    (~ in_range dest (denote src v) -> doAssertRange dest src v = Err EOverflow).
Proof. exact assert_range_exact. Qed.
Print Assumptions C01_ordinal_conversion_exact.

Example C01_example_rejects_big_uint : holds KUInt (-5) /\ ~ in_range KInt (denote KUInt (-5)).
Proof. unfold holds, in_s64, in_range, denote, range, INT64_MIN, INT64_MAX, two63. cbn. lia. Qed.
Example C01_example_accepts : holds KInt 200 /\ in_range KUInt8 (denote KInt 200).
Proof. unfold holds, in_s64, in_range, denote, range, INT64_MIN, INT64_MAX, two63. cbn. lia. Qed.

(** C01, reals: the conversion to real/real32 fails exactly for values above the largest finite one (and infinities). *)
Theorem C01_real_conversion_exact :
  forall src v,
    (typeConvOverflow KReal32 src v = true <-> rlt (realVal v) (SFopp FLT_MAX) \/ rlt FLT_MAX (realVal v)) /\
    (typeConvOverflow KReal src v = true <-> exists s, realVal v = S754_infinity s).
Proof. exact real_conv_exact. Qed.
Print Assumptions C01_real_conversion_exact.

Example C01_example_real : realVal (realSlot (S754_infinity true)) = S754_infinity true.
Proof. reflexivity. Qed.

(** C02: what is stored without error is what is read back; nothing outside the variable changes. *)
Theorem C02_store_load_roundtrip :
  forall m k lhs rhs size m', scalar_kind k = true -> in_s64 rhs ->
    doAssign m k lhs rhs size = Ok m' ->
    doDeref m' k lhs = Ok rhs /\
    (forall x, (x < lhs \/ lhs + Z.of_nat (kind_bytes k) <= x) -> m' x = m x) /\
    (bytes_ok m -> bytes_ok m').
Proof. exact assign_scalar. Qed.
Print Assumptions C02_store_load_roundtrip.

Theorem C02_store_fails_iff_out_of_range :
  forall m k lhs rhs size, kindOrdinal k = true -> k <> KUInt -> in_s64 rhs -> lhs <> 0 ->
    (in_range k rhs -> exists m', doAssign m k lhs rhs size = Ok m') /\
    (~ in_range k rhs -> doAssign m k lhs rhs size = Err EOverflow).
Proof. exact assign_error_iff. Qed.
Print Assumptions C02_store_fails_iff_out_of_range.

Theorem C02_aggregate_copy :
  forall m k lhs rhs size m',
    match k with KArray | KDynArray | KMap | KStruct | KInterface | KClosure => true | _ => false end = true ->
    0 <= size ->
    doAssign m k lhs rhs size = Ok m' ->
    (forall i, 0 <= i < size -> m' (lhs + i) = m (rhs + i)) /\
    (forall x, (x < lhs \/ lhs + size <= x) -> m' x = m x).
Proof. exact assign_aggregate. Qed.
Print Assumptions C02_aggregate_copy.

Theorem C02_compile_time_store_agrees :
  forall m k lhs rhs size, k <> KMap -> lhs <> 0 -> rhs <> 0 \/ scalar_kind k = true \/ k = KReal32 ->
    constAssign m k lhs rhs size = doAssign m k lhs rhs size /\ constDeref m k lhs = doDeref m k lhs.
Proof. exact const_mem_agree. Qed.
Print Assumptions C02_compile_time_store_agrees.

Example C02_example : exists m', doAssign (fun _ => 0) KInt16 100 (-300) 2 = Ok m' /\ m' 100 = 212 /\ m' 101 = 254.
Proof. eexists. split; [reflexivity|]. split; reflexivity. Qed.
Example C02_example_struct : exists m', doAssign (fun x => x) KStruct 100 40 8 = Ok m' /\ m' 103 = 43.
Proof. eexists. split; reflexivity. Qed.

(** C02 does not extend to ++: an int8 variable holding 127 silently becomes -128 (while x += 1 is an error). *)
Theorem C02_increment_refuted :
  exists k v, holds k v /\ ~ in_range k (denote k v + 1) /\
    exists r, incdec k 1 v = Ok r /\ r <> v + 1 /\
    forall m lhs size, lhs <> 0 -> doAssign m k lhs (v + 1) size = Err EOverflow.
Proof. exact increment_wraps. Qed.
Print Assumptions C02_increment_refuted.

(** Inside the range, ++ and -- add and subtract one. *)
Theorem C02_increment_in_range_partial :
  forall k d v, kindIntegerOrEnum k = true -> holds k v -> (d = 1 \/ d = -1) -> in_range k (denote k v + d) ->
    exists r, incdec k d v = Ok r /\ holds k r /\ denote k r = denote k v + d.
Proof. exact incdec_in_range. Qed.
Print Assumptions C02_increment_in_range_partial.

Example C02_increment_example : holds KUInt (-2) /\ in_range KUInt (denote KUInt (-2) + 1).
Proof. unfold holds, in_s64, in_range, denote, range, INT64_MIN, INT64_MAX, two63. cbn. lia. Qed.

(** C03: folding an operator at compile time gives what the instruction gives at run time. *)
Theorem C03_folding_agrees :
  forall lm o k a b,
    constUnary o k a = doUnary o k a /\ constBinary lm o k a b = doBinary lm o k a b.
Proof. exact folding_agree. Qed.
Print Assumptions C03_folding_agrees.

Example C03_example lm : doBinary lm OpDiv KInt (-7) 2 = Ok (-3) /\ constBinary lm OpDiv KInt 5 0 = Err EDivZero.
Proof. split; reflexivity. Qed.

(** C04: the same for math builtins, except atan2. *)
Theorem C04_builtin_folding_agrees_partial :
  forall lm f k a b rest,
    (f = FAtan2 -> SFeqb (realVal a) sfzero = SFeqb (realVal b) sfzero) ->
    doMathBuiltin lm f k (arg_stack f a b rest) =
    fmap (fun r => res_stack f r b rest) (constCallBuiltin lm f k a b).
Proof. exact builtin_folding. Qed.
Print Assumptions C04_builtin_folding_agrees_partial.

Example C04_example lm : constCallBuiltin lm FTrunc KReal (realSlot (real_of_int (-7))) 0 = Ok (-7).
Proof. vm_compute. reflexivity. Qed.

(** atan2(0, 1) is a compile-time error when folded and a value at run time. *)
Theorem C04_atan2_folding_refuted :
  forall lm, exists a b, forall rest,
    constCallBuiltin lm FAtan2 KReal a b = Err EDomain /\
    doMathBuiltin lm FAtan2 KReal (arg_stack FAtan2 a b rest) =
      Ok (realSlot (m_atan2 lm (realVal a) (realVal b)) :: rest) /\
    realVal a = S754_zero false /\ realVal b = real_of_int 1.
Proof. exact atan2_disagree. Qed.
Print Assumptions C04_atan2_folding_refuted.

(** C05: signed operators return the mathematical result or fail; unsigned ones work modulo 2^64. *)
Theorem C05_signed_exact :
  forall lm o k a b r,
    kindOrdinal k = true -> k <> KUInt -> arith_op o = true ->
    in_s64 a -> in_s64 b -> legal_shift o a b ->
    math_op o a b = Some r -> in_s64 r ->
    (o = OpMod -> ~ (a = INT64_MIN /\ b = -1)) ->
    doBinary lm o k a b = Ok r.
Proof. exact signed_exact. Qed.
Print Assumptions C05_signed_exact.

Theorem C05_signed_sound :
  forall lm o k a b r,
    kindOrdinal k = true -> k <> KUInt -> arith_op o = true -> in_s64 a -> in_s64 b ->
    doBinary lm o k a b = Ok r -> math_op o a b = Some r /\ in_s64 r.
Proof. exact signed_sound. Qed.
Print Assumptions C05_signed_sound.

Theorem C05_division_total :
  forall lm o k a b,
    kindOrdinal k = true -> (o = OpDiv \/ o = OpMod) -> in_s64 a -> in_s64 b ->
    doBinary lm o k a b <> UB /\
    (denote k b = 0 -> doBinary lm o k a b = Err EDivZero) /\
    (k <> KUInt -> a = INT64_MIN -> b = -1 -> doBinary lm o k a b = Err EOverflow).
Proof. exact div_total. Qed.
Print Assumptions C05_division_total.

Theorem C05_unsigned_modular :
  forall lm o a b r,
    (o = OpPlus \/ o = OpMinus \/ o = OpMul \/ o = OpDiv \/ o = OpMod \/
     ((o = OpShl \/ o = OpShr) /\ denote KUInt b <= 63)) ->
    math_op o (denote KUInt a) (denote KUInt b) = Some r ->
    exists z, doBinary lm o KUInt a b = Ok z /\ in_s64 z /\ denote KUInt z = r mod two64.
Proof. exact uint_exact. Qed.
Print Assumptions C05_unsigned_modular.

Theorem C05_bitwise :
  forall lm o k a b,
    kindOrdinal k = true -> (o = OpAnd \/ o = OpOr \/ o = OpXor) -> in_s64 a -> in_s64 b ->
    exists z, doBinary lm o k a b = Ok z /\ in_s64 z /\
      forall i, 0 <= i < 64 -> Z.testbit z i =
        match o with
        | OpAnd => Z.testbit a i && Z.testbit b i
        | OpOr => Z.testbit a i || Z.testbit b i
        | _ => xorb (Z.testbit a i) (Z.testbit b i)
        end.
Proof. exact bitwise_exact. Qed.
Print Assumptions C05_bitwise.

Theorem C05_relational :
  forall lm o k a b R,
    kindOrdinal k = true -> rel_op o = Some R -> in_s64 a -> in_s64 b ->
    exists c : bool, doBinary lm o k a b = Ok (b2z c) /\ (c = true <-> R (denote k a) (denote k b)).
Proof. exact rel_exact. Qed.
Print Assumptions C05_relational.

Theorem C05_division_identity :
  forall lm k a b q r,
    kindOrdinal k = true -> k <> KUInt -> in_s64 a -> in_s64 b ->
    doBinary lm OpDiv k a b = Ok q -> doBinary lm OpMod k a b = Ok r ->
    a = q * b + r /\ Z.abs r < Z.abs b /\ (r = 0 \/ Z.sgn r = Z.sgn a).
Proof. exact div_identity. Qed.
Print Assumptions C05_division_identity.

Example C05_example lm : doBinary lm OpMod KInt (-7) 2 = Ok (-1) /\ doBinary lm OpMinus KUInt 0 1 = Ok (-1)
  /\ denote KUInt (-1) = 18446744073709551615.
Proof. repeat split; reflexivity. Qed.

(** The full claim (an error instead of undefined behaviour for every operator) is false for + - * << >> and unary minus. *)
Theorem C05_no_undefined_behaviour_refuted :
  forall lm, doBinary lm OpPlus KInt INT64_MAX 1 = UB /\ doBinary lm OpMinus KInt INT64_MIN 1 = UB /\
    doBinary lm OpMul KInt INT64_MAX 2 = UB /\ doBinary lm OpShl KInt 1 64 = UB /\ doBinary lm OpShr KInt 1 (-1) = UB /\
    doUnary OpMinus KInt INT64_MIN = UB /\ constBinary lm OpPlus KInt INT64_MAX 1 = UB /\
    doBinary lm OpShl KUInt 1 64 = UB.
Proof. exact ub_witnesses. Qed.
Print Assumptions C05_no_undefined_behaviour_refuted.

(** C46: round/trunc/ceil/floor give the documented integer whenever it fits int. *)
Theorem C46_rounding_exact :
  forall lm x M v,
    valid_binary 53 1024 x = true -> scaled_sf x = Some M -> v = realSlot x ->
    exists f c t r,
      (f * unit1074 <= M < (f + 1) * unit1074) /\
      ((c - 1) * unit1074 < M <= c * unit1074) /\
      t = (if M <? 0 then c else f) /\
      (0 <= M -> (2 * r - 1) * unit1074 <= 2 * M < (2 * r + 1) * unit1074) /\
      (M < 0 -> (2 * r - 1) * unit1074 < 2 * M <= (2 * r + 1) * unit1074) /\
      forall rest,
      doMathBuiltin lm FFloor KReal (v :: rest) = (if in_s64b f then Ok (f :: rest) else UB) /\
      doMathBuiltin lm FCeil KReal (v :: rest) = (if in_s64b c then Ok (c :: rest) else UB) /\
      doMathBuiltin lm FTrunc KReal (v :: rest) = (if in_s64b t then Ok (t :: rest) else UB) /\
      doMathBuiltin lm FRound KReal (v :: rest) = (if in_s64b r then Ok (r :: rest) else UB).
Proof. exact rounding_builtins. Qed.
Print Assumptions C46_rounding_exact.

Example C46_example lm : doMathBuiltin lm FRound KReal [realSlot (S754_finite true 5629499534213120 (-51))] = Ok [-3].
Proof. vm_compute. reflexivity. Qed.

(** ... and are undefined (no error is raised) when it does not: round(1e19). *)
Theorem C46_rounding_out_of_range_refuted :
  forall lm, doMathBuiltin lm FRound KReal [realSlot (real_of_int 10000000000000000000)] = UB /\
             doMathBuiltin lm FRound KReal [realSlot S754_nan] = UB.
Proof. exact round_ub. Qed.
Print Assumptions C46_rounding_out_of_range_refuted.
