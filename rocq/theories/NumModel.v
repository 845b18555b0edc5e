(** Ordinal and real values: overflow checks, operators at compile time and at run time, math builtins.

    A [Slot] (src/umka_vm.h:104-114, union Slot) and a [Const] (src/umka_types.h:109-116) are both 64-bit unions.
    The model represents such a union by its intVal member, a [Z] in the int64_t range; the other members are
    views of the same bits: uintVal is [u64 z], realVal is [real_of_bits (u64 z)]. *)
From Coq Require Import ZArith Lia Bool List.
From Coq.Floats Require Import SpecFloat.
From Verif Require Import Base.
Import ListNotations.
Local Open Scope Z_scope.

(** src/umka_types.h:12-41, enum TypeKind. *)
Inductive kind : Type :=
| KNone | KForward | KVoid | KNull
| KInt8 | KInt16 | KInt32 | KInt | KUInt8 | KUInt16 | KUInt32 | KUInt
| KBool | KChar | KReal32 | KReal
| KPtr | KWeakPtr | KArray | KDynArray | KStr | KMap | KStruct | KInterface | KClosure | KFiber | KFn.

(** src/umka_types.h:241-245, typeKindIntegerOrEnum. *)
Definition kindIntegerOrEnum (k : kind) : bool :=
  match k with KInt8 | KInt16 | KInt32 | KInt | KUInt8 | KUInt16 | KUInt32 | KUInt => true | _ => false end.

(** src/umka_types.h:260-263, typeKindOrdinal. *)
Definition kindOrdinal (k : kind) : bool :=
  kindIntegerOrEnum k || match k with KChar | KBool => true | _ => false end.

(** src/umka_types.h:272-275, typeKindReal. *)
Definition kindReal (k : kind) : bool := match k with KReal32 | KReal => true | _ => false end.

(** src/umka_types.h:294-297, typeKindSigned. *)
Definition kindSigned (k : kind) : bool := match k with KInt8 | KInt16 | KInt32 | KInt => true | _ => false end.

(** ** IEEE 754 binary64 view of a 64-bit union (member realVal of union Slot / union Const).
    Simplified: all NaN bit patterns are read as one NaN, and a NaN result is written as the default quiet NaN. *)
Definition real_of_bits (b : Z) : spec_float :=
  let s := Z.testbit b 63 in
  let e := (b / 4503599627370496) mod 2048 in
  let m := b mod 4503599627370496 in
  if e =? 2047 then (if m =? 0 then S754_infinity s else S754_nan)
  else if e =? 0 then
    match m with Zpos p => S754_finite s p (-1074) | _ => S754_zero s end
  else
    match m + 4503599627370496 with Zpos p => S754_finite s p (e - 1075) | _ => S754_zero s end.

Definition bits_of_real (x : spec_float) : Z :=
  let sb (s : bool) := if s then two63 else 0 in
  match x with
  | S754_zero s => sb s
  | S754_infinity s => sb s + 2047 * 4503599627370496
  | S754_nan => 2047 * 4503599627370496 + 2251799813685248
  | S754_finite s m e =>
      if Zpos m <? 4503599627370496 then sb s + Zpos m
      else sb s + (e + 1075) * 4503599627370496 + (Zpos m - 4503599627370496)
  end.

Definition realVal (z : Z) : spec_float := real_of_bits (u64 z).
Definition realSlot (x : spec_float) : Z := s64 (bits_of_real x).

(** float.h FLT_MAX = (2^24 - 1) * 2^104 and DBL_MAX = (2^53 - 1) * 2^971, as doubles. *)
Definition FLT_MAX : spec_float := S754_finite false 9007198717870080 75.
Definition DBL_MAX : spec_float := S754_finite false 9007199254740991 971.

(** src/umka_types.h:379-412, typeConvOverflow. *)
Definition typeConvOverflow (dest src : kind) (v : Z) : bool :=
  let fromVeryBigUInt := (v <? 0) && match src with KUInt => true | _ => false end in
  let fromNegativeInt := (v <? 0) && kindSigned src in
  match dest with
  | KVoid    => true
  | KInt8    => (v <? -128) || (127 <? v) || fromVeryBigUInt
  | KInt16   => (v <? -32768) || (32767 <? v) || fromVeryBigUInt
  | KInt32   => (v <? -2147483647 - 1) || (2147483647 <? v) || fromVeryBigUInt
  | KInt     => fromVeryBigUInt
  | KUInt8   => (v <? 0) || (255 <? v)
  | KUInt16  => (v <? 0) || (65535 <? v)
  | KUInt32  => (v <? 0) || (4294967295 <? v)
  | KUInt    => fromNegativeInt
  | KBool    => (v <? 0) || (1 <? v)
  | KChar    => (v <? 0) || (255 <? v)
  | KReal32  => SFltb (realVal v) (SFopp FLT_MAX) || SFltb FLT_MAX (realVal v)
  | KReal    => SFltb (realVal v) (SFopp DBL_MAX) || SFltb DBL_MAX (realVal v)
  | KPtr | KWeakPtr | KStr | KArray | KDynArray | KMap | KStruct | KInterface | KClosure | KFiber | KFn => false
  | KNone | KForward | KNull => true
  end.

(** src/umka_types.h:415-418, typeOverflow. *)
Definition typeOverflow (k : kind) (v : Z) : bool := typeConvOverflow k KVoid v.

(** src/umka_vm.c:3734-3749, doAssertRange, and the constant branch of
    src/umka_expr.c:132-143, doOrdinalToOrdinalOrRealToRealConv (same check, same error). *)
Definition doAssertRange (dest src : kind) (v : Z) : outcome Z :=
  if typeConvOverflow dest src v then Err EOverflow else Ok v.

(** Operator tokens used by the evaluators (src/umka_lexer.h, enum TokenKind, operator part). *)
Inductive op : Type :=
| OpPlus | OpMinus | OpMul | OpDiv | OpMod | OpAnd | OpOr | OpXor | OpShl | OpShr
| OpPlusEq
| OpNot | OpPlusPlus | OpMinusMinus
| OpEqEq | OpNotEq | OpLess | OpGreater | OpLessEq | OpGreaterEq
| OpOther.

(** C library functions on doubles. Uninterpreted: the model is parametric in them. *)
Record libm : Type := {
  m_fmod : spec_float -> spec_float -> spec_float;
  m_sqrt : spec_float -> spec_float;
  m_sin : spec_float -> spec_float;
  m_cos : spec_float -> spec_float;
  m_atan : spec_float -> spec_float;
  m_atan2 : spec_float -> spec_float -> spec_float;
  m_exp : spec_float -> spec_float;
  m_log : spec_float -> spec_float
}.

Definition SFadd64 := SFadd 53 1024.
Definition SFsub64 := SFsub 53 1024.
Definition SFmul64 := SFmul 53 1024.
Definition SFdiv64 := SFdiv 53 1024.
Definition sfzero : spec_float := S754_zero false.
Definition SFgtb x y := SFltb y x.
Definition SFgeb x y := SFleb y x.
Definition SFneb x y := negb (SFeqb x y).

(** C shifts (C11 6.5.7): undefined if the count is negative or >= 64; for a signed left operand, << is undefined
    when the operand is negative or the result is not representable, >> of a negative value is
    implementation-defined (arithmetic shift on gcc/clang). *)
Definition cshl_s (a n : Z) : outcome Z :=
  if (n <? 0) || (63 <? n) then UB
  else if a <? 0 then UB
  else chk64 (a * 2 ^ n).
Definition cshr_s (a n : Z) : outcome Z :=
  if (n <? 0) || (63 <? n) then UB else Ok (a / 2 ^ n).
Definition cshl_u (a n : Z) : outcome Z :=
  if 63 <? n then UB else Ok (u64 (a * 2 ^ n)).
Definition cshr_u (a n : Z) : outcome Z :=
  if 63 <? n then UB else Ok (a / 2 ^ n).

(** C division and remainder of signed operands: undefined for a zero divisor and for INT64_MIN / -1. *)
Definition cdiv_s (a b : Z) : outcome Z :=
  if b =? 0 then UB else if (a =? INT64_MIN) && (b =? -1) then UB else Ok (Z.quot a b).
Definition cmod_s (a b : Z) : outcome Z :=
  if b =? 0 then UB else if (a =? INT64_MIN) && (b =? -1) then UB else Ok (Z.rem a b).
Definition cdiv_u (a b : Z) : outcome Z := if b =? 0 then UB else Ok (a / b).
Definition cmod_u (a b : Z) : outcome Z := if b =? 0 then UB else Ok (a mod b).

(** ** Compile-time evaluation *)

(** src/umka_const.c:217-241, constUnary. *)
Definition constUnary (o : op) (k : kind) (a : Z) : outcome Z :=
  if kindReal k then
    match o with
    | OpPlus => Ok a
    | OpMinus => Ok (realSlot (SFopp (realVal a)))
    | _ => Err EIllegalOp
    end
  else
    match o with
    | OpPlus => Ok a
    | OpMinus => chk64 (- a)
    | OpNot => Ok (b2z (a =? 0))
    | OpXor => Ok (Z.lnot a)
    | _ => Err EIllegalOp
    end.

Section ConstBinary.
Variable lm : libm.

(** src/umka_const.c:244-416, constBinary, for operands held in a 64-bit union: the TYPE_PTR (246-258),
    TYPE_WEAKPTR (260-272), real (303-337), TYPE_UINT (338-375) and "all other ordinal" (376-415) branches.
    Strings and aggregates are in CmpModel. *)
Definition constBinary (o : op) (k : kind) (a b : Z) : outcome Z :=
  match k with
  | KPtr =>
      match o with
      | OpEqEq => Ok (b2z (u64 a =? u64 b))
      | OpNotEq => Ok (b2z (negb (u64 a =? u64 b)))
      | OpGreater => Ok (b2z (u64 b <? u64 a))
      | OpLess => Ok (b2z (u64 a <? u64 b))
      | OpGreaterEq => Ok (b2z (u64 b <=? u64 a))
      | OpLessEq => Ok (b2z (u64 a <=? u64 b))
      | _ => Err EIllegalOp
      end
  | KWeakPtr =>
      match o with
      | OpEqEq => Ok (b2z (u64 a =? u64 b))
      | OpNotEq => Ok (b2z (negb (u64 a =? u64 b)))
      | OpGreater => Ok (b2z (u64 b <? u64 a))
      | OpLess => Ok (b2z (u64 a <? u64 b))
      | OpGreaterEq => Ok (b2z (u64 b <=? u64 a))
      | OpLessEq => Ok (b2z (u64 a <=? u64 b))
      | _ => Err EIllegalOp
      end
  | KReal32 | KReal =>
      let x := realVal a in let y := realVal b in
      match o with
      | OpPlus => Ok (realSlot (SFadd64 x y))
      | OpMinus => Ok (realSlot (SFsub64 x y))
      | OpMul => Ok (realSlot (SFmul64 x y))
      | OpDiv => if SFeqb y sfzero then Err EDivZero else Ok (realSlot (SFdiv64 x y))
      | OpMod => if SFeqb y sfzero then Err EDivZero else Ok (realSlot (m_fmod lm x y))
      | OpEqEq => Ok (b2z (SFeqb x y))
      | OpNotEq => Ok (b2z (SFneb x y))
      | OpGreater => Ok (b2z (SFgtb x y))
      | OpLess => Ok (b2z (SFltb x y))
      | OpGreaterEq => Ok (b2z (SFgeb x y))
      | OpLessEq => Ok (b2z (SFleb x y))
      | _ => Err EIllegalOp
      end
  | KUInt =>
      let x := u64 a in let y := u64 b in
      match o with
      | OpPlus => Ok (s64 (x + y))
      | OpMinus => Ok (s64 (x - y))
      | OpMul => Ok (s64 (x * y))
      | OpDiv => if y =? 0 then Err EDivZero else fmap s64 (cdiv_u x y)
      | OpMod => if y =? 0 then Err EDivZero else fmap s64 (cmod_u x y)
      | OpShl => fmap s64 (cshl_u x y)
      | OpShr => fmap s64 (cshr_u x y)
      | OpAnd => Ok (s64 (Z.land x y))
      | OpOr => Ok (s64 (Z.lor x y))
      | OpXor => Ok (s64 (Z.lxor x y))
      | OpEqEq => Ok (b2z (x =? y))
      | OpNotEq => Ok (b2z (negb (x =? y)))
      | OpGreater => Ok (b2z (y <? x))
      | OpLess => Ok (b2z (x <? y))
      | OpGreaterEq => Ok (b2z (y <=? x))
      | OpLessEq => Ok (b2z (x <=? y))
      | _ => Err EIllegalOp
      end
  | _ =>
      match o with
      | OpPlus => chk64 (a + b)
      | OpMinus => chk64 (a - b)
      | OpMul => chk64 (a * b)
      | OpDiv =>
          if b =? 0 then Err EDivZero
          else if (a =? INT64_MIN) && (b =? -1) then Err EOverflow
          else cdiv_s a b
      | OpMod =>
          if b =? 0 then Err EDivZero
          else if (a =? INT64_MIN) && (b =? -1) then Err EOverflow
          else cmod_s a b
      | OpShl => cshl_s a b
      | OpShr => cshr_s a b
      | OpAnd => Ok (Z.land a b)
      | OpOr => Ok (Z.lor a b)
      | OpXor => Ok (Z.lxor a b)
      | OpEqEq => Ok (b2z (a =? b))
      | OpNotEq => Ok (b2z (negb (a =? b)))
      | OpGreater => Ok (b2z (b <? a))
      | OpLess => Ok (b2z (a <? b))
      | OpGreaterEq => Ok (b2z (b <=? a))
      | OpLessEq => Ok (b2z (a <=? b))
      | _ => Err EIllegalOp
      end
  end.

(** ** Run-time evaluation *)

(** src/umka_vm.c:3320-3388, doUnary, without the ++/-- cases (which update memory; see [incdec]). *)
Definition doUnary (o : op) (k : kind) (slot : Z) : outcome Z :=
  if kindReal k then
    match o with
    | OpPlus => Ok slot
    | OpMinus => Ok (realSlot (SFopp (realVal slot)))
    | _ => Err EIllegalOp
    end
  else
    match o with
    | OpPlus => Ok slot
    | OpMinus => chk64 (- slot)
    | OpNot => Ok (b2z (slot =? 0))
    | OpXor => Ok (Z.lnot slot)
    | _ => Err EIllegalOp
    end.

(** src/umka_vm.c:3340-3378: the effect of ++ ([d = 1]) or -- ([d = -1]) on the variable's current value.
    8- and 16-bit operands are promoted to int and converted back (implementation-defined wrap on gcc/clang);
    32- and 64-bit signed operands overflow with undefined behaviour; unsigned operands wrap. *)
Definition incdec (k : kind) (d v : Z) : outcome Z :=
  match k with
  | KInt8 => Ok (wraps two8 (v + d))
  | KInt16 => Ok (wraps two16 (v + d))
  | KInt32 => if (INT_MIN <=? v + d) && (v + d <=? INT_MAX) then Ok (v + d) else UB
  | KInt => chk64 (v + d)
  | KUInt8 => Ok (wrapu two8 (v + d))
  | KUInt16 => Ok (wrapu two16 (v + d))
  | KUInt32 => Ok (wrapu two32 (v + d))
  | KUInt => Ok (s64 (u64 v + d))
  | _ => Err EIllegalType
  end.

(** src/umka_vm.c:3391-3608, doBinary, for operands held in slots (not strings or aggregates):
    TYPE_PTR (3399-3412), TYPE_WEAKPTR (3413-3426), real (3498-3532), TYPE_UINT (3533-3569),
    all other ordinals (3570-3605). *)
Definition doBinary (o : op) (k : kind) (lhs rhs : Z) : outcome Z :=
  if match k with KPtr => true | _ => false end then
    match o with
    | OpEqEq => Ok (b2z (u64 lhs =? u64 rhs))
    | OpNotEq => Ok (b2z (negb (u64 lhs =? u64 rhs)))
    | OpGreater => Ok (b2z (u64 rhs <? u64 lhs))
    | OpLess => Ok (b2z (u64 lhs <? u64 rhs))
    | OpGreaterEq => Ok (b2z (u64 rhs <=? u64 lhs))
    | OpLessEq => Ok (b2z (u64 lhs <=? u64 rhs))
    | _ => Err EIllegalOp
    end
  else if match k with KWeakPtr => true | _ => false end then
    match o with
    | OpEqEq => Ok (b2z (u64 lhs =? u64 rhs))
    | OpNotEq => Ok (b2z (negb (u64 lhs =? u64 rhs)))
    | OpGreater => Ok (b2z (u64 rhs <? u64 lhs))
    | OpLess => Ok (b2z (u64 lhs <? u64 rhs))
    | OpGreaterEq => Ok (b2z (u64 rhs <=? u64 lhs))
    | OpLessEq => Ok (b2z (u64 lhs <=? u64 rhs))
    | _ => Err EIllegalOp
    end
  else if kindReal k then
    match o with
    | OpPlus => Ok (realSlot (SFadd64 (realVal lhs) (realVal rhs)))
    | OpMinus => Ok (realSlot (SFsub64 (realVal lhs) (realVal rhs)))
    | OpMul => Ok (realSlot (SFmul64 (realVal lhs) (realVal rhs)))
    | OpDiv => if SFeqb (realVal rhs) sfzero then Err EDivZero
               else Ok (realSlot (SFdiv64 (realVal lhs) (realVal rhs)))
    | OpMod => if SFeqb (realVal rhs) sfzero then Err EDivZero
               else Ok (realSlot (m_fmod lm (realVal lhs) (realVal rhs)))
    | OpEqEq => Ok (b2z (SFeqb (realVal lhs) (realVal rhs)))
    | OpNotEq => Ok (b2z (SFneb (realVal lhs) (realVal rhs)))
    | OpGreater => Ok (b2z (SFgtb (realVal lhs) (realVal rhs)))
    | OpLess => Ok (b2z (SFltb (realVal lhs) (realVal rhs)))
    | OpGreaterEq => Ok (b2z (SFgeb (realVal lhs) (realVal rhs)))
    | OpLessEq => Ok (b2z (SFleb (realVal lhs) (realVal rhs)))
    | _ => Err EIllegalOp
    end
  else if match k with KUInt => true | _ => false end then
    match o with
    | OpPlus => Ok (s64 (u64 lhs + u64 rhs))
    | OpMinus => Ok (s64 (u64 lhs - u64 rhs))
    | OpMul => Ok (s64 (u64 lhs * u64 rhs))
    | OpDiv => if u64 rhs =? 0 then Err EDivZero else fmap s64 (cdiv_u (u64 lhs) (u64 rhs))
    | OpMod => if u64 rhs =? 0 then Err EDivZero else fmap s64 (cmod_u (u64 lhs) (u64 rhs))
    | OpShl => fmap s64 (cshl_u (u64 lhs) (u64 rhs))
    | OpShr => fmap s64 (cshr_u (u64 lhs) (u64 rhs))
    | OpAnd => Ok (s64 (Z.land (u64 lhs) (u64 rhs)))
    | OpOr => Ok (s64 (Z.lor (u64 lhs) (u64 rhs)))
    | OpXor => Ok (s64 (Z.lxor (u64 lhs) (u64 rhs)))
    | OpEqEq => Ok (b2z (u64 lhs =? u64 rhs))
    | OpNotEq => Ok (b2z (negb (u64 lhs =? u64 rhs)))
    | OpGreater => Ok (b2z (u64 rhs <? u64 lhs))
    | OpLess => Ok (b2z (u64 lhs <? u64 rhs))
    | OpGreaterEq => Ok (b2z (u64 rhs <=? u64 lhs))
    | OpLessEq => Ok (b2z (u64 lhs <=? u64 rhs))
    | _ => Err EIllegalOp
    end
  else
    match o with
    | OpPlus => chk64 (lhs + rhs)
    | OpMinus => chk64 (lhs - rhs)
    | OpMul => chk64 (lhs * rhs)
    | OpDiv =>
        if rhs =? 0 then Err EDivZero
        else if (lhs =? INT64_MIN) && (rhs =? -1) then Err EOverflow
        else cdiv_s lhs rhs
    | OpMod =>
        if rhs =? 0 then Err EDivZero
        else if (lhs =? INT64_MIN) && (rhs =? -1) then Err EOverflow
        else cmod_s lhs rhs
    | OpShl => cshl_s lhs rhs
    | OpShr => cshr_s lhs rhs
    | OpAnd => Ok (Z.land lhs rhs)
    | OpOr => Ok (Z.lor lhs rhs)
    | OpXor => Ok (Z.lxor lhs rhs)
    | OpEqEq => Ok (b2z (lhs =? rhs))
    | OpNotEq => Ok (b2z (negb (lhs =? rhs)))
    | OpGreater => Ok (b2z (rhs <? lhs))
    | OpLess => Ok (b2z (lhs <? rhs))
    | OpGreaterEq => Ok (b2z (rhs <=? lhs))
    | OpLessEq => Ok (b2z (lhs <=? rhs))
    | _ => Err EIllegalOp
    end.

(** ** Math builtins *)

(** src/umka_types.h:55-69, the math part of enum BuiltinFunc. *)
Inductive mathfn : Type :=
| FMakeReal | FMakeRealLeft | FRound | FTrunc | FCeil | FFloor | FAbs | FFabs | FSqrt
| FSin | FCos | FAtan | FAtan2 | FExp | FLog.

(** Exact integer parts of a finite double m * 2^e (C11 7.12.9: trunc, floor, ceil, round half away from zero),
    [None] for infinities and NaN. *)
Definition fin_trunc (m : positive) (e : Z) : Z := if 0 <=? e then Zpos m * 2 ^ e else Zpos m / 2 ^ (- e).
Definition fin_exact (m : positive) (e : Z) : bool := if 0 <=? e then true else Zpos m mod 2 ^ (- e) =? 0.
Definition fin_round (m : positive) (e : Z) : Z :=
  if 0 <=? e then Zpos m * 2 ^ e else (2 * Zpos m + 2 ^ (- e)) / (2 * 2 ^ (- e)).
Definition sf_int (f : bool -> positive -> Z -> Z) (x : spec_float) : option Z :=
  match x with
  | S754_zero _ => Some 0
  | S754_finite s m e => Some (f s m e)
  | _ => None
  end.
Definition sf_trunc := sf_int (fun s m e => if s then - fin_trunc m e else fin_trunc m e).
Definition sf_round := sf_int (fun s m e => if s then - fin_round m e else fin_round m e).
Definition sf_floor := sf_int (fun s m e =>
  if s then (if fin_exact m e then - fin_trunc m e else - fin_trunc m e - 1) else fin_trunc m e).
Definition sf_ceil := sf_int (fun s m e =>
  if s then - fin_trunc m e else (if fin_exact m e then fin_trunc m e else fin_trunc m e + 1)).

(** (int64_t)x for an integral double x: undefined when out of range (C11 6.3.1.4). *)
Definition cast_s64 (x : option Z) : outcome Z := match x with Some z => chk64 z | None => UB end.

(** int64_t/uint64_t to double conversion, round to nearest even. *)
Definition real_of_int (z : Z) : spec_float := binary_normalize 53 1024 z 0 false.

(** src/umka_const.c:419-466, constCallBuiltin, math cases. [b] is arg2 (used by atan2 only). *)
Definition constCallBuiltin (f : mathfn) (k : kind) (a b : Z) : outcome Z :=
  match f with
  | FMakeReal | FMakeRealLeft =>
      match k with KUInt => Ok (realSlot (real_of_int (u64 a))) | _ => Ok (realSlot (real_of_int a)) end
  | FRound => cast_s64 (sf_round (realVal a))
  | FTrunc => cast_s64 (sf_trunc (realVal a))
  | FCeil => cast_s64 (sf_ceil (realVal a))
  | FFloor => cast_s64 (sf_floor (realVal a))
  | FAbs => if a =? INT64_MIN then Err EDomain else chk64 (Z.abs a)
  | FFabs => Ok (realSlot (SFabs (realVal a)))
  | FSqrt => if SFltb (realVal a) sfzero then Err EDomain else Ok (realSlot (m_sqrt lm (realVal a)))
  | FSin => Ok (realSlot (m_sin lm (realVal a)))
  | FCos => Ok (realSlot (m_cos lm (realVal a)))
  | FAtan => Ok (realSlot (m_atan lm (realVal a)))
  | FAtan2 => if SFeqb (realVal a) sfzero || SFeqb (realVal b) sfzero then Err EDomain
              else Ok (realSlot (m_atan2 lm (realVal a) (realVal b)))
  | FExp => Ok (realSlot (m_exp lm (realVal a)))
  | FLog => if SFleb (realVal a) sfzero then Err EDomain else Ok (realSlot (m_log lm (realVal a)))
  end.

(** src/umka_vm.c:3893-3945, doCallBuiltin, math cases, as a function of the stack contents (top first).
    Only the slots read or written are given: [top] and, for two-slot cases, the one below it. *)
Definition doMathBuiltin (f : mathfn) (k : kind) (stack : list Z) : outcome (list Z) :=
  match f, stack with
  | FMakeReal, t :: rest =>
      Ok (match k with KUInt => realSlot (real_of_int (u64 t)) | _ => realSlot (real_of_int t) end :: rest)
  | FMakeRealLeft, t :: l :: rest =>
      Ok (t :: match k with KUInt => realSlot (real_of_int (u64 l)) | _ => realSlot (real_of_int l) end :: rest)
  | FRound, t :: rest => fmap (fun z => z :: rest) (cast_s64 (sf_round (realVal t)))
  | FTrunc, t :: rest => fmap (fun z => z :: rest) (cast_s64 (sf_trunc (realVal t)))
  | FCeil, t :: rest => fmap (fun z => z :: rest) (cast_s64 (sf_ceil (realVal t)))
  | FFloor, t :: rest => fmap (fun z => z :: rest) (cast_s64 (sf_floor (realVal t)))
  | FAbs, t :: rest => if t =? INT64_MIN then Err EDomain else fmap (fun z => z :: rest) (chk64 (Z.abs t))
  | FFabs, t :: rest => Ok (realSlot (SFabs (realVal t)) :: rest)
  | FSqrt, t :: rest => if SFltb (realVal t) sfzero then Err EDomain else Ok (realSlot (m_sqrt lm (realVal t)) :: rest)
  | FSin, t :: rest => Ok (realSlot (m_sin lm (realVal t)) :: rest)
  | FCos, t :: rest => Ok (realSlot (m_cos lm (realVal t)) :: rest)
  | FAtan, t :: rest => Ok (realSlot (m_atan lm (realVal t)) :: rest)
  | FAtan2, x :: y :: rest =>
      if SFeqb (realVal x) sfzero && SFeqb (realVal y) sfzero then Err EDomain
      else Ok (realSlot (m_atan2 lm (realVal y) (realVal x)) :: rest)
  | FExp, t :: rest => Ok (realSlot (m_exp lm (realVal t)) :: rest)
  | FLog, t :: rest => if SFleb (realVal t) sfzero then Err EDomain else Ok (realSlot (m_log lm (realVal t)) :: rest)
  | _, _ => UB
  end.

End ConstBinary.
