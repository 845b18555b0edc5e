(** Specification vocabulary for ordinal values, independent of the model's checks. *)
From Coq Require Import ZArith Lia Bool List QArith.
From Coq.Floats Require Import SpecFloat.
From Verif Require Import Base NumModel.
Import ListNotations.
Local Open Scope Z_scope.

(** Range of each ordinal type (doc/lang.md, "Ordinal types"). *)
Definition range (k : kind) : option (Z * Z) :=
  match k with
  | KInt8 => Some (-128, 127)
  | KInt16 => Some (-32768, 32767)
  | KInt32 => Some (-2147483648, 2147483647)
  | KInt => Some (-9223372036854775808, 9223372036854775807)
  | KUInt8 => Some (0, 255)
  | KUInt16 => Some (0, 65535)
  | KUInt32 => Some (0, 4294967295)
  | KUInt => Some (0, 18446744073709551615)
  | KBool => Some (0, 1)
  | KChar => Some (0, 255)
  | _ => None
  end.

Definition in_range (k : kind) (z : Z) : Prop :=
  match range k with Some (lo, hi) => lo <= z <= hi | None => False end.

(** Mathematical value of a 64-bit slot read at an ordinal type: uint reads the bits as unsigned, all others as signed. *)
Definition denote (k : kind) (slot : Z) : Z :=
  match k with KUInt => slot mod 18446744073709551616 | _ => slot end.

(** A slot that holds a legitimate value of an ordinal type. *)
Definition holds (k : kind) (slot : Z) : Prop := in_s64 slot /\ in_range k (denote k slot).

(** Exact value of a finite double scaled by 2^1074 (an integer). *)
Definition scaled (s : bool) (m : positive) (e : Z) : Z :=
  (if s then -1 else 1) * (Zpos m * 2 ^ (e + 1074)).

(** [rlt x y]: x < y as extended reals; false if either is NaN. *)
Definition rlt (x y : spec_float) : Prop :=
  match x, y with
  | S754_nan, _ => False
  | _, S754_nan => False
  | S754_infinity true, S754_infinity true => False
  | S754_infinity true, _ => True
  | S754_infinity false, _ => False
  | _, S754_infinity false => True
  | _, S754_infinity true => False
  | S754_zero _, S754_zero _ => False
  | S754_zero _, S754_finite s m e => 0 < scaled s m e
  | S754_finite s m e, S754_zero _ => scaled s m e < 0
  | S754_finite s m e, S754_finite s' m' e' => scaled s m e < scaled s' m' e'
  end.

(** [req x y]: equal as extended reals. *)
Definition req (x y : spec_float) : Prop :=
  match x, y with
  | S754_infinity s, S754_infinity s' => s = s'
  | S754_zero _, S754_zero _ => True
  | S754_finite s m e, S754_finite s' m' e' => scaled s m e = scaled s' m' e'
  | _, _ => False
  end.

(** Mathematical meaning of the integer operators ([None]: no mathematical result, e.g. division by zero).
    Division truncates towards zero; shifts multiply by a power of two or divide rounding down. *)
Definition math_op (o : op) (a b : Z) : option Z :=
  match o with
  | OpPlus => Some (a + b)
  | OpMinus => Some (a - b)
  | OpMul => Some (a * b)
  | OpDiv => if b =? 0 then None else Some (Z.sgn a * Z.sgn b * (Z.abs a / Z.abs b))
  | OpMod => if b =? 0 then None else Some (a - b * (Z.sgn a * Z.sgn b * (Z.abs a / Z.abs b)))
  | OpShl => if b <? 0 then None else Some (a * 2 ^ b)
  | OpShr => if b <? 0 then None else Some (a / 2 ^ b)
  | _ => None
  end.

Definition arith_op (o : op) : bool :=
  match o with OpPlus | OpMinus | OpMul | OpDiv | OpMod | OpShl | OpShr => true | _ => false end.

(** The order and equality operators. *)
Definition rel_op (o : op) : option (Z -> Z -> Prop) :=
  match o with
  | OpEqEq => Some (fun a b => a = b)
  | OpNotEq => Some (fun a b => a <> b)
  | OpLess => Some (fun a b => a < b)
  | OpGreater => Some (fun a b => a > b)
  | OpLessEq => Some (fun a b => a <= b)
  | OpGreaterEq => Some (fun a b => a >= b)
  | _ => None
  end.
