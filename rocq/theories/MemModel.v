(** Variables in memory: run-time and compile-time assignment and dereferencing.

    Memory is a total map from addresses to bytes (0..255); a null address is 0. The caller is responsible for the
    address being inside an allocated object (bounds are the subject of other models). *)
From Coq Require Import ZArith Lia Bool List.
From Coq.Floats Require Import SpecFloat.
From Verif Require Import Base NumModel.
Import ListNotations.
Local Open Scope Z_scope.

Definition mem : Type := Z -> Z.
Definition upd (m : mem) (a b : Z) : mem := fun x => if x =? a then b else m x.

(** Little-endian store and load of [n] bytes (x86-64/ARM64 targets). *)
Fixpoint store (n : nat) (m : mem) (a v : Z) : mem :=
  match n with
  | O => m
  | S n' => store n' (upd m a (v mod 256)) (a + 1) (v / 256)
  end.
Fixpoint load (n : nat) (m : mem) (a : Z) : Z :=
  match n with
  | O => 0
  | S n' => m a + 256 * load n' m (a + 1)
  end.

(** memcpy. *)
Fixpoint copy_bytes (n : nat) (m0 m : mem) (dst src : Z) : mem :=
  match n with
  | O => m
  | S n' => copy_bytes n' m0 (upd m dst (m0 src)) (dst + 1) (src + 1)
  end.

(** Storage size of the scalar kinds (src/umka_types.c:190-241, typeSizeRecompute). *)
Definition kind_bytes (k : kind) : nat :=
  match k with
  | KInt8 | KUInt8 | KBool | KChar => 1
  | KInt16 | KUInt16 => 2
  | KInt32 | KUInt32 | KReal32 => 4
  | _ => 8
  end.

(** Conversion double -> float -> bits and back (C casts in the TYPE_REAL32 branches); round to nearest even. *)
Definition f32_of_f64 (x : spec_float) : spec_float :=
  match x with S754_finite s m e => binary_round 24 128 s m e | _ => x end.
Definition f64_of_f32 (x : spec_float) : spec_float :=
  match x with S754_finite s m e => binary_round 53 1024 s m e | _ => x end.
Definition bits_of_f32 (x : spec_float) : Z :=
  let sb (s : bool) := if s then two31 else 0 in
  match x with
  | S754_zero s => sb s
  | S754_infinity s => sb s + 255 * 8388608
  | S754_nan => 255 * 8388608 + 4194304
  | S754_finite s m e =>
      if Zpos m <? 8388608 then sb s + Zpos m else sb s + (e + 150) * 8388608 + (Zpos m - 8388608)
  end.
Definition f32_of_bits (b : Z) : spec_float :=
  let s := Z.testbit b 31 in
  let e := (b / 8388608) mod 256 in
  let m := b mod 8388608 in
  if e =? 255 then (if m =? 0 then S754_infinity s else S754_nan)
  else if e =? 0 then
    match m with Zpos p => S754_finite s p (-149) | _ => S754_zero s end
  else
    match m + 8388608 with Zpos p => S754_finite s p (e - 150) | _ => S754_zero s end.

(** src/umka_vm.c:977-1015, doDerefImpl. TYPE_MAP is included here but not in constDeref. Reading a bool object
    whose byte is neither 0 nor 1 is undefined. doCheckStr is empty unless UMKA_STR_DEBUG is defined (vm.c:942-952). *)
Definition doDeref (m : mem) (k : kind) (p : Z) : outcome Z :=
  if p =? 0 then Err ENull
  else match k with
  | KInt8 => Ok (wraps two8 (load 1 m p))
  | KInt16 => Ok (wraps two16 (load 2 m p))
  | KInt32 => Ok (wraps two32 (load 4 m p))
  | KInt => Ok (s64 (load 8 m p))
  | KUInt8 => Ok (load 1 m p)
  | KUInt16 => Ok (load 2 m p)
  | KUInt32 => Ok (load 4 m p)
  | KUInt => Ok (s64 (load 8 m p))
  | KBool => if load 1 m p <=? 1 then Ok (load 1 m p) else UB
  | KChar => Ok (load 1 m p)
  | KReal32 => Ok (realSlot (f64_of_f32 (f32_of_bits (load 4 m p))))
  | KReal | KPtr | KWeakPtr | KStr | KFiber | KFn => Ok (s64 (load 8 m p))
  | KArray | KDynArray | KMap | KStruct | KInterface | KClosure => Ok p
  | KNone | KForward | KVoid | KNull => Err EIllegalType
  end.

(** src/umka_vm.c:1018-1066, doAssignImpl. Returns the new memory. memcpy between distinct overlapping ranges is
    undefined; copying an object onto itself is taken as a no-op (simplification: ISO C leaves it undefined, too). *)
Definition doAssign (m : mem) (k : kind) (lhs rhs size : Z) : outcome mem :=
  if lhs =? 0 then Err ENull
  else if typeOverflow k rhs then Err EOverflow
  else match k with
  | KInt8 | KUInt8 | KChar => Ok (store 1 m lhs rhs)
  | KInt16 | KUInt16 => Ok (store 2 m lhs rhs)
  | KInt32 | KUInt32 => Ok (store 4 m lhs rhs)
  | KInt | KUInt | KReal | KPtr | KWeakPtr | KStr | KFiber | KFn => Ok (store 8 m lhs rhs)
  | KBool => Ok (store 1 m lhs (b2z (negb (rhs =? 0))))
  | KReal32 => Ok (store 4 m lhs (bits_of_f32 (f32_of_f64 (realVal rhs))))
  | KArray | KDynArray | KMap | KStruct | KInterface | KClosure =>
      if rhs =? 0 then Err ENull
      else if (lhs =? rhs) then Ok m
      else if (lhs <? rhs + size) && (rhs <? lhs + size) then UB
      else Ok (copy_bytes (Z.to_nat size) m m lhs rhs)
  | KNone | KForward | KVoid | KNull => Err EIllegalType
  end.

(** src/umka_const.c:24-67, constDeref. *)
Definition constDeref (m : mem) (k : kind) (p : Z) : outcome Z :=
  if p =? 0 then Err ENull
  else match k with
  | KInt8 => Ok (wraps two8 (load 1 m p))
  | KInt16 => Ok (wraps two16 (load 2 m p))
  | KInt32 => Ok (wraps two32 (load 4 m p))
  | KInt => Ok (s64 (load 8 m p))
  | KUInt8 => Ok (load 1 m p)
  | KUInt16 => Ok (load 2 m p)
  | KUInt32 => Ok (load 4 m p)
  | KUInt => Ok (s64 (load 8 m p))
  | KBool => if load 1 m p <=? 1 then Ok (load 1 m p) else UB
  | KChar => Ok (load 1 m p)
  | KReal32 => Ok (realSlot (f64_of_f32 (f32_of_bits (load 4 m p))))
  | KReal | KPtr | KWeakPtr | KStr | KFiber | KFn => Ok (s64 (load 8 m p))
  | KArray | KDynArray | KStruct | KInterface | KClosure => Ok p
  | KMap | KNone | KForward | KVoid | KNull => Err EIllegalType
  end.

(** src/umka_const.c:70-113, constAssign (no null checks, so null operands are undefined). *)
Definition constAssign (m : mem) (k : kind) (lhs rhs size : Z) : outcome mem :=
  if typeOverflow k rhs then Err EOverflow
  else match k with
  | KMap | KNone | KForward | KVoid | KNull => Err EIllegalType
  | _ =>
    if lhs =? 0 then UB
    else match k with
    | KInt8 | KUInt8 | KChar => Ok (store 1 m lhs rhs)
    | KInt16 | KUInt16 => Ok (store 2 m lhs rhs)
    | KInt32 | KUInt32 => Ok (store 4 m lhs rhs)
    | KBool => Ok (store 1 m lhs (b2z (negb (rhs =? 0))))
    | KReal32 => Ok (store 4 m lhs (bits_of_f32 (f32_of_f64 (realVal rhs))))
    | KArray | KDynArray | KStruct | KInterface | KClosure =>
        if rhs =? 0 then UB
        else if (lhs =? rhs) then Ok m
        else if (lhs <? rhs + size) && (rhs <? lhs + size) then UB
        else Ok (copy_bytes (Z.to_nat size) m m lhs rhs)
    | _ => Ok (store 8 m lhs rhs)
    end
  end.
