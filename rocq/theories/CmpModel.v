(** Comparison of values: doCompare, constCompare and the relational operators on compound types.

    Pointers to Type are type identifiers (Z) looked up in a type table, so recursive types are expressible.
    Memory is that of MemModel.v. *)
From Coq Require Import ZArith Lia Bool List.
From Coq.Floats Require Import SpecFloat.
From Verif Require Import Base NumModel MemModel.
Import ListNotations.
Local Open Scope Z_scope.

(** The members of struct Type used by comparison (src/umka_types.h:152-174): kind, size, numItems, base and, for
    structures, the offsets and types of the fields. *)
Record tinfo : Type := {
  t_kind : kind;
  t_size : Z;
  t_numItems : Z;
  t_base : Z;
  t_fields : list (Z * Z)
}.
Definition tytab : Type := Z -> tinfo.

(** int64_t subtraction. [Strict] is ISO C (overflow undefined); [Wrapping] is what common compilers emit. *)
Inductive amode : Type := Strict | Wrapping.
Definition isub (w : amode) (a b : Z) : outcome Z :=
  match w with Strict => chk64 (a - b) | Wrapping => Ok (s64 (a - b)) end.

(** int (32-bit) arithmetic result. *)
Definition chk32 (z : Z) : outcome Z := if (INT_MIN <=? z) && (z <=? INT_MAX) then Ok z else UB.

(** strcmp of the C library. Only the sign of its result is specified; the model returns -1, 0 or 1.
    [fuel] bounds the number of characters examined. *)
Fixpoint strcmp (fuel : nat) (m : mem) (p q : Z) : outcome Z :=
  match fuel with
  | O => Err EFuel
  | S f =>
      if m p =? m q then (if m p =? 0 then Ok 0 else strcmp f m (p + 1) (q + 1))
      else Ok (if m p <? m q then -1 else 1)
  end.

(** The static empty string of doGetEmptyStr (src/umka_vm.c:1425-1436) and the literal "" of constCompare: an empty
    string is compared as the other string with "" at a location outside the modelled memory. *)
Definition strcmp_null (fuel : nat) (m : mem) (p q : Z) : outcome Z :=
  if (p =? 0) && (q =? 0) then Ok 0
  else if p =? 0 then Ok (if m q =? 0 then 0 else -1)
  else if q =? 0 then Ok (if m p =? 0 then 0 else 1)
  else strcmp fuel m p q.

(** array->data, getDims(array)->len (src/umka_api.h:74-79; src/umka_common.h:39-42,286-289). *)
Definition dyn_data (m : mem) (p : Z) : Z := s64 (load 8 m (p + 16)).
Definition dyn_len (m : mem) (p : Z) : Z :=
  if dyn_data m p =? 0 then 0 else s64 (load 8 m (dyn_data m p - 16)).

(** Offsets and types of the items of a static array: the i-th iteration of the loop at src/umka_vm.c:1108-1111. *)
Fixpoint array_items (n : nat) (i size base : Z) : list (Z * Z) :=
  match n with O => [] | S n' => (i * size, base) :: array_items n' (i + 1) size base end.

Section Compare.
Variable w : amode.
Variable tt : tytab.
Variable m : mem.
Variable deref : mem -> kind -> Z -> outcome Z.

(** The item loop of the TYPE_ARRAY/TYPE_STRUCT case (src/umka_vm.c:1108-1123, src/umka_const.c:153-169). *)
Fixpoint cmp_items (cmp : Z -> Z -> Z -> outcome Z) (items : list (Z * Z)) (lhs rhs : Z) : outcome Z :=
  match items with
  | [] => Ok 0
  | (off, ty) :: rest =>
      let* off := chk32 off in
      let* a := deref m (t_kind (tt ty)) (lhs + off) in
      let* b := deref m (t_kind (tt ty)) (rhs + off) in
      let* d := cmp a b ty in
      if d =? 0 then cmp_items cmp rest lhs rhs else Ok d
  end.

(** The item loop of the TYPE_DYNARRAY case (src/umka_vm.c:1140-1161, src/umka_const.c:184-204). *)
Fixpoint cmp_dyn (cmp : Z -> Z -> Z -> outcome Z) (n : nat) (i llen rlen ldata rdata base : Z) : outcome Z :=
  match n with
  | O => Err EFuel
  | S n' =>
      if (i =? llen) && (i =? rlen) then Ok 0
      else if i =? llen then Ok (-1)
      else if i =? rlen then Ok 1
      else
        let* off := chk32 (i * t_size (tt base)) in
        let* a := deref m (t_kind (tt base)) (ldata + off) in
        let* b := deref m (t_kind (tt base)) (rdata + off) in
        let* d := cmp a b base in
        if d =? 0 then cmp_dyn cmp n' (i + 1) llen rlen ldata rdata base else Ok d
  end.

(** The scalar and string cases, common to doCompare (src/umka_vm.c:1073-1104) and constCompare
    (src/umka_const.c:120-148). Pointer subtraction is the difference of the addresses (simplified: ISO C leaves it
    undefined for pointers into different objects). *)
Definition cmp_scalar (fuel : nat) (k : kind) (lhs rhs : Z) : outcome Z :=
  match k with
  | KInt8 | KInt16 | KInt32 | KInt | KUInt8 | KUInt16 | KUInt32 => isub w lhs rhs
  | KUInt => Ok (if u64 lhs =? u64 rhs then 0 else if u64 rhs <? u64 lhs then 1 else -1)
  | KBool | KChar => isub w lhs rhs
  | KReal32 | KReal =>
      let diff := SFsub64 (realVal lhs) (realVal rhs) in
      Ok (if SFeqb diff sfzero then 0 else if SFgtb diff sfzero then 1 else -1)
  | KPtr => isub w lhs rhs
  | KWeakPtr => Ok (s64 (u64 (u64 lhs - u64 rhs)))
  | KStr => strcmp_null fuel m lhs rhs
  | _ => Err EIllegalType
  end.
End Compare.

(** Offsets and types of the items of an array or structure (itemType and itemOffset, src/umka_vm.c:1110-1111). *)
Definition agg_items (tt : tytab) (t : tinfo) : list (Z * Z) :=
  match t_kind t with
  | KArray => array_items (Z.to_nat (t_numItems t)) 0 (t_size (tt (t_base t))) (t_base t)
  | _ => firstn (Z.to_nat (t_numItems t)) (t_fields t)
  end.

(** src/umka_vm.c:1069-1166, doCompare. [fuel] bounds the recursion depth, string lengths and is not consumed by the
    item loops; the C recursion has no bound (running out of fuel is the distinct error EFuel). *)
Fixpoint doCompare (fuel : nat) (w : amode) (tt : tytab) (m : mem) (lhs rhs ty : Z) : outcome Z :=
  match fuel with
  | O => Err EFuel
  | S f =>
      let t := tt ty in
      match t_kind t with
      | KArray | KStruct => cmp_items tt m doDeref (doCompare f w tt m) (agg_items tt t) lhs rhs
      | KDynArray =>
          if lhs =? 0 then Err ENull
          else if rhs =? 0 then Err ENull
          else cmp_dyn tt m doDeref (doCompare f w tt m) (S (Z.to_nat (Z.min (dyn_len m lhs) (dyn_len m rhs))))
                 0 (dyn_len m lhs) (dyn_len m rhs) (dyn_data m lhs) (dyn_data m rhs) (t_base t)
      | k => cmp_scalar w m fuel k lhs rhs
      end
  end.

(** src/umka_const.c:116-213, constCompare with consts != NULL (constDeref failures leave through the handler). *)
Fixpoint constCompare (fuel : nat) (w : amode) (tt : tytab) (m : mem) (lhs rhs ty : Z) : outcome Z :=
  match fuel with
  | O => Err EFuel
  | S f =>
      let t := tt ty in
      match t_kind t with
      | KArray | KStruct =>
          if (lhs =? 0) || (rhs =? 0) then isub w lhs rhs
          else cmp_items tt m constDeref (constCompare f w tt m) (agg_items tt t) lhs rhs
      | KDynArray =>
          if (lhs =? 0) || (rhs =? 0) then isub w lhs rhs
          else cmp_dyn tt m constDeref (constCompare f w tt m) (S (Z.to_nat (Z.min (dyn_len m lhs) (dyn_len m rhs))))
                 0 (dyn_len m lhs) (dyn_len m rhs) (dyn_data m lhs) (dyn_data m rhs) (t_base t)
      | k => cmp_scalar w m fuel k lhs rhs
      end
  end.

(** The relational cases of doBinary for strings and compound types (src/umka_vm.c:3468-3490). *)
Definition doRelational (fuel : nat) (w : amode) (tt : tytab) (m : mem) (o : op) (ty lhs rhs : Z) : outcome Z :=
  let rel (d : outcome Z) : outcome Z :=
    let* d := d in
    match o with
    | OpEqEq => Ok (b2z (d =? 0))
    | OpNotEq => Ok (b2z (negb (d =? 0)))
    | OpGreater => Ok (b2z (0 <? d))
    | OpLess => Ok (b2z (d <? 0))
    | OpGreaterEq => Ok (b2z (0 <=? d))
    | OpLessEq => Ok (b2z (d <=? 0))
    | _ => Err EIllegalOp
    end in
  match t_kind (tt ty) with
  | KStr => rel (strcmp_null fuel m lhs rhs)
  | KArray | KDynArray | KStruct => rel (doCompare fuel w tt m lhs rhs ty)
  | _ => Err EIllegalType
  end.
