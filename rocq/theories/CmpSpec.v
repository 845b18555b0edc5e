(** Specification of the order on values: a tree of numbers, strings and sequences compared lexicographically. *)
From Coq Require Import ZArith Lia Bool List.
From Coq.Floats Require Import SpecFloat.
From Verif Require Import Base NumModel NumSpec MemModel CmpModel.
Import ListNotations.
Local Open Scope Z_scope.

(** The content of a value of a comparable type. Pointers are represented by their (numeric) slot. *)
Inductive cval : Type :=
| VInt (z : Z)             (* ordinal or pointer *)
| VUInt (z : Z)            (* uint *)
| VReal (x : spec_float)
| VStr (s : list Z)
| VSeq (l : list cval)     (* array or structure *)
| VDyn (l : list cval).    (* dynamic array *)

(** Lexicographic combination. *)
Fixpoint lexcmp {A} (c : A -> A -> option comparison) (l1 l2 : list A) : option comparison :=
  match l1, l2 with
  | [], [] => Some Eq
  | [], _ :: _ => Some Lt
  | _ :: _, [] => Some Gt
  | a :: r, b :: s =>
      match c a b with
      | Some Eq => lexcmp c r s
      | r => r
      end
  end.

(** The order: numeric on numbers (IEEE order on reals; NaN is unordered), lexicographic on strings and sequences. *)
Fixpoint vcmp (a b : cval) {struct a} : option comparison :=
  let fix lex (l1 l2 : list cval) : option comparison :=
    match l1, l2 with
    | [], [] => Some Eq
    | [], _ :: _ => Some Lt
    | _ :: _, [] => Some Gt
    | x :: r, y :: s => match vcmp x y with Some Eq => lex r s | c => c end
    end in
  match a, b with
  | VInt x, VInt y => Some (x ?= y)
  | VUInt x, VUInt y => Some (x ?= y)
  | VReal x, VReal y => SFcompare x y
  | VStr s, VStr t => lexcmp (fun x y => Some (x ?= y)) s t
  | VSeq l, VSeq l' => lex l l'
  | VDyn l, VDyn l' => lex l l'
  | _, _ => None
  end.

(** A null-terminated string of bytes in memory. *)
Fixpoint cstring (m : mem) (p : Z) (s : list Z) : Prop :=
  match s with
  | [] => m p = 0
  | c :: r => m p = c /\ 0 < c < 256 /\ cstring m (p + 1) r
  end.

(** [reads tt m ty slot v]: the slot, taken as a value of type ty, has content v. *)
Inductive reads (tt : tytab) (m : mem) : Z -> Z -> cval -> Prop :=
| R_ord ty z :
    kindOrdinal (t_kind (tt ty)) = true -> t_kind (tt ty) <> KUInt -> holds (t_kind (tt ty)) z ->
    reads tt m ty z (VInt z)
| R_uint ty z : t_kind (tt ty) = KUInt -> in_s64 z -> reads tt m ty z (VUInt (denote KUInt z))
| R_real ty z : kindReal (t_kind (tt ty)) = true -> in_s64 z -> reads tt m ty z (VReal (realVal z))
| R_ptr ty z :
    t_kind (tt ty) = KPtr \/ t_kind (tt ty) = KWeakPtr -> in_s64 z -> reads tt m ty z (VInt z)
| R_str ty z s :
    t_kind (tt ty) = KStr -> (z = 0 /\ s = []) \/ (z <> 0 /\ cstring m z s) -> reads tt m ty z (VStr s)
| R_agg ty z l :
    t_kind (tt ty) = KArray \/ t_kind (tt ty) = KStruct ->
    z <> 0 -> reads_items tt m (agg_items tt (tt ty)) z l -> reads tt m ty z (VSeq l)
| R_dyn ty z l :
    t_kind (tt ty) = KDynArray -> z <> 0 ->
    dyn_len m z = Z.of_nat (length l) ->
    reads_items tt m (array_items (length l) 0 (t_size (tt (t_base (tt ty)))) (t_base (tt ty))) (dyn_data m z) l ->
    reads tt m ty z (VDyn l)
with reads_items (tt : tytab) (m : mem) : list (Z * Z) -> Z -> list cval -> Prop :=
| RI_nil p : reads_items tt m [] p []
| RI_cons off ty rest p s v l :
    0 <= off <= INT_MAX ->
    doDeref m (t_kind (tt ty)) (p + off) = Ok s -> reads tt m ty s v ->
    reads_items tt m rest p l -> reads_items tt m ((off, ty) :: rest) p (v :: l).

(** Corresponding integers of two values are less than 2^63 apart, and no two corresponding reals are NaN or the same
    infinity; outside this, C subtraction does not give the sign of the difference. *)
Fixpoint close (a b : cval) {struct a} : Prop :=
  let fix all (l1 l2 : list cval) : Prop :=
    match l1, l2 with
    | x :: r, y :: s => close x y /\ all r s
    | _, _ => True
    end in
  match a, b with
  | VInt x, VInt y => in_s64 (x - y)
  | VReal x, VReal y => x <> S754_nan /\ y <> S754_nan /\ (forall s, x = S754_infinity s -> y <> S754_infinity s)
  | VSeq l, VSeq l' => all l l'
  | VDyn l, VDyn l' => all l l'
  | _, _ => True
  end.

(** Sufficient condition on one value: integers within (-2^62, 2^62), reals finite. *)
Fixpoint moderate (a : cval) : Prop :=
  match a with
  | VInt x => - 2 ^ 62 <= x < 2 ^ 62
  | VUInt _ => True
  | VReal x => match x with S754_zero _ | S754_finite _ _ _ => True | _ => False end
  | VStr _ => True
  | VSeq l => (fix all (l : list cval) : Prop := match l with [] => True | x :: r => moderate x /\ all r end) l
  | VDyn l => (fix all (l : list cval) : Prop := match l with [] => True | x :: r => moderate x /\ all r end) l
  end.

(** Sign of a C comparison result. *)
Definition sign_is (d : Z) (c : comparison) : Prop := (d ?= 0) = c.

(** Two values with the same content: equal numbers (as real numbers for reals), strings and sequences. *)
Inductive same : cval -> cval -> Prop :=
| same_int z : same (VInt z) (VInt z)
| same_uint z : same (VUInt z) (VUInt z)
| same_real x y : req x y -> same (VReal x) (VReal y)
| same_str s : same (VStr s) (VStr s)
| same_seq l l' : Forall2 same l l' -> same (VSeq l) (VSeq l')
| same_dyn l l' : Forall2 same l l' -> same (VDyn l) (VDyn l').
