(** Specification of binary operators with operands of different types. *)
From Coq Require Import ZArith Bool List.
From Verif Require Import Base NumModel NumSpec OperModel.
Import ListNotations.
Local Open Scope Z_scope.

Definition isInt (t : ty) : Prop := exists k, t = TNum k None /\
  In k [KInt8; KInt16; KInt32; KInt; KUInt8; KUInt16; KUInt32; KUInt].
Definition isReal (t : ty) : Prop := exists k, t = TNum k None /\ In k [KReal32; KReal].
Definition tChar : ty := TNum KChar None.

(** Types of the language: only integers can be the base of an enumeration. *)
Fixpoint proper (t : ty) : Prop :=
  match t with
  | TNum k None => kindOrdinal k = true \/ kindReal k = true
  | TNum k (Some _) => kindIntegerOrEnum k = true
  | TPtr b | TWeak b | TDyn b | TArr _ b => proper b
  | _ => True
  end.

(** The type in which operands of types [l] and [r] meet. *)
Inductive meet : ty -> ty -> ty -> Prop :=
| m_same t : meet t t t
| m_int l r : isInt l -> isInt r -> meet l r l
| m_real l r : isReal l -> isReal r -> meet l r l
| m_real_int l r : isReal l -> isInt r -> meet l r l
| m_int_real l r : isInt l -> isReal r -> meet l r r
| m_str_char : meet TStr tChar TStr
| m_char_str : meet tChar TStr TStr
| m_str_chars : meet TStr (TDyn tChar) TStr
| m_chars_str : meet (TDyn tChar) TStr TStr
| m_arr_dyn n t : meet (TArr n t) (TDyn t) (TArr n t)
| m_dyn_arr n t : meet (TDyn t) (TArr n t) (TArr n t)
| m_void_ptr b : meet (TPtr TVoid) (TPtr b) (TPtr TVoid)
| m_ptr_void b : meet (TPtr b) (TPtr TVoid) (TPtr TVoid)
| m_ptr_null b : meet (TPtr b) (TPtr TNull) (TPtr b)
| m_null_ptr b : meet (TPtr TNull) (TPtr b) (TPtr b)
| m_ptr_weak b : meet (TPtr b) (TWeak b) (TPtr b)
| m_weak_ptr b : meet (TWeak b) (TPtr b) (TPtr b)
| m_null_weak b : meet (TPtr TNull) (TWeak b) (TPtr TNull)
| m_weak_null b : meet (TWeak b) (TPtr TNull) (TPtr TNull).

Section Spec.
Variable cmpOther : nat -> bool.
Variable strengthen : Z -> Z.

(** Types whose values can be compared. *)
Inductive canCompare : ty -> Prop :=
| cc_num k e : canCompare (TNum k e)
| cc_str : canCompare TStr
| cc_ptr b : canCompare (TPtr b)
| cc_weak b : canCompare (TWeak b)
| cc_dyn t : canCompare t -> canCompare (TDyn t)
| cc_arr n t : canCompare t -> canCompare (TArr n t)
| cc_other i : cmpOther i = true -> canCompare (TOther i).

(** The types a binary operator is for. *)
Definition suits (o : op) (t : ty) : Prop :=
  match o with
  | OpPlus => isInt t \/ isReal t \/ t = TStr
  | OpMinus | OpMul | OpDiv | OpMod => isInt t \/ isReal t
  | OpAnd | OpOr | OpXor | OpShl | OpShr => isInt t
  | OpEqEq | OpNotEq | OpLess | OpGreater | OpLessEq | OpGreaterEq => canCompare t
  | _ => False
  end.

(** The operators written between two operands. *)
Definition infix (o : op) : bool :=
  match o with OpPlusEq | OpNot | OpPlusPlus | OpMinusMinus | OpOther => false | _ => true end.

(** A value of type [s] read as a value of type [t]. *)
Inductive becomes (s t : ty) : value -> outcome value -> Prop :=
| b_keep v : (s = t \/ (isInt s /\ isInt t) \/ (isReal s /\ isReal t) \/
              (exists b c, s = TPtr b /\ t = TPtr c)) -> becomes s t v (Ok v)
| b_real k z : s = TNum k None -> isInt s -> isReal t ->
    becomes s t (VNum z) (Ok (VNum (realSlot (real_of_int (denote k z)))))
| b_char z : s = tChar -> t = TStr -> z <> 0 -> becomes s t (VNum z) (Ok (VStr [z]))
| b_zero : s = tChar -> t = TStr -> becomes s t (VNum 0) (Ok (VStr []))
| b_chars zs ys : s = TDyn tChar -> t = TStr ->
    (* the characters before the first zero *)
    (ys = zs \/ exists us, zs = ys ++ 0 :: us) -> ~ In 0 ys -> 
    becomes s t (VSeq (map VNum zs)) (Ok (VStr ys))
| b_arr n u vs : s = TDyn u -> t = TArr n u -> (length vs <= n)%nat ->
    becomes s t (VSeq vs) (Ok (VSeq (vs ++ repeat (zero u) (n - length vs))))
| b_long n u vs : s = TDyn u -> t = TArr n u -> (n < length vs)%nat ->
    becomes s t (VSeq vs) (Err EIllegalLen)
| b_weak b c z : s = TWeak b -> t = TPtr c -> becomes s t (VNum z) (Ok (VNum (strengthen z))).
End Spec.

(** Values of a type, as far as conversions look at them. *)
Definition ofType (t : ty) (v : value) : Prop :=
  match t with
  | TNum _ _ | TPtr _ | TWeak _ => exists z, v = VNum z
  | TStr => exists s, v = VStr s
  | TDyn (TNum KChar _) => exists zs, v = VSeq (map VNum zs)
  | TDyn _ | TArr _ _ => exists l, v = VSeq l
  | _ => True
  end.

(** The operator seen from the other side. *)
Definition mirror (o : op) : op :=
  match o with
  | OpLess => OpGreater | OpGreater => OpLess
  | OpLessEq => OpGreaterEq | OpGreaterEq => OpLessEq
  | _ => o
  end.

(** The comparison operators. *)
Definition compares (o : op) : Prop := rel_op o <> None.

(** The kinds read the slot alike. *)
Definition alike (k1 k2 : kind) (z : Z) : Prop := (k1 = KUInt <-> k2 = KUInt) \/ 0 <= z.

(** The slots of integers of different signedness are not negative. *)
Definition signsAgree (l r : ty) (a b : value) : Prop :=
  forall k1 k2 x y, l = TNum k1 None -> r = TNum k2 None -> isInt l -> isInt r ->
    a = VNum x -> b = VNum y ->
    in_s64 x /\ in_s64 y /\ ((k1 = KUInt <-> k2 = KUInt) \/ (0 <= x /\ 0 <= y)).

(** Types of constants with which binary operators are used. *)
Definition constTy (t : ty) : Prop := match t with TNum _ _ | TStr => True | _ => False end.

(** The text a value stands for. *)
Inductive textOf : ty -> value -> list Z -> Prop :=
| to_str s : textOf TStr (VStr s) s
| to_char z : z <> 0 -> textOf tChar (VNum z) [z]
| to_zero : textOf tChar (VNum 0) []
| to_chars zs : ~ In 0 zs -> textOf (TDyn tChar) (VSeq (map VNum zs)) zs
| to_cut zs us : ~ In 0 zs -> textOf (TDyn tChar) (VSeq (map VNum (zs ++ 0 :: us))) zs.

(** The order of texts. *)
Inductive before : list Z -> list Z -> Prop :=
| bf_nil y ys : before [] (y :: ys)
| bf_less x xs y ys : x < y -> before (x :: xs) (y :: ys)
| bf_next x xs ys : before xs ys -> before (x :: xs) (x :: ys).

Definition textRel (o : op) : option (list Z -> list Z -> Prop) :=
  match o with
  | OpEqEq => Some (fun s t => s = t)
  | OpNotEq => Some (fun s t => s <> t)
  | OpLess => Some (fun s t => before s t)
  | OpGreater => Some (fun s t => before t s)
  | OpLessEq => Some (fun s t => before s t \/ s = t)
  | OpGreaterEq => Some (fun s t => before t s \/ s = t)
  | _ => None
  end.
