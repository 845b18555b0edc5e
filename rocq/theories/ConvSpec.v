(** What a conversion should give, as a function of plain values. *)
From Coq Require Import ZArith Lia Bool List.
From Coq.Floats Require Import SpecFloat.
From Verif Require Import Base NumModel NumSpec ConvModel.
Import ListNotations.
Local Open Scope Z_scope.

(** Plain values: the number an ordinal stands for (a real by its bits), the characters of a string, the items of an array. *)
Inductive dval := DNum (x : Z) | DStr (s : list Z) | DSeq (l : list dval) | DOther (j : nat).
Fixpoint dzero (t : ty) : dval :=
  match t with TNum _ => DNum 0 | TStr => DStr [] | TDyn _ => DSeq [] | TArr n t => DSeq (repeat (dzero t) (Z.to_nat n)) | TOther _ => DOther 0 end.

(** Between which numbers there is a conversion. *)
Definition numConv (d k : kind) : bool := (kindOrdinal d && kindOrdinal k) || (kindReal d && kindReal k) || (kindReal d && kindIntegerOrEnum k).
(** Which casts there are. *)
Inductive castable : ty -> ty -> Prop :=
  | C_same : forall t, castable t t
  | C_num : forall d k, numConv d k = true -> castable (TNum d) (TNum k)
  | C_char : castable TStr (TNum KChar)
  | C_chars : forall k, k = KChar \/ k = KUInt8 -> castable TStr (TDyn (TNum k))
  | C_str : forall k, k = KChar \/ k = KUInt8 -> castable (TDyn (TNum k)) TStr
  | C_toArr : forall n t, castable (TArr n t) (TDyn t)
  | C_fromArr : forall n t, castable (TDyn t) (TArr n t)
  | C_items : forall d t, castable d t -> castable (TDyn d) (TDyn t).

Definition inRange (k : kind) (x : Z) : bool := match range k with Some (lo, hi) => (lo <=? x) && (x <=? hi) | None => false end.
(** Ordinals keep their number or overflow; integers become the nearest real; a real must be finite and, for real32, small enough. *)
Definition convNum (d k : kind) (x : Z) : outcome Z :=
  if kindEqb d k then Ok x
  else if kindOrdinal d then if inRange d x then Ok x else Err EOverflow
  else if kindReal k then if SFltb (match d with KReal32 => FLT_MAX | _ => DBL_MAX end) (SFabs (realVal x)) then Err EOverflow else Ok x
  else Ok (realSlot (real_of_int x)).
(** The items of a list, the last one first. *)
Fixpoint convAll (f : dval -> outcome dval) (l : list dval) : outcome (list dval) :=
  match l with [] => Ok [] | x :: l => let* m := convAll f l in let* y := f x in Ok (y :: m) end.
Fixpoint dnums (l : list dval) : option (list Z) :=
  match l with [] => Some [] | DNum z :: l => match dnums l with Some m => Some (z :: m) | None => None end | _ => None end.
(** The characters before the first zero. *)
Fixpoint beforeZero (l : list Z) : list Z := match l with 0 :: _ => [] | z :: l => z :: beforeZero l | [] => [] end.
Fixpoint conv (d t : ty) (v : dval) : outcome dval :=
  match d, t, v with
  | TNum d, TNum k, DNum x => let* y := convNum d k x in Ok (DNum y)
  | TStr, TNum _, DNum x => Ok (DStr (if x =? 0 then [] else [x]))
  | TStr, TDyn _, DSeq l => match dnums l with Some zs => Ok (DStr (beforeZero zs)) | None => UB end
  | TDyn _, TStr, DStr s => Ok (DSeq (map DNum s))
  | TDyn d, TDyn t, DSeq l => let* m := convAll (conv d t) l in Ok (DSeq m)
  | TDyn _, TArr _ _, DSeq l => Ok (DSeq l)
  | TArr n t, TDyn _, DSeq l => if n <? Z.of_nat (length l) then Err EIllegalLen else Ok (DSeq (l ++ repeat (dzero t) (Z.to_nat n - length l)))
  | _, _, _ => Ok v
  end.

(** Types that can occur. *)
Fixpoint wfTy (t : ty) : Prop :=
  match t with TNum k => kindOrdinal k || kindReal k = true | TDyn t => wfTy t | TArr n t => 0 <= n <= 2147483647 /\ wfTy t | _ => True end.
(** A number of kind [k] in a cell. *)
Definition numRep (k : kind) (z x : Z) : Prop :=
  if kindOrdinal k then holds k z /\ x = denote k z else kindReal k = true /\ x = z.
Definition small {A : Type} (l : list A) : Prop := Z.of_nat (length l) <= 9223372036854775807.
(** Cell [v] of type [t] stands for [x]; all blocks on the way satisfy [P]. *)
Fixpoint rep (h : nat -> list value) (P : nat -> Prop) (t : ty) (v : value) (x : dval) : Prop :=
  match t, v, x with
  | TNum k, VNum z, DNum x => numRep k z x
  | TStr, VStr s, DStr s' => s = s' /\ small s /\ Forall (fun c => 0 <= c <= 255) s
  | TDyn t, VHdr None, DSeq l => l = []
  | TDyn t, VHdr (Some b), DSeq l => P b /\ small (h b) /\ Forall2 (rep h P t) (h b) l
  | TArr n t, VArr vs, DSeq l => Z.of_nat (length vs) = n /\ small vs /\ Forall2 (rep h P t) vs l
  | TOther _, VOther j, DOther j' => j = j'
  | _, _, _ => False
  end.
(** The same for a value on the stack: structured values are addresses, of slots below [n] or of items. *)
Definition srep (s : st) (n : nat) (P : nat -> Prop) (t : ty) (v : value) (x : dval) : Prop :=
  if structured t then
    exists p c, v = VRef p /\ load s p = Ok c /\ rep (heap s) P t c x /\ match p with PSlot m => (m < n)%nat | PItem b _ => P b end
  else rep (heap s) P t v x.
(** Slots below [n] and blocks that existed before are as they were. *)
Definition kept (s s' : st) (n : nat) : Prop :=
  (forall m, (m < n)%nat -> slots s' m = slots s m) /\ (forall b, (b < hnext s)%nat -> heap s' b = heap s b) /\ (hnext s <= hnext s')%nat.
