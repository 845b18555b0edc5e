(** Conversions between numbers, strings and arrays. Source: /repo/src/umka_expr.c, /repo/src/umka_vm.c.

    Simplified: a value takes one cell, so that storing does not round (C02); reference counts are left out (RefModel); types have no names, so
    equivalence is equality; a jump back to the start of a loop is an [IWhile] (C32); conversions of operands of binary operators, of pointers,
    interfaces, closures and expression lists are left out, and so are constant expressions. *)
From Coq Require Import ZArith Lia Bool List.
From Verif Require Import Base NumModel.
Import ListNotations.
Local Open Scope Z_scope.

(** Types: numbers (also bool and char) by kind, str, []t, [n]t, all others. *)
Inductive ty := TNum (k : kind) | TStr | TDyn (t : ty) | TArr (n : Z) (t : ty) | TOther (id : nat).
Lemma kindEq (a b : kind) : {a = b} + {a <> b}. Proof. decide equality. Defined.
Definition kindEqb (a b : kind) : bool := if kindEq a b then true else false.
(** typeEquivalent. *)
Fixpoint tyEqb (a b : ty) : bool :=
  match a, b with
  | TNum j, TNum k => kindEqb j k
  | TStr, TStr => true
  | TDyn s, TDyn t => tyEqb s t
  | TArr m s, TArr n t => (m =? n) && tyEqb s t
  | TOther i, TOther j => Nat.eqb i j
  | _, _ => false
  end.
Definition structured (t : ty) : bool := match t with TDyn _ | TArr _ _ => true | _ => false end.

(** Cells: numbers, strings, headers of dynamic arrays (null or a block), static arrays, other values; and addresses on the stack. *)
Inductive place := PSlot (n : nat) | PItem (b : nat) (i : Z).
Inductive value := VNum (z : Z) | VStr (s : list Z) | VHdr (b : option nat) | VArr (l : list value) | VOther (j : nat) | VRef (p : place).
Fixpoint zero (t : ty) : value :=
  match t with TNum _ => VNum 0 | TStr => VStr [] | TDyn _ => VHdr None | TArr n t => VArr (repeat (zero t) (Z.to_nat n)) | TOther _ => VOther 0 end.

Record st := St { stk : list value; slots : nat -> value; heap : nat -> list value; hnext : nat }.
Definition withStk (s : st) (l : list value) : st := St l (slots s) (heap s) (hnext s).
Definition setSlot (s : st) (n : nat) (v : value) : st := St (stk s) (fun m => if Nat.eqb m n then v else slots s m) (heap s) (hnext s).
Definition setBlk (s : st) (b : nat) (l : list value) : st := St (stk s) (slots s) (fun c => if Nat.eqb c b then l else heap s c) (hnext s).
Definition alloc (s : st) (l : list value) : st := St (stk s) (slots s) (fun c => if Nat.eqb c (hnext s) then l else heap s c) (S (hnext s)).

Fixpoint replace (l : list value) (i : nat) (v : value) : list value :=
  match l, i with [], _ => [] | _ :: l, O => v :: l | x :: l, S i => x :: replace l i v end.
Definition load (s : st) (p : place) : outcome value :=
  match p with
  | PSlot n => Ok (slots s n)
  | PItem b i => if i <? 0 then UB else match nth_error (heap s b) (Z.to_nat i) with Some v => Ok v | None => UB end
  end.
Definition loadPtr (s : st) (v : value) : outcome value := match v with VRef p => load s p | _ => UB end.
Definition store (s : st) (p : place) (v : value) : outcome st :=
  match p with
  | PSlot n => Ok (setSlot s n v)
  | PItem b i => if (i <? 0) || (Z.of_nat (length (heap s b)) <=? i) then UB else Ok (setBlk s b (replace (heap s b) (Z.to_nat i) v))
  end.

Inductive instr :=
  | IDup | IPop | IPushInt (z : Z) | IPushLocal (n : nat) | IPushLocalPtr (n : nat) | IZero (n : nat) (v : value)
  | ILen | ISub | IGe | IDec | IDeref (t : ty) | IAssign (t : ty) | IGetDyn
  | IMake (t : ty) | IMakeArr (n : Z) (t : ty) | IMakeFromArr | IMakeFromStr | IMakeStr (chr : bool)
  | IRange (dest src : kind) | IReal (k : kind)
  | IWhile (cond body : list instr).

Fixpoint nums (l : list value) : option (list Z) :=
  match l with [] => Some [] | VNum z :: l => match nums l with Some m => Some (z :: m) | None => None end | _ => None end.
(** The characters before the first zero. *)
Fixpoint upToZero (l : list Z) : list Z := match l with [] => [] | z :: l => if z =? 0 then [] else z :: upToZero l end.

(** One instruction: stack and slot instructions; len (/repo/src/umka_vm.c:2840-2870); - and >= on int; doDerefImpl (977-1018); assignment; doGetDynArrayPtr;
    doBuiltinMake for arrays, doBuiltinMakeFromArr, doBuiltinMakeFromStr, doBuiltinMakeArr, doBuiltinMakeStr (2223-2360); doAssertRange and
    real() as in NumModel. *)
Definition step (i : instr) (s : st) : outcome st :=
  match i, stk s with
  | IDup, v :: l => Ok (withStk s (v :: v :: l))
  | IPop, v :: l => Ok (withStk s l)
  | IPushInt z, l => Ok (withStk s (VNum z :: l))
  | IPushLocal n, l => Ok (withStk s (slots s n :: l))
  | IPushLocalPtr n, l => Ok (withStk s (VRef (PSlot n) :: l))
  | IZero n v, l => Ok (setSlot s n v)
  | ILen, v :: l => let* h := loadPtr s v in
                    match h with
                    | VHdr b => Ok (withStk s (VNum (match b with Some b => Z.of_nat (length (heap s b)) | None => 0 end) :: l))
                    | _ => UB end
  | ISub, VNum b :: VNum a :: l => let* z := chk64 (a - b) in Ok (withStk s (VNum z :: l))
  | IGe, VNum b :: VNum a :: l => Ok (withStk s (VNum (if b <=? a then 1 else 0) :: l))
  | IDec, VRef (PSlot n) :: l => match slots s n with VNum z => let* z := chk64 (z - 1) in Ok (withStk (setSlot s n (VNum z)) l) | _ => UB end
  | IDeref t, v :: l => if structured t then Ok s else let* x := loadPtr s v in Ok (withStk s (x :: l))
  | IAssign t, VRef p :: v :: l => let* x := if structured t then loadPtr s v else Ok v in store (withStk s l) p x
  | IGetDyn, VNum i :: v :: l =>
      let* h := loadPtr s v in
      match h with
      | VHdr None => Err ENull
      | VHdr (Some b) => if (i <? 0) || (Z.of_nat (length (heap s b)) - 1 <? i) then Err EIndex else Ok (withStk s (VRef (PItem b i) :: l))
      | _ => UB
      end
  | IMake t, VRef (PSlot r) :: VNum n :: l =>
      if n <? 0 then Err EIllegalLen
      else Ok (setSlot (alloc (withStk s (VRef (PSlot r) :: l)) (repeat (zero t) (Z.to_nat n))) r (VHdr (Some (hnext s))))
  | IMakeFromArr, VRef (PSlot r) :: VNum n :: v :: l =>
      let* a := loadPtr s v in
      match a with
      | VArr vs => Ok (setSlot (alloc (withStk s (VRef (PSlot r) :: l)) (firstn (Z.to_nat n) vs)) r (VHdr (Some (hnext s))))
      | _ => UB end
  | IMakeFromStr, VRef (PSlot r) :: VStr bytes :: l =>
      Ok (setSlot (alloc (withStk s (VRef (PSlot r) :: l)) (map VNum bytes)) r (VHdr (Some (hnext s))))
  | IMakeArr n t, VRef (PSlot r) :: v :: l =>
      let* h := loadPtr s v in
      match h with
      | VHdr b => let items := match b with Some b => heap s b | None => [] end in
                  if n <? Z.of_nat (length items) then Err EIllegalLen
                  else Ok (withStk (setSlot s r (VArr (items ++ repeat (zero t) (Z.to_nat n - length items)))) (VRef (PSlot r) :: l))
      | _ => UB end
  | IMakeStr true, VNum z :: l => Ok (withStk s (VStr (if z =? 0 then [] else [z]) :: l))
  | IMakeStr false, v :: l =>
      let* h := loadPtr s v in
      match h with
      | VHdr b => match nums (match b with Some b => heap s b | None => [] end) with Some zs => Ok (withStk s (VStr (upToZero zs) :: l)) | None => UB end
      | _ => UB end
  | IRange d k, VNum z :: l => let* z := doAssertRange d k z in Ok (withStk s (VNum z :: l))
  | IReal k, VNum z :: l => Ok (withStk s (VNum (match k with KUInt => realSlot (real_of_int (u64 z)) | _ => realSlot (real_of_int z) end) :: l))
  | _, _ => UB
  end.
Fixpoint exec (fuel : nat) (p : list instr) (s : st) : outcome st :=
  match fuel with
  | O => Err EFuel
  | S fuel =>
      match p with
      | [] => Ok s
      | IWhile c b :: q =>
          let* s := exec fuel c s in
          match stk s with
          | VNum z :: l => if z =? 0 then exec fuel q (withStk s l) else let* s := exec fuel b (withStk s l) in exec fuel p s
          | _ => UB
          end
      | i :: q => let* s := step i s in exec fuel q s
      end
  end.

Section Compile.
(** typeSameExceptMaybeIdent: the types are one object, or declared as such: /repo/src/umka_types.c:500-503. *)
Variable same : ty -> ty -> bool.

(** doCopyResultToTempVar: /repo/src/umka_gen.c:1171-1178. *)
Definition copyTemp (t : ty) (n : nat) : list instr := [IDup; IPushLocalPtr n; IAssign t].
(** doImplicitTypeConvEx for these types: /repo/src/umka_expr.c:578-677 with 132-268. [n] is the next free slot. [None]: no conversion applies. *)
Definition implicit (dest src : ty) (n : nat) : option (list instr * nat) :=
  match dest, src with
  | TNum d, TNum k =>
      if (kindEqb d KUInt && kindSigned k) || (kindSigned d && kindEqb k KUInt) then Some ([IRange d k], n)
      else if kindReal d && kindIntegerOrEnum k then Some ([IReal k], n)
      else None
  | TStr, TNum KChar => Some (IMakeStr true :: copyTemp TStr n, (n + 1)%nat)
  | TStr, TDyn (TNum KChar) => Some (IMakeStr false :: copyTemp TStr n, (n + 1)%nat)
  | TDyn (TNum KChar), TStr => Some ([IPushLocalPtr n; IMakeFromStr] ++ copyTemp dest (n + 1), (n + 2)%nat)
  | TArr m t, TDyn t' => if tyEqb t t' then Some ([IPushLocalPtr n; IMakeArr m t] ++ copyTemp dest (n + 1), (n + 2)%nat) else None
  | TDyn t, TArr m t' => if tyEqb t t' then Some ([IPushInt m; IPushLocalPtr n; IMakeFromArr] ++ copyTemp dest (n + 1), (n + 2)%nat) else None
  | _, _ => None
  end.
(** doExplicitTypeConv: /repo/src/umka_expr.c:693-747; doDynArrayToDynArrayConv: 271-351. The second component is the resulting type. *)
Fixpoint explicit (dest src : ty) (n : nat) : outcome (list instr * ty * nat) :=
  match implicit dest src n with
  | Some (c, n) => Ok (c, dest, n)
  | None =>
      if same dest src then Ok ([], dest, n)
      else
        match dest, src with
        | TNum d, TNum k => if (kindOrdinal k && kindOrdinal d) || (kindReal k && kindReal d) then Ok ([IRange d k], dest, n) else Ok ([], src, n)
        | TStr, TDyn (TNum KUInt8) => Ok (IMakeStr false :: copyTemp TStr n, dest, (n + 1)%nat)
        | TDyn (TNum KUInt8), TStr => Ok ([IPushLocalPtr n; IMakeFromStr] ++ copyTemp dest (n + 1), dest, (n + 2)%nat)
        | TDyn d, TDyn t =>
            let len := n in let arr := (n + 1)%nat in let idx := (n + 2)%nat in
            let* (c, n) := explicit d t (n + 3) in
            if negb (tyEqb d (snd c)) then Err EOther
            else Ok ([IDup; ILen; IPushLocalPtr len; IAssign (TNum KInt)]
                     ++ [IZero arr (VHdr None); IPushLocal len; IPushLocalPtr arr; IMake d; IPop]
                     ++ [IPushLocal len; IPushInt 1; ISub; IPushLocalPtr idx; IAssign (TNum KInt)]
                     ++ [IWhile [IPushLocal idx; IPushInt 0; IGe]
                                ([IDup; IPushLocal idx; IGetDyn; IDeref t] ++ fst c
                                 ++ [IPushLocalPtr arr; IDeref dest; IPushLocal idx; IGetDyn; IAssign d]
                                 ++ [IPushLocalPtr idx; IDec])]
                     ++ [IPop; IPushLocalPtr arr; IDeref dest], dest, n)
        | _, _ => Ok ([], src, n)
        end
  end.
(** parseTypeCast: /repo/src/umka_expr.c:1976-1993. *)
Definition cast (dest src : ty) (n : nat) : outcome (list instr * nat) :=
  let* (c, n) := explicit dest src n in
  if tyEqb dest (snd c) then Ok (fst c, n) else Err EOther.
End Compile.
