(** Model of binary operators with operands of different types.

    Modelled: doApplyOperator and the conversions of operands in doImplicitTypeConvEx
    (umka_expr.c:132-242, 578-676, 748-797), typeCompatible, typeComparable and
    typeValidOperator (umka_types.c:319-352, 498-511, 575-613), short assignments
    (umka_stmt.c:288-311), the instructions they generate.

    Simplifications, stated once:
    - types have no names, so equivalent types are equal (names: C25);
    - a value on the stack is whole, also if it is an array; the places where results
      are kept, and reference counts, are left out (C42);
    - conversions to interfaces and closures give a value about which nothing is said;
    - the comparison of arrays and structures is a parameter (C06), so is the address a
      weak pointer stands for (C19);
    - && and || are in C33. *)
From Coq Require Import ZArith Bool List.
From Verif Require Import Base NumModel.
Import ListNotations.
Local Open Scope Z_scope.

(** Types: numbers, characters and truth values by kind, enumerations with their
    number; functions and closures by their signature; structures, maps and others by
    a number. *)
Inductive ty :=
| TNum (k : kind) (en : option nat)
| TStr | TVoid | TNull
| TPtr (b : ty) | TWeak (b : ty)
| TDyn (t : ty) | TArr (n : nat) (t : ty)
| TIface (i : nat) | TFn (i : nat) | TClosure (i : nat)
| TOther (i : nat).

Lemma kindEq (a b : kind) : {a = b} + {a <> b}. Proof. decide equality. Defined.
Lemma tyEq (a b : ty) : {a = b} + {a <> b}.
Proof. decide equality; try apply kindEq; try apply Nat.eq_dec. decide equality. apply Nat.eq_dec. Defined.

(** typeEquivalent. *)
Definition equivalent (a b : ty) : bool := if tyEq a b then true else false.

(** typeInteger, typeReal (umka_types.h:247-278). *)
Definition integer (t : ty) : bool := match t with TNum k None => kindIntegerOrEnum k | _ => false end.
Definition real (t : ty) : bool := match t with TNum k _ => kindReal k | _ => false end.
Definition kindOf (t : ty) : kind :=
  match t with
  | TNum k _ => k | TStr => KStr | TVoid => KVoid | TNull => KNull | TPtr _ => KPtr
  | TWeak _ => KWeakPtr | TDyn _ => KDynArray | TArr _ _ => KArray | TIface _ => KInterface
  | TFn _ => KFn | TClosure _ => KClosure | TOther _ => KStruct
  end.
Definition isChar (t : ty) : bool := match t with TNum KChar _ => true | _ => false end.

(** The interface without methods. *)
Definition anyIface : nat := 0.

Inductive value := VNum (z : Z) | VStr (s : list Z) | VSeq (l : list value) | VOther (n : nat).

Inductive instr :=
| ISwap
| IReal (left : bool) (k : kind)        (* BUILTIN_MAKEREAL, BUILTIN_MAKEREALLEFT *)
| IMakeStr (src : ty)
| IMakeArr (n : nat) (t : ty)
| IToIface (i : nat) | IToClosure
| IStrengthen
| IBin (o : op) (t : ty).

(** * Compilation *)

(** if (lhs) genSwap. *)
Definition swapped (lhs : bool) (c : list instr) : list instr :=
  if lhs then ISwap :: c ++ [ISwap] else c.

(** doImplicitTypeConvEx, for operands of binary operators: exactly one of lhs and rhs is
    set. The branches that need neither are left out (C60). *)
Definition conv (dest src : ty) (lhs : bool) : ty * list instr :=
  if real dest && integer src then (dest, [IReal lhs (kindOf src)]) else
  match dest, src with
  | TStr, TNum KChar _ => (dest, swapped lhs [IMakeStr src])
  | TStr, TDyn (TNum KChar _) => (dest, swapped lhs [IMakeStr src])
  | TArr n t, TDyn u => if equivalent t u then (dest, swapped lhs [IMakeArr n t]) else (src, [])
  | TIface i, TIface j => if equivalent dest src then (src, []) else (dest, [IToIface i])
  | TIface _, TVoid => (src, [])
  | TIface i, _ => (dest, [IToIface i])           (* no swap *)
  | TPtr TVoid, TPtr _ => (dest, [])
  | TPtr _, TPtr TNull => (dest, [])
  | TPtr b, TWeak c =>
      if equivalent b c || equivalent b TNull then (dest, swapped lhs [IStrengthen]) else (src, [])
  | TClosure i, TFn j => if Nat.eqb i j then (dest, [IToClosure]) else (src, [])   (* no swap *)
  | _, _ => (src, [])
  end.

(** typeCompatible. *)
Definition compatible (l r : ty) : bool :=
  equivalent l r || (integer l && integer r) || (real l && real r).

Section Oper.
(** typeComparable of a structure, map, etc. *)
Variable cmpOther : nat -> bool.
(** doCompare. *)
Variable seqCmp : ty -> value -> value -> outcome comparison.
Variable lm : libm.
(** The address a weak pointer stands for, or null. *)
Variable strengthen : Z -> Z.

(** typeComparable. *)
Fixpoint comparable (t : ty) : bool :=
  match t with
  | TNum _ _ | TStr | TPtr _ | TWeak _ => true
  | TDyn t | TArr _ t => comparable t
  | TOther i => cmpOther i
  | _ => false
  end.

(** typeValidOperator. *)
Definition valid (t : ty) (o : op) : bool :=
  match o with
  | OpPlus | OpPlusEq => integer t || real t || equivalent t TStr
  | OpMinus | OpMul | OpDiv | OpMod => integer t || real t
  | OpAnd | OpOr | OpXor | OpShl | OpShr => integer t
  | OpEqEq | OpNotEq | OpLess | OpGreater | OpLessEq | OpGreaterEq => comparable t
  | OpPlusPlus | OpMinusMinus => integer t
  | OpNot | OpOther => false
  end.

(** doApplyOperator, without constants: the type of the result and the code that follows
    the code of both operands. *)
Definition applyOperator (o : op) (l r : ty) (convertLhs : bool) : outcome (ty * list instr) :=
  let (r, c1) := conv l r false in
  let (l, c2) := if convertLhs then conv r l true else (l, []) in
  if negb (compatible l r) then Err EOther
  else if negb (valid l o) then Err EOther
  else Ok (l, c1 ++ c2 ++ [IBin o l]).

(** * Execution *)
Definition toReal (k : kind) (z : Z) : Z :=
  match k with KUInt => realSlot (real_of_int (u64 z)) | _ => realSlot (real_of_int z) end.

Fixpoint nums (l : list value) : option (list Z) :=
  match l with
  | [] => Some []
  | VNum z :: l => match nums l with Some m => Some (z :: m) | None => None end
  | _ => None
  end.
Fixpoint upToZero (l : list Z) : list Z :=
  match l with [] => [] | z :: l => if z =? 0 then [] else z :: upToZero l end.

(** doBuiltinMakeStr (umka_vm.c:2303-2337). *)
Definition makeStr (src : ty) (v : value) : outcome value :=
  match src, v with
  | TNum _ _, VNum z => Ok (VStr (if z =? 0 then [] else [z]))
  | TDyn _, VSeq l => match nums l with Some zs => Ok (VStr (upToZero zs)) | None => UB end
  | _, _ => UB
  end.

(** The zero value that fills up an array. *)
Fixpoint zero (t : ty) : value :=
  match t with
  | TNum _ _ | TPtr _ | TWeak _ => VNum 0
  | TStr => VStr []
  | TDyn _ => VSeq []
  | TArr n t => VSeq (repeat (zero t) n)
  | _ => VOther 0
  end.

(** doBuiltinMakeArr (umka_vm.c:2261-2289). *)
Definition makeArr (n : nat) (t : ty) (v : value) : outcome value :=
  match v with
  | VSeq l => if Nat.ltb n (length l) then Err EIllegalLen
              else Ok (VSeq (l ++ repeat (zero t) (n - length l)))
  | _ => UB
  end.

(** strcmp, the bytes read as unsigned. *)
Fixpoint strcmp (a b : list Z) : comparison :=
  match a, b with
  | [], [] => Eq
  | [], _ => Lt
  | _, [] => Gt
  | x :: a, y :: b => match x ?= y with Eq => strcmp a b | c => c end
  end.

(** The answer of a comparison operator. *)
Definition ofCmp (o : op) (c : comparison) : outcome value :=
  let yes (b : bool) := Ok (VNum (b2z b)) in
  match o with
  | OpEqEq => yes match c with Eq => true | _ => false end
  | OpNotEq => yes match c with Eq => false | _ => true end
  | OpLess => yes match c with Lt => true | _ => false end
  | OpGreater => yes match c with Gt => true | _ => false end
  | OpLessEq => yes match c with Gt => false | _ => true end
  | OpGreaterEq => yes match c with Lt => false | _ => true end
  | _ => Err EIllegalOp
  end.

(** doBinary (umka_vm.c:3391-3608); numbers and pointers as in NumModel. *)
Definition binary (o : op) (t : ty) (a b : value) : outcome value :=
  match t with
  | TStr => match a, b with
            | VStr x, VStr y => match o with OpPlus | OpPlusEq => Ok (VStr (x ++ y)) | _ => ofCmp o (strcmp x y) end
            | _, _ => UB
            end
  | TDyn _ | TArr _ _ | TOther _ => let* c := seqCmp t a b in ofCmp o c
  | _ => match a, b with
         | VNum x, VNum y => let* z := doBinary lm o (kindOf t) x y in Ok (VNum z)
         | _, _ => UB
         end
  end.

Definition step (i : instr) (s : list value) : outcome (list value) :=
  match i, s with
  | ISwap, a :: b :: s => Ok (b :: a :: s)
  | IReal false k, VNum z :: s => Ok (VNum (toReal k z) :: s)
  | IReal true k, v :: VNum z :: s => Ok (v :: VNum (toReal k z) :: s)
  | IMakeStr src, v :: s => let* w := makeStr src v in Ok (w :: s)
  | IMakeArr n t, v :: s => let* w := makeArr n t v in Ok (w :: s)
  | IToIface _, _ :: s | IToClosure, _ :: s => Ok (VOther 0 :: s)
  | IStrengthen, VNum z :: s => Ok (VNum (strengthen z) :: s)
  | IBin o t, b :: a :: s => let* v := binary o t a b in Ok (v :: s)
  | _, _ => UB
  end.

Fixpoint run (c : list instr) (s : list value) : outcome (list value) :=
  match c with [] => Ok s | i :: c => let* s := step i s in run c s end.

(** An expression [a o b] when the values of both operands are on the stack. *)
Definition operation (o : op) (l r : ty) (a b : value) : outcome value :=
  let* (t, c) := applyOperator o l r true in
  let* s := run c [b; a] in
  match s with [v] => Ok v | _ => UB end.

(** A short assignment [x o= b] (umka_stmt.c:288-311): the value that is stored in [x],
    which has type [l] and value [a]. lexShortAssignment turns += into +, except for
    strings. *)
Definition shortOp (l : ty) (o : op) : op :=
  match l, o with TStr, OpPlus => OpPlusEq | _, _ => o end.
Definition shortAssignment (o : op) (l r : ty) (a b : value) : outcome value :=
  let* (t, c) := applyOperator (shortOp l o) l r false in
  let* s := run c [b; a] in
  match s with [v] => Ok v | _ => UB end.

(** * Constants *)

(** doImplicitTypeConvEx with a constant (the same branches). *)
Definition convConst (dest src : ty) (v : value) : outcome (ty * value) :=
  if real dest && integer src then
    match v with
    | VNum z => let* z := constCallBuiltin lm FMakeReal (kindOf src) z 0 in Ok (dest, VNum z)
    | _ => UB
    end else
  match dest, src with
  | TStr, TNum KChar _ =>
      match v with VNum z => Ok (dest, VStr (if z =? 0 then [] else [z])) | _ => UB end
  | TStr, TDyn (TNum KChar _) => Err EOther
  | TArr n t, TDyn u => if equivalent t u then Err EOther else Ok (src, v)
  | TIface i, TIface j => if equivalent dest src then Ok (src, v) else Err EOther
  | TIface _, TVoid => Ok (src, v)
  | TIface i, TPtr TNull => if Nat.eqb i anyIface then Ok (dest, VOther 0) else Err EOther
  | TIface i, _ => Err EOther
  | TPtr TVoid, TPtr _ => Ok (dest, v)
  | TPtr _, TPtr TNull => Ok (dest, v)
  | TPtr b, TWeak c => if equivalent b c || equivalent b TNull then Err EOther else Ok (src, v)
  | TClosure i, TFn j => if Nat.eqb i j then Err EOther else Ok (src, v)
  | _, _ => Ok (src, v)
  end.

(** constBinary (umka_const.c:244-416), doApplyStrCat (umka_expr.c:748-769). *)
Definition binaryConst (o : op) (t : ty) (a b : value) : outcome value :=
  match t with
  | TStr => match a, b with
            | VStr x, VStr y => match o with OpPlus => Ok (VStr (x ++ y)) | OpPlusEq => Err EOther | _ => ofCmp o (strcmp x y) end
            | _, _ => UB
            end
  | TDyn _ | TArr _ _ | TOther _ => let* c := seqCmp t a b in ofCmp o c
  | _ => match a, b with
         | VNum x, VNum y => let* z := constBinary lm o (kindOf t) x y in Ok (VNum z)
         | _, _ => UB
         end
  end.

(** doApplyOperator with constants. *)
Definition operationConst (o : op) (l r : ty) (a b : value) : outcome (ty * value) :=
  let* (r, b) := convConst l r b in
  let* (l, a) := convConst r l a in
  if negb (compatible l r) then Err EOther
  else if negb (valid l o) then Err EOther
  else let* v := binaryConst o l a b in Ok (l, v).
End Oper.
