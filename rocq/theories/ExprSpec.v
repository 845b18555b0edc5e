(** Expressions: grammar, types and values. *)
From Coq Require Import ZArith Bool List.
From Verif Require Import Base NumModel ExprModel.
Import ListNotations.
Local Open Scope Z_scope.

Inductive ast : Type :=
| AInt (v : Z) | AConst (k : kind) (v : Z) | AVar (k : kind) (x : nat)
| AUn (o : op) (a : ast) | ABin (o : op) (a b : ast) | AAnd (a b : ast) | AOr (a b : ast) | ACond (c a b : ast).

(** The grammar in the comments of the parsing functions: operators of each level group to the left, relations do not chain, the
    conditional groups to the right. *)
Inductive G : level -> list tok -> ast -> Prop :=
| GInt : forall v, G LFactor [TkInt v] (AInt v)
| GConst : forall k v, G LFactor [TkConst k v] (AConst k v)
| GVar : forall k x, G LFactor [TkVar k x] (AVar k x)
| GUn : forall o t a, In o [OpPlus; OpMinus; OpNot; OpXor] -> G LFactor t a -> G LFactor (TkOp (TArith o) :: t) (AUn o a)
| GPar : forall t a, G LExpr t a -> G LFactor (TkLPar :: t ++ [TkRPar]) a
| GTerm0 : forall t a, G LFactor t a -> G LTerm t a
| GTerm : forall t1 a o t2 b, G LTerm t1 a -> In o [OpMul; OpDiv; OpMod; OpShl; OpShr; OpAnd] -> G LFactor t2 b -> G LTerm (t1 ++ TkOp (TArith o) :: t2) (ABin o a b)
| GSum0 : forall t a, G LTerm t a -> G LRelTerm t a
| GSum : forall t1 a o t2 b, G LRelTerm t1 a -> In o [OpPlus; OpMinus; OpOr; OpXor] -> G LTerm t2 b -> G LRelTerm (t1 ++ TkOp (TArith o) :: t2) (ABin o a b)
| GRel0 : forall t a, G LRelTerm t a -> G LRel t a
| GRel : forall t1 a o t2 b, G LRelTerm t1 a -> In o [OpEqEq; OpNotEq; OpLess; OpGreater; OpLessEq; OpGreaterEq] -> G LRelTerm t2 b -> G LRel (t1 ++ TkOp (TArith o) :: t2) (ABin o a b)
| GAnd0 : forall t a, G LRel t a -> G LAnd t a
| GAnd : forall t1 a t2 b, G LAnd t1 a -> G LRel t2 b -> G LAnd (t1 ++ TkOp TAndAnd :: t2) (AAnd a b)
| GOr0 : forall t a, G LAnd t a -> G LOr t a
| GOr : forall t1 a t2 b, G LOr t1 a -> G LAnd t2 b -> G LOr (t1 ++ TkOp TOrOr :: t2) (AOr a b)
| GExpr0 : forall t a, G LOr t a -> G LExpr t a
| GExpr : forall t c t1 a t2 b, G LOr t c -> G LExpr t1 a -> G LExpr t2 b -> G LExpr (t ++ TkQuestion :: t1 ++ TkColon :: t2) (ACond c a b).

Definition arithOp (o : op) : bool := match o with OpPlus | OpMinus | OpMul | OpDiv | OpMod | OpAnd | OpOr | OpXor | OpShl | OpShr => true | _ => false end.

(** Types: arithmetic on int, logic on bool, comparisons of equal types. *)
Fixpoint typeOf (a : ast) : option kind :=
  match a with
  | AInt _ => Some KInt
  | AConst k _ | AVar k _ => Some k
  | AUn o a => match typeOf a with Some KInt => match o with OpNot => None | _ => Some KInt end | Some KBool => match o with OpNot => Some KBool | _ => None end | _ => None end
  | ABin o a b =>
      match typeOf a, typeOf b with
      | Some KInt, Some KInt => Some (if arithOp o then KInt else KBool)
      | Some KBool, Some KBool => if arithOp o then None else Some KBool
      | _, _ => None
      end
  | AAnd a b | AOr a b => match typeOf a, typeOf b with Some KBool, Some KBool => Some KBool | _, _ => None end
  | ACond c a b => match typeOf c, typeOf a, typeOf b with Some KBool, Some KInt, Some KInt => Some KInt | Some KBool, Some KBool, Some KBool => Some KBool | _, _, _ => None end
  end.
Definition kindOf (a : ast) : kind := match typeOf a with Some k => k | None => KNone end.

Section Value.
Variable lm : libm.
(** The value when the program runs: the right operand of && and || and the other part of a conditional are not evaluated unless
    needed. *)
Fixpoint value (env : nat -> Z) (a : ast) : outcome Z :=
  match a with
  | AInt v | AConst _ v => Ok v
  | AVar _ x => Ok (env x)
  | AUn o a => let* v := value env a in doUnary o (kindOf a) v
  | ABin o a b => let* v := value env a in let* w := value env b in doBinary lm o (kindOf a) v w
  | AAnd a b => let* v := value env a in if v =? 0 then Ok 0 else value env b
  | AOr a b => let* v := value env a in if v =? 0 then value env b else Ok v
  | ACond c a b => let* v := value env c in if v =? 0 then value env b else value env a
  end.
(** The value if all parts are constants that have values. *)
Fixpoint full (a : ast) : outcome Z :=
  match a with
  | AInt v | AConst _ v => Ok v
  | AVar _ _ => Err ESyntax
  | AUn o a => let* v := full a in doUnary o (kindOf a) v
  | ABin o a b => let* v := full a in let* w := full b in doBinary lm o (kindOf a) v w
  | AAnd a b => let* v := full a in let* w := full b in Ok (if v =? 0 then 0 else w)
  | AOr a b => let* v := full a in let* w := full b in Ok (if v =? 0 then w else v)
  | ACond c a b => let* v := full c in let* x := full a in let* y := full b in Ok (if v =? 0 then y else x)
  end.
(** The left operands decide nothing: true before &&, false before ||. *)
Fixpoint noSkip (a : ast) : Prop :=
  match a with
  | AInt _ | AConst _ _ | AVar _ _ => True
  | AUn _ a => noSkip a
  | ABin _ a b => noSkip a /\ noSkip b
  | AAnd a b => noSkip a /\ noSkip b /\ full a <> Ok 0
  | AOr a b => noSkip a /\ noSkip b /\ full a = Ok 0
  | ACond c a b => noSkip c /\ noSkip a /\ noSkip b
  end.
End Value.

(** What follows does not continue an expression of level [r]. *)
Definition rank (l : level) : nat := match l with LFactor => 0 | LTerm => 1 | LRelTerm => 2 | LRel => 3 | LAnd => 4 | LOr => 5 | LExpr => 6 end.
Definition continues (t : tok) : option nat :=
  match t with
  | TkOp o => match opLevel o with Some l => Some (rank l) | None => None end
  | TkQuestion => Some 6%nat
  | _ => None
  end.
Definition ends (r : nat) (rest : list tok) : Prop :=
  match rest with
  | t :: _ => match continues t with Some q => (r < q)%nat | None => True end
  | [] => True
  end.
