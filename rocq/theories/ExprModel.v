(** The parsing of expressions (src/umka_expr.c:2762-3167), for operands of the types int and bool.
    Not modelled: other types and their conversions, designators other than names, composite literals, the address operator,
    integer literals above INT64_MAX, and the identifiers and temporary variables of the blocks opened for right operands. *)
From Coq Require Import ZArith Bool List.
From Verif Require Import Base NumModel.
Import ListNotations.
Local Open Scope Z_scope.

(** Operator tokens. *)
Inductive otok : Type := TArith (o : op) | TAndAnd | TOrOr.
(** Tokens; names are those of constants, with type and value, or of variables, with type and number. *)
Inductive tok : Type :=
| TkInt (v : Z) | TkConst (k : kind) (v : Z) | TkVar (k : kind) (x : nat)
| TkOp (o : otok) | TkQuestion | TkColon | TkLPar | TkRPar | TkOther.

(** The code generated for an expression, as a tree: a binary operator evaluates both operands; [RAnd], [ROr] are the operand code
    between genShortCircuitProlog and genShortCircuitEpilog (see C32), [RCond] genIfCondEpilog ... genIfElseEpilog. *)
Inductive rexpr : Type :=
| RLit (v : Z) | RVar (x : nat) | RUn (o : op) (k : kind) (e : rexpr) | RBin (o : op) (k : kind) (a b : rexpr)
| RAnd (a b : rexpr) | ROr (a b : rexpr) | RCond (c a b : rexpr).

(** What parsing an expression gives: the value if a constant is wanted (constant != NULL), code otherwise. *)
Inductive item : Type := IConst (v : Z) | ICode (e : rexpr).

(** The parsing functions by level: parseFactor, parseTerm, parseRelationTerm, parseRelation, parseLogicalTerm, parseLogicalExpr,
    parseExpr. *)
Inductive level : Type := LFactor | LTerm | LRelTerm | LRel | LAnd | LOr | LExpr.
Definition down (l : level) : level :=
  match l with LFactor => LFactor | LTerm => LFactor | LRelTerm => LTerm | LRel => LRelTerm | LAnd => LRel | LOr => LAnd | LExpr => LOr end.
Definition level_eqb (a b : level) : bool :=
  match a, b with
  | LFactor, LFactor | LTerm, LTerm | LRelTerm, LRelTerm | LRel, LRel | LAnd, LAnd | LOr, LOr | LExpr, LExpr => true
  | _, _ => false
  end.

(** The operators of each loop (lines 2919, 2943, 2967, 2993, 3037). *)
Definition opLevel (o : otok) : option level :=
  match o with
  | TArith (OpMul | OpDiv | OpMod | OpShl | OpShr | OpAnd) => Some LTerm
  | TArith (OpPlus | OpMinus | OpOr | OpXor) => Some LRelTerm
  | TArith (OpEqEq | OpNotEq | OpLess | OpGreater | OpLessEq | OpGreaterEq) => Some LRel
  | TArith _ => None
  | TAndAnd => Some LAnd
  | TOrOr => Some LOr
  end.
(** Line 2851-2854. *)
Definition isUnary (o : op) : bool := match o with OpPlus | OpMinus | OpNot | OpXor => true | _ => false end.

(** src/umka_types.c:575-613, typeValidOperator, for int and bool. *)
Definition isKInt (k : kind) : bool := match k with KInt => true | _ => false end.
Definition isKBool (k : kind) : bool := match k with KBool => true | _ => false end.
Definition validOp (o : otok) (k : kind) : bool :=
  match o with
  | TArith (OpPlus | OpMinus | OpMul | OpDiv | OpMod | OpAnd | OpOr | OpXor | OpShl | OpShr) => isKInt k
  | TArith OpNot | TAndAnd | TOrOr => isKBool k
  | TArith (OpEqEq | OpNotEq | OpLess | OpGreater | OpLessEq | OpGreaterEq) => isKInt k || isKBool k
  | TArith _ => false
  end.
(** typeCompatible for these types. *)
Definition sameKind (a b : kind) : bool := (isKInt a && isKInt b) || (isKBool a && isKBool b).

Section Parse.
Variable lm : libm.
Variable cst : bool.   (* constant != NULL *)

Definition lit (v : Z) : item := if cst then IConst v else ICode (RLit v).
(** Lines 2862-2865. *)
Definition applyUn (o : op) (k : kind) (a : item) : outcome item :=
  match a with
  | IConst v => let* w := constUnary o k v in Ok (IConst w)
  | ICode e => Ok (ICode (RUn o k e))
  end.
(** src/umka_expr.c:784-789, doApplyOperator with apply = true. *)
Definition applyBin (o : op) (k : kind) (a b : item) : outcome item :=
  match a, b with
  | IConst v, IConst w => let* x := constBinary lm o k v w in Ok (IConst x)
  | ICode e, ICode f => Ok (ICode (RBin o k e f))
  | _, _ => Err EOther
  end.
(** Lines 3007, 3026 and 3051, 3070: what && and || make of the right operand; the left one is true or false, respectively, if it is a
    constant. *)
Definition applyLogic (o : otok) (a b : item) : outcome item :=
  match a, b with
  | IConst _, IConst w => Ok (IConst w)
  | ICode e, ICode f => Ok (ICode match o with TAndAnd => RAnd e f | _ => ROr e f end)
  | _, _ => Err EOther
  end.
(** Lines 3102, 3106-3159. *)
Definition applyCond (c a b : item) : outcome item :=
  match c, a, b with
  | IConst v, IConst x, IConst y => Ok (IConst (if v =? 0 then y else x))
  | ICode e, ICode f, ICode g => Ok (ICode (RCond e f g))
  | _, _, _ => Err EOther
  end.
(** Lines 3000 and 3044: the right operand is not parsed, and the result is false or true. *)
Definition stops (o : otok) (a : item) : option item :=
  match o, a with
  | TAndAnd, IConst v => if v =? 0 then Some (IConst 0) else None
  | TOrOr, IConst v => if v =? 0 then None else Some (IConst 1)
  | _, _ => None
  end.

(** The parsing functions; [n] bounds their nesting. *)
Fixpoint parse (n : nat) (l : level) (ts : list tok) {struct n} : outcome (kind * item * list tok) :=
  match n with
  | O => Err EFuel
  | S n1 =>
      match l with
      | LFactor =>   (* 2764-2911 *)
          match ts with
          | TkInt v :: r => Ok (KInt, lit v, r)
          | TkConst k v :: r => Ok (k, lit v, r)
          | TkVar k x :: r => if cst then Err ESyntax else Ok (k, ICode (RVar x), r)
          | TkOp (TArith o) :: r =>
              if isUnary o then
                let* (k, a, r1) := parse n1 LFactor r in
                if validOp (TArith o) k then let* b := applyUn o k a in Ok (k, b, r1) else Err EIllegalType
              else Err ESyntax
          | TkLPar :: r =>
              let* (k, a, r1) := parse n1 LExpr r in
              match r1 with
              | TkRPar :: r2 => Ok (k, a, r2)
              | _ => Err ESyntax
              end
          | _ => Err ESyntax
          end
      | LExpr =>   (* 3077-3167 *)
          let* (k, c, r) := parse n1 LOr ts in
          match r with
          | TkQuestion :: r1 =>
              if negb (isKBool k) then Err EIllegalType else
              let* (ka, a, r2) := parse n1 LExpr r1 in
              match r2 with
              | TkColon :: r3 =>
                  let* (kb, b, r4) := parse n1 LExpr r3 in
                  if negb (sameKind ka kb) then Err EIllegalType else
                  let* x := applyCond c a b in Ok (ka, x, r4)
              | _ => Err ESyntax
              end
          | _ => Ok (k, c, r)
          end
      | _ =>   (* 2915-2917, 2939-2941, 2963-2965, 2989-2991, 3033-3035 *)
          let* (k, a, r) := parse n1 (down l) ts in
          loop n1 l k a r
      end
  end
(** The loops: 2919-2934, 2943-2958, 2967-2984 (not a loop), 2993-3028, 3037-3072. *)
with loop (n : nat) (l : level) (k : kind) (a : item) (ts : list tok) {struct n} : outcome (kind * item * list tok) :=
  match n with
  | O => Err EFuel
  | S n1 =>
      match ts with
      | TkOp o :: r =>
          match opLevel o with
          | Some l1 =>
              if level_eqb l1 l then
                match stops o a with
                | Some b => loop n1 l k b r
                | None =>
                    let* (k2, b, r2) := parse n1 (down l) r in
                    if negb (sameKind k k2 && validOp o k) then Err EIllegalType else
                    let* c := match o with TArith o1 => applyBin o1 k a b | _ => applyLogic o a b end in
                    match l with
                    | LRel => Ok (KBool, c, r2)
                    | _ => loop n1 l k c r2
                    end
                end
              else Ok (k, a, ts)
          | None => Ok (k, a, ts)
          end
      | _ => Ok (k, a, ts)
      end
  end.
End Parse.

(** The execution of the code: operators as the virtual machine applies them. *)
Section Eval.
Variable lm : libm.
Variable env : nat -> Z.
Fixpoint eval (e : rexpr) : outcome Z :=
  match e with
  | RLit v => Ok v
  | RVar x => Ok (env x)
  | RUn o k a => let* v := eval a in doUnary o k v
  | RBin o k a b => let* v := eval a in let* w := eval b in doBinary lm o k v w
  | RAnd a b => let* v := eval a in if v =? 0 then Ok v else eval b
  | ROr a b => let* v := eval a in if v =? 0 then eval b else Ok v
  | RCond c a b => let* v := eval c in if v =? 0 then eval b else eval a
  end.
End Eval.
