(** Which calls of the code generator the parser makes for control statements, src/umka_stmt.c and src/umka_expr.c. *)
From Coq Require Import ZArith Bool List.
From Verif Require Import Base NumModel MemModel BlkModel GenModel.
Import ListNotations.
Local Open Scope Z_scope.

(** Statements and expressions as far as control goes. Everything else is [Req]: one request to the code generator. The condition of
    [If], [IfElse], the left operand of [Short] and the expression of [Switch] and [TSwitch] are whatever was emitted before. Else-if is
    [IfElse] with another condition and [If] or [IfElse] inside. Blocks, variables and garbage collection at the end of blocks are
    requests. Functions declared inside functions are not modelled. *)
Inductive stmt : Type :=
| Skip
| Req (q : req)
| Seq (a b : stmt)
| Short (isAnd : bool) (b : stmt)
| If (a : stmt)
| IfElse (a b : stmt)
| Switch (cs : cases) (d : stmt)
| TSwitch (cs : tcases) (d : stmt)
| For1 (init cond body post : stmt)
| For2 (init cond post body : stmt)
| Goto (w : goto)
with cases : Type := CNil | CCons (ks : list (kind * Z)) (body : stmt) (rest : cases)
with tcases : Type := TNil | TCons (t : nat) (body : stmt) (rest : tcases).

(** src/umka_stmt.c:598-603, parseTypeCase up to genIfCondEpilog: the value is duplicated, converted (genAssertType, QOther) and
    compared with null. *)
Definition typeTest (t : nat) : list req := [QDup; QOther t; QDup; QPushConst KPtr 0; QBinary OpNotEq KPtr].
Fixpoint ncases (cs : cases) : nat := match cs with CNil => O | CCons _ _ r => S (ncases r) end.
Fixpoint ntcases (cs : tcases) : nat := match cs with TNil => O | TCons _ _ r => S (ntcases r) end.
(** src/umka_stmt.c:481-528 parseIfStmt; 532-577 parseExprCase; 581-635 parseTypeCase; 657-706 parseExprSwitchStmt; 710-766
    parseTypeSwitchStmt; 788-869 parseForHeader, 873-1071 parseForInHeader and 1075-1131 parseForStmt ([For1]: the statement after an
    iteration is deferred, that is ++, -- or missing; [For2]: the general case); 1135-1213 parseBreakStmt, parseContinueStmt,
    parseReturnStmt; src/umka_expr.c:2989-3074 parseLogicalTerm, parseLogicalExpr without a constant operand. *)
Fixpoint acts (s : stmt) : list act :=
  match s with
  | Skip => []
  | Req q => [AReq q]
  | Seq a b => acts a ++ acts b
  | Short isAnd b => AShortCircuitProlog :: acts b ++ [AShortCircuitEpilog isAnd]
  | If a => AIfCondEpilog :: acts a ++ [AIfEpilog]
  | IfElse a b => AIfCondEpilog :: acts a ++ AElseProlog :: acts b ++ [AIfElseEpilog]
  | Switch cs d => ASwitchCondEpilog :: cacts cs ++ acts d ++ [ASwitchEpilog (ncases cs)]
  | TSwitch cs d => tacts cs ++ acts d ++ [ASwitchEpilog (ntcases cs); AReq QPop]
  | For1 init cond body post =>
      AGotosProlog GBreak :: AGotosProlog GContinue :: acts init ++ AForCondProlog :: acts cond ++ AWhileCondEpilog :: acts body ++
      AGotosEpilog GContinue :: acts post ++ [AWhileEpilog; AGotosEpilog GBreak]
  | For2 init cond post body =>
      AGotosProlog GBreak :: AGotosProlog GContinue :: acts init ++ AForCondProlog :: acts cond ++ AForCondEpilog :: acts post ++
      AForPostStmtEpilog :: acts body ++ [AGotosEpilog GContinue; AForEpilog; AGotosEpilog GBreak]
  | Goto w => [AGotosAddStub w]
  end
with cacts (cs : cases) : list act :=
  match cs with
  | CNil => []
  | CCons ks body rest => map (fun kv => ACaseConstantCheck (fst kv) (snd kv)) ks ++ ACaseBlockProlog (length ks) :: acts body ++ ACaseBlockEpilog :: cacts rest
  end
with tacts (cs : tcases) : list act :=
  match cs with
  | TNil => []
  | TCons t body rest => map AReq (typeTest t) ++ AIfCondEpilog :: acts body ++ AElseProlog :: AReq QPop :: tacts rest
  end.
(** src/umka_stmt.c:1275-1380, parseFnBlock: from the prolog of the returns on; what follows their epilog up to genReturn is [epi]. *)
Definition fnActs (body : stmt) (epi : list req) : list act :=
  AGotosProlog GReturn :: acts body ++ AGotosEpilog GReturn :: map AReq epi ++ [AReq QHalt].

(** src/umka_const.c:504-514, constArrayFind: is the constant there already? *)
Fixpoint constArrayFind (lm : libm) (k : kind) (l : list Z) (v : Z) : outcome bool :=
  match l with
  | [] => Ok false
  | x :: l => let* r := constBinary lm OpEqEq k x v in if r =? 0 then constArrayFind lm k l v else Ok true
  end.
(** src/umka_stmt.c:540-560, parseExprCase: checks of the constants of one case, given those of the cases before it. *)
Fixpoint parseConstants (lm : libm) (k : kind) (old : list Z) (vs : list Z) : outcome (list Z) :=
  match vs with
  | [] => Ok old
  | v :: vs =>
      if typeOverflow k v then Err EOverflow else
      let* f := constArrayFind lm k old v in
      if f then Err EDuplicate else parseConstants lm k (old ++ [v]) vs
  end.
(** src/umka_stmt.c:671-691, parseExprSwitchStmt: the type of the expression must be ordinal; constants of all cases. *)
Fixpoint parseCases (lm : libm) (k : kind) (old : list Z) (cs : cases) : outcome (list Z) :=
  match cs with
  | CNil => Ok old
  | CCons ks _ r => let* l := parseConstants lm k old (map snd ks) in parseCases lm k l r
  end.
Definition parseExprSwitch (lm : libm) (k : kind) (cs : cases) : outcome (list Z) :=
  if kindOrdinal k then parseCases lm k [] cs else Err ESyntax.
