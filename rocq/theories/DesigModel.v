(** Designators and the statements made of them: which token sequences are declarations, and what may be assigned to, incremented
    or called.

    Simplifications: enumerations, interfaces, fibers and all numbers but int are left out, as are the code generated and the
    names. *)
From Coq Require Import Bool List.
Import ListNotations.

(** ** Looking ahead *)
Inductive tok : Type := KIdent | KComma | KColonEq | KSwitch | KType | KIn | KOther.
(** doShortVarDeclLookahead (src/umka_stmt.c:135-151); the lexer is copied, so the current token stays. *)
Fixpoint declAhead (l : list tok) : bool :=
  match l with
  | KIdent :: KComma :: r => declAhead r
  | KIdent :: KColonEq :: _ => true
  | _ => false
  end.
(** doTypeSwitchStmtLookahead (src/umka_stmt.c:154-174). *)
Definition typeSwitchAhead (l : list tok) : bool :=
  match l with KSwitch :: KIdent :: KColonEq :: KType :: _ => true | _ => false end.
(** The choice in parseForStmt (src/umka_stmt.c:1093-1099), after "for": true for parseForInHeader. *)
Definition forInAhead (l : list tok) : bool :=
  negb (declAhead l) && match l with _ :: (KComma | KIn) :: _ => true | _ => false end.

(** ** Designators *)
Inductive ty : Type := TVoid | TNull | TInt | TChar | TReal | TStr | TPtr (t : ty) | TWeak (t : ty) | TArr (t : ty) | TDyn (t : ty)
| TMap (t : ty) | TStruct (fs : list ty) | TFn (r : ty) | TClo (r : ty).
(** typeStructured (src/umka_types.h:300-304). *)
Definition structured (t : ty) : bool := match t with TArr _ | TDyn _ | TMap _ | TStruct _ | TClo _ => true | _ => false end.
(** parsePrimary (src/umka_expr.c:1921-1972): variable, constant (functions too) or built-in call; or a type cast, a composite
    literal, with its type. *)
Inductive head : Type := HVar (t : ty) | HConst (t : ty) | HBuiltin (t : ty) | HCast (t : ty) | HLit (t : ty).
(** Selectors; a field by number, a method by its result. *)
Inductive sel : Type := SDeref | SIndex | SField (i : nat) | SMethod (r : ty) | SCall.
Inductive desig : Type := DHead (h : head) | DSel (d : desig) (s : sel).
(** *type, *isVar, *isCall, *isCompLit. *)
Record flags : Type := MkF { f_ty : ty; f_var : bool; f_call : bool; f_lit : bool }.

(** typeAddPtrTo unless the type is structured. *)
Definition slotType (t : ty) : ty := if structured t then t else TPtr t.
(** parsePrimary; parseTypeCastOrCompositeLiteralOrEnumConst (src/umka_expr.c:2420-2451). *)
Definition headFlags (h : head) : flags :=
  match h with
  | HVar t => MkF (slotType t) true false false
  | HConst t => MkF t false false false
  | HBuiltin t => MkF t false true false
  | HCast t => MkF t (structured t) false false
  | HLit t => MkF t (structured t) false true
  end.
(** doTryImplicitDeref (src/umka_expr.c:93-106). *)
Definition implicitDeref (t : ty) : ty := match t with TPtr (TPtr b) => TPtr b | TPtr (TWeak b) => TPtr b | _ => t end.
(** parseDerefSelector (src/umka_expr.c:2455-2481). *)
Definition derefSel (f : flags) : option flags :=
  match (if f_var f then match f_ty f with TPtr b => Some b | _ => None end else Some (f_ty f)) with
  | Some (TPtr b) | Some (TWeak b) => match b with TVoid | TNull => None | _ => Some (MkF (TPtr b) true false false) end
  | _ => None
  end.
(** parseIndexSelector (src/umka_expr.c:2485-2566). *)
Definition indexSel (f : flags) : option flags :=
  let t := match implicitDeref (f_ty f) with
           | TPtr (TArr e) => TArr e | TPtr (TDyn e) => TDyn e | TPtr (TMap e) => TMap e | TPtr TStr => TStr
           | t => t
           end in
  match t with
  | TArr e | TDyn e | TMap e => Some (MkF (slotType e) true false false)
  | TStr => Some (MkF TChar false false false)
  | _ => None
  end.
(** parseFieldSelector (src/umka_expr.c:2570-2633), for a field and for a method. *)
Definition selected (t : ty) : option ty :=
  match implicitDeref t with TPtr b => Some b | t => if structured t then Some t else None end.
Definition fieldSel (f : flags) (i : nat) : option flags :=
  match selected (f_ty f) with
  | Some (TStruct fs) => match nth_error fs i with Some t => Some (MkF (slotType t) true false false) | None => None end
  | _ => None
  end.
Definition methodSel (f : flags) (r : ty) : option flags :=
  match selected (f_ty f) with Some _ => Some (MkF (TFn r) false false false) | None => None end.
(** parseCallSelector (src/umka_expr.c:2637-2663). *)
Definition callSel (f : flags) : option flags :=
  let t := match implicitDeref (f_ty f) with TPtr (TFn r) => TFn r | TPtr (TClo r) => TClo r | t => t end in
  match t with TFn r | TClo r => Some (MkF r (structured r) true false) | _ => None end.
(** parseSelectors and parseDesignator (src/umka_expr.c:2667-2722); [designator] without and [parse] with its end. sig->isMethod holds
    of what a method selector gives and of no other function that has a name. *)
Fixpoint designator (d : desig) : option flags :=
  match d with
  | DHead h => Some (headFlags h)
  | DSel d s =>
      match designator d with
      | None => None
      | Some f =>
          match s with SDeref => derefSel f | SIndex => indexSel f | SField i => fieldSel f i | SMethod r => methodSel f r | SCall => callSel f end
      end
  end.
Definition isMethod (d : desig) : bool := match d with DSel _ (SMethod _) => true | _ => false end.
Definition parse (d : desig) : option flags :=
  match designator d with
  | Some f => match f_ty f with
              | TFn r => if isMethod d then None else Some (MkF (TClo r) (f_var f) (f_call f) (f_lit f))
              | TPtr (TFn _) => None
              | _ => Some f
              end
  | None => None
  end.

(** The value type of the left side (src/umka_stmt.c:195-200, 289-294, 422-427). *)
Definition leftType (t : ty) : option ty :=
  if structured t then Some t else match t with TPtr TVoid => None | TPtr b => Some b | _ => None end.
(** parseSimpleStmt (src/umka_stmt.c:437-483) with parseSingleAssignmentStmt, up to the right side: the type assigned to. *)
Definition assign (f : flags) : option ty :=
  if negb (f_var f) || f_call f || f_lit f then None else leftType (f_ty f).
(** parseFactor for a designator (src/umka_expr.c:2778-2793): the type it has in an expression. *)
Definition factorType (f : flags) : ty := if f_var f then (if structured (f_ty f) then f_ty f else match f_ty f with TPtr b => b | t => t end) else f_ty f.
(** parseDesignatorList (src/umka_expr.c:2724-2757) and parseListAssignmentStmt up to the right side (src/umka_stmt.c:220-237): the
    types assigned to. A list whose first designator is no variable ends there, and the comma is an error. *)
Fixpoint assignList (l : list desig) : option (list ty) :=
  match l with
  | [] => Some []
  | d :: r => match parse d with
              | Some f => match assign f with
                          | Some t => match assignList r with Some ts => Some (t :: ts) | None => None end
                          | None => None
                          end
              | None => None
              end
  end.
(** parseIncDecStmt (src/umka_stmt.c:420-432). *)
Definition incDec (f : flags) : bool := match leftType (f_ty f) with Some TInt => true | _ => false end.
(** A call statement (src/umka_stmt.c:474-481). *)
Definition callStmt (f : flags) : bool := f_call f.
