(** Enumerations, constant groups and expression lists. *)
From Coq Require Import ZArith Lia Bool List String.
From Verif Require Import Base NumModel.
Import ListNotations.
Local Open Scope Z_scope.

(** An item of an enumeration: its name and, after "=", the kind and the value of the constant expression.
    Simplified: the expression is represented by its already evaluated kind and value (parseExpr in constant mode);
    values are the intVal member of union Const. *)
Definition eitem : Type := (string * option (kind * Z))%type.

(** src/umka_types.c:736-745, typeFindEnumConst. *)
Definition typeFindEnumConst (cs : list (string * Z)) (name : string) : bool :=
  existsb (fun c => String.eqb (fst c) name) cs.

(** src/umka_types.c:757-766, typeFindEnumConstByVal. *)
Definition typeFindEnumConstByVal (cs : list (string * Z)) (v : Z) : bool :=
  existsb (fun c => snd c =? v) cs.

(** src/umka_types.c:769-792, typeAddEnumConst. Simplified: names are not longer than MAX_IDENT_LEN (the lexer
    rejects longer ones), so that strncpy copies them whole. *)
Definition typeAddEnumConst (cs : list (string * Z)) (name : string) (v : Z) : outcome (list (string * Z)) :=
  if typeFindEnumConst cs name then Err EDuplicate
  else if typeFindEnumConstByVal cs v then Err EDuplicate
  else Ok (cs ++ [(name, v)]).

(** src/umka_decl.c:311-333, parseEnumItem. [constant->intVal++] is signed: undefined at INT64_MAX.
    src/umka_types.c:506-518 and 521-528: among constant expressions exactly the integer ones (not enumerations) are
    compatible with int; enumeration kinds are not represented here. *)
Definition parseEnumItem (base : kind) (st : list (string * Z) * Z) (it : eitem) : outcome (list (string * Z) * Z) :=
  let (cs, c) := st in
  let* c1 := match snd it with
             | None => chk64 (c + 1)
             | Some (k, v) => if kindIntegerOrEnum k then Ok v else Err EIllegalType
             end in
  if typeOverflow base c1 then Err EOverflow
  else let* cs1 := typeAddEnumConst cs (fst it) c1 in Ok (cs1, c1).

(** The loop in src/umka_decl.c:355-359. *)
Fixpoint parseEnumItems (base : kind) (st : list (string * Z) * Z) (its : list eitem) : outcome (list (string * Z) * Z) :=
  match its with
  | [] => Ok st
  | it :: r => let* st1 := parseEnumItem base st it in parseEnumItems base st1 r
  end.

(** src/umka_decl.c:337-367, parseEnumType: the base type (int by default) must be an integer type; the counter starts at
    -1; "zero" is added if no constant has the value 0. *)
Definition parseEnumType (base : kind) (its : list eitem) : outcome (list (string * Z)) :=
  if negb (kindIntegerOrEnum base) then Err EIllegalType else
  let* st := parseEnumItems base ([], -1) its in
  let cs := fst st in
  if typeFindEnumConstByVal cs 0 then Ok cs else typeAddEnumConst cs "zero" 0.

(** ** Constant groups. The type of a constant: its kind and whether it is an enumeration. *)
Record ctype : Type := { ckind : kind; cenum : bool }.

(** src/umka_types.h:248-251, typeInteger. *)
Definition typeInteger (t : ctype) : bool := kindIntegerOrEnum (ckind t) && negb (cenum t).

(** src/umka_decl.c:606: ordinal, real, string or closure. *)
Definition constTypeOk (k : kind) : bool :=
  kindOrdinal k || kindReal k || match k with KStr | KClosure => true | _ => false end.

(** src/umka_decl.c:588-611, parseConstDeclItem. The state is the type (NULL before the first item) and the constant shared
    by the items of the group. Simplified: identAddConst (duplicate names) is in IdModel.v. *)
Definition parseConstDeclItem (st : option (ctype * Z)) (e : option (ctype * Z)) : outcome (ctype * Z) :=
  match st, e with
  | Some (t, c), None =>
      if typeInteger t then
        let* c1 := chk64 (c + 1) in
        if typeOverflow (ckind t) c1 then Err EOverflow else Ok (t, c1)
      else Err ESyntax
  | None, None => Err ESyntax
  | _, Some (t, v) => if constTypeOk (ckind t) then Ok (t, v) else Err EIllegalType
  end.

(** src/umka_decl.c:615-635, parseConstDecl, parenthesised form (the single form is a list of one item). *)
Fixpoint parseConstDecl (st : option (ctype * Z)) (es : list (option (ctype * Z))) : outcome (list (ctype * Z)) :=
  match es with
  | [] => Ok []
  | e :: r =>
      let* c := parseConstDeclItem st e in
      let* cs := parseConstDecl (Some c) r in
      Ok (c :: cs)
  end.

(** ** Expression lists *)
(** src/umka_common.h, MAX_IDENTS_IN_LIST = 16. *)
Definition MAX_IDENTS_IN_LIST : nat := 16.

(** A write to the local array fieldConstantBuf[MAX_IDENTS_IN_LIST] (src/umka_expr.c:3182): undefined outside it. *)
Definition bufSet {V} (buf : list V) (i : nat) (v : V) : outcome (list V) :=
  if Nat.ltb i MAX_IDENTS_IN_LIST then Ok (firstn i buf ++ v :: skipn (S i) buf) else UB.

Section EXPRLIST.
  Context {T V : Type}.
  (** typeExprListStruct. *)
  Variable isList : T -> bool.
  (** The implicit conversion of field i to the inferred type, if any (src/umka_expr.c:3199-3205): new type and value. *)
  Variable conv : nat -> T -> V -> outcome (T * V).
  Variable vdef : V.

  (** src/umka_expr.c:3196-3227, the loop of parseExprList, in constant mode ([isConst]) or in code generation mode.
      [cur]: the expression just parsed, its type and value; in constant mode its value is in buf[length fields].
      [rest]: the outcomes of parseExpr on the expressions after the following commas. In code generation mode the value
      stands for what the generated code leaves on the operand stack. *)
  Fixpoint exprListLoop (isConst : bool) (fields : list (T * V)) (buf : list V) (cur : T * V) (rest : list (outcome (T * V)))
    : outcome (list (T * V) * list V) :=
    let n := List.length fields in
    let v := if isConst then nth n buf vdef else snd cur in
    let* tv := conv n (fst cur) v in
    let* buf1 := (if isConst then bufSet buf n (snd tv) else Ok buf) in
    if isList (fst tv) then Err EIllegalType
    else if Nat.leb MAX_IDENTS_IN_LIST n then Err ETooMany
    else
      let fields1 := fields ++ [tv] in
      match rest with
      | [] => Ok (fields1, buf1)
      | e :: r =>
          let* c := e in
          let* buf2 := (if isConst then bufSet buf1 (List.length fields1) (snd c) else Ok buf1) in
          exprListLoop isConst fields1 buf2 c r
      end.

  (** src/umka_expr.c:3171-3259, parseExprList: a single expression, or a structure of the fields. The structure is filled
      from fieldConstantBuf in constant mode and from the operand stack otherwise (3243-3255). *)
  Definition parseExprList (isConst : bool) (e : outcome (T * V)) (es : list (outcome (T * V))) : outcome (list (T * V)) :=
    let* c := e in
    match es with
    | [] => Ok [c]
    | e2 :: r =>
        let* buf := (if isConst then bufSet (repeat vdef MAX_IDENTS_IN_LIST) 0 (snd c) else Ok (repeat vdef MAX_IDENTS_IN_LIST)) in
        let* fb := exprListLoop isConst [] buf c es in
        if isConst then Ok (List.combine (map fst (fst fb)) (snd fb)) else Ok (fst fb)
    end.
End EXPRLIST.
