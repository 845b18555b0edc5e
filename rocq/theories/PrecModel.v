(** * The parser of expressions, from tokens to a tree

    /repo/src/umka_expr.c:2455-3180, at run time ([constant == NULL]).

    The code is generated while parsing. Here the tree is returned whose operands and operators are
    visited in that order. Types are not followed, so neither are the errors they raise. A designator
    begins with an identifier: type casts, composite literals and literals of closures, which begin
    with a type, are left out, and the model reports an error where the code reads one. *)
From Coq Require Import ZArith List Bool.
From Verif Require Import Base.
Import ListNotations.

(** The binary operators: /repo/src/umka_lexer.h, TOK_PLUS to TOK_OROR. *)
Inductive op :=
| OMul | ODiv | OMod | OShl | OShr | OAnd
| OPlus | OMinus | OOr | OXor
| OEqEq | ONotEq | OLess | OLessEq | OGreater | OGreaterEq
| OAndAnd | OOrOr.

(** Tokens. [TLit]: a number, a character or a string. [TEol]: the semicolon put at the end of a
    line, /repo/src/umka_lexer.c:914-936. [TOther]: any token that no expression holds. *)
Inductive tok :=
| TIdent (x : Z) | TLit (c : Z)
| TOp (o : op) | TNot
| TLpar | TRpar | TLbracket | TRbracket | TPeriod | TCaret
| TComma | TQuestion | TColon | TEol | TOther (x : Z).

(** The unary operators: /repo/src/umka_expr.c:2844-2847. *)
Inductive uop := UPlus | UMinus | UNot | UXor.

(** The trees. *)
Inductive expr :=
| ELit (c : Z)
| EDes (d : desig)
| EAddr (d : desig)
| EUn (u : uop) (e : expr)
| EBin (o : op) (a b : expr)
| ECond (c a b : expr)
with desig :=
| DIdent (x : Z)
| DDeref (d : desig)
| DIndex (d : desig) (e : expr)
| DField (d : desig) (x : Z)
| DCall (d : desig) (es : args)
with args :=
| ANil
| ACons (e : expr) (es : args).

(** The functions that parse binary operators: parseTerm, parseRelationTerm, parseRelation,
    parseLogicalTerm, parseLogicalExpr: /repo/src/umka_expr.c:2912-3080. *)
Inductive lvl := LTerm | LRelTerm | LRel | LLogTerm | LLogExpr.

(** The function each of them calls for its operands; [None] is parseFactor:
    /repo/src/umka_expr.c:2915, 2941, 2967, 2993, 3039. *)
Definition operandOf (l : lvl) : option lvl :=
  match l with
  | LTerm => None
  | LRelTerm => Some LTerm
  | LRel => Some LRelTerm
  | LLogTerm => Some LRel
  | LLogExpr => Some LLogTerm
  end.

(** The operators each of them reads: /repo/src/umka_expr.c:2917-2918, 2943-2944, 2969-2970, 2995,
    3041. *)
Definition reads (l : lvl) (o : op) : bool :=
  match l, o with
  | LTerm, (OMul | ODiv | OMod | OShl | OShr | OAnd) => true
  | LRelTerm, (OPlus | OMinus | OOr | OXor) => true
  | LRel, (OEqEq | ONotEq | OLess | OLessEq | OGreater | OGreaterEq) => true
  | LLogTerm, OAndAnd => true
  | LLogExpr, OOrOr => true
  | _, _ => false
  end.

(** [while] in all but parseRelation, which has [if]: /repo/src/umka_expr.c:2969. *)
Definition repeats (l : lvl) : bool :=
  match l with LRel => false | _ => true end.

(** The token of a unary operator: /repo/src/umka_expr.c:2844-2847. *)
Definition unaryOf (t : tok) : option uop :=
  match t with
  | TOp OPlus => Some UPlus
  | TOp OMinus => Some UMinus
  | TNot => Some UNot
  | TOp OXor => Some UXor
  | _ => None
  end.

(** lexEat: /repo/src/umka_lexer.c:959-967. *)
Definition tokEq (a b : tok) : bool :=
  match a, b with
  | TRpar, TRpar | TRbracket, TRbracket | TColon, TColon => true
  | _, _ => false
  end.

Definition eat (t : tok) (ts : list tok) : outcome (list tok) :=
  match ts with
  | t' :: r => if tokEq t t' then Ok r else Err EOther
  | [] => Err EOther
  end.

(** "Allow closing parenthesis on a new line": /repo/src/umka_expr.c:1859-1861. *)
Definition skipEol (ts : list tok) : list tok :=
  match ts with
  | TEol :: r => r
  | _ => ts
  end.

(** The first argument counts down the calls; [parse] gives enough of it. *)
Fixpoint parseExpr (n : nat) (ts : list tok) {struct n} : outcome (expr * list tok) :=
  match n with
  | 0 => Err EFuel
  | S n =>
      (* /repo/src/umka_expr.c:3082-3173 *)
      let* (c, r) := parseBin n LLogExpr ts in
      match r with
      | TQuestion :: r =>
          let* (a, r) := parseExpr n r in
          let* r := eat TColon r in
          let* (b, r) := parseExpr n r in
          Ok (ECond c a b, r)
      | _ => Ok (c, r)
      end
  end
(* /repo/src/umka_expr.c:2912-3080 *)
with parseBin (n : nat) (l : lvl) (ts : list tok) {struct n} : outcome (expr * list tok) :=
  match n with
  | 0 => Err EFuel
  | S n =>
      let* (a, r) := (match operandOf l with
                      | Some l' => parseBin n l' ts
                      | None => parseFactor n ts
                      end) in
      parseRest n l a r
  end
(* the loop of these functions, [a] being the tree of what was read *)
with parseRest (n : nat) (l : lvl) (a : expr) (ts : list tok) {struct n} : outcome (expr * list tok) :=
  match n with
  | 0 => Err EFuel
  | S n =>
      match ts with
      | TOp o :: r =>
          if reads l o then
            let* (b, r) := (match operandOf l with
                            | Some l' => parseBin n l' r
                            | None => parseFactor n r
                            end) in
            if repeats l then parseRest n l (EBin o a b) r else Ok (EBin o a b, r)
          else Ok (a, ts)
      | _ => Ok (a, ts)
      end
  end
(* /repo/src/umka_expr.c:2762-2909 *)
with parseFactor (n : nat) (ts : list tok) {struct n} : outcome (expr * list tok) :=
  match n with
  | 0 => Err EFuel
  | S n =>
      match ts with
      | TIdent x :: r => let* (d, r) := parseSelectors n (DIdent x) r in Ok (EDes d, r)
      | TLit c :: r => Ok (ELit c, r)
      | TOp OAnd :: TIdent x :: r => let* (d, r) := parseSelectors n (DIdent x) r in Ok (EAddr d, r)
      | TLpar :: r =>
          let* (e, r) := parseExpr n r in
          let* r := eat TRpar r in
          Ok (e, r)
      | t :: r =>
          match unaryOf t with
          | Some u => let* (e, r) := parseFactor n r in Ok (EUn u e, r)
          | None => Err EOther
          end
      | [] => Err EOther
      end
  end
(* /repo/src/umka_expr.c:2666-2687, with 2455-2480, 2485-2520, 2570-2575, 1772-1861 *)
with parseSelectors (n : nat) (d : desig) (ts : list tok) {struct n} : outcome (desig * list tok) :=
  match n with
  | 0 => Err EFuel
  | S n =>
      match ts with
      | TCaret :: r => parseSelectors n (DDeref d) r
      | TLbracket :: r =>
          let* (e, r) := parseExpr n r in
          let* r := eat TRbracket r in
          parseSelectors n (DIndex d e) r
      | TPeriod :: TIdent x :: r => parseSelectors n (DField d x) r
      | TPeriod :: _ => Err EOther
      | TLpar :: r =>
          match r with
          | TRpar :: r => parseSelectors n (DCall d ANil) r
          | _ =>
              let* (es, r) := parseActualParams n r in
              let* r := eat TRpar (skipEol r) in
              parseSelectors n (DCall d es) r
          end
      | _ => Ok (d, ts)
      end
  end
(* /repo/src/umka_expr.c:1821-1856 *)
with parseActualParams (n : nat) (ts : list tok) {struct n} : outcome (args * list tok) :=
  match n with
  | 0 => Err EFuel
  | S n =>
      let* (e, r) := parseExpr n ts in
      match r with
      | TComma :: r => let* (es, r) := parseActualParams n r in Ok (ACons e es, r)
      | _ => Ok (ACons e ANil, r)
      end
  end.

(** parseExpr with as many calls as it can need: /repo/src/umka_expr.c:3083. *)
Definition parse (ts : list tok) : outcome (expr * list tok) :=
  parseExpr (8 * length ts + 8) ts.
