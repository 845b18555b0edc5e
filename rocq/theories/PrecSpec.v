(** * How operators group, as documented: /repo/doc/lang.md:1165-1176 *)
From Coq Require Import ZArith List Bool Arith.
From Verif Require Import Base PrecModel.
Import ListNotations.

(** The table of precedence, from 6, the highest, to 2. The conditional operator has 1 and an
    operand without binary operators 7. *)
Definition prec (o : op) : nat :=
  match o with
  | OMul | ODiv | OMod | OShl | OShr | OAnd => 6
  | OPlus | OMinus | OOr | OXor => 5
  | OEqEq | ONotEq | OLess | OLessEq | OGreater | OGreaterEq => 4
  | OAndAnd => 3
  | OOrOr => 2
  end.

(** The comparisons do not chain; the other operators group from the left. *)
Definition leftPrec (o : op) : nat := if prec o =? 4 then 5 else prec o.

Definition utok (u : uop) : tok :=
  match u with
  | UPlus => TOp OPlus
  | UMinus => TOp OMinus
  | UNot => TNot
  | UXor => TOp OXor
  end.

(** [says p e s]: where an operand of precedence [p] or above stands, the text [s] stands for the
    tree [e]. *)
Inductive says : nat -> expr -> list tok -> Prop :=
| says_lit p c : p <= 7 -> says p (ELit c) [TLit c]
| says_des p d s : p <= 7 -> names d s -> says p (EDes d) s
| says_addr p d s : p <= 7 -> names d s -> says p (EAddr d) (TOp OAnd :: s)
| says_un p u e s : p <= 7 -> says 7 e s -> says p (EUn u e) (utok u :: s)
| says_par p e s : p <= 7 -> says 1 e s -> says p e (TLpar :: s ++ [TRpar])
| says_bin p o a b s t :
    p <= prec o -> says (leftPrec o) a s -> says (S (prec o)) b t ->
    says p (EBin o a b) (s ++ TOp o :: t)
| says_cond p c a b s t u :
    p <= 1 -> says 2 c s -> says 1 a t -> says 1 b u ->
    says p (ECond c a b) (s ++ TQuestion :: t ++ TColon :: u)
with names : desig -> list tok -> Prop :=
| names_ident x : names (DIdent x) [TIdent x]
| names_deref d s : names d s -> names (DDeref d) (s ++ [TCaret])
| names_index d e s t : names d s -> says 1 e t -> names (DIndex d e) (s ++ TLbracket :: t ++ [TRbracket])
| names_field d x s : names d s -> names (DField d x) (s ++ [TPeriod; TIdent x])
| names_call0 d s : names d s -> names (DCall d ANil) (s ++ [TLpar; TRpar])
| names_call d es s t :
    names d s -> lists es t -> names (DCall d es) (s ++ TLpar :: t ++ [TRpar])
| names_call_line d es s t :
    names d s -> lists es t -> names (DCall d es) (s ++ TLpar :: t ++ [TEol; TRpar])
with lists : args -> list tok -> Prop :=
| lists_one e s : says 1 e s -> lists (ACons e ANil) s
| lists_cons e es s t : says 1 e s -> lists es t -> lists (ACons e es) (s ++ TComma :: t).

(** What may follow an expression. *)
Definition stops (r : list tok) : Prop :=
  match r with
  | (TOp _ | TQuestion | TCaret | TLbracket | TPeriod | TLpar) :: _ => False
  | _ => True
  end.

(** The text of a tree with no more parentheses than needed. *)
Fixpoint show (p : nat) (e : expr) : list tok :=
  match e with
  | ELit c => [TLit c]
  | EDes d => showD d
  | EAddr d => TOp OAnd :: showD d
  | EUn u e => utok u :: show 7 e
  | EBin o a b =>
      let s := show (leftPrec o) a ++ TOp o :: show (S (prec o)) b in
      if p <=? prec o then s else TLpar :: s ++ [TRpar]
  | ECond c a b =>
      let s := show 2 c ++ TQuestion :: show 1 a ++ TColon :: show 1 b in
      if p <=? 1 then s else TLpar :: s ++ [TRpar]
  end
with showD (d : desig) : list tok :=
  match d with
  | DIdent x => [TIdent x]
  | DDeref d => showD d ++ [TCaret]
  | DIndex d e => showD d ++ TLbracket :: show 1 e ++ [TRbracket]
  | DField d x => showD d ++ [TPeriod; TIdent x]
  | DCall d ANil => showD d ++ [TLpar; TRpar]
  | DCall d es => showD d ++ TLpar :: showA es ++ [TRpar]
  end
with showA (es : args) : list tok :=
  match es with
  | ANil => []
  | ACons e ANil => show 1 e
  | ACons e es => show 1 e ++ TComma :: showA es
  end.

(** The precedences of the operators of a text that stand outside all brackets. A sign is an operator
    with two operands if it follows one. [after]: such an operand ends here. [d]: open brackets. *)
Fixpoint scan (after : bool) (d : nat) (ts : list tok) : list nat :=
  match ts with
  | [] => []
  | t :: r =>
      match t with
      | TIdent _ | TLit _ | TCaret => scan true d r
      | TLpar | TLbracket => scan false (S d) r
      | TRpar | TRbracket => scan true (pred d) r
      | TOp o => (if after && (d =? 0) then [prec o] else []) ++ scan false d r
      | TQuestion | TColon => (if d =? 0 then [1] else []) ++ scan false d r
      | TEol => scan after d r
      | TNot | TPeriod | TComma | TOther _ => scan false d r
      end
  end.

Definition outer (ts : list tok) : list nat := scan false 0 ts.
