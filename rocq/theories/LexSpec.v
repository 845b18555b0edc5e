(** The lexical grammar, after doc/lang.md ("Lexical elements"). *)
From Coq Require Import ZArith Bool List String Ascii.
From Verif Require Import Base LexModel.
Import ListNotations.
Local Open Scope Z_scope.

(** Texts as strings, for readability. *)
Fixpoint txt (s : string) : list Z := match s with EmptyString => [] | String c r => Z.of_N (N_of_ascii c) :: txt r end.
Definition quote : Z := 34.
Definition no_nul (l : list Z) : Prop := Forall (fun c => c <> 0) l.

(** ** Numbers *)
Definition dec_digits : list (Z * Z) := combine (txt "0123456789") [0;1;2;3;4;5;6;7;8;9].
Definition hex_digits : list (Z * Z) :=
  (dec_digits ++ combine (txt "abcdef") [10;11;12;13;14;15] ++ combine (txt "ABCDEF") [10;11;12;13;14;15])%list.
Definition lookup (l : list (Z * Z)) (c : Z) : option Z := option_map snd (find (fun p => fst p =? c) l).
Definition digit (base c : Z) : option Z := lookup (if base =? 16 then hex_digits else dec_digits) c.
Definition digits10 : list Z := txt "0123456789".
(** A digit sequence: digits, each possibly preceded by one underscore. *)
Definition dtext (l : list (bool * Z)) : list Z := flat_map (fun p : bool * Z => if fst p then [95; snd p] else [snd p]) l.
Fixpoint dvalue (base : Z) (l : list (bool * Z)) (v : Z) : Z :=
  match l with [] => v | (_, c) :: r => dvalue base r (v * base + match digit base c with Some d => d | None => 0 end) end.
Definition dvalid (base : Z) (l : list (bool * Z)) : Prop :=
  match l with [] => False | (u, _) :: _ => u = false end /\ Forall (fun p => digit base (snd p) <> None) l.
(** What the text after a literal must not begin with, for the literal to end there. *)
Definition ends_dec (r : list Z) : Prop := digit 10 (peek r) = None /\ ~ In (peek r) (txt "_.eE").
Definition ends_hex (r : list Z) : Prop := digit 16 (peek r) = None /\ ~ In (peek r) (txt "_").

(** ** Comments *)
(** The text before and after the first end mark. *)
Fixpoint split_end (l : list Z) : option (list Z * list Z) :=
  match l with
  | [] => None
  | c :: r => match r with
              | d :: r' => if (c =? 42) && (d =? 47) then Some ([], r')
                           else option_map (fun p => (c :: fst p, snd p)) (split_end r)
              | [] => None
              end
  end.
(** The number of asterisks at the end. *)
Fixpoint last_stars (l : list Z) (n : nat) : nat := match l with [] => n | c :: r => last_stars r (if c =? 42 then S n else O) end.

(** ** String literals *)
(** What is written after a backslash, as in C. *)
Definition escapes : list (Z * Z) :=
  (combine (txt "0abfnrtv") [0; 7; 8; 12; 10; 13; 9; 11] ++ [(92, 92); (39, 39); (34, 34)])%list.
(** A piece of a literal: its spelling and its value. *)
Inductive piece : Type := Plain (c : Z) | Esc (c : Z) | Hex (l : list (bool * Z)).
Definition spell (p : piece) : list Z := match p with Plain c => [c] | Esc c => [92; c] | Hex l => 92 :: 120 :: dtext l end.
Definition pvalue (p : piece) : Z := match p with Plain c => c | Esc c => match lookup escapes c with Some v => v | None => c end | Hex l => dvalue 16 l 0 end.
(** [follow] is the text after the piece. *)
Definition pvalid (p : piece) (follow : list Z) : Prop :=
  match p with
  | Plain c => ~ In c [0; 10; 34; 92]
  | Esc c => lookup escapes c <> None /\ c <> 48
  | Hex l => dvalid 16 l /\ Forall (fun d => fst d = false) l /\ 0 < dvalue 16 l 0 <= 255 /\ digit 16 (peek follow) = None
  end.
Definition spell_all (l : list piece) : list Z := flat_map spell l.
Fixpoint pvalid_all (l : list piece) (follow : list Z) : Prop :=
  match l with [] => True | p :: r => pvalid p (spell_all r ++ follow)%list /\ pvalid_all r follow end.

(** ** Tokens *)
(** src/umka_lexer.c:14-99: how tokens are spelled. *)
Definition operators : list (tk * list Z) :=
  [(TPlus, txt "+"); (TMinus, txt "-"); (TMul, txt "*"); (TDiv, txt "/"); (TMod, txt "%"); (TAnd, txt "&"); (TOr, txt "|");
   (TXor, txt "~"); (TShl, txt "<<"); (TShr, txt ">>"); (TPlusEq, txt "+="); (TMinusEq, txt "-="); (TMulEq, txt "*=");
   (TDivEq, txt "/="); (TModEq, txt "%="); (TAndEq, txt "&="); (TOrEq, txt "|="); (TXorEq, txt "~="); (TShlEq, txt "<<=");
   (TShrEq, txt ">>="); (TAndAnd, txt "&&"); (TOrOr, txt "||"); (TPlusPlus, txt "++"); (TMinusMinus, txt "--"); (TEqEq, txt "==");
   (TLess, txt "<"); (TGreater, txt ">"); (TEq, txt "="); (TQuestion, txt "?"); (TNot, txt "!"); (TNotEq, txt "!=");
   (TLessEq, txt "<="); (TGreaterEq, txt ">="); (TColonEq, txt ":="); (TLPar, txt "("); (TRPar, txt ")"); (TLBracket, txt "[");
   (TRBracket, txt "]"); (TLBrace, txt "{"); (TRBrace, txt "}"); (TCaret, txt "^"); (TComma, txt ","); (TSemicolon, txt ";");
   (TColon, txt ":"); (TColonColon, txt "::"); (TPeriod, txt "."); (TEllipsis, txt ".."); (TEoln, [10])].
Definition keyword_list : list (string * tk) :=
  [("break", TBreak); ("case", TCase); ("const", TConst); ("continue", TContinue); ("default", TDefault); ("else", TElse);
   ("enum", TEnum); ("fn", TFnKw); ("for", TFor); ("import", TImport); ("interface", TInterface); ("if", TIf); ("in", TIn);
   ("map", TMap); ("return", TReturn); ("struct", TStruct); ("switch", TSwitch); ("type", TTypeKw); ("var", TVar); ("weak", TWeak)]%string.
Definition letters : list Z := txt "ABCDEFGHIJKLMNOPQRSTUVWXYZabcdefghijklmnopqrstuvwxyz_".
Definition is_letter (c : Z) : Prop := In c letters.
Definition is_alnum (c : Z) : Prop := In c letters \/ In c (txt "0123456789").

(** ** Token streams *)
(** All tokens of a text, with the line ends; the last one is the end of the file. *)
Inductive raw : sc -> list token -> Prop :=
| raw_eof s v s' : lexNextWithEOLN s = Ok ((TEof, v), s') -> raw s [(TEof, v)]
| raw_cons s t s' l : lexNextWithEOLN s = Ok (t, s') -> fst t <> TEof -> raw s' l -> raw s (t :: l).
(** What the parser sees. *)
Inductive cooked : tk -> sc -> list token -> Prop :=
| cooked_eof p s v s' : lexNext p s = Ok ((TEof, v), s') -> cooked p s [(TEof, v)]
| cooked_cons p s t s' l : lexNext p s = Ok (t, s') -> fst t <> TEof -> cooked (fst t) s' l -> cooked p s (t :: l).
(** doc/lang.md, "Implicit semicolons". *)
Definition ends_statement : list tk :=
  [TIdent; TIntNumber; TRealNumber; TCharLiteral; TStrLiteral; TBreak; TContinue; TReturn; TPlusPlus; TMinusMinus; TRPar; TRBracket; TRBrace; TCaret].
Inductive semicolons : tk -> list token -> list token -> Prop :=
| semi_nil p : semicolons p [] []
| semi_insert p v l r : In p ends_statement -> semicolons TImplicitSemicolon l r -> semicolons p ((TEoln, v) :: l) ((TImplicitSemicolon, v) :: r)
| semi_drop p v l r : ~ In p ends_statement -> semicolons TEoln l r -> semicolons p ((TEoln, v) :: l) r
| semi_other p t l r : fst t <> TEoln -> semicolons (fst t) l r -> semicolons p (t :: l) (t :: r).

(** Text that stands for nothing: blanks and comments. [follow] is the text after it. *)
Inductive trivia : list Z -> list Z -> Prop :=
| tr_nil f : trivia [] f
| tr_blank c l f : In c [32; 9; 13] -> trivia l f -> trivia (c :: l) f
| tr_line b l f : Forall (fun c => c <> 0 /\ c <> 10) b -> (l ++ f = [] \/ peek (l ++ f) = 10)%list -> trivia l f -> trivia (47 :: 47 :: b ++ l)%list f
| tr_block b l f : (forall p q, b ++ [42] <> p ++ 42 :: 47 :: q)%list -> no_nul b -> Nat.even (last_stars b 0) = true -> trivia l f -> trivia (47 :: 42 :: b ++ 42 :: 47 :: l)%list f.
(** A block comment without an end mark. *)
Definition unended (l : list Z) : Prop := forall p q, l <> (p ++ 42 :: 47 :: q)%list.
(** No operator longer than [w] begins [text]. *)
Definition longest (w text : list Z) : Prop := forall k' w' r', In (k', w') operators -> text = (w' ++ r')%list -> (List.length w' <= List.length w)%nat.
Definition ident_kind (name : list Z) (k : tk) : Prop :=
  (exists w, In (w, k) keyword_list /\ name = txt w) \/ (k = TIdent /\ forall w k', In (w, k') keyword_list -> name <> txt w).
(** A character literal may also contain a NUL, a line end or a double quote. *)
Definition cvalid (p : piece) (follow : list Z) : Prop :=
  match p with
  | Plain c => ~ In c [0; 92]
  | Esc c => lookup escapes c <> None
  | Hex l => dvalid 16 l /\ Forall (fun d => fst d = false) l /\ 0 <= dvalue 16 l 0 <= 255 /\ digit 16 (peek follow) = None /\ (l = [(false, 48)] -> ~ In (peek follow) [88; 120])
  end.

(** What an integer literal looks like. *)
Definition int_text (s : list Z) (v : Z) (s' : list Z) : Prop :=
  (exists l, dvalid 10 l /\ s = (dtext l ++ s')%list /\ v = dvalue 10 l 0) \/ (exists x (u : bool) l, In x [88; 120] /\ dvalid 16 l /\ s = 48 :: x :: ((if u then [95] else []) ++ dtext l ++ s')%list /\ v = dvalue 16 l 0).
(** Pieces that are not followed by a closing quote. *)
Definition bad_end (f : list Z) : Prop := f = [] \/ peek f = 10 \/ (exists r, f = 92 :: 48 :: r).
