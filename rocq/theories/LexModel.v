(** The lexer, src/umka_lexer.c. *)
From Coq Require Import ZArith Bool List.
From Verif Require Import Base.
Import ListNotations.
Local Open Scope Z_scope.

(** src/umka_lexer.h:9-92, TokenKind. *)
Inductive tk : Type :=
| TNone
| TBreak | TCase | TConst | TContinue | TDefault | TElse | TEnum | TFnKw | TFor | TImport | TInterface | TIf | TIn | TMap | TReturn
| TStruct | TSwitch | TTypeKw | TVar | TWeak
| TPlus | TMinus | TMul | TDiv | TMod | TAnd | TOr | TXor | TShl | TShr
| TPlusEq | TMinusEq | TMulEq | TDivEq | TModEq | TAndEq | TOrEq | TXorEq | TShlEq | TShrEq
| TAndAnd | TOrOr | TPlusPlus | TMinusMinus | TEqEq | TLess | TGreater | TEq | TQuestion | TNot | TNotEq | TLessEq | TGreaterEq
| TColonEq | TLPar | TRPar | TLBracket | TRBracket | TLBrace | TRBrace | TCaret | TComma | TSemicolon | TColon | TColonColon
| TPeriod | TEllipsis
| TIdent | TIntNumber | TRealNumber | TCharLiteral | TStrLiteral
| TImplicitSemicolon | TEoln | TEof.

(** The union in Token (src/umka_lexer.h:98-109). The parts of a real literal are kept apart; their
    conversion to a double (with pow) and the overflow check on it are not modelled. *)
Inductive tval : Type :=
| VNothing | VName (s : list Z) | VInt (z : Z) | VStr (s : list Z)
| VReal (whole frac fracLen expon : Z) (neg : bool).
Definition token : Type := (tk * tval)%type.

(** Lexer (src/umka_lexer.h:112-121): the text from bufPos on, without the terminating NUL written by lexInit
    (src/umka_lexer.c:128 and 145); a NUL inside it (possible when read from a file) ends the text for the lexer. line and pos,
    which are used for messages only, are left out; bufPos does not overflow here (texts of less than 2 GB). Error handlers do not
    return (longjmp). *)
Definition sc : Type := list Z.
(** buf[bufPos] *)
Definition peek (s : sc) : Z := match s with [] => 0 | c :: _ => c end.
(** buf[bufPos + 1] *)
Definition peek1 (s : sc) : outcome Z := match s with [] => UB | _ :: r => Ok (peek r) end.

(** src/umka_lexer.c:180-194, lexChar; the result is [peek] of the new state. *)
Definition lexChar (s : sc) : sc := match s with [] => [] | c :: r => if c =? 0 then s else r end.
(** src/umka_lexer.c:197-205, lexCharIf. *)
Definition lexCharIf (s : sc) (c : Z) : bool * sc := if peek s =? c then (true, lexChar s) else (false, s).

(** isspace and isxdigit, as used by sscanf. *)
Definition isspace (c : Z) : bool := (c =? 32) || ((9 <=? c) && (c <=? 13)).
Definition hexDigit (c : Z) : Z :=
  if (48 <=? c) && (c <=? 57) then c - 48 else if (97 <=? c) && (c <=? 102) then c - 97 + 10
  else if (65 <=? c) && (c <=? 70) then c - 65 + 10 else -1.
Fixpoint skipSpaces (l : list Z) (n : Z) : list Z * Z := match l with c :: r => if isspace c then skipSpaces r (n + 1) else (l, n) | [] => (l, n) end.
Fixpoint hexSeq (l : list Z) (v n : Z) : Z * Z := match l with c :: r => if hexDigit c =? -1 then (v, n) else hexSeq r (v * 16 + hexDigit c) (n + 1) | [] => (v, n) end.
(** sscanf(l, "%x%n", &hex, &len) by the C standard: white space, a sign, a prefix 0x, digits. None if nothing could be
    converted. A number that does not fit an unsigned int is undefined behaviour. *)
Definition sscanfX (l : list Z) : outcome (option (Z * Z)) :=
  let '(l, n) := skipSpaces l 0 in
  let '(neg, l, n) := (match l with c :: r => if c =? 45 then (true, r, n + 1) else if c =? 43 then (false, r, n + 1) else (false, l, n) | [] => (false, l, n) end) in
  let '(l, n) := (match l with c :: d :: r => if (c =? 48) && ((d =? 120) || (d =? 88)) then (r, n + 2) else (l, n) | _ => (l, n) end) in
  let '(v, m) := hexSeq l 0 n in
  if m =? n then Ok None else
  if two32 <=? v then UB else
  Ok (Some (if neg then (two32 - v) mod two32 else v, m)).

(** src/umka_lexer.c:208-247, lexEscChar: the character, whether it was escaped. *)
Definition simpleEsc (c : Z) : Z :=
  if c =? 48 then 0 else if c =? 97 then 7 else if c =? 98 then 8 else if c =? 102 then 12 else if c =? 110 then 10
  else if c =? 114 then 13 else if c =? 116 then 9 else if c =? 118 then 11 else c.
Definition lexEscChar (s : sc) : outcome (Z * bool * sc) :=
  let s := lexChar s in
  if peek s =? 92 then
    let s := lexChar s in
    if peek s =? 120 then
      let s := lexChar s in
      let* r := sscanfX s in
      match r with
      | Some (hex, len) => if 255 <? hex then Err ESyntax else Ok (hex, true, skipn (Z.to_nat (len - 1)) s)
      | None => Err ESyntax
      end
    else Ok (simpleEsc (peek s), true, s)
  else Ok (peek s, false, s).

(** Loops take the length of the text as fuel. *)
Definition fuelOf (s : sc) : nat := S (length s).

(** src/umka_lexer.c:250-255, lexSingleLineComment. *)
Fixpoint lineLoop (n : nat) (s : sc) : outcome sc :=
  match n with
  | O => Err EFuel
  | S n => if (peek s =? 0) || (peek s =? 10) then Ok s else lineLoop n (lexChar s)
  end.
Definition lexSingleLineComment (s : sc) : outcome sc := let s := lexChar s in lineLoop (fuelOf s) s.

(** src/umka_lexer.c:258-277, lexMultiLineComment. *)
Fixpoint multiLoop (n : nat) (s : sc) : outcome sc :=
  match n with
  | O => Err EFuel
  | S n =>
      if peek s =? 0 then Ok s
      else if peek s =? 42 then
        let s := lexChar s in
        if peek s =? 47 then Ok s else multiLoop n (lexChar s)
      else multiLoop n (lexChar s)
  end.
Definition lexMultiLineComment (s : sc) : outcome sc :=
  let s := lexChar s in
  let* s := multiLoop (fuelOf s) s in
  if peek s =? 0 then Err ESyntax else Ok (lexChar s).

(** src/umka_lexer.c:280-306, lexSpacesAndComments; bufPos-- goes back to the state before the slash. *)
Fixpoint spacesLoop (n : nat) (s : sc) : outcome sc :=
  match n with
  | O => Err EFuel
  | S n =>
      let c := peek s in
      if negb ((c =? 32) || (c =? 9) || (c =? 13) || (c =? 47)) then Ok s
      else if c =? 47 then
        let s' := lexChar s in
        if peek s' =? 47 then let* s := lexSingleLineComment s' in spacesLoop n s
        else if peek s' =? 42 then let* s := lexMultiLineComment s' in spacesLoop n s
        else Ok s
      else spacesLoop n (lexChar s)
  end.
Definition lexSpacesAndComments (s : sc) : outcome sc := spacesLoop (fuelOf s) s.

(** src/umka_lexer.c:309-341, lexKeywordOrIdent. MAX_IDENT_LEN is 255; the array has 256 bytes. *)
Definition MAX_IDENT_LEN : Z := 255.
Definition isLetter (c : Z) : bool := ((65 <=? c) && (c <=? 90)) || ((97 <=? c) && (c <=? 122)) || (c =? 95).
Definition isDigit (c : Z) : bool := (48 <=? c) && (c <=? 57).
Fixpoint identLoop (n : nat) (s : sc) (name : list Z) : outcome (list Z * sc) :=
  match n with
  | O => Err EFuel
  | S n =>
      if MAX_IDENT_LEN <? Z.of_nat (length name) then UB else
      let name := name ++ [peek s] in
      let s := lexChar s in
      if MAX_IDENT_LEN <? Z.of_nat (length name) then Err ESyntax
      else if isLetter (peek s) || isDigit (peek s) then identLoop n s name else Ok (name, s)
  end.
(** src/umka_lexer.c:14-40, the spellings of the keywords. *)
Definition keywords : list (list Z * tk) :=
  [([98;114;101;97;107], TBreak); ([99;97;115;101], TCase); ([99;111;110;115;116], TConst); ([99;111;110;116;105;110;117;101], TContinue);
   ([100;101;102;97;117;108;116], TDefault); ([101;108;115;101], TElse); ([101;110;117;109], TEnum); ([102;110], TFnKw); ([102;111;114], TFor);
   ([105;109;112;111;114;116], TImport); ([105;110;116;101;114;102;97;99;101], TInterface); ([105;102], TIf); ([105;110], TIn);
   ([109;97;112], TMap); ([114;101;116;117;114;110], TReturn); ([115;116;114;117;99;116], TStruct); ([115;119;105;116;99;104], TSwitch);
   ([116;121;112;101], TTypeKw); ([118;97;114], TVar); ([119;101;97;107], TWeak)].
Fixpoint eqb_list (a b : list Z) : bool :=
  match a, b with [], [] => true | x :: a, y :: b => (x =? y) && eqb_list a b | _, _ => false end.
Fixpoint findKeyword (name : list Z) (l : list (list Z * tk)) : tk :=
  match l with [] => TIdent | (w, k) :: r => if eqb_list name w then k else findKeyword name r end.
Definition lexKeywordOrIdent (s : sc) : outcome (token * sc) :=
  let* (name, s) := identLoop (fuelOf s) s [] in Ok ((findKeyword name keywords, VName name), s).

(** src/umka_lexer.c:344-657, lexOperator. *)
Definition opEq (s : sc) (plain eq : tk) : tk * sc := if peek s =? 61 then (eq, lexChar s) else (plain, s).
Definition opEq2 (s : sc) (plain eq : tk) (c : Z) (dbl : tk) : tk * sc :=
  if peek s =? 61 then (eq, lexChar s) else if peek s =? c then (dbl, lexChar s) else (plain, s).
Definition opShift (s : sc) (c : Z) (less lesseq shl shleq : tk) : tk * sc :=
  if peek s =? c then opEq (lexChar s) shl shleq else if peek s =? 61 then (lesseq, lexChar s) else (less, s).
Definition lexOperator (s : sc) : tk * sc :=
  let c := peek s in
  let s1 := lexChar s in
  if c =? 43 then opEq2 s1 TPlus TPlusEq 43 TPlusPlus
  else if c =? 45 then opEq2 s1 TMinus TMinusEq 45 TMinusMinus
  else if c =? 42 then opEq s1 TMul TMulEq
  else if c =? 47 then opEq s1 TDiv TDivEq
  else if c =? 37 then opEq s1 TMod TModEq
  else if c =? 38 then opEq2 s1 TAnd TAndEq 38 TAndAnd
  else if c =? 124 then opEq2 s1 TOr TOrEq 124 TOrOr
  else if c =? 126 then opEq s1 TXor TXorEq
  else if c =? 60 then opShift s1 60 TLess TLessEq TShl TShlEq
  else if c =? 62 then opShift s1 62 TGreater TGreaterEq TShr TShrEq
  else if c =? 61 then opEq s1 TEq TEqEq
  else if c =? 63 then (TQuestion, s1)
  else if c =? 33 then opEq s1 TNot TNotEq
  else if c =? 40 then (TLPar, s1)
  else if c =? 41 then (TRPar, s1)
  else if c =? 91 then (TLBracket, s1)
  else if c =? 93 then (TRBracket, s1)
  else if c =? 123 then (TLBrace, s1)
  else if c =? 125 then (TRBrace, s1)
  else if c =? 94 then (TCaret, s1)
  else if c =? 44 then (TComma, s1)
  else if c =? 59 then (TSemicolon, s1)
  else if c =? 58 then opEq2 s1 TColon TColonEq 58 TColonColon
  else if c =? 46 then (if peek s1 =? 46 then (TEllipsis, lexChar s1) else (TPeriod, s1))
  else if c =? 10 then (TEoln, s1)
  else (TNone, s).

(** src/umka_lexer.c:660-670, lexCharDigit. *)
Definition lexCharDigit (c base : Z) : Z :=
  if base =? 10 then (if isDigit c then c - 48 else -1) else if base =? 16 then hexDigit c else -1.

(** src/umka_lexer.c:673-712, lexDigitSeq: the value, the number of digits counted. *)
Fixpoint digitLoop (n : nat) (s : sc) (base : Z) (isFrac : bool) (result len : Z) (skip : bool) : outcome (Z * Z * sc) :=
  match n with
  | O => Err EFuel
  | S n =>
      let d := lexCharDigit (peek s) base in
      if d =? -1 then Ok (result, len, s) else
      let newResult := u64 (u64 (result * base) + d) in
      let over := negb (u64 (result * base) / base =? result) || (newResult <? result) in
      if over && negb isFrac then Err ESyntax else
      let skip := skip || over in
      let result := if skip then result else newResult in
      let len := if skip then len else len + 1 in
      let s := lexChar s in
      if peek s =? 95 then
        let* c := peek1 s in
        if lexCharDigit c base =? -1 then Err ESyntax else digitLoop n (lexChar s) base isFrac result len skip
      else digitLoop n s base isFrac result len skip
  end.
Definition lexDigitSeq (s : sc) (base : Z) (isFrac : bool) : outcome (Z * Z * sc) :=
  if lexCharDigit (peek s) base =? -1 then Err ESyntax else digitLoop (fuelOf s) s base isFrac 0 0 false.

(** src/umka_lexer.c:715-779, lexNumber. The check of a real literal for overflow (lines 758-768) is left out. *)
Definition lexNumber (s : sc) : outcome (token * sc) :=
  let* c1 := (if peek s =? 48 then peek1 s else Ok 0) in
  let hex := (peek s =? 48) && ((c1 =? 120) || (c1 =? 88)) in
  let s := if hex then snd (lexCharIf (lexChar (lexChar s)) 95) else s in
  let base := if hex then 16 else 10 in
  let* c1 := (if peek s =? 46 then peek1 s else Ok 0) in
  if (peek s =? 46) && (lexCharDigit c1 10 =? -1) then Ok ((TNone, VNothing), s) else
  let* (whole, s) := (if negb ((peek s =? 46) && (base =? 10)) then let* (r, s) := lexDigitSeq s base false in Ok (fst r, s) else Ok (0, s)) in
  if base =? 10 then
    let '(dot, s) := lexCharIf s 46 in
    let* (frac, fracLen, s) := (if dot && negb (lexCharDigit (peek s) 10 =? -1) then lexDigitSeq s 10 true else Ok (0, 0, s)) in
    let '(e, s) := (let '(e, s) := lexCharIf s 101 in if e then (e, s) else lexCharIf s 69) in
    if e then
      let '(neg, s) := lexCharIf s 45 in
      let s := if neg then s else snd (lexCharIf s 43) in
      let* (expon, _, s) := lexDigitSeq s 10 false in
      Ok ((TRealNumber, VReal whole frac fracLen expon neg), s)
    else if dot then Ok ((TRealNumber, VReal whole frac fracLen 0 false), s)
    else Ok ((TIntNumber, VInt whole), s)
  else Ok ((TIntNumber, VInt whole), s).

(** src/umka_lexer.c:782-794, lexCharLiteral. *)
Definition lexCharLiteral (s : sc) : outcome (token * sc) :=
  let* (r, s) := lexEscChar s in
  let s := lexChar s in
  if peek s =? 39 then Ok ((TCharLiteral, VInt (fst r)), lexChar s) else Err ESyntax.

(** strVal is NULL or points to a buffer; strVal[size] = c. *)
Definition put (b : option (list Z)) (size c : Z) : outcome (option (list Z)) :=
  match b with
  | None => Ok None
  | Some l => if (0 <=? size) && (size <? Z.of_nat (length l)) then Ok (Some (firstn (Z.to_nat size) l ++ c :: skipn (Z.to_nat (size + 1)) l)) else UB
  end.
(** src/umka_lexer.c:797-824, lexSingleLineStrLiteralAndGetSize. *)
Fixpoint singleLoop (n : nat) (b : option (list Z)) (size c : Z) (escaped : bool) (s : sc) : outcome (option (list Z) * Z * sc) :=
  match n with
  | O => Err EFuel
  | S n =>
      if negb (c =? 34) || escaped then
        if ((c =? 0) || (c =? 10)) && negb escaped then Err ESyntax
        else if c =? 0 then Err ESyntax
        else
          let* b := put b size c in
          let* (r, s) := lexEscChar s in
          singleLoop n b (size + 1) (fst r) (snd r) s
      else
        let* b := put b size 0 in
        Ok (b, size + 1, lexChar s)
  end.
(** src/umka_lexer.c:827-854, lexMultiLineStrLiteralAndGetSize. *)
Fixpoint backLoop (n : nat) (b : option (list Z)) (size : Z) (s : sc) : outcome (option (list Z) * Z * sc) :=
  match n with
  | O => Err EFuel
  | S n =>
      let c := peek s in
      if c =? 96 then let* b := put b size 0 in Ok (b, size + 1, lexChar s)
      else if c =? 0 then Err ESyntax
      else if c =? 13 then backLoop n b size (lexChar s)
      else let* b := put b size c in backLoop n b (size + 1) (lexChar s)
  end.
(** src/umka_lexer.c:857-863, lexStrLiteralAndGetSize. *)
Definition lexStrLiteralAndGetSize (b : option (list Z)) (s : sc) : outcome (option (list Z) * Z * sc) :=
  if peek s =? 34 then let* (r, s1) := lexEscChar s in singleLoop (fuelOf s) b 0 (fst r) (snd r) s1
  else backLoop (fuelOf s) b 0 (lexChar s).
(** src/umka_lexer.c:866-874, lexStrLiteral; storageAddStr (src/umka_common.c) makes a buffer of [size] bytes, cleared. The
    value is the whole buffer, with the terminating NUL. *)
Definition lexStrLiteral (s : sc) : outcome (token * sc) :=
  let* (_, size, _) := lexStrLiteralAndGetSize None s in
  let* (b, _, s) := lexStrLiteralAndGetSize (Some (repeat 0 (Z.to_nat size))) s in
  Ok ((TStrLiteral, VStr (match b with Some l => l | None => [] end)), s).

(** src/umka_lexer.c:877-905, lexNextWithEOLN. *)
Definition isNone (t : tk) : bool := match t with TNone => true | _ => false end.
Definition lexNextWithEOLN (s : sc) : outcome (token * sc) :=
  let* s := lexSpacesAndComments s in
  let c := peek s in
  let* (t, s) :=
    (if isLetter c then lexKeywordOrIdent s
     else if isDigit c || (c =? 46) then lexNumber s
     else if c =? 39 then lexCharLiteral s
     else if (c =? 34) || (c =? 96) then lexStrLiteral s
     else Ok ((TNone, VNothing), s)) in
  let '(t, s) := (if isNone (fst t) then let '(k, s) := lexOperator s in ((k, VNothing), s) else (t, s)) in
  if isNone (fst t) then (if peek s =? 0 then Ok ((TEof, VNothing), s) else Err ESyntax) else Ok (t, s).

(** src/umka_lexer.c:908-936, lexNext; [prev] is prevTok.kind. *)
Definition endsStmt (t : tk) : bool :=
  match t with
  | TBreak | TContinue | TReturn | TPlusPlus | TMinusMinus | TRPar | TRBracket | TRBrace | TCaret | TIdent | TIntNumber
  | TRealNumber | TCharLiteral | TStrLiteral => true
  | _ => false
  end.
Definition isEoln (t : tk) : bool := match t with TEoln => true | _ => false end.
Fixpoint nextLoop (n : nat) (prev : tk) (s : sc) : outcome (token * sc) :=
  match n with
  | O => Err EFuel
  | S n =>
      let* (t, s) := lexNextWithEOLN s in
      let t := if isEoln (fst t) && endsStmt prev then (TImplicitSemicolon, snd t) else t in
      if isEoln (fst t) then nextLoop n (fst t) s else Ok (t, s)
  end.
Definition lexNext (prev : tk) (s : sc) : outcome (token * sc) := nextLoop (fuelOf s) prev s.
(** src/umka_lexer.c:939-948, lexNextForcedSemicolon. *)
Definition lexNextForcedSemicolon (s : sc) : outcome (token * sc) :=
  let* (t, s) := lexNextWithEOLN s in
  Ok (if isEoln (fst t) then (TImplicitSemicolon, snd t) else t, s).
