(** Properties C26-C29 and C47: the lexer. *)
From Coq Require Import ZArith Bool List String.
From Verif Require Import Base LexModel LexSpec LexProofs LexMore.
Import ListNotations.
Local Open Scope list_scope.
Local Open Scope Z_scope.

(** C26. A decimal literal, digits possibly separated by single underscores, at any place between tokens: accepted exactly if
    its value is below 2^64, and then denotes it. [prev] is the token before, [w] blanks and comments. *)
Theorem C26_decimal :
  forall prev w l r, trivia w (dtext l ++ r) -> dvalid 10 l -> ends_dec r -> (l = [(false, 48)] -> ~ In (peek r) (txt "xX")) ->
  lexNext prev (w ++ dtext l ++ r) = if dvalue 10 l 0 <? two64 then Ok ((TIntNumber, VInt (dvalue 10 l 0)), r) else Err ESyntax.
Proof.
  intros prev w l r HT HV HR H0. rewrite trivia_next by exact HT. assert (E : lexNextWithEOLN (dtext l ++ r) = int_token (dvalue 10 l 0) r) by (apply int_dec; [exact HV|exact HR|intros EL IN; apply (H0 EL); cbn in *; tauto]).
  unfold int_token in E. destruct (dvalue 10 l 0 <? two64); [apply next_raw; [exact E|discriminate]|apply next_err; exact E].
Qed.
Print Assumptions C26_decimal.
Example C26_decimal_case :
  let l := [(false, 49); (false, 56); (true, 52); (false, 52)] in
  trivia (txt " /* n */ ") (dtext l ++ txt ";") /\ dvalid 10 l /\ ends_dec (txt ";") /\ dtext l = txt "18_44" /\ dvalue 10 l 0 = 1844 /\
  lexNext TEq (txt "18446744073709551615") = Ok ((TIntNumber, VInt 18446744073709551615), []) /\
  lexNext TEq (txt "18446744073709551616") = Err ESyntax.
Proof.
  cbn zeta. split.
  { apply (tr_blank 32); [cbn; tauto|]. apply (tr_block [32; 110; 32] [32]); [|repeat constructor; discriminate|reflexivity|apply (tr_blank 32); [cbn; tauto|constructor]].
    intros p q H. destruct p as [|? [|? [|? [|? p]]]]; try discriminate H. destruct p; discriminate H. }
  repeat split; try reflexivity; try discriminate; try (repeat constructor; discriminate); cbn; intuition discriminate.
Qed.

(** Hexadecimal literals. *)
Theorem C26_hexadecimal :
  forall prev w x (u : bool) l r, let s := 48 :: x :: (if u then [95] else []) ++ dtext l ++ r in
  In x (txt "xX") -> trivia w s -> dvalid 16 l -> ends_hex r ->
  lexNext prev (w ++ s) = if dvalue 16 l 0 <? two64 then Ok ((TIntNumber, VInt (dvalue 16 l 0)), r) else Err ESyntax.
Proof.
  intros prev w x u l r s HX HT HV HR. rewrite trivia_next by exact HT. assert (E : lexNextWithEOLN s = int_token (dvalue 16 l 0) r) by (apply int_hex; [cbn in *; tauto|exact HV|exact HR]).
  unfold int_token in E. destruct (dvalue 16 l 0 <? two64); [apply next_raw; [exact E|discriminate]|apply next_err; exact E].
Qed.
Print Assumptions C26_hexadecimal.
Example C26_hexadecimal_case :
  let l := [(false, 70); (false, 102); (true, 48)] in
  dvalid 16 l /\ ends_hex (txt ")") /\ dvalue 16 l 0 = 4080 /\ 48 :: 120 :: [95] ++ dtext l ++ txt ")" = txt "0x_Ff_0)" /\
  lexNext TEq (txt "0xFFFF_FFFF_FFFF_FFFF") = Ok ((TIntNumber, VInt 18446744073709551615), []) /\
  lexNext TEq (txt "0x1_0000_0000_0000_0000") = Err ESyntax.
Proof. cbn zeta. repeat split; try reflexivity; try (repeat constructor; discriminate); cbn; intuition discriminate. Qed.

(** Nothing else yields an integer, and its value is always below 2^64. *)
Theorem C26_only :
  forall prev s v s', In (peek s) digits10 -> lexNext prev s = Ok ((TIntNumber, VInt v), s') -> int_text s v s' /\ 0 <= v < two64.
Proof. exact int_only. Qed.
Print Assumptions C26_only.
Example C26_only_case : In (peek (txt "0x1F")) digits10 /\ lexNext TEq (txt "0x1F") = Ok ((TIntNumber, VInt 31), []).
Proof. split; [cbn; tauto|reflexivity]. Qed.

(** An underscore must be followed by a digit. *)
Theorem C26_underscore :
  forall prev w l r, trivia w (dtext l ++ 95 :: r) -> dvalid 10 l -> digit 10 (peek r) = None -> lexNext prev (w ++ dtext l ++ 95 :: r) = Err ESyntax.
Proof. intros prev w l r HT HV HR. rewrite trivia_next by exact HT. apply next_err, int_underscore; assumption. Qed.
Print Assumptions C26_underscore.
Example C26_underscore_case : dvalid 10 [(false, 49)] /\ digit 10 (peek (txt ";")) = None /\ lexNext TEq (txt "1_;") = Err ESyntax.
Proof. repeat split; repeat constructor; discriminate. Qed.

(** C27, partial: any sequence of blanks, line comments and block comments is skipped: what follows is tokenised as if it were
    absent. A block comment ends at the first end mark. Missing: block comments with an odd number of asterisks just before the
    end mark (see C27_refuted). *)
Theorem C27_skipped_partial :
  forall prev w r, trivia w r -> lexNext prev (w ++ r) = lexNext prev r.
Proof. exact trivia_next. Qed.
Print Assumptions C27_skipped_partial.
Example C27_case :
  trivia (txt "  /* a * / ** b */ //** c") [10; 120] /\ lexNext TIdent (txt "  /* a * / ** b */ //** c" ++ [10; 120]) = Ok ((TImplicitSemicolon, VNothing), [120]) /\
  trivia (txt "/**/ /*//***/") (txt "x") /\ lexNext TIdent (txt "/**/ /*//***/x") = Ok ((TIdent, VName (txt "x")), []).
Proof.
  split; [|split; [reflexivity|split; [|reflexivity]]].
  - apply (tr_blank 32); [cbn; tauto|]. apply (tr_blank 32); [cbn; tauto|]. apply (tr_block (txt " a * / ** b ") (txt " //** c")); [apply no_mark_ok; reflexivity|repeat constructor; discriminate|reflexivity|].
    apply (tr_blank 32); [cbn; tauto|]. apply (tr_line (txt "** c") []); [repeat constructor; discriminate|right; reflexivity|constructor].
  - apply (tr_block [] (txt " /*//***/")); [apply no_mark_ok; reflexivity|constructor|reflexivity|]. apply (tr_blank 32); [cbn; tauto|]. apply (tr_block (txt "//**") []); [apply no_mark_ok; reflexivity|repeat constructor; discriminate|reflexivity|constructor].
Qed.

(** A block comment without an end mark is an error. *)
Theorem C27_unended : forall prev w r, trivia w (47 :: 42 :: r) -> unended r -> lexNext prev (w ++ 47 :: 42 :: r) = Err ESyntax.
Proof. exact unended_err. Qed.
Print Assumptions C27_unended.
Example C27_unended_case : trivia (txt " ") (txt "/* abc * /") /\ unended (txt " abc * /") /\ lexNext TNone (txt " /* abc * /") = Err ESyntax.
Proof. split; [apply (tr_blank 32); [cbn; tauto|constructor]|]. split; [exact (no_mark_ok (txt " abc * /") eq_refl)|reflexivity]. Qed.

(** C27 refuted: a block comment ended by two asterisks and a slash does not end there; the text after it is lost or the comment
    is found unterminated. *)
Theorem C27_refuted :
  lexNext TNone (txt "/* a **/ b") = Err ESyntax /\ lexNext TNone (txt "/***/ a /* */ b") = Ok ((TIdent, VName (txt "b")), []) /\
  split_end (txt " a **/ b") = Some (txt " a *", txt " b").
Proof. repeat split; reflexivity. Qed.
Print Assumptions C27_refuted.

(** C28, partial: a string literal made of plain characters, documented escapes and \x with hexadecimal digits denotes the bytes
    it spells, followed by a NUL; the buffer made by the first pass has exactly this size (a write outside it would be [UB]).
    Missing: the escape \e and unusual numbers after \x (see C28_refuted). *)
Theorem C28_decode_partial :
  forall prev w ps r, trivia w (34 :: spell_all ps ++ 34 :: r) -> pvalid_all ps (34 :: r) ->
  lexNext prev (w ++ 34 :: spell_all ps ++ 34 :: r) = Ok ((TStrLiteral, VStr (map pvalue ps ++ [0])), r).
Proof. intros prev w ps r HT HV. rewrite trivia_next by exact HT. apply next_raw; [|discriminate]. rewrite raw_string by (left; reflexivity). rewrite strD_pieces by exact HV. reflexivity. Qed.
Print Assumptions C28_decode_partial.
Example C28_case :
  let ps := [Plain 97; Esc 110; Esc 34; Hex [(false, 102); (false, 70)]; Plain 122] in
  pvalid_all ps (34 :: txt ";") /\ spell_all ps = [97; 92; 110; 92; 34; 92; 120; 102; 70; 122] /\ map pvalue ps = [97; 10; 34; 255; 122] /\ trivia [] (34 :: spell_all ps ++ 34 :: txt ";").
Proof. cbn zeta. split; [|repeat split; constructor]. cbn. repeat split; try discriminate; try (repeat constructor; discriminate); intuition discriminate. Qed.

(** Multi-line literals: every character stands for itself, carriage returns are dropped. *)
Theorem C28_backquote :
  forall prev w b r, trivia w (96 :: b ++ 96 :: r) -> Forall (fun c => c <> 0 /\ c <> 96) b ->
  lexNext prev (w ++ 96 :: b ++ 96 :: r) = Ok ((TStrLiteral, VStr (filter (fun c => negb (c =? 13)) b ++ [0])), r).
Proof.
  intros prev w b r HT HB. rewrite trivia_next by exact HT. apply next_raw; [|discriminate]. rewrite raw_string by (right; reflexivity). unfold strD. cbn [peek Z.eqb Pos.eqb]. rewrite lexChar_nz by discriminate. rewrite backD_ok; [reflexivity|exact HB|]. apply back_fuel.
Qed.
Print Assumptions C28_backquote.
Example C28_backquote_case : lexNext TEq (96 :: txt "a\n" ++ [13; 10; 34] ++ 96 :: txt ";") = Ok ((TStrLiteral, VStr (txt "a\n" ++ [10; 34; 0])), txt ";").
Proof. reflexivity. Qed.

(** Unterminated literals and NULs. *)
Theorem C28_unended :
  forall prev w ps f, trivia w (34 :: spell_all ps ++ f) -> pvalid_all ps f -> bad_end f -> lexNext prev (w ++ 34 :: spell_all ps ++ f) = Err ESyntax.
Proof. intros prev w ps f HT HV HB. rewrite trivia_next by exact HT. apply next_err. rewrite raw_string by (left; reflexivity). rewrite strD_unended by assumption. reflexivity. Qed.
Print Assumptions C28_unended.
Example C28_unended_case : pvalid_all [Plain 97; Esc 116] (92 :: 48 :: txt "b") /\ bad_end (92 :: 48 :: txt "b") /\ bad_end [] /\ bad_end [10; 97].
Proof. split; [cbn; repeat split; try discriminate; intuition discriminate|]. split; [right; right; eexists; reflexivity|]. split; [left|right; left]; reflexivity. Qed.
Theorem C28_backquote_unended : forall prev w b, trivia w (96 :: b) -> Forall (fun c => c <> 0 /\ c <> 96) b -> lexNext prev (w ++ 96 :: b) = Err ESyntax.
Proof. intros prev w b HT HB. rewrite trivia_next by exact HT. apply next_err. rewrite raw_string by (right; reflexivity). unfold strD. cbn [peek Z.eqb Pos.eqb]. rewrite lexChar_nz by discriminate. rewrite backD_unended; [reflexivity|exact HB|]. unfold fuelOf. cbn [List.length]. auto. Qed.
Print Assumptions C28_backquote_unended.
(** For every text: the value of a literal contains no NUL but the last byte. *)
Theorem C28_no_nul : forall s v s', lexStrLiteral s = Ok ((TStrLiteral, v), s') -> exists l, v = VStr (l ++ [0]) /\ no_nul l.
Proof.
  intros s v s' H. rewrite str_thm in H. destruct (strD s) as [(l & s1)| |] eqn:E; cbn [fmap fst snd] in H; try discriminate. exists l. split; [congruence|]. eapply str_nul. exact E.
Qed.
Print Assumptions C28_no_nul.
(** Character literals. *)
Theorem C28_character :
  forall prev w p r, trivia w (39 :: spell p ++ 39 :: r) -> cvalid p (39 :: r) -> lexNext prev (w ++ 39 :: spell p ++ 39 :: r) = Ok ((TCharLiteral, VInt (pvalue p)), r).
Proof. intros prev w p r HT HV. rewrite trivia_next by exact HT. apply next_raw; [|discriminate]. apply char_ok. exact HV. Qed.
Print Assumptions C28_character.
Example C28_character_case : cvalid (Esc 48) (txt "';") /\ lexNext TEq (txt "'\0';") = Ok ((TCharLiteral, VInt 0), txt ";") /\ cvalid (Hex [(false, 52); (false, 65)]) (txt "'") /\ lexNext TEq (txt "'\x4A'") = Ok ((TCharLiteral, VInt 74), []).
Proof. split; [cbn; discriminate|]. split; [reflexivity|]. split; [|reflexivity]. cbn. repeat split; try discriminate; repeat constructor; discriminate. Qed.

(** C28 refuted: the documented escape \e is the letter e; \x accepts blanks, a sign or a prefix; a number of 33 bits or more
    after \x is undefined behaviour of sscanf. *)
Theorem C28_refuted :
  lexNext TEq (txt "'\e'") = Ok ((TCharLiteral, VInt 101), []) /\
  lexNext TEq (txt "'\x 41'") = Ok ((TCharLiteral, VInt 65), []) /\
  lexNext TEq (txt "'\x0x41'") = Ok ((TCharLiteral, VInt 65), []) /\
  lexNext TEq (txt "'\x-FFFFFFBF'") = Ok ((TCharLiteral, VInt 65), []) /\
  lexNext TEq (txt "'\x100000041'") = UB.
Proof. repeat split; reflexivity. Qed.
Print Assumptions C28_refuted.

(** C29, partial: on every text, with any bytes, the next token ends after its start (or is the end of the file), and the only
    other outcome is a syntax error; nothing beyond the text is read. Missing: texts with \x and a number of 33 bits or more
    (C28_refuted). *)
Theorem C29_progress_partial :
  forall prev s,
  match lexNext prev s with
  | Ok (t, s') => (exists p, s = p ++ s') /\ (fst t <> TEof -> (List.length s' < List.length s)%nat) /\ fst t <> TNone /\ fst t <> TEoln
  | Err e => e = ESyntax
  | UB => wide s
  end.
Proof. intros prev s. pose proof (next_safe (S (List.length s)) prev s (le_n _)) as H. destruct (lexNext prev s) as [(t & s')| |]; exact H. Qed.
Print Assumptions C29_progress_partial.
(** Every text is a finite stream of tokens or contains an error. *)
Theorem C29_finite :
  forall s, ~ wide s -> (exists l, raw s l /\ (List.length l <= S (List.length s))%nat) \/ (exists p s', s = p ++ s' /\ lexNextWithEOLN s' = Err ESyntax).
Proof. intros s HW. destruct (raw_total (S (List.length s)) s (le_n _)) as [H|[(s' & (p & E) & H)|H]]; [left; exact H|right; exists p, s'; auto|contradiction]. Qed.
Print Assumptions C29_finite.
(** The parser sees exactly the tokens of the text; every line end that follows a token that can end a statement is replaced by a
    semicolon, the other line ends are dropped. *)
Theorem C29_semicolons : forall prev s l r, raw s l -> cooked prev s r -> semicolons prev l r.
Proof. intros prev s l r HR HC. destruct (semi_thm s l HR prev) as (r' & C' & S'). rewrite (cooked_fun _ _ _ C' _ HC). exact S'. Qed.
Print Assumptions C29_semicolons.
Theorem C29_same_stream : forall prev s l, raw s l -> exists r, cooked prev s r /\ semicolons prev l r.
Proof. intros prev s l HR. exact (semi_thm s l HR prev). Qed.
Print Assumptions C29_same_stream.
Example C29_case :
  raw (txt "a" ++ [10; 10] ++ txt "+") [(TIdent, VName (txt "a")); (TEoln, VNothing); (TEoln, VNothing); (TPlus, VNothing); (TEof, VNothing)] /\
  cooked TNone (txt "a" ++ [10; 10] ++ txt "+") [(TIdent, VName (txt "a")); (TImplicitSemicolon, VNothing); (TPlus, VNothing); (TEof, VNothing)].
Proof. split; repeat first [eapply raw_eof; reflexivity|eapply cooked_eof; reflexivity|eapply raw_cons; [reflexivity|discriminate|]|eapply cooked_cons; [reflexivity|discriminate|]]. Qed.

(** C29 refuted: a line end inside a block comment does not count: no semicolon is put after the final token of the line. *)
Theorem C29_comment_refuted :
  cooked TNone (txt "a /*" ++ [10] ++ txt "*/ b") [(TIdent, VName (txt "a")); (TIdent, VName (txt "b")); (TEof, VNothing)].
Proof. repeat first [eapply cooked_eof; reflexivity|eapply cooked_cons; [reflexivity|discriminate|]]. Qed.
Print Assumptions C29_comment_refuted.

(** C47. Operators and punctuation: the longest spelling wins. [w] starts a token if it is not a comment mark or a real. *)
Theorem C47_operators :
  forall k w r, In (k, w) operators -> longest w (w ++ r) -> (w = txt "/" -> ~ In (peek r) (txt "/*")) -> (w = txt "." -> ~ In (peek r) digits10) ->
  lexNextWithEOLN (w ++ r) = Ok ((k, VNothing), r).
Proof.
  intros k w r IN HL H1 H2. apply op_ok; [exact IN|exact HL| |].
  - intro E. specialize (H1 E). cbn in H1. split; intro X; apply H1; rewrite X; auto.
  - intro E. specialize (H2 E). destruct (isDigit (peek r)) eqn:D; [|reflexivity]. exfalso. apply H2. apply digits10_is. exact D.
Qed.
Print Assumptions C47_operators.
Example C47_operators_case : longest (txt "<<") (txt "<<<=") /\ lexNextWithEOLN (txt "<<<=") = Ok ((TShl, VNothing), txt "<=") /\ lexNextWithEOLN (txt "<<=<") = Ok ((TShlEq, VNothing), txt "<").
Proof. split; [|split; reflexivity]. intros k' w' r' IN E. cbn in IN. repeat destruct IN as [IN|IN]; try contradiction; injection IN as <- <-; try discriminate E; cbn; repeat constructor. Qed.
(** Identifiers and keywords: the longest run of letters and digits, at most 255 of them. *)
Theorem C47_identifiers :
  forall c rest r, let name := c :: rest in is_letter c -> Forall is_alnum name -> ~ is_alnum (peek r) ->
  if Z.of_nat (List.length name) <=? 255 then exists k, ident_kind name k /\ lexNextWithEOLN (name ++ r) = Ok ((k, VName name), r) else lexNextWithEOLN (name ++ r) = Err ESyntax.
Proof. intros c rest r name HC HF HR. apply ident_ok; [exists c, rest; split; [reflexivity|exact HC]|exact HF|exact HR]. Qed.
Print Assumptions C47_identifiers.
Example C47_identifiers_case : lexNextWithEOLN (txt "iffy") = Ok ((TIdent, VName (txt "iffy")), []) /\ lexNextWithEOLN (txt "if(") = Ok ((TIf, VName (txt "if")), txt "(") /\ is_letter 105 /\ ~ is_alnum (peek (txt "(")).
Proof. split; [reflexivity|]. split; [reflexivity|]. split; [cbn; tauto|]. intro H. apply alnum_is in H. discriminate. Qed.
(** A character that starts no token is an error. *)
Theorem C47_no_token :
  forall s, peek s <> 0 -> ~ is_alnum (peek s) -> ~ In (peek s) ([32; 9; 13; 39; 34; 96]) -> (forall k w r, In (k, w) operators -> s <> w ++ r) -> lexNextWithEOLN s = Err ESyntax.
Proof. exact no_token. Qed.
Print Assumptions C47_no_token.
Example C47_no_token_case : lexNextWithEOLN (txt "@") = Err ESyntax /\ (forall k w r, In (k, w) operators -> txt "@" <> w ++ r).
Proof. split; [reflexivity|]. intros k w r IN E. cbn in IN. repeat destruct IN as [IN|IN]; try contradiction; injection IN as <- <-; discriminate E. Qed.
(** C47 refuted: after 0x, a period that is not followed by a digit is taken alone; 0x is lost. *)
Theorem C47_refuted : lexNextWithEOLN (txt "0x.") = Ok ((TPeriod, VNothing), []) /\ lexNextWithEOLN (txt "0x.a") = lexNextWithEOLN (txt ".a").
Proof. split; reflexivity. Qed.
Print Assumptions C47_refuted.
