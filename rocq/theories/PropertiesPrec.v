(** * C67: operators group by the documented precedence *)
From Coq Require Import ZArith List Bool Arith Lia.
From Verif Require Import Base PrecModel PrecSpec PrecProofs PrecMore.
Import ListNotations.

(** A text is accepted as a whole, with a tree, exactly if the table of precedence gives it this tree. *)
Theorem C67_grouping : forall ts e, parse ts = Ok (e, []) <-> says 1 e ts.
Proof. exact parse_whole. Qed.
Print Assumptions C67_grouping.

(* -a + b * f(c, d)[e] << 1 == x && !y || z ? p^.q : &r *)
Definition sample : list tok :=
  [TOp OMinus; TIdent 1; TOp OPlus; TIdent 2; TOp OMul; TIdent 3; TLpar; TIdent 4; TComma; TIdent 5; TRpar;
   TLbracket; TIdent 6; TRbracket; TOp OShl; TLit 1; TOp OEqEq; TIdent 7; TOp OAndAnd; TNot; TIdent 8;
   TOp OOrOr; TIdent 9; TQuestion; TIdent 10; TCaret; TPeriod; TIdent 11; TColon; TOp OAnd; TIdent 12]%Z.

Definition v (x : Z) : expr := EDes (DIdent x).

Definition sampleTree : expr :=
  ECond
    (EBin OOrOr
       (EBin OAndAnd
          (EBin OEqEq
             (EBin OPlus (EUn UMinus (v 1))
                (EBin OShl
                   (EBin OMul (v 2)
                      (EDes (DIndex (DCall (DIdent 3) (ACons (v 4) (ACons (v 5) ANil))) (v 6))))
                   (ELit 1)))
             (v 7))
          (EUn UNot (v 8)))
       (v 9))
    (EDes (DField (DDeref (DIdent 10)) 11))
    (EAddr (DIdent 12)).

Example C67_grouping_ex : parse sample = Ok (sampleTree, []).
Proof. vm_compute. reflexivity. Qed.

(** Followed by other tokens, the same tree is read and these are left. *)
Theorem C67_prefix :
  (forall e s r, says 1 e s -> stops r -> parse (s ++ r) = Ok (e, r)) /\
  (forall ts e r, parse ts = Ok (e, r) -> exists s, ts = s ++ r /\ says 1 e s).
Proof. split; [exact says_parse|exact parse_says]. Qed.
Print Assumptions C67_prefix.

Example C67_prefix_ex : parse (sample ++ [TEol; TIdent 1%Z]) = Ok (sampleTree, [TEol; TIdent 1%Z]).
Proof. vm_compute. reflexivity. Qed.

(** No text has two readings. *)
Theorem C67_unambiguous : forall e e' s, says 1 e s -> says 1 e' s -> e = e'.
Proof. exact says_one. Qed.
Print Assumptions C67_unambiguous.

Example C67_unambiguous_ex : says 1 sampleTree sample.
Proof. apply C67_grouping. exact C67_grouping_ex. Qed.

(** Every tree can be written: with parentheses only where an operand has a lower precedence than its
    place asks for, the text is read back as this tree. *)
Theorem C67_printed : forall e r, stops r -> parse (show 1 e ++ r) = Ok (e, r).
Proof. exact parse_show. Qed.
Print Assumptions C67_printed.

(* a - (b - c) keeps its parentheses, (a - b) - c does not *)
Example C67_printed_ex :
  show 1 (EBin OMinus (v 1) (EBin OMinus (v 2) (v 3))) =
    [TIdent 1; TOp OMinus; TLpar; TIdent 2; TOp OMinus; TIdent 3; TRpar]%Z /\
  show 1 (EBin OMinus (EBin OMinus (v 1) (v 2)) (v 3)) =
    [TIdent 1; TOp OMinus; TIdent 2; TOp OMinus; TIdent 3]%Z /\
  show 1 sampleTree = sample.
Proof. vm_compute. auto. Qed.

(** The operator applied last is the rightmost of those of the lowest precedence outside brackets. *)
Theorem C67_last_applied : forall s t a b o,
  parse s = Ok (a, []) -> parse t = Ok (b, []) ->
  Forall (fun k => leftPrec o <= k) (outer s) -> Forall (fun k => prec o < k) (outer t) ->
  parse (s ++ TOp o :: t) = Ok (EBin o a b, []).
Proof. exact last_applied. Qed.
Print Assumptions C67_last_applied.

Example C67_last_applied_ex :
  let s := [TIdent 1; TOp OMinus; TIdent 2]%Z in
  let t := [TOp OMinus; TIdent 3; TOp OMul; TLpar; TIdent 4; TOp OPlus; TIdent 5; TRpar]%Z in
  parse s = Ok (EBin OMinus (v 1) (v 2), []) /\
  parse t = Ok (EBin OMul (EUn UMinus (v 3)) (EBin OPlus (v 4) (v 5)), []) /\
  Forall (fun k => leftPrec OMinus <= k) (outer s) /\ Forall (fun k => prec OMinus < k) (outer t).
Proof.
  split; [vm_compute; reflexivity|split; [vm_compute; reflexivity|split]];
    vm_compute; repeat constructor.
Qed.

(** Conversely, a binary operation was read from such a text, or from one in parentheses. *)
Theorem C67_last_split : forall ts o a b,
  parse ts = Ok (EBin o a b, []) ->
  (exists s t, ts = s ++ TOp o :: t /\ parse s = Ok (a, []) /\ parse t = Ok (b, []) /\
     Forall (fun k => leftPrec o <= k) (outer s) /\ Forall (fun k => prec o < k) (outer t)) \/
  (exists s, ts = TLpar :: s ++ [TRpar] /\ parse s = Ok (EBin o a b, [])).
Proof. exact last_split. Qed.
Print Assumptions C67_last_split.

Example C67_last_split_ex :
  parse [TIdent 1; TOp OShl; TIdent 2; TOp OAnd; TIdent 3; TOp OXor; TIdent 4]%Z =
  Ok (EBin OXor (EBin OAnd (EBin OShl (v 1) (v 2)) (v 3)) (v 4), []).
Proof. vm_compute. reflexivity. Qed.

(** c ? a : b takes all to its left for the condition and all to its right for the last operand. *)
Theorem C67_conditional : forall s t u c a b,
  parse s = Ok (c, []) -> parse t = Ok (a, []) -> parse u = Ok (b, []) ->
  Forall (fun k => 2 <= k) (outer s) ->
  parse (s ++ TQuestion :: t ++ TColon :: u) = Ok (ECond c a b, []).
Proof. exact cond_applied. Qed.
Print Assumptions C67_conditional.

(* c ? a : d ? e : f is c ? a : (d ? e : f) *)
Example C67_conditional_ex :
  parse [TIdent 1; TQuestion; TIdent 2; TColon; TIdent 3; TQuestion; TIdent 4; TColon; TIdent 5]%Z =
  Ok (ECond (v 1) (v 2) (ECond (v 3) (v 4) (v 5)), []).
Proof. vm_compute. reflexivity. Qed.

(** Comparisons do not chain: a < b < c, a == b != c are rejected. *)
Theorem C67_no_chain : forall s e,
  Forall (fun k => 4 <= k) (outer s) -> 2 <= count_occ Nat.eq_dec (outer s) 4 ->
  parse s <> Ok (e, []).
Proof. exact no_chain. Qed.
Print Assumptions C67_no_chain.

Example C67_no_chain_ex :
  let s := [TIdent 1; TOp OLess; TIdent 2; TOp OPlus; TLit 1; TOp OLess; TIdent 3]%Z in
  Forall (fun k => 4 <= k) (outer s) /\ 2 <= count_occ Nat.eq_dec (outer s) 4 /\
  parse s = Ok (EBin OLess (v 1) (EBin OPlus (v 2) (ELit 1)), [TOp OLess; TIdent 3%Z]).
Proof. split; [vm_compute; repeat constructor|split; vm_compute; [lia|reflexivity]]. Qed.

(** The parser ends on every text. *)
Theorem C67_ends : forall ts, parse ts <> Err EFuel.
Proof. exact parse_ends. Qed.
Print Assumptions C67_ends.

Example C67_ends_ex : parse [TOp OOr; TIdent 1%Z] = Err EOther.
Proof. vm_compute. reflexivity. Qed.
