(** C73: binary operators with operands of different types. *)
From Coq Require Import ZArith Lia Bool List.
From Verif Require Import Base NumModel NumSpec NumProofs OperModel OperSpec OperProofs OperMore.
Import ListNotations.
Local Open Scope Z_scope.

(** A binary operator is accepted exactly for operands whose types meet in a type the
    operator is for; that type is the type in which it is done. *)
Theorem C73_accepted : forall cmpOther o l r t,
  proper l -> proper r -> infix o = true ->
  (exists c, applyOperator cmpOther o l r true = Ok (t, c)) <-> (meet l r t /\ suits cmpOther o t).
Proof. exact accepted_iff. Qed.
Print Assumptions C73_accepted.

(** Both operands are read at the type in which they meet, then the operator is applied
    to them in their order. *)
Theorem C73_done : forall cmpOther seqCmp lm strengthen o l r t a b,
  proper l -> proper r -> infix o = true -> meet l r t -> suits cmpOther o t ->
  ofType l a -> ofType r b ->
  exists oa ob, becomes strengthen l t a oa /\ becomes strengthen r t b ob /\
    operation cmpOther seqCmp lm strengthen o l r a b =
    let* b' := ob in let* a' := oa in binary seqCmp lm o t a' b'.
Proof. exact operation_is. Qed.
Print Assumptions C73_done.

Theorem C73_reading_unique : forall strengthen s t v x y,
  becomes strengthen s t v x -> becomes strengthen s t v y -> x = y.
Proof. exact becomes_unique. Qed.
Print Assumptions C73_reading_unique.

(** Other operands are rejected. *)
Theorem C73_rejected : forall cmpOther seqCmp lm strengthen o l r a b,
  proper l -> proper r -> infix o = true -> (forall t, meet l r t -> ~ suits cmpOther o t) ->
  operation cmpOther seqCmp lm strengthen o l r a b = Err EOther.
Proof. exact operation_rejected. Qed.
Print Assumptions C73_rejected.

(** Integers of any two types are compared by their values, if only one of them is a uint
    and the right one has the same value in both types. *)
Theorem C73_integers_compare_partial : forall cmpOther seqCmp lm strengthen o R k1 k2 a b,
  rel_op o = Some R -> isInt (TNum k1 None) -> isInt (TNum k2 None) ->
  in_s64 a -> in_s64 b -> alike k1 k2 b ->
  exists c : bool,
    operation cmpOther seqCmp lm strengthen o (TNum k1 None) (TNum k2 None) (VNum a) (VNum b) =
      Ok (VNum (b2z c)) /\
    (c = true <-> R (denote k1 a) (denote k2 b)).
Proof. exact integers_compare. Qed.
Print Assumptions C73_integers_compare_partial.

(** The same for arithmetic, when the result is in range. *)
Theorem C73_integers_compute_partial : forall cmpOther seqCmp lm strengthen o k1 k2 a b m,
  arith_op o = true -> isInt (TNum k1 None) -> isInt (TNum k2 None) ->
  in_s64 a -> in_s64 b -> alike k1 k2 b ->
  math_op o (denote k1 a) (denote k2 b) = Some m ->
  in_range (if kindEq k1 KUInt then KUInt else KInt) m ->
  ((o = OpShl \/ o = OpShr) -> denote k2 b <= 63) ->
  (o = OpShl -> 0 <= denote k1 a) ->
  (o = OpMod -> ~ (denote k1 a = INT64_MIN /\ denote k2 b = -1)) ->
  exists z,
    operation cmpOther seqCmp lm strengthen o (TNum k1 None) (TNum k2 None) (VNum a) (VNum b) =
      Ok (VNum z) /\ denote k1 z = m.
Proof. exact integers_compute. Qed.
Print Assumptions C73_integers_compute_partial.

(** A comparison says the same when its sides are exchanged. *)
Theorem C73_mirror_partial : forall cmpOther seqCmp lm strengthen,
  (forall t x y, seqCmp t y x = fmap CompOpp (seqCmp t x y)) ->
  forall o l r a b,
  compares o -> proper l -> proper r -> ofType l a -> ofType r b -> signsAgree l r a b ->
  operation cmpOther seqCmp lm strengthen (mirror o) r l b a =
  operation cmpOther seqCmp lm strengthen o l r a b.
Proof. exact mirrored. Qed.
Print Assumptions C73_mirror_partial.

(** Without the restriction it is false: -1 < 1u, but not 1u > -1; -1 is written first as
    an int, then read as a uint. *)
Theorem C73_signs_refuted : forall cmpOther seqCmp lm strengthen,
  let int := TNum KInt None in let uint := TNum KUInt None in
  operation cmpOther seqCmp lm strengthen OpLess int uint (VNum (-1)) (VNum 1) = Ok (VNum 1) /\
  operation cmpOther seqCmp lm strengthen OpGreater uint int (VNum 1) (VNum (-1)) = Ok (VNum 0).
Proof. intros. split; reflexivity. Qed.
Print Assumptions C73_signs_refuted.

(** An integer that is not exact as a real is equal to another number. *)
Theorem C73_real_refuted : forall cmpOther seqCmp lm strengthen,
  let x := 9007199254740993 in
  let y := realSlot (real_of_int 9007199254740992) in
  operation cmpOther seqCmp lm strengthen OpEqEq (TNum KInt None) (TNum KReal None)
    (VNum x) (VNum y) = Ok (VNum 1) /\
  denote KInt x <> 9007199254740992.
Proof. intros. split; [reflexivity|discriminate]. Qed.
Print Assumptions C73_real_refuted.

(** Strings with characters and arrays of characters: the texts are joined. *)
Theorem C73_texts_join : forall cmpOther seqCmp lm strengthen l r a b s t,
  l = TStr \/ r = TStr -> textOf l a s -> textOf r b t ->
  operation cmpOther seqCmp lm strengthen OpPlus l r a b = Ok (VStr (s ++ t)).
Proof. exact texts_join. Qed.
Print Assumptions C73_texts_join.

(** ... and compared in the order of texts. *)
Theorem C73_texts_compare : forall cmpOther seqCmp lm strengthen o R l r a b s t,
  textRel o = Some R -> l = TStr \/ r = TStr -> textOf l a s -> textOf r b t ->
  exists c : bool, operation cmpOther seqCmp lm strengthen o l r a b = Ok (VNum (b2z c)) /\
    (c = true <-> R s t).
Proof. exact texts_compare. Qed.
Print Assumptions C73_texts_compare.

(** An operator on constants gives the type and the value the program would compute; it
    fails exactly if the program would. *)
Theorem C73_constants : forall cmpOther seqCmp lm strengthen o l r a b,
  infix o = true -> constTy l -> constTy r -> ofType l a -> ofType r b ->
  operationConst cmpOther seqCmp lm o l r a b =
  let* (t, c) := applyOperator cmpOther o l r true in
  let* v := operation cmpOther seqCmp lm strengthen o l r a b in Ok (t, v).
Proof. exact constants. Qed.
Print Assumptions C73_constants.

(** A short assignment stores the value of the operator if that has the type of the
    variable. *)
Theorem C73_short : forall cmpOther seqCmp lm strengthen o l r a b,
  proper l -> proper r -> infix o = true -> meet l r l -> suits cmpOther o l ->
  shortAssignment cmpOther seqCmp lm strengthen o l r a b =
  operation cmpOther seqCmp lm strengthen o l r a b.
Proof. exact short_same. Qed.
Print Assumptions C73_short.

(** Otherwise it is rejected. *)
Theorem C73_short_rejected : forall cmpOther seqCmp lm strengthen o l r a b,
  proper l -> proper r -> infix o = true -> ~ (meet l r l /\ suits cmpOther o l) ->
  shortAssignment cmpOther seqCmp lm strengthen o l r a b = Err EOther.
Proof. exact short_rejected. Qed.
Print Assumptions C73_short_rejected.

(** A character before a string, a dynamic array with an array of three, a weak pointer
    with null, and x += 'b' for a string. *)
Example C73_ex : forall lm,
  let cmpOther (_ : nat) := true in
  let seqCmp (_ : ty) (_ _ : value) := Ok Eq in
  let go := operation cmpOther seqCmp lm (fun z => z + 1) in
  let int := TNum KInt None in
  go OpPlus tChar TStr (VNum 97) (VStr [98; 99]) = Ok (VStr [97; 98; 99]) /\
  go OpLess TStr (TDyn tChar) (VStr [98]) (VSeq [VNum 98; VNum 1; VNum 0; VNum 5]) = Ok (VNum 1) /\
  go OpEqEq (TDyn int) (TArr 1 int) (VSeq [VNum 7; VNum 8]) (VSeq [VNum 7]) = Err EIllegalLen /\
  go OpEqEq (TWeak int) (TPtr TNull) (VNum (-1)) (VNum 0) = Ok (VNum 1) /\
  go OpMinus (TNum KUInt8 None) int (VNum 3) (VNum 5) = Ok (VNum (-2)) /\
  go OpPlus (TNum KBool None) int (VNum 1) (VNum 5) = Err EOther /\
  shortAssignment cmpOther seqCmp lm (fun z => z) OpPlus TStr tChar (VStr [97]) (VNum 98) =
    Ok (VStr [97; 98]) /\
  meet (TDyn int) (TArr 1 int) (TArr 1 int) /\ proper (TDyn int) /\ ofType (TDyn int) (VSeq [VNum 7]) /\
  signsAgree int (TNum KUInt None) (VNum 3) (VNum 4) /\
  textOf (TDyn tChar) (VSeq (map VNum [98; 1; 0; 5])) [98; 1].
Proof.
  intros. do 7 (split; [reflexivity|]). split; [apply m_dyn_arr|]. split; [cbn; auto|].
  split; [eexists; reflexivity|]. split.
  - intros k1 k2 x y _ _ _ _ E1 E2. injection E1 as <-. injection E2 as <-.
    unfold in_s64, INT64_MIN, INT64_MAX, two63. lia.
  - apply (to_cut [98; 1] [5]). cbn. lia.
Qed.
