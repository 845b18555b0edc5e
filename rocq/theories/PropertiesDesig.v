(** C80: what designators denote, and the statements made of them. *)
From Coq Require Import Bool List.
From Verif Require Import DesigModel DesigSpec DesigProofs.
Import ListNotations.

(** C80: a statement is taken for a declaration of variables exactly if it begins as one, whatever follows and however many names
    there are; and for a type switch exactly if it begins as one. *)
Theorem C80_decl : forall l,
  (declAhead l = true <-> declStart l) /\ (typeSwitchAhead l = true <-> exists r, l = [KSwitch; KIdent; KColonEq; KType] ++ r).
Proof. exact (fun l => conj (decl_iff l) (switch_iff l)). Qed.
Print Assumptions C80_decl.
Example C80_decl_ex :
  declAhead [KIdent; KComma; KIdent; KComma; KIdent; KColonEq; KOther] = true /\ declAhead [KIdent; KComma; KIdent; KOther] = false.
Proof. split; reflexivity. Qed.

(** C80: loops over collections and other loops are told apart. *)
Theorem C80_for : forall l, (forInStart l -> forInAhead l = true) /\ (forStart l -> forInAhead l = false).
Proof. exact (fun l => conj (forin_true l) (forin_false l)). Qed.
Print Assumptions C80_for.
Example C80_for_ex : forInStart [KIdent; KComma; KIdent; KIn; KIdent] /\ forStart [KIdent; KComma; KIdent; KColonEq; KOther].
Proof. split; repeat constructor. Qed.

(** C80: a designator is accepted exactly if it denotes something other than a method that is not called, and what it denotes is determined. *)
Theorem C80_denotes : forall d, written d ->
  ((exists f, parse d = Some f) <-> (exists p u, den d p u) /\ ~ uncalled d) /\
  (forall p u p' u', den d p u -> den d p' u' -> p = p' /\ u = u').
Proof. exact (fun d W => conj (parse_iff d W) (fun p u p' u' D D' => den_fun d p u D p' u' D')). Qed.
Print Assumptions C80_denotes.
(** A method of the items of an array behind a pointer, called. *)
Definition exD : desig := DSel (DSel (DSel (DHead (HVar (TPtr (TArr (TStruct [TInt; TStr]))))) SIndex) (SMethod (TPtr TInt))) SCall.
Example C80_denotes_ex : written exD /\ den exD false (TPtr TInt) /\ den (DSel exD SDeref) true TInt
  /\ parse exD = Some (MkF (TPtr TInt) false true false).
Proof.
  assert (I : ok TInt) by (apply OkBase; cbn; auto).
  assert (S : ok TStr) by (apply OkBase; cbn; auto 10).
  assert (Q : ok (TStruct [TInt; TStr])) by (apply OkStruct; repeat constructor; try assumption; discriminate).
  assert (V : ok (TPtr (TArr (TStruct [TInt; TStr])))) by (apply OkPtr; [apply OkArr; [exact Q | split; discriminate] | discriminate]).
  assert (O : ok (TPtr TInt)) by (apply OkPtr; [exact I | discriminate]).
  assert (D : den exD false (TPtr TInt)).
  { unfold exD. apply NCall with (p := false) (t := TFn (TPtr TInt)) (c := TFn (TPtr TInt)); [|left; reflexivity | constructor].
    apply NMethod with (p := true) (t := TStruct [TInt; TStr]); [|left; reflexivity | exact O | discriminate].
    apply NIndex with (p := true) (t := TPtr (TArr (TStruct [TInt; TStr]))) (c := TArr (TStruct [TInt; TStr])); [|right; constructor | constructor].
    apply NVar; [split; discriminate | exact V]. }
  split; [exact (den_written _ _ _ D)|]. split; [exact D|]. split; [|reflexivity].
  apply NDeref with (p := false) (t := TPtr TInt); [exact D | constructor | discriminate | discriminate].
Qed.

(** C80: in an expression a designator has the type of what it denotes, functions being closures then. *)
Theorem C80_value : forall d p u f, den d p u -> parse d = Some f -> factorType f = stored u.
Proof. exact factor_type. Qed.
Print Assumptions C80_value.
Example C80_value_ex : factorType (MkF (TPtr TInt) false true false) = TPtr TInt /\ factorType (MkF (TPtr TInt) true false false) = TInt
  /\ parse (DSel exD SDeref) = Some (MkF (TPtr TInt) true false false).
Proof. repeat split. Qed.

(** C80: only variables and their parts, with their own type, may be assigned to, casts aside; and just calls are statements by
    themselves. *)
Theorem C80_assign_partial : forall d p u f, den d p u -> parse d = Some f ->
  (forall v, assign f = Some v <-> v = u /\ (p = true \/ isCast d)) /\ (callStmt f = true <-> isCall d).
Proof. intros d p u f D H. destruct (statements_of d p u f D H) as (A & _ & C). exact (conj A C). Qed.
Print Assumptions C80_assign_partial.
Example C80_assign_partial_ex : den (DHead (HVar TStr)) true TStr /\ parse (DHead (HVar TStr)) = Some (MkF (TPtr TStr) true false false)
  /\ den (DSel (DHead (HVar TStr)) SIndex) false TChar.
Proof.
  assert (D : den (DHead (HVar TStr)) true TStr) by (apply NVar; [split; discriminate | apply OkBase; cbn; auto 10]).
  split; [exact D|]. split; [reflexivity|]. apply NChar with (p := true) (t := TStr); [exact D | left; reflexivity].
Qed.

(** C80: the same for lists of designators, each with its own type. *)
Theorem C80_list_partial : forall l ts, Forall written l ->
  (assignList l = Some ts <-> Forall2 (fun d t => exists p, den d p t /\ (p = true \/ isCast d)) l ts).
Proof. exact list_iff. Qed.
Print Assumptions C80_list_partial.
Example C80_list_partial_ex : Forall written [DHead (HVar TStr); DSel exD SDeref]
  /\ assignList [DHead (HVar TStr); DSel exD SDeref] = Some [TStr; TInt] /\ assignList [DHead (HVar TStr); exD] = None.
Proof.
  split; [|split; reflexivity]. constructor; [exact (den_written _ _ _ (proj1 C80_assign_partial_ex))|].
  constructor; [exact (den_written _ _ _ (proj1 (proj2 (proj2 C80_denotes_ex)))) | constructor].
Qed.

(** C80: integer variables may be incremented and decremented, and so may values that are pointers to integers; nothing else. *)
Theorem C80_incdec_partial : forall d p u f, den d p u -> parse d = Some f ->
  (incDec f = true <-> (p = true /\ u = TInt) \/ (p = false /\ u = TPtr TInt)).
Proof. intros d p u f D H. exact (proj1 (proj2 (statements_of d p u f D H))). Qed.
Print Assumptions C80_incdec_partial.
Example C80_incdec_partial_ex : den (DHead (HVar TInt)) true TInt /\ parse (DHead (HVar TInt)) = Some (MkF (TPtr TInt) true false false).
Proof. split; [apply NVar; [split; discriminate | apply OkBase; cbn; auto] | reflexivity]. Qed.

(** The full claims, that just variables may be assigned to and just integer variables incremented, are false. A cast to an array
    may be assigned to. *)
Theorem C80_assign_refuted : ~ forall d p u f, den d p u -> parse d = Some f -> (assign f <> None <-> p = true).
Proof.
  intros H. assert (D : den (DHead (HCast (TArr TInt))) false (TArr TInt))
    by (apply NCast; [apply OkArr; [apply OkBase; cbn; auto | split; discriminate] | discriminate]).
  assert (X : false = true) by (apply (H _ _ _ _ D eq_refl); discriminate). discriminate.
Qed.
Print Assumptions C80_assign_refuted.
(** The result of a call that is a pointer to an integer is incremented as if it were that integer, though it may not be assigned to. *)
Theorem C80_incdec_refuted : exists d u f, den d false u /\ parse d = Some f /\ u <> TInt /\ incDec f = true /\ assign f = None.
Proof.
  exists exD, (TPtr TInt), (MkF (TPtr TInt) false true false).
  split; [exact (proj1 (proj2 C80_denotes_ex))|]. repeat split. discriminate.
Qed.
Print Assumptions C80_incdec_refuted.
