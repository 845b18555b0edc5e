(** C57: formal and actual parameters. *)
From Coq Require Import ZArith Lia Bool List.
From Verif Require Import Base ArgModel ArgSpec ArgProofs.
Import ListNotations.
Local Open Scope Z_scope.

(** A signature is accepted exactly when it is valid; otherwise there is a compile error. *)
Theorem C57_signature_accepted T D (canDefault : T -> bool) l res :
  Forall (fun g => gnames T D g <> []) l ->
  ((exists s, parseSignature T D canDefault l res = Ok s) <-> valid T D canDefault l res)
  /\ (~ valid T D canDefault l res -> parseSignature T D canDefault l res = Err EOther).
Proof.
  intros Ng. destruct (signature_spec T D canDefault l res Ng) as [[Vl E]|[Vl E]]; rewrite E.
  - split; [split; [auto|intros _; eauto]|tauto].
  - split; [split; [intros (s & H); discriminate|tauto]|auto].
Qed.
Print Assumptions C57_signature_accepted.

(** A call of a function with an accepted signature compiles exactly when each formal parameter gets a value, and passes these values in order,
    unless the result is structured and nothing is given for a variadic parameter. *)
Theorem C57_call_partial T A D (canDefault : T -> bool) fits fitsList fitsItem l res s acts :
  Forall (fun g => gnames T D g <> []) l -> parseSignature T D canDefault l res = Ok s ->
  res && emptyList T A D (formals T D l) acts = false ->
  parseCall T A D fits fitsList fitsItem s acts =
  match values T A D fits fitsList fitsItem (formals T D l) acts with
  | Some ps => Ok (PHidden A D :: ps ++ (if res then [PResult A D] else []))
  | None => Err EOther
  end.
Proof.
  intros Ng E Em. destruct (signature_spec T D canDefault l res Ng) as [[Vl E']|[Vl E']]; rewrite E' in E; [|discriminate]. injection E as <-.
  now rewrite (call_spec T A D canDefault fits fitsList fitsItem l res acts Vl), Em.
Qed.
Print Assumptions C57_call_partial.

(** In the excepted case the call is rejected. *)
Theorem C57_empty_list_rejected T A D (canDefault : T -> bool) fits fitsList fitsItem l s acts :
  Forall (fun g => gnames T D g <> []) l -> parseSignature T D canDefault l true = Ok s -> emptyList T A D (formals T D l) acts = true ->
  parseCall T A D fits fitsList fitsItem s acts = Err EOther.
Proof.
  intros Ng E Em. destruct (signature_spec T D canDefault l true Ng) as [[Vl E']|[Vl E']]; rewrite E' in E; [|discriminate]. injection E as <-.
  now rewrite (call_spec T A D canDefault fits fitsList fitsItem l true acts Vl), Em.
Qed.
Print Assumptions C57_empty_list_rejected.

(** A call with as many values as formal parameters, none of them variadic, passes each expression for its parameter. *)
Theorem C57_all_given T A D (canDefault : T -> bool) fits fitsList fitsItem l res s acts :
  Forall (fun g => gnames T D g <> []) l -> parseSignature T D canDefault l res = Ok s ->
  Forall2 (fun p a => isVar T D p = false /\ fits (pty T D p) a = true) (formals T D l) acts ->
  parseCall T A D fits fitsList fitsItem s acts = Ok (PHidden A D :: map (PExpr A D) acts ++ (if res then [PResult A D] else [])).
Proof.
  intros Ng E F. rewrite (C57_call_partial T A D canDefault fits fitsList fitsItem l res s acts Ng E).
  - replace (values T A D fits fitsList fitsItem (formals T D l) acts) with (Some (map (PExpr A D) acts)); [reflexivity|].
    induction F as [|p a ps ls [V1 F1] _ IH]; [reflexivity|]. cbn [values map]. now rewrite V1, F1, <- IH.
  - unfold emptyList. replace (existsb (isVar T D) (formals T D l)) with false; [apply andb_false_r|].
    induction F as [|p a ps ls [V1 _] _ IH]; [reflexivity|]; cbn; now rewrite V1, <- IH.
Qed.
Print Assumptions C57_all_given.

(** More expressions than formal parameters are rejected when none is variadic, and so is a call that leaves out a parameter with neither a default
    nor a list. *)
Theorem C57_wrong_count T A D (canDefault : T -> bool) fits fitsList fitsItem l res s acts :
  Forall (fun g => gnames T D g <> []) l -> parseSignature T D canDefault l res = Ok s ->
  ((length (formals T D l) < length acts)%nat /\ existsb (isVar T D) (formals T D l) = false
   \/ exists p, nth_error (formals T D l) (length acts) = Some p /\ isVar T D p = false /\ hasDef T D p = false) ->
  parseCall T A D fits fitsList fitsItem s acts = Err EOther.
Proof.
  intros Ng E H. destruct (signature_spec T D canDefault l res Ng) as [[Vl E']|[Vl E']]; rewrite E' in E; [|discriminate]. injection E as <-.
  rewrite (call_spec T A D canDefault fits fitsList fitsItem l res acts Vl). destruct (_ && _); [reflexivity|].
  replace (values T A D fits fitsList fitsItem (formals T D l) acts) with (@None (list (push A D))); [reflexivity|]. symmetry.
  destruct Vl as (_ & _ & Pr & _). fold (pairs T D (formals T D l)) in Pr. revert Pr H. generalize (formals T D l) as fs. clear. intros fs. revert acts.
  induction fs as [|f fs IH]; intros acts Pr H.
  - destruct acts as [|a acts]; [|reflexivity]. destruct H as [[H _]|(p & H & _)]; [cbn in H; lia|discriminate].
  - change (f :: fs) with ([f] ++ fs) in Pr. apply pairs_app in Pr as (_ & Pr & C). destruct acts as [|a acts]; cbn [values].
    + destruct H as [[H _]|(p & H & V1 & D1)]; [cbn in H; lia|]. cbn in H. injection H as ->. unfold hasDef in D1. destruct (values T A D fits fitsList fitsItem fs []); [|reflexivity]. rewrite V1. destruct (pdef T D p); [discriminate|reflexivity].
    + assert (Vf : isVar T D f = false). { destruct H as [[_ H]|(p & H & _)]; [cbn in H; now apply orb_false_iff in H|]. cbn in H. apply (C f p (or_introl eq_refl) (nth_error_In _ _ H)). }
      rewrite Vf. destruct (fits (pty T D f) a); [|reflexivity]. rewrite IH; [reflexivity|exact Pr|].
      destruct H as [[H1 H2]|H]; [left|right; exact H]. cbn in H1, H2. apply orb_false_iff in H2. split; [lia|tauto].
Qed.
Print Assumptions C57_wrong_count.

(** With a structured result, an empty list is rejected although every parameter has a value; with a simple result it is accepted. *)
Definition gInts : group nat nat := Grp nat nat [1%nat] 0%nat true None.
Theorem C57_call_refuted :
  exists (l : list (group nat nat)) (acts : list nat) ps,
    let yes := fun _ _ : nat => true in
    Forall (fun g => gnames nat nat g <> []) l /\
    values nat nat nat yes yes yes (formals nat nat l) acts = Some ps /\
    (exists s, parseSignature nat nat (fun _ => true) l false = Ok s /\ parseCall nat nat nat yes yes yes s acts = Ok (PHidden nat nat :: ps)) /\
    (exists s, parseSignature nat nat (fun _ => true) l true = Ok s /\ parseCall nat nat nat yes yes yes s acts = Err EOther).
Proof. exists [gInts], [], [PEmpty nat nat]. cbn. split; [constructor; [discriminate|constructor]|]. split; [reflexivity|]. split; eexists; split; reflexivity. Qed.
Print Assumptions C57_call_refuted.

Local Open Scope nat_scope.
(** fn f(a, b: int, c: int = 7, d: int = 8): called with one, two, three and five expressions. *)
Definition gAB : group nat nat := Grp nat nat [1%nat; 2%nat] 0%nat false None.
Definition gC : group nat nat := Grp nat nat [3%nat] 0%nat false (Some 7%nat).
Definition gD : group nat nat := Grp nat nat [4%nat] 0%nat false (Some 8%nat).
Definition callOf (l : list (group nat nat)) (acts : list nat) : outcome (list (push nat nat)) :=
  let* s := parseSignature nat nat (fun _ => true) l true in parseCall nat nat nat (fun _ _ => true) (fun _ a => Nat.eqb a 99) (fun _ _ => true) s acts.
Example call_defaults :
  callOf [gAB; gC; gD] [10] = Err EOther
  /\ callOf [gAB; gC; gD] [10; 11] = Ok [PHidden _ _; PExpr _ _ 10; PExpr _ _ 11; PDefault _ _ (Some 7); PDefault _ _ (Some 8); PResult _ _]
  /\ callOf [gAB; gC; gD] [10; 11; 12] = Ok [PHidden _ _; PExpr _ _ 10; PExpr _ _ 11; PExpr _ _ 12; PDefault _ _ (Some 8); PResult _ _]
  /\ callOf [gAB; gC; gD] [10; 11; 12; 13; 14] = Err EOther.
Proof. repeat split; reflexivity. Qed.
(** A list of expressions, a list passed on, and a list followed by something. *)
Example call_lists :
  callOf [gAB; Grp _ _ [5] 0 true None] [10; 11; 12; 13] = Ok [PHidden _ _; PExpr _ _ 10; PExpr _ _ 11; PList _ _ [12; 13]; PResult _ _]
  /\ callOf [gAB; Grp _ _ [5] 0 true None] [10; 11; 99] = Ok [PHidden _ _; PExpr _ _ 10; PExpr _ _ 11; PPass _ _ 99; PResult _ _]
  /\ callOf [gAB; Grp _ _ [5] 0 true None] [10; 11; 99; 12] = Err EOther.
Proof. repeat split; reflexivity. Qed.
(** Signatures that are not accepted: a name twice; a parameter without a default after one with; a variadic one that is not last; a default for two. *)
Example bad_signatures :
  parseSignature nat nat (fun _ => true) [gAB; Grp _ _ [2] 0 false None] false = Err EOther
  /\ parseSignature nat nat (fun _ => true) [gC; gAB] false = Err EOther
  /\ parseSignature nat nat (fun _ => true) [gInts; gC] false = Err EOther
  /\ parseSignature nat nat (fun _ => true) [Grp _ _ [1; 2] 0 false (Some 3)] false = Err EOther.
Proof. repeat split; reflexivity. Qed.
