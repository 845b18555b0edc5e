(** Property C37: what a name denotes. *)
From Coq Require Import ZArith Lia Bool List String.
From Verif Require Import Base IdModel IdSpec IdProofs IdMore.
Import ListNotations.
Local Open Scope string_scope.
Local Open Scope Z_scope.

(** C37, a program is accepted, and each of its names denotes the declaration (and is or is not a captured variable), as its
    scopes say. Partial: no type may be declared as another name of a type that is itself not declared yet (C37_refuted), and
    the program must have fewer than 2^31 - 1 blocks and temporary variables. *)
Theorem C37_scoping_partial : forall compatFn nameOf u path body,
  plainU u -> plain body = true -> blocksOf body < INT_MAX ->
  fmap snd (compile compatFn nameOf u path body) = fmap snd (meaning compatFn nameOf u path body) /\
  meaning compatFn nameOf u path body <> UB.
Proof.
  intros compatFn nameOf u path body PU PB BB. pose proof (prog_thm compatFn nameOf u path body PU PB BB) as H.
  destruct (meaning compatFn nameOf u path body) as [[a out]|e|]; [|rewrite H; split; [reflexivity|discriminate]|destruct H].
  destruct H as (s & -> & _). split; [reflexivity|discriminate].
Qed.
Print Assumptions C37_scoping_partial.

Definition exNames (p : string) : option string := Some p.
Definition exProg : cmd :=
  CSeq (CImport "lib" (Some "l") (CSeq (CDecl IVar "x" (TOther false) true) (CDecl IVar "y" (TOther false) false))) (* 1: x, 2: y, 3: l *)
  (CSeq (CDecl IVar "x" (TOther false) false)                                                                       (* 4 *)
  (CSeq (CFn "f" None 0 false true)                                                                                 (* 5 *)
  (CSeq (CFind (Some "l") "x") (CSeq (CFind (Some "l") "y") (CSeq (CFind None "y")
  (CSeq (CFn "f" None 0 false false)
  (CSeq (CBlock true (CSeq (CDecl IVar "x" (TOther false) false)                                                    (* 6 *)
         (CSeq (CFind None "x")
         (CSeq (CBlock true (CSeq (CFind None "x") (CFind None "print")))
         (CBlock false (CFind None "x"))))))
  (CFind None "x")))))))).
Definition exU : list (ikind * string * ity * bool) := [(IBuiltin, "print"%string, TVoid, true)].               (* 0 *)

Example C37_scoping_ex : plainU exU /\ plain exProg = true /\ blocksOf exProg < INT_MAX /\
  fmap snd (compile (fun _ _ => true) exNames exU "main" exProg) =
    Ok [Some (1, false); None; None; Some (6, false); Some (6, true); Some (0, false); Some (6, false); Some (4, false)].
Proof. split; [repeat constructor|]. split; [reflexivity|]. split; [vm_compute; reflexivity|]. vm_compute. reflexivity. Qed.

(** C37, at most one declaration of a scope answers to a name, and a lookup finds the one in the innermost scope that has one. *)
Theorem C37_unique : forall compatFn nameOf u path body a out,
  meaning compatFn nameOf u path body = Ok (a, out) -> unambiguous a.
Proof. exact prog_Inv. Qed.
Print Assumptions C37_unique.

Theorem C37_denotes : forall a q n d, unambiguous a -> (lookup a q = Some (n, d) <-> denotes a q n d).
Proof. exact denotes_thm. Qed.
Print Assumptions C37_denotes.

Example C37_unique_ex : exists a out, meaning (fun _ _ => true) exNames exU "main" exProg = Ok (a, out) /\ List.length (scope a 0) = 6%nat.
Proof. eexists. eexists. split; vm_compute; reflexivity. Qed.

(** C37, the declarations of a block end with it, and it adds none to the blocks around it. *)
Theorem C37_closed : forall compatFn nameOf fn c a a' out,
  sem compatFn nameOf (CBlock fn c) a = Ok (a', out) -> scopes a' = scopes a.
Proof. exact block_closed. Qed.
Print Assumptions C37_closed.

Theorem C37_closed_branches : forall compatFn nameOf t c d a a' out,
  sem compatFn nameOf (CTern t c d) a = Ok (a', out) -> scopes a' = scopes a.
Proof. exact tern_closed. Qed.
Print Assumptions C37_closed_branches.

Example C37_closed_ex : exists a' out, sem (fun _ _ => true) exNames
  (CBlock true (CSeq (CDecl IVar "x" (TOther false) false) (CFind None "x"))) ainit = Ok (a', out) /\ out = [Some (0, false)].
Proof. eexists. eexists. split; vm_compute; reflexivity. Qed.

(** C37, whatever the state: a name found is predeclared, of the current module, or exported; if it is not a method and comes
    from another module, the current module imports that module. *)
Theorem C37_private : forall s m nm rcv isModule i, identFindEx s m nm rcv isModule = Some i ->
  imod i = 0 \/ imod i = cur s \/ (iexp i = true /\ imod i = m /\ (rcv = None -> importAlias s (cur s) m <> None)).
Proof.
  intros s m nm rcv isModule i H. apply find_some in H. destruct H as [_ H]. apply andb_true_iff in H. destruct H as [H _].
  apply andb_true_iff in H. destruct H as [_ H]. unfold identModuleValid in H.
  destruct (imod i =? 0) eqn:E0; [left; apply Z.eqb_eq; exact E0|]. cbn [andb orb] in H.
  apply andb_true_iff in H. destruct H as [H1 H2]. apply Z.eqb_eq in H1. right. destruct (cur s =? m) eqn:E1; [left; apply Z.eqb_eq in E1; congruence|].
  cbn [orb] in H2. apply andb_true_iff in H2. destruct H2 as [H2 H3]. right. split; [exact H2|]. split; [exact H1|].
  intros ->. rewrite H1 in H3. destruct (importAlias s (cur s) m); [discriminate|]. discriminate.
Qed.
Print Assumptions C37_private.

(** A hidden and an exported variable of another module. *)
Example C37_private_ex : fmap snd (compile (fun _ _ => true) exNames [] "main" (CSeq
    (CImport "lib" None (CSeq (CDecl IVar "x" (TOther false) true) (CDecl IVar "y" (TOther false) false)))
    (CSeq (CGetFunc 2 "x") (CSeq (CGetFunc 2 "y") (CGetFunc 1 "x"))))) = Ok [Some (0, false); None; None].
Proof. vm_compute. reflexivity. Qed.

(** C37 does not hold of all programs: [type (P = ^B; A = B; A = int; B = str)] is accepted although it declares A twice. *)
Definition twice : cmd :=
  CTypes (CSeq (CTypeRef "B" false) (CSeq (CDecl IType "P" (TOther false) false) (CSeq (CDecl IType "A" (TFwd false) false)
    (CSeq (CDecl IType "A" (TOther false) false) (CDecl IType "B" (TOther false) false))))).
Theorem C37_refuted : exists compatFn nameOf c,
  fmap snd (compile compatFn nameOf [] "main" c) = Ok [None] /\
  meaning compatFn nameOf [] "main" c = Err EDuplicate.
Proof. exists (fun _ _ => true), exNames, twice. split; vm_compute; reflexivity. Qed.
Print Assumptions C37_refuted.
