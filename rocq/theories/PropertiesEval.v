(** Properties C55 and C56: operands and assignments. *)
From Coq Require Import ZArith Lia Bool List.
From Verif Require Import Base EvalModel EvalSpec EvalProofs EvalStmt EvalSafe.
Import ListNotations.
Local Open Scope Z_scope.

(** The code of an assignment, a list assignment, a short assignment or a declaration leaves the memory that evaluating all operands from left to
    right to values, and then assigning these values, leaves; and it fails with the same error. *)
Theorem C55_assignments_partial : forall binop fenv fuel stat s m st r,
  tidyCalls stat fenv -> tidy stat m -> good s = true -> (forall x, uses x s = true -> stat x = true) ->
  match sem binop fenv fuel m s with
  | Ok m' => exists r', exec binop fenv fuel (comp s) (Mach m st r) = Ok (Mach m' st r')
  | Err e => strict s = true -> exec binop fenv fuel (comp s) (Mach m st r) = Err e
  | UB => True
  end.
Proof. intros binop fenv fuel stat s m st r C T G U. exact (all_agree binop fenv fuel stat C s G U m st r T). Qed.
Print Assumptions C55_assignments_partial.

(** Test programs. Variable 0: a structure of two cells; 1: a structure; 2: an integer; 3: a hidden variable; 4: a dynamic array of integers in block 5.
    Function 0 changes variable 0; function 1 assigns null to the array. *)
Definition addOp (op : nat) (a b : Z) : outcome Z := match op with O => Ok (a + b) | _ => if b =? 0 then Err EDivZero else Ok (a / b) end.
Definition var (l : list val) : block := Blk l None true.
Definition m0 : mem := [var [VI 1; VI 2]; var [VI 0; VI 0]; var [VI 7]; var [VI 0; VI 0; VI 0]; var [VR (Some 5%nat)]; Blk [VI 10; VI 20; VI 30] (Some 1) true; var [VR None]].
Definition st0 (x : nat) : bool := negb (x =? 5)%nat.
Definition calls0 (f : nat) (m : mem) (z : Z) : outcome (mem * Z) :=
  match f with
  | O => let* m := store m (0%nat, 0%nat) [VI 9] in Ok (m, z + 1)
  | 1%nat => let* m := sem addOp (fun _ _ _ => UB) 10 m (SAsg (DVar 4) (ERead (DVar 6) TDyn)) in Ok (m, z)
  | _ => Ok (m, z * 2)
  end.
Lemma calls0_tidy : tidyCalls st0 calls0.
Proof.
  intros [|[|f]] m z m' z' T H; cbn [calls0] in H.
  - destruct (store m (0%nat, 0%nat) [VI 9]) eqn:E; try discriminate. injection H as <- _. refine (tidy_store _ _ _ _ _ T _ E). repeat constructor.
  - destruct (sem addOp (fun _ _ _ => UB) 10 m (SAsg (DVar 4) (ERead (DVar 6) TDyn))) as [m1| |] eqn:E; try discriminate. injection H as <- _.
    cbn [sem semDes semExpr bind] in E. destruct (read m (SA (6%nat, 0%nat)) (size TDyn)) as [vs| |] eqn:R; cbn [bind] in E; try discriminate.
    unfold assign in E. destruct (incs m _) as [m2| |] eqn:I; cbn [bind] in E; try discriminate. destruct (read m2 _ _); cbn [bind] in E; try discriminate.
    destruct (decs 10 m2 _) as [m3| |] eqn:D; cbn [bind asAddr] in E; try discriminate.
    refine (tidy_store _ _ _ _ _ (tidy_decs _ _ _ _ _ (tidy_incs _ _ _ _ T I) D) _ E). exact (read_vok _ _ _ _ _ T R).
  - injection H as <- _. exact T.
Qed.
Lemma m0_tidy : tidy st0 m0.
Proof. intros [|[|[|[|[|[|[|b]]]]]]] k H; try (destruct b; discriminate); injection H as <-; (split; [split; (discriminate || reflexivity)|repeat constructor]). Qed.

(** a[f(2)], a[1] = a[1], a[f(2) - 2] with f(z) = 2z, and the old values are used; also a call changes the structure before it is read. *)
Example C55_nonvacuous :
  let s := SList 3 [(DIdx (DVar 4) (EInt 0), ERead (DIdx (DVar 4) (EInt 1)) TInt); (DIdx (DVar 4) (EInt 1), EBin 0 (ECall 0 (ERead (DIdx (DVar 4) (EInt 0)) TInt)) (ERead (DFld (DVar 0) 0) TInt))] in
  good s = true /\ strict s = true /\ (forall x, uses x s = true -> st0 x = true) /\ tidyCalls st0 calls0 /\ tidy st0 m0 /\
  exists m r, exec addOp calls0 10 (comp s) (Mach m0 [] (SA (0, 0)%nat)) = Ok (Mach m [] r) /\ nth_error m 5 = Some (Blk [VI 20; VI 20; VI 30] (Some 1) true).
Proof.
  split; [reflexivity|]. split; [reflexivity|]. split.
  - intros x. do 6 (destruct x as [|x]; [vm_compute; congruence|]). intros _. reflexivity.
  - split; [exact calls0_tidy|]. split; [exact m0_tidy|]. do 2 eexists. split; vm_compute; reflexivity.
Qed.
Example C55_nonvacuous_error :
  let s := SShort (DFld (DVar 0) 1) 1 (ERead (DFld (DVar 1) 0) TInt) in
  good s = true /\ strict s = true /\ exec addOp calls0 10 (comp s) (Mach m0 [] (SA (0, 0)%nat)) = Err EDivZero.
Proof. repeat split. Qed.

(** Without the condition on structured operands the claim is false: in b, n = a, f() the call changes the value of the operand before it. *)
Theorem C55_struct_before_call_refuted :
  let s := SList 3 [(DVar 1, ERead (DVar 0) (TRec 2 false)); (DVar 2, ECall 0 (EInt 3))] in
  exists m1 m2 r, sem addOp calls0 10 m0 s = Ok m1 /\ exec addOp calls0 10 (comp s) (Mach m0 [] (SA (0, 0)%nat)) = Ok (Mach m2 [] r)
    /\ nth_error m1 1 = Some (var [VI 1; VI 2]) /\ nth_error m2 1 = Some (var [VI 9; VI 2]).
Proof. do 3 eexists. split; [vm_compute; reflexivity|]. split; [vm_compute; reflexivity|]. split; reflexivity. Qed.
Print Assumptions C55_struct_before_call_refuted.

(** Likewise in a comparison a == p[f()]^: the left operand is changed by the call in the right one. *)
Definition m1 : mem := [var [VI 1]; var [VR (Some 2%nat)]; Blk [VR (Some 3%nat); VR (Some 3%nat)] (Some 1) true; Blk [VI 1] (Some 2) true; var [VI 7]].
Theorem C55_struct_compared_with_call_refuted :
  let s := SAsg (DVar 4) (EEq (ERead (DVar 0) (TRec 1 false)) (ERead (DDeref (DIdx (DVar 1) (ECall 0 (EInt 0)))) (TRec 1 false))) in
  exists a b r, sem addOp calls0 10 m1 s = Ok a /\ exec addOp calls0 10 (comp s) (Mach m1 [] (SA (0, 0)%nat)) = Ok (Mach b [] r)
    /\ nth_error a 4 = Some (var [VI 1]) /\ nth_error b 4 = Some (var [VI 0]).
Proof. do 3 eexists. split; [vm_compute; reflexivity|]. split; [vm_compute; reflexivity|]. split; reflexivity. Qed.
Print Assumptions C55_struct_compared_with_call_refuted.

(** With exact counts, assigning to a place in a block reachable from a variable a value that is not a structure with references outside variables
    succeeds, keeps the counts exact, puts the value into the place, and changes no other block that is reachable afterwards. *)
Theorem C56_assignment_partial : forall binop fenv fuel stat m p a sl t vs old st r,
  tidy stat m -> counted m -> (structured t = false \/ gc t = false \/ exists x k, sl = SA (x, k) /\ stat x = true) ->
  asAddr p = Ok a -> reach m (fst a) -> load m a (size t) = Ok old -> cellsOf m sl t = Ok vs ->
  Forall (fun b => exists k c, nth_error m b = Some k /\ blive k = true /\ bcnt k = Some c) (refs vs) ->
  (gc t = false -> refs vs = [] /\ refs old = []) -> (length (liveRefs m) + length (refs vs) <= fuel)%nat ->
  exists m', step binop fenv fuel (IRefCntAssign t) (Mach m (sl :: p :: st) r) = Ok (Mach m' st r) /\ counted m' /\ load m' a (size t) = Ok vs
    /\ reach m' (fst a) /\ forall x n, reach m' (fst x) -> fst x <> fst a -> load m' x n = load m x n.
Proof.
  intros binop fenv fuel stat m p a sl t vs old st r T C L Pa R Ld Cv F G Fu. cbn [step mstk mmem mreg]. rewrite (asg_eq fuel stat m p sl t vs T Cv L).
  destruct (assign_safe fuel m p a t vs old C Pa R Ld (cells_length _ _ _ _ Cv) F G Fu) as (m' & A & C' & L' & R' & V'). rewrite A. exists m'.
  repeat split; auto; try apply C'. intros x n Rx Dx. apply load_same. now apply V'.
Qed.
Print Assumptions C56_assignment_partial.

(** A list of two cells is cut: n.next = null releases the second cell; n = null releases both. *)
Definition m3 : mem := [var [VR (Some 1%nat)]; Blk [VI 1; VR (Some 2%nat)] (Some 1) true; Blk [VI 2; VR (Some 3%nat)] (Some 1) true; Blk [VI 3; VR None] (Some 1) true].
Example C56_nonvacuous :
  tidy (fun b => (b =? 0)%nat) m3 /\ counted m3 /\ reach m3 1 /\ load m3 (1%nat, 1%nat) 1 = Ok [VR (Some 2%nat)]
  /\ step addOp calls0 9 (IRefCntAssign TPtr) (Mach m3 [SV (VR (Some 3%nat)); SA (1%nat, 1%nat)] (SA (0, 0)%nat))
     = Ok (Mach [var [VR (Some 1%nat)]; Blk [VI 1; VR (Some 3%nat)] (Some 1) true; Blk [VI 2; VR (Some 3%nat)] (Some 0) false; Blk [VI 3; VR None] (Some 1) true] [] (SA (0, 0)%nat)).
Proof.
  split; [intros [|[|[|[|b]]]] k H; try (destruct b; discriminate); injection H as <-; (split; [split; (discriminate || reflexivity)|repeat constructor])|].
  split; [split|].
  - intros [|[|[|[|b]]]] k H; try (destruct b; discriminate); injection H as <-; cbn; auto; intros _; split; (reflexivity || discriminate).
  - intros b I. cbn in I. destruct I as [<-|[<-|[<-|[]]]]; do 2 eexists; repeat split; reflexivity.
  - split; [|split; [reflexivity|vm_compute; reflexivity]]. apply (reachRef _ 0 (var [VR (Some 1%nat)])); [|reflexivity..|now left]. now apply (reachVar _ 0 (var [VR (Some 1%nat)])).
Qed.

(** A structure that is assigned through its own pointer, n = n.next^, is copied from memory already released. *)
Definition m2 : mem := [var [VI 1; VR (Some 1%nat)]; Blk [VI 2; VR None] (Some 1) true].
Theorem C56_self_replacement_refuted :
  let s := SAsg (DVar 0) (ERead (DDeref (DFld (DVar 0) 1)) (TRec 2 true)) in
  sem addOp calls0 10 m2 s = Ok [var [VI 2; VR None]; Blk [VI 2; VR None] (Some 0) false]
  /\ exec addOp calls0 10 (comp s) (Mach m2 [] (SA (0, 0)%nat)) = UB.
Proof. split; vm_compute; reflexivity. Qed.
Print Assumptions C56_self_replacement_refuted.

(** The place on the left is found before the right side is evaluated: a[0] = f() writes to released memory if f empties [a]. *)
Theorem C56_place_released_by_call_refuted :
  let s := SAsg (DIdx (DVar 4) (EInt 0)) (ECall 1 (EInt 3)) in
  good s = true /\ exec addOp calls0 10 (comp s) (Mach m0 [] (SA (0, 0)%nat)) = UB
  /\ (exists m, exec addOp calls0 10 (comp (SAsg (DVar 2) (ECall 1 (EInt 3)))) (Mach m0 [] (SA (0, 0)%nat)) = Ok m).
Proof. split; [reflexivity|]. split; [vm_compute; reflexivity|]. eexists. vm_compute. reflexivity. Qed.
Print Assumptions C56_place_released_by_call_refuted.

(** So does a[0], a = 5, b, without any call, since the last is assigned first. *)
Theorem C56_place_released_by_list_refuted :
  let s := SList 3 [(DIdx (DVar 4) (EInt 0), EInt 5); (DVar 4, ERead (DVar 6) TDyn)] in
  good s = true /\ exec addOp calls0 10 (comp s) (Mach m0 [] (SA (0, 0)%nat)) = UB.
Proof. split; vm_compute; reflexivity. Qed.
Print Assumptions C56_place_released_by_list_refuted.
