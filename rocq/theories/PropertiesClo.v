(** C66: closures keep the values of the variables they captured. *)
From Coq Require Import ZArith Lia Bool List.
From Verif Require Import Base CloModel CloSpec CloMem CloRep CloVars CloProofs CloMore.
Import ListNotations.
Local Open Scope Z_scope.

(** A compiled program does what CloSpec.v says, for programs with variables that are integers or closures, and for every bound [n] on nested calls and loop
    iterations: it gives the same result and leaves the same integers in the global variables, or fails with the same error, which can only be
    the call of a null closure (or the bound). Missing: captured variables of other types; the reference counts that free what was captured; programs
    whose meaning is undefined because of an overflow or a function without a return. *)
Theorem C66_closures_partial : forall gs b f tab n, compile gs b = Ok (f, tab) ->
  match meaning gs b n with
  | Ok (v, G) => exists z d, v = SInt z /\ runMain gs b n = Ok (VZ z, d) /\
      forall x p, find x (globalEnv 0 gs) = Some (p, TInt) -> exists y, find x G = Some (SInt y) /\ nth_error d (poff p) = Some (VZ y)
  | Err e => (e = EFuel \/ e = EIllegalFn) /\ runMain gs b n = Err e
  | UB => True
  end.
Proof. exact program_ok. Qed.
Print Assumptions C66_closures_partial.

(** A closure that makes closures, a global closure that calls itself, and an assignment after the capture. *)
Definition cl_globals : list (nat * ty) := [(10%nat, TInt); (11%nat, TFn [TInt] TInt)].
Definition cl_main : stmt :=
  SSeq (SDecl 0 (ENum 5)) (
  SSeq (SDecl 1 (EFn [0%nat] [(2%nat, TInt)] (TFn [TInt] TInt)
                  (SReturn (EFn [2%nat; 0%nat] [(3%nat, TInt)] TInt (SReturn (EAdd (EAdd (EVar 2) (EVar 3)) (EVar 0))))))) (
  SSeq (SSet 0 (ENum 100)) (
  SSeq (SSet 11 (EFn [] [(4%nat, TInt)] TInt (SSeq (SIf (ELess (EVar 4) (ENum 1)) (SReturn (ENum 0)) SSkip)
                  (SReturn (EAdd (EVar 4) (ECall (EVar 11) (ACons (EAdd (EVar 4) (ENum (-1))) ANil))))))) (
  SSeq (SSet 10 (ECall (ECall (EVar 1) (ACons (ENum 7) ANil)) (ACons (ENum 1) ANil)))
       (SReturn (EAdd (ECall (EVar 11) (ACons (ENum 4) ANil)) (EVar 10))))))).
Example C66_closures_ex :
  match compile cl_globals cl_main with Ok (_, tab) => length tab | _ => 0%nat end = 3%nat /\
  (exists d, runMain cl_globals cl_main 10 = Ok (VZ 23, d) /\ nth_error d 0 = Some (VZ 13)) /\
  (exists G, meaning cl_globals cl_main 10 = Ok (SInt 23, G) /\ find 10 G = Some (SInt 13)).
Proof. split; [vm_compute; reflexivity|]. split; eexists; (split; [vm_compute; reflexivity|vm_compute; reflexivity]). Qed.

(** Whatever the statement [s] does in between, except assign to [f], the closure gives the value its captured variable had: in
    x := z; f := fn (): int |x| { return x }; { s }; return f() *)
Theorem C66_captured : forall gs x f z s c n,
  compile gs (capture x f z s) = Ok c -> assigns f s = false -> returns s = false -> meaning gs (capture x f z s) n <> UB ->
  (exists d, runMain gs (capture x f z s) n = Ok (VZ z, d)) \/ exists e, (e = EFuel \/ e = EIllegalFn) /\ runMain gs (capture x f z s) n = Err e.
Proof. exact captured. Qed.
Print Assumptions C66_captured.
(** [s]: x = x + 10; a closure in a new variable called as the old one; a loop. *)
Definition cl_between : stmt :=
  SSeq (SSet 0 (EAdd (EVar 0) (ENum 10))) (SSeq (SDecl 1 (EFn [0%nat] [] TInt (SReturn (EVar 0)))) (SWhile (ELess (EVar 0) (ENum 20)) (SSet 0 (EAdd (EVar 0) (ECall (EVar 1) ANil))))).
Example C66_captured_ex : assigns 1 cl_between = false /\ returns cl_between = false /\ is_ok (compile [] (capture 0 1 7 cl_between)) = true /\
  (exists d, runMain [] (capture 0 1 7 cl_between) 10 = Ok (VZ 7, d)) /\ exists G, meaning [] (capture 0 1 7 cl_between) 10 = Ok (SInt 7, G).
Proof. repeat (split; [vm_compute; reflexivity|]). split; eexists; vm_compute; reflexivity. Qed.

(** What the closure does to its captured variable is not seen outside: in x := z; f := fn (): int |x| { s }; y := f(); return x *)
Theorem C66_own_copy : forall gs x f y z s c n, x <> f -> x <> y -> compile gs (ownCopy x f y z s) = Ok c -> meaning gs (ownCopy x f y z s) n <> UB ->
  (exists d, runMain gs (ownCopy x f y z s) n = Ok (VZ z, d)) \/ exists e, (e = EFuel \/ e = EIllegalFn) /\ runMain gs (ownCopy x f y z s) n = Err e.
Proof. exact own_copy. Qed.
Print Assumptions C66_own_copy.
Example C66_own_copy_ex : let s := SSeq (SSet 0 (EAdd (EVar 0) (ENum 1))) (SReturn (EVar 0)) in
  is_ok (compile [] (ownCopy 0 1 2 7 s)) = true /\ exists d, runMain [] (ownCopy 0 1 2 7 s) 10 = Ok (VZ 7, d).
Proof. split; [vm_compute; reflexivity|]. eexists. vm_compute. reflexivity. Qed.

(** A closure variable that was never assigned cannot be called: in var f: fn (): int; { s }; return f() *)
Theorem C66_null : forall gs f s c n, compile gs (nullCall f s) = Ok c -> assigns f s = false -> returns s = false -> meaning gs (nullCall f s) n <> UB ->
  exists e, (e = EFuel \/ e = EIllegalFn) /\ runMain gs (nullCall f s) n = Err e.
Proof. exact null_called. Qed.
Print Assumptions C66_null.
Example C66_null_ex : is_ok (compile [] (nullCall 1 (SVar 1 TInt))) = true /\ runMain [] (nullCall 1 (SVar 1 TInt)) 10 = Err EIllegalFn.
Proof. split; vm_compute; reflexivity. Qed.

(** Each call starts with the values captured, not with those the last call left: a counter made of a captured variable does not count. *)
Definition cl_counter : stmt :=
  SSeq (SDecl 0 (ENum 0)) (SSeq (SDecl 1 (EFn [0%nat] [] TInt (SSeq (SSet 0 (EAdd (EVar 0) (ENum 1))) (SReturn (EVar 0)))))
  (SSeq (SExpr (ECall (EVar 1) ANil)) (SReturn (ECall (EVar 1) ANil)))).
Theorem C66_counter_refuted : ~ (exists d, runMain [] cl_counter 10 = Ok (VZ 2, d)) /\ exists d, runMain [] cl_counter 10 = Ok (VZ 1, d).
Proof. split; [intros [d H]; vm_compute in H; discriminate|]. eexists. vm_compute. reflexivity. Qed.
Print Assumptions C66_counter_refuted.
