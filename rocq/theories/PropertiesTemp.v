(** C61: control flow releases every reference exactly once. *)
From Coq Require Import ZArith Bool List.
From Verif Require Import Base TempModel TempSpec TempMain.
Import ListNotations.
Local Open Scope Z_scope.

(** [s0: str; fn main() { x := f(new 3); s0 = len(x) < 5 ? s0 : x + f(x); for y := x; len(y + x) < 30 && (1 < 0 || len(y + x) < 40); y = y + x
    { z := y + y; if u := z; 20 < len(u) { break } else { continue } } }; fn f(a: str): str { b := a + s0; return b + a }] *)
Definition sample : list fn := [
  Fn [] None (SSeq (SDecl 1 (ECall 1 (ACons (ENew [7; 8; 9]) ANil))) (SSeq (SSetGlobal 0 (ECond (ELess (ELen (ELocal 1)) (ENum 5)) (EGlobal 0) (ECat (ELocal 1) (ECall 1 (ACons (ELocal 1) ANil)))))
     (SFor (SDecl 2 (ELocal 1)) (EAnd (ELess (ELen (ECat (ELocal 2) (ELocal 1))) (ENum 30)) (EOr (ELess (ENum 1) (ENum 0)) (ELess (ELen (ECat (ELocal 2) (ELocal 1))) (ENum 40)))) (SSet 2 (ECat (ELocal 2) (ELocal 1)))
        (SSeq (SDecl 3 (ECat (ELocal 2) (ELocal 2))) (SIf (SDecl 4 (ELocal 3)) (ELess (ENum 20) (ELen (ELocal 4))) SBreak SContinue)))));
  Fn [true] (Some true) (SSeq (SDecl 1 (ECat (ELocal 0) (EGlobal 0))) (SReturn (Some (ECat (ELocal 1) (ELocal 0)))))].

(** Whenever a call of a function comes to its end, the references it was given are used up, its result is a reference of its own, and every other
    object is held by exactly the global variables and the owners outside: whatever was made in between is released, and nothing else is. *)
Theorem C61_call_exact : forall gty prog funs n f F s outside al rest s' g, compile gty prog = Ok funs -> nth_error prog f = Some F ->
  (forall o, 0 <= outside o) -> stk s = rev al ++ rest -> kinds (fparams F) al -> kinds gty (globs s) -> balanced outside al s -> exec funs n [ICall f] s = Ok (s', g) ->
  g = Next /\ stk s' = rest /\ slots s' = slots s /\ kinds gty (globs s') /\ (forall gc, fresult F = Some gc -> isRef (res s') = gc) /\
  balanced outside (match fresult F with Some _ => [res s'] | None => [] end) s'.
Proof. exact call_exact. Qed.
Print Assumptions C61_call_exact.
Example C61_call_exact_case :
  let s := St [VRef (Some 0%nat); VInt 7] (fun _ => VInt 0) [VRef (Some 1%nat)] (fun o => match o with 0%nat => 3 | 1%nat => 1 | _ => 0 end) (fun _ => [5; 6]) 2 (VInt 0) in
  balanced (fun o => match o with 0%nat => 2 | _ => 0 end) [VRef (Some 0%nat)] s /\
  match compile [true] sample with
  | Ok funs => match exec funs 20 [ICall 1] s with
               | Ok (s', g) => (g, stk s', map (cnt s') [0; 1; 2; 3; 4]%nat, res s', ostr s' 3%nat) = (Next, [VInt 7], [2; 1; 0; 1; 0], VRef (Some 3%nat), [5; 6; 5; 6; 5; 6])
               | _ => False end
  | _ => False end.
Proof.
  intros s. split; [|vm_compute; reflexivity].
  split; [intros [|[|o]]; reflexivity|]. intros [|[|o]] H; [inversion H|inversion H; inversion H1|reflexivity].
Qed.

(** When a program ends, exactly what its global variables refer to is left. *)
Theorem C61_program_exact : forall gty prog F n s g, nth_error prog 0 = Some F -> fparams F = [] -> fresult F = None -> run gty prog n = Ok (s, g) ->
  balanced (fun _ => 0) [] s /\ stk s = [] /\ kinds gty (globs s).
Proof. exact program_exact. Qed.
Print Assumptions C61_program_exact.
Example C61_program_exact_case : match run [true] sample 200 with
  | Ok (s, g) => (g, globs s, onext s, map (cnt s) (seq 0 13)) = (Next, [VRef (Some 5%nat)], 13%nat, [0; 0; 0; 0; 0; 1; 0; 0; 0; 0; 0; 0; 0])
  | _ => False end.
Proof. vm_compute. reflexivity. Qed.

(** No released object is used, and the only way not to come to an end is to run for ever, in programs where no global variable is the left operand of a
    concatenation whose right operand calls a function.
    Full claim: no released object is used by any program; C61_careless_refuted shows that it does not hold. *)
Theorem C61_safe_partial : forall gty prog funs F n, compile gty prog = Ok funs -> nth_error prog 0 = Some F -> fparams F = [] -> carefulProg prog = true ->
  run gty prog n <> UB /\ forall e, run gty prog n = Err e -> e = EFuel.
Proof.
  intros gty prog funs F n C E P K. split; [eapply program_safe; eauto|]. intros e H. unfold run in H. rewrite C in H. exact (exec_err _ _ _ _ _ H).
Qed.
Print Assumptions C61_safe_partial.
Example C61_safe_partial_case : carefulProg sample = true /\ exists funs, compile [true] sample = Ok funs.
Proof. split; [reflexivity|]. eexists. vm_compute. reflexivity. Qed.

(** The same for a call from any state in which the counts are right. *)
Theorem C61_call_safe_partial : forall gty prog funs n f F s outside al rest, compile gty prog = Ok funs -> carefulProg prog = true -> nth_error prog f = Some F ->
  (forall o, 0 <= outside o) -> stk s = rev al ++ rest -> kinds (fparams F) al -> kinds gty (globs s) -> balanced outside al s -> exec funs n [ICall f] s <> UB.
Proof. exact call_safe. Qed.
Print Assumptions C61_call_safe_partial.
Example C61_call_safe_partial_case : nth_error sample 1 = Some (Fn [true] (Some true) (fbody (nth 1 sample (Fn [] None SSkip)))) /\ kinds [true] [VRef (Some 0%nat)].
Proof. split; [reflexivity|]. repeat constructor. Qed.

(** [s = new 3; t := s + f()] with [fn f(): str { s = ""; return "" }] uses the string after it is released. *)
Theorem C61_careless_refuted : exists prog funs F n, compile [true] prog = Ok funs /\ nth_error prog 0 = Some F /\ fparams F = [] /\ run [true] prog n = UB.
Proof.
  exists [Fn [] None (SSeq (SSetGlobal 0 (ENew [7; 8; 9])) (SDecl 1 (ECat (EGlobal 0) (ECall 1 ANil)))); Fn [] (Some true) (SSeq (SSetGlobal 0 EEmpty) (SReturn (Some EEmpty)))].
  eexists _, _, 30%nat. split; [vm_compute; reflexivity|]. split; [reflexivity|]. split; [reflexivity|]. vm_compute. reflexivity.
Qed.
Print Assumptions C61_careless_refuted.
