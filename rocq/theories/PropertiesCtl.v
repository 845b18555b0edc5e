(** C32: control statements; C45: switch. *)
From Coq Require Import ZArith Bool List.
From Verif Require Import Base NumModel MemModel BlkModel GenModel GenVm GenSpec CtlModel CtlSpec CtlThm CtlSwitch PropertiesGen.
Import ListNotations.
Local Open Scope Z_scope.

(** s := 0
    for i := 0; i < 10; i = i + 1 {
        switch i { case 3, 4: continue; case 8: break; default: s = s + i }
        if i == 6 && s > 0 { s = s + 100 } else { if i == 7 { s = s + 1000 } }
    }. The variables are at offsets -8 and -16. *)
Definition sget (o : Z) : stmt := Seq (Req (QPushLocalPtr o)) (Req (QDeref KInt)).
Definition sset (o : Z) (e : stmt) : stmt := Seq (Req (QPushLocalPtr o)) (Seq e (Req (QAssign KInt 8))).
Definition scst (v : Z) : stmt := Req (QPushConst KInt v).
Definition sbin (o : op) (a b : stmt) : stmt := Seq a (Seq b (Req (QBinary o KInt))).
Definition sadd (o v : Z) : stmt := sset o (sbin OpPlus (sget o) (scst v)).
Definition exloop : stmt :=
  Seq (sset (-16) (scst 0))
  (For2 (sset (-8) (scst 0)) (sbin OpLess (sget (-8)) (scst 10)) (sadd (-8) 1)
    (Seq (Seq (sget (-8)) (Switch (CCons [(KInt, 3); (KInt, 4)] (Goto GContinue) (CCons [(KInt, 8)] (Goto GBreak) CNil)) (sset (-16) (sbin OpPlus (sget (-16)) (sget (-8))))))
    (Seq (Seq (sbin OpEqEq (sget (-8)) (scst 6)) (Short true (sbin OpGreater (sget (-16)) (scst 0))))
         (IfElse (sadd (-16) 100) (Seq (sbin OpEqEq (sget (-8)) (scst 7)) (If (sadd (-16) 1000))))))).
Definition evEnd (strict : bool) (n : nat) (body : stmt) (s : st unit) (o : Z) : option Z :=
  match evFn exE strict n body [] s with Stop (ROk s) => Some (load 8 (mm (co s)) (base (co s) + o)) | _ => None end.

(** For every function body made of requests, sequences, && and ||, if, else, switch, type switch, loops, break, continue and return (with
    break and continue inside loops and not in loop headers), compiled with the optimiser, from every state of the machine: if the
    statements, executed as the structure of the program says, come to an end without running out of stack and without breaking the rules of
    the compiler, so does the compiled code, with the same stack, memory, registers and heap, or with the same error; and if the compiled code
    comes to an end, so do the statements, with the same result or for one of the two reasons above. *)
Theorem C32_structured_partial :
  forall H (E : env H) body epi go, refcnt_ok E -> closed body -> genActs (genReq (elm E)) genInit (fnActs body epi) = Ok go ->
  forall s,
    (forall n r, evFn E true n body epi s = Stop r -> ~ bad r ->
       (exists m, evFn E false m body epi s = Stop r) /\ exists k r', run E false k (code go) 0 s = Fin r' /\ same_res r r') /\
    (forall k r', run E false k (code go) 0 s = Fin r' ->
       exists n r, evFn E true n body epi s = Stop r /\ (bad r \/ same_res r r')).
Proof. intros H E body epi go EOK. exact (fn_thm H E EOK body epi go). Qed.
Print Assumptions C32_structured_partial.
(** The loop above: 0+1+2+5+6+7, and 100 and 1000. *)
Example C32_structured_case :
  refcnt_ok exE /\ closed exloop /\ evEnd true 20 exloop exs (-16) = Some 1121 /\ final exE false 2000 (genActs (genReq (elm exE)) genInit (fnActs exloop [])) exs (-16) = Some 1121.
Proof. split; [exact exE_ok|]. split; [repeat split; vm_compute; reflexivity|]. split; vm_compute; reflexivity. Qed.

(** Without the optimiser the code does exactly what the statements say, stack overflow included. *)
Theorem C32_plain_partial :
  forall H (E : env H) strict body epi g s r, closed body -> genActs emitPlain genInit (fnActs body epi) = Ok g ->
  ((exists n, evFn E strict n body epi s = Stop r) <-> (exists k, run E strict k (code g) 0 s = Fin r)).
Proof. intros H E strict. exact (fn_plain H E strict). Qed.
Print Assumptions C32_plain_partial.
Example C32_plain_case : closed exloop /\ final exE false 2000 (genActs emitPlain genInit (fnActs exloop [])) exs (-16) = Some 1121.
Proof. split; [repeat split; vm_compute; reflexivity|]. vm_compute. reflexivity. Qed.

(** for i := 0; i < n; i = i + 1 { switch v := type(x) { case T: leave } }: with continue the expression of the type switch stays on the
    stack each time round. *)
Definition extype (n : Z) (leave : stmt) : stmt :=
  For2 (sset (-8) (scst 0)) (sbin OpLess (sget (-8)) (scst n)) (sadd (-8) 1)
    (Seq (Req (QPushConst KPtr 50)) (TSwitch (TCons 0 (Seq (Req QPop) leave) TNil) Skip)).
Definition depth (x : outcome gst) : outcome (nat + err) :=
  match x with
  | Ok g => match run exE false 20000 (code g) 0 exs with Fin (ROk s) => Ok (inl (length (stk (co s)))) | Fin (RErr e _ _) => Ok (inr e) | _ => UB end
  | Err e => Err e
  | UB => UB
  end.
Fixpoint manyCases (n : nat) : cases := match n with O => CNil | S n => CCons [(KInt, Z.of_nat n)] Skip (manyCases n) end.
Definition manyConstants (n : nat) : cases := CCons (map (fun i => (KInt, Z.of_nat i)) (seq 0 n)) Skip CNil.
Definition compiled (p : stmt) : outcome gst := genActs (genReq exlm) genInit (fnActs p []).
Definition isOk {A} (x : outcome A) : outcome unit := fmap (fun _ => tt) x.
(** The claim is false for continue (and break) inside a type switch: each execution leaves a slot on the stack, until the stack overflows.
    Compiling a switch with more than 100 cases, or a case with more than 100 constants, writes outside the array of saved positions. *)
Theorem C32_refuted :
  (depth (compiled (extype 5 Skip)) = Ok (inl 0%nat) /\ depth (compiled (extype 5 (Goto GContinue))) = Ok (inl 5%nat)) /\
  (depth (compiled (extype 200 Skip)) = Ok (inl 0%nat) /\ depth (compiled (extype 200 (Goto GContinue))) = Ok (inr EStackOverflow)) /\
  (isOk (compiled (Seq (scst 1) (Switch (manyCases 100) Skip))) = Ok tt /\ isOk (compiled (Seq (scst 1) (Switch (manyCases 101) Skip))) = UB) /\
  (isOk (compiled (Seq (scst 1) (Switch (manyConstants 100) Skip))) = Ok tt /\ isOk (compiled (Seq (scst 1) (Switch (manyConstants 101) Skip))) = UB).
Proof. split; [|split; [|split]]; split; vm_compute; reflexivity. Qed.
Print Assumptions C32_refuted.

(** A switch is accepted exactly if its expression has an ordinal type, no constant is used twice, and all fit the type. *)
Theorem C45_accepted :
  forall lm k cs, allOf k cs ->
  ((exists l, parseExprSwitch lm k cs = Ok l) <-> kindOrdinal k = true /\ NoDup (constants cs) /\ Forall (fun v => typeOverflow k v = false) (constants cs)) /\
  parseExprSwitch lm k cs <> UB.
Proof. exact parse_switch. Qed.
Print Assumptions C45_accepted.
Definition exsw (a b : Z) : cases := CCons [(KUInt8, 1); (KUInt8, a)] (sset (-8) (scst 100)) (CCons [(KUInt8, b)] (sset (-8) (scst 200)) CNil).
Example C45_accepted_case :
  allOf KUInt8 (exsw 2 3) /\ parseExprSwitch exlm KUInt8 (exsw 2 3) = Ok [1; 2; 3] /\ parseExprSwitch exlm KUInt8 (exsw 2 1) = Err EDuplicate /\
  parseExprSwitch exlm KUInt8 (exsw 2 256) = Err EOverflow.
Proof. split; [cbn; repeat constructor; discriminate|]. split; [|split]; vm_compute; reflexivity. Qed.

(** An accepted switch executes the branch that has the value among its constants, or the default branch if there is none; with C32 so does
    the compiled code. *)
Theorem C45_select :
  forall H (E : env H) strict n k cs d s x y l cl, allOf k cs -> parseExprSwitch (elm E) k cs = Ok cl ->
  stk (co s) = (x, y) :: l -> in_s64 x -> Z.of_nat (length l) + 2 <= lim (co s) ->
  let s' := setReg (wc s (with_stk (co s) l)) RSwitch (x, y) in
  (forall ks b, caseIn ks b cs -> In x (map snd ks) -> ev E strict n (Switch cs d) s = on (ev E strict n b s') (fun s => room 0 s (Go On s))) /\
  (~ In x (constants cs) -> ev E strict n (Switch cs d) s = ev E strict n d s').
Proof. intros H E strict. exact (switch_thm H E strict). Qed.
Print Assumptions C45_select.
Example C45_select_case :
  let f x := final exE false 100 (compiled (Seq (Seq (scst x) (Switch (exsw 2 3) (sset (-8) (scst 300)))) Skip)) exs (-8) in
  allOf KUInt8 (exsw 2 3) /\ map f [0; 1; 2; 3; 4] = [Some 300; Some 100; Some 100; Some 200; Some 300].
Proof. split; [cbn; repeat constructor; discriminate|]. vm_compute. reflexivity. Qed.

(** A case of a type switch is taken exactly if the type assertion (an instruction outside this model, number [t]) gives something other
    than null, which is then on the stack for the body; otherwise the next case is tried with the stack as before. *)
Theorem C45_type :
  forall H (E : env H) strict n t body rest d s v l c1 a m, stk (co s) = v :: l -> Z.of_nat (length l) + 4 <= lim (co s) ->
  estatic E 0 = true -> eopq E t (with_stk (co s) (v :: v :: l)) = OOk c1 -> stk c1 = (a, m) :: v :: l -> lim c1 = lim (co s) -> in_s64 a ->
  let s1 := mkst c1 (eself E c1 (self s)) false in
  evt E strict n (TCons t body rest) d s =
    (if a =? 0 then evt E strict n rest d (wc s1 (with_stk c1 (v :: l))) else on (ev E strict n body s1) (fun s => room 0 s (Go On s))).
Proof. exact type_switch_thm. Qed.
Print Assumptions C45_type.
Example C45_type_case :
  let s p := wc exs (with_stk (co exs) [(p, None)]) in
  let f p := match evt exE false 1 (TCons 0 (Req QPop) TNil) (fun s => Go On (wc s (with_stk (co s) []))) (s p) with Go On s => Some (length (stk (co s))) | _ => None end in
  stk (co (s 50)) = [(50, None)] /\ eopq exE 0 (with_stk (co (s 50)) [(50, None); (50, None)]) = OOk (with_stk (co exs) [(50, None); (50, None)]) /\
  estatic exE 0 = true /\ f 50 = Some 1%nat /\ f 0 = Some 0%nat.
Proof. cbv zeta. split; [|split; [|split; [|split]]]; reflexivity. Qed.
