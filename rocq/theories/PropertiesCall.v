(** C34, C35 and C36: fibers, stack overflow, calls and returns. Machine: CallModel.v; specification: CallSpec.v. *)
From Coq Require Import ZArith Lia Bool List.
From Verif Require Import Base CallModel CallSpec CallProofs CallSim CallKeep CallThm CallFib CallEx CallStep.
Import ListNotations.
Local Open Scope Z_scope.

Definition memory (l : list (Z * val)) (a : Z) : val := match find (fun p => fst p =? a) l with Some (_, w) => w | None => VZ 0 end.
Definition c_start (size : nat) (m : Z -> val) : vm cstk := init (c_init size) m.
Definition a_start (size : nat) (m : Z -> val) : vm astk := init (MkA (Z.of_nat size) (Bot [] (VZ 0))) m.
Definition lay (p l : Z) : layout := MkLay p l.
Definition setGlobal (a : Z) (w : val) : list instr := [IPush w; IPush (VZ a); IAssign true None].
Definition makeF (closure a : Z) : list instr := [IPush (VZ closure); IPush (VZ 0); IMakeFiber; IPush (VZ a); IAssign true None].
Definition resumeF (a : Z) : list instr := [IPush (VZ a); IDeref; IResume].
Definition resumeParent : list instr := [IPush (VZ 0); IResume].
Definition freeF (a : Z) : list instr := [IPush (VZ a); IDeref; IFree].
(** The closures of two fiber functions, at 100 and 200. *)
Definition closures : Z -> val := memory [(10, VZ 100); (20, VZ 200)].
Definition globalAfter {St} (o : sops St) (code : Z -> option instr) ext (v : vm St) (n : nat) (a : Z) : outcome (bool * val) :=
  match session o code ext [(1, [], n)] v with Ok (Go _ w) => Ok (true, gm _ w a) | Ok (Stop _ w) => Ok (false, gm _ w a) | Err e => Err e | UB => UB end.

(** * C35 *)

(** For every program, any sequence of calls by the host and any number of instructions, the machine with its bounded stack behaves as
    the machine with an unlimited stack of frames that reports a stack overflow when its limit is reached: the same error, or the same
    state. In particular no slot outside the stack is accessed unless the program uses the unlimited stack itself in an undefined way.
    The program may need at most 1000 slots for an operation that does not check (sort() of large items and calls with large parameter
    lists made by host code: see C35_refuted).
    Missing: that compiled programs never use the unlimited stack in an undefined way, such as taking operands that are not there. *)
Theorem C35_stack_partial : forall (code : Z -> option instr) (ext : nat -> list val -> hostprog) (size : nat) (m : Z -> val) (calls : list (Z * list val * nat)),
  (1017 <= size)%nat -> (forall ip i, code ip = Some i -> frugal i) -> (forall x ps, frugalH (ext x ps)) -> Forall (fun e => len (snd (fst e)) <= 1000) calls ->
  match session aops code ext calls (a_start size m) with
  | Ok r => exists c, session cops code ext calls (c_start size m) = Ok c /\ reprR c r
  | Err e => session cops code ext calls (c_start size m) = Err e
  | UB => True
  end.
Proof.
  intros code ext size m calls SZ FC FX FP. pose proof (sim_session code ext FC FX calls _ _ FP (init_rel size m SZ)) as H. unfold sim in H.
  unfold a_start, c_start. destruct (session aops code ext calls _) as [r|e|]; [|exact H|exact Logic.I]. destruct H as (c & E & R). exists c. split; [exact E|]. apply Rr_repr. exact R.
Qed.
Print Assumptions C35_stack_partial.
(** A function with 5 local variables that calls itself for ever. *)
Definition forever : Z -> option instr := program [(1, [IEnter (lay 0 5); ICall 1])].
Example C35_stack_example : (forall ip i, forever ip = Some i -> frugal i) /\ session aops forever noExt [(1, [], 300%nat)] (a_start 2000 closures) = Err EStackOverflow /\
  session cops forever noExt [(1, [], 300%nat)] (c_start 2000 closures) = Err EStackOverflow /\
  (exists r, session aops forever noExt [(1, [], 100%nat)] (a_start 2000 closures) = Ok r).
Proof.
  split.
  - intros ip i H. unfold forever, program in H. destruct (find _ _) as [[a is]|] eqn:F; [|discriminate]. cbn [find] in F. destruct (_ && _); [|discriminate]. injection F as <- <-.
    apply nth_error_In in H. destruct H as [<-|[<-|[]]]; exact Logic.I.
  - split; [vm_compute; reflexivity|]. split; [vm_compute; reflexivity|]. eexists. vm_compute. reflexivity.
Qed.
(** Without the limit of 1000 slots the claim is false: sort() reserves a temporary item on the stack without a check, and umkaCall
    copies the parameters to the stack without a check. *)
Definition sortsLarge : Z -> option instr := program [(1, [IEnter (lay 0 0); IPushZero 3; ISort 1500; ILeave; IReturn 0])].
Theorem C35_refuted :
  (exists r, session aops sortsLarge noExt [(1, [], 5%nat)] (a_start 1200 closures) = Ok r) /\ session cops sortsLarge noExt [(1, [], 5%nat)] (c_start 1200 closures) = UB /\
  (exists r, session aops forever noExt [(1, repeat (VZ 0) 1300, 1%nat)] (a_start 1200 closures) = r /\ r <> UB) /\
  session cops forever noExt [(1, repeat (VZ 0) 1300, 1%nat)] (c_start 1200 closures) = UB.
Proof.
  split; [eexists; vm_compute; reflexivity|]. split; [vm_compute; reflexivity|]. split; [eexists; split; [vm_compute; reflexivity|discriminate]|]. vm_compute; reflexivity.
Qed.
Print Assumptions C35_refuted.

(** * C36 *)

(** A function is entered with its return address and arguments above the other operands of the caller. Whatever happens while it has
    not returned - calls, nested calls from host code, switches to other fibers - when it leaves and returns, the caller goes on at the
    return address, with its frames, return addresses and all operands but the arguments as they were. *)
Theorem C36_return : forall (code : Z -> option instr) (ext : nat -> list val -> hostprog) v v1 v2 f x y l r args rest n total res,
  loopf _ v = f -> getF _ v f = Ok x -> code (f_ip _ x) = Some (IEnter l) -> sops_of (a_stk (f_stk _ x)) = VZ r :: args ++ rest -> len args = l_params l -> 0 <= r ->
  step _ aops code ext v = Ok (Go _ v1) ->
  within code ext f (S (depth (a_stk (f_stk _ x)))) n v1 v2 total ->
  loopf _ v2 = f -> getF _ v2 f = Ok y -> f_alive _ y = true -> depth (a_stk (f_stk _ y)) = S (depth (a_stk (f_stk _ x))) ->
  code (f_ip _ y) = Some ILeave -> code (f_ip _ y + 1) = Some (IReturn (length args)) -> run _ aops code ext 2 v2 = Ok res ->
  exists w z, res = Go _ w /\ loopf _ w = f /\ getF _ w f = Ok z /\ f_ip _ z = r /\ a_size (f_stk _ z) = a_size (f_stk _ x) /\
              same (set_ops (a_stk (f_stk _ x)) rest) (a_stk (f_stk _ z)).
Proof. exact call_returns. Qed.
Print Assumptions C36_return.

(** A call goes to the function with the address of the next instruction above the other operands; nothing else changes. *)
Theorem C36_call : forall (code : Z -> option instr) (ext : nat -> list val -> hostprog) v x e,
  getF _ v (loopf _ v) = Ok x -> MIN_FREE <= a_top (f_stk _ x) ->
  (code (f_ip _ x) = Some (ICall e) \/ (exists n, code (f_ip _ x) = Some (ICallInd n) /\ nth_error (opsOf x) n = Some (VZ e) /\ e <> 0)) ->
  exists w, step _ aops code ext v = Ok (Go _ w) /\ becomes v w (loopf _ v) (fiberAt x (VZ (f_ip _ x + 1) :: opsOf x) e (f_regs _ x)) (hosts _ v).
Proof. intros code ext v x e G T [C|(n & C & N & NZ)]; [exact (call_A code ext v x G T e C)|exact (callInd_A code ext v x G T n e C N NZ)]. Qed.
Print Assumptions C36_call.

(** A host function that returns: its result is stored and the next instruction follows. A host function that calls an Umka function: the
    parameters are above the operands, and the host function waits. When that function returns, exactly the parameters are removed and the
    host function goes on with the result; the outermost call by the host program returns. *)
Theorem C36_host : forall (code : Z -> option instr) (ext : nat -> list val -> hostprog) v x,
  getF _ v (loopf _ v) = Ok x -> MIN_FREE <= a_top (f_stk _ x) ->
  (forall n ps res, code (f_ip _ x) = Some (ICallExtern n) -> a_params (f_stk _ x) = Ok ps -> ext n ps = HRet res ->
     exists w, step _ aops code ext v = Ok (Go _ w) /\ becomes v w (loopf _ v) (fiberAt x (opsOf x) (f_ip _ x + 1) (setResult res (f_regs _ x))) (hosts _ v)) /\
  (forall n ps e qs k, code (f_ip _ x) = Some (ICallExtern n) -> a_params (f_stk _ x) = Ok ps -> ext n ps = HCall e qs k -> vmf _ v = loopf _ v -> f_alive _ x = true -> 0 < e ->
     exists w, step _ aops code ext v = Ok (Go _ w) /\ becomes v w (loopf _ v) (fiberAt x (VZ RETURN_FROM_VM :: qs ++ opsOf x) e (f_regs _ x)) ((loopf _ v, f_ip _ x, k) :: hosts _ v)) /\
  (forall args rest, code (f_ip _ x) = Some (IReturn (length args)) -> opsOf x = VZ RETURN_FROM_VM :: args ++ rest -> f_alive _ x = true -> vmf _ v = loopf _ v ->
     match hosts _ v with
     | [] => exists w, step _ aops code ext v = Ok (Stop _ w) /\ becomes v w (loopf _ v) (fiberAt x rest RETURN_FROM_VM (f_regs _ x)) []
     | (c, ip, k) :: h => c = loopf _ v -> forall res, k (nth 0 (f_regs _ x) (VZ 0)) = HRet res ->
         exists w, step _ aops code ext v = Ok (Go _ w) /\ becomes v w (loopf _ v) (fiberAt x rest (ip + 1) (setResult res (f_regs _ x))) h
     end).
Proof.
  intros code ext v x G T. split; [exact (ret_extern_A code ext v x G T)|]. split; [exact (call_extern_A code ext v x G T)|exact (ret_vm_A code ext v x G T)].
Qed.
Print Assumptions C36_host.
(** f (1) calls a host function (20) that calls g (40), which gives twice its argument. *)
Definition hostCalls : Z -> option instr :=
  program [(1, [IEnter (lay 0 0); IPush (VZ 21); ICall 20; IPushReg 0; IPush (VZ 60); IAssign true None; ILeave; IReturn 0]);
           (20, [IEnter (lay 1 0); ICallExtern 0; ILeave; IReturn 1]);
           (40, [IEnter (lay 1 0); IPushLocal 2; IOp 1 (fun ws => match ws with [VZ z] => Ok [VZ (2 * z)] | _ => UB end); IPopReg 0; ILeave; IReturn 1])].
Definition hostAdds : nat -> list val -> hostprog := fun _ ps => HCall 40 ps (fun r => match r with VZ z => HRet (VZ (z + 1)) | _ => HRet (VZ 0) end).
Definition hostA (n : nat) : vm astk := match session aops hostCalls hostAdds [(1, [], n)] (a_start 2000 closures) with Ok (Go _ w) => w | _ => a_start 2000 closures end.
Example C36_host_example : globalAfter aops hostCalls hostAdds (a_start 2000 closures) 40 60 = Ok (false, VZ 43) /\ globalAfter cops hostCalls hostAdds (c_start 2000 closures) 40 60 = Ok (false, VZ 43) /\
  (exists x, getF _ (hostA 4) 0 = Ok x /\ hostCalls (f_ip _ x) = Some (ICallExtern 0) /\ a_params (f_stk _ x) = Ok [VZ 21]) /\
  (exists x, getF _ (hostA 10) 0 = Ok x /\ hostCalls (f_ip _ x) = Some (IReturn 1) /\ opsOf x = VZ RETURN_FROM_VM :: [VZ 21] ++ [] /\ hosts _ (hostA 10) <> []).
Proof.
  split; [vm_compute; reflexivity|]. split; [vm_compute; reflexivity|]. split.
  - destruct (getF _ (hostA 4) 0) as [x| |] eqn:E; try (vm_compute in E; discriminate E). exists x. vm_compute in E. injection E as <-. split; [reflexivity|]. split; reflexivity.
  - destruct (getF _ (hostA 10) 0) as [x| |] eqn:E; try (vm_compute in E; discriminate E). exists x. vm_compute in E. injection E as <-. split; [reflexivity|]. split; [reflexivity|]. split; [reflexivity|]. vm_compute. discriminate.
Qed.

(** The same machine on the stack in memory: see C35_stack_partial, stated again for calls and returns. *)
Theorem C36_stack : forall (code : Z -> option instr) (ext : nat -> list val -> hostprog) (size : nat) (m : Z -> val) (calls : list (Z * list val * nat)) r,
  (1017 <= size)%nat -> (forall ip i, code ip = Some i -> frugal i) -> (forall x ps, frugalH (ext x ps)) -> Forall (fun e => len (snd (fst e)) <= 1000) calls ->
  session aops code ext calls (a_start size m) = Ok r -> exists c, session cops code ext calls (c_start size m) = Ok c /\ reprR c r.
Proof. intros code ext size m calls r SZ FC FX FP E. pose proof (C35_stack_partial code ext size m calls SZ FC FX FP) as H. rewrite E in H. exact H. Qed.
Print Assumptions C36_stack.

(** Leaving a function is an error exactly if the references counted to its parameters and local variables, by the function itself and
    by everything that ran before it left, do not add up to none. *)
Theorem C36_escape : forall (code : Z -> option instr) (ext : nat -> list val -> hostprog) v v1 v2 f x y l r args rest n total,
  loopf _ v = f -> getF _ v f = Ok x -> code (f_ip _ x) = Some (IEnter l) -> sops_of (a_stk (f_stk _ x)) = VZ r :: args ++ rest -> len args = l_params l ->
  step _ aops code ext v = Ok (Go _ v1) ->
  within code ext f (S (depth (a_stk (f_stk _ x)))) n v1 v2 total ->
  loopf _ v2 = f -> getF _ v2 f = Ok y -> depth (a_stk (f_stk _ y)) = S (depth (a_stk (f_stk _ x))) ->
  code (f_ip _ y) = Some ILeave -> MIN_FREE <= a_top (f_stk _ y) ->
  (total <> 0 -> step _ aops code ext v2 = Err EEscape) /\ (total = 0 -> exists w, step _ aops code ext v2 = Ok (Go _ w)).
Proof. exact call_escape. Qed.
Print Assumptions C36_escape.

(** A function with one parameter and two local variables that calls another one with a pointer to its second local variable, which the
    other one stores in a global variable; called with 99 below its argument. The first function removes the reference or not. *)
Definition nested (drop : bool) : Z -> option instr :=
  program [(1, [IEnter (lay 0 1); IPush (VZ 99); IPush (VZ 5); ICall 20; IPop 1; ILeave; IReturn 0]);
           (20, [IEnter (lay 1 2); IPushLocalPtr (-3); ICall 40] ++ (if drop then [IPushLocalPtr (-3); IRef (-1); IPop 1; IGoto 30] else [IGoto 30]));
           (30, [ILeave; IReturn 1]);
           (40, [IEnter (lay 1 0); IPushLocal 2; IRef 1; IPush (VZ 60); IAssign true None; ILeave; IReturn 1])].
Definition at20 (drop : bool) : vm astk := match session aops (nested drop) noExt [(1, [], 4%nat)] (a_start 2000 closures) with Ok (Go _ w) => w | _ => a_start 2000 closures end.
Definition in20 (drop : bool) : vm astk := after aops (nested drop) noExt 1 (at20 drop).
Definition leaves20 (drop : bool) : vm astk := after aops (nested drop) noExt (if drop then 13 else 10) (in20 drop).
Lemma nested_case : forall drop, exists x y,
  getF _ (at20 drop) 0 = Ok x /\ nested drop (f_ip _ x) = Some (IEnter (lay 1 2)) /\ sops_of (a_stk (f_stk _ x)) = VZ 5 :: [VZ 5] ++ [VZ 99] /\
  step _ aops (nested drop) noExt (at20 drop) = Ok (Go _ (in20 drop)) /\
  within (nested drop) noExt 0 (S (depth (a_stk (f_stk _ x)))) (if drop then 13 else 10) (in20 drop) (leaves20 drop) (if drop then 0 else 1) /\
  getF _ (leaves20 drop) 0 = Ok y /\ f_alive _ y = true /\ depth (a_stk (f_stk _ y)) = S (depth (a_stk (f_stk _ x))) /\ nested drop (f_ip _ y) = Some ILeave /\
  nested drop (f_ip _ y + 1) = Some (IReturn 1) /\ MIN_FREE <= a_top (f_stk _ y) /\ loopf _ (leaves20 drop) = 0%nat.
Proof.
  intros drop. destruct (getF _ (at20 drop) 0) as [x| |] eqn:E; [|destruct drop; vm_compute in E; discriminate|destruct drop; vm_compute in E; discriminate].
  destruct (getF _ (leaves20 drop) 0) as [y| |] eqn:E2; [|destruct drop; vm_compute in E2; discriminate|destruct drop; vm_compute in E2; discriminate].
  exists x, y. split; [reflexivity|].
  assert (depth (a_stk (f_stk _ x)) = 1%nat) as D by (destruct drop; vm_compute in E; injection E as <-; reflexivity). rewrite D.
  split; [destruct drop; vm_compute in E; injection E as <-; reflexivity|]. split; [destruct drop; vm_compute in E; injection E as <-; reflexivity|].
  split; [destruct drop; vm_compute; reflexivity|]. split; [unfold leaves20; apply withinc_ok; destruct drop; vm_compute; reflexivity|]. split; [reflexivity|].
  split; [destruct drop; vm_compute in E2; injection E2 as <-; reflexivity|]. split; [destruct drop; vm_compute in E2; injection E2 as <-; reflexivity|].
  split; [destruct drop; vm_compute in E2; injection E2 as <-; reflexivity|]. split; [destruct drop; vm_compute in E2; injection E2 as <-; reflexivity|].
  split; [destruct drop; vm_compute in E2; injection E2 as <-; vm_compute; discriminate|]. destruct drop; vm_compute; reflexivity.
Qed.
Example C36_return_example : exists w z, run _ aops (nested true) noExt 2 (leaves20 true) = Ok (Go _ w) /\ getF _ w 0 = Ok z /\ f_ip _ z = 5 /\ sops_of (a_stk (f_stk _ z)) = [VZ 99].
Proof.
  destruct (nested_case true) as (x & y & A1 & A2 & A3 & A4 & A5 & A6 & A7 & A8 & A9 & A10 & A11 & A12).
  assert (loopf _ (at20 true) = 0%nat) as L by (vm_compute; reflexivity).
  destruct (run _ aops (nested true) noExt 2 (leaves20 true)) as [res| |] eqn:R; [|vm_compute in R; discriminate|vm_compute in R; discriminate].
  destruct (C36_return _ _ _ _ _ _ _ _ (lay 1 2) 5 [VZ 5] [VZ 99] _ _ _ L A1 A2 A3 eq_refl ltac:(lia) A4 A5 A12 A6 A7 A8 A9 A10 R) as (w & z & -> & B1 & B2 & B3 & B4 & B5).
  exists w, z. split; [reflexivity|]. split; [exact B2|]. split; [exact B3|]. destruct (a_stk (f_stk _ x)) eqn:EX, (a_stk (f_stk _ z)) eqn:EZ; cbn in B5 |- *; intuition congruence.
Qed.
Example C36_escape_example : step _ aops (nested false) noExt (leaves20 false) = Err EEscape /\ exists w, step _ aops (nested true) noExt (leaves20 true) = Ok (Go _ w).
Proof.
  split.
  - destruct (nested_case false) as (x & y & A1 & A2 & A3 & A4 & A5 & A6 & A7 & A8 & A9 & A10 & A11 & A12). assert (loopf _ (at20 false) = 0%nat) as L by (vm_compute; reflexivity).
    destruct (C36_escape _ _ _ _ _ _ _ _ (lay 1 2) 5 [VZ 5] [VZ 99] _ _ L A1 A2 A3 eq_refl A4 A5 A12 A6 A8 A9 A11) as (B & _). apply B. lia.
  - destruct (nested_case true) as (x & y & A1 & A2 & A3 & A4 & A5 & A6 & A7 & A8 & A9 & A10 & A11 & A12). assert (loopf _ (at20 true) = 0%nat) as L by (vm_compute; reflexivity).
    destruct (C36_escape _ _ _ _ _ _ _ _ (lay 1 2) 5 [VZ 5] [VZ 99] _ _ L A1 A2 A3 eq_refl A4 A5 A12 A6 A8 A9 A11) as (_ & B). apply B. reflexivity.
Qed.

(** Not every reference is counted. Fiber 1 stores the address of its local variable in global variable 60; fiber 2, which fiber 1 did
    not create, copies it to global variable 61; fiber 1 clears variable 60 and finishes without an error, but variable 61 still holds
    the address. *)
Definition fiberLeak : Z -> option instr :=
  program [(1, [IEnter (lay 0 0)] ++ makeF 10 50 ++ makeF 20 51 ++ resumeF 50 ++ resumeF 51 ++ resumeF 50 ++ [ILeave; IReturn 0]);
           (100, [IEnter (lay 2 1); IPushLocalPtr (-3); IRef 1; IPush (VZ 60); IAssign true None] ++ resumeParent ++
                 [IPush (VZ 60); IDeref; IRef (-1); IPop 1] ++ setGlobal 60 (VZ 0) ++ [ILeave; IReturn 2]);
           (200, [IEnter (lay 2 0); IPush (VZ 60); IDeref; IRef 1; IPush (VZ 61); IAssign true None] ++ resumeParent ++ [ILeave; IReturn 2])].
(** Counting a reference in a function called by host code stops at that call: a pointer to a local variable of the function that called
    the host function is reported as illegal. *)
Definition hostLeak : Z -> option instr :=
  program [(1, [IEnter (lay 0 1); IPushLocalPtr (-3); ICall 20; ILeave; IReturn 0]);
           (20, [IEnter (lay 1 0); ICallExtern 0; ILeave; IReturn 1]);
           (40, [IEnter (lay 1 0); IPushLocal 2; IRef 1; IRef (-1); IPop 1; ILeave; IReturn 1])].
Theorem C36_refuted :
  (exists m w f i x, session cops fiberLeak noExt [(1, [], m)] (c_start 2000 closures) = Ok (Stop _ w) /\ gm _ w 61 = VS f i /\ getF _ w f = Ok x /\ f_alive _ x = false) /\
  (exists n, session cops hostLeak (fun _ ps => HCall 40 ps (fun w => HRet w)) [(1, [], n)] (c_start 2000 closures) = Err EOther) /\
  (exists r, session cops hostLeak noExt [(1, [], 30%nat)] (c_start 2000 closures) = Ok (Stop _ r)).
Proof.
  split; [|split; [exists 30%nat; vm_compute; reflexivity|eexists; vm_compute; reflexivity]].
  exists 60%nat. destruct (session cops fiberLeak noExt [(1, [], 60%nat)] (c_start 2000 closures)) as [[w|w]|e|] eqn:E; try (vm_compute in E; discriminate E).
  exists w. assert (gm _ w 61 = VS 1 1992) as G by (vm_compute in E; injection E as <-; reflexivity).
  destruct (getF _ w 1) as [x| |] eqn:X; [|vm_compute in E; injection E as <-; vm_compute in X; discriminate X|vm_compute in E; injection E as <-; vm_compute in X; discriminate X].
  exists 1%nat, 1992, x. split; [reflexivity|]. split; [exact G|]. split; [exact X|].
  vm_compute in E; injection E as <-; vm_compute in X; injection X as <-; reflexivity.
Qed.
Print Assumptions C36_refuted.

(** * C34 *)

(** resume(f) takes its argument and goes to the next instruction; if the fiber can run, it is the running one from then on, otherwise
    nothing else happens. resume() does the same with the fiber that created this one, if any. No other fiber changes. *)
Theorem C34_resume : forall (code : Z -> option instr) (ext : nat -> list val -> hostprog) v x c,
  getF _ v (loopf _ v) = Ok x -> MIN_FREE <= c_top (f_stk _ x) -> code (f_ip _ x) = Some IResume -> f_alive _ x = true -> c_read (f_stk _ x) (c_top (f_stk _ x)) = Ok c ->
  (forall b y, c = VF b -> getF _ v b = Ok y -> exists w, step _ cops code ext v = Ok (Go _ w) /\ switched v w (moved x) (if f_alive _ y then b else loopf _ v)) /\
  (c = VZ 0 -> exists w, step _ cops code ext v = Ok (Go _ w) /\ switched v w (moved x) (match f_parent _ x with Some p => p | None => loopf _ v end)).
Proof. intros code ext v x c G T. exact (resume_c code ext v x G T c). Qed.
Print Assumptions C34_resume.

(** When the function of a fiber returns, the fiber can no longer run and the fiber that created it goes on, if it can still run; no other
    fiber changes. *)
Theorem C34_finish_partial : forall (code : Z -> option instr) (ext : nat -> list val -> hostprog) v x n p y,
  getF _ v (loopf _ v) = Ok x -> MIN_FREE <= c_top (f_stk _ x) -> code (f_ip _ x) = Some (IReturn n) -> c_read (f_stk _ x) (c_top (f_stk _ x)) = Ok (VZ RETURN_FROM_FIBER) ->
  f_parent _ x = Some p -> p <> loopf _ v -> getF _ v p = Ok y -> f_alive _ y = true -> f_ip _ y <> RETURN_FROM_VM ->
  exists w x', step _ cops code ext v = Ok (Go _ w) /\ switched v w x' p /\ f_alive _ x' = false.
Proof.
  intros code ext v x n p y G T C R P NP GP AL IP. destruct (finish_c code ext v x G T n p y C R P NP GP AL IP) as (w & S & W). exists w, (finished x). auto.
Qed.
Print Assumptions C34_finish_partial.

(** valid() of a fiber tells whether it can still run; of null, false. *)
Theorem C34_valid : forall (code : Z -> option instr) (ext : nat -> list val -> hostprog) v x c b,
  getF _ v (loopf _ v) = Ok x -> MIN_FREE <= c_top (f_stk _ x) -> code (f_ip _ x) = Some IValid ->
  c_read (f_stk _ x) (c_top (f_stk _ x)) = Ok c -> (match c with VF f => exists y, getF _ v f = Ok y /\ f_alive _ y = b | VZ 0 => b = false | _ => False end) ->
  exists w x', step _ cops code ext v = Ok (Go _ w) /\ loopf _ w = loopf _ v /\ getF _ w (loopf _ v) = Ok x' /\ f_ip _ x' = f_ip _ x + 1 /\ c_top (f_stk _ x') = c_top (f_stk _ x) /\
    c_read (f_stk _ x') (c_top (f_stk _ x')) = Ok (VZ (if b then 1 else 0)) /\ forall g, g <> loopf _ v -> getF _ w g = getF _ v g.
Proof. exact valid_c. Qed.
Print Assumptions C34_valid.

(** make(fiber, f) gives a new fiber that will start with the function, with an empty stack of its own of the same size that holds the
    return address and the captured variables; its parent is the running fiber, which goes on. No other fiber changes. *)
Theorem C34_make : forall (code : Z -> option instr) (ext : nat -> list val -> hostprog) v x t a e u1 u2 rest,
  getF _ v (loopf _ v) = Ok x -> MIN_FREE <= c_top (f_stk _ x) -> code (f_ip _ x) = Some IMakeFiber ->
  c_pop (f_stk _ x) 2 = Ok ([t; VZ a], rest) -> a <> 0 -> gm _ v a = VZ e -> gm _ v (a + 1) = u1 -> gm _ v (a + 2) = u2 -> 0 < e ->
  exists w x' y, step _ cops code ext v = Ok (Go _ w) /\ loopf _ w = loopf _ v /\ vmf _ w = vmf _ v /\ length (fibs _ w) = S (length (fibs _ v)) /\
    getF _ w (loopf _ v) = Ok x' /\ f_ip _ x' = f_ip _ x + 1 /\ c_top (f_stk _ x') = c_top (f_stk _ x) + 1 /\
    c_read (f_stk _ x') (c_top (f_stk _ x')) = Ok (VF (length (fibs _ v))) /\
    getF _ w (length (fibs _ v)) = Ok y /\ f_ip _ y = e /\ f_parent _ y = Some (loopf _ v) /\ f_alive _ y = f_alive _ x /\
    c_size (f_stk _ y) = c_size (f_stk _ x) /\ c_base (f_stk _ y) = c_size (f_stk _ x) - 1 /\ c_top (f_stk _ y) = c_size (f_stk _ x) - 4 /\
    c_pop (f_stk _ y) 3 = Ok ([VZ RETURN_FROM_FIBER; u1; u2], MkC (c_mem (f_stk _ y)) (c_size (f_stk _ x) - 1) (c_size (f_stk _ x) - 1)) /\
    forall g, g <> loopf _ v -> (g < length (fibs _ v))%nat -> getF _ w g = getF _ v g.
Proof. exact make_c. Qed.
Print Assumptions C34_make.

(** A fiber that waits keeps its position, registers, parent and stack - its calls, return addresses and operands - while others run,
    for any number of instructions. Other fibers can change its variables only through pointers to them. *)
Theorem C34_wait : forall (code : Z -> option instr) (ext : nat -> list val -> hostprog) n g v w x,
  away code ext g n v w -> getF _ v g = Ok x -> f_alive _ x = true ->
  exists y, getF _ w g = Ok y /\ a_size (f_stk _ y) = a_size (f_stk _ x) /\ same (a_stk (f_stk _ x)) (a_stk (f_stk _ y)) /\ f_ip _ y = f_ip _ x /\ f_regs _ y = f_regs _ x /\
            f_parent _ y = f_parent _ x /\ f_alive _ y = true.
Proof. exact away_kept. Qed.
Print Assumptions C34_wait.

(** A program that creates a fiber (6 instructions), resumes it (3), which sets variable 70 and then resumes its parent (5 after 1),
    tests it with valid(), resumes it again until it finishes, and tests it again. *)
Definition twoRounds : Z -> option instr :=
  program [(1, [IEnter (lay 0 0); IPush (VZ 33)] ++ makeF 10 50 ++ resumeF 50 ++ [IPush (VZ 50); IDeref; IValid; IPush (VZ 71); IAssign true None] ++ resumeF 50 ++
               [IPush (VZ 50); IDeref; IValid; IPush (VZ 72); IAssign true None] ++ resumeF 50 ++ setGlobal 73 (VZ 8) ++ [ILeave; IReturn 0]);
           (100, [IEnter (lay 2 0)] ++ setGlobal 70 (VZ 7) ++ resumeParent ++ setGlobal 70 (VZ 9) ++ [ILeave; IReturn 2])].
Definition roundsC (n : nat) : vm cstk := match session cops twoRounds noExt [(1, [], n)] (c_start 2000 closures) with Ok (Go _ w) => w | _ => c_start 2000 closures end.
Definition roundsA (n : nat) : vm astk := match session aops twoRounds noExt [(1, [], n)] (a_start 2000 closures) with Ok (Go _ w) => w | _ => a_start 2000 closures end.
Definition resumes (n : nat) (alive : bool) : Prop :=
  exists x b y, getF _ (roundsC n) (loopf _ (roundsC n)) = Ok x /\ MIN_FREE <= c_top (f_stk _ x) /\ twoRounds (f_ip _ x) = Some IResume /\ f_alive _ x = true /\
    c_read (f_stk _ x) (c_top (f_stk _ x)) = Ok (VF b) /\ getF _ (roundsC n) b = Ok y /\ f_alive _ y = alive.
Ltac state E := match type of E with ?t = Ok _ => vm_compute in E; injection E as <- end.
Example C34_resume_example : resumes 9 true /\ resumes 36 false /\ loopf _ (roundsC 10) = 1%nat /\ loopf _ (roundsC 37) = 0%nat /\
  globalAfter cops twoRounds noExt (c_start 2000 closures) 50 71 = Ok (false, VZ 1) /\ globalAfter cops twoRounds noExt (c_start 2000 closures) 50 72 = Ok (false, VZ 0) /\
  globalAfter cops twoRounds noExt (c_start 2000 closures) 50 73 = Ok (false, VZ 8) /\ globalAfter cops twoRounds noExt (c_start 2000 closures) 50 70 = Ok (false, VZ 9).
Proof.
  assert (forall n al, match getF _ (roundsC n) (loopf _ (roundsC n)) with Ok x => match c_read (f_stk _ x) (c_top (f_stk _ x)) with Ok (VF b) => match getF _ (roundsC n) b with Ok y => 
     (MIN_FREE <=? c_top (f_stk _ x)) && match twoRounds (f_ip _ x) with Some IResume => true | _ => false end && f_alive _ x && Bool.eqb (f_alive _ y) al | _ => false end | _ => false end | _ => false end = true -> resumes n al) as D.
  { intros n al H. unfold resumes. destruct (getF _ (roundsC n) (loopf _ (roundsC n))) as [x| |]; try discriminate H. destruct (c_read _ _) as [[| | | |b]| |] eqn:R; try discriminate H. destruct (getF _ (roundsC n) b) as [y| |] eqn:Y; try discriminate H.
    apply andb_prop in H as (H & H4). apply andb_prop in H as (H & H3). apply andb_prop in H as (H1 & H2). apply Bool.eqb_prop in H4. exists x, b, y. split; [reflexivity|]. split; [lia|].
    split; [destruct (twoRounds (f_ip _ x)) as [[]|]; congruence|]. auto. }
  split; [apply D; vm_compute; reflexivity|]. split; [apply D; vm_compute; reflexivity|]. repeat split; vm_compute; reflexivity.
Qed.
Example C34_wait_example : away twoRounds noExt 0 6 (roundsA 10) (after aops twoRounds noExt 6 (roundsA 10)) /\
  (exists x, getF _ (roundsA 10) 0 = Ok x /\ f_alive _ x = true /\ sops_of (a_stk (f_stk _ x)) = [VZ 33]) /\ gm _ (after aops twoRounds noExt 6 (roundsA 10)) 70 = VZ 7.
Proof.
  split; [apply awayc_ok; vm_compute; reflexivity|]. split; [|vm_compute; reflexivity].
  destruct (getF _ (roundsA 10) 0) as [x| |] eqn:E; try (vm_compute in E; discriminate E). exists x. split; [reflexivity|]. vm_compute in E. injection E as <-. split; reflexivity.
Qed.

Example C34_finish_example : loopf _ (roundsC 28) = 1%nat /\ exists x y, getF _ (roundsC 28) 1 = Ok x /\ MIN_FREE <= c_top (f_stk _ x) /\ twoRounds (f_ip _ x) = Some (IReturn 2) /\
  c_read (f_stk _ x) (c_top (f_stk _ x)) = Ok (VZ RETURN_FROM_FIBER) /\ f_parent _ x = Some 0%nat /\ getF _ (roundsC 28) 0 = Ok y /\ f_alive _ y = true /\ f_ip _ y = 19.
Proof.
  split; [vm_compute; reflexivity|]. destruct (getF _ (roundsC 28) 1) as [x| |] eqn:E; try (vm_compute in E; discriminate E). destruct (getF _ (roundsC 28) 0) as [y| |] eqn:E2; try (vm_compute in E2; discriminate E2).
  exists x, y. split; [reflexivity|]. vm_compute in E. injection E as <-. vm_compute in E2. injection E2 as <-. split; [vm_compute; discriminate|]. repeat split; reflexivity.
Qed.
Example C34_make_example : loopf _ (roundsC 4) = 0%nat /\ gm _ (roundsC 4) 10 = VZ 100 /\ exists x rest, getF _ (roundsC 4) 0 = Ok x /\ MIN_FREE <= c_top (f_stk _ x) /\ twoRounds (f_ip _ x) = Some IMakeFiber /\
  c_pop (f_stk _ x) 2 = Ok ([VZ 0; VZ 10], rest).
Proof.
  split; [vm_compute; reflexivity|]. split; [vm_compute; reflexivity|]. destruct (getF _ (roundsC 4) 0) as [x| |] eqn:E; try (vm_compute in E; discriminate E).
  destruct (c_pop (f_stk _ x) 2) as [[ws rest]| |] eqn:P; try (vm_compute in E; injection E as <-; vm_compute in P; discriminate P).
  exists x, rest. split; [reflexivity|]. vm_compute in E. injection E as <-. split; [vm_compute; discriminate|]. split; [reflexivity|]. rewrite P. vm_compute in P. injection P as <- _. reflexivity.
Qed.
Example C34_valid_example : loopf _ (roundsC 18) = 0%nat /\ exists x y, getF _ (roundsC 18) 0 = Ok x /\ MIN_FREE <= c_top (f_stk _ x) /\ twoRounds (f_ip _ x) = Some IValid /\
  c_read (f_stk _ x) (c_top (f_stk _ x)) = Ok (VF 1) /\ getF _ (roundsC 18) 1 = Ok y /\ f_alive _ y = true.
Proof.
  split; [vm_compute; reflexivity|]. destruct (getF _ (roundsC 18) 1) as [y| |] eqn:E; try (vm_compute in E; discriminate E). destruct (getF _ (roundsC 18) 0) as [x| |] eqn:E2; try (vm_compute in E2; discriminate E2).
  exists x, y. split; [reflexivity|]. vm_compute in E. injection E as <-. vm_compute in E2. injection E2 as <-. split; [vm_compute; discriminate|]. repeat split; reflexivity.
Qed.

(** resume() in a fiber whose parent has finished should do nothing, but it switches to the finished fiber, which ends the whole call
    before its end: main never sets variable 40 (witness 1). The same happens when a fiber whose parent has finished returns
    (witness 2). If the parent has been released, its memory is accessed (witness 3). *)
Definition orphan (body : list instr) (freeParent : bool) : Z -> option instr :=
  program [(1, [IEnter (lay 0 0)] ++ makeF 10 50 ++ resumeF 50 ++ (if freeParent then freeF 50 else []) ++ resumeF 51 ++ setGlobal 40 (VZ 7) ++ [ILeave; IReturn 0]);
           (100, [IEnter (lay 2 0)] ++ makeF 20 51 ++ [ILeave; IReturn 2]);
           (200, [IEnter (lay 2 0)] ++ body ++ [ILeave; IReturn 2])].
Theorem C34_refuted :
  globalAfter cops (orphan (resumeParent ++ setGlobal 41 (VZ 1)) false) noExt (c_start 2000 closures) 60 40 = Ok (false, VZ 0) /\
  globalAfter cops (orphan (resumeParent ++ setGlobal 41 (VZ 1)) false) noExt (c_start 2000 closures) 60 41 = Ok (false, VZ 0) /\
  globalAfter cops (orphan (setGlobal 41 (VZ 1)) false) noExt (c_start 2000 closures) 60 40 = Ok (false, VZ 0) /\
  globalAfter cops (orphan (setGlobal 41 (VZ 1)) false) noExt (c_start 2000 closures) 60 41 = Ok (false, VZ 1) /\
  globalAfter cops (orphan resumeParent true) noExt (c_start 2000 closures) 60 40 = UB.
Proof. repeat split; vm_compute; reflexivity. Qed.
Print Assumptions C34_refuted.
