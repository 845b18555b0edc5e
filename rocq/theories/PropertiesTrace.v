(** C65: reported call stacks. Model: TraceModel.v over CallModel.v; specification: TraceSpec.v over CallSpec.v. *)
From Coq Require Import ZArith Lia Bool List.
From Verif Require Import Base CallModel CallSpec CallProofs CallSim CallKeep CallThm CallEx PropertiesCall TraceModel TraceSpec TraceProofs.
Import ListNotations.
Local Open Scope Z_scope.

(** For every program, any calls by the host and any number of instructions: wherever the machine is, umkaGetCallStack with depth d gives
    the d-th instruction of the current fiber's call stack (0 is the current instruction, then where each caller goes on), and false
    beyond the last call that was made by an instruction; the file, function and line are those of the debug table, cut to the buffers.
    Missing: callers above a call by host code and the parent of a fiber, a caller whose callee has not entered its frame, and a machine
    at no instruction (see C65_refuted). *)
Theorem C65_call_stack_partial : forall (code : Z -> option instr) (ext : nat -> list val -> hostprog) (size : nat) (m : Z -> val) (calls : list (Z * list val * nat)) r dbg x d nameSize,
  (1017 <= size)%nat -> (forall ip i, code ip = Some i -> frugal i) -> (forall x ps, frugalH (ext x ps)) -> Forall (fun e => len (snd (fst e)) <= 1000) calls ->
  session aops code ext calls (a_start size m) = Ok r -> getF _ (vmOf r) (vmf _ (vmOf r)) = Ok x -> - INT_MAX - 1 < d -> Forall (known dbg) (active x) ->
  exists c, session cops code ext calls (c_start size m) = Ok c /\
    getCallStack dbg (match c with Go _ w => w | Stop _ w => w end) d nameSize =
    Ok (match nth_error (active x) (Z.to_nat d) with Some ip => Some (ip, shown nameSize (place dbg ip)) | None => None end).
Proof.
  intros code ext size m calls r dbg x d ns SZ FC FX FP E G D K. destruct (C36_stack code ext size m calls r SZ FC FX FP E) as (c & EC & R). exists c. split; [exact EC|].
  destruct c, r; cbn [reprR] in R; try contradiction; exact (get_ok dbg _ _ x d ns R G D K).
Qed.
Print Assumptions C65_call_stack_partial.

(** main at 1 calls f at 20, which calls g at 40 with an argument, which calls a host function from its own body. *)
Definition three : Z -> option instr :=
  program [(1, [IEnter (lay 2 1); ICall 20; ILeave; IReturn 2]);
           (20, [IEnter (lay 0 3); IPush (VZ 8); ICall 40; ILeave; IReturn 0]);
           (40, [IEnter (lay 1 0); ICallExtern 0; ILeave; IReturn 1])].
Definition table : list position := map (fun i => MkPos [109] [Z.of_nat i / 20] (Z.of_nat i)) (seq 0 60).
Lemma three_frugal : forall ip i, three ip = Some i -> frugal i.
Proof.
  intros ip i H. unfold three, program in H. destruct (find _ _) as [[a is]|] eqn:F; [|discriminate].
  apply find_some in F as (F & _). apply nth_error_In in H. cbn [In] in F.
  repeat (destruct F as [F|F]; [injection F as <- <-; cbn [In] in H; intuition (subst; exact Logic.I)|]). destruct F.
Qed.
Example C65_call_stack_case :
  (forall ip i, three ip = Some i -> frugal i) /\
  exists w x, session aops three noExt [(1, [VZ 5; VZ 6], 6%nat)] (a_start 2000 closures) = Ok (Go _ w) /\ getF _ w (vmf _ w) = Ok x /\ active x = [41; 23; 3] /\
    Forall (known table) (active x).
Proof.
  split; [exact three_frugal|].
  destruct (session aops three noExt [(1, [VZ 5; VZ 6], 6%nat)] (a_start 2000 closures)) as [[w|w]|e|] eqn:E; try (vm_compute in E; discriminate E).
  destruct (getF _ w (vmf _ w)) as [x| |] eqn:X; [|vm_compute in E; injection E as <-; vm_compute in X; discriminate X..].
  exists w, x. split; [reflexivity|]. split; [exact X|].
  assert (active x = [41; 23; 3]) as A. { vm_compute in E. injection E as <-. vm_compute in X. injection X as <-. reflexivity. }
  split; [exact A|]. rewrite A. unfold known. repeat constructor; vm_compute; congruence.
Qed.

(** The call stack lists the calls really made: once an instruction has called a function, then as long as the function has not left its
    frame, whatever happens meanwhile, the instruction after the call is on the stack of the fiber, above those of the caller's callers and
    below those of the calls made since. *)
Theorem C65_chain : forall (code : Z -> option instr) (ext : nat -> list val -> hostprog) v v1 v2 f x y e l args rest n total,
  loopf _ v = f -> getF _ v f = Ok x ->
  (code (f_ip _ x) = Some (ICall e) \/ (exists k, code (f_ip _ x) = Some (ICallInd k) /\ nth_error (opsOf x) k = Some (VZ e) /\ e <> 0)) ->
  code e = Some (IEnter l) -> opsOf x = args ++ rest -> len args = l_params l -> run _ aops code ext 2 v = Ok (Go _ v1) ->
  within code ext f (S (depth (a_stk (f_stk _ x)))) n v1 v2 total -> getF _ v2 f = Ok y ->
  exists inner, returns (a_stk (f_stk _ y)) = inner ++ f_ip _ x + 1 :: returns (a_stk (f_stk _ x)) /\
                depth (a_stk (f_stk _ y)) = (length inner + S (depth (a_stk (f_stk _ x))))%nat.
Proof. exact call_chain. Qed.
Print Assumptions C65_chain.
Definition beforeF : vm astk := match session aops three noExt [(1, [VZ 5; VZ 6], 1%nat)] (a_start 2000 closures) with Ok (Go _ w) => w | _ => a_start 2000 closures end.
Definition afterF : vm astk := match run _ aops three noExt 2 beforeF with Ok (Go _ w) => w | _ => beforeF end.
Definition inG : vm astk := after aops three noExt 3 afterF.
Example C65_chain_case : exists x y,
  getF _ beforeF 0 = Ok x /\ three (f_ip _ x) = Some (ICall 20) /\ run _ aops three noExt 2 beforeF = Ok (Go _ afterF) /\
  within three noExt 0 (S (depth (a_stk (f_stk _ x)))) 3 afterF inG 0 /\ getF _ inG 0 = Ok y /\ returns (a_stk (f_stk _ y)) = [23; 3; -2] /\ returns (a_stk (f_stk _ x)) = [-2].
Proof.
  destruct (getF _ beforeF 0) as [x| |] eqn:X; [|vm_compute in X; discriminate X..]. destruct (getF _ inG 0) as [y| |] eqn:Y; [|vm_compute in Y; discriminate Y..].
  exists x, y. split; [reflexivity|]. assert (three (f_ip _ x) = Some (ICall 20) /\ depth (a_stk (f_stk _ x)) = 1%nat /\ returns (a_stk (f_stk _ x)) = [-2]) as (A & B & C).
  { vm_compute in X. injection X as <-. vm_compute. auto. }
  split; [exact A|]. split; [vm_compute; reflexivity|]. split; [rewrite B; apply (withinc_ok three noExt 3 0 2); vm_compute; reflexivity|].
  split; [reflexivity|]. split; [vm_compute in Y; injection Y as <-; reflexivity|exact C].
Qed.

(** std::error records where its caller goes on, then the callers of that, at most eight; the command line tool prints the whole stack
    from the current instruction up to its limit. *)
Theorem C65_traces : forall dbg (c : vm cstk) (a : vm astk) x nameSize n, reprV c a -> getF _ a (vmf _ a) = Ok x -> Forall (known dbg) (active x) ->
  errorTrace dbg c = Ok (map (fun ip => shown 256 (place dbg ip)) (firstn 8 (skipn 2 (active x)))) /\
  printStack dbg c 0 nameSize n = Ok (map (fun ip => shown nameSize (place dbg ip)) (firstn n (active x))).
Proof. intros dbg c a x ns n R G K. split; [exact (traceFrom_ok dbg c a x R G K 8 2 ltac:(lia))|exact (printStack_ok dbg c a x R G K ns n 0 ltac:(lia))]. Qed.
Print Assumptions C65_traces.
Example C65_traces_case :
  match session cops three noExt [(1, [VZ 5; VZ 6], 6%nat)] (c_start 2000 closures) with
  | Ok (Go _ w) => errorTrace table w = Ok [MkPos [109] [0] 3] /\ printStack table w 0 2 10 = Ok [MkPos [109] [2] 41; MkPos [109] [1] 23; MkPos [109] [0] 3]
  | _ => False
  end.
Proof. vm_compute. auto. Qed.

(** Missing: [x] is a fiber where the machine stands, [top] what the caller's frame has on top.
    A function that cannot enter its frame (stack overflow): its caller f, which goes on at 23, is not listed, only f's own caller.
    A host function that calls g: main and f are not listed.
    When the call by the host has returned: the machine is at instruction -2 and the debug table is read before its start. So it is
    in a host function after its own call has returned, until it returns. The least depth overflows. *)
Definition tooLarge : Z -> option instr :=
  program [(1, [IEnter (lay 2 1); ICall 20; ILeave; IReturn 2]); (20, [IEnter (lay 0 3); IPush (VZ 8); ICall 40; ILeave; IReturn 0]); (40, [IEnter (lay 1 2000); ILeave; IReturn 1])].
Theorem C65_refuted :
  (match session cops tooLarge noExt [(1, [VZ 5; VZ 6], 5%nat)] (c_start 2000 closures) with
   | Ok (Go _ w) => step _ cops tooLarge noExt w = Err EStackOverflow /\ printStack table w 0 2 10 = Ok [MkPos [109] [2] 40; MkPos [109] [0] 3]
   | _ => False end) /\
  (match session cops three (fun _ ps => HCall 40 ps (fun w => HRet w)) [(1, [VZ 5; VZ 6], 8%nat)] (c_start 2000 closures) with
   | Ok (Go _ w) => printStack table w 0 2 10 = Ok [MkPos [109] [2] 41]
   | _ => False end) /\
  (match session cops three noExt [(1, [VZ 5; VZ 6], 50%nat)] (c_start 2000 closures) with
   | Ok (Stop _ w) => getCallStack table w 0 2 = UB
   | _ => False end) /\
  getCallStack table (c_start 2000 closures) (-2147483648) 2 = UB.
Proof. vm_compute. auto 10. Qed.
Print Assumptions C65_refuted.
