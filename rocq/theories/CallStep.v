(** Single steps of calls and returns on the ideal stack. *)
From Coq Require Import ZArith Lia Bool List ZifyBool.
From Verif Require Import Base CallModel CallSpec CallProofs CallSim CallKeep CallThm.
Import ListNotations.
Local Open Scope Z_scope.

Lemma set_set : forall s a b, set_ops (set_ops s a) b = set_ops s b. Proof. destruct s; reflexivity. Qed.
Lemma ops_set : forall s a, sops_of (set_ops s a) = a. Proof. destruct s; reflexivity. Qed.
Lemma set_self : forall s, set_ops s (sops_of s) = s. Proof. destruct s; reflexivity. Qed.
Section St.
Variable code : Z -> option instr.
Variable ext : nat -> list val -> hostprog.
Notation stepA := (step _ aops code ext).
Section One.
Variable v : vm astk.
Variable x : fiber astk.
Hypothesis G : getF _ v (loopf _ v) = Ok x.
Hypothesis TOP : MIN_FREE <= a_top (f_stk _ x).
Lemma stepA_i : forall i, code (f_ip _ x) = Some i -> stepA v = exec _ aops ext v i.
Proof.
  intros i C. unfold step, topOf. rewrite G. cbn [bind o_top aops]. destruct (Z.ltb_spec (a_top (f_stk _ x)) MIN_FREE); [lia|]. cbn [bind]. rewrite C. reflexivity.
Qed.
Lemma push_goto : forall ws e, exists w, (let* v1 := pushes _ aops v ws in goto _ v1 e) = Ok w /\ becomes v w (loopf _ v) (fiberAt x (ws ++ opsOf x) e (f_regs _ x)) (hosts _ v).
Proof.
  intros ws e. unfold pushes, onStk. rewrite G. cbn [bind o_push aops]. unfold a_push. cbn [bind].
  set (x1 := withStk _ x _). set (v1 := setF _ v (loopf _ v) (Some x1)). assert (getF _ v1 (loopf _ v) = Ok x1) as G1 by (apply (getF_set_same _ _ _ _ _ G)).
  unfold goto. change (loopf _ v1) with (loopf _ v). rewrite G1. cbn [bind]. eexists. split; [reflexivity|]. unfold becomes.
  split; [reflexivity|]. split; [reflexivity|]. split; [apply (getF_set_same _ _ _ _ _ G1)|]. split; [|split; reflexivity].
  intros g N. unfold v1. apply getF_set2. congruence.
Qed.
Lemma call_A : forall e, code (f_ip _ x) = Some (ICall e) ->
  exists w, stepA v = Ok (Go _ w) /\ becomes v w (loopf _ v) (fiberAt x (VZ (f_ip _ x + 1) :: opsOf x) e (f_regs _ x)) (hosts _ v).
Proof.
  intros e C. rewrite (stepA_i _ C). unfold exec. rewrite G. cbn [bind]. destruct (push_goto [VZ (f_ip _ x + 1)] e) as (w & E & B). exists w. split; [|exact B]. unfold go. rewrite E. reflexivity.
Qed.
Lemma callInd_A : forall n e, code (f_ip _ x) = Some (ICallInd n) -> nth_error (opsOf x) n = Some (VZ e) -> e <> 0 ->
  exists w, stepA v = Ok (Go _ w) /\ becomes v w (loopf _ v) (fiberAt x (VZ (f_ip _ x + 1) :: opsOf x) e (f_regs _ x)) (hosts _ v).
Proof.
  intros n e C N NZ. rewrite (stepA_i _ C). unfold exec. rewrite G. cbn [bind]. unfold pops. rewrite G. cbn [bind o_pop aops]. unfold a_pop. fold (opsOf x).
  assert (n < length (opsOf x))%nat as L by (apply nth_error_Some; congruence). replace (Nat.leb (n + 1) (length (opsOf x))) with true by (symmetry; apply Nat.leb_le; lia). cbn [bind].
  assert (nth n (firstn (n + 1) (opsOf x)) (VZ 0) = VZ e) as E.
  { pose proof (firstn_skipn (n + 1) (opsOf x)) as FS. rewrite <- FS in N. rewrite nth_error_app1 in N by (rewrite firstn_length; lia). apply nth_error_nth with (d := VZ 0) in N. exact N. }
  rewrite E. destruct (Z.eqb_spec e 0); [contradiction|]. destruct (push_goto [VZ (f_ip _ x + 1)] e) as (w & Ew & B). exists w. split; [|exact B]. unfold go. rewrite Ew. reflexivity.
Qed.
Lemma ret_extern_A : forall n ps res, code (f_ip _ x) = Some (ICallExtern n) -> a_params (f_stk _ x) = Ok ps -> ext n ps = HRet res ->
  exists w, stepA v = Ok (Go _ w) /\ becomes v w (loopf _ v) (fiberAt x (opsOf x) (f_ip _ x + 1) (setResult res (f_regs _ x))) (hosts _ v).
Proof.
  intros n ps res C P E. rewrite (stepA_i _ C). unfold exec. rewrite G. cbn [bind o_params aops]. rewrite P. cbn [bind]. rewrite E. unfold runHost. rewrite G. cbn [bind].
  eexists. split; [reflexivity|]. unfold becomes. split; [reflexivity|]. split; [reflexivity|]. split.
  - match goal with |- getF _ ?s _ = _ => change (getF _ s (loopf _ v)) with (getF _ (setF _ v (loopf _ v) (Some (withIp astk (withReg astk x REG_RESULT res) (f_ip astk x + 1)))) (loopf _ v)) end.
    rewrite (getF_set_same _ _ _ _ _ G). unfold fiberAt, opsOf. rewrite set_self. destruct x as [[sz st] ip regs p al]. cbn. destruct regs; reflexivity.
  - split; [|split; reflexivity]. intros g N. change (getF _ (setF _ v (loopf _ v) (Some (withIp astk (withReg astk x REG_RESULT res) (f_ip astk x + 1)))) g = getF _ v g). apply getF_set_other. congruence.
Qed.
Lemma call_extern_A : forall n ps e qs k, code (f_ip _ x) = Some (ICallExtern n) -> a_params (f_stk _ x) = Ok ps -> ext n ps = HCall e qs k -> vmf _ v = loopf _ v -> f_alive _ x = true -> 0 < e ->
  exists w, stepA v = Ok (Go _ w) /\ becomes v w (loopf _ v) (fiberAt x (VZ RETURN_FROM_VM :: qs ++ opsOf x) e (f_regs _ x)) ((loopf _ v, f_ip _ x, k) :: hosts _ v).
Proof.
  intros n ps e qs k C P E V A EP. rewrite (stepA_i _ C). unfold exec. rewrite G. cbn [bind o_params aops]. rewrite P. cbn [bind]. rewrite E. unfold runHost, enterCall. rewrite V, G. cbn [bind].
  rewrite A. cbn [negb]. destruct (Z.leb_spec e 0); [lia|]. cbn [o_push aops]. unfold a_push. cbn [bind]. unfold go. cbn [bind].
  eexists. split; [reflexivity|]. unfold becomes. split; [reflexivity|]. split; [cbn; symmetry; symmetry; reflexivity|]. split.
  - match goal with |- getF _ (setLoop _ (setHosts _ ?s _) _) _ = _ => transitivity (getF _ s (loopf _ v)); [reflexivity|] end. rewrite (getF_set_same _ _ _ _ _ G). reflexivity.
  - split; [|split; reflexivity]. intros g N. match goal with |- getF _ (setLoop _ (setHosts _ ?s _) _) _ = _ => transitivity (getF _ s g); [reflexivity|] end. apply getF_set_other. congruence.
Qed.
(** Returning from a call made by host code. *)
Lemma ret_vm_A : forall args rest, code (f_ip _ x) = Some (IReturn (length args)) -> opsOf x = VZ RETURN_FROM_VM :: args ++ rest -> f_alive _ x = true -> vmf _ v = loopf _ v ->
  match hosts _ v with
  | [] => exists w, stepA v = Ok (Stop _ w) /\ becomes v w (loopf _ v) (fiberAt x rest RETURN_FROM_VM (f_regs _ x)) []
  | (c, ip, k) :: h => c = loopf _ v -> forall res, k (nth 0 (f_regs _ x) (VZ 0)) = HRet res ->
      exists w, stepA v = Ok (Go _ w) /\ becomes v w (loopf _ v) (fiberAt x rest (ip + 1) (setResult res (f_regs _ x))) h
  end.
Proof.
  intros args rest C O A V. rewrite (stepA_i _ C). unfold exec. rewrite G. cbn [bind]. unfold ret, pop1, pops. rewrite G. cbn [bind o_pop aops]. unfold a_pop. fold (opsOf x). rewrite O.
  cbn [Nat.leb length firstn skipn bind]. change (RETURN_FROM_VM =? RETURN_FROM_FIBER) with false. cbn iota.
  set (x1 := withStk _ x (MkA (a_size (f_stk _ x)) (set_ops (a_stk (f_stk _ x)) (args ++ rest)))). set (v1 := setF _ v (loopf _ v) (Some x1)).
  assert (getF _ v1 (loopf _ v) = Ok x1) as G1 by (apply (getF_set_same _ _ _ _ _ G)). change (loopf _ v1) with (loopf _ v). rewrite G1. cbn [bind].
  change (sops_of (a_stk (f_stk _ x1))) with (sops_of (set_ops (a_stk (f_stk _ x)) (args ++ rest))). rewrite ops_set.
  replace (Nat.leb (length args) (length (args ++ rest))) with true by (symmetry; apply Nat.leb_le; rewrite app_length; lia). cbn [bind].
  rewrite skipn_app, skipn_all, Nat.sub_diag. cbn [skipn app]. cbn [f_stk x1 withStk a_stk a_size]. rewrite set_set.
  set (x2 := withStk _ x1 (MkA (a_size (f_stk _ x)) (set_ops (a_stk (f_stk _ x)) rest))).
  change (withStk astk x1 {| a_size := a_size (f_stk astk x); a_stk := set_ops (a_stk (f_stk astk x)) rest |}) with x2.
  set (v2 := setF _ v1 (loopf _ v) (Some x2)). assert (getF _ v2 (loopf _ v) = Ok x2) as G2 by (apply (getF_set_same _ _ _ _ _ G1)).
  unfold goto. change (loopf _ v2) with (loopf _ v). rewrite G2. cbn [bind].
  set (x3 := withIp _ x2 RETURN_FROM_VM). set (v3 := setF _ v2 (loopf _ v) (Some x3)). assert (getF _ v3 (loopf _ v) = Ok x3) as G3 by (apply (getF_set_same _ _ _ _ _ G2)).
  change (loopf _ v3) with (loopf _ v). rewrite G3. cbn [bind]. change (f_ip _ x3) with RETURN_FROM_VM. rewrite Z.eqb_refl, orb_true_r.
  assert (forall g, g <> loopf _ v -> getF _ v3 g = getF _ v g) as OT. { intros g N. unfold v3, v2, v1. rewrite !getF_set_other by congruence. reflexivity. }
  unfold endLoop. change (hosts _ v3) with (hosts _ v). destruct (hosts _ v) as [|[[c ip] k] h] eqn:HH.
  - exists v3. split; [reflexivity|]. unfold becomes. split; [reflexivity|]. split; [reflexivity|]. split; [exact G3|]. split; [exact OT|]. split; [exact HH|reflexivity].
  - intros -> res K. change (vmf _ v3) with (vmf _ v). rewrite V, G3. cbn [bind]. change (f_regs _ x3) with (f_regs _ x). change REG_RESULT with 0%nat. rewrite K. unfold runHost. rewrite G3. cbn [bind].
    eexists. split; [reflexivity|]. unfold becomes. split; [reflexivity|]. split; [reflexivity|]. split.
    + match goal with |- getF _ (setLoop _ (setHosts _ ?s _) _) _ = _ => transitivity (getF _ s (loopf _ v)); [reflexivity|] end. rewrite (getF_set_same _ _ _ _ _ G3).
      unfold fiberAt. f_equal. unfold x3, x2, x1. destruct x as [[sz st] ip0 regs p al]. cbn. destruct regs; reflexivity.
    + split; [|split; reflexivity]. intros g N. match goal with |- getF _ (setLoop _ (setHosts _ ?s _) _) _ = _ => transitivity (getF _ s g); [reflexivity|] end. rewrite getF_set_other by congruence. apply OT. exact N.
Qed.
End One.
End St.
