(** Switching fibers in the virtual machine. *)
From Coq Require Import ZArith Lia Bool List ZifyBool.
From Verif Require Import Base CallModel CallSpec CallProofs CallSim CallKeep CallThm.
Import ListNotations.
Local Open Scope Z_scope.

Lemma c_pop1 : forall s w, c_read s (c_top s) = Ok w -> c_pop s 1 = Ok ([w], MkC (c_mem s) (c_top s + 1) (c_base s)).
Proof.
  intros s w H. unfold c_read in H. destruct (_ && _) eqn:B; [|discriminate]. injection H as H. unfold c_pop.
  replace ((_ <? 0) || (_ <? _)) with false by lia. f_equal. f_equal.
  unfold c_size in B. destruct (skipn (Z.to_nat (c_top s)) (c_mem s)) as [|a r] eqn:E.
  - apply (f_equal (@length val)) in E. rewrite skipn_length in E. cbn in E. lia.
  - cbn. f_equal. rewrite <- H. rewrite <- (firstn_skipn (Z.to_nat (c_top s)) (c_mem s)), E. rewrite app_nth2; rewrite firstn_length; [|lia].
    replace (Z.to_nat (c_top s) - _)%nat with 0%nat by lia. reflexivity.
Qed.
Section Fib.
Variable code : Z -> option instr.
Variable ext : nat -> list val -> hostprog.
Notation stepC := (step _ cops code ext).
Section One.
Variable v : vm cstk.
Variable x : fiber cstk.
Hypothesis G : getF _ v (loopf _ v) = Ok x.
Hypothesis TOP : MIN_FREE <= c_top (f_stk _ x).
Lemma step_i : forall i, code (f_ip _ x) = Some i -> stepC v = exec _ cops ext v i.
Proof.
  intros i C. unfold step, topOf. rewrite G. cbn [bind o_top cops]. destruct (Z.ltb_spec (c_top (f_stk _ x)) MIN_FREE); [lia|]. cbn [bind]. rewrite C. reflexivity.
Qed.
Definition popped : fiber cstk := withStk _ x (MkC (c_mem (f_stk _ x)) (c_top (f_stk _ x) + 1) (c_base (f_stk _ x))).
Lemma pop1_c : forall c, c_read (f_stk _ x) (c_top (f_stk _ x)) = Ok c -> pop1 _ cops v = Ok (c, setF _ v (loopf _ v) (Some popped)).
Proof. intros c R. unfold pop1, pops. rewrite G. cbn [bind o_pop cops]. rewrite (c_pop1 _ _ R). reflexivity. Qed.
Let v2 : vm cstk := setF _ (setF _ v (loopf _ v) (Some popped)) (loopf _ v) (Some (moved x)).
Lemma next_c : next _ (setF _ v (loopf _ v) (Some popped)) = Ok v2.
Proof. unfold next. cbn [loopf setF]. rewrite (getF_set_same _ _ _ _ _ G). reflexivity. Qed.
Lemma get_same : getF _ v2 (loopf _ v) = Ok (moved x).
Proof. apply (getF_set_same _ _ _ _ popped). apply (getF_set_same _ _ _ _ _ G). Qed.
Lemma get_other : forall g, g <> loopf _ v -> getF _ v2 g = getF _ v g.
Proof. intros g N. apply getF_set2. congruence. Qed.
Lemma switch_ok : forall t, switched v (switchTo _ v2 t) (moved x) t.
Proof.
  intros t. unfold switched. split; [reflexivity|]. split; [reflexivity|]. split; [exact get_same|]. split; [exact get_other|]. split; reflexivity.
Qed.
Lemma resume_c : forall c, code (f_ip _ x) = Some IResume -> f_alive _ x = true -> c_read (f_stk _ x) (c_top (f_stk _ x)) = Ok c ->
  (forall b y, c = VF b -> getF _ v b = Ok y -> exists w, stepC v = Ok (Go _ w) /\ switched v w (moved x) (if f_alive _ y then b else loopf _ v)) /\
  (c = VZ 0 -> exists w, stepC v = Ok (Go _ w) /\ switched v w (moved x) (match f_parent _ x with Some p => p | None => loopf _ v end)).
Proof.
  intros c C AL R. rewrite (step_i _ C). unfold exec. rewrite G. cbn [bind]. unfold resume. rewrite (pop1_c _ R). cbn [bind]. rewrite next_c. cbn [bind].
  change (loopf _ v2) with (loopf _ v). rewrite get_same. cbn [bind]. change (f_alive _ (moved x)) with (f_alive _ x). change (f_parent _ (moved x)) with (f_parent _ x).
  split.
  - intros b y -> GB. assert (exists y2, getF _ v2 b = Ok y2 /\ f_alive _ y2 = f_alive _ y) as (y2 & GB2 & AL2).
    { destruct (Nat.eq_dec b (loopf _ v)) as [->|N]; [exists (moved x); split; [apply get_same|]; rewrite G in GB; injection GB as <-; reflexivity|].
      exists y. rewrite get_other by exact N. auto. }
    rewrite GB2. cbn [bind]. rewrite AL, AL2. cbn [negb]. eexists. split; [reflexivity|]. apply switch_ok.
  - intros ->. cbn [bind]. rewrite AL. cbn [negb]. eexists. split; [reflexivity|]. apply switch_ok.
Qed.
Definition finished : fiber cstk := die _ popped.
Lemma finish_c : forall n p y, code (f_ip _ x) = Some (IReturn n) -> c_read (f_stk _ x) (c_top (f_stk _ x)) = Ok (VZ RETURN_FROM_FIBER) -> f_parent _ x = Some p -> p <> loopf _ v ->
  getF _ v p = Ok y -> f_alive _ y = true -> f_ip _ y <> RETURN_FROM_VM -> exists w, stepC v = Ok (Go _ w) /\ switched v w finished p.
Proof.
  intros n p y C R P NP GP AL IP. rewrite (step_i _ C). unfold exec. rewrite G. cbn [bind]. unfold ret. rewrite (pop1_c _ R). cbn [bind].
  change (RETURN_FROM_FIBER =? RETURN_FROM_FIBER) with true. cbn [loopf setF]. rewrite (getF_set_same _ _ _ _ _ G). cbn [bind].
  change (f_parent _ popped) with (f_parent _ x). rewrite P. cbn [bind].
  set (v3 := setF _ (setF _ v (loopf _ v) (Some popped)) (loopf _ v) (Some (die _ popped))).
  change (setF cstk (MkVm _ (upd (fibs _ v) (loopf _ v) (Some popped)) (loopf _ v) (vmf _ v) (hosts _ v) (gm _ v)) (loopf _ v) (Some (die _ popped))) with v3.
  assert (getF _ (switchTo _ v3 p) p = Ok y) as GP2. { transitivity (getF _ v3 p); [reflexivity|]. unfold v3. rewrite getF_set2 by congruence. exact GP. }
  change (loopf _ (switchTo _ v3 p)) with p. rewrite GP2. cbn [bind]. rewrite AL. destruct (Z.eqb_spec (f_ip _ y) RETURN_FROM_VM); [congruence|]. cbn [negb orb].
  eexists. split; [reflexivity|]. unfold switched. split; [reflexivity|]. split; [reflexivity|]. split.
  - transitivity (getF _ v3 (loopf _ v)); [reflexivity|]. unfold v3. apply (getF_set_same _ _ _ _ popped). apply (getF_set_same _ _ _ _ _ G).
  - split; [|split; reflexivity]. intros g N. transitivity (getF _ v3 g); [reflexivity|]. unfold v3. apply getF_set2. congruence.
Qed.
End One.
Lemma c_read_push : forall s w s', c_push s [w] = Ok s' -> c_read s' (c_top s') = Ok w /\ c_top s' = c_top s - 1 /\ c_base s' = c_base s /\ c_size s' = c_size s.
Proof.
  intros s w s' H. unfold c_push in H. cbn [length] in H. destruct (_ || _) eqn:B; [discriminate|]. injection H as <-. cbn [c_top c_base c_mem].
  unfold c_read, c_size in *. cbn [c_mem]. cbn [app]. rewrite !app_length, firstn_length. cbn [length]. rewrite skipn_length.
  replace ((_ <=? _) && (_ <? _)) with true by lia. split; [|split; [lia|split; [reflexivity|lia]]]. f_equal.
  rewrite app_nth2; rewrite firstn_length; [|lia]. replace (_ - _)%nat with 0%nat by lia. reflexivity.
Qed.
Lemma valid_c : forall v x c b, getF _ v (loopf _ v) = Ok x -> MIN_FREE <= c_top (f_stk _ x) -> code (f_ip _ x) = Some IValid ->
  c_read (f_stk _ x) (c_top (f_stk _ x)) = Ok c -> (match c with VF f => exists y, getF _ v f = Ok y /\ f_alive _ y = b | VZ 0 => b = false | _ => False end) ->
  exists w x', stepC v = Ok (Go _ w) /\ loopf _ w = loopf _ v /\ getF _ w (loopf _ v) = Ok x' /\ f_ip _ x' = f_ip _ x + 1 /\ c_top (f_stk _ x') = c_top (f_stk _ x) /\
    c_read (f_stk _ x') (c_top (f_stk _ x')) = Ok (VZ (if b then 1 else 0)) /\ forall g, g <> loopf _ v -> getF _ w g = getF _ v g.
Proof.
  intros v x c b G TOP C R V. rewrite (step_i v x G TOP _ C). unfold exec. rewrite G. cbn [bind]. rewrite (pop1_c v x G _ R). cbn [bind].
  set (v1 := setF _ v (loopf _ v) (Some (popped x))). assert (getF _ v1 (loopf _ v) = Ok (popped x)) as G1 by (apply (getF_set_same _ _ _ _ _ G)).
  assert (match c with VF f => let* y := getF _ v1 f in Ok (f_alive _ y) | VZ 0 => Ok false | _ => UB end = Ok b) as EV.
  { destruct c as [z| | | |f]; try contradiction; [destruct z; try contradiction; congruence|]. destruct V as (y & GY & AY).
    destruct (Nat.eq_dec f (loopf _ v)) as [->|N]; [rewrite G1; cbn [bind]; rewrite G in GY; injection GY as <-; cbn; congruence|].
    unfold v1. rewrite getF_set_other by congruence. rewrite GY. cbn [bind]. congruence. }
  rewrite EV. cbn [bind]. unfold pushes, onStk. change (loopf _ v1) with (loopf _ v). rewrite G1. cbn [bind o_push cops].
  destruct (c_push (f_stk _ (popped x)) [VZ (b2z b)]) as [s|e|] eqn:EP.
  - destruct (c_read_push _ _ _ EP) as (P1 & P2 & P3 & P4). cbn [bind]. set (x2 := withStk _ (popped x) s). set (v2 := setF _ v1 (loopf _ v) (Some x2)).
    assert (getF _ v2 (loopf _ v) = Ok x2) as G2 by (apply (getF_set_same _ _ _ _ _ G1)). unfold next. change (loopf _ v2) with (loopf _ v). rewrite G2. unfold go. cbn [bind].
    eexists _, _. split; [reflexivity|]. split; [reflexivity|]. split; [apply (getF_set_same _ _ _ _ _ G2)|]. cbn [f_ip withIp f_stk x2 withStk popped]. split; [reflexivity|].
    split; [rewrite P2; cbn; lia|]. split; [rewrite P1; unfold b2z; destruct b; reflexivity|]. intros g N. rewrite getF_set_other by congruence. unfold v2, v1. rewrite !getF_set_other by congruence. reflexivity.
  - exfalso. unfold c_push in EP. destruct (_ || _); discriminate.
  - exfalso. unfold c_push in EP. destruct (_ || _) eqn:B; [|discriminate]. unfold c_size in B. cbn [popped f_stk withStk c_top c_mem length] in B. unfold c_read, c_size in R. destruct (_ && _) eqn:B2; [|discriminate]. unfold MIN_FREE in TOP. lia.
Qed.

Lemma make_c : forall v x t a e u1 u2 rest, getF _ v (loopf _ v) = Ok x -> MIN_FREE <= c_top (f_stk _ x) -> code (f_ip _ x) = Some IMakeFiber ->
  c_pop (f_stk _ x) 2 = Ok ([t; VZ a], rest) -> a <> 0 -> gm _ v a = VZ e -> gm _ v (a + 1) = u1 -> gm _ v (a + 2) = u2 -> 0 < e ->
  exists w x' y, stepC v = Ok (Go _ w) /\ loopf _ w = loopf _ v /\ vmf _ w = vmf _ v /\ length (fibs _ w) = Datatypes.S (length (fibs _ v)) /\
    getF _ w (loopf _ v) = Ok x' /\ f_ip _ x' = f_ip _ x + 1 /\ c_top (f_stk _ x') = c_top (f_stk _ x) + 1 /\
    c_read (f_stk _ x') (c_top (f_stk _ x')) = Ok (VF (length (fibs _ v))) /\
    getF _ w (length (fibs _ v)) = Ok y /\ f_ip _ y = e /\ f_parent _ y = Some (loopf _ v) /\ f_alive _ y = f_alive _ x /\
    c_size (f_stk _ y) = c_size (f_stk _ x) /\ c_base (f_stk _ y) = c_size (f_stk _ x) - 1 /\ c_top (f_stk _ y) = c_size (f_stk _ x) - 4 /\
    c_pop (f_stk _ y) 3 = Ok ([VZ RETURN_FROM_FIBER; u1; u2], MkC (c_mem (f_stk _ y)) (c_size (f_stk _ x) - 1) (c_size (f_stk _ x) - 1)) /\
    forall g, g <> loopf _ v -> (g < length (fibs _ v))%nat -> getF _ w g = getF _ v g.
Proof.
  intros v x t a e u1 u2 rest G TOP C P NZ M0 M1 M2 EP. rewrite (step_i v x G TOP _ C). unfold exec. rewrite G. cbn [bind]. unfold makeFiber, pop2, pops. rewrite G. cbn [bind o_pop cops]. rewrite P. cbn [bind].
  set (x1 := withStk _ x rest). set (v1 := setF _ v (loopf _ v) (Some x1)). assert (getF _ v1 (loopf _ v) = Ok x1) as G1 by (apply (getF_set_same _ _ _ _ _ G)).
  unfold loads, load. destruct (Z.eqb_spec a 0) as [?|_]; [contradiction|]. cbn [bind]. change (gm _ v1) with (gm _ v). rewrite Z.add_0_r. change (0 + 1) with 1. change (1 + 1) with 2. rewrite M0, M1, M2.
  destruct (Z.leb_spec e 0); [lia|]. change (loopf _ v1) with (loopf _ v). rewrite G1. cbn [bind o_new o_push cops].
  assert (c_top rest = c_top (f_stk _ x) + 2 /\ c_mem rest = c_mem (f_stk _ x) /\ c_top (f_stk _ x) + 2 <= c_size (f_stk _ x)) as (T1 & T2 & T3).
  { unfold c_pop in P. destruct (_ || _) eqn:B; [discriminate|]. injection P as _ <-. cbn. split; [lia|]. split; [reflexivity|]. lia. }
  unfold MIN_FREE in TOP. set (n := length (c_mem (f_stk _ x))) in *. assert (c_size (f_stk _ x) = Z.of_nat n) as SZ by reflexivity.
  unfold c_new. change (f_stk _ x1) with rest. rewrite T2. fold n. cbn [bind].
  assert (exists m s, c_push (MkC (repeat (VZ 0) n) (c_size rest - 1) (c_size rest - 1)) [VZ RETURN_FROM_FIBER; u1; u2] = Ok s /\ s = MkC m (Z.of_nat n - 4) (Z.of_nat n - 1) /\ length m = n /\
     c_pop s 3 = Ok ([VZ RETURN_FROM_FIBER; u1; u2], MkC m (Z.of_nat n - 1) (Z.of_nat n - 1))) as (m & s & S1 & S2 & S3 & S4).
  { unfold c_push, c_size. cbn [c_mem c_top c_base length]. rewrite T2, repeat_length. fold n. replace ((_ <? 0) || (_ <? _)) with false by lia.
    eexists _, _. split; [reflexivity|]. split; [f_equal; lia|]. cbn [app]. assert (length (firstn (Z.to_nat (Z.of_nat n - 1 - Z.of_nat 3)) (repeat (VZ 0) n)) = (n - 4)%nat) as L by (rewrite firstn_length, repeat_length; lia).
    split; [rewrite app_length, L; cbn [length]; rewrite skipn_length, repeat_length; lia|].
    unfold c_pop, c_size. cbn [c_mem c_top c_base]. rewrite app_length, L. cbn [length]. rewrite skipn_length, repeat_length. replace ((_ <? 0) || (_ <? _)) with false by lia.
    f_equal. f_equal; [|f_equal; lia]. rewrite skipn_app, skipn_all2 by lia. rewrite L. replace (_ - _)%nat with 0%nat by lia. reflexivity. }
  rewrite S1. cbn [bind]. subst s.
  assert (length (fibs _ v1) = length (fibs _ v)) as LN by (unfold v1, setF; cbn [fibs]; apply length_upd).
  assert (loopf _ v < length (fibs _ v))%nat as LT. { unfold getF in G. destruct (nth_error (fibs _ v) (loopf _ v)) eqn:E; [|discriminate]. apply nth_error_Some. congruence. }
  assert (exists s2, c_push rest [VF (length (fibs _ v1))] = Ok s2) as (s2 & P2).
  { unfold c_push. cbn [length]. rewrite T1. unfold c_size. rewrite T2. fold n. replace ((_ <? 0) || (_ <? _)) with false by lia. eauto. }
  set (y := MkFib cstk (MkC m (Z.of_nat n - 4) (Z.of_nat n - 1)) e (f_regs cstk x1) (Some (loopf cstk v)) (f_alive cstk x1)).
  set (v2 := MkVm cstk (fibs cstk v1 ++ [Some y]) (loopf cstk v) (vmf cstk v1) (hosts cstk v1) (gm cstk v)).
  assert (getF _ v2 (loopf _ v) = Ok x1) as G2. { unfold v2, getF. cbn [fibs]. rewrite nth_error_app1 by lia. exact G1. }
  unfold pushes, onStk. change (loopf _ v2) with (loopf _ v). rewrite G2. cbn [bind].
  cbn [o_push cops]. change (f_stk _ x1) with rest. rewrite P2. cbn [bind]. destruct (c_read_push _ _ _ P2) as (R1 & R2 & R3 & R4).
  set (v3 := setF _ v2 (loopf _ v) (Some (withStk _ x1 s2))). assert (getF _ v3 (loopf _ v) = Ok (withStk _ x1 s2)) as G3 by (apply (getF_set_same _ _ _ _ _ G2)).
  unfold next. change (loopf _ v3) with (loopf _ v). rewrite G3. unfold go. cbn [bind].
  eexists _, _, y. split; [reflexivity|]. split; [reflexivity|]. split; [reflexivity|].
  split; [unfold v3, v2, setF; cbn [fibs]; rewrite !length_upd, app_length; cbn [length]; lia|].
  split; [apply (getF_set_same _ _ _ _ _ G3)|]. split; [reflexivity|]. cbn [f_stk withIp withStk]. split; [lia|]. split; [rewrite R1, LN; reflexivity|].
  split. { rewrite getF_set_other by lia. unfold v3. rewrite getF_set_other by lia. unfold v2, getF. cbn [fibs]. rewrite nth_error_app2 by lia. rewrite LN, Nat.sub_diag. reflexivity. }
  split; [reflexivity|]. split; [reflexivity|]. split; [reflexivity|]. unfold y. cbn [f_stk c_base c_top c_mem]. rewrite SZ. split; [unfold c_size; cbn; lia|]. split; [reflexivity|]. split; [reflexivity|]. split; [exact S4|].
  intros g N L. rewrite getF_set_other by congruence. unfold v3. rewrite getF_set_other by congruence. unfold v2. transitivity (getF _ v1 g); [unfold getF; cbn [fibs]; rewrite nth_error_app1 by lia; reflexivity|]. unfold v1. apply getF_set_other. congruence.
Qed.
End Fib.
