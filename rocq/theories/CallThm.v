(** Calls, returns and fibers over whole runs. *)
From Coq Require Import ZArith Lia Bool List ZifyBool.
From Verif Require Import Base CallModel CallSpec CallProofs CallSim CallKeep.
Import ListNotations.
Local Open Scope Z_scope.

Lemma getF_set : forall (S : Type) (v : vm S) f g x, getF _ (setF _ v f (Some x)) g = if Nat.eqb f g then (if Nat.ltb f (length (fibs _ v)) then Ok x else UB) else getF _ v g.
Proof. intros S v f g x. unfold getF. cbn [setF fibs]. rewrite nth_error_upd. destruct (Nat.eqb_spec f g) as [<-|]; [|reflexivity]. destruct (Nat.ltb _ _); reflexivity. Qed.
Lemma getF_lt : forall (S : Type) (v : vm S) f x, getF _ v f = Ok x -> (f < length (fibs _ v))%nat.
Proof. intros S v f x H. apply getF_nth in H. apply nth_error_Some. congruence. Qed.
Lemma getF_set_same : forall (S : Type) (v : vm S) f x y, getF _ v f = Ok y -> getF _ (setF _ v f (Some x)) f = Ok x.
Proof. intros S v f x y H. rewrite getF_set, Nat.eqb_refl. apply getF_lt in H. apply Nat.ltb_lt in H. rewrite H. reflexivity. Qed.
Lemma getF_set_other : forall (S : Type) (v : vm S) f g x, f <> g -> getF _ (setF _ v f x) g = getF _ v g.
Proof. intros S v f g x H. unfold getF. cbn [setF fibs]. rewrite nth_error_upd. destruct (Nat.eqb_spec f g); [congruence|reflexivity]. Qed.

Lemma getF_set2 : forall (S : Type) (v : vm S) f g x y, f <> g -> getF _ (setF _ (setF _ v f x) f y) g = getF _ v g.
Proof. intros. rewrite !getF_set_other by assumption. reflexivity. Qed.

Section Steps.
Variable code : Z -> option instr.
Variable ext : nat -> list val -> hostprog.
Notation stepA := (step _ aops code ext).

Lemma step_inv : forall v r, stepA v = Ok r ->
  exists x i, getF _ v (loopf _ v) = Ok x /\ MIN_FREE <= a_top (f_stk _ x) /\ code (f_ip _ x) = Some i /\ exec _ aops ext v i = Ok r.
Proof.
  intros v r H. unfold step in H. unfold topOf in H. destruct (getF _ v (loopf _ v)) as [x|e|]; cbn [bind] in H; try discriminate.
  destruct (Z.ltb_spec (o_top aops (f_stk _ x)) MIN_FREE); [discriminate|]. destruct (code (f_ip _ x)) as [i|] eqn:E; [|discriminate].
  exists x, i. auto.
Qed.
Lemma enter_inv : forall v l r, exec _ aops ext v (IEnter l) = Ok r -> exists x s, getF _ v (loopf _ v) = Ok x /\ a_enter (f_stk _ x) l = Ok s /\
  r = Go _ (setF _ (setF _ v (loopf _ v) (Some (withStk _ x s))) (loopf _ v) (Some (withIp _ (withStk _ x s) (f_ip _ x + 1)))).
Proof.
  intros v l r H. unfold exec, topOf, onStk in H. destruct (getF _ v (loopf _ v)) as [x|e|] eqn:E; cbn [bind] in H; try discriminate.
  dm H. destruct (o_enter aops (f_stk _ x) l) as [s|e|] eqn:E2; cbn [bind go] in H; try discriminate.
  unfold next in H. cbn [loopf setF] in H. rewrite (getF_set_same _ _ _ _ _ E) in H. cbn [bind] in H. injection H as <-. exists x, s. auto.
Qed.
Lemma leave_inv : forall v r, exec _ aops ext v ILeave = Ok r -> exists x s, getF _ v (loopf _ v) = Ok x /\ a_leave (f_stk _ x) = Ok s /\
  r = Go _ (setF _ (setF _ v (loopf _ v) (Some (withStk _ x s))) (loopf _ v) (Some (withIp _ (withStk _ x s) (f_ip _ x + 1)))).
Proof.
  intros v r H. unfold exec, topOf, onStk in H. destruct (getF _ v (loopf _ v)) as [x|e|] eqn:E; cbn [bind] in H; try discriminate.
  destruct (o_leave aops (f_stk _ x)) as [s|e|] eqn:E2; cbn [bind go] in H; try discriminate.
  unfold next in H. cbn [loopf setF] in H. rewrite (getF_set_same _ _ _ _ _ E) in H. cbn [bind] in H. injection H as <-. exists x, s. auto.
Qed.
Definition vmOf (r : sres astk) : avm := match r with Go _ w => w | Stop _ w => w end.
(** ** Fibers *)
Lemma step_away : forall v r g x, stepA v = Ok r -> involved v g = false -> getF _ v g = Ok x ->
  match nth_error (fibs _ (vmOf r)) g with Some (Some y) => Kf true false x y | Some None => f_alive _ x = false | None => False end.
Proof.
  intros v r g x H NI G. destruct (step_inv _ _ H) as (z & i & GZ & _ & _ & EX).
  assert (g <> loopf _ v) as NL. { intros ->. unfold involved in NI. rewrite Nat.eqb_refl in NI. discriminate. }
  assert ((exists l, i = IEnter l) \/ i = ILeave \/ ((forall l, i <> IEnter l) /\ i <> ILeave)) as C.
  { destruct i; try (right; right; split; congruence); [left; eauto|right; left; reflexivity]. }
  destruct C as [(l & ->)|[->|(C1 & C2)]].
  - destruct (enter_inv _ _ _ EX) as (x2 & s & _ & _ & ->). cbn [vmOf]. pose proof (getF_set2 _ v (loopf _ v) g (Some (withStk _ x2 s)) (Some (withIp _ (withStk _ x2 s) (f_ip _ x2 + 1))) ltac:(congruence)) as A.
    rewrite G in A. apply getF_nth in A. rewrite A. apply Kf_refl.
  - destruct (leave_inv _ _ EX) as (x2 & s & _ & _ & ->). cbn [vmOf]. pose proof (getF_set2 _ v (loopf _ v) g (Some (withStk _ x2 s)) (Some (withIp _ (withStk _ x2 s) (f_ip _ x2 + 1))) ltac:(congruence)) as A.
    rewrite G in A. apply getF_nth in A. rewrite A. apply Kf_refl.
  - assert (Pr true (involved v) v r) as PP. { eapply exec_Pr; [exact EX|exact C1|exact C2|auto|discriminate]. }
    assert (pres true (involved v) v (vmOf r)) as P by (destruct r; exact PP).
    apply getF_nth in G. destruct (P _ _ G) as (y & -> & K). rewrite NI in K. destruct y; cbn in K; auto.
Qed.
Lemma away_kept : forall n g v w x, away code ext g n v w -> getF _ v g = Ok x -> f_alive _ x = true ->
  exists y, getF _ w g = Ok y /\ a_size (f_stk _ y) = a_size (f_stk _ x) /\ same (a_stk (f_stk _ x)) (a_stk (f_stk _ y)) /\ f_ip _ y = f_ip _ x /\ f_regs _ y = f_regs _ x /\
            f_parent _ y = f_parent _ x /\ f_alive _ y = true.
Proof.
  induction n as [|n IH]; intros g v w x A G AL; cbn [away] in A.
  - subst w. exists x. pose proof (same_refl (a_stk (f_stk _ x))). auto 10.
  - destruct A as (NI & v1 & ST & A). pose proof (step_away _ _ _ _ ST NI G) as K. cbn [vmOf] in K.
    destruct (nth_error (fibs _ v1) g) as [[y|]|] eqn:NY; [|congruence|contradiction].
    destruct K as (K1 & K2 & K3 & K4 & _ & K5). destruct (K5 eq_refl) as (S & I & R & L).
    assert (getF _ v1 g = Ok y) as G1 by (unfold getF; rewrite NY; reflexivity).
    destruct (IH g v1 w y A G1 ltac:(congruence)) as (z & GZ & Z1 & Z2 & Z3 & Z4 & Z5 & Z6). exists z. split; [exact GZ|].
    split; [congruence|]. split; [eapply same_trans; eassumption|]. split; [congruence|]. split; [congruence|]. split; congruence.
Qed.

(** ** Calls *)
Lemma kept_below : forall s s', kept s s' -> match s, s' with Frame _ _ l _ r ps u, Frame _ _ l2 _ r2 ps2 u2 => l = l2 /\ r = r2 /\ length ps = length ps2 /\ same u u2 | Bot _ _, Bot _ _ => True | _, _ => False end.
Proof. intros [o g|o loc l n r ps u] [o2 g2|o2 loc2 l2 n2 r2 ps2 u2]; unfold kept; cbn; intuition. Qed.
Lemma same_reaches : forall s s' t, same s s' -> reaches s t -> reaches s' t.
Proof.
  induction s as [o g|o loc l n r ps u IH]; intros [o2 g2|o2 loc2 l2 n2 r2 ps2 u2] t S R; cbn [same] in S; try contradiction; cbn [reaches] in *.
  - destruct R as [R|[]]. left. eapply kept_trans; [exact R|]. apply same_kept. exact S.
  - destruct R as [R|R]; [left; eapply kept_trans; [exact R|]; apply same_kept; exact S|]. right. eapply IH; [|exact R]. apply S.
Qed.
Lemma kept_reaches : forall s s' t, kept s s' -> reaches s t -> reaches s' t.
Proof.
  intros s s' t K R. pose proof (kept_below _ _ K) as B. destruct s as [o g|o loc l n r ps u], s' as [o2 g2|o2 loc2 l2 n2 r2 ps2 u2]; cbn [reaches] in *; try contradiction.
  - destruct R as [R|[]]. left. eapply kept_trans; eassumption.
  - destruct R as [R|R]; [left; eapply kept_trans; eassumption|]. right. eapply same_reaches; [|exact R]. apply B.
Qed.
Lemma reaches_depth : forall s t, reaches s t -> (depth t <= depth s)%nat.
Proof.
  induction s as [o g|o loc l n r ps u IH]; intros t R; cbn [reaches] in R.
  - destruct R as [R|[]]. apply kept_depth in R. lia.
  - destruct R as [R|R]; [apply kept_depth in R; lia|]. apply IH in R. cbn [depth]. lia.
Qed.
Lemma reaches_eq : forall s t, reaches s t -> depth s = depth t -> kept t s.
Proof. intros s t R E. destruct s; cbn [reaches] in R; (destruct R as [R|R]; [exact R|]); [contradiction|]. apply reaches_depth in R. cbn [depth] in E. lia. Qed.
(** The reference counts of unfinished calls when another one starts or ends. *)
Lemma refsAt_deep : forall s d, (depth s < d)%nat -> refsAt d s = 0.
Proof. induction s as [o g|o loc l n r ps u IH]; intros d L; cbn [refsAt depth] in *; [reflexivity|]. destruct (Nat.eqb_spec (S (depth u)) d); [lia|]. apply IH. lia. Qed.
Lemma step_call : forall v w f x y t, stepA v = Ok (Go _ w) -> getF _ v f = Ok x -> getF _ w f = Ok y -> reaches (a_stk (f_stk _ x)) t ->
  (depth t <= depth (a_stk (f_stk _ y)))%nat -> reaches (a_stk (f_stk _ y)) t /\ a_size (f_stk _ y) = a_size (f_stk _ x).
Proof.
  intros v w f x y t H G GW R D. destruct (step_inv _ _ H) as (z & i & GZ & _ & _ & EX).
  assert ((exists l, i = IEnter l) \/ i = ILeave \/ ((forall l, i <> IEnter l) /\ i <> ILeave)) as C.
  { destruct i; try (right; right; split; congruence); [left; eauto|right; left; reflexivity]. }
  destruct C as [(l & ->)|[->|(C1 & C2)]].
  - destruct (enter_inv _ _ _ EX) as (x2 & s & GX & ES & EW). injection EW as ->.
    destruct (Nat.eq_dec f (loopf _ v)) as [->|NE].
    + rewrite (getF_set_same _ _ _ _ (withStk _ x2 s)) in GW by (apply (getF_set_same _ _ _ _ _ GX)). injection GW as <-. rewrite G in GX. injection GX as <-. cbn [f_stk withIp withStk].
      unfold a_enter in ES. destruct (_ || _); [discriminate|]. destruct (sops_of (a_stk (f_stk _ x))) as [|[r| | | |] rest]; try discriminate.
      destruct (Nat.leb _ _); [|discriminate]. injection ES as <-. cbn [a_stk a_size]. split; [|reflexivity]. cbn [reaches]. right. eapply kept_reaches; [apply kept_set|exact R].
    + rewrite !getF_set_other in GW by congruence. rewrite G in GW. injection GW as <-. auto.
  - destruct (leave_inv _ _ EX) as (x2 & s & GX & ES & EW). injection EW as ->.
    destruct (Nat.eq_dec f (loopf _ v)) as [->|NE].
    + rewrite (getF_set_same _ _ _ _ (withStk _ x2 s)) in GW by (apply (getF_set_same _ _ _ _ _ GX)). injection GW as <-. rewrite G in GX. injection GX as <-. cbn [f_stk withIp withStk] in *.
      unfold a_leave in ES. destruct (a_stk (f_stk _ x)) as [|o loc l n r ps u]; [discriminate|]. destruct (n =? 0); [|discriminate]. injection ES as <-. cbn [a_stk a_size] in *.
      split; [|reflexivity]. rewrite depth_set in D. cbn [reaches] in R. destruct R as [R|R]; [apply kept_depth in R; cbn [depth] in R; lia|]. eapply kept_reaches; [apply kept_set|exact R].
    + rewrite !getF_set_other in GW by congruence. rewrite G in GW. injection GW as <-. auto.
  - assert (Pr true (involved v) v (Go _ w)) as PP. { eapply exec_Pr; [exact EX|exact C1|exact C2|auto|discriminate]. }
    cbn in PP. apply getF_nth in G. apply getF_nth in GW. destruct (PP _ _ G) as (y2 & N & K). rewrite GW in N. injection N as <-. destruct K as (K1 & K2 & _).
    split; [|auto]. eapply kept_reaches; [exact K2|exact R].
Qed.
Lemma within_reaches : forall n f v w x t total, within code ext f (depth t) n v w total -> getF _ v f = Ok x -> reaches (a_stk (f_stk _ x)) t ->
  exists y, getF _ w f = Ok y /\ reaches (a_stk (f_stk _ y)) t /\ a_size (f_stk _ y) = a_size (f_stk _ x).
Proof.
  induction n as [|n IH]; intros f v w x t total W G R; cbn [within] in W.
  - destruct W as (<- & _). eauto.
  - destruct W as (v1 & ST & (y & GY & DY) & W). destruct (step_call _ _ _ _ _ _ ST G GY R DY) as (R1 & S1).
    destruct (IH f v1 w y t _ W GY R1) as (z & GZ & RZ & SZ). exists z. split; [exact GZ|]. split; [exact RZ|congruence].
Qed.
Lemma step_enter : forall v v1 f x l r args rest, loopf _ v = f -> getF _ v f = Ok x -> code (f_ip _ x) = Some (IEnter l) ->
  sops_of (a_stk (f_stk _ x)) = VZ r :: args ++ rest -> len args = l_params l -> stepA v = Ok (Go _ v1) ->
  loopf _ v1 = f /\ exists x1, getF _ v1 f = Ok x1 /\ a_size (f_stk _ x1) = a_size (f_stk _ x) /\
    a_stk (f_stk _ x1) = Frame [] (repeat (VZ 0) (Z.to_nat (l_locals l))) l 0 r args (set_ops (a_stk (f_stk _ x)) rest).
Proof.
  intros v v1 f x l r args rest <- G C O LA ST. destruct (step_inv _ _ ST) as (z & i & GZ & _ & CZ & EX). rewrite G in GZ. injection GZ as <-. rewrite C in CZ. injection CZ as <-.
  destruct (enter_inv _ _ _ EX) as (x2 & s & GX & ES & EW). rewrite G in GX. injection GX as <-. injection EW as ->. cbn [loopf setF]. split; [reflexivity|].
  eexists. split; [apply (getF_set_same _ _ _ _ (withStk _ x s)); apply (getF_set_same _ _ _ _ _ G)|]. cbn [f_stk withIp withStk].
  unfold a_enter in ES. destruct (_ || _) eqn:NN; [discriminate|]. rewrite O in ES. destruct (Nat.leb _ _); [|discriminate]. injection ES as <-. cbn [a_size a_stk]. split; [reflexivity|].
  replace (Z.to_nat (l_params l)) with (length args) by (unfold len in LA; lia).
  rewrite firstn_app, firstn_all, Nat.sub_diag, skipn_app, skipn_all, Nat.sub_diag. cbn [firstn skipn app]. rewrite app_nil_r. reflexivity.
Qed.
Lemma call_returns : forall v v1 v2 f x y l r args rest n total res,
  loopf _ v = f -> getF _ v f = Ok x -> code (f_ip _ x) = Some (IEnter l) -> sops_of (a_stk (f_stk _ x)) = VZ r :: args ++ rest -> len args = l_params l -> 0 <= r ->
  stepA v = Ok (Go _ v1) ->
  within code ext f (S (depth (a_stk (f_stk _ x)))) n v1 v2 total ->
  loopf _ v2 = f -> getF _ v2 f = Ok y -> f_alive _ y = true -> depth (a_stk (f_stk _ y)) = S (depth (a_stk (f_stk _ x))) ->
  code (f_ip _ y) = Some ILeave -> code (f_ip _ y + 1) = Some (IReturn (length args)) -> run _ aops code ext 2 v2 = Ok res ->
  exists w z, res = Go _ w /\ loopf _ w = f /\ getF _ w f = Ok z /\ f_ip _ z = r /\ a_size (f_stk _ z) = a_size (f_stk _ x) /\
              same (set_ops (a_stk (f_stk _ x)) rest) (a_stk (f_stk _ z)).
Proof.
  intros v v1 v2 f x y l r args rest n total res L G C O LA R0 ST W L2 G2 AL D C2 C3 RUN.
  destruct (step_enter _ _ _ _ _ _ _ _ L G C O LA ST) as (L1 & x1 & G1 & S1 & K1).
  set (t := Frame [] (repeat (VZ 0) (Z.to_nat (l_locals l))) l 0 r args (set_ops (a_stk (f_stk _ x)) rest)) in *.
  assert (depth t = S (depth (a_stk (f_stk _ x)))) as DT by (subst t; cbn [depth]; rewrite depth_set; reflexivity).
  rewrite <- DT in W. destruct (within_reaches _ _ _ _ _ t _ W G1) as (y2 & GY & RY & SY); [rewrite K1; destruct t; left; apply kept_refl|].
  rewrite G2 in GY. injection GY as <-. pose proof (reaches_eq _ _ RY ltac:(congruence)) as KY. apply kept_below in KY. subst t.
  destruct (a_stk (f_stk _ y)) as [|o2 loc2 l2 n2 r2 ps2 u2] eqn:SK; [contradiction|]. destruct KY as (<- & <- & LP & SU).
  cbn [run] in RUN. destruct (stepA v2) as [r1|e|] eqn:ST2; cbn [bind] in RUN; try discriminate.
  destruct (step_inv _ _ ST2) as (z & i & GZ & _ & CZ & EX). rewrite L2, G2 in GZ. injection GZ as <-. rewrite C2 in CZ. injection CZ as <-.
  destruct (leave_inv _ _ EX) as (x2 & s & GX & ES & EW). rewrite L2, G2 in GX. injection GX as <-. subst r1. rewrite L2 in RUN.
  unfold a_leave in ES. rewrite SK in ES. destruct (n2 =? 0); [|discriminate]. injection ES as <-.
  set (s := MkA (a_size (f_stk _ y)) (set_ops u2 (VZ r :: ps2 ++ sops_of u2))) in *.
  set (y3 := withIp _ (withStk _ y s) (f_ip _ y + 1)) in *.
  set (v3 := setF _ (setF _ v2 f (Some (withStk _ y s))) f (Some y3)) in *.
  assert (getF _ v3 f = Ok y3) as G3 by (apply (getF_set_same _ _ _ _ (withStk _ y s)); apply (getF_set_same _ _ _ _ _ G2)).
  assert (loopf _ v3 = f) as L3 by exact L2.
  destruct (stepA v3) as [r3|e|] eqn:ST3; cbn [bind] in RUN; try discriminate.
  destruct (step_inv _ _ ST3) as (z & i & GZ & _ & CZ & EX3). rewrite L3, G3 in GZ. injection GZ as <-. change (f_ip _ y3) with (f_ip _ y + 1) in CZ. rewrite C3 in CZ. injection CZ as <-.
  assert (sops_of u2 = rest) as OU. { apply same_ops in SU. rewrite sops_set in SU. congruence. }
  unfold exec in EX3. rewrite L3, G3 in EX3. cbn [bind] in EX3. unfold ret, pop1, pops in EX3. rewrite L3, G3 in EX3. cbn [bind o_pop aops] in EX3.
  assert (a_pop s 1 = Ok ([VZ r], MkA (a_size s) (set_ops u2 (ps2 ++ rest)))) as P1.
  { unfold a_pop, s. cbn [a_stk a_size]. rewrite sops_set, set_set, OU. reflexivity. }
  change (f_stk _ y3) with s in EX3. rewrite P1 in EX3. cbn [bind] in EX3.
  replace (r =? RETURN_FROM_FIBER) with false in EX3 by (unfold RETURN_FROM_FIBER; lia).
  set (y4 := withStk _ y3 (MkA (a_size s) (set_ops u2 (ps2 ++ rest)))) in *. set (v4 := setF _ v3 f (Some y4)) in *.
  assert (getF _ v4 f = Ok y4) as G4 by (apply (getF_set_same _ _ _ _ _ G3)). change (loopf _ v4) with (loopf _ v3) in EX3. rewrite L3, G4 in EX3. cbn [bind] in EX3.
  assert (a_pop (f_stk _ y4) (length args) = Ok (ps2, MkA (a_size s) (set_ops u2 rest))) as P2.
  { unfold a_pop, y4. cbn [f_stk withStk a_stk a_size]. rewrite sops_set, set_set, LP, app_length. destruct (Nat.leb_spec (length ps2) (length ps2 + length rest)); [|lia].
    rewrite firstn_app, firstn_all, Nat.sub_diag, skipn_app, skipn_all, Nat.sub_diag. cbn [firstn skipn app]. rewrite app_nil_r. reflexivity. }
  rewrite P2 in EX3. cbn [bind] in EX3. set (y5 := withStk _ y4 (MkA (a_size s) (set_ops u2 rest))) in *. set (v5 := setF _ v4 f (Some y5)) in *.
  assert (getF _ v5 f = Ok y5) as G5 by (apply (getF_set_same _ _ _ _ _ G4)). unfold goto in EX3. change (loopf _ v5) with (loopf _ v3) in EX3. rewrite L3, G5 in EX3. cbn [bind] in EX3.
  set (v6 := setF _ v5 f (Some (withIp _ y5 r))) in *. assert (getF _ v6 f = Ok (withIp _ y5 r)) as G6 by (apply (getF_set_same _ _ _ _ _ G5)).
  change (loopf _ v6) with (loopf _ v3) in EX3. rewrite L3, G6 in EX3. cbn [bind] in EX3. change (f_alive _ (withIp _ y5 r)) with (f_alive _ y) in EX3. rewrite AL in EX3.
  change (f_ip _ (withIp _ y5 r)) with r in EX3. replace (r =? RETURN_FROM_VM) with false in EX3 by (unfold RETURN_FROM_VM; lia). cbn [negb orb] in EX3. injection EX3 as <-.
  injection RUN as <-. exists v6, (withIp _ y5 r). split; [reflexivity|]. split; [exact L3|]. split; [exact G6|]. split; [reflexivity|].
  change (f_stk _ (withIp _ y5 r)) with (MkA (a_size s) (set_ops u2 rest)). cbn [a_size a_stk]. split; [change (a_size s) with (a_size (f_stk _ y)); congruence|].
  rewrite <- OU, set_self. exact (eq_ind _ (fun q => same (set_ops (a_stk (f_stk _ x)) q) u2) SU _ (eq_sym OU)).
Qed.
(** ** Reference counts of frames *)
Lemma owner_le : forall size s i, (owner size s i <= depth s)%nat.
Proof. intros size. induction s as [o g|o loc l n r ps u IH]; intros i; cbn [owner depth]; [lia|]. destruct (_ <? _); [lia|]. specialize (IH i). lia. Qed.
Lemma owner_same : forall size s t i, same s t -> owner size s i = owner size t i.
Proof.
  intros size. induction s as [o g|o loc l n r ps s IH]; intros [o2 g2|o2 loc2 l2 n2 r2 ps2 t] i S; cbn [same] in S; try contradiction; cbn [owner]; [reflexivity|].
  destruct S as (_ & _ & _ & _ & _ & S). rewrite (same_slen _ _ S), (same_depth _ _ S), (IH _ i S). reflexivity.
Qed.
Lemma refS_refs : forall size s i dl s' d, refS size s i dl = Ok s' -> refsAt d s' = refsAt d s + (if Nat.eqb (owner size s i) d then dl else 0).
Proof.
  intros size. induction s as [o g|o loc l n r ps u IH]; intros i dl s' d H; cbn [refS] in H; [discriminate|]. cbn [owner].
  destruct (_ <? _).
  - injection H as <-. cbn [refsAt]. destruct (Nat.eqb _ _); lia.
  - destruct (_ || _); [discriminate|]. destruct (refS size u i dl) as [u'|e|] eqn:E; cbn [bind] in H; try discriminate. injection H as <-. cbn [refsAt].
    rewrite <- (same_depth _ _ (refS_same _ _ _ _ _ E)), (IH _ _ _ d E). pose proof (owner_le size u i).
    destruct (Nat.eqb_spec (S (depth u)) d), (Nat.eqb_spec (owner size u i) d); lia.
Qed.
Lemma a_ref_refs : forall s i dl s' d, a_ref s i dl = Ok s' -> (0 < d)%nat ->
  refsAt d (a_stk s') = refsAt d (a_stk s) + (if (a_top s <=? i) && (i <? a_size s) && Nat.eqb (owner (a_size s) (a_stk s) i) d then dl else 0).
Proof.
  intros s i dl s' d H D. unfold a_ref in H. destruct (_ && _); [|injection H as <-; cbn [andb]; lia]. cbn [andb].
  destruct (a_stk s) as [|o loc l n r ps u] eqn:ES; [injection H as <-; rewrite ES; cbn [owner refsAt]; destruct d; [lia|]; cbn; reflexivity|].
  rewrite <- ES in *. destruct (refS _ _ _ _) as [t|e|] eqn:E; cbn [bind] in H; try discriminate. injection H as <-. cbn [a_stk]. apply (refS_refs _ _ _ _ _ d E).
Qed.
Lemma visits_set : forall n v g x y p f, getF _ v g = Ok x -> f_parent _ y = f_parent _ x -> visits n (setF _ v g (Some y)) p f = visits n v p f.
Proof.
  induction n as [|n IH]; intros v g x y p f G E; cbn [visits]; [reflexivity|]. cbn [setF fibs]. rewrite nth_error_upd. destruct (Nat.eqb_spec g p) as [->|NE].
  - pose proof (getF_lt _ _ _ _ G) as L. apply Nat.ltb_lt in L. rewrite L. apply getF_nth in G as G2. pose proof (fun q => IH v p x y q f G E) as IHq. rewrite G2, E.
    destruct (f_parent _ x); [|reflexivity]. f_equal. apply IHq.
  - destruct (nth_error (fibs _ v) p) as [[z|]|]; try reflexivity. destruct (f_parent _ z); [|reflexivity]. f_equal. apply (IH v g x y); assumption.
Qed.
Lemma refChain_refs : forall n v g f i dl w x y d, refChain _ aops n v g f i dl = Ok w -> getF _ v f = Ok x -> getF _ w f = Ok y -> (0 < d)%nat ->
  refsAt d (a_stk (f_stk _ y)) = refsAt d (a_stk (f_stk _ x)) +
    (if (a_top (f_stk _ x) <=? i) && (i <? a_size (f_stk _ x)) && Nat.eqb (owner (a_size (f_stk _ x)) (a_stk (f_stk _ x)) i) d then visits n v g f * dl else 0).
Proof.
  induction n as [|n IH]; intros v g f i dl w x y d H G GW D; cbn [refChain] in H; [discriminate|]. cbn [visits].
  destruct (getF _ v g) as [z|e|] eqn:GZ; cbn [bind] in H; try discriminate. pose proof (getF_nth _ _ _ _ GZ) as NZ. rewrite NZ.
  destruct (Nat.eqb_spec g f) as [->|NE].
  - rewrite G in GZ. injection GZ as <-. destruct (o_ref aops (f_stk _ x) i dl) as [s|e|] eqn:ER; cbn [bind] in H; try discriminate.
    cbn [aops o_ref] in ER. pose proof (a_ref_refs _ _ _ _ d ER D) as RR. pose proof (ref_top _ _ _ _ ER) as TT. apply ref_same in ER as (SZ & SM).
    set (x1 := withStk _ x s) in *. set (v1 := setF _ v f (Some x1)) in *. assert (getF _ v1 f = Ok x1) as G1 by (apply (getF_set_same _ _ _ _ _ G)).
    destruct (f_parent _ x) as [p|] eqn:EP.
    + rewrite (IH _ _ _ _ _ _ _ _ _ H G1 GW D). subst v1. rewrite (visits_set _ _ _ x) by (exact G || reflexivity). change (f_stk _ x1) with s.
      rewrite TT, <- SZ, <- (owner_same _ _ _ i SM), RR. destruct (_ && _); lia.
    + injection H as <-. rewrite G1 in GW. injection GW as <-. change (f_stk _ x1) with s. rewrite RR. destruct (_ && _); lia.
  - cbn [bind] in H. destruct (f_parent _ z) as [p|].
    + rewrite (IH _ _ _ _ _ _ _ _ _ H G GW D). destruct (_ && _); lia.
    + injection H as <-. rewrite G in GW. injection GW as <-. destruct (_ && _); lia.
Qed.
Lemma next_stk : forall v w f x y, next _ v = Ok w -> getF _ v f = Ok x -> getF _ w f = Ok y -> f_stk astk y = f_stk _ x.
Proof.
  intros v w f x y H G GW. unfold next in H. destruct (getF _ v (loopf _ v)) as [z|e|] eqn:E; cbn [bind] in H; try discriminate. injection H as <-.
  destruct (Nat.eq_dec (loopf _ v) f) as [<-|NE].
  - rewrite (getF_set_same _ _ _ _ _ E) in GW. injection GW as <-. rewrite E in G. injection G as <-. reflexivity.
  - rewrite getF_set_other in GW by exact NE. congruence.
Qed.
Lemma step_refs : forall v w f x y d, stepA v = Ok (Go _ w) -> getF _ v f = Ok x -> getF _ w f = Ok y -> (0 < d)%nat -> (d <= depth (a_stk (f_stk _ x)))%nat ->
  (d <= depth (a_stk (f_stk _ y)))%nat -> refsAt d (a_stk (f_stk _ y)) = refsAt d (a_stk (f_stk _ x)) + counted code v f d.
Proof.
  intros v w f x y d H G GW D DX DY. destruct (step_inv _ _ H) as (z & i & GZ & _ & CZ & EX). unfold counted. rewrite GZ, G, CZ.
  assert ((exists l, i = IEnter l) \/ i = ILeave \/ (exists dl, i = IRef dl) \/ ((forall l, i <> IEnter l) /\ i <> ILeave /\ forall dl, i <> IRef dl)) as C.
  { destruct i; try (right; right; right; split; [|split]; congruence); eauto 6. }
  destruct C as [(l & ->)|[->|[(dl & ->)|(C1 & C2 & C3)]]].
  - destruct (enter_inv _ _ _ EX) as (x2 & s & GX & ES & EW). injection EW as ->. rewrite Z.add_0_r.
    destruct (Nat.eq_dec f (loopf _ v)) as [->|NE].
    + rewrite (getF_set_same _ _ _ _ (withStk _ x2 s)) in GW by (apply (getF_set_same _ _ _ _ _ GX)). injection GW as <-. rewrite G in GX. injection GX as <-. cbn [f_stk withIp withStk].
      unfold a_enter in ES. destruct (_ || _); [discriminate|]. destruct (sops_of (a_stk (f_stk _ x))) as [|[r| | | |] rest]; try discriminate.
      destruct (Nat.leb _ _); [|discriminate]. injection ES as <-. cbn [a_stk refsAt]. rewrite depth_set, refsAt_set. destruct (Nat.eqb_spec (S (depth (a_stk (f_stk _ x)))) d); [lia|reflexivity].
    + rewrite getF_set2 in GW by congruence. rewrite G in GW. injection GW as <-. reflexivity.
  - destruct (leave_inv _ _ EX) as (x2 & s & GX & ES & EW). injection EW as ->. rewrite Z.add_0_r.
    destruct (Nat.eq_dec f (loopf _ v)) as [->|NE].
    + rewrite (getF_set_same _ _ _ _ (withStk _ x2 s)) in GW by (apply (getF_set_same _ _ _ _ _ GX)). injection GW as <-. rewrite G in GX. injection GX as <-. cbn [f_stk withIp withStk] in *.
      unfold a_leave in ES. destruct (a_stk (f_stk _ x)) as [|o loc l n r ps u]; [discriminate|]. destruct (n =? 0); [|discriminate]. injection ES as <-. cbn [a_stk a_size] in *.
      rewrite depth_set in DY. rewrite refsAt_set. cbn [refsAt]. destruct (Nat.eqb_spec (S (depth u)) d); [lia|reflexivity].
    + rewrite getF_set2 in GW by congruence. rewrite G in GW. injection GW as <-. reflexivity.
  - unfold exec in EX. rewrite GZ in EX. cbn [bind] in EX. unfold go, pop1, pops in EX. rewrite GZ in EX. cbn [bind o_pop aops] in EX.
    unfold a_pop in EX. destruct (sops_of (a_stk (f_stk _ z))) as [|p rest] eqn:SO; [discriminate|]. cbn [length Nat.leb firstn bind] in EX.
    destruct p as [zz|f' a| | |]; try (cbn [bind] in EX; destruct (next _ v) as [w2|e|] eqn:EN; cbn [bind] in EX; try discriminate; injection EX as ->;
      rewrite (next_stk _ _ _ _ _ EN G GW); lia).
    destruct (refChain _ aops (length (fibs _ v)) v (vmf _ v) f' a dl) as [w1|e|] eqn:ER; cbn [bind] in EX; try discriminate.
    destruct (next _ w1) as [w2|e|] eqn:EN; cbn [bind] in EX; try discriminate. injection EX as ->.
    assert (exists y1, getF _ w1 f = Ok y1) as (y1 & GY1).
    { unfold next in EN. destruct (getF _ w1 (loopf _ w1)) as [q|e|] eqn:EQ; cbn [bind] in EN; try discriminate. injection EN as <-.
      destruct (Nat.eq_dec (loopf _ w1) f) as [<-|NE]; [eauto|]. rewrite getF_set_other in GW by exact NE. eauto. }
    rewrite (next_stk _ _ _ _ _ EN GY1 GW).
    destruct (Nat.eqb_spec f' f) as [->|NE]; cbn [andb].
    + apply (refChain_refs _ _ _ _ _ _ _ _ _ _ ER G GY1 D).
    + rewrite Z.add_0_r. assert (getF _ w1 f = getF _ v f) as EQ; [|congruence].
      clear -ER NE. revert ER. generalize (length (fibs _ v)) as n. generalize (vmf _ v) as g. intros g n. revert v g. induction n as [|n IH]; intros v g ER; cbn [refChain] in ER; [discriminate|].
      destruct (getF _ v g) as [q|e|] eqn:EQ; cbn [bind] in ER; try discriminate. destruct (Nat.eqb_spec g f') as [->|N2].
      * destruct (o_ref _ _ _ _) as [s|e|]; cbn [bind] in ER; try discriminate. destruct (f_parent _ q); [rewrite (IH _ _ ER)|injection ER as <-]; apply getF_set_other; exact NE.
      * cbn [bind] in ER. destruct (f_parent _ q); [exact (IH _ _ ER)|injection ER as <-; reflexivity].
  - assert (Pr false (involved v) v (Go _ w)) as PP. { eapply exec_Pr; [exact EX|exact C1|exact C2|auto|]. intros _. exact C3. }
    cbn in PP. apply getF_nth in G as G0. apply getF_nth in GW as GW0. destruct (PP _ _ G0) as (y2 & N & K). rewrite GW0 in N. injection N as <-. destruct K as (_ & _ & _ & _ & K & _).
    rewrite <- (K eq_refl d). destruct i; try (destruct (sops_of (a_stk (f_stk _ z))) as [|[]]; lia); exfalso; eapply C3; reflexivity.
Qed.
Lemma within_refs : forall n f d v w x y total, within code ext f d n v w total -> getF _ v f = Ok x -> (0 < d)%nat -> (d <= depth (a_stk (f_stk _ x)))%nat -> getF _ w f = Ok y ->
  refsAt d (a_stk (f_stk _ y)) = refsAt d (a_stk (f_stk _ x)) + total.
Proof.
  induction n as [|n IH]; intros f d v w x y total W G D DX GW; cbn [within] in W.
  - destruct W as (<- & ->). rewrite G in GW. injection GW as <-. lia.
  - destruct W as (v1 & ST & (y1 & GY & DY) & W). pose proof (step_refs _ _ _ _ _ _ ST G GY D DX DY) as S1.
    pose proof (IH _ _ _ _ _ _ _ W GY D DY GW) as S2. lia.
Qed.
Lemma call_escape : forall v v1 v2 f x y l r args rest n total,
  loopf _ v = f -> getF _ v f = Ok x -> code (f_ip _ x) = Some (IEnter l) -> sops_of (a_stk (f_stk _ x)) = VZ r :: args ++ rest -> len args = l_params l ->
  stepA v = Ok (Go _ v1) ->
  within code ext f (S (depth (a_stk (f_stk _ x)))) n v1 v2 total ->
  loopf _ v2 = f -> getF _ v2 f = Ok y -> depth (a_stk (f_stk _ y)) = S (depth (a_stk (f_stk _ x))) ->
  code (f_ip _ y) = Some ILeave -> MIN_FREE <= a_top (f_stk _ y) ->
  (total <> 0 -> stepA v2 = Err EEscape) /\ (total = 0 -> exists w, stepA v2 = Ok (Go _ w)).
Proof.
  intros v v1 v2 f x y l r args rest n total L G C O LA ST W L2 G2 D C2 TOP.
  destruct (step_enter _ _ _ _ _ _ _ _ L G C O LA ST) as (L1 & x1 & G1 & S1 & K1).
  assert (depth (a_stk (f_stk _ x1)) = S (depth (a_stk (f_stk _ x)))) as DX by (rewrite K1; cbn [depth]; rewrite depth_set; reflexivity).
  pose proof (within_refs _ _ _ _ _ _ _ _ W G1 ltac:(lia) ltac:(lia) G2) as RF.
  rewrite K1 in RF. cbn [refsAt] in RF. rewrite depth_set, Nat.eqb_refl in RF.
  destruct (a_stk (f_stk _ y)) as [|o2 loc2 l2 n2 r2 ps2 u2] eqn:SK; [discriminate|]. cbn [refsAt depth] in *. injection D as D. rewrite D, Nat.eqb_refl in RF.
  unfold step, topOf. rewrite L2, G2. cbn [bind o_top aops]. destruct (Z.ltb_spec (a_top (f_stk _ y)) MIN_FREE); [lia|]. cbn [bind]. rewrite C2.
  unfold exec, onStk. rewrite L2, G2. cbn [bind go o_leave aops]. unfold a_leave. rewrite SK. split; intros T.
  - destruct (Z.eqb_spec n2 0); [lia|]. reflexivity.
  - destruct (Z.eqb_spec n2 0); [|lia]. cbn [bind]. unfold next. cbn [loopf setF]. rewrite L2, (getF_set_same _ _ _ _ _ G2). cbn [bind]. unfold go. cbn [bind]. eauto.
Qed.
End Steps.
