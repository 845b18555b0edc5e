(** The code generator without optimisations makes the code of CtlProofs.v. *)
From Coq Require Import ZArith Bool List Lia.
From Verif Require Import Base NumModel MemModel BlkModel GenModel GenVm GenSpec GenSim CtlModel CtlSpec CtlProofs.
Import ListNotations.
Local Open Scope nat_scope.

Record pv : Type := mkP { pk : list instr; psv : list nat; pb : list (list nat); pcn : list (list nat); pr : list (list nat) }.
Definition view (g : gst) : pv := mkP (rev (rc g)) (gstack g) (brk g) (cnt g) (ret g).
Definition gen (v : pv) (l : list act) (v' : pv) : Prop := forall g g', view g = v -> genActs emitPlain g l = Ok g' -> view g' = v'.
Lemma genActs_app e : forall l1 l2 g, genActs e g (l1 ++ l2) = (let* g := genActs e g l1 in genActs e g l2).
Proof. induction l1 as [|a l IH]; intros; [reflexivity|]. cbn [app genActs]. destruct (genAct e g a); cbn [bind]; [apply IH| |]; reflexivity. Qed.
Lemma gen_nil v : gen v [] v.
Proof. intros g g' V Q. cbn in Q. congruence. Qed.
Lemma gen_app v v1 v2 l1 l2 : gen v l1 v1 -> gen v1 l2 v2 -> gen v (l1 ++ l2) v2.
Proof. intros A B g g' V Q. rewrite genActs_app in Q. destruct (genActs emitPlain g l1) eqn:F; cbn [bind] in Q; try discriminate. eapply B; [eapply A|]; eassumption. Qed.
Lemma gen_cons v v1 v2 a l : gen v [a] v1 -> gen v1 l v2 -> gen v (a :: l) v2.
Proof. apply (gen_app v v1 v2 [a] l). Qed.
Lemma gen1 v a v' : (forall g g', view g = v -> genAct emitPlain g a = Ok g' -> view g' = v') -> gen v [a] v'.
Proof. intros A g g' V Q. cbn [genActs] in Q. destruct (genAct emitPlain g a) as [g0| |] eqn:F; cbn [bind] in Q; try discriminate. assert (g0 = g') as -> by congruence. eapply A; eassumption. Qed.

Lemma upd_view g p : view (genUpdateLastJump g p) = view g.
Proof. unfold genUpdateLastJump. destruct (_ <? _); reflexivity. Qed.
Lemma ip_view g : ip g = length (pk (view g)).
Proof. unfold ip, view; cbn [pk]. rewrite rev_length. reflexivity. Qed.
Lemma v_add g i : view (genAddInstr g i) = mkP (pk (view g) ++ [i]) (psv (view g)) (pb (view g)) (pcn (view g)) (pr (view g)).
Proof. unfold view, genAddInstr, with_rc; cbn. reflexivity. Qed.
Lemma v_save g g' : genSavePos g = Ok g' -> view g' = mkP (pk (view g)) (length (pk (view g)) :: psv (view g)) (pb (view g)) (pcn (view g)) (pr (view g)).
Proof.
  unfold genSavePos. destruct (_ <=? _); [discriminate|]. intro Q. cbv zeta in Q. rewrite <- ip_view. 
  match type of Q with Ok ?x = Ok _ => assert (g' = x) as -> by congruence end. clear Q. unfold genUpdateLastJump. destruct (_ <? _); reflexivity.
Qed.
Lemma v_stub g g' : genStub emitPlain g = Ok g' ->
  view g' = mkP (pk (view g) ++ [INop]) (length (pk (view g)) :: psv (view g)) (pb (view g)) (pcn (view g)) (pr (view g)).
Proof.
  unfold genStub. destruct (genSavePos g) as [g1| |] eqn:S; cbn [bind]; try discriminate. unfold emitPlain; cbn [instr_of]. intro Q.
  assert (g' = genAddInstr g1 INop) as -> by congruence. rewrite v_add, (v_save _ _ S). reflexivity.
Qed.
Lemma v_restore g p g' : genRestorePos g = Ok (p, g') -> exists r, psv (view g) = p :: r /\ view g' = mkP (pk (view g)) r (pb (view g)) (pcn (view g)) (pr (view g)).
Proof.
  unfold genRestorePos, view; cbn [psv pk pb pcn pr]. destruct (gstack g) as [|q r]; [discriminate|]. intro Q. exists r.
  assert (p = q /\ g' = mkgst (rc g) (lastJump g) r (brk g) (cnt g) (ret g)) as (-> & ->) by (split; congruence). split; reflexivity.
Qed.
Lemma v_gft g j a d g' : genGoFromTo g j a d = Ok g' -> a < length (pk (view g)) /\ view g' = mkP (setnth (pk (view g)) a (IJump j d)) (psv (view g)) (pb (view g)) (pcn (view g)) (pr (view g)).
Proof.
  unfold genGoFromTo. destruct (a <? ip g) eqn:L; [|discriminate]. cbv zeta. intro Q. apply Nat.ltb_lt in L.
  match type of Q with Ok ?x = Ok _ => assert (g' = x) as -> by congruence end. clear Q. split; [rewrite <- ip_view; exact L|].
  set (g1 := genUpdateLastJump (genUpdateLastJump g a) d).
  assert (view g1 = view g) as V by (unfold g1; rewrite !upd_view; reflexivity).
  assert (rc g1 = rc g) as R by (unfold g1, genUpdateLastJump; destruct (_ <? _); destruct (_ <? _); reflexivity).
  assert (ip g1 = ip g) as I by (rewrite !ip_view, V; reflexivity).
  unfold view in V |- *. cbn [with_rc rc gstack brk cnt ret pk psv pb pcn pr]. injection V as _ -> -> -> ->. f_equal.
  rewrite I, R. unfold ip in *. apply setnth_rev. exact L.
Qed.
Lemma v_goto g j d : view (genGoto g j d) = mkP (pk (view g) ++ [IJump j d]) (psv (view g)) (pb (view g)) (pcn (view g)) (pr (view g)).
Proof. unfold genGoto. rewrite v_add, !upd_view. reflexivity. Qed.
Lemma v_fixup g j d g' : genFixup g j d = Ok g' -> exists p r, psv (view g) = p :: r /\
  view g' = mkP (setnth (pk (view g)) p (IJump j (length (pk (view g)) + d))) r (pb (view g)) (pcn (view g)) (pr (view g)).
Proof.
  unfold genFixup. destruct (genRestorePos g) as [[p g1]| |] eqn:R; cbn [bind]; try discriminate. intro Q. apply v_restore in R. destruct R as (r & S & V).
  apply v_gft in Q. rewrite ip_view, V in Q. destruct Q as (_ & Q). exists p, r. split; [exact S|]. rewrite Q. reflexivity.
Qed.
Lemma v_fixups j d : forall n g g', genFixups n g j d = Ok g' -> exists ps r, psv (view g) = ps ++ r /\ length ps = n /\
  view g' = mkP (putall (rev ps) (IJump j (length (pk (view g)) + d)) (pk (view g))) r (pb (view g)) (pcn (view g)) (pr (view g)).
Proof.
  induction n as [|n IH]; intros g g' Q; cbn [genFixups] in Q.
  - assert (g' = g) as -> by congruence. exists [], (psv (view g)). repeat split.
  - destruct (genFixup g j d) as [g1| |] eqn:F; cbn [bind] in Q; try discriminate. apply v_fixup in F. destruct F as (p & r & S & V).
    apply IH in Q. destruct Q as (ps & r' & S' & L & V'). rewrite V in S', V'. cbn [psv pk pb pcn pr] in S', V'. subst r.
    exists (p :: ps), r'. split; [exact S|]. split; [cbn; congruence|]. rewrite V'. rewrite setnth_length. cbn [rev]. rewrite putall_app. reflexivity.
Qed.
Lemma setnth_comm {A} (l : list A) : forall p q i, setnth (setnth l p i) q i = setnth (setnth l q i) p i.
Proof. induction l as [|a l IH]; intros [|p] [|q] i; cbn [setnth]; try reflexivity. rewrite IH. reflexivity. Qed.
Lemma putall_set ps p i l : putall ps i (setnth l p i) = setnth (putall ps i l) p i.
Proof. induction ps as [|q ps IH]; [reflexivity|]. cbn [putall fold_right] in *. unfold putall in IH. rewrite IH. apply setnth_comm. Qed.
Lemma putall_rev ps i l : putall (rev ps) i l = putall ps i l.
Proof. induction ps as [|p ps IH]; [reflexivity|]. cbn [rev]. rewrite putall_app. change (putall [p] i l) with (setnth l p i). rewrite putall_set, IH. reflexivity. Qed.

Definition adds (old : list (list nat)) (ps : list nat) : list (list nat) := match old with [] => [] | l :: r => (rev ps ++ l) :: r end.
Lemma adds_nil o : adds o [] = o. Proof. destruct o; reflexivity. Qed.
Lemma adds_app o p q : adds (adds o p) q = adds o (p ++ q).
Proof. destruct o; cbn; [reflexivity|]. rewrite rev_app_distr, app_assoc. reflexivity. Qed.

Lemma a_req v q : gen v [AReq q] (mkP (pk v ++ [instr_of q]) (psv v) (pb v) (pcn v) (pr v)).
Proof. apply gen1. intros g g' <- Q. cbn [genAct] in Q. unfold emitPlain in Q. assert (g' = genAddInstr g (instr_of q)) as -> by congruence. apply v_add. Qed.
Lemma a_reqs : forall qs v, gen v (map AReq qs) (mkP (pk v ++ map instr_of qs) (psv v) (pb v) (pcn v) (pr v)).
Proof.
  induction qs as [|q qs IH]; intros v; cbn [map].
  - rewrite app_nil_r. destruct v; apply gen_nil.
  - eapply gen_cons; [apply a_req|]. replace (pk v ++ instr_of q :: map instr_of qs) with ((pk v ++ [instr_of q]) ++ map instr_of qs) by (rewrite <- app_assoc; reflexivity).
    apply (IH (mkP (pk v ++ [instr_of q]) (psv v) (pb v) (pcn v) (pr v))).
Qed.
Lemma a_stub v : gen v [AIfCondEpilog] (mkP (pk v ++ [INop]) (length (pk v) :: psv v) (pb v) (pcn v) (pr v)).
Proof. apply gen1. intros g g' <- Q. apply v_stub. exact Q. Qed.
Lemma a_wstub v : gen v [AWhileCondEpilog] (mkP (pk v ++ [INop]) (length (pk v) :: psv v) (pb v) (pcn v) (pr v)).
Proof. exact (a_stub v). Qed.
Lemma a_ifend k p s b c r : gen (mkP k (p :: s) b c r) [AIfEpilog] (mkP (setnth k p (IJump JIfNot (length k))) s b c r).
Proof.
  apply gen1. intros g g' V Q. apply v_fixup in Q. destruct Q as (p' & r' & S & V'). rewrite V in *. cbn [psv pk pb pcn pr] in *. rewrite V'.
  rewrite Nat.add_0_r. congruence.
Qed.
Lemma a_ieend k p s b c r : gen (mkP k (p :: s) b c r) [AIfElseEpilog] (mkP (setnth k p (IJump JGoto (length k))) s b c r).
Proof.
  apply gen1. intros g g' V Q. apply v_fixup in Q. destruct Q as (p' & r' & S & V'). rewrite V in *. cbn [psv pk pb pcn pr] in *. rewrite V'.
  rewrite Nat.add_0_r. congruence.
Qed.
Lemma a_scend i k p s b c r : gen (mkP k (p :: s) b c r) [AShortCircuitEpilog i] (mkP (setnth k p (IJump (if i then JIfNot else JIf) (length k))) s b c r).
Proof.
  apply gen1. intros g g' V Q. apply v_fixup in Q. destruct Q as (p' & r' & S & V'). rewrite V in *. cbn [psv pk pb pcn pr] in *. rewrite V'.
  rewrite Nat.add_0_r. congruence.
Qed.
Lemma v_fix1 g j g' k p s b c r : view g = mkP k (p :: s) b c r -> (let* g := genFixup g j 1 in genStub emitPlain g) = Ok g' ->
  view g' = mkP (setnth k p (IJump j (length k + 1)) ++ [INop]) (length k :: s) b c r.
Proof.
  intros V Q. destruct (genFixup g j 1) as [g1| |] eqn:F; cbn [bind] in Q; try discriminate. apply v_fixup in F. destruct F as (p' & r' & S & V').
  rewrite V in *. cbn [psv pk pb pcn pr] in *. apply v_stub in Q. rewrite V' in Q. cbn [psv pk pb pcn pr] in Q. rewrite Q. rewrite setnth_length. congruence.
Qed.
Lemma a_else k p s b c r : gen (mkP k (p :: s) b c r) [AElseProlog] (mkP (setnth k p (IJump JIfNot (length k + 1)) ++ [INop]) (length k :: s) b c r).
Proof. apply gen1. intros g g' V Q. eapply v_fix1; eassumption. Qed.
Lemma a_caseend k p s b c r : gen (mkP k (p :: s) b c r) [ACaseBlockEpilog] (mkP (setnth k p (IJump JGoto (length k + 1)) ++ [INop]) (length k :: s) b c r).
Proof. apply gen1. intros g g' V Q. eapply v_fix1; eassumption. Qed.
Lemma a_scprolog v : gen v [AShortCircuitProlog] (mkP (pk v ++ [IDup; INop; IPop 1]) (S (length (pk v)) :: psv v) (pb v) (pcn v) (pr v)).
Proof.
  apply gen1. intros g g' <- Q. cbn [genAct] in Q. unfold genShortCircuitProlog, emitPlain at 1 in Q. cbn [bind instr_of] in Q.
  destruct (genStub _ _) as [g1| |] eqn:F; cbn [bind] in Q; try discriminate. apply v_stub in F. unfold emitPlain in Q; cbn [instr_of] in Q.
  assert (g' = genAddInstr g1 (IPop 1)) as -> by congruence. rewrite v_add, F, v_add. cbn [pk psv pb pcn pr]. rewrite app_length, <- !app_assoc. cbn [length app].
  f_equal. f_equal. lia.
Qed.
Lemma a_switch v : gen v [ASwitchCondEpilog] (mkP (pk v ++ [IPopReg RSwitch]) (psv v) (pb v) (pcn v) (pr v)).
Proof. exact (a_req v (QPopReg RSwitch)). Qed.
Lemma a_check v k x : gen v [ACaseConstantCheck k x] (mkP (pk v ++ chk None (k, x)) (length (pk v) + 3 :: psv v) (pb v) (pcn v) (pr v)).
Proof.
  apply gen1. intros g g' <- Q. cbn [genAct] in Q. unfold genCaseConstantCheck, emitPlain in Q. cbn [bind instr_of] in Q. apply v_stub in Q.
  rewrite Q, !v_add. cbn [pk psv pb pcn pr]. rewrite !app_length, <- !app_assoc. cbn [length app]. f_equal. f_equal. lia.
Qed.
Lemma a_checks : forall ks v, gen v (map (fun kv => ACaseConstantCheck (fst kv) (snd kv)) ks)
  (mkP (pk v ++ flat_map (chk None) ks) (rev (sh (length (pk v)) (kpos ks)) ++ psv v) (pb v) (pcn v) (pr v)).
Proof.
  induction ks as [|[k x] ks IH]; intros v; cbn [map].
  - cbn. rewrite app_nil_r. destruct v; apply gen_nil.
  - eapply gen_cons; [apply a_check|]. cbn [fst snd]. eapply (fun a b => eq_ind _ (fun t => gen _ _ t) a _ b); [apply IH|]. cbn [pk psv pb pcn pr flat_map kpos].
    rewrite <- app_assoc. f_equal. cbn [sh map rev]. rewrite <- app_assoc. f_equal. f_equal.
    rewrite app_length. cbn [chk length]. change (map (Nat.add ?n) (sh 4 ?l)) with (sh n (sh 4 l)). rewrite sh_sh. reflexivity.
Qed.
Lemma app_inj_len {A} (a b c d : list A) : length a = length c -> a ++ b = c ++ d -> a = c /\ b = d.
Proof. revert c. induction a as [|x a IH]; intros [|y c] L Q; cbn in *; try discriminate; [auto|]. injection Q as -> Q. apply IH in Q; [|congruence]. destruct Q. split; congruence. Qed.
Lemma a_block k ps s b c r : gen (mkP k (ps ++ s) b c r) [ACaseBlockProlog (length ps)] (mkP (putall ps (IJump JIf (length k + 1)) k ++ [INop]) (length k :: s) b c r).
Proof.
  apply gen1. intros g g' V Q. cbn [genAct] in Q. unfold genCaseBlockProlog in Q. destruct (genFixups _ _ _ _) as [g1| |] eqn:F; cbn [bind] in Q; try discriminate.
  apply v_fixups in F. destruct F as (p' & r' & S & L & V'). rewrite V in *. cbn [psv pk pb pcn pr] in *. apply app_inj_len in S; [|congruence]. destruct S as (<- & <-).
  apply v_stub in Q. rewrite Q, V'. cbn [psv pk pb pcn pr]. rewrite putall_len, putall_rev. reflexivity.
Qed.
Lemma a_swend k ps s b c r : gen (mkP k (ps ++ s) b c r) [ASwitchEpilog (length ps)] (mkP (putall ps (IJump JGoto (length k)) k) s b c r).
Proof.
  apply gen1. intros g g' V Q. cbn [genAct] in Q. unfold genSwitchEpilog in Q.
  apply v_fixups in Q. destruct Q as (p' & r' & S & L & V'). rewrite V in *. cbn [psv pk pb pcn pr] in *. apply app_inj_len in S; [|congruence]. destruct S as (<- & <-).
  rewrite V', putall_rev, Nat.add_0_r. reflexivity.
Qed.
Lemma a_head v : gen v [AForCondProlog] (mkP (pk v) (length (pk v) :: psv v) (pb v) (pcn v) (pr v)).
Proof. apply gen1. intros g g' <- Q. apply v_save. exact Q. Qed.
Lemma a_wend k p h s b c r : gen (mkP k (p :: h :: s) b c r) [AWhileEpilog] (mkP (setnth k p (IJump JIfNot (length k + 1)) ++ [IJump JGoto h]) s b c r).
Proof.
  apply gen1. intros g g' V Q. cbn [genAct] in Q. unfold genWhileEpilog in Q. destruct (genFixup g JIfNot 1) as [g1| |] eqn:F; cbn [bind] in Q; try discriminate.
  apply v_fixup in F. destruct F as (p' & r' & S & V'). destruct (genRestorePos g1) as [[p2 g2]| |] eqn:R; cbn [bind] in Q; try discriminate.
  apply v_restore in R. destruct R as (r2 & S2 & V2). assert (g' = genGoto g2 JGoto p2) as -> by congruence. rewrite v_goto, V2. rewrite V' in *. rewrite V in *. cbn [psv pk pb pcn pr] in *. congruence.
Qed.
Lemma a_fce v : gen v [AForCondEpilog] (mkP (pk v ++ [INop; INop]) (length (pk v) :: psv v) (pb v) (pcn v) (pr v)).
Proof.
  apply gen1. intros g g' <- Q. cbn [genAct] in Q. unfold genForCondEpilog in Q. destruct (genStub _ _) as [g1| |] eqn:F; cbn [bind] in Q; try discriminate.
  apply v_stub in F. unfold emitPlain in Q; cbn [instr_of] in Q. assert (g' = genAddInstr g1 INop) as -> by congruence. rewrite v_add, F. cbn [pk psv pb pcn pr].
  rewrite <- app_assoc. reflexivity.
Qed.
Lemma a_fpost k e h s b c r : e < length k -> gen (mkP k (e :: h :: s) b c r) [AForPostStmtEpilog]
  (mkP (setnth k e (IJump JIf (S (length k))) ++ [IJump JGoto h]) (e :: s) b c r).
Proof.
  intro L. apply gen1. intros g g' V Q. cbn [genAct] in Q. unfold genForPostStmtEpilog in Q. destruct (genRestorePos g) as [[p1 g1]| |] eqn:R1; cbn [bind] in Q; try discriminate.
  destruct (genRestorePos g1) as [[p2 g2]| |] eqn:R2; cbn [bind] in Q; try discriminate.
  apply v_restore in R1, R2. destruct R1 as (r1 & S1 & V1), R2 as (r2 & S2 & V2). cbv zeta in Q.
  destruct (genGoFromTo _ _ _ _) as [g3| |] eqn:F; cbn [bind] in Q; try discriminate. destruct (_ <=? _); [discriminate|].
  rewrite V1 in S2, V2. rewrite V in S1, S2, V2. cbn [psv pk pb pcn pr] in *. injection S1 as <- <-. injection S2 as <- <-.
  rewrite ip_view in F. apply v_gft in F. destruct F as (_ & F). rewrite v_goto, V2 in F. cbn [psv pk pb pcn pr] in F.
  rewrite app_length in F. cbn [length] in F. rewrite setnth_app_l in F by exact L. replace (length k + 1) with (S (length k)) in F by lia.
  match type of Q with Ok ?x = Ok _ => assert (g' = x) as -> by congruence end. clear Q. destruct g3; unfold view in *; cbn in *. congruence.
Qed.
Lemma a_forend k e s b c r : S e < length k -> gen (mkP k (e :: s) b c r) [AForEpilog]
  (mkP (setnth k (S e) (IJump JGoto (S (length k))) ++ [IJump JGoto (e + 2)]) s b c r).
Proof.
  intro L. apply gen1. intros g g' V Q. cbn [genAct] in Q. unfold genForEpilog in Q. destruct (genRestorePos g) as [[p1 g1]| |] eqn:R1; cbn [bind] in Q; try discriminate.
  cbv zeta in Q. apply v_restore in R1. destruct R1 as (r1 & S1 & V1). rewrite V in *. cbn [psv pk pb pcn pr] in *. injection S1 as <- <-.
  rewrite ip_view in Q. apply v_gft in Q. destruct Q as (_ & F). rewrite v_goto, V1 in F. cbn [psv pk pb pcn pr] in F.
  rewrite app_length in F. cbn [length] in F. rewrite setnth_app_l in F by lia. replace (e + 1) with (S e) in F by lia. replace (length k + 1) with (S (length k)) in F by lia. exact F.
Qed.
Definition pg (v : pv) (w : goto) : list (list nat) := match w with GBreak => pb v | GContinue => pcn v | GReturn => pr v end.
Definition with_pg (v : pv) (w : goto) (l : list (list nat)) : pv :=
  match w with
  | GBreak => mkP (pk v) (psv v) l (pcn v) (pr v)
  | GContinue => mkP (pk v) (psv v) (pb v) l (pr v)
  | GReturn => mkP (pk v) (psv v) (pb v) (pcn v) l
  end.
Lemma v_gotos g w : gotos g w = pg (view g) w. Proof. destruct w; reflexivity. Qed.
Lemma v_setg g w l : view (set_gotos g w l) = with_pg (view g) w l. Proof. destruct w; reflexivity. Qed.
Lemma a_gprolog v w : gen v [AGotosProlog w] (with_pg v w ([] :: pg v w)).
Proof. apply gen1. intros g g' <- Q. cbn [genAct] in Q. unfold genGotosProlog in Q. assert (g' = set_gotos g w ([] :: gotos g w)) as -> by congruence. rewrite v_setg, v_gotos. reflexivity. Qed.
Lemma a_gstub v w : gen v [AGotosAddStub w] (let v := with_pg v w (adds (pg v w) [length (pk v)]) in mkP (pk v ++ [INop]) (psv v) (pb v) (pcn v) (pr v)).
Proof.
  apply gen1. intros g g' <- Q. cbn [genAct] in Q. unfold genGotosAddStub in Q. rewrite v_gotos in Q. destruct (pg (view g) w) as [|l r]; [discriminate|].
  destruct (_ <=? _); [discriminate|]. unfold emitPlain in Q. cbn [instr_of] in Q. match type of Q with Ok ?x = Ok _ => assert (g' = x) as -> by congruence end.
  rewrite v_add, v_setg, ip_view. reflexivity.
Qed.
Lemma v_gfix : forall l g g', genGotosFix l g = Ok g' ->
  view g' = mkP (putall l (IJump JGoto (length (pk (view g)))) (pk (view g))) (psv (view g)) (pb (view g)) (pcn (view g)) (pr (view g)).
Proof.
  induction l as [|p l IH]; intros g g' Q; cbn [genGotosFix] in Q.
  - assert (g' = g) as -> by congruence. reflexivity.
  - destruct (genGotosFix l g) as [g1| |] eqn:F; cbn [bind] in Q; try discriminate. apply IH in F. rewrite ip_view in Q. apply v_gft in Q. destruct Q as (_ & Q).
    rewrite F in Q. cbn [pk psv pb pcn pr] in Q. rewrite putall_len in Q. exact Q.
Qed.
Lemma a_gepilog v w l r : pg v w = l :: r -> gen v [AGotosEpilog w] (let v := with_pg v w r in mkP (putall l (IJump JGoto (length (pk v))) (pk v)) (psv v) (pb v) (pcn v) (pr v)).
Proof.
  intro P. apply gen1. intros g g' <- Q. cbn [genAct] in Q. unfold genGotosEpilog in Q. rewrite v_gotos, P in Q. destruct (genGotosFix l g) as [g1| |] eqn:F; cbn [bind] in Q; try discriminate.
  assert (g' = set_gotos g1 w r) as -> by congruence. rewrite v_setg, (v_gfix _ _ _ F). destruct w; reflexivity.
Qed.

Definition T0 : tgts := mkT None None None.
Definition ext (v : pv) (p : stmt) : pv :=
  let n := length (pk v) in
  mkP (pk v ++ cg p n T0) (psv v) (adds (pb v) (sh n (gpos GBreak p))) (adds (pcn v) (sh n (gpos GContinue p))) (adds (pr v) (sh n (gpos GReturn p))).
Definition cext (v : pv) (p : cases) : pv :=
  let n := length (pk v) in
  mkP (pk v ++ ccg p n T0 None) (rev (sh n (epos p)) ++ psv v) (adds (pb v) (sh n (cgpos GBreak p))) (adds (pcn v) (sh n (cgpos GContinue p))) (adds (pr v) (sh n (cgpos GReturn p))).
Definition text (v : pv) (p : tcases) : pv :=
  let n := length (pk v) in
  mkP (pk v ++ tcg p n T0 None) (rev (sh n (tepos p)) ++ psv v) (adds (pb v) (sh n (tgpos GBreak p))) (adds (pcn v) (sh n (tgpos GContinue p))) (adds (pr v) (sh n (tgpos GReturn p))).
Lemma gen_eq v l x y : gen v l x -> x = y -> gen v l y.
Proof. intros G <-. exact G. Qed.
Lemma sh_app n p q : sh n (p ++ q) = sh n p ++ sh n q.
Proof. apply map_app. Qed.
Lemma setnth_mid {A} n (l : list A) x r i : n = length l -> setnth (l ++ x :: r) n i = l ++ i :: r.
Proof. intros ->. rewrite setnth_app_r by lia. rewrite Nat.sub_diag. reflexivity. Qed.
Lemma setnth_at {A} m n (l : list A) r i : n = length l + m -> setnth (l ++ r) n i = l ++ setnth r m i.
Proof. intros ->. rewrite setnth_app_r by lia. replace (length l + m - length l) with m by lia. reflexivity. Qed.
Ltac fe := lazymatch goal with
  | |- @eq nat _ _ => lia
  | |- _ => first [reflexivity | progress f_equal; fe]
  end.
Ltac nrm := cbn [pk psv pb pcn pr app length]; repeat first [rewrite app_length | rewrite cg_len | rewrite ccg_len | rewrite tcg_len | rewrite chks_len | rewrite sh_app | rewrite sh_sh | rewrite adds_app
  | rewrite <- app_assoc | progress (cbn [pk psv pb pcn pr app length])].
Lemma adds_eq o p q : p = q -> adds o p = adds o q. Proof. intros ->; reflexivity. Qed.
Lemma a_swend2 n k ps s b c r : n = length ps -> gen (mkP k (ps ++ s) b c r) [ASwitchEpilog n] (mkP (putall ps (IJump JGoto (length k)) k) s b c r).
Proof. intros ->. apply a_swend. Qed.
Lemma a_block2 n k ps s b c r : n = length ps -> gen (mkP k (ps ++ s) b c r) [ACaseBlockProlog n] (mkP (putall ps (IJump JIf (length k + 1)) k ++ [INop]) (length k :: s) b c r).
Proof. intros ->. apply a_block. Qed.
Lemma set4 {A} n (a b c : list A) x r i : n = length a + length b + length c -> setnth (a ++ b ++ c ++ x :: r) n i = a ++ b ++ c ++ i :: r.
Proof. intros ->. rewrite (app_assoc b), (app_assoc a). rewrite setnth_mid by (rewrite !app_length; lia). rewrite <- !app_assoc. reflexivity. Qed.
Lemma set5 {A} n (a b c : list A) y x r i : n = length a + length b + length c -> setnth (a ++ b ++ c ++ y :: x :: r) (S n) i = a ++ b ++ c ++ y :: i :: r.
Proof. intros ->. rewrite (app_assoc b), (app_assoc a). rewrite (setnth_at 1) by (rewrite !app_length; lia). cbn [setnth]. rewrite <- !app_assoc. reflexivity. Qed.
Lemma re3 {A} (a b c : list A) x l r : a ++ b ++ c ++ x :: l ++ r = (a ++ b ++ c ++ [x]) ++ l ++ r.
Proof. rewrite <- !app_assoc. reflexivity. Qed.
Lemma re4 {A} (a b c : list A) x y p z l : a ++ b ++ c ++ x :: y :: p ++ z :: l = (a ++ b ++ c ++ x :: y :: p ++ [z]) ++ l.
Proof. rewrite <- !app_assoc. cbn [app]. rewrite <- app_assoc. reflexivity. Qed.
Lemma G_all :
  (forall p, wf p = true -> forall v, gen v (acts p) (ext v p)) /\
  (forall cs, cwf cs = true -> forall v, gen v (cacts cs) (cext v cs)) /\
  (forall cs, twf cs = true -> forall v, gen v (tacts cs) (text v cs)).
Proof.
  apply stmt_mut; cbn [wf cwf twf acts cacts tacts]; intros;
  repeat match goal with H : _ && _ = true |- _ => apply andb_prop in H; destruct H end;
  repeat match goal with H : ?a = true -> _, K : ?a = true |- _ => specialize (H K) end.
  - eapply gen_eq; [apply gen_nil|]. unfold ext; cbn. rewrite app_nil_r, !adds_nil. destruct v; reflexivity.
  - eapply gen_eq; [apply a_req|]. unfold ext; cbn. rewrite !adds_nil. reflexivity.
  - eapply gen_eq; [eapply gen_app; [apply H|apply H0]|]. unfold ext; cbn [cg gpos]. nrm. fe.
  - eapply gen_eq; [eapply gen_cons; [apply a_scprolog|eapply gen_app; [apply H|apply a_scend]]|]. unfold ext; cbn [cg gpos]. nrm.
    rewrite (setnth_at 1) by lia. cbn [setnth]. fe.
  - eapply gen_eq; [eapply gen_cons; [apply a_stub|eapply gen_app; [apply H|apply a_ifend]]|]. unfold ext; cbn [cg gpos]. nrm.
    rewrite (setnth_at 0) by lia. cbn [setnth]. fe.
  - eapply gen_eq; [eapply gen_cons; [apply a_stub|eapply gen_app; [apply H|eapply gen_cons; [apply a_else|eapply gen_app; [apply H0|apply a_ieend]]]]|]. unfold ext; cbn [cg gpos]. nrm.
    rewrite (setnth_at 0 (length (pk v))) by lia. cbn [setnth]. nrm. rewrite (setnth_at (1 + sz a)) by lia. cbn [Nat.add setnth]. rewrite (setnth_at 0) by (rewrite cg_len; lia). cbn [setnth]. fe.
  - eapply gen_eq.
    + eapply gen_cons; [apply a_switch|eapply gen_app; [apply H|eapply gen_app; [apply H0|]]]. apply a_swend2.
      unfold sh. rewrite rev_length, map_length, epos_len. reflexivity.
    + unfold ext, cext; cbn [cg gpos]. rewrite putall_rev. nrm.
      change (pk v ++ IPopReg RSwitch :: ?l) with (pk v ++ [IPopReg RSwitch] ++ l). rewrite app_assoc. rewrite putall_mid. 2:{ rewrite app_length; reflexivity. } 2:{ rewrite ccg_len. apply epos_lt. }
      rewrite fill_e. rewrite <- app_assoc. cbn [app]. fe.
  - eapply gen_eq.
    + eapply gen_app; [apply H|eapply gen_app; [apply H0|]]. eapply gen_cons; [|apply a_req]. apply a_swend2.
      unfold sh. rewrite rev_length, map_length, tepos_len. reflexivity.
    + unfold ext, text; cbn [cg gpos]. rewrite putall_rev. nrm.
      rewrite putall_mid by (rewrite ?tcg_len; first [reflexivity|apply tepos_lt]). 
      rewrite fill_te. rewrite <- !app_assoc. cbn [app instr_of]. fe.
  - destruct v as [K S b c r]. unfold ext; cbn [pk psv pb pcn pr cg gpos]. cbv zeta. remember (length K) as n eqn:En.
    assert (forall p v, quiet p = true -> (forall v, gen v (acts p) (ext v p)) -> gen v (acts p) (mkP (pk v ++ cg p (length (pk v)) T0) (psv v) (pb v) (pcn v) (pr v))) as GQ.
    { intros p v Q F. eapply gen_eq; [apply F|]. unfold ext. rewrite !(quiet_gpos _ p Q). cbn [sh map]. rewrite !adds_nil. reflexivity. }
    remember (n + sz init) as hd eqn:Eh. remember (hd + sz cond + 1) as m eqn:Em. remember (m + sz body) as e eqn:Ee.
    apply (gen_cons _ (mkP K S ([] :: b) c r)); [apply a_gprolog|]. apply (gen_cons _ (mkP K S ([] :: b) ([] :: c) r)); [apply a_gprolog|].
    apply (gen_app _ (mkP (K ++ cg init n T0) S ([] :: b) ([] :: c) r)); [subst n; apply GQ; assumption|].
    apply (gen_cons _ (mkP (K ++ cg init n T0) (hd :: S) ([] :: b) ([] :: c) r)). { eapply gen_eq; [apply a_head|]. nrm. fe. }
    apply (gen_app _ (mkP (K ++ cg init n T0 ++ cg cond hd T0) (hd :: S) ([] :: b) ([] :: c) r)). { eapply gen_eq; [apply GQ; assumption|]. nrm. fe. }
    apply (gen_cons _ (mkP (K ++ cg init n T0 ++ cg cond hd T0 ++ [INop]) (hd + sz cond :: hd :: S) ([] :: b) ([] :: c) r)). { eapply gen_eq; [apply a_wstub|]. nrm. fe. }
    apply (gen_app _ (mkP (K ++ cg init n T0 ++ cg cond hd T0 ++ INop :: cg body m T0) (hd + sz cond :: hd :: S) (rev (sh m (gpos GBreak body)) :: b) (rev (sh m (gpos GContinue body)) :: c) (adds r (sh m (gpos GReturn body))))).
    { eapply gen_eq; [apply H1|]. unfold ext. nrm. cbn [adds]. rewrite !app_nil_r. fe. }
    apply (gen_cons _ (mkP (K ++ cg init n T0 ++ cg cond hd T0 ++ INop :: cg body m (mkT None (Some e) None)) (hd + sz cond :: hd :: S) (rev (sh m (gpos GBreak body)) :: b) c (adds r (sh m (gpos GReturn body))))).
    { eapply gen_eq; [apply a_gepilog; reflexivity|]. cbv zeta. cbn [with_pg pk psv pb pcn pr]. f_equal. rewrite putall_rev.
      rewrite re1, app_assoc. rewrite putall_at by (rewrite !app_length, !cg_len; cbn [length]; lia). rewrite fill by (assumption || reflexivity). rewrite <- app_assoc, <- re1. nrm. cbn [upd T0 tb tc tr]. fe. }
    apply (gen_app _ (mkP (K ++ cg init n T0 ++ cg cond hd T0 ++ INop :: cg body m (mkT None (Some e) None) ++ cg post e T0) (hd + sz cond :: hd :: S) (rev (sh m (gpos GBreak body)) :: b) c (adds r (sh m (gpos GReturn body))))).
    { eapply gen_eq; [apply GQ; assumption|]. nrm. fe. }
    apply (gen_cons _ (mkP (K ++ cg init n T0 ++ cg cond hd T0 ++ IJump JIfNot (e + sz post + 1) :: cg body m (mkT None (Some e) None) ++ cg post e T0 ++ [IJump JGoto hd]) S (rev (sh m (gpos GBreak body)) :: b) c (adds r (sh m (gpos GReturn body))))).
    { eapply gen_eq; [apply a_wend|]. f_equal. rewrite set4 by (rewrite !cg_len; lia). nrm. fe. }
    eapply gen_eq; [apply a_gepilog; reflexivity|]. cbv zeta. cbn [with_pg pk psv pb pcn pr goto_eqb sh map]. rewrite !adds_nil. rewrite putall_rev.
    rewrite re3, putall_mid, fill, <- re3; try assumption; try reflexivity; [|rewrite !app_length, !cg_len; cbn [length]; lia|rewrite cg_len; apply gpos_lt].
    nrm. cbv [upd inner T0 tb tc tr]. change (map (Nat.add n) (sh ?k ?l)) with (sh n (sh k l)). rewrite sh_sh. fe.
  - destruct v as [K S b c r]. unfold ext; cbn [pk psv pb pcn pr cg gpos]. cbv zeta. remember (length K) as n eqn:En.
    assert (forall p v, quiet p = true -> (forall v, gen v (acts p) (ext v p)) -> gen v (acts p) (mkP (pk v ++ cg p (length (pk v)) T0) (psv v) (pb v) (pcn v) (pr v))) as GQ.
    { intros p v Q F. eapply gen_eq; [apply F|]. unfold ext. rewrite !(quiet_gpos _ p Q). cbn [sh map]. rewrite !adds_nil. reflexivity. }
    remember (n + sz init) as hd eqn:Eh. remember (hd + sz cond + 2) as m eqn:Em. remember (m + sz post + 1) as e eqn:Ee.
    apply (gen_cons _ (mkP K S ([] :: b) c r)); [apply a_gprolog|]. apply (gen_cons _ (mkP K S ([] :: b) ([] :: c) r)); [apply a_gprolog|].
    apply (gen_app _ (mkP (K ++ cg init n T0) S ([] :: b) ([] :: c) r)); [subst n; apply GQ; assumption|].
    apply (gen_cons _ (mkP (K ++ cg init n T0) (hd :: S) ([] :: b) ([] :: c) r)). { eapply gen_eq; [apply a_head|]. nrm. fe. }
    apply (gen_app _ (mkP (K ++ cg init n T0 ++ cg cond hd T0) (hd :: S) ([] :: b) ([] :: c) r)). { eapply gen_eq; [apply GQ; assumption|]. nrm. fe. }
    apply (gen_cons _ (mkP (K ++ cg init n T0 ++ cg cond hd T0 ++ [INop; INop]) (hd + sz cond :: hd :: S) ([] :: b) ([] :: c) r)). { eapply gen_eq; [apply a_fce|]. nrm. fe. }
    apply (gen_app _ (mkP (K ++ cg init n T0 ++ cg cond hd T0 ++ INop :: INop :: cg post m T0) (hd + sz cond :: hd :: S) ([] :: b) ([] :: c) r)). { eapply gen_eq; [apply GQ; assumption|]. nrm. fe. }
    apply (gen_cons _ (mkP (K ++ cg init n T0 ++ cg cond hd T0 ++ IJump JIf e :: INop :: cg post m T0 ++ [IJump JGoto hd]) (hd + sz cond :: S) ([] :: b) ([] :: c) r)).
    { eapply gen_eq; [apply a_fpost; nrm; lia|]. f_equal. rewrite set4 by (rewrite !cg_len; lia). nrm. fe. }
    apply (gen_app _ (mkP (K ++ cg init n T0 ++ cg cond hd T0 ++ IJump JIf e :: INop :: cg post m T0 ++ IJump JGoto hd :: cg body e T0) (hd + sz cond :: S)
      (rev (sh e (gpos GBreak body)) :: b) (rev (sh e (gpos GContinue body)) :: c) (adds r (sh e (gpos GReturn body))))).
    { eapply gen_eq; [apply H2|]. unfold ext. nrm. cbn [adds]. rewrite !app_nil_r. fe. }
    apply (gen_cons _ (mkP (K ++ cg init n T0 ++ cg cond hd T0 ++ IJump JIf e :: INop :: cg post m T0 ++ IJump JGoto hd :: cg body e (mkT None (Some (e + sz body)) None)) (hd + sz cond :: S)
      (rev (sh e (gpos GBreak body)) :: b) c (adds r (sh e (gpos GReturn body))))).
    { eapply gen_eq; [apply a_gepilog; reflexivity|]. cbv zeta. cbn [with_pg pk psv pb pcn pr]. f_equal. rewrite putall_rev.
      rewrite re4. rewrite putall_at by (rewrite !app_length, !cg_len; cbn [length]; rewrite !app_length, !cg_len; cbn [length]; lia). rewrite fill by (assumption || reflexivity). rewrite <- re4. nrm. cbn [upd T0 tb tc tr]. fe. }
    apply (gen_cons _ (mkP (K ++ cg init n T0 ++ cg cond hd T0 ++ IJump JIf e :: IJump JGoto (e + sz body + 1) :: cg post m T0 ++ IJump JGoto hd :: cg body e (mkT None (Some (e + sz body)) None) ++ [IJump JGoto m]) S
      (rev (sh e (gpos GBreak body)) :: b) c (adds r (sh e (gpos GReturn body))))).
    { eapply gen_eq; [apply a_forend; nrm; lia|]. f_equal. rewrite set5 by (rewrite !cg_len; lia). nrm. fe. }
    eapply gen_eq; [apply a_gepilog; reflexivity|]. cbv zeta. cbn [with_pg pk psv pb pcn pr goto_eqb sh map]. rewrite !adds_nil. rewrite putall_rev.
    rewrite re4, putall_mid, fill, <- re4; try assumption; try reflexivity;
      [|rewrite !app_length, !cg_len; cbn [length]; rewrite !app_length, !cg_len; cbn [length]; lia|rewrite cg_len; apply gpos_lt].
    nrm. cbv [upd inner T0 tb tc tr]. change (map (Nat.add n) (sh ?k ?l)) with (sh n (sh k l)). rewrite sh_sh. fe.
  - eapply gen_eq; [apply a_gstub|]. cbv zeta. unfold ext. destruct w; cbn; rewrite !adds_nil, Nat.add_0_r; reflexivity.
  - eapply gen_eq; [apply gen_nil|]. unfold cext; cbn. rewrite app_nil_r, !adds_nil. destruct v; reflexivity.
  - destruct v as [K S b c r]. unfold cext; cbn [pk psv pb pcn pr ccg cgpos epos]. cbv zeta. remember (length K) as n eqn:En.
    remember (n + 4 * length ks + 1) as m eqn:Em.
    apply (gen_app _ (mkP (K ++ flat_map (chk None) ks) (rev (sh n (kpos ks)) ++ S) b c r)). { subst n. apply (a_checks ks (mkP K S b c r)). }
    apply (gen_cons _ (mkP (K ++ flat_map (chk (Some m)) ks ++ [INop]) (n + 4 * length ks :: S) b c r)).
    { eapply gen_eq. { apply a_block2. unfold sh. rewrite rev_length, map_length, kpos_len. reflexivity. }
      rewrite putall_rev. rewrite putall_at by exact En. rewrite fill_k. nrm. fe. }
    apply (gen_app _ (mkP (K ++ flat_map (chk (Some m)) ks ++ INop :: cg body m T0) (n + 4 * length ks :: S)
      (adds b (sh m (gpos GBreak body))) (adds c (sh m (gpos GContinue body))) (adds r (sh m (gpos GReturn body))))). { eapply gen_eq; [apply H|]. unfold ext. nrm. fe. }
    apply (gen_cons _ (mkP (K ++ flat_map (chk (Some m)) ks ++ IJump JGoto (m + sz body + 1) :: cg body m T0 ++ [INop]) (m + sz body :: S)
      (adds b (sh m (gpos GBreak body))) (adds c (sh m (gpos GContinue body))) (adds r (sh m (gpos GReturn body))))).
    { eapply gen_eq; [apply a_caseend|]. f_equal; [|nrm; fe]. rewrite app_assoc. rewrite setnth_mid by (nrm; lia). nrm. fe. }
    eapply gen_eq; [apply H0|]. unfold cext. nrm. cbn [stub]. change (map (Nat.add n) (?x :: ?y)) with (n + x :: sh n y). cbn [rev sh map]. change (map (Nat.add n) ?y) with (sh n y). nrm. fe.
  - eapply gen_eq; [apply gen_nil|]. unfold text; cbn. rewrite app_nil_r, !adds_nil. destruct v; reflexivity.
  - destruct v as [K S b c r]. unfold text; cbn [pk psv pb pcn pr tcg tgpos tepos]. cbv zeta. remember (length K) as n eqn:En.
    remember (n + 6) as m eqn:Em. remember (map instr_of (typeTest t)) as tt eqn:Et. assert (length tt = 5) as Lt by (subst tt; reflexivity).
    apply (gen_app _ (mkP (K ++ tt) S b c r)). { subst tt. apply (a_reqs (typeTest t) (mkP K S b c r)). }
    apply (gen_cons _ (mkP (K ++ tt ++ [INop]) (n + 5 :: S) b c r)). { eapply gen_eq; [apply a_stub|]. nrm. fe. }
    apply (gen_app _ (mkP (K ++ tt ++ INop :: cg body m T0) (n + 5 :: S)
      (adds b (sh m (gpos GBreak body))) (adds c (sh m (gpos GContinue body))) (adds r (sh m (gpos GReturn body))))). { eapply gen_eq; [apply H|]. unfold ext. nrm. fe. }
    apply (gen_cons _ (mkP (K ++ tt ++ IJump JIfNot (m + sz body + 1) :: cg body m T0 ++ [INop]) (m + sz body :: S)
      (adds b (sh m (gpos GBreak body))) (adds c (sh m (gpos GContinue body))) (adds r (sh m (gpos GReturn body))))).
    { eapply gen_eq; [apply a_else|]. f_equal; [|nrm; fe]. rewrite app_assoc. rewrite setnth_mid by (nrm; lia). nrm. fe. }
    eapply gen_eq; [eapply gen_cons; [apply a_req|apply H0]|]. unfold text. nrm. cbn [stub instr_of]. change (map (Nat.add n) (?x :: ?y)) with (n + x :: sh n y). cbn [rev sh map]. change (map (Nat.add n) ?y) with (sh n y). nrm. fe.
Qed.
