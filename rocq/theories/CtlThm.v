(** Compiled functions; switches. *)
From Coq Require Import ZArith Bool List Lia.
From Verif Require Import Base NumModel NumExtra MemModel BlkModel GenModel GenVm GenSpec GenSim GenRun CtlModel CtlSpec CtlProofs CtlGen CtlRun.
Import ListNotations.
Local Open Scope nat_scope.

Lemma popStubs_rep n ms : popStubs n (repeat Stub n ++ ms) = Some ms.
Proof. induction n; cbn [repeat app popStubs]; [reflexivity|assumption]. Qed.
Lemma nested_checks rest : forall ks ms, nested ms (map (fun kv => ACaseConstantCheck (fst kv) (snd kv)) ks ++ rest) = nested (repeat Stub (length ks) ++ ms) rest.
Proof.
  induction ks as [|k ks IH]; intro ms; [reflexivity|]. cbn [map app nested nest1 length]. rewrite IH. f_equal.
  change (repeat Stub (S (length ks))) with (Stub :: repeat Stub (length ks)). rewrite repeat_cons, <- app_assoc. reflexivity.
Qed.
Lemma nested_reqs rest : forall qs ms, nested ms (map AReq qs ++ rest) = nested ms rest.
Proof. induction qs as [|q qs IH]; intro ms; [reflexivity|]. cbn [map app nested nest1]. apply IH. Qed.
Lemma nested_all :
  (forall p ms rest, nested ms (acts p ++ rest) = nested ms rest) /\
  (forall cs ms rest, nested ms (cacts cs ++ rest) = nested (repeat Stub (ncases cs) ++ ms) rest) /\
  (forall cs ms rest, nested ms (tacts cs ++ rest) = nested (repeat Stub (ntcases cs) ++ ms) rest).
Proof.
  apply stmt_mut; intros; cbn [acts cacts tacts ncases ntcases];
  repeat first [rewrite <- app_assoc | rewrite nested_checks | rewrite nested_reqs | match goal with H : forall ms rest, nested ms _ = _ |- _ => rewrite H end | rewrite popStubs_rep | progress (cbn [app nested nest1])];
  try reflexivity.
  - f_equal. change (repeat Stub (S ?n)) with (Stub :: repeat Stub n). rewrite repeat_cons, <- app_assoc. reflexivity.
  - f_equal. change (repeat Stub (S ?n)) with (Stub :: repeat Stub n). rewrite repeat_cons, <- app_assoc. reflexivity.
Qed.
Lemma nested_fn body epi : nested [] (fnActs body epi) = Some [].
Proof.
  unfold fnActs. cbn [nested nest1]. rewrite (proj1 nested_all). cbn [nested nest1]. rewrite nested_reqs. reflexivity.
Qed.

(** The code of a function. *)
Definition closed (body : stmt) : Prop := wf body = true /\ leaves GBreak body = false /\ leaves GContinue body = false.
Lemma fn_code body epi g : wf body = true -> genActs emitPlain genInit (fnActs body epi) = Ok g ->
  code g = cg body 0 (mkT None None (Some (sz body))) ++ map instr_of epi ++ [IHalt].
Proof.
  intros W Q. pose proof (proj1 G_all body W) as GB.
  assert (gen (view genInit) (fnActs body epi) (mkP (cg body 0 (mkT None None (Some (sz body))) ++ map instr_of epi ++ [IHalt]) [] [] [] [])) as G.
  { unfold fnActs, view, genInit; cbn [rc gstack brk cnt ret rev].
    apply (gen_cons _ (mkP [] [] [] [] [[]])); [apply a_gprolog|].
    apply (gen_app _ (mkP (cg body 0 T0) [] [] [] [rev (gpos GReturn body)])).
    { eapply gen_eq; [apply GB|]. unfold ext; cbn [pk psv pb pcn pr length adds app]. rewrite app_nil_r. unfold sh. rewrite map_id. reflexivity. }
    apply (gen_cons _ (mkP (cg body 0 (mkT None None (Some (sz body)))) [] [] [] [])).
    { eapply gen_eq; [apply a_gepilog; reflexivity|]. cbv zeta. cbn [with_pg pk psv pb pcn pr]. rewrite putall_rev, cg_len, fill by (assumption || reflexivity). reflexivity. }
    eapply gen_eq; [eapply gen_app; [apply a_reqs|apply a_req]|]. cbn [pk psv pb pcn pr instr_of]. rewrite <- app_assoc. reflexivity. }
  specialize (G _ _ eq_refl Q). unfold view in G. unfold code. congruence.
Qed.

Section Fn.
Variable H : Type.
Variable E : env H.

Section Strict.
Variable strict : bool.
Lemma loop_leaves general c b q w s' : (forall s z v, c s = Go (Jmp v) z -> False) -> (forall s z v, q s = Go (Jmp v) z -> False) ->
  forall j s, loop (H := H) general c b q j s = Go (Jmp w) s' -> w = GReturn /\ exists s1, b s1 = Go (Jmp w) s'.
Proof.
  intros C Q. induction j as [|j IH]; intros s L; [discriminate|]. cbn [loop] in L. destruct (c s) as [[|v] s1|r|] eqn:F; cbn [on] in L; try discriminate.
  2:{ exfalso. eapply C; eassumption. }
  unfold test, top in L. unfold room at 1 in L. destruct (_ <? _)%Z; [discriminate|]. destruct (stk (co s1)) as [|v l]; [discriminate|].
  set (s2 := wc s1 _) in *. destruct (negb _).
  - assert (forall s3, (if general then room 0 s3 else fun x => x) (on (q s3) (fun s => room 0 s (loop general c b q j s))) = Go (Jmp w) s' -> w = GReturn /\ exists s1, b s1 = Go (Jmp w) s') as X.
    { intros s3 X. assert (on (q s3) (fun s => room 0 s (loop general c b q j s)) = Go (Jmp w) s') as Y by (destruct general; [unfold room at 1 in X; destruct (_ <? _)%Z; [discriminate|exact X]|exact X]).
      destruct (q s3) as [[|u] s4|r|] eqn:G; cbn [on] in Y; try discriminate. 2:{ exfalso. eapply Q; eassumption. }
      unfold room in Y. destruct (_ <? _)%Z; [discriminate|]. eapply IH; exact Y. }
    destruct (b s2) as [[|[| |]] s3|r|] eqn:B; try discriminate.
    + exact (X s3 L).
    + exact (X s3 L).
    + assert (w = GReturn /\ s3 = s') as (-> & ->) by (split; congruence). split; [reflexivity|]. exists s2. exact B.
  - destruct general; [unfold room in L; destruct (_ <? _)%Z|]; discriminate.
Qed.
Lemma room_go k s x w z : room (H := H) k s x = Go w z -> x = Go w z.
Proof. unfold room. destruct (_ <? _)%Z; [discriminate|auto]. Qed.
Lemma prim_go i s w z : prim E strict i s = Go (Jmp w) z -> False.
Proof. unfold prim. destruct i; try (destruct (step E strict _ s); discriminate). unfold room. destruct (_ <? _)%Z; discriminate. Qed.
Lemma prims_go : forall l s w z, prims E strict l s = Go (Jmp w) z -> False.
Proof.
  induction l as [|i l IH]; intros s w z Q; cbn [prims] in Q; [discriminate|]. destruct (prim E strict i s) as [[|v] y|r|] eqn:P; cbn [on] in Q; try discriminate.
  - eapply IH; exact Q.
  - eapply prim_go; exact P.
Qed.
Lemma on_go x f w z : on (H := H) x f = Go (Jmp w) z -> x = Go (Jmp w) z \/ exists s, f s = Go (Jmp w) z.
Proof. destruct x as [[|v] s|r|]; cbn [on]; intro Q; try discriminate; [right; exists s; exact Q|left; exact Q]. Qed.
Lemma test_go s f w z : test (H := H) s f = Go w z -> exists b s', f b s' = Go w z.
Proof. unfold test, top. intro Q. apply room_go in Q. destruct (stk (co s)); [discriminate|]. eexists. eexists. exact Q. Qed.
Lemma top_go s f w z : top (H := H) s f = Go w z -> exists v s', f v s' = Go w z.
Proof. unfold top. destruct (stk (co s)); [discriminate|]. eauto. Qed.
Lemma matches_go : forall ks s f w z, matches E ks s f = Go w z -> exists b, f b = Go w z.
Proof.
  induction ks as [|[k v] ks IH]; intros s f w z Q; cbn [matches] in Q; [eauto|]. apply room_go in Q. destruct (doBinary _ _ _ _ _) as [b|e|]; try discriminate.
  destruct (b =? 0)%Z; [eapply IH; exact Q|eauto].
Qed.
Lemma quiet_no p w : quiet p = true -> leaves w p = true -> False.
Proof.
  unfold quiet. intros Q L. apply negb_true_iff in Q. apply orb_false_elim in Q. destruct Q as (Q & C). apply orb_false_elim in Q. destruct Q as (A & B). destruct w; congruence.
Qed.
Lemma ev_leaves n :
  (forall p, wf p = true -> forall s w z, ev E strict n p s = Go (Jmp w) z -> leaves w p = true) /\
  (forall cs, cwf cs = true -> forall d s w z, evc E strict n cs d s = Go (Jmp w) z -> cleaves w cs = true \/ exists s, d s = Go (Jmp w) z) /\
  (forall cs, twf cs = true -> forall d s w z, evt E strict n cs d s = Go (Jmp w) z -> tleaves w cs = true \/ exists s, d s = Go (Jmp w) z).
Proof.
  apply stmt_mut; cbn [wf cwf twf leaves cleaves tleaves ev evc evt]; intros;
  repeat match goal with H : _ && _ = true |- _ => apply andb_prop in H; destruct H end;
  repeat match goal with H : ?a = true -> _, K : ?a = true |- _ => specialize (H K) end.
  - discriminate.
  - exfalso. eapply prim_go. eassumption.
  - match goal with Q : on _ _ = _ |- _ => apply on_go in Q; destruct Q as [Q|(s1 & Q)] end; apply orb_true_iff; [left|right]; eauto.
  - match goal with Q : context [stk (co s)] |- _ => destruct (stk (co s)) as [|v l] eqn:K; [apply room_go in Q; discriminate|apply room_go in Q; destruct (Bool.eqb _ _); [discriminate|]; unfold top in Q; rewrite K in Q] end. eauto.
  - match goal with Q : test _ _ = _ |- _ => apply test_go in Q; destruct Q as ([|] & s1 & Q); [|discriminate] end. eauto.
  - match goal with Q : test _ _ = _ |- _ => apply test_go in Q; destruct Q as ([|] & s1 & Q) end; apply orb_true_iff.
    + match goal with Q : on _ _ = _ |- _ => apply on_go in Q; destruct Q as [Q|(s2 & Q)]; [left; eauto|apply room_go in Q; discriminate] end.
    + right. eauto.
  - match goal with Q : room _ _ _ = _ |- _ => apply room_go in Q; apply top_go in Q; destruct Q as (v & s0 & Q); apply orb_true_iff; apply H0 in Q; destruct Q as [Q|(s1 & Q)] end; [left; assumption|right; eauto].
  - match goal with Q : on _ _ = _ |- _ => apply on_go in Q; destruct Q as [Q|(s1 & Q)]; [|exfalso; eapply prim_go; exact Q]; apply orb_true_iff; apply H0 in Q; destruct Q as [Q|(s1 & Q)] end; [left; assumption|right; eauto].
  - match goal with Q : on _ _ = _ |- _ => apply on_go in Q; destruct Q as [Q|(s1 & Q)] end; [exfalso; eapply quiet_no; [|eauto]; eassumption|].
    match goal with Q : loop _ _ _ _ _ _ = _ |- _ => eapply loop_leaves in Q; [|intros; eapply (quiet_no cond); eauto|intros; eapply (quiet_no post); eauto]; destruct Q as (-> & s2 & Q) end.
    cbn [goto_eqb andb]. eauto.
  - match goal with Q : on _ _ = _ |- _ => apply on_go in Q; destruct Q as [Q|(s1 & Q)] end; [exfalso; eapply quiet_no; [|eauto]; eassumption|].
    match goal with Q : loop _ _ _ _ _ _ = _ |- _ => eapply loop_leaves in Q; [|intros; eapply (quiet_no cond); eauto|intros; eapply (quiet_no post); eauto]; destruct Q as (-> & s2 & Q) end.
    cbn [goto_eqb andb]. eauto.
  - match goal with Q : room _ _ _ = _ |- _ => apply room_go in Q end. assert (w0 = w) as -> by congruence. destruct w; reflexivity.
  - right. eauto.
  - match goal with Q : matches _ _ _ _ = _ |- _ => apply matches_go in Q; destruct Q as ([|] & Q) end; rewrite orb_true_iff.
    + match goal with Q : on _ _ = _ |- _ => apply on_go in Q; destruct Q as [Q|(s2 & Q)]; [left; left; eauto|apply room_go in Q; discriminate] end.
    + match goal with Q : room _ _ _ = _ |- _ => apply room_go in Q; apply H1 in Q; destruct Q as [Q|Q] end; auto.
  - right. eauto.
  - match goal with Q : on _ _ = _ |- _ => apply on_go in Q; destruct Q as [Q|(s1 & Q)] end; [exfalso; eapply prims_go; eassumption|].
    match goal with Q : test _ _ = _ |- _ => apply test_go in Q; destruct Q as ([|] & s2 & Q) end; rewrite orb_true_iff.
    + match goal with Q : on _ _ = _ |- _ => apply on_go in Q; destruct Q as [Q|(s3 & Q)]; [left; left; eauto|apply room_go in Q; discriminate] end.
    + match goal with Q : on _ _ = _ |- _ => apply on_go in Q; destruct Q as [Q|(s3 & Q)]; [exfalso; eapply prim_go; exact Q|]; apply H1 in Q; destruct Q as [Q|Q] end; auto.
Qed.

(** Exactly what the plain code does. *)
Lemma fn_sim body epi g n s : closed body -> genActs emitPlain genInit (fnActs body epi) = Ok g ->
  match evFn E strict n body epi s with Stop r => exists k, run E strict k (code g) 0 s = Fin r | Fuel => run E strict n (code g) 0 s = OutOfFuel | Go _ _ => False end.
Proof.
  intros (W & LB & LC) Q. pose proof (fn_code _ _ _ W Q) as C. set (T := mkT None None (Some (sz body))) in *.
  assert (has (code g) 0 (cg body 0 T)) as A by (exists [], (map instr_of epi ++ [IHalt]); split; [rewrite C; reflexivity|reflexivity]).
  assert (has (code g) (sz body) (map instr_of epi ++ [IHalt])) as B by (exists (cg body 0 T), []; split; [rewrite C, app_nil_r; reflexivity|apply cg_len]).
  apply has_app in B. destruct B as (B & B'). apply has_cons in B'. destruct B' as (NH & _).
  assert (forall s, sim H E strict (code g) n (sz body) s (on (prims E strict (map instr_of epi) s) (prim E strict IHalt)) 0 T) as FIN.
  { intro s1. eapply sim_on; [apply sim_prims; [exact B|apply instrs_nj]|]. intro s2. unfold prim, room. rewrite Z.add_0_r.
    destruct (_ <? _)%Z eqn:O; exists 1; cbn [run]; rewrite NH, O; reflexivity. }
  assert (forall s, match on (prims E strict (map instr_of epi) s) (prim E strict IHalt) with Go _ _ => False | _ => True end) as NG.
  { intro s1. destruct (prims E strict _ s1) as [[|w] s2|r|] eqn:P; cbn [on]; auto.
    - unfold prim, room. destruct (_ <? _)%Z; exact Logic.I.
    - eapply prims_go; exact P. }
  pose proof (proj1 (R_all H E strict (code g) n) body 0 T s A) as R. cbn [Nat.add] in R. unfold evFn.
  destruct (ev E strict n body s) as [[|w] s1|r|] eqn:F.
  - specialize (FIN s1). specialize (NG s1). destruct (on _ _) as [w z|r|]; [exact NG| |].
    + eapply (sim_reach H E strict (code g) n) in FIN; [|exact R]. exact FIN.
    + eapply (sim_reach H E strict (code g) n) in FIN; [|exact R]. exact FIN.
  - pose proof (proj1 (ev_leaves n) body W s w s1 F) as L. destruct w; try congruence. cbn [sim tg T tr] in R.
    specialize (FIN s1). specialize (NG s1). destruct (on _ _) as [w z|r|]; [exact NG| |].
    + eapply (sim_reach H E strict (code g) n) in FIN; [|exact R]. exact FIN.
    + eapply (sim_reach H E strict (code g) n) in FIN; [|exact R]. exact FIN.
  - exact R.
  - exact R.
Qed.
Lemma fn_plain body epi g s r : closed body -> genActs emitPlain genInit (fnActs body epi) = Ok g ->
  ((exists n, evFn E strict n body epi s = Stop r) <-> (exists k, run E strict k (code g) 0 s = Fin r)).
Proof.
  intros C Q. split.
  - intros (n & F). pose proof (fn_sim body epi g n s C Q) as S. rewrite F in S. exact S.
  - intros (k & F). exists k. pose proof (fn_sim body epi g k s C Q) as S. destruct (evFn E strict k body epi s) as [w z|r'|]; [contradiction| |congruence].
    destruct S as (j & S). f_equal. pose proof (run_mono H E strict _ _ (k + j) _ _ _ F ltac:(lia)). pose proof (run_mono H E strict _ _ (k + j) _ _ _ S ltac:(lia)). congruence.
Qed.
End Strict.

Hypothesis EOK : refcnt_ok E.
Lemma fn_thm body epi go : closed body -> genActs (genReq (elm E)) genInit (fnActs body epi) = Ok go -> forall s,
  (forall n r, evFn E true n body epi s = Stop r -> ~ bad r ->
     (exists m, evFn E false m body epi s = Stop r) /\ exists k r', run E false k (code go) 0 s = Fin r' /\ same_res r r') /\
  (forall k r', run E false k (code go) 0 s = Fin r' -> exists n r, evFn E true n body epi s = Stop r /\ (bad r \/ same_res r r')).
Proof.
  intros C Q s. destruct (whole_thm H E EOK _ _ _ (nested_fn body epi) Q) as (gp & P & W). destruct (W s) as (A & B). split.
  - intros n r F NB. destruct (proj1 (fn_plain true body epi gp s r C P) (ex_intro _ n F)) as (k & K). destruct (A k r K NB) as (K' & X). split; [|exact X].
    apply (fn_plain false body epi gp s r C P). exists k. exact K'.
  - intros k r' K. destruct (B k r' K) as (n & r & N & O). destruct (proj2 (fn_plain true body epi gp s r C P) (ex_intro _ n N)) as (m & M). exists m, r. split; assumption.
Qed.
End Fn.
