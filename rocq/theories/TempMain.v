(** Temporaries: functions and programs. *)
From Coq Require Import ZArith Lia Bool List.
From Verif Require Import Base TempModel TempSpec TempBase TempScope TempExpr TempStmt.
Import ListNotations.
Local Open Scope Z_scope.

Lemma mapM_nth : forall A B (f : A -> outcome B) l m i x, mapM f l = Ok m -> nth_error l i = Some x -> exists y, nth_error m i = Some y /\ f x = Ok y.
Proof.
  induction l; intros m i x H E; [destruct i; discriminate|]. cbn in H. destruct (f a) eqn:Fa; cbn in H; try discriminate. destruct (mapM f l) eqn:Ml; cbn in H; try discriminate.
  injection H as <-. destruct i; cbn in *; [injection E as <-; eauto|]. eapply IHl; eauto.
Qed.
Lemma mapM_nth' : forall A B (f : A -> outcome B) l m i y, mapM f l = Ok m -> nth_error m i = Some y -> exists x, nth_error l i = Some x /\ f x = Ok y.
Proof.
  induction l; intros m i y H E; [injection H as <-; destruct i; discriminate|]. cbn in H. destruct (f a) eqn:Fa; cbn in H; try discriminate. destruct (mapM f l) eqn:Ml; cbn in H; try discriminate.
  injection H as <-. destruct i; cbn in *; [injection E as <-; eauto|]. eapply IHl; eauto.
Qed.
Lemma params_slots : forall l k, map islot (paramIdents k l) = seq k (length l).
Proof. induction l; intros k; cbn; auto. f_equal. apply IHl. Qed.
Lemma params_used : forall l k, filter iused (paramIdents k l) = paramIdents k l.
Proof. induction l; intros k; cbn; auto. f_equal. apply IHl. Qed.
Lemma params_in : forall l k i, In i (paramIdents k l) -> (k <= islot i < k + length l)%nat /\ iused i = true /\ nth_error l (islot i - k) = Some (igc i).
Proof.
  induction l as [|gc l]; intros k i H; [destruct H|]. cbn in H. destruct H as [<- |H]; [cbn; rewrite Nat.sub_diag; cbn; split; [lia|auto]|].
  apply IHl in H as (A & B & C). cbn [length]. split; [lia|]. split; auto. destruct (islot i - k)%nat eqn:E; [lia|]. cbn. replace n with (islot i - S k)%nat by lia. exact C.
Qed.
Lemma params_held : forall s al l k pre, length pre = k -> length l = length al -> (forall i, slots s i = nth i (pre ++ al) (VInt 0)) -> held (paramIdents k l) s = al.
Proof.
  induction al as [|v al]; intros [|gc l] k pre Hk Hl H; cbn in Hl; try discriminate; auto. unfold held. cbn [paramIdents map islot]. rewrite H. rewrite app_nth2 by lia. rewrite Hk, Nat.sub_diag. cbn [nth]. f_equal.
  apply (IHal l (S k) (pre ++ [v])); [rewrite app_length; cbn; lia|lia|]. intros i. rewrite <- app_assoc. apply H.
Qed.
Lemma params_wfc : forall l, wfc (Cst (length l) [[]; paramIdents 0 l]).
Proof.
  intros l. split; [discriminate|]. unfold idents. cbn [cblks concat app]. rewrite app_nil_r. split.
  - rewrite params_slots. apply seq_NoDup.
  - intros i H. apply params_in in H as (A & B & C). cbn. split; [lia|auto].
Qed.

Section Main.
Variable gty : list bool.
Variable prog : list fn.
Variable funs : list (nat * (code * code)).
Hypothesis COMP : compile gty prog = Ok funs.
Variable K : bool.
Hypothesis CARE : K = true -> carefulProg prog = true.
Notation tri := (tri funs K).
Notation inv := (inv gty).

Lemma funs_spec : forall f F, nth_error prog f = Some F -> exists body ending, nth_error funs f = Some (length (fparams F), (body, ending)) /\ cfn gty (map sigOf prog) F = Ok (body, ending).
Proof.
  intros f F H. unfold compile in COMP. destruct (mapM_nth _ _ _ _ _ _ _ COMP H) as (y & A & B). destruct (cfn _ _ F) as [[body ending]| | ]; cbn in B; try discriminate.
  injection B as <-. exists body, ending. auto.
Qed.
Lemma funs_ok : forall f F, nth_error prog f = Some F -> exists body ending, nth_error funs f = Some (length (fparams F), (body, ending)).
Proof. intros f F H. destruct (funs_spec f F H) as (b & e & A & _). eauto. Qed.
Lemma fn_step : forall n, (forall m, (m < n)%nat -> fnOK gty prog funs K m) -> fnOK gty prog funs K n.
Proof.
  intros n IH f F k body ending Ef Eb s R al P S0 Sl Ka Kg Fr Cn. destruct (funs_spec f F Ef) as (body' & ending' & A & B). rewrite Eb in A. injection A as -> <- <-.
  unfold cfn in B. destruct (cstmt _ _ _ _ _ _) as [[p c]| | ] eqn:Es; cbn [bind] in B; try discriminate.
  set (ps := paramIdents 0 (fparams F)) in *. set (c0 := Cst (length (fparams F)) [[]; ps]) in *.
  assert (Wf : wfc c0) by apply params_wfc. destruct (stmtFacts _ _ _ _ _ _ _ _ Es Wf) as (W1 & X1).
  assert (Bk : cblks c = [top c; ps]). { destruct X1 as (nw & b & l & Q1 & Q2 & _). injection Q1 as <- <-. unfold top. rewrite Q2. reflexivity. }
  assert (Bd : body = p ++ release (top c) /\ ending = release ps /\ (fresult F <> None -> hasReturn (fbody F) = true)).
  { assert (Tp : top (leave c) = ps) by (unfold top, leave; cbn; rewrite Bk; reflexivity). rewrite Tp in B.
    destruct (fresult F); [destruct (hasReturn _) eqn:Hr; [|discriminate]|]; injection B as <- <-; repeat split; auto; congruence. }
  destruct Bd as (-> & -> & Hr). clear B.
  assert (Len : length (fparams F) = length al) by (clear -Ka; induction Ka; cbn; auto).
  assert (Hp : held ps s = al) by (apply (params_held s al _ 0 []); auto).
  assert (I0 : inv ps s R []).
  { constructor; auto.
    - intros o. rewrite Hp, Cn, occ_nil. lia.
    - intros i Hi. apply params_in in Hi as (Q1 & _ & Q2). rewrite Nat.sub_0_r in Q2. destruct (kinds_nth _ _ _ _ Ka Q2) as (v & Q3 & Q4). rewrite Sl, (nth_error_nth _ _ _ Q3). exact Q4. }
  assert (Lv0 : live [] c0 = ps). { rewrite live_nil. unfold idents, c0. cbn [cblks concat app]. rewrite app_nil_r. apply params_used. }
  assert (Bl0 : below 1 c0 = ps). { unfold below, c0. cbn [cblks length Nat.sub skipn concat]. rewrite app_nil_r. apply params_used. }
  assert (Lvc : live [] c = filter iused (top c) ++ ps). { rewrite live_nil. unfold idents. rewrite Bk. cbn [concat]. rewrite app_nil_r, filter_app. f_equal. apply params_used. }
  assert (End : forall s1 W, (match fresult F with Some gc => W = [res s1] /\ isRef (res s1) = gc | None => W = [] end) -> stk s1 = [] -> inv ps s1 R W ->
      tri n (release ps) s1 (nx (fun s2 => stk s2 = [] /\ after gty F R s2))).
  { intros s1 W HW Ss I1. eapply tri_end; [apply (tri_release funs K gty n ps [] s1 R W P)|].
    - rewrite app_nil_r. unfold ps. rewrite params_used. exact I1.
    - cbn. intros s2 (Q1 & Q2 & Q3 & Q4 & Q5). split; [congruence|]. destruct Q1 as [q1 q2 q3 q4]. constructor; auto.
      + intros o. rewrite q3. cbn [held map]. rewrite occ_nil. destruct (fresult F); [destruct HW as (-> & _); rewrite Q5; lia|subst W; rewrite occ_nil; lia].
      + intros gc Eg. rewrite Q5, Eg in *. tauto. }
  apply tri_app. eapply tri_imp; [eapply (stmts_ok gty prog funs K funs_ok n IH (fbody F)); eauto|].
  - intros q Hq. discriminate.
  - intros Kt. specialize (CARE Kt). unfold carefulProg in CARE. rewrite forallb_forall in CARE. apply CARE. eapply nth_error_In; eauto.
  - rewrite Lv0. exact I0.
  - intros s1 g (S1 & _ & T). destruct g; cbn [post]; try (destruct T as (q & Eq & _); discriminate Eq).
    + destruct T as (Hn & T). rewrite Lvc in T. eapply tri_imp; [apply (tri_release funs K gty n (top c) ps s1 R [] P T)|]. cbn. intros s2 g (-> & Q1 & Q2 & Q3 & Q4 & Q5). split; auto.
      apply (End s2 []); [|congruence|exact Q1]. destruct (fresult F); auto. rewrite Hr in Hn by discriminate. discriminate.
    + split; auto. destruct T as (T & Tk). rewrite Bl0 in T. eapply (End s1 _); [|exact S1|exact T]. destruct (fresult F) as [gc|]; auto.
Qed.
Lemma fns_ok : forall n, fnOK gty prog funs K n.
Proof. intros n. assert (H : forall k m, (m < k)%nat -> fnOK gty prog funs K m) by (induction k; intros m L; [lia|]; apply fn_step; intros j Hj; apply IHk; lia). apply (H (S n)). lia. Qed.
(** A call of a function with its arguments on the stack. *)
Lemma call_spec : forall n f F s R al B, nth_error prog f = Some F -> (forall o, 0 <= R o) -> stk s = rev al ++ B -> kinds (fparams F) al -> kinds gty (globs s) -> balanced R al s ->
  tri n [ICall f] s (nx (fun s' => stk s' = B /\ slots s' = slots s /\ kinds gty (globs s') /\ (forall gc, fresult F = Some gc -> isRef (res s') = gc) /\ balanced R (match fresult F with Some _ => [res s'] | None => [] end) s')).
Proof.
  intros n f F s R al B E P S0 Ka Kg (Cn & Fr). eapply tri_end; [eapply (tri_call gty prog funs K funs_ok n (fun m _ => fns_ok m) f F [] s R []); eauto|].
  - rewrite app_nil_r. constructor; auto. + intros o. rewrite Cn. cbn [held map]. rewrite occ_nil. lia. + intros i [].
  - cbn. intros s' (Q1 & Q2 & Q3 & [q1 q2 q3 q4]). split; auto. split; auto. split; auto. split; auto. split; auto. intros o. rewrite q3. cbn [held map]. rewrite occ_nil. lia.
Qed.
End Main.

Lemma start_balanced : forall gty, balanced (fun _ => 0) [] (start gty) /\ kinds gty (globs (start gty)).
Proof.
  intros gty. split; [split; [|reflexivity]|].
  - intros o. change (0 = 0 + occ o (map (fun gc : bool => if gc then VRef None else VInt 0) gty) + 0).
    assert (H : occ o (map (fun gc : bool => if gc then VRef None else VInt 0) gty) = 0); [|lia]. induction gty as [|[] l]; auto.
  - unfold start. cbn. induction gty as [|[] l]; constructor; auto.
Qed.
Lemma call_exact : forall gty prog funs n f F s outside al rest s' g, compile gty prog = Ok funs -> nth_error prog f = Some F ->
  (forall o, 0 <= outside o) -> stk s = rev al ++ rest -> kinds (fparams F) al -> kinds gty (globs s) -> balanced outside al s -> exec funs n [ICall f] s = Ok (s', g) ->
  g = Next /\ stk s' = rest /\ slots s' = slots s /\ kinds gty (globs s') /\ (forall gc, fresult F = Some gc -> isRef (res s') = gc) /\
  balanced outside (match fresult F with Some _ => [res s'] | None => [] end) s'.
Proof.
  intros gty prog funs n f F s R al B s' g C E P S0 Ka Kg Bl X. pose proof (call_spec gty prog funs C false (fun H => False_ind _ (diff_false_true H)) n f F s R al B E P S0 Ka Kg Bl) as T.
  unfold TempBase.tri in T. rewrite X in T. destruct T as (-> & T). auto.
Qed.
Lemma call_safe : forall gty prog funs n f F s outside al rest, compile gty prog = Ok funs -> carefulProg prog = true -> nth_error prog f = Some F ->
  (forall o, 0 <= outside o) -> stk s = rev al ++ rest -> kinds (fparams F) al -> kinds gty (globs s) -> balanced outside al s -> exec funs n [ICall f] s <> UB.
Proof.
  intros gty prog funs n f F s R al B C Ca E P S0 Ka Kg Bl X. pose proof (call_spec gty prog funs C true (fun _ => Ca) n f F s R al B E P S0 Ka Kg Bl) as T.
  unfold TempBase.tri in T. rewrite X in T. discriminate.
Qed.
Lemma exec_err : forall funs n p s e, exec funs n p s = Err e -> e = EFuel.
Proof.
  assert (Se : forall i s e, step i s <> Err e).
  { assert (Ie : forall v s e, incRef v s <> Err e) by (intros [|[]] s e; cbn; try discriminate; destruct (_ <? _); discriminate).
    assert (De : forall v s e, decRef v s <> Err e) by (intros [|[]] s e; cbn; try discriminate; destruct (_ <? _); discriminate).
    assert (Le : forall v s e, textOf v s <> Err e) by (intros [|[]] s e; cbn; try discriminate; destruct (_ <? _); discriminate).
    intros i s e. destruct i; cbn [step]; destruct (stk s) as [|w0 l0]; try discriminate; auto.
    all: repeat match goal with
      | |- match nth_error ?a ?b with _ => _ end <> _ => destruct (nth_error a b); try discriminate
      | |- (if ?b then _ else _) <> _ => destruct b; try discriminate
      | |- match ?v with VInt _ => _ | VRef _ => _ end <> _ => destruct v; try discriminate
      | |- match ?l with [] => _ | _ :: _ => _ end <> _ => destruct l; try discriminate
      | |- bind (incRef ?v ?s) _ <> _ => let H := fresh in destruct (incRef v s) eqn:H; cbn [bind]; try discriminate; [|exfalso; eapply Ie; eassumption]
      | |- bind (decRef ?v ?s) _ <> _ => let H := fresh in destruct (decRef v s) eqn:H; cbn [bind]; try discriminate; try (exfalso; eapply De; eassumption)
      | |- bind (textOf ?v ?s) _ <> _ => let H := fresh in destruct (textOf v s) eqn:H; cbn [bind]; try discriminate; try (exfalso; eapply Le; eassumption)
      end. }
  intros funs. induction n; intros p s e H; [cbn in H; congruence|]. destruct p as [|i q]; [discriminate|].
  assert (Go : forall p s (k : st * signal -> outcome (st * signal)), (forall x, k x = Err e -> e = EFuel) -> bind (exec funs n p s) k = Err e -> e = EFuel).
  { intros p0 s0 k Hk Hb. destruct (exec funs n p0 s0) eqn:X; cbn in Hb; [eauto| |discriminate]. injection Hb as <-. eauto. }
  destruct i; try (cbn [exec] in H; match type of H with bind (step ?i ?s) _ = _ => destruct (step i s) eqn:Es; cbn [bind] in H; [eauto|exfalso; eapply Se; exact Es|discriminate] end); cbn [exec] in H; try discriminate.
  - destruct (nth_error funs f) as [[k [body ending]]|]; [|discriminate]. destruct (Nat.ltb _ _); [discriminate|]. eapply Go; [|exact H]. intros [s1 g1] H1. destruct g1; try discriminate;
    (eapply Go; [|exact H1]; intros [s2 g2] H2; destruct g2; try discriminate; destruct (stk s2); [|discriminate]; eauto).
  - destruct (stk s) as [|[z|] l]; try discriminate. eapply Go; [|exact H]. intros [s1 g1] H1. destruct g1; try discriminate. eauto.
  - destruct (stk s) as [|[z|] l]; try discriminate. destruct (eqb _ _); [eauto|]. eapply Go; [|exact H]. intros [s1 g1] H1. destruct g1; try discriminate. eauto.
  - eapply Go; [|exact H]. intros [s1 g1] H1. destruct g1; try discriminate. destruct (stk s1) as [|[z|] l]; try discriminate. destruct (z =? 0); [eauto|].
    eapply Go; [|exact H1]. intros [s2 g2] H2. destruct g2; try discriminate; eauto; (eapply Go; [|exact H2]; intros [s3 g3] H3; destruct g3; try discriminate; eauto).
Qed.
Lemma program_exact : forall gty prog F n s g, nth_error prog 0 = Some F -> fparams F = [] -> fresult F = None -> run gty prog n = Ok (s, g) -> balanced (fun _ => 0) [] s /\ stk s = [] /\ kinds gty (globs s).
Proof.
  intros gty prog F n s g E Ep Er H. unfold run in H. destruct (compile gty prog) as [funs| | ] eqn:C; cbn [bind] in H; try discriminate.
  destruct (start_balanced gty) as (A & B). destruct (call_exact gty prog funs n 0 F (start gty) (fun _ => 0) [] [] s g C E) as (_ & Q1 & _ & Q2 & _ & Q3); auto; try lia.
  - rewrite Ep. constructor.
  - rewrite Er in Q3. auto.
Qed.
Lemma program_safe : forall gty prog funs F n, compile gty prog = Ok funs -> nth_error prog 0 = Some F -> fparams F = [] -> carefulProg prog = true -> run gty prog n <> UB.
Proof.
  intros gty prog funs F n C E Ep Ca H. unfold run in H. rewrite C in H. cbn [bind] in H.
  destruct (start_balanced gty) as (A & B). eapply (call_safe gty prog funs n 0 F (start gty) (fun _ => 0) [] []); eauto; [lia|rewrite Ep; constructor].
Qed.
