(** Source semantics: whatever the machine comes to is what the source says. Statements and functions. *)
From Coq Require Import ZArith Lia Bool List.
From Verif Require Import Base TempModel TempSpec TempBase TempScope TempExpr TempStmt TempMain SourceSpec SourceBase SourceBack.
Import ListNotations.
Local Open Scope Z_scope.

Definition retOK (rs : option bool) (o : ending) (s : st) : Prop :=
  match rs with Some _ => exists x, o = OReturn (Some x) /\ denotes s (res s) x | None => o = OReturn None end.
Lemma retOK_same : forall rs o s s', same s s' -> retOK rs o s -> retOK rs o s'.
Proof. intros [gc|] o s s' S H; auto. destruct H as (x & A & B). exists x. split; auto. pose proof (same_mono _ _ S) as M. destruct S as (_ & _ & _ & _ & _ & ->). eapply denotes_mono; eauto. Qed.
Lemma simple_next : forall prog e G s e' G' o, ex prog e G s e' G' o -> isSimple s = true -> o = ONext.
Proof. intros prog e G s e' G' o H S. destruct H; cbn in S; try discriminate; auto. Qed.
Lemma decl_simple : forall s, isDecl s = true -> isSimple s = true. Proof. intros []; cbn; auto. Qed.
Lemma return_next : forall prog s e G e' G' o, ex prog e G s e' G' o -> hasReturn s = true -> o <> ONext.
Proof.
  induction s; intros en G en' G' o H R; cbn in R; try discriminate; inversion H; subst; auto; try discriminate.
  apply orb_true_iff in R as [R|R]; eauto. match goal with Q : ex _ _ _ s1 _ _ ONext |- _ => destruct (IHs1 _ _ _ _ _ Q R); reflexivity end.
Qed.

Section Back.
Variable gty : list bool.
Variable prog : list fn.
Variable funs : list (nat * (code * code)).
Hypothesis FUNS : forall f F, nth_error prog f = Some F -> exists body ending, nth_error funs f = Some (length (fparams F), (body, ending)).
Notation sigs := (map sigOf prog).
Notation tri := (tri funs false).
Notation ev := (ev prog).
Notation evs := (evs prog).
Notation ex := (ex prog).
Notation lp := (lp prog).
Variable n : nat.
Hypothesis FN : forall m, (m < n)%nat -> fnB prog funs m.
Ltac inv1 H := match type of H with bind ?x _ = _ => let E := fresh "E" in destruct x as [[? ?]| | ] eqn:E; cbn [bind] in H; try discriminate H end.
Let eb e := proj1 (exprsB gty prog funs FUNS n FN) e.
Let ab a := proj2 (exprsB gty prog funs FUNS n FN) a.

Lemma finB : forall i s (Q : st -> signal -> Prop) g, (forall k, exec funs (S k) [i] s = Ok (s, g)) -> Q s g -> tri n [i] s Q.
Proof. clear FN eb ab. intros i s Q g H P. destruct n as [|m]; [constructor|]. unfold TempBase.tri. rewrite H. exact P. Qed.
Definition Spost (rs : option bool) (b : stmt) (c c' : cst) (en : env) (G : list sval) (s s' : st) (g : signal) : Prop :=
  exists en' G' o, ex en G b en' G' o /\ mono s s' /\ grel s' G' /\ (length en <= length en')%nat /\ match g with
    | Next => o = ONext /\ erel (names c') s' en'
    | Brk => o = OBreak /\ erel (names c) s' (back en en')
    | Cnt => o = OContinue /\ erel (names c) s' (back en en')
    | Ret => retOK rs o s' end.
Definition SB (b : stmt) : Prop := forall rs k c p c', cstmt gty sigs rs b k c = Ok (p, c') -> wfc c -> forall s en G, erel (names c) s en -> grel s G -> tri n p s (Spost rs b c c' en G s).
(** A block: whatever is declared in it is gone. *)
Definition Bpost (rs : option bool) (b : stmt) (c : cst) (en : env) (G : list sval) (s s' : st) (g : signal) : Prop :=
  exists en' G' o, ex en G b en' G' o /\ mono s s' /\ grel s' G' /\ (length en <= length en')%nat /\ match g with
    | Next => o = ONext /\ erel (names c) s' (back en en')
    | Brk => o = OBreak /\ erel (names c) s' (back en en')
    | Cnt => o = OContinue /\ erel (names c) s' (back en en')
    | Ret => retOK rs o s' end.
Lemma scopeB : forall b rs k c p c' l, SB b -> cstmt gty sigs rs b k (enter c) = Ok (p, c') -> wfc c -> forall s en G, erel (names c) s en -> grel s G ->
  tri n (p ++ release l) s (Bpost rs b c en G s).
Proof.
  intros b rs k c p c' l Hb H Wf s en G Er Gr. destruct (stmtFacts _ _ _ _ _ _ _ _ H (wfc_enter _ Wf)) as (W1 & X1). destruct (names_ext _ _ X1) as (new & N). rewrite names_enter in N.
  apply tri_app. eapply tri_imp; [eapply Hb; eauto; apply wfc_enter; auto|]. intros s1 g (en' & G' & o & A1 & A2 & A3 & A4 & A5). destruct g; cbn [post].
  - eapply tri_imp; [apply releases|]. intros s2 g (-> & S2). destruct A5 as (-> & A5). exists en', G', ONext. split; auto. split; [eapply mono_trans; [eauto|apply same_mono; auto]|]. split; [eapply grel_same; eauto|].
    split; auto. split; auto. eapply erel_same; [eauto|]. rewrite N in A5. eapply erel_back; [exact A5|]. apply (erel_length _ _ _ Er).
  - exists en', G', o. auto.
  - exists en', G', o. auto.
  - exists en', G', o. auto.
Qed.
Lemma declB : forall x e, SB (SDecl x e).
Proof.
  intros x e rs k c p c' H Wf s en G Er Gr. cbn [cstmt] in H. inv1 H. inv1 H. destruct (exprFacts _ _ _ _ _ _ E Wf) as (W1 & X1 & _).
  destruct (alloc_facts _ _ _ _ _ E0 W1) as (-> & _). pose proof (names_alloc _ _ _ _ _ E0 W1) as N. rewrite (proj1 (names_expr _ _) _ _ _ _ E Wf) in N.
  assert (Fin : forall s1, Xpost prog e c en G s s1 -> tri n [IStore (cnext c0)] s1 (fun s' g => Spost rs (SDecl x e) c c1 en G s s' g)).
  { intros s1 P. pose proof (Xerel _ _ _ _ _ _ _ Wf Er P) as Er1. destruct P as (v & y & G1 & A1 & A2 & A3 & A4 & A5 & A6). eapply tri_imp; [apply one; [reflexivity|intros s' E'; exact E']|].
    intros s2 g (-> & E2). cbn [step] in E2. rewrite A1 in E2. injection E2 as <-. exists ((x, y) :: en), G1, ONext. split; [constructor; auto|]. split; [exact A3|]. split; [exact A5|]. split; [cbn; lia|]. split; auto.
    rewrite N. constructor; [cbn; rewrite Nat.eqb_refl; auto|]. eapply erel_mono; [| |exact Er1]; [apply (mono_refl s1)|]. intros q Hq. cbn. pose proof (names_lt _ _ Wf Hq). apply ext_next in X1. destruct (Nat.eqb_spec (snd q) (cnext c0)); [lia|auto]. }
  destruct (etmp e0) as [t|] eqn:T.
  - injection H as <- <-. eapply tri_next; [eapply (eb e); eauto|]. intros s1 P. eapply tri_imp; [apply Fin; exact P|]. intros s2 g (en' & G' & o & Q1 & Q2 & Q3 & Q4 & Q5). exists en', G', o. rewrite names_unuse. auto.
  - injection H as <- <-. rewrite app_assoc. eapply tri_next; [|exact Fin]. pose proof (ownB gty prog funs n e c e0 c0 (eb e) E Wf s en G Er Gr) as O. unfold own in O. rewrite T in O. exact O.
Qed.
Lemma setB : forall x e, SB (SSet x e).
Proof.
  intros x e rs k c p c' H Wf s en G Er Gr. cbn [cstmt] in H. destruct (lookup _ _) as [i|] eqn:L; [|discriminate]. inv1 H. destruct (negb _); [discriminate|].
  destruct (lookup_names _ _ _ L) as (a & b & A & B). fold (idents c) in A. fold (names c) in A. pose proof (names_nodup _ Wf) as Nd.
  assert (Fin : forall s1 w s', Xpost prog e c en G s s1 -> (exists v, stk s1 = v :: stk s /\ w = v) -> stk s' = stk s -> (exists s2, same s1 s2 /\ s' = setSlot (withStk s2 (stk s)) (islot i) w) -> Spost rs (SSet x e) c c en G s s' Next).
  { intros s1 w s' P (v & Ev & ->) _ (s2 & S2 & ->). pose proof (Xerel _ _ _ _ _ _ _ Wf Er P) as Er1. destruct P as (v' & y & G1 & A1 & A2 & A3 & A4 & A5 & A6). rewrite A1 in Ev. injection Ev as ->.
    pose proof (same_mono _ _ S2) as M2. destruct (erel_get a x (islot i) b s en) as (w & Gw & _); [rewrite <- A; exact Er|exact B|].
    exists (put x y en), G1, ONext. split; [econstructor; eauto|]. split; [eapply mono_trans; [exact A3|]; exact M2|]. split; [exact (grel_same _ _ _ S2 A5)|]. rewrite put_length. split; auto. split; auto.
    rewrite A. rewrite A in Er1, Nd. eapply erel_put; [exact Er1|exact B|exact Nd|exact M2| |].
    - intros k' Hk. cbn. destruct (Nat.eqb_spec k' (islot i)); [contradiction|]. destruct S2 as (_ & -> & _). reflexivity.
    - cbn. rewrite Nat.eqb_refl. apply (denotes_mono _ _ _ _ M2 A4). }
  assert (Nc : names c0 = names c) by (apply (proj1 (names_expr _ _) _ _ _ _ E Wf)).
  assert (Cl : forall c1 s1, names c1 = names c -> Xpost prog e c en G s s1 -> forall ins, (forall k, exec funs (S k) [ins] s1 = let* s2 := step ins s1 in exec funs k [] s2) ->
    (forall s' v, stk s1 = v :: stk s -> step ins s1 = Ok s' -> exists s2, same s1 s2 /\ s' = setSlot (withStk s2 (stk s)) (islot i) v) -> tri n [ins] s1 (Spost rs (SSet x e) c c1 en G s)).
  { intros c1 s1 Nn P ins Hi Hs. eapply tri_imp; [apply (one funs n ins s1); [exact Hi|intros s' E'; exact E']|]. intros s' g (-> & E'). pose proof P as (v & y & G1 & A1 & _). destruct (Hs s' v A1 E') as (s2 & S2 & Eq).
    assert (Sp : Spost rs (SSet x e) c c en G s s' Next) by (eapply Fin; eauto; rewrite Eq; reflexivity). destruct Sp as (en' & G' & o & Q1 & Q2 & Q3 & Q4 & Q5). exists en', G', o. rewrite Nn. auto. }
  destruct (etmp e0) as [t|] eqn:T; injection H as <- <-.
  - eapply tri_next; [eapply (eb e); eauto|]. intros s1 P. apply Cl; auto; [rewrite names_unuse; auto|]. intros s' v Sv E'. cbn [step] in E'. rewrite Sv in E'. destruct (decRef _ s1) as [s2| | ] eqn:D; try discriminate. cbn [bind] in E'. injection E' as <-.
    exists s2. split; auto. eapply decRef_same; eauto.
  - eapply tri_next; [eapply (eb e); eauto|]. intros s1 P. destruct (egc e0).
    + apply Cl; auto. intros s' v Sv E'. cbn [step] in E'. rewrite Sv in E'. destruct (incRef v s1) as [s2| | ] eqn:D; try discriminate. cbn [bind] in E'. destruct (decRef _ s2) as [s3| | ] eqn:D2; try discriminate. cbn [bind] in E'. injection E' as <-.
      exists s3. split; auto. eapply same_trans; [eapply incRef_same; eauto|eapply decRef_same; eauto].
    + apply Cl; auto. intros s' v Sv E'. cbn [step] in E'. rewrite Sv in E'. injection E' as <-. exists s1. split; auto. apply same_refl.
Qed.
Lemma setGB : forall g e, SB (SSetGlobal g e).
Proof.
  intros g e rs k c p c' H Wf s en G Er Gr. cbn [cstmt] in H. destruct (nth_error gty g) as [gc|] eqn:L; [|discriminate]. inv1 H. destruct (negb _); [discriminate|].
  assert (Nc : names c0 = names c) by (apply (proj1 (names_expr _ _) _ _ _ _ E Wf)).
  assert (Cl : forall c1 s1, names c1 = names c -> Xpost prog e c en G s s1 -> forall ins, (forall k, exec funs (S k) [ins] s1 = let* s2 := step ins s1 in exec funs k [] s2) ->
    (forall s' v, stk s1 = v :: stk s -> step ins s1 = Ok s' -> (g < length (globs s1))%nat /\ exists s2, same s1 s2 /\ s' = setGlob (withStk s2 (stk s)) g v) -> tri n [ins] s1 (Spost rs (SSetGlobal g e) c c1 en G s)).
  { intros c1 s1 Nn P ins Hi Hs. eapply tri_imp; [apply (one funs n ins s1); [exact Hi|intros s' E'; exact E']|]. intros s' q (-> & E'). pose proof (Xerel _ _ _ _ _ _ _ Wf Er P) as Er1. destruct P as (v & y & G1 & A1 & A2 & A3 & A4 & A5 & A6). destruct (Hs s' v A1 E') as (Lg & s2 & S2 & ->).
    pose proof (same_mono _ _ S2) as M2. exists en, (putNth G1 g y), ONext. split; [constructor; auto; rewrite (grel_length _ _ A5); exact Lg|]. split; [eapply mono_trans; [exact A3|exact M2]|].
    split; [|split; [lia|split; auto; rewrite Nn; exact (erel_same _ _ _ _ S2 Er1)]]. apply (grel_put s2 G1 g v y); [eapply grel_same; eauto|eapply denotes_mono; eauto]. }
  destruct (etmp e0) as [t|] eqn:T; injection H as <- <-.
  - eapply tri_next; [eapply (eb e); eauto|]. intros s1 P. apply Cl; auto; [rewrite names_unuse; auto|]. intros s' v Sv E'. cbn [step] in E'. rewrite Sv in E'. destruct (nth_error (globs s1) g) as [w|] eqn:Eg; [|discriminate].
    destruct (decRef w s1) as [s2| | ] eqn:D; try discriminate. cbn [bind] in E'. injection E' as <-. split; [apply nth_error_Some; congruence|]. exists s2. split; auto. eapply decRef_same; eauto.
  - eapply tri_next; [eapply (eb e); eauto|]. intros s1 P. destruct (egc e0).
    + apply Cl; auto. intros s' v Sv E'. cbn [step] in E'. rewrite Sv in E'. destruct (nth_error (globs s1) g) as [w|] eqn:Eg; [|discriminate]. destruct (incRef v s1) as [s2| | ] eqn:D; try discriminate. cbn [bind] in E'. destruct (decRef _ s2) as [s3| | ] eqn:D2; try discriminate. cbn [bind] in E'. injection E' as <-.
      split; [apply nth_error_Some; congruence|]. exists s3. split; auto. eapply same_trans; [eapply incRef_same; eauto|eapply decRef_same; eauto].
    + apply Cl; auto. intros s' v Sv E'. cbn [step] in E'. rewrite Sv in E'. destruct (Nat.ltb_spec g (length (globs s1))); [|discriminate]. injection E' as <-. split; auto. exists s1. split; auto. apply same_refl.
Qed.
Lemma callSB : forall f a, SB (SCall f a).
Proof.
  intros f a rs k c p c' H Wf s en G Er Gr. cbn [cstmt] in H. destruct (nth_error sigs f) as [[ps [gc|]]|] eqn:Sg; [| |discriminate]; destruct (sig_nth _ _ _ _ Sg) as (F & F1 & F2 & F3).
  - inv1 H. injection H as <- <-. eapply tri_next; [eapply (keepB gty prog funs n (ECall f a)); eauto|]. intros s1 P. pose proof (Xerel _ _ _ _ _ _ _ Wf Er P) as Er1. destruct P as (v & y & G1 & A1 & A2 & A3 & A4 & A5 & A6).
    eapply tri_imp; [apply one; [reflexivity|intros s' E'; exact E']|]. intros s' g (-> & E'). cbn [step] in E'. rewrite A1 in E'. injection E' as <-. inversion A6; subst.
    exists en, G1, ONext. split; [eapply ex_call; eauto; cbn; assert (F0 = F) by congruence; subst; rewrite F3; split; discriminate|]. split; [exact A3|]. split; [exact A5|]. split; auto. split; auto.
    rewrite (proj1 (names_expr _ _) _ _ _ _ E Wf). exact Er1.
  - inv1 H. injection H as <- <-. eapply tri_next; [eapply (ab a); eauto|]. intros s1 (al & xs & G1 & A1 & A2 & A3 & A4 & A5 & A6 & A7).
    eapply tri_imp; [eapply (callB prog funs FUNS n FN f F s1 al xs G1); eauto; congruence|]. intros s2 g (-> & B1 & B2 & B3 & e' & G2 & o & B4 & B5 & B6). unfold callEnd in B5. rewrite F3 in B5.
    exists en, G2, ONext. split; [eapply ex_call; eauto; rewrite F3; destruct B5 as [-> | ->]; cbn; tauto|]. split; [eapply mono_trans; eauto|]. split; auto. split; auto. split; auto.
    rewrite (proj2 (names_expr _ _) _ _ _ _ _ E Wf). apply (erel_frame c s s2 en); [exact Wf|eapply mono_trans; eauto| |exact Er]. intros j Hj. rewrite B2. apply A3. exact Hj.
Qed.
Lemma retB : forall e, SB (SReturn e).
Proof.
  intros [e|] rs k c p c' H Wf s en G Er Gr; cbn [cstmt] in H; destruct rs as [gc|]; try discriminate.
  - inv1 H. destruct (negb _); [discriminate|]. pose proof (ownB gty prog funs n e c e0 c0 (eb e) E Wf s en G Er Gr) as T. destruct (own e0 c0) as [q c1]. cbn [fst] in T. injection H as <- <-.
    eapply tri_next; [exact T|]. intros s1 (v & y & G1 & A1 & A2 & A3 & A4 & A5 & A6). eapply (tri_next _ _ _ [IPopRes]); [apply one; [reflexivity|intros s' E'; exact E']|]. intros s2 E2. cbn [step] in E2. rewrite A1 in E2. injection E2 as <-.
    unfold releaseTo. rewrite release_concat. eapply tri_next; [apply releases|]. intros s3 S3. eapply finB; [reflexivity|]. exists en, G1, (OReturn (Some y)). split; [constructor; auto|].
    pose proof (same_mono _ _ S3) as M3. split; [eapply mono_trans; [exact A3|exact M3]|]. split; [exact (grel_same _ _ _ S3 A5)|]. split; auto. cbn. exists y. split; auto. destruct S3 as (_ & _ & _ & _ & _ & ->). exact (denotes_mono _ _ _ _ M3 A4).
  - injection H as <- <-. unfold releaseTo. rewrite release_concat. eapply tri_next; [apply releases|]. intros s3 S3. eapply finB; [reflexivity|]. exists en, G, (OReturn None). split; [constructor|].
    split; [apply same_mono; auto|]. split; [eapply grel_same; eauto|]. split; auto. reflexivity.
Qed.
Lemma jumpB : forall b, b = SBreak \/ b = SContinue -> SB b.
Proof.
  intros b Hb rs k c p c' H Wf s en G Er Gr. destruct Hb as [-> | ->]; cbn [cstmt] in H; (destruct k as [k|]; [|discriminate]); injection H as <- <-; unfold releaseTo; rewrite release_concat;
  (eapply tri_next; [apply releases|]); intros s2 S2; (eapply finB; [reflexivity|]); eexists en, G, _; (split; [constructor|]); (split; [apply same_mono; auto|]); (split; [eapply grel_same; eauto|]); (split; [auto|]);
  split; auto; rewrite back_self; eapply erel_same; eauto.
Qed.
Lemma ifB : forall i q a b, SB i -> SB a -> SB b -> SB (SIf i q a b).
Proof.
  intros i q a b Hi Ha Hb rs k c p c' H Wf s en G Er Gr. cbn [cstmt] in H. destruct (isDecl i) eqn:Di; [|discriminate]. cbn [negb] in H. inv1 H. inv1 H. destruct (egc e); [discriminate|]. inv1 H. inv1 H. injection H as <- <-.
  destruct (stmtFacts _ _ _ _ _ _ _ _ E (wfc_enter _ Wf)) as (A1 & A2). destruct (exprFacts _ _ _ _ _ _ E0 A1) as (B1 & B2 & _).
  destruct (stmtFacts _ _ _ _ _ _ _ _ E1 (wfc_enter _ B1)) as (C1 & C2). destruct (wfc_leave _ _ C2 B1 C1) as (D1 & D2 & Id2).
  destruct (stmtFacts _ _ _ _ _ _ _ _ E2 (wfc_enter _ D1)) as (F1 & F2). destruct (wfc_leave _ _ F2 D1 F1) as (G1 & G2 & Id3).
  assert (Z : ext (enter c) (leave c3)). { eapply ext_trans; [exact A2|]. eapply ext_trans; [exact B2|]. eapply ext_trans; eauto. }
  destruct (names_ext _ _ A2) as (new & N0). rewrite names_enter in N0. pose proof (proj1 (names_expr _ _) _ _ _ _ E0 A1) as N1. pose proof (names_leave _ _ C2) as N2. pose proof (names_leave _ _ Z) as N3.
  apply tri_app. eapply tri_imp; [eapply Hi; eauto; apply wfc_enter; auto|]. intros s1 g (en1 & G1' & o & P1 & P2 & P3 & P4 & P5). pose proof (simple_next _ _ _ _ _ _ _ P1 (decl_simple _ Di)) as ->.
  destruct g; cbn [post]; [|destruct P5; discriminate|destruct P5; discriminate|unfold retOK in P5; destruct rs; [destruct P5 as (? & P5 & _)|]; discriminate]. destruct P5 as (_ & P5).
  apply tri_app. eapply tri_imp; [eapply (keepB gty prog funs n q); eauto|]. intros s2 g (-> & P). cbn [post]. pose proof (Xerel _ _ _ _ _ _ _ A1 P5 P) as Er2. destruct P as (v & y & G2' & Q1 & Q2 & Q3 & Q4 & Q5 & Q6).
  assert (Br : tri n [IIf (l0 ++ release (top c2)) (l1 ++ release (top c3))] s2 (fun s3 g => exists en2 G3 o, ex en G (SIf i q a b) (back en en2) G3 o /\ mono s s3 /\ grel s3 G3 /\ (length en1 <= length en2)%nat /\ match g with
    | Next => o = ONext /\ erel (names c0) s3 (back en1 en2) | Brk => o = OBreak /\ erel (names c0) s3 (back en1 en2) | Cnt => o = OContinue /\ erel (names c0) s3 (back en1 en2) | Ret => retOK rs o s3 end)).
  { assert (X : forall m l z, stk s2 = VInt z :: l -> (m <= n)%nat -> TempBase.tri funs false m (if z =? 0 then l1 ++ release (top c3) else l0 ++ release (top c2)) (withStk s2 l) (fun s3 g => exists en2 G3 o, ex en G (SIf i q a b) (back en en2) G3 o /\ mono s s3 /\ grel s3 G3 /\ (length en1 <= length en2)%nat /\ match g with
      | Next => o = ONext /\ erel (names c0) s3 (back en1 en2) | Brk => o = OBreak /\ erel (names c0) s3 (back en1 en2) | Cnt => o = OContinue /\ erel (names c0) s3 (back en1 en2) | Ret => retOK rs o s3 end)).
    { intros m l2 z Sz Lm. rewrite Q1 in Sz. injection Sz as -> <-. destruct y as [z'|]; [|contradiction]. cbn in Q4. subst z'. eapply tri_le; [exact Lm|].
      assert (Bp : tri n (if z =? 0 then l1 ++ release (top c3) else l0 ++ release (top c2)) (withStk s2 (stk s1)) (Bpost rs (if z =? 0 then b else a) c1 en1 G2' (withStk s2 (stk s1)))).
      { destruct (z =? 0).
        - eapply tri_imp; [eapply (scopeB b); eauto; rewrite N2, N1; exact Er2|]. intros s3 g R. unfold Bpost in *. rewrite N2 in R. exact R.
        - eapply (scopeB a); eauto. rewrite N1. exact Er2. }
      eapply tri_imp; [exact Bp|]. intros s3 g (en2 & G3 & o & R1 & R2 & R3 & R4 & R5). exists en2, G3, o. rewrite N1 in R5. split; [eapply ex_if; eauto|]. split; [eapply mono_trans; [exact P2|]; eapply mono_trans; [exact Q3|exact R2]|]. auto. }
    clear -X. destruct n as [|m]; [constructor|]. unfold TempBase.tri. cbn [exec]. destruct (stk s2) as [|[z|] l]; auto. specialize (X m l z eq_refl (Nat.le_succ_diag_r m)). unfold TempBase.tri in X.
    destruct (exec funs m _ _) as [[s3 g]| | ]; cbn [bind]; auto. destruct g; auto. destruct m; cbn; auto. }
  apply (tri_app _ _ _ [IIf _ _]). eapply tri_imp; [exact Br|]. intros s3 g (en2 & G3 & o & R1 & R2 & R3 & R4 & R5).
  assert (Lb : (length en <= length (back en en2))%nat) by (rewrite back_length; lia).
  assert (Bk : erel (names c0) s3 (back en1 en2) -> erel (names c) s3 (back en en2)).
  { intros Q. rewrite <- (back_back en en1 en2) by lia. rewrite N0 in Q. eapply erel_back; [exact Q|]. apply (erel_length _ _ _ Er). }
  assert (Bb : back en (back en en2) = back en en2) by (rewrite (back_back en en); auto; lia).
  destruct g; cbn [post].
  - eapply tri_imp; [apply releases|]. intros s4 g (-> & S4). destruct R5 as (-> & R5). exists (back en en2), G3, ONext. split; auto. split; [eapply mono_trans; [exact R2|apply same_mono; auto]|]. split; [eapply grel_same; eauto|]. split; auto. split; auto.
    rewrite N3. eapply erel_same; [exact S4|]. apply Bk. exact R5.
  - exists (back en en2), G3, o. rewrite Bb. destruct R5. auto 10.
  - exists (back en en2), G3, o. rewrite Bb. destruct R5. auto 10.
  - exists (back en en2), G3, o. auto.
Qed.
Definition Lpost (rs : option bool) (q : expr) (pt b : stmt) (c : cst) (en : env) (G : list sval) (s s' : st) (g : signal) : Prop :=
  exists en' G' o, lp en G q pt b en' G' o /\ mono s s' /\ grel s' G' /\ length en' = length en /\ match g with Next => o = ONext /\ erel (names c) s' en' | Ret => retOK rs o s' | _ => False end.
Lemma loopB : forall c rs q pt b (cd ps bd : code), isSimple pt = true ->
  (forall s en G, erel (names c) s en -> grel s G -> tri n cd s (nx (Xpost prog q c en G s))) -> wfc c ->
  (forall s en G, erel (names c) s en -> grel s G -> tri n ps s (Bpost rs pt c en G s)) ->
  (forall s en G, erel (names c) s en -> grel s G -> tri n bd s (Bpost rs b c en G s)) ->
  forall m s en G, (m <= n)%nat -> erel (names c) s en -> grel s G -> tri m [ILoop cd ps bd] s (Lpost rs q pt b c en G s).
Proof.
  intros c rs q pt b cd ps bd Sm Hc Wf Hp Hb. induction m; intros s en G L Er Gr; [constructor|]. assert (L' : (m <= n)%nat) by lia.
  pose proof (tri_le _ _ _ _ _ _ _ L' (Hc s en G Er Gr)) as T1. unfold TempBase.tri in T1 |- *. cbn [exec]. destruct (exec funs m cd s) as [[s1 g1]| | ]; cbn [bind]; auto.
  destruct T1 as (-> & P). pose proof (Xerel _ _ _ _ _ _ _ Wf Er P) as Er1. destruct P as (v & y & G1 & A1 & A2 & A3 & A4 & A5 & A6). rewrite A1. destruct v as [z|]; auto. destruct y as [z'|]; [|contradiction]. cbn in A4. subst z'.
  destruct (Z.eqb_spec z 0). { destruct m; cbn; auto. subst z. exists en, G1, ONext. split; [constructor; auto|]. split; [exact A3|]. split; [exact A5|]. split; auto. }
  pose proof (tri_le _ _ _ _ _ _ _ L' (Hb (withStk s1 (stk s)) en G1 Er1 A5)) as T2. unfold TempBase.tri in T2. destruct (exec funs m bd (withStk s1 (stk s))) as [[s2 g2]| | ]; cbn [bind]; auto.
  destruct T2 as (en2 & G2 & o & B1 & B2 & B3 & B4 & B5).
  assert (Again : (o = ONext \/ o = OContinue) -> erel (names c) s2 (back en en2) -> match (let* (s0, g) := exec funs m ps s2 in match g with Next => exec funs m [ILoop cd ps bd] s0 | _ => UB end) with
    | Ok (s', g) => Lpost rs q pt b c en G s s' g | Err _ => True | UB => false = false end).
  { intros Ho Er2. pose proof (tri_le _ _ _ _ _ _ _ L' (Hp s2 (back en en2) G2 Er2 B3)) as T3. unfold TempBase.tri in T3. destruct (exec funs m ps s2) as [[s3 g3]| | ]; cbn [bind]; auto.
    destruct T3 as (en3 & G3 & o3 & C1 & C2 & C3 & C4 & C5). destruct g3; auto. destruct C5 as (-> & C5). rewrite (back_len _ en) in C5 by (apply back_length; auto).
    pose proof (IHm s3 (back en en3) G3 L' C5 C3) as T4. unfold TempBase.tri in T4. destruct (exec funs m [ILoop cd ps bd] s3) as [[s4 g4]| | ]; auto.
    destruct T4 as (en4 & G4 & o4 & D1 & D2 & D3 & D4 & D5). exists en4, G4, o4. rewrite back_length in C4 by auto. split; [eapply lp_again; eauto|]. split; [|split; [auto|split; [rewrite D4, back_length; auto|auto]]].
    eapply mono_trans; [exact A3|]. eapply mono_trans; [exact B2|]. eapply mono_trans; eauto. }
  destruct g2.
  - destruct B5 as (-> & B5). apply Again; auto.
  - destruct B5 as (-> & B5). destruct m; cbn; auto. exists (back en en2), G2, ONext. split; [eapply lp_break; eauto|]. split; [eapply mono_trans; eauto|]. split; auto. split; [apply back_length; auto|auto].
  - destruct B5 as (-> & B5). apply Again; auto.
  - exists (back en en2), G2, o. split; [|split; [eapply mono_trans; eauto|split; [auto|split; [apply back_length; auto|auto]]]]. unfold retOK in B5. destruct rs; [destruct B5 as (x & -> & _)|subst o]; eapply lp_return; eauto.
Qed.
Lemma forB : forall i q pt b, SB i -> SB pt -> SB b -> SB (SFor i q pt b).
Proof.
  intros i q pt b Hi Hp Hb rs k c p c' H Wf s en G Er Gr. cbn [cstmt] in H. destruct (isDecl i && isSimple pt) eqn:Smp; [|discriminate]. cbn [negb] in H. inv1 H. inv1 H. destruct (egc e); [discriminate|]. inv1 H. inv1 H. injection H as <- <-.
  apply andb_true_iff in Smp as (Di & Smp).
  destruct (stmtFacts _ _ _ _ _ _ _ _ E (wfc_enter _ Wf)) as (A1 & A2). destruct (exprFacts _ _ _ _ _ _ E0 (wfc_enter _ A1)) as (B1 & B2 & _). destruct (wfc_leave _ _ B2 A1 B1) as (B3 & B4 & IdB).
  destruct (stmtFacts _ _ _ _ _ _ _ _ E1 (wfc_enter _ B3)) as (C1 & C2). destruct (wfc_leave _ _ C2 B3 C1) as (D1 & D2 & Id2).
  destruct (stmtFacts _ _ _ _ _ _ _ _ E2 (wfc_enter _ D1)) as (F1 & F2). destruct (wfc_leave _ _ F2 D1 F1) as (G1 & G2 & Id3).
  assert (Z : ext (enter c) (leave c3)). { eapply ext_trans; [exact A2|]. eapply ext_trans; [exact B4|]. eapply ext_trans; eauto. }
  destruct (names_ext _ _ A2) as (new & N0). rewrite names_enter in N0. pose proof (names_leave _ _ B2) as N1. pose proof (names_leave _ _ C2) as N2. pose proof (names_leave _ _ Z) as N3.
  apply tri_app. eapply tri_imp; [eapply Hi; eauto; apply wfc_enter; auto|]. intros s1 g (en1 & G1' & o & P1 & P2 & P3 & P4 & P5). pose proof (simple_next _ _ _ _ _ _ _ P1 (decl_simple _ Di)) as ->.
  destruct g; cbn [post]; [|destruct P5; discriminate|destruct P5; discriminate|unfold retOK in P5; destruct rs; [destruct P5 as (? & P5 & _)|]; discriminate]. destruct P5 as (_ & P5).
  apply (tri_app _ _ _ [ILoop _ _ _]). eapply tri_imp; [apply (loopB c0 rs q pt b) with (m := n) (en := en1) (G := G1'); auto|].
  - intros s2 en2 G2' Er2 Gr2. eapply (blockB gty prog funs n q c0); eauto.
  - intros s2 en2 G2' Er2 Gr2. eapply tri_imp; [eapply (scopeB pt rs None (leave c1)); eauto; rewrite N1; exact Er2|].
    intros s3 g R. unfold Bpost in *. rewrite N1 in R. exact R.
  - intros s2 en2 G2' Er2 Gr2. eapply tri_imp; [eapply (scopeB b rs _ (leave c2)); eauto; rewrite N2, N1; exact Er2|]. intros s3 g R. unfold Bpost in *. rewrite N2, N1 in R. exact R.
  - intros s2 g (en2 & G2' & o & R1 & R2 & R3 & R4 & R5). assert (Lb : (length en <= length (back en en2))%nat) by (rewrite back_length; lia). destruct g; try contradiction; cbn [post].
    + eapply tri_imp; [apply releases|]. intros s4 g (-> & S4). destruct R5 as (-> & R5). exists (back en en2), G2', ONext. split; [eapply ex_for; eauto|]. split; [eapply mono_trans; [exact P2|]; eapply mono_trans; [exact R2|apply same_mono; auto]|]. split; [eapply grel_same; eauto|]. split; auto. split; auto.
      rewrite N3. eapply erel_same; eauto. rewrite N0 in R5. eapply erel_back; [exact R5|]. apply (erel_length _ _ _ Er).
    + exists (back en en2), G2', o. split; [eapply ex_for; eauto|]. split; [eapply mono_trans; eauto|]. auto 10.
Qed.
Lemma stmtsB : forall b, SB b.
Proof.
  induction b as [|a IHa b IHb|x e|x e|g e|f a|b IHb|i IHi q a IHa b IHb|i IHi q pt IHp b IHb| | |e].
  - intros rs k c p c' H Wf s en G Er Gr. injection H as <- <-. apply tri_nil. exists en, G, ONext. split; [constructor|]. split; [apply mono_refl|]. auto.
  - intros rs k c p c' H Wf s en G Er Gr. cbn [cstmt] in H. inv1 H. inv1 H. injection H as <- <-. destruct (stmtFacts _ _ _ _ _ _ _ _ E Wf) as (A & B). destruct (names_ext _ _ B) as (new & N).
    apply tri_app. eapply tri_imp; [eapply IHa; eauto|]. intros s1 g (en1 & G1 & o & P1 & P2 & P3 & P4 & P5). destruct g; cbn [post].
    + destruct P5 as (-> & P5). eapply tri_imp; [eapply IHb; eauto|]. intros s2 g (en2 & G2 & o & Q1 & Q2 & Q3 & Q4 & Q5). exists en2, G2, o. split; [eapply ex_seq; eauto|]. split; [eapply mono_trans; eauto|]. split; auto. split; [lia|].
      assert (Bk : erel (names c0) s2 (back en1 en2) -> erel (names c) s2 (back en en2)).
      { intros Q. rewrite <- (back_back en en1 en2) by lia. rewrite N in Q. eapply erel_back; [exact Q|]. apply (erel_length _ _ _ Er). }
      destruct g; auto; destruct Q5; auto.
    + exists en1, G1, o. split; [apply ex_stop; auto; destruct P5 as (-> & _); discriminate|auto].
    + exists en1, G1, o. split; [apply ex_stop; auto; destruct P5 as (-> & _); discriminate|auto].
    + exists en1, G1, o. split; [apply ex_stop; auto; unfold retOK in P5; destruct rs; [destruct P5 as (? & -> & _)|subst o]; discriminate|auto].
  - apply declB.
  - apply setB.
  - apply setGB.
  - apply callSB.
  - intros rs k c p c' H Wf s en G Er Gr. cbn [cstmt] in H. inv1 H. injection H as <- <-. destruct (stmtFacts _ _ _ _ _ _ _ _ E (wfc_enter _ Wf)) as (A & B).
    eapply tri_imp; [eapply (scopeB b); eauto|]. intros s1 g (en1 & G1 & o & P1 & P2 & P3 & P4 & P5). exists (back en en1), G1, o. split; [constructor; auto|]. split; auto. split; auto. rewrite back_length by auto. split; auto.
    rewrite (names_leave _ _ B). rewrite (back_back en en) by auto. destruct g; auto.
  - apply ifB; auto.
  - apply forB; auto.
  - apply jumpB. auto.
  - apply jumpB. auto.
  - apply retB.
Qed.
End Back.
