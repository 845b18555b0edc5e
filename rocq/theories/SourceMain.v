(** Source semantics: whatever the machine comes to is what the source says. Functions and programs. *)
From Coq Require Import ZArith Lia Bool List.
From Verif Require Import Base TempModel TempSpec TempBase TempScope TempExpr TempStmt TempMain SourceSpec SourceBase SourceBack SourceStmt.
Import ListNotations.
Local Open Scope Z_scope.

Lemma params_erel : forall s l al xs k pre, length pre = k -> length l = length al -> (forall i, slots s i = nth i (pre ++ al) (VInt 0)) -> Forall2 (denotes s) al xs ->
  erel (flat_map nm (paramIdents k l)) s (bindFrom k xs).
Proof.
  induction l as [|gc l]; intros [|v al] xs k pre Hk Hl H D; cbn in Hl; try discriminate; inversion D; subst; [constructor|]. cbn. constructor.
  - cbn. split; auto. rewrite H. rewrite app_nth2 by lia. rewrite Nat.sub_diag. cbn. auto.
  - apply (IHl al l' (S (length pre)) (pre ++ [v])); auto; [rewrite app_length; cbn; lia|]. intros i. rewrite <- app_assoc. apply H.
Qed.

Section Main.
Variable gty : list bool.
Variable prog : list fn.
Variable funs : list (nat * (code * code)).
Hypothesis COMP : compile gty prog = Ok funs.
Lemma fnB_step : forall n, (forall m, (m < n)%nat -> fnB prog funs m) -> fnB prog funs n.
Proof.
  intros n IH f F k body ending Ef Eb s al xs G S0 Sl Len Da Gr. destruct (funs_spec gty prog funs COMP f F Ef) as (body' & ending' & A & B). rewrite Eb in A. injection A as -> <- <-.
  unfold cfn in B. destruct (cstmt _ _ _ _ _ _) as [[p c]| | ] eqn:Es; cbn [bind] in B; try discriminate.
  set (ps := paramIdents 0 (fparams F)) in *. set (c0 := Cst (length (fparams F)) [[]; ps]) in *.
  assert (Wf : wfc c0) by apply params_wfc.
  assert (Bd : exists l1 l2, body = p ++ release l1 /\ ending = release l2 /\ (fresult F <> None -> hasReturn (fbody F) = true)).
  { destruct (fresult F); [destruct (hasReturn _) eqn:Hr; [|discriminate]|]; injection B as <- <-; do 2 eexists; repeat split; auto; congruence. }
  destruct Bd as (l1 & l2 & -> & -> & Hr). clear B.
  assert (Er : erel (names c0) s (bindFrom 0 xs)).
  { unfold names, idents, c0. cbn [cblks concat app]. rewrite app_nil_r. apply (params_erel s _ al xs 0 []); auto. }
  assert (Fk : forall f F, nth_error prog f = Some F -> exists body ending, nth_error funs f = Some (length (fparams F), (body, ending))) by (apply (funs_ok gty); auto).
  apply tri_app. eapply tri_imp; [eapply (stmtsB gty prog funs Fk n IH (fbody F)); eauto|]. intros s1 g (en & G1 & o & A1 & A2 & A3 & A4 & A5).
  destruct g; cbn [post]; try (intros [Q|Q]; discriminate).
  - eapply tri_imp; [apply releases|]. intros s2 g (-> & S2) _. eapply tri_imp; [apply releases|]. intros s3 g (-> & S3). split; auto. destruct A5 as (-> & _).
    pose proof (same_trans _ _ _ S2 S3) as S. exists en, G1, ONext. split; auto. split; [|split; [eapply mono_trans; [exact A2|apply same_mono; auto]|eapply grel_same; eauto]].
    unfold callEnd. destruct (fresult F); auto. exfalso. apply (return_next _ _ _ _ _ _ _ A1); auto. apply Hr. discriminate.
  - intros _. eapply tri_imp; [apply releases|]. intros s3 g (-> & S). split; auto. exists en, G1, o. split; auto. split; [|split; [eapply mono_trans; [exact A2|apply same_mono; auto]|eapply grel_same; eauto]].
    pose proof (retOK_same _ _ _ _ S A5) as R. unfold callEnd, retOK in *. destruct (fresult F); auto.
Qed.
Lemma fnsB : forall n, fnB prog funs n.
Proof. intros n. assert (H : forall k m, (m < k)%nat -> fnB prog funs m) by (induction k; intros m L; [lia|]; apply fnB_step; intros j Hj; apply IHk; lia). apply (H (S n)). lia. Qed.
(** A call of a function with its arguments on the stack. *)
Lemma call_says : forall n f F s al xs G rest s' g, nth_error prog f = Some F -> stk s = rev al ++ rest -> length al = length (fparams F) -> Forall2 (denotes s) al xs -> Forall2 (denotes s) (globs s) G ->
  exec funs n [ICall f] s = Ok (s', g) ->
  g = Next /\ stk s' = rest /\ slots s' = slots s /\ (forall v x, denotes s v x -> denotes s' v x) /\ exists e G' o, ex prog (bindFrom 0 xs) G (fbody F) e G' o /\ Forall2 (denotes s') (globs s') G' /\
  match fresult F with Some _ => exists x, o = OReturn (Some x) /\ denotes s' (res s') x | None => o = ONext \/ o = OReturn None end.
Proof.
  intros n f F s al xs G rest s' g E S L D Gr X.
  assert (T := callB prog funs (funs_ok gty prog funs COMP) n (fun m _ => fnsB m) f F s al xs G rest E S L D Gr). unfold tri in T. rewrite X in T. destruct T as (-> & T1 & T2 & T3 & e & G' & o & T4 & T5 & T6).
  split; auto. split; auto. split; auto. split; [intros v x; apply denotes_mono; auto|]. exists e, G', o. auto.
Qed.
End Main.

Lemma start_denotes : forall gty, Forall2 (denotes (start gty)) (globs (start gty)) (map zero gty).
Proof. intros gty. unfold start. cbn. assert (H : forall s, Forall2 (denotes s) (map (fun gc : bool => if gc then VRef None else VInt 0) gty) (map zero gty)); [|apply H]. intros s. induction gty as [|[] l]; constructor; cbn; auto. Qed.
Lemma program_says : forall gty prog F n s g, nth_error prog 0 = Some F -> fparams F = [] -> fresult F = None -> run gty prog n = Ok (s, g) ->
  exists G, ends prog gty G /\ Forall2 (denotes s) (globs s) G.
Proof.
  intros gty prog F n s g E P R H. unfold run in H. destruct (compile gty prog) as [funs| | ] eqn:C; cbn [bind] in H; try discriminate.
  destruct (call_says gty prog funs C n 0 F (start gty) [] [] (map zero gty) [] s g E eq_refl) as (_ & _ & _ & _ & e & G & o & A & B & D); auto; [rewrite P; reflexivity|apply start_denotes|].
  rewrite R in D. exists G. split; auto. exists F, e, o. auto.
Qed.
