(** Source semantics: what ends in the source ends in the machine, by induction on the source. *)
From Coq Require Import ZArith Lia Bool List.
From Verif Require Import Base TempModel TempSpec TempBase TempScope TempExpr TempStmt TempMain SourceSpec SourceBase SourceBack SourceStmt SourceMain SourceDet SourceFwd.
Import ListNotations.
Local Open Scope Z_scope.

Section Ends.
Variable gty : list bool.
Variable prog : list fn.
Variable funs : list (nat * (code * code)).
Hypothesis COMP : compile gty prog = Ok funs.
Notation sigs := (map sigOf prog).
Notation halts := (halts funs).
Notation comes := (comes funs).
Let Fk := funs_ok gty prog funs COMP.
Let Fn n := fun m (_ : (m < n)%nat) => fnsB gty prog funs COMP m.
Let dv := proj1 (det prog).
Let dvs := proj1 (proj2 (det prog)).
Let dx := proj1 (proj2 (proj2 (det prog))).

(** What is known of the state after code that has come to its end. *)
Lemma keepF : forall e c r c' s en G s1 g x G', cexpr gty sigs e c = Ok (r, c') -> wfc c -> erel (names c) s en -> grel s G -> ev prog en G e x G' -> comes (keep r) s s1 g ->
  exists v, stk s1 = v :: stk s /\ denotes s1 v x /\ grel s1 G' /\ erel (names c) s1 en.
Proof.
  intros e c r c' s en G s1 g x G' H Wf Er Gr D C.
  assert (T := from_tri funs _ _ _ _ _ (fun n => keepB gty prog funs n e c r c' (proj1 (exprsB gty prog funs Fk n (Fn n)) e) H Wf s en G Er Gr) C). destruct T as (_ & P).
  pose proof (Xerel _ _ _ _ _ _ _ Wf Er P) as Er1. destruct P as (v & y & G1 & A1 & A2 & A3 & A4 & A5 & A6). destruct (dv _ _ _ _ _ D _ _ A6) as (-> & ->). exists v. auto.
Qed.
Lemma preF : forall e c r c' s en G s1 g x G', cexpr gty sigs e c = Ok (r, c') -> wfc c -> erel (names c) s en -> grel s G -> ev prog en G e x G' -> comes (epre r) s s1 g ->
  exists v, stk s1 = v :: stk s /\ denotes s1 v x /\ grel s1 G' /\ erel (names c) s1 en.
Proof.
  intros e c r c' s en G s1 g x G' H Wf Er Gr D C.
  assert (T := from_tri funs _ _ _ _ _ (fun n => proj1 (exprsB gty prog funs Fk n (Fn n)) e c r c' H Wf s en G Er Gr) C). destruct T as (_ & P).
  pose proof (Xerel _ _ _ _ _ _ _ Wf Er P) as Er1. destruct P as (v & y & G1 & A1 & A2 & A3 & A4 & A5 & A6). destruct (dv _ _ _ _ _ D _ _ A6) as (-> & ->). exists v. auto.
Qed.
Lemma ownF : forall e c r c' s en G s1 g x G', cexpr gty sigs e c = Ok (r, c') -> wfc c -> erel (names c) s en -> grel s G -> ev prog en G e x G' -> comes (fst (own r c')) s s1 g ->
  grel s1 G' /\ erel (names c) s1 en.
Proof.
  intros e c r c' s en G s1 g x G' H Wf Er Gr D C.
  assert (T := from_tri funs _ _ _ _ _ (fun n => ownB gty prog funs n e c r c' (proj1 (exprsB gty prog funs Fk n (Fn n)) e) H Wf s en G Er Gr) C). destruct T as (_ & P).
  pose proof (Xerel _ _ _ _ _ _ _ Wf Er P) as Er1. destruct P as (v & y & G1 & A1 & A2 & A3 & A4 & A5 & A6). destruct (dv _ _ _ _ _ D _ _ A6) as (-> & ->). auto.
Qed.
Lemma argsF : forall a ps c p c' s en G s1 g xs G', cargs gty sigs a ps c = Ok (p, c') -> wfc c -> erel (names c) s en -> grel s G -> evs prog en G a xs G' -> comes p s s1 g ->
  exists al, stk s1 = rev al ++ stk s /\ length al = length ps /\ Forall2 (denotes s1) al xs /\ grel s1 G'.
Proof.
  intros a ps c p c' s en G s1 g xs G' H Wf Er Gr D C.
  assert (T := from_tri funs _ _ _ _ _ (fun n => proj2 (exprsB gty prog funs Fk n (Fn n)) a ps c p c' H Wf s en G Er Gr) C). destruct T as (_ & al & ys & G1 & A1 & A2 & A3 & A4 & A5 & A6 & A7).
  destruct (dvs _ _ _ _ _ D _ _ A7) as (-> & ->). exists al. auto.
Qed.
Lemma blockF : forall e c r c' l s en G s1 g x G', cexpr gty sigs e (enter c) = Ok (r, c') -> wfc c -> erel (names c) s en -> grel s G -> ev prog en G e x G' -> comes (keep r ++ release l) s s1 g ->
  exists v, stk s1 = v :: stk s /\ denotes s1 v x /\ grel s1 G' /\ erel (names c) s1 en.
Proof.
  intros e c r c' l s en G s1 g x G' H Wf Er Gr D C.
  assert (T := from_tri funs _ _ _ _ _ (fun n => blockB gty prog funs n e c r c' l (proj1 (exprsB gty prog funs Fk n (Fn n)) e) H Wf s en G Er Gr) C). destruct T as (_ & P).
  pose proof (Xerel _ _ _ _ _ _ _ Wf Er P) as Er1. destruct P as (v & y & G1 & A1 & A2 & A3 & A4 & A5 & A6). destruct (dv _ _ _ _ _ D _ _ A6) as (-> & ->). exists v. auto.
Qed.
Definition endOf (rs : option bool) (o : ending) (g : signal) : Prop := match g with Next => o = ONext | Brk => o = OBreak | Cnt => o = OContinue | Ret => exists r, o = OReturn r end.
Lemma stmtF : forall b rs k c p c' s en G s1 g en' G' o, cstmt gty sigs rs b k c = Ok (p, c') -> wfc c -> erel (names c) s en -> grel s G -> ex prog en G b en' G' o -> comes p s s1 g ->
  endOf rs o g /\ grel s1 G' /\ (length en <= length en')%nat /\ (g = Next -> erel (names c') s1 en').
Proof.
  intros b rs k c p c' s en G s1 g en' G' o H Wf Er Gr D C.
  assert (T := from_tri funs _ _ _ _ _ (fun n => stmtsB gty prog funs Fk n (Fn n) b rs k c p c' H Wf s en G Er Gr) C). destruct T as (en2 & G2 & o2 & A1 & A2 & A3 & A4 & A5).
  destruct (dx _ _ _ _ _ _ D _ _ _ A1) as (-> & -> & ->). split; [|split; [auto|split; auto]]; destruct g; cbn in *; try tauto; try discriminate. unfold retOK in A5. destruct rs; [destruct A5 as (y & -> & _)|]; eauto.
Qed.
Lemma scopeF : forall b rs k c p c' l s en G s1 g en' G' o, cstmt gty sigs rs b k (enter c) = Ok (p, c') -> wfc c -> erel (names c) s en -> grel s G -> ex prog en G b en' G' o -> comes (p ++ release l) s s1 g ->
  endOf rs o g /\ grel s1 G' /\ (length en <= length en')%nat /\ (g <> Ret -> erel (names c) s1 (back en en')).
Proof.
  intros b rs k c p c' l s en G s1 g en' G' o H Wf Er Gr D C.
  assert (T := from_tri funs _ _ _ _ _ (fun n => scopeB gty prog funs n b rs k c p c' l (stmtsB gty prog funs Fk n (Fn n) b) H Wf s en G Er Gr) C). destruct T as (en2 & G2 & o2 & A1 & A2 & A3 & A4 & A5).
  destruct (dx _ _ _ _ _ _ D _ _ _ A1) as (-> & -> & ->). split; [|split; [auto|split; auto]]; destruct g; cbn in *; try tauto; try congruence. unfold retOK in A5. destruct rs; [destruct A5 as (y & -> & _)|]; eauto.
Qed.

Definition Pv (en : env) (G : list sval) (e : expr) (x : sval) (G' : list sval) : Prop := ev prog en G e x G' /\
  forall c r c', cexpr gty sigs e c = Ok (r, c') -> wfc c -> forall s, erel (names c) s en -> grel s G -> halts (epre r) s.
Definition Pvs (en : env) (G : list sval) (a : args) (xs : list sval) (G' : list sval) : Prop := evs prog en G a xs G' /\
  forall ps c p c', cargs gty sigs a ps c = Ok (p, c') -> wfc c -> forall s, erel (names c) s en -> grel s G -> halts p s.
Definition Px (en : env) (G : list sval) (b : stmt) (en' : env) (G' : list sval) (o : ending) : Prop := ex prog en G b en' G' o /\
  forall rs k c p c', cstmt gty sigs rs b k c = Ok (p, c') -> wfc c -> forall s, erel (names c) s en -> grel s G -> halts p s.
Definition Plp (en : env) (G : list sval) (q : expr) (pt b : stmt) (en' : env) (G' : list sval) (o : ending) : Prop := lp prog en G q pt b en' G' o /\
  forall rs k c rq cq pp cp pb cb, cexpr gty sigs q (enter c) = Ok (rq, cq) -> cstmt gty sigs rs pt None (enter (leave cq)) = Ok (pp, cp) -> cstmt gty sigs rs b k (enter (leave cp)) = Ok (pb, cb) -> wfc c ->
  forall s l1 l2 l3, erel (names c) s en -> grel s G -> halts [ILoop (keep rq ++ release l1) (pp ++ release l2) (pb ++ release l3)] s.

Lemma keepH : forall r s, halts (epre r) s -> halts (keep r) s.
Proof. intros r s H. unfold keep. apply H_end; auto. destruct (etmp r); auto. Qed.
Lemma ownH : forall r c s, halts (epre r) s -> halts (fst (own r c)) s.
Proof. intros r c s H. unfold own. destruct (etmp r); auto. apply H_end; auto. destruct (egc r); auto. Qed.
Lemma callH : forall f F s al xs G e' G' o rest, nth_error prog f = Some F -> Px (bindFrom 0 xs) G (fbody F) e' G' o -> stk s = rev al ++ rest -> length al = length (fparams F) -> Forall2 (denotes s) al xs -> grel s G -> halts [ICall f] s.
Proof.
  intros f F s al xs G e' G' o rest E (_ & P) Ek L D Gr. destruct (funs_spec gty prog funs COMP f F E) as (body & ending & A & B).
  assert (Fi : firstn (length (fparams F)) (stk s) = rev al). { rewrite Ek, <- L. rewrite <- (rev_length al) at 1. rewrite firstn_app, Nat.sub_diag, firstn_all. cbn. apply app_nil_r. }
  unfold cfn in B. destruct (cstmt _ _ _ _ _ _) as [[p c]| | ] eqn:Es; cbn [bind] in B; try discriminate.
  assert (Bd : exists l1 l2, body = p ++ release l1 /\ ending = release l2).
  { destruct (fresult F); [destruct (hasReturn _); [|discriminate]|]; injection B as <- <-; eauto. }
  destruct Bd as (l1 & l2 & -> & ->). eapply H_call; [exact A| |intros; apply H_plain, plain_release]. rewrite Fi, rev_involutive. set (s0 := St [] _ _ _ _ _ _).
  apply H_end; [|apply plain_release]. eapply P; [exact Es|apply params_wfc| |exact Gr].
  unfold names, idents. cbn [cblks concat app]. rewrite app_nil_r. apply (params_erel s0 _ al xs 0 []); auto.
Qed.
(** Arguments and a call. *)
Lemma argcallH : forall a ps c p c' f F s en G xs G1 e' G2 o q, cargs gty sigs a ps c = Ok (p, c') -> wfc c -> erel (names c) s en -> grel s G -> Pvs en G a xs G1 -> nth_error prog f = Some F -> fparams F = ps ->
  Px (bindFrom 0 xs) G1 (fbody F) e' G2 o -> forallb plain q = true -> halts (p ++ ICall f :: q) s.
Proof.
  intros a ps c p c' f F s en G xs G1 e' G2 o q H Wf Er Gr (Da & Ha) E Ep Px0 Pl. apply H_app; [eapply Ha; eauto|]. intros s1 C. destruct (argsF _ _ _ _ _ _ _ _ _ _ _ _ H Wf Er Gr Da C) as (al & A1 & A2 & A3 & A4).
  apply (H_end funs [ICall f] q); auto. eapply callH; eauto. congruence.
Qed.
Lemma twoH : forall a b c ra c1 rb c2 s en G x G1 y G2 i, cexpr gty sigs a c = Ok (ra, c1) -> cexpr gty sigs b c1 = Ok (rb, c2) -> wfc c -> erel (names c) s en -> grel s G -> Pv en G a x G1 -> Pv en G1 b y G2 -> plain i = true ->
  halts (keep ra ++ keep rb ++ [i]) s.
Proof.
  intros a b c ra c1 rb c2 s en G x G1 y G2 i Ea Eb Wf Er Gr (Da & Ha) (Db & Hb) Pl. destruct (exprFacts _ _ _ _ _ _ Ea Wf) as (W1 & _). apply H_app; [apply keepH; eapply Ha; eauto|]. intros s1 C.
  destruct (keepF _ _ _ _ _ _ _ _ _ _ _ Ea Wf Er Gr Da C) as (v & A1 & A2 & A3 & A4). apply H_end; [|cbn; rewrite Pl; auto]. apply keepH. eapply Hb; eauto. rewrite (proj1 (names_expr _ _) _ _ _ _ Ea Wf). exact A4.
Qed.
Definition pend (o : ending) : bool := match o with ONext => true | _ => false end.

Lemma condH : forall q a b c r c' s en G z G1 y G2, cexpr gty sigs (ECond q a b) c = Ok (r, c') -> wfc c -> erel (names c) s en -> grel s G -> Pv en G q (SI z) G1 -> Pv en G1 (if z =? 0 then b else a) y G2 -> halts (epre r) s.
Proof.
  intros q a b c r c' s en G z G1 y G2 H Wf Er Gr (Dq & Hq) (Db & Hb). cbn [cexpr] in H. inv1 H. destruct (egc e) eqn:Gq; [discriminate|]. inv1 H.
  destruct (exprFacts _ _ _ _ _ _ E Wf) as (W1 & X1 & _). destruct (exprFacts _ _ _ _ _ _ E0 (wfc_enter _ W1)) as (W2 & X2 & _).
  destruct (wfc_leave _ _ X2 W1 W2) as (W2' & X2' & Id2).
  assert (Nl : names (leave c1) = names c0) by (apply names_leave; exact X2).
  assert (Start : forall pa pb, (forall s1, erel (names c0) s1 en -> grel s1 G1 -> halts (if z =? 0 then pb else pa) s1) -> halts (keep e ++ [IIf pa pb]) s).
  { intros pa pb K. apply H_app; [apply keepH; eapply Hq; eauto|]. intros s1 C. destruct (keepF _ _ _ _ _ _ _ _ _ _ _ E Wf Er Gr Dq C) as (v & A1 & A2 & A3 & A4).
    apply H_if. intros z' l Es. rewrite A1 in Es. injection Es as -> <-. cbn in A2. subst z'. apply K; auto. rewrite (proj1 (names_expr _ _) _ _ _ _ E Wf). exact A4. }
  destruct (egc e0) eqn:Ga.
  - inv1 H. inv1 H. destruct (egc e1) eqn:Gb; [|discriminate]. injection H as <- <-. cbn [epre]. destruct (alloc_facts _ _ _ _ _ E1 W2') as (_ & _ & _ & W3 & _).
    assert (N2 : names c2 = names c0) by (rewrite (names_alloc _ _ _ _ _ E1 W2'); exact Nl). apply Start. intros s1 Er1 Gr1. destruct (z =? 0).
    + apply H_end; [|apply (plain_release (top c3))]. apply keepH. eapply Hb; eauto; [apply wfc_enter; auto|rewrite names_enter, N2; auto].
    + apply H_end; [|apply (plain_release (top c1))]. apply keepH. eapply Hb; eauto. apply wfc_enter; auto.
  - inv1 H. destruct (egc e1) eqn:Gb; [discriminate|]. injection H as <- <-. cbn [epre]. apply Start. intros s1 Er1 Gr1. destruct (z =? 0).
    + apply H_end; [|apply plain_release]. apply keepH. eapply Hb; eauto; [apply wfc_enter; auto|rewrite names_enter, Nl; auto].
    + apply H_end; [|apply plain_release]. apply keepH. eapply Hb; eauto. apply wfc_enter; auto.
Qed.
Lemma shortH : forall a b op c r c' s en G z G1, cexpr gty sigs (shortExpr op a b) c = Ok (r, c') -> wfc c -> erel (names c) s en -> grel s G -> Pv en G a (SI z) G1 ->
  (eqb (z =? 0) op = false -> exists y G2, Pv en G1 b y G2) -> halts (epre r) s.
Proof.
  intros a b op c r c' s en G z G1 H Wf Er Gr (Da & Ha) Hb.
  assert (H' : (let* (ra, c) := cexpr gty sigs a c in let* (rb, c) := cexpr gty sigs b (enter c) in
      if egc ra || egc rb then Err EOther else Ok (Res (keep ra ++ [IShort op (keep rb ++ release (top c))]) None false, leave c)) = Ok (r, c')) by (destruct op; exact H).
  clear H. rename H' into H. inv1 H. inv1 H. destruct (egc e || egc e0); [discriminate|]. injection H as <- <-. cbn [epre]. destruct (exprFacts _ _ _ _ _ _ E Wf) as (W1 & X1 & _).
  apply H_app; [apply keepH; eapply Ha; eauto|]. intros s1 C. destruct (keepF _ _ _ _ _ _ _ _ _ _ _ E Wf Er Gr Da C) as (v & A1 & A2 & A3 & A4). apply H_short. intros z' l Es Q. rewrite A1 in Es. injection Es as -> <-. cbn in A2. subst z'.
  destruct (Hb Q) as (y & G2 & Db & Hb'). apply H_end; [|apply plain_release]. apply keepH. eapply Hb'; eauto; [apply wfc_enter; auto|]. rewrite names_enter, (proj1 (names_expr _ _) _ _ _ _ E Wf). exact A4.
Qed.
Lemma scopeH : forall b rs k c p c' l s en G en' G' o, Px en G b en' G' o -> cstmt gty sigs rs b k (enter c) = Ok (p, c') -> wfc c -> erel (names c) s en -> grel s G -> halts (p ++ release l) s.
Proof. intros b rs k c p c' l s en G en' G' o (D & H) E Wf Er Gr. apply H_end; [|apply plain_release]. eapply H; eauto. apply wfc_enter; auto. Qed.
Lemma ifH : forall i q a b en G e1 G1 z G2 e2 G3 o, Px en G i e1 G1 ONext -> Pv e1 G1 q (SI z) G2 -> Px e1 G2 (if z =? 0 then b else a) e2 G3 o ->
  forall rs k c p c', cstmt gty sigs rs (SIf i q a b) k c = Ok (p, c') -> wfc c -> forall s, erel (names c) s en -> grel s G -> halts p s.
Proof.
  intros i q a b en G e1 G1 z G2 e2 G3 o (Di & Hi) (Dq & Hq) Pb rs k c p c' H Wf s Er Gr. cbn [cstmt] in H. destruct (isDecl i); [|discriminate]. cbn [negb] in H. inv1 H. inv1 H. destruct (egc e); [discriminate|]. inv1 H. inv1 H. injection H as <- <-.
  destruct (stmtFacts _ _ _ _ _ _ _ _ E (wfc_enter _ Wf)) as (A1 & A2). destruct (exprFacts _ _ _ _ _ _ E0 A1) as (B1 & B2 & _).
  destruct (stmtFacts _ _ _ _ _ _ _ _ E1 (wfc_enter _ B1)) as (C1 & C2). destruct (wfc_leave _ _ C2 B1 C1) as (D1 & D2 & Id2).
  pose proof (proj1 (names_expr _ _) _ _ _ _ E0 A1) as N1. pose proof (names_leave _ _ C2) as N2.
  apply H_app; [eapply Hi; eauto; apply wfc_enter; auto|]. intros s1 C. destruct (stmtF _ _ _ _ _ _ _ _ _ _ _ _ _ _ E (wfc_enter _ Wf) Er Gr Di C) as (_ & Gr1 & _ & Er1). specialize (Er1 eq_refl).
  apply H_app; [apply keepH; eapply Hq; eauto|]. intros s2 C'. destruct (keepF _ _ _ _ _ _ _ _ _ _ _ E0 A1 Er1 Gr1 Dq C') as (v & Q1 & Q2 & Q3 & Q4).
  apply (H_end funs [IIf _ _]); [|apply plain_release]. apply H_if. intros z' l2 Es. rewrite Q1 in Es. injection Es as -> <-. cbn in Q2. subst z'. destruct (z =? 0).
  - eapply scopeH; [exact Pb|exact E2|exact D1| |exact Q3]. rewrite N2, N1. exact Q4.
  - eapply scopeH; [exact Pb|exact E1|exact B1| |exact Q3]. rewrite N1. exact Q4.
Qed.
Lemma forH : forall i q pt b en G e1 G1 e2 G2 o, Px en G i e1 G1 ONext -> Plp e1 G1 q pt b e2 G2 o ->
  forall rs k c p c', cstmt gty sigs rs (SFor i q pt b) k c = Ok (p, c') -> wfc c -> forall s, erel (names c) s en -> grel s G -> halts p s.
Proof.
  intros i q pt b en G e1 G1 e2 G2 o (Di & Hi) (Dl & Hl) rs k c p c' H Wf s Er Gr. cbn [cstmt] in H. destruct (isDecl i && isSimple pt); [|discriminate]. cbn [negb] in H. inv1 H. inv1 H. destruct (egc e); [discriminate|]. inv1 H. inv1 H. injection H as <- <-.
  destruct (stmtFacts _ _ _ _ _ _ _ _ E (wfc_enter _ Wf)) as (A1 & A2).
  apply H_app; [eapply Hi; eauto; apply wfc_enter; auto|]. intros s1 C. destruct (stmtF _ _ _ _ _ _ _ _ _ _ _ _ _ _ E (wfc_enter _ Wf) Er Gr Di C) as (_ & Gr1 & _ & Er1). specialize (Er1 eq_refl).
  apply (H_end funs [ILoop _ _ _]); [|apply plain_release]. eapply Hl; eauto.
Qed.
(** The condition of a loop. *)
Lemma condLH : forall q en G z G1 c rq cq l s, Pv en G q (SI z) G1 -> cexpr gty sigs q (enter c) = Ok (rq, cq) -> wfc c -> erel (names c) s en -> grel s G ->
  halts (keep rq ++ release l) s /\ forall s1 g, comes (keep rq ++ release l) s s1 g -> stk s1 = VInt z :: stk s /\ grel s1 G1 /\ erel (names c) s1 en.
Proof.
  intros q en G z G1 c rq cq l s (D & H) E Wf Er Gr. split; [apply H_end; [|apply plain_release]; apply keepH; eapply H; eauto; apply wfc_enter; auto|].
  intros s1 g C. destruct (blockF _ _ _ _ _ _ _ _ _ _ _ _ E Wf Er Gr D C) as (v & A1 & A2 & A3 & A4). destruct v as [z'|[]]; cbn in A2; try contradiction. subst z'. auto.
Qed.
Lemma loopH : forall q pt b en G z G1 e2 G2 o2, Pv en G q (SI z) G1 -> Px en G1 b e2 G2 o2 ->
  forall rs k c rq cq pp cp pb cb, cexpr gty sigs q (enter c) = Ok (rq, cq) -> cstmt gty sigs rs pt None (enter (leave cq)) = Ok (pp, cp) -> cstmt gty sigs rs b k (enter (leave cp)) = Ok (pb, cb) -> wfc c ->
  forall s l1 l2 l3, erel (names c) s en -> grel s G ->
  (o2 = ONext \/ o2 = OContinue -> forall s2, erel (names c) s2 (back en e2) -> grel s2 G2 -> halts (pp ++ release l2) s2 /\
     forall s3, comes (pp ++ release l2) s2 s3 Next -> halts [ILoop (keep rq ++ release l1) (pp ++ release l2) (pb ++ release l3)] s3) ->
  halts [ILoop (keep rq ++ release l1) (pp ++ release l2) (pb ++ release l3)] s.
Proof.
  intros q pt b en G z G1 e2 G2 o2 Pq Pb rs k c rq cq pp cp pb cb E0 E1 E2 Wf s l1 l2 l3 Er Gr K.
  destruct (exprFacts _ _ _ _ _ _ E0 (wfc_enter _ Wf)) as (B1 & B2 & _). destruct (wfc_leave _ _ B2 Wf B1) as (B3 & B4 & IdB).
  destruct (stmtFacts _ _ _ _ _ _ _ _ E1 (wfc_enter _ B3)) as (C1 & C2). destruct (wfc_leave _ _ C2 B3 C1) as (D1 & D2 & Id2).
  pose proof (names_leave _ _ B2) as N1. pose proof (names_leave _ _ C2) as N2. assert (N : names (leave cp) = names c) by congruence.
  destruct (condLH _ _ _ _ _ _ _ _ l1 s Pq E0 Wf Er Gr) as (Hc & Fc). apply H_loop; auto. intros s1 z' l C Es _. destruct (Fc _ _ C) as (A1 & A2 & A3). rewrite A1 in Es. injection Es as <- <-.
  assert (Er1 : erel (names (leave cp)) (withStk s1 (stk s)) en) by (rewrite N; exact A3).
  split; [eapply scopeH; eauto|]. intros s2 g C2' Hg. pose proof Pb as (Db & _).
  destruct (scopeF _ _ _ _ _ _ _ _ _ _ _ _ _ _ _ E2 D1 Er1 A2 Db C2') as (Q1 & Q2 & Q3 & Q4). rewrite N in Q4. apply K; auto.
  - destruct Hg as [-> | ->]; cbn in Q1; auto.
  - apply Q4. destruct Hg as [-> | ->]; discriminate.
Qed.
Lemma ends_ok : (forall en G e x G', ev prog en G e x G' -> Pv en G e x G') /\ (forall en G a xs G', evs prog en G a xs G' -> Pvs en G a xs G') /\
  (forall en G b en' G' o, ex prog en G b en' G' o -> Px en G b en' G' o) /\ (forall en G q p b en' G' o, lp prog en G q p b en' G' o -> Plp en G q p b en' G' o).
Proof.
  apply source_ind.
  - intros e G z. split; [constructor|]. intros c r c' H Wf s Er Gr. injection H as <- <-. apply H_plain. reflexivity.
  - intros e G. split; [constructor|]. intros c r c' H Wf s Er Gr. injection H as <- <-. apply H_plain. reflexivity.
  - intros e G x v Hg. split; [constructor; auto|]. intros c r c' H Wf s Er Gr. cbn [cexpr] in H. destruct (lookup _ _); [|discriminate]. injection H as <- <-. apply H_plain. reflexivity.
  - intros e G g v Hg. split; [constructor; auto|]. intros c r c' H Wf s Er Gr. cbn [cexpr] in H. destruct (nth_error gty g); [|discriminate]. injection H as <- <-. apply H_plain. reflexivity.
  - intros e G f a F l G1 e' v G2 E _ Pa _ Pb. split; [eapply ev_call; eauto; [apply Pa|apply Pb]|]. intros c r c' H Wf s Er Gr. cbn [cexpr] in H. destruct (nth_error sigs f) as [[ps [gc|]]|] eqn:Sg; try discriminate. inv1 H.
    destruct (sig_nth _ _ _ _ Sg) as (F' & F1 & F2 & F3). assert (F' = F) by congruence. subst F'.
    assert (Z : halts (l0 ++ [ICall f; IPushRes]) s) by (eapply argcallH; eauto). destruct gc; [inv1 H|]; injection H as <- <-; exact Z.
  - intros e G l. split; [constructor|]. intros c r c' H Wf s Er Gr. cbn [cexpr] in H. inv1 H. injection H as <- <-. apply H_plain. reflexivity.
  - intros e G x l G1 _ (D & Hx). split; [constructor; auto|]. intros c r c' H Wf s Er Gr. cbn [cexpr] in H. inv1 H. destruct (egc e0); [|discriminate]. injection H as <- <-. cbn [epre]. apply H_end; auto. apply keepH. eapply Hx; eauto.
  - intros e G x y l m G1 G2 _ Pa _ Pb. split; [eapply ev_cat; [apply Pa|apply Pb]|]. intros c r c' H Wf s Er Gr. cbn [cexpr] in H. inv1 H. inv1 H. destruct (egc _ && egc _); [|discriminate]. inv1 H. injection H as <- <-. eapply twoH; eauto.
  - intros e G x y l m G1 G2 _ Pa _ Pb. split; [eapply ev_less; [apply Pa|apply Pb]|]. intros c r c' H Wf s Er Gr. cbn [cexpr] in H. inv1 H. inv1 H. destruct (egc _ || egc _); [discriminate|]. injection H as <- <-. eapply twoH; eauto.
  - intros e G x y G1 _ Pa. split; [apply ev_and0; apply Pa|]. intros c r c' H Wf s Er Gr. eapply (shortH x y true); eauto. discriminate.
  - intros e G x y a v G1 G2 _ Pa Na _ Pb. split; [eapply ev_and1; [apply Pa|auto|apply Pb]|]. intros c r c' H Wf s Er Gr. eapply (shortH x y true); eauto.
  - intros e G x y a G1 _ Pa Na. split; [eapply ev_or1; [apply Pa|auto]|]. intros c r c' H Wf s Er Gr. eapply (shortH x y false); eauto. intros Q. destruct (Z.eqb_spec a 0); [contradiction|discriminate].
  - intros e G x y v G1 G2 _ Pa _ Pb. split; [eapply ev_or0; [apply Pa|apply Pb]|]. intros c r c' H Wf s Er Gr. eapply (shortH x y false); eauto.
  - intros e G q x y a v G1 G2 _ Pq Na _ Pb. split; [eapply ev_cond1; [apply Pq|auto|apply Pb]|]. intros c r c' H Wf s Er Gr. eapply condH; eauto. destruct (Z.eqb_spec a 0); [contradiction|exact Pb].
  - intros e G q x y v G1 G2 _ Pq _ Pb. split; [eapply ev_cond0; [apply Pq|apply Pb]|]. intros c r c' H Wf s Er Gr. eapply condH; eauto.
  - intros e G. split; [constructor|]. intros [|p ps] c q c' H Wf s Er Gr; [|discriminate]. injection H as <- <-. apply H_plain. reflexivity.
  - intros e G x a v l G1 G2 _ (Dx & Hx) _ (Da & Ha). split; [econstructor; eauto|]. intros [|p ps] c q c' H Wf s Er Gr; [discriminate|]. cbn [cargs] in H. inv1 H. destruct (eqb _ _); [|discriminate]. destruct (exprFacts _ _ _ _ _ _ E Wf) as (W1 & X1 & T1).
    destruct (own_facts c c0 e0 Wf W1 X1 T1) as (W2 & X2). pose proof (ownH e0 c0 s (Hx _ _ _ E Wf s Er Gr)) as O. pose proof (names_own e0 c0) as No. rewrite (proj1 (names_expr _ _) _ _ _ _ E Wf) in No.
    assert (Oc := fun s1 g => ownF x c e0 c0 s e G s1 g v G1 E Wf Er Gr Dx).
    destruct (own e0 c0) as [k c1]. cbn [fst snd] in *. inv1 H. injection H as <- <-. apply H_app; auto. intros s1 C. destruct (Oc _ _ C) as (Q1 & Q2). eapply Ha; eauto. rewrite No. exact Q2.
  - intros e G. split; [constructor|]. intros rs k c p c' H Wf s Er Gr. injection H as <- <-. apply H_plain. reflexivity.
  - intros e G a b e1 G1 e2 G2 o _ (Da & Ha) _ (Db & Hb). split; [eapply ex_seq; eauto|]. intros rs k c p c' H Wf s Er Gr. cbn [cstmt] in H. inv1 H. inv1 H. injection H as <- <-. destruct (stmtFacts _ _ _ _ _ _ _ _ E Wf) as (A & B).
    apply H_app; [eapply Ha; eauto|]. intros s1 C. destruct (stmtF _ _ _ _ _ _ _ _ _ _ _ _ _ _ E Wf Er Gr Da C) as (_ & Gr1 & _ & Er1). eapply Hb; eauto.
  - intros e G a b e1 G1 o _ (Da & Ha) No. split; [eapply ex_stop; eauto|]. intros rs k c p c' H Wf s Er Gr. cbn [cstmt] in H. inv1 H. inv1 H. injection H as <- <-.
    apply H_app; [eapply Ha; eauto|]. intros s1 C. destruct (stmtF _ _ _ _ _ _ _ _ _ _ _ _ _ _ E Wf Er Gr Da C) as (Q & _). contradiction.
  - intros e G x y v G1 _ (Dy & Hy). split; [constructor; auto|]. intros rs k c p c' H Wf s Er Gr. cbn [cstmt] in H. inv1 H. inv1 H. pose proof (Hy _ _ _ E Wf s Er Gr) as Z. destruct (etmp e0); injection H as <- <-; apply H_end; auto. destruct (egc e0); auto.
  - intros e G x y v w G1 _ (Dy & Hy) Hg. split; [econstructor; eauto|]. intros rs k c p c' H Wf s Er Gr. cbn [cstmt] in H. destruct (lookup _ _) as [i|]; [|discriminate]. inv1 H. destruct (negb _); [discriminate|]. pose proof (Hy _ _ _ E Wf s Er Gr) as Z.
    destruct (etmp e0); injection H as <- <-; apply H_end; auto. destruct (egc e0); auto.
  - intros e G g y v G1 _ (Dy & Hy) Hg. split; [econstructor; eauto|]. intros rs k c p c' H Wf s Er Gr. cbn [cstmt] in H. destruct (nth_error gty g) as [gc|]; [|discriminate]. inv1 H. destruct (negb _); [discriminate|]. pose proof (Hy _ _ _ E Wf s Er Gr) as Z.
    destruct (etmp e0); injection H as <- <-; apply H_end; auto. destruct (egc e0); auto.
  - intros e G f a F l G1 e' G2 o E _ Pa _ Pb Ho. split; [eapply ex_call; eauto; [apply Pa|apply Pb]|]. intros rs k c p c' H Wf s Er Gr. cbn [cstmt] in H. destruct (nth_error sigs f) as [[ps [gc|]]|] eqn:Sg; [| |discriminate];
    destruct (sig_nth _ _ _ _ Sg) as (F' & F1 & F2 & F3); assert (F' = F) by congruence; subst F'.
    + inv1 H. injection H as <- <-. apply H_end; auto. apply keepH. cbn [cexpr] in E0. rewrite Sg in E0. inv1 E0. assert (Z : halts (l0 ++ [ICall f; IPushRes]) s) by (eapply argcallH; eauto). destruct gc; [inv1 E0|]; injection E0 as <- <-; exact Z.
    + inv1 H. injection H as <- <-. eapply argcallH; eauto.
  - intros e G b e1 G1 o _ Pb. split; [constructor; apply Pb|]. intros rs k c p c' H Wf s Er Gr. cbn [cstmt] in H. inv1 H. injection H as <- <-. eapply scopeH; eauto.
  - intros e G i q a b e1 G1 z G2 e2 G3 o _ Pi _ Pq _ Pb. split; [eapply ex_if; [apply Pi|apply Pq|apply Pb]|]. intros rs k c p c' H Wf s Er Gr. eapply ifH; eauto.
  - intros e G i q p b e1 G1 e2 G2 o _ Pi _ Pl. split; [eapply ex_for; [apply Pi|apply Pl]|]. intros rs k c p0 c' H Wf s Er Gr. eapply forH; eauto.
  - intros e G. split; [constructor|]. intros rs k c p c' H Wf s Er Gr. cbn [cstmt] in H. destruct k; [|discriminate]. injection H as <- <-. apply H_app; [|intros; apply H_jump; auto]. unfold releaseTo. rewrite release_concat. apply H_plain, plain_release.
  - intros e G. split; [constructor|]. intros rs k c p c' H Wf s Er Gr. cbn [cstmt] in H. destruct k; [|discriminate]. injection H as <- <-. apply H_app; [|intros; apply H_jump; auto]. unfold releaseTo. rewrite release_concat. apply H_plain, plain_release.
  - intros e G. split; [constructor|]. intros rs k c p c' H Wf s Er Gr. cbn [cstmt] in H. destruct rs; [discriminate|]. injection H as <- <-. apply H_app; [|intros; apply H_jump; auto]. unfold releaseTo. rewrite release_concat. apply H_plain, plain_release.
  - intros e G y v G1 _ (Dy & Hy). split; [constructor; auto|]. intros rs k c p c' H Wf s Er Gr. cbn [cstmt] in H. destruct rs; [|discriminate]. inv1 H. destruct (negb _); [discriminate|]. pose proof (ownH e0 c0 s (Hy _ _ _ E Wf s Er Gr)) as Z.
    destruct (own e0 c0) as [q c1]. cbn [fst] in Z. injection H as <- <-. apply H_app; auto. intros s1 _. rewrite app_assoc || idtac. apply (H_app funs [IPopRes]); [apply H_plain; reflexivity|]. intros s2 _. apply H_app; [|intros; apply H_jump; auto]. unfold releaseTo. rewrite release_concat. apply H_plain, plain_release.
  - intros e G q p b G1 _ Pq. split; [constructor; apply Pq|]. intros rs k c rq cq pp cp pb cb E0 E1 E2 Wf s l1 l2 l3 Er Gr. destruct (condLH _ _ _ _ _ _ _ _ l1 s Pq E0 Wf Er Gr) as (Hc & Fc).
    apply H_loop; auto. intros s1 z l C Es Nz. destruct (Fc _ _ C) as (A1 & _). rewrite A1 in Es. congruence.
  - intros e G q p b z G1 e2 G2 o2 e3 G3 e4 G4 o _ Pq Nz _ Pb Ho _ Pp _ Pl. split; [eapply lp_again; eauto; [apply Pq|apply Pb|apply Pp|apply Pl]|]. intros rs k c rq cq pp cp pb cb E0 E1 E2 Wf s l1 l2 l3 Er Gr.
    eapply (loopH q p b); eauto. intros _ s2 Er2 Gr2.
    destruct (exprFacts _ _ _ _ _ _ E0 (wfc_enter _ Wf)) as (B1 & B2 & _). destruct (wfc_leave _ _ B2 Wf B1) as (B3 & B4 & IdB). pose proof (names_leave _ _ B2) as N1. rewrite <- N1 in Er2.
    split; [eapply scopeH; eauto|]. intros s3 C. pose proof Pp as (Dp & _). destruct (scopeF _ _ _ _ _ _ _ _ _ _ _ _ _ _ _ E1 B3 Er2 Gr2 Dp C) as (_ & Q2 & Q3 & Q4). destruct Pl as (_ & Hl). eapply Hl; eauto.
    rewrite <- N1. assert (L2 : length (back e e2) = length e). { rewrite (erel_length _ _ _ Er2), N1, (erel_length _ _ _ Er). reflexivity. } rewrite (back_len e (back e e2)) by auto. apply Q4. discriminate.
  - intros e G q p b z G1 e2 G2 _ Pq Nz _ Pb. split; [eapply lp_break; eauto; [apply Pq|apply Pb]|]. intros rs k c rq cq pp cp pb cb E0 E1 E2 Wf s l1 l2 l3 Er Gr. eapply (loopH q p b); eauto. intros [Q|Q]; discriminate.
  - intros e G q p b z G1 e2 G2 v _ Pq Nz _ Pb. split; [eapply lp_return; eauto; [apply Pq|apply Pb]|]. intros rs k c rq cq pp cp pb cb E0 E1 E2 Wf s l1 l2 l3 Er Gr. eapply (loopH q p b); eauto. intros [Q|Q]; discriminate.
Qed.
(** A call that ends in the source comes to an end in the machine. *)
Lemma call_ends : forall f F s al xs G e' G' o rest, nth_error prog f = Some F -> ex prog (bindFrom 0 xs) G (fbody F) e' G' o -> stk s = rev al ++ rest -> length al = length (fparams F) -> Forall2 (denotes s) al xs ->
  Forall2 (denotes s) (globs s) G -> exists n, exec funs n [ICall f] s <> Err EFuel.
Proof. intros f F s al xs G e' G' o rest E D Ek L Da Gr. destruct ends_ok as (_ & _ & Hx & _). eapply callH; eauto. Qed.
End Ends.

Lemma program_ends : forall gty prog funs F G, compile gty prog = Ok funs -> nth_error prog 0 = Some F -> fparams F = [] -> fresult F = None -> carefulProg prog = true -> ends prog gty G ->
  exists n s g, run gty prog n = Ok (s, g) /\ Forall2 (denotes s) (globs s) G.
Proof.
  intros gty prog funs F G C E Ep Er Ca (F' & e & o & E' & D & Ho). assert (F' = F) by congruence. subst F'.
  destruct (call_ends gty prog funs C 0 F (start gty) [] [] (map zero gty) e G o [] E D eq_refl) as (n & Hn); auto; [rewrite Ep; reflexivity|apply start_denotes|].
  assert (R : run gty prog n = exec funs n [ICall 0] (start gty)) by (unfold run; rewrite C; reflexivity). rewrite <- R in Hn.
  destruct (run gty prog n) as [[s g]|e0| ] eqn:Rn.
  - exists n, s, g. split; auto. destruct (program_says gty prog F n s g E Ep Er Rn) as (G2 & (F2 & e2 & o2 & E2 & D2 & Ho2) & Dn). assert (F2 = F) by congruence. subst F2.
    destruct (proj1 (proj2 (proj2 (det prog))) _ _ _ _ _ _ D _ _ _ D2) as (-> & -> & ->). exact Dn.
  - symmetry in R. rewrite (exec_err _ _ _ _ _ R) in Hn. congruence.
  - destruct (program_safe gty prog funs F n C E Ep Ca Rn).
Qed.
Lemma program_meaning : forall gty prog funs F G, compile gty prog = Ok funs -> nth_error prog 0 = Some F -> fparams F = [] -> fresult F = None -> carefulProg prog = true ->
  (ends prog gty G <-> exists n s g, run gty prog n = Ok (s, g) /\ Forall2 (denotes s) (globs s) G).
Proof.
  intros gty prog funs F G C E Ep Er Ca. split; [eapply program_ends; eauto|]. intros (n & s & g & R & D). destruct (program_says gty prog F n s g E Ep Er R) as (G2 & En & D2).
  assert (G2 = G); [|subst; auto]. clear -D D2. revert G2 D2. induction D; intros G2 D2; inversion D2; subst; auto. f_equal; [|apply IHD; auto].
  destruct x as [z|[o|]], y as [a|a], y0 as [b|b]; cbn in *; try contradiction; try congruence. destruct H, H2. congruence.
Qed.

(** Undefined behaviour is for good. *)
Lemma ub_stays : forall gty prog funs m n r, compile gty prog = Ok funs -> run gty prog m = UB -> run gty prog n <> Ok r.
Proof.
  intros gty prog funs m n r C U H. unfold run in *. rewrite C in *. cbn [bind] in *. destruct (Nat.le_ge_cases n m); [rewrite (moreOk _ _ m _ _ _ H) in U by auto; discriminate|].
  rewrite (more _ m n) in H by (auto; congruence). congruence.
Qed.
Definition careless : list fn := [Fn [] None (SSeq (SSetGlobal 0 (ENew [7; 8; 9])) (SDecl 1 (ECat (EGlobal 0) (ECall 1 ANil)))); Fn [] (Some true) (SSeq (SSetGlobal 0 EEmpty) (SReturn (Some EEmpty)))].
Lemma careless_ub : run [true] careless 30 = UB. Proof. vm_compute. reflexivity. Qed.
Lemma careless_compiles : exists funs, compile [true] careless = Ok funs. Proof. eexists. vm_compute. reflexivity. Qed.
Lemma careless_ends : ends careless [true] [SS []].
Proof.
  eexists _, _, ONext. split; [reflexivity|]. split; [|auto]. cbn. eapply ex_seq; [apply (ex_setGlobal _ _ _ 0 _ (SS [7; 8; 9]) [SS []]); [apply ev_new|cbn; lia]|]. apply ex_decl. eapply (ev_cat _ _ _ _ _ [7; 8; 9] []); [apply ev_global; reflexivity|].
  eapply ev_call; [reflexivity|apply evs_nil|]. cbn. eapply ex_seq; [apply (ex_setGlobal _ _ _ 0 _ (SS []) [SS [7; 8; 9]]); [apply ev_empty|cbn; lia]|]. apply ex_returnV, ev_empty.
Qed.
Lemma careless_never : exists prog funs F G, compile [true] prog = Ok funs /\ nth_error prog 0 = Some F /\ fparams F = [] /\ fresult F = None /\ ends prog [true] G /\ forall n r, run [true] prog n <> Ok r.
Proof.
  destruct careless_compiles as (funs & C). exists careless, funs. eexists. exists [SS []]. split; [exact C|]. split; [reflexivity|]. split; [reflexivity|]. split; [reflexivity|]. split; [exact careless_ends|].
  intros n r. exact (ub_stays _ _ _ 30 n r C careless_ub).
Qed.
