(** Temporaries: statements and functions. *)
From Coq Require Import ZArith Lia Bool List.
From Verif Require Import Base TempModel TempSpec TempBase TempScope TempExpr.
Import ListNotations.
Local Open Scope Z_scope.

Definition below (k : nat) (c : cst) : list ident := filter iused (concat (skipn (length (cblks c) - k) (cblks c))).
Lemma live_nil : forall c, live [] c = filter iused (idents c).
Proof. intros. apply filter_ext. intros i. cbn. apply andb_true_r. Qed.
Lemma below_all : forall c k, k = length (cblks c) -> below k c = live [] c.
Proof. intros c k ->. rewrite live_nil. unfold below. rewrite Nat.sub_diag. reflexivity. Qed.
Lemma below_ext : forall c c' k, ext c c' -> (k < length (cblks c))%nat -> below k c' = below k c.
Proof.
  intros c c' k (nw & b & l & A & B & _) H. unfold below. rewrite A, B in *. cbn [length] in *. destruct (S (length l) - k)%nat eqn:E; [lia|]. reflexivity.
Qed.
Lemma below_enter : forall c k, (k <= length (cblks c))%nat -> below k (enter c) = below k c.
Proof. intros c k H. unfold below, enter. cbn [cblks length]. rewrite Nat.sub_succ_l by lia. reflexivity. Qed.
Lemma release_concat : forall l, flat_map release l = release (concat l).
Proof. induction l; auto. cbn. unfold release in *. rewrite flat_map_app. f_equal. exact IHl. Qed.
Lemma filter_concat_split : forall k (l : list (list ident)), filter iused (concat l) = filter iused (concat (firstn k l)) ++ filter iused (concat (skipn k l)).
Proof. intros. rewrite <- filter_app, <- concat_app, firstn_skipn. reflexivity. Qed.

Section Stmts.
Variable gty : list bool.
Variable prog : list fn.
Variable funs : list (nat * (code * code)).
Variable K : bool.
Hypothesis FUNS : forall f F, nth_error prog f = Some F -> exists body ending, nth_error funs f = Some (length (fparams F), (body, ending)).
Notation sigs := (map sigOf prog).
Notation tri := (tri funs K).
Notation inv := (inv gty).
Variable n : nat.
Hypothesis FN : forall m, (m < n)%nat -> fnOK gty prog funs K m.
Notation Eok := (Eok gty prog funs K n).
Definition eok := proj1 (exprs_ok gty prog funs K FUNS n FN).
Definition aok := proj2 (exprs_ok gty prog funs K FUNS n FN).
Ltac inv1 H := match type of H with bind ?x _ = _ => let E := fresh "E" in destruct x as [[? ?]| | ] eqn:E; cbn [bind] in H; try discriminate H end.

Lemma inv_inc : forall L s R W v, inv L s R W -> isRef v = true -> (forall o, v = VRef (Some o) -> 0 < cnt s o) ->
  exists s', incRef v s = Ok s' /\ inv L s' R (v :: W) /\ stk s' = stk s /\ slots s' = slots s /\ globs s' = globs s /\ res s' = res s.
Proof.
  intros L s R W v [Ig If Ic Ik] V A. destruct (incRef_ok v s V A) as (s2 & E2 & X1 & X2 & X3 & X4 & X5 & X6 & _). exists s2. split; auto. split; [|auto].
  constructor; rewrite ?X2, ?X3, ?X4; auto.
  - intros o Ho. rewrite X6, If by auto. destruct v as [z|[q|]]; try discriminate V; [|rewrite occ_null; reflexivity].
    rewrite occ_self. destruct (Nat.eqb_spec o q); auto. subst q. specialize (A o eq_refl). rewrite If in A by auto. lia.
  - intros o. rewrite X6, Ic, (occ_cons o v W). unfold held. rewrite X2. lia.
Qed.
Lemma assign_local : forall L s R W v i l, inv L s R (v :: W) -> (forall o, 0 <= R o) -> In i L -> NoDup (map islot L) -> igc i = true -> isRef v = true ->
  exists s', decRef (slots s (islot i)) s = Ok s' /\ inv L (setSlot (withStk s' l) (islot i) v) R W.
Proof.
  intros L s R W v i l I P Hi N G V. destruct (decRef_ok (slots s (islot i)) s) as (s2 & E2 & X1 & X2 & X3 & X4 & X5 & X6 & _).
  { rewrite (ikind _ _ _ _ _ I i Hi). exact G. }
  { intros o Eo. eapply inv_alive; [exact I|exact P|]. right. left. rewrite <- Eo. apply in_map_iff. exists i. auto. }
  exists s2. split; auto. destruct I as [Ig If Ic Ik].
  assert (Cn : forall o, cnt s2 o = R o + occ o (globs s2) + occ o (held L (setSlot (withStk s2 l) (islot i) v)) + occ o W).
  { intros o. rewrite (held_set_in o L (withStk s2 l) i v N Hi). rewrite X6, Ic, X3, (occ_cons o v W). unfold held. cbn [withStk slots]. rewrite X2. lia. }
  constructor; cbn; rewrite ?X3, ?X4; auto.
  - intros o Ho. pose proof (X6 o) as Z1. rewrite If in Z1 by auto. pose proof (Cn o) as Z2. specialize (P o).
    pose proof (occ_ge o [slots s (islot i)]). pose proof (occ_ge o (globs s2)). pose proof (occ_ge o (held L (setSlot (withStk s2 l) (islot i) v))). pose proof (occ_ge o W). lia.
  - intros o. rewrite Cn, X3. reflexivity.
  - intros j Hj. rewrite X2. destruct (Nat.eqb_spec (islot j) (islot i)); [|auto].
    assert (j = i). { clear -N Hi Hj e. induction L as [|x L]; [destruct Hi|]. cbn in N. inversion N; subst. destruct Hi as [-> |Hi], Hj as [-> |Hj]; auto.
      - destruct H1. rewrite <- e. apply in_map. exact Hj.
      - destruct H1. rewrite e. apply in_map. exact Hi. }
    subst j. congruence.
Qed.
Lemma set_int : forall L s R W v i l, inv L s R W -> In i L -> NoDup (map islot L) -> igc i = false -> isRef v = false -> inv L (setSlot (withStk s l) (islot i) v) R W.
Proof.
  intros L s R W v i l [Ig If Ic Ik] Hi N G V. constructor; cbn; auto.
  - intros o. rewrite (held_set_in o L (withStk s l) i v N Hi). cbn [withStk slots]. change (held L (withStk s l)) with (held L s). rewrite (occ_noref o v V). rewrite (occ_noref o (slots s (islot i))) by (rewrite Ik; auto). rewrite Ic. lia.
  - intros j Hj. destruct (Nat.eqb_spec (islot j) (islot i)); [|auto]. rewrite V. rewrite <- (Ik j Hj), e, (Ik i Hi). auto.
Qed.
Lemma assign_global : forall L s R W v g w l, inv L s R (v :: W) -> (forall o, 0 <= R o) -> nth_error gty g = Some true -> nth_error (globs s) g = Some w -> isRef v = true ->
  exists s', decRef w s = Ok s' /\ inv L (setGlob (withStk s' l) g v) R W.
Proof.
  intros L s R W v g w l I P G Gw V. destruct (kinds_nth _ _ _ _ (iglob _ _ _ _ _ I) G) as (w' & E1 & Kw). rewrite Gw in E1. injection E1 as <-.
  destruct (decRef_ok w s Kw) as (s2 & E2 & X1 & X2 & X3 & X4 & X5 & X6 & _).
  { intros o Eo. eapply inv_alive; [exact I|exact P|]. left. rewrite <- Eo. eapply nth_error_In; eauto. }
  exists s2. split; auto. destruct I as [Ig If Ic Ik].
  assert (Cn : forall o, cnt s2 o = R o + occ o (replace (globs s2) g v) + occ o (held L s2) + occ o W).
  { intros o. rewrite X6, Ic, X3, (occ_replace o _ _ v w Gw), (occ_cons o v W). unfold held. rewrite X2. lia. }
  constructor; cbn; rewrite ?X2, ?X3, ?X4; auto.
  - eapply kinds_replace; eauto.
  - intros o Ho. pose proof (X6 o) as Z1. rewrite If in Z1 by auto. pose proof (Cn o) as Z2. specialize (P o).
    pose proof (occ_ge o [w]). pose proof (occ_ge o (replace (globs s2) g v)). pose proof (occ_ge o (held L s2)). pose proof (occ_ge o W). lia.
  - intros o. rewrite Cn, X3. reflexivity.
Qed.
Lemma set_global_int : forall L s R W v g l, inv L s R W -> nth_error gty g = Some false -> isRef v = false -> inv L (setGlob (withStk s l) g v) R W.
Proof.
  intros L s R W v g l [Ig If Ic Ik] G V. destruct (kinds_nth _ _ _ _ Ig G) as (w & E1 & Kw). constructor; cbn; auto.
  - eapply kinds_replace; eauto.
  - intros o. rewrite (occ_replace o _ _ v w E1), (occ_noref o v V), (occ_noref o w Kw), Ic. change (held L (setGlob (withStk s l) g v)) with (held L s). lia.
Qed.
Lemma tri_releaseTo : forall k c s R W, (forall o, 0 <= R o) -> inv (live [] c) s R W ->
  tri n (releaseTo k c) s (nx (fun s' => inv (below k c) s' R W /\ stk s' = stk s /\ slots s' = slots s /\ globs s' = globs s /\ res s' = res s)).
Proof.
  intros k c s R W P I. unfold releaseTo. rewrite release_concat. apply tri_release with (gty := gty); auto. unfold below.
  rewrite <- filter_concat_split. rewrite live_nil in I. exact I.
Qed.
Lemma tri_fin : forall i s (Q : st -> signal -> Prop) g, (forall k, exec funs (S k) [i] s = Ok (s, g)) -> Q s g -> tri n [i] s Q.
Proof. intros. unfold TempBase.tri. destruct n; [exact I|]. rewrite H. exact H0. Qed.

Definition Spost (rs : option bool) (lp : option nat) (b : stmt) (c c' : cst) (R : nat -> Z) (s : st) (g : signal) : Prop :=
  stk s = [] /\ (isSimple b = true -> g = Next) /\
  match g with
  | Next => hasReturn b = false /\ inv (live [] c') s R []
  | Brk | Cnt => exists k, lp = Some k /\ inv (below k c) s R []
  | Ret => inv (below 1 c) s R (match rs with Some _ => [res s] | None => [] end) /\ forall gc, rs = Some gc -> isRef (res s) = gc
  end.
Definition lpOK (lp : option nat) (c : cst) : Prop := forall k, lp = Some k -> (1 <= k < length (cblks c))%nat.
Definition Sok (b : stmt) : Prop := forall rs lp c p c', cstmt gty sigs rs b lp c = Ok (p, c') -> wfc c -> (2 <= length (cblks c))%nat -> lpOK lp c -> (K = true -> carefulStmt b = true) ->
  forall s R, (forall o, 0 <= R o) -> stk s = [] -> inv (live [] c) s R [] -> tri n p s (Spost rs lp b c c' R).
Lemma simple_next : forall rs lp b c c' R p s, hasReturn b = false -> tri n p s (nx (fun s' => stk s' = [] /\ inv (live [] c') s' R [])) -> tri n p s (Spost rs lp b c c' R).
Proof. intros rs lp b c c' R p s Hr H. eapply tri_imp; [exact H|]. intros s' g (-> & A & B). repeat split; auto; apply B. Qed.
Lemma lookup_ext : forall x c c' i, lookup x (concat (cblks c)) = Some i -> wfc c -> ext c c' -> In i (live [] c').
Proof. intros. eapply live_ext_in; [eauto|]. eapply lookup_live; eauto. apply dOK_nil. Qed.

Lemma decl_ok : forall x e, Sok (SDecl x e).
Proof.
  intros x e rs lp c p c' H Wf L2 Lp Hc s R P St0 I. cbn [cstmt] in H. inv1 H. inv1 H. apply simple_next; auto.
  destruct (exprFacts _ _ _ _ _ _ E Wf) as (A & B & C). destruct (alloc_facts _ _ _ _ _ E0 A) as (En & _ & _ & W1 & X1 & Id1). destruct (own_facts c c0 e0 Wf A B C) as (O1 & O2).
  pose proof (tri_own gty prog funs K n e [] c e0 c0 (eok e) E Wf (dOK_nil c) Hc s R [] P I) as T.
  assert (Fin : forall s1, Opost gty e [] c (snd (own e0 c0)) (egc e0) s R [] s1 -> live [] c' = Id (Some x) n0 (egc e0) true :: live [] (snd (own e0 c0)) ->
      (cnext (snd (own e0 c0)) <= n0)%nat -> tri n [IStore n0] s1 (nx (fun s' => stk s' = [] /\ inv (live [] c') s' R []))).
  { intros s1 (v & B1 & B2 & B3 & B4 & B5) Lv Nx. rewrite St0 in B1. eapply tri_one; [reflexivity|cbn [step]; rewrite B1; reflexivity|]. split; [reflexivity|]. rewrite Lv.
    apply inv_store; [apply inv_stk; exact B5|apply live_lt; auto|exact B2]. }
  unfold own in *. destruct (etmp e0) as [t|] eqn:Et.
  - injection H as <- <-. destruct (C t eq_refl) as (Eg & Tm). destruct (unuse_after _ _ _ _ _ _ _ Wf A B Tm E0) as (U1 & U2 & U3). destruct (tmp_facts _ _ _ Tm A) as (V1 & V2 & _).
    eapply tri_seq; [exact T|]. intros s1 Z. apply Fin; auto.
    + rewrite (unuse_live [] t c1 W1 U3). cbn [snd]. rewrite (unuse_live [] t c0 A V1). eapply live_alloc; eauto.
      intros d [<- |[]]. split; [destruct Tm as (b & _ & _ & Q); lia|]. intros i Hi Si. rewrite (V2 i Hi Si). reflexivity.
    + cbn. lia.
  - injection H as <- <-. rewrite app_assoc. eapply tri_seq; [exact T|]. intros s1 Z. apply Fin; auto.
    + cbn [snd]. eapply live_alloc; eauto. apply dOK_nil.
    + cbn. lia.
Qed.
Lemma set_ok : forall x e, Sok (SSet x e).
Proof.
  intros x e rs lp c p c' H Wf L2 Lp Hc s R P St0 I. cbn [cstmt] in H. destruct (lookup _ _) as [i|] eqn:Lk; [|discriminate]. inv1 H. destruct (eqb (egc e0) (igc i)) eqn:Eq; [|discriminate]. cbn [negb] in H. apply eqb_prop in Eq.
  apply simple_next; auto. destruct (exprFacts _ _ _ _ _ _ E Wf) as (A & B & C).
  destruct (etmp e0) as [t|] eqn:Et.
  - pose proof (tri_own gty prog funs K n e [] c e0 c0 (eok e) E Wf (dOK_nil c) Hc s R [] P I) as T. destruct (C t eq_refl) as (Eg & Tm).
    assert (C' : forall t, etmp e0 = Some t -> egc e0 = true /\ tmpOK c c0 t) by (rewrite Et; exact C). destruct (own_facts c c0 e0 Wf A B C') as (O1 & O2).
    unfold own in *. rewrite Et in *. injection H as <- <-. cbn [fst snd] in *. eapply tri_seq; [exact T|]. intros s1 (v & B1 & B2 & B3 & B4 & B5). rewrite St0 in B1.
    destruct (assign_local _ _ _ _ _ i [] B5 P (lookup_ext _ _ _ _ Lk Wf O2) (live_NoDup [] _ O1)) as (s2 & E2 & J); [congruence|congruence|].
    eapply tri_one; [reflexivity|cbn [step]; rewrite B1, E2; reflexivity|]. split; [reflexivity|exact J].
  - pose proof (eok e [] c e0 c0 E Wf (dOK_nil c) Hc s R [] P I) as T. unfold Epost in T. rewrite Et in T. injection H as <- <-. eapply tri_seq; [exact T|].
    intros s1 (v & B1 & B2 & B3 & B4 & B5 & B6). rewrite St0 in B1. destruct (egc e0) eqn:Eg.
    + destruct (inv_inc _ _ _ _ v B5 B2) as (s2 & E2 & I2 & S2 & Sl2 & _); [eapply backed_alive; eauto|].
      destruct (assign_local _ _ _ _ _ i [] I2 P (lookup_ext _ _ _ _ Lk Wf B) (live_NoDup [] _ A)) as (s3 & E3 & J); [congruence|congruence|].
      eapply tri_one; [reflexivity|cbn [step]; rewrite B1, E2; cbn [bind]; rewrite E3; reflexivity|]. split; [reflexivity|exact J].
    + eapply tri_one; [reflexivity|cbn [step]; rewrite B1; reflexivity|]. split; [reflexivity|]. apply set_int; auto; [eapply lookup_ext; eauto|apply live_NoDup; auto].
Qed.
Lemma setg_ok : forall g e, Sok (SSetGlobal g e).
Proof.
  intros g e rs lp c p c' H Wf L2 Lp Hc s R P St0 I. cbn [cstmt] in H. destruct (nth_error gty g) as [gc|] eqn:Lk; [|discriminate]. inv1 H. destruct (eqb (egc e0) gc) eqn:Eq; [|discriminate]. cbn [negb] in H. apply eqb_prop in Eq. subst gc.
  apply simple_next; auto. destruct (exprFacts _ _ _ _ _ _ E Wf) as (A & B & C).
  destruct (etmp e0) as [t|] eqn:Et.
  - pose proof (tri_own gty prog funs K n e [] c e0 c0 (eok e) E Wf (dOK_nil c) Hc s R [] P I) as T. destruct (C t eq_refl) as (Eg & Tm). rewrite Eg in *.
    unfold own in *. rewrite Et in *. injection H as <- <-. cbn [fst snd] in *. eapply tri_seq; [exact T|]. intros s1 (v & B1 & B2 & B3 & B4 & B5). rewrite St0 in B1.
    destruct (kinds_nth _ _ _ _ (iglob _ _ _ _ _ B5) Lk) as (w & Ew & _). destruct (assign_global _ _ _ _ _ g w [] B5 P Lk Ew B2) as (s2 & E2 & J).
    eapply tri_one; [reflexivity|cbn [step]; rewrite B1, Ew, E2; reflexivity|]. split; [reflexivity|exact J].
  - pose proof (eok e [] c e0 c0 E Wf (dOK_nil c) Hc s R [] P I) as T. unfold Epost in T. rewrite Et in T. injection H as <- <-. eapply tri_seq; [exact T|].
    intros s1 (v & B1 & B2 & B3 & B4 & B5 & B6). rewrite St0 in B1. destruct (kinds_nth _ _ _ _ (iglob _ _ _ _ _ B5) Lk) as (w & Ew & _). destruct (egc e0) eqn:Eg.
    + destruct (inv_inc _ _ _ _ v B5 B2) as (s2 & E2 & I2 & S2 & Sl2 & G2 & _); [eapply backed_alive; eauto|]. rewrite <- G2 in Ew.
      destruct (assign_global _ _ _ _ _ g w [] I2 P Lk Ew B2) as (s3 & E3 & J). rewrite G2 in Ew.
      eapply tri_one; [reflexivity|cbn [step]; rewrite B1, Ew, E2; cbn [bind]; rewrite E3; reflexivity|]. split; [reflexivity|exact J].
    + eapply tri_one; [reflexivity|cbn [step]; rewrite B1|].
      { replace (Nat.ltb g (length (globs s1))) with true; [reflexivity|]. symmetry. apply Nat.ltb_lt. apply nth_error_Some. congruence. }
      split; [reflexivity|]. apply set_global_int; auto.
Qed.
Lemma call_ok : forall f a, Sok (SCall f a).
Proof.
  intros f a rs lp c p c' H Wf L2 Lp Hc s R P St0 I. cbn [cstmt] in H. apply simple_next; auto. destruct (nth_error sigs f) as [[ps [gc|]]|] eqn:Sg; [| |discriminate].
  - inv1 H. injection H as <- <-. eapply tri_seq; [eapply (tri_keep gty prog funs K n (ECall f a) []); eauto; [apply eok|apply dOK_nil]|].
    intros s1 (v & B1 & B2 & B3 & B4 & B5 & B6). eapply tri_one; [reflexivity|cbn [step]; rewrite B1; reflexivity|]. split; [exact St0|apply inv_stk; exact B5].
  - inv1 H. injection H as <- <-. destruct (sig_nth _ _ _ _ Sg) as (F & F1 & F2 & F3).
    eapply tri_seq; [eapply aok; eauto; apply dOK_nil|]. intros s1 (al & A1 & A2 & A3 & A4).
    eapply tri_end; [eapply tri_call; eauto; rewrite F2; exact A2|]. intros s2 (B1 & B2 & B3 & B4). rewrite F3 in B4. split; auto. congruence.
Qed.
(** A block around a statement. *)
Lemma scope_ok : forall b rs lp c p c1, Sok b -> cstmt gty sigs rs b lp (enter c) = Ok (p, c1) -> wfc c -> (1 <= length (cblks c))%nat -> (forall k, lp = Some k -> (1 <= k <= length (cblks c))%nat) -> (K = true -> carefulStmt b = true) ->
  forall s R, (forall o, 0 <= R o) -> stk s = [] -> inv (live [] c) s R [] ->
  tri n (p ++ release (top c1)) s (fun s' g => stk s' = [] /\ (isSimple b = true -> g = Next) /\ match g with
    | Next => inv (live [] c) s' R []
    | Brk | Cnt => exists k, lp = Some k /\ inv (below k c) s' R []
    | Ret => inv (below 1 c) s' R (match rs with Some _ => [res s'] | None => [] end) /\ forall gc, rs = Some gc -> isRef (res s') = gc end).
Proof.
  intros b rs lp c p c1 Hb H Wf L1 Lp Hc s R P St0 I. destruct (stmtFacts _ _ _ _ _ _ _ _ H (wfc_enter _ Wf)) as (W1 & X1).
  apply tri_app. eapply tri_imp; [eapply Hb; eauto; [apply wfc_enter; auto|cbn; lia|intros k Hk; apply Lp in Hk; cbn; lia]|].
  intros s1 g (A & Sm & B). destruct g; cbn [post].
  - destruct B as (_ & B). rewrite (live_leave [] _ _ X1 (dOK_nil c)) in B. eapply tri_imp; [apply tri_release with (gty := gty); [exact P|exact B]|].
    cbn. intros s2 g (-> & C1 & C2 & C3 & C4 & C5). rewrite C2. auto.
  - destruct B as (k & E & B). split; auto. split; auto. exists k. split; auto. rewrite below_enter in B; auto. apply Lp in E. lia.
  - destruct B as (k & E & B). split; auto. split; auto. exists k. split; auto. rewrite below_enter in B; auto. apply Lp in E. lia.
  - rewrite below_enter in B by lia. auto.
Qed.
Lemma tri_if' : forall a b s z l Q, stk s = VInt z :: l -> tri n (if z =? 0 then b else a) (withStk s l) Q -> tri n [IIf a b] s Q.
Proof.
  intros a b s z l Q Hs H. revert H. destruct n as [|m]; [constructor|]. intros H. apply tri_S in H. unfold TempBase.tri in *. cbn [exec]. rewrite Hs.
  destruct (exec funs m _ _) as [[s1 []]| | ]; cbn [bind]; auto. destruct m; cbn; auto.
Qed.
Lemma if_ok : forall i q a b, Sok i -> Sok a -> Sok b -> Sok (SIf i q a b).
Proof.
  intros i q a b Hi Ha Hb rs lp c p c' H Wf L2 Lp Hc s R P St0 I. cbn [cstmt] in H. destruct (negb _); [discriminate|]. inv1 H. inv1 H. destruct (egc e) eqn:Gq; [discriminate|]. inv1 H. inv1 H. injection H as <- <-.
  cbn [carefulStmt] in Hc. assert (Ca : K = true -> carefulStmt i = true /\ careful q = true /\ carefulStmt a = true /\ carefulStmt b = true) by (intros Kt; specialize (Hc Kt); rewrite !andb_true_iff in Hc; tauto). clear Hc.
  destruct (stmtFacts _ _ _ _ _ _ _ _ E (wfc_enter _ Wf)) as (A1 & A2). destruct (exprFacts _ _ _ _ _ _ E0 A1) as (B1 & B2 & _).
  destruct (stmtFacts _ _ _ _ _ _ _ _ E1 (wfc_enter _ B1)) as (C1 & C2). destruct (wfc_leave _ _ C2 B1 C1) as (D1 & D2 & Id2).
  destruct (stmtFacts _ _ _ _ _ _ _ _ E2 (wfc_enter _ D1)) as (F1 & F2). destruct (wfc_leave _ _ F2 D1 F1) as (G1 & G2 & Id3).
  assert (Z : ext (enter c) (leave c3)). { eapply ext_trans; [exact A2|]. eapply ext_trans; [exact B2|]. eapply ext_trans; eauto. }
  assert (X1 : ext (enter c) c1) by exact (ext_trans _ _ _ A2 B2).
  assert (Len : length (cblks c1) = S (length (cblks c))) by (rewrite (ext_len _ _ X1); reflexivity). assert (Len2 : length (cblks (leave c2)) = S (length (cblks c))) by (rewrite (ext_len _ _ D2); exact Len).
  assert (Bl : forall k, (k <= length (cblks c))%nat -> below k c1 = below k c). { intros k Hk. rewrite (below_ext _ _ k X1), below_enter; auto. cbn. lia. }
  assert (Bl2 : forall k, (k <= length (cblks c))%nat -> below k (leave c2) = below k c). { intros k Hk. rewrite (below_ext _ _ k D2), Bl; auto. lia. }
  apply tri_app. eapply tri_imp; [eapply Hi; eauto; [apply wfc_enter; auto|cbn; lia|discriminate|intros Kt; apply Ca; exact Kt]|].
  intros s1 g (S1 & Sm & J). destruct g; cbn [post]; try (destruct J as (k & Ek & _); discriminate Ek).
  2: { split; auto. split; [discriminate|]. rewrite below_enter in J by lia. exact J. }
  destruct J as (_ & J). eapply tri_next; [eapply (tri_keep gty prog funs K n q []); eauto; [apply eok|apply dOK_nil|intros Kt; apply Ca; exact Kt]|].
  intros s2 (v & K1 & K2 & K3 & K4 & K5 & K6). rewrite Gq in K2. destruct v as [z|]; [|discriminate]. rewrite S1 in K1.
  apply (tri_app _ _ _ [IIf _ _]). eapply tri_if'; [exact K1|].
  assert (I2 : inv (live [] c1) (withStk s2 []) R []) by (apply inv_stk; exact K5).
  assert (Br : tri n (if z =? 0 then l1 ++ release (top c3) else l0 ++ release (top c2)) (withStk s2 []) (fun s' g => stk s' = [] /\ match g with
    | Next => inv (live [] c1) s' R []
    | Brk | Cnt => exists k, lp = Some k /\ inv (below k c) s' R []
    | Ret => inv (below 1 c) s' R (match rs with Some _ => [res s'] | None => [] end) /\ forall gc, rs = Some gc -> isRef (res s') = gc end)).
  { destruct (z =? 0).
    - eapply tri_imp; [eapply (scope_ok b); eauto; [lia|intros k Hk; apply Lp in Hk; lia|intros Kt; apply Ca; exact Kt|rewrite (live_leave_old [] _ _ C2); exact I2]|].
      intros s3 g (T1 & _ & T2). split; auto. destruct g; auto.
      + rewrite (live_leave_old [] _ _ C2) in T2. exact T2.
      + destruct T2 as (k & Ek & T2). exists k. split; auto. rewrite Bl2 in T2; auto. apply Lp in Ek. lia.
      + destruct T2 as (k & Ek & T2). exists k. split; auto. rewrite Bl2 in T2; auto. apply Lp in Ek. lia.
      + rewrite Bl2 in T2 by lia. exact T2.
    - eapply tri_imp; [eapply (scope_ok a); eauto; [lia|intros k Hk; apply Lp in Hk; lia|intros Kt; apply Ca; exact Kt]|].
      intros s3 g (T1 & _ & T2). split; auto. destruct g; auto.
      + destruct T2 as (k & Ek & T2). exists k. split; auto. rewrite Bl in T2; auto. apply Lp in Ek. lia.
      + destruct T2 as (k & Ek & T2). exists k. split; auto. rewrite Bl in T2; auto. apply Lp in Ek. lia.
      + rewrite Bl in T2 by lia. exact T2. }
  eapply tri_imp; [exact Br|]. intros s3 g (T1 & T2). destruct g; cbn [post]; try (split; [exact T1|split; [discriminate|exact T2]]).
  assert (T3 : inv (live [] (leave c3)) s3 R []). { rewrite (live_leave_old [] _ _ F2), (live_leave_old [] _ _ C2). exact T2. }
  rewrite (live_leave [] _ _ Z (dOK_nil c)) in T3. eapply tri_imp; [apply tri_release with (gty := gty); [exact P|exact T3]|].
  cbn. intros s4 g (-> & U1 & U2 & U3 & U4 & U5). split; [congruence|]. split; auto. split; auto. rewrite (live_leave_old [] _ _ Z). exact U1.
Qed.
Lemma loop_ok : forall c rs (cond pst body : code) R, 
  (forall s, stk s = [] -> inv (live [] c) s R [] -> tri n cond s (nx (fun s' => exists z, stk s' = [VInt z] /\ inv (live [] c) s' R []))) ->
  (forall s, stk s = [] -> inv (live [] c) s R [] -> tri n pst s (nx (fun s' => stk s' = [] /\ inv (live [] c) s' R []))) ->
  (forall s, stk s = [] -> inv (live [] c) s R [] -> tri n body s (fun s' g => stk s' = [] /\ match g with
    | Next | Brk | Cnt => inv (live [] c) s' R []
    | Ret => inv (below 1 c) s' R (match rs with Some _ => [res s'] | None => [] end) /\ forall gc, rs = Some gc -> isRef (res s') = gc end)) ->
  forall m s, (m <= n)%nat -> stk s = [] -> inv (live [] c) s R [] -> tri m [ILoop cond pst body] s (fun s' g => stk s' = [] /\ match g with
    | Next => inv (live [] c) s' R []
    | Ret => inv (below 1 c) s' R (match rs with Some _ => [res s'] | None => [] end) /\ forall gc, rs = Some gc -> isRef (res s') = gc
    | _ => False end).
Proof.
  intros c rs cond pst body R Hc Hp Hb. induction m; intros s L S0 I; [constructor|]. assert (L' : (m <= n)%nat) by lia.
  pose proof (tri_le _ _ _ _ _ _ _ L' (Hc s S0 I)) as T1. unfold TempBase.tri in T1 |- *. cbn [exec]. destruct (exec funs m cond s) as [[s1 g1]| | ]; cbn [bind]; auto.
  destruct T1 as (-> & z & S1 & I1). rewrite S1. destruct (z =? 0). { destruct m; cbn; auto. split; auto. apply inv_stk. exact I1. }
  assert (I1' : inv (live [] c) (withStk s1 []) R []) by (apply inv_stk; exact I1).
  pose proof (tri_le _ _ _ _ _ _ _ L' (Hb (withStk s1 []) eq_refl I1')) as T2. unfold TempBase.tri in T2. destruct (exec funs m body (withStk s1 [])) as [[s2 g2]| | ]; cbn [bind]; auto.
  destruct T2 as (S2 & T2).
  assert (Again : g2 <> Ret -> match (let* (s0, g) := exec funs m pst s2 in match g with Next => exec funs m [ILoop cond pst body] s0 | _ => UB end) with
    | Ok (s', g) => stk s' = [] /\ match g with Next => inv (live [] c) s' R [] | Ret => inv (below 1 c) s' R (match rs with Some _ => [res s'] | None => [] end) /\ forall gc, rs = Some gc -> isRef (res s') = gc | _ => False end
    | Err _ => True | UB => K = false end).
  { intros Ng. assert (I2 : inv (live [] c) s2 R []) by (destruct g2; tauto). pose proof (tri_le _ _ _ _ _ _ _ L' (Hp s2 S2 I2)) as T3. unfold TempBase.tri in T3.
    destruct (exec funs m pst s2) as [[s3 g3]| | ]; cbn [bind]; auto. destruct T3 as (-> & S3 & I3). apply (IHm s3 L' S3 I3). }
  destruct g2; try (apply Again; discriminate); auto. destruct m; cbn; auto.
Qed.
Lemma for_ok : forall i q pt b, Sok i -> Sok pt -> Sok b -> Sok (SFor i q pt b).
Proof.
  intros i q pt b Hi Hp Hb rs lp c p c' H Wf L2 Lp Hc s R P St0 I. cbn [cstmt] in H. destruct (isDecl i && isSimple pt) eqn:Smp; [|discriminate]. cbn [negb] in H. inv1 H. inv1 H. destruct (egc e) eqn:Gq; [discriminate|]. inv1 H. inv1 H. injection H as <- <-.
  apply andb_true_iff in Smp as (_ & Smp).
  cbn [carefulStmt] in Hc. assert (Ca : K = true -> carefulStmt i = true /\ careful q = true /\ carefulStmt pt = true /\ carefulStmt b = true) by (intros Kt; specialize (Hc Kt); rewrite !andb_true_iff in Hc; tauto). clear Hc.
  destruct (stmtFacts _ _ _ _ _ _ _ _ E (wfc_enter _ Wf)) as (A1 & A2). destruct (exprFacts _ _ _ _ _ _ E0 (wfc_enter _ A1)) as (B1 & B2 & _). destruct (wfc_leave _ _ B2 A1 B1) as (B3 & B4 & IdB).
  destruct (stmtFacts _ _ _ _ _ _ _ _ E1 (wfc_enter _ B3)) as (C1 & C2). destruct (wfc_leave _ _ C2 B3 C1) as (D1 & D2 & Id2).
  destruct (stmtFacts _ _ _ _ _ _ _ _ E2 (wfc_enter _ D1)) as (F1 & F2). destruct (wfc_leave _ _ F2 D1 F1) as (G1 & G2 & Id3).
  assert (Z : ext (enter c) (leave c3)). { eapply ext_trans; [exact A2|]. eapply ext_trans; [exact B4|]. eapply ext_trans; eauto. }
  assert (Len : length (cblks c0) = S (length (cblks c))) by (rewrite (ext_len _ _ A2); reflexivity).
  assert (Len1 : length (cblks (leave c1)) = S (length (cblks c))) by (rewrite (ext_len _ _ B4); exact Len).
  assert (Len2 : length (cblks (leave c2)) = S (length (cblks c))) by (rewrite (ext_len _ _ D2); exact Len1).
  assert (Lv1 : live [] (leave c1) = live [] c0) by (apply live_leave_old; exact B2).
  assert (Lv2 : live [] (leave c2) = live [] c0) by (rewrite (live_leave_old [] _ _ C2); exact Lv1).
  assert (Bl : below 1 c0 = below 1 c). { rewrite (below_ext _ _ 1 A2), below_enter; auto; cbn; lia. }
  assert (Bl2 : below 1 (leave c2) = below 1 c). { rewrite (below_ext _ _ 1 D2), (below_ext _ _ 1 B4), Bl; auto; lia. }
  apply tri_app. eapply tri_imp; [eapply Hi; eauto; [apply wfc_enter; auto|cbn; lia|discriminate|intros Kt; apply Ca; exact Kt]|].
  intros s1 g (S1 & Sm & J). destruct g; cbn [post]; try (destruct J as (k & Ek & _); discriminate Ek).
  2: { split; auto. split; [discriminate|]. rewrite below_enter in J by lia. exact J. }
  destruct J as (_ & J). apply (tri_app _ _ _ [ILoop _ _ _]).
  eapply tri_imp; [apply (loop_ok c0 rs _ _ _ R) with (m := n); auto|].
  - intros s2 S2 I2. eapply tri_seq; [eapply (tri_keep gty prog funs K n q []); eauto; [apply eok|apply wfc_enter; auto|apply dOK_nil|intros Kt; apply Ca; exact Kt]|].
    intros s3 (v & K1 & K2 & K3 & K4 & K5 & K6). rewrite Gq in K2. destruct v as [z|]; [|discriminate]. rewrite S2 in K1. rewrite (live_leave [] _ _ B2 (dOK_nil c0)) in K5.
    eapply tri_end; [apply tri_release with (gty := gty); [exact P|exact K5]|]. cbn. intros s4 (U1 & U2 & _). exists z. split; [congruence|exact U1].
  - intros s2 S2 I2. eapply tri_imp; [eapply (scope_ok pt); eauto; [lia|discriminate|intros Kt; apply Ca; exact Kt|rewrite Lv1; exact I2]|].
    intros s3 g (T1 & T2 & T3). rewrite (T2 Smp) in *. split; auto. split; auto. rewrite <- Lv1. exact T3.
  - intros s2 S2 I2. eapply tri_imp; [eapply (scope_ok b); eauto; [lia|intros k Hk; injection Hk as <-; lia|intros Kt; apply Ca; exact Kt|rewrite Lv2; exact I2]|].
    intros s3 g (T1 & _ & T3). split; auto. destruct g.
    + rewrite <- Lv2. exact T3.
    + destruct T3 as (k & Ek & T3). injection Ek as <-. rewrite below_all in T3 by lia. rewrite <- Lv2. exact T3.
    + destruct T3 as (k & Ek & T3). injection Ek as <-. rewrite below_all in T3 by lia. rewrite <- Lv2. exact T3.
    + rewrite Bl, <- Bl2. exact T3.
  - cbn beta. intros s2 g (T1 & T2). destruct g; cbn [post]; try contradiction; [|rewrite Bl in T2; split; [exact T1|split; [discriminate|exact T2]]].
    assert (T3 : inv (live [] (leave c3)) s2 R []). { rewrite (live_leave_old [] _ _ F2), Lv2. exact T2. }
    rewrite (live_leave [] _ _ Z (dOK_nil c)) in T3. eapply tri_imp; [apply tri_release with (gty := gty); [exact P|exact T3]|].
    cbn. intros s4 g (-> & U1 & U2 & U3 & U4 & U5). split; [congruence|]. split; auto. split; auto. rewrite (live_leave_old [] _ _ Z). exact U1.
Qed.
Lemma ret_ok : forall e, Sok (SReturn e).
Proof.
  intros [e|] rs lp c p c' H Wf L2 Lp Hc s R P St0 I; cbn [cstmt] in H; destruct rs as [gc|]; try discriminate.
  - inv1 H. destruct (eqb (egc e0) gc) eqn:Eq; [|discriminate]. cbn [negb] in H. apply eqb_prop in Eq. destruct (exprFacts _ _ _ _ _ _ E Wf) as (A & B & C). destruct (own_facts c c0 e0 Wf A B C) as (O1 & O2).
    pose proof (tri_own gty prog funs K n e [] c e0 c0 (eok e) E Wf (dOK_nil c) Hc s R [] P I) as T. destruct (own e0 c0) as [k c1]. cbn [fst snd] in *. injection H as <- <-.
    eapply tri_next; [exact T|]. intros s1 (v & B1 & B2 & B3 & B4 & B5). rewrite St0 in B1. change (tri n (IPopRes :: releaseTo 1 c1 ++ [IReturn]) s1 (Spost (Some gc) lp (SReturn (Some e)) c c1 R)).
    eapply tri_step; [reflexivity|cbn [step]; rewrite B1; reflexivity|].
    eapply tri_next; [apply tri_releaseTo; [exact P|] |].
    + instantiate (1 := [v]). destruct B5 as [Ig If Ic Ik]. constructor; auto.
    + cbn. intros s2 (C1 & C2 & C3 & C4 & C5). eapply tri_fin; [reflexivity|]. split; auto. split; [discriminate|]. rewrite C5. split; [|intros g Eg; congruence].
      rewrite <- (below_ext _ _ 1 O2) by lia. exact C1.
  - injection H as <- <-. eapply tri_next; [apply tri_releaseTo; [exact P|exact I]|]. cbn. intros s2 (C1 & C2 & C3 & C4 & C5). eapply tri_fin; [reflexivity|].
    split; [congruence|]. split; [discriminate|]. split; auto. discriminate.
Qed.
Lemma jump_ok : forall b, b = SBreak \/ b = SContinue -> Sok b.
Proof.
  intros b Hb rs lp c p c' H Wf L2 Lp Hc s R P St0 I. destruct Hb as [-> | ->]; cbn [cstmt] in H; (destruct lp as [k|]; [|discriminate]); injection H as <- <-;
  (eapply tri_next; [apply tri_releaseTo; [exact P|exact I]|]); cbn; intros s2 (C1 & C2 & C3 & C4 & C5); (eapply tri_fin; [reflexivity|]); (split; [congruence|]); (split; [discriminate|]); exists k; auto.
Qed.
Lemma stmts_ok : forall b, Sok b.
Proof.
  induction b as [|a IHa b IHb|x e|x e|g e|f a|b IHb|i IHi q a IHa b IHb|i IHi q pt IHp b IHb| | |e].
  - intros rs lp c p c' H Wf L2 Lp Hc s R P St0 I. injection H as <- <-. apply tri_nil. split; auto. 
  - intros rs lp c p c' H Wf L2 Lp Hc s R P St0 I. cbn [cstmt] in H. inv1 H. inv1 H. injection H as <- <-. cbn [carefulStmt] in Hc. destruct (stmtFacts _ _ _ _ _ _ _ _ E Wf) as (A & B).
    apply tri_app. eapply tri_imp; [eapply IHa; eauto; intros Kt; specialize (Hc Kt); apply andb_true_iff in Hc; tauto|]. intros s1 g (S1 & Sm & T). destruct g; cbn [post].
    + destruct T as (Hr & T). eapply tri_imp; [eapply IHb; eauto; [rewrite (ext_len _ _ B); auto|intros k Hk; rewrite (ext_len _ _ B); auto|intros Kt; specialize (Hc Kt); apply andb_true_iff in Hc; tauto]|].
      intros s2 g (S2 & Sm2 & T2). split; auto. split; [discriminate|]. destruct g.
      * destruct T2 as (Hr2 & T2). cbn [hasReturn]. rewrite Hr, Hr2. auto.
      * destruct T2 as (k & Ek & T2). exists k. split; auto. rewrite (below_ext _ _ k B) in T2; auto. apply Lp in Ek. lia.
      * destruct T2 as (k & Ek & T2). exists k. split; auto. rewrite (below_ext _ _ k B) in T2; auto. apply Lp in Ek. lia.
      * rewrite (below_ext _ _ 1 B) in T2 by lia. exact T2.
    + split; auto. split; [discriminate|exact T].
    + split; auto. split; [discriminate|exact T].
    + split; auto. split; [discriminate|exact T].
  - apply decl_ok.
  - apply set_ok.
  - apply setg_ok.
  - apply call_ok.
  - intros rs lp c p c' H Wf L2 Lp Hc s R P St0 I. cbn [cstmt] in H. inv1 H. injection H as <- <-. destruct (stmtFacts _ _ _ _ _ _ _ _ E (wfc_enter _ Wf)) as (A & B).
    eapply tri_imp; [eapply (scope_ok b); eauto; [lia|intros k Hk; apply Lp in Hk; lia]|]. intros s1 g (S1 & _ & T). split; auto. split; [discriminate|]. destruct g; auto.
    split; auto. rewrite (live_leave_old [] _ _ B). exact T.
  - apply if_ok; auto.
  - apply for_ok; auto.
  - apply jump_ok. auto.
  - apply jump_ok. auto.
  - apply ret_ok.
Qed.
End Stmts.
