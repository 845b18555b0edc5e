(** Composite literals: the whole simulation, and consequences. *)
Require Import ZArith List Bool String Lia.
Require Import Verif.Base Verif.CompLitModel Verif.CompLitSpec Verif.CompLitCheck.
Require Import Verif.CompLitProofs.
Import ListNotations.
Local Open Scope nat_scope.

Lemma evItems_fst : forall its s,
  map fst (fst (evItems its s)) = map fst (itemList its).
Proof.
  induction its as [|f e r IH]; intros s; cbn [evItems itemList map]; auto.
  fold ev. destruct (ev e s) as [v s1]. specialize (IH s1).
  destruct (evItems r s1). cbn [fst map] in *. congruence.
Qed.

Lemma firstn_setNth : forall A (l : list A) k a, k < List.length l ->
  firstn (S k) (setNth l k a) = firstn k l ++ [a].
Proof.
  induction l; intros k b H; cbn in H; [lia|].
  destruct k; [reflexivity|]. cbn [setNth]. cbn [firstn app]. f_equal.
  apply IHl. lia.
Qed.

Lemma applyL_pos : forall t named l k cur,
  (forall f k, idx t named f k = Some k) ->
  k + List.length l = List.length cur ->
  applyL t named k l cur = firstn k cur ++ map snd l.
Proof.
  intros t named l. induction l as [|[f v] l IH]; intros k cur Hi Hl;
    cbn [applyL map snd].
  - cbn in Hl. rewrite Nat.add_0_r in Hl. subst. now rewrite firstn_all, app_nil_r.
  - rewrite Hi. cbn [List.length] in Hl. rewrite IH; auto.
    + rewrite firstn_setNth by lia. now rewrite <- app_assoc.
    + rewrite setNth_len. lia.
Qed.

Lemma applyL_len : forall t named l k cur,
  List.length (applyL t named k l cur) = List.length cur.
Proof.
  intros t named l. induction l as [|[f v] l IH]; intros; cbn [applyL]; auto.
  rewrite IH. destruct (idx t named f k); auto. apply setNth_len.
Qed.

Lemma given_none : forall l names f,
  map fst l = map Some names -> ~ In f names -> given l f = None.
Proof.
  induction l as [|[g v] l IH]; intros names f H Hn; cbn; auto.
  destruct names as [|n names]; cbn in H; [discriminate|]. injection H as -> H.
  destruct (String.eqb_spec n f) as [->|_].
  - exfalso. apply Hn. now left.
  - eapply IH; eauto. intros Hin. apply Hn. now right.
Qed.

Lemma applyL_named : forall fs l k cur names,
  uniq fs -> map fst l = map Some names -> NoDup names ->
  (forall f, In f names -> In f (map fst (fieldList fs))) ->
  List.length cur = List.length (fieldList fs) ->
  forall j f t, nth_error (fieldList fs) j = Some (f, t) ->
  nth_error (applyL (TRec fs) true k l cur) j =
  match given l f with Some v => Some v | None => nth_error cur j end.
Proof.
  intros fs l. induction l as [|[g v] l IH]; intros k cur names Hu Hm Hn Hin Hc j f t Hj.
  - reflexivity.
  - destruct names as [|n names]; cbn in Hm; [discriminate|]. injection Hm as -> Hm.
    inversion Hn as [|? ? Hn1 Hn2]; subst.
    cbn [applyL idx given].
    destruct (findField_in fs n (Hin n (or_introl eq_refl))) as (i & Hi). rewrite Hi.
    rewrite (IH (S k) (setNth cur i v) names Hu Hm Hn2) with (f := f) (t := t); auto.
    3:{ rewrite setNth_len. auto. }
    2:{ intros f' H'. apply Hin. now right. }
    destruct (String.eqb_spec n f) as [->|Hne].
    + rewrite (given_none _ _ _ Hm Hn1). rewrite setNth_nth.
      rewrite (findField_uniq _ _ _ _ Hu Hj) in Hi. injection Hi as <-.
      rewrite Nat.eqb_refl. destruct (Nat.ltb_spec j (List.length cur)); auto.
      assert (j < List.length (fieldList fs)) by (apply nth_error_Some; congruence).
      lia.
    + destruct (given l f); auto. rewrite setNth_nth.
      destruct (Nat.eqb_spec j i) as [->|]; auto.
      destruct (findField_some _ _ _ Hi) as (u & Hu'). congruence.
Qed.

Lemma zeroVs_map : forall fs, zeroVs fs = map (fun ft => zeroV (snd ft)) (fieldList fs).
Proof. induction fs; cbn; congruence. Qed.

Lemma nth_error_eq : forall A (l l' : list A),
  (forall i, nth_error l i = nth_error l' i) -> l = l'.
Proof.
  induction l; destruct l'; intros H; auto.
  - specialize (H 0); discriminate.
  - specialize (H 0); discriminate.
  - pose proof (H 0) as H0. cbn in H0. injection H0 as ->. f_equal. apply IHl.
    intros i. exact (H (S i)).
Qed.

Lemma named_build : forall fs l names,
  uniq fs -> map fst l = map Some names -> NoDup names ->
  (forall f, In f names -> In f (map fst (fieldList fs))) ->
  VSeq (applyL (TRec fs) true 0 l (zeroVs fs)) = build (TRec fs) l.
Proof.
  intros fs l names Hu Hm Hn Hin.
  assert (E : build (TRec fs) l =
              VSeq (map (fun ft => match given l (fst ft) with
                                   | Some v => v
                                   | None => zeroV (snd ft)
                                   end) (fieldList fs))).
  { cbn [build]. destruct l as [|[[g|] v] l]; auto. destruct names; discriminate. }
  rewrite E. f_equal. rewrite zeroVs_map. apply nth_error_eq. intros j.
  destruct (nth_error (fieldList fs) j) as [[f t]|] eqn:Ej.
  - rewrite (applyL_named _ _ _ _ _ Hu Hm Hn Hin) with (f := f) (t := t); auto.
    2:{ now rewrite map_length. }
    rewrite !(map_nth_error _ _ _ Ej). cbn [fst snd]. now destruct (given l f).
  - transitivity (@None value).
    + apply nth_error_None. rewrite applyL_len, map_length. now apply nth_error_None.
    + symmetry. apply nth_error_None. rewrite map_length. now apply nth_error_None.
Qed.

Lemma list_eq_nil : forall A (l : list A), l = [] \/ l <> [].
Proof. destruct l; [now left|right; discriminate]. Qed.

Section Sim.
Variable tys : list ty.
Variable addr : list nat.
Variable nv : nat.
Hypothesis lay : layout tys addr nv.

Lemma placed_arr : forall its n b named k,
  map fst (itemList its) = repeat None (n - k) ->
  (forall e, In (None, e) (itemList its) -> hasTy tys e b) ->
  placed tys (TArr n b) named k its.
Proof.
  induction its as [|f e r IH]; intros n b named k Hm Ht; cbn [placed]; auto.
  cbn [itemList map fst] in Hm. destruct (n - k) as [|m] eqn:E; [discriminate|].
  injection Hm as -> Hm. split.
  - exists k, b. cbn [idx compTys]. split; [auto|]. split.
    + assert (Hk : k < List.length (repeat b n)) by (rewrite repeat_length; lia).
      rewrite (nth_error_nth' _ b Hk). now rewrite nth_repeat.
    + apply Ht. now left.
  - apply IH.
    + replace (n - S k) with m by lia. auto.
    + intros e' He. apply Ht. now right.
Qed.

Lemma placed_pos : forall its fs k,
  map fst (itemList its) = repeat None (List.length (fieldList fs) - k) ->
  (forall i f t e, nth_error (fieldList fs) (k + i) = Some (f, t) ->
     nth_error (itemList its) i = Some (None, e) -> hasTy tys e t) ->
  placed tys (TRec fs) false k its.
Proof.
  induction its as [|f e r IH]; intros fs k Hm Ht; cbn [placed]; auto.
  cbn [itemList map fst] in Hm.
  destruct (List.length (fieldList fs) - k) as [|m] eqn:E; [discriminate|].
  injection Hm as -> Hm. split.
  - destruct (nth_error (fieldList fs) k) as [[g t]|] eqn:Ek.
    + exists k, t. cbn [idx compTys]. split; [auto|]. split.
      * now rewrite (map_nth_error snd _ _ Ek).
      * apply (Ht 0 g t e); auto. now rewrite Nat.add_0_r.
    + apply nth_error_None in Ek. lia.
  - apply IH.
    + replace (List.length (fieldList fs) - S k) with m by lia. auto.
    + intros i g t e' Hi He. apply (Ht (S i) g t e'); auto.
      now replace (k + S i) with (S k + i) by lia.
Qed.

Lemma placed_named : forall its fs k names,
  map fst (itemList its) = map Some names ->
  (forall f, In f names -> In f (map fst (fieldList fs))) ->
  (forall f t e, In (f, t) (fieldList fs) -> In (Some f, e) (itemList its) ->
     hasTy tys e t) ->
  placed tys (TRec fs) true k its.
Proof.
  induction its as [|f e r IH]; intros fs k names Hm Hin Ht; cbn [placed]; auto.
  cbn [itemList map fst] in Hm. destruct names as [|n names]; [discriminate|].
  injection Hm as -> Hm. split.
  - destruct (findField_in fs n (Hin n (or_introl eq_refl))) as (j & Hj).
    destruct (findField_some _ _ _ Hj) as (t & Hjt).
    exists j, t. cbn [idx compTys]. split; [auto|]. split.
    + now rewrite (map_nth_error snd _ _ Hjt).
    + eapply Ht; [eapply nth_error_In; eauto|]. now left.
  - eapply IH; eauto.
    + intros f Hf. apply Hin. now right.
    + intros f t e' Hf He. eapply Ht; eauto. now right.
Qed.

Notation simE := (simE tys addr nv).
Notation simI := (simI tys addr nv).
Notation simP := (simP tys addr nv).

(** An array or a structure. *)
Lemma sim_comp : forall t its named cur fin st s,
  simI its ->
  match t with TArr _ _ | TRec _ => True | _ => False end ->
  named = namedFields t its ->
  placed tys t named 0 its -> wfItems its -> safeItems its ->
  Inv tys addr nv fin st s ->
  zeroV t = VSeq cur ->
  VSeq (applyL t named 0 (fst (evItems its s)) cur) = build t (fst (evItems its s)) ->
  exists sl st' fin',
    run tys addr (ELit t its) st = Ok (sl, st') /\
    Ext nv 0 0 None fin st fin' st' /\
    Inv tys addr nv fin' st' (snd (ev (ELit t its) s)) /\
    holdsF fin' st' t sl (fst (ev (ELit t its) s)) /\
    loc tys addr nv (ELit t its) t sl st'.
Proof.
  intros t its named cur fin st s [IH _] Hk Hn Hp HW HS HI Hz Hb.
  set (a := top st).
  set (st1 := zeroVar (mkState (stk st) (top st + size t) (objs st)) a (size t)).
  assert (Hnv : nv <= a) by apply HI.
  assert (Hsz : size t = total (compTys t)).
  { destruct t; try contradiction; cbn [compTys size].
    - now rewrite total_repeat.
    - fold sizes. apply sizes_total. }
  assert (I1 : Inv tys addr nv fin st1 s).
  { unfold st1, zeroVar. cbn [stk top objs].
    change (Inv tys addr nv fin
      (mkState (blit (stk (mkState (stk st) (top st + size t) (objs st))) a
                     (repeat (CInt 0) (size t)))
               (top (mkState (stk st) (top st + size t) (objs st)))
               (objs (mkState (stk st) (top st + size t) (objs st)))) s).
    apply Inv_temp; auto.
    - now apply Inv_top.
    - intros i Hi. apply blit_out. lia. }
  assert (R1 : repsAt (objs st1) fin (stk st1) a (compTys t) cur).
  { apply repsAt_reps. rewrite <- Hsz. unfold st1, zeroVar. cbn [stk objs].
    rewrite <- (repeat_length (CInt 0) (size t)) at 2. rewrite slice_blit.
    pose proof (zero_rep (objs st) fin t) as Z. rewrite Hz in Z.
    destruct t; try contradiction; inversion Z; subst; auto. }
  destruct (IH t named a 0 0 fin st1 s cur) as (st' & fin' & E & X & I' & R'); auto.
  { destruct t; cbn; auto. }
  exists (SPtr a), st', fin'.
  assert (Hrun : run tys addr (ELit t its) st = Ok (SPtr a, st')).
  { assert (K : run tys addr (ELit t its) st =
                bind (runItems tys addr t (namedFields t its) a 0 0 its st1)
                     (fun st => Ok (SPtr a, st)))
      by (destruct t; try contradiction; reflexivity).
    rewrite K, <- Hn, E. reflexivity. }
  split; [exact Hrun|].
  cbn [ev]. fold evItems. destruct (evItems its s) as [l s1]. cbn [fst snd] in *.
  split; [|split; [auto|split]].
  - destruct X as (X1 & X2 & X3 & X4 & X5). unfold st1, zeroVar in *.
    cbn [top stk objs] in *. unfold Ext. split; [lia|]. split; [|split; [auto|split; auto]].
    intros i Hi _. rewrite X2 by lia. apply blit_out. lia.
  - rewrite <- Hb. apply repsAt_reps in R'. rewrite <- Hsz in R'.
    eexists. split.
    + apply load_ptr_ok. destruct t; try contradiction; discriminate.
    + destruct t; try contradiction; constructor; auto.
  - cbn [loc]. right. split; [auto|]. destruct X as (X1 & _).
    unfold st1, zeroVar in X1. cbn [top] in X1. subst a. lia.
Qed.

Lemma holdsF_same : forall fin st st' b sl v,
  stk st' = stk st -> objs st' = objs st -> holdsF fin st b sl v ->
  holdsF fin st' b sl v.
Proof.
  intros fin st st' b sl v H1 H2 (cs & Hl & Hr). exists cs. rewrite H2. split; auto.
  eapply load_frame; [exact Hl|]. intros. now rewrite H1.
Qed.

Lemma sim_dyn : forall b its, simI its ->
  forall fin st s,
  (forall f e, In (f, e) (itemList its) -> hasTy tys e b) ->
  wfItems its -> safeItems its -> (b = TInt \/ orderly its) ->
  Inv tys addr nv fin st s ->
  exists sl st' fin',
    run tys addr (ELit (TDyn b) its) st = Ok (sl, st') /\
    Ext nv 0 0 None fin st fin' st' /\
    Inv tys addr nv fin' st' (snd (ev (ELit (TDyn b) its) s)) /\
    holdsF fin' st' (TDyn b) sl (fst (ev (ELit (TDyn b) its) s)) /\
    loc tys addr nv (ELit (TDyn b) its) (TDyn b) sl st'.
Proof.
  intros b its [_ IH] fin st s Ht HW HS Ho HI.
  destruct (IH b fin st s [] Ht HW HS Ho HI) as (ss & st1 & fin1 & E1 & X1 & I1 & H1 & B1).
  cbn [run]. fold (runAll tys addr). rewrite E1. cbn [bind]. rewrite app_nil_r.
  cbn [ev]. fold evItems. destruct (evItems its s) as [l s1]. cbn [fst snd build] in *.
  assert (Hnv : nv <= top st1) by apply I1.
  destruct (list_eq_nil _ ss) as [Ess|Hne].
  - subst ss. cbn [rev]. inversion H1 as [E|]; subst. cbn [alloc].
    set (a := top st1). eexists _, _, fin1. split; [reflexivity|].
    unfold zeroVar. cbn [stk top objs]. cbn [repeat].
    split; [|split; [|split]].
    + eapply Ext_trans; [exact X1|]. unfold Ext. cbn [stk top objs].
      split; [lia|]. split; [|repeat split; auto].
      intros i Hi _. apply blit_out. lia.
    + change (Inv tys addr nv fin1
        (mkState (blit (stk (mkState (stk st1) (a + 1) (objs st1))) a [CInt 0])
                 (top (mkState (stk st1) (a + 1) (objs st1)))
                 (objs (mkState (stk st1) (a + 1) (objs st1)))) s1).
      apply Inv_temp; auto.
      * now apply Inv_top.
      * intros i Hi. apply blit_out. lia.
    + eexists. split; [reflexivity|]. cbn [objs stk size].
      change 1 with (List.length [CInt 0]) at 1. rewrite slice_blit.
      constructor.
    + cbn [loc top size]. right. lia.
  - assert (Hlen : List.length (rev ss) = List.length ss) by apply rev_length.
    assert (Hm : forall X (p q : X), match rev ss with [] => p | _ :: _ => q end = q).
    { intros. destruct (rev ss) eqn:E; auto. exfalso. apply Hne.
      rewrite <- (rev_involutive ss), E. reflexivity. }
    rewrite Hm, Hlen. cbn [alloc].
    set (n := List.length ss). set (a := top st1) in *.
    set (st2 := mkState (stk st1) (a + n * size b) (objs st1)).
    destruct (storeBack_ok fin1 b a ss st2 (map snd l)) as (st3 & E3 & T3 & O3 & S3 & R3).
    { clear -H1. induction H1; constructor; auto. }
    { exact B1. }
    fold n in E3, S3, R3. rewrite E3. cbn [bind newObj alloc].
    rewrite O3, T3. cbn [st2 objs top].
    set (cs := slice (stk st3) a (n * size b)).
    set (o := List.length (objs st1)).
    set (d := a + n * size b).
    set (st4 := mkState _ _ _).
    set (fin4 := fun i => fin1 i \/ i = o).
    assert (Hfin : forall i, fin1 i -> nth_error (objs st1 ++ [ODyn cs]) i
                                       = nth_error (objs st1) i /\ fin4 i).
    { intros i Hi. split; [|now left]. rewrite nth_error_app1; auto. now apply I1. }
    exists (SPtr d), st4, fin4. split; [reflexivity|].
    assert (Hst4 : forall i, i < a -> stk st4 i = stk st1 i).
    { intros i Hi. cbn [st4 stk]. rewrite blit_out by (subst d; lia).
      rewrite S3 by lia. reflexivity. }
    split; [|split; [|split]].
    + eapply Ext_trans; [exact X1|]. unfold Ext, st4. cbn [stk top objs].
      split; [subst d a; lia|]. split; [|split; [|split]].
      * intros i Hi _. apply Hst4. subst a; lia.
      * rewrite app_length. lia.
      * intros i Hi _. now rewrite nth_error_app1.
      * intros i Hi. unfold fin4. split; [|auto]. intros [H|H]; auto. subst o. lia.
    + destruct I1 as (J1 & J2 & J3 & J4). split; [auto|].
      split; [cbn [st4 top]; subst d a; lia|].
      split.
      * cbn [st4 objs]. rewrite app_length. cbn [List.length].
        intros i [Hi|Hi]; [specialize (J3 i Hi)|]; subst o; lia.
      * intros x t p v Hx Hp Hv. cbn [st4 objs].
        eapply rep_ext; [exact Hfin|]. fold st4.
        rewrite (slice_ext (stk st1) (stk st4)); [eauto|].
        intros i Hi. apply Hst4. destruct lay as (_ & L & _).
        specialize (L _ _ _ Hx Hp). subst a. lia.
    + eexists. split; [reflexivity|]. cbn [st4 objs stk size].
      change 1 with (List.length [CRef o]). rewrite slice_blit.
      apply R_Dyn with (cs := cs).
      * now right.
      * rewrite nth_error_app2 by (subst o; lia). subst o. now rewrite Nat.sub_diag.
      * apply (proj1 (proj2 (rep_ext_all (objs st1) fin1 _ fin4 Hfin))).
        apply repsAt_reps in R3. rewrite total_repeat in R3.
        replace (List.length (map snd l)) with n; [exact R3|].
        apply repsAt_reps in R3 || idtac. subst n. clear -H1.
        induction H1; cbn; auto.
    + cbn [loc size st4 top]. right. subst d a. lia.
Qed.

Lemma sim_map : forall b ps, simP ps ->
  forall fin st s,
  (forall k e, In (k, e) (pairList ps) -> hasTy tys k TInt) ->
  (forall k e, In (k, e) (pairList ps) -> hasTy tys e b) ->
  wfPairs ps -> safePairs ps -> Inv tys addr nv fin st s ->
  exists sl st' fin',
    run tys addr (EMap b ps) st = Ok (sl, st') /\
    Ext nv 0 0 None fin st fin' st' /\
    Inv tys addr nv fin' st' (snd (ev (EMap b ps) s)) /\
    holdsF fin' st' (TMap b) sl (fst (ev (EMap b ps) s)) /\
    loc tys addr nv (EMap b ps) (TMap b) sl st'.
Proof.
  intros b ps IH fin st s T1 T2 HW HS HI.
  cbn [run]. fold (runPairs tys addr). cbn [alloc newObj zeroVar stk top objs].
  set (a := top st). set (o := List.length (objs st)).
  set (st1 := mkState _ _ _).
  assert (Hnv : nv <= a) by apply HI.
  assert (Hs1 : forall i, i < a -> stk st1 i = stk st i).
  { intros i Hi. cbn [st1 stk]. rewrite !blit_out; auto; cbn; lia. }
  assert (Hfin : forall i, fin i -> nth_error (objs st ++ [OMap []]) i
                                     = nth_error (objs st) i /\ fin i).
  { intros i Hi. split; auto. rewrite nth_error_app1; auto. now apply HI. }
  assert (I1 : Inv tys addr nv fin st1 s).
  { destruct HI as (J1 & J2 & J3 & J4). split; [auto|].
    split; [cbn [st1 top]; lia|]. split.
    - cbn [st1 objs]. rewrite app_length. intros i Hi. specialize (J3 i Hi). lia.
    - intros x t p v Hx Hp Hv. cbn [st1 objs]. fold st1.
      eapply rep_ext; [exact Hfin|].
      rewrite (slice_ext (stk st) (stk st1)); [eauto|].
      intros i Hi. apply Hs1. destruct lay as (_ & L & _).
      specialize (L _ _ _ Hx Hp). lia. }
  assert (Hno : ~ fin o).
  { intros Hf. apply HI in Hf. subst o. lia. }
  destruct (IH b o fin st1 s [] []) as (st' & fin' & es' & E & X & I' & O' & M'); auto.
  { cbn [st1 objs]. rewrite nth_error_app2 by (subst o; lia). subst o.
    now rewrite Nat.sub_diag. }
  { constructor. }
  rewrite E. cbn [bind].
  cbn [ev]. fold evPairs. destruct (evPairs ps [] s) as [l s1]. cbn [fst snd] in *.
  set (fin2 := fun i => fin' i \/ i = o).
  exists (SPtr a), st', fin2. split; [reflexivity|].
  assert (Ho : o < List.length (objs st')) by (apply nth_error_Some; congruence).
  assert (Hf2 : forall i, fin' i -> nth_error (objs st') i = nth_error (objs st') i
                                    /\ fin2 i).
  { intros i Hi. split; auto. now left. }
  destruct X as (X1 & X2 & X3 & X4 & X5).
  split; [|split; [|split]].
  - unfold Ext. cbn [st1 top stk objs] in X1, X2, X3, X4, X5. rewrite app_length in *.
    cbn [List.length] in *. split; [subst a; lia|]. split; [|split; [lia|split]].
    + intros i Hi _. rewrite X2 by (subst a; lia). fold (stk st1 i). 
      rewrite !blit_out; auto; cbn; subst a; lia.
    + intros i Hi _. rewrite X4; [|lia|].
      * now rewrite nth_error_app1.
      * intros Hx. injection Hx as Hx. subst o. lia.
    + intros i Hi. unfold fin2. rewrite X5 by lia. split; [|auto].
      intros [H|H]; auto. subst o. lia.
  - destruct st' as [m' t' o']. apply (Inv_objs tys addr nv fin' (mkState m' t' o')); auto.
    intros i [Hi|Hi]; [apply I' in Hi; exact Hi|subst i; exact Ho].
  - eexists. split; [reflexivity|]. cbn [size].
    assert (Hc : slice (stk st') a 1 = [CRef o]).
    { rewrite (slice_ext (stk st1)).
      - cbn [st1 stk]. change 1 with (List.length [CRef o]). apply slice_blit.
      - intros i Hi. apply X2; [cbn [st1 top]; lia|lia]. }
    rewrite Hc. apply R_Map with (es := es'); [now right|exact O'|].
    eapply repm_ext; [exact Hf2|exact M'].
  - cbn [loc size]. right. cbn [st1 top] in X1. subst a. lia.
Qed.

Lemma sim_all : (forall e, simE e) /\ (forall its, simI its) /\ (forall ps, simP ps).
Proof.
  apply exprs_mut.
  - intros z t fin st s Ht _ _ HI. inversion Ht; subst.
    exists (SNum z), st, fin. cbn. split; [auto|]. split; [apply Ext_refl|].
    split; [auto|]. split; [|auto]. eexists. split; [reflexivity|]. constructor.
  - intros x t fin st s Ht _ _ HI. inversion Ht as [|? ? Hx| | | | | |]; subst.
    destruct lay as (L0 & L1 & _).
    assert (Hxa : exists a, nth_error addr x = Some a).
    { destruct (nth_error addr x) eqn:E; eauto. apply nth_error_None in E.
      assert (x < List.length tys) by (apply nth_error_Some; congruence). lia. }
    destruct Hxa as (a & Ha).
    assert (Hv : nth_error s x = Some (nth x s (VNum 0))).
    { apply nth_error_nth'. destruct HI as (-> & _). apply nth_error_Some. congruence. }
    pose proof HI as (_ & _ & _ & HR). specialize (HR _ _ _ _ Hx Ha Hv).
    cbn [run ev fst snd]. rewrite Hx, Ha.
    assert (D : t = TInt \/ t <> TInt) by (destruct t; auto; right; discriminate).
    destruct D as [->|D].
    + cbn in HR. inversion HR as [z E1 E2 E3| | | | | |]; subst.
      exists (SNum z), st, fin. split; [reflexivity|].
      split; [apply Ext_refl|]. split; [auto|]. split; [|exact I].
      exists [CInt z]. split; [reflexivity|]. constructor.
    + exists (SPtr a), st, fin. split; [destruct t; congruence|].
      split; [apply Ext_refl|]. split; [auto|]. split.
      * eexists. split; [apply load_ptr_ok; auto|auto].
      * left. eauto.
  - intros x e IH t fin st s Ht HW HS HI. inversion Ht as [| |? ? u Hx He| | | | |]; subst.
    cbn [wf safe] in *.
    destruct (IH u fin st s He HW HS HI) as (sl & st1 & fin1 & E1 & X1 & I1 & H1 & _).
    assert (Hxa : exists a, nth_error addr x = Some a).
    { destruct lay as (L0 & _). destruct (nth_error addr x) eqn:E; eauto.
      apply nth_error_None in E.
      assert (x < List.length tys) by (apply nth_error_Some; congruence). lia. }
    destruct Hxa as (a & Ha).
    cbn [run ev]. rewrite E1. cbn [bind]. rewrite Hx, Ha.
    destruct (ev e s) as [v s1]. cbn [fst snd] in *.
    destruct (set_var _ _ _ lay _ _ _ _ _ _ _ _ I1 Hx Ha H1) as (st2 & E2 & X2 & I2).
    rewrite E2. cbn [bind]. exists (SNum 0), st2, fin1. split; [auto|].
    split; [eapply Ext_trans; eauto|]. split; [auto|]. split; [|exact I].
    eexists. split; [reflexivity|]. constructor.
  - intros t its IH u fin st s Ht [HU HW] [HS Hsafe] HI.
    inversion Ht as [| | |n b its' M1 M2|fs its' Hne M1 M2 M3|fs its' names M1 M2 M3 M4
                     |b its' M1 M2|]; subst.
    + eapply sim_comp with (cur := repeat (zeroV b) n); eauto.
      * apply placed_arr; auto. now rewrite Nat.sub_0_r.
      * cbn [build]. f_equal. rewrite applyL_pos; auto.
        rewrite repeat_length. rewrite <- (map_length fst), evItems_fst, M1.
        now rewrite repeat_length.
    + assert (Hn : namedFields (TRec fs) its = false).
      { destruct its as [|[f|] e r]; cbn; auto; [congruence|].
        cbn in M1. destruct (List.length (fieldList fs)); discriminate. }
      eapply sim_comp with (cur := zeroVs fs) (named := false); eauto.
      * apply placed_pos; auto. now rewrite Nat.sub_0_r.
      * rewrite applyL_pos; auto.
        -- cbn [firstn app build].
           pose proof (evItems_fst its s) as F. rewrite M1 in F.
           destruct its as [|f e r]; [congruence|]. cbn [itemList map fst] in M1.
           cbn [evItems] in *. destruct (ev e s) as [v s1].
           destruct (evItems r s1) as [l s2]. cbn [fst map] in *.
           destruct (List.length (fieldList fs)); [discriminate|].
           injection M1 as -> _. reflexivity.
        -- rewrite zeroVs_map, map_length. cbn [Nat.add].
           rewrite <- (map_length fst), evItems_fst, M1. now rewrite repeat_length.
    + assert (Hn : namedFields (TRec fs) its = true).
      { destruct its as [|[f|] e r]; cbn; auto.
        cbn in M1. destruct names; discriminate. }
      eapply sim_comp with (cur := zeroVs fs) (named := true); eauto.
      * eapply placed_named; eauto.
      * eapply named_build; eauto. now rewrite evItems_fst.
    + apply sim_dyn; auto.
      * intros f e Hin. pose proof (M1 _ _ Hin). subst. auto.
      * destruct b; auto.
  - intros t ps IH u fin st s Ht HW HS HI. inversion Ht; subst. cbn [wf safe] in *.
    apply sim_map; auto.
  - split.
    + intros t named a k off fin st s cur _ _ _ HI _ _ _ _ HR.
      exists st, fin. split; [reflexivity|]. split; [apply Ext_refl|]. auto.
    + intros b fin st s acc _ _ _ _ HI. exists [], st, fin. split; [reflexivity|].
      split; [apply Ext_refl|]. split; [auto|]. split; [constructor|]. intros p [].
  - intros f e IHe r IHr. now apply sim_item.
  - intros b o fin st s es acc _ _ _ _ HI Hno Hob Hm.
    exists st, fin, es. split; [reflexivity|]. split; [apply Ext_refl|]. auto.
  - intros k IHk e IHe r IHr. now apply sim_pair.
Qed.
End Sim.

Lemma literals : forall tys addr lim e t st s,
  layout tys addr lim -> lim <= top st -> varsHold tys addr st s ->
  wf e -> safe e -> check tys e = Some t ->
  exists sl st',
    run tys addr e st = Ok (sl, st') /\
    holds st' t sl (fst (ev e s)) /\
    varsHold tys addr st' (snd (ev e s)) /\
    (forall i, lim <= i < top st -> stk st' i = stk st i) /\
    (forall o, o < List.length (objs st) ->
       nth_error (objs st') o = nth_error (objs st) o).
Proof.
  intros tys addr lim e t st s L Hlim [V1 V2] HW HS HC.
  apply check_iff in HC; auto.
  set (fin := fun o => o < List.length (objs st)).
  assert (HI : Inv tys addr lim fin st s).
  { split; [auto|]. split; [auto|]. split; [auto|].
    intros x u a v Hx Ha Hv. specialize (V2 _ _ _ _ Hx Ha Hv). clear -V2.
    revert V2. generalize (slice (stk st) a (size u)) as cs.
    assert (K : (forall t cs v, rep (objs st) anyObj t cs v -> rep (objs st) fin t cs v)
             /\ (forall ts cs vs, reps (objs st) anyObj ts cs vs ->
                   reps (objs st) fin ts cs vs)
             /\ (forall t es kvs, repm (objs st) anyObj t es kvs ->
                   repm (objs st) fin t es kvs)).
    { apply rep_all; intros; try (constructor; auto; fail).
      - eapply R_Dyn; eauto. apply nth_error_Some. congruence.
      - eapply R_Map; eauto. apply nth_error_Some. congruence. }
    intros cs. apply K. }
  destruct (proj1 (sim_all tys addr lim L) e t fin st s HC HW HS HI)
    as (sl & st' & fin' & E & X & I' & (cs & Hl & Hr) & _).
  exists sl, st'. split; [auto|].
  assert (K : forall u c v, rep (objs st') fin' u c v -> rep (objs st') anyObj u c v).
  { intros u c v H. eapply rep_ext; [|exact H]. intros; split; auto. exact I. }
  destruct X as (X1 & X2 & X3 & X4 & X5).
  split; [exists cs; auto|]. split; [|split].
  - destruct I' as (J1 & _ & _ & J4). split; auto. intros. apply K. eauto.
  - intros i Hi. apply X2; auto. lia.
  - intros o Ho. apply X4; auto. discriminate.
Qed.

(** * Maps: the last item of a key counts *)
Lemma mapGet_set : forall kvs k v j,
  mapGet (mapSet kvs k v) j = if Z.eqb k j then Some v else mapGet kvs j.
Proof.
  induction kvs as [|[i w] r IH]; intros k v j; cbn; auto.
  destruct (Z.eqb_spec i k) as [->|Hne]; cbn.
  - now destruct (Z.eqb k j).
  - rewrite IH. destruct (Z.eqb_spec i j) as [->|Hn]; auto.
    destruct (Z.eqb_spec k j); congruence.
Qed.

Lemma evPairs_last : forall ps acc s k,
  mapGet (fst (evPairs ps acc s)) k =
  match lastOf (evKeys ps s) k with
  | Some v => Some v
  | None => mapGet acc k
  end.
Proof.
  induction ps as [|kx e r IH]; intros acc s k; cbn [evPairs evKeys]; auto.
  fold ev. destruct (ev kx s) as [kv s1]. destruct (ev e s1) as [v s2].
  rewrite IH, mapGet_set. cbn [lastOf].
  destruct (lastOf (evKeys r s2) k); auto.
  now destruct (Z.eqb (keyOf kv) k).
Qed.

Lemma map_keys : forall kvs k v, In k (map fst (mapSet kvs k v)).
Proof.
  induction kvs as [|[j w] r IH]; intros k v; cbn; auto.
  destruct (Z.eqb_spec j k); cbn; auto.
Qed.

Lemma mapSet_NoDup : forall kvs k v, NoDup (map fst kvs) ->
  NoDup (map fst (mapSet kvs k v)).
Proof.
  induction kvs as [|[j w] r IH]; intros k v H; cbn.
  - constructor; auto.
  - inversion H as [|? ? Hn Hr]; subst. destruct (Z.eqb_spec j k); cbn; auto.
    constructor; auto. intros Hin. apply Hn. clear -Hin n.
    induction r as [|[i w] r IH]; cbn in *.
    + destruct Hin; congruence || contradiction.
    + destruct (Z.eqb_spec i k); cbn in *; intuition congruence.
Qed.

Lemma evPairs_NoDup : forall ps acc s, NoDup (map fst acc) ->
  NoDup (map fst (fst (evPairs ps acc s))).
Proof.
  induction ps as [|kx e r IH]; intros acc s H; cbn [evPairs]; auto.
  fold ev. destruct (ev kx s) as [kv s1]. destruct (ev e s1) as [v s2].
  apply IH. now apply mapSet_NoDup.
Qed.
