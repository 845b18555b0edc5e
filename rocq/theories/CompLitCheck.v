(** The compiler accepts exactly the well-formed literals. *)
Require Import ZArith List Bool String Lia.
Require Import Verif.Base Verif.CompLitModel Verif.CompLitSpec.
Import ListNotations.
Local Open Scope nat_scope.

Scheme ty_mut := Induction for ty Sort Prop
  with fields_mut := Induction for fields Sort Prop.
Scheme expr_mut := Induction for expr Sort Prop
  with items_mut := Induction for items Sort Prop
  with pairs_mut := Induction for pairs Sort Prop.
Combined Scheme exprs_mut from expr_mut, items_mut, pairs_mut.

Lemma tyEqb_eq : forall a b, tyEqb a b = true <-> a = b.
Proof.
  apply (ty_mut (fun a => forall b, tyEqb a b = true <-> a = b)
                (fun a => forall b, fieldsEqb a b = true <-> a = b)).
  - destruct b; cbn; split; congruence.
  - intros n t IH b; destruct b; cbn [tyEqb]; try (split; congruence).
    rewrite andb_true_iff, Nat.eqb_eq, IH. split; [intros [-> ->]; auto|].
    intros H; injection H; auto.
  - intros fs IH b; destruct b; cbn [tyEqb]; try (split; congruence).
    fold fieldsEqb. rewrite IH. split; congruence.
  - intros t IH b; destruct b; cbn [tyEqb]; try (split; congruence).
    rewrite IH. split; congruence.
  - intros t IH b; destruct b; cbn [tyEqb]; try (split; congruence).
    rewrite IH. split; congruence.
  - intros b; destruct b; cbn; split; congruence.
  - intros f t IHt r IHr b; destruct b; cbn [fieldsEqb]; try (split; congruence).
    rewrite !andb_true_iff, String.eqb_eq. fold tyEqb. rewrite IHt, IHr.
    split; [intros [[-> ->] ->]; auto|]. intros H; injection H; auto.
Qed.

Lemma tyEqb_refl : forall a, tyEqb a a = true.
Proof. intros; now apply tyEqb_eq. Qed.

Lemma numFields_len : forall fs, numFields fs = List.length (fieldList fs).
Proof. induction fs; cbn; congruence. Qed.

Lemma fieldAt_list : forall fs k,
  match fieldAt fs k with
  | Some (f, t, _) => nth_error (fieldList fs) k = Some (f, t)
  | None => nth_error (fieldList fs) k = None
  end.
Proof.
  induction fs; intros k; cbn.
  - now destruct k.
  - destruct k; cbn; auto. specialize (IHfs k).
    destruct (fieldAt fs k) as [[[? ?] ?]|]; auto.
Qed.

Lemma findField_some : forall fs f k, findField fs f = Some k ->
  exists t, nth_error (fieldList fs) k = Some (f, t).
Proof.
  induction fs as [|g t r IH]; intros f k H; cbn in H; [discriminate|].
  destruct (String.eqb_spec g f).
  - injection H as <-. subst. cbn; eauto.
  - destruct (findField r f) as [j|] eqn:E; [|discriminate].
    injection H as <-. cbn. now apply IH.
Qed.

Lemma findField_in : forall fs f, In f (map fst (fieldList fs)) ->
  exists k, findField fs f = Some k.
Proof.
  induction fs as [|g t r IH]; intros f H; cbn in H; [contradiction|].
  cbn. destruct (String.eqb_spec g f); [eauto|].
  destruct H as [H|H]; [congruence|]. destruct (IH _ H) as [k ->]. eauto.
Qed.

Lemma findField_uniq : forall fs f t k, uniq fs ->
  nth_error (fieldList fs) k = Some (f, t) -> findField fs f = Some k.
Proof.
  unfold uniq. induction fs as [|g u r IH]; intros f t k Hu H; cbn in *.
  - now destruct k.
  - inversion Hu as [|? ? Hn Hu']; subst. destruct k; cbn in H.
    + injection H as <- <-. now rewrite String.eqb_refl.
    + destruct (String.eqb_spec g f) as [->|_].
      * exfalso. apply Hn. apply nth_error_In in H.
        change f with (fst (f, t)). now apply in_map.
      * now rewrite (IH _ _ _ Hu' H).
Qed.

Lemma setInit_len : forall l k, List.length (setInit l k) = List.length l.
Proof. induction l; destruct k; cbn; auto. Qed.

Lemma setInit_nth : forall l k j, k < List.length l ->
  nth j (setInit l k) false = if Nat.eqb j k then true else nth j l false.
Proof.
  induction l; cbn; intros k j H; [lia|].
  destruct k, j; cbn; auto. rewrite IHl; auto; lia.
Qed.

Section Check.
Variable tys : list ty.
Notation check := (check tys).

Lemma checkArr_iff : forall its b n k, k <= n ->
  (checkArr tys b n k its = true <->
   map fst (itemList its) = repeat None (n - k) /\
   forall e, In (None, e) (itemList its) -> check e = Some b).
Proof.
  induction its as [|f e r IH]; intros b n k Hk; cbn [checkArr itemList map].
  - rewrite negb_true_iff, Nat.ltb_ge. split.
    + intros H. replace (n - k) with 0 by lia. cbn. split; [auto|intros; contradiction].
    + intros [H _]. destruct (n - k) eqn:E; [lia|discriminate].
  - destruct f as [f|].
    + split; [discriminate|]. intros [H _]. destruct (n - k); discriminate.
    + destruct (Nat.leb_spec n k).
      * split; [discriminate|]. replace (n - k) with 0 by lia.
        intros [H' _]; discriminate.
      * replace (n - k) with (S (n - S k)) by lia. cbn [repeat fst].
        fold check. destruct (check e) as [u|] eqn:E.
        -- rewrite andb_true_iff, tyEqb_eq, IH by lia. cbn [In]. split.
           ++ intros (-> & H1 & H2). split; [congruence|].
              intros e' [H'|H']; [injection H' as <-; auto|auto].
           ++ intros (H1 & H2). injection H1 as H1.
              split; [|split; auto].
              specialize (H2 e (or_introl eq_refl)). congruence.
        -- split; [discriminate|]. intros (_ & H2).
           specialize (H2 e (or_introl eq_refl)). congruence.
Qed.

Lemma checkPos_iff : forall its fs k, k <= numFields fs ->
  (checkPos tys fs k its = true <->
   map fst (itemList its) = repeat None (numFields fs - k) /\
   (forall i f t, nth_error (fieldList fs) (k + i) = Some (f, t) ->
      identIsHidden f = false) /\
   (forall i f t e, nth_error (fieldList fs) (k + i) = Some (f, t) ->
      nth_error (itemList its) i = Some (None, e) -> check e = Some t)).
Proof.
  induction its as [|f e r IH]; intros fs k Hk; cbn [checkPos itemList map].
  - rewrite negb_true_iff, Nat.ltb_ge. split.
    + intros H. replace (numFields fs - k) with 0 by lia. cbn.
      split; [auto|split].
      * intros i f t Hn. exfalso.
        assert (k + i < List.length (fieldList fs))
          by (apply nth_error_Some; congruence).
        rewrite <- numFields_len in *. lia.
      * intros i f t e _ Hn. destruct i; discriminate.
    + intros [H _]. destruct (numFields fs - k) eqn:E; [lia|discriminate].
  - destruct f as [f|].
    + split; [discriminate|]. intros [H _].
      destruct (numFields fs - k); discriminate.
    + destruct (Nat.leb_spec (numFields fs) k).
      * split; [discriminate|]. replace (numFields fs - k) with 0 by lia.
        intros [H' _]; discriminate.
      * replace (numFields fs - k) with (S (numFields fs - S k)) by lia.
        cbn [repeat fst]. pose proof (fieldAt_list fs k) as Hf.
        destruct (fieldAt fs k) as [[[g t] o]|].
        2:{ exfalso. apply nth_error_None in Hf. rewrite <- numFields_len in Hf. lia. }
        destruct (identIsHidden g) eqn:Eh.
        { split; [discriminate|]. intros (_ & H1 & _).
          specialize (H1 0 g t). rewrite Nat.add_0_r in H1.
          rewrite (H1 Hf) in Eh. discriminate. }
        fold check. destruct (check e) as [u|] eqn:E.
        -- rewrite andb_true_iff, tyEqb_eq, IH by lia. split.
           ++ intros (-> & H1 & H2 & H3). split; [congruence|split].
              ** intros i f t Hn. destruct i.
                 --- rewrite Nat.add_0_r in Hn. congruence.
                 --- apply (H2 i f t). now replace (S k + i) with (k + S i) by lia.
              ** intros i f t e' Hn Hi. destruct i; cbn in Hi.
                 --- rewrite Nat.add_0_r in Hn. congruence.
                 --- apply (H3 i f t); auto.
                     now replace (S k + i) with (k + S i) by lia.
           ++ intros (H1 & H2 & H3). injection H1 as H1.
              split; [|split; [auto|split]].
              ** specialize (H3 0 g t e). rewrite Nat.add_0_r in H3.
                 specialize (H3 Hf eq_refl). congruence.
              ** intros i f t' Hn. apply (H2 (S i) f t').
                 now replace (k + S i) with (S k + i) by lia.
              ** intros i f t' e' Hn Hi. apply (H3 (S i) f t'); auto.
                 now replace (k + S i) with (S k + i) by lia.
        -- split; [discriminate|]. intros (_ & _ & H3).
           specialize (H3 0 g t e). rewrite Nat.add_0_r in H3.
           specialize (H3 Hf eq_refl). congruence.
Qed.

Lemma checkNamed_iff : forall its fs ini, List.length ini = numFields fs ->
  (checkNamed tys fs ini its = true <->
   exists names,
     map fst (itemList its) = map Some names /\ NoDup names /\
     (forall f, In f names -> exists j, findField fs f = Some j /\
                                        nth j ini false = false) /\
     (forall f e, In (Some f, e) (itemList its) ->
        exists j t, findField fs f = Some j /\
                    nth_error (fieldList fs) j = Some (f, t) /\
                    check e = Some t)).
Proof.
  induction its as [|f e r IH]; intros fs ini Hl; cbn [checkNamed itemList map].
  - split; auto. intros _. exists []. cbn. split; [auto|].
    split; [constructor|]. split; intros; contradiction.
  - destruct f as [f|].
    2:{ split; [discriminate|]. intros ([|? ?] & H & _); discriminate. }
    cbn [fst]. destruct (findField fs f) as [k|] eqn:Ef.
    2:{ split; [discriminate|]. intros (names & H & _ & _ & H4).
        destruct (H4 f e (or_introl eq_refl)) as (j & t & H5 & _). congruence. }
    assert (Hk : k < List.length ini).
    { destruct (findField_some _ _ _ Ef) as (t & Ht). rewrite Hl, numFields_len.
      apply nth_error_Some. congruence. }
    destruct (nth k ini false) eqn:Ei.
    { split; [discriminate|]. intros ([|g names] & H & _ & H3 & _); [discriminate|].
      injection H as <- _. destruct (H3 f (or_introl eq_refl)) as (j & H5 & H6).
      congruence. }
    destruct (findField_some _ _ _ Ef) as (t & Ht).
    pose proof (fieldAt_list fs k) as Hf.
    destruct (fieldAt fs k) as [[[g u] o]|]; [|congruence].
    rewrite Ht in Hf. injection Hf as <- <-.
    fold check. destruct (check e) as [u|] eqn:E.
    2:{ split; [discriminate|]. intros (names & _ & _ & _ & H4).
        destruct (H4 f e (or_introl eq_refl)) as (j & t' & _ & _ & H5). congruence. }
    rewrite andb_true_iff, tyEqb_eq, IH by now rewrite setInit_len.
    split.
    + intros (-> & names & H1 & H2 & H3 & H4). exists (f :: names). cbn [map].
      split; [congruence|]. split; [|split].
      * constructor; auto. intros Hin. destruct (H3 _ Hin) as (j & H5 & H6).
        rewrite setInit_nth in H6 by auto.
        destruct (Nat.eqb_spec j k); congruence.
      * intros f' [<-|Hin]; [eauto|]. destruct (H3 _ Hin) as (j & H5 & H6).
        rewrite setInit_nth in H6 by auto.
        destruct (Nat.eqb_spec j k); [discriminate|]. eauto.
      * intros f' e' [H'|H']; [injection H' as <- <-; eauto|auto].
    + intros ([|g names] & H1 & H2 & H3 & H4); [discriminate|].
      injection H1 as <- H1. inversion H2 as [|? ? Hn H2']; subst.
      split.
      { destruct (H4 f e (or_introl eq_refl)) as (j & t' & H5 & H6 & H7).
        congruence. }
      exists names. split; [auto|]. split; [auto|]. split.
      * intros f' Hin. destruct (H3 f' (or_intror Hin)) as (j & H5 & H6).
        exists j. split; auto. rewrite setInit_nth by auto.
        destruct (Nat.eqb_spec j k) as [->|_]; auto. exfalso.
        destruct (findField_some _ _ _ H5) as (t' & Ht').
        assert (f' = f) by congruence. subst. auto.
      * intros f' e' Hin. apply H4. now right.
Qed.

Lemma checkDyn_iff : forall its b,
  checkDyn tys b its = true <->
  (forall f e, In (f, e) (itemList its) -> f = None) /\
  (forall e, In (None, e) (itemList its) -> check e = Some b).
Proof.
  induction its as [|f e r IH]; intros b; cbn [checkDyn itemList In].
  - split; auto. intros _. split; intros; contradiction.
  - destruct f as [f|].
    + split; [discriminate|]. intros [H _].
      specialize (H (Some f) e (or_introl eq_refl)). discriminate.
    + fold check. destruct (check e) as [u|] eqn:E.
      * rewrite andb_true_iff, tyEqb_eq, IH. split.
        -- intros (-> & H1 & H2). split.
           ++ intros f' e' [H|H]; [congruence|eauto].
           ++ intros e' [H|H]; [congruence|eauto].
        -- intros (H1 & H2). split; [|split].
           ++ specialize (H2 e (or_introl eq_refl)). congruence.
           ++ intros f' e' H. eapply H1; eauto.
           ++ intros e' H. apply H2; auto.
      * split; [discriminate|]. intros [_ H].
        specialize (H e (or_introl eq_refl)). congruence.
Qed.

Lemma checkMap_iff : forall ps b,
  checkMap tys b ps = true <->
  (forall k e, In (k, e) (pairList ps) -> check k = Some TInt) /\
  (forall k e, In (k, e) (pairList ps) -> check e = Some b).
Proof.
  induction ps as [|k e r IH]; intros b; cbn [checkMap pairList In].
  - split; auto. intros _. split; intros; contradiction.
  - fold check. destruct (check k) as [tk|] eqn:Ek.
    2:{ split; [discriminate|]. intros [H _].
        specialize (H k e (or_introl eq_refl)). congruence. }
    destruct (check e) as [u|] eqn:E.
    2:{ split; [discriminate|]. intros [_ H].
        specialize (H k e (or_introl eq_refl)). congruence. }
    rewrite !andb_true_iff, !tyEqb_eq, IH. split.
    + intros (<- & -> & H1 & H2). split; intros k' e' [H|H]; try congruence; eauto.
    + intros (H1 & H2).
      pose proof (H1 k e (or_introl eq_refl)). pose proof (H2 k e (or_introl eq_refl)).
      split; [congruence|split; [congruence|split]]; intros k' e' H'; eauto.
Qed.

Lemma check_hasTy :
  (forall e, wf e -> forall t, check e = Some t <-> hasTy tys e t) /\
  (forall its, wfItems its -> forall f e, In (f, e) (itemList its) ->
     forall t, check e = Some t <-> hasTy tys e t) /\
  (forall ps, wfPairs ps -> forall k e, In (k, e) (pairList ps) ->
     (forall t, check k = Some t <-> hasTy tys k t) /\
     (forall t, check e = Some t <-> hasTy tys e t)).
Proof.
  apply exprs_mut.
  - intros z _ t. cbn. split.
    + intros H. injection H as <-. constructor.
    + intros H. inversion H; subst. auto.
  - intros x _ t. cbn. split.
    + intros H. now constructor.
    + intros H. now inversion H.
  - intros x e IH Hwf t. cbn [CompLitModel.check]. cbn [wf] in Hwf.
    specialize (IH Hwf). split.
    + intros H. destruct (nth_error tys x) as [u|] eqn:Ex; [|discriminate].
      destruct (check e) as [w|] eqn:E; [|discriminate].
      destruct (tyEqb u w) eqn:Et; [|discriminate].
      apply tyEqb_eq in Et. subst. injection H as <-.
      econstructor; eauto. now apply IH.
    + intros H. inversion H; subst. rewrite H2. apply IH in H4. fold check.
      rewrite H4, tyEqb_refl. auto.
  - intros t its IH [Hu Hwf] u. specialize (IH Hwf). cbn [CompLitModel.check].
    destruct t as [|n b|fs|b|b].
    + split; [discriminate|]. intros H; inversion H.
    + fold (checkArr tys). split.
      * intros H. destruct (checkArr tys b n 0 its) eqn:E; [|discriminate].
        injection H as <-. apply checkArr_iff in E; [|lia]. destruct E as (E1 & E2).
        rewrite Nat.sub_0_r in E1. constructor; auto.
        intros e He. eapply IH; eauto.
      * intros H. inversion H; subst.
        assert (E : checkArr tys b n 0 its = true).
        { apply checkArr_iff; [lia|]. rewrite Nat.sub_0_r. split; auto.
          intros e He. eapply IH; eauto. }
        now rewrite E.
    + fold (checkPos tys). fold (checkNamed tys).
      assert (Hnamed : checkNamed tys fs (repeat false (numFields fs)) its = true
                <-> exists names,
                  map fst (itemList its) = map Some names /\ NoDup names /\
                  (forall f, In f names -> In f (map fst (fieldList fs))) /\
                  (forall f t e, In (f, t) (fieldList fs) ->
                     In (Some f, e) (itemList its) -> hasTy tys e t)).
      { rewrite checkNamed_iff by apply repeat_length. split.
        - intros (names & H1 & H2 & H3 & H4). exists names.
          split; [auto|]. split; [auto|]. split.
          + intros f Hf. destruct (H3 f Hf) as (j & H5 & _).
            destruct (findField_some _ _ _ H5) as (t & Ht).
            apply nth_error_In in Ht. change f with (fst (f, t)). now apply in_map.
          + intros f t e Hf He. destruct (H4 f e He) as (j & t' & H5 & H6 & H7).
            apply In_nth_error in Hf. destruct Hf as (i & Hi).
            pose proof (findField_uniq _ _ _ _ Hu Hi) as Hj.
            assert (i = j) by congruence. subst. assert (t' = t) by congruence.
            subst. eapply IH; eauto.
        - intros (names & H1 & H2 & H3 & H4). exists names.
          split; [auto|]. split; [auto|]. split.
          + intros f Hf. destruct (findField_in _ _ (H3 f Hf)) as (j & Hj).
            exists j. split; auto. clear.
            generalize (numFields fs) j. induction n; destruct j0; cbn; auto.
          + intros f e He.
            assert (Hf : In f names).
            { assert (Hm : In (Some f) (map Some names)).
              { rewrite <- H1. change (Some f) with (fst (Some f, e)).
                now apply in_map. }
              apply in_map_iff in Hm. destruct Hm as (g & Hg & Hin). congruence. }
            destruct (findField_in _ _ (H3 f Hf)) as (j & Hj).
            destruct (findField_some _ _ _ Hj) as (t & Ht).
            exists j, t. split; [auto|]. split; [auto|].
            eapply IH; eauto. eapply H4; eauto. eapply nth_error_In; eauto. }
      assert (Hpos : checkPos tys fs 0 its = true <->
                map fst (itemList its) = repeat None (List.length (fieldList fs)) /\
                (forall f t, In (f, t) (fieldList fs) -> identIsHidden f = false) /\
                (forall k f t e, nth_error (fieldList fs) k = Some (f, t) ->
                   nth_error (itemList its) k = Some (None, e) -> hasTy tys e t)).
      { rewrite checkPos_iff by lia. rewrite Nat.sub_0_r, numFields_len. split.
        - intros (H1 & H2 & H3). split; [auto|]. split.
          + intros f t Hf. apply In_nth_error in Hf. destruct Hf as (i & Hi).
            eapply (H2 i); eauto.
          + intros k f t e Hk He. eapply IH; [eapply nth_error_In; eauto|].
            eapply (H3 k); eauto.
        - intros (H1 & H2 & H3). split; [auto|]. split.
          + intros i f t Hi. eapply H2. eapply nth_error_In; eauto.
          + intros k f t e Hk He. eapply IH; [eapply nth_error_In; eauto|].
            eapply (H3 k); eauto. }
      split.
      * intros H. destruct (namedFields (TRec fs) its) eqn:En.
        -- destruct (checkNamed tys fs _ its) eqn:E; [|discriminate].
           injection H as <-. destruct (proj1 Hnamed eq_refl)
             as (names & H1 & H2 & H3 & H4).
           eapply T_Named; eauto.
        -- destruct (checkPos tys fs 0 its) eqn:E; [|discriminate].
           injection H as <-. destruct (proj1 Hpos eq_refl) as (H1 & H2 & H3).
           apply T_Pos; auto. intros ->. discriminate.
      * intros H. inversion H as [| | | |fs' its' Hne H1 H2 H3 E1 E2
                                  |fs' its' names H1 H2 H3 H4 E1 E2| |]; subst.
        -- assert (En : namedFields (TRec fs) its = false).
           { destruct its as [|[f|] e r]; cbn; auto; [congruence|].
             cbn in H1. destruct (List.length (fieldList fs)); discriminate. }
           rewrite En, (proj2 Hpos); auto.
        -- assert (En : namedFields (TRec fs) its = true).
           { destruct its as [|[f|] e r]; cbn; auto.
             cbn in H1. destruct names; discriminate. }
           rewrite En, (proj2 Hnamed); auto. exists names. auto.
    + fold (checkDyn tys). split.
      * intros H. destruct (checkDyn tys b its) eqn:E; [|discriminate].
        injection H as <-. apply checkDyn_iff in E. destruct E as (E1 & E2).
        constructor; auto. intros e He. eapply IH; eauto.
      * intros H. inversion H; subst.
        assert (E : checkDyn tys b its = true).
        { apply checkDyn_iff. split; auto. intros e He. eapply IH; eauto. }
        now rewrite E.
    + split; [discriminate|]. intros H; inversion H.
  - intros t ps IH Hwf u. cbn [wf] in Hwf. specialize (IH Hwf).
    cbn [CompLitModel.check]. fold (checkMap tys). split.
    + intros H. destruct (checkMap tys t ps) eqn:E; [|discriminate].
      injection H as <-. apply checkMap_iff in E. destruct E as (E1 & E2).
      constructor; intros k e He; destruct (IH k e He) as (I1 & I2);
        [apply I1|apply I2]; eauto.
    + intros H. inversion H; subst.
      assert (E : checkMap tys t ps = true).
      { apply checkMap_iff. split; intros k e He; destruct (IH k e He) as (I1 & I2);
          [apply I1|apply I2]; eauto. }
      now rewrite E.
  - intros _ f e [].
  - intros f e IHe r IHr [H1 H2] f' e' [H|H]; [injection H as <- <-; auto|eauto].
  - intros _ k e [].
  - intros k IHk e IHe r IHr (H1 & H2 & H3) k' e' [H|H].
    + injection H as <- <-. auto.
    + eauto.
Qed.

Lemma check_iff : forall e t, wf e -> (check e = Some t <-> hasTy tys e t).
Proof. intros e t H. now apply check_hasTy. Qed.
End Check.
