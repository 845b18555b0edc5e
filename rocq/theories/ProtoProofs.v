(** Which modules of functions are accepted. *)
Require Import Arith List Bool Lia.
Require Import Verif.Base Verif.ProtoModel Verif.ProtoSpec.
Import ListNotations.
Local Open Scope nat_scope.

Lemma fidEqb_eq : forall a b, fidEqb a b = true <-> a = b.
Proof.
  intros [x r] [y q]. unfold fidEqb. cbn. split.
  - intros H. apply andb_true_iff in H. destruct H as [H1 H2].
    apply Nat.eqb_eq in H1. subst. destruct r, q; try discriminate; auto.
    apply Nat.eqb_eq in H2. now subst.
  - intros H. injection H as -> ->. rewrite Nat.eqb_refl. destruct q; auto.
    now rewrite Nat.eqb_refl.
Qed.

Lemma fidEqb_refl : forall a, fidEqb a a = true.
Proof. intros. now apply fidEqb_eq. Qed.

Lemma fidEqb_neq : forall a b, a <> b -> fidEqb a b = false.
Proof.
  intros a b H. destruct (fidEqb a b) eqn:E; auto. apply fidEqb_eq in E. contradiction.
Qed.

Lemma fid_dec : forall a b : fid, a = b \/ a <> b.
Proof.
  intros a b. destruct (fidEqb a b) eqn:E.
  - left. now apply fidEqb_eq.
  - right. intros ->. rewrite fidEqb_refl in E. discriminate.
Qed.

Lemma findIn_iid : forall l f i, findIn l f = Some i -> iid i = f /\ In i l.
Proof.
  induction l as [|j l IH]; intros f i H; cbn in H; [discriminate|].
  destruct (fidEqb (iid j) f) eqn:E.
  - injection H as <-. split; [now apply fidEqb_eq|now left].
  - destruct (IH _ _ H). split; auto. now right.
Qed.

Lemma findIn_none : forall l f, findIn l f = None -> ~ In f (map iid l).
Proof.
  induction l as [|j l IH]; intros f H; cbn in *; auto.
  destruct (fidEqb (iid j) f) eqn:E; [discriminate|].
  intros [H'|H']; [|now apply (IH f)]. subst. rewrite fidEqb_refl in E. discriminate.
Qed.

Lemma findIn_nodup : forall l i, NoDup (map iid l) -> In i l ->
  findIn l (iid i) = Some i.
Proof.
  induction l as [|j l IH]; intros i Hn Hi; cbn in *; [contradiction|].
  inversion Hn as [|? ? H1 H2]; subst. destruct Hi as [->|Hi].
  - now rewrite fidEqb_refl.
  - rewrite fidEqb_neq; auto. intros E. apply H1. rewrite E. now apply in_map.
Qed.

Lemma findIn_upd : forall l f i' g, iid i' = f ->
  findIn (updIn l f i') g =
  if fidEqb f g then match findIn l g with Some _ => Some i' | None => None end
  else findIn l g.
Proof.
  induction l as [|j l IH]; intros f i' g Hi; cbn.
  - now destruct (fidEqb f g).
  - destruct (fidEqb (iid j) f) eqn:E; cbn.
    + apply fidEqb_eq in E. rewrite Hi. rewrite E.
      destruct (fidEqb f g) eqn:E2; auto.
    + rewrite IH by auto. destruct (fidEqb (iid j) g) eqn:E2; auto.
      destruct (fidEqb f g) eqn:E3; auto.
      apply fidEqb_eq in E2, E3. assert (Hx : iid j = f) by congruence.
      rewrite Hx, fidEqb_refl in E. discriminate.
Qed.

Lemma updIn_iids : forall l f i', iid i' = f -> map iid (updIn l f i') = map iid l.
Proof.
  induction l as [|j l IH]; intros f i' Hi; cbn; auto.
  destruct (fidEqb (iid j) f) eqn:E; cbn.
  - apply fidEqb_eq in E. congruence.
  - f_equal. auto.
Qed.

(** * Bookkeeping of identifiers *)
Definition idOk (pre : list decl) (i : ident) (f : fid) : Prop :=
  iid i = f /\
  (exists d, In d pre /\ did d = f) /\
  (forall d, In d pre -> did d = f -> dty d = ity i /\ dexp d = iexp i) /\
  (iproto i = None <-> exists d, In d pre /\ did d = f /\ dbody d <> None).

Definition Inv1 (pre : list decl) (ids : list ident) : Prop :=
  NoDup (map iid ids) /\
  forall f, match findIn ids f with
            | None => forall d, In d pre -> did d <> f
            | Some i => idOk pre i f
            end.

Lemma uses_idents : forall us st st', compileUses st us = Ok st' ->
  idents st' = idents st.
Proof.
  induction us as [|f us IH]; intros st st' H; cbn in H.
  - congruence.
  - destruct (findIn (idents st) f); [|discriminate]. apply IH in H. exact H.
Qed.

Lemma uses_ok : forall us st,
  (exists st', compileUses st us = Ok st') <->
  (forall f, In f us -> findIn (idents st) f <> None).
Proof.
  induction us as [|f us IH]; intros st; cbn [compileUses].
  - split; [intros _ f []|eauto].
  - destruct (findIn (idents st) f) as [i|] eqn:E.
    + rewrite IH. cbn [idents]. split.
      * intros H g [<-|Hg]; [congruence|auto].
      * intros H g Hg. apply H. now right.
    + split; [intros [? H]; discriminate|]. intros H. exfalso.
      apply (H f); auto. now left.
Qed.

Lemma inv1_add : forall pre ids d,
  Inv1 pre ids -> findIn ids (did d) = None ->
  forall ip p, (p = None <-> dbody d <> None) ->
  Inv1 (pre ++ [d]) (mkIdent (did d) (dty d) (dexp d) ip p :: ids).
Proof.
  intros pre ids d [H1 H2] Hf ip p Hp. split.
  - cbn. constructor; auto. now apply findIn_none.
  - intros f. cbn [findIn iid]. destruct (fidEqb (did d) f) eqn:E.
    + apply fidEqb_eq in E. subst f. specialize (H2 (did d)). rewrite Hf in H2.
      unfold idOk. cbn [iid ity iexp iproto]. split; [auto|]. split; [|split].
      * exists d. split; auto. apply in_or_app. right. now left.
      * intros d' Hd' E. apply in_app_or in Hd'. destruct Hd' as [Hd'|[<-|[]]]; auto.
        exfalso. apply (H2 d'); auto.
      * rewrite Hp. split.
        -- intros Hb. exists d. split; auto. apply in_or_app. right. now left.
        -- intros (d' & Hd' & E & Hb). apply in_app_or in Hd'.
           destruct Hd' as [Hd'|[<-|[]]]; auto. exfalso. apply (H2 d'); auto.
    + assert (Hne : did d <> f) by (intros Hx; rewrite Hx, fidEqb_refl in E; discriminate).
      specialize (H2 f). destruct (findIn ids f) as [i|].
      * destruct H2 as (A & (d0 & B1 & B2) & C & D). split; [auto|]. split; [|split].
        -- exists d0. split; auto. apply in_or_app. now left.
        -- intros d' Hd' E'. apply in_app_or in Hd'. destruct Hd' as [Hd'|[<-|[]]]; auto.
           contradiction.
        -- rewrite D. split; intros (d' & X & Y & Z).
           ++ exists d'. split; auto. apply in_or_app. now left.
           ++ apply in_app_or in X. destruct X as [X|[<-|[]]]; [eauto|contradiction].
      * intros d' Hd'. apply in_app_or in Hd'. destruct Hd' as [Hd'|[<-|[]]]; auto.
Qed.

Lemma inv1_upd : forall pre ids d i,
  Inv1 pre ids -> findIn ids (did d) = Some i -> ity i = dty d -> iexp i = dexp d ->
  iproto i <> None ->
  forall i', iid i' = did d -> ity i' = dty d -> iexp i' = dexp d ->
  (iproto i' = None <-> dbody d <> None) ->
  Inv1 (pre ++ [d]) (updIn ids (did d) i').
Proof.
  intros pre ids d i [H1 H2] Hf Ht He Hp i' A1 A2 A3 A4. split.
  - now rewrite updIn_iids.
  - intros f. rewrite findIn_upd by auto. destruct (fidEqb (did d) f) eqn:E.
    + apply fidEqb_eq in E. subst f. specialize (H2 (did d)). rewrite Hf in *.
      destruct H2 as (B1 & B2 & B3 & B4). split; [auto|]. split; [|split].
      * exists d. split; auto. apply in_or_app. right. now left.
      * intros d' Hd' E. apply in_app_or in Hd'. destruct Hd' as [Hd'|[<-|[]]].
        -- destruct (B3 d' Hd' E). split; congruence.
        -- auto.
      * rewrite A4. split.
        -- intros Hb. exists d. split; auto. apply in_or_app. right. now left.
        -- intros (d' & Hd' & E & Hb). apply in_app_or in Hd'.
           destruct Hd' as [Hd'|[<-|[]]]; auto. exfalso. apply Hp. apply B4. eauto.
    + assert (Hne : did d <> f) by (intros Hx; rewrite Hx, fidEqb_refl in E; discriminate).
      specialize (H2 f). destruct (findIn ids f) as [j|].
      * destruct H2 as (A & (d0 & B1 & B2) & C & D). split; [auto|]. split; [|split].
        -- exists d0. split; auto. apply in_or_app. now left.
        -- intros d' Hd' E'. apply in_app_or in Hd'. destruct Hd' as [Hd'|[<-|[]]]; auto.
           contradiction.
        -- rewrite D. split; intros (d' & X & Y & Z).
           ++ exists d'. split; auto. apply in_or_app. now left.
           ++ apply in_app_or in X. destruct X as [X|[<-|[]]]; [eauto|contradiction].
      * intros d' Hd'. apply in_app_or in Hd'. destruct Hd' as [Hd'|[<-|[]]]; auto.
Qed.

(** The identifiers after a declaration, whatever its body uses. *)
Definition idsAfter (st : cst) (d : decl) : list ident :=
  let ip := List.length (code st) in
  match findIn (idents st) (did d) with
  | None =>
      mkIdent (did d) (dty d) (dexp d) ip
              (match dbody d with Some _ => None | None => Some ip end) :: idents st
  | Some i =>
      updIn (idents st) (did d)
        (mkIdent (did d) (dty d) (dexp d) ip
                 (match dbody d with Some _ => None | None => Some ip end))
  end.

Lemma updIn_twice : forall l f i j, iid i = f ->
  updIn (updIn l f i) f j = updIn l f j.
Proof.
  induction l as [|k l IH]; intros f i j Hi; cbn; auto.
  destruct (fidEqb (iid k) f) eqn:E; cbn.
  - now rewrite Hi, fidEqb_refl.
  - rewrite E. f_equal. auto.
Qed.

(** The code of a declaration before its calls. *)
Definition codeBefore (st : cst) (n : nat) (d : decl) : list instr :=
  let c := match findIn (idents st) (did d), dbody d with
           | Some i, Some _ => match iproto i with
                               | Some p => genEntryPoint (code st) p
                               | None => code st
                               end
           | _, _ => code st
           end in
  match dbody d with
  | Some _ => emit c (IEnter n)
  | None => emit c INop
  end.

Definition mayDeclare (st : cst) (d : decl) : Prop :=
  match findIn (idents st) (did d) with
  | None => True
  | Some i => iproto i <> None /\ iexp i = dexp d /\ ity i = dty d
  end.

Lemma decl_char : forall pre st n d, Inv1 pre (idents st) ->
  forall st', parseFnDecl st n d = Ok st' <->
  mayDeclare st d /\
  match dbody d with
  | Some us => exists st1,
      compileUses (mkCst (idsAfter st d) (codeBefore st n d)) us = Ok st1 /\
      st' = mkCst (idents st1) (emit (code st1) IRet)
  | None => st' = mkCst (idsAfter st d) (codeBefore st n d)
  end.
Proof.
  intros pre st n d [HN HI] st'. specialize (HI (did d)).
  unfold parseFnDecl, identAddFn, mayDeclare, idsAfter, codeBefore.
  destruct (findIn (idents st) (did d)) as [i|] eqn:Ef.
  - destruct HI as (Hid & _). destruct (iproto i) as [p|] eqn:Ep.
    2:{ cbn [bind]. split; [discriminate|]. intros [(H & _) _]. congruence. }
    destruct (Bool.eqb (iexp i) (dexp d) && Nat.eqb (ity i) (dty d)) eqn:Ec.
    2:{ cbn [bind]. split; [discriminate|]. intros [(_ & H1 & H2) _].
        rewrite H1, H2, Bool.eqb_reflx, Nat.eqb_refl in Ec. discriminate. }
    apply andb_true_iff in Ec. destruct Ec as [Ec1 Ec2].
    apply Bool.eqb_prop in Ec1. apply Nat.eqb_eq in Ec2.
    cbn [bind]. cbn [idents code]. rewrite findIn_upd by auto.
    rewrite fidEqb_refl, Ef. cbn [iproto iid ity iexp ientry].
    rewrite Hid, Ec1. rewrite !updIn_twice by auto.
    destruct (dbody d) as [us|].
    + unfold bind at 1. cbn [idents code].
      destruct (compileUses _ us) as [st1| |]; split.
      * intros H. injection H as <-. split; [split; [discriminate|auto]|]. eauto.
      * intros [_ (st2 & H1 & H2)]. congruence.
      * discriminate.
      * intros [_ (st2 & H1 & H2)]. congruence.
      * discriminate.
      * intros [_ (st2 & H1 & H2)]. congruence.
    + split.
      * intros H. injection H as <-. split; [split; [discriminate|auto]|]. auto.
      * intros [_ ->]. auto.
  - cbn [bind]. cbn [idents code findIn iid]. rewrite fidEqb_refl.
    cbn [iproto iid ity iexp ientry].
    destruct (dbody d) as [us|].
    + unfold bind at 1. cbn [idents code].
      destruct (compileUses _ us) as [st1| |]; split.
      * intros H. injection H as <-. split; [exact I|]. eauto.
      * intros [_ (st2 & H1 & H2)]. congruence.
      * discriminate.
      * intros [_ (st2 & H1 & H2)]. congruence.
      * discriminate.
      * intros [_ (st2 & H1 & H2)]. congruence.
    + cbn [updIn iid]. rewrite fidEqb_refl. split.
      * intros H. injection H as <-. auto.
      * intros [_ ->]. auto.
Qed.

Lemma inv1_after : forall pre st d, Inv1 pre (idents st) -> mayDeclare st d ->
  Inv1 (pre ++ [d]) (idsAfter st d).
Proof.
  intros pre st d HI Hm. unfold mayDeclare, idsAfter in *.
  assert (Hb : forall ip : nat,
    match dbody d with Some _ => None | None => Some ip end = None <-> dbody d <> None).
  { intros ip. destruct (dbody d); split; congruence. }
  destruct (findIn (idents st) (did d)) as [i|] eqn:E.
  - destruct Hm as (H1 & H2 & H3). eapply inv1_upd; eauto.
  - apply inv1_add; auto.
Qed.

Lemma decl_inv1 : forall pre st n d st', Inv1 pre (idents st) ->
  parseFnDecl st n d = Ok st' -> Inv1 (pre ++ [d]) (idents st').
Proof.
  intros pre st n d st' HI H. apply (decl_char pre) in H; auto.
  destruct H as [Hm H]. destruct (dbody d) as [us|].
  - destruct H as (st1 & H1 & ->). cbn [idents]. apply uses_idents in H1.
    cbn [idents] in H1. rewrite H1. now apply inv1_after.
  - subst. cbn [idents]. now apply inv1_after.
Qed.

Lemma decl_fits : forall pre st n d, Inv1 pre (idents st) ->
  ((exists st', parseFnDecl st n d = Ok st') <-> fits pre d).
Proof.
  intros pre st n d HI.
  assert (Hm : mayDeclare st d <->
    (forall d', In d' pre -> did d' = did d ->
       dbody d' = None /\ dty d' = dty d /\ dexp d' = dexp d)).
  { unfold mayDeclare. destruct HI as [_ HI]. specialize (HI (did d)).
    destruct (findIn (idents st) (did d)) as [i|].
    - destruct HI as (_ & (d0 & B1 & B2) & C & D). split.
      + intros (H1 & H2 & H3) d' Hd' E. destruct (C d' Hd' E).
        split; [|split; congruence].
        destruct (dbody d') eqn:Eb; auto. exfalso. apply H1. apply D.
        exists d'. split; auto. split; auto. congruence.
      + intros H. destruct (H d0 B1 B2) as (E1 & E2 & E3). destruct (C d0 B1 B2).
        split; [|split; congruence].
        rewrite D. intros (d' & X & Y & Z). destruct (H d' X Y). contradiction.
    - split; auto. intros _ d' Hd' E. exfalso. apply (HI d'); auto. }
  assert (Hu : mayDeclare st d -> forall us, dbody d = Some us ->
    ((exists st1, compileUses (mkCst (idsAfter st d) (codeBefore st n d)) us = Ok st1)
     <-> forall f, In f us -> exists d', In d' (pre ++ [d]) /\ did d' = f)).
  { intros Hd us Hus. rewrite uses_ok. cbn [idents].
    destruct (inv1_after _ _ _ HI Hd) as [_ J]. split; intros H f Hf.
    - specialize (J f). specialize (H f Hf).
      destruct (findIn (idsAfter st d) f); [|congruence]. apply J.
    - destruct (H f Hf) as (d' & H1 & H2). specialize (J f).
      destruct (findIn (idsAfter st d) f); [congruence|]. exfalso. apply (J d'); auto. }
  unfold fits. rewrite <- Hm. split.
  - intros (st' & H). apply (decl_char pre) in H; auto. destruct H as [H1 H2].
    split; auto. intros us f Hus Hf. rewrite Hus in H2.
    destruct H2 as (st1 & H2 & _). apply (proj1 (Hu H1 us Hus)); eauto.
  - intros [H1 H2]. destruct (dbody d) as [us|] eqn:Eb.
    + destruct (proj2 (Hu H1 us eq_refl)) as (st1 & H3).
      { intros f Hf. eapply H2; eauto. }
      eexists. apply (decl_char pre); auto. split; auto. rewrite Eb. eauto.
    + eexists. apply (decl_char pre); auto. split; auto. rewrite Eb. eauto.
Qed.

Lemma decls_ok : forall ds pre st n, Inv1 pre (idents st) ->
  ((exists st', parseDecls st n ds = Ok st') <->
   (forall a d b, ds = a ++ d :: b -> fits (pre ++ a) d)).
Proof.
  induction ds as [|d ds IH]; intros pre st n HI; cbn [parseDecls].
  - split; [intros _ a d b H; destruct a; discriminate|eauto].
  - split.
    + intros (st' & H). destruct (parseFnDecl st n d) as [st1| |] eqn:E;
        cbn [bind] in H; try discriminate.
      assert (Hf : fits pre d) by (eapply decl_fits; eauto).
      pose proof (decl_inv1 _ _ _ _ _ HI E) as HI1.
      intros a d' b Heq. destruct a as [|x a]; cbn in Heq.
      * injection Heq as <- <-. now rewrite app_nil_r.
      * injection Heq as <- Heq.
        replace (pre ++ d :: a) with ((pre ++ [d]) ++ a) by now rewrite <- app_assoc.
        eapply (proj1 (IH (pre ++ [d]) st1 (S n) HI1)); eauto.
    + intros H. specialize (H [] d ds eq_refl) as Hf. rewrite app_nil_r in Hf.
      apply (decl_fits pre st n d HI) in Hf. destruct Hf as (st1 & E).
      rewrite E. cbn [bind]. apply (IH (pre ++ [d])).
      * eapply decl_inv1; eauto.
      * intros a d' b Heq. rewrite <- app_assoc. cbn [app]. apply (H (d :: a) d' b).
        now rewrite Heq.
Qed.

Lemma decls_inv1 : forall ds pre st n st', Inv1 pre (idents st) ->
  parseDecls st n ds = Ok st' -> Inv1 (pre ++ ds) (idents st').
Proof.
  induction ds as [|d ds IH]; intros pre st n st' HI H; cbn [parseDecls] in H.
  - injection H as <-. now rewrite app_nil_r.
  - destruct (parseFnDecl st n d) as [st1| |] eqn:E; cbn [bind] in H; try discriminate.
    replace (pre ++ d :: ds) with ((pre ++ [d]) ++ ds) by now rewrite <- app_assoc.
    eapply IH; [|exact H]. eapply decl_inv1; eauto.
Qed.

(** * External functions *)
Lemma memNat_in : forall x l, memNat x l = true <-> In x l.
Proof.
  intros. unfold memNat. rewrite existsb_exists. split.
  - intros (y & H1 & H2). apply Nat.eqb_eq in H2. now subst.
  - intros H. exists x. split; auto. apply Nat.eqb_refl.
Qed.

Lemma resolve_ok : forall h l res c, NoDup (map iid l) ->
  ((exists r, doResolveExtern h l res c = Ok r) <->
   (forall i, In i l -> iproto i <> None ->
      match extern h (bare (iid i)) with
      | Some _ => mayUse h (bare (iid i)) = true /\ ~ In (bare (iid i)) res
      | None => implLib h (bare (iid i)) <> None
      end) /\
   (forall i j, In i l -> In j l -> iproto i <> None -> iproto j <> None ->
      bare (iid i) = bare (iid j) -> extern h (bare (iid i)) <> None ->
      iid i = iid j)).
Proof.
  intros h l. induction l as [|i l IH]; intros res c HN; cbn [doResolveExtern].
  - split; [|eauto]. intros _. split; [intros ? []|intros ? ? []].
  - cbn in HN. inversion HN as [|? ? HN1 HN2]; subst.
    destruct (iproto i) as [p|] eqn:Ep.
    2:{ rewrite IH by auto. split.
        - intros [H1 H2]. split.
          + intros j [<-|Hj] Hp; [congruence|apply H1; auto].
          + intros j k [<-|Hj] [<-|Hk] Hpj Hpk; try congruence. auto.
        - intros [H1 H2]. split; intros; [apply H1|apply H2]; cbn; auto. }
    destruct (extern h (bare (iid i))) as [e|] eqn:Ee.
    + destruct (memNat (bare (iid i)) res) eqn:Em.
      { cbn [bind]. split; [intros [? ?]; discriminate|]. intros [H _]. exfalso.
        specialize (H i (or_introl eq_refl)). rewrite Ee, Ep in H.
        apply memNat_in in Em. destruct H as [_ H]; [discriminate|auto]. }
      assert (Hin : ~ In (bare (iid i)) res)
        by (intros H; apply memNat_in in H; congruence).
      destruct (mayUse h (bare (iid i))) eqn:Eu; cbn [negb bind].
      2:{ split; [intros [? ?]; discriminate|]. intros [H _]. exfalso.
          specialize (H i (or_introl eq_refl)). rewrite Ee, Ep in H.
          destruct H as [H _]; [discriminate|congruence]. }
      rewrite IH by auto. split.
      * intros [H1 H2]. split.
        -- intros j [<-|Hj] Hp.
           ++ rewrite Ee. auto.
           ++ specialize (H1 j Hj Hp). destruct (extern h (bare (iid j))); auto.
              destruct H1 as [H1 H1']. split; auto. intros H. apply H1'. now right.
        -- intros j k [<-|Hj] [<-|Hk] Hpj Hpk Hb Hx; auto.
           ++ exfalso. specialize (H1 k Hk Hpk). rewrite <- Hb, Ee in H1.
              destruct H1 as [_ H1]. apply H1. now left.
           ++ exfalso. specialize (H1 j Hj Hpj). rewrite Hb, Ee in H1.
              destruct H1 as [_ H1]. apply H1. now left.
      * intros [H1 H2]. split.
        -- intros j Hj Hp. specialize (H1 j (or_intror Hj) Hp).
           destruct (extern h (bare (iid j))) eqn:Ej; auto.
           destruct H1 as [H1 H1']. split; auto. intros [Heq|H]; [|auto].
           apply HN1. rewrite (H2 i j (or_introl eq_refl) (or_intror Hj)); auto.
           ++ now apply in_map.
           ++ congruence.
           ++ congruence.
        -- intros j k Hj Hk. apply H2; cbn; auto.
    + cbn [bind]. destruct (implLib h (bare (iid i))) as [e|] eqn:El.
      2:{ split; [intros [? ?]; discriminate|]. intros [H _]. exfalso.
          specialize (H i (or_introl eq_refl)). rewrite Ee, Ep in H.
          apply H; [discriminate|auto]. }
      rewrite IH by auto. split.
      * intros [H1 H2]. split.
        -- intros j [<-|Hj] Hp; [rewrite Ee; congruence|apply H1; auto].
        -- intros j k [<-|Hj] [<-|Hk] Hpj Hpk Hb Hx; auto; congruence.
      * intros [H1 H2]. split; intros; [apply H1|apply H2]; cbn; auto.
Qed.

Lemma inv1_init : Inv1 [] [].
Proof. split; [constructor|]. intros f. cbn. intros d []. Qed.

Lemma bodiless_pending : forall ds ids f, Inv1 ds ids ->
  (bodiless ds f <-> exists i, In i ids /\ iid i = f /\ iproto i <> None).
Proof.
  intros ds ids f [HN HI]. split.
  - intros [(d & H1 & H2) H3]. specialize (HI f).
    destruct (findIn ids f) as [i|] eqn:E.
    + destruct HI as (A & B & C & D). exists i. split; [eapply findIn_iid; eauto|].
      split; auto. rewrite D. intros (d' & X & Y & Z). apply Z. auto.
    + exfalso. apply (HI d); auto.
  - intros (i & H1 & H2 & H3). pose proof (findIn_nodup _ _ HN H1) as E.
    specialize (HI f). rewrite <- H2 in HI. rewrite E in HI. subst f.
    destruct HI as (A & B & C & D). split; auto.
    intros d X Y. destruct (dbody d) eqn:Eb; auto. exfalso. apply H3, D.
    exists d. split; auto. split; auto. congruence.
Qed.

Lemma compile_ok : forall h res ds,
  (exists r, compile h res ds = Ok r) <-> wellFormed h res ds.
Proof.
  intros h res ds. unfold compile, wellFormed.
  pose proof (decls_ok ds [] (mkCst [] [INop]) 0 inv1_init) as HD. cbn [app] in HD.
  assert (HR : forall st, parseDecls (mkCst [] [INop]) 0 ds = Ok st ->
    ((exists r, doResolveExtern h (idents st) res (code st) = Ok r)
     <-> resolvable h res ds)).
  { intros st E. pose proof (decls_inv1 ds [] (mkCst [] [INop]) 0 st inv1_init E) as HI. cbn [app] in HI.
    rewrite resolve_ok by apply HI. unfold resolvable. split.
    - intros [H1 H2]. split.
      + intros f Hf. apply (bodiless_pending _ _ _ HI) in Hf.
        destruct Hf as (i & X & <- & Z). apply H1; auto.
      + intros f g Hf Hg. apply (bodiless_pending _ _ _ HI) in Hf, Hg.
        destruct Hf as (i & X & <- & Z). destruct Hg as (j & X' & <- & Z'). auto.
    - intros [H1 H2]. split.
      + intros i X Z. apply H1. apply (bodiless_pending _ _ _ HI). eauto.
      + intros i j X Y Z W. apply H2; apply (bodiless_pending _ _ _ HI); eauto. }
  split.
  - intros (r & H). destruct (parseDecls _ _ ds) as [st| |] eqn:E; cbn [bind] in H;
      try discriminate. split.
    + apply HD. eauto.
    + apply (HR st eq_refl).
      destruct (doResolveExtern h (idents st) res (code st)); cbn [bind] in H;
        try discriminate. eauto.
  - intros [H1 H2]. destruct (proj2 HD H1) as (st & E). rewrite E. cbn [bind].
    destruct (proj2 (HR st E) H2) as ([r c] & E2). rewrite E2. cbn [bind]. eauto.
Qed.
