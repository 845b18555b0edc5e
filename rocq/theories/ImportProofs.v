From Coq Require Import ZArith List Bool String Ascii Arith Lia Permutation.
From Verif Require Import Base ImportModel ImportSpec.
Import ListNotations.

Notation len := List.length.

Lemma bind_ok A B (x : outcome A) (f : A -> outcome B) b :
  bind x f = Ok b -> exists a, x = Ok a /\ f a = Ok b.
Proof. destruct x; cbn; intro H; try discriminate. eauto. Qed.

Lemma hasBlank_ok s : hasBlank s = false <-> noBlank s.
Proof.
  unfold noBlank. induction s as [|c s IH]; cbn.
  - split; [intros _ c []|reflexivity].
  - rewrite !orb_false_iff, IH. split.
    + intros ((A & B) & H) d [<- | D]; [|auto].
      apply Ascii.eqb_neq in A. apply Ascii.eqb_neq in B. auto.
    + intro H. split; [split; apply Ascii.eqb_neq; apply (H c); auto|]. intros d D. apply H. auto.
Qed.

Lemma update_mid a f m b : update (len a) f (a ++ m :: b) = a ++ f m :: b.
Proof. induction a as [|x a IH]; cbn; [reflexivity|]. now rewrite IH. Qed.

Lemma nth_mid A (a : list A) m b : nth_error (a ++ m :: b) (len a) = Some m.
Proof. induction a; cbn; auto. Qed.

Lemma findFrom_ok ms p : forall i,
  match findFrom i ms p with
  | Some k => exists j m, k = i + j /\ nth_error ms j = Some m /\ mpath m = p
  | None => ~ In p (map mpath ms)
  end.
Proof.
  induction ms as [|m ms IH]; intro i; cbn; [auto|].
  destruct (String.eqb_spec (mpath m) p) as [E|E].
  - exists 0, m. split; [lia|]. auto.
  - specialize (IH (S i)). destruct (findFrom (S i) ms p) as [k|].
    + destruct IH as (j & m' & -> & H & P). exists (S j), m'. split; [lia|]. auto.
    + intros [H|H]; auto.
Qed.

Lemma moduleFind_some s p k : moduleFind s p = Some k ->
  exists m, nth_error (modules s) k = Some m /\ mpath m = p.
Proof.
  unfold moduleFind. intro H. pose proof (findFrom_ok (modules s) p 0) as F. rewrite H in F.
  destruct F as (j & m & E & N & P). cbn in E. subst k. eauto.
Qed.

Lemma moduleFind_none s p : moduleFind s p = None -> ~ In p (map mpath (modules s)).
Proof.
  unfold moduleFind. intro H. pose proof (findFrom_ok (modules s) p 0) as F. now rewrite H in F.
Qed.

Lemma moduleFind_in s p : In p (map mpath (modules s)) -> exists k, moduleFind s p = Some k.
Proof.
  intro H. destruct (moduleFind s p) eqn:E; [eauto|]. apply moduleFind_none in E. contradiction.
Qed.

Lemma nth_path_inj ms i j a b :
  NoDup (map mpath ms) -> nth_error ms i = Some a -> nth_error ms j = Some b -> mpath a = mpath b -> i = j.
Proof.
  intros N A B E. rewrite NoDup_nth_error in N. apply N.
  - rewrite map_length. apply nth_error_Some. congruence.
  - rewrite !nth_error_map, A, B. cbn. now rewrite E.
Qed.

Section P.
  Variable w : world.
  Variables (main : string) (mainText : list item).
  Hypothesis cons : consistent w main mainText.

  Notation textOf := (textOf w main mainText).
  Notation imports := (imports w main mainText).
  Notation reach := (reach w main mainText).
  Notation chain := (chain w main mainText).
  Notation target := (target w).
  Notation knownAs := (knownAs w).
  Notation wellFormed := (wellFormed w main mainText).

  Definition before (s : state) (k j : nat) : Prop :=
    exists x y, x < y /\ nth_error (compiled s) x = Some k /\ nth_error (compiled s) y = Some j.

  Definition known (s : state) (p : string) (it : item) (e : nat * string) : Prop :=
    exists mk, nth_error (modules s) (fst e) = Some mk /\ isCompiled mk = true /\
      target p (text it) = Some (mpath mk) /\ knownAs p it = Some (snd e) /\ In (fst e) (compiled s).

  Definition imported (s : state) (i : nat) (m : module) (ts : list item) (L : list (nat * string)) : Prop :=
    nameOf w (mpath m) = Some (mname m) /\ noBlank (mname m) /\
    Forall2 (known s (mpath m)) ts L /\
    importAlias m = rev L ++ [(i, mname m)] /\
    NoDup (map fst L ++ [i]) /\ NoDup (map snd L ++ [mname m]).

  Definition done (s : state) (j : nat) (m : module) : Prop :=
    exists ts L, textOf (mpath m) = Some ts /\ imported s j m ts L /\ In j (compiled s) /\
      Forall (fun e => before s (fst e) j) L.

  Definition inv (s : state) : Prop :=
    NoDup (map mpath (modules s)) /\
    (forall j m, nth_error (modules s) j = Some m -> isCompiled m = true -> done s j m) /\
    (forall j, In j (compiled s) -> exists m, nth_error (modules s) j = Some m /\ isCompiled m = true) /\
    NoDup (compiled s) /\
    (forall j m, nth_error (modules s) j = Some m -> j <> 0 -> reach (mpath m)) /\
    len (modules s) <= MAX_MODULES /\
    (exists m, nth_error (modules s) 0 = Some m /\ mpath m = "#universe"%string /\ isCompiled m = false).

  Definition keeps (s s' : state) : Prop :=
    (forall j m, nth_error (modules s) j = Some m -> isCompiled m = true -> nth_error (modules s') j = Some m) /\
    exists more, compiled s' = compiled s ++ more.

  Lemma before_keeps s s' k j : keeps s s' -> before s k j -> before s' k j.
  Proof.
    intros (_ & more & E) (x & y & L & X & Y). exists x, y. rewrite E. split; [exact L|].
    split; rewrite nth_error_app1; auto; apply nth_error_Some; congruence.
  Qed.

  Lemma known_keeps s s' p it e : keeps s s' -> known s p it e -> known s' p it e.
  Proof.
    intros (K & more & E) (mk & N & C & T & A & I). exists mk. repeat split; auto.
    rewrite E. apply in_or_app. auto.
  Qed.

  Lemma imported_keeps s s' i m ts L : keeps s s' -> imported s i m ts L -> imported s' i m ts L.
  Proof.
    intros K (A & B & F & C & D & E). split; [exact A|split; [exact B|split; [|auto]]].
    clear - K F. induction F; constructor; auto. eapply known_keeps; eauto.
  Qed.

  Lemma done_keeps s s' j m : keeps s s' -> done s j m -> done s' j m.
  Proof.
    intros K (ts & L & T & I & C & F). exists ts, L. split; [exact T|]. split; [eapply imported_keeps; eauto|].
    split.
    - destruct K as (_ & more & E). rewrite E. apply in_or_app. auto.
    - eapply Forall_impl; [|exact F]. intros e. apply before_keeps. exact K.
  Qed.

  (** What parseModule leaves. *)
  Definition post (s : state) (p : string) (i : nat) (s' : state) : Prop :=
    inv s' /\ i = len (modules s) /\ keeps s s' /\
    exists m new, modules s' = modules s ++ m :: new /\ mpath m = p /\ isCompiled m = true /\
      Forall (fun m => isCompiled m = true) new.

  Definition hasMain (s : state) : Prop := In main (map mpath (modules s)).

  Definition loadSound (load : string -> list item -> state -> outcome (nat * state)) : Prop :=
    forall p ts s i s', inv s -> hasMain s -> reach p -> textOf p = Some ts ->
      load p ts s = Ok (i, s') -> post s p i s'.

  (** The state while module [i], of path [p] and text [done ++ todo], is being read. *)
  Definition reading (base : list module) (p name : string) (dn : list item) (L : list (nat * string))
      (s : state) : Prop :=
    inv s /\ hasMain s /\
    exists mi rest, modules s = base ++ mi :: rest /\ mpath mi = p /\ mname mi = name /\
      isCompiled mi = false /\ Forall (fun m => isCompiled m = true) rest /\
      imported s (len base) mi dn L.

  Lemma locate_target m t p src : locate w m t = Some (p, src) ->
    target m t = Some p /\ (src = None \/ (exists ts, src = Some ts /\ source w p = Some ts)) /\
    (src = None -> source w p <> None -> regCur w t <> Some p).
  Proof.
    unfold locate, ImportSpec.target. destruct (regCur w t) as [q|].
    - destruct (source w q) as [ts|] eqn:S.
      + intro H. inversion H; subst. split; [reflexivity|]. split; [eauto|discriminate].
      + destruct (regIn w m t) as [q'|] eqn:R; intro H; inversion H; subst.
        split; [reflexivity|]. split; [auto|]. intros _ NS E. inversion E; subst. congruence.
    - destruct (regIn w m t) as [q'|] eqn:R; intro H; inversion H; subst.
      split; [reflexivity|]. split; [auto|]. intros; discriminate.
  Qed.

  Lemma target_locate m t p : target m t = Some p -> exists src, locate w m t = Some (p, src).
  Proof.
    unfold locate, ImportSpec.target. destruct (regCur w t) as [q|].
    - destruct (source w q) as [ts|] eqn:S.
      + intro H. inversion H; subst. eauto.
      + intros ->. eauto.
    - intros ->. eauto.
  Qed.

  Lemma load_text m t p src : reach m -> p <> main -> locate w m t = Some (p, src) ->
    textOf p = match src with Some ts => Some ts | None => file w p end.
  Proof.
    intros R NM H. apply locate_target in H. destruct H as (T & S & C).
    unfold ImportSpec.textOf. destruct (String.eqb_spec p main) as [|_]; [contradiction|].
    destruct S as [-> | (ts & -> & ->)]; [|reflexivity].
    destruct (source w p) eqn:S; [|reflexivity]. exfalso.
    apply C; [reflexivity|congruence|].
    destruct cons as (K & _). apply (K m t p R T); congruence.
  Qed.

  Lemma aliasAt_in m j a : aliasAt m j = Some a -> In (j, a) (importAlias m).
  Proof.
    unfold aliasAt. destruct (find _ _) as [[k b]|] eqn:F; [|discriminate].
    intro H. inversion H; subst. apply find_some in F. destruct F as (I & E).
    apply Nat.eqb_eq in E. cbn in E. now subst.
  Qed.

  Lemma aliasAt_none m j : aliasAt m j = None -> ~ In j (map fst (importAlias m)).
  Proof.
    unfold aliasAt. destruct (find _ _) as [[k b]|] eqn:F; [discriminate|].
    intros _ I. apply in_map_iff in I. destruct I as (e & E & I).
    pose proof (find_none _ _ F e I) as Q. apply Nat.eqb_neq in Q. congruence.
  Qed.

  Lemma aliasAt_key m j a : NoDup (map fst (importAlias m)) -> In (j, a) (importAlias m) -> aliasAt m j = Some a.
  Proof.
    unfold aliasAt. induction (importAlias m) as [|[k b] l IH]; cbn; intros N I; [contradiction|].
    inversion N; subst. destruct I as [E|I].
    - inversion E; subst. now rewrite Nat.eqb_refl.
    - destruct (Nat.eqb_spec k j) as [->|_].
      + exfalso. apply H1. apply in_map_iff. exists (j, a). auto.
      + auto.
  Qed.

  Lemma moduleFindImported_none s i a mi :
    nth_error (modules s) i = Some mi -> NoDup (map fst (importAlias mi)) ->
    Forall (fun e => fst e < len (modules s)) (importAlias mi) ->
    (moduleFindImported s i a = None <-> ~ In a (map snd (importAlias mi))).
  Proof.
    intros N ND F. unfold moduleFindImported. rewrite N. split.
    - intros H I. apply in_map_iff in I. destruct I as ([j b] & E & I). cbn in E. subst b.
      assert (J : In j (seq 0 (len (modules s)))).
      { apply in_seq. rewrite Forall_forall in F. specialize (F _ I). cbn in F. lia. }
      pose proof (find_none _ _ H j J) as Q. cbn in Q. rewrite (aliasAt_key _ _ _ ND I) in Q.
      now rewrite String.eqb_refl in Q.
    - intro H. destruct (find _ _) as [j|] eqn:E; [|reflexivity]. exfalso.
      apply find_some in E. destruct E as (_ & E). destruct (aliasAt mi j) as [b|] eqn:A; [|discriminate].
      apply String.eqb_eq in E. subst b. apply aliasAt_in in A. apply H. apply in_map_iff.
      exists (j, a). auto.
  Qed.

  Lemma nodup_rev_app A (l : list A) x : NoDup (l ++ [x]) -> NoDup (rev l ++ [x]).
  Proof.
    intro H. apply NoDup_remove in H. rewrite app_nil_r in H. destruct H as (N & I).
    assert (NoDup (x :: rev l)) as K.
    { constructor; [now rewrite <- in_rev|]. now apply NoDup_rev. }
    eapply Permutation_NoDup; [|exact K]. apply Permutation_cons_append.
  Qed.

  (** The table of names of the module being read. *)
  Lemma reading_aliases base dn L s mi rest :
    modules s = base ++ mi :: rest -> imported s (len base) mi dn L ->
    NoDup (map fst (importAlias mi)) /\ Forall (fun e => fst e < len (modules s)) (importAlias mi) /\
    (forall a, In a (map snd (importAlias mi)) <-> In a (map snd L ++ [mname mi])) /\
    (forall k, In k (map fst (importAlias mi)) <-> In k (map fst L ++ [len base])).
  Proof.
    intros E (A & B & F & C & D & G). rewrite C. split; [|split; [|split]].
    - rewrite map_app, map_rev. cbn. now apply nodup_rev_app.
    - apply Forall_app. split.
      + apply Forall_rev. clear - F. induction F as [|it e its L K _ IH]; constructor; auto.
        destruct K as (mk & N & _). apply nth_error_Some. congruence.
      + constructor; [|constructor]. cbn. rewrite E, app_length. cbn. lia.
    - intro a. rewrite map_app, map_rev, !in_app_iff, <- in_rev. reflexivity.
    - intro a. rewrite map_app, map_rev, !in_app_iff, <- in_rev. reflexivity.
  Qed.

  Lemma nodup_insert A (l : list A) x y : NoDup (l ++ [y]) -> ~ In x (l ++ [y]) -> NoDup ((l ++ [x]) ++ [y]).
  Proof.
    intros N I. rewrite <- app_assoc. cbn. apply NoDup_Add with (a := x) (l := l ++ [y]).
    - apply Add_app.
    - auto.
  Qed.

  Lemma nth_swap (base rest : list module) x y j : j <> len base ->
    nth_error (base ++ x :: rest) j = nth_error (base ++ y :: rest) j.
  Proof.
    intro N. destruct (Nat.lt_ge_cases j (len base)) as [L|G].
    - now rewrite !nth_error_app1.
    - rewrite !nth_error_app2 by lia. destruct (j - len base) as [|k] eqn:E; [lia|]. reflexivity.
  Qed.

  (** Changing the names of the module being read. *)
  Lemma inv_swap s base mi mi' rest :
    inv s -> modules s = base ++ mi :: rest -> isCompiled mi = false -> isCompiled mi' = false ->
    mpath mi' = mpath mi ->
    let s' := {| modules := base ++ mi' :: rest; compiled := compiled s |} in
    inv s' /\ keeps s s'.
  Proof.
    intros (N & D & C & NC & R & M & U) E F F' P s'.
    assert (K : keeps s s').
    { split.
      - intros j m H HC. rewrite E in H. cbn.
        destruct (Nat.eq_dec j (len base)) as [->|NJ].
        + rewrite nth_mid in H. congruence.
        + rewrite <- H. apply nth_swap. exact NJ.
      - exists []. cbn. now rewrite app_nil_r. }
    split; [|exact K].
    unfold inv. cbn [modules compiled s'].
    split; [|split; [|split; [|split; [|split; [|split]]]]].
    - rewrite E in N. rewrite map_app in *. cbn in *. now rewrite P.
    - intros j m H HC. apply done_keeps with (s := s); [exact K|]. apply D; [|exact HC].
      rewrite E. destruct (Nat.eq_dec j (len base)) as [->|NJ].
      + rewrite nth_mid in H. congruence.
      + rewrite <- H. apply nth_swap. exact NJ.
    - intros j I. destruct (C j I) as (m & H & HC). exists m. split; [|exact HC].
      destruct K as (K & _). exact (K j m H HC).
    - exact NC.
    - intros j m H NJ. destruct (Nat.eq_dec j (len base)) as [->|NJB].
      + rewrite nth_mid in H. inversion H; subst. rewrite P. apply (R (len base) mi); [|exact NJ].
        rewrite E. apply nth_mid.
      + apply (R j m); [|exact NJ]. rewrite E. rewrite <- H. apply nth_swap. exact NJB.
    - rewrite E in M. rewrite app_length in *. cbn in *. exact M.
    - destruct U as (m & H & PU & HC). rewrite E in H. destruct base as [|b base]; cbn in *.
      + inversion H; subst. exists mi'. split; [reflexivity|]. split; [congruence|exact F'].
      + eauto.
  Qed.

  Lemma keeps_refl s : keeps s s.
  Proof. split; [auto|]. exists []. now rewrite app_nil_r. Qed.

  Lemma keeps_trans s s' s'' : keeps s s' -> keeps s' s'' -> keeps s s''.
  Proof.
    intros (A & m & E) (B & m' & E'). split; [auto|]. exists (m ++ m'). now rewrite E', E, app_assoc.
  Qed.

  Lemma Forall2_snoc A B (R : A -> B -> Prop) a b x y : Forall2 R a b -> R x y -> Forall2 R (a ++ [x]) (b ++ [y]).
  Proof. intros F H. apply Forall2_app; [exact F|]. constructor; auto. Qed.

  Lemma item_sound load base p name dn L s it s' ts :
    loadSound load -> reading base p name dn L s -> reach p -> textOf p = Some ts -> In it ts ->
    parseImportItem w load (len base) p it s = Ok s' ->
    exists e, reading base p name (dn ++ [it]) (L ++ [e]) s' /\ keeps s s'.
  Proof.
    intros LS (I & HM & mi & rest & E & P & NM & F & FR & IM) R T IT H.
    unfold parseImportItem in H.
    destruct (locate w p (text it)) as [[q src]|] eqn:LO; [|discriminate].
    destruct (nameOf w q) as [qn|] eqn:NQ; [|discriminate].
    set (alias := match given it with Some a => a | None => qn end) in *.
    destruct (moduleFindImported s (len base) alias) eqn:MF; [discriminate|].
    pose proof (locate_target _ _ _ _ LO) as (TG & _ & _).
    assert (RQ : reach q).
    { apply reach_step with (m := p); [exact R|]. exists ts, it. auto. }
    assert (KA : knownAs p it = Some alias).
    { unfold ImportSpec.knownAs, alias. destruct (given it); [reflexivity|]. now rewrite TG. }
    destruct (reading_aliases _ _ _ _ _ _ E IM) as (NK & LT & SN & FS).
    assert (NMI : nth_error (modules s) (len base) = Some mi) by (rewrite E; apply nth_mid).
    apply (moduleFindImported_none _ _ _ _ NMI NK LT) in MF.
    apply bind_ok in H. destruct H as ([k s1] & LD & H). cbn beta iota in H.
    assert (ST : inv s1 /\ hasMain s1 /\ keeps s s1 /\
      (exists rest1, modules s1 = base ++ mi :: rest1 /\ Forall (fun m => isCompiled m = true) rest1) /\
      exists mk, nth_error (modules s1) k = Some mk /\ mpath mk = q).
    { destruct (moduleFind s q) as [k'|] eqn:MQ.
      - inversion LD; subst k' s1. split; [exact I|]. split; [exact HM|]. split; [apply keeps_refl|].
        split; [eauto|]. exact (moduleFind_some _ _ _ MQ).
      - apply moduleFind_none in MQ.
        assert (QM : q <> main) by (intros ->; exact (MQ HM)).
        pose proof (load_text _ _ _ _ R QM LO) as TX.
        assert (exists tq, textOf q = Some tq /\ load q tq s = Ok (k, s1)) as (tq & TQ & LQ).
        { destruct src as [tq|]; [eauto|]. destruct (file w q) as [tq|]; [eauto|discriminate]. }
        destruct (LS q tq s k s1 I HM RQ TQ LQ) as (I1 & -> & K1 & m & new & E1 & PM & CM & FN).
        split; [exact I1|]. split.
        { unfold hasMain. rewrite E1, map_app. apply in_or_app. left. exact HM. }
        split; [exact K1|]. split.
        + exists (rest ++ m :: new). split.
          * rewrite E1, E, <- app_assoc. reflexivity.
          * apply Forall_app. auto.
        + exists m. split; [|exact PM]. rewrite E1. apply nth_mid. }
    destruct ST as (I1 & HM1 & K1 & (rest1 & E1 & FR1) & mk & NK1 & PK).
    assert (NMI1 : nth_error (modules s1) (len base) = Some mi) by (rewrite E1; apply nth_mid).
    rewrite NK1, NMI1 in H.
    destruct (isCompiled mk) eqn:CK; cbn [negb] in H; [|discriminate].
    destruct (aliasAt mi k) eqn:AK; [discriminate|]. inversion H; subst s'. clear H.
    unfold setAlias. rewrite E1, update_mid.
    set (mi' := {| mpath := mpath mi; mname := mname mi; importAlias := (k, alias) :: importAlias mi;
                   isCompiled := isCompiled mi |}).
    destruct (inv_swap s1 base mi mi' rest1 I1 E1 F F eq_refl) as (I2 & K2).
    set (s2 := {| modules := base ++ mi' :: rest1; compiled := compiled s1 |}) in *.
    exists (k, alias). split; [|eapply keeps_trans; eauto].
    split; [exact I2|]. split.
    { unfold hasMain in *. cbn. rewrite E1 in HM1. rewrite map_app in *. exact HM1. }
    exists mi', rest1. split; [reflexivity|]. split; [exact P|]. split; [exact NM|]. split; [exact F|].
    split; [exact FR1|].
    destruct IM as (A & B & F2 & C & D & G).
    unfold imported. cbn [mpath mname importAlias mi']. split; [exact A|]. split; [exact B|].
    split; [|split; [|split]].
    - apply Forall2_snoc.
      + clear - F2 K1 K2. induction F2; constructor; auto.
        eapply known_keeps; [exact K2|]. eapply known_keeps; [exact K1|]. assumption.
      + apply known_keeps with (s := s1); [exact K2|]. exists mk. cbn [fst snd].
        split; [exact NK1|]. split; [exact CK|]. split; [rewrite P, PK; exact TG|].
        split; [rewrite P; exact KA|].
        destruct I1 as (_ & D1 & _). destruct (D1 _ _ NK1 CK) as (? & ? & _ & _ & IC & _). exact IC.
    - rewrite rev_app_distr. cbn. now rewrite C.
    - rewrite map_app. cbn. apply nodup_insert; [exact D|]. apply aliasAt_none in AK. now rewrite <- FS.
    - rewrite map_app. cbn. apply nodup_insert; [exact G|]. now rewrite <- SN.
  Qed.

  Lemma import_sound load base p name ts : loadSound load -> reach p -> textOf p = Some ts ->
    forall its dn L s s', reading base p name dn L s -> (forall it, In it its -> In it ts) ->
    parseImport w load (len base) p its s = Ok s' ->
    exists L', reading base p name (dn ++ its) L' s' /\ keeps s s'.
  Proof.
    intros LS R T. induction its as [|it its IH]; intros dn L s s' RD SUB H; cbn in H.
    - inversion H; subst. exists L. rewrite app_nil_r. split; [exact RD|apply keeps_refl].
    - apply bind_ok in H. destruct H as (s1 & H1 & H2).
      destruct (item_sound _ _ _ _ _ _ _ _ _ _ LS RD R T (SUB it (or_introl eq_refl)) H1) as (e & RD1 & K1).
      destruct (IH _ _ _ _ RD1 (fun x Hx => SUB x (or_intror Hx)) H2) as (L' & RD2 & K2).
      exists L'. rewrite <- app_assoc in RD2. split; [exact RD2|]. eapply keeps_trans; eauto.
  Qed.

  Lemma add_sound s p i s1 : inv s -> reach p -> (hasMain s \/ p = main) -> moduleAdd w p s = Ok (i, s1) ->
    i = len (modules s) /\ keeps s s1 /\ ~ In p (map mpath (modules s)) /\
    exists name, reading (modules s) p name [] [] s1.
  Proof.
    intros I R HM H. unfold moduleAdd in H.
    destruct (Nat.leb_spec MAX_MODULES (len (modules s))) as [|LM]; [discriminate|].
    destruct (nameOf w p) as [name|] eqn:NP; [|discriminate].
    destruct (hasBlank name) eqn:HB; [discriminate|].
    destruct (moduleFind s p) eqn:MF; [discriminate|].
    inversion H; subst i s1. clear H. split; [reflexivity|].
    set (m := {| mpath := p; mname := name; importAlias := [(len (modules s), name)]; isCompiled := false |}).
    set (s1 := {| modules := modules s ++ [m]; compiled := compiled s |}).
    apply moduleFind_none in MF.
    assert (K : keeps s s1).
    { split.
      - intros j mj N _. cbn. rewrite nth_error_app1; [exact N|]. apply nth_error_Some. congruence.
      - exists []. cbn. now rewrite app_nil_r. }
    split; [exact K|]. split; [exact MF|]. exists name.
    destruct I as (N & D & C & NC & RR & M & U).
    assert (SPL : forall j x, nth_error (modules s ++ [m]) j = Some x ->
      nth_error (modules s) j = Some x \/ (j = len (modules s) /\ x = m)).
    { intros j x Q. destruct (Nat.lt_ge_cases j (len (modules s))) as [LT|GE].
      - rewrite nth_error_app1 in Q; auto.
      - rewrite nth_error_app2 in Q by lia. destruct (j - len (modules s)) as [|d] eqn:DD; cbn in Q.
        + right. split; [lia|congruence].
        + destruct d; discriminate. }
    split; [|split].
    - unfold inv. cbn [modules compiled s1]. split; [|split; [|split; [|split; [|split; [|split]]]]].
      + rewrite map_app. cbn. eapply Permutation_NoDup; [apply Permutation_cons_append|].
        constructor; auto.
      + intros j x Q QC. destruct (SPL _ _ Q) as [Q'|(-> & ->)]; [|discriminate].
        apply done_keeps with (s := s); auto.
      + intros j J. destruct (C j J) as (x & X & XC). exists x. split; [|exact XC].
        destruct K as (K & _). exact (K j x X XC).
      + exact NC.
      + intros j x Q NJ. destruct (SPL _ _ Q) as [Q'|(-> & ->)]; [eauto|exact R].
      + rewrite app_length. cbn [List.length]. lia.
      + destruct U as (u & U1 & U2). exists u. split; [|exact U2].
        rewrite nth_error_app1; [exact U1|]. apply nth_error_Some. congruence.
    - unfold hasMain. cbn. rewrite map_app. apply in_or_app. destruct HM as [HM | ->]; [auto|].
      right. cbn. auto.
    - exists m, []. split; [reflexivity|]. split; [reflexivity|]. split; [reflexivity|].
      split; [reflexivity|]. split; [constructor|].
      split; [exact NP|]. split; [now apply hasBlank_ok|]. split; [constructor|].
      split; [reflexivity|]. cbn. split; repeat constructor; auto.
  Qed.

  Lemma finish_sound base p name ts L s : reach p -> textOf p = Some ts -> reading base p name ts L s ->
    inv (finish (len base) s) /\ keeps s (finish (len base) s) /\
    exists m rest, modules (finish (len base) s) = base ++ m :: rest /\ mpath m = p /\ isCompiled m = true /\
      Forall (fun m => isCompiled m = true) rest.
  Proof.
    intros RP T (I & HM & mi & rest & E & P & NM & F & FR & IM).
    unfold finish. rewrite E, update_mid.
    set (mi' := {| mpath := mpath mi; mname := mname mi; importAlias := importAlias mi; isCompiled := true |}).
    set (s' := {| modules := base ++ mi' :: rest; compiled := compiled s ++ [len base] |}).
    destruct I as (N & D & C & NC & R & M & U).
    assert (K : keeps s s').
    { split.
      - intros j m H HC. rewrite E in H. cbn.
        destruct (Nat.eq_dec j (len base)) as [->|NJ].
        + rewrite nth_mid in H. congruence.
        + rewrite <- H. apply nth_swap. exact NJ.
      - exists [len base]. reflexivity. }
    split; [|split; [exact K|]].
    - unfold inv. cbn [modules compiled s']. split; [|split; [|split; [|split; [|split; [|split]]]]].
      + rewrite E in N. rewrite map_app in *. exact N.
      + intros j m H HC. destruct (Nat.eq_dec j (len base)) as [->|NJ].
        * rewrite nth_mid in H. inversion H; subst m. exists ts, L.
          split; [cbn; now rewrite P|]. split.
          { apply imported_keeps with (s := s); [exact K|]. exact IM. }
          split; [cbn; apply in_or_app; cbn; auto|].
          destruct IM as (_ & _ & F2 & _). clear - F2 C.
          induction F2 as [|it e its L H _ IH]; constructor; [|exact IH].
          destruct H as (mk & _ & _ & _ & _ & IN). apply In_nth_error in IN. destruct IN as (x & X).
          exists x, (len (compiled s)). cbn.
          assert (LX : x < len (compiled s)) by (apply nth_error_Some; congruence).
          split; [exact LX|]. split; [now rewrite nth_error_app1|]. apply nth_mid.
        * apply done_keeps with (s := s); [exact K|]. apply D; [|exact HC].
          rewrite E, <- H. apply nth_swap. exact NJ.
      + intros j J. apply in_app_or in J. destruct J as [J|[<-|[]]].
        * destruct (C j J) as (m & H & HC). exists m. split; [|exact HC]. destruct K as (K & _). exact (K j m H HC).
        * exists mi'. split; [apply nth_mid|reflexivity].
      + eapply Permutation_NoDup; [apply Permutation_cons_append|]. constructor; [|exact NC].
        intro J. destruct (C _ J) as (m & H & HC). rewrite E, nth_mid in H. congruence.
      + intros j m H NJ. destruct (Nat.eq_dec j (len base)) as [->|NJB].
        * rewrite nth_mid in H. inversion H; subst. apply (R (len base) mi); [|exact NJ]. rewrite E. apply nth_mid.
        * apply (R j m); [|exact NJ]. rewrite E, <- H. apply nth_swap. exact NJB.
      + rewrite E in M. rewrite app_length in *. exact M.
      + destruct U as (u & U1 & U2 & U3). destruct base as [|b base]; [|rewrite E in U1; cbn in *; eauto].
        (* the module being read is not the universe *)
        exfalso. rewrite E in U1. cbn in U1. inversion U1; subst u.
        destruct cons as (_ & NU). apply NU. rewrite <- U2, P. exact RP.
    - exists mi', rest. auto.
  Qed.

  Lemma module_sound : forall n p ts s i s',
    inv s -> (hasMain s \/ p = main) -> reach p -> textOf p = Some ts ->
    parseModule w n p ts s = Ok (i, s') -> post s p i s'.
  Proof.
    induction n as [|n IH]; intros p ts s i s' I HM R T H; cbn [parseModule] in H; [discriminate|].
    apply bind_ok in H. destruct H as ([i0 s1] & HA & H). cbn beta iota in H.
    destruct (add_sound _ _ _ _ I R HM HA) as (-> & K1 & NI & name & RD).
    apply bind_ok in H. destruct H as (s2 & HI & H). inversion H; subst i s'. clear H.
    assert (LS : loadSound (parseModule w n)).
    { intros p' ts' s0 i' s0' I0 HM0 R0 T0 H0. eapply IH; eauto. }
    destruct (import_sound _ _ _ _ _ LS R T _ _ _ _ _ RD (fun it h => h) HI) as (L & RD2 & K2).
    cbn [app] in RD2.
    destruct (finish_sound _ _ _ _ _ _ R T RD2) as (I3 & K3 & m & rest & E3 & P3 & C3 & F3).
    split; [exact I3|]. split; [reflexivity|]. split.
    - eapply keeps_trans; [exact K1|]. eapply keeps_trans; eauto.
    - exists m, rest. auto.
  Qed.

  Lemma inv_init : inv init.
  Proof.
    unfold init. split; [|split; [|split; [|split; [|split; [|split]]]]]; cbn [modules compiled map mpath List.length].
    - constructor; [intros []|constructor].
    - intros [|[|j]] m H; cbn in H; inversion H; subst; discriminate.
    - intros j [].
    - constructor.
    - intros [|[|j]] m H; cbn in H; inversion H; subst; congruence.
    - unfold MAX_MODULES. lia.
    - eexists. split; [reflexivity|]. auto.
  Qed.

  Lemma main_text : textOf main = Some mainText.
  Proof. unfold ImportSpec.textOf. now rewrite String.eqb_refl. Qed.

  Lemma program_sound s : parseProgram w main mainText = Ok s ->
    inv s /\ exists m new u, modules s = u :: m :: new /\ mpath m = main /\ isCompiled m = true /\
      Forall (fun m => isCompiled m = true) new.
  Proof.
    unfold parseProgram. intro H. apply bind_ok in H. destruct H as ([i s'] & H & Q).
    inversion Q; subst s'. clear Q.
    destruct (module_sound _ _ _ _ _ _ inv_init (or_intror eq_refl) (reach_main _ _ _) main_text H)
      as (I & _ & _ & m & new & E & P & C & F).
    split; [exact I|]. cbn in E. exists m, new. eexists. eauto.
  Qed.

  (** ** A program that compiles is legal *)

  Lemma before_trans s a b c : NoDup (compiled s) -> before s a b -> before s b c -> before s a c.
  Proof.
    intros N (x & y & L & X & Y) (x' & y' & L' & X' & Y').
    assert (y = x').
    { rewrite NoDup_nth_error in N. apply N; [apply nth_error_Some; congruence|congruence]. }
    subst x'. exists x, y'. repeat split; auto. lia.
  Qed.

  Lemma before_irrefl s a : NoDup (compiled s) -> ~ before s a a.
  Proof.
    intros N (x & y & L & X & Y).
    assert (x = y); [|lia].
    rewrite NoDup_nth_error in N. apply N; [apply nth_error_Some; congruence|congruence].
  Qed.

  Lemma Forall2_in_l A B (R : A -> B -> Prop) a b x : Forall2 R a b -> In x a -> exists y, In y b /\ R x y.
  Proof.
    induction 1 as [|u v a b H _ IH]; cbn; [contradiction|]. intros [<-|I]; [eauto|].
    destruct (IH I) as (y & Y & Q). eauto.
  Qed.

  (** What a compiled module imports is compiled before it. *)
  Lemma import_before s j m k : inv s -> nth_error (modules s) j = Some m -> isCompiled m = true ->
    imports (mpath m) k ->
    exists i mk, nth_error (modules s) i = Some mk /\ isCompiled mk = true /\ mpath mk = k /\ before s i j.
  Proof.
    intros (_ & D & _) N C (ts & it & T & I & TG).
    destruct (D _ _ N C) as (ts' & L & T' & (_ & _ & F & _) & _ & FB).
    assert (ts' = ts) by congruence. subst ts'.
    destruct (Forall2_in_l _ _ _ _ _ _ F I) as ([i a] & IL & mk & NK & CK & TK & _).
    cbn in NK. exists i, mk. split; [exact NK|]. split; [exact CK|]. split; [congruence|].
    rewrite Forall_forall in FB. exact (FB _ IL).
  Qed.

  Lemma reach_compiled s : inv s -> (exists j m, nth_error (modules s) j = Some m /\ isCompiled m = true /\ mpath m = main) ->
    forall k, reach k -> exists j m, nth_error (modules s) j = Some m /\ isCompiled m = true /\ mpath m = k.
  Proof.
    intros I HM k R. induction R as [|p k R IH IM]; [exact HM|].
    destruct IH as (j & m & N & C & <-).
    destruct (import_before _ _ _ _ I N C IM) as (i & mk & NK & CK & PK & _). eauto.
  Qed.

  Lemma chain_before s m k : inv s -> chain m k ->
    forall j mm, nth_error (modules s) j = Some mm -> isCompiled mm = true -> mpath mm = m ->
    exists i mk, nth_error (modules s) i = Some mk /\ isCompiled mk = true /\ mpath mk = k /\ before s i j.
  Proof.
    intros I C. induction C as [m k IM|m k l C IH IM]; intros j mm N CC <-.
    - eapply import_before; eauto.
    - destruct (IH _ _ N CC eq_refl) as (i & mk & NK & CK & <- & B).
      destruct (import_before _ _ _ _ I NK CK IM) as (i' & ml & NL & CL & PL & B').
      exists i', ml. repeat split; auto. eapply before_trans; eauto. apply I.
  Qed.

  Lemma nodup_known s p its L : NoDup (map mpath (modules s)) -> Forall2 (known s p) its L ->
    NoDup (map fst L) -> NoDup (map (fun it => target p (text it)) its).
  Proof.
    intros NP F. induction F as [|it e its L K F IH]; cbn; intro N; [constructor|].
    inversion N; subst. constructor; [|auto]. intro I. apply in_map_iff in I.
    destruct I as (it' & E & I'). destruct (Forall2_in_l _ _ _ _ _ _ F I') as (e' & IL & K').
    destruct K as (mk & NK & _ & TK & _). destruct K' as (mk' & NK' & _ & TK' & _).
    assert (fst e = fst e').
    { eapply nth_path_inj; eauto. congruence. }
    apply H1. apply in_map_iff. exists e'. auto.
  Qed.

  Lemma names_known s p its L : Forall2 (known s p) its L -> map (knownAs p) its = map Some (map snd L).
  Proof.
    induction 1 as [|it e its L K _ IH]; cbn; [reflexivity|]. rewrite IH.
    destruct K as (_ & _ & _ & _ & -> & _). reflexivity.
  Qed.

  Lemma NoDup_map_Some A (l : list A) : NoDup l -> NoDup (map Some l).
  Proof.
    induction 1 as [|x l H _ IH]; cbn; constructor; auto.
    intro I. apply in_map_iff in I. destruct I as (y & E & I). inversion E; subst. contradiction.
  Qed.

  Lemma done_wellFormed s j m : inv s -> done s j m -> wellFormed (mpath m).
  Proof.
    intros I (ts & L & T & (A & B & F & _ & D & G) & _).
    exists ts, (mname m). split; [exact T|]. split; [exact A|]. split; [exact B|]. split; [|split].
    - intros it IT. destruct (Forall2_in_l _ _ _ _ _ _ F IT) as (e & _ & mk & _ & _ & TK & _). eauto.
    - eapply nodup_known; [apply I|exact F|]. apply NoDup_remove_1 in D. now rewrite app_nil_r in D.
    - rewrite (names_known _ _ _ _ F). change (NoDup (map Some (mname m :: map snd L))).
      apply NoDup_map_Some. eapply Permutation_NoDup; [|exact G]. apply Permutation_sym, Permutation_cons_append.
  Qed.

  Lemma compiles_legal s : parseProgram w main mainText = Ok s -> legal w main mainText.
  Proof.
    intro H. destruct (program_sound _ H) as (I & m & new & u & E & P & C & F).
    assert (HM : exists j m, nth_error (modules s) j = Some m /\ isCompiled m = true /\ mpath m = main).
    { exists 1, m. rewrite E. auto. }
    pose proof (reach_compiled s I HM) as RC.
    split; [|split].
    - intros k R. destruct (RC k R) as (j & mk & N & CK & <-).
      eapply done_wellFormed; [exact I|]. destruct I as (_ & D & _). eapply D; eauto.
    - intros k R CH. destruct (RC k R) as (j & mk & N & CK & PK).
      destruct (chain_before _ _ _ I CH _ _ N CK PK) as (i & mk' & N' & C' & P' & B).
      assert (i = j) by (eapply nth_path_inj; [apply I|eauto|eauto|congruence]). subst i.
      eapply before_irrefl; [|exact B]. apply I.
    - intros l NL RL.
      assert (NU : NoDup ("#universe"%string :: l)).
      { constructor; [|exact NL]. intro IU. destruct cons as (_ & K). exact (K (RL _ IU)). }
      assert (INC : incl ("#universe"%string :: l) (map mpath (modules s))).
      { intros x [<-|X].
        - destruct I as (_ & _ & _ & _ & _ & _ & mu & NU0 & PU & _). rewrite <- PU.
          apply in_map. eapply nth_error_In; eauto.
        - destruct (RC x (RL x X)) as (j & mk & N & _ & <-). apply in_map. eapply nth_error_In; eauto. }
      pose proof (NoDup_incl_length NU INC) as LE. rewrite map_length in LE. cbn [List.length] in LE.
      destruct I as (_ & _ & _ & _ & _ & M & _). lia.
  Qed.

  (** ** A legal program compiles *)

  Section L.
    Hypothesis lg : legal w main mainText.

    Definition loadComplete (load : string -> list item -> state -> outcome (nat * state)) (limit : nat) : Prop :=
      forall p ts s, inv s -> hasMain s -> reach p -> textOf p = Some ts ->
        ~ In p (map mpath (modules s)) -> limit <= len (modules s) ->
        (forall j m, nth_error (modules s) j = Some m -> j <> 0 -> isCompiled m = false -> chain (mpath m) p) ->
        exists i s', load p ts s = Ok (i, s').

    Lemma forall2_split A B (R : A -> B -> Prop) a b y : Forall2 R a b -> In y b -> exists x, In x a /\ R x y.
    Proof.
      induction 1 as [|u v a b H _ IH]; cbn; [contradiction|]. intros [<-|I]; [eauto|].
      destruct (IH I) as (x & X & Q). eauto.
    Qed.

    Lemma item_complete load base p name dn L s it todo limit :
      loadSound load -> loadComplete load limit ->
      reading base p name dn L s -> base <> [] -> reach p -> textOf p = Some (dn ++ it :: todo) ->
      limit <= S (len base) ->
      (forall j m, nth_error base j = Some m -> j <> 0 -> isCompiled m = false -> chain (mpath m) p) ->
      exists s', parseImportItem w load (len base) p it s = Ok s'.
    Proof.
      intros LS LC (I & HM & mi & rest & E & P & NM & F & FR & IM) NB R T LIM ANC.
      destruct lg as (WF & AC & _).
      destruct (WF p R) as (ts' & nm & T' & NN & _ & TGT & NDT & NDN).
      assert (ts' = dn ++ it :: todo) by congruence. subst ts'.
      assert (IT : In it (dn ++ it :: todo)) by (apply in_or_app; cbn; auto).
      destruct (TGT it IT) as (q & TQ). destruct (target_locate _ _ _ TQ) as (src & LO).
      assert (IMP : imports p q) by (exists (dn ++ it :: todo), it; auto).
      assert (RQ : reach q) by (eapply reach_step; eauto).
      destruct (WF q RQ) as (tq & qn & TXQ & NQ & _).
      unfold parseImportItem. rewrite LO, NQ.
      set (alias := match given it with Some a => a | None => qn end).
      assert (KA : knownAs p it = Some alias).
      { unfold ImportSpec.knownAs, alias. destruct (given it); [reflexivity|]. now rewrite TQ. }
      destruct (reading_aliases _ _ _ _ _ _ E IM) as (NK & LT & SN & FS).
      assert (NMI : nth_error (modules s) (len base) = Some mi) by (rewrite E; apply nth_mid).
      destruct IM as (A & B & F2 & C & D & G).
      assert (MN : mname mi = nm) by congruence.
      replace (moduleFindImported s (len base) alias) with (@None nat).
      2:{ symmetry. apply (moduleFindImported_none _ _ _ _ NMI NK LT). rewrite SN.
          rewrite P in F2. rewrite map_app in NDN. cbn in NDN. rewrite (names_known _ _ _ _ F2), KA in NDN.
          intro IA. apply in_app_or in IA. inversion NDN as [|x l NI ND]; subst.
          destruct IA as [IA|[IA|[]]].
          - apply NoDup_remove_2 in ND. apply ND. apply in_or_app. left. apply in_map. exact IA.
          - apply NI. apply in_or_app. right. left. congruence. }
      (* the module itself *)
      assert (LD : exists k s1, (match moduleFind s q with
                              | Some k => Ok (k, s)
                              | None =>
                                  match src with
                                  | Some ts => load q ts s
                                  | None => match file w q with
                                            | Some ts => load q ts s
                                            | None => Err EOther
                                            end
                                  end
                              end) = Ok (k, s1) /\ keeps s s1 /\
                (exists rest1, modules s1 = base ++ mi :: rest1) /\ NoDup (map mpath (modules s1)) /\
                exists mk, nth_error (modules s1) k = Some mk /\ mpath mk = q /\ isCompiled mk = true).
      { destruct (moduleFind s q) as [k|] eqn:MQ.
        - exists k, s. split; [reflexivity|]. split; [apply keeps_refl|]. split; [eauto|]. split; [apply I|].
          destruct (moduleFind_some _ _ _ MQ) as (mk & NK1 & PK). exists mk. split; [exact NK1|].
          split; [exact PK|]. destruct (isCompiled mk) eqn:CK; [reflexivity|exfalso].
          rewrite E in NK1. destruct (Nat.lt_trichotomy k (len base)) as [LK|[->|GK]].
          + rewrite nth_error_app1 in NK1 by exact LK.
            destruct k as [|k].
            * destruct I as (_ & _ & _ & _ & _ & _ & mu & NU0 & PU & _). rewrite E in NU0.
              rewrite nth_error_app1 in NU0 by exact LK. destruct cons as (_ & NU). apply NU.
              replace "#universe"%string with q by congruence. exact RQ.
            * pose proof (ANC _ _ NK1 ltac:(lia) CK) as CH. rewrite PK in CH.
              apply (AC q RQ). eapply chain_step; eauto.
          + rewrite nth_mid in NK1. apply (AC q RQ). apply chain_one. congruence.
          + rewrite nth_error_app2 in NK1 by lia. destruct (k - len base) as [|d] eqn:DD; [lia|].
            cbn in NK1. apply nth_error_In in NK1. rewrite Forall_forall in FR. rewrite (FR _ NK1) in CK. discriminate.
        - apply moduleFind_none in MQ.
          assert (QM : q <> main) by (intros ->; exact (MQ HM)).
          pose proof (load_text _ _ _ _ R QM LO) as TX. rewrite TXQ in TX.
          destruct (LC q tq s I HM RQ TXQ MQ) as (k & s1 & LQ).
          { rewrite E, app_length. cbn [List.length]. lia. }
          { intros j m NJ NZ CJ. rewrite E in NJ. destruct (Nat.lt_trichotomy j (len base)) as [LK|[->|GK]].
            - rewrite nth_error_app1 in NJ by exact LK. eapply chain_step; [|exact IMP]. eapply ANC; eauto.
            - rewrite nth_mid in NJ. inversion NJ; subst m. rewrite P. now apply chain_one.
            - rewrite nth_error_app2 in NJ by lia. destruct (j - len base) as [|d] eqn:DD; [lia|].
              cbn in NJ. apply nth_error_In in NJ. rewrite Forall_forall in FR. rewrite (FR _ NJ) in CJ. discriminate. }
          exists k, s1. split.
          { destruct src as [tq'|]; [congruence|]. rewrite <- TX. exact LQ. }
          destruct (LS q tq s k s1 I HM RQ TXQ LQ) as (I1 & -> & K1 & m & new & E1 & PM & CM & _).
          split; [exact K1|]. split.
          { exists (rest ++ m :: new). rewrite E1, E, <- app_assoc. reflexivity. }
          split; [apply I1|]. exists m. split; [rewrite E1; apply nth_mid|auto]. }
      destruct LD as (k & s1 & -> & K1 & (rest1 & E1) & NP1 & mk & NK1 & PK & CK).
      cbn [bind]. rewrite NK1.
      assert (NMI1 : nth_error (modules s1) (len base) = Some mi) by (rewrite E1; apply nth_mid).
      rewrite NMI1, CK. cbn [negb].
      destruct (aliasAt mi k) as [a|] eqn:AK; [|eauto]. exfalso.
      apply aliasAt_in in AK. assert (IK : In k (map fst (importAlias mi))) by (apply in_map_iff; exists (k, a); auto).
      apply FS in IK. apply in_app_or in IK. destruct IK as [IK|[<-|[]]].
      - apply in_map_iff in IK. destruct IK as (e & <- & IE).
        destruct (forall2_split _ _ _ _ _ _ F2 IE) as (it' & II & mk' & NK' & CK' & TK' & _).
        destruct K1 as (K1 & _). pose proof (K1 _ _ NK' CK') as NK2.
        assert (TE : target p (text it') = target p (text it)) by (rewrite TQ, <- P, TK'; congruence).
        rewrite map_app in NDT. cbn in NDT. apply NoDup_remove_2 in NDT. apply NDT.
        apply in_or_app. left. rewrite <- TE. apply (in_map (fun it => target p (text it))). exact II.
      - rewrite NMI1 in NK1. congruence.
    Qed.

    Lemma import_complete load base p name limit :
      loadSound load -> loadComplete load limit -> base <> [] -> reach p -> limit <= S (len base) ->
      (forall j m, nth_error base j = Some m -> j <> 0 -> isCompiled m = false -> chain (mpath m) p) ->
      forall its dn L s, reading base p name dn L s -> textOf p = Some (dn ++ its) ->
      exists s', parseImport w load (len base) p its s = Ok s'.
    Proof.
      intros LS LC NB R LIM ANC. induction its as [|it its IH]; intros dn L s RD T; cbn.
      - eauto.
      - destruct (item_complete _ _ _ _ _ _ _ _ _ _ LS LC RD NB R T LIM ANC) as (s1 & H1).
        rewrite H1. cbn [bind].
        assert (IT : In it (dn ++ it :: its)) by (apply in_or_app; cbn; auto).
        destruct (item_sound _ _ _ _ _ _ _ _ _ _ LS RD R T IT H1) as (e & RD1 & _).
        apply (IH _ _ _ RD1). rewrite <- app_assoc. exact T.
    Qed.

    Lemma module_complete : forall n p ts s,
      inv s -> (hasMain s \/ p = main) -> reach p -> textOf p = Some ts ->
      ~ In p (map mpath (modules s)) -> MAX_MODULES < n + len (modules s) ->
      (forall j m, nth_error (modules s) j = Some m -> j <> 0 -> isCompiled m = false -> chain (mpath m) p) ->
      exists i s', parseModule w n p ts s = Ok (i, s').
    Proof.
      induction n as [|n IH]; intros p ts s I HM R T NI FU ANC.
      { destruct I as (_ & _ & _ & _ & _ & M & _). lia. }
      cbn [parseModule].
      assert (ADD : exists i s1, moduleAdd w p s = Ok (i, s1)).
      { destruct lg as (WF & _ & CNT). destruct (WF p R) as (ts' & nm & _ & NN & BL & _).
        unfold moduleAdd.
        destruct (Nat.leb_spec MAX_MODULES (len (modules s))) as [GE|LT].
        - exfalso.
          assert (SP : exists u ms, modules s = u :: ms).
          { destruct I as (_ & _ & _ & _ & _ & _ & mu & NU0 & _). destruct (modules s); [discriminate|eauto]. }
          destruct SP as (u & ms & E).
          specialize (CNT (p :: map mpath ms)).
          assert (len (p :: map mpath ms) < MAX_MODULES) as Q.
          { apply CNT.
            - constructor.
              + intro X. apply NI. rewrite E. cbn. auto.
              + destruct I as (N & _). rewrite E in N. cbn in N. now inversion N.
            - intros x [<-|X]; [exact R|]. apply in_map_iff in X. destruct X as (mm & <- & X).
              apply In_nth_error in X. destruct X as (j & X).
              destruct I as (_ & _ & _ & _ & RR & _). apply (RR (S j)); [rewrite E; exact X|lia]. }
          cbn [List.length] in Q. rewrite map_length in Q. rewrite E in GE. cbn [List.length] in GE. lia.
        - rewrite NN. rewrite (proj2 (hasBlank_ok nm) BL).
          destruct (moduleFind s p) as [k|] eqn:MF; [|eauto].
          exfalso. destruct (moduleFind_some _ _ _ MF) as (mk & NK & <-). apply NI. apply in_map.
          eapply nth_error_In; eauto. }
      destruct ADD as (i & s1 & HA). rewrite HA. cbn [bind].
      destruct (add_sound _ _ _ _ I R HM HA) as (-> & _ & _ & name & RD).
      assert (NB : modules s <> []).
      { destruct I as (_ & _ & _ & _ & _ & _ & mu & NU0 & _). intro E. rewrite E in NU0. discriminate. }
      assert (LS : loadSound (parseModule w n)).
      { intros p' ts' s0 i' s0' I0 HM0 R0 T0 H0. eapply module_sound; eauto. }
      assert (LC : loadComplete (parseModule w n) (S (len (modules s)))).
      { intros p' ts' s0 I0 HM0 R0 T0 NI0 L0 ANC0. apply (IH p' ts' s0); auto. lia. }
      destruct (import_complete _ _ _ _ _ LS LC NB R (le_n _) ANC _ _ _ _ RD T) as (s2 & ->).
      cbn [bind]. eauto.
    Qed.

    Lemma legal_compiles : exists s, parseProgram w main mainText = Ok s.
    Proof.
      unfold parseProgram.
      destruct (module_complete (S MAX_MODULES) main mainText init inv_init (or_intror eq_refl)
                  (reach_main _ _ _) main_text) as (i & s & H).
      - cbn. intros [E|[]]. destruct cons as (_ & NU). apply NU. rewrite E. apply reach_main.
      - cbn [modules init List.length]. lia.
      - intros [|[|j]] m H; cbn in H; inversion H; subst; congruence.
      - rewrite H. cbn. eauto.
    Qed.
  End L.

  (** ** The theorems *)

  Lemma compiles_iff : (exists s, parseProgram w main mainText = Ok s) <-> legal w main mainText.
  Proof.
    split.
    - intros (s & H). eapply compiles_legal; eauto.
    - apply legal_compiles.
  Qed.
End P.
