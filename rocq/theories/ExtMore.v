(** Proofs about external functions: what can be called at all. *)
From Coq Require Import ZArith Lia Bool List String.
From Verif Require Import ExtModel ExtSpec ExtProofs.
Import ListNotations.
Local Open Scope string_scope.
Local Open Scope list_scope.

Definition extOK (fs : bool) (h : list op) (x : external) : Prop :=
  match x_entry x with
  | Some (FRtl n) => x_name x = n /\ x_trusted x = true /\ reserved n /\ (reachesOut n -> fs = true)
  | Some (FSandbox n) => x_name x = n /\ x_trusted x = true /\ reachesOut n /\ fs = false
  | Some (FHost f) => exists n', In (OAddFunc n' (Some f) (x_upvalue x)) h
  | Some (FLib _) => False
  | None => True
  end.
Definition srcOK (rt : list (string * string * text)) (s : source) : Prop :=
  s_trusted s = true -> In ("std.um", s_path s, s_text s) rt.

Lemma extOK_mono : forall fs h o x, extOK fs h x -> extOK fs (h ++ [o]) x.
Proof.
  intros fs h o x. unfold extOK. destruct (x_entry x) as [[]|]; auto. intros (n' & I). exists n'. apply in_or_app. auto.
Qed.
Lemma allowed_mono : forall fs libs rt h o b, allowed fs libs rt h b -> allowed fs libs rt (h ++ [o]) b.
Proof.
  intros fs libs rt h o b A. destruct A; try (now constructor).
  constructor. destruct H as (n' & I). exists n'. apply in_or_app. auto.
Qed.
Lemma extOK_set : forall fs h n l, Forall (extOK fs h) l -> Forall (extOK fs h) (setResolved l n).
Proof.
  induction l as [|x l IH]; cbn; intros F; [constructor|]. inversion F; subst. destruct (String.eqb (x_name x) n); auto.
Qed.
Lemma extOK_init : forall fs h, Forall (extOK fs h) (declareExternals fs []).
Proof.
  intros fs h. unfold declareExternals, rtlTable, rtlEntry, externalAdd. cbn [fold_left].
  repeat (constructor; [match goal with |- context [cutName ?s] => change (cutName s) with s end;
    unfold extOK; cbn [x_entry x_name x_trusted]; try (destruct fs);
    (split; [reflexivity|]); (split; [reflexivity|]);
    first [split; [right; cbn; tauto|unfold reachesOut; cbn; intuition discriminate]
          |split; [left; unfold reachesOut; cbn; tauto|reflexivity]
          |split; [unfold reachesOut; cbn; tauto|reflexivity]]|]).
  constructor.
Qed.

Lemma resolve_allowed : forall fs libs rt h path src tr lib names l,
  Forall (extOK fs h) l ->
  (tr = true -> forall n, In n names -> inStd rt path n) ->
  (forall n f, lib n = Some f -> libs = true /\ exists z, f = FLib z) ->
  Forall (extOK fs h) (fst (fst (resolve path src tr lib names l))) /\
  Forall (allowed fs libs rt h) (snd (fst (resolve path src tr lib names l))).
Proof.
  intros fs libs rt h path src tr lib. induction names as [|n names IH]; intros l X T L; cbn; [auto|].
  assert (T' : tr = true -> forall m, In m names -> inStd rt path m) by (intros; apply T; [assumption|right; assumption]).
  destruct (externalFind l n) as [x|] eqn:F.
  - destruct (x_resolved x); [cbn; auto|].
    destruct (negb src || x_trusted x && negb tr) eqn:C; [cbn; auto|].
    apply orb_false_iff in C. destruct C as [_ C].
    pose proof (extOK_set fs h n l X) as X'.
    destruct (x_entry x) as [f|] eqn:E; [|cbn; auto].
    specialize (IH (setResolved l n) X' T' L).
    destruct (resolve path src tr lib names (setResolved l n)) as [[l2 bs] e]. cbn in *. destruct IH as [I1 I2].
    split; [assumption|]. constructor; [|assumption].
    pose proof (find_name _ _ _ F) as Nm. apply find_In in F. rewrite Forall_forall in X. specialize (X x F).
    unfold extOK in X. rewrite E in X. destruct f as [m|m|z|z].
    + destruct X as (Q & Tr & R & O). subst m n. constructor; auto.
      apply T; [|left; reflexivity]. rewrite Tr in C. destruct tr; [reflexivity|discriminate].
    + destruct X as (Q & Tr & R & O). subst m n. constructor; auto.
      apply T; [|left; reflexivity]. rewrite Tr in C. destruct tr; [reflexivity|discriminate].
    + constructor. assumption.
    + contradiction.
  - destruct (lib n) as [f|] eqn:E; [|cbn; auto].
    specialize (IH l X T' L). destruct (resolve path src tr lib names l) as [[l2 bs] e]. cbn in *. destruct IH as [I1 I2].
    split; [assumption|]. constructor; [|assumption]. destruct (L _ _ E) as (Q & z & ->). constructor. assumption.
Qed.

Definition safe (fs libs : bool) (rt : list (string * string * text)) (h : list op) (u : umka) : Prop :=
  Forall (extOK fs h) (u_externals u) /\ Forall (srcOK rt) (u_sources u) /\ Forall (allowed fs libs rt h) (u_stubs u) /\ u_libs u = libs.

Lemma safe_mono : forall fs libs rt h o u, safe fs libs rt h u -> safe fs libs rt (h ++ [o]) u.
Proof.
  intros fs libs rt h o u (A & B & C & D). split; [|split; [assumption|split; [|assumption]]].
  - eapply Forall_impl; [|exact A]. intros. apply extOK_mono. assumption.
  - eapply Forall_impl; [|exact C]. intros. apply allowed_mono. assumption.
Qed.

Lemma safe_compile : forall fs libs rt h u path src tr t lib, safe fs libs rt h u ->
  (tr = true -> forall n ns, t = Some ns -> In n ns -> inStd rt path n) ->
  safe fs libs rt h (fst (compileModule u path src tr t lib)).
Proof.
  intros fs libs rt h u path src tr t lib (A & B & C & D) T. unfold compileModule.
  destruct (existsb (String.eqb path) (u_loaded u)); [exact (conj A (conj B (conj C D)))|].
  destruct t as [ns|]; [|exact (conj A (conj B (conj C D)))].
  pose proof (resolve_allowed fs libs rt h path src tr (fun n => if u_libs u then option_map FLib (lib n) else None) ns
    (u_externals u) A) as R.
  destruct (resolve path src tr _ ns (u_externals u)) as [[l bs] e]. cbn in R.
  destruct R as [R1 R2].
  - intros Q n I. eapply T; eauto.
  - intros n f Q. rewrite D in Q. destruct libs; [|discriminate]. destruct (lib n); [|discriminate]. cbn in Q. split; [auto|].
    injection Q as <-. eauto.
  - split; [assumption|]. split; [assumption|]. split; [|assumption]. cbn. apply Forall_app. auto.
Qed.

Lemma findSource_In : forall l p s, findSource l p = Some s -> In s l.
Proof.
  induction l as [|x l IH]; cbn; intros p s H; [discriminate|]. destruct (String.eqb (s_path x) p); [left; congruence|right; eauto].
Qed.

Lemma safe_step : forall fs libs rt h u o, safe fs libs rt h u -> safe fs libs rt (h ++ [o]) (fst (step u o)).
Proof.
  intros fs libs rt h u o S. apply (safe_mono _ _ _ _ o) in S. destruct o as [n f up|p t|cur rel file lib|path str file lib]; cbn [step].
  - destruct S as (A & B & C & D). unfold addClosure. destruct (externalFind (u_externals u) n); cbn; [exact (conj A (conj B (conj C D)))|].
    split; [|exact (conj B (conj C D))]. cbn. constructor; [|assumption]. unfold extOK. cbn. destruct f as [z|]; cbn; [|exact I].
    exists n. apply in_or_app. right. left. reflexivity.
  - destruct (findSource (u_sources u) p); [exact S|]. destruct S as (A & B & C & D). split; [exact A|]. split; [|exact (conj C D)].
    cbn. apply Forall_app. split; [assumption|]. constructor; [|constructor]. intros Q. discriminate.
  - destruct (u_failed u); [exact S|].
    destruct (match cur with Some p => findSource (u_sources u) p | None => None end) as [s|] eqn:E.
    + apply safe_compile; [exact S|]. intros T n ns Q I. injection Q as <-.
      destruct S as (_ & B & _). destruct cur as [p|]; [|discriminate]. apply findSource_In in E.
      rewrite Forall_forall in B. exists (s_text s). split; [apply B; assumption|assumption].
    + apply safe_compile; [exact S|discriminate].
  - destruct (u_failed u); [exact S|]. destruct str; apply safe_compile; try exact S; discriminate.
Qed.

Lemma safe_run : forall fs libs rt h, safe fs libs rt h (run (init fs libs rt) h).
Proof.
  intros fs libs rt h. induction h as [|o h IH] using rev_ind.
  - split; [apply extOK_init|]. split; [|split; [constructor|reflexivity]]. cbn. apply Forall_forall. intros s I.
    apply in_map_iff in I. destruct I as (((n, p), t) & <- & I). intros T. cbn in *. apply String.eqb_eq in T. subst. assumption.
  - rewrite run_snoc. apply safe_step. assumption.
Qed.

Lemma allowed_ok : forall fs libs rt h b, In b (u_stubs (run (init fs libs rt) h)) -> allowed fs libs rt h b.
Proof. intros fs libs rt h b I. destruct (safe_run fs libs rt h) as (_ & _ & F & _). rewrite Forall_forall in F. auto. Qed.

(** History-level statements. *)
Lemma bound_ok : forall fs libs rt h b, short h -> In b (u_stubs (run (init fs libs rt) h)) -> b_external b = true ->
  exists tr, means fs h (b_name b) (Some (Some (b_fn b), b_upvalue b, tr)).
Proof.
  intros fs libs rt h b S I E. destruct (inv_run fs libs rt h S) as (K & _ & B & _). rewrite Forall_forall in B.
  destruct (B b I E) as (x & F & P & Q). specialize (K (b_name b)). rewrite F in K. cbn in K. rewrite P, Q in K. eauto.
Qed.
Lemma once_ok : forall fs libs rt h, short h -> NoDup (usedNames (u_stubs (run (init fs libs rt) h))).
Proof. intros fs libs rt h S. destruct (inv_run fs libs rt h S) as (_ & _ & _ & N). exact N. Qed.

Lemma main_ok : forall fs libs rt h path t lib, short h -> let u := run (init fs libs rt) h in
  u_failed u = false -> ~ In path (u_loaded u) ->
  exists u' bs e, step u (OMain path (Some t) None lib) = (u', RModule e) /\ u_stubs u' = u_stubs u ++ bs /\
    resolves fs h path true false (fun n => if libs then option_map FLib (lib n) else None) (usedNames (u_stubs u)) t bs e.
Proof.
  intros fs libs rt h path t lib S u NF NL. cbn [step]. rewrite NF.
  destruct (compile_ok fs libs rt h path true false t lib S NF NL) as (bs & e & R & O & St). fold u in R, O, St.
  exists (fst (compileModule u path true false (Some t) lib)), bs, e. rewrite <- O. rewrite <- surjective_pairing. auto.
Qed.

Lemma import_ok : forall fs libs rt h p rel file t tr lib, short h -> let u := run (init fs libs rt) h in
  u_failed u = false -> ~ In p (u_loaded u) -> given rt h p (Some (t, tr)) ->
  exists u' bs e, step u (OImport (Some p) rel file lib) = (u', RModule e) /\ u_stubs u' = u_stubs u ++ bs /\
    resolves fs h p true tr (fun n => if libs then option_map FLib (lib n) else None) (usedNames (u_stubs u)) t bs e.
Proof.
  intros fs libs rt h p rel file t tr lib S u NF NL G.
  assert (Q : sourceOf u p = Some (t, tr)).
  { pose proof (source_ok fs libs rt h p) as G'. fold u in G'. revert G G'. generalize (sourceOf u p). clear. intros r G G'.
    assert (D : forall l r1 n t r2 r1' n' t' r2', l = r1 ++ (n, p, t) :: r2 -> l = r1' ++ (n', p, t') :: r2' ->
      (forall a b, ~ In (a, p, b) r1) -> (forall a b, ~ In (a, p, b) r1') -> (n : string) = n' /\ (t : text) = t').
    { clear. intros l r1. revert l. induction r1 as [|x r1 IH]; intros l n t r2 r1' n' t' r2' -> E N N'; destruct r1' as [|x' r1']; cbn in E.
      - injection E as -> -> _. auto.
      - injection E as <- _. destruct (N' n t). left. reflexivity.
      - injection E as -> _. destruct (N n' t'). left. reflexivity.
      - injection E as _ E. eapply IH; [reflexivity|exact E| |].
        + intros a b I. eapply N. right. exact I.
        + intros a b I. eapply N'. right. exact I. }
    assert (D' : forall h1 t h2 h1' t' h2', h1 ++ OAddModule p t :: h2 = h1' ++ OAddModule p t' :: h2' ->
      (forall b, ~ In (OAddModule p b) h1) -> (forall b, ~ In (OAddModule p b) h1') -> t = t').
    { clear. induction h1 as [|x h1 IH]; intros t h2 h1' t' h2' E N N'; destruct h1' as [|x' h1']; cbn in E.
      - injection E as -> _. auto.
      - injection E as <- _. destruct (N' t). left. reflexivity.
      - injection E as -> _. destruct (N t'). left. reflexivity.
      - injection E as _ E. eapply IH; [exact E| |].
        + intros b I. eapply N. right. exact I.
        + intros b I. eapply N'. right. exact I. }
    assert (R : forall r1 n t r2, rt = r1 ++ (n, p, t) :: r2 -> In (n, p, t) rt) by (intros; subst; apply in_or_app; right; left; reflexivity).
    assert (R' : forall r1 t r2, h = r1 ++ OAddModule p t :: r2 -> In (OAddModule p t) h) by (intros; subst; apply in_or_app; right; left; reflexivity).
    inversion G as [r1 n t0 r2 E1 N1|h1 t0 h2 N1 E1 N2|]; inversion G' as [r1' n' t0' r2' E1' N1'|h1' t0' h2' N1' E1' N2'|N1' N2']; subst r.
    - destruct (D _ _ _ _ _ _ _ _ _ E1 E1' N1 N1') as [-> ->]. reflexivity.
    - destruct (N1' _ _ (R _ _ _ _ E1)).
    - destruct (N1' _ _ (R _ _ _ _ E1)).
    - destruct (N1 _ _ (R _ _ _ _ E1')).
    - rewrite E1 in E1'. rewrite (D' _ _ _ _ _ _ E1' N2 N2'). reflexivity.
    - destruct (N2' _ (R' _ _ _ E1)). }
  unfold sourceOf in Q. destruct (findSource (u_sources u) p) as [s|] eqn:F; [|discriminate]. cbn in Q. injection Q as Q1 Q2.
  pose proof (findSource_path _ _ _ F) as Pa.
  cbn [step]. rewrite NF, F. rewrite Pa, Q1, Q2.
  destruct (compile_ok fs libs rt h p true tr t lib S NF NL) as (bs & e & R & O & St). fold u in R, O, St.
  exists (fst (compileModule u p true tr (Some t) lib)), bs, e. rewrite <- O. rewrite <- surjective_pairing. auto.
Qed.

Lemma file_ok : forall fs libs rt h cur p t lib, short h -> let u := run (init fs libs rt) h in
  u_failed u = false -> ~ In p (u_loaded u) -> (forall q, cur = Some q -> given rt h q None) ->
  exists u' bs e, step u (OImport cur p (Some t) lib) = (u', RModule e) /\ u_stubs u' = u_stubs u ++ bs /\
    resolves fs h p false false (fun n => if libs then option_map FLib (lib n) else None) (usedNames (u_stubs u)) t bs e.
Proof.
  intros fs libs rt h cur p t lib S u NF NL G. cbn [step]. rewrite NF.
  replace (match cur with Some p => findSource (u_sources u) p | None => None end) with (@None source).
  2: { destruct cur as [q|]; [|reflexivity]. specialize (G q eq_refl). pose proof (source_ok fs libs rt h q) as G'. fold u in G'.
    unfold sourceOf in G'. destruct (findSource (u_sources u) q); [|reflexivity]. cbn in G'. exfalso.
    inversion G as [| |N1 N2]. inversion G' as [r1 n t0 r2 E _|h1 t0 h2 _ E _|].
    - eapply N1. rewrite E. apply in_or_app. right. left. reflexivity.
    - eapply N2. rewrite E. apply in_or_app. right. left. reflexivity. }
  destruct (compile_ok fs libs rt h p false false t lib S NF NL) as (bs & e & R & O & St). fold u in R, O, St.
  exists (fst (compileModule u p false false (Some t) lib)), bs, e. rewrite <- O. rewrite <- surjective_pairing. auto.
Qed.

Lemma main_file_ok : forall fs libs rt h p t lib, short h -> let u := run (init fs libs rt) h in
  u_failed u = false -> ~ In p (u_loaded u) ->
  exists u' bs e, step u (OMain p None (Some t) lib) = (u', RModule e) /\ u_stubs u' = u_stubs u ++ bs /\
    resolves fs h p false false (fun n => if libs then option_map FLib (lib n) else None) (usedNames (u_stubs u)) t bs e.
Proof.
  intros fs libs rt h p t lib S u NF NL. cbn [step]. rewrite NF.
  destruct (compile_ok fs libs rt h p false false t lib S NF NL) as (bs & e & R & O & St). fold u in R, O, St.
  exists (fst (compileModule u p false false (Some t) lib)), bs, e. rewrite <- O. rewrite <- surjective_pairing. auto.
Qed.

Lemma compile_failed : forall u path src tr t lib u' e, compileModule u path src tr t lib = (u', RModule e) ->
  (u_failed u' = true <-> e <> None).
Proof.
  intros u path src tr t lib u' e. unfold compileModule. destruct (existsb _ _); [discriminate|]. destruct t; [|discriminate].
  destruct (resolve _ _ _ _ _ _) as [[l bs] e0]. intros Q. injection Q as <- <-. cbn. destruct e0; intuition congruence.
Qed.
Lemma step_failed : forall u o u' e, step u o = (u', RModule e) -> (u_failed u' = true <-> e <> None).
Proof.
  intros u [n f up|p t|cur rel file lib|path str file lib] u' e; cbn [step].
  - destruct (addClosure _ _ _ _). discriminate.
  - destruct (findSource _ _); discriminate.
  - destruct (u_failed u); [discriminate|]. destruct (match cur with Some p => findSource (u_sources u) p | None => None end); apply compile_failed.
  - destruct (u_failed u); [discriminate|]. destruct str; apply compile_failed.
Qed.
Lemma failed_stays : forall h u, u_failed u = true -> u_failed (run u h) = true /\ u_stubs (run u h) = u_stubs u.
Proof.
  induction h as [|o h IH]; intros u F; cbn [run]; [auto|].
  assert (S : u_failed (fst (step u o)) = true /\ u_stubs (fst (step u o)) = u_stubs u).
  { destruct o; cbn [step].
    - destruct (addClosure _ _ _ _). auto.
    - destruct (findSource _ _); auto.
    - rewrite F. auto.
    - rewrite F. auto. }
  destruct S as [S1 S2]. rewrite <- S2. apply IH. assumption.
Qed.

(** A module that compiles has all its prototypes. *)
Lemma resolves_all : forall fs h path src tr lib used ns bs, resolves fs h path src tr lib used ns bs None -> map b_name bs = ns.
Proof.
  intros fs h path src tr lib used ns bs R. remember None as e eqn:E. induction R; cbn; try discriminate; auto; f_equal; auto.
Qed.
Lemma resolves_file : forall fs h path tr lib used ns bs e, resolves fs h path false tr lib used ns bs e ->
  Forall (fun b => b_external b = false /\ means fs h (b_name b) None) bs.
Proof.
  intros fs h path tr lib used ns bs e R. remember false as src eqn:E. induction R; try constructor; auto; try congruence.
Qed.
(** The outcome is determined. *)
Lemma resolves_fun : forall fs h path src tr lib used ns bs e, resolves fs h path src tr lib used ns bs e ->
  forall bs' e', resolves fs h path src tr lib used ns bs' e' -> bs = bs' /\ e = e'.
Proof.
  intros fs h path src tr lib used ns bs e R.
  induction R; intros bs' e' R'; inversion R'; subst;
    repeat match goal with
    | A : means ?fs ?h ?n _, B : means ?fs ?h ?n _ |- _ => pose proof (means_fun _ _ _ _ _ A B) as X; clear B; try discriminate X; try (injection X as X; subst)
    end; subst; auto; try contradiction; try congruence;
    try (match goal with H : _ \/ _ |- _ => destruct H as [?|[? ?]]; subst; try congruence; intuition congruence end).
  - match goal with H : resolves _ _ _ _ _ _ _ _ ?b ?e' |- _ /\ _ = ?e' => destruct (IHR b e' H) as [-> ->] end. auto.
  - assert (f = f0) by congruence. subst.
    match goal with H : resolves _ _ _ _ _ _ _ _ ?b ?e' |- _ /\ _ = ?e' => destruct (IHR b e' H) as [-> ->] end. auto.
Qed.
