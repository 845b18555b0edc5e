(** Proofs about external functions. *)
From Coq Require Import ZArith Lia Bool List String Permutation.
From Verif Require Import ExtModel ExtSpec.
Import ListNotations.
Local Open Scope string_scope.
Local Open Scope list_scope.

Lemma run_app : forall h1 h2 u, run u (h1 ++ h2) = run (run u h1) h2.
Proof. induction h1; intros; cbn; auto. Qed.
Lemma run_snoc : forall h o u, run u (h ++ [o]) = fst (step (run u h) o).
Proof. intros. rewrite run_app. reflexivity. Qed.

(** The list of externals. *)
Lemma find_name : forall l n x, externalFind l n = Some x -> x_name x = n.
Proof.
  induction l as [|y l IH]; cbn; intros n x H; [discriminate|].
  destruct (String.eqb_spec (x_name y) n); [congruence|auto].
Qed.
Lemma find_In : forall l n x, externalFind l n = Some x -> In x l.
Proof.
  induction l as [|y l IH]; cbn; intros n x H; [discriminate|].
  destruct (String.eqb (x_name y) n); [left; congruence|right; eauto].
Qed.
Definition marked (x : external) : external := MkExt (x_name x) (x_entry x) (x_upvalue x) true (x_trusted x).
Lemma find_set : forall l n m,
  externalFind (setResolved l n) m = if String.eqb n m then option_map marked (externalFind l m) else externalFind l m.
Proof.
  induction l as [|y l IH]; cbn; intros n m.
  - destruct (String.eqb n m); reflexivity.
  - destruct (String.eqb_spec (x_name y) n) as [E|E]; cbn.
    + destruct (String.eqb_spec (x_name y) m) as [E'|E'].
      * subst n. subst m. rewrite String.eqb_refl. reflexivity.
      * subst n. destruct (String.eqb_spec (x_name y) m); [contradiction|reflexivity].
    + destruct (String.eqb_spec (x_name y) m) as [E'|E'].
      * destruct (String.eqb_spec n m); [congruence|reflexivity].
      * apply IH.
Qed.

Lemma substring_all : forall s k, String.length s <= k -> substring 0 k s = s.
Proof.
  induction s as [|c s IH]; intros k H.
  - destruct k; reflexivity.
  - cbn in H. destruct k as [|k]; [lia|]. cbn. rewrite IH by lia. reflexivity.
Qed.
Lemma cut_short : forall s, String.length s <= 255 -> cutName s = s.
Proof. intros. apply substring_all. assumption. Qed.

(** What is known of the list after [h]. *)
Definition knows (fs : bool) (h : list op) (l : list external) : Prop :=
  forall n, means fs h n (option_map (fun x => (x_entry x, x_upvalue x, x_trusted x)) (externalFind l n)).
Definition marks (l : list external) (used : list string) : Prop :=
  forall n x, externalFind l n = Some x -> (x_resolved x = true <-> In n used).

Lemma knows_set : forall fs h l n, knows fs h l -> knows fs h (setResolved l n).
Proof.
  intros fs h l n K m. rewrite find_set. destruct (String.eqb n m); [|apply K].
  specialize (K m). destruct (externalFind l m); exact K.
Qed.

Lemma knows_init : forall fs, knows fs [] (declareExternals fs []).
Proof.
  intros fs n. unfold declareExternals, rtlTable, rtlEntry, externalAdd.
  cbn [fold_left externalFind x_name x_entry x_upvalue x_trusted option_map].
  repeat match goal with
  | |- context [String.eqb (cutName ?s) n] => change (cutName s) with s; destruct (String.eqb_spec s n) as [<-|?];
      [cbn [option_map x_entry x_upvalue x_trusted];
       first [apply means_rtl_out; unfold reachesOut; cbn; tauto
             |apply means_rtl; [right; cbn; tauto|unfold reachesOut; cbn; intuition discriminate]]|]
  end.
  apply means_nothing; [|constructor].
  unfold reserved, reachesOut. cbn. intuition congruence.
Qed.

Lemma marks_init : forall fs, marks (declareExternals fs []) [].
Proof.
  intros fs n x F. apply find_In in F. split; [|intros []].
  assert (H : Forall (fun x => x_resolved x = false) (declareExternals fs [])) by (cbn; repeat constructor).
  rewrite Forall_forall in H. rewrite (H x F). discriminate.
Qed.

(** Other operations do not change what a name means. *)
Lemma hostFn_snoc : forall h o n f up, hostFn h n f up -> hostFn (h ++ [o]) n f up.
Proof. intros h o n f up (h1 & h2 & -> & F). exists h1, (h2 ++ [o]). rewrite <- app_assoc. auto. Qed.
Lemma means_snoc : forall fs h o n r, means fs h n r -> (r = None -> ~ registers n o) -> means fs (h ++ [o]) n r.
Proof.
  intros fs h o n r M N. destruct M.
  - now constructor.
  - now constructor.
  - constructor; auto. apply hostFn_snoc. assumption.
  - constructor; auto. apply Forall_app. split; auto.
Qed.
Lemma knows_snoc : forall fs h o l, knows fs h l -> (forall n, ~ registers n o) -> knows fs (h ++ [o]) l.
Proof. intros fs h o l K N n. apply means_snoc; auto. Qed.

Lemma knows_add : forall fs h l n f up, knows fs h l -> String.length n <= 255 ->
  knows fs (h ++ [OAddFunc n f up]) (fst (addClosure l n (option_map FHost f) up)).
Proof.
  intros fs h l n f up K S m. unfold addClosure. destruct (externalFind l n) eqn:E; cbn [fst].
  - apply means_snoc; [apply K|]. intros Q (f' & up' & R). injection R as <- _ _.
    rewrite E in Q. discriminate.
  - unfold externalAdd. cbn [externalFind x_name]. rewrite cut_short by assumption.
    destruct (String.eqb_spec n m) as [<-|D].
    + cbn. specialize (K n). rewrite E in K. cbn in K. inversion K. apply means_host; [assumption|].
      exists h, []. auto.
    + apply means_snoc; [apply K|]. intros _ (f' & up' & R). congruence.
Qed.
Lemma marks_add : forall l n f up used, marks l used -> String.length n <= 255 ->
  (forall m, In m used -> externalFind l m <> None) ->
  marks (fst (addClosure l n f up)) used.
Proof.
  intros l n f up used M S W m x. unfold addClosure. destruct (externalFind l n) eqn:E; cbn [fst]; [apply M|].
  unfold externalAdd. cbn [externalFind x_name]. rewrite cut_short by assumption.
  destruct (String.eqb_spec n m) as [<-|D]; [|apply M].
  intros Q. injection Q as <-. cbn. split; [discriminate|]. intros I. destruct (W _ I E).
Qed.
Lemma found_add : forall l n f up m x, String.length n <= 255 -> externalFind l m = Some x ->
  externalFind (fst (addClosure l n f up)) m = Some x.
Proof.
  intros l n f up m x S F. unfold addClosure. destruct (externalFind l n) eqn:E; cbn [fst]; [assumption|].
  unfold externalAdd. cbn [externalFind x_name]. rewrite cut_short by assumption.
  destruct (String.eqb_spec n m) as [<-|D]; congruence.
Qed.

(** One module. *)
Definition bound (l : list external) (b : stub) : Prop :=
  b_external b = true -> exists x, externalFind l (b_name b) = Some x /\ x_entry x = Some (b_fn b) /\ x_upvalue x = b_upvalue b.

Lemma bound_set : forall l n b, bound l b -> bound (setResolved l n) b.
Proof.
  intros l n b B E. destruct (B E) as (x & F & P & Q). rewrite find_set, F.
  destruct (String.eqb n (b_name b)); [exists (marked x)|exists x]; auto.
Qed.

Lemma resolve_keeps : forall path src tr lib names l l2 bs e, resolve path src tr lib names l = (l2, bs, e) ->
  forall b, bound l b -> bound l2 b.
Proof.
  induction names as [|n names IH]; intros l l2 bs e H b B; cbn in H.
  - injection H as <- _ _. assumption.
  - destruct (externalFind l n) as [x|] eqn:F.
    + destruct (x_resolved x); [injection H as <- _ _; assumption|].
      destruct (negb src || x_trusted x && negb tr); [injection H as <- _ _; assumption|].
      destruct (x_entry x).
      * destruct (resolve path src tr lib names (setResolved l n)) as [[l3 bs3] e3] eqn:R. injection H as <- _ _.
        eapply IH; eauto. apply bound_set. assumption.
      * injection H as <- _ _. apply bound_set. assumption.
    + destruct (lib n); [|injection H as <- _ _; assumption].
      destruct (resolve path src tr lib names l) as [[l3 bs3] e3] eqn:R. injection H as <- _ _. eapply IH; eauto.
Qed.

Lemma resolve_ok : forall fs h path src tr lib names l used l2 bs e,
  knows fs h l -> marks l used -> resolve path src tr lib names l = (l2, bs, e) ->
  resolves fs h path src tr lib used names bs e /\ knows fs h l2 /\
  (e = None -> marks l2 (rev (usedNames bs) ++ used)) /\
  Forall (bound l2) bs /\
  (NoDup used -> NoDup (rev (usedNames bs) ++ used)).
Proof.
  induction names as [|n names IH]; intros l used l2 bs e K M H; cbn in H.
  - injection H as <- <- <-. repeat split; auto using rs_done; apply M; auto.
  - pose proof (K n) as Kn. destruct (externalFind l n) as [x|] eqn:F; cbn [option_map] in Kn.
    + pose proof (M n x F) as Mn.
      destruct (x_resolved x) eqn:Rv.
      { injection H as <- <- <-. split; [|split; [|split; [discriminate|split; [constructor|auto]]]]; auto.
        eapply rs_again; eauto. tauto. }
      assert (NU : ~ In n used) by (intro I; apply Mn in I; discriminate).
      destruct (negb src || x_trusted x && negb tr) eqn:C.
      { injection H as <- <- <-. split; [|split; [|split; [discriminate|split; [constructor|auto]]]]; auto.
        eapply rs_cannot; eauto. destruct src; [|auto]. cbn in C. destruct (x_trusted x), tr; auto; discriminate. }
      apply orb_false_iff in C. destruct C as [C1 C2].
      assert (Src : src = true) by (destruct src; auto; discriminate).
      assert (Tr : x_trusted x = true -> tr = true) by (intros T; rewrite T in C2; destruct tr; auto; discriminate).
      destruct (x_entry x) as [f|] eqn:En.
      * destruct (resolve path src tr lib names (setResolved l n)) as [[l3 bs3] e3] eqn:R. injection H as <- <- <-.
        assert (M' : marks (setResolved l n) (n :: used)).
        { intros m y. rewrite find_set. destruct (String.eqb_spec n m) as [<-|D].
          - rewrite F. cbn. intros Q. injection Q as <-. cbn. tauto.
          - intros Q. rewrite (M m y Q). cbn. intuition congruence. }
        destruct (IH _ (n :: used) _ _ _ (knows_set fs h l n K) M' R) as (P1 & P2 & P3 & P4 & P5).
        split; [eapply rs_external; eauto|]. split; [assumption|]. cbn.
        split; [intros Q; specialize (P3 Q); unfold usedNames in P3; rewrite <- app_assoc; exact P3|].
        split.
        -- constructor; [|assumption]. eapply resolve_keeps; [exact R|]. apply bound_set. intros _.
           exists x. auto.
        -- intros ND. rewrite <- app_assoc. apply P5. constructor; assumption.
      * injection H as <- <- <-. split; [|split; [apply knows_set; assumption|split; [discriminate|split; [constructor|auto]]]].
        assert (T : x_trusted x = false).
        { destruct (x_trusted x) eqn:T; auto. inversion Kn. }
        rewrite T in Kn. eapply rs_null; eauto.
    + destruct (lib n) as [f|] eqn:L.
      * destruct (resolve path src tr lib names l) as [[l3 bs3] e3] eqn:R. injection H as <- <- <-.
        destruct (IH _ _ _ _ _ K M R) as (P1 & P2 & P3 & P4 & P5).
        split; [eapply rs_lib; eauto|]. split; [assumption|]. cbn. split; [assumption|]. split; [|assumption].
        constructor; [|assumption]. intros Q. discriminate.
      * injection H as <- <- <-. split; [eapply rs_unknown; eauto|]. split; [assumption|]. split; [discriminate|]. split; [constructor|auto].
Qed.

(** All histories. *)
Definition inv (fs : bool) (h : list op) (u : umka) : Prop :=
  knows fs h (u_externals u) /\ (u_failed u = false -> marks (u_externals u) (usedNames (u_stubs u))) /\
  Forall (bound (u_externals u)) (u_stubs u) /\ NoDup (usedNames (u_stubs u)).

Lemma usedNames_app : forall a b, usedNames (a ++ b) = (usedNames a ++ usedNames b)%list.
Proof. intros. unfold usedNames. rewrite filter_app, map_app. reflexivity. Qed.
Lemma NoDup_swap : forall (a b : list string), NoDup (rev b ++ a) -> NoDup (a ++ b).
Proof.
  intros a b N. eapply Permutation_NoDup; [|exact N].
  rewrite <- Permutation_rev. apply Permutation_app_comm.
Qed.
Lemma bound_used : forall l bs, Forall (bound l) bs -> forall m, In m (usedNames bs) -> externalFind l m <> None.
Proof.
  intros l bs F m I. apply in_map_iff in I. destruct I as (b & <- & I). apply filter_In in I. destruct I as [I E].
  rewrite Forall_forall in F. destruct (F b I E) as (x & Q & _). congruence.
Qed.

Definition libOf (u : umka) (lib : string -> option Z) : string -> option cfun :=
  fun n => if u_libs u then option_map FLib (lib n) else None.

Lemma compile_inv : forall fs h u path src tr t lib, inv fs h u -> u_failed u = false ->
  inv fs h (fst (compileModule u path src tr t lib)).
Proof.
  intros fs h u path src tr t lib (K & M & B & N) NF. specialize (M NF). unfold compileModule.
  destruct (existsb (String.eqb path) (u_loaded u)); [exact (conj K (conj (fun _ => M) (conj B N)))|].
  - destruct t as [names|]; [|cbn; split; [auto|split; [discriminate|auto]]].
    destruct (resolve path src tr _ names (u_externals u)) as [[l bs] e] eqn:R. cbn [fst].
    destruct (resolve_ok fs h _ _ _ _ _ _ _ _ _ _ K M R) as (P1 & P2 & P3 & P4 & P5).
    split; [assumption|]. cbn [u_externals u_failed u_stubs]. rewrite usedNames_app. split; [|split].
    + destruct e; [discriminate|]. intros _ m x F. rewrite (P3 eq_refl m x F).
      rewrite !in_app_iff, <- in_rev. tauto.
    + apply Forall_app. split; [|assumption]. eapply Forall_impl; [|exact B]. intros b. eapply resolve_keeps. exact R.
    + apply NoDup_swap. auto.
Qed.

Lemma inv_mono : forall fs h o u, inv fs h u -> (forall n, ~ registers n o) -> inv fs (h ++ [o]) u.
Proof. intros fs h o u (K & R) N. split; [apply knows_snoc; auto|exact R]. Qed.

Lemma inv_step : forall fs h u o, inv fs h u -> (forall n f up, o = OAddFunc n f up -> String.length n <= 255) ->
  inv fs (h ++ [o]) (fst (step u o)).
Proof.
  intros fs h u o I S. destruct o as [n f up|p t|cur rel file lib|path str file lib]; cbn [step].
  - specialize (S _ _ _ eq_refl). destruct I as (K & M & B & N).
    pose proof (knows_add fs h (u_externals u) n f up K S) as K'.
    pose proof (fun used => marks_add (u_externals u) n (option_map FHost f) up used) as M'.
    pose proof (found_add (u_externals u) n (option_map FHost f) up) as F'.
    destruct (addClosure (u_externals u) n (option_map FHost f) up) as [l b]. cbn in *.
    split; [assumption|]. cbn. split; [|split; [|assumption]].
    + intros NF. apply M'; auto. eapply bound_used. exact B.
    + eapply Forall_impl; [|exact B]. intros b' Hb E. destruct (Hb E) as (x & P & Q). exists x. auto.
  - apply inv_mono; [|intros n (f & up & Q); discriminate]. destruct (findSource (u_sources u) p); exact I.
  - apply inv_mono; [|intros n (f & up & Q); discriminate]. destruct (u_failed u) eqn:NF; [exact I|].
    destruct (match cur with Some p => findSource (u_sources u) p | None => None end); apply compile_inv; assumption.
  - apply inv_mono; [|intros n (f & up & Q); discriminate]. destruct (u_failed u) eqn:NF; [exact I|].
    destruct str; apply compile_inv; assumption.
Qed.

Lemma short_snoc : forall h o, short (h ++ [o]) -> short h /\ (forall n f up, o = OAddFunc n f up -> String.length n <= 255).
Proof.
  intros h o S. split.
  - intros n f up I. apply (S n f up). apply in_or_app. auto.
  - intros n f up ->. apply (S n f up). apply in_or_app. right. left. reflexivity.
Qed.

Lemma inv_run : forall fs libs rt h, short h -> inv fs h (run (init fs libs rt) h).
Proof.
  intros fs libs rt h. induction h as [|o h IH] using rev_ind; intros S.
  - cbn [run init]. split; [apply knows_init|]. split; [intros _; apply marks_init|]. split; constructor.
  - rewrite run_snoc. apply short_snoc in S. destruct S as [S1 S2]. apply inv_step; auto.
Qed.

Lemma host_registers : forall h n f up, hostFn h n f up -> ~ Forall (fun o => ~ registers n o) h.
Proof.
  intros h n f up (a & b & -> & _) F. apply Forall_app in F. destruct F as [_ F]. apply Forall_inv in F. apply F.
  now eexists _, _.
Qed.

(** Adding a function. *)
Lemma add_ok : forall fs libs rt h n f up, short h ->
  exists u' b, step (run (init fs libs rt) h) (OAddFunc n f up) = (u', RBool b) /\
    (b = true <-> ~ reserved n /\ Forall (fun o => ~ registers n o) h) /\
    (b = false -> u' = run (init fs libs rt) h).
Proof.
  intros fs libs rt h n f up S. destruct (inv_run fs libs rt h S) as (K & _).
  set (u := run (init fs libs rt) h) in *. cbn [step]. unfold addClosure. specialize (K n).
  destruct (externalFind (u_externals u) n) eqn:E; cbn in K.
  - eexists _, false. split; [reflexivity|]. split; [|intros _; destruct u; reflexivity].
    split; [discriminate|]. intros [NR NF]. inversion K; try tauto.
    + destruct NR. left. assumption.
    + match goal with HF : hostFn _ _ _ _ |- _ => destruct (host_registers _ _ _ _ HF NF) end.
  - eexists _, true. split; [reflexivity|]. split; [|discriminate]. inversion K. tauto.
Qed.

(** Every name means one thing. *)
Lemma hostFn_fun : forall h n f up f' up', hostFn h n f up -> hostFn h n f' up' -> f = f' /\ up = up'.
Proof.
  intros h n f up f' up' (a & b & -> & A) (c & d & E & C). revert c E C A.
  induction a as [|o a IH]; intros c E C A; destruct c as [|o' c]; cbn in E.
  - injection E as <- <- _. auto.
  - injection E as <- _. apply Forall_inv in C. destruct C. now eexists _, _.
  - injection E as -> _. apply Forall_inv in A. destruct A. now eexists _, _.
  - injection E as _ E. apply Forall_inv_tail in C. apply Forall_inv_tail in A. eauto.
Qed.
Lemma means_fun : forall fs h n r r', means fs h n r -> means fs h n r' -> r = r'.
Proof.
  intros fs h n r r' M M'.
  pose proof (host_registers h n) as D.
  destruct M; inversion M'; subst; auto; try (exfalso; unfold reserved in *; tauto); try (exfalso; eapply D; eauto; fail).
  destruct (hostFn_fun _ _ _ _ _ _ H0 H2) as [-> ->]. reflexivity.
Qed.

(** Sources. *)
Definition sourceOf (u : umka) (p : string) : option (text * bool) :=
  option_map (fun s => (s_text s, s_trusted s)) (findSource (u_sources u) p).

Lemma findSource_app : forall a b p, findSource (a ++ b) p = match findSource a p with Some s => Some s | None => findSource b p end.
Proof. induction a as [|s a IH]; cbn; intros; auto. destruct (String.eqb (s_path s) p); auto. Qed.
Lemma findSource_path : forall l p s, findSource l p = Some s -> s_path s = p.
Proof. induction l as [|x l IH]; cbn; intros p s H; [discriminate|]. destruct (String.eqb_spec (s_path x) p); [congruence|auto]. Qed.

Lemma step_sources : forall u o, (forall p t, o <> OAddModule p t) -> u_sources (fst (step u o)) = u_sources u.
Proof.
  assert (C : forall u path src tr t lib, u_sources (fst (compileModule u path src tr t lib)) = u_sources u).
  { intros. unfold compileModule. destruct (existsb _ _); [reflexivity|]. destruct t; [|reflexivity].
    destruct (resolve _ _ _ _ _ _) as [[? ?] ?]. reflexivity. }
  intros u [n f up|p t|cur rel file lib|path str file lib] N; cbn [step].
  - destruct (addClosure _ _ _ _). reflexivity.
  - destruct (N p t eq_refl).
  - destruct (u_failed u); [reflexivity|]. destruct (match cur with Some p => findSource (u_sources u) p | None => None end); apply C.
  - destruct (u_failed u); [reflexivity|]. destruct str; apply C.
Qed.
Lemma step_libs : forall u o, u_libs (fst (step u o)) = u_libs u.
Proof.
  assert (C : forall u path src tr t lib, u_libs (fst (compileModule u path src tr t lib)) = u_libs u).
  { intros. unfold compileModule. destruct (existsb _ _); [reflexivity|]. destruct t; [|reflexivity].
    destruct (resolve _ _ _ _ _ _) as [[? ?] ?]. reflexivity. }
  intros u [n f up|p t|cur rel file lib|path str file lib]; cbn [step].
  - destruct (addClosure _ _ _ _). reflexivity.
  - destruct (findSource _ _); reflexivity.
  - destruct (u_failed u); [reflexivity|]. destruct (match cur with Some p => findSource (u_sources u) p | None => None end); apply C.
  - destruct (u_failed u); [reflexivity|]. destruct str; apply C.
Qed.
Lemma run_libs : forall h u, u_libs (run u h) = u_libs u.
Proof. induction h; cbn; intros; auto. rewrite IHh. apply step_libs. Qed.

Lemma given_snoc : forall rt h o p r, given rt h p r -> (r = None -> forall t, o <> OAddModule p t) -> given rt (h ++ [o]) p r.
Proof.
  intros rt h o p r G N. destruct G.
  - econstructor; eauto.
  - subst h. eapply given_host; eauto. rewrite <- app_assoc. reflexivity.
  - apply given_none; auto. intros t I. apply in_app_iff in I. destruct I as [I|[I|[]]]; [eapply H0; eauto|].
    eapply N; eauto.
Qed.

Lemma given_init : forall rt p, given rt [] p
  (option_map (fun s => (s_text s, s_trusted s)) (findSource (map (fun '(n, p, t) => MkSrc p t (String.eqb n "std.um")) rt) p)).
Proof.
  intros rt p.
  assert (G : forall r2 r1, rt = (r1 ++ r2)%list -> (forall n' t', ~ In (n', p, t') r1) -> given rt [] p
    (option_map (fun s => (s_text s, s_trusted s)) (findSource (map (fun '(n, p, t) => MkSrc p t (String.eqb n "std.um")) r2) p))).
  { induction r2 as [|[[n q] t] r2 IH]; intros r1 E N; cbn.
    - rewrite app_nil_r in E. subst. apply given_none; auto.
    - destruct (String.eqb_spec q p) as [->|D].
      + cbn. eapply given_rt; eauto.
      + apply (IH (r1 ++ [(n, q, t)])).
        * rewrite <- app_assoc. assumption.
        * intros n' t' I. apply in_app_iff in I. destruct I as [I|[I|[]]]; [eapply N; eauto|congruence]. }
  apply (G rt []); auto.
Qed.

Lemma source_ok : forall fs libs rt h p, given rt h p (sourceOf (run (init fs libs rt) h) p).
Proof.
  intros fs libs rt h p. induction h as [|o h IH] using rev_ind.
  - apply given_init.
  - rewrite run_snoc. set (u := run (init fs libs rt) h) in *.
    assert (D : (exists q t, o = OAddModule q t) \/ (forall q t, o <> OAddModule q t)).
    { destruct o; [right|left|right|right]; try discriminate. eauto. }
    destruct D as [(q & t & ->)|D].
    + cbn [step]. unfold sourceOf in *. destruct (findSource (u_sources u) q) eqn:E; cbn [fst u_sources].
      * apply given_snoc; [assumption|]. intros Q t' R. injection R as -> _. rewrite E in Q. discriminate.
      * rewrite findSource_app. destruct (findSource (u_sources u) p) eqn:E'; [apply given_snoc; [assumption|discriminate]|].
        cbn. cbn in IH. destruct (String.eqb_spec q p) as [->|N].
        -- inversion IH. cbn. eapply given_host; eauto.
        -- apply given_snoc; [assumption|]. intros _ t' R. congruence.
    + unfold sourceOf. rewrite step_sources by assumption. apply given_snoc; [assumption|]. intros _ t. apply D.
Qed.

(** Compiling a module. *)
Lemma compile_ok : forall fs libs rt h path src tr names lib, short h ->
  let u := run (init fs libs rt) h in
  u_failed u = false -> ~ In path (u_loaded u) ->
  exists bs e, resolves fs h path src tr (fun n => if libs then option_map FLib (lib n) else None) (usedNames (u_stubs u)) names bs e /\
    snd (compileModule u path src tr (Some names) lib) = RModule e /\
    u_stubs (fst (compileModule u path src tr (Some names) lib)) = (u_stubs u ++ bs)%list.
Proof.
  intros fs libs rt h path src tr names lib S u NF NL. destruct (inv_run fs libs rt h S) as (K & M & _). fold u in K, M.
  unfold compileModule.
  destruct (existsb (String.eqb path) (u_loaded u)) eqn:X.
  { apply existsb_exists in X. destruct X as (q & I & Q). apply String.eqb_eq in Q. subst. contradiction. }
  destruct (resolve path src tr _ names (u_externals u)) as [[l bs] e] eqn:R. exists bs, e.
  destruct (resolve_ok fs h _ _ _ _ _ _ _ _ _ _ K (M NF) R) as (P1 & _).
  replace (u_libs u) with libs in P1 by (unfold u; rewrite run_libs; reflexivity). auto.
Qed.
