(** Signatures and calls. *)
From Coq Require Import ZArith Lia Bool List.
From Verif Require Import Base ArgModel ArgSpec.
Import ListNotations.
Local Open Scope Z_scope.

Section Proofs.
Variables T A D : Type.
Variable canDefault : T -> bool.
Variable fits : T -> A -> bool.
Variables fitsList fitsItem : T -> A -> bool.
Notation group := (group T D).
Notation param := (param T D).
Notation sparam := (sparam T D).
Notation push := (push A D).
Notation gnames := (gnames T D).
Notation gty := (gty T D).
Notation gvar := (gvar T D).
Notation gdef := (gdef T D).
Notation pname := (pname T D).
Notation Formal := (Formal T D).
Notation Hidden := (Hidden T D).
Notation formals := (formals T D).
Notation isVar := (isVar T D).
Notation hasDef := (hasDef T D).
Notation valid := (valid T D canDefault).
Notation parseGroups := (parseGroups T D canDefault).
Notation addNames := (addNames T D).
Notation addParam := (addParam T D).

Definition ofGroup (g : group) : list param := map (fun n => Par T D n (gty g) (gvar g) (gdef g)) (gnames g).
Lemma formals_snoc l g : formals (l ++ [g]) = formals l ++ ofGroup g.
Proof. unfold ArgSpec.formals. rewrite flat_map_app. cbn. now rewrite app_nil_r. Qed.
Lemma ofGroup_names g : map pname (ofGroup g) = gnames g.
Proof. unfold ofGroup. rewrite map_map. cbn. apply map_id. Qed.
Lemma ofGroup_len g : length (ofGroup g) = length (gnames g).
Proof. apply map_length. Qed.
Lemma ofGroup_in g p : In p (ofGroup g) -> isVar p = gvar g /\ hasDef p = match gdef g with Some _ => true | None => false end.
Proof. unfold ofGroup. rewrite in_map_iff. intros (n & <- & _). auto. Qed.

(** * Signatures *)
Definition names (fs : list param) : list nat := map pname fs.
Lemma same_name fs n : existsb (sameName T D n) (Hidden :: map Formal fs) = existsb (Nat.eqb n) (names fs).
Proof. cbn. unfold names. induction fs as [|f fs IH]; cbn; [reflexivity|]. now rewrite IH, Nat.eqb_sym. Qed.
Lemma exists_in n l : existsb (Nat.eqb n) l = true <-> In n l.
Proof. rewrite existsb_exists. split; [intros (x & I & E); apply Nat.eqb_eq in E; now subst|]. intros I. exists n. now rewrite Nat.eqb_refl. Qed.

Lemma addNames_spec g : forall ns fs, NoDup (names fs) -> (length fs + 1 <= 16)%nat ->
  let r := map (fun n => Par T D n (gty g) (gvar g) (gdef g)) ns in
  (NoDup (names (fs ++ r)) /\ (length (fs ++ r) + 1 <= 16)%nat /\ addNames (Hidden :: map Formal fs) g ns = Ok (Hidden :: map Formal (fs ++ r)))
  \/ (~ (NoDup (names (fs ++ r)) /\ (length (fs ++ r) + 1 <= 16)%nat) /\ addNames (Hidden :: map Formal fs) g ns = Err EOther).
Proof.
  induction ns as [|n ns IH]; intros fs Nd Ln; cbn zeta; cbn [map ArgModel.addNames].
  { left. rewrite app_nil_r. auto. }
  set (p := Par T D n (gty g) (gvar g) (gdef g)). unfold ArgModel.addParam. cbn [ArgModel.pname]. replace (ArgModel.pname T D p) with n by reflexivity. rewrite same_name.
  destruct (existsb (Nat.eqb n) (names fs)) eqn:E.
  - right. split; [|reflexivity]. intros [H _]. apply exists_in in E. unfold names in *. rewrite map_app in H. cbn in H. apply NoDup_remove_2 in H. apply H, in_or_app. now left.
  - assert (Ne : ~ In n (names fs)) by (rewrite <- exists_in, E; discriminate).
    assert (Nd' : NoDup (names (fs ++ [p]))).
    { unfold names. rewrite map_app. cbn. apply NoDup_rev in Nd. rewrite <- (rev_involutive (map pname fs ++ [n])), rev_app_distr. apply NoDup_rev. cbn. constructor; [|exact Nd]. now rewrite <- in_rev. }
    replace (Z.of_nat (length (Hidden :: map Formal fs))) with (Z.of_nat (length fs) + 1) by (cbn [length]; rewrite map_length; lia). unfold MAX_PARAMS.
    destruct (Z.leb_spec 16 (Z.of_nat (length fs) + 1)).
    + right. split; [|reflexivity]. rewrite app_length. cbn [length]. lia.
    + cbn [bind]. specialize (IH (fs ++ [p]) Nd'). rewrite app_length in IH. cbn [length] in IH. specialize (IH ltac:(lia)). cbn zeta in IH.
      rewrite <- app_assoc in IH. replace ((Hidden :: map Formal fs) ++ [Formal p]) with (Hidden :: map Formal (fs ++ [p])) by (rewrite map_app; reflexivity). exact IH.
Qed.

Definition count (fs : list param) : Z := Z.of_nat (length (filter hasDef fs)).
Definition step (st : outcome (list sparam * Z * bool)) (g : group) : outcome (list sparam * Z * bool) :=
  let* (x, found) := st in let (ps, ndef) := x in
  if found then Err EOther
  else if gvar g && negb (Nat.eqb (length (gnames g)) 1) then Err EOther
  else
    let* ndef' := match gdef g with
                  | Some _ => if negb (Nat.eqb (length (gnames g)) 1) then Err EOther else if gvar g then Err EOther
                              else if negb (canDefault (gty g)) then Err EOther else Ok (ndef + 1)
                  | None => if negb (ndef =? 0) then Err EOther else Ok ndef
                  end in
    let* ps := addNames ps g (gnames g) in Ok (ps, ndef', gvar g).
Lemma fold_err l e : fold_left step l (Err e) = Err e.
Proof. induction l; auto. Qed.
Lemma fold_UB l : fold_left step l UB = UB.
Proof. induction l; auto. Qed.
Lemma groups_fold l : forall ps nd f, parseGroups ps nd f l = let* (x, _) := fold_left step l (Ok (ps, nd, f)) in Ok x.
Proof.
  induction l as [|g l IH]; intros ps nd f; cbn [ArgModel.parseGroups fold_left]; [reflexivity|]. unfold step at 2. cbn [bind].
  destruct f; [now rewrite fold_err|]. destruct (gvar g && _); [now rewrite fold_err|].
  destruct (match gdef g with Some _ => _ | None => _ end) as [nd'|e|]; cbn [bind]; [|now rewrite fold_err|now rewrite fold_UB].
  destruct (addNames ps g (gnames g)) as [ps'|e|]; cbn [bind]; [|now rewrite fold_err|now rewrite fold_UB]. apply IH.
Qed.

Definition pairs (fs : list param) : Prop :=
  forall i j p q, (i < j)%nat -> nth_error fs i = Some p -> nth_error fs j = Some q -> isVar p = false /\ (hasDef p = true -> hasDef q = true).
Definition gok (g : group) : Prop :=
  (gdef g <> None -> length (gnames g) = 1%nat /\ gvar g = false /\ canDefault (gty g) = true) /\ (gvar g = true -> length (gnames g) = 1%nat).
Definition V (l : list group) : Prop := NoDup (names (formals l)) /\ (length (formals l) + 1 <= 16)%nat /\ pairs (formals l) /\ Forall gok l.

Lemma NoDup_app_l {X} (a b : list X) : NoDup (a ++ b) -> NoDup a.
Proof. induction a; cbn; intros H; [constructor|]. inversion H; subst. constructor; auto. intros I. apply H2, in_or_app. auto. Qed.
Lemma pairs_app a b : pairs (a ++ b) <-> pairs a /\ pairs b /\ forall p q, In p a -> In q b -> isVar p = false /\ (hasDef p = true -> hasDef q = true).
Proof.
  unfold pairs. split.
  - intros H. split; [|split].
    + intros i j p q L P Q. apply (H i j); auto; rewrite nth_error_app1; auto; apply nth_error_Some; congruence.
    + intros i j p q L P Q. apply (H (length a + i)%nat (length a + j)%nat); [lia| |]; rewrite nth_error_app2 by lia; now rewrite Nat.add_comm, Nat.add_sub.
    + intros p q P Q. apply In_nth_error in P as (i & P). apply In_nth_error in Q as (j & Q). pose proof (proj1 (nth_error_Some a i) ltac:(congruence)).
      apply (H i (length a + j)%nat); [lia| |]; [now rewrite nth_error_app1|]. rewrite nth_error_app2 by lia. now rewrite Nat.add_comm, Nat.add_sub.
  - intros (Ha & Hb & Hab) i j p q L P Q. destruct (Nat.lt_ge_cases i (length a)) as [Li|Li].
    + rewrite nth_error_app1 in P by exact Li. destruct (Nat.lt_ge_cases j (length a)) as [Lj|Lj].
      * rewrite nth_error_app1 in Q by exact Lj. eauto.
      * rewrite nth_error_app2 in Q by exact Lj. apply Hab; eapply nth_error_In; eauto.
    + rewrite nth_error_app2 in P, Q by lia. apply (Hb (i - length a)%nat (j - length a)%nat); auto; lia.
Qed.
Lemma pairs_same g : gok g -> pairs (ofGroup g).
Proof.
  intros [G1 G2] i j p q L P Q. pose proof (proj1 (nth_error_Some _ j) (ltac:(congruence) : nth_error (ofGroup g) j <> None)) as Lj. rewrite ofGroup_len in Lj.
  apply nth_error_In, ofGroup_in in P as [P1 P2]. apply nth_error_In, ofGroup_in in Q as [Q1 Q2]. rewrite P1, P2, Q2. split; [|auto].
  destruct (gvar g); [|reflexivity]. specialize (G2 eq_refl). lia.
Qed.
Lemma count_app a b : count (a ++ b) = count a + count b.
Proof. unfold count. rewrite filter_app, app_length. lia. Qed.
Lemma count_zero fs : count fs = 0 <-> forall p, In p fs -> hasDef p = false.
Proof.
  unfold count. split.
  - intros H p I. destruct (hasDef p) eqn:E; [|reflexivity]. assert (J : In p (filter hasDef fs)) by (apply filter_In; auto). destruct (filter hasDef fs); [destruct J|cbn in H; lia].
  - intros H. induction fs as [|f fs IH]; [reflexivity|]. cbn. rewrite (H f (or_introl eq_refl)). apply IH. intros p I. apply H. now right.
Qed.

Lemma fold_spec l : Forall (fun g => gnames g <> []) l ->
  match fold_left step l (Ok ([Hidden], 0, false)) with
  | Ok (ps, nd, f) => V l /\ ps = Hidden :: map Formal (formals l) /\ nd = count (formals l) /\ f = existsb isVar (formals l)
  | Err _ => ~ V l
  | UB => False
  end.
Proof.
  induction l as [|g l IH] using rev_ind; intros Ng.
  { cbn [fold_left]. split; [|auto]. split; [constructor|]. split; [cbn; lia|]. split; [|constructor]. intros i j p q _ P. destruct i; discriminate P. }
  apply Forall_app in Ng as [Nl Ng]. apply Forall_inv in Ng. specialize (IH Nl). rewrite fold_left_app. cbn [fold_left].
  assert (MONO : V (l ++ [g]) -> V l /\ gok g).
  { unfold V. rewrite formals_snoc. intros (A1 & A2 & A3 & A4). unfold names in *. rewrite map_app in A1. rewrite app_length in A2. apply pairs_app in A3. apply Forall_app in A4 as [A4 A5]. apply Forall_inv in A5.
    split; [|exact A5]. split; [exact (NoDup_app_l _ _ A1)|]. split; [lia|]. tauto. }
  destruct (fold_left step l (Ok ([Hidden], 0, false))) as [[[ps nd] f]|e|]; [|intros H; apply IH, MONO, H|exact IH].
  destruct IH as (Vl & -> & -> & ->). unfold step. cbn [bind].
  assert (IN : exists p, In p (ofGroup g)) by (unfold ofGroup; destruct (gnames g) as [|n ns]; [congruence|eexists; left; reflexivity]).
  assert (CROSS : V (l ++ [g]) -> forall p q, In p (formals l) -> In q (ofGroup g) -> isVar p = false /\ (hasDef p = true -> hasDef q = true)).
  { unfold V. rewrite formals_snoc, pairs_app. tauto. }
  destruct (existsb isVar (formals l)) eqn:F.
  { intros H. apply existsb_exists in F as (p & Ip & Vp). destruct IN as (q & Iq). destruct (CROSS H _ _ Ip Iq). congruence. }
  destruct (gvar g && negb (length (gnames g) =? 1)%nat) eqn:G1.
  { intros H. destruct (MONO H) as [_ [_ G]]. apply andb_prop in G1 as [G1 G1']. specialize (G G1). rewrite G in G1'. discriminate. }
  assert (G2 : gvar g = true -> length (gnames g) = 1%nat).
  { intros E. rewrite E in G1. cbn in G1. apply negb_false_iff, Nat.eqb_eq in G1. exact G1. }
  assert (STEP : forall nd', nd' = count (formals l ++ ofGroup g) -> gok g -> (forall p q, In p (formals l) -> In q (ofGroup g) -> hasDef p = true -> hasDef q = true) ->
    match (let* ps := addNames (Hidden :: map Formal (formals l)) g (gnames g) in Ok (ps, nd', gvar g)) with
    | Ok (ps, nd, f) => V (l ++ [g]) /\ ps = Hidden :: map Formal (formals (l ++ [g])) /\ nd = count (formals (l ++ [g])) /\ f = existsb isVar (formals (l ++ [g]))
    | Err _ => ~ V (l ++ [g])
    | UB => False
    end).
  { intros nd' -> Gk Hd. destruct Vl as (V1 & V2 & V3 & V4). destruct (addNames_spec g (gnames g) _ V1 V2) as [(B1 & B2 & ->)|(B & ->)]; cbn [bind]; fold (ofGroup g) in *.
    - unfold V. rewrite formals_snoc. split; [|split; [reflexivity|split; [reflexivity|]]].
      + split; [exact B1|]. split; [exact B2|]. split; [|apply Forall_app; split; [exact V4|constructor; [exact Gk|constructor]]].
        apply pairs_app. split; [exact V3|]. split; [now apply pairs_same|]. intros p q Ip Iq. split; [|exact (Hd _ _ Ip Iq)].
        destruct (isVar p) eqn:E; [|reflexivity]. rewrite <- F. symmetry. apply existsb_exists. eauto.
      + rewrite existsb_app, F. cbn [orb]. unfold ofGroup. clear -Ng. destruct (gnames g) as [|n ns]; [congruence|]. cbn. unfold ArgSpec.isVar. cbn.
        destruct (gvar g); [reflexivity|]. cbn [orb]. clear Ng. induction ns as [|m ns IHn]; [reflexivity|]. cbn. exact IHn.
    - intros (B1 & B2 & _). apply B. unfold V in *. rewrite formals_snoc in *. auto. }
  destruct (gdef g) as [d|] eqn:Gd.
  - destruct (length (gnames g) =? 1)%nat eqn:G3; cbn [negb bind]; [|intros H; destruct (MONO H) as [_ [G _]]; rewrite Gd in G; specialize (G ltac:(discriminate)); apply Nat.eqb_neq in G3; tauto].
    destruct (gvar g) eqn:G4; cbn [bind]; [intros H; destruct (MONO H) as [_ [G _]]; rewrite Gd in G; specialize (G ltac:(discriminate)); destruct G as (_ & G & _); congruence|].
    destruct (canDefault (gty g)) eqn:G5; cbn [negb bind]; [|intros H; destruct (MONO H) as [_ [G _]]; rewrite Gd in G; specialize (G ltac:(discriminate)); destruct G as (_ & _ & G); congruence].
    apply Nat.eqb_eq in G3. apply STEP.
    + rewrite count_app. f_equal. unfold count, ofGroup. destruct (gnames g) as [|n [|? ?]]; try discriminate G3. unfold ArgSpec.hasDef. cbn. now rewrite Gd.
    + split; [|congruence]. intros _. auto.
    + intros p q _ Iq _. apply ofGroup_in in Iq as [_ ->]. now rewrite Gd.
  - destruct (Z.eqb_spec (count (formals l)) 0) as [G3|G3]; cbn [negb bind].
    + apply STEP.
      * rewrite count_app. symmetry. enough (count (ofGroup g) = 0) by lia. apply count_zero. intros p I. apply ofGroup_in in I as [_ ->]. now rewrite Gd.
      * split; [rewrite Gd; congruence|exact G2].
      * intros p q Ip _ H. rewrite (proj1 (count_zero _) G3 p Ip) in H. discriminate.
    + intros H. apply G3, count_zero. intros p Ip. destruct IN as (q & Iq). destruct (CROSS H _ _ Ip Iq) as [_ C]. destruct (hasDef p); [|reflexivity].
      specialize (C eq_refl). apply ofGroup_in in Iq as [_ Hq]. rewrite Gd in Hq. congruence.
Qed.

Definition sigOf (l : list group) (res : bool) : sig T D := Sig T D (Hidden :: map Formal (formals l) ++ (if res then [Hidden] else [])) (count (formals l)) res.
Lemma valid_V l res : valid l res <-> V l /\ (length (formals l) + 1 + (if res then 1 else 0) <= 16)%nat.
Proof. unfold ArgSpec.valid, V, pairs, gok, names. destruct res; split; intuition lia. Qed.
Lemma signature_spec l res : Forall (fun g => gnames g <> []) l ->
  (valid l res /\ parseSignature T D canDefault l res = Ok (sigOf l res)) \/ (~ valid l res /\ parseSignature T D canDefault l res = Err EOther).
Proof.
  intros Ng. unfold parseSignature. assert (ArgModel.addParam T D [] Hidden = Ok [Hidden]) as -> by reflexivity. cbn [bind]. rewrite groups_fold. pose proof (fold_spec l Ng) as H.
  assert (EE : forall x, fold_left step l (Ok ([Hidden], 0, false)) = Err x -> x = EOther).
  { assert (ST : forall st g x, step st g = Err x -> x = EOther \/ st = Err x).
    { intros st g x. unfold step. destruct st as [[[ps nd] f]|e|]; cbn [bind]; try (intros [= <-]; auto; fail); try discriminate. destruct f; [intros [= <-]; auto|].
      destruct (gvar g && _); [intros [= <-]; auto|]. destruct (gdef g).
      - destruct (negb _); [intros [= <-]; auto|]. destruct (gvar g); [intros [= <-]; auto|]. destruct (negb _); [intros [= <-]; auto|]. cbn [bind].
        assert (AN : forall ns ps x, addNames ps g ns = Err x -> x = EOther).
        { clear. induction ns as [|n ns IH]; intros ps x; cbn [ArgModel.addNames]; [discriminate|]. unfold ArgModel.addParam. destruct (existsb _ _); [now intros [= <-]|]. destruct (MAX_PARAMS <=? _); [now intros [= <-]|]. cbn [bind]. apply IH. }
        destruct (addNames ps g (gnames g)) eqn:E; cbn [bind]; try discriminate. intros [= <-]. left. exact (AN _ _ _ E).
      - destruct (negb _); [intros [= <-]; auto|]. cbn [bind].
        assert (AN : forall ns ps x, addNames ps g ns = Err x -> x = EOther).
        { clear. induction ns as [|n ns IH]; intros ps x; cbn [ArgModel.addNames]; [discriminate|]. unfold ArgModel.addParam. destruct (existsb _ _); [now intros [= <-]|]. destruct (MAX_PARAMS <=? _); [now intros [= <-]|]. cbn [bind]. apply IH. }
        destruct (addNames ps g (gnames g)) eqn:E; cbn [bind]; try discriminate. intros [= <-]. left. exact (AN _ _ _ E). }
    intros x. assert (GEN : forall st, fold_left step l st = Err x -> x = EOther \/ st = Err x).
    { clear -ST. induction l as [|g l IH]; intros st; cbn [fold_left]; [auto|]. intros E. destruct (IH _ E) as [E2|E2]; [auto|]. exact (ST _ _ _ E2). }
    intros E. destruct (GEN _ E) as [E2|E2]; [exact E2|discriminate]. }
  destruct (fold_left step l (Ok ([Hidden], 0, false))) as [[[ps nd] f]|e|]; cbn [bind]; [|right|destruct H].
  - destruct H as (Vl & -> & -> & _). rewrite valid_V. destruct res.
    + unfold ArgModel.addParam. cbn [existsb]. replace (Z.of_nat (length (Hidden :: map Formal (formals l)))) with (Z.of_nat (length (formals l)) + 1) by (cbn [length]; rewrite map_length; lia). unfold MAX_PARAMS.
      destruct (Z.leb_spec 16 (Z.of_nat (length (formals l)) + 1)); cbn [bind]; [right|left].
      * split; [lia|reflexivity].
      * split; [split; [exact Vl|lia]|]. reflexivity.
    + left. cbn [bind]. split; [split; [exact Vl|]|unfold sigOf; rewrite app_nil_r; reflexivity]. destruct Vl as (_ & V2 & _). lia.
  - split; [rewrite valid_V; tauto|]. rewrite (EE _ eq_refl). reflexivity.
Qed.

(** * Calls *)
(** A valid list of formal parameters has plain ones first, then ones with defaults, or one variadic one. *)
Lemma noVar (Q : param -> Prop) l : Forall (fun p => isVar p = false /\ Q p) l -> existsb isVar l = false.
Proof. induction 1 as [|p l [P1 _] _ IH]; [reflexivity|]. cbn. now rewrite P1, IH. Qed.
Definition plain (p : param) : Prop := isVar p = false /\ hasDef p = false.
Lemma shape l res : valid l res -> exists a b, formals l = a ++ b /\ Forall plain a /\
  (Forall (fun p => isVar p = false /\ hasDef p = true) b \/ exists v, b = [v] /\ isVar v = true /\ hasDef v = false).
Proof.
  intros (_ & _ & P & G). assert (X : forall p, In p (formals l) -> isVar p = true -> hasDef p = false).
  { intros p I E. unfold ArgSpec.formals in I. apply in_flat_map in I as (g & Ig & I). fold (ofGroup g) in I. apply ofGroup_in in I as [I1 I2]. rewrite Forall_forall in G. destruct (G g Ig) as [G1 _].
    rewrite I2. destruct (gdef g); [|reflexivity]. destruct (G1 ltac:(discriminate)) as (_ & G2 & _). congruence. }
  change (pairs (formals l)) in P. revert P X. generalize (formals l) as fs. induction fs as [|f fs IH]; intros P X.
  { exists [], []. repeat split; auto. }
  change (f :: fs) with ([f] ++ fs) in P. apply pairs_app in P as (_ & P & C). specialize (IH P (fun p I => X p (or_intror I))). destruct IH as (a & b & E & Pa & Hb).
  destruct (isVar f) eqn:Vf.
  - assert (fs = []) as -> by (destruct fs as [|q fs]; [reflexivity|]; destruct (C f q (or_introl eq_refl) (or_introl eq_refl)); congruence).
    exists [], [f]. repeat split; auto. right. exists f. repeat split; auto. apply X; [now left|exact Vf].
  - destruct (hasDef f) eqn:Df.
    + exists [], (f :: fs). split; [reflexivity|]. split; [constructor|]. left. constructor; [auto|]. apply Forall_forall. intros q Iq. pose proof (proj2 (C f q (or_introl eq_refl) Iq) Df) as Dq. split; [|exact Dq].
      destruct (isVar q) eqn:Vq; [|reflexivity]. rewrite (X q (or_intror Iq) Vq) in Dq. discriminate.
    + exists (f :: a), b. rewrite E. split; [reflexivity|]. split; [constructor; [split; auto|exact Pa]|exact Hb].
Qed.

Section Call.
Variable fs : list param.
Variable res : bool.
Variables a b : list param.
Hypothesis FS : fs = a ++ b.
Hypothesis PA : Forall plain a.
Hypothesis PB : Forall (fun p => isVar p = false /\ hasDef p = true) b \/ exists v, b = [v] /\ isVar v = true /\ hasDef v = false.
Let s : sig T D := Sig T D (Hidden :: map Formal fs ++ (if res then [Hidden] else [])) (count fs) res.
Notation values := (values T A D fits fitsList fitsItem).
Notation explicit := (explicit T A D fits fitsList fitsItem).

Lemma s_num : numParams T D s = 1 + Z.of_nat (length fs) + post T D s.
Proof. unfold numParams, post, s. cbn [sparams sresult length]. rewrite app_length, map_length. destruct res; cbn [length]; lia. Qed.
Lemma s_nth n f : nth_error fs n = Some f -> nth_error (sparams T D s) (1 + n) = Some (Formal f).
Proof. intros H. unfold s. cbn [sparams Nat.add nth_error]. rewrite nth_error_app1; [now apply map_nth_error|]. rewrite map_length. apply nth_error_Some. congruence. Qed.
Lemma cnt_fs : count fs = match b with [v] => if isVar v then 0 else 1 | _ => Z.of_nat (length b) end /\ 0 <= count fs.
Proof.
  split; [|unfold count; lia]. rewrite FS, count_app. replace (count a) with 0; [|symmetry; apply count_zero; rewrite Forall_forall in PA; intros p I; apply (PA p I)].
  destruct PB as [H|(v & -> & Vv & Dv)].
  - assert (C : count b = Z.of_nat (length b)). { unfold count. f_equal. clear -H. induction H as [|p l [_ Dp] _ IH]; [reflexivity|]. cbn. rewrite Dp. cbn. now rewrite IH. }
    rewrite C. destruct b as [|v [|? ?]]; try reflexivity. inversion H as [|? ? [V1 _]]; subst. now rewrite V1.
  - unfold count. cbn. rewrite Dv, Vv. reflexivity.
Qed.

Lemma nth_skipn_in {X} (l : list X) n (p : X) : nth_error l n = Some p -> In p (skipn n l).
Proof. revert l. induction n as [|n IH]; intros [|y l] N; try discriminate; cbn in *; [injection N as ->; now left|auto]. Qed.

Definition rest (n : nat) (acts : list A) : outcome (list push) :=
  let* (r, l) := explicit s (1 + n) (Z.of_nat n) acts in
  let* opt := numOptional T D s in
  if 1 + snd r + post T D s <? numParams T D s - opt then Err EOther
  else let* d := missing T A D s (fst r) (Z.to_nat (numParams T D s - post T D s - Z.of_nat (fst r))) in Ok (l ++ d).

Definition given (p : param) : push := match pdef T D p with Some d => PDefault A D (Some d) | None => PDefault A D None end.
Lemma missing_def n : 0 < count fs -> forall k, (n + k = length fs)%nat -> missing T A D s (1 + n) k = Ok (map given (skipn n fs)).
Proof.
  intros C k. revert n. induction k as [|k IH]; intros n L; cbn [missing].
  - rewrite skipn_all2 by lia. reflexivity.
  - destruct (nth_error fs n) as [f|] eqn:N; [|apply nth_error_None in N; lia]. rewrite (s_nth _ _ N). replace (1 + n + 1)%nat with (1 + S n)%nat by lia. rewrite IH by lia. cbn [bind].
    change (sdefaults T D s) with (count fs). replace (0 <? count fs) with true by (symmetry; apply Z.ltb_lt; lia).
    assert (E : skipn n fs = f :: skipn (S n) fs). { clear -N. revert fs N. induction n as [|n IH]; intros [|x l] N; try discriminate; cbn in *; [now injection N as ->|auto]. }
    rewrite E. cbn [map]. unfold given. destruct (pdef T D f); reflexivity.
Qed.
Lemma values_def l : Forall (fun p => isVar p = false /\ hasDef p = true) l -> values l [] = Some (map given l).
Proof.
  induction 1 as [|p l [V1 D1] _ IH]; [reflexivity|]. cbn [ArgSpec.values map]. rewrite IH, V1. unfold ArgSpec.hasDef in D1. unfold given. destruct (pdef T D p); [reflexivity|discriminate].
Qed.
Lemma values_none l p : In p l -> plain p -> values l [] = None.
Proof.
  induction l as [|q l IH]; intros I P; [destruct I|]. cbn [ArgSpec.values]. destruct I as [->|I].
  - destruct P as [P1 P2]. unfold ArgSpec.hasDef in P2. destruct (values l []); [|reflexivity]. rewrite P1. destruct (pdef T D p); [discriminate|reflexivity].
  - now rewrite (IH I P).
Qed.
Lemma numOpt : exists o, numOptional T D s = Ok o /\ o = (if existsb isVar fs then (if res then 0 else 1) else count fs).
Proof.
  unfold numOptional. change (sdefaults T D s) with (count fs). destruct cnt_fs as [C C0]. 
  assert (EV : existsb isVar fs = existsb isVar b). { rewrite FS, existsb_app. now rewrite (noVar _ _ PA). }
  rewrite EV. destruct PB as [H|(v & Eb & Vv & Dv)].
  - assert (existsb isVar b = false) as -> by exact (noVar _ _ H).
    destruct (Z.ltb_spec 0 (count fs)); [eauto|]. assert (count fs = 0) as Z0 by lia. rewrite Z0.
    assert (b = []) as Eb. { destruct b as [|p l]; [reflexivity|]. rewrite Z0 in C. inversion H as [|? ? [V1 _]]; subst. destruct l; [rewrite V1 in C; discriminate|discriminate]. }
    rewrite s_num. assert (0 <= post T D s) by (unfold post; destruct (sresult T D s); lia). replace (0 <? 1 + Z.of_nat (length fs) + post T D s) with true by (symmetry; apply Z.ltb_lt; lia).
    replace (1 + Z.of_nat (length fs) + post T D s - 1) with (Z.of_nat (length fs) + post T D s) by lia. unfold post, s. cbn [sresult sparams]. destruct res.
    + replace (Z.to_nat (Z.of_nat (length fs) + 1)) with (S (length fs)) by lia. cbn [nth_error]. rewrite nth_error_app2 by (rewrite map_length; lia). rewrite map_length, Nat.sub_diag. cbn. eauto.
    + rewrite Z.add_0_r, Nat2Z.id, app_nil_r. destruct fs as [|f fs'] eqn:E2; [cbn; eauto|]. destruct (length (f :: fs')) as [|n] eqn:Ln; [discriminate|]. cbn [nth_error].
      destruct (nth_error (map Formal (f :: fs')) n) as [q|] eqn:N; [|apply nth_error_None in N; rewrite map_length in N; lia].
      rewrite nth_error_map in N. destruct (nth_error (f :: fs') n) as [p|] eqn:N2; [|discriminate]. injection N as <-.
      assert (I : In p a). { apply nth_error_In in N2. rewrite FS, Eb, app_nil_r in N2. exact N2. } rewrite Forall_forall in PA. destruct (PA p I) as [P1 _]. unfold ArgSpec.isVar in P1. rewrite P1. eauto.
  - rewrite Eb in *. cbn [existsb]. rewrite Vv in *. cbn [orb]. rewrite C. cbn [Z.ltb Z.compare]. rewrite s_num.
    assert (0 <= post T D s) by (unfold post; destruct (sresult T D s); lia). replace (0 <? 1 + Z.of_nat (length fs) + post T D s) with true by (symmetry; apply Z.ltb_lt; lia).
    replace (1 + Z.of_nat (length fs) + post T D s - 1) with (Z.of_nat (length fs) + post T D s) by lia. unfold post, s. cbn [sresult sparams]. destruct res.
    + replace (Z.to_nat (Z.of_nat (length fs) + 1)) with (S (length fs)) by lia. cbn [nth_error]. rewrite nth_error_app2 by (rewrite map_length; lia). rewrite map_length, Nat.sub_diag. cbn. eauto.
    + rewrite Z.add_0_r, Nat2Z.id, app_nil_r. rewrite FS, app_length. cbn [length]. replace (length a + 1)%nat with (S (length a)) by lia. cbn [nth_error]. rewrite nth_error_map, nth_error_app2, Nat.sub_diag by lia. cbn [nth_error option_map].
      unfold ArgSpec.isVar in Vv. rewrite Vv. eauto.
Qed.

Lemma rest_spec acts : forall n, (n <= length fs)%nat -> (res && emptyList T A D (skipn n fs) acts = true -> rest n acts = Err EOther) /\
  (res && emptyList T A D (skipn n fs) acts = false -> rest n acts = match values (skipn n fs) acts with Some l => Ok l | None => Err EOther end).
Proof.
  destruct numOpt as (o & NO & Eo).
  assert (Ho : 0 <= o). { rewrite Eo. destruct cnt_fs as [_ C0]. destruct (existsb isVar fs); [|exact C0]. clear. destruct res; lia. }
  assert (STEP : forall n f, nth_error fs n = Some f -> skipn n fs = f :: skipn (S n) fs).
  { intros n f. clear. revert fs. induction n as [|n IH]; intros [|x l] N; try discriminate; cbn in *; [now injection N as ->|auto]. }
  assert (VL : forall n f, nth_error fs n = Some f -> isVar f = true -> S n = length fs).
  { intros n f N Vf. rewrite FS in N |- *. destruct (Nat.lt_ge_cases n (length a)) as [Ln|Ln].
    - rewrite nth_error_app1 in N by exact Ln. apply nth_error_In in N. rewrite Forall_forall in PA. destruct (PA f N). congruence.
    - rewrite nth_error_app2 in N by exact Ln. destruct PB as [H|(v & -> & _)].
      + apply nth_error_In in N. rewrite Forall_forall in H. destruct (H f N). congruence.
      + rewrite app_length. cbn [length]. destruct (n - length a)%nat as [|k] eqn:E; [lia|]. cbn in N. destruct k; discriminate. }
  induction acts as [|x acts IH]; intros n Ln.
  - assert (R : rest n [] = if Z.of_nat n <? Z.of_nat (length fs) - o then Err EOther else let* d := missing T A D s (1 + n) (length fs - n) in Ok d).
    { unfold rest. cbn [ArgModel.explicit bind fst snd]. rewrite NO. cbn [bind]. rewrite s_num.
      replace (1 + Z.of_nat n + post T D s <? 1 + Z.of_nat (length fs) + post T D s - o) with (Z.of_nat n <? Z.of_nat (length fs) - o) by lia. destruct (_ <? _); [reflexivity|].
      replace (Z.to_nat _) with (length fs - n)%nat by lia. destruct (missing T A D s (1 + n) (length fs - n)); reflexivity. }
    rewrite R. clear R. unfold emptyList. cbn [length]. destruct cnt_fs as [C C0].
    assert (EV : existsb isVar a = false) by exact (noVar _ _ PA).
    destruct PB as [H|(v & Eb & Vv & Dv)].
    + assert (Eb : existsb isVar b = false) by exact (noVar _ _ H).
      assert (Ef : existsb isVar fs = false) by (rewrite FS, existsb_app, EV, Eb; reflexivity).
      assert (Es : existsb isVar (skipn n fs) = false). { clear -Ef. revert n. induction fs as [|f l IH]; intros [|n]; auto. cbn in Ef. apply orb_false_iff in Ef as [_ Ef]. exact (IH Ef n). }
      rewrite Es, andb_false_r. split; [discriminate|]. intros _. rewrite Ef in Eo.
      assert (Co : o = Z.of_nat (length b)). { rewrite Eo, C. destruct b as [|v [|? ?]]; auto. inversion H as [|? ? [V1 _]]; subst. now rewrite V1. }
      assert (Lf : length fs = (length a + length b)%nat) by (rewrite FS; apply app_length).
      destruct (Z.ltb_spec (Z.of_nat n) (Z.of_nat (length fs) - o)).
      * destruct (nth_error a n) as [p|] eqn:N; [|apply nth_error_None in N; lia]. rewrite (values_none _ p); [reflexivity| |].
        -- rewrite FS. rewrite skipn_app. apply in_or_app. left. exact (nth_skipn_in _ _ _ N).
        -- rewrite Forall_forall in PA. apply PA. exact (nth_error_In _ _ N).
      * assert (Sk : Forall (fun p => isVar p = false /\ hasDef p = true) (skipn n fs)).
        { rewrite FS, skipn_app, (skipn_all2 a) by lia. cbn [app]. clear -H. revert H. generalize (n - length a)%nat. induction b as [|y l IH]; intros [|k] H; auto. cbn. inversion H; subst. auto. }
        rewrite (values_def _ Sk). destruct (Nat.eq_dec n (length fs)) as [->|Dn].
        -- rewrite Nat.sub_diag, skipn_all. reflexivity.
        -- rewrite missing_def; [reflexivity|lia|lia].
    + assert (Lf : length fs = (length a + 1)%nat) by (rewrite FS, Eb; apply app_length).
      assert (Ef : existsb isVar fs = true) by (rewrite FS, existsb_app, Eb; cbn; rewrite Vv; cbn; apply orb_true_r). rewrite Ef in Eo.
      assert (Cz : count fs = 0). { rewrite C, Eb. now rewrite Vv. }
      destruct (Nat.lt_ge_cases n (length a)) as [La|La].
      * assert (N1 : (Z.of_nat n <? Z.of_nat (length fs) - o) = true) by (apply Z.ltb_lt; destruct res; lia). rewrite N1. split; [reflexivity|]. intros _.
        destruct (nth_error a n) as [p|] eqn:N; [|apply nth_error_None in N; lia]. rewrite (values_none _ p); [reflexivity| |].
        -- rewrite FS. rewrite skipn_app. apply in_or_app. left. exact (nth_skipn_in _ _ _ N).
        -- rewrite Forall_forall in PA. apply PA. exact (nth_error_In _ _ N).
      * destruct (Nat.eq_dec n (length fs)) as [->|Dn].
        -- rewrite skipn_all. cbn. rewrite andb_false_r. split; [discriminate|]. intros _. replace (_ <? _) with false by (symmetry; apply Z.ltb_ge; destruct res; lia). rewrite Nat.sub_diag. reflexivity.
        -- assert (n = length a) as -> by lia. assert (Sk : skipn (length a) fs = [v]) by (rewrite FS, skipn_app, skipn_all, Nat.sub_diag, Eb; reflexivity).
           rewrite Sk. cbn [existsb length]. rewrite Vv. cbn [orb andb Nat.ltb Nat.leb]. rewrite andb_true_r. split.
           ++ intros Er. rewrite Er in Eo. replace (_ <? _) with true by (symmetry; apply Z.ltb_lt; lia). reflexivity.
           ++ intros Er. rewrite Er in Eo. replace (_ <? _) with false by (symmetry; apply Z.ltb_ge; lia). replace (length fs - length a)%nat with 1%nat by lia. cbn [missing].
              rewrite (s_nth (length a) v) by (rewrite FS, nth_error_app2, Nat.sub_diag, Eb by lia; reflexivity). cbn [bind]. change (sdefaults T D s) with (count fs). rewrite Cz. cbn [Z.ltb Z.compare ArgSpec.values]. now rewrite Vv.
  - destruct (Nat.eq_dec n (length fs)) as [->|Dn].
    { rewrite skipn_all. assert (E : rest (length fs) (x :: acts) = Err EOther).
      { unfold rest. cbn [ArgModel.explicit]. rewrite s_num. replace (_ <? _) with true by (symmetry; apply Z.ltb_lt; lia). reflexivity. }
      rewrite E. cbn. split; auto. }
    destruct (nth_error fs n) as [f|] eqn:N; [|apply nth_error_None in N; lia]. rewrite (STEP _ _ N).
    assert (R : rest n (x :: acts) =
      if isVar f then
        if fitsList (pty T D f) x then match rest (S n) acts with Ok l => Ok (PPass A D x :: l) | Err e => Err e | UB => UB end
        else if forallb (fitsItem (pty T D f)) (x :: acts) then Ok [PList A D (x :: acts)] else Err EOther
      else if fits (pty T D f) x then match rest (S n) acts with Ok l => Ok (PExpr A D x :: l) | Err e => Err e | UB => UB end else Err EOther).
    { unfold rest at 1. cbn [ArgModel.explicit]. rewrite s_num. replace (_ <? _) with false by (symmetry; apply Z.ltb_ge; lia). rewrite (s_nth _ _ N). unfold ArgSpec.isVar. destruct (pvar T D f) eqn:Vf.
      - destruct (fitsList (pty T D f) x).
        + unfold rest. rewrite ?s_num. replace (1 + n + 1)%nat with (1 + S n)%nat by lia. replace (Z.of_nat n + 1) with (Z.of_nat (S n)) by lia.
          destruct (explicit s (1 + S n) (Z.of_nat (S n)) acts) as [[r l]|e|]; cbn [bind]; [|reflexivity..]. destruct (numOptional T D s) as [o'|e|]; cbn [bind]; [|reflexivity..].
          destruct (_ <? _); [reflexivity|]. destruct (missing T A D s (fst r) _); reflexivity.
        + destruct (forallb _ _); [|reflexivity]. cbn [bind fst snd]. rewrite NO. cbn [bind]. pose proof (VL n f N Vf) as Lf.
          replace (_ <? _) with false by (symmetry; apply Z.ltb_ge; lia).
          replace (Z.to_nat _) with O by lia. cbn [missing bind]. reflexivity.
      - destruct (fits (pty T D f) x); [|reflexivity]. unfold rest. rewrite ?s_num. replace (1 + n + 1)%nat with (1 + S n)%nat by lia. replace (Z.of_nat n + 1) with (Z.of_nat (S n)) by lia.
        destruct (explicit s (1 + S n) (Z.of_nat (S n)) acts) as [[r l]|e|]; cbn [bind]; [|reflexivity..]. destruct (numOptional T D s) as [o'|e|]; cbn [bind]; [|reflexivity..].
        destruct (_ <? _); [reflexivity|]. destruct (missing T A D s (fst r) _); reflexivity. }
    rewrite R. clear R. destruct (IH (S n) ltac:(lia)) as [IH1 IH2]. cbn [ArgSpec.values]. destruct (isVar f) eqn:Vf.
    + pose proof (VL n f N Vf) as Lf. assert (Sk : skipn (S n) fs = []) by (apply skipn_all2; lia). rewrite Sk in *. assert (E1 : emptyList T A D [] acts = false) by reflexivity. assert (E2 : emptyList T A D [f] (x :: acts) = false) by (unfold emptyList; apply andb_false_r). rewrite E1, andb_false_r in IH2. rewrite E2, andb_false_r. specialize (IH2 eq_refl).
      split; [discriminate|]. intros _. destruct (fitsList (pty T D f) x).
      * rewrite IH2. destruct acts; reflexivity.
      * destruct (forallb _ _); reflexivity.
    + assert (Em : emptyList T A D (f :: skipn (S n) fs) (x :: acts) = emptyList T A D (skipn (S n) fs) acts). { unfold emptyList. cbn [existsb length]. rewrite Vf. reflexivity. }
      rewrite Em. destruct (fits (pty T D f) x); [|auto]. split; intros H.
      * now rewrite (IH1 H).
      * rewrite (IH2 H). destruct (values (skipn (S n) fs) acts); reflexivity.
Qed.
End Call.

Lemma call_spec l res acts : valid l res ->
  parseCall T A D fits fitsList fitsItem (sigOf l res) acts =
  if res && emptyList T A D (formals l) acts then Err EOther
  else match values T A D fits fitsList fitsItem (formals l) acts with
       | Some ps => Ok (PHidden A D :: ps ++ (if res then [PResult A D] else []))
       | None => Err EOther
       end.
Proof.
  intros Vl. destruct (shape l res Vl) as (a & b & E & Pa & Pb). destruct (rest_spec (formals l) res a b E Pa Pb acts O ltac:(lia)) as [R1 R2]. cbn [skipn] in R1, R2.
  assert (P : parseCall T A D fits fitsList fitsItem (sigOf l res) acts = match rest (formals l) res O acts with Ok x => Ok (PHidden A D :: x ++ (if res then [PResult A D] else [])) | Err e => Err e | UB => UB end).
  { unfold parseCall, rest, sigOf. cbn [Nat.add Z.of_nat]. destruct (explicit T A D fits fitsList fitsItem _ 1 0 acts) as [[r x]|e|]; cbn [bind]; [|reflexivity..].
    destruct (numOptional T D _) as [o|e|]; cbn [bind]; [|reflexivity..]. destruct (_ <? _); [reflexivity|]. destruct (missing T A D _ (fst r) _) as [d|e|]; cbn [bind]; [|reflexivity..]. cbn [sresult]. now rewrite <- app_assoc. }
  rewrite P. destruct (res && emptyList T A D (formals l) acts).
  - now rewrite (R1 eq_refl).
  - rewrite (R2 eq_refl). destruct (values T A D fits fitsList fitsItem (formals l) acts); reflexivity.
Qed.
End Proofs.
