From Coq Require Import ZArith Lia Bool List ZifyBool.
From Verif Require Import Base TypeModel TypeSpec TypeProofs.
Import ListNotations.

Section P.
Variable g : list tnode.
Hypothesis WF : wf_types g.
Notation N := (length g).
(** The loop over the fields. *)
Fixpoint anyL (rec : ty -> outcome bool) (stop : bool) (l : list (Z * ty)) : outcome bool :=
  match l with [] => Ok (negb stop) | (_, f) :: l => let* b := rec f in if eqb b stop then Ok stop else anyL rec stop l end.
Lemma anyField_list rec stop t k : forall i, (i + k = length (field t))%nat -> anyField rec stop k i t = anyL rec stop (skipn i (field t)).
Proof.
  induction k as [|k IH]; intros i H.
  - rewrite skipn_all2 by lia. reflexivity.
  - cbn [anyField]. destruct (nth_error (field t) i) as [[x f]|] eqn:E; [|apply nth_error_None in E; lia]. rewrite (skipn_nth _ _ _ E). cbn [anyL]. rewrite IH by lia. reflexivity.
Qed.
Lemma anyL_total rec stop l : (forall f, In f l -> exists x, rec (snd f) = Ok x) -> exists x, anyL rec stop l = Ok x.
Proof.
  induction l as [|[n f] l IH]; intro H; [eexists; reflexivity|]. cbn [anyL]. destruct (H (n, f) (or_introl eq_refl)) as [x E]. cbn [snd] in E. rewrite E. cbn [bind]. destruct (eqb x stop); [eexists; reflexivity|]. apply IH. intros a Ha. apply H. right. exact Ha.
Qed.
Lemma anyL_all rec l : anyL rec false l = Ok true <-> Forall (fun f => rec (snd f) = Ok true) l.
Proof.
  induction l as [|[n f] l IH]; cbn [anyL]; [split; [constructor|reflexivity]|]. destruct (rec f) as [[|]| |] eqn:E; cbn [bind eqb].
  - rewrite IH. split; [intro H; constructor; assumption|intro H; inversion H; assumption].
  - split; [discriminate|intro H; inversion H; subst; cbn [snd] in *; congruence].
  - split; [discriminate|intro H; inversion H; subst; cbn [snd] in *; congruence].
  - split; [discriminate|intro H; inversion H; subst; cbn [snd] in *; congruence].
Qed.
Lemma anyL_ex rec l : (forall f, In f l -> exists x, rec (snd f) = Ok x) -> anyL rec true l = Ok true <-> exists f, In f l /\ rec (snd f) = Ok true.
Proof.
  induction l as [|[n f] l IH]; intro H; cbn [anyL]; [split; [discriminate|intros (f & [] & _)]|]. destruct (H (n, f) (or_introl eq_refl)) as [x E]. cbn [snd] in E. rewrite E. cbn [bind]. destruct x; cbn [eqb].
  - split; [intros _; exists (n, f); split; [left; reflexivity|exact E]|reflexivity].
  - rewrite IH by (intros a Ha; apply H; right; exact Ha). split; [intros (a & Ha & E2); exists a; split; [right; exact Ha|exact E2]|]. intros (a & [<-|Ha] & E2); [cbn [snd] in E2; congruence|eauto].
Qed.
(** * Comparable types *)
Lemma visited1_in t v : visited1 t v = true <-> In t v.
Proof. induction v as [|a v IH]; cbn [visited1 In]; [split; [discriminate|tauto]|]. destruct (a =? t)%nat eqn:E; [split; [intros _; left; lia|reflexivity]|]. rewrite IH. split; [auto|]. intros [H|H]; [lia|exact H]. Qed.
Definition kids (n : tnode) : list ty := match kind n with KArray | KDynArray => [base n] | KStruct => map snd (field n) | _ => [] end.
Definition stepC (rec : ty -> outcome bool) (t : tnode) : outcome bool :=
    if typeOrdinal t || typeReal t || keq (kind t) KPtr || keq (kind t) KWeakPtr || keq (kind t) KStr then Ok true else
    match kind t with
    | KArray | KDynArray => rec (base t)
    | KStruct => anyField rec false (numItems t) 0 t
    | _ => Ok false
    end.
Lemma cmp_unfold fuel t v : typeComparableRecursive g (S fuel) t v = if visited1 t v then Ok true else let* n := getT g t in stepC (fun a => typeComparableRecursive g fuel a (t :: v)) n.
Proof. reflexivity. Qed.
Lemma kids_lt n : wf_node g n -> forall k, In k (kids n) -> (k < N)%nat.
Proof.
  intros W k HK. unfold wf_node, kids in *. destruct (kind n); cbn [In] in HK; try tauto; try (destruct HK as [<-|[]]; apply W). destruct W as [_ W]. rewrite Forall_forall in W. apply in_map_iff in HK as (f & <- & HF). apply W. exact HF.
Qed.
Lemma stepC_total rec n : wf_node g n -> (forall k, In k (kids n) -> exists x, rec k = Ok x) -> exists x, stepC rec n = Ok x.
Proof.
  intros W H. unfold stepC. destruct (_ || _); [eexists; reflexivity|]. unfold wf_node, kids in *. destruct (kind n) eqn:K; try (eexists; reflexivity); try (apply H; left; reflexivity). rewrite anyField_list by lia. apply anyL_total. intros f HF. apply H. apply in_map. exact HF.
Qed.
Lemma stepC_true rec n : wf_node g n -> stepC rec n = Ok true <-> comparable_kind (kind n) /\ Forall (fun k => rec k = Ok true) (kids n).
Proof.
  intro W. unfold stepC, typeOrdinal, typeReal, wf_node, kids, comparable_kind in *. destruct (kind n) eqn:K; cbn [typeKindIntegerOrEnum orb keq];
    try (split; [intros _; split; [cbn; intuition discriminate|constructor]|reflexivity]);
    try (split; [discriminate|intros [H _]; exfalso; apply H; cbn; tauto]);
    try (split; [intro H; split; [cbn; intuition discriminate|constructor; [exact H|constructor]]|intros [_ H]; inversion H; assumption]).
  destruct W as [W _]. replace (keq KStruct KPtr) with false by reflexivity. replace (keq KStruct KWeakPtr) with false by reflexivity. replace (keq KStruct KStr) with false by reflexivity. cbn [orb]. rewrite anyField_list by lia. cbn [skipn]. rewrite anyL_all. split.
  - intro H. split; [cbn; intuition discriminate|]. apply Forall_map. exact H.
  - intros [_ H]. apply Forall_map in H. exact H.
Qed.
Lemma cmp_total fuel : forall t v, (t < N)%nat -> NoDup v -> incl v (seq 0 N) -> (N < fuel + length v)%nat -> exists x, typeComparableRecursive g fuel t v = Ok x.
Proof.
  induction fuel as [|fuel IH]; intros t v HT ND IN HF.
  - exfalso. pose proof (NoDup_incl_length ND IN) as L. rewrite seq_length in L. lia.
  - rewrite cmp_unfold. destruct (visited1 t v) eqn:EV; [eexists; reflexivity|]. destruct (at_ex g t HT) as [n A]. rewrite (getT_at _ _ _ A). cbn [bind]. apply stepC_total; [eapply WF; exact A|]. intros k HK. apply IH; [eapply kids_lt; [eapply WF; exact A|exact HK]| | |cbn [length]; lia]; [constructor; [intro HI; apply visited1_in in HI; congruence|exact ND]|]. intros z [<-|HZ]; [apply in_seq; lia|apply IN; exact HZ].
Qed.
Definition FC (S : ty -> Prop) (t : ty) : Prop := exists n, at_ g t n /\ comparable_kind (kind n) /\ Forall S (kids n).
Definition GoodC (v : list ty) (R : ty -> Prop) : Prop := forall t, R t -> In t v \/ FC (fun x => R x \/ In x v) t.
Definition UC (v : list ty) (t : ty) : Prop := exists R, GoodC v R /\ R t.
Lemma FC_mono (S T : ty -> Prop) t : (forall x, S x -> T x) -> FC S t -> FC T t.
Proof. intros H (n & A & B & C). exists n. split; [exact A|split; [exact B|]]. eapply Forall_impl; [|exact C]. exact H. Qed.
Lemma UC_good v : GoodC v (UC v).
Proof. intros t (R & G & H). destruct (G t H) as [E|E]; [auto|]. right. eapply FC_mono; [|exact E]. intros x [K|K]; [left; exists R; auto|right; exact K]. Qed.
Lemma cmp_sound fuel : forall t v, (t < N)%nat -> typeComparableRecursive g fuel t v = Ok true -> UC v t.
Proof.
  induction fuel as [|fuel IH]; intros t v HT H; [discriminate|]. rewrite cmp_unfold in H. destruct (visited1 t v) eqn:EV.
  { apply visited1_in in EV. exists (fun a => a = t). split; [|reflexivity]. intros a ->. auto. }
  destruct (at_ex g t HT) as [n A]. rewrite (getT_at _ _ _ A) in H. cbn [bind] in H. pose proof (WF _ _ A) as W. apply stepC_true in H as [CK FF]; [|exact W]. set (v' := t :: v) in *. exists (fun a => UC v' a \/ a = t). split; [|auto].
  assert (FL : FC (fun x => (UC v' x \/ x = t) \/ In x v) t). { exists n. split; [exact A|split; [exact CK|]]. rewrite Forall_forall in *. intros k HK. left. left. apply IH; [eapply kids_lt; eassumption|apply FF; exact HK]. }
  intros a [HU|HA]; [|subst a; auto]. destruct (UC_good v' a HU) as [[E|E]|E]; [subst a; auto|auto|]. right. eapply FC_mono; [|exact E]. intros x [K|[K|K]]; auto.
Qed.
Lemma inside_kid t n k u : at_ g t n -> In k (kids n) -> inside g k u -> inside g t u.
Proof.
  intros A HK HI. unfold kids in HK. destruct (kind n) eqn:K; cbn [In] in HK; try tauto; try (destruct HK as [<-|[]]; eapply in_item; eauto). apply in_map_iff in HK as (f & <- & HF). eapply in_field; eauto.
Qed.
Lemma cmp_complete fuel : forall t v, (t < N)%nat -> (forall u n, inside g t u -> at_ g u n -> comparable_kind (kind n)) -> NoDup v -> incl v (seq 0 N) -> (N < fuel + length v)%nat -> typeComparableRecursive g fuel t v = Ok true.
Proof.
  induction fuel as [|fuel IH]; intros t v HT HC ND IN HF.
  - exfalso. pose proof (NoDup_incl_length ND IN) as L. rewrite seq_length in L. lia.
  - rewrite cmp_unfold. destruct (visited1 t v) eqn:EV; [reflexivity|]. destruct (at_ex g t HT) as [n A]. rewrite (getT_at _ _ _ A). cbn [bind]. pose proof (WF _ _ A) as W. apply stepC_true; [exact W|]. split; [eapply HC; [constructor|exact A]|]. apply Forall_forall. intros k HK. apply IH; [eapply kids_lt; eassumption| | | |cbn [length]; lia]; [|constructor; [intro HI; apply visited1_in in HI; congruence|exact ND]|].
    + intros u m HI. apply HC. eapply inside_kid; eassumption.
    + intros z [<-|HZ]; [apply in_seq; lia|apply IN; exact HZ].
Qed.
Theorem comparable_thm fuel t : (t < N)%nat -> (N < fuel)%nat -> exists b, typeComparable g fuel t = Ok b /\ (b = true <-> forall u n, inside g t u -> at_ g u n -> comparable_kind (kind n)).
Proof.
  intros HT HF. unfold typeComparable. destruct (cmp_total fuel t [] HT) as [x E]; [constructor|intros ? []|cbn; lia|]. exists x. split; [exact E|]. split.
  - intros ->. apply cmp_sound in E; [|exact HT]. assert (CL : forall t, UC [] t -> FC (UC []) t) by (intros a Ha; destruct (UC_good [] a Ha) as [[]|K]; eapply FC_mono; [|exact K]; intros y [K2|[]]; exact K2).
    intros u n HI A. assert (HU : UC [] u). { induction HI as [t|t m u A' K' HI IH|t m f u A' K' HF' HI IH].
      - exact E.
      - destruct (CL _ E) as (m' & A2 & _ & FF). pose proof (at_fun _ _ _ _ A' A2). subst m'. assert (KD : In (base m) (kids m)) by (unfold kids; destruct K' as [-> | ->]; left; reflexivity). rewrite Forall_forall in FF. apply IH; [eapply kids_lt; [eapply WF; exact A'|exact KD]|apply FF; exact KD|exact A].
      - destruct (CL _ E) as (m' & A2 & _ & FF). pose proof (at_fun _ _ _ _ A' A2). subst m'. assert (KD : In (snd f) (kids m)) by (unfold kids; rewrite K'; apply in_map; exact HF'). rewrite Forall_forall in FF. apply IH; [eapply kids_lt; [eapply WF; exact A'|exact KD]|apply FF; exact KD|exact A]. }
    destruct (CL _ HU) as (n' & A2 & CK & _). pose proof (at_fun _ _ _ _ A A2). subst n'. exact CK.
  - intro HC. assert (E2 : typeComparableRecursive g fuel t [] = Ok true) by (apply cmp_complete; [exact HT|exact HC|constructor|intros ? []|cbn; lia]). assert (E3 : Ok x = Ok true) by (rewrite <- E; exact E2). congruence.
Qed.
(** * Types with pointers *)
Theorem hasptr_thm rank weak : finite_size g rank -> forall fuel t, (t < N)%nat -> (rank t < fuel)%nat ->
  exists b, typeHasPtr g fuel t weak = Ok b /\ (b = true <-> exists u n, within g t u /\ at_ g u n /\ pointer_kind weak (kind n)).
Proof.
  intro FS. induction fuel as [|fuel IH]; intros t HT HR; [lia|]. cbn [typeHasPtr]. destruct (at_ex g t HT) as [n A]. rewrite (getT_at _ _ _ A). cbn [bind]. pose proof (WF _ _ A) as W. destruct (FS _ _ A) as [FA FB].
  assert (SELF : forall b, (b = true <-> pointer_kind weak (kind n)) -> (kind n = KArray -> numItems n = 0%nat) -> kind n <> KStruct -> (b = true <-> exists u m, within g t u /\ at_ g u m /\ pointer_kind weak (kind m))).
  { intros b HB HA HS. rewrite HB. split; [intro H; exists t, n; split; [constructor|auto]|]. intros (u & m & HW & A2 & HP). destruct HW as [t|t m' u A' K' N' HW|t m' f u A' K' HF HW]; pose proof (at_fun _ _ _ _ A ltac:(eassumption)); subst; [exact HP|specialize (HA K'); lia|congruence]. }
  assert (YES : pointer_kind weak (kind n) -> (true = true <-> exists u m, within g t u /\ at_ g u m /\ pointer_kind weak (kind m))) by (intro H; split; [intros _; exists t, n; split; [constructor|auto]|reflexivity]).
  assert (KA : kind n = KArray -> ~ pointer_kind weak (kind n)) by (intros -> [H|[_ H]]; [cbn in H; intuition discriminate|discriminate]). assert (KS : kind n = KStruct -> ~ pointer_kind weak (kind n)) by (intros -> [H|[_ H]]; [cbn in H; intuition discriminate|discriminate]).
  destruct (kind n) eqn:K; try (exists true; split; [reflexivity|apply YES; left; cbn; tauto]);
    try (exists false; split; [reflexivity|apply SELF; [split; [discriminate|intros [H|[_ H]]; [cbn in H; intuition discriminate|discriminate]]|discriminate|discriminate]]).
  - destruct weak; [exists true; split; [reflexivity|apply YES; right; auto]|]. exists false. split; [reflexivity|]. apply SELF; [split; [discriminate|intros [H|[H _]]; [cbn in H; intuition discriminate|discriminate]]|discriminate|discriminate].
  - replace (keq KArray KWeakPtr) with false by reflexivity. cbn [andb]. destruct (0 <? numItems n)%nat eqn:EN.
    + assert (HB : (base n < N)%nat) by (unfold wf_node in W; rewrite K in W; apply W). destruct (IH (base n) HB) as (b & E & HB2); [specialize (FA eq_refl ltac:(lia)); lia|]. exists b. split; [exact E|]. rewrite HB2. split.
      * intros (u & m & HW & A2 & HP). exists u, m. split; [eapply wi_item; [exact A|exact K|lia|exact HW]|auto].
      * intros (u & m & HW & A2 & HP). destruct HW as [t|t m' u A' K' N' HW|t m' f u A' K' HF HW]; pose proof (at_fun _ _ _ _ A ltac:(eassumption)); subst; [exfalso; rewrite K in HP; exact (KA eq_refl HP)|eauto|congruence].
    + exists false. split; [reflexivity|]. apply SELF; [split; [discriminate|intro H; exfalso; exact (KA eq_refl H)]|lia|discriminate].
  - replace (keq KStruct KWeakPtr) with false by reflexivity. cbn [andb]. unfold wf_node in W. rewrite K in W. destruct W as [WL WFD]. rewrite anyField_list by lia. cbn [skipn]. rewrite Forall_forall in WFD.
    assert (REC : forall f, In f (field n) -> exists x, typeHasPtr g fuel (snd f) weak = Ok x /\ (x = true <-> exists u m, within g (snd f) u /\ at_ g u m /\ pointer_kind weak (kind m))) by (intros f HF; apply IH; [apply WFD; exact HF|specialize (FB eq_refl f HF); lia]).
    assert (TOT : forall f, In f (field n) -> exists x, typeHasPtr g fuel (snd f) weak = Ok x) by (intros f HF; destruct (REC f HF) as (x & E & _); eauto). destruct (anyL_total (fun f => typeHasPtr g fuel f weak) true (field n) TOT) as [b E]. exists b. split; [exact E|]. pose proof (anyL_ex (fun f => typeHasPtr g fuel f weak) (field n) TOT) as AE. rewrite E in AE. split.
    + intros ->. destruct (proj1 AE eq_refl) as (f & HF & EF). destruct (REC f HF) as (x & E2 & HX). assert (x = true) by congruence. subst x. destruct (proj1 HX eq_refl) as (u & m & HW & A2 & HP). exists u, m. split; [eapply wi_field; eassumption|auto].
    + intros (u & m & HW & A2 & HP). destruct HW as [t|t m' u A' K' N' HW|t m' f u A' K' HF HW]; pose proof (at_fun _ _ _ _ A ltac:(eassumption)); subst; [exfalso; rewrite K in HP; exact (KS eq_refl HP)|congruence|]. assert (EB : Ok b = Ok true). { apply AE. exists f. split; [exact HF|]. destruct (REC f HF) as (x & E2 & HX). rewrite E2. f_equal. apply HX. eauto. } congruence.
Qed.
End P.
