From Coq Require Import ZArith Lia Bool List ZifyBool.
From Verif Require Import Base TypeModel TypeSpec.
Import ListNotations.

Section P.
Variable g : list tnode.
Variable deq : ty -> Z -> Z -> bool.
Hypothesis WF : wf_types g.
Notation N := (length g).
Definition ok (a b : ty) : Prop := (a < N)%nat /\ (b < N)%nat /\ (imethod g a <-> imethod g b).

Lemma getT_at t n : at_ g t n -> getT g t = Ok n.
Proof. intro H. unfold getT. rewrite H. reflexivity. Qed.
Lemma at_ex t : (t < N)%nat -> exists n, at_ g t n.
Proof. intro H. unfold at_. destruct (nth_error g t) as [n|] eqn:E; [eauto|]. apply nth_error_None in E. lia. Qed.
Lemma at_fun t m n : at_ g t m -> at_ g t n -> m = n.
Proof. unfold at_. congruence. Qed.
Lemma key_fun n k k' : key_of g n k -> key_of g n k' -> k = k'.
Proof. intros (b & x & p & q & A & B & C & D) (b' & x' & p' & q' & A' & B' & C' & D'). pose proof (at_fun _ _ _ A A'). subst b'. assert (p = p') by congruence. subst p'. pose proof (at_fun _ _ _ C C'). subst. reflexivity. Qed.
Lemma typeMapKey_ok n k : key_of g n k -> typeMapKey g n = Ok k.
Proof. intros (b & x & p & q & A & B & C & D). unfold typeMapKey. rewrite (getT_at _ _ A). cbn [bind]. rewrite B, (getT_at _ _ C). cbn [bind]. congruence. Qed.
Lemma plain_ok a b : plain_type g a -> plain_type g b -> ok a b.
Proof. intros [A1 A2] [B1 B2]. repeat split; try assumption; intro; exfalso; auto. Qed.
Lemma skipn_nth {A} (l : list A) i x : nth_error l i = Some x -> skipn i l = x :: skipn (S i) l.
Proof. revert i. induction l as [|y l IH]; intros [|i] H; try discriminate; cbn in *; [congruence|]. apply IH. exact H. Qed.

(** The loops, over lists. *)
Fixpoint eqFL (rec : ty -> ty -> outcome bool) (p q : list (Z * ty)) : outcome bool :=
  match p, q with
  | (n1, t1) :: p, (n2, t2) :: q => if negb (n1 =? n2)%Z then Ok false else let* b := rec t1 t2 in if negb b then Ok false else eqFL rec p q
  | [], [] => Ok true
  | _, _ => UB
  end.
Lemma eqFields_list rec l r k : forall i, (i + k = length (field l))%nat -> length (field l) = length (field r) ->
  eqFields rec k i l r = eqFL rec (skipn i (field l)) (skipn i (field r)).
Proof.
  induction k as [|k IH]; intros i H E.
  - rewrite !skipn_all2 by lia. reflexivity.
  - cbn [eqFields]. destruct (nth_error (field l) i) as [[n1 t1]|] eqn:E1; [|apply nth_error_None in E1; lia]. destruct (nth_error (field r) i) as [[n2 t2]|] eqn:E2; [|apply nth_error_None in E2; lia].
    rewrite (skipn_nth _ _ _ E1), (skipn_nth _ _ _ E2). cbn [eqFL]. rewrite IH by lia. reflexivity.
Qed.
Definition okp rec (p q : ty) : Prop := rec p q = Ok true.
Lemma eqFL_true rec p : forall q, eqFL rec p q = Ok true <-> map fst p = map fst q /\ Forall2 (okp rec) (map snd p) (map snd q).
Proof.
  induction p as [|[n1 t1] p IH]; intros [|[n2 t2] q]; cbn [eqFL map fst snd].
  - split; [intros _; split; [reflexivity|constructor]|reflexivity].
  - split; [discriminate|intros [H _]; discriminate].
  - split; [discriminate|intros [H _]; discriminate].
  - destruct (n1 =? n2)%Z eqn:EN; cbn [negb].
    + destruct (rec t1 t2) as [[|]| |] eqn:ER; cbn [bind negb].
      * rewrite IH. split; intros [H1 H2]; [split; [f_equal; [lia|exact H1]|constructor; [exact ER|exact H2]]|]. split; [congruence|]. inversion H2; subst. assumption.
      * split; [discriminate|]. intros [_ H]. inversion H; subst. unfold okp in *. congruence.
      * split; [discriminate|]. intros [_ H]. inversion H; subst. unfold okp in *. congruence.
      * split; [discriminate|]. intros [_ H]. inversion H; subst. unfold okp in *. congruence.
    + split; [discriminate|]. intros [H _]. exfalso. assert (n1 = n2) by congruence. lia.
Qed.
Lemma eqFL_total rec p : forall q, length p = length q -> (forall i a b, nth_error p i = Some a -> nth_error q i = Some b -> exists x, rec (snd a) (snd b) = Ok x) -> exists x, eqFL rec p q = Ok x.
Proof.
  induction p as [|[n1 t1] p IH]; intros [|[n2 t2] q] HL H; try discriminate; [eexists; reflexivity|]. cbn [eqFL]. destruct (negb (n1 =? n2)%Z); [eexists; reflexivity|]. destruct (H 0%nat _ _ eq_refl eq_refl) as [x E]. cbn [snd] in E. rewrite E. cbn [bind]. destruct (negb x); [eexists; reflexivity|]. apply IH; [cbn in HL; lia|]. intros i a b H1 H2. apply (H (S i) a b H1 H2).
Qed.
Fixpoint eqPL (rec : ty -> ty -> outcome bool) (d : nat) (p q : list (ty * Z)) : outcome bool :=
  match p, q with
  | (t1, d1) :: p', (t2, d2) :: q => let* b := rec t1 t2 in if negb b then Ok false else if (length p <=? d)%nat && negb (deq t1 d1 d2) then Ok false else eqPL rec d p' q
  | [], [] => Ok true
  | _, _ => UB
  end.
Lemma eqParams_list rec l r k : forall i, (i + k = length (param l))%nat -> length (param l) = length (param r) -> (i = 0%nat -> isInterfaceMethod l = false) ->
  eqParams deq rec k i l r = eqPL rec (numDefaultParams l) (skipn i (param l)) (skipn i (param r)).
Proof.
  induction k as [|k IH]; intros i H E HI.
  - rewrite !skipn_all2 by lia. reflexivity.
  - cbn [eqParams]. replace ((i =? 0)%nat && isInterfaceMethod l) with false by (destruct i; [rewrite HI by reflexivity; reflexivity|reflexivity]). destruct (nth_error (param l) i) as [[t1 d1]|] eqn:E1; [|apply nth_error_None in E1; lia]. destruct (nth_error (param r) i) as [[t2 d2]|] eqn:E2; [|apply nth_error_None in E2; lia].
    assert (LS : length (skipn i (param l)) = S k) by (rewrite skipn_length; lia). rewrite (skipn_nth _ _ _ E1) in *. rewrite (skipn_nth _ _ _ E2). cbn [eqPL]. rewrite LS. rewrite IH by lia. replace (Z.of_nat (length (param l)) - Z.of_nat (numDefaultParams l) <=? Z.of_nat i)%Z with (S k <=? numDefaultParams l)%nat by lia. reflexivity.
Qed.
Lemma eqParams_im rec l r : isInterfaceMethod l = true -> (0 < length (param l))%nat -> length (param l) = length (param r) ->
  eqParams deq rec (length (param l)) 0 l r = eqPL rec (numDefaultParams l) (skipn 1 (param l)) (skipn 1 (param r)).
Proof.
  intros HI HL E. remember (length (param l)) as k eqn:EK. destruct k as [|k]; [lia|]. cbn [eqParams]. rewrite HI. cbn [Nat.eqb andb]. apply eqParams_list; lia.
Qed.
Definition okd (p q : ty * Z) : Prop := deq (fst p) (snd p) (snd q) = true.
Lemma eqPL_true rec d p : forall q, eqPL rec d p q = Ok true <-> Forall2 (okp rec) (map fst p) (map fst q) /\ Forall2 okd (skipn (length p - d) p) (skipn (length p - d) q).
Proof.
  induction p as [|[t1 d1] p IH]; intros [|[t2 d2] q].
  - cbn. split; [intros _; split; constructor|reflexivity].
  - cbn. split; [discriminate|intros [H _]; inversion H].
  - cbn [eqPL map fst]. split; [discriminate|intros [H _]; inversion H].
  - cbn [eqPL map fst]. destruct (rec t1 t2) as [[|]| |] eqn:ER; cbn [bind negb]; try (split; [discriminate|intros [H _]; inversion H; subst; unfold okp in *; congruence]).
    destruct (length ((t1, d1) :: p) <=? d)%nat eqn:ED.
    + replace (length ((t1, d1) :: p) - d)%nat with 0%nat by lia. cbn [skipn andb]. specialize (IH q). replace (length p - d)%nat with 0%nat in IH by (cbn [length] in ED; lia). cbn [skipn] in IH. destruct (deq t1 d1 d2) eqn:EQ; cbn [negb].
      * rewrite IH. split; intros [H1 H2]; [split; constructor; try assumption; exact EQ|]. inversion H1; inversion H2; subst. split; assumption.
      * split; [discriminate|]. intros [_ H2]. inversion H2; subst. unfold okd in *. cbn [fst snd] in *. congruence.
    + cbn [andb]. rewrite IH. cbn [length] in *. replace (S (length p) - d)%nat with (S (length p - d)) by lia. cbn [skipn]. split; intros [H1 H2]; (split; [|exact H2]); [constructor; assumption|inversion H1; assumption].
Qed.
Lemma eqPL_total rec d p : forall q, length p = length q -> (forall a b, In a p -> In b q -> exists x, rec (fst a) (fst b) = Ok x) -> exists x, eqPL rec d p q = Ok x.
Proof.
  induction p as [|[t1 d1] p IH]; intros [|[t2 d2] q] HL H; try discriminate; [eexists; reflexivity|]. cbn [eqPL]. destruct (H _ _ (or_introl eq_refl) (or_introl eq_refl)) as [x E]. cbn [fst] in E. rewrite E. cbn [bind]. destruct (negb x); [eexists; reflexivity|]. destruct (_ && _); [eexists; reflexivity|]. apply IH; [cbn in HL; lia|]. intros a b H1 H2. apply H; right; assumption.
Qed.

(** * One step *)
Definition stepB (rec : ty -> ty -> outcome bool) (l r : tnode) : outcome bool :=
      if keq (kind l) (kind r) then
        match kind l with
        | KPtr | KWeakPtr => rec (base l) (base r)
        | KArray => if negb (numItems l =? numItems r)%nat then Ok false else rec (base l) (base r)
        | KDynArray => rec (base l) (base r)
        | KStr => Ok true
        | _ =>
          if typeEnum l || typeEnum r then Ok false else
          match kind l with
          | KMap =>
            let* k1 := typeMapKey g l in
            let* k2 := typeMapKey g r in
            let* b := rec k1 k2 in
            if negb b then Ok false else rec (base l) (base r)
          | KStruct | KInterface | KClosure =>
            if negb (numItems l =? numItems r)%nat then Ok false else eqFields rec (numItems l) 0 l r
          | KFn =>
            let s := tsig l in let u := tsig r in
            if negb (length (param s) =? length (param u))%nat then Ok false else
            if negb (numDefaultParams s =? numDefaultParams u)%nat then Ok false else
            if negb (eqb (isMethod s) (isMethod u)) then Ok false else
            let* b := eqParams deq rec (length (param s)) 0 s u in
            if negb b then Ok false else
            let* b := rec (resultType s) (resultType u) in
            if negb b then Ok false else Ok true
          | _ => Ok true
          end
        end
      else Ok false.
Lemma eqr_unfold fuel left right v : typeEquivalentRecursive g deq (S fuel) left right v =
    if visited2 left right v then Ok true else
    if (left =? right)%nat then Ok true else
    let* l := getT g left in
    let* r := getT g right in
    match typeIdent l, typeIdent r with
    | Some a, Some b => Ok ((a =? b)%Z && (block l =? block r)%Z)
    | _, _ => stepB (fun a b => typeEquivalentRecursive g deq fuel a b ((left, right) :: v)) l r
    end.
Proof. reflexivity. Qed.
Lemma keq_true a b : keq a b = true <-> a = b.
Proof. unfold keq. destruct (tkind_eq_dec a b); split; congruence. Qed.
Lemma keq_refl a : keq a a = true.
Proof. apply keq_true. reflexivity. Qed.
Definition im (n : tnode) : bool := isInterfaceMethod (tsig n).
(** Functions agree on being interface methods. *)
Definition agree (m n : tnode) : Prop := kind m = KFn -> kind n = KFn -> im m = im n.
Lemma ok_agree a b m n : ok a b -> at_ g a m -> at_ g b n -> agree m n.
Proof.
  intros (_ & _ & H) A B K1 K2. unfold im. destruct (isInterfaceMethod (tsig m)) eqn:E1, (isInterfaceMethod (tsig n)) eqn:E2; try reflexivity; exfalso.
  - assert (I : imethod g a) by (exists m; auto). apply H in I as (n' & B' & _ & I). pose proof (at_fun _ _ _ B B'). subst. congruence.
  - assert (I : imethod g b) by (exists n; auto). apply H in I as (n' & B' & _ & I). pose proof (at_fun _ _ _ A B'). subst. congruence.
Qed.
Lemma fields_ok m n : wf_node g m -> wf_node g n -> kind m = kind n -> (kind m = KStruct \/ kind m = KInterface \/ kind m = KClosure) ->
  length (field m) = numItems m /\ length (field n) = numItems n /\ forall i a b, nth_error (field m) i = Some a -> nth_error (field n) i = Some b -> ok (snd a) (snd b).
Proof.
  intros WM WN K HK. unfold wf_node in *. rewrite <- K in WN. destruct HK as [E|[E|E]]; rewrite E in *; destruct WM as [LM FM], WN as [LN FN]; (split; [exact LM|split; [exact LN|]]); intros i a b HA HB.
  - rewrite Forall_forall in *. apply plain_ok; [apply FM|apply FN]; eapply nth_error_In; eassumption.
  - destruct (FM _ _ HA) as [A1 A2]. destruct (FN _ _ HB) as [B1 B2]. split; [exact A1|split; [exact B1|]]. rewrite A2, B2. reflexivity.
  - rewrite Forall_forall in *. apply plain_ok; [apply FM|apply FN]; eapply nth_error_In; eassumption.
Qed.
Lemma im_params n : wf_node g n -> kind n = KFn -> im n = true -> (0 < length (param (tsig n)))%nat.
Proof. intros W K I. unfold wf_node in W. rewrite K in W. destruct W as (_ & _ & _ & W). specialize (W I). lia. Qed.
Lemma eqParams_skip rec m n : wf_node g m -> kind m = KFn -> length (param (tsig m)) = length (param (tsig n)) ->
  let s := if im m then 1%nat else 0%nat in
  eqParams deq rec (length (param (tsig m))) 0 (tsig m) (tsig n) = eqPL rec (numDefaultParams (tsig m)) (skipn s (param (tsig m))) (skipn s (param (tsig n))).
Proof.
  intros W K E s. unfold s. destruct (im m) eqn:EI; [apply eqParams_im; [exact EI|apply im_params; assumption|exact E]|]. apply eqParams_list; [lia|exact E|]. intros _. exact EI.
Qed.
Lemma skipn_tl {A} (l : list A) (b : bool) : (if b then tl l else l) = skipn (if b then 1%nat else 0%nat) l.
Proof. destruct b; [destruct l; reflexivity|reflexivity]. Qed.
Lemma stepB_total rec m n : wf_node g m -> wf_node g n -> agree m n -> (forall a b, ok a b -> exists x, rec a b = Ok x) -> exists x, stepB rec m n = Ok x.
Proof.
  intros WM WN AG H. unfold stepB. destruct (keq (kind m) (kind n)) eqn:EK; [|eexists; reflexivity]. apply keq_true in EK. pose proof (fields_ok m n WM WN EK) as FO. unfold wf_node in WM, WN. unfold agree in AG. rewrite <- EK in WN, AG.
  assert (BB : plain_type g (base m) -> plain_type g (base n) -> exists x, rec (base m) (base n) = Ok x) by (intros; apply H, plain_ok; assumption).
  destruct (kind m) eqn:KM; try (eexists; reflexivity); try (destruct (typeEnum m || typeEnum n); eexists; reflexivity); try (apply BB; assumption).
  - destruct (negb _); [eexists; reflexivity|]. apply BB; assumption.
  - destruct (typeEnum m || typeEnum n); [eexists; reflexivity|]. destruct WM as (B1 & k1 & K1 & P1), WN as (B2 & k2 & K2 & P2). rewrite (typeMapKey_ok _ _ K1), (typeMapKey_ok _ _ K2). cbn [bind]. destruct (H k1 k2 (plain_ok _ _ P1 P2)) as [x ->]. cbn [bind]. destruct (negb x); [eexists; reflexivity|]. apply BB; assumption.
  - destruct (typeEnum m || typeEnum n); [eexists; reflexivity|]. destruct (numItems m =? numItems n)%nat eqn:EN; [|eexists; reflexivity]. cbn [negb]. destruct FO as (L1 & L2 & FF); [auto|]. rewrite eqFields_list by lia. apply eqFL_total; [cbn [skipn]; lia|]. cbn [skipn]. intros i a b H1 H2. apply H. eapply FF; eassumption.
  - destruct (typeEnum m || typeEnum n); [eexists; reflexivity|]. destruct (numItems m =? numItems n)%nat eqn:EN; [|eexists; reflexivity]. cbn [negb]. destruct FO as (L1 & L2 & FF); [auto|]. rewrite eqFields_list by lia. apply eqFL_total; [cbn [skipn]; lia|]. cbn [skipn]. intros i a b H1 H2. apply H. eapply FF; eassumption.
  - destruct (typeEnum m || typeEnum n); [eexists; reflexivity|]. destruct (numItems m =? numItems n)%nat eqn:EN; [|eexists; reflexivity]. cbn [negb]. destruct FO as (L1 & L2 & FF); [auto|]. rewrite eqFields_list by lia. apply eqFL_total; [cbn [skipn]; lia|]. cbn [skipn]. intros i a b H1 H2. apply H. eapply FF; eassumption.
  - destruct (typeEnum m || typeEnum n); [eexists; reflexivity|]. cbv zeta. destruct (length (param (tsig m)) =? length (param (tsig n)))%nat eqn:EL; [|eexists; reflexivity]. cbn [negb]. destruct (numDefaultParams (tsig m) =? numDefaultParams (tsig n))%nat; [|eexists; reflexivity]. cbn [negb]. destruct (negb (eqb _ _)); [eexists; reflexivity|].
    assert (WM' : wf_node g m) by (unfold wf_node; rewrite KM; exact WM). rewrite eqParams_skip by (try assumption; lia). destruct WM as (F1 & R1 & _), WN as (F2 & R2 & _).
    destruct (eqPL_total rec (numDefaultParams (tsig m)) (skipn (if im m then 1%nat else 0%nat) (param (tsig m))) (skipn (if im m then 1%nat else 0%nat) (param (tsig n)))) as [x ->].
    + rewrite !skipn_length. lia.
    + rewrite Forall_forall in *. intros a b HA HB. apply H, plain_ok; [apply F1|apply F2].
      * rewrite <- (firstn_skipn (if im m then 1%nat else 0%nat)). apply in_or_app. right. exact HA.
      * rewrite <- (firstn_skipn (if im m then 1%nat else 0%nat)). apply in_or_app. right. exact HB.
    + cbn [bind]. destruct (negb x); [eexists; reflexivity|]. destruct (H _ _ (plain_ok _ _ R1 R2)) as [y ->]. cbn [bind]. destruct (negb y); eexists; reflexivity.
Qed.
Lemma defaults_skip (p : list (ty * Z)) d (b : bool) : (d <= length p)%nat -> (b = true -> (d < length p)%nat) -> skipn (length (skipn (if b then 1%nat else 0%nat) p) - d) (skipn (if b then 1%nat else 0%nat) p) = skipn (length p - d) (p : list (ty * Z)).
Proof.
  intros H1 H2. destruct b; [|reflexivity]. specialize (H2 eq_refl). destruct p as [|x p]; [reflexivity|]. cbn [skipn]. cbn [length] in *. replace (S (length p) - d)%nat with (S (length p - d)) by lia. reflexivity.
Qed.
Lemma defaults_skip' (p q : list (ty * Z)) d (b : bool) : length p = length q -> (d <= length p)%nat -> (b = true -> (d < length p)%nat) -> skipn (length (skipn (if b then 1%nat else 0%nat) p) - d) (skipn (if b then 1%nat else 0%nat) q) = skipn (length p - d) (q : list (ty * Z)).
Proof.
  intros E H1 H2. destruct b; [|reflexivity]. specialize (H2 eq_refl). destruct p as [|x p], q as [|y q]; try discriminate; [reflexivity|]. cbn [skipn]. cbn [length] in *. replace (S (length p) - d)%nat with (S (length p - d)) by lia. reflexivity.
Qed.
Lemma Forall2_length {A} (R : A -> A -> Prop) p q : Forall2 R p q -> length p = length q.
Proof. induction 1; cbn; congruence. Qed.
Lemma F2_1 {A} (R : A -> A -> Prop) a b : Forall2 R [a] [b] <-> R a b.
Proof. split; [intro H; inversion H; assumption|intro H; constructor; [exact H|constructor]]. Qed.
Lemma F2_2 {A} (R : A -> A -> Prop) a b c d : Forall2 R [a; b] [c; d] <-> R a c /\ R b d.
Proof. split; [intro H; inversion H; subst; rewrite F2_1 in *; auto|intros [H1 H2]; constructor; [exact H1|apply F2_1; exact H2]]. Qed.
Lemma F2_snoc {A} (R : A -> A -> Prop) p q a b : length p = length q -> Forall2 R (p ++ [a]) (q ++ [b]) <-> Forall2 R p q /\ R a b.
Proof.
  intro E. split.
  - intro H. apply Forall2_app_inv_l in H as (q1 & q2 & H1 & H2 & EQ). inversion H2 as [|? y ? q3 HA HB]; subst. inversion HB; subst. apply app_inj_tail in EQ as [-> ->]. auto.
  - intros [H1 H2]. apply Forall2_app; [exact H1|apply F2_1; exact H2].
Qed.
Lemma F2_snoc_inv {A} (R : A -> A -> Prop) p q a b : Forall2 R (p ++ [a]) (q ++ [b]) -> Forall2 R p q /\ R a b.
Proof. intro H. apply F2_snoc; [|exact H]. apply Forall2_length in H. rewrite !app_length in H. cbn in H. lia. Qed.
Definition comps (n : tnode) (p : list ty) : Prop := made_of g n p.
Lemma made_fun n p q : made_of g n p -> made_of g n q -> p = q.
Proof.
  intros H1 H2. destruct H1 as [n K|n k K KO|n K|n K|n K]; inversion H2 as [m K'|m k' K' KO'|m K'|m K'|m K']; subst; try reflexivity;
    try (exfalso; intuition congruence); try (exfalso; apply K'; cbn; intuition congruence); try (exfalso; apply K; cbn; intuition congruence).
  rewrite (key_fun _ _ _ KO KO'). reflexivity.
Qed.
(** One step compares the shapes and the components. *)
Lemma stepB_true rec m n : wf_node g m -> wf_node g n -> agree m n ->
  stepB rec m n = Ok true <-> same_shape deq m n /\ exists p q, made_of g m p /\ made_of g n q /\ Forall2 (okp rec) p q.
Proof.
  intros WM WN AG. unfold stepB. unfold same_shape. destruct (keq (kind m) (kind n)) eqn:EK; [|split; [discriminate|intros [[H _] _]; apply keq_true in H; congruence]]. apply keq_true in EK. pose proof (fields_ok m n WM WN EK) as FO. pose proof WM as WM0. pose proof WN as WN0. unfold wf_node in WM, WN. unfold agree in AG. rewrite <- EK in WN, AG.
  assert (BASE : (kind m = KPtr \/ kind m = KWeakPtr \/ kind m = KArray \/ kind m = KDynArray) -> (rec (base m) (base n) = Ok true <-> exists p q, made_of g m p /\ made_of g n q /\ Forall2 (okp rec) p q)).
  { intro HK. assert (HK' : kind n = KPtr \/ kind n = KWeakPtr \/ kind n = KArray \/ kind n = KDynArray) by (rewrite <- EK; exact HK). split.
    - intro H. exists [base m], [base n]. split; [apply mo_base; exact HK|]. split; [apply mo_base; exact HK'|]. apply F2_1. exact H.
    - intros (p & q & H1 & H2 & H3). pose proof (made_fun _ _ _ H1 (mo_base g m HK)). pose proof (made_fun _ _ _ H2 (mo_base g n HK')). subst. apply (proj1 (F2_1 _ _ _)) in H3. exact H3. }
  assert (PRIM : ~ In (kind m) [KPtr; KWeakPtr; KArray; KDynArray; KMap; KStruct; KInterface; KClosure; KFn] -> exists p q, made_of g m p /\ made_of g n q /\ Forall2 (okp rec) p q).
  { intro HK. exists [], []. split; [apply mo_prim; exact HK|]. split; [apply mo_prim; rewrite <- EK; exact HK|]. constructor. }
  assert (FLD : (kind m = KStruct \/ kind m = KInterface \/ kind m = KClosure) -> ((if negb (numItems m =? numItems n)%nat then Ok false else eqFields rec (numItems m) 0 m n) = Ok true <-> map fst (field m) = map fst (field n) /\ exists p q, made_of g m p /\ made_of g n q /\ Forall2 (okp rec) p q)).
  { intro HK. destruct (FO HK) as (L1 & L2 & _). assert (HK' : kind n = KStruct \/ kind n = KInterface \/ kind n = KClosure) by (rewrite <- EK; exact HK). assert (M1 := mo_fields g m HK). assert (M2 := mo_fields g n HK'). destruct (numItems m =? numItems n)%nat eqn:EN; cbn [negb].
    - rewrite eqFields_list by lia. cbn [skipn]. rewrite eqFL_true. split; intros [H1 H2]; (split; [exact H1|]); [eauto|]. destruct H2 as (p & q & P1 & P2 & P3). pose proof (made_fun _ _ _ P1 M1). pose proof (made_fun _ _ _ P2 M2). subst. exact P3.
    - split; [discriminate|]. intros [H1 _]. apply (f_equal (@length Z)) in H1. rewrite !map_length in H1. lia. }
  assert (ENUM : forall X Y, typeKindIntegerOrEnum (kind m) = false -> (if typeEnum m || typeEnum n then X else Y) = (Y : outcome bool)).
  { intros X Y HK. unfold typeEnum. rewrite <- EK, HK. reflexivity. }
  assert (INTS : ~ In (kind m) [KPtr; KWeakPtr; KArray; KDynArray; KMap; KStruct; KInterface; KClosure; KFn] -> typeKindIntegerOrEnum (kind m) = true -> ((if typeEnum m || typeEnum n then Ok false else Ok true) = Ok true <-> (kind m = kind n /\ isEnum m = false /\ isEnum n = false) /\ exists p q, made_of g m p /\ made_of g n q /\ Forall2 (okp rec) p q)).
  { intros HK HI. unfold typeEnum. rewrite <- EK, HI. cbn [andb]. destruct (isEnum m), (isEnum n); cbn [orb]; (split; [intro H; try discriminate; split; auto|intros [(_ & H1 & H2) _]; congruence]). }
  destruct (kind m) eqn:KM;
    try (split; [intros _; split; [split; [exact EK|exact I]|apply PRIM; cbn; intuition discriminate]|reflexivity]);
    try (rewrite ENUM by reflexivity; split; [intros _; split; [split; [exact EK|exact I]|apply PRIM; cbn; intuition discriminate]|reflexivity]);
    try (apply INTS; [cbn; intuition discriminate|reflexivity]);
    try (rewrite BASE by auto; split; [intro H; split; [split; [exact EK|exact I]|exact H]|intros [_ H]; exact H]);
    try (rewrite ENUM by reflexivity; rewrite FLD by auto; split; [intros [H1 H2]; split; [split; assumption|exact H2]|intros [[_ H1] H2]; split; assumption]).
  - destruct (numItems m =? numItems n)%nat eqn:EN; cbn [negb].
    + rewrite BASE by auto. split; [intro H; split; [split; [exact EK|lia]|exact H]|intros [_ H]; exact H].
    + split; [discriminate|]. intros [[_ H] _]. lia.
  - rewrite ENUM by reflexivity. destruct WM as (B1 & k1 & K1 & P1), WN as (B2 & k2 & K2 & P2). rewrite (typeMapKey_ok _ _ K1), (typeMapKey_ok _ _ K2). cbn [bind]. assert (M1 := mo_map g m k1 KM K1). assert (M2 := mo_map g n k2 (eq_sym EK) K2). split.
    + intro H. split; [split; [exact EK|exact I]|]. exists [k1; base m], [k2; base n]. split; [exact M1|]. split; [exact M2|]. apply F2_2. unfold okp. destruct (rec k1 k2) as [[|]| |]; try discriminate. split; [reflexivity|exact H].
    + intros [_ (p & q & Q1 & Q2 & Q3)]. pose proof (made_fun _ _ _ Q1 M1). pose proof (made_fun _ _ _ Q2 M2). subst. apply (proj1 (F2_2 _ _ _ _ _)) in Q3 as [Q3 Q4]. unfold okp in *. rewrite Q3. exact Q4.
  - rewrite ENUM by reflexivity. cbv zeta. specialize (AG eq_refl eq_refl). assert (M1 := mo_fn g m KM). assert (M2 := mo_fn g n (eq_sym EK)). fold (im m) in M1. fold (im n) in M2. rewrite <- AG in M2. rewrite skipn_tl in M1, M2. destruct WM as (_ & _ & D1 & D2), WN as (_ & _ & _ & _). fold (im m) in D2.
    destruct (length (param (tsig m)) =? length (param (tsig n)))%nat eqn:EL; cbn [negb]; [|split; [discriminate|intros [(_ & H & _) _]; lia]].
    destruct (numDefaultParams (tsig m) =? numDefaultParams (tsig n))%nat eqn:ED; cbn [negb]; [|split; [discriminate|intros [(_ & _ & H & _) _]; lia]].
    destruct (eqb (isMethod (tsig m)) (isMethod (tsig n))) eqn:EM; cbn [negb]; [|split; [discriminate|intros [(_ & _ & _ & H & _) _]; rewrite H, eqb_reflx in EM; discriminate]]. apply eqb_prop in EM.
    rewrite eqParams_skip by (try assumption; lia). set (s := if im m then 1%nat else 0%nat) in *.
    assert (DS : skipn (length (skipn s (param (tsig m))) - numDefaultParams (tsig m)) (skipn s (param (tsig m))) = defaults (tsig m)) by (apply defaults_skip; assumption).
    assert (DS' : skipn (length (skipn s (param (tsig m))) - numDefaultParams (tsig m)) (skipn s (param (tsig n))) = defaults (tsig n)). { unfold defaults. replace (length (param (tsig n)) - numDefaultParams (tsig n))%nat with (length (param (tsig m)) - numDefaultParams (tsig m))%nat by lia. apply defaults_skip'; [lia|assumption|assumption]. }
    pose proof (eqPL_true rec (numDefaultParams (tsig m)) (skipn s (param (tsig m))) (skipn s (param (tsig n)))) as PT. rewrite DS, DS' in PT. split.
    + intro H. destruct (eqPL rec (numDefaultParams (tsig m)) (skipn s (param (tsig m))) (skipn s (param (tsig n)))) as [[|]| |] eqn:EP; try discriminate. cbn [bind negb] in H. destruct (rec (resultType (tsig m)) (resultType (tsig n))) as [[|]| |] eqn:ER; try discriminate. destruct (proj1 PT eq_refl) as [PT1 PT2]. split; [split; [exact EK|split; [lia|split; [lia|split; [exact EM|exact PT2]]]]|]. eexists. eexists. split; [exact M1|]. split; [exact M2|]. apply F2_snoc; [rewrite !map_length, !skipn_length; lia|]. split; [exact PT1|exact ER].
    + intros [(_ & _ & _ & _ & HD) (p & q & Q1 & Q2 & Q3)]. pose proof (made_fun _ _ _ Q1 M1). pose proof (made_fun _ _ _ Q2 M2). subst p q. apply F2_snoc_inv in Q3 as [Q3 Q4].   assert (PT' : eqPL rec (numDefaultParams (tsig m)) (skipn s (param (tsig m))) (skipn s (param (tsig n))) = Ok true) by (apply PT; split; [exact Q3|exact HD]). rewrite PT'. cbn [bind negb]. unfold okp in Q4. rewrite Q4. reflexivity.
Qed.
(** The components of related types are related again. *)
Lemma made_ok m n p q : wf_node g m -> wf_node g n -> agree m n -> kind m = kind n -> made_of g m p -> made_of g n q -> length p = length q -> Forall2 ok p q.
Proof.
  intros WM WN AG K H1 H2 HL. pose proof (fields_ok m n WM WN K) as FO. unfold wf_node in WM, WN. unfold agree in AG. destruct H1 as [m KM|m k KM KO|m KM|m KM|m KM].
  - assert (KN := KM). rewrite K in KN. pose proof (made_fun _ _ _ H2 (mo_base g n KN)). subst q. apply F2_1. apply plain_ok; [destruct KM as [E|[E|[E|E]]]; rewrite E in WM; exact WM|destruct KN as [E|[E|[E|E]]]; rewrite E in WN; exact WN].
  - assert (KN := KM). rewrite K in KN. rewrite KM in WM. rewrite KN in WN. destruct WM as (B1 & k1 & K1 & P1), WN as (B2 & k2 & K2 & P2). pose proof (made_fun _ _ _ H2 (mo_map g n k2 KN K2)). subst q. pose proof (key_fun _ _ _ KO K1). subst k. apply F2_2. split; apply plain_ok; assumption.
  - destruct (FO KM) as (_ & _ & FF). assert (KN := KM). rewrite K in KN. pose proof (made_fun _ _ _ H2 (mo_fields g n KN)). subst q. rewrite !map_length in HL. clear - FF HL. revert FF HL. generalize (field n) as b. generalize (field m) as a. induction a as [|x a IH]; intros [|y b] FF HL; try discriminate; [constructor|]. cbn [map]. constructor; [apply (FF 0%nat); reflexivity|]. apply IH; [|cbn in HL; lia]. intros i u v HU HV. apply (FF (S i)); assumption.
  - assert (KN := KM). rewrite K in KN. pose proof (made_fun _ _ _ H2 (mo_fn g n KN)). subst q. rewrite KM in WM. rewrite KN in WN. destruct WM as (F1 & R1 & _), WN as (F2 & R2 & _). rewrite !skipn_tl in *. rewrite !app_length, !map_length in HL. cbn [length] in HL.
    assert (G : forall (l : list (ty * Z)) s, Forall (fun p => plain_type g (fst p)) l -> Forall (plain_type g) (map fst (skipn s l))). { intros l s F. rewrite Forall_forall in *. intros x Hx. apply in_map_iff in Hx as (y & <- & Hy). apply F. rewrite <- (firstn_skipn s l). apply in_or_app. right. exact Hy. }
    apply F2_snoc; [rewrite !map_length; lia|]. split; [|apply plain_ok; assumption]. apply (G _ (if isInterfaceMethod (tsig m) then 1%nat else 0%nat)) in F1. apply (G _ (if isInterfaceMethod (tsig n) then 1%nat else 0%nat)) in F2. assert (HL' : length (map fst (skipn (if isInterfaceMethod (tsig m) then 1%nat else 0%nat) (param (tsig m)))) = length (map fst (skipn (if isInterfaceMethod (tsig n) then 1%nat else 0%nat) (param (tsig n))))) by (rewrite !map_length; lia).
    revert F1 F2 HL'. generalize (map fst (skipn (if isInterfaceMethod (tsig m) then 1%nat else 0%nat) (param (tsig m)))) as a. generalize (map fst (skipn (if isInterfaceMethod (tsig n) then 1%nat else 0%nat) (param (tsig n)))) as b. clear. intros b a. revert b. induction a as [|x a IH]; intros [|y b] F1 F2 HL; try discriminate; constructor; inversion F1; inversion F2; subst; [apply plain_ok; assumption|apply IH; try assumption; cbn in HL; lia].
  - assert (KN : ~ In (kind n) [KPtr; KWeakPtr; KArray; KDynArray; KMap; KStruct; KInterface; KClosure; KFn]) by (rewrite <- K; exact KM). pose proof (made_fun _ _ _ H2 (mo_prim g n KN)). subst q. constructor.
Qed.
(** * The whole search *)
Lemma visited2_in l r v : visited2 l r v = true <-> In (l, r) v.
Proof.
  induction v as [|[a b] v IH]; cbn [visited2 In]; [split; [discriminate|tauto]|]. destruct ((a =? l) && (b =? r))%nat eqn:E; [split; [intros _; left; f_equal; lia|reflexivity]|]. rewrite IH. split; [auto|]. intros [H|H]; [|exact H]. exfalso. assert (a = l) by congruence. assert (b = r) by congruence. lia.
Qed.
Definition pairs : list (ty * ty) := list_prod (seq 0 N) (seq 0 N).
Lemma pairs_in a b : In (a, b) pairs <-> (a < N)%nat /\ (b < N)%nat.
Proof. unfold pairs. rewrite in_prod_iff, !in_seq. lia. Qed.
Lemma pairs_len : length pairs = (N * N)%nat.
Proof. unfold pairs. rewrite prod_length, !seq_length. reflexivity. Qed.
Lemma ok_nodes a b : ok a b -> exists m n, at_ g a m /\ at_ g b n /\ wf_node g m /\ wf_node g n /\ agree m n.
Proof.
  intro H. destruct (at_ex a) as [m A]; [apply H|]. destruct (at_ex b) as [n B]; [apply H|]. exists m, n. repeat split; try assumption; [eapply WF; exact A|eapply WF; exact B|eapply ok_agree; eassumption].
Qed.
Lemma eqr_total fuel : forall l r v, ok l r -> NoDup v -> incl v pairs -> (N * N < fuel + length v)%nat -> exists x, typeEquivalentRecursive g deq fuel l r v = Ok x.
Proof.
  induction fuel as [|fuel IH]; intros l r v HO ND IN HF.
  - exfalso. pose proof (NoDup_incl_length ND IN) as L. rewrite pairs_len in L. lia.
  - rewrite eqr_unfold. destruct (visited2 l r v) eqn:EV; [eexists; reflexivity|]. destruct (l =? r)%nat; [eexists; reflexivity|]. destruct (ok_nodes l r HO) as (m & n & A & B & WM & WN & AG). rewrite (getT_at _ _ A), (getT_at _ _ B). cbn [bind].
    assert (ST : exists x, stepB (fun a b => typeEquivalentRecursive g deq fuel a b ((l, r) :: v)) m n = Ok x). { apply stepB_total; try assumption. intros a b HAB. apply IH; [exact HAB| | |cbn [length]; lia]; [constructor; [intro HI; apply visited2_in in HI; congruence|exact ND]|]. intros z [<-|HZ]; [apply pairs_in; destruct HO as (? & ? & _); auto|apply IN; exact HZ]. }
    destruct (typeIdent m), (typeIdent n); try exact ST. eexists; reflexivity.
Qed.
(** Unfolding of the bisimulation. *)
Definition F (S : ty -> ty -> Prop) (a b : ty) : Prop := exists m n, at_ g a m /\ at_ g b n /\
    ((named m /\ named n /\ typeIdent m = typeIdent n /\ block m = block n) \/
     (~ (named m /\ named n) /\ same_shape deq m n /\ exists p q, made_of g m p /\ made_of g n q /\ Forall2 S p q)).
Lemma F2_imp {A} (P Q : A -> A -> Prop) l : forall m, (forall x y, P x y -> Q x y) -> Forall2 P l m -> Forall2 Q l m.
Proof. intros m H F2. induction F2; constructor; auto. Qed.
Lemma F_mono (S T : ty -> ty -> Prop) a b : (forall x y, S x y -> T x y) -> F S a b -> F T a b.
Proof. intros H (m & n & A & B & [C|(C & D & p & q & P & Q & R)]); exists m, n; (split; [exact A|split; [exact B|]]); [left; exact C|right]. split; [exact C|split; [exact D|]]. exists p, q. split; [exact P|split; [exact Q|]]. eapply F2_imp; eassumption. Qed.
Definition Good (v : list (ty * ty)) (R : ty -> ty -> Prop) : Prop := forall a b, R a b -> a = b \/ In (a, b) v \/ F (fun x y => R x y \/ In (x, y) v) a b.
Definition U (v : list (ty * ty)) (a b : ty) : Prop := exists R, Good v R /\ R a b.
Lemma U_good v : Good v (U v).
Proof. intros a b (R & G & H). destruct (G a b H) as [E|[E|E]]; [auto|auto|]. right. right. eapply F_mono; [|exact E]. intros x y [K|K]; [left; exists R; auto|right; exact K]. Qed.
Lemma eqr_sound fuel : forall l r v, ok l r -> typeEquivalentRecursive g deq fuel l r v = Ok true -> U v l r.
Proof.
  induction fuel as [|fuel IH]; intros l r v HO H; [discriminate|]. rewrite eqr_unfold in H. destruct (visited2 l r v) eqn:EV.
  { apply visited2_in in EV. exists (fun a b => a = l /\ b = r). split; [|auto]. intros a b [-> ->]. auto. }
  destruct (l =? r)%nat eqn:EQ. { exists (fun a b => a = l /\ b = r). split; [|auto]. intros a b [-> ->]. left. lia. }
  destruct (ok_nodes l r HO) as (m & n & A & B & WM & WN & AG). rewrite (getT_at _ _ A), (getT_at _ _ B) in H. cbn [bind] in H.
  assert (ST : ~ (named m /\ named n) -> stepB (fun a b => typeEquivalentRecursive g deq fuel a b ((l, r) :: v)) m n = Ok true -> U v l r).
  { intros NN HS. apply stepB_true in HS as [SH (p & q & MP & MQ & FF)]; try assumption. set (v' := (l, r) :: v) in *. exists (fun a b => U v' a b \/ (a = l /\ b = r)). split; [|auto].
    assert (FL : F (fun x y => (U v' x y \/ (x = l /\ y = r)) \/ In (x, y) v) l r). { exists m, n. split; [exact A|split; [exact B|right]]. split; [exact NN|split; [exact SH|]]. exists p, q. split; [exact MP|split; [exact MQ|]]. assert (OK2 : Forall2 ok p q) by exact (made_ok m n p q WM WN AG (proj1 SH) MP MQ (Forall2_length _ _ _ FF)). clear - FF OK2 IH. induction FF as [|x y p q HX FF IHF]; [constructor|]. inversion OK2; subst. constructor; [left; left; apply IH; assumption|apply IHF; assumption]. }
    intros a b [HU|[-> ->]]; [|auto]. destruct (U_good v' a b HU) as [E|[[E|E]|E]]; [auto| |auto|].
    - assert (l = a) by congruence. assert (r = b) by congruence. subst. auto.
    - right. right. eapply F_mono; [|exact E]. intros x y [K|[K|K]]; [auto| |auto]. left. right. split; congruence. }
  unfold named in ST. destruct (typeIdent m) as [i|] eqn:EM, (typeIdent n) as [j|] eqn:EN; try (apply ST; [intros [? ?]; congruence|exact H]).
  exists (fun a b => a = l /\ b = r). split; [|auto]. intros a b [-> ->]. right. right. exists m, n. split; [exact A|split; [exact B|left]]. unfold named. rewrite EM, EN. assert (E : ((i =? j)%Z && (block m =? block n)%Z) = true) by congruence. split; [discriminate|split; [discriminate|]]. split; [f_equal; lia|lia].
Qed.
Lemma eqr_complete R fuel : bisimulation g deq R -> forall l r v, ok l r -> R l r -> NoDup v -> incl v pairs -> (N * N < fuel + length v)%nat -> typeEquivalentRecursive g deq fuel l r v = Ok true.
Proof.
  intro BS. induction fuel as [|fuel IH]; intros l r v HO HR ND IN HF.
  - exfalso. pose proof (NoDup_incl_length ND IN) as L. rewrite pairs_len in L. lia.
  - rewrite eqr_unfold. destruct (visited2 l r v) eqn:EV; [reflexivity|]. destruct (l =? r)%nat eqn:EQ; [reflexivity|]. destruct (ok_nodes l r HO) as (m & n & A & B & WM & WN & AG). rewrite (getT_at _ _ A), (getT_at _ _ B). cbn [bind].
    destruct (BS l r HR) as [E|(m' & n' & A' & B' & C)]; [lia|]. pose proof (at_fun _ _ _ A A'). pose proof (at_fun _ _ _ B B'). subst m' n'. destruct C as [(C1 & C2 & C3 & C4)|(NN & SH & p & q & MP & MQ & FF)].
    + unfold named in *. destruct (typeIdent m) as [i|]; [|congruence]. destruct (typeIdent n) as [j|]; [|congruence]. f_equal. assert (i = j) by congruence. lia.
    + assert (ST : stepB (fun a b => typeEquivalentRecursive g deq fuel a b ((l, r) :: v)) m n = Ok true). { apply stepB_true; try assumption. split; [exact SH|]. exists p, q. split; [exact MP|split; [exact MQ|]]. assert (OK2 : Forall2 ok p q) by exact (made_ok m n p q WM WN AG (proj1 SH) MP MQ (Forall2_length _ _ _ FF)).
        assert (REC : forall a b, ok a b -> R a b -> okp (fun a b => typeEquivalentRecursive g deq fuel a b ((l, r) :: v)) a b). { intros a b HAB HRAB. apply IH; [exact HAB|exact HRAB| | |cbn [length]; lia]; [constructor; [intro HI; apply visited2_in in HI; congruence|exact ND]|]. intros z [<-|HZ]; [apply pairs_in; destruct HO as (? & ? & _); auto|apply IN; exact HZ]. }
        clear - FF OK2 REC. induction FF as [|x y p q HX FF IHF]; [constructor|]. inversion OK2; subst. constructor; [apply REC; assumption|apply IHF; assumption]. }
      unfold named in NN. destruct (typeIdent m), (typeIdent n); try exact ST. exfalso. apply NN. split; discriminate.
Qed.
Theorem decides_thm fuel l r : ok l r -> (N * N < fuel)%nat -> exists b, typeEquivalent g deq fuel l r = Ok b /\ (b = true <-> same_type g deq l r).
Proof.
  intros HO HF. unfold typeEquivalent. destruct (eqr_total fuel l r [] HO) as [x E]; [constructor|intros ? []|cbn; lia|]. exists x. split; [exact E|]. split.
  - intros ->. apply eqr_sound in E; [|exact HO]. exists (U []). split; [|exact E]. intros a b H. destruct (U_good [] a b H) as [K|[[]|K]]; [auto|]. right. eapply F_mono; [|exact K]. intros u w [K2|[]]. exact K2.
  - intros (R & BS & HR). assert (E2 : typeEquivalentRecursive g deq fuel l r [] = Ok true) by (eapply eqr_complete; try eassumption; [constructor|intros ? []|cbn; lia]). congruence.
Qed.
Theorem refl_thm fuel t : (0 < fuel)%nat -> typeEquivalent g deq fuel t t = Ok true.
Proof. intro H. destruct fuel as [|fuel]; [lia|]. unfold typeEquivalent. rewrite eqr_unfold. cbn [visited2]. rewrite Nat.eqb_refl. reflexivity. Qed.

(** * The relation *)
Lemma same_bisim : bisimulation g deq (same_type g deq).
Proof. intros a b (R & BS & H). destruct (BS a b H) as [E|E]; [auto|]. right. apply (F_mono R); [|exact E]. intros x y K. exists R. auto. Qed.
Lemma same_refl t : same_type g deq t t.
Proof. exists eq. split; [|reflexivity]. intros a b H. left. exact H. Qed.
Notation deq_sym := (TypeSpec.deq_sym g deq).
Notation deq_trans := (TypeSpec.deq_trans g deq).
(** Related functions have related parameter types for their default values. *)
Lemma defaults_rel S m n p q : wf_node g m -> agree m n -> kind m = KFn -> same_shape deq m n -> made_of g m p -> made_of g n q -> Forall2 S p q ->
  Forall2 (fun x y => S (fst x) (fst y) /\ deq (fst x) (snd x) (snd y) = true) (defaults (tsig m)) (defaults (tsig n)).
Proof.
  intros WM AG K SH MP MQ FF. assert (KN : kind n = KFn) by (destruct SH as [E _]; congruence). specialize (AG K KN). unfold same_shape in SH. rewrite K in SH. destruct SH as (_ & L & D & _ & FD). pose proof (made_fun _ _ _ MP (mo_fn g m K)). pose proof (made_fun _ _ _ MQ (mo_fn g n KN)). subst p q. unfold im in AG. rewrite <- AG in FF. rewrite !skipn_tl in FF. unfold wf_node in WM. rewrite K in WM. destruct WM as (_ & _ & W1 & W2). set (b := isInterfaceMethod (tsig m)) in *. apply F2_snoc_inv in FF as [FF _].
  assert (G : Forall2 (fun x y => S (fst x) (fst y)) (defaults (tsig m)) (defaults (tsig n))).
  { unfold defaults. rewrite <- L, <- D. rewrite <- (defaults_skip _ _ b W1 W2). rewrite <- (defaults_skip' _ _ _ b L W1 W2). set (k := (length _ - _)%nat). revert FF. generalize (skipn (if b then 1%nat else 0%nat) (param (tsig n))). generalize (skipn (if b then 1%nat else 0%nat) (param (tsig m))). clear. intros u w. revert u w. induction k as [|k IH]; intros u w FF; cbn [skipn].
    - revert w FF. induction u as [|x u IHu]; intros [|y w] FF; cbn [map] in FF; inversion FF; subst; constructor; [assumption|apply IHu; assumption].
    - destruct u as [|x u], w as [|y w]; cbn [map] in FF; inversion FF; subst; [constructor|]. apply IH. assumption. }
  clear - G FD. revert FD. induction G as [|x y p q H G IH]; intro FD; [constructor|]. inversion FD; subst. constructor; [split; [exact H|assumption]|apply IH; assumption].
Qed.
Lemma shape_sym m n p q : deq_sym -> wf_node g m -> agree m n -> same_shape deq m n -> made_of g m p -> made_of g n q -> Forall2 (same_type g deq) p q -> same_shape deq n m.
Proof.
  intros DS WM AG SH MP MQ FF. pose proof (fun K => defaults_rel _ m n p q WM AG K SH MP MQ FF) as DR. unfold same_shape in *. destruct SH as [K SH]. split; [auto|]. rewrite <- K. destruct (kind m) eqn:KM; try (intuition congruence). destruct SH as (L & D & M & _). split; [auto|]. split; [auto|]. split; [auto|]. specialize (DR eq_refl). clear - DR DS. induction DR as [|x y a b [H1 H2] DR IH]; [constructor|]. constructor; [|exact IH]. eapply DS; eassumption.
Qed.
Lemma F2_flip {A} (R : A -> A -> Prop) p q : Forall2 R p q -> Forall2 (fun x y => R y x) q p.
Proof. induction 1; constructor; auto. Qed.
Lemma same_sym : deq_sym -> forall a b, ok a b -> same_type g deq a b -> same_type g deq b a.
Proof.
  intros DS a b HO H. exists (fun x y => ok y x /\ same_type g deq y x). split; [|auto]. clear a b HO H. intros b a [HO H]. destruct (same_bisim a b H) as [E|(m & n & A & B & C)]; [auto|]. right. exists n, m. split; [exact B|split; [exact A|]]. destruct C as [(C1 & C2 & C3 & C4)|(NN & SH & p & q & MP & MQ & FF)]; [left; auto|right].
  destruct (ok_nodes a b HO) as (m' & n' & A' & B' & WM & WN & AG). pose proof (at_fun _ _ _ A A'). pose proof (at_fun _ _ _ B B'). subst m' n'. split; [tauto|]. split; [eapply shape_sym; eassumption|]. exists q, p. split; [exact MQ|split; [exact MP|]]. assert (OK2 : Forall2 ok p q) by exact (made_ok m n p q WM WN AG (proj1 SH) MP MQ (Forall2_length _ _ _ FF)).
  clear - FF OK2. induction FF as [|x y p q HX FF IHF]; [constructor|]. inversion OK2; subst. constructor; [split; assumption|apply IHF; assumption].
Qed.
Lemma ok_sym a b : ok a b -> ok b a.
Proof. intros (A & B & C). split; [exact B|split; [exact A|]]. symmetry. exact C. Qed.
Theorem sym_thm fuel l r : deq_sym -> ok l r -> (N * N < fuel)%nat -> typeEquivalent g deq fuel l r = typeEquivalent g deq fuel r l.
Proof.
  intros DS HO HF. destruct (decides_thm fuel l r HO HF) as (x & -> & X). destruct (decides_thm fuel r l (ok_sym _ _ HO) HF) as (y & -> & Y). f_equal. destruct x, y; try reflexivity; exfalso.
  - assert (K : false = true) by (apply Y, same_sym; [exact DS|exact HO|apply X; reflexivity]). discriminate.
  - assert (K : false = true) by (apply X, same_sym; [exact DS|apply ok_sym; exact HO|apply Y; reflexivity]). discriminate.
Qed.
Notation named_once := (TypeSpec.named_once g).
Notation nameless := (TypeSpec.nameless g).
Lemma shape_trans a b c p q r : deq_trans -> wf_node g a -> agree a b -> same_shape deq a b -> same_shape deq b c -> made_of g a p -> made_of g b q -> made_of g c r -> Forall2 (same_type g deq) p q -> wf_node g b -> agree b c -> Forall2 (same_type g deq) q r -> same_shape deq a c.
Proof.
  intros DT WA AG S1 S2 MP MQ MR F1 WB AG2 F2. pose proof (fun K => defaults_rel _ a b p q WA AG K S1 MP MQ F1) as DR. unfold same_shape in *. destruct S1 as [K1 S1], S2 as [K2 S2]. split; [congruence|]. rewrite <- K1 in S2. destruct (kind a) eqn:KA; try (intuition congruence). destruct S1 as (L1 & D1 & M1 & _), S2 as (L2 & D2 & M2 & FD2). split; [congruence|]. split; [congruence|]. split; [congruence|]. specialize (DR eq_refl). clear - DR DT FD2. revert FD2. generalize (defaults (tsig c)) as w. induction DR as [|x y u v [H1 H2] DR IH]; intros w FD2; inversion FD2; subst; constructor; [|apply IH; assumption]. unfold same_default in *. eapply DT; eassumption.
Qed.
Lemma same_trans P : deq_trans -> named_once -> nameless P -> forall a b c, P a -> ok a b -> ok b c -> same_type g deq a b -> same_type g deq b c -> same_type g deq a c.
Proof.
  intros DT NO NL a b c PA O1 O2 H1 H2. exists (fun x z => P x /\ exists y, ok x y /\ ok y z /\ same_type g deq x y /\ same_type g deq y z). split; [|eauto 8]. clear a b c PA O1 O2 H1 H2.
  set (R := fun x z => P x /\ exists y, ok x y /\ ok y z /\ same_type g deq x y /\ same_type g deq y z). intros a c (PA & b & O1 & O2 & H1 & H2).
  destruct (ok_nodes a b O1) as (m & n & A & B & WM & WN & AG). destruct (ok_nodes b c O2) as (n' & o & B' & C & _ & WO & AG2). pose proof (at_fun _ _ _ B B'). subst n'.
  assert (NM : ~ named m) by (eapply (NL a m []); eassumption).
  assert (OKR : forall x, (x < N)%nat -> ok x x) by (intros x Hx; split; [exact Hx|split; [exact Hx|reflexivity]]).
  assert (LIFT1 : forall p q, Forall P p -> Forall2 ok p q -> Forall2 (same_type g deq) p q -> Forall2 R p q). { intros p q HP HO HS. revert HP HO. induction HS as [|x y p q HX HS IH]; intros HP HO; [constructor|]. inversion HP; inversion HO; subst. constructor; [|apply IH; assumption]. split; [assumption|]. exists x. split; [apply OKR; match goal with H : ok x y |- _ => apply H end|]. split; [assumption|]. split; [apply same_refl|exact HX]. }
  destruct (same_bisim a b H1) as [E|(m' & n' & A' & B2 & D)].
  - subst b. pose proof (at_fun _ _ _ A B). subst n. destruct (same_bisim a c H2) as [E|(m' & o' & A' & C' & D)]; [auto|]. pose proof (at_fun _ _ _ A A'). pose proof (at_fun _ _ _ C C'). subst m' o'. right. exists m, o. split; [exact A|split; [exact C|right]]. destruct D as [(D1 & _)|(NN & SH & p & q & MP & MQ & FF)]; [exfalso; auto|]. split; [exact NN|split; [exact SH|]]. exists p, q. split; [exact MP|split; [exact MQ|]]. apply LIFT1; [eapply NL; eassumption| |exact FF]. eapply made_ok; [exact WM|exact WO|exact AG2|apply SH|exact MP|exact MQ|eapply Forall2_length; exact FF].
  - pose proof (at_fun _ _ _ A A'). pose proof (at_fun _ _ _ B B2). subst m' n'. destruct D as [(D1 & _)|(NN & SH & p & q & MP & MQ & FF)]; [exfalso; auto|]. assert (PP : Forall P p) by (eapply NL; eassumption). assert (OPQ : Forall2 ok p q) by (eapply made_ok; [exact WM|exact WN|exact AG|apply SH|exact MP|exact MQ|eapply Forall2_length; exact FF]).
    right. exists m, o. split; [exact A|split; [exact C|right]]. split; [tauto|].
    assert (SAME : n = o -> same_shape deq m o /\ exists p q, made_of g m p /\ made_of g o q /\ Forall2 R p q). { intros <-. split; [exact SH|]. exists p, q. split; [exact MP|split; [exact MQ|]]. apply LIFT1; assumption. }
    destruct (same_bisim b c H2) as [E|(n' & o' & B3 & C' & D)]; [subst c; apply SAME; eapply at_fun; eassumption|]. pose proof (at_fun _ _ _ B B3). pose proof (at_fun _ _ _ C C'). subst n' o'. destruct D as [(D1 & D2 & D3 & D4)|(NN2 & SH2 & q' & r & MQ' & MR & FF2)]; [apply SAME; eapply NO; eassumption|].
    pose proof (made_fun _ _ _ MQ MQ'). subst q'. split; [eapply (shape_trans m n o p q r); eassumption|]. exists p, r. split; [exact MP|split; [exact MR|]]. assert (OQR : Forall2 ok q r) by (eapply made_ok; [exact WN|exact WO|exact AG2|apply SH2|exact MQ|exact MR|eapply Forall2_length; exact FF2]).
    clear - FF FF2 PP OPQ OQR. revert r FF2 OQR PP OPQ. induction FF as [|x y p q HX FF IH]; intros r FF2 OQR PP OPQ; inversion FF2; subst; [constructor|]. inversion OQR; inversion PP; inversion OPQ; subst. constructor; [|apply IH; assumption]. split; [assumption|]. exists y. auto.
Qed.
Theorem trans_thm P fuel a b c : deq_sym -> deq_trans -> named_once -> nameless P -> P a \/ P c -> ok a b -> ok b c -> (N * N < fuel)%nat ->
  typeEquivalent g deq fuel a b = Ok true -> typeEquivalent g deq fuel b c = Ok true -> typeEquivalent g deq fuel a c = Ok true.
Proof.
  intros DS DT NO NL HP O1 O2 HF H1 H2. assert (O3 : ok a c) by (destruct O1 as (? & ? & I1), O2 as (? & ? & I2); split; [assumption|split; [assumption|]]; rewrite I1; exact I2). destruct (decides_thm fuel a b O1 HF) as (x & E1 & X). destruct (decides_thm fuel b c O2 HF) as (y & E2 & Y). destruct (decides_thm fuel a c O3 HF) as (z & -> & Z). f_equal. apply Z. assert (S1 : same_type g deq a b) by (apply X; congruence). assert (S2 : same_type g deq b c) by (apply Y; congruence). destruct HP as [HP|HP].
  - exact (same_trans P DT NO NL a b c HP O1 O2 S1 S2).
  - apply same_sym; [exact DS|apply ok_sym; exact O3|]. eapply (same_trans P DT NO NL c b a); [exact HP|apply ok_sym; exact O2|apply ok_sym; exact O1|apply same_sym; assumption|apply same_sym; assumption].
Qed.
End P.
