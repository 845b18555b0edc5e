(** Reference counting: every operation keeps the counts exact. *)
From Coq Require Import ZArith Lia Bool List ZifyBool Permutation.
From Verif Require Import Base RefModel RefSpec RefProofs RefLoop RefDec RefWrite.
Import ListNotations.
Local Open Scope Z_scope.

Lemma noStack : forall t o s, In (o, s) (slots t) -> s <> SStack.
Proof.
  intros t. induction t as [s|b| | |u n IH|i|i|fs s IH|s] using ty_ind2; intros o' s' I; cbn [slots] in I; try (destruct I as [I|[]]; injection I as _ <-; discriminate).
  - destruct I.
  - apply in_flat_map in I. destruct I as (i & _ & I). unfold shift in I. apply in_map_iff in I. destruct I as ([x y] & E & I). injection E as _ <-. eapply IH; eassumption.
  - change (In (o', s') (slots (TStruct fs s))) in I. rewrite slots_struct in I. apply in_flat_map in I. destruct I as ([x u] & J & I). unfold shift in I. apply in_map_iff in I. destruct I as ([y v] & E & I). injection E as _ <-. rewrite Forall_forall in IH. apply (IH _ J _ _ I).
Qed.

Section Ops.
Variable env : nat -> ty.

(** ** Containers *)
Lemma heapRefs_tot : forall m b, cnt b (heapRefs env m) = tot (length (heap m)) (live m) (fun x => cnt b (objRefs env m x)).
Proof. intros m b. unfold heapRefs, blocks, tot. rewrite cnt_flat. apply sum_ext. intros x _. destruct (live m x); [reflexivity|apply cnt_nil]. Qed.
Lemma content_refs : forall m b x T, content env m b = Some (x, T) -> objRefs env m b = refsAt m (AHeap b x) (slots T).
Proof.
  intros m b x T H. unfold content in H. unfold objRefs, objSlots. destruct (c_obj (chunkAt m b)); try discriminate; injection H as <- <-; [reflexivity|]. rewrite refs_shift. reflexivity.
Qed.
Lemma content_ok : forall m b x T, content env m b = Some (x, T) -> slotsOk env m (AHeap b 0) (objSlots env m b) <-> slotsOk env m (AHeap b x) (slots T).
Proof.
  intros m b x T H. unfold content in H. unfold objSlots. destruct (c_obj (chunkAt m b)); try discriminate; injection H as <- <-; [reflexivity|]. apply (slotsOk_shift env m (AHeap b 0) 16).
Qed.
Lemma slotOk_lt : forall m a p, slotOk env m a p -> forall b, In b (tgt (read m (plus a (fst p)))) -> (b < length (heap m))%nat.
Proof.
  intros m a [o s] H b I. unfold slotOk in H. cbn [fst snd] in *. destruct (read m (plus a o)) as [z|[z|c q]|t] eqn:E; try destruct I; [|easy]. subst c. destruct s; try apply H.
  - destruct H as [H|(base & _ & H)]; [discriminate H|apply H].
  - destruct H as (b' & q' & H1 & H2 & _). injection H1 as -> ->. exact H2.
Qed.
Lemma slotsOk_lt : forall m a l, slotsOk env m a l -> forall b, In b (refsAt m a l) -> (b < length (heap m))%nat.
Proof. intros m a l H b I. unfold refsAt in I. apply in_flat_map in I. destruct I as (p & J & I). unfold slotsOk in H. rewrite Forall_forall in H. eapply slotOk_lt; [apply H; exact J|exact I]. Qed.

Section Good.
Variables (m : mem) (vs : list (Z * ty)).
Hypothesis G : good env (m, vs).
Lemma g_var : forall v, In v vs -> wfT (snd v) /\ slotsOk env m (AVar (fst v)) (slots (snd v)).
Proof. destruct G as [(A & _) _]. cbn [fst snd] in A. rewrite Forall_forall in A. exact A. Qed.
Lemma g_obj : forall b, live m b = true -> slotsOk env m (AHeap b 0) (objSlots env m b). Proof. destruct G as [(_ & _ & A) _]. intros b L. apply (A b L). Qed.
Lemma g_wf : forall b x T, live m b = true -> content env m b = Some (x, T) -> wfT T. Proof. destruct G as [(_ & _ & A) _]. cbn [fst] in A. intros b x T L E. destruct (A b L) as [_ B]. rewrite E in B. exact B. Qed.
Lemma g_cnt : forall b, (b < length (heap m))%nat -> c_ref (chunkAt m b) = cnt b (varRefs m vs) + cnt b (heapRefs env m).
Proof. destruct G as [_ E]. unfold exact in E. cbn [fst snd] in E. intros b L. rewrite (E b L), cnt_app. reflexivity. Qed.
Lemma g_varRef : forall b, In b (varRefs m vs) -> live m b = true.
Proof.
  intros b I. assert (b < length (heap m))%nat as L. { unfold varRefs in I. apply in_flat_map in I. destruct I as (v & J & I). eapply slotsOk_lt; [apply (g_var v J)|exact I]. }
  apply cnt_In in I. unfold live. rewrite g_cnt by exact L. pose proof (cnt_nonneg b (heapRefs env m)). lia.
Qed.
Lemma g_objRef : forall c b, live m c = true -> In b (objRefs env m c) -> live m b = true.
Proof.
  intros c b Lc I. assert (b < length (heap m))%nat as L by (eapply slotsOk_lt; [apply (g_obj c Lc)|exact I]).
  assert (In b (heapRefs env m)) as J. { unfold heapRefs. apply in_flat_map. exists c. split; [apply in_seq; pose proof (live_lt m c Lc); lia|]. rewrite Lc. exact I. }
  apply cnt_In in J. unfold live. rewrite g_cnt by exact L. pose proof (cnt_nonneg b (varRefs m vs)). lia.
Qed.
Lemma g_reach : forall b, reachable env m vs b -> live m b = true.
Proof. intros b H. induction H; [apply g_varRef; assumption|eapply g_objRef; eassumption]. Qed.
(** A place in use. *)
Lemma g_place : forall P a t, placeIn env m vs P a t -> (forall b, P b -> live m b = true) ->
  wfT t /\ slotsOk env m a (slots t) /\ (forall b, In b (refsAt m a (slots t)) -> live m b = true) /\ match a with AHeap b _ => (b < length (heap m))%nat | _ => True end.
Proof.
  intros P a t H HP. destruct a as [z|b z]; cbn [placeIn] in H.
  - destruct H as (x & T & o & I & S & ->). destruct (g_var _ I) as [W O]. cbn [fst snd] in *. destruct (sub_slots _ _ _ S W) as (pre & post & E & _ & _). rewrite E, !slotsOk_app, slotsOk_shift in O. cbn [plus] in O.
    split; [apply (sub_wf _ _ _ S W)|]. split; [apply O|]. split; [|exact Logic.I]. intros b J. apply g_varRef. unfold varRefs. apply in_flat_map. exists (x, T). split; [exact I|]. cbn [fst snd]. rewrite E, !refs_app, refs_shift. cbn [plus]. apply in_or_app. right. apply in_or_app. left. exact J.
  - destruct H as (L & Pb & x & T & o & C & S & ->). specialize (HP b Pb). pose proof (g_wf b x T HP C) as W. pose proof (proj1 (content_ok m b x T C) (g_obj b HP)) as O. destruct (sub_slots _ _ _ S W) as (pre & post & E & _ & _). rewrite E, !slotsOk_app, slotsOk_shift in O. cbn [plus] in O.
    split; [apply (sub_wf _ _ _ S W)|]. split; [apply O|]. split; [|exact L]. intros c J. apply (g_objRef b); [exact HP|]. rewrite (content_refs m b x T C), E, !refs_app, refs_shift. cbn [plus]. apply in_or_app. right. apply in_or_app. left. exact J.
Qed.
End Good.

Lemma cand_deref : forall m a u, candRefs m (Cand (deref m u (WPtr a)) u) = refsAt m a (slots u).
Proof. intros m a u. unfold candRefs, deref. destruct u; cbn [isPtrKind]; try reflexivity; cbn [slots]; rewrite refs1, plus_0; reflexivity. Qed.
Lemma deref_same : forall m m' t p, sameData m m' -> deref m' t p = deref m t p.
Proof. intros m m' t p S. unfold deref. destruct (isPtrKind t); [|reflexivity]. destruct p; try reflexivity. apply read_same. exact S. Qed.
(** Increasing the counts of the references in a value. *)
Lemma inc_ok : forall n m w t, (wt t <= n)%nat -> candOk env m (Cand w t) -> (forall b, In b (candRefs m (Cand w t)) -> live m b = true) ->
  exists m', refCnt env n true m w t = Ok m' /\ sameData m m' /\ (forall b, c_ref (chunkAt m' b) = c_ref (chunkAt m b) + cnt b (candRefs m (Cand w t))) /\ forall b, live m' b = live m b.
Proof.
  intros n m w t W O L. destruct (inc_loop env n m [Cand w t]) as (m' & E & S & C).
  - rewrite weights_cons. cbn [weight]. unfold weights. cbn. lia.
  - intros b I. cbn [pend flat_map] in I. rewrite app_nil_r in I. specialize (L b I). unfold live in L. lia.
  - constructor; [exact O|constructor].
  - reflexivity.
  - exists m'. cbn [pend flat_map] in C. rewrite app_nil_r in C. split; [exact E|]. split; [exact S|]. split; [exact C|]. intros b. unfold live. rewrite C. pose proof (cnt_nonneg b (candRefs m (Cand w t))).
    destruct (Z.eq_dec (cnt b (candRefs m (Cand w t))) 0); [f_equal; lia|]. specialize (L b ltac:(apply cnt_In; lia)). unfold live in L. lia.
Qed.

(** ** New variables *)
(** A state that differs from a good one by a new variable and by new chunks, which the new variable keeps alive. *)
Lemma sameData_objs : forall m m', sameData m m' -> sameObjs m m'. Proof. intros m m' (_ & L & O & _). split; [rewrite L; apply le_n|]. auto. Qed.
Lemma fresh_agrees : forall m vs z t g v, fresh (m, vs) z t -> In v vs -> wfT (snd v) -> agrees m (AVar (fst v)) (write m (AVar z) (sizeOf t) g) (AVar (fst v)) (slots (snd v)).
Proof.
  intros m vs z t g [x T] [W F] I Wv. cbn [fst snd] in *. rewrite Forall_forall in F. specialize (F _ I). unfold apart in F. cbn [fst snd] in F. apply (beside_agrees m (AVar z) (sizeOf t) g (z - x)); [exact Logic.I|cbn; f_equal; lia|].
  pose proof (slots_inside T Wv) as In. unfold beside, inside in *. eapply Forall_impl; [|exact In]. cbv beta. intros p. lia.
Qed.
Lemma decl_ok : forall m vs z t m' g, good env (m, vs) -> fresh (m, vs) z t -> sameData m m' -> (forall b, live m' b = live m b) ->
  let mF := write m' (AVar z) (sizeOf t) g in
  slotsOk env mF (AVar z) (slots t) -> (forall b, c_ref (chunkAt m' b) = c_ref (chunkAt m b) + cnt b (refsAt mF (AVar z) (slots t))) -> good env (mF, (z, t) :: vs).
Proof.
  intros m vs z t m' g G F S L mF O C. assert (forall v, In v vs -> agrees m' (AVar (fst v)) mF (AVar (fst v)) (slots (snd v))) as AG. { intros v I. apply (fresh_agrees m' vs); [exact F|exact I|apply (g_var _ _ G v I)]. }
  assert (sameObjs m' mF) as SO. { split; [apply le_n|]. intros; reflexivity. }
  assert (forall b, objRefs env mF b = objRefs env m' b) as OR by reflexivity. assert (forall b, objSlots env mF b = objSlots env m' b) as OS by reflexivity.
  assert (forall vs', (forall v, In v vs' -> In v vs) -> varRefs mF vs' = varRefs m vs') as VR.
  { induction vs' as [|v r IH]; intros H; [reflexivity|]. cbn [varRefs flat_map]. fold (varRefs mF r). fold (varRefs m r). rewrite IH by (intros; apply H; right; assumption). f_equal. rewrite (agrees_refs _ _ _ _ _ (AG v (H v (or_introl eq_refl)))). apply refs_same. exact S. }
  split; [split; [|split]|]; cbn [fst snd].
  - constructor; [split; [apply F|exact O]|]. rewrite Forall_forall. intros v I. destruct (g_var _ _ G v I) as [A B]. split; [exact A|]. eapply agrees_ok; [exact SO|apply AG; exact I|]. eapply slotsOk_same; eassumption.
  - constructor; [apply F|]. apply G.
  - intros b Lb. change (live m' b = true) in Lb. rewrite L in Lb. split.
    + rewrite OS. pose proof (g_obj _ _ G b Lb) as B. apply (slotsOk_same env m m' S) in B. rewrite <- (objSlots_same env m m' S) in B. eapply agrees_ok; [exact SO| |exact B]. unfold agrees. apply Forall_forall. intros p _ d _. reflexivity.
    + change (content env mF b) with (content env m' b). rewrite (content_same env m m' S). destruct (content env m b) as [[x T]|] eqn:E; [|exact Logic.I]. eapply g_wf; eassumption.
  - intros b Lb. cbn [fst snd] in *. cbn [varRefs flat_map fst snd]. fold (varRefs mF vs). rewrite (VR vs) by auto. change (chunkAt mF b) with (chunkAt m' b). rewrite C. change (length (heap mF)) with (length (heap m')) in Lb. destruct S as (S1 & S2 & S3). rewrite S2 in Lb. rewrite (g_cnt _ _ G b Lb).
    rewrite !cnt_app. rewrite !heapRefs_tot. change (length (heap mF)) with (length (heap m')). rewrite S2. enough (tot (length (heap m)) (live mF) (fun x => cnt b (objRefs env mF x)) = tot (length (heap m)) (live m) (fun x => cnt b (objRefs env m x))) as -> by lia.
    unfold tot. apply sum_ext. intros x _. change (live mF x) with (live m' x). rewrite L, OR, (objRefs_same env m m' (conj S1 (conj S2 S3))). reflexivity.
Qed.

(** ** New chunks *)
Lemma nth_grow : forall m cs b, (b < length (heap m))%nat -> chunkAt (MkMem (vars m) (heap m ++ cs)) b = chunkAt m b. Proof. intros. unfold chunkAt. cbn [heap]. apply app_nth1. assumption. Qed.
Lemma new_ok : forall m vs z t cs g, good env (m, vs) -> fresh (m, vs) z t -> Forall (fun c => c_ref c = 1) cs ->
  let m1 := MkMem (vars m) (heap m ++ cs) in let mF := write m1 (AVar z) (sizeOf t) g in let N := length (heap m) in
  slotsOk env mF (AVar z) (slots t) ->
  (forall b, (N <= b < N + length cs)%nat -> slotsOk env mF (AHeap b 0) (objSlots env mF b) /\ match content env mF b with Some (_, T) => wfT T | None => True end) ->
  (forall b, cnt b (refsAt mF (AVar z) (slots t) ++ flat_map (objRefs env mF) (seq N (length cs))) = if (Nat.leb N b && Nat.ltb b (N + length cs))%nat then 1 else 0) ->
  good env (mF, (z, t) :: vs).
Proof.
  intros m vs z t cs g G F C1 m1 mF N O B R.
  assert (forall b, (b < N)%nat -> chunkAt mF b = chunkAt m b) as CA by (intros; apply nth_grow; assumption).
  assert (length (heap mF) = (N + length cs)%nat) as LF. { cbn. apply app_length. }
  assert (sameObjs m mF) as SO. { split; [fold N; rewrite LF; apply Nat.le_add_r|]. intros b L. rewrite CA by exact L. reflexivity. }
  assert (sameObjs m m1) as SO1. { split; [cbn; rewrite app_length; apply Nat.le_add_r|]. intros b L. unfold m1. rewrite nth_grow by exact L. reflexivity. }
  assert (forall v, In v vs -> agrees m (AVar (fst v)) mF (AVar (fst v)) (slots (snd v))) as AG. { intros v I. assert (fresh (m1, vs) z t) as F1 by exact F. pose proof (fresh_agrees m1 vs z t g v F1 I ltac:(apply (g_var _ _ G v I))) as A. exact A. }
  assert (forall b l, (b < N)%nat -> agrees m (AHeap b 0) mF (AHeap b 0) l) as AB. { intros b l L. unfold agrees. apply Forall_forall. intros p _ d _. cbn [read plus]. rewrite CA by exact L. reflexivity. }
  assert (forall b, (b < N)%nat -> objSlots env mF b = objSlots env m b) as OS. { intros b L. unfold objSlots. cbn [read]. rewrite CA by exact L. reflexivity. }
  assert (forall b, (b < N)%nat -> objRefs env mF b = objRefs env m b) as OR. { intros b L. unfold objRefs. rewrite OS by exact L. apply agrees_refs. apply AB. exact L. }
  assert (forall vs', (forall v, In v vs' -> In v vs) -> varRefs mF vs' = varRefs m vs') as VR.
  { induction vs' as [|v r IH]; intros H; [reflexivity|]. cbn [varRefs flat_map]. fold (varRefs mF r). fold (varRefs m r). rewrite IH by (intros; apply H; right; assumption). f_equal. apply agrees_refs. apply AG. apply H. left. reflexivity. }
  assert (forall b, (b < N)%nat -> live mF b = live m b) as LV. { intros b L. unfold live. rewrite CA by exact L. reflexivity. }
  assert (forall b, (N <= b < N + length cs)%nat -> c_ref (chunkAt mF b) = 1) as CN. { intros b L. unfold chunkAt. cbn [heap mF write m1]. rewrite app_nth2 by (fold N; lia). fold N. rewrite Forall_forall in C1. apply C1. apply nth_In. lia. }
  assert (forall b, live mF b = true -> (b < N)%nat \/ (N <= b < N + length cs)%nat) as LC. { intros b L. apply live_lt in L. rewrite LF in L. lia. }
  split; [split; [|split]|]; cbn [fst snd].
  - constructor; [split; [apply F|exact O]|]. rewrite Forall_forall. intros v I. destruct (g_var _ _ G v I) as [A D]. split; [exact A|]. eapply agrees_ok; [exact SO|apply AG; exact I|exact D].
  - constructor; [apply F|]. apply G.
  - intros b Lb. destruct (LC b Lb) as [L|L]; [|apply B; exact L]. rewrite LV in Lb by exact L. split.
    + rewrite OS by exact L. eapply agrees_ok; [exact SO|apply AB; exact L|]. apply (g_obj _ _ G b Lb).
    + assert (content env mF b = content env m b) as ->. { unfold content. cbn [read]. rewrite CA by exact L. reflexivity. } destruct (content env m b) as [[x T]|] eqn:E; [|exact Logic.I]. eapply g_wf; eassumption.
  - intros b Lb. cbn [fst snd] in *. rewrite LF in Lb. cbn [varRefs flat_map fst snd]. fold (varRefs mF vs). rewrite (VR vs) by auto. unfold heapRefs, blocks. rewrite LF, seq_app, flat_map_app. cbn [Nat.add].
    assert (flat_map (fun b => if live mF b then objRefs env mF b else []) (seq 0 N) = heapRefs env m) as ->.
    { unfold heapRefs, blocks. fold N. rewrite !flat_map_concat_map. f_equal. apply map_ext_in. intros x I. apply in_seq in I. rewrite LV, OR by lia. reflexivity. }
    assert (flat_map (fun b => if live mF b then objRefs env mF b else []) (seq N (length cs)) = flat_map (objRefs env mF) (seq N (length cs))) as ->.
    { rewrite !flat_map_concat_map. f_equal. apply map_ext_in. intros x I. apply in_seq in I. unfold live. rewrite CN by lia. reflexivity. }
    specialize (R b). rewrite !cnt_app in *. destruct (Nat.ltb_spec b N) as [L|L].
    + rewrite CA by exact L. rewrite (g_cnt _ _ G b L). destruct (Nat.leb_spec N b); [lia|]. cbn [andb] in R. lia.
    + rewrite CN by lia. destruct (Nat.leb_spec N b); [|lia]. destruct (Nat.ltb_spec b (N + length cs)); [|lia]. cbn [andb] in R.
      assert (cnt b (varRefs m vs) = 0) as ->. { apply cnt_notIn. intros I. apply (g_varRef _ _ G) in I. apply live_lt in I. lia. }
      assert (cnt b (heapRefs env m) = 0) as ->. { apply cnt_notIn. intros I. unfold heapRefs in I. apply in_flat_map in I. destruct I as (x & _ & I). destruct (live m x) eqn:E; [|destruct I]. apply (g_objRef _ _ G x b E) in I. apply live_lt in I. lia. }
      lia.
Qed.
End Ops.
