(** Reference counting: the loop that follows references. *)
From Coq Require Import ZArith Lia Bool List ZifyBool Permutation.
From Verif Require Import Base RefModel RefSpec RefProofs.
Import ListNotations.
Local Open Scope Z_scope.

Section Loop.
Variable env : nat -> ty.

(** ** Candidates *)
Definition candRefs (m : mem) (c : cand) : list nat :=
  match c with
  | Cand p t => if isPtrKind t then tgt p else match p with WPtr a => refsAt m a (slots t) | _ => [] end
  | Defer _ => []
  end.
Definition pend (m : mem) (cs : list cand) : list nat := flat_map (candRefs m) cs.
Definition defers (cs : list cand) : list nat := flat_map (fun c => match c with Defer b => [b] | _ => [] end) cs.
Definition strOk (m : mem) (o : obj) (w : word) : Prop := match w with WPtr (AHeap b _) => (b < length (heap m))%nat /\ c_obj (chunkAt m b) = o | _ => True end.
Definition candOk (m : mem) (c : cand) : Prop :=
  match c with
  | Cand p (TPtr base) => ptrOk env m base p
  | Cand p TStr => strOk m OStr p
  | Cand p TFiber => strOk m OFiber p
  | Cand _ (TPlain _) => True
  | Cand p t => exists a, p = WPtr a /\ slotsOk env m a (slots t)
  | Defer _ => True
  end.
Lemma pend_app : forall m a b, pend m (a ++ b) = pend m a ++ pend m b. Proof. intros. apply flat_map_app. Qed.
Lemma defers_app : forall a b, defers (a ++ b) = defers a ++ defers b. Proof. intros. apply flat_map_app. Qed.
Lemma cnt_pend_rev : forall b m l, cnt b (pend m (rev l)) = cnt b (pend m l).
Proof. intros. apply cnt_perm. apply flat_map_perm. apply Permutation_sym, Permutation_rev. Qed.
Lemma cnt_defers_rev : forall b l, cnt b (defers (rev l)) = cnt b (defers l).
Proof. intros. apply cnt_perm. apply flat_map_perm. apply Permutation_sym, Permutation_rev. Qed.
Lemma refs1 : forall m a o s, refsAt m a [(o, s)] = tgt (read m (plus a o)).
Proof. intros. unfold refsAt. cbn. apply app_nil_r. Qed.
Lemma candRefs_deref : forall m a u, hasPtr u = true -> candRefs m (Cand (deref m u (WPtr a)) u) = refsAt m a (slots u).
Proof. intros m a u H. unfold candRefs, deref. destruct u; cbn [isPtrKind]; try reflexivity; cbn [slots]; rewrite refs1, plus_0; reflexivity. Qed.
Lemma candOk_deref : forall m a u, slotsOk env m a (slots u) -> candOk m (Cand (deref m u (WPtr a)) u).
Proof.
  intros m a u H. unfold candOk, deref. destruct u; cbn [isPtrKind]; try (exists a; split; [reflexivity|exact H]).
  - exact Logic.I.
  - cbn [slots] in H. inversion H as [|x l A B]; subst. unfold slotOk in A. cbn [fst snd] in A. rewrite plus_0 in A. exact A.
  - cbn [slots] in H. inversion H as [|x l A B]; subst. unfold slotOk in A. cbn [fst snd] in A. rewrite plus_0 in A. exact A.
  - cbn [slots] in H. inversion H as [|x l A B]; subst. unfold slotOk in A. cbn [fst snd] in A. rewrite plus_0 in A. exact A.
Qed.
(** Slots of parts. *)
Lemma slotsOk_app : forall m a l k, slotsOk env m a (l ++ k) <-> slotsOk env m a l /\ slotsOk env m a k. Proof. intros. apply Forall_app. Qed.
Lemma slotOk_shift : forall m a d p, slotOk env m a (d + fst p, snd p) <-> slotOk env m (plus a d) p.
Proof. intros m a d [o s]. unfold slotOk. cbn [fst snd]. rewrite !plus_plus. replace (d + (o + 8)) with (d + o + 8) by lia. reflexivity. Qed.
Lemma slotsOk_shift : forall m a d l, slotsOk env m a (shift d l) <-> slotsOk env m (plus a d) l.
Proof.
  intros m a d l. unfold slotsOk, shift. rewrite Forall_map. split; intros H; (eapply Forall_impl; [|exact H]); intros p; apply slotOk_shift.
Qed.
Lemma slotsOk_flat : forall A m a (f : A -> list (Z * slot)) l, slotsOk env m a (flat_map f l) <-> Forall (fun x => slotsOk env m a (f x)) l.
Proof.
  induction l as [|x l IH]; cbn [flat_map]; [split; intros; constructor|]. rewrite slotsOk_app, IH. split; [intros [H J]; constructor; auto|intros H; inversion H; auto].
Qed.
Lemma items_refs : forall m a u n, pend m (addItems m a u n) = refsAt m a (slots (TArray u n)).
Proof.
  intros m a u n. cbn [slots]. rewrite refs_flat. unfold addItems, pend. destruct (hasPtr u) eqn:E.
  - rewrite flat_map_concat_map, map_map, <- flat_map_concat_map. apply flat_map_ext. intros i. rewrite candRefs_deref by exact E. rewrite refs_shift. reflexivity.
  - rewrite (noPtr_slots _ E). symmetry. apply flat_map_nil. intros; reflexivity.
Qed.
Lemma items_ok : forall m a u n, slotsOk env m a (slots (TArray u n)) -> Forall (candOk m) (addItems m a u n).
Proof.
  intros m a u n H. unfold addItems. destruct (hasPtr u) eqn:E; [|constructor]. apply Forall_map. cbn [slots] in H. apply slotsOk_flat in H.
  eapply Forall_impl; [|exact H]. cbv beta. intros i J. apply candOk_deref. apply slotsOk_shift. exact J.
Qed.
Lemma items_defers : forall m a u n, defers (addItems m a u n) = [].
Proof. intros. apply flat_map_nil. intros c I. unfold addItems in I. destruct (hasPtr u); [|destruct I]. apply in_map_iff in I. destruct I as (i & <- & _). reflexivity. Qed.
Lemma fields_refs : forall m a fs s, pend m (addFields m a fs) = refsAt m a (slots (TStruct fs s)).
Proof.
  intros m a fs s. rewrite slots_struct, refs_flat. unfold addFields, pend.
  induction fs as [|[o u] r IH]; cbn [flat_map fst snd]; [reflexivity|]. rewrite flat_map_app, <- IH. f_equal.
  destruct (hasPtr u) eqn:E.
  - cbn [flat_map]. rewrite app_nil_r, candRefs_deref by exact E. rewrite refs_shift. reflexivity.
  - rewrite (noPtr_slots _ E). reflexivity.
Qed.
Lemma fields_ok : forall m a fs s, slotsOk env m a (slots (TStruct fs s)) -> Forall (candOk m) (addFields m a fs).
Proof.
  intros m a fs s H. rewrite slots_struct in H. apply slotsOk_flat in H. unfold addFields. induction H as [|[o u] r A B IH]; cbn [flat_map fst snd]; [constructor|].
  apply (proj2 (Forall_app _ _ _)). split; [|exact IH]. destruct (hasPtr u); [|constructor]. constructor; [|constructor]. apply candOk_deref. apply slotsOk_shift. exact A.
Qed.
Lemma fields_defers : forall m a fs, defers (addFields m a fs) = [].
Proof. intros. apply flat_map_nil. intros c I. unfold addFields in I. apply in_flat_map in I. destruct I as ([o u] & _ & I). cbn in I. destruct (hasPtr u); [|destruct I]. destruct I as [<-|[]]. reflexivity. Qed.

Lemma candRefs_same : forall m m' c, sameData m m' -> candRefs m' c = candRefs m c.
Proof. intros m m' c S. destruct c as [p t|b]; cbn [candRefs]; [|reflexivity]. destruct (isPtrKind t); [reflexivity|]. destruct p; try reflexivity. apply refs_same. exact S. Qed.
Lemma pend_same : forall m m' cs, sameData m m' -> pend m' cs = pend m cs.
Proof. intros m m' cs S. apply flat_map_ext. intros c. apply candRefs_same. exact S. Qed.
Lemma candOk_same : forall m m' c, sameData m m' -> candOk m c -> candOk m' c.
Proof.
  intros m m' c S H. destruct c as [p t|b]; [|exact Logic.I].
  assert (forall o, strOk m o p -> strOk m' o p) as SO. { intros o. unfold strOk. destruct S as (_ & A2 & A3 & _). destruct p as [z|[z|b q]|tt]; auto. rewrite A2, A3. auto. }
  destruct t; cbn [candOk] in *; auto; try (destruct H as (a & -> & H); exists a; split; [reflexivity|]; eapply slotsOk_same; eassumption).
  eapply ptrOk_same; eassumption.
Qed.
(** One step replaces the references of a candidate by those of the candidates pushed. *)
Definition plainStep (m : mem) (c : cand) (new : list cand) : Prop := pend m new = candRefs m c /\ defers new = [] /\ Forall (candOk m) new.

(** ** Weights *)
Fixpoint wt (t : ty) : nat :=
  match t with
  | TArray u n => S (n * wt u)
  | TStruct fs _ => S ((fix go fs := match fs with [] => O | (_, u) :: r => wt u + go r end)%nat fs)
  | TMap _ | TIface _ => 2
  | _ => 1
  end.
Definition weight (c : cand) : nat := match c with Cand _ t => wt t | Defer _ => 1%nat end.
Definition weights (cs : list cand) : nat := list_sum (map weight cs).
Lemma weights_app : forall a b, (weights (a ++ b) = weights a + weights b)%nat. Proof. intros. unfold weights. rewrite map_app. apply list_sum_app. Qed.
Lemma weights_cons : forall a b, (weights (a :: b) = weight a + weights b)%nat. Proof. reflexivity. Qed.
Lemma list_sum_rev : forall l, list_sum (rev l) = list_sum l. Proof. induction l as [|a l IH]; cbn [rev]; [reflexivity|]. rewrite list_sum_app, IH. change (list_sum [a]) with (a + 0)%nat. change (list_sum (a :: l)) with (a + list_sum l)%nat. lia. Qed.
Lemma weights_rev : forall l, weights (rev l) = weights l. Proof. intros. unfold weights. rewrite map_rev. apply list_sum_rev. Qed.
Lemma weight_pos : forall c, (1 <= weight c)%nat. Proof. intros [p t|b]; cbn; [destruct t; cbn; lia|lia]. Qed.
Lemma items_weight : forall m a u n, (weights (addItems m a u n) < wt (TArray u n))%nat.
Proof.
  intros. cbn [wt]. unfold addItems. destruct (hasPtr u); [|cbn; lia]. unfold weights. rewrite map_map. cbn [weight].
  enough (forall k, list_sum (map (fun _ => wt u) (seq k n)) = (n * wt u)%nat) as E by (rewrite E; lia).
  induction n as [|n IH]; intros k; cbn [seq map]; [reflexivity|]. cbn [list_sum fold_right]. change (fold_right Nat.add 0%nat) with list_sum. rewrite IH. lia.
Qed.
Lemma fields_weight : forall m a fs s, (weights (addFields m a fs) < wt (TStruct fs s))%nat.
Proof.
  intros. cbn [wt]. unfold addFields. induction fs as [|[o u] r IH]; cbn [flat_map fst snd]; [cbn; lia|]. rewrite weights_app.
  destruct (hasPtr u); cbn [weights map weight list_sum fold_right]; lia.
Qed.

(** ** Increasing counts *)
(** The references a value holds itself, reached without following any. *)
Lemma inc_step : forall m c, (forall b, In b (candRefs m c) -> 0 < c_ref (chunkAt m b)) -> candOk m c -> (forall b, c <> Defer b) ->
  exists m' new, step env true m c = Ok (m', new) /\ sameData m m' /\ Forall (candOk m') new /\ (weights new < weight c)%nat /\ defers new = [] /\
    (forall b, c_ref (chunkAt m' b) = c_ref (chunkAt m b) + cnt b (candRefs m c) - cnt b (pend m new)) /\
    (forall b, cnt b (pend m new) <= cnt b (candRefs m c)).
Proof.
  intros m c L O ND. destruct c as [p t|b]; [|destruct (ND b eq_refl)].
  assert (forall b, In b (tgt p) -> isPtrKind t = true -> (b < length (heap m))%nat ->
    exists m' new, (let* m1 := chunkRefCnt m b 1 in Ok (m1, [])) = Ok (m', new) /\ sameData m m' /\ Forall (candOk m') new /\ (weights new < weight (Cand p t))%nat /\ defers new = [] /\
    (forall b, c_ref (chunkAt m' b) = c_ref (chunkAt m b) + cnt b (candRefs m (Cand p t)) - cnt b (pend m new)) /\
    (forall b, cnt b (pend m new) <= cnt b (candRefs m (Cand p t)))) as One.
  { intros b I P B. exists (setRef m b (c_ref (chunkAt m b) + 1)), []. unfold chunkRefCnt. cbn [candRefs] in *. rewrite P in *. specialize (L b I).
    destruct (Z.leb_spec (c_ref (chunkAt m b)) 0); [lia|]. split; [reflexivity|]. split; [apply setRef_same|]. split; [constructor|]. split; [pose proof (weight_pos (Cand p t)); unfold weights; cbn; cbn in *; lia|]. split; [reflexivity|].
    split; [|intros x; apply cnt_nonneg]. intros x. rewrite ref_setRef by exact B. destruct p as [z|[z|b' o]|tt]; try destruct I. 2: easy. subst b'. cbn [tgt pend flat_map]. rewrite cnt_cons, cnt_nil. destruct (Nat.eqb_spec b x); [subst|]; lia. }
  assert (forall new, step env true m (Cand p t) = Ok (m, new) -> pend m new = candRefs m (Cand p t) -> Forall (candOk m) new -> (weights new < weight (Cand p t))%nat -> defers new = [] ->
    exists m' new, step env true m (Cand p t) = Ok (m', new) /\ sameData m m' /\ Forall (candOk m') new /\ (weights new < weight (Cand p t))%nat /\ defers new = [] /\
    (forall b, c_ref (chunkAt m' b) = c_ref (chunkAt m b) + cnt b (candRefs m (Cand p t)) - cnt b (pend m new)) /\
    (forall b, cnt b (pend m new) <= cnt b (candRefs m (Cand p t)))) as Plain.
  { intros new E P K W D. exists m, new. rewrite P. repeat split; auto; intros; lia. }
  destruct t; cbn [candOk] in O; try destruct O as (a & -> & O).
  - apply (Plain []); [destruct p; reflexivity|destruct p; reflexivity|constructor|cbn; lia|reflexivity].
  - cbn [step]. unfold pageFind. destruct p as [z|[z|b o]|tt]; try (apply (Plain []); [reflexivity|reflexivity|constructor|cbn; lia|reflexivity]).
    cbn [candRefs isPtrKind tgt] in L. pose proof (L b (or_introl eq_refl)) as Lb. destruct (Z.leb_spec (c_ref (chunkAt m b)) 0); [lia|]. cbn [bind]. apply One; [left; reflexivity|reflexivity|apply O].
  - cbn [step]. unfold pageFind. destruct p as [z|[z|b o]|tt]; try (apply (Plain []); [reflexivity|reflexivity|constructor|cbn; lia|reflexivity]).
    cbn [candRefs isPtrKind tgt] in L. pose proof (L b (or_introl eq_refl)) as Lb. destruct (Z.leb_spec (c_ref (chunkAt m b)) 0); [lia|]. cbn [bind]. apply One; [left; reflexivity|reflexivity|apply O].
  - cbn [step]. unfold pageFind. destruct p as [z|[z|b o]|tt]; try (apply (Plain []); [reflexivity|reflexivity|constructor|cbn; lia|reflexivity]).
    cbn [candRefs isPtrKind tgt] in L. pose proof (L b (or_introl eq_refl)) as Lb. destruct (Z.leb_spec (c_ref (chunkAt m b)) 0); [lia|]. cbn [bind]. apply One; [left; reflexivity|reflexivity|apply O].
  - apply (Plain (addItems m a t n)); [reflexivity|apply items_refs|apply items_ok; exact O|apply items_weight|apply items_defers].
  - cbn [slots] in O. inversion O as [|x l A B]; subst. unfold slotOk in A. cbn [fst snd] in A. cbn [step]. unfold pageFind. cbn [candRefs isPtrKind slots] in *. rewrite refs1 in *.
    destruct (read m (plus a 16)) as [z|[z|b o]|tt]; try (exists m, []; cbn [bind pend flat_map tgt]; repeat split; auto; intros; rewrite ?cnt_nil; lia).
    pose proof (L b (or_introl eq_refl)) as Lb. destruct (Z.leb_spec (c_ref (chunkAt m b)) 0); [lia|]. cbn [bind].
    exists (setRef m b (c_ref (chunkAt m b) + 1)), []. unfold chunkRefCnt. destruct (Z.leb_spec (c_ref (chunkAt m b)) 0); [lia|]. split; [reflexivity|]. split; [apply setRef_same|]. split; [constructor|]. split; [cbn; lia|]. split; [reflexivity|].
    split; [|intros x; apply cnt_nonneg]. intros x. rewrite ref_setRef by apply A. cbn [tgt pend flat_map]. rewrite cnt_cons, cnt_nil. destruct (Nat.eqb_spec b x); [subst|]; lia.
  - apply (Plain [Cand (read m (plus a 8)) (TPtr node)]); [reflexivity| | |cbn; lia|reflexivity].
    + cbn [pend flat_map candRefs isPtrKind slots]. rewrite refs1, app_nil_r. reflexivity.
    + constructor; [|constructor]. cbn [slots] in O. inversion O as [|x l A B]; subst. exact A.
  - apply (Plain (addFields m a fields)); [reflexivity|apply fields_refs|eapply fields_ok; exact O|apply fields_weight|apply fields_defers].
  - cbn [slots] in O. inversion O as [|x l A B]; subst. unfold slotOk in A. cbn [fst snd] in A. replace (0 + 8) with 8 in A by lia. destruct A as [A|(base & A1 & A2)].
    + apply (Plain []); [|  |constructor|cbn; lia|reflexivity].
      * cbn [step]. rewrite A. reflexivity.
      * cbn [candRefs isPtrKind slots]. rewrite refs1, A. reflexivity.
    + assert (step env true m (Cand (WPtr a) (TIface size)) = Ok (m, []) /\ read m (plus a 0) = WInt 0 \/ step env true m (Cand (WPtr a) (TIface size)) = Ok (m, [Cand (read m (plus a 0)) (TPtr base)])) as [[E Z0]|E].
      { cbn [step]. rewrite A1. destruct (read m (plus a 0)) as [[|z|z]|q|tt]; auto. }
      * apply (Plain []); [exact E| |constructor|cbn; lia|reflexivity]. cbn [candRefs isPtrKind slots]. rewrite refs1, Z0. reflexivity.
      * apply (Plain _ E); [| |cbn; lia|reflexivity].
        -- cbn [pend flat_map candRefs isPtrKind slots]. rewrite refs1, app_nil_r. reflexivity.
        -- constructor; [exact A2|constructor].
Qed.
Lemma inc_loop : forall n m cs, (weights cs <= n)%nat -> (forall b, In b (pend m cs) -> 0 < c_ref (chunkAt m b)) -> Forall (candOk m) cs -> defers cs = [] ->
  exists m', loop env n true m cs = Ok m' /\ sameData m m' /\ forall b, c_ref (chunkAt m' b) = c_ref (chunkAt m b) + cnt b (pend m cs).
Proof.
  induction n as [|n IH]; intros m cs W L O D.
  - destruct cs as [|c r]; [|rewrite weights_cons in W; pose proof (weight_pos c); lia]. exists m. split; [reflexivity|]. split; [apply same_refl|]. intros. cbn. lia.
  - destruct cs as [|c r]. { exists m. split; [reflexivity|]. split; [apply same_refl|]. intros. cbn. lia. }
    rewrite weights_cons in W. inversion O as [|x l Oc Or]; subst. cbn [loop].
    assert (forall b, c <> Defer b) as ND. { intros b ->. discriminate D. }
    assert (defers r = []) as Dr. { destruct c; [exact D|discriminate D]. }
    destruct (inc_step m c) as (m1 & new & E & S & On & Wn & Dn & C & I); [|exact Oc|exact ND|].
    { intros b J. apply L. cbn [pend flat_map]. apply in_or_app. left. exact J. }
    rewrite E. cbn [bind]. assert (forall b, cnt b (pend m1 (rev new ++ r)) = cnt b (pend m new) + cnt b (pend m r)) as PE.
    { intros b. rewrite pend_app, cnt_app, cnt_pend_rev, !(pend_same m m1) by exact S. reflexivity. }
    destruct (IH m1 (rev new ++ r)) as (m2 & E2 & S2 & C2).
    + rewrite weights_app, weights_rev. lia.
    + intros b J. rewrite C. rewrite cnt_In, PE in J. pose proof (cnt_nonneg b (candRefs m c)). pose proof (cnt_nonneg b (pend m new)). pose proof (cnt_nonneg b (pend m r)).
      specialize (I b). assert (In b (pend m (c :: r))) as J2. { cbn [pend flat_map]. fold (pend m r). apply cnt_In. rewrite cnt_app. lia. }
      specialize (L b J2). lia.
    + apply (proj2 (Forall_app _ _ _)). split; [apply Forall_rev; exact On|]. eapply Forall_impl; [|exact Or]. intros x. apply candOk_same. exact S.
    + rewrite defers_app, Dr, app_nil_r. destruct (defers (rev new)) as [|b l] eqn:E3; [reflexivity|]. pose proof (cnt_defers_rev b new) as Q. rewrite E3, Dn, cnt_cons, Nat.eqb_refl, cnt_nil in Q. pose proof (cnt_nonneg b l). lia.
    + exists m2. split; [exact E2|]. split; [eapply same_trans; eassumption|]. intros b. rewrite C2, C, PE. cbn [pend flat_map]. rewrite cnt_app. fold (pend m r). lia.
Qed.
End Loop.
