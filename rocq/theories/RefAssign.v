(** Reference counting: assignment, the end of a block, and programs. *)
From Coq Require Import ZArith Lia Bool List ZifyBool Permutation.
From Verif Require Import Base RefModel RefSpec RefProofs RefLoop RefDec RefWrite RefOps.
Import ListNotations.
Local Open Scope Z_scope.

Section Assign.
Variable env : nat -> ty.

(** ** The write *)
(** The cells written by doAssignImpl. *)
Definition cellsOf (m : mem) (t : ty) (src : addr) : Z -> word := if isPtrKind t then fun _ => read m src else cellsAt m src.
Lemma assign_eq : forall m m' a t src, sameData m m' -> assign m' a (deref m t (WPtr src)) t = Ok (write m' a (sizeOf t) (cellsOf m' t src)).
Proof.
  intros m m' a t src S. unfold assign, deref, cellsOf. destruct (isPtrKind t) eqn:E; [|reflexivity]. rewrite (read_same m m' S). replace (sizeOf t) with 8 by (destruct t; try discriminate E; reflexivity). reflexivity.
Qed.
Lemma cellsOf_ok : forall m t src, Forall (fun p => forall d, In d (cells (snd p)) -> cellsOf m t src (fst p + d) = read m (plus src (fst p + d))) (slots t).
Proof.
  intros m t src. unfold cellsOf. destruct (isPtrKind t) eqn:E; [|apply Forall_forall; intros; reflexivity].
  destruct t; try discriminate E; (constructor; [|constructor]; cbn [fst snd]; intros d [<-|[]]; cbn [Z.add]; rewrite plus_0; reflexivity).
Qed.

Lemma cellsOf_same : forall m m' t src, sameData m m' -> cellsOf m' t src = cellsOf m t src.
Proof.
  intros m m' t src S. unfold cellsOf. destruct (isPtrKind t); [rewrite (read_same m m' S); reflexivity|]. destruct S as (A & _ & _ & B). unfold cellsAt. destruct src as [z|b o]; cbn [plus read]; [rewrite A|rewrite B]; reflexivity.
Qed.
Lemma write_same : forall m m' a n g, sameData m m' -> match a with AHeap b _ => (b < length (heap m))%nat | _ => True end -> sameData (write m a n g) (write m' a n g).
Proof.
  intros m m' a n g S L. assert (match a with AHeap b _ => (b < length (heap m'))%nat | _ => True end) as L'. { destruct S as (_ & E & _). destruct a; [exact L|]. rewrite E. exact L. }
  pose proof S as (A & B & C & D). split; [|split; [|split]].
  - destruct a; cbn [write vars]; rewrite A; reflexivity.
  - rewrite !write_len. exact B.
  - intros b. rewrite !write_obj by assumption. apply C.
  - intros b. rewrite !chunkAt_write by assumption. destruct a as [z|c o]; [apply D|]. destruct (Nat.eqb c b); [|apply D]. cbn [c_data]. rewrite D. reflexivity.
Qed.
Lemma typed_tail : forall m v vs, typed env (m, v :: vs) -> typed env (m, vs).
Proof. intros m v vs (A & B & C). cbn [fst snd] in *. inversion A; subst. inversion B; subst. split; [assumption|]. split; assumption. Qed.
Lemma reach_incl : forall m vs vs' b, incl vs vs' -> reachable env m vs b -> reachable env m vs' b.
Proof.
  intros m vs vs' b I H. induction H as [b H|b c H IH J]; [|eapply ReachObj; eassumption]. apply ReachVar. unfold varRefs in *. apply in_flat_map in H. destruct H as (v & A & B). apply in_flat_map. exists v. auto.
Qed.
Lemma separate_mid : forall l1 v l2, separate (l1 ++ v :: l2) -> Forall (fun w => apart (fst v) (sizeOf (snd v)) (fst w) (sizeOf (snd w))) (l1 ++ l2).
Proof.
  induction l1 as [|w l1 IH]; intros v l2 H; cbn [app] in *; inversion H as [|x y A B]; subst; [exact A|]. constructor; [|apply IH; exact B]. rewrite Forall_forall in A. specialize (A v (in_elt v l1 l2)). unfold apart in *. lia.
Qed.

Section Core.
Variables (m : mem) (vs vs0 : list (Z * ty)) (a : addr) (t : ty) (src : addr).
Hypothesis G : good env (m, vs0).
Hypothesis Hi : incl vs vs0.
Hypothesis Ty : typed env (m, vs).
Hypothesis Ta : target env (m, vs) a t.
Hypothesis Os : slotsOk env m src (slots t).
Let mF := write m a (sizeOf t) (cellsOf m t src).
Let N := length (heap m).
Lemma reach_live : forall b, reachable env m vs b -> live m b = true. Proof. intros b H. apply (g_reach _ _ _ G). eapply reach_incl; eassumption. Qed.
Lemma c_La : match a with AHeap b _ => (b < length (heap m))%nat | _ => True end. Proof. pose proof Ta as T. unfold target in T. destruct a; cbn [placeIn fst snd] in T; [exact Logic.I|apply T]. Qed.
Lemma c_cases : (exists x T o, a = plus (AVar x) o /\ In (x, T) vs /\ Sub T o t) \/
  (exists b x T o, a = plus (AHeap b x) o /\ (b < length (heap m))%nat /\ reachable env m vs b /\ content env m b = Some (x, T) /\ Sub T o t).
Proof.
  pose proof Ta as T. unfold target in T. destruct a as [z|b z]; cbn [placeIn fst snd] in T.
  - left. destruct T as (x & T & o & I & S & ->). exists x, T, o. auto.
  - right. destruct T as (L & Pb & x & T & o & C & S & ->). exists b, x, T, o. auto.
Qed.
Lemma ty_var : forall v, In v vs -> wfT (snd v) /\ slotsOk env m (AVar (fst v)) (slots (snd v)). Proof. destruct Ty as (A & _). rewrite Forall_forall in A. exact A. Qed.
Lemma c_old : slotsOk env m a (slots t).
Proof.
  pose proof Ta as T. unfold target in T. destruct a as [z|b z]; cbn [placeIn fst snd] in T.
  - destruct T as (x & T & o & I & S & ->). destruct (ty_var _ I) as [W O]. cbn [fst snd] in *. destruct (sub_slots _ _ _ S W) as (pre & post & E & _ & _). rewrite E, !slotsOk_app, slotsOk_shift in O. apply O.
  - destruct T as (L & Pb & x & T & o & C & S & ->). apply reach_live in Pb. destruct Ty as (_ & _ & B). destruct (B b Pb) as [B1 B2]. cbn [fst] in *. rewrite C in B2. pose proof (proj1 (content_ok env m b x T C) B1) as O. destruct (sub_slots _ _ _ S B2) as (pre & post & E & _ & _). rewrite E, !slotsOk_app, slotsOk_shift in O. apply O.
Qed.
(** The length of a dynamic array does not change. *)
Lemma c_slots : forall b, objSlots env mF b = objSlots env m b /\ content env mF b = content env m b.
Proof.
  intros b. unfold objSlots, content. unfold mF at 1 3. rewrite !write_obj by apply c_La. destruct (c_obj (chunkAt m b)) eqn:E; auto.
  assert (read mF (AHeap b 0) = read m (AHeap b 0)) as ->; [|auto]. unfold mF. rewrite write_read by apply c_La. pose proof Ta as T. unfold target in T. destruct a as [z|c z]; [reflexivity|]. cbn [hits]. destruct (Nat.eqb_spec c b) as [->|]; [|reflexivity]. cbn [andb].
  cbn [placeIn fst snd] in T. destruct T as (L & Pb & x & T & o & C & S & ->). unfold content in C. rewrite E in C. injection C as <- <-. apply reach_live in Pb. destruct Ty as (_ & _ & B). destruct (B b Pb) as [_ B2]. cbn [fst] in B2. unfold content in B2. rewrite E in B2. destruct (sub_wf _ _ _ S B2) as (_ & Q & _).
  destruct (Z.leb_spec (16 + o) 0); [lia|]. reflexivity.
Qed.
Lemma c_objs : sameObjs m mF. Proof. split; [unfold mF; rewrite write_len; apply le_n|]. intros b _. unfold mF. apply write_obj. apply c_La. Qed.
Lemma far_agrees : forall x l, match a with AHeap b _ => b <> x | _ => True end -> agrees m (AHeap x 0) mF (AHeap x 0) l.
Proof. intros x l H. unfold agrees. apply Forall_forall. intros p _ d _. unfold mF. rewrite write_read by apply c_La. cbn [plus]. destruct a as [z|b z]; cbn [hits]; [reflexivity|]. destruct (Nat.eqb_spec b x); [congruence|reflexivity]. Qed.
Lemma c_other : forall x, match a with AHeap b _ => b <> x | _ => True end -> objRefs env mF x = objRefs env m x.
Proof. intros x H. unfold objRefs. rewrite (proj1 (c_slots x)). apply agrees_refs. apply far_agrees. exact H. Qed.
Lemma heap_var : forall b v, a = AHeap b v -> varRefs mF vs = varRefs m vs.
Proof. intros b v Ea. apply flat_map_ext. intros w. apply agrees_refs. unfold agrees. apply Forall_forall. intros p _ d _. unfold mF. rewrite write_read by apply c_La. rewrite Ea. reflexivity. Qed.
Lemma c_refs : forall b, cnt b (varRefs mF vs) + tot N (live m) (fun x => cnt b (objRefs env mF x)) + cnt b (refsAt m a (slots t)) =
  cnt b (varRefs m vs) + tot N (live m) (fun x => cnt b (objRefs env m x)) + cnt b (refsAt m src (slots t)).
Proof.
  intros b. pose proof c_La as La. destruct c_cases as [(x & T & o & Ea & I & S)|(h & x & T & o & Ea & L & Pb & C & S)].
  - assert (tot N (live m) (fun x => cnt b (objRefs env mF x)) = tot N (live m) (fun x => cnt b (objRefs env m x))) as ->. { unfold tot. apply sum_ext. intros y _. rewrite c_other by (rewrite Ea; exact Logic.I). reflexivity. }
    destruct (ty_var _ I) as [W O]. cbn [fst snd] in *. pose proof (part_refs m (AVar x) T o t src (cellsOf m t src) Logic.I W S (cellsOf_ok m t src) b) as P. rewrite <- Ea in P. fold mF in P.
    destruct (in_split _ _ I) as (l1 & l2 & El). assert (separate vs) as Sp by apply Ty. rewrite El in Sp. apply separate_mid in Sp. rewrite Forall_forall in Sp. cbn [fst snd] in Sp.
    assert (forall v, In v (l1 ++ l2) -> refsAt mF (AVar (fst v)) (slots (snd v)) = refsAt m (AVar (fst v)) (slots (snd v))) as Oth.
    { intros v Iv. specialize (Sp v Iv). assert (In v vs) as Iw. { rewrite El. apply in_app_or in Iv. apply in_or_app. destruct Iv; [left|right; right]; assumption. } destruct (ty_var v Iw) as [Wv _].
      destruct (sub_wf _ _ _ S W) as (Q1 & Q2 & Q3). apply agrees_refs. apply (beside_agrees m a (sizeOf t) _ (x + o - fst v)); [exact La|rewrite Ea; cbn; f_equal; lia|]. pose proof (slots_inside _ Wv) as In. unfold inside, beside, apart in *. eapply Forall_impl; [|exact In]. cbv beta. intros p. lia. }
    rewrite El. unfold varRefs. rewrite !flat_map_app. cbn [flat_map fst snd]. rewrite !cnt_app.
    assert (flat_map (fun v => refsAt mF (AVar (fst v)) (slots (snd v))) l1 = flat_map (fun v => refsAt m (AVar (fst v)) (slots (snd v))) l1) as ->. { rewrite !flat_map_concat_map. f_equal. apply map_ext_in. intros v Iv. apply Oth. apply in_or_app. left. exact Iv. }
    assert (flat_map (fun v => refsAt mF (AVar (fst v)) (slots (snd v))) l2 = flat_map (fun v => refsAt m (AVar (fst v)) (slots (snd v))) l2) as ->. { rewrite !flat_map_concat_map. f_equal. apply map_ext_in. intros v Iv. apply Oth. apply in_or_app. right. exact Iv. }
    lia.
  - rewrite (heap_var h (x + o)) by exact Ea. apply reach_live in Pb. destruct Ty as (_ & _ & B). destruct (B h Pb) as [B1 B2]. cbn [fst] in *. rewrite C in B2.
    pose proof (part_refs m (AHeap h x) T o t src (cellsOf m t src) L B2 S (cellsOf_ok m t src) b) as P. rewrite <- Ea in P. fold mF in P.
    rewrite <- (content_refs env m h x T C) in P. rewrite <- (content_refs env mF h x T) in P by (rewrite (proj2 (c_slots h)); exact C).
    pose proof (sum_change (fun y => if live m y then cnt b (objRefs env mF y) else 0) (fun y => if live m y then cnt b (objRefs env m y) else 0) h N L) as Q. cbv beta in Q. rewrite Pb in Q. unfold tot.
    specialize (Q ltac:(intros y Ny; rewrite c_other by (rewrite Ea; cbn [plus]; congruence); reflexivity)). lia.
Qed.
Lemma c_ok : (forall v, In v vs -> slotsOk env mF (AVar (fst v)) (slots (snd v))) /\ forall b, live m b = true -> slotsOk env mF (AHeap b 0) (objSlots env mF b).
Proof.
  pose proof c_La as La. pose proof c_objs as SO. pose proof Ty as (_ & Sep & B). cbn [fst snd] in *. destruct c_cases as [(x & T & o & Ea & I & S)|(h & x & T & o & Ea & L & Pb & C & S)].
  - split.
    + destruct (ty_var _ I) as [W O]. cbn [fst snd] in *. pose proof (part_ok env m (AVar x) T o t src (cellsOf m t src) Logic.I W S (cellsOf_ok m t src) O Os) as [P _]. rewrite <- Ea in P. fold mF in P.
      destruct (in_split _ _ I) as (l1 & l2 & El). rewrite El in Sep. apply separate_mid in Sep. rewrite Forall_forall in Sep. cbn [fst snd] in Sep. intros v Iv. rewrite El in Iv. apply in_app_or in Iv.
      assert (v = (x, T) \/ In v (l1 ++ l2)) as [->|Iv2]. { destruct Iv as [Iv|[Iv|Iv]]; [right; apply in_or_app; left; exact Iv|left; congruence|right; apply in_or_app; right; exact Iv]. } { exact P. }
      specialize (Sep v Iv2). assert (In v vs) as Iw. { rewrite El. apply in_or_app. exact Iv. } destruct (ty_var v Iw) as [Wv Ov].
      destruct (sub_wf _ _ _ S W) as (Q1 & Q2 & Q3). eapply agrees_ok; [exact SO| |exact Ov]. apply (beside_agrees m a (sizeOf t) _ (x + o - fst v)); [exact La|rewrite Ea; cbn; f_equal; lia|]. pose proof (slots_inside _ Wv) as In. unfold inside, beside, apart in *. eapply Forall_impl; [|exact In]. cbv beta. intros p. lia.
    + intros b Lb. rewrite (proj1 (c_slots b)). eapply agrees_ok; [exact SO|apply far_agrees; rewrite Ea; exact Logic.I|]. apply (B b Lb).
  - split.
    + intros v Iv. destruct (ty_var v Iv) as [Wv Ov]. eapply agrees_ok; [exact SO| |exact Ov]. unfold agrees. apply Forall_forall. intros p _ d _. unfold mF. rewrite write_read by exact La. rewrite Ea. reflexivity.
    + intros b Lb. destruct (Nat.eq_dec h b) as [->|Nb].
      * destruct (B b Lb) as [B1 B2]. rewrite C in B2. pose proof (proj1 (content_ok env m b x T C) B1) as O. apply (content_ok env mF b x T); [rewrite (proj2 (c_slots b)); exact C|].
        pose proof (part_ok env m (AHeap b x) T o t src (cellsOf m t src) L B2 S (cellsOf_ok m t src) O Os) as [P _]. rewrite <- Ea in P. exact P.
      * rewrite (proj1 (c_slots b)). eapply agrees_ok; [exact SO|apply far_agrees; rewrite Ea; exact Nb|]. apply (B b Lb).
Qed.

(** ** Assignment *)
Let K := fun x => objRefs env mF x.
Let R := varRefs mF vs.
Let h := match a with AHeap b _ => Some b | AVar _ => None end.
Lemma c_reach : forall b z, a = AHeap b z -> reachK K R N b.
Proof.
  intros h' z Ea. pose proof Ta as T. unfold target in T. rewrite Ea in T. cbn [placeIn fst snd] in T. destruct T as (L & Pb & _). 
  assert (forall y, reachable env m vs y -> reachK K R N y \/ reachK K R N h') as Q.
  { intros y H. assert (live m y = true) as Ly by (apply reach_live; exact H). apply live_lt in Ly. induction H as [y H|y c H IH J].
    - left. apply RKR; [|exact Ly]. unfold R. rewrite (heap_var h' z Ea). exact H.
    - destruct (IH (live_lt m y (reach_live y H))) as [IH1|IH1]; [|auto]. destruct (Nat.eq_dec h' y) as [->|Ny]; [auto|]. left. apply (RKK _ _ _ y); [exact IH1| |exact Ly]. unfold K. rewrite c_other; [exact J|]. rewrite Ea. exact Ny. }
  destruct (Q h' Pb); assumption.
Qed.
Definition assignFuel : nat := Z.to_nat (mu env N m [Cand (deref m t (WPtr a)) t]).
Lemma core : forall n m1, sameData m m1 -> (forall b, live m1 b = live m b) ->
  (forall b, (b < N)%nat -> c_ref (chunkAt m1 b) = cnt b (varRefs m vs) + cnt b (heapRefs env m) + cnt b (refsAt m src (slots t))) -> (assignFuel <= n)%nat ->
  (exists m2, refCnt env n false m1 (deref m1 t (WPtr a)) t = Ok m2 /\ sameData m m2 /\ good env (write m2 a (sizeOf t) (cellsOf m2 t src), vs)) \/
  (refCnt env n false m1 (deref m1 t (WPtr a)) t = Err EOther /\ busy m).
Proof.
  intros n m1 S Lv C F. set (cs := [Cand (deref m1 t (WPtr a)) t]). pose proof c_ok as [OkV OkB].
  assert (inv env K R h N m1 cs) as I.
  { constructor.
    - destruct S as (_ & E & _). exact E.
    - intros b L. rewrite C by exact L. pose proof (c_refs b) as Q. cbn [cs pend flat_map defers]. rewrite app_nil_r, cand_deref, (refs_same m m1 S), cnt_nil. rewrite heapRefs_tot. fold N.
      assert (tot N (act m1 cs) (fun x => cnt b (K x)) = tot N (live m) (fun x => cnt b (objRefs env mF x))) as ->. { apply tot_eq. intros x _. unfold act. rewrite Lv. cbn. apply andb_true_r. }
      unfold R. lia.
    - intros b [].
    - intros b L Nb. rewrite (objRefs_same env m m1 S). unfold K. apply c_other. unfold h in Nb. destruct a; [exact Logic.I|congruence].
    - intros b L. rewrite Lv in L. rewrite (objSlots_same env m m1 S). apply (slotsOk_same env m m1 S). apply (g_obj _ _ _ G b L).
    - pose proof c_reach as Q. pose proof Ta as T. unfold h. destruct a as [z|b z]; [exact Logic.I|]. split; [apply (Q b z eq_refl)|]. cbn [target placeIn fst snd] in T. destruct T as (_ & _ & x & T & o & E & _). rewrite (content_same env m m1 S), E. discriminate.
    - constructor; [|constructor]. apply candOk_deref. apply (slotsOk_same env m m1 S). apply c_old. }
  assert (mu env N m1 cs = mu env N m [Cand (deref m t (WPtr a)) t]) as MU.
  { unfold mu. cbn [cs weights map weight list_sum fold_right]. f_equal. unfold tot. apply sum_ext. intros x _. rewrite (cw_same env m m1 x S). unfold act. rewrite Lv. reflexivity. }
  destruct (dec_loop env K R h N n m1 cs I) as [(m2 & E & S2 & L2 & I2)|[E B]].
  - rewrite MU. unfold assignFuel in F. lia.
  - left. exists m2. split; [exact E|]. assert (sameData m m2) as S3 by (eapply same_trans; eassumption). split; [exact S3|]. rewrite (cellsOf_same m m2 t src S3).
    set (m3 := write m2 a (sizeOf t) (cellsOf m t src)). assert (sameData mF m3) as S4 by (apply write_same; [exact S3|apply c_La]).
    assert (match a with AHeap b _ => (b < length (heap m2))%nat | _ => True end) as La2. { pose proof c_La as La. destruct a; [exact Logic.I|]. destruct S3 as (_ & Q & _). rewrite Q. exact La. }
    assert (forall b, live m3 b = live m2 b) as L3 by (intros b; apply write_live; exact La2).
    assert (length (heap m3) = N) as LN. { unfold m3. rewrite write_len. destruct S3 as (_ & Q & _). exact Q. }
    split; [split; [|split]|]; cbn [fst snd].
    + rewrite Forall_forall. intros v Iv. split; [apply (ty_var v Iv)|]. apply (slotsOk_same env mF m3 S4). apply OkV. exact Iv.
    + apply Ty.
    + intros b Lb. rewrite L3 in Lb. apply L2 in Lb. rewrite Lv in Lb. split.
      * rewrite (objSlots_same env mF m3 S4). apply (slotsOk_same env mF m3 S4). apply OkB. exact Lb.
      * rewrite (content_same env mF m3 S4), (proj2 (c_slots b)). destruct (content env m b) as [[x T]|] eqn:Ec; [|exact Logic.I]. eapply g_wf; eassumption.
    + intros b Lb. cbn [fst snd] in *. rewrite LN in Lb. rewrite cnt_app, heapRefs_tot, LN. unfold m3. rewrite write_ref by exact La2. fold m3. pose proof (i_cnt _ _ _ _ _ _ _ I2 b Lb) as Q. cbn [pend flat_map defers] in Q. rewrite cnt_nil in Q. rewrite Q.
      rewrite (varRefs_same mF m3 S4). fold R. rewrite (tot_eq N (live m3) (act m2 []) (fun x => cnt b (objRefs env m3 x))). 2:{ intros x _. rewrite L3. unfold act. cbn. symmetry. apply andb_true_r. }
      enough (tot N (act m2 []) (fun x => cnt b (objRefs env m3 x)) = tot N (act m2 []) (fun x => cnt b (K x))) as -> by lia. unfold tot. apply sum_ext. intros x _. rewrite (objRefs_same env mF m3 S4). reflexivity.
  - right. split; [exact E|]. eapply busy_same; [exact S| |exact B]. intros b Lb. rewrite <- Lv. exact Lb.
Qed.
End Core.

(** ** The end of a block *)
Lemma end_ok : forall m z t r, good env (m, (z, t) :: r) -> exists F, forall n, (F <= n)%nat ->
  (exists m2, refCnt env n false m (deref m t (WPtr (AVar z))) t = Ok m2 /\ good env (m2, r)) \/ (refCnt env n false m (deref m t (WPtr (AVar z))) t = Err EOther /\ busy m).
Proof.
  intros m z t r G. set (cs := [Cand (deref m t (WPtr (AVar z))) t]). set (N := length (heap m)). set (K := fun x => objRefs env m x). set (R := varRefs m r).
  exists (Z.to_nat (mu env N m cs)). intros n F. assert (inv env K R None N m cs) as I.
  { constructor.
    - reflexivity.
    - intros b L. rewrite (g_cnt _ _ _ G b L). cbn [varRefs flat_map fst snd]. fold (varRefs m r). fold R. rewrite cnt_app, heapRefs_tot. fold N. cbn [cs pend flat_map defers]. rewrite app_nil_r, cand_deref, cnt_nil.
      assert (tot N (act m cs) (fun x => cnt b (K x)) = tot N (live m) (fun x => cnt b (objRefs env m x))) as ->; [|lia]. apply tot_eq. intros x _. unfold act. cbn. apply andb_true_r.
    - intros b [].
    - reflexivity.
    - intros b L. apply (g_obj _ _ _ G b L).
    - exact Logic.I.
    - constructor; [|constructor]. apply candOk_deref. apply (g_var _ _ _ G (z, t)). left. reflexivity. }
  destruct (dec_loop env K R None N n m cs I ltac:(lia)) as [(m2 & E & S & L2 & I2)|[E B]]; [|right; auto].
  left. exists m2. split; [exact E|]. pose proof (typed_tail _ _ _ (proj1 G)) as Ty. destruct Ty as (T1 & T2 & T3). cbn [fst snd] in *. split; [split; [|split]|]; cbn [fst snd].
  - eapply Forall_impl; [|exact T1]. cbv beta. intros v [A B]. split; [exact A|]. apply (slotsOk_same env m m2 S). exact B.
  - exact T2.
  - intros b Lb. apply L2 in Lb. destruct (T3 b Lb) as [A B]. split; [|rewrite (content_same env m m2 S); exact B]. rewrite (objSlots_same env m m2 S). apply (slotsOk_same env m m2 S). exact A.
  - intros b Lb. cbn [fst snd] in *. assert (length (heap m2) = N) as LN by apply S. rewrite LN in Lb. rewrite cnt_app, heapRefs_tot, LN. pose proof (i_cnt _ _ _ _ _ _ _ I2 b Lb) as Q. cbn [pend flat_map defers] in Q. rewrite cnt_nil in Q. rewrite Q.
    rewrite (varRefs_same m m2 S). fold R. rewrite (tot_eq N (live m2) (act m2 []) (fun x => cnt b (objRefs env m2 x))). 2:{ intros x _. unfold act. cbn. symmetry. apply andb_true_r. }
    enough (tot N (act m2 []) (fun x => cnt b (objRefs env m2 x)) = tot N (act m2 []) (fun x => cnt b (K x))) as -> by lia. unfold tot. apply sum_ext. intros x _. rewrite (objRefs_same env m m2 S). reflexivity.
Qed.
End Assign.
