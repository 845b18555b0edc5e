(** Reference counting: the builtin functions for dynamic arrays. *)
From Coq Require Import ZArith Lia Bool List ZifyBool Permutation.
From Verif Require Import Base RefModel RefSpec RefProofs RefLoop RefDec RefWrite RefOps RefAssign.
Import ListNotations.
Local Open Scope Z_scope.

Section Items.
Variable env : nat -> ty.

(** ** A new variable, changed and new chunks *)
Lemma grow_ok : forall m vs z t mF, good env (m, vs) -> fresh (m, vs) z t -> sameObjs m mF ->
  (forall v, In v vs -> agrees m (AVar (fst v)) mF (AVar (fst v)) (slots (snd v))) ->
  slotsOk env mF (AVar z) (slots t) ->
  (forall b, live mF b = true -> slotsOk env mF (AHeap b 0) (objSlots env mF b) /\ match content env mF b with Some (_, T) => wfT T | None => True end) ->
  (forall b, (b < length (heap mF))%nat -> c_ref (chunkAt mF b) = cnt b (refsAt mF (AVar z) (slots t)) + cnt b (varRefs m vs) + tot (length (heap mF)) (live mF) (fun x => cnt b (objRefs env mF x))) ->
  good env (mF, (z, t) :: vs).
Proof.
  intros m vs z t mF G F SO AG O B C.
  assert (forall vs', (forall v, In v vs' -> In v vs) -> varRefs mF vs' = varRefs m vs') as VR.
  { induction vs' as [|v r IH]; intros H; [reflexivity|]. cbn [varRefs flat_map]. fold (varRefs mF r). fold (varRefs m r). rewrite IH by (intros; apply H; right; assumption). f_equal. apply agrees_refs. apply AG. apply H. left. reflexivity. }
  split; [split; [|split]|]; cbn [fst snd].
  - constructor; [split; [apply F|exact O]|]. rewrite Forall_forall. intros v I. destruct (g_var _ _ _ G v I) as [A D]. split; [exact A|]. eapply agrees_ok; [exact SO|apply AG; exact I|exact D].
  - constructor; [apply F|]. apply G.
  - exact B.
  - intros b L. cbn [fst snd] in *. rewrite (C b L). cbn [varRefs flat_map fst snd]. fold (varRefs mF vs). rewrite (VR vs) by auto. rewrite !cnt_app, heapRefs_tot. lia.
Qed.

(** ** Items copied from places *)
Lemma agrees_of : forall m a m' a' u, wfT u -> (forall d, 0 <= d < sizeOf u -> read m' (plus a' d) = read m (plus a d)) -> agrees m a m' a' (slots u).
Proof.
  intros m a m' a' u W H. pose proof (slots_inside u W) as I. unfold agrees, inside in *. rewrite Forall_forall in *. intros p J d D. specialize (I p J). apply cells_width in D. apply H. lia.
Qed.
Lemma items_split : forall m a u n, refsAt m a (slots (TArray u n)) = flat_map (fun j => refsAt m (plus a (Z.of_nat j * sizeOf u)) (slots u)) (seq 0 n).
Proof. intros m a u n. cbn [slots]. rewrite refs_flat. apply flat_map_ext. intros j. apply refs_shift. Qed.
Lemma items_okAt : forall m a u n, slotsOk env m a (slots (TArray u n)) <-> forall j, (j < n)%nat -> slotsOk env m (plus a (Z.of_nat j * sizeOf u)) (slots u).
Proof.
  intros m a u n. cbn [slots]. rewrite slotsOk_flat, Forall_forall. split; intros H j I.
  - apply slotsOk_shift. apply H. apply in_seq. lia.
  - apply slotsOk_shift. apply H. apply in_seq in I. lia.
Qed.
Lemma items_from : forall m mD A u n (P : nat -> addr), wfT u -> sameObjs m mD -> (forall j, (j < n)%nat -> slotsOk env m (P j) (slots u)) ->
  (forall j d, (j < n)%nat -> 0 <= d < sizeOf u -> read mD (plus A (Z.of_nat j * sizeOf u + d)) = read m (plus (P j) d)) ->
  slotsOk env mD A (slots (TArray u n)) /\ refsAt mD A (slots (TArray u n)) = flat_map (fun j => refsAt m (P j) (slots u)) (seq 0 n).
Proof.
  intros m mD A u n P W SO O H. assert (forall j, (j < n)%nat -> agrees m (P j) mD (plus A (Z.of_nat j * sizeOf u)) (slots u)) as AG. { intros j L. apply agrees_of; [exact W|]. intros d D. rewrite plus_plus. apply H; assumption. }
  split.
  - apply items_okAt. intros j L. eapply agrees_ok; [exact SO|apply AG; exact L|apply O; exact L].
  - rewrite items_split. rewrite !flat_map_concat_map. f_equal. apply map_ext_in. intros j I. apply in_seq in I. apply agrees_refs. apply AG. lia.
Qed.
Definition usable (m : mem) (a : addr) (u : ty) : Prop := slotsOk env m a (slots u) /\ forall b, In b (refsAt m a (slots u)) -> live m b = true.
Lemma usable_items : forall m a u n, usable m a (TArray u n) <-> forall j, (j < n)%nat -> usable m (plus a (Z.of_nat j * sizeOf u)) u.
Proof.
  intros m a u n. split.
  - intros [A B] j L. split; [apply (proj1 (items_okAt m a u n) A j L)|]. intros b I. apply B. rewrite items_split. apply in_flat_map. exists j. split; [apply in_seq; lia|exact I].
  - intros H. split; [apply items_okAt; intros j L; apply (H j L)|]. intros b I. rewrite items_split in I. apply in_flat_map in I. destruct I as (j & J & I). apply in_seq in J. apply (H j ltac:(lia)). exact I.
Qed.
Lemma source_usable : forall m vs a u, good env (m, vs) -> source env (m, vs) a u -> usable m a u.
Proof. intros m vs a u G S. destruct (g_place env m vs G _ a u S (fun _ H => H)) as (_ & A & B & _). split; assumption. Qed.

(** ** New arrays *)
Lemma newItems_ok : forall m vs z it len g (P : nat -> addr), good env (m, vs) -> fresh (m, vs) z (TDyn it) -> wfT (env it) -> 0 <= len <= INT_MAX ->
  (forall j, (j < Z.to_nat len)%nat -> usable m (P j) (env it)) ->
  (forall j d, (j < Z.to_nat len)%nat -> 0 <= d < sizeOf (env it) -> g (Z.of_nat j * sizeOf (env it) + d) = read m (plus (P j) d)) ->
  exists F, forall n, (F <= n)%nat -> exists s', newItems env n m vs z it len g = Ok s' /\ good env s'.
Proof.
  intros m vs z it len g P G Fr W L U Hg. set (T := TArray (env it) (Z.to_nat len)). exists (wt T). intros n Fu. unfold newItems. destruct ((len <? 0) || (INT_MAX <? len)) eqn:E; [lia|]. clear E. cbn [alloc].
  set (c := MkChunk 1 (OItems it) _). set (N := length (heap m)). set (m1 := MkMem (vars m) (heap m ++ [c])). pose proof (size_nonneg _ W) as Sz.
  assert (forall b, (b < N)%nat -> chunkAt m1 b = chunkAt m b) as CA by (intros; apply nth_grow; assumption).
  assert (chunkAt m1 N = c) as CN. { unfold chunkAt, m1, N. cbn [heap]. rewrite app_nth2 by lia. rewrite Nat.sub_diag. reflexivity. }
  assert (length (heap m1) = S N) as L1. { unfold m1, N. cbn [heap]. rewrite app_length. cbn. lia. }
  assert (sameObjs m m1) as SO. { split; [rewrite L1; fold N; lia|]. intros b Lb. rewrite CA by exact Lb. reflexivity. }
  assert (forall j, (j < Z.to_nat len)%nat -> forall b, In b (refsAt m (P j) (slots (env it))) -> live m b = true) as LU by (intros j J; apply (U j J)).
  destruct (items_from m m1 (AHeap N 16) (env it) (Z.to_nat len) P W SO) as [O1 R1].
  { intros j J. apply (U j J). }
  { intros j d J D. cbn [plus read]. rewrite CN. unfold c. cbn [c_data]. destruct (Z.eqb_spec (16 + (Z.of_nat j * sizeOf (env it) + d)) 0); [nia|]. destruct (Z.eqb_spec (16 + (Z.of_nat j * sizeOf (env it) + d)) 8); [nia|].
    destruct ((16 <=? _) && _) eqn:E; [rewrite <- (Hg j d J D); f_equal; lia|]. nia. }
  fold T in O1, R1.
  destruct (inc_ok env n m1 (WPtr (AHeap N 16)) T Fu) as (m2 & E2 & S2 & C2 & L2).
  { exists (AHeap N 16). split; [reflexivity|exact O1]. }
  { intros b I. cbn [candRefs isPtrKind T] in I. rewrite R1 in I. apply in_flat_map in I. destruct I as (j & J & I). apply in_seq in J. apply LU in I; [|lia]. pose proof (live_lt m b I) as Lb. unfold live. rewrite CA by exact Lb. exact I. }
  fold T. rewrite E2. cbn [bind]. eexists. split; [reflexivity|]. unfold declare. cbn [fst snd]. set (mF := write m2 _ _ _). change (candRefs m1 (Cand (WPtr (AHeap N 16)) T)) with (refsAt m1 (AHeap N 16) (slots T)) in C2.
  assert (forall b, chunkAt mF b = chunkAt m2 b) as CF by reflexivity. pose proof S2 as (Sv & Sl & So & Sd).
  assert (length (heap mF) = S N) as LF. { change (heap mF) with (heap m2). rewrite Sl. exact L1. }
  assert (forall a, match a with AHeap _ _ => True | _ => False end -> read mF a = read m1 a) as RF. { intros [y|b o] H; [destruct H|]. cbn [read]. rewrite CF, Sd. reflexivity. }
  assert (sameObjs m mF) as SOF. { split; [rewrite LF; fold N; lia|]. intros b Lb. rewrite CF, So, CA by exact Lb. reflexivity. }
  assert (sameObjs m1 mF) as SO1. { split; [rewrite LF, L1; lia|]. intros b Lb. rewrite CF, So. reflexivity. }
  assert (forall b, (b < N)%nat -> objSlots env mF b = objSlots env m b /\ content env mF b = content env m b) as OS.
  { intros b Lb. unfold objSlots, content. rewrite (RF (AHeap b 0) Logic.I). rewrite CF, So. cbn [read]. rewrite CA by exact Lb. auto. }
  assert (forall b l, (b < N)%nat -> agrees m (AHeap b 0) mF (AHeap b 0) l) as AB. { intros b l Lb. unfold agrees. apply Forall_forall. intros p _ d _. rewrite (RF (plus (AHeap b 0) (fst p + d)) Logic.I). cbn [plus read]. rewrite CA by exact Lb. reflexivity. }
  assert (forall b, (b < N)%nat -> objRefs env mF b = objRefs env m b) as OR. { intros b Lb. unfold objRefs. rewrite (proj1 (OS b Lb)). apply agrees_refs. apply AB. exact Lb. }
  assert (c_obj (chunkAt mF N) = OItems it) as ON. { rewrite CF, So, CN. reflexivity. }
  assert (read mF (AHeap N 0) = WInt len) as RL. { rewrite (RF (AHeap N 0) Logic.I). cbn [read]. rewrite CN. reflexivity. }
  assert (agrees m1 (AHeap N 16) mF (AHeap N 16) (slots T)) as AN. { unfold agrees. apply Forall_forall. intros p _ d _. apply RF. exact Logic.I. }
  assert (objSlots env mF N = shift 16 (slots T) /\ content env mF N = Some (16, T)) as [OSN CTN]. { unfold objSlots, content. rewrite ON, RL. split; reflexivity. }
  assert (objRefs env mF N = flat_map (fun j => refsAt m (P j) (slots (env it))) (seq 0 (Z.to_nat len))) as ORN. { unfold objRefs. rewrite OSN, refs_shift. cbn [plus]. replace (0 + 16) with 16 by lia. rewrite (agrees_refs _ _ _ _ _ AN). exact R1. }
  assert (refsAt mF (AVar z) (slots (TDyn it)) = [N]) as RZ. { cbn [slots]. rewrite refs1. unfold mF. cbn [plus]. rewrite write_read by exact Logic.I. cbn [hits offs sizeOf]. replace ((z <=? z + 16) && (z + 16 <? z + 24)) with true by lia. replace (z + 16 - z) with 16 by lia. reflexivity. }
  assert (forall b, live mF b = live m1 b) as LV. { intros b. unfold live. rewrite CF. apply L2. }
  assert (forall b, (b < N)%nat -> live m1 b = live m b) as LM. { intros b Lb. unfold live. rewrite CA by exact Lb. reflexivity. }
  apply (grow_ok m vs z (TDyn it) mF G Fr SOF).
  - intros v I. apply (agrees_of m _ mF). { apply (g_var _ _ _ G v I). } intros d D. unfold mF. rewrite write_read by exact Logic.I. cbn [plus]. destruct Fr as [_ Fa]. rewrite Forall_forall in Fa. specialize (Fa v I). cbn [snd] in Fa. unfold apart in Fa. cbn [hits sizeOf].
    replace ((z <=? fst v + d) && (fst v + d <? z + 24)) with false by (cbn [sizeOf] in Fa; lia). cbn [read]. rewrite Sv. reflexivity.
  - constructor; [|constructor]. unfold slotOk. cbn [fst snd]. unfold mF at 1. cbn [plus]. rewrite write_read by exact Logic.I. cbn [hits offs sizeOf]. replace ((z <=? z + 16) && (z + 16 <? z + 24)) with true by lia. replace (z + 16 - z) with 16 by lia. unfold oneCell. cbn [Z.eqb Pos.eqb]. rewrite ON, LF. split; [lia|auto].
  - intros b Lb. pose proof (live_lt mF b Lb) as L3. rewrite LF in L3. destruct (Nat.eq_dec b N) as [->|Nb].
    + rewrite OSN, CTN. split; [|exact W]. apply (slotsOk_shift env mF (AHeap N 0) 16). eapply agrees_ok; [exact SO1|exact AN|exact O1].
    + assert (b < N)%nat as Lb2 by lia. rewrite LV, LM in Lb by exact Lb2. destruct (OS b Lb2) as [-> ->]. split; [eapply agrees_ok; [exact SOF|apply AB; exact Lb2|apply (g_obj _ _ _ G b Lb)]|]. destruct (content env m b) as [[x Y]|] eqn:E; [|exact Logic.I]. eapply g_wf; eassumption.
  - intros b Lb. rewrite LF in *. rewrite CF, C2, R1, RZ, cnt_cons, cnt_nil.
    assert (tot (S N) (live mF) (fun x => cnt b (objRefs env mF x)) = cnt b (heapRefs env m) + cnt b (objRefs env mF N)) as ->.
    { rewrite heapRefs_tot. fold N. unfold tot. replace (S N) with (N + 1)%nat by lia. rewrite seq_app. cbn [seq Nat.add].
      assert (forall A (f : A -> Z) l k, sum f (l ++ k) = sum f l + sum f k) as SA. { intros A f l. induction l as [|x l IH]; intros k; cbn [app sum]; [lia|]. rewrite IH. lia. }
      rewrite SA. cbn [sum]. rewrite LV. replace (live m1 N) with true by (unfold live; rewrite CN; reflexivity). rewrite Z.add_0_r. f_equal. apply sum_ext. intros x I. apply in_seq in I. rewrite LV, LM, OR by lia. reflexivity. }
    rewrite ORN. destruct (Nat.eq_dec b N) as [->|Nb].
    + rewrite CN, Nat.eqb_refl. cbn [c_ref c].
      assert (cnt N (varRefs m vs) = 0) as ->. { apply cnt_notIn. intros I. apply (g_varRef _ _ _ G) in I. apply live_lt in I. fold N in I. lia. }
      assert (cnt N (heapRefs env m) = 0) as ->. { apply cnt_notIn. intros I. unfold heapRefs in I. apply in_flat_map in I. destruct I as (x & _ & I). destruct (live m x) eqn:E; [|destruct I]. apply (g_objRef _ _ _ G x N E) in I. apply live_lt in I. fold N in I. lia. }
      lia.
    + rewrite CA by lia. rewrite (g_cnt _ _ _ G b) by (fold N; lia). destruct (Nat.eqb_spec N b); [congruence|]. lia.
Qed.

(** ** Dynamic arrays *)
Record dynAt (m : mem) (b : addr) (it : nat) (h : nat) (n : nat) : Prop := MkDyn {
  y_data : dataOf m b = WPtr (AHeap h 16); y_live : live m h = true; y_obj : c_obj (chunkAt m h) = OItems it; y_wf : wfT (env it);
  y_n : n = lenOf (read m (AHeap h 0)); y_len : dynLen m b = Z.of_nat n; y_items : itemsAt m b = Z.of_nat n; y_use : usable m (AHeap h 16) (TArray (env it) n); y_of : itemsOf m b = cellsAt m (AHeap h 16) }.
Lemma dyn_cases : forall m vs b it, good env (m, vs) -> source env (m, vs) b (TDyn it) ->
  (exists h n, dynAt m b it h n) \/ ((forall h o, dataOf m b <> WPtr (AHeap h o)) /\ dynLen m b = 0 /\ dynCap m b = 0 /\ itemsAt m b = 0).
Proof.
  intros m vs b it G S. destruct (source_usable _ _ _ _ G S) as [O L]. cbn [slots] in *. inversion O as [|x l A _]; subst. unfold slotOk in A. cbn [fst snd] in A. rewrite refs1 in L. unfold dynLen, dynCap, dimOf, itemsAt, dataOf.
  destruct (read m (plus b 16)) as [y|[y|h o]|y] eqn:E; try (right; repeat split; try reflexivity; intros; discriminate). left. destruct A as (A1 & A2 & ->). exists h, (lenOf (read m (AHeap h 0))). specialize (L h (or_introl eq_refl)).
  assert (content env m h = Some (16, TArray (env it) (lenOf (read m (AHeap h 0))))) as C. { unfold content. rewrite A2. reflexivity. }
  constructor; auto.
  - exact (g_wf _ _ _ G h _ _ L C).
  - unfold dynLen, dimOf, dataOf. rewrite E. reflexivity.
  - unfold itemsAt. rewrite E. reflexivity.
  - split; [apply (content_ok env m h _ _ C); apply (g_obj _ _ _ G h L)|]. intros c I. apply (g_objRef _ _ _ G h c L). rewrite (content_refs env m h _ _ C). exact I.
  - unfold itemsOf, dataOf. rewrite E. reflexivity.
Qed.
Lemma dyn_item : forall m b it h n j, dynAt m b it h n -> (j < n)%nat -> usable m (AHeap h (16 + Z.of_nat j * sizeOf (env it))) (env it).
Proof. intros m b it h n j D J. apply (proj1 (usable_items m (AHeap h 16) (env it) n) (y_use _ _ _ _ _ D) j J). Qed.
Definition fineN (m : mem) (vs : list (Z * ty)) (f : nat -> outcome state) : Prop := exists F, forall n, (F <= n)%nat -> exists s', f n = Ok s' /\ good env s'.
Lemma op_fromArr : forall m vs z b it k, good env (m, vs) -> fresh (m, vs) z (TDyn it) -> source env (m, vs) b (TArray (env it) k) -> Z.of_nat k <= INT_MAX ->
  fineN m vs (fun n => exec env n (m, vs) (OFromArr z b it k)).
Proof.
  intros m vs z b it k G Fr S L. cbn [exec fst snd]. assert (wfT (env it)) as W. { destruct (g_place env m vs G _ b _ S (fun _ H => H)) as (W & _). exact W. }
  apply (newItems_ok m vs z it (Z.of_nat k) (cellsAt m b) (fun j => plus b (Z.of_nat j * sizeOf (env it))) G Fr W); [lia| |]; rewrite Nat2Z.id.
  - intros j J. apply (proj1 (usable_items m b (env it) k) (source_usable _ _ _ _ G S) j J).
  - intros j d J D. unfold cellsAt. rewrite plus_plus. reflexivity.
Qed.
Lemma op_slice : forall m vs z b it i j, good env (m, vs) -> allowed env (m, vs) (OSlice z b it i j) -> fineN m vs (fun n => exec env n (m, vs) (OSlice z b it i j)).
Proof.
  intros m vs z b it i j G (Fr & W & S & e & H1 & H2 & H3 & H4). cbn [fst snd] in *. cbn [exec fst snd].
  assert (dynLen m b = itemsAt m b) as DL. { destruct (dyn_cases _ _ _ _ G S) as [(h & n & D)|(_ & A & _ & B)]; [rewrite (y_len _ _ _ _ _ D), (y_items _ _ _ _ _ D); reflexivity|congruence]. }
  rewrite DL. set (j1 := if j =? INT_MIN then itemsAt m b else j). set (j2 := if j1 <? 0 then j1 + itemsAt m b else j1).
  assert (j2 = e) as ->. { assert (INT_MIN < 0) by reflexivity. unfold j2, j1. destruct (Z.eqb_spec j INT_MIN); [destruct (Z.ltb_spec (itemsAt m b) 0)|destruct (Z.ltb_spec j 0)]; lia. }
  destruct ((i <? 0) || (e <? i) || (itemsAt m b <? e)) eqn:E; [lia|].
  destruct (dyn_cases _ _ _ _ G S) as [(h & n & D)|(_ & A & _ & B)].
  - apply (newItems_ok m vs z it (e - i) _ (fun k => AHeap h (16 + (i + Z.of_nat k) * sizeOf (env it))) G Fr W); [lia| |].
    + intros k K. rewrite (y_items _ _ _ _ _ D) in H2. replace (i + Z.of_nat k) with (Z.of_nat (Z.to_nat i + k)) by lia. eapply dyn_item; [exact D|]. lia.
    + intros k d K Q. rewrite (y_of _ _ _ _ _ D). unfold cellsAt. cbn [plus]. do 2 f_equal. lia.
  - assert (e - i = 0) as -> by lia. apply (newItems_ok m vs z it 0 _ (fun _ => b) G Fr W); [unfold INT_MAX, two31; lia| |]; intros k; cbn; lia.
Qed.
Lemma op_copyNull : forall m vs z b it, good env (m, vs) -> fresh (m, vs) z (TDyn it) -> (forall h o, dataOf m b <> WPtr (AHeap h o)) -> good env (declare (m, vs) z (TDyn it) (cellsAt m b)).
Proof.
  intros m vs z b it G Fr N. unfold declare. cbn [fst snd].
  assert (read (write m (AVar z) (sizeOf (TDyn it)) (cellsAt m b)) (plus (AVar z) 16) = dataOf m b) as E. { cbn [plus]. rewrite write_read by exact Logic.I. cbn [hits offs sizeOf]. replace ((z <=? z + 16) && (z + 16 <? z + 24)) with true by lia. replace (z + 16 - z) with 16 by lia. reflexivity. }
  apply (decl_ok env m vs z (TDyn it) m _ G Fr (same_refl m)); [reflexivity| |].
  - constructor; [|constructor]. unfold slotOk. cbn [fst snd]. rewrite E. destruct (dataOf m b) as [y|[y|h o]|y]; auto. destruct (N h o eq_refl).
  - intros x. cbn [slots]. rewrite refs1, E. destruct (dataOf m b) as [y|[y|h o]|y]; cbn [tgt]; rewrite ?cnt_nil; try lia. destruct (N h o eq_refl).
Qed.
Lemma op_copyArr : forall m vs z b it, good env (m, vs) -> allowed env (m, vs) (OCopyArr z b it) -> fineN m vs (fun n => exec env n (m, vs) (OCopyArr z b it)).
Proof.
  intros m vs z b it G (Fr & W & S & L). cbn [fst snd] in *. cbn [exec fst snd].
  destruct (dyn_cases _ _ _ _ G S) as [(h & n & D)|(N & A & _ & B)].
  - rewrite (y_data _ _ _ _ _ D), (y_len _ _ _ _ _ D), (y_of _ _ _ _ _ D). rewrite (y_items _ _ _ _ _ D) in L.
    apply (newItems_ok m vs z it (Z.of_nat n) _ (fun k => AHeap h (16 + Z.of_nat k * sizeOf (env it))) G Fr W); [lia| |]; rewrite Nat2Z.id.
    + intros k K. eapply dyn_item; [exact D|]. exact K.
    + intros k d K Q. unfold cellsAt. cbn [plus]. do 2 f_equal. lia.
  - pose proof (op_copyNull m vs z b it G Fr N) as G2. assert (fineN m vs (fun n => newItems env n m vs z it (dynLen m b) (itemsOf m b))) as NI.
    { rewrite A. apply (newItems_ok m vs z it 0 _ (fun _ => b) G Fr W); [unfold INT_MAX, two31; lia| |]; intros k; cbn; lia. }
    assert (fineN m vs (fun n => Ok (declare (m, vs) z (TDyn it) (cellsAt m b)))) as CN. { exists 0%nat. intros n _. eauto. }
    destruct (dataOf m b) as [[|y|y]|y|y]; assumption.
Qed.
Lemma op_toArr : forall m vs z b it k, good env (m, vs) -> allowed env (m, vs) (OToArr z b it k) -> fineN m vs (fun n => exec env n (m, vs) (OToArr z b it k)).
Proof.
  intros m vs z b it k G (Fr & S & L). cbn [fst snd] in *. set (T := TArray (env it) k) in *. exists (wt T). intros n F. cbn [exec fst snd]. fold T.
  assert (wfT T) as W by apply Fr. assert (0 <= sizeOf (env it)) as Sz by (apply size_nonneg; exact W).
  destruct (Z.ltb_spec (Z.of_nat k) (dynLen m b)) as [Q|Q].
  { destruct (dyn_cases _ _ _ _ G S) as [(h & q & D)|(_ & A & _ & B)]; [rewrite (y_len _ _ _ _ _ D) in Q; rewrite (y_items _ _ _ _ _ D) in L; lia|lia]. }
  set (g := fun i => if i <? dynLen m b * sizeOf (env it) then itemsOf m b i else WInt 0). set (m1 := write m (AVar z) (sizeOf T) g).
  assert (sameObjs m m1) as SO by (split; [apply le_n|reflexivity]).
  assert (forall j, (j < k)%nat -> usable m1 (plus (AVar z) (Z.of_nat j * sizeOf (env it))) (env it)) as UI.
  { intros j J. assert (forall d, 0 <= d < sizeOf (env it) -> read m1 (plus (plus (AVar z) (Z.of_nat j * sizeOf (env it))) d) = g (Z.of_nat j * sizeOf (env it) + d)) as RD.
    { intros d D. rewrite plus_plus. cbn [plus]. unfold m1. rewrite write_read by exact Logic.I. cbn [hits offs]. unfold T. cbn [sizeOf]. replace ((z <=? z + (Z.of_nat j * sizeOf (env it) + d)) && (z + (Z.of_nat j * sizeOf (env it) + d) <? z + sizeOf (env it) * Z.of_nat k)) with true by nia. f_equal. lia. }
    destruct (Z.ltb_spec (Z.of_nat j) (dynLen m b)) as [Lj|Lj].
    - destruct (dyn_cases _ _ _ _ G S) as [(h & q & D)|(_ & A & _ & B)]; [|lia]. rewrite (y_len _ _ _ _ _ D) in Lj. destruct (dyn_item m b it h q j D ltac:(lia)) as [U1 U2].
      assert (agrees m (AHeap h (16 + Z.of_nat j * sizeOf (env it))) m1 (plus (AVar z) (Z.of_nat j * sizeOf (env it))) (slots (env it))) as AG.
      { apply agrees_of; [exact W|]. intros d Dd. rewrite RD by exact Dd. unfold g. rewrite (y_len _ _ _ _ _ D), (y_of _ _ _ _ _ D). destruct (Z.ltb_spec (Z.of_nat j * sizeOf (env it) + d) (Z.of_nat q * sizeOf (env it))); [|nia]. unfold cellsAt. cbn [plus]. do 2 f_equal. lia. }
      split; [eapply agrees_ok; [exact SO|exact AG|exact U1]|]. rewrite (agrees_refs _ _ _ _ _ AG). exact U2.
    - assert (forall o s, In (o, s) (slots (env it)) -> read m1 (plus (plus (AVar z) (Z.of_nat j * sizeOf (env it))) o) = WInt 0) as Z0.
      { intros o s I. pose proof (slots_inside (env it) W) as In. unfold inside in In. rewrite Forall_forall in In. specialize (In _ I). cbn [fst snd] in In. pose proof (cells_width s 0 ltac:(destruct s; left; reflexivity)). rewrite RD by lia. unfold g. destruct (Z.ltb_spec (Z.of_nat j * sizeOf (env it) + o) (dynLen m b * sizeOf (env it))); [nia|reflexivity]. }
      split.
      + unfold slotsOk. apply Forall_forall. intros [o s] I. pose proof (Z0 o s I) as E. pose proof (noStack _ _ _ I) as NS. unfold slotOk. cbn [fst snd]. rewrite E. destruct s; try exact Logic.I; [left; reflexivity|congruence].
      + intros x I. exfalso. unfold refsAt in I. apply in_flat_map in I. destruct I as ([o s] & I1 & I2). cbn [fst] in I2. rewrite (Z0 o s I1) in I2. destruct I2. }
  pose proof (proj2 (usable_items m1 (AVar z) (env it) k) UI) as [O1 L1]. fold T in O1, L1.
  assert (exists m2, (match dataOf m b with WInt 0 => Ok m1 | _ => refCnt env n true m1 (WPtr (AVar z)) T end) = Ok m2 /\ sameData m1 m2 /\ (forall x, c_ref (chunkAt m2 x) = c_ref (chunkAt m1 x) + cnt x (refsAt m1 (AVar z) (slots T))) /\ forall x, live m2 x = live m1 x) as (m2 & E2 & S2 & C2 & L2).
  { destruct (inc_ok env n m1 (WPtr (AVar z)) T F) as (m2 & E2 & S2 & C2 & L2); [exists (AVar z); split; [reflexivity|exact O1]|exact L1|].
    destruct (match dataOf m b with WInt 0 => true | _ => false end) eqn:E.
    - exists m1. assert (dataOf m b = WInt 0) as E0 by (destruct (dataOf m b) as [[|y|y]|y|y]; try discriminate E; reflexivity). rewrite E0. split; [reflexivity|]. split; [apply same_refl|]. split; [|auto]. intros x.
      assert (refsAt m1 (AVar z) (slots T) = []) as ->; [|rewrite cnt_nil; lia]. destruct (refsAt m1 (AVar z) (slots T)) as [|y l] eqn:E1; [reflexivity|]. exfalso. assert (In y (refsAt m1 (AVar z) (slots T))) as I by (rewrite E1; left; reflexivity). unfold refsAt in I. apply in_flat_map in I. destruct I as ([o s] & I1 & I2). cbn [fst] in I2.
      pose proof (slots_inside T W) as In. unfold inside in In. rewrite Forall_forall in In. specialize (In _ I1). cbn [fst snd] in In. pose proof (cells_width s 0 ltac:(destruct s; left; reflexivity)). unfold m1 in I2. cbn [plus] in I2. rewrite write_read in I2 by exact Logic.I. cbn [hits offs] in I2. replace ((z <=? z + o) && (z + o <? z + sizeOf T)) with true in I2 by lia.
      unfold g, dynLen, dimOf, itemsOf in I2. rewrite E0 in I2. destruct (_ <? _) in I2; destruct I2.
    - exists m2. split; [|split; [exact S2|split; [exact C2|exact L2]]]. destruct (dataOf m b) as [[|y|y]|y|y]; try discriminate E; exact E2. }
  rewrite E2. cbn [bind]. eexists. split; [reflexivity|]. pose proof S2 as (Sv & Sl & So & Sd).
  apply (grow_ok m vs z T m2 G Fr).
  - split; [rewrite Sl; apply le_n|]. intros x _. rewrite So. reflexivity.
  - intros v I. pose proof (fresh_agrees m vs z T g v Fr I ltac:(apply (g_var _ _ _ G v I))) as A. fold m1 in A. unfold agrees in *. eapply Forall_impl; [|exact A]. intros p Q2 d D. rewrite (read_same m1 m2 S2). apply Q2. exact D.
  - apply (slotsOk_same env m1 m2 S2). exact O1.
  - intros x Lx. rewrite L2 in Lx. change (live m x = true) in Lx. rewrite (objSlots_same env m1 m2 S2), (content_same env m1 m2 S2). split.
    + apply (slotsOk_same env m1 m2 S2). change (objSlots env m1 x) with (objSlots env m x). eapply agrees_ok; [exact SO| |apply (g_obj _ _ _ G x Lx)]. unfold agrees. apply Forall_forall. intros p _ d _. reflexivity.
    + change (content env m1 x) with (content env m x). destruct (content env m x) as [[y Y]|] eqn:E; [|exact Logic.I]. eapply g_wf; eassumption.
  - intros x Lx. rewrite Sl in Lx. change (length (heap m1)) with (length (heap m)) in Lx. rewrite C2, (refs_same m1 m2 S2). change (chunkAt m1 x) with (chunkAt m x). rewrite (g_cnt _ _ _ G x Lx), heapRefs_tot. rewrite Sl. change (length (heap m1)) with (length (heap m)).
    enough (tot (length (heap m)) (live m2) (fun y => cnt x (objRefs env m2 y)) = tot (length (heap m)) (live m) (fun y => cnt x (objRefs env m y))) as -> by lia. unfold tot. apply sum_ext. intros y _. rewrite L2, (objRefs_same env m1 m2 S2). reflexivity.
Qed.

(** ** Changing an array in place *)
Section InPlace.
Variables (m : mem) (vs : list (Z * ty)) (z : Z) (b : addr) (it h n : nat).
Hypothesis G : good env (m, vs).
Hypothesis Fr : fresh (m, vs) z (TDyn it).
Hypothesis D : dynAt m b it h n.
Let N := length (heap m).
(** The memory afterwards, up to counts. *)
Variables (mD : mem) (n' : nat) (P : nat -> addr).
Hypothesis D1 : length (heap mD) = N.
Hypothesis D2 : forall x, c_obj (chunkAt mD x) = c_obj (chunkAt m x).
Hypothesis D3 : forall x o, x <> h -> read mD (AHeap x o) = read m (AHeap x o).
Hypothesis D4 : forall y, read mD (AVar y) = if (z <=? y) && (y <? z + 24) then cellsAt m b (y - z) else read m (AVar y).
Hypothesis D5 : lenOf (read mD (AHeap h 0)) = n'.
Hypothesis D6 : forall j, (j < n')%nat -> slotsOk env m (P j) (slots (env it)).
Hypothesis D7 : forall j d, (j < n')%nat -> 0 <= d < sizeOf (env it) -> read mD (AHeap h (16 + Z.of_nat j * sizeOf (env it) + d)) = read m (plus (P j) d).
Lemma ip_objs : sameObjs m mD. Proof. split; [rewrite D1; apply le_n|]. intros x _. apply D2. Qed.
Lemma ip_other : forall x, x <> h -> objSlots env mD x = objSlots env m x /\ content env mD x = content env m x /\ objRefs env mD x = objRefs env m x.
Proof.
  intros x Nx. assert (objSlots env mD x = objSlots env m x) as E. { unfold objSlots. rewrite D2, D3 by exact Nx. reflexivity. }
  split; [exact E|]. split; [unfold content; rewrite D2, D3 by exact Nx; reflexivity|]. unfold objRefs. rewrite E. apply agrees_refs. unfold agrees. apply Forall_forall. intros p _ d _. cbn [plus]. apply D3. exact Nx.
Qed.
Lemma ip_h : objSlots env mD h = shift 16 (slots (TArray (env it) n')) /\ content env mD h = Some (16, TArray (env it) n').
Proof. unfold objSlots, content. rewrite D2, (y_obj _ _ _ _ _ D), D5. split; reflexivity. Qed.
Lemma ip_items : slotsOk env mD (AHeap h 16) (slots (TArray (env it) n')) /\ objRefs env mD h = flat_map (fun j => refsAt m (P j) (slots (env it))) (seq 0 n').
Proof.
  destruct (items_from m mD (AHeap h 16) (env it) n' P (y_wf _ _ _ _ _ D) ip_objs D6) as [A B].
  - intros j d J Q. cbn [plus]. rewrite Z.add_assoc. apply D7; assumption.
  - split; [exact A|]. unfold objRefs. rewrite (proj1 ip_h), refs_shift. exact B.
Qed.
Lemma ip_old : objRefs env m h = flat_map (fun j => refsAt m (AHeap h (16 + Z.of_nat j * sizeOf (env it))) (slots (env it))) (seq 0 n).
Proof. unfold objRefs, objSlots. rewrite (y_obj _ _ _ _ _ D), <- (y_n _ _ _ _ _ D), refs_shift. apply items_split. Qed.
Lemma ip_var : read mD (plus (AVar z) 16) = WPtr (AHeap h 16).
Proof. cbn [plus]. rewrite D4. replace ((z <=? z + 16) && (z + 16 <? z + 24)) with true by lia. replace (z + 16 - z) with 16 by lia. exact (y_data _ _ _ _ _ D). Qed.
Lemma ip_lt : (h < N)%nat. Proof. apply live_lt. apply D. Qed.
Lemma ip_agrees : forall v, In v vs -> agrees m (AVar (fst v)) mD (AVar (fst v)) (slots (snd v)).
Proof.
  intros v I. apply agrees_of; [apply (g_var _ _ _ G v I)|]. intros d Q. cbn [plus]. rewrite D4. destruct Fr as [_ Fa]. rewrite Forall_forall in Fa. specialize (Fa v I). cbn [snd sizeOf] in Fa. unfold apart in Fa. replace ((z <=? fst v + d) && (fst v + d <? z + 24)) with false by lia. reflexivity.
Qed.
Lemma ip_good : forall mF, sameData mD mF -> (forall x, live mF x = true -> live m x = true) ->
  (forall x, (x < N)%nat -> c_ref (chunkAt mF x) = (if Nat.eqb h x then 1 else 0) + cnt x (varRefs m vs) + tot N (live mF) (fun y => cnt x (objRefs env mD y))) -> good env (mF, (z, TDyn it) :: vs).
Proof.
  intros mF S L C. pose proof S as (Sv & Sl & So & Sd). apply (grow_ok m vs z (TDyn it) mF G Fr).
  - split; [rewrite Sl, D1; apply le_n|]. intros x _. rewrite So. apply D2.
  - intros v I. pose proof (ip_agrees v I) as A. unfold agrees in *. eapply Forall_impl; [|exact A]. intros p Q d Dd. rewrite (read_same mD mF S). apply Q. exact Dd.
  - apply (slotsOk_same env mD mF S). constructor; [|constructor]. unfold slotOk. cbn [fst snd]. rewrite ip_var, D1, D2. split; [apply ip_lt|]. split; [apply D|reflexivity].
  - intros x Lx. apply L in Lx. rewrite (objSlots_same env mD mF S), (content_same env mD mF S). destruct (Nat.eq_dec x h) as [->|Nx].
    + destruct ip_h as [-> ->]. split; [|apply (y_wf _ _ _ _ _ D)]. apply (slotsOk_same env mD mF S). apply (slotsOk_shift env mD (AHeap h 0) 16). apply ip_items.
    + destruct (ip_other x Nx) as (-> & -> & _). split.
      * apply (slotsOk_same env mD mF S). eapply agrees_ok; [apply ip_objs| |apply (g_obj _ _ _ G x Lx)]. unfold agrees. apply Forall_forall. intros p _ d _. cbn [plus]. apply D3. exact Nx.
      * destruct (content env m x) as [[y Y]|] eqn:E; [|exact Logic.I]. eapply g_wf; eassumption.
  - intros x Lx. rewrite Sl, D1 in *. rewrite (C x Lx). rewrite (refs_same mD mF S). cbn [slots]. rewrite refs1, ip_var. cbn [tgt]. rewrite cnt_cons, cnt_nil.
    enough (tot N (live mF) (fun y => cnt x (objRefs env mF y)) = tot N (live mF) (fun y => cnt x (objRefs env mD y))) as -> by lia. unfold tot. apply sum_ext. intros y _. rewrite (objRefs_same env mD mF S). reflexivity.
Qed.
Lemma ip_tot : forall x lv, lv h = true -> (forall y, lv y = true -> live m y = true) -> tot N lv (fun y => cnt x (objRefs env mD y)) + cnt x (objRefs env m h) = tot N lv (fun y => cnt x (objRefs env m y)) + cnt x (objRefs env mD h).
Proof.
  intros x lv Lh Lm. pose proof (sum_change (fun y => if lv y then cnt x (objRefs env mD y) else 0) (fun y => if lv y then cnt x (objRefs env m y) else 0) h N ip_lt) as Q. cbv beta in Q. rewrite Lh in Q. unfold tot. apply Q.
  intros y Ny. destruct (ip_other y Ny) as (_ & _ & ->). reflexivity.
Qed.
Lemma ip_inc : forall mF new, sameData mD mF -> (forall x, live mF x = live m x) -> (forall x, cnt x (objRefs env mD h) = cnt x (objRefs env m h) + cnt x new) ->
  (forall x, c_ref (chunkAt mF x) = c_ref (chunkAt m x) + (if Nat.eqb h x then 1 else 0) + cnt x new) -> good env (mF, (z, TDyn it) :: vs).
Proof.
  intros mF new S L O C. apply (ip_good mF S); [intros x Lx; rewrite <- L; exact Lx|]. intros x Lx. rewrite C, (g_cnt _ _ _ G x Lx), heapRefs_tot. fold N. pose proof (ip_tot x (live mF)) as T. rewrite L in T. specialize (T (y_live _ _ _ _ _ D) ltac:(intros y; rewrite L; auto)). rewrite (O x) in T.
  assert (tot N (live mF) (fun y => cnt x (objRefs env m y)) = tot N (live m) (fun y => cnt x (objRefs env m y))) as E by (apply tot_eq; intros; apply L). rewrite E in T. lia.
Qed.
End InPlace.

Lemma inc_dyn : forall n m vs b it h k, good env (m, vs) -> source env (m, vs) b (TDyn it) -> dynAt m b it h k -> (1 <= n)%nat ->
  exists m1, refCnt env n true m (WPtr b) (TDyn it) = Ok m1 /\ sameData m m1 /\ (forall x, c_ref (chunkAt m1 x) = c_ref (chunkAt m x) + if Nat.eqb h x then 1 else 0) /\ forall x, live m1 x = live m x.
Proof.
  intros n m vs b it h k G S D L. destruct (source_usable _ _ _ _ G S) as [O U]. destruct (inc_ok env n m (WPtr b) (TDyn it)) as (m1 & E & S1 & C & Lv); [cbn; lia|exists b; split; [reflexivity|exact O]|exact U|].
  exists m1. split; [exact E|]. split; [exact S1|]. split; [|exact Lv]. intros x. rewrite C. cbn [candRefs isPtrKind slots]. rewrite refs1. fold (dataOf m b). rewrite (y_data _ _ _ _ _ D). cbn [tgt]. rewrite cnt_cons, cnt_nil. lia.
Qed.
Lemma seq_split : forall n k, seq 0 (n + k) = seq 0 n ++ map (fun j => (n + j)%nat) (seq 0 k).
Proof. intros n k. rewrite seq_app. f_equal. cbn [Nat.add]. induction k as [|k IH]; [reflexivity|]. rewrite !seq_S, map_app, IH. cbn [map]. f_equal. Qed.
Lemma flat_map_map : forall A B C (f : A -> B) (g : B -> list C) l, flat_map g (map f l) = flat_map (fun x => g (f x)) l.
Proof. intros A B C f g l. induction l as [|x l IH]; cbn; [reflexivity|]. rewrite IH. reflexivity. Qed.
Lemma flat_map_in : forall A B (f g : A -> list B) l, (forall x, In x l -> f x = g x) -> flat_map f l = flat_map g l.
Proof. intros A B f g l H. rewrite !flat_map_concat_map. f_equal. apply map_ext_in. exact H. Qed.
Lemma op_append : forall m vs z b c it single, good env (m, vs) -> allowed env (m, vs) (OAppend z b c it single) -> fineN m vs (fun n => exec env n (m, vs) (OAppend z b c it single)).
Proof.
  intros m vs z b c it single G (Fr & W & Sb & Sc & L). cbn [fst snd] in *. cbn [exec fst snd]. pose proof (size_nonneg _ W) as Sz. set (size := sizeOf (env it)) in *.
  set (rhs := if single then cellsAt m c else itemsOf m c). set (k := if single then 1 else dynLen m c).
  assert (exists Q : nat -> addr, 0 <= k /\ k = (if single then 1 else itemsAt m c) /\ (forall j, (j < Z.to_nat k)%nat -> usable m (Q j) (env it)) /\ forall j d, (j < Z.to_nat k)%nat -> 0 <= d < size -> rhs (Z.of_nat j * size + d) = read m (plus (Q j) d)) as (Q & K0 & K1 & Q1 & Q2).
  { unfold k, rhs. destruct single.
    - exists (fun _ => c). split; [lia|]. split; [reflexivity|]. split; [intros; apply (source_usable m vs); assumption|]. intros j d J _. replace j with 0%nat by lia. reflexivity.
    - destruct (dyn_cases _ _ _ _ G Sc) as [(hc & q & Dc)|(_ & A & _ & B)].
      + exists (fun j => AHeap hc (16 + Z.of_nat j * size)). rewrite (y_len _ _ _ _ _ Dc), (y_items _ _ _ _ _ Dc), Nat2Z.id. split; [lia|]. split; [reflexivity|]. split; [intros j J; eapply dyn_item; eassumption|]. intros j d J _. rewrite (y_of _ _ _ _ _ Dc). unfold cellsAt. cbn [plus]. do 2 f_equal. lia.
      + exists (fun _ => c). rewrite A, B. split; [lia|]. split; [reflexivity|]. split; intros j; cbn; lia. }
  clearbody k rhs. rewrite <- K1 in L. destruct (dyn_cases _ _ _ _ G Sb) as [(h & n & D)|(Nb & A & Cp & B)].
  - rewrite (y_len _ _ _ _ _ D), (y_data _ _ _ _ _ D), (y_of _ _ _ _ _ D). rewrite (y_items _ _ _ _ _ D) in L.
    set (P := fun j => if (j <? n)%nat then AHeap h (16 + Z.of_nat j * size) else Q (j - n)%nat).
    assert (forall j, (j < n + Z.to_nat k)%nat -> usable m (P j) (env it)) as UP. { intros j J. unfold P. destruct (Nat.ltb_spec j n); [eapply dyn_item; eassumption|apply Q1; lia]. }
    destruct (Z.leb_spec (Z.of_nat n + k) (dynCap m b)) as [Cap|Cap].
    + set (T := TArray (env it) (Z.to_nat k)). exists (1 + wt T)%nat. intros f F. destruct (inc_dyn f m vs b it h n G Sb D ltac:(lia)) as (m1 & E1 & S1 & C1 & L1). rewrite E1. cbn [bind]. set (a := AHeap h (16 + Z.of_nat n * size)).
      set (mA := write m a (k * size) rhs). assert (match a with AHeap x _ => (x < length (heap m))%nat | _ => True end) as La by (apply live_lt; apply D). set (m2 := write m1 a (k * size) rhs). assert (sameData mA m2) as S2 by (apply write_same; assumption).
      assert (sameObjs m mA) as SOA. { split; [unfold mA; rewrite write_len; apply le_n|]. intros x _. apply write_obj. exact La. }
      destruct (items_from m mA a (env it) (Z.to_nat k) Q W SOA) as [OA RA]. { intros j J. apply (Q1 j J). } { intros j d J Dd. rewrite <- (Q2 j d J Dd). unfold mA. rewrite write_read by exact La. rewrite hits_plus, offs_plus. fold size. replace ((0 <=? Z.of_nat j * size + d) && (Z.of_nat j * size + d <? k * size)) with true by nia. reflexivity. }
      fold T in OA, RA.
      assert (forall x, live m2 x = live m x) as L2. { intros x. unfold m2. rewrite write_live; [apply L1|]. destruct S1 as (_ & El & _). unfold a. rewrite El. exact La. }
      destruct (inc_ok env f m2 (WPtr a) T ltac:(lia)) as (m3 & E3 & S3 & C3 & L3).
      { exists a. split; [reflexivity|]. apply (slotsOk_same env mA m2 S2). exact OA. }
      { intros x I. change (In x (refsAt m2 a (slots T))) in I. rewrite (refs_same mA m2 S2), RA in I. apply in_flat_map in I. destruct I as (j & J & I). apply in_seq in J. rewrite L2. apply (Q1 j ltac:(lia)). exact I. }
      fold size. fold a. fold m2. fold T. rewrite E3. cbn [bind]. eexists. split; [reflexivity|]. replace (16 - 16) with 0 by lia. unfold declare. cbn [fst snd].
      set (len := fun _ : Z => WInt (Z.of_nat n + k)). set (mB := write mA (AHeap h 0) 8 len). set (mD := write mB (AVar z) 24 (cellsAt m b)). set (mF := write _ (AVar z) _ _).
      assert (h < length (heap mA))%nat as LA by (unfold mA; rewrite write_len; exact La). assert (sameData mA m3) as S23 by (eapply same_trans; eassumption).
      assert (sameData mD mF) as SF. { unfold mD, mF, mB. apply write_same; [|exact Logic.I]. apply write_same; [exact S23|exact LA]. }
      assert (forall o, read mD (AHeap h o) = if (0 <=? o) && (o <? 8) then WInt (Z.of_nat n + k) else if (16 + Z.of_nat n * size <=? o) && (o <? 16 + Z.of_nat n * size + k * size) then rhs (o - (16 + Z.of_nat n * size)) else read m (AHeap h o)) as RD.
      { intros o. unfold mD. rewrite write_read by exact Logic.I. cbn [hits]. unfold mB. rewrite write_read by exact LA. cbn [hits offs]. rewrite Nat.eqb_refl. cbn [andb Z.add]. destruct ((0 <=? o) && (o <? 8)) eqn:E; [reflexivity|]. unfold mA. rewrite write_read by exact La. unfold a. cbn [hits offs]. rewrite Nat.eqb_refl. cbn [andb]. reflexivity. }
      assert (forall j d, (j < n + Z.to_nat k)%nat -> 0 <= d < size -> read mD (AHeap h (16 + Z.of_nat j * size + d)) = read m (plus (P j) d)) as R7.
      { intros j d J Dd. rewrite RD. replace ((0 <=? 16 + Z.of_nat j * size + d) && (16 + Z.of_nat j * size + d <? 8)) with false by nia. unfold P. destruct (Nat.ltb_spec j n).
        - replace ((16 + Z.of_nat n * size <=? 16 + Z.of_nat j * size + d) && (16 + Z.of_nat j * size + d <? 16 + Z.of_nat n * size + k * size)) with false by nia. reflexivity.
        - replace ((16 + Z.of_nat n * size <=? 16 + Z.of_nat j * size + d) && (16 + Z.of_nat j * size + d <? 16 + Z.of_nat n * size + k * size)) with true by nia. rewrite <- Q2 by lia. f_equal. nia. }
      assert (length (heap mD) = length (heap m)) as D1. { unfold mD, mB, mA. rewrite !write_len. reflexivity. }
      assert (forall x, c_obj (chunkAt mD x) = c_obj (chunkAt m x)) as D2. { intros x. unfold mD. rewrite write_obj by exact Logic.I. unfold mB. rewrite write_obj by exact LA. apply write_obj. exact La. }
      assert (forall x o, x <> h -> read mD (AHeap x o) = read m (AHeap x o)) as D3.
      { intros x o Nx. unfold mD. rewrite write_read by exact Logic.I. cbn [hits]. unfold mB. rewrite write_read by exact LA. cbn [hits]. destruct (Nat.eqb_spec h x); [congruence|]. cbn [andb]. unfold mA. rewrite write_read by exact La. unfold a. cbn [hits]. destruct (Nat.eqb_spec h x); [congruence|]. reflexivity. }
      assert (forall y, read mD (AVar y) = if (z <=? y) && (y <? z + 24) then cellsAt m b (y - z) else read m (AVar y)) as D4. { intros y. unfold mD. rewrite write_read by exact Logic.I. cbn [hits offs]. unfold mB. rewrite write_read by exact LA. cbn [hits]. unfold mA. rewrite write_read by exact La. reflexivity. }
      assert (lenOf (read mD (AHeap h 0)) = (n + Z.to_nat k)%nat) as D5. { rewrite RD. cbn. lia. }
      apply (ip_inc m vs z b it h n G Fr D mD (n + Z.to_nat k) P D1 D2 D3 D4 D5 (fun j J => proj1 (UP j J)) R7 mF (refsAt mA a (slots T)) SF).
      * intros x. transitivity (live m3 x); [|rewrite L3; apply L2]. unfold mF. rewrite write_live by exact Logic.I. apply write_live. destruct S23 as (_ & El & _). rewrite El. exact LA.
      * intros x. rewrite (proj2 (ip_items m b it h n D mD (n + Z.to_nat k) P D1 D2 D5 (fun j J => proj1 (UP j J)) R7)), (ip_old m b it h n D), RA. rewrite seq_split, flat_map_app, flat_map_map, cnt_app. f_equal.
        -- f_equal. apply flat_map_in. intros j J. apply in_seq in J. unfold P. destruct (Nat.ltb_spec j n); [reflexivity|lia].
        -- f_equal. apply flat_map_in. intros j J. unfold P. destruct (Nat.ltb_spec (n + j) n); [lia|]. do 2 f_equal. lia.
      * intros x. transitivity (c_ref (chunkAt m3 x)). { unfold mF. rewrite write_ref by exact Logic.I. apply write_ref. destruct S23 as (_ & El & _). rewrite El. exact LA. }
        rewrite C3. change (candRefs m2 (Cand (WPtr a) T)) with (refsAt m2 a (slots T)). rewrite (refs_same mA m2 S2). unfold m2. rewrite write_ref; [rewrite C1; reflexivity|]. destruct S1 as (_ & El & _). unfold a. rewrite El. exact La.
    + apply (newItems_ok m vs z it (Z.of_nat n + k) _ P G Fr W); [lia| |]; rewrite Z2Nat.inj_add, Nat2Z.id by lia; [exact UP|]. intros j d J Dd. fold size. unfold P. destruct (Nat.ltb_spec j n).
      * destruct (Z.ltb_spec (Z.of_nat j * size + d) (Z.of_nat n * size)); [|nia]. unfold cellsAt. cbn [plus]. do 2 f_equal. lia.
      * destruct (Z.ltb_spec (Z.of_nat j * size + d) (Z.of_nat n * size)); [nia|]. rewrite <- Q2 by lia. f_equal. nia.
  - rewrite A, Cp. destruct (Z.leb_spec (0 + k) 0) as [Kz|Kz].
    + exists 1%nat. intros f F. destruct (source_usable _ _ _ _ G Sb) as [O U]. destruct (inc_ok env f m (WPtr b) (TDyn it)) as (m1 & E1 & S1 & C1 & L1); [cbn; lia|exists b; split; [reflexivity|exact O]|exact U|]. rewrite E1. cbn [bind].
      assert (refsAt m b (slots (TDyn it)) = []) as R0. { cbn [slots]. rewrite refs1. fold (dataOf m b). destruct (dataOf m b) as [y|[y|x o]|y]; try reflexivity. destruct (Nb x o eq_refl). }
      cbn [candRefs isPtrKind] in C1. rewrite R0 in C1. set (g := cellsAt m b).
      assert (read (write m1 (AVar z) (sizeOf (TDyn it)) g) (plus (AVar z) 16) = dataOf m b) as E. { cbn [plus]. rewrite write_read by exact Logic.I. cbn [hits offs sizeOf]. replace ((z <=? z + 16) && (z + 16 <? z + 24)) with true by lia. replace (z + 16 - z) with 16 by lia. reflexivity. }
      assert (good env (declare (m1, vs) z (TDyn it) g)) as GD.
      { unfold declare. cbn [fst snd]. apply (decl_ok env m vs z (TDyn it) m1 _ G Fr S1 L1).
        - constructor; [|constructor]. unfold slotOk. cbn [fst snd]. rewrite E. destruct (dataOf m b) as [y|[y|x o]|y]; auto. destruct (Nb x o eq_refl).
        - intros x. rewrite C1. cbn [slots]. rewrite refs1, E. destruct (dataOf m b) as [y|[y|x' o]|y]; cbn [tgt]; rewrite ?cnt_nil; try lia. destruct (Nb x' o eq_refl). }
      destruct (dataOf m b) as [y|[y|x o]|y]; try (cbn [bind]; eauto). destruct (Nb x o eq_refl).
    + apply (newItems_ok m vs z it (0 + k) _ Q G Fr W); [lia| |]; rewrite Z.add_0_l; [exact Q1|]. intros j d J Dd. fold size. destruct (Z.ltb_spec (Z.of_nat j * size + d) (0 * size)); [nia|]. rewrite <- Q2 by lia. f_equal. lia.
Qed.

(** A type is no part of itself. *)
Fixpoint tsize (t : ty) : nat :=
  match t with
  | TArray u _ => S (tsize u)
  | TStruct fs _ => S ((fix go fs := match fs with [] => O | (_, u) :: r => (tsize u + go r)%nat end) fs)
  | _ => O
  end.
Lemma tsize_field : forall fs s o u, In (o, u) fs -> (tsize u < tsize (TStruct fs s))%nat.
Proof. intros fs s o u H. cbn [tsize]. induction fs as [|[p v] r IH]; [destruct H|]. destruct H as [H|H]; [injection H as -> ->; lia|]. specialize (IH H). lia. Qed.
Lemma sub_tsize : forall t o u, Sub t o u -> (o = 0 /\ t = u) \/ (tsize u < tsize t)%nat.
Proof.
  intros t o u H. induction H as [t|u n i o t L H IH|fs s o u p t I H IH]; [left; auto| |].
  - right. cbn [tsize]. destruct IH as [[_ ->]|IH]; lia.
  - right. pose proof (tsize_field fs s o u I) as Q. destruct IH as [[_ ->]|IH]; lia.
Qed.
Lemma sub_item : forall u n o, Sub (TArray u n) o u -> exists j, (j < n)%nat /\ o = Z.of_nat j * sizeOf u.
Proof.
  intros u n o H. inversion H as [t E|u' n' i p t L H' E|]; subst.
  - exfalso. assert (tsize (TArray u n) = tsize u) as Q by (f_equal; assumption). cbn [tsize] in Q. lia.
  - exists i. split; [exact L|]. destruct (sub_tsize _ _ _ H') as [[-> _]|Q]; lia.
Qed.
Lemma cellsAt_same : forall m m' a, sameData m m' -> cellsAt m' a = cellsAt m a.
Proof. intros m m' a (A & _ & _ & B). unfold cellsAt. destruct a as [z|b o]; cbn [plus read]; [rewrite A|rewrite B]; reflexivity. Qed.
Lemma op_insert : forall m vs z b i c it, good env (m, vs) -> allowed env (m, vs) (OInsert z b i c it) -> fineN m vs (fun n => exec env n (m, vs) (OInsert z b i c it)).
Proof.
  intros m vs z b i c it G (Fr & W & Sb & Sc & I & L). cbn [fst snd] in *. cbn [exec fst snd]. pose proof (size_nonneg _ W) as Sz. set (size := sizeOf (env it)) in *.
  destruct (dyn_cases _ _ _ _ G Sb) as [(h & n & D)|(Nb & A & Cp & B)].
  - rewrite (y_len _ _ _ _ _ D), (y_data _ _ _ _ _ D), (y_of _ _ _ _ _ D). rewrite (y_items _ _ _ _ _ D) in I, L. replace ((i <? 0) || (Z.of_nat n <? i)) with false by lia.
    destruct (Z.leb_spec (Z.of_nat n + 1) (dynCap m b)) as [Cap|Cap].
    + set (T := TArray (env it) 1). exists (1 + wt T)%nat. intros f F. destruct (inc_dyn f m vs b it h n G Sb D ltac:(lia)) as (m1 & E1 & S1 & C1 & L1). rewrite E1. cbn [bind]. fold size. set (a := AHeap h (16 + i * size)).
      set (C := match c with AHeap x o => if Nat.eqb x h && (16 + (i + 1) * size <=? o) then AHeap h (o - size) else c | _ => c end).
      assert (usable m C (env it) /\ forall x o d, c = AHeap x o -> x = h -> 0 <= d < size -> (o < 16 + (i + 1) * size -> o + d < 16 + (i + 1) * size) /\ o + d < 16 + Z.of_nat n * size) as [UC Al].
      { pose proof Sc as Sc'. unfold source in Sc'. unfold C. destruct c as [y|x o]; [split; [apply (source_usable m vs); assumption|intros; discriminate]|]. cbn [placeIn fst snd] in Sc'. destruct (Nat.eqb_spec x h) as [->|Nx]; [|split; [apply (source_usable m vs); assumption|intros; congruence]]. cbn [andb].
        destruct Sc' as (_ & _ & x & T' & o' & Ct & Sb' & ->). unfold content in Ct. rewrite (y_obj _ _ _ _ _ D), <- (y_n _ _ _ _ _ D) in Ct. injection Ct as <- <-. destruct (sub_item _ _ _ Sb') as (j & J & ->). fold size in Sc |- *. split.
        - destruct (Z.leb_spec (16 + (i + 1) * size) (16 + Z.of_nat j * size)) as [Q|Q]; [|apply (source_usable m vs); assumption].
          destruct (Z.eq_dec size 0) as [Z0|Z0]. { replace (16 + Z.of_nat j * size - size) with (16 + Z.of_nat j * size) by lia. eapply dyn_item; eassumption. }
          replace (16 + Z.of_nat j * size - size) with (16 + Z.of_nat (j - 1) * size) by nia. eapply dyn_item; [eassumption|lia].
        - intros x o d Ec _ Dd. assert (o = 16 + Z.of_nat j * size) as -> by congruence. clear Ec. pose proof (Z.mul_le_mono_nonneg_r (Z.of_nat j + 1) (Z.of_nat n) size Sz ltac:(lia)). split; [|lia]. intros Q. assert (Z.of_nat j < i + 1) as Q1 by (apply (Zmult_lt_reg_r _ _ size); lia). pose proof (Z.mul_le_mono_nonneg_r (Z.of_nat j) i size Sz ltac:(lia)). lia. }
      set (mI := write m (plus a size) ((Z.of_nat n - i) * size) (cellsAt m a)). set (mA := write mI a size (cellsAt mI c)).
      assert (h < length (heap m))%nat as La by (apply live_lt; apply D). assert (h < length (heap mI))%nat as LI by (unfold mI; rewrite write_len; exact La).
      assert (forall o, read mI (AHeap h o) = if (16 + (i + 1) * size <=? o) && (o <? 16 + (Z.of_nat n + 1) * size) then read m (AHeap h (o - size)) else read m (AHeap h o)) as RI.
      { intros o. unfold mI. rewrite write_read by exact La. unfold a. cbn [plus hits offs]. rewrite Nat.eqb_refl. cbn [andb]. unfold cellsAt. cbn [plus]. replace (16 + i * size + size) with (16 + (i + 1) * size) by lia. replace (16 + (i + 1) * size + (Z.of_nat n - i) * size) with (16 + (Z.of_nat n + 1) * size) by lia. destruct (_ && _); [|reflexivity]. do 2 f_equal. lia. }
      assert (forall x, c_obj (chunkAt mI x) = c_obj (chunkAt m x)) as OI by (intros x; apply write_obj; exact La).
      assert (forall d, 0 <= d < size -> read mI (plus c d) = read m (plus C d)) as RC.
      { intros d Dd. unfold C. destruct c as [y|x o]; [unfold mI; rewrite write_read by exact La; reflexivity|]. destruct (Nat.eqb_spec x h) as [->|Nx]; cbn [andb plus].
        - destruct (Al h o d eq_refl eq_refl Dd) as [Al1 Al2]. rewrite RI. destruct (Z.leb_spec (16 + (i + 1) * size) o); cbn [plus].
          + replace ((16 + (i + 1) * size <=? o + d) && (o + d <? 16 + (Z.of_nat n + 1) * size)) with true by lia. do 2 f_equal. lia.
          + replace ((16 + (i + 1) * size <=? o + d) && (o + d <? 16 + (Z.of_nat n + 1) * size)) with false by lia. reflexivity.
        - unfold mI. rewrite write_read by exact La. unfold a. cbn [plus hits]. destruct (Nat.eqb_spec h x); [congruence|]. reflexivity. }
      assert (forall o, read mA (AHeap h o) = if (16 + i * size <=? o) && (o <? 16 + (i + 1) * size) then read m (plus C (o - (16 + i * size))) else if (16 + (i + 1) * size <=? o) && (o <? 16 + (Z.of_nat n + 1) * size) then read m (AHeap h (o - size)) else read m (AHeap h o)) as RA.
      { intros o. unfold mA. rewrite write_read by exact LI. unfold a. cbn [hits offs]. rewrite Nat.eqb_refl, RI. cbn [andb]. replace (16 + i * size + size) with (16 + (i + 1) * size) by lia. destruct (_ && _) eqn:E; [|reflexivity]. unfold cellsAt. apply RC. lia. }
      assert (sameObjs m mA) as SOA. { split; [unfold mA; rewrite write_len; unfold mI; rewrite write_len; apply le_n|]. intros x _. unfold mA. rewrite write_obj by exact LI. apply OI. }
      destruct (items_from m mA a (env it) 1 (fun _ => C) W SOA) as [OA RF]. { intros j J. apply UC. } { intros j d J Dd. unfold a. cbn [plus]. fold size in Dd |- *. replace (Z.of_nat j) with 0 by lia. rewrite RA. match goal with |- (if ?t then _ else _) = _ => replace t with true by lia end. do 2 f_equal. lia. }
      fold T in OA, RF. cbn [seq flat_map] in RF. rewrite app_nil_r in RF.
      rewrite (cellsAt_same m m1 a S1). set (m2 := write m1 (plus a size) ((Z.of_nat n - i) * size) (cellsAt m a)). assert (sameData mI m2) as SI by (apply write_same; [exact S1|exact La]).
      rewrite (cellsAt_same mI m2 c SI). set (m3 := write m2 a size (cellsAt mI c)). assert (sameData mA m3) as S3 by (apply write_same; [exact SI|exact LI]).
      assert (h < length (heap m1))%nat as Lh1 by (destruct S1 as (_ & El & _); rewrite El; exact La). assert (h < length (heap m2))%nat as Lh2 by (unfold m2; rewrite write_len; exact Lh1).
      assert (forall x, live m3 x = live m x) as L3. { intros x. unfold m3. rewrite write_live by exact Lh2. unfold m2. rewrite write_live by exact Lh1. apply L1. }
      destruct (inc_ok env f m3 (WPtr a) T ltac:(lia)) as (m4 & E4 & S4 & C4 & L4).
      { exists a. split; [reflexivity|]. apply (slotsOk_same env mA m3 S3). exact OA. }
      { intros x Ix. change (In x (refsAt m3 a (slots T))) in Ix. rewrite (refs_same mA m3 S3), RF in Ix. rewrite L3. apply UC. exact Ix. }
      rewrite E4. cbn [bind]. eexists. split; [reflexivity|]. replace (16 - 16) with 0 by lia. unfold declare. cbn [fst snd].
      set (len := fun _ : Z => WInt (Z.of_nat n + 1)). set (mB := write mA (AHeap h 0) 8 len). set (mD := write mB (AVar z) 24 (cellsAt m b)). set (mF := write _ (AVar z) _ _).
      assert (h < length (heap mA))%nat as LA by (unfold mA; rewrite write_len; exact LI). assert (sameData mA m4) as S34 by (eapply same_trans; eassumption).
      assert (sameData mD mF) as SF. { unfold mD, mF, mB. apply write_same; [|exact Logic.I]. apply write_same; [exact S34|exact LA]. }
      assert (forall o, read mD (AHeap h o) = if (0 <=? o) && (o <? 8) then WInt (Z.of_nat n + 1) else read mA (AHeap h o)) as RD.
      { intros o. unfold mD. rewrite write_read by exact Logic.I. cbn [hits]. unfold mB. rewrite write_read by exact LA. cbn [hits offs]. rewrite Nat.eqb_refl. cbn [andb Z.add]. reflexivity. }
      set (i' := Z.to_nat i). set (P := fun j => if (j <? i')%nat then AHeap h (16 + Z.of_nat j * size) else if (j =? i')%nat then C else AHeap h (16 + Z.of_nat (j - 1) * size)).
      assert (forall j, (j < n + 1)%nat -> usable m (P j) (env it)) as UP. { intros j J. unfold P. destruct (Nat.ltb_spec j i'); [eapply dyn_item; [eassumption|lia]|]. destruct (Nat.eqb_spec j i'); [exact UC|]. eapply dyn_item; [eassumption|lia]. }
      assert (forall j d, (j < n + 1)%nat -> 0 <= d < size -> read mD (AHeap h (16 + Z.of_nat j * size + d)) = read m (plus (P j) d)) as R7.
      { intros j d J Dd. rewrite RD. replace ((0 <=? 16 + Z.of_nat j * size + d) && (16 + Z.of_nat j * size + d <? 8)) with false by nia. rewrite RA. unfold P. destruct (Nat.ltb_spec j i').
        - replace ((16 + i * size <=? 16 + Z.of_nat j * size + d) && (16 + Z.of_nat j * size + d <? 16 + (i + 1) * size)) with false by nia.
          replace ((16 + (i + 1) * size <=? 16 + Z.of_nat j * size + d) && (16 + Z.of_nat j * size + d <? 16 + (Z.of_nat n + 1) * size)) with false by nia. reflexivity.
        - destruct (Nat.eqb_spec j i') as [E|Ne].
          + assert (Z.of_nat j = i) as -> by lia. replace ((16 + i * size <=? 16 + i * size + d) && (16 + i * size + d <? 16 + (i + 1) * size)) with true by nia. do 2 f_equal. lia.
          + replace ((16 + i * size <=? 16 + Z.of_nat j * size + d) && (16 + Z.of_nat j * size + d <? 16 + (i + 1) * size)) with false by nia.
            replace ((16 + (i + 1) * size <=? 16 + Z.of_nat j * size + d) && (16 + Z.of_nat j * size + d <? 16 + (Z.of_nat n + 1) * size)) with true by nia. cbn [plus]. do 2 f_equal. nia. }
      assert (length (heap mD) = length (heap m)) as D1. { unfold mD, mB, mA, mI. rewrite !write_len. reflexivity. }
      assert (forall x, c_obj (chunkAt mD x) = c_obj (chunkAt m x)) as D2. { intros x. unfold mD. rewrite write_obj by exact Logic.I. unfold mB. rewrite write_obj by exact LA. unfold mA. rewrite write_obj by exact LI. apply OI. }
      assert (forall x o, x <> h -> read mD (AHeap x o) = read m (AHeap x o)) as D3.
      { intros x o Nx. unfold mD. rewrite write_read by exact Logic.I. cbn [hits]. unfold mB. rewrite write_read by exact LA. cbn [hits]. destruct (Nat.eqb_spec h x); [congruence|]. cbn [andb]. unfold mA. rewrite write_read by exact LI. unfold a. cbn [hits]. destruct (Nat.eqb_spec h x); [congruence|]. cbn [andb]. unfold mI. rewrite write_read by exact La. unfold a. cbn [hits plus]. destruct (Nat.eqb_spec h x); [congruence|]. reflexivity. }
      assert (forall y, read mD (AVar y) = if (z <=? y) && (y <? z + 24) then cellsAt m b (y - z) else read m (AVar y)) as D4. { intros y. unfold mD. rewrite write_read by exact Logic.I. cbn [hits offs]. unfold mB. rewrite write_read by exact LA. cbn [hits]. unfold mA. rewrite write_read by exact LI. cbn [hits]. unfold mI. rewrite write_read by exact La. reflexivity. }
      assert (lenOf (read mD (AHeap h 0)) = (n + 1)%nat) as D5. { rewrite RD. cbn. lia. }
      apply (ip_inc m vs z b it h n G Fr D mD (n + 1) P D1 D2 D3 D4 D5 (fun j J => proj1 (UP j J)) R7 mF (refsAt mA a (slots T)) SF).
      * intros x. transitivity (live m4 x); [|rewrite L4; apply L3]. unfold mF. rewrite write_live by exact Logic.I. apply write_live. destruct S34 as (_ & El & _). rewrite El. exact LA.
      * intros x. rewrite (proj2 (ip_items m b it h n D mD (n + 1) P D1 D2 D5 (fun j J => proj1 (UP j J)) R7)), (ip_old m b it h n D), RF.
        replace (n + 1)%nat with (i' + S (n - i'))%nat by lia. replace n with (i' + (n - i'))%nat at 2 by lia. rewrite !seq_split, !flat_map_app, !flat_map_map, !cnt_app. cbn [seq flat_map]. rewrite <- seq_shift, flat_map_map. rewrite cnt_app.
        assert (P (i' + 0)%nat = C) as ->. { unfold P. destruct (Nat.ltb_spec (i' + 0) i'); [lia|]. destruct (Nat.eqb_spec (i' + 0) i'); [reflexivity|lia]. }
        assert (flat_map (fun j => refsAt m (P j) (slots (env it))) (seq 0 i') = flat_map (fun j => refsAt m (AHeap h (16 + Z.of_nat j * size)) (slots (env it))) (seq 0 i')) as ->. { apply flat_map_in. intros j J. apply in_seq in J. unfold P. destruct (Nat.ltb_spec j i'); [reflexivity|lia]. }
        assert (flat_map (fun j => refsAt m (P (i' + S j)%nat) (slots (env it))) (seq 0 (n - i')) = flat_map (fun j => refsAt m (AHeap h (16 + Z.of_nat (i' + j) * size)) (slots (env it))) (seq 0 (n - i'))) as ->. { apply flat_map_in. intros j J. apply in_seq in J. unfold P. destruct (Nat.ltb_spec (i' + S j) i'); [lia|]. destruct (Nat.eqb_spec (i' + S j) i'); [lia|]. do 4 f_equal. lia. }
        fold size. lia.
      * intros x. transitivity (c_ref (chunkAt m4 x)). { unfold mF. rewrite write_ref by exact Logic.I. apply write_ref. destruct S34 as (_ & El & _). rewrite El. exact LA. }
        rewrite C4. change (candRefs m3 (Cand (WPtr a) T)) with (refsAt m3 a (slots T)). rewrite (refs_same mA m3 S3). unfold m3. rewrite write_ref by exact Lh2. unfold m2. rewrite write_ref by exact Lh1. rewrite C1. reflexivity.
    + set (i' := Z.to_nat i). set (P := fun j => if (j <? i')%nat then AHeap h (16 + Z.of_nat j * size) else if (j =? i')%nat then c else AHeap h (16 + Z.of_nat (j - 1) * size)).
      apply (newItems_ok m vs z it (Z.of_nat n + 1) _ P G Fr W); [lia| |].
      * intros j J. unfold P. destruct (Nat.ltb_spec j i'); [eapply dyn_item; [eassumption|lia]|]. destruct (Nat.eqb_spec j i'); [apply (source_usable m vs); assumption|]. eapply dyn_item; [eassumption|lia].
      * intros j d J Dd. fold size in Dd |- *. unfold P. destruct (Nat.ltb_spec j i').
        -- destruct (Z.ltb_spec (Z.of_nat j * size + d) (i * size)); [|nia]. unfold cellsAt. cbn [plus]. do 2 f_equal. lia.
        -- destruct (Z.ltb_spec (Z.of_nat j * size + d) (i * size)); [nia|]. destruct (Nat.eqb_spec j i') as [E|Ne].
           ++ assert (Z.of_nat j = i) as -> by lia. destruct (Z.ltb_spec (i * size + d) ((i + 1) * size)); [|nia]. unfold cellsAt. do 2 f_equal. lia.
           ++ destruct (Z.ltb_spec (Z.of_nat j * size + d) ((i + 1) * size)); [nia|]. unfold cellsAt. cbn [plus]. do 2 f_equal. nia.
  - rewrite A, Cp. rewrite B in I. replace ((i <? 0) || (0 <? i)) with false by lia. destruct (Z.leb_spec (0 + 1) 0) as [Kz|Kz]; [lia|]. assert (i = 0) as -> by lia.
    apply (newItems_ok m vs z it (0 + 1) _ (fun _ => c) G Fr W); [lia| |].
    + intros j _. apply (source_usable m vs); assumption.
    + intros j d J Dd. fold size in Dd |- *. replace (Z.of_nat j) with 0 by lia. destruct (Z.ltb_spec (0 * size + d) (0 * size)); [lia|]. destruct (Z.ltb_spec (0 * size + d) ((0 + 1) * size)); [|lia]. unfold cellsAt. do 2 f_equal. lia.
Qed.

Lemma op_delete : forall m vs z b i it, good env (m, vs) -> allowed env (m, vs) (ODelete z b i it) ->
  exists F, forall n, (F <= n)%nat -> (exists s', exec env n (m, vs) (ODelete z b i it) = Ok s' /\ good env s') \/ (exec env n (m, vs) (ODelete z b i it) = Err EOther /\ busy m).
Proof.
  intros m vs z b i it G (Fr & Sb & I). cbn [fst snd] in *. cbn [exec fst snd]. destruct (dyn_cases _ _ _ _ G Sb) as [(h & n & D)|(Nb & A & Cp & B)]; [|lia].
  pose proof (y_wf _ _ _ _ _ D) as W. pose proof (size_nonneg _ W) as Sz. set (size := sizeOf (env it)) in *. rewrite (y_len _ _ _ _ _ D), (y_data _ _ _ _ _ D). rewrite (y_items _ _ _ _ _ D) in I. replace ((i <? 0) || (Z.of_nat n - 1 <? i)) with false by lia.
  set (T := TArray (env it) 1). set (a := AHeap h (16 + i * size)). set (N := length (heap m)). set (cs := [Cand (WPtr a) T]). exists (1 + Z.to_nat (mu env N m cs))%nat. intros f F.
  destruct (inc_dyn f m vs b it h n G Sb D ltac:(lia)) as (m1 & E1 & S1 & C1 & L1). rewrite E1. cbn [bind].
  set (mA := write m a ((Z.of_nat n - i - 1) * size) (cellsAt m (plus a size))). set (len := fun _ : Z => WInt (Z.of_nat n - 1)). set (mB := write mA (AHeap h 0) 8 len). set (mD := write mB (AVar z) 24 (cellsAt m b)).
  assert (h < length (heap m))%nat as La by (apply live_lt; apply D). assert (h < length (heap mA))%nat as LA by (unfold mA; rewrite write_len; exact La). assert (h < length (heap mB))%nat as LB by (unfold mB; rewrite write_len; exact LA).
  assert (forall o, read mD (AHeap h o) = if (0 <=? o) && (o <? 8) then WInt (Z.of_nat n - 1) else if (16 + i * size <=? o) && (o <? 16 + (Z.of_nat n - 1) * size) then read m (AHeap h (o + size)) else read m (AHeap h o)) as RD.
  { intros o. unfold mD. rewrite write_read by exact Logic.I. cbn [hits]. unfold mB. rewrite write_read by exact LA. cbn [hits offs]. rewrite Nat.eqb_refl. cbn [andb]. rewrite Z.add_0_l, Z.sub_0_r || rewrite Z.add_0_l. destruct ((0 <=? o) && (o <? 8)) eqn:E; [reflexivity|]. unfold mA. rewrite write_read by exact La. unfold a. cbn [hits offs plus]. rewrite Nat.eqb_refl. cbn [andb]. replace (16 + i * size + (Z.of_nat n - i - 1) * size) with (16 + (Z.of_nat n - 1) * size) by lia.
    destruct ((16 + i * size <=? o) && (o <? 16 + (Z.of_nat n - 1) * size)); [|reflexivity]. unfold cellsAt. cbn [plus]. do 2 f_equal. lia. }
  set (i' := Z.to_nat i). set (P := fun j => if (j <? i')%nat then AHeap h (16 + Z.of_nat j * size) else AHeap h (16 + Z.of_nat (j + 1) * size)).
  assert (forall j, (j < n - 1)%nat -> usable m (P j) (env it)) as UP. { intros j J. unfold P. destruct (Nat.ltb_spec j i'); (eapply dyn_item; [eassumption|lia]). }
  assert (forall j d, (j < n - 1)%nat -> 0 <= d < size -> read mD (AHeap h (16 + Z.of_nat j * size + d)) = read m (plus (P j) d)) as R7.
  { intros j d J Dd. rewrite RD. replace ((0 <=? 16 + Z.of_nat j * size + d) && (16 + Z.of_nat j * size + d <? 8)) with false by nia. unfold P. destruct (Nat.ltb_spec j i').
    - replace ((16 + i * size <=? 16 + Z.of_nat j * size + d) && (16 + Z.of_nat j * size + d <? 16 + (Z.of_nat n - 1) * size)) with false by nia. reflexivity.
    - replace ((16 + i * size <=? 16 + Z.of_nat j * size + d) && (16 + Z.of_nat j * size + d <? 16 + (Z.of_nat n - 1) * size)) with true by nia. cbn [plus]. do 2 f_equal. nia. }
  assert (length (heap mD) = length (heap m)) as D1. { unfold mD, mB, mA. rewrite !write_len. reflexivity. }
  assert (forall x, c_obj (chunkAt mD x) = c_obj (chunkAt m x)) as D2. { intros x. unfold mD. rewrite write_obj by exact Logic.I. unfold mB. rewrite write_obj by exact LA. apply write_obj. exact La. }
  assert (forall x o, x <> h -> read mD (AHeap x o) = read m (AHeap x o)) as D3.
  { intros x o Nx. unfold mD. rewrite write_read by exact Logic.I. cbn [hits]. unfold mB. rewrite write_read by exact LA. cbn [hits]. destruct (Nat.eqb_spec h x); [congruence|]. cbn [andb]. unfold mA. rewrite write_read by exact La. unfold a. cbn [hits]. destruct (Nat.eqb_spec h x); [congruence|]. reflexivity. }
  assert (forall y, read mD (AVar y) = if (z <=? y) && (y <? z + 24) then cellsAt m b (y - z) else read m (AVar y)) as D4. { intros y. unfold mD. rewrite write_read by exact Logic.I. cbn [hits offs]. unfold mB. rewrite write_read by exact LA. cbn [hits]. unfold mA. rewrite write_read by exact La. reflexivity. }
  assert (lenOf (read mD (AHeap h 0)) = (n - 1)%nat) as D5. { rewrite RD. cbn. lia. }
  pose proof (fun j J => proj1 (UP j J)) as D6.
  set (K := fun x => objRefs env mD x). set (R := varRefs mD ((z, TDyn it) :: vs)).
  assert (R = h :: varRefs m vs) as ER.
  { unfold R. cbn [varRefs flat_map fst snd]. cbn [slots]. rewrite refs1, (ip_var m z b it h n D mD _ D1 D4 D5). cbn [tgt app]. f_equal. apply flat_map_in. intros v Iv. apply agrees_refs. apply (ip_agrees m vs z b it h G Fr mD _ D1 D4 D5 v Iv). }
  assert (forall x, cnt x (objRefs env m h) = cnt x (objRefs env mD h) + cnt x (refsAt m a (slots T))) as CO.
  { intros x. rewrite (proj2 (ip_items m b it h n D mD (n - 1) P D1 D2 D5 D6 R7)), (ip_old m b it h n D). unfold T. rewrite items_split. cbn [seq flat_map]. rewrite app_nil_r. fold size. unfold a. cbn [plus Z.of_nat Z.mul]. rewrite Z.add_0_r.
    replace (n - 1)%nat with (i' + (n - 1 - i'))%nat by lia. replace n with (i' + S (n - 1 - i'))%nat at 1 by lia. rewrite !seq_split, !flat_map_app, !flat_map_map, !cnt_app. cbn [seq flat_map]. rewrite <- seq_shift, flat_map_map. rewrite cnt_app.
    assert (flat_map (fun j => refsAt m (P j) (slots (env it))) (seq 0 i') = flat_map (fun j => refsAt m (AHeap h (16 + Z.of_nat j * size)) (slots (env it))) (seq 0 i')) as ->. { apply flat_map_in. intros j J. apply in_seq in J. unfold P. destruct (Nat.ltb_spec j i'); [reflexivity|lia]. }
    assert (flat_map (fun j => refsAt m (P (i' + j)%nat) (slots (env it))) (seq 0 (n - 1 - i')) = flat_map (fun j => refsAt m (AHeap h (16 + Z.of_nat (i' + S j) * size)) (slots (env it))) (seq 0 (n - 1 - i'))) as ->. { apply flat_map_in. intros j J. unfold P. destruct (Nat.ltb_spec (i' + j) i'); [lia|]. do 4 f_equal. lia. }
    replace (Z.of_nat (i' + 0)) with i by lia. lia. }
  assert (inv env K R (Some h) N m1 cs) as Iv.
  { constructor.
    - apply S1.
    - intros x L. rewrite C1, (g_cnt _ _ _ G x L), heapRefs_tot. fold N. cbn [cs pend flat_map defers]. rewrite app_nil_r, cnt_nil. change (candRefs m1 (Cand (WPtr a) T)) with (refsAt m1 a (slots T)). rewrite (refs_same m m1 S1), ER, cnt_cons.
      assert (tot N (act m1 cs) (fun y => cnt x (K y)) = tot N (live m) (fun y => cnt x (objRefs env mD y))) as ->. { apply tot_eq. intros y _. unfold act. rewrite L1. cbn. apply andb_true_r. }
      pose proof (ip_tot m b it h n D mD D2 D3 x (live m) (y_live _ _ _ _ _ D) (fun y Y => Y)) as Q. fold N in Q. rewrite (CO x) in Q. lia.
    - intros x [].
    - intros x L Nx. rewrite (objRefs_same env m m1 S1). unfold K. apply (ip_other m h mD D2 D3). congruence.
    - intros x L. rewrite L1 in L. rewrite (objSlots_same env m m1 S1). apply (slotsOk_same env m m1 S1). apply (g_obj _ _ _ G x L).
    - split; [apply RKR; [rewrite ER; left; reflexivity|exact La]|]. rewrite (content_same env m m1 S1). unfold content. rewrite (y_obj _ _ _ _ _ D). discriminate.
    - constructor; [|constructor]. exists a. split; [reflexivity|]. apply (slotsOk_same env m m1 S1). unfold T. apply (items_okAt m a (env it) 1). intros j J. replace j with 0%nat by lia. cbn [Z.of_nat Z.mul]. rewrite plus_0. unfold a. replace i with (Z.of_nat i') by lia. eapply dyn_item; [eassumption|lia]. }
  assert (mu env N m1 cs = mu env N m cs) as MU. { unfold mu. f_equal. unfold tot. apply sum_ext. intros x _. rewrite (cw_same env m m1 x S1). unfold act. rewrite L1. reflexivity. }
  destruct (dec_loop env K R (Some h) N f m1 cs Iv) as [(m2 & E & S2 & L2 & I2)|[E Bz]]; [rewrite MU; lia| |].
  - left. change (loop env f false m1 cs) with (refCnt env f false m1 (WPtr a) T) in E. fold size. fold a. fold T. rewrite E. cbn [bind]. eexists. split; [reflexivity|]. replace (16 - 16) with 0 by lia. unfold declare. cbn [fst snd]. assert (sameData m m2) as S12 by (eapply same_trans; eassumption). rewrite (cellsAt_same m m2 _ S12).
    set (mF := write _ (AVar z) _ _). assert (h < length (heap m2))%nat as Lh2 by (destruct S12 as (_ & El & _); rewrite El; exact La).
    assert (sameData mD mF) as SF. { unfold mD, mF, mB, mA. apply write_same; [|exact Logic.I]. apply write_same; [apply write_same; [exact S12|exact La]|exact LA]. }
    assert (forall x, c_ref (chunkAt mF x) = c_ref (chunkAt m2 x)) as CF. { intros x. unfold mF. rewrite write_ref by exact Logic.I. rewrite write_ref by (rewrite write_len; exact Lh2). apply write_ref. exact Lh2. }
    assert (forall x, live mF x = live m2 x) as LF by (intros x; unfold live; rewrite CF; reflexivity).
    apply (ip_good m vs z b it h n G Fr D mD (n - 1) P D1 D2 D3 D4 D5 D6 R7 mF SF).
    + intros x Lx. rewrite LF in Lx. apply L2 in Lx. rewrite L1 in Lx. exact Lx.
    + intros x Lx. rewrite CF, (i_cnt _ _ _ _ _ _ _ I2 x Lx). cbn [pend flat_map defers]. rewrite cnt_nil, ER, cnt_cons. fold N.
      assert (tot N (act m2 []) (fun y => cnt x (K y)) = tot N (live mF) (fun y => cnt x (objRefs env mD y))) as ->; [|lia]. apply tot_eq. intros y _. unfold act. rewrite LF. cbn. apply andb_true_r.
  - right. change (loop env f false m1 cs) with (refCnt env f false m1 (WPtr a) T) in E. fold size. fold a. fold T. rewrite E. split; [reflexivity|]. eapply busy_same; [exact S1| |exact Bz]. intros x Lx. rewrite <- L1. exact Lx.
Qed.
End Items.
