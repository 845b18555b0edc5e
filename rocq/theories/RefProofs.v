(** Reference counting: lemmas about memory, slots and the traversal. *)
From Coq Require Import ZArith Lia Bool List ZifyBool Permutation.
From Verif Require Import Base RefModel RefSpec.
Import ListNotations.
Local Open Scope Z_scope.

(** ** Types *)
Section TyInd.
Variable P : ty -> Prop.
Hypothesis Hpl : forall s, P (TPlain s).
Hypothesis Hpt : forall b, P (TPtr b).
Hypothesis Hst : P TStr.
Hypothesis Hfi : P TFiber.
Hypothesis Har : forall u n, P u -> P (TArray u n).
Hypothesis Hdy : forall i, P (TDyn i).
Hypothesis Hma : forall i, P (TMap i).
Hypothesis Hsr : forall fs s, Forall (fun f => P (snd f)) fs -> P (TStruct fs s).
Hypothesis Hif : forall s, P (TIface s).
Fixpoint ty_ind2 (t : ty) : P t :=
  match t with
  | TPlain s => Hpl s
  | TPtr b => Hpt b
  | TStr => Hst
  | TFiber => Hfi
  | TArray u n => Har u n (ty_ind2 u)
  | TDyn i => Hdy i
  | TMap i => Hma i
  | TStruct fs s => Hsr fs s ((fix go fs : Forall (fun f => P (snd f)) fs := match fs with [] => Forall_nil _ | (o, u) :: r => Forall_cons (o, u) (ty_ind2 u : P (snd (o, u))) (go r) end) fs)
  | TIface s => Hif s
  end.
End TyInd.
Lemma slots_struct : forall fs s, slots (TStruct fs s) = flat_map (fun f => shift (fst f) (slots (snd f))) fs.
Proof. intros fs s. cbn [slots]. induction fs as [|[o u] r IH]; cbn [flat_map fst snd]; [reflexivity|]. rewrite IH. reflexivity. Qed.
Lemma hasPtr_struct : forall fs s, hasPtr (TStruct fs s) = existsb (fun f => hasPtr (snd f)) fs.
Proof. intros fs s. cbn [hasPtr]. induction fs as [|[o u] r IH]; cbn [existsb snd]; [reflexivity|]. rewrite IH. reflexivity. Qed.
Lemma flat_map_nil : forall A B (f : A -> list B) l, (forall x, In x l -> f x = []) -> flat_map f l = [].
Proof. induction l as [|a l IH]; intros H; cbn; [reflexivity|]. rewrite (H a) by (left; reflexivity). apply IH. intros x I. apply H. right. exact I. Qed.
Lemma noPtr_slots : forall t, hasPtr t = false -> slots t = [].
Proof.
  intros t. induction t as [s|b| | |u n IH|i|i|fs s IH|s] using ty_ind2; intros H; try discriminate H; [reflexivity| |].
  - cbn [hasPtr] in H. apply andb_false_iff in H. cbn [slots]. destruct H as [H|H].
    + apply negb_false_iff in H. apply Nat.eqb_eq in H. subst. reflexivity.
    + apply flat_map_nil. intros i _. rewrite (IH H). reflexivity.
  - rewrite slots_struct. rewrite hasPtr_struct in H. apply flat_map_nil. intros [o u] I. rewrite Forall_forall in IH. specialize (IH _ I). cbn [fst snd] in *.
    assert (hasPtr u = false) as E. { destruct (hasPtr u) eqn:E; [|reflexivity]. assert (existsb (fun f => hasPtr (snd f)) fs = true) by (apply existsb_exists; exists (o, u); auto). congruence. }
    rewrite (IH E). reflexivity.
Qed.

(** ** Memory *)
Lemma plus_0 : forall a, plus a 0 = a. Proof. intros [z|b o]; cbn; f_equal; lia. Qed.
Lemma plus_plus : forall a i j, plus (plus a i) j = plus a (i + j). Proof. intros [z|b o] i j; cbn; f_equal; lia. Qed.
Lemma length_setNth : forall A (l : list A) n x, length (setNth l n x) = length l. Proof. induction l; intros [|n] x; cbn; auto. Qed.
Lemma nth_setNth : forall A (l : list A) n m x d, nth m (setNth l n x) d = if Nat.eqb n m && Nat.ltb n (length l) then x else nth m l d.
Proof.
  induction l as [|a l IH]; intros [|n] [|m] x d; cbn [setNth nth length]; try reflexivity.
  - destruct (Nat.eqb _ _); reflexivity.
  - rewrite IH. cbn. destruct (Nat.eqb n m); reflexivity.
Qed.
Lemma shift_shift : forall a b l, shift a (shift b l) = shift (a + b) l.
Proof. intros a b l. unfold shift. rewrite map_map. apply map_ext. intros [o s]. cbn. f_equal. lia. Qed.
Lemma shift_0 : forall l, shift 0 l = l. Proof. intros l. unfold shift. rewrite <- (map_id l) at 2. apply map_ext. intros [o s]. cbn. f_equal. Qed.
Lemma shift_app : forall d l k, shift d (l ++ k) = shift d l ++ shift d k. Proof. intros. apply map_app. Qed.
Lemma refs_shift : forall m a d l, refsAt m a (shift d l) = refsAt m (plus a d) l.
Proof. intros m a d l. unfold refsAt, shift. rewrite flat_map_concat_map, map_map, <- flat_map_concat_map. apply flat_map_ext. intros [o s]. cbn [fst]. rewrite plus_plus. reflexivity. Qed.
Lemma refs_app : forall m a l k, refsAt m a (l ++ k) = refsAt m a l ++ refsAt m a k. Proof. intros. apply flat_map_app. Qed.
Lemma refs_flat : forall A m a (f : A -> list (Z * slot)) l, refsAt m a (flat_map f l) = flat_map (fun x => refsAt m a (f x)) l.
Proof. induction l as [|x l IH]; cbn [flat_map]; [reflexivity|]. rewrite refs_app, IH. reflexivity. Qed.

(** ** Counting *)
Lemma cnt_app : forall b l k, cnt b (l ++ k) = cnt b l + cnt b k. Proof. intros. unfold cnt. rewrite count_occ_app. lia. Qed.
Lemma cnt_nonneg : forall b l, 0 <= cnt b l. Proof. intros. unfold cnt. lia. Qed.
Lemma cnt_cons : forall b x l, cnt b (x :: l) = (if Nat.eqb x b then 1 else 0) + cnt b l.
Proof. intros. unfold cnt. cbn [count_occ]. destruct (Nat.eq_dec x b) as [->|N]; [rewrite Nat.eqb_refl; lia|]. replace (Nat.eqb x b) with false by (symmetry; apply Nat.eqb_neq; exact N). lia. Qed.
Lemma cnt_nil : forall b, cnt b [] = 0. Proof. reflexivity. Qed.
Lemma cnt_In : forall b l, In b l <-> 0 < cnt b l. Proof. intros. unfold cnt. rewrite (count_occ_In Nat.eq_dec). lia. Qed.
Lemma cnt_notIn : forall b l, ~ In b l -> cnt b l = 0. Proof. intros b l N. rewrite cnt_In in N. pose proof (cnt_nonneg b l). lia. Qed.
Lemma cnt_perm : forall b l k, Permutation l k -> cnt b l = cnt b k. Proof. intros b l k P. unfold cnt. f_equal. apply (proj1 (Permutation_count_occ Nat.eq_dec l k)). exact P. Qed.
Lemma flat_map_perm : forall A B (f : A -> list B) l k, Permutation l k -> Permutation (flat_map f l) (flat_map f k).
Proof.
  intros A B f l k P. induction P; cbn [flat_map]; [constructor|apply Permutation_app_head; assumption| |eapply perm_trans; eassumption].
  rewrite !app_assoc. apply Permutation_app_tail. apply Permutation_app_comm.
Qed.
Fixpoint sum {A} (f : A -> Z) (l : list A) : Z := match l with [] => 0 | x :: r => f x + sum f r end.
Lemma cnt_flat : forall A b (f : A -> list nat) l, cnt b (flat_map f l) = sum (fun x => cnt b (f x)) l.
Proof. induction l as [|x l IH]; cbn [flat_map sum]; [reflexivity|]. rewrite cnt_app, IH. reflexivity. Qed.
Lemma sum_ext : forall A (f g : A -> Z) l, (forall x, In x l -> f x = g x) -> sum f l = sum g l.
Proof. induction l as [|x l IH]; intros H; cbn [sum]; [reflexivity|]. rewrite (H x), IH; auto using in_eq, in_cons. Qed.
Lemma sum_change : forall (f g : nat -> Z) i n, (i < n)%nat -> (forall x, x <> i -> f x = g x) -> sum f (seq 0 n) + g i = sum g (seq 0 n) + f i.
Proof.
  intros f g i n. enough (forall k, (k <= i < k + n)%nat -> (forall x, x <> i -> f x = g x) -> sum f (seq k n) + g i = sum g (seq k n) + f i) as E. { intros L. apply E. lia. }
  induction n as [|n IH]; intros k L H; [lia|]. cbn [seq sum]. destruct (Nat.eq_dec k i) as [->|N].
  - rewrite (sum_ext _ f g (seq (S i) n)); [lia|]. intros x I. apply in_seq in I. apply H. lia.
  - specialize (IH (S k) ltac:(lia) H). rewrite (H k N). lia.
Qed.
Lemma sum_nonneg : forall A (f : A -> Z) l, (forall x, In x l -> 0 <= f x) -> 0 <= sum f l.
Proof. induction l as [|x l IH]; intros H; cbn [sum]; [lia|]. specialize (IH (fun y I => H y (or_intror I))). specialize (H x (or_introl eq_refl)). lia. Qed.
Lemma sum_ge : forall (f : nat -> Z) l i, (forall x, In x l -> 0 <= f x) -> In i l -> f i <= sum f l.
Proof.
  induction l as [|x l IH]; intros i H I; [destruct I|]. cbn [sum]. pose proof (H x (or_introl eq_refl)). pose proof (sum_nonneg _ f l (fun y J => H y (or_intror J))).
  destruct I as [->|I]; [lia|]. specialize (IH i (fun y J => H y (or_intror J)) I). lia.
Qed.

(** ** Changes of counts *)
Lemma chunkAt_setRef : forall m b n c, chunkAt (setRef m b n) c = if Nat.eqb b c && Nat.ltb b (length (heap m)) then MkChunk n (c_obj (chunkAt m b)) (c_data (chunkAt m b)) else chunkAt m c.
Proof. intros. unfold chunkAt, setRef. cbn [heap]. apply nth_setNth. Qed.
Lemma ref_setRef : forall m b n c, (b < length (heap m))%nat -> c_ref (chunkAt (setRef m b n) c) = if Nat.eqb b c then n else c_ref (chunkAt m c).
Proof. intros m b n c L. rewrite chunkAt_setRef. apply Nat.ltb_lt in L. rewrite L, andb_true_r. destruct (Nat.eqb b c); reflexivity. Qed.
Lemma len_setRef : forall m b n, length (heap (setRef m b n)) = length (heap m). Proof. intros. unfold setRef. cbn. apply length_setNth. Qed.
(** The same memory except for the counts. *)
Definition sameData (m m' : mem) : Prop :=
  vars m' = vars m /\ length (heap m') = length (heap m) /\ (forall b, c_obj (chunkAt m' b) = c_obj (chunkAt m b)) /\ forall b, c_data (chunkAt m' b) = c_data (chunkAt m b).
Lemma same_refl : forall m, sameData m m. Proof. intros. unfold sameData. auto. Qed.
Lemma same_trans : forall a b c, sameData a b -> sameData b c -> sameData a c.
Proof. intros a b c (A1 & A2 & A3 & A4) (B1 & B2 & B3 & B4). unfold sameData. split; [congruence|]. split; [congruence|]. split; intros; congruence. Qed.
Lemma same_sym : forall a b, sameData a b -> sameData b a.
Proof. intros a b (A1 & A2 & A3 & A4). unfold sameData. split; [congruence|]. split; [congruence|]. split; intros; congruence. Qed.
Lemma setRef_same : forall m b n, sameData m (setRef m b n).
Proof.
  intros. unfold sameData. split; [reflexivity|]. split; [apply len_setRef|].
  split; intros c; rewrite chunkAt_setRef; destruct (Nat.eqb_spec b c) as [->|]; cbn [andb]; try reflexivity; destruct (Nat.ltb _ _); reflexivity.
Qed.
Section Same.
Variable env : nat -> ty.
Variables m m' : mem.
Hypothesis S : sameData m m'.
Lemma read_same : forall a, read m' a = read m a.
Proof. destruct S as (A1 & A2 & A3 & A4). intros [z|b o]; cbn; [rewrite A1|rewrite A4]; reflexivity. Qed.
Lemma refs_same : forall a l, refsAt m' a l = refsAt m a l.
Proof. intros. apply flat_map_ext. intros p. rewrite read_same. reflexivity. Qed.
Lemma objSlots_same : forall b, objSlots env m' b = objSlots env m b.
Proof. intros b. unfold objSlots. rewrite read_same. destruct S as (_ & _ & A3 & _). rewrite A3. reflexivity. Qed.
Lemma objRefs_same : forall b, objRefs env m' b = objRefs env m b.
Proof. intros b. unfold objRefs. rewrite objSlots_same. apply refs_same. Qed.
Lemma varRefs_same : forall vs, varRefs m' vs = varRefs m vs.
Proof. intros. apply flat_map_ext. intros v. apply refs_same. Qed.
Lemma ptrOk_same : forall b w, ptrOk env m b w -> ptrOk env m' b w.
Proof. destruct S as (_ & A2 & A3 & _). intros b [z|[z|c o]|t] H; cbn in *; auto. rewrite A2, A3. exact H. Qed.
Lemma slotOk_same : forall a p, slotOk env m a p -> slotOk env m' a p.
Proof.
  intros a [o s] H. unfold slotOk in *. cbn [fst snd] in *. rewrite !read_same. pose proof ptrOk_same as PO. destruct S as (_ & A2 & A3 & _).
  destruct s; auto.
  - destruct (read m (plus a o)) as [z|[z|b q]|t]; auto. rewrite A2, A3. exact H.
  - destruct (read m (plus a o)) as [z|[z|b q]|t]; auto. rewrite A2, A3. exact H.
  - destruct (read m (plus a o)) as [z|[z|b q]|t]; auto. rewrite A2, A3. exact H.
  - destruct H as [H|(b & E & H)]; [left; exact H|]. right. exists b. auto.
  - destruct H as (b & q & E & L & O). exists b, q. rewrite A2, A3. auto.
Qed.
Lemma slotsOk_same : forall a l, slotsOk env m a l -> slotsOk env m' a l.
Proof. intros a l H. eapply Forall_impl; [|exact H]. intros p. apply slotOk_same. Qed.
Lemma content_same : forall b, content env m' b = content env m b.
Proof. intros b. unfold content. rewrite read_same. destruct S as (_ & _ & A3 & _). rewrite A3. reflexivity. Qed.
End Same.
