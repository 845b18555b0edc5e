From Coq Require Import ZArith Lia Bool List ZifyBool.
From Verif Require Import Base NumModel NumProofs MemModel MemProofs BlkModel BlkProofs DynModel DynSpec.
Import ListNotations.
Local Open Scope Z_scope.
Ltac Zify.zify_post_hook ::= Z.div_mod_to_equations.

Ltac mv H := rewrite H; match goal with |- context [if ?b then _ else _] => let E := fresh "Ein" in destruct b eqn:E end; [try (exfalso; lia)|try (exfalso; lia)].

Section Dyn.
Variable size : Z.
Hypothesis Hsize : 0 <= size <= INT_MAX.

Definition isz : nat := Z.to_nat size.
Definition cap_for (n : Z) : Z :=
  let c := if LIMIT <? 2 * (n + 1) * size then LIMIT / size else 2 * (n + 1) in
  if c <? n then n else c.
Definition fits (n : Z) : bool := (n <=? INT_MAX) && (chunkSizeFor (16 + cap_for n * size) <=? INT_MAX).

Fixpoint rd_items (n : nat) (m : mem) (a : Z) : list item :=
  match n with O => [] | S n' => read isz m a :: rd_items n' m (a + size) end.

Lemma cons_eq {A} (x y : A) l r : x = y -> l = r -> x :: l = y :: r.
Proof. congruence. Qed.
Lemma isz_size : Z.of_nat isz = size.
Proof. unfold isz. lia. Qed.

Lemma mul_le i j : i <= j -> i * size <= j * size.
Proof. intro. apply Z.mul_le_mono_nonneg_r; lia. Qed.
Lemma mul_lt i j : i < j -> i * size + size <= j * size.
Proof. intro. nia. Qed.
Lemma mul_nn i : 0 <= i -> 0 <= i * size.
Proof. intro. nia. Qed.

Lemma rd_length n m a : length (rd_items n m a) = n.
Proof. revert a. induction n as [|n IH]; intro a; cbn [rd_items length]; [reflexivity|]. rewrite IH. reflexivity. Qed.

Lemma rd_app n : forall k m a, rd_items (n + k) m a = rd_items n m a ++ rd_items k m (a + Z.of_nat n * size).
Proof.
  induction n as [|n IH]; intros k m a.
  - cbn [Nat.add rd_items app]. replace (a + Z.of_nat 0 * size) with a by lia. reflexivity.
  - cbn [Nat.add rd_items app]. rewrite IH. rewrite Nat2Z.inj_succ, Z.mul_succ_l. replace (a + size + Z.of_nat n * size) with (a + (Z.of_nat n * size + size)) by lia. reflexivity.
Qed.

Lemma rd_shift n : forall m m' a b, (forall i, 0 <= i < Z.of_nat n * size -> m' (a + i) = m (b + i)) ->
  rd_items n m' a = rd_items n m b.
Proof.
  induction n as [|n IH]; intros m m' a b H; cbn [rd_items]; [reflexivity|]. f_equal.
  - apply read_shift. intros i Hi. apply H. rewrite isz_size in Hi. rewrite Nat2Z.inj_succ, Z.mul_succ_l.
    pose proof (mul_nn (Z.of_nat n)). lia.
  - apply IH. intros i Hi. specialize (H (size + i)). rewrite !Z.add_assoc in H. apply H.
    rewrite Nat2Z.inj_succ, Z.mul_succ_l. lia.
Qed.

Lemma rd_ext n m m' a : (forall x, a <= x < a + Z.of_nat n * size -> m' x = m x) -> rd_items n m' a = rd_items n m a.
Proof. intro H. apply rd_shift. intros i Hi. apply H. lia. Qed.

Lemma rd_firstn k n m a : (k <= n)%nat -> firstn k (rd_items n m a) = rd_items k m a.
Proof.
  intro H. replace n with (k + (n - k))%nat by lia. rewrite rd_app, firstn_app, rd_length, Nat.sub_diag.
  cbn [firstn]. rewrite app_nil_r. apply firstn_all2. rewrite rd_length. lia.
Qed.
Lemma rd_skipn k n m a : (k <= n)%nat -> skipn k (rd_items n m a) = rd_items (n - k) m (a + Z.of_nat k * size).
Proof.
  intro H. replace n with (k + (n - k))%nat at 1 by lia. rewrite rd_app, skipn_app, rd_length, Nat.sub_diag.
  cbn [skipn]. rewrite skipn_all2 by (rewrite rd_length; lia). reflexivity.
Qed.
Lemma rd_nth n : forall m a i, (i < n)%nat -> nth_error (rd_items n m a) i = Some (read isz m (a + Z.of_nat i * size)).
Proof.
  induction n as [|n IH]; intros m a i H; [lia|]. destruct i as [|i]; cbn [rd_items nth_error].
  - do 2 f_equal. lia.
  - rewrite IH by lia. do 2 f_equal. rewrite Nat2Z.inj_succ, Z.mul_succ_l. lia.
Qed.
Lemma rd_zero n : forall m a, (forall x, a <= x < a + Z.of_nat n * size -> m x = 0) ->
  rd_items n m a = repeat (zero_item size) n.
Proof.
  induction n as [|n IH]; intros m a H; cbn [rd_items repeat]; [reflexivity|]. apply cons_eq.
  - unfold zero_item. apply read_zero. intros x Hx. apply H. change (Z.to_nat size) with isz in Hx. rewrite isz_size in Hx.
    rewrite Nat2Z.inj_succ, Z.mul_succ_l. pose proof (mul_nn (Z.of_nat n)). lia.
  - apply IH. intros x Hx. apply H. rewrite Nat2Z.inj_succ, Z.mul_succ_l. lia.
Qed.

(** Facts about the capacity. *)
Lemma cap_ge n : n <= cap_for n.
Proof. unfold cap_for. destruct (LIMIT <? 2 * (n + 1) * size), (_ <? n) eqn:E; lia. Qed.
Lemma size_pos_of n : LIMIT < 2 * (n + 1) * size -> size <> 0.
Proof. intros H E. rewrite E in H. unfold LIMIT, INT_MAX, two31 in H. lia. Qed.
Lemma cap_le n : 0 <= n <= INT_MAX -> cap_for n <= 2 * (INT_MAX + 1).
Proof.
  intro H. unfold cap_for. destruct (LIMIT <? 2 * (n + 1) * size) eqn:E.
  - assert (size <> 0) by (apply (size_pos_of n); lia).
    assert (LIMIT / size <= LIMIT) by (apply Z.div_le_upper_bound; unfold LIMIT, INT_MAX, two31 in *; nia).
    unfold LIMIT in *. destruct (_ <? n) eqn:E2; unfold INT_MAX, two31 in *; lia.
  - destruct (_ <? n) eqn:E2; lia.
Qed.

Lemma newCap_ok n : 0 <= n <= INT_MAX -> newCap size n = Ok (cap_for n).
Proof.
  intro H. unfold newCap, chk64, cap_for. 
  assert (0 <= 2 * (n + 1) * size <= 2 * (INT_MAX + 1) * INT_MAX) by nia.
  assert (in_s64b (2 * (n + 1) * size) = true) as ->.
  { unfold in_s64b, INT64_MIN, INT64_MAX. unfold INT_MAX, two31 in *. change two63 with 9223372036854775808. lia. }
  reflexivity.
Qed.

Lemma align_ge s a : 0 < a -> s <= align s a.
Proof. intro H. unfold align. pose proof (Z.div_mod (s + (a - 1)) a). pose proof (Z.mod_pos_bound (s + (a - 1)) a). nia. Qed.
Lemma chunkSize_ge s : s + 41 <= chunkSizeFor s.
Proof. unfold chunkSizeFor. pose proof (align_ge (40 + align (s + 1) 8) 64). pose proof (align_ge (s + 1) 8). lia. Qed.

(** An array with contents [s_items A] and capacity [s_cap A] whose data are at [d]. *)
Definition holds_arr (m : mem) (d : Z) (A : sarr) : Prop :=
  s64 (load 8 m (d - 16)) = zlen (s_items A) /\ s64 (load 8 m (d - 8)) = s_cap A /\
  rd_items (length (s_items A)) m d = s_items A /\ zlen (s_items A) <= s_cap A /\ s_cap A <= 2 * (INT_MAX + 1).

Lemma holds_ext m m' d A :
  (forall x, d - 16 <= x < d + s_cap A * size -> m' x = m x) -> holds_arr m d A -> holds_arr m' d A.
Proof.
  intros E (H1 & H2 & H3 & H4 & H5). unfold zlen in *. 
  assert (0 <= s_cap A * size) by (apply mul_nn; lia).
  assert (Z.of_nat (length (s_items A)) * size <= s_cap A * size) by (apply mul_le; lia).
  unfold holds_arr, zlen. split; [|split; [|split; [|split]]]; try assumption.
  - rewrite <- H1. f_equal. apply load_ext. intros x Hx. apply E. lia.
  - rewrite <- H2. f_equal. apply load_ext. intros x Hx. apply E. lia.
  - rewrite <- H3 at 2. apply rd_ext. intros x Hx. apply E. lia.
Qed.

Definition below (o : omem) : Prop := 0 <= om_next o /\ forall b s, In (b, s) (om_blocks o) -> b + s <= om_next o.
(** The header (MkDyn size d) denotes an array with contents l and capacity c. *)
Definition hdr_ok (o : omem) (d : Z) (l : list item) (c : Z) : Prop :=
  0 < d /\ holds_arr (om_mem o) d (MkArr l c) /\ exists bs, In (d - 16, bs) (om_blocks o) /\ 16 + c * size <= bs.

Lemma hdr_valid o d l c a n : hdr_ok o d l c -> d - 16 <= a -> a + n <= d + c * size -> valid o a n = true.
Proof. intros (_ & _ & bs & Hi & Hb) H1 H2. apply (valid_in _ (d - 16) bs); [exact Hi|lia..]. Qed.

Lemma hdr_len o d l c : hdr_ok o d l c -> dimsLen o (MkDyn size d) = Ok (zlen l).
Proof.
  intro H. unfold dimsLen. cbn [d_data]. pose proof H as (_ & (H1 & _ & _ & H4 & _) & _). cbn [s_items s_cap] in *. unfold zlen in H4.
  assert (0 <= c * size) by (apply mul_nn; lia).
  rewrite load64_ok by (eapply hdr_valid; [exact H|lia..]). f_equal. exact H1.
Qed.
Lemma hdr_cap o d l c : hdr_ok o d l c -> dimsCap o (MkDyn size d) = Ok c.
Proof.
  intro H. unfold dimsCap. cbn [d_data]. pose proof H as (_ & (_ & H1 & _ & H4 & _) & _). cbn [s_items s_cap] in *. unfold zlen in H4.
  assert (0 <= c * size) by (apply mul_nn; lia).
  rewrite load64_ok by (eapply hdr_valid; [exact H|lia..]). f_equal. exact H1.
Qed.

(** What an allocation of a new array of contents l does to the memory. *)
Definition newarr (o o' : omem) (l : list item) : Prop :=
  (forall x, x < om_next o -> om_mem o' x = om_mem o x) /\
  om_blocks o' = (om_next o, 17 + cap_for (zlen l) * size) :: om_blocks o /\
  om_next o' = om_next o + 17 + cap_for (zlen l) * size /\
  holds_arr (om_mem o') (om_next o + 16) (MkArr l (cap_for (zlen l))).

Lemma len_s64 n : 0 <= n <= 2 * (INT_MAX + 1) -> in_s64 n.
Proof. unfold in_s64, INT64_MIN, INT64_MAX, INT_MAX, two31. change two63 with 9223372036854775808. lia. Qed.

Lemma alloc_ok o n : 0 <= n -> fits n = true ->
  exists o', doAllocDynArray size o n = Ok (o', MkDyn size (om_next o + 16)) /\
    newarr o o' (repeat (zero_item size) (Z.to_nat n)).
Proof.
  intros Hn Hf. unfold fits in Hf. apply andb_true_iff in Hf. destruct Hf as [Hf1 Hf2].
  unfold doAllocDynArray. destruct ((n <? 0) || (INT_MAX <? n)) eqn:E; [lia|].
  rewrite newCap_ok by lia. cbn [bind]. pose proof (cap_ge n) as Hc. pose proof (cap_le n ltac:(lia)) as Hc2.
  unfold chunkAlloc. assert (0 <= cap_for n * size) by (apply mul_nn; lia).
  destruct ((16 + cap_for n * size <? 0) || (INT_MAX <? chunkSizeFor (16 + cap_for n * size))) eqn:E2; [lia|].
  cbn [bind newBlock]. set (o1 := MkOmem _ _ _).
  assert (Hb : In (om_next o, 17 + cap_for n * size) (om_blocks o1)).
  { unfold o1. cbn [om_blocks]. left. f_equal. lia. }
  rewrite store64_ok by (apply (valid_in _ _ _ _ _ Hb); lia). cbn [bind].
  rewrite store64_ok by (rewrite valid_set_mem; apply (valid_in _ _ _ _ _ Hb); lia). cbn [bind].
  eexists. split; [reflexivity|]. unfold newarr, zlen. rewrite repeat_length, Z2Nat.id by lia.
  cbn [set_mem om_mem om_blocks om_next]. split; [|split; [|split]].
  - intros x Hx. rewrite !store_other by lia. unfold o1. cbn [om_mem]. unfold zero_range.
    destruct ((om_next o <=? x) && _) eqn:E3; [lia|reflexivity].
  - unfold o1. cbn [om_blocks]. do 2 f_equal. lia.
  - unfold o1. cbn [om_next]. lia.
  - unfold holds_arr, zlen. cbn [s_items s_cap]. rewrite repeat_length, Z2Nat.id by lia.
    replace (om_next o + 16 - 16) with (om_next o) by lia. replace (om_next o + 16 - 8) with (om_next o + 8) by lia.
    split; [|split; [|split; [|split]]]; try lia.
    + rewrite load_store64_other by lia. apply load_store64. apply len_s64. lia.
    + apply load_store64. apply len_s64. lia.
    + apply rd_zero. intros x Hx. rewrite Z2Nat.id in Hx by lia. rewrite !store_other by lia.
      unfold o1. cbn [om_mem]. unfold zero_range.
      assert (n * size <= cap_for n * size) by (apply mul_le; lia).
      destruct ((om_next o <=? x) && _) eqn:E3; [reflexivity|lia].
Qed.

Lemma alloc_err o n : (n < 0 \/ fits n = false) -> exists e, doAllocDynArray size o n = Err e.
Proof.
  intro H. unfold doAllocDynArray. destruct ((n <? 0) || (INT_MAX <? n)) eqn:E; [eexists; reflexivity|].
  destruct H as [H|H]; [lia|]. rewrite newCap_ok by lia. cbn [bind]. unfold fits in H.
  unfold chunkAlloc. destruct (INT_MAX <? chunkSizeFor (16 + cap_for n * size)) eqn:E2; [|lia].
  rewrite orb_true_r. eexists. reflexivity.
Qed.

Lemma newarr_hdr o o' l : below o -> newarr o o' l -> hdr_ok o' (om_next o + 16) l (cap_for (zlen l)).
Proof.
  intros B (_ & Hb & _ & Hh). split; [destruct B; lia|]. split; [exact Hh|]. exists (17 + cap_for (zlen l) * size). split; [|lia].
  rewrite Hb. left. f_equal. lia.
Qed.
Lemma newarr_below o o' l : below o -> newarr o o' l -> below o'.
Proof.
  intros [B0 B] (_ & Hb & Hn & Hh). destruct Hh as (_ & _ & _ & H4 & _). cbn [s_items s_cap] in H4. unfold zlen in *.
  pose proof (mul_nn (cap_for (Z.of_nat (length l)))). split; [lia|]. intros b s Hi. rewrite Hb in Hi. destruct Hi as [Hi|Hi].
  - apply pair_inv in Hi. lia.
  - specialize (B _ _ Hi). lia.
Qed.
Lemma valid_mono o o' l a n : newarr o o' l -> valid o a n = true -> valid o' a n = true.
Proof.
  intros (_ & Hb & _) V. apply valid_inv in V. destruct V as (b & s & Hi & H1 & H2).
  apply (valid_in _ b s); [|lia..]. rewrite Hb. right. exact Hi.
Qed.
Lemma valid_below o a n : below o -> valid o a n = true -> a + n <= om_next o.
Proof. intros B V. apply valid_inv in V. destruct V as (b & s & Hi & H1 & H2). destruct B as [_ B]. specialize (B _ _ Hi). lia. Qed.

Lemma hdr_mono o o1 z d l c : below o -> newarr o o1 z -> hdr_ok o d l c -> hdr_ok o1 d l c /\ d + c * size <= om_next o.
Proof.
  intros B N H. pose proof H as (Hd & Hh & bs & Hi & Hb). pose proof (proj2 B _ _ Hi). split; [|lia]. split; [exact Hd|]. split.
  - apply (holds_ext (om_mem o)); [|exact Hh]. cbn [s_cap]. intros x Hx. apply N. lia.
  - exists bs. split; [|exact Hb]. destruct N as (_ & -> & _). right. exact Hi.
Qed.

(** Changing the contents of a new array. *)
Lemma newarr_fill o o' l l' m' :
  newarr o o' l -> length l' = length l ->
  (forall x, (x < om_next o + 16 \/ om_next o + 16 + cap_for (zlen l) * size <= x) -> m' x = om_mem o' x) ->
  rd_items (length l') m' (om_next o + 16) = l' ->
  newarr o (set_mem o' m') l'.
Proof.
  intros (E & Hb & Hn & Hh) Hl Ho Hr. unfold newarr, zlen in *. rewrite Hl in *. cbn [set_mem om_mem om_blocks om_next].
  split; [|split; [|split]]; try assumption.
  - intros x Hx. rewrite Ho by lia. apply E, Hx.
  - destruct Hh as (H1 & H2 & H3 & H4 & H5). cbn [s_items s_cap] in *. unfold zlen in *.
    unfold holds_arr, zlen. cbn [s_items s_cap]. rewrite Hl.
    split; [|split; [|split; [|split]]]; try assumption.
    + rewrite <- H1. f_equal. apply load_ext. intros x Hx. apply Ho. lia.
    + rewrite <- H2. f_equal. apply load_ext. intros x Hx. apply Ho. lia.
Qed.

(** Readable source of k items. *)
Definition readable (o : omem) (a : Z) (xs : list item) : Prop :=
  rd_items (length xs) (om_mem o) a = xs /\ (zlen xs * size = 0 \/ valid o a (zlen xs * size) = true).

Lemma hdr_readable o d l c : hdr_ok o d l c -> readable o d l.
Proof.
  intro H. pose proof H as (_ & (H1 & H2 & H3 & H4 & H5) & _). cbn [s_items s_cap] in *. split; [exact H3|]. right.
  unfold zlen in *. eapply hdr_valid; [exact H|lia|]. pose proof (mul_le (Z.of_nat (length l)) c). lia.
Qed.

Lemma readable_mono o o' l a xs : below o -> newarr o o' l -> readable o a xs -> readable o' a xs.
Proof.
  intros B N (H1 & H2). split.
  - rewrite <- H1 at 2. unfold zlen in *. destruct H2 as [H2|H2].
    + apply rd_ext. intros x Hx. lia.
    + apply rd_ext. intros x Hx. apply N. pose proof (valid_below _ _ _ B H2). lia.
  - destruct H2 as [H2|H2]; [left; exact H2|right]. eapply valid_mono; eassumption.
Qed.

(** Writing the length of the array. *)
Lemma setLen_ok o d l c m' n : hdr_ok o d l c ->
  setDimsLen (set_mem o m') (MkDyn size d) n = Ok (set_mem o (store 8 m' (d - 16) n)).
Proof.
  intro H. unfold setDimsLen. cbn [d_data]. rewrite store64_ok; [reflexivity|]. rewrite valid_set_mem. eapply hdr_valid; [exact H|lia|].
  destruct H as (_ & (_ & _ & _ & H4 & _) & _). cbn [s_items s_cap] in H4. unfold zlen in H4. pose proof (mul_nn c). lia.
Qed.
Lemma getLen_ok o d l c m' : hdr_ok o d l c -> (forall x, d - 16 <= x < d -> m' x = om_mem o x) ->
  dimsLen (set_mem o m') (MkDyn size d) = Ok (zlen l).
Proof.
  intros H E. rewrite <- (hdr_len _ _ _ _ H). unfold dimsLen, load64. cbn [d_data]. rewrite valid_set_mem.
  cbn [set_mem om_mem]. destruct (valid o (d - 16) 8); [|reflexivity]. do 2 f_equal. apply load_ext. intros x Hx. apply E. lia.
Qed.

(** Result of an operation in place: only the array's own storage is changed. *)
Definition inplace (o o' : omem) (d : Z) (l' : list item) (c : Z) : Prop :=
  exists m', o' = set_mem o m' /\
  (forall x, (x < d - 16 \/ d + c * size <= x) -> m' x = om_mem o x) /\ holds_arr m' d (MkArr l' c).

(** Finishing an operation in place: [m'] has the new items, then the length is written. *)
Lemma inplace_intro o d l c l' m' :
  hdr_ok o d l c -> zlen l' <= c ->
  (forall x, (x < d \/ d + c * size <= x) -> m' x = om_mem o x) ->
  rd_items (length l') m' d = l' ->
  inplace o (set_mem o (store 8 m' (d - 16) (zlen l'))) d l' c.
Proof.
  intros (_ & Hh & _) Hc Ho Hr. destruct Hh as (H1 & H2 & H3 & H4 & H5). cbn [s_items s_cap] in *.
  assert (0 <= zlen l') by (unfold zlen; lia). assert (0 <= zlen l) by (unfold zlen; lia).
  eexists. split; [reflexivity|]. pose proof (mul_nn c). split.
  - intros x Hx. rewrite store_other by lia. apply Ho. lia.
  - unfold holds_arr. cbn [s_items s_cap]. split; [|split; [|split; [|split]]]; try lia.
    + apply load_store64. apply len_s64. lia.
    + rewrite load_store64_other by lia. rewrite <- H2. f_equal. apply load_ext. intros x Hx. apply Ho. lia.
    + etransitivity; [|exact Hr]. apply rd_ext. intros x Hx. apply store_other. lia.
Qed.

Lemma append_ok o d l c a xs :
  below o -> hdr_ok o d l c -> readable o a xs ->
  (zlen (l ++ xs) <= c -> exists o', appendCore size o (MkDyn size d) a (zlen xs) = Ok (o', MkDyn size d) /\ inplace o o' d (l ++ xs) c) /\
  (c < zlen (l ++ xs) -> fits (zlen (l ++ xs)) = true ->
     exists o', appendCore size o (MkDyn size d) a (zlen xs) = Ok (o', MkDyn size (om_next o + 16)) /\ newarr o o' (l ++ xs)) /\
  (c < zlen (l ++ xs) -> fits (zlen (l ++ xs)) = false -> exists e, appendCore size o (MkDyn size d) a (zlen xs) = Err e).
Proof.
  intros B H Hr. unfold appendCore. rewrite (hdr_len _ _ _ _ H), (hdr_cap _ _ _ _ H). cbn [bind d_data d_itemSize].
  assert (El : zlen (l ++ xs) = zlen l + zlen xs) by (unfold zlen; rewrite app_length; lia).
  assert (Hl0 : 0 <= zlen l) by (unfold zlen; lia). assert (Hx0 : 0 <= zlen xs) by (unfold zlen; lia).
  pose proof H as (Hd0 & Hh & _). pose proof Hh as (H1 & H2 & H3 & H4 & H5). cbn [s_items s_cap] in *.
  pose proof (mul_nn (zlen l) Hl0). pose proof (mul_nn (zlen xs) Hx0). pose proof (mul_nn c).
  pose proof (mul_le _ _ H4) as Hlc.
  pose proof Hr as [Hr1 Hr2].
  split; [|split].
  - intro Hc. rewrite <- El. destruct (zlen (l ++ xs) <=? c) eqn:E; [|lia].
    assert (Hsum : zlen l * size + zlen xs * size <= c * size) by (rewrite <- Z.mul_add_distr_r; apply mul_le; lia).
    destruct (memmove_ok o (d + zlen l * size) a (zlen xs * size)) as (m' & -> & Hm); [lia| |].
    { destruct Hr2 as [Hr2|Hr2]; [left; exact Hr2|right]. split; [|exact Hr2]. eapply hdr_valid; [exact H|lia..]. }
    cbn [bind]. rewrite (setLen_ok _ _ _ _ _ _ H). cbn [bind]. eexists. split; [reflexivity|].
    apply (inplace_intro _ _ l); [exact H|lia| |].
    + intros x Hx. mv Hm. reflexivity.
    + rewrite app_length, rd_app. f_equal.
      * etransitivity; [|exact H3]. apply rd_ext. intros x Hx. unfold zlen in *. mv Hm. reflexivity.
      * etransitivity; [|exact Hr1]. apply rd_shift. intros i Hi. unfold zlen in *.
        mv Hm. f_equal. lia.
  - intros Hc Hf. rewrite <- El. destruct (zlen (l ++ xs) <=? c) eqn:E; [lia|].
    destruct (alloc_ok o (zlen (l ++ xs))) as (o1 & -> & N); [lia|exact Hf|]. cbn [bind].
    pose proof (newarr_below _ _ _ B N) as B1.
    assert (Ez : Z.to_nat (zlen (l ++ xs)) = length (l ++ xs)) by (unfold zlen; lia).
    rewrite Ez in N. set (z := repeat _ _) in N.
    assert (Hz : length z = length (l ++ xs)) by (unfold z; apply repeat_length).
    assert (Hzl : zlen z = zlen (l ++ xs)) by (unfold zlen; lia).
    pose proof (newarr_hdr _ _ _ B N) as HN. rewrite Hzl in HN.
    destruct (hdr_mono _ _ _ _ _ _ B N H) as [Ho1 Hd].
    rewrite (hdr_len _ _ _ _ Ho1). cbn [bind d_data d_itemSize].
    pose proof (cap_ge (zlen (l ++ xs))) as Hcap. rewrite El in Hcap at 1.
    assert (Hsum : zlen l * size + zlen xs * size <= cap_for (zlen (l ++ xs)) * size) by (rewrite <- Z.mul_add_distr_r; apply mul_le; lia).
    destruct (memmove_ok o1 (om_next o + 16) d (zlen l * size)) as (m1 & -> & Hm1); [lia| |].
    { right. split; [eapply hdr_valid; [exact HN|lia..]|eapply hdr_valid; [exact Ho1|lia..]]. }
    cbn [bind]. rewrite (getLen_ok _ _ _ _ _ Ho1).
    2:{ intros x Hx. mv Hm1. reflexivity. }
    cbn [bind].
    destruct (memmove_ok (set_mem o1 m1) (om_next o + 16 + zlen l * size) a (zlen xs * size)) as (m2 & -> & Hm2); [lia| |].
    { pose proof (readable_mono _ _ _ _ _ B N Hr) as [_ [R|R]]; [left; exact R|right]. split; [|exact R].
      rewrite valid_set_mem. eapply hdr_valid; [exact HN|lia..]. }
    cbn [bind]. change (om_mem (set_mem o1 m1)) with m1 in Hm2.
    change (set_mem (set_mem o1 m1) m2) with (set_mem o1 m2). eexists. split; [reflexivity|].
    apply (newarr_fill _ _ z); [exact N|lia| |].
    + intros x Hx. rewrite Hzl in Hx. mv Hm2.
      mv Hm1. reflexivity.
    + rewrite app_length, rd_app. f_equal.
      * etransitivity; [|exact H3]. apply rd_shift. intros i Hi. unfold zlen in *.
        mv Hm2.
        mv Hm1.
        replace (d + (om_next o + 16 + i - (om_next o + 16))) with (d + i) by lia. apply N. lia.
      * etransitivity; [|exact Hr1]. apply rd_shift. intros i Hi. unfold zlen in *.
        mv Hm2.
        set (y := a + _). assert (Hy : y = a + i) by (unfold y; lia). rewrite Hy.
        destruct Hr2 as [Hr2|Hr2]; [lia|]. pose proof (valid_below _ _ _ B Hr2).
        mv Hm1. apply N. lia.
  - intros Hc Hf. rewrite <- El. destruct (zlen (l ++ xs) <=? c) eqn:E; [lia|].
    destruct (alloc_err o (zlen (l ++ xs)) (or_intror Hf)) as [e ->]. eexists. reflexivity.
Qed.

Lemma alloc_keep o n : below o -> 0 <= n -> fits n = true ->
  exists o1 z, doAllocDynArray size o n = Ok (o1, MkDyn size (om_next o + 16)) /\ newarr o o1 z /\ zlen z = n /\
    hdr_ok o1 (om_next o + 16) z (cap_for n) /\ n <= cap_for n /\ z = repeat (zero_item size) (Z.to_nat n).
Proof.
  intros B Hn Hf. destruct (alloc_ok o n Hn Hf) as (o1 & E & N). exists o1. eexists. split; [exact E|]. split; [exact N|].
  assert (Hz : zlen (repeat (zero_item size) (Z.to_nat n)) = n) by (unfold zlen; rewrite repeat_length; lia).
  split; [exact Hz|]. split; [|split; [apply cap_ge|reflexivity]].
  pose proof (newarr_hdr _ _ _ B N) as HN. rewrite Hz in HN. exact HN.
Qed.

(** Items of parts of an array. *)
Lemma hdr_parts o d l c i : hdr_ok o d l c -> 0 <= i <= zlen l ->
  rd_items (Z.to_nat i) (om_mem o) d = firstn (Z.to_nat i) l /\
  rd_items (length l - Z.to_nat i) (om_mem o) (d + i * size) = skipn (Z.to_nat i) l.
Proof.
  intros (_ & (_ & _ & H3 & _) & _) Hi. cbn [s_items s_cap] in *. unfold zlen in Hi. split.
  - rewrite <- (rd_firstn _ (length l)) by lia. rewrite H3. reflexivity.
  - pose proof (rd_skipn (Z.to_nat i) (length l) (om_mem o) d) as E. rewrite H3, Z2Nat.id in E by lia. symmetry. apply E. lia.
Qed.

Lemma insert_len {A} i (x : A) l : 0 <= i <= zlen l -> zlen (insert_at i x l) = zlen l + 1.
Proof.
  intro H. unfold zlen, insert_at in *. rewrite app_length. cbn [length]. rewrite firstn_length, skipn_length. lia.
Qed.

Lemma rd_one m a : rd_items 1 m a = [read isz m a].
Proof. reflexivity. Qed.

(** Reading a list with an item inserted. *)
Lemma rd_insert m d l i x : 0 <= i <= zlen l ->
  rd_items (Z.to_nat i) m d = firstn (Z.to_nat i) l -> read isz m (d + i * size) = x ->
  rd_items (length l - Z.to_nat i) m (d + (i + 1) * size) = skipn (Z.to_nat i) l ->
  rd_items (length (insert_at i x l)) m d = insert_at i x l.
Proof.
  intros Hi H1 H2 H3. pose proof (insert_len i x l Hi) as HL. unfold zlen in *.
  replace (length (insert_at i x l)) with (Z.to_nat i + (1 + (length l - Z.to_nat i)))%nat by lia.
  rewrite !rd_app, rd_one. unfold insert_at. rewrite H1, Z2Nat.id, H2 by lia. cbn [app].
  replace (d + i * size + Z.of_nat 1 * size) with (d + (i + 1) * size) by lia. rewrite H3. reflexivity.
Qed.

Variable emptyDims : Z.
Lemma insert_ok o d l c i a x :
  below o -> hdr_ok o d l c -> 0 <= i <= zlen l ->
  read isz (om_mem o) a = x -> (size = 0 \/ valid o a size = true) ->
  (zlen l + 1 <= c -> forall y, a <= y < a + size -> ~ (d + (i + 1) * size <= y < d + (zlen l + 1) * size)) ->
  (zlen l + 1 <= c -> exists o', doBuiltinInsert size emptyDims o (MkDyn size d) i a = Ok (o', MkDyn size d, MkDyn size d) /\
     inplace o o' d (insert_at i x l) c) /\
  (c < zlen l + 1 -> fits (zlen l + 1) = true ->
     exists o', doBuiltinInsert size emptyDims o (MkDyn size d) i a = Ok (o', MkDyn size d, MkDyn size (om_next o + 16)) /\
       newarr o o' (insert_at i x l)) /\
  (c < zlen l + 1 -> fits (zlen l + 1) = false -> exists e, doBuiltinInsert size emptyDims o (MkDyn size d) i a = Err e).
Proof.
  intros B H Hi Hx Hv Hal. unfold doBuiltinInsert. pose proof H as (Hd0 & Hh & _).
  unfold nonempty. cbn [d_data]. destruct (d =? 0) eqn:E0; [lia|].
  rewrite (hdr_len _ _ _ _ H), (hdr_cap _ _ _ _ H). cbn [bind d_data d_itemSize].
  destruct ((i <? 0) || (zlen l <? i)) eqn:E1; [lia|].
  pose proof Hh as (H1 & H2 & H3 & H4 & H5). cbn [s_items s_cap] in *.
  pose proof (insert_len i x l Hi) as HL. destruct (hdr_parts _ _ _ _ _ H Hi) as [P1 P2].
  assert (Hp : (i + 1) * size = i * size + size) by lia.
  assert (Hq : (zlen l + 1) * size = zlen l * size + size) by lia.
  assert (Hr : (zlen l - i) * size = zlen l * size - i * size) by lia.
  assert (Hn : Z.of_nat (length l - Z.to_nat i) * size = zlen l * size - i * size) by (rewrite <- Hr; unfold zlen in *; f_equal; lia).
  assert (Hn2 : Z.of_nat (Z.to_nat i) * size = i * size) by (f_equal; lia).
  pose proof (mul_nn i ltac:(lia)) as Hi0. pose proof (mul_le i (zlen l) ltac:(lia)) as Hil.
  pose proof (mul_le (zlen l) c H4) as Hlc.
  split; [|split].
  - intro Hc. specialize (Hal Hc). destruct (zlen l + 1 <=? c) eqn:E; [|lia].
    pose proof (mul_le (zlen l + 1) c ltac:(lia)) as Hlc1. rewrite Hp, Hr.
    destruct (memmove_ok o (d + (i * size + size)) (d + i * size) (zlen l * size - i * size)) as (m1 & -> & Hm1); [lia| |].
    { right. split; eapply hdr_valid; try exact H; lia. }
    cbn [bind].
    destruct (memmove_ok (set_mem o m1) (d + i * size) a size) as (m2 & -> & Hm2); [lia| |].
    { destruct Hv as [Hv|Hv]; [left; exact Hv|right]. rewrite !valid_set_mem. split; [|exact Hv]. eapply hdr_valid; [exact H|lia..]. }
    cbn [bind]. change (om_mem (set_mem o m1)) with m1 in Hm2. change (set_mem (set_mem o m1) m2) with (set_mem o m2).
    rewrite (getLen_ok _ _ _ _ _ H).
    2:{ intros y Hy. mv Hm2. mv Hm1. reflexivity. }
    cbn [bind]. rewrite (setLen_ok _ _ _ _ _ _ H). cbn [bind]. eexists. split; [reflexivity|].
    rewrite <- HL. apply (inplace_intro _ _ l); [exact H|lia| |].
    + intros y Hy. mv Hm2. mv Hm1. reflexivity.
    + apply rd_insert; [exact Hi| | |].
      * etransitivity; [|exact P1]. apply rd_ext. intros y Hy. mv Hm2. mv Hm1. reflexivity.
      * rewrite <- Hx. apply read_shift. rewrite isz_size. intros k Hk. mv Hm2.
        replace (a + (d + i * size + k - (d + i * size))) with (a + k) by lia. specialize (Hal (a + k) ltac:(lia)).
        mv Hm1. reflexivity.
      * etransitivity; [|exact P2]. apply rd_shift. rewrite Hn, Hp. intros k Hk. mv Hm2. mv Hm1. f_equal. lia.
  - intros Hc Hf. destruct (zlen l + 1 <=? c) eqn:E; [lia|].
    destruct (alloc_keep o (zlen l + 1) B ltac:(unfold zlen; lia) Hf) as (o1 & z & -> & N & Hz & HN & Hcap & _).
    destruct (hdr_mono _ _ _ _ _ _ B N H) as [Ho1 Hd]. cbn [bind d_data d_itemSize]. rewrite Hp.
    pose proof (mul_le _ _ Hcap) as Hcap2.
    destruct (memmove_ok o1 (om_next o + 16) d (i * size)) as (m1 & -> & Hm1); [lia| |].
    { right. split; [eapply hdr_valid; [exact HN|lia..]|eapply hdr_valid; [exact Ho1|lia..]]. }
    cbn [bind]. rewrite (getLen_ok _ _ _ _ _ Ho1). 2:{ intros y Hy. mv Hm1. reflexivity. }
    cbn [bind]. rewrite Hr.
    destruct (memmove_ok (set_mem o1 m1) (om_next o + 16 + (i * size + size)) (d + i * size) (zlen l * size - i * size)) as (m2 & -> & Hm2); [lia| |].
    { right. rewrite !valid_set_mem. split; [eapply hdr_valid; [exact HN|lia..]|eapply hdr_valid; [exact Ho1|lia..]]. }
    cbn [bind]. change (om_mem (set_mem o1 m1)) with m1 in Hm2. change (set_mem (set_mem o1 m1) m2) with (set_mem o1 m2).
    destruct (memmove_ok (set_mem o1 m2) (om_next o + 16 + i * size) a size) as (m3 & -> & Hm3); [lia| |].
    { destruct Hv as [Hv|Hv]; [left; exact Hv|right]. rewrite !valid_set_mem. split; [eapply hdr_valid; [exact HN|lia..]|].
      eapply valid_mono; eassumption. }
    cbn [bind]. change (om_mem (set_mem o1 m2)) with m2 in Hm3. change (set_mem (set_mem o1 m2) m3) with (set_mem o1 m3).
    eexists. split; [reflexivity|].
    apply (newarr_fill _ _ z); [exact N|unfold zlen in *; lia| |].
    + intros y Hy. rewrite Hz in Hy. mv Hm3. mv Hm2. mv Hm1. reflexivity.
    + apply rd_insert; [exact Hi| | |].
      * etransitivity; [|exact P1]. apply rd_shift. rewrite Hn2. intros k Hk. mv Hm3. mv Hm2. mv Hm1.
        replace (d + (om_next o + 16 + k - (om_next o + 16))) with (d + k) by lia. apply N. lia.
      * rewrite <- Hx. apply read_shift. rewrite isz_size. intros k Hk. mv Hm3.
        replace (a + (om_next o + 16 + i * size + k - (om_next o + 16 + i * size))) with (a + k) by lia.
        destruct Hv as [Hv|Hv]; [lia|]. pose proof (valid_below _ _ _ B Hv). mv Hm2. mv Hm1. apply N. lia.
      * etransitivity; [|exact P2]. apply rd_shift. rewrite Hn, Hp. intros k Hk. mv Hm3. mv Hm2. mv Hm1.
        set (y := d + i * size + _). assert (Ey : y = d + i * size + k) by (unfold y; lia). rewrite Ey. apply N. lia.
  - intros Hc Hf. destruct (zlen l + 1 <=? c) eqn:E; [lia|].
    destruct (alloc_err o (zlen l + 1) (or_intror Hf)) as [e ->]. eexists. reflexivity.
Qed.

Lemma skipn_S_app {A} i (l : list A) x : nth_error l i = Some x -> skipn i l = x :: skipn (S i) l.
Proof.
  revert l. induction i as [|i IH]; intros [|y l] H; cbn in *; try discriminate.
  - injection H as ->. reflexivity.
  - apply IH, H.
Qed.

Lemma delete_len {A} i (l : list A) : 0 <= i < zlen l -> zlen (delete_at i l) = zlen l - 1.
Proof. intro H. unfold zlen, delete_at in *. rewrite app_length, firstn_length, skipn_length. lia. Qed.

Lemma delete_ok o d l c i :
  hdr_ok o d l c -> 0 <= i < zlen l ->
  exists o', doBuiltinDelete o (MkDyn size d) i = Ok (o', MkDyn size d) /\ inplace o o' d (delete_at i l) c.
Proof.
  intros H Hi. unfold doBuiltinDelete. pose proof H as (Hd0 & Hh & _). cbn [d_data d_itemSize].
  destruct (d =? 0) eqn:E0; [lia|]. rewrite (hdr_len _ _ _ _ H). cbn [bind].
  destruct ((i <? 0) || (zlen l - 1 <? i)) eqn:E1; [lia|].
  pose proof Hh as (H1 & H2 & H3 & H4 & H5). cbn [s_items s_cap] in *.
  pose proof (delete_len i l Hi) as HL.
  destruct (hdr_parts _ _ _ _ i H ltac:(lia)) as [P1 _]. destruct (hdr_parts _ _ _ _ (i + 1) H ltac:(lia)) as [_ P2].
  replace (Z.to_nat (i + 1)) with (S (Z.to_nat i)) in P2 by lia.
  assert (Hp : (i + 1) * size = i * size + size) by lia. rewrite Hp in P2.
  assert (Hr : (zlen l - i - 1) * size = zlen l * size - i * size - size) by lia.
  assert (Hn : Z.of_nat (length l - S (Z.to_nat i)) * size = zlen l * size - i * size - size)
    by (rewrite <- Hr; unfold zlen in *; f_equal; lia).
  assert (Hn2 : Z.of_nat (Z.to_nat i) * size = i * size) by (f_equal; lia).
  pose proof (mul_nn i ltac:(lia)) as Hi0. pose proof (mul_lt i (zlen l) ltac:(lia)) as Hil.
  pose proof (mul_le (zlen l) c H4) as Hlc.
  rewrite Hp, Hr.
  destruct (memmove_ok o (d + i * size) (d + (i * size + size)) (zlen l * size - i * size - size)) as (m1 & -> & Hm1); [lia| |].
  { right. split; eapply hdr_valid; try exact H; lia. }
  cbn [bind]. rewrite (getLen_ok _ _ _ _ _ H). 2:{ intros y Hy. mv Hm1. reflexivity. }
  cbn [bind]. rewrite (setLen_ok _ _ _ _ _ _ H). cbn [bind]. eexists. split; [reflexivity|].
  rewrite <- HL. apply (inplace_intro _ _ l); [exact H|lia| |].
  - intros y Hy. mv Hm1. reflexivity.
  - replace (length (delete_at i l)) with (Z.to_nat i + (length l - S (Z.to_nat i)))%nat by (unfold zlen in *; lia).
    rewrite rd_app. unfold delete_at. rewrite Hn2. apply f_equal2.
    + etransitivity; [|exact P1]. apply rd_ext. rewrite Hn2. intros y Hy. mv Hm1. reflexivity.
    + etransitivity; [|exact P2]. apply rd_shift. rewrite Hn. intros k Hk. mv Hm1. f_equal. lia.
Qed.

(** A new array filled by one copy. *)
Lemma fill_ok o l a :
  below o -> fits (zlen l) = true -> readable o a l ->
  exists o1, doAllocDynArray size o (zlen l) = Ok (o1, MkDyn size (om_next o + 16)) /\
    dimsLen o1 (MkDyn size (om_next o + 16)) = Ok (zlen l) /\
    (forall d l' c, hdr_ok o d l' c -> hdr_ok o1 d l' c) /\
    exists o2, memmove o1 (om_next o + 16) a (zlen l * size) = Ok o2 /\ memcpy o1 (om_next o + 16) a (zlen l * size) = Ok o2 /\
    newarr o o2 l.
Proof.
  intros B Hf Hr. destruct (alloc_keep o (zlen l) B ltac:(unfold zlen; lia) Hf) as (o1 & z & E & N & Hz & HN & Hcap & _).
  exists o1. split; [exact E|]. split; [rewrite (hdr_len _ _ _ _ HN), Hz; reflexivity|].
  split; [intros d l' c H'; apply (hdr_mono _ _ _ _ _ _ B N H')|].
  pose proof (mul_le _ _ Hcap). pose proof (mul_nn (zlen l) ltac:(unfold zlen; lia)).
  destruct (memmove_ok o1 (om_next o + 16) a (zlen l * size)) as (m1 & E1 & Hm1); [lia| |].
  { destruct Hr as [_ [Hr|Hr]]; [left; exact Hr|right]. split; [eapply hdr_valid; [exact HN|lia..]|]. eapply valid_mono; eassumption. }
  exists (set_mem o1 m1). split; [exact E1|]. split.
  - unfold memcpy. destruct ((0 <? _) && _ && _) eqn:Eo; [|exact E1]. exfalso. destruct Hr as [_ [Hr|Hr]]; [lia|].
    pose proof (valid_below _ _ _ B Hr). lia.
  - apply (newarr_fill _ _ z); [exact N|unfold zlen in *; lia| |].
    + intros y Hy. rewrite Hz in Hy. mv Hm1. reflexivity.
    + destruct Hr as [Hr1 Hr2]. etransitivity; [|exact Hr1]. apply rd_shift. change (Z.of_nat (length l)) with (zlen l). intros k Hk.
      mv Hm1. replace (a + (om_next o + 16 + k - (om_next o + 16))) with (a + k) by lia. apply N.
      destruct Hr2 as [Hr2|Hr2]; [lia|]. pose proof (valid_below _ _ _ B Hr2). lia.
Qed.

Lemma copy_ok o d l c :
  below o -> hdr_ok o d l c ->
  (fits (zlen l) = true -> exists o', doBuiltinCopy size o (MkDyn size d) = Ok (o', MkDyn size (om_next o + 16)) /\ newarr o o' l) /\
  (fits (zlen l) = false -> exists e, doBuiltinCopy size o (MkDyn size d) = Err e).
Proof.
  intros B H. unfold doBuiltinCopy. cbn [d_data d_itemSize]. pose proof H as (Hd0 & _). destruct (d =? 0) eqn:E0; [lia|].
  rewrite (hdr_len _ _ _ _ H). cbn [bind]. split; intro Hf.
  - destruct (fill_ok o l d B Hf (hdr_readable _ _ _ _ H)) as (o1 & -> & _ & K & o2 & E1 & _ & N).
    cbn [bind]. rewrite (hdr_len _ _ _ _ (K _ _ _ H)). cbn [bind d_data d_itemSize]. rewrite E1. cbn [bind]. exists o2. split; [reflexivity|exact N].
  - destruct (alloc_err o (zlen l) (or_intror Hf)) as [e ->]. eexists. reflexivity.
Qed.

Lemma fromarr_ok o l a :
  below o -> readable o a l ->
  (fits (zlen l) = true -> exists o', doBuiltinMakeFromArr size o (zlen l) a = Ok (o', MkDyn size (om_next o + 16)) /\ newarr o o' l) /\
  (fits (zlen l) = false -> exists e, doBuiltinMakeFromArr size o (zlen l) a = Err e).
Proof.
  intros B H. unfold doBuiltinMakeFromArr. split; intro Hf.
  - destruct (fill_ok o l a B Hf H) as (o1 & -> & E & _ & o2 & _ & E1 & N).
    cbn [bind]. rewrite E. cbn [bind d_data d_itemSize]. rewrite E1. cbn [bind]. exists o2. split; [reflexivity|exact N].
  - destruct (alloc_err o (zlen l) (or_intror Hf)) as [e ->]. eexists. reflexivity.
Qed.

Lemma sublist_len {A} s e (l : list A) : 0 <= s <= e -> e <= zlen l -> zlen (sublist s e l) = e - s.
Proof. intros H1 H2. unfold zlen, sublist in *. rewrite firstn_length, skipn_length. lia. Qed.

Lemma sub_readable o d l c s e : hdr_ok o d l c -> 0 <= s <= e -> e <= zlen l -> readable o (d + s * size) (sublist s e l).
Proof.
  intros H H1 H2. destruct (hdr_parts _ _ _ _ s H ltac:(lia)) as [_ P2]. pose proof (sublist_len s e l H1 H2) as HL. split.
  - unfold zlen in *. replace (length (sublist s e l)) with (Z.to_nat (e - s)) by lia. unfold sublist.
    rewrite <- P2. rewrite rd_firstn by lia. reflexivity.
  - right. rewrite HL. pose proof H as (_ & (_ & _ & _ & H4 & _) & _). cbn [s_items s_cap] in H4.
    eapply hdr_valid; [exact H| |].
    + pose proof (mul_nn s). lia.
    + pose proof (mul_le e c). assert (s * size + (e - s) * size = e * size) by lia. lia.
Qed.

Lemma slice_ok o d l c s e :
  below o -> hdr_ok o d l c -> 
  let e' := if e =? INT_MIN then zlen l else if e <? 0 then e + zlen l else e in
  (0 <= s <= e' -> e' <= zlen l ->
    (fits (e' - s) = true -> exists o', doBuiltinSlice size emptyDims o (MkDyn size d) s e = Ok (o', MkDyn size d, MkDyn size (om_next o + 16)) /\
      newarr o o' (sublist s e' l)) /\
    (fits (e' - s) = false -> exists er, doBuiltinSlice size emptyDims o (MkDyn size d) s e = Err er)) /\
  (~ (0 <= s <= e' /\ e' <= zlen l) -> exists er, doBuiltinSlice size emptyDims o (MkDyn size d) s e = Err er).
Proof.
  intros B H e'. unfold doBuiltinSlice, nonempty. cbn [d_data d_itemSize]. pose proof H as (Hd0 & _). destruct (d =? 0) eqn:E0; [lia|].
  rewrite (hdr_len _ _ _ _ H). cbn [bind]. unfold sliceRange.
  assert (Ee : (if (if e =? INT_MIN then zlen l else e) <? 0 then (if e =? INT_MIN then zlen l else e) + zlen l else (if e =? INT_MIN then zlen l else e)) = e').
  { unfold e'. assert (0 <= zlen l) by (unfold zlen; lia). destruct (e =? INT_MIN) eqn:E1; [|reflexivity].
    destruct (zlen l <? 0) eqn:E2; [lia|reflexivity]. }
  rewrite Ee. clearbody e'. split.
  - intros Hs He. destruct (s <? 0) eqn:E1; [lia|]. destruct ((e' <? s) || (zlen l <? e')) eqn:E2; [lia|]. cbn [bind].
    pose proof (sublist_len s e' l Hs He) as HL. rewrite <- HL. split; intro Hf.
    + destruct (fill_ok o _ _ B Hf (sub_readable _ _ _ _ _ _ H Hs He)) as (o1 & -> & E & _ & o2 & _ & E3 & N).
      cbn [bind]. rewrite E. cbn [bind d_data d_itemSize]. rewrite E3. cbn [bind]. exists o2. split; [reflexivity|exact N].
    + destruct (alloc_err o _ (or_intror Hf)) as [er ->]. eexists. reflexivity.
  - intro Hn. destruct (s <? 0) eqn:E1; [eexists; reflexivity|]. destruct ((e' <? s) || (zlen l <? e')) eqn:E2; [eexists; reflexivity|lia].
Qed.

(** Item access. *)
Lemma ptr_ok o d l c i :
  hdr_ok o d l c ->
  (0 <= i < zlen l -> doGetDynArrayPtr o (MkDyn size d) i = Ok (d + size * i)) /\
  (~ 0 <= i < zlen l -> doGetDynArrayPtr o (MkDyn size d) i = Err EIndex).
Proof.
  intro H. unfold doGetDynArrayPtr. cbn [d_data d_itemSize]. pose proof H as (Hd0 & _). destruct (d =? 0) eqn:E0; [lia|].
  rewrite (hdr_len _ _ _ _ H). cbn [bind]. split; intro Hi; destruct ((i <? 0) || (zlen l - 1 <? i)) eqn:E; try lia; reflexivity.
Qed.

Lemma elem_read o d l c i :
  hdr_ok o d l c -> 0 <= i < zlen l -> elem l i = Some (read isz (om_mem o) (d + size * i)) /\ valid o (d + size * i) size = true.
Proof.
  intros H Hi. pose proof H as (_ & (_ & _ & H3 & H4 & _) & _). cbn [s_items s_cap] in *. split.
  - unfold elem. destruct (i <? 0) eqn:E; [lia|]. rewrite <- H3 at 1. unfold zlen in Hi. rewrite rd_nth by lia.
    rewrite Z2Nat.id by lia. do 2 f_equal. lia.
  - pose proof (mul_lt i (zlen l) ltac:(lia)). pose proof (mul_le _ _ H4). pose proof (mul_nn i).
    eapply hdr_valid; [exact H|lia..].
Qed.

Lemma elem_none l i : ~ 0 <= i < zlen l -> elem l i = None.
Proof.
  intro H. unfold elem. destruct (i <? 0) eqn:E; [reflexivity|]. apply nth_error_None. unfold zlen in H. lia.
Qed.

Lemma update_split {A} (l : list A) n x : (n < length l)%nat -> update n x l = firstn n l ++ x :: skipn (S n) l.
Proof.
  revert n. induction l as [|y l IH]; intros n H; cbn [length] in H; [lia|]. destruct n as [|n]; [reflexivity|].
  cbn [update firstn skipn app]. rewrite IH by lia. reflexivity.
Qed.

Lemma update_length {A} (l : list A) n x : length (update n x l) = length l.
Proof. revert n. induction l as [|y l IH]; intros [|n]; cbn [update length]; try reflexivity. rewrite IH. reflexivity. Qed.

Lemma set_ok o d l c i b :
  hdr_ok o d l c -> 0 <= i < zlen l -> zlen b = size ->
  exists o', storeItem size o (d + size * i) b = Ok o' /\ inplace o o' d (set_at i b l) c.
Proof.
  intros H Hi Hb. destruct (elem_read _ _ _ _ _ H Hi) as [_ V]. unfold storeItem. rewrite V, orb_true_r.
  eexists. split; [reflexivity|]. pose proof H as (_ & (H1 & H2 & H3 & H4 & H5) & _). cbn [s_items s_cap] in *.
  pose proof (mul_nn i ltac:(lia)) as Hi0. pose proof (mul_lt i (zlen l) ltac:(lia)) as Hil. pose proof (mul_le (zlen l) c H4) as Hlc.
  assert (Hc : size * i = i * size) by lia. rewrite Hc.
  exists (write (om_mem o) (d + i * size) b). split; [reflexivity|].
  assert (Ho : forall y, (y < d + i * size \/ d + i * size + size <= y) -> write (om_mem o) (d + i * size) b y = om_mem o y).
  { intros y Hy. apply write_other. unfold zlen in Hb. lia. }
  split; [intros y Hy; apply Ho; lia|].
  unfold holds_arr, set_at, zlen. cbn [s_items s_cap]. rewrite update_length. fold (zlen l).
  split; [|split; [|split; [|split]]]; try assumption.
  - rewrite <- H1. f_equal. apply load_ext. intros x Hx. apply Ho. lia.
  - rewrite <- H2. f_equal. apply load_ext. intros x Hx. apply Ho. lia.
  - rewrite update_split by (unfold zlen in Hi; lia).
    destruct (hdr_parts _ _ _ _ i H ltac:(lia)) as [P1 _]. destruct (hdr_parts _ _ _ _ (i + 1) H ltac:(lia)) as [_ P2].
    replace (Z.to_nat (i + 1)) with (S (Z.to_nat i)) in P2 by lia.
    replace (length l) with (Z.to_nat i + (1 + (length l - S (Z.to_nat i))))%nat by (unfold zlen in Hi; lia).
    rewrite !rd_app, rd_one. rewrite Z2Nat.id by lia. change ([?a] ++ ?r) with (a :: r). apply f_equal2; [|apply cons_eq].
    + etransitivity; [|exact P1]. apply rd_ext. rewrite Z2Nat.id by lia. intros y Hy. apply Ho. lia.
    + pose proof (read_write b (om_mem o) (d + i * size)) as R. replace isz with (length b) by (unfold isz, zlen in *; lia). exact R.
    + etransitivity; [|exact P2]. apply rd_shift. intros k Hk. rewrite Ho by lia. f_equal. lia.
Qed.
End Dyn.
