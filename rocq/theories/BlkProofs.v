From Coq Require Import ZArith Lia Bool List ZifyBool.
From Coq.Floats Require Import SpecFloat.
From Verif Require Import Base NumModel NumProofs MemModel MemProofs BlkModel.
Import ListNotations.
Local Open Scope Z_scope.
Ltac Zify.zify_post_hook ::= Z.div_mod_to_equations.

Lemma valid_in o b s a n : In (b, s) (om_blocks o) -> b <= a -> a + n <= b + s -> valid o a n = true.
Proof.
  intros Hi H1 H2. unfold valid. apply existsb_exists. exists (b, s). split; [exact Hi|]. cbn [fst snd]. lia.
Qed.

Lemma valid_inv o a n : valid o a n = true -> exists b s, In (b, s) (om_blocks o) /\ b <= a /\ a + n <= b + s.
Proof.
  unfold valid. intro H. apply existsb_exists in H. destruct H as [[b s] [Hi H]]. cbn [fst snd] in H.
  exists b, s. split; [exact Hi|]. lia.
Qed.

Lemma valid_set_mem o m a n : valid (set_mem o m) a n = valid o a n.
Proof. reflexivity. Qed.

(** The memory after a move. *)
Definition moved (m m' : mem) (dst src n : Z) : Prop :=
  forall x, m' x = if (dst <=? x) && (x <? dst + n) then m (src + (x - dst)) else m x.

Lemma memmove_ok o dst src n :
  0 <= n -> (n = 0 \/ (valid o dst n = true /\ valid o src n = true)) ->
  exists m', memmove o dst src n = Ok (set_mem o m') /\ moved (om_mem o) m' dst src n.
Proof.
  intros Hn Hv. unfold memmove. destruct (Z.eq_dec n 0) as [->|Hne].
  - exists (om_mem o). split; [destruct o; reflexivity|]. intro x.
    destruct ((dst <=? x) && (x <? dst + 0)) eqn:E; [lia|reflexivity].
  - destruct Hv as [Hv|[V1 V2]]; [lia|]. rewrite V1, V2.
    destruct (n <=? 0) eqn:E; [lia|]. cbn [andb].
    eexists. split; [reflexivity|]. intro x.
    destruct ((dst <=? x) && (x <? dst + n)) eqn:Ex.
    + replace x with (dst + (x - dst)) at 1 by lia. rewrite copy_same by lia. reflexivity.
    + rewrite copy_other by lia. reflexivity.
Qed.

Lemma memcpy_ok o dst src n :
  0 <= n -> (n = 0 \/ (valid o dst n = true /\ valid o src n = true)) -> (dst + n <= src \/ src + n <= dst) ->
  exists m', memcpy o dst src n = Ok (set_mem o m') /\ moved (om_mem o) m' dst src n.
Proof.
  intros Hn Hv Hd. unfold memcpy. destruct ((0 <? n) && (dst <? src + n) && (src <? dst + n)) eqn:E; [lia|].
  apply memmove_ok; assumption.
Qed.

Lemma two64_pow : 256 ^ Z.of_nat 8 = two64.
Proof. reflexivity. Qed.

Lemma s64_mod z : in_s64 z -> s64 (z mod two64) = z.
Proof. exact (s64_u64 z). Qed.

Lemma store64_ok o a v : valid o a 8 = true -> store64 o a v = Ok (set_mem o (store 8 (om_mem o) a v)).
Proof. unfold store64. intro H. rewrite H. reflexivity. Qed.

Lemma load64_ok o a : valid o a 8 = true -> load64 o a = Ok (s64 (load 8 (om_mem o) a)).
Proof. unfold load64. intro H. rewrite H. reflexivity. Qed.

Lemma load_store64 m a v : in_s64 v -> s64 (load 8 (store 8 m a v) a) = v.
Proof. intro H. rewrite load_store, two64_pow. apply s64_mod, H. Qed.

Lemma load_store64_other m a b v : a + 8 <= b \/ b + 8 <= a -> load 8 (store 8 m b v) a = load 8 m a.
Proof. intro H. apply load_ext. intros x Hx. apply store_other. change (Z.of_nat 8) with 8 in *. lia. Qed.

Lemma read_ext n : forall m m' a, (forall x, a <= x < a + Z.of_nat n -> m' x = m x) -> read n m' a = read n m a.
Proof.
  induction n as [|n IH]; intros m m' a H; cbn [read]; [reflexivity|].
  rewrite (H a) by lia. f_equal. apply IH. intros x Hx. apply H. lia.
Qed.

Lemma read_shift n : forall m m' a b, (forall i, 0 <= i < Z.of_nat n -> m' (a + i) = m (b + i)) -> read n m' a = read n m b.
Proof.
  induction n as [|n IH]; intros m m' a b H; cbn [read]; [reflexivity|].
  f_equal.
  - specialize (H 0). rewrite !Z.add_0_r in H. apply H. lia.
  - apply IH. intros i Hi. specialize (H (i + 1)). replace (a + 1 + i) with (a + (i + 1)) by lia.
    replace (b + 1 + i) with (b + (i + 1)) by lia. apply H. lia.
Qed.

Lemma read_length n m a : length (read n m a) = n.
Proof. revert a. induction n as [|n IH]; intro a; cbn [read length]; [reflexivity|]. rewrite IH. reflexivity. Qed.

Lemma read_zero n : forall m a, (forall x, a <= x < a + Z.of_nat n -> m x = 0) -> read n m a = repeat 0 n.
Proof.
  induction n as [|n IH]; intros m a H; cbn [read repeat]; [reflexivity|].
  rewrite (H a) by lia. f_equal. apply IH. intros x Hx. apply H. lia.
Qed.

Lemma read_app n : forall k m a, read (n + k) m a = read n m a ++ read k m (a + Z.of_nat n).
Proof.
  induction n as [|n IH]; intros k m a; cbn [Nat.add read app].
  - rewrite Z.add_0_r. reflexivity.
  - rewrite IH. do 2 f_equal. f_equal. lia.
Qed.

Lemma write_other l : forall m a x, (x < a \/ a + Z.of_nat (length l) <= x) -> write m a l x = m x.
Proof.
  induction l as [|b l IH]; intros m a x H; cbn [write length] in *; [reflexivity|].
  rewrite IH by lia. unfold upd. destruct (x =? a) eqn:E; [lia|reflexivity].
Qed.

Lemma read_write l : forall m a, read (length l) (write m a l) a = l.
Proof.
  induction l as [|b l IH]; intros m a; cbn [length read write]; [reflexivity|].
  f_equal.
  - rewrite write_other by lia. unfold upd. rewrite Z.eqb_refl. reflexivity.
  - apply IH.
Qed.

Lemma pair_inv {A B} (a c : A) (b d : B) : (a, b) = (c, d) -> a = c /\ b = d.
Proof. intro H. split; [exact (f_equal fst H)|exact (f_equal snd H)]. Qed.
