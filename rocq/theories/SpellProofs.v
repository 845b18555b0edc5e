(** The spelling of types: what is left in the buffer, and when it ends. *)
Require Import Arith List Bool Ascii String Lia.
Require Import Verif.Base Verif.SpellModel Verif.SpellSpec.
Import ListNotations.
Local Open Scope nat_scope.

Lemma SIZE_eq : SIZE = 256.
Proof. reflexivity. Qed.
Global Opaque SIZE.

(** * Buffers *)

(** The buffer holds the text, as far as it fits; [len] is its length, if it fits. *)
Definition Rep (b : text) (len : nat) (T : text) : Prop :=
  List.length b = 256 /\ (exists rest, b = firstn 255 T ++ NUL :: rest) /\ clean T /\
  (len = List.length T \/ (255 <= len /\ 255 <= List.length T)).

Lemma clean_app : forall a b, clean (a ++ b) <-> clean a /\ clean b.
Proof.
  unfold clean. intros a b. rewrite in_app_iff. tauto.
Qed.

Lemma clean_firstn : forall n a, clean a -> clean (firstn n a).
Proof.
  unfold clean. intros n a H K. apply H. rewrite <- (firstn_skipn n a).
  apply in_or_app. auto.
Qed.

Lemma cstr_ok : forall s r, clean s -> cstr (s ++ NUL :: r) = Ok s.
Proof.
  induction s as [|c s IH]; intros r H; cbn [cstr app].
  - reflexivity.
  - destruct (Ascii.eqb_spec c NUL) as [->|_]; [exfalso; apply H; now left|].
    rewrite IH; [reflexivity|]. intros K. apply H. now right.
Qed.

Lemma rep_cstr : forall b len T, Rep b len T -> cstr b = Ok (firstn 255 T).
Proof.
  intros b len T (_ & (r & ->) & C & _). apply cstr_ok. now apply clean_firstn.
Qed.

Lemma firstn_cut : forall (T x : text) n, List.length T <= n ->
  firstn n (T ++ x) = T ++ firstn (n - List.length T) x.
Proof.
  intros T x n H. rewrite firstn_app. rewrite (firstn_all2 T); auto.
Qed.

Lemma firstn_stop : forall (T x : text) n, n <= List.length T ->
  firstn n (T ++ x) = firstn n T.
Proof.
  intros T x n H. rewrite firstn_app. replace (n - List.length T) with 0 by lia.
  cbn. apply app_nil_r.
Qed.

(** The write itself: after [T], which fits, as much of [s] as fits. *)
Lemma poke_cut : forall b T r s n, List.length b = 256 -> b = T ++ r ->
  List.length T + n <= 255 ->
  exists b', poke b (List.length T) (firstn n s ++ [NUL]) = Ok b' /\
    List.length b' = 256 /\ exists rest, b' = (T ++ firstn n s) ++ NUL :: rest.
Proof.
  intros b T r s n Hb Hr Hn. unfold poke.
  pose proof (firstn_le_length n s) as Hf.
  assert (Hl : List.length (firstn n s ++ [NUL]) = List.length (firstn n s) + 1).
  { rewrite app_length. reflexivity. }
  rewrite Hl.
  assert (Hle : List.length T + (List.length (firstn n s) + 1) <=? List.length b = true).
  { apply Nat.leb_le. lia. }
  rewrite Hle. eexists. split; [reflexivity|].
  assert (HT : firstn (List.length T) b = T).
  { rewrite Hr, firstn_app, firstn_all, Nat.sub_diag. cbn. apply app_nil_r. }
  rewrite HT. split.
  - rewrite !app_length, skipn_length. cbn. apply Nat.leb_le in Hle. lia.
  - eexists. rewrite <- !app_assoc. reflexivity.
Qed.

Lemma put_ok : forall b len T s, Rep b len T -> clean s ->
  exists b', put (b, len) s = Ok (b', len + List.length s) /\
    Rep b' (len + List.length s) (T ++ s).
Proof.
  intros b len T s (A & (r & B) & C & D) Hs. unfold put. rewrite SIZE_eq.
  assert (Hc : clean (T ++ s)) by (apply clean_app; auto).
  destruct (le_lt_dec 255 len) as [Hl|Hl].
  - (* nothing more fits *)
    assert (HT : 255 <= List.length T) by lia.
    assert (HR : forall b', List.length b' = 256 ->
              (exists rest, b' = firstn 255 T ++ NUL :: rest) ->
              Rep b' (len + List.length s) (T ++ s)).
    { intros b' Hb' Hr'. split; auto. split; [now rewrite firstn_stop|]. split; auto.
      right. rewrite app_length. lia. }
    destruct (256 - len) as [|n] eqn:E.
    + exists b. split; [reflexivity|]. apply HR; eauto.
    + assert (n = 0 /\ len = 255) as [-> ->] by lia.
      assert (HF : List.length (firstn 255 T) = 255) by (rewrite firstn_length; lia).
      destruct (poke_cut b (firstn 255 T) (NUL :: r) s 0 A B) as (b' & P1 & P2 & rest & P3).
      { lia. }
      rewrite HF in P1. rewrite P1. cbn [bind]. exists b'. split; auto. apply HR; auto.
      exists rest. rewrite P3. cbn [firstn]. now rewrite app_nil_r.
  - destruct D as [D|[D _]]; [|lia].
    destruct (256 - len) as [|n] eqn:E; [lia|].
    rewrite firstn_all2 in B by lia.
    destruct (poke_cut b T (NUL :: r) s n A B) as (b' & P1 & P2 & rest & P3); [lia|].
    rewrite D. rewrite P1. cbn [bind]. exists b'. split; auto.
    split; auto. split; [|split; auto].
    + exists rest. rewrite P3. rewrite firstn_cut by lia.
      replace (255 - List.length T) with n by lia. reflexivity.
    + left. now rewrite app_length.
Qed.

Lemma put_init : forall b s : text, List.length b = 256 -> clean s ->
  exists b', put (b, 0) s = Ok (b', List.length s) /\ Rep b' (List.length s) s.
Proof.
  intros b s Hb Hs. unfold put. rewrite SIZE_eq. cbn [Nat.sub].
  destruct (poke_cut b [] b s 255 Hb eq_refl) as (b' & P1 & P2 & rest & P3); [cbn; lia|].
  cbn [List.length] in P1. rewrite P1. cbn [bind]. exists b'. split; auto.
  split; auto. split; [exists rest; exact P3|]. split; auto.
Qed.

(** A part that was cut. *)
Lemma rep_trunc : forall b len T x y, Rep b len (T ++ firstn 255 x ++ y) -> clean x ->
  Rep b len (T ++ x ++ y).
Proof.
  intros b len T x y (A & B & C & D) Hx.
  destruct (le_lt_dec (List.length x) 255) as [Hl|Hl].
  - assert (E : firstn 255 x = x) by (apply firstn_all2; lia). rewrite E in *.
    exact (conj A (conj B (conj C D))).
  - assert (HF : List.length (firstn 255 x) = 255) by (rewrite firstn_length; lia).
    assert (HE : firstn 255 (T ++ firstn 255 x ++ y) = firstn 255 (T ++ x ++ y)).
    { rewrite !app_assoc. rewrite (firstn_stop (T ++ firstn 255 x)), (firstn_stop (T ++ x))
        by (rewrite app_length; lia).
      rewrite !firstn_app. f_equal. rewrite firstn_firstn. f_equal. lia. }
    split; auto. split; [now rewrite <- HE|]. split.
    + apply clean_app in C. destruct C as [C1 C2]. apply clean_app in C2.
      destruct C2 as [_ C2]. apply clean_app. split; auto. apply clean_app. auto.
    + right. rewrite !app_length in *. lia.
Qed.

(** strncat after a text whose length is known. *)
Lemma cat_ok : forall b len T s, Rep b len T -> clean s ->
  exists b', strncat b (firstn 255 s) (SIZE - len - 1) = Ok b' /\
    exists len', Rep b' len' (T ++ s).
Proof.
  intros b len T s HR Hs. pose proof (rep_cstr _ _ _ HR) as Hc.
  destruct HR as (A & (r & B) & C & D). unfold strncat. rewrite Hc, SIZE_eq. cbn [bind].
  assert (HF : List.length (firstn 255 T) = Nat.min 255 (List.length T))
    by apply firstn_length.
  destruct (poke_cut b (firstn 255 T) (NUL :: r) (firstn 255 s) (256 - len - 1) A B) as
    (b' & P1 & P2 & rest & P3); [lia|].
  rewrite P1. exists b'. split; auto. exists (List.length (T ++ s)).
  split; auto. split; [|split; [apply clean_app; auto|auto]].
  exists rest. rewrite P3. f_equal.
  destruct (le_lt_dec 255 (List.length T)) as [Hl|Hl].
  - rewrite firstn_stop by lia. replace (256 - len - 1) with 0 by lia. cbn [firstn].
    apply app_nil_r.
  - assert (len = List.length T) as -> by lia. rewrite (firstn_all2 T) by lia.
    rewrite firstn_cut by lia. f_equal. rewrite firstn_firstn. f_equal. lia.
Qed.

Lemma refWord_eq r : refWord r = wordOf r.
Proof. destruct r; reflexivity. Qed.

Lemma structured_eq k : structured k = composite k.
Proof. destruct k as [| |[]| | | | |]; reflexivity. Qed.

(** strncat after the word of a pointer, whose length is not counted. *)
Lemma cat_word : forall b r s, Rep b (List.length (wordOf r)) (wordOf r) -> clean s ->
  (255 < List.length (wordOf r) + List.length s /\
   strncat b (firstn 255 s) (SIZE - 0 - 1) = UB) \/
  (List.length (wordOf r) + List.length s <= 255 /\
   exists b', strncat b (firstn 255 s) (SIZE - 0 - 1) = Ok b' /\
     exists len, Rep b' len (wordOf r ++ s)).
Proof.
  intros b r s HR Hs. pose proof (rep_cstr _ _ _ HR) as Hc.
  destruct HR as (A & (q & B) & C & D). unfold strncat. rewrite Hc, SIZE_eq. cbn [bind].
  assert (Hw : 1 <= List.length (wordOf r) <= 6) by (destruct r; cbn; lia).
  assert (HF : firstn 255 (wordOf r) = wordOf r) by (apply firstn_all2; lia).
  rewrite HF in *.
  assert (HS : firstn (256 - 0 - 1) (firstn 255 s) = firstn 255 s).
  { rewrite firstn_firstn. f_equal. }
  destruct (le_lt_dec (List.length (wordOf r) + List.length s) 255) as [Hl|Hl].
  - right. split; auto. rewrite HS.
    destruct (poke_cut b (wordOf r) (NUL :: q) s (List.length s) A B) as
      (b' & P1 & P2 & rest & P3); [lia|].
    rewrite firstn_all in P1, P3. rewrite firstn_all2 by lia. rewrite P1. exists b'.
    split; auto. exists (List.length (wordOf r ++ s)). split; auto. split; [|split; auto].
    + exists rest. rewrite P3. f_equal. symmetry. apply firstn_all2.
      rewrite app_length. lia.
    + apply clean_app. auto.
  - left. split; auto. rewrite HS. unfold poke.
    assert (HE : List.length (wordOf r) + List.length (firstn 255 s ++ [NUL]) <=?
                 List.length b = false).
    { apply Nat.leb_gt. rewrite app_length, firstn_length. cbn [List.length]. lia. }
    now rewrite HE.
Qed.

(** * Texts *)
Scheme spells_mut := Minimality for spells Sort Prop
with items_mut := Minimality for items Sort Prop
with spellsAll_mut := Minimality for spellsAll Sort Prop
with spellsFn_mut := Minimality for spellsFn Sort Prop
with spellsRcv_mut := Minimality for spellsRcv Sort Prop
with spellsRes_mut := Minimality for spellsRes Sort Prop.
Combined Scheme spells_all from spells_mut, items_mut, spellsAll_mut, spellsFn_mut,
  spellsRcv_mut, spellsRes_mut.

Ltac same_node :=
  repeat match goal with
  | H : nth_error ?h ?i = Some ?a, K : nth_error ?h ?i = Some ?b |- _ =>
      first [constr_eq a b; fail 1 | rewrite H in K; injection K; clear K; intros; subst]
  end.

Section Texts.
Variable h : list node.

Ltac use_det :=
  repeat match goal with
  | IH : forall s', _ -> ?s = s', K : _ |- _ => apply IH in K; try subst
  end.

Lemma spells_det :
  (forall d i s, spells h d i s -> forall s', spells h d i s' -> s = s') /\
  (forall d i s, items h d i s -> forall s', items h d i s' -> s = s') /\
  (forall d l s, spellsAll h d l s -> forall s', spellsAll h d l s' -> s = s') /\
  (forall d i s, spellsFn h d i s -> forall s', spellsFn h d i s' -> s = s') /\
  (forall d m p s, spellsRcv h d m p s -> forall s', spellsRcv h d m p s' -> s = s') /\
  (forall d n r s, spellsRes h d n r s -> forall s', spellsRes h d n r s' -> s = s').
Proof.
  apply spells_all; intros;
    match goal with
    | K : spells _ _ _ ?x |- _ = ?x => inversion K
    | K : items _ _ _ ?x |- _ = ?x => inversion K
    | K : spellsAll _ _ _ ?x |- _ = ?x => inversion K
    | K : spellsFn _ _ _ ?x |- _ = ?x => inversion K
    | K : spellsRcv _ _ _ _ ?x |- _ = ?x => inversion K
    | K : spellsRes _ _ _ _ ?x |- _ = ?x => inversion K
    end; subst; same_node; cbn [gname] in *; try congruence; use_det; auto; try congruence.
Qed.
End Texts.
