(** Reference counting: the effect of writing a value. *)
From Coq Require Import ZArith Lia Bool List ZifyBool Permutation.
From Verif Require Import Base RefModel RefSpec RefProofs RefLoop RefDec.
Import ListNotations.
Local Open Scope Z_scope.

(** ** Sizes *)
Definition inside (l : list (Z * slot)) (n : Z) : Prop := Forall (fun p => 0 <= fst p /\ fst p + width (snd p) <= n) l.
Fixpoint wfF (from : Z) (s : Z) (fs : list (Z * ty)) : Prop := match fs with [] => from <= s | (o, u) :: r => from <= o /\ wfT u /\ wfF (o + sizeOf u) s r end.
Lemma wfT_struct : forall fs s, wfT (TStruct fs s) <-> 0 <= s /\ wfF 0 s fs.
Proof.
  intros fs s. cbn [wfT]. assert (forall fs from, (fix go (from : Z) (fs : list (Z * ty)) : Prop := match fs with [] => from <= s | (o, u) :: r => from <= o /\ wfT u /\ go (o + sizeOf u) r end) from fs <-> wfF from s fs) as E.
  { clear fs. induction fs as [|[o u] r IH]; intros from; cbn [wfF]; [reflexivity|]. rewrite IH. reflexivity. }
  rewrite E. reflexivity.
Qed.
Lemma size_nonneg : forall t, wfT t -> 0 <= sizeOf t.
Proof.
  intros t. induction t as [s|b| | |u n IH|i|i|fs s IH|s] using ty_ind2; cbn [sizeOf]; intros H; try lia; [exact H| | |].
  - cbn [wfT] in H. specialize (IH H). nia.
  - apply wfT_struct in H. apply H.
  - cbn [wfT] in H. lia.
Qed.
Lemma wfF_in : forall fs from s o u, wfF from s fs -> In (o, u) fs -> wfT u /\ from <= o /\ o + sizeOf u <= s.
Proof.
  induction fs as [|[o' u'] r IH]; intros from s o u H I; [destruct I|]. cbn [wfF] in H. destruct H as (A & B & C).
  assert (o' + sizeOf u' <= s) as D. { clear IH I. revert C. generalize (o' + sizeOf u'). induction r as [|[x y] r IH2]; intros f C; cbn [wfF] in C; [lia|]. destruct C as (C1 & C2 & C3). specialize (IH2 _ C3). pose proof (size_nonneg _ C2). lia. }
  destruct I as [I|I]; [injection I as -> ->; auto|]. destruct (IH _ _ _ _ C I) as (X & Y & W). pose proof (size_nonneg _ B). split; [exact X|lia].
Qed.
Lemma inside_shift : forall l d n m, inside l n -> 0 <= d -> d + n <= m -> inside (shift d l) m.
Proof. intros l d n m H D L. unfold inside, shift in *. apply Forall_map. eapply Forall_impl; [|exact H]. cbv beta. intros [o s]. cbn [fst snd]. lia. Qed.
Lemma inside_flat : forall A (f : A -> list (Z * slot)) l n, (forall x, In x l -> inside (f x) n) -> inside (flat_map f l) n.
Proof. intros A f l n H. unfold inside. apply Forall_flat_map. apply Forall_forall. exact H. Qed.
Lemma slots_inside : forall t, wfT t -> inside (slots t) (sizeOf t).
Proof.
  intros t. induction t as [s|b| | |u n IH|i|i|fs s IH|s] using ty_ind2; intros H; try (repeat constructor; cbn; lia).
  - cbn [slots sizeOf wfT] in *. pose proof (size_nonneg _ H). apply inside_flat. intros i I. apply in_seq in I. apply (inside_shift _ _ (sizeOf u)); [apply IH; exact H|nia|nia].
  - rewrite slots_struct. cbn [sizeOf]. apply wfT_struct in H. destruct H as [H1 H2]. apply inside_flat. intros [o u] I. destruct (wfF_in _ _ _ _ _ H2 I) as (A & B & C). rewrite Forall_forall in IH. specialize (IH _ I A). cbn [fst snd] in *. apply (inside_shift _ _ (sizeOf u)); auto; lia.
  - cbn [wfT] in H. repeat constructor; cbn; lia.
Qed.
Lemma sub_wf : forall T o t, Sub T o t -> wfT T -> wfT t /\ 0 <= o /\ o + sizeOf t <= sizeOf T.
Proof.
  intros T o t S. induction S as [t|u n i o t L S IH|fs s o u p t I S IH]; intros W.
  - split; [exact W|]. split; lia.
  - cbn [wfT sizeOf] in *. destruct (IH W) as (A & B & C). pose proof (size_nonneg _ W). split; [exact A|]. split; nia.
  - apply wfT_struct in W. destruct W as [W1 W2]. destruct (wfF_in _ _ _ _ _ W2 I) as (X & Y & V). destruct (IH X) as (A & B & C). cbn [sizeOf]. split; [exact A|]. lia.
Qed.
(** The slots of a part, and the others, which do not overlap it. *)
Definition beside (l : list (Z * slot)) (o n : Z) : Prop := Forall (fun p => fst p + width (snd p) <= o \/ o + n <= fst p) l.
Lemma beside_app : forall l k o n, beside l o n -> beside k o n -> beside (l ++ k) o n. Proof. intros. apply (proj2 (Forall_app _ _ _)). auto. Qed.
Lemma beside_shift : forall l d o n, beside l o n -> beside (shift d l) (d + o) n.
Proof. intros l d o n H. unfold beside, shift in *. apply Forall_map. eapply Forall_impl; [|exact H]. cbv beta. intros [x s]. cbn [fst snd]. lia. Qed.
Lemma beside_inside : forall l d n o k, inside l n -> d + n <= o \/ o + k <= d -> beside (shift d l) o k.
Proof. intros l d n o k H D. unfold beside, inside, shift in *. apply Forall_map. eapply Forall_impl; [|exact H]. cbv beta. intros [x s]. cbn [fst snd]. lia. Qed.
Lemma beside_flat : forall A (f : A -> list (Z * slot)) l o n, (forall x, In x l -> beside (f x) o n) -> beside (flat_map f l) o n.
Proof. intros A f l o n H. unfold beside. apply Forall_flat_map. apply Forall_forall. exact H. Qed.
Lemma sub_slots : forall T o t, Sub T o t -> wfT T -> exists pre post, slots T = pre ++ shift o (slots t) ++ post /\ beside pre o (sizeOf t) /\ beside post o (sizeOf t).
Proof.
  intros T o t S. induction S as [t|u n i o t L SB IH|fs s o u p t I SB IH]; intros W.
  - exists [], []. rewrite shift_0, app_nil_r. repeat split; constructor.
  - cbn [wfT] in W. destruct (IH W) as (pre & post & E & B1 & B2). destruct (sub_wf _ _ _ SB W) as (W1 & W2 & W3). pose proof (size_nonneg _ W1). cbn [slots].
    set (f := fun j => shift (Z.of_nat j * sizeOf u) (slots u)). exists (flat_map f (seq 0 i) ++ shift (Z.of_nat i * sizeOf u) pre), (shift (Z.of_nat i * sizeOf u) post ++ flat_map f (seq (S i) (n - S i))).
    split; [|split].
    + replace n with (i + S (n - S i))%nat at 1 by lia. rewrite seq_app, flat_map_app. cbn [seq flat_map]. unfold f at 2. rewrite E, !shift_app, shift_shift. cbn [Nat.add]. rewrite <- !app_assoc. reflexivity.
    + apply beside_app; [|apply beside_shift; exact B1]. apply beside_flat. intros j J. apply in_seq in J. apply (beside_inside _ _ (sizeOf u)); [apply slots_inside; exact W|]. left. pose proof (size_nonneg _ W). nia.
    + apply beside_app; [apply beside_shift; exact B2|]. apply beside_flat. intros j J. apply in_seq in J. apply (beside_inside _ _ (sizeOf u)); [apply slots_inside; exact W|]. right. pose proof (size_nonneg _ W). nia.
  - apply wfT_struct in W. destruct W as [_ W]. rewrite slots_struct. revert W. generalize 0 as from. induction fs as [|[o' u'] r IHf]; intros from W; [destruct I|]. cbn [wfF] in W. destruct W as (Wa & Wb & Wc). cbn [flat_map fst snd].
    destruct I as [I|I].
    + injection I as -> ->. destruct (IH Wb) as (pre & post & E & B1 & B2). destruct (sub_wf _ _ _ SB Wb) as (W1 & W2 & W3). exists (shift o pre), (shift o post ++ flat_map (fun f => shift (fst f) (slots (snd f))) r).
      split; [rewrite E, !shift_app, shift_shift, <- !app_assoc; reflexivity|]. split; [apply beside_shift; exact B1|]. apply beside_app; [apply beside_shift; exact B2|].
      apply beside_flat. intros [x y] J. cbn [fst snd]. destruct (wfF_in _ _ _ _ _ Wc J) as (X & Y & V). apply (beside_inside _ _ (sizeOf y)); [apply slots_inside; exact X|]. lia.
    + destruct (IHf I _ Wc) as (pre & post & E & B1 & B2). destruct (wfF_in _ _ _ _ _ Wc I) as (X & Y & V). destruct (sub_wf _ _ _ SB X) as (W1 & W2 & W3). pose proof (size_nonneg _ Wb).
      exists (shift o' (slots u') ++ pre), post. split; [rewrite E, <- app_assoc; reflexivity|]. split; [|exact B2]. apply beside_app; [|exact B1]. apply (beside_inside _ _ (sizeOf u')); [apply slots_inside; exact Wb|]. lia.
Qed.

(** ** Memory after a write *)
Definition hits (a : addr) (n : Z) (a' : addr) : bool :=
  match a, a' with AVar z, AVar z' => (z <=? z') && (z' <? z + n) | AHeap b o, AHeap b' o' => Nat.eqb b b' && (o <=? o') && (o' <? o + n) | _, _ => false end.
Definition offs (a a' : addr) : Z := match a, a' with AVar z, AVar z' => z' - z | AHeap _ o, AHeap _ o' => o' - o | _, _ => 0 end.
Lemma chunkAt_write : forall m a n g c, match a with AHeap b _ => (b < length (heap m))%nat | _ => True end -> chunkAt (write m a n g) c =
  match a with AHeap b o => if Nat.eqb b c then MkChunk (c_ref (chunkAt m b)) (c_obj (chunkAt m b)) (copyCells (c_data (chunkAt m b)) g o 0 n) else chunkAt m c | AVar _ => chunkAt m c end.
Proof. intros m [z|b o] n g c L; [reflexivity|]. unfold chunkAt at 1. cbn [write heap]. rewrite nth_setNth. apply Nat.ltb_lt in L. rewrite L, andb_true_r. destruct (Nat.eqb b c); reflexivity. Qed.
Section Write.
Variable env : nat -> ty.
Variables (m : mem) (a : addr) (n : Z) (g : Z -> word).
Hypothesis La : match a with AHeap b _ => (b < length (heap m))%nat | _ => True end.
Lemma write_len : length (heap (write m a n g)) = length (heap m). Proof. clear La. destruct a; [reflexivity|]. cbn. apply length_setNth. Qed.
Lemma write_ref : forall b, c_ref (chunkAt (write m a n g) b) = c_ref (chunkAt m b).
Proof. intros b. rewrite chunkAt_write by exact La. destruct a as [z|c o]; [reflexivity|]. destruct (Nat.eqb_spec c b) as [->|]; reflexivity. Qed.
Lemma write_obj : forall b, c_obj (chunkAt (write m a n g) b) = c_obj (chunkAt m b).
Proof. intros b. rewrite chunkAt_write by exact La. destruct a as [z|c o]; [reflexivity|]. destruct (Nat.eqb_spec c b) as [->|]; reflexivity. Qed.
Lemma write_live : forall b, live (write m a n g) b = live m b. Proof. intros. unfold live. rewrite write_ref. reflexivity. Qed.
Lemma write_read : forall a', read (write m a n g) a' = if hits a n a' then g (offs a a') else read m a'.
Proof.
  intros [z'|b' o']; cbn [read].
  - destruct a as [z|b o]; [|reflexivity]. cbn [write vars hits offs]. unfold copyCells. destruct (_ && _); [f_equal; lia|reflexivity].
  - rewrite chunkAt_write by exact La. destruct a as [z|b o]; [reflexivity|]. cbn [hits offs]. destruct (Nat.eqb_spec b b') as [->|]; [|reflexivity]. cbn [c_data andb]. unfold copyCells. destruct (_ && _); [f_equal; lia|reflexivity].
Qed.
Lemma hits_plus : forall d, hits a n (plus a d) = (0 <=? d) && (d <? n).
Proof. clear La. intros d. destruct a as [z|b o]; cbn; [|rewrite Nat.eqb_refl]; cbn [andb]; lia. Qed.
Lemma offs_plus : forall d, offs a (plus a d) = d. Proof. clear La. intros d. destruct a; cbn; lia. Qed.
End Write.

(** ** Slots in two memories *)
Section Two.
Variable env : nat -> ty.
(** The same chunks, perhaps with other data. *)
Definition sameObjs (m m' : mem) : Prop := (length (heap m) <= length (heap m'))%nat /\ forall b, (b < length (heap m))%nat -> c_obj (chunkAt m' b) = c_obj (chunkAt m b).
(** The cells of a slot. *)
Definition cells (s : slot) : list Z := match s with SIface => [0; 8] | _ => [0] end.
Lemma cells_width : forall s d, In d (cells s) -> 0 <= d < width s. Proof. intros s d H. destruct s; cbn in *; lia. Qed.
(** The slots have the same contents in both. *)
Definition agree (m : mem) (a : addr) (m' : mem) (a' : addr) (p : Z * slot) : Prop := forall d, In d (cells (snd p)) -> read m' (plus a' (fst p + d)) = read m (plus a (fst p + d)).
Definition agrees m a m' a' l := Forall (agree m a m' a') l.
Lemma agree0 : forall m a m' a' p, agree m a m' a' p -> read m' (plus a' (fst p)) = read m (plus a (fst p)).
Proof. intros m a m' a' p H. specialize (H 0). rewrite !Z.add_0_r in H. apply H. destruct (snd p); left; reflexivity. Qed.
Lemma agrees_refs : forall m a m' a' l, agrees m a m' a' l -> refsAt m' a' l = refsAt m a l.
Proof. intros m a m' a' l H. unfold refsAt. induction H as [|p l A B IH]; cbn [flat_map]; [reflexivity|]. rewrite (agree0 _ _ _ _ _ A), IH. reflexivity. Qed.
Lemma ptrOk_objs : forall m m' b w, sameObjs m m' -> ptrOk env m b w -> ptrOk env m' b w.
Proof. intros m m' b w [L O] H. destruct w as [z|[z|c o]|t]; cbn in *; auto. destruct H as [H1 H2]. rewrite O by exact H1. split; [lia|exact H2]. Qed.
Lemma agree_ok : forall m a m' a' p, sameObjs m m' -> agree m a m' a' p -> slotOk env m a p -> slotOk env m' a' p.
Proof.
  intros m a m' a' [o s] SO A H. pose proof (agree0 _ _ _ _ _ A) as E. cbn [fst] in E. pose proof (fun b w => ptrOk_objs m m' b w SO) as PO. destruct SO as [L O]. unfold slotOk in *. cbn [fst snd] in *. rewrite E. destruct s; auto.
  - destruct (read m (plus a o)) as [z|[z|b q]|t]; auto. destruct H as [H1 H2]. rewrite O by exact H1. split; [lia|exact H2].
  - destruct (read m (plus a o)) as [z|[z|b q]|t]; auto. destruct H as [H1 H2]. rewrite O by exact H1. split; [lia|exact H2].
  - destruct (read m (plus a o)) as [z|[z|b q]|t]; auto. destruct H as [H1 H2]. rewrite O by exact H1. split; [lia|exact H2].
  - destruct H as [H|(base & H1 & H2)]; [left; exact H|]. right. exists base. split; [|auto]. specialize (A 8). cbn [fst snd cells] in A. rewrite A by (right; left; reflexivity). exact H1.
  - destruct H as (b & q & H1 & H2 & H3). exists b, q. rewrite O by exact H2. split; [exact H1|]. split; [lia|exact H3].
Qed.
Lemma agrees_ok : forall m a m' a' l, sameObjs m m' -> agrees m a m' a' l -> slotsOk env m a l -> slotsOk env m' a' l.
Proof. intros m a m' a' l SO A H. unfold slotsOk, agrees in *. rewrite Forall_forall in *. intros p I. eapply agree_ok; eauto. Qed.
Lemma agrees_shift : forall m a m' a' d l, agrees m (plus a d) m' (plus a' d) l -> agrees m a m' a' (shift d l).
Proof.
  intros m a m' a' d l H. unfold agrees, shift in *. apply Forall_map. eapply Forall_impl; [|exact H]. intros [o s] A e E. cbn [fst snd] in *. specialize (A e E). cbn [fst] in A. rewrite !plus_plus in A. rewrite !Z.add_assoc in A. exact A.
Qed.
Lemma beside_agrees : forall m a n g off A l, match a with AHeap b _ => (b < length (heap m))%nat | _ => True end -> a = plus A off -> beside l off n -> agrees m A (write m a n g) A l.
Proof.
  intros m a n g off A l La E H. unfold agrees, beside in *. eapply Forall_impl; [|exact H]. cbv beta. intros [o s] B d D. apply cells_width in D. cbn [fst snd] in *. rewrite write_read by exact La.
  replace (hits a n (plus A (o + d))) with false; [reflexivity|]. symmetry. subst a. destruct A as [z|b q]; cbn [plus hits]; [|rewrite Nat.eqb_refl; cbn [andb]]; lia.
Qed.
(** A value is written over a part of a container. *)
Section Part.
Variables (m : mem) (A : addr) (T : ty) (off : Z) (t : ty) (src : addr) (g : Z -> word).
Hypothesis LA : match A with AHeap b _ => (b < length (heap m))%nat | _ => True end.
Hypothesis W : wfT T.
Hypothesis SB : Sub T off t.
Hypothesis G : Forall (fun p => forall d, In d (cells (snd p)) -> g (fst p + d) = read m (plus src (fst p + d))) (slots t).
Let a := plus A off.
Let mF := write m a (sizeOf t) g.
Lemma La : match a with AHeap b _ => (b < length (heap m))%nat | _ => True end. Proof. unfold a. destruct A; exact LA. Qed.
Lemma mF_objs : sameObjs m mF. Proof. split; [unfold mF; rewrite write_len; apply le_n|]. intros b _. apply write_obj. apply La. Qed.
Lemma new_agrees : agrees m src mF a (slots t).
Proof.
  destruct (sub_wf _ _ _ SB W) as (Wt & _ & _). pose proof (slots_inside _ Wt) as I. unfold agrees, inside in *. rewrite Forall_forall in *. intros p J d D. unfold mF. rewrite write_read by apply La. rewrite hits_plus, offs_plus. specialize (I p J). specialize (G p J d D). apply cells_width in D.
  destruct (Z.leb_spec 0 (fst p + d)); destruct (Z.ltb_spec (fst p + d) (sizeOf t)); cbn [andb]; try lia. exact G.
Qed.
Lemma part_refs : forall b, cnt b (refsAt mF A (slots T)) + cnt b (refsAt m a (slots t)) = cnt b (refsAt m A (slots T)) + cnt b (refsAt m src (slots t)).
Proof.
  intros b. destruct (sub_slots _ _ _ SB W) as (pre & post & E & B1 & B2). rewrite E, !refs_app, !cnt_app, !refs_shift. fold a.
  unfold mF. rewrite (agrees_refs m A _ A pre) by (apply (beside_agrees _ _ _ _ off); [apply La|reflexivity|exact B1]). rewrite (agrees_refs m A _ A post) by (apply (beside_agrees _ _ _ _ off); [apply La|reflexivity|exact B2]).
  fold mF. rewrite (agrees_refs m src mF a (slots t) new_agrees). lia.
Qed.
Lemma part_ok : slotsOk env m A (slots T) -> slotsOk env m src (slots t) -> slotsOk env mF A (slots T) /\ slotsOk env m a (slots t).
Proof.
  intros H1 H2. destruct (sub_slots _ _ _ SB W) as (pre & post & E & B1 & B2). rewrite E in *. rewrite !slotsOk_app in *. rewrite !slotsOk_shift in *. fold a in H1 |- *. destruct H1 as (P1 & P2 & P3). split; [|exact P2]. split; [|split].
  - eapply agrees_ok; [apply mF_objs| |exact P1]. apply (beside_agrees _ _ _ _ off); [apply La|reflexivity|exact B1].
  - eapply agrees_ok; [apply mF_objs|apply new_agrees|exact H2].
  - eapply agrees_ok; [apply mF_objs| |exact P3]. apply (beside_agrees _ _ _ _ off); [apply La|reflexivity|exact B2].
Qed.
End Part.
End Two.
