(** The spelling of types: when there is a text. *)
Require Import Arith List Bool Ascii String Lia.
Require Import Verif.Base Verif.SpellModel Verif.SpellSpec Verif.SpellProofs Verif.SpellMore.
Import ListNotations.
Local Open Scope nat_scope.

Section Ends.
Variable h : list node.
Hypothesis Hwf : wf h.

Lemma node_at : forall i, i < List.length h -> exists n, nth_error h i = Some n.
Proof.
  intros i H. destruct (nth_error h i) eqn:E; eauto.
  apply nth_error_None in E. lia.
Qed.

Lemma all_exist : forall d js, (forall j, In j js -> exists s, spells h d j s) ->
  exists ss, spellsAll h d js ss.
Proof.
  induction js as [|j js IH]; intros H; [exists []; constructor|].
  destruct (H j) as (s & Hs); [now left|].
  destruct IH as (ss & Hss); [intros; apply H; now right|].
  exists (s :: ss). now constructor.
Qed.

Lemma written_in : forall ps n j, In j (written ps n) -> In j ps.
Proof.
  intros ps n j H. unfold written in H.
  assert (K : In j (tl ps)).
  { destruct (composite (nk n)); auto. rewrite removelast_firstn_len in H.
    rewrite <- (firstn_skipn (Nat.pred (List.length (tl ps))) (tl ps)).
    apply in_or_app. auto. }
  destruct ps; [destruct K|now right].
Qed.

Lemma fn_exist : forall d f g m ps r, nth_error h f = Some (mkNode g (KFn m ps r)) ->
  (forall j, viaFn h f j -> j < List.length h -> exists s, spells h (Nat.pred d) j s) ->
  exists s, spellsFn h d f s.
Proof.
  intros d f g m ps r H G. destruct (Hwf _ _ H) as [W _].
  cbn [nk wfKind] in W. destruct W as (Wp & Wn & n & Hr & Ws).
  destruct ps as [|p ps]; [congruence|].
  assert (R1 : exists rs, spellsRcv h (Nat.pred d) m p rs).
  { destruct m; [|exists None; constructor].
    destruct (G p) as (s & Hs); [econstructor 1; eauto|apply Wp; now left|].
    exists (Some s). now constructor. }
  assert (R2 : exists ss, spellsAll h (Nat.pred d) (written (p :: ps) n) ss).
  { apply all_exist. intros j I. apply G; [econstructor 2; eauto|].
    apply Wp. eapply written_in. exact I. }
  assert (R3 : exists res, spellsRes h (Nat.pred d) n r res).
  { destruct (isVoid (nk n)) eqn:V; [exists None; now constructor|].
    destruct (G r) as (s & Hs); [econstructor 3; eauto| |exists (Some s); now constructor].
    apply nth_error_Some. congruence. }
  destruct R1 as (rs & R1). destruct R2 as (ss & R2). destruct R3 as (res & R3).
  exists (fnText rs ss res). econstructor; eauto.
Qed.

Lemma parts_exist : forall d i, i < List.length h ->
  (forall j, inner h i j -> j < List.length h -> exists s, spells h (Nat.pred d) j s) ->
  (forall d' j, d = S d' -> j < List.length h -> exists s, spells h d' j s) ->
  exists s, spells h d i s.
Proof.
  intros d i Hi Gin Git.
  assert (HI : forall j, j < List.length h -> exists s, items h d j s).
  { intros j Hj. destruct d as [|d']; [exists (lit "..."); constructor|].
    destruct (Git d' j eq_refl Hj) as (s & Hs). exists s. now constructor. }
  destruct (node_at i Hi) as (n & Hn). destruct (Hwf _ _ Hn) as [W _].
  destruct n as [[s|] k]; [exists s; eapply sp_name; eauto|]. cbn [nk] in W.
  destruct k as [w v t|w|r j|m j|k j|fs|m ps r|f]; cbn [wfKind] in W.
  - exists w. eapply sp_word. exact Hn.
  - eexists. apply sp_enum. exact Hn.
  - destruct (HI j W) as (s & Hs). eexists. eapply sp_ref; eauto.
  - destruct (HI j W) as (s & Hs). eexists. eapply sp_arr; eauto.
  - destruct W as [Wk Wj]. destruct (HI j Wj) as (s & Hs).
    destruct (Gin k) as (t & Ht); [econstructor 1; eauto|auto|].
    eexists. eapply sp_map; eauto.
  - destruct fs as [|f fs]; [eexists; now apply sp_struct|].
    destruct (all_exist (Nat.pred d) (f :: fs)) as (ss & Hss).
    { intros j I. apply Gin; auto. econstructor 2; eauto. }
    eexists. eapply sp_list; eauto.
  - destruct (fn_exist d i None m ps r Hn) as (s & Hs).
    { intros j V Hj. apply Gin; auto. econstructor 3; eauto. }
    exists s. eapply sp_fn; eauto.
  - destruct W as (g & m & ps & r & Hf).
    destruct (fn_exist d f g m ps r Hf) as (s & Hs).
    { intros j V Hj. apply Gin; auto. econstructor 4; eauto. }
    eexists. eapply sp_closure; eauto.
Qed.

(** No type is written, at every depth, as part of itself: then all have a text. *)
Theorem text_exists : well_founded (fun j i => inner h i j) ->
  forall d i, i < List.length h -> exists s, spells h d i s.
Proof.
  intros WF d. induction d as [|d IH]; intros i Hi.
  - induction (WF i) as [i _ IHi]. apply parts_exist; auto. discriminate.
  - apply parts_exist; auto. intros d' j E. injection E as <-. auto.
Qed.
End Ends.
