(** Proofs about composite types. *)
From Coq Require Import ZArith Lia Bool List String.
From Verif Require Import Base ReflModel ReflSpec.
Import ListNotations.
Local Open Scope list_scope.
Local Open Scope nat_scope.

Scheme texpr_mut := Induction for texpr Sort Prop with fexpr_mut := Induction for fexpr Sort Prop.

Lemma upd_len {A} (l : list A) n x : List.length (upd l n x) = List.length l.
Proof. revert n. induction l as [|a l IH]; intros [|n]; cbn; auto. Qed.
Lemma upd_nth_same {A} (l : list A) n x : n < List.length l -> nth_error (upd l n x) n = Some x.
Proof. revert n. induction l as [|a l IH]; intros [|n] H; cbn in *; try lia; auto. apply IH. lia. Qed.
Lemma upd_nth_other {A} (l : list A) n m x : m <> n -> nth_error (upd l n x) m = nth_error l m.
Proof. revert n m. induction l as [|a l IH]; intros [|n] [|m] H; cbn; auto; try congruence. Qed.
Lemma nth_new {A} (l : list A) x : nth_error (l ++ [x]) (List.length l) = Some x.
Proof. rewrite nth_error_app2, Nat.sub_diag by lia. auto. Qed.
Lemma nth_len {A} (l : list A) i x : nth_error l i = Some x -> i < List.length l.
Proof. intros H. apply nth_error_Some. congruence. Qed.
Lemma get_nth T t x : get T t = Ok x -> nth_error T t = Some x.
Proof. unfold get. destruct (nth_error T t); congruence. Qed.
Lemma nth_get T t x : nth_error T t = Some x -> get T t = Ok x.
Proof. unfold get. intros ->. auto. Qed.

Lemma find_app l n m t : find (l ++ [(m, t)]) n = match find l n with Some x => Some x | None => if String.eqb m n then Some t else None end.
Proof.
  unfold find. induction l as [|[a u] l IH]; cbn; [destruct (String.eqb m n); auto|]. destruct (String.eqb a n); auto.
Qed.
Lemma find_none l n : find l n = None <-> ~ In n (map fst l).
Proof.
  unfold find. induction l as [|[a u] l IH]; cbn; [tauto|]. destruct (String.eqb_spec a n) as [->|N]; cbn; [split; [discriminate|tauto]|].
  rewrite IH. split; [intros X [Y|Y]; auto|tauto].
Qed.
Lemma find_in l n t : NoDup (map fst l) -> In (n, t) l -> find l n = Some t.
Proof.
  unfold find. induction l as [|[a u] l IH]; cbn; [tauto|]. intros ND H. inversion_clear ND as [|? ? NI ND'].
  destruct (String.eqb_spec a n) as [->|N].
  - destruct H as [H|H]; [injection H as ->; auto|]. exfalso. apply NI. apply (in_map fst) in H. auto.
  - destruct H as [H|H]; [congruence|auto].
Qed.

Lemma addField_inv T s t n T' : addField T s t n = Ok T' -> exists x, nth_error T s = Some x /\
  ~ In n (map fst (t_fields x)) /\ T' = upd T s (MkT (t_kind x) (t_base x) (t_fields x ++ [(n, t)])).
Proof.
  unfold addField. destruct (get T s) as [x| |] eqn:G; cbn [bind]; try discriminate. destruct (get T t) as [f| |]; cbn [bind]; try discriminate.
  destruct (find (t_fields x) n) eqn:F; try discriminate. intros H. exists x. split; [apply get_nth; auto|]. split; [apply find_none; auto|].
  destruct (t_kind f); congruence.
Qed.
Lemma addFields_inv l : forall T s T' k b fs, nth_error T s = Some (MkT k b fs) -> addFields T s l = Ok T' ->
  nth_error T' s = Some (MkT k b (fs ++ l)) /\ List.length T' = List.length T /\ forall i, i <> s -> nth_error T' i = nth_error T i.
Proof.
  induction l as [|[n t] l IH]; intros T s T' k b fs N H; cbn [addFields] in H.
  - injection H as <-. rewrite app_nil_r. auto.
  - destruct (addField T s t n) as [T1| |] eqn:E; cbn [bind] in H; try discriminate. apply addField_inv in E.
    destruct E as (x & X & _ & ->). rewrite N in X. injection X as <-. cbn [t_kind t_base t_fields] in H.
    eapply IH in H; [|apply upd_nth_same; eapply nth_len; eauto]. destruct H as (A & B & C). rewrite <- app_assoc in A.
    split; [exact A|]. split; [rewrite B, upd_len; auto|]. intros i I. rewrite C, upd_nth_other; auto.
Qed.

(** [T''] has the types from number [lo] up to [T'] as they are in [T']. *)
Definition same (lo : nat) (T' T'' : types) : Prop := forall i, lo <= i < List.length T' -> nth_error T'' i = nth_error T' i.
Lemma same_le lo lo' T' T'' : lo <= lo' -> same lo T' T'' -> same lo' T' T''.
Proof. intros L H i I. apply H. lia. Qed.

Section B.
Variables (comparable : types -> nat -> bool) (intType : nat).
Notation build_ := (build comparable intType).
Notation buildFields_ := (buildFields comparable intType).

Lemma build_struct fs T : build_ (XStruct fs) T =
  let* T1 := buildFields_ (List.length T) fs (T ++ [MkT KStruct None []]) in Ok (List.length T, T1).
Proof. reflexivity. Qed.
Lemma build_cons s n e r T : buildFields_ s (FCons n e r) T =
  let* (t, T1) := build_ e T in let* T2 := addField T1 s t n in buildFields_ s r T2.
Proof. reflexivity. Qed.

Definition good (e : texpr) : Prop := forall T u T', build_ e T = Ok (u, T') ->
  List.length T <= List.length T' /\ (forall i, i < List.length T -> nth_error T' i = nth_error T i) /\
  forall T'', same (List.length T) T' T'' -> describes T'' u e.
Fixpoint list_desc (T : types) (l : list (string * nat)) (fs : fexpr) : Prop :=
  match l, fs with
  | [], FNil => True
  | (n, t) :: l', FCons m e r => n = m /\ describes T t e /\ list_desc T l' r
  | _, _ => False
  end.
Definition goodF (fs : fexpr) : Prop := forall s T T' acc, nth_error T s = Some (MkT KStruct None acc) -> NoDup (map fst acc) ->
  buildFields_ s fs T = Ok T' ->
  List.length T <= List.length T' /\ (forall i, i < List.length T -> i <> s -> nth_error T' i = nth_error T i) /\
  exists new, nth_error T' s = Some (MkT KStruct None (acc ++ new)) /\ NoDup (map fst (acc ++ new)) /\
    forall T'', same (List.length T) T' T'' -> list_desc T'' new fs.

Lemma list_desc_names T l : forall fs, list_desc T l fs -> map fst l = names fs.
Proof. induction l as [|[n t] l IH]; intros [|m e r] H; cbn in *; try tauto. destruct H as (-> & _ & H). f_equal. auto. Qed.
Lemma list_desc_has T u x : nth_error T u = Some x -> t_kind x = KStruct -> NoDup (map fst (t_fields x)) ->
  forall fs l, incl l (t_fields x) -> list_desc T l fs -> hasFields T u fs.
Proof.
  intros N K D. induction fs as [|m e r IH]; intros [|[n t] l] I H; cbn in *; try tauto. destruct H as (-> & H1 & H2). split.
  - exists t. split; auto. unfold getFieldType, findField. rewrite (nth_get _ _ _ N). cbn [bind]. rewrite K. rewrite (find_in _ m t); auto. apply I. left. auto.
  - eapply IH; [|exact H2]. intros y Y. apply I. right. auto.
Qed.

(** Pointers and arrays. *)
Lemma simple k e T u T1 : (k = KPtr \/ k = KWeak \/ k = KArray \/ k = KDyn) -> good e -> build_ e T = Ok (u, T1) ->
  List.length T <= List.length (T1 ++ [MkT k (Some u) []]) /\
  (forall i, i < List.length T -> nth_error (T1 ++ [MkT k (Some u) []]) i = nth_error T i) /\
  forall T'', same (List.length T) (T1 ++ [MkT k (Some u) []]) T'' ->
    (exists v, getBaseType T'' (List.length T1) = Ok (Some v) /\ describes T'' v e) /\
    getMapKeyType T'' (List.length T1) = Ok None /\ getMapItemType T'' (List.length T1) = Ok None /\
    forall n, getFieldType T'' (List.length T1) n = Ok None.
Proof.
  intros K G B. destruct (G _ _ _ B) as (L & P & D). rewrite app_length. cbn [List.length]. repeat split; try lia.
  - intros i I. rewrite nth_error_app1 by lia. auto.
  - assert (X : nth_error T'' (List.length T1) = Some (MkT k (Some u) [])).
    { rewrite (H (List.length T1)), nth_new; auto. rewrite app_length. cbn. lia. }
    exists u. split; [unfold getBaseType; rewrite (nth_get _ _ _ X); cbn; destruct K as [->|[->|[->| ->]]]; auto|].
    apply D. intros i I. rewrite H by (rewrite app_length; lia). rewrite nth_error_app1 by lia. auto.
  - unfold getMapKeyType. rewrite (nth_get T'' _ (MkT k (Some u) [])); [cbn; destruct K as [->|[->|[->| ->]]]; auto|].
    rewrite (H (List.length T1)), nth_new; auto. rewrite app_length. cbn. lia.
  - unfold getMapItemType. rewrite (nth_get T'' _ (MkT k (Some u) [])); [cbn; destruct K as [->|[->|[->| ->]]]; auto|].
    rewrite (H (List.length T1)), nth_new; auto. rewrite app_length. cbn. lia.
  - intros n. unfold getFieldType. rewrite (nth_get T'' _ (MkT k (Some u) [])); [cbn; destruct K as [->|[->|[->| ->]]]; auto|].
    rewrite (H (List.length T1)), nth_new; auto. rewrite app_length. cbn. lia.
Qed.

Lemma good_map k v : good k -> good v -> good (XMap k v).
Proof.
  intros GK GV T u T' H. cbn [build typeAdd] in H. set (m := List.length T) in *. set (T0 := T ++ _) in *.
  destruct (build_ k T0) as [[key T1]| |] eqn:BK; cbn [bind] in H; try discriminate.
  destruct (negb (comparable T1 key)); try discriminate. set (T2 := T1 ++ _) in *.
  destruct (build_ v T2) as [[item T3]| |] eqn:BV; cbn [bind] in H; try discriminate.
  destruct (notVoid T3 item); cbn [bind] in H; try discriminate.
  set (pk := List.length T1) in *. set (pi := List.length T3) in *. set (T4 := T3 ++ _) in *. set (nd := List.length T4) in *.
  set (T5 := T4 ++ _) in *. set (pn := List.length T5) in *. set (T6 := T5 ++ _) in *.
  destruct (addFields T6 nd _) as [T7| |] eqn:AF; cbn [bind] in H; try discriminate.
  destruct (GK _ _ _ BK) as (L1 & P1 & D1). destruct (GV _ _ _ BV) as (L2 & P2 & D2).
  assert (E0 : List.length T0 = m + 1) by (unfold T0; rewrite app_length; auto).
  assert (E2 : List.length T2 = pk + 1) by (unfold T2; rewrite app_length; auto).
  assert (E4 : nd = pi + 1) by (unfold nd, T4; rewrite app_length; auto).
  assert (E5 : pn = nd + 1) by (unfold pn, T5; rewrite app_length; auto).
  assert (E6 : List.length T6 = pn + 1) by (unfold T6; rewrite app_length; auto).
  fold pk in L1. fold pi in L2.
  assert (Q6 : forall i, i < pi -> nth_error T6 i = nth_error T3 i).
  { intros i I. unfold T6, T5, T4. rewrite !nth_error_app1; auto; fold T4; fold T5; unfold pi, nd, pn in *; lia. }
  assert (Nnd : nth_error T6 nd = Some (MkT KStruct None [])).
  { unfold T6. rewrite nth_error_app1 by (fold pn; lia). unfold T5, nd. apply nth_new. }
  assert (Npi : nth_error T6 pi = Some (MkT KPtr (Some item) [])).
  { unfold T6. rewrite nth_error_app1 by (fold pn; lia). unfold T5. rewrite nth_error_app1 by (fold nd; lia). unfold T4, pi. apply nth_new. }
  assert (Npk : nth_error T6 pk = Some (MkT KPtr (Some key) [])).
  { rewrite Q6 by lia. rewrite P2 by lia. unfold T2, pk. apply nth_new. }
  assert (Nm : nth_error T6 m = Some (MkT KMap None [])).
  { rewrite Q6 by lia. rewrite P2 by lia. unfold T2. rewrite nth_error_app1 by (fold pk; lia). rewrite P1 by lia. unfold T0, m. apply nth_new. }
  destruct (addFields_inv _ _ _ _ _ _ _ Nnd AF) as (A & AL & AO).
  unfold setBase in H. rewrite (nth_get T7 m (MkT KMap None [])) in H by (rewrite AO; auto; lia). cbn [bind t_kind t_fields] in H.
  injection H as <- <-. rewrite upd_len, AL, E6.
  assert (O : forall i, i <> m -> i <> nd -> nth_error (upd T7 m (MkT KMap (Some nd) [])) i = nth_error T6 i).
  { intros i I J. rewrite upd_nth_other, AO; auto. }
  split; [lia|]. split.
  { intros i I. rewrite O by lia. rewrite Q6 by lia. rewrite P2 by lia. unfold T2. rewrite nth_error_app1 by (fold pk; lia). rewrite P1 by lia.
    unfold T0. rewrite nth_error_app1 by auto. auto. }
  intros T'' S. unfold same in S. rewrite upd_len, AL, E6 in S. fold m in S.
  assert (Xm : nth_error T'' m = Some (MkT KMap (Some nd) [])).
  { rewrite S by lia. apply upd_nth_same. lia. }
  assert (Xnd := S nd ltac:(lia)). rewrite upd_nth_other, A in Xnd by lia. cbn [app] in Xnd.
  assert (Xpk := S pk ltac:(lia)). rewrite O, Npk in Xpk by lia.
  assert (Xpi := S pi ltac:(lia)). rewrite O, Npi in Xpi by lia.
  cbn [describes]. split; [|split; [|split]].
  - exists key. split.
    + unfold getMapKeyType, nodeField. rewrite (nth_get _ _ _ Xm). cbn [bind t_kind t_base]. rewrite (nth_get _ _ _ Xnd).
      cbn [bind t_fields nth_error snd]. rewrite (nth_get _ _ _ Xpk). auto.
    + apply D1. intros i I. fold pk in I. rewrite S by lia. rewrite O by lia. rewrite Q6 by lia. rewrite P2 by lia.
      unfold T2. rewrite nth_error_app1 by (fold pk; lia). auto.
  - exists item. split.
    + unfold getMapItemType, nodeField. rewrite (nth_get _ _ _ Xm). cbn [bind t_kind t_base]. rewrite (nth_get _ _ _ Xnd).
      cbn [bind t_fields nth_error snd]. rewrite (nth_get _ _ _ Xpi). auto.
    + apply D2. intros i I. fold pi in I. rewrite S by lia. rewrite O by lia. apply Q6. lia.
  - unfold getBaseType. rewrite (nth_get _ _ _ Xm). auto.
  - intros n. unfold getFieldType. rewrite (nth_get _ _ _ Xm). auto.
Qed.

Lemma good_struct fs : goodF fs -> good (XStruct fs).
Proof.
  intros G T u T' H. rewrite build_struct in H. destruct (buildFields_ _ fs _) as [T1| |] eqn:B; cbn [bind] in H; try discriminate.
  injection H as <- <-. destruct (G _ _ _ [] (nth_new _ _) (NoDup_nil _) B) as (L & P & new & N & D & W).
  rewrite app_length in L. cbn [List.length] in L. cbn [app] in N, D. split; [lia|]. split.
  { intros i I. rewrite P by (rewrite ?app_length; lia). apply nth_error_app1. auto. }
  intros T'' S. assert (X : nth_error T'' (List.length T) = Some (MkT KStruct None new)) by (rewrite S by lia; auto).
  assert (W' : list_desc T'' new fs) by (apply W; eapply same_le; [|exact S]; rewrite app_length; lia).
  pose proof (list_desc_names _ _ _ W') as NM. cbn [describes]. repeat split.
  - rewrite <- NM. auto.
  - eapply list_desc_has; [exact X|reflexivity|exact D|apply incl_refl|exact W'].
  - intros n I. unfold getFieldType, findField. rewrite (nth_get _ _ _ X). cbn [bind t_kind t_fields]. f_equal. apply find_none. rewrite NM. auto.
  - unfold getBaseType. rewrite (nth_get _ _ _ X). auto.
  - unfold getMapKeyType. rewrite (nth_get _ _ _ X). auto.
  - unfold getMapItemType. rewrite (nth_get _ _ _ X). auto.
Qed.

Lemma good_cons n e r : good e -> goodF r -> goodF (FCons n e r).
Proof.
  intros GE GR s T T' acc N D H. rewrite build_cons in H. destruct (build_ e T) as [[t T1]| |] eqn:B; cbn [bind] in H; try discriminate.
  destruct (addField T1 s t n) as [T2| |] eqn:E; cbn [bind] in H; try discriminate. apply addField_inv in E. destruct E as (x & X & NI & ->).
  destruct (GE _ _ _ B) as (L & P & W). pose proof (nth_len _ _ _ N) as SL. rewrite P, N in X by auto. injection X as <-.
  cbn [t_kind t_base t_fields] in H, NI.
  eapply GR in H; [|apply upd_nth_same; lia|].
  2:{ rewrite map_app. cbn [map fst]. apply NoDup_Add with (a := n) (l := map fst acc); [|auto].
      replace (map fst acc) with (map fst acc ++ []) at 1 by apply app_nil_r. apply Add_app. }
  destruct H as (L' & P' & new & N' & D' & W'). rewrite upd_len in *.
  split; [lia|]. split.
  { intros i I J. rewrite P', upd_nth_other, P by (auto; lia). auto. }
  exists ((n, t) :: new). rewrite <- app_assoc in N', D'. split; [exact N'|]. split; [exact D'|].
  intros T'' S. cbn [list_desc]. split; auto. split.
  - apply W. intros i I. rewrite S by lia. rewrite P', upd_nth_other by lia. auto.
  - apply W'. intros i I. apply S. lia.
Qed.

Lemma build_good : forall e, good e.
Proof.
  apply (texpr_mut good goodF).
  - intros t T u T' H. cbn [build] in H. destruct (t <? List.length T); try discriminate. injection H as <- <-. repeat split; auto.
  - intros e G T u T' H. cbn [build] in H. destruct (build_ e T) as [[v T1]| |] eqn:B; cbn [bind typeAdd] in H; try discriminate.
    injection H as <- <-. apply simple; auto.
  - intros e G T u T' H. cbn [build] in H. destruct (build_ e T) as [[v T1]| |] eqn:B; cbn [bind typeAdd] in H; try discriminate.
    injection H as <- <-. apply simple; auto.
  - intros e G T u T' H. cbn [build] in H. destruct (build_ e T) as [[v T1]| |] eqn:B; cbn [bind typeAdd] in H; try discriminate.
    destruct (notVoid T1 v); cbn [bind] in H; try discriminate. injection H as <- <-. apply simple; auto.
  - intros e G T u T' H. cbn [build] in H. destruct (build_ e T) as [[v T1]| |] eqn:B; cbn [bind typeAdd] in H; try discriminate.
    destruct (notVoid T1 v); cbn [bind] in H; try discriminate. injection H as <- <-. apply simple; auto.
  - intros k G1 v G2. apply good_map; auto.
  - intros fs G. apply good_struct; auto.
  - intros s T T' acc N D H. cbn [buildFields] in H. injection H as <-. repeat split; auto. exists []. rewrite app_nil_r. repeat split; auto.
  - intros n e G r GR. apply good_cons; auto.
Qed.

Lemma plain_upd T s x y t : nth_error T s = Some x -> t_kind y = t_kind x -> plain T t -> plain (upd T s y) t.
Proof.
  intros N K (z & Z & P). destruct (Nat.eq_dec t s) as [->|D].
  - rewrite N in Z. injection Z as <-. exists y. rewrite upd_nth_same by (eapply nth_len; eauto). rewrite K. auto.
  - exists z. rewrite upd_nth_other; auto.
Qed.
Lemma plain_app T t l : plain T t -> plain (T ++ l) t.
Proof. intros (z & Z & P). exists z. rewrite nth_error_app1 by (eapply nth_len; eauto). auto. Qed.
Lemma addFields_runs l : forall T s k b fs, nth_error T s = Some (MkT k b fs) -> NoDup (map fst (fs ++ l)) ->
  Forall (fun f => plain T (snd f)) l -> exists T', addFields T s l = Ok T'.
Proof.
  induction l as [|[n t] l IH]; intros T s k b fs N D F; cbn [addFields]; eauto. inversion_clear F as [|? ? P F']. cbn [snd] in P.
  destruct P as (z & Z & P1 & P2). unfold addField. rewrite (nth_get _ _ _ N), (nth_get _ _ _ Z). cbn [bind t_fields t_kind t_base].
  assert (NI : find fs n = None).
  { apply find_none. rewrite map_app in D. cbn [map fst] in D. apply NoDup_remove_2 in D. intros I. apply D. apply in_or_app. auto. }
  rewrite NI. set (T1 := upd T s _).
  assert (G : exists T', addFields T1 s l = Ok T').
  { eapply IH; [apply upd_nth_same; eapply nth_len; eauto| |].
    - rewrite <- app_assoc. exact D.
    - eapply Forall_impl; [|exact F']. intros f Q. eapply plain_upd; [exact N|reflexivity|exact Q]. }
  destruct (t_kind z); try congruence; exact G.
Qed.
Lemma map_runs k v T key T1 item T3 x : plain T intType ->
  build_ k (T ++ [MkT KMap None []]) = Ok (key, T1) -> comparable T1 key = true ->
  build_ v (T1 ++ [MkT KPtr (Some key) []]) = Ok (item, T3) -> nth_error T3 item = Some x -> t_kind x <> KVoid ->
  exists T', build_ (XMap k v) T = Ok (List.length T, T').
Proof.
  intros PI BK C BV NX KX. cbn [build typeAdd]. rewrite BK. cbn [bind]. rewrite C. cbn [negb]. rewrite BV. cbn [bind].
  unfold notVoid. rewrite (nth_get _ _ _ NX). cbn [bind].
  destruct (build_good _ _ _ _ BK) as (L1 & P1 & _). destruct (build_good _ _ _ _ BV) as (L2 & P2 & _).
  rewrite app_length in L1, P1, L2, P2. cbn [List.length] in L1, P1, L2, P2.
  set (T4 := T3 ++ _). set (T5 := T4 ++ _). set (T6 := T5 ++ _).
  assert (E4 : List.length T4 = List.length T3 + 1) by (unfold T4; rewrite app_length; auto).
  assert (E5 : List.length T5 = List.length T4 + 1) by (unfold T5; rewrite app_length; auto).
  assert (Q3 : forall t, plain T3 t -> plain T6 t) by (intros; unfold T6, T5, T4; do 3 apply plain_app; auto).
  assert (PI3 : plain T3 intType).
  { destruct PI as (z & Z & P). exists z. pose proof (nth_len _ _ _ Z). rewrite P2, nth_error_app1, P1, nth_error_app1 by lia. auto. }
  assert (PK : plain T3 (List.length T1)).
  { eexists. rewrite P2, nth_new by lia. split; [reflexivity|]. split; discriminate. }
  assert (PV : plain T6 (List.length T3)).
  { unfold T6, T5. do 2 apply plain_app. eexists. unfold T4. rewrite nth_new. split; [reflexivity|]. split; discriminate. }
  assert (PN : plain T6 (List.length T5)).
  { eexists. unfold T6. rewrite nth_new. split; [reflexivity|]. split; discriminate. }
  assert (NN : nth_error T6 (List.length T4) = Some (MkT KStruct None [])).
  { unfold T6. rewrite nth_error_app1 by lia. unfold T5. apply nth_new. }
  assert (G : exists T7, addFields T6 (List.length T4) [("#len"%string, intType); ("#priority"%string, intType); ("#key"%string, List.length T1);
    ("#data"%string, List.length T3); ("#left"%string, List.length T5); ("#right"%string, List.length T5)] = Ok T7).
  { eapply addFields_runs; [exact NN| |].
    - cbn. repeat constructor; cbn; intuition discriminate.
    - repeat constructor; cbn [snd]; auto. }
  destruct G as (T7 & G).
  assert (M : exists y, nth_error T7 (List.length T) = Some y).
  { destruct (addFields_inv _ _ _ _ _ _ _ NN G) as (_ & AL & _).
    destruct (nth_error T7 (List.length T)) eqn:E; eauto. apply nth_error_None in E. rewrite AL in E. unfold T6 in E. rewrite app_length in E. lia. }
  destruct M as (y & M).
  destruct (t_kind x); try congruence; cbn [bind]; rewrite G; cbn [bind]; unfold setBase; rewrite (nth_get _ _ _ M); cbn [bind]; eauto.
Qed.
End B.
