(** Proofs about the layout of parameters with their types. *)
From Coq Require Import ZArith Lia Bool List String.
From Verif Require Import Base ReflModel ReflSpec.
Import ListNotations.
Local Open Scope Z_scope.
Local Open Scope list_scope.

Lemma upd_app {A} (a : list A) x c w : upd (a ++ x :: c) (List.length a) w = a ++ w :: c.
Proof. induction a as [|y a IH]; cbn; congruence. Qed.
Lemma inside_app (a : buf) x c : inside (a ++ x :: c) (Z.of_nat (List.length a)) = true.
Proof. unfold inside. rewrite app_length. cbn [List.length]. apply andb_true_iff. split; [apply Z.leb_le|apply Z.ltb_lt]; lia. Qed.
Lemma write_at (a : buf) x c w i : i = Z.of_nat (List.length a) -> write (a ++ x :: c) i w = Ok (a ++ w :: c).
Proof. intros ->. unfold write. rewrite inside_app, Nat2Z.id, upd_app. auto. Qed.
Lemma writeAll_at ws : forall (a xs c : buf) i, i = Z.of_nat (List.length a) -> List.length xs = List.length ws ->
  writeAll (a ++ xs ++ c) i ws = Ok (a ++ ws ++ c).
Proof.
  induction ws as [|w ws IH]; intros a [|x xs] c i Hi L; try discriminate; cbn [writeAll]; auto.
  cbn [app]. rewrite write_at by auto. cbn [bind]. injection L as L.
  specialize (IH (a ++ [w]) xs c (i + 1)). rewrite <- !app_assoc in IH. cbn [app] in IH. apply IH; auto.
  rewrite app_length. cbn. lia.
Qed.
Lemma write1 a x c w : write (a :: x :: c) 1 w = Ok (a :: w :: c).
Proof. exact (write_at [a] x c w 1 eq_refl). Qed.
Lemma write2 a b x c w : write (a :: b :: x :: c) 2 w = Ok (a :: b :: w :: c).
Proof. exact (write_at [a; b] x c w 2 eq_refl). Qed.
Lemma writeAll3 a b d ws xs c : List.length xs = List.length ws -> writeAll (a :: b :: d :: xs ++ c) 3 ws = Ok (a :: b :: d :: ws ++ c).
Proof. exact (writeAll_at ws [a; b; d] xs c 3 eq_refl). Qed.
Lemma readInt_at (a c : buf) z i : i = Z.of_nat (List.length a) -> readInt (a ++ WInt z :: c) i = Ok z.
Proof. intros ->. unfold readInt. rewrite inside_app, Nat2Z.id, nth_middle. auto. Qed.
Lemma readType_at (a c : buf) t i : i = Z.of_nat (List.length a) -> readType (a ++ WType t :: c) i = Ok t.
Proof. intros ->. unfold readType. rewrite inside_app, Nat2Z.id, nth_middle. auto. Qed.

Lemma readInt0 z c : readInt (WInt z :: c) 0 = Ok z.
Proof. exact (readInt_at [] c z 0 eq_refl). Qed.

Definition ints (l : list Z) : buf := map WInt l.
Definition tys (l : list (option nat)) : buf := map WType l.
(** The whole block. *)
Definition block (n r s : Z) (first : list Z) (res : option nat) (ts : list (option nat)) (v : Z) : buf :=
  ints [n; r; s] ++ ints first ++ WType res :: tys ts ++ [WInt v].
Section Block.
Variables (n r s : Z) (first : list Z) (res : option nat) (ts : list (option nat)) (v : Z).
Hypothesis (L1 : Z.of_nat (List.length first) = n) (L2 : Z.of_nat (List.length ts) = n).
Notation b := (block n r s first res ts v).
Lemma b_n : readInt b 0 = Ok n.
Proof. exact (readInt_at [] _ n 0 eq_refl). Qed.
Lemma b_r : readInt b 1 = Ok r.
Proof. exact (readInt_at [WInt n] _ r 1 eq_refl). Qed.
Lemma b_s : readInt b 2 = Ok s.
Proof. exact (readInt_at [WInt n; WInt r] _ s 2 eq_refl). Qed.
Lemma b_first i f : nth_error first i = Some f -> readInt b (3 + Z.of_nat i) = Ok f.
Proof.
  intros H. apply nth_error_split in H. destruct H as (a & c & -> & <-). unfold block, ints. rewrite map_app. cbn [map app].
  rewrite <- !app_assoc. cbn [app]. change (WInt n :: WInt r :: WInt s :: map WInt a ++ ?x) with ((WInt n :: WInt r :: WInt s :: map WInt a) ++ x).
  apply readInt_at. cbn [List.length]. rewrite map_length. lia.
Qed.
Lemma b_types : getParamTypes b = Ok (3 + n).
Proof. unfold getParamTypes. rewrite b_n. reflexivity. Qed.
Lemma b_res : readType b (3 + n) = Ok res.
Proof.
  unfold block. rewrite app_assoc. apply readType_at. rewrite app_length. unfold ints. rewrite !map_length. cbn [List.length]. lia.
Qed.
Lemma b_type i t : nth_error ts i = Some t -> readType b (3 + n + 1 + Z.of_nat i) = Ok t.
Proof.
  intros H. apply nth_error_split in H. destruct H as (a & c & E & <-). unfold block, tys. rewrite E, map_app. cbn [map].
  rewrite <- !app_assoc. cbn [app]. 
  replace (ints [n; r; s] ++ ints first ++ WType res :: map WType a ++ WType t :: map WType c ++ [WInt v])
    with ((ints [n; r; s] ++ ints first ++ WType res :: map WType a) ++ WType t :: map WType c ++ [WInt v])
    by (rewrite <- !app_assoc; reflexivity).
  apply readType_at. unfold ints. rewrite !app_length. cbn [List.length map]. rewrite !map_length. lia.
Qed.
Lemma b_local : getLocalSlots b = Ok v.
Proof.
  unfold getLocalSlots, getLocalVarLayout. rewrite b_n, b_types. cbn [bind]. unfold block.
  replace (ints [n; r; s] ++ ints first ++ WType res :: tys ts ++ [WInt v])
    with ((ints [n; r; s] ++ ints first ++ WType res :: tys ts) ++ [WInt v]) by (rewrite <- !app_assoc; reflexivity).
  apply readInt_at. unfold ints, tys. rewrite !app_length. cbn [List.length map]. rewrite !map_length. lia.
Qed.
End Block.

Definition firsts (l : list (nat * Z)) : list Z := map (firstSlot l) (seq 0 (List.length l)).
Lemma make_block g loc : makeLayout g loc = Ok (block (Z.of_nat (List.length (g_params g))) (if g_structured g then 1 else 0)
  (slotsTotal (g_params g)) (firsts (g_params g)) (Some (g_result g)) (map (fun p => Some (fst p)) (g_params g)) loc).
Proof.
  unfold makeLayout. set (n := List.length (g_params g)). set (r := if g_structured g then 1 else 0). set (s := slotsTotal _).
  replace (repeat WRaw (layoutSize n)) with ([] ++ WRaw :: WRaw :: WRaw :: repeat WRaw n ++ WRaw :: repeat WRaw n ++ [WRaw]).
  2:{ unfold layoutSize. replace (3 + n + (1 + n) + 1)%nat with (3 + (n + (1 + (n + 1))))%nat by lia. rewrite !repeat_app. reflexivity. }
  rewrite write_at by reflexivity. cbn [bind app].
  rewrite write1. cbn [bind app].
  rewrite write2. cbn [bind app].
  rewrite writeAll3 by (rewrite ?repeat_length, ?map_length, ?seq_length; reflexivity). cbn [bind app].
  set (fi := map _ (seq 0 n)). unfold getParamTypes.
  rewrite readInt0. cbn [bind].
  assert (LF : List.length fi = n) by (unfold fi; rewrite map_length, seq_length; auto).
  change (WInt (Z.of_nat n) :: WInt r :: WInt s :: fi ++ ?x) with ((WInt (Z.of_nat n) :: WInt r :: WInt s :: fi) ++ x).
  rewrite write_at by (cbn [List.length]; lia). cbn [bind].
  replace ((WInt (Z.of_nat n) :: WInt r :: WInt s :: fi) ++ WType (Some (g_result g)) :: repeat WRaw n ++ [WRaw])
    with ((WInt (Z.of_nat n) :: WInt r :: WInt s :: fi ++ [WType (Some (g_result g))]) ++ repeat WRaw n ++ [WRaw])
    by (cbn [app]; rewrite <- !app_assoc; reflexivity).
  rewrite writeAll_at by (rewrite ?repeat_length, ?map_length; cbn [List.length]; rewrite ?app_length; cbn [List.length]; lia). cbn [bind].
  unfold getLocalVarLayout, getParamTypes.
  cbn [app]. rewrite !readInt0. cbn [bind].
  set (tl := map _ (g_params g)). assert (LT : List.length tl = n) by (unfold tl; rewrite map_length; auto).
  replace (WInt (Z.of_nat n) :: WInt r :: WInt s :: (fi ++ [WType (Some (g_result g))]) ++ tl ++ [WRaw])
    with ((WInt (Z.of_nat n) :: WInt r :: WInt s :: fi ++ WType (Some (g_result g)) :: tl) ++ [WRaw])
    by (cbn [app]; rewrite <- !app_assoc; reflexivity).
  rewrite write_at by (cbn [List.length]; rewrite app_length; cbn [List.length]; lia).
  f_equal. unfold block, ints, tys, firsts. cbn [map app]. rewrite !map_map. fold n. fold fi. fold tl. rewrite <- !app_assoc. reflexivity.
Qed.

Lemma slots_cons p l : slots (p :: l) = snd p + slots l.
Proof. reflexivity. Qed.
Lemma slots_app a c : slots (a ++ c) = slots a + slots c.
Proof. induction a as [|x a IH]; [reflexivity|]. cbn [app]. rewrite !slots_cons. lia. Qed.
Lemma upTo_slots l n : slotsUpTo l n = slots (firstn n l).
Proof. unfold slotsUpTo, slots. induction (firstn n l) as [|x a IH]; cbn; auto. rewrite IH. auto. Qed.
Lemma firstSlot_skipn l i : firstSlot l i = slots (skipn (S i) l).
Proof.
  unfold firstSlot, slotsTotal. rewrite !upTo_slots, firstn_all.
  rewrite <- (firstn_skipn (S i) l) at 1. rewrite slots_app. lia.
Qed.
Lemma firsts_nth l i : (i < List.length l)%nat -> nth_error (firsts l) i = Some (slots (skipn (S i) l)).
Proof.
  intros H. unfold firsts. rewrite nth_error_map, (nth_error_nth' _ O) by (rewrite seq_length; auto).
  rewrite seq_nth by auto. cbn [option_map]. rewrite firstSlot_skipn. auto.
Qed.

Lemma addParams_app ps : forall l l', addParams l ps = Ok l' -> l' = l ++ ps.
Proof.
  induction ps as [|p ps IH]; intros l l' H; cbn in H; [injection H as <-; rewrite app_nil_r; auto|].
  unfold addParam in H. destruct (_ <=? _); cbn [bind] in H; try discriminate. apply IH in H. rewrite H, <- app_assoc. auto.
Qed.
Definition resParam (structured : bool) (p : nat) : list (nat * Z) := if structured then [(p, 1)] else [].
Lemma parse_sig h ps r st pr g : parseSignature h ps r st pr = Ok g -> g = MkSig (h :: ps ++ resParam st pr) r st.
Proof.
  unfold parseSignature. cbn [addParam List.length Z.of_nat Z.leb Z.compare bind app]. intros H.
  destruct (addParams [h] ps) as [l1| |] eqn:E; try discriminate. apply addParams_app in E. subst l1. cbn [bind app] in H.
  destruct st; cbn [resParam].
  - unfold addParam in H. destruct (_ <=? _); cbn [bind] in H; try discriminate. injection H as <-. auto.
  - cbn [bind] in H. injection H as <-. rewrite app_nil_r. auto.
Qed.
(** All signatures with few enough parameters are accepted. *)
Lemma addParams_runs ps : forall l, (List.length l + List.length ps <= 16)%nat -> addParams l ps = Ok (l ++ ps).
Proof.
  induction ps as [|p ps IH]; intros l H; cbn; [rewrite app_nil_r; auto|]. cbn [List.length] in H.
  unfold addParam. destruct (Z.leb_spec 16 (Z.of_nat (List.length l))); [lia|]. cbn [bind]. rewrite IH by (rewrite app_length; cbn; lia).
  rewrite <- app_assoc. auto.
Qed.
Lemma parse_runs h ps r (st : bool) pr : (List.length ps + (if st then 2 else 1) <= 16)%nat -> exists g, parseSignature h ps r st pr = Ok g.
Proof.
  intros H. unfold parseSignature. cbn [addParam List.length Z.of_nat Z.leb Z.compare bind app].
  rewrite addParams_runs by (cbn [List.length]; destruct st; lia). cbn [bind app]. destruct st; cbn [bind]; eauto.
  unfold addParam. destruct (Z.leb_spec 16 (Z.of_nat (List.length (h :: ps)))) as [L|L]; [cbn [List.length] in L; lia|]. cbn [bind]. eauto.
Qed.

Lemma layout_tells h ps r st pr g loc : parseSignature h ps r st pr = Ok g -> exists b, makeLayout g loc = Ok b /\ tells h ps r st loc b.
Proof.
  intros H. apply parse_sig in H. subst g. rewrite make_block. cbn [g_params g_result g_structured].
  set (l := h :: ps ++ resParam st pr). eexists. split; [reflexivity|].
  assert (LF : Z.of_nat (List.length (firsts l)) = Z.of_nat (List.length l)) by (unfold firsts; rewrite map_length, seq_length; auto).
  assert (LT : Z.of_nat (List.length (map (fun p : nat * Z => Some (fst p)) l)) = Z.of_nat (List.length l)) by (rewrite map_length; auto).
  assert (LL : Z.of_nat (List.length l) = Z.of_nat (List.length ps) + 1 + if st then 1 else 0).
  { unfold l, resParam. cbn [List.length]. rewrite app_length. destruct st; cbn [List.length]; lia. }
  assert (SR : slots (resParam st pr) = if st then 1 else 0) by (destruct st; reflexivity).
  split.
  - intros i. unfold getParamType. rewrite b_n, b_r. cbn [bind]. destruct (Z.ltb_spec i 0) as [I|I]; cbn [orb]; auto.
    destruct (Z.leb_spec (Z.of_nat (List.length l) - (if st then 1 else 0) - 1) i) as [J|J].
    + replace (nth_error ps (Z.to_nat i)) with (@None (nat * Z)); auto. symmetry. apply nth_error_None. lia.
    + rewrite b_types by auto. cbn [bind]. assert (K : (Z.to_nat i < List.length ps)%nat) by lia.
      destruct (nth_error ps (Z.to_nat i)) as [p|] eqn:P; [|apply nth_error_None in P; lia]. cbn [option_map].
      replace (i + 1) with (Z.of_nat (S (Z.to_nat i))) by lia. apply b_type; auto.
      unfold l. cbn [map nth_error]. rewrite nth_error_map, nth_error_app1, P by auto. auto.
  - intros i. unfold getParam. rewrite b_n, b_r. cbn [bind]. destruct (Z.ltb_spec i 0) as [I|I]; cbn [orb].
    { destruct (Z.leb_spec 0 i); [lia|]. auto. }
    destruct (Z.leb_spec 0 i); [|lia]. cbn [andb].
    destruct (Z.leb_spec (Z.of_nat (List.length l) - (if st then 1 else 0) - 1) i) as [J|J]; destruct (Z.ltb_spec i (Z.of_nat (List.length ps))) as [K|K]; try lia; auto.
    replace (3 + (i + 1)) with (3 + Z.of_nat (S (Z.to_nat i))) by lia.
    erewrite b_first; [|exact LF|apply firsts_nth; destruct st; lia]. cbn [bind]. unfold l. change (skipn (S (S (Z.to_nat i))) (h :: ps ++ resParam st pr)) with (skipn (S (Z.to_nat i)) (ps ++ resParam st pr)).
    replace (Z.to_nat i + 1)%nat with (S (Z.to_nat i)) by lia. rewrite skipn_app, slots_app.
    replace (S (Z.to_nat i) - List.length ps)%nat with O by lia. cbn [skipn]. rewrite SR. auto.
  - unfold getUpvalue. change 3 with (3 + Z.of_nat 0). erewrite b_first; [|exact LF|apply firsts_nth; unfold l; cbn; lia].
    unfold l. cbn [skipn]. rewrite slots_app, SR. auto.
  - unfold getResult. rewrite b_n, b_r. cbn [bind]. destruct st; cbn [Z.eqb Pos.eqb]; auto.
    replace (Z.of_nat (List.length l) - 1) with (Z.of_nat (S (List.length ps))) by lia.
    erewrite b_first; [|exact LF|apply firsts_nth; lia]. cbn [bind]. unfold l. do 2 f_equal.
    rewrite skipn_all2; [reflexivity|]. cbn [List.length]. rewrite app_length. cbn [resParam List.length]. lia.
  - unfold getResultType. rewrite b_types. cbn [bind]. apply b_res. auto.
  - unfold getParamSlots. rewrite b_s. f_equal. unfold slotsTotal. rewrite upTo_slots, firstn_all. unfold l. rewrite slots_cons, slots_app, SR. lia.
  - apply b_local; auto.
Qed.
