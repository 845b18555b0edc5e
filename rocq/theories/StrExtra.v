From Coq Require Import ZArith Lia Bool List ZifyBool.
From Verif Require Import Base NumModel NumProofs MemModel MemProofs BlkModel BlkProofs CmpModel DynModel DynSpec DynProofs DynExtra StrModel StrSpec StrProofs.
Import ListNotations.
Local Open Scope Z_scope.
Ltac Zify.zify_post_hook ::= Z.div_mod_to_equations.

Section Str.
Variable emptyStr : Z.
Hypothesis Hempty : 0 < emptyStr.

Notation step := (StrModel.step emptyStr).
Notation run := (StrModel.run emptyStr).
Notation state := StrModel.state.
Notation st_mem := StrModel.st_mem.
Notation st_var := StrModel.st_var.
Notation setvar := StrModel.setvar.
Notation MkState := StrModel.MkState.

Definition inv (o : omem) (L : list (Z * sstr)) : Prop :=
  below o /\
  (forall r d A, nth_error L r = Some (d, A) -> holds o d A) /\
  (forall r1 r2 d1 d2 A1 A2, nth_error L r1 = Some (d1, A1) -> nth_error L r2 = Some (d2, A2) -> r1 <> r2 ->
     d1 + extent A1 <= d2 - 16 \/ d2 + extent A2 <= d1 - 16) /\
  nth_error L 0 = Some (emptyStr + 16, empty).
Definition vrel (ads : list Z) (vs : Z -> Z) (sv : Z -> option nat) : Prop :=
  forall v, match sv v with None => vs v = 0 | Some r => nth_error ads r = Some (vs v) end.
Definition rel (st : state) (sp : sstate) : Prop :=
  exists L, inv (st_mem st) L /\ map snd L = s_store sp /\ vrel (map fst L) (st_var st) (s_var sp).

Lemma vrel_set ads vs sv d a x : vrel ads vs sv -> match x with None => a = 0 | Some r => nth_error ads r = Some a end ->
  vrel ads (setvar vs d a) (refer sv d x).
Proof. intros V H v. unfold StrModel.setvar, refer. destruct (v =? d); [exact H|apply V]. Qed.
Lemma buf_get (L : list (Z * sstr)) sp r d A : map snd L = s_store sp -> nth_error L r = Some (d, A) -> buf_of sp r = A.
Proof. intros E H. unfold buf_of. rewrite <- E. apply nth_error_nth. rewrite nth_error_map, H. reflexivity. Qed.
Lemma ads_get (L : list (Z * sstr)) r d : nth_error (map fst L) r = Some d -> exists A, nth_error L r = Some (d, A).
Proof. rewrite nth_error_map. destruct (nth_error L r) as [[d' A]|]; cbn; intro H; [|discriminate]. injection H as ->. exists A. reflexivity. Qed.

Lemma inplace_inv o L r d A A' m' : inv o L -> nth_error L r = Some (d, A) ->
  (forall x, ~ (d - 16 <= x < d + extent A) -> m' x = om_mem o x) -> holds (set_mem o m') d A' -> extent A' = extent A ->
  (r = 0%nat -> A' = empty) -> inv (set_mem o m') (update r (d, A') L).
Proof.
  intros (B & I1 & I2 & I3) HA M H HE H0. split; [exact B|]. split; [|split].
  - intros r1 d1 A1 H1. rewrite nth_update in H1. destruct (r1 =? r)%nat eqn:Er.
    + rewrite (proj1 (Nat.eqb_eq _ _) Er), HA in H1. injection H1 as <- <-. exact H.
    + apply (holds_frame o); [|auto|apply (I1 _ _ _ H1)]. apply Nat.eqb_neq in Er.
      destruct (I2 _ _ _ _ _ _ HA H1 (fun e => Er (eq_sym e))) as [D|D]; intros x Hx; apply M; lia.
  - intros r1 r2 d1 d2 A1 A2 H1 H2 Hne. rewrite nth_update in H1, H2.
    destruct (r1 =? r)%nat eqn:E1, (r2 =? r)%nat eqn:E2.
    + apply Nat.eqb_eq in E1, E2. congruence.
    + rewrite (proj1 (Nat.eqb_eq _ _) E1), HA in H1. injection H1 as <- <-. rewrite HE.
      apply (I2 r r2); try assumption. apply Nat.eqb_eq in E1. congruence.
    + rewrite (proj1 (Nat.eqb_eq _ _) E2), HA in H2. injection H2 as <- <-. rewrite HE.
      apply (I2 r1 r); try assumption. apply Nat.eqb_eq in E2. congruence.
    + apply (I2 r1 r2); assumption.
  - rewrite nth_update. destruct (0 =? r)%nat eqn:E0; [|exact I3]. apply Nat.eqb_eq in E0. subst r. rewrite I3.
    rewrite I3 in HA. injection HA as <- <-. rewrite H0 by reflexivity. reflexivity.
Qed.

Lemma ext_inv o o' L : inv o L -> ext o o' -> below o' -> inv o' L.
Proof.
  intros (B & I1 & I2 & I3) E B'. split; [exact B'|]. split; [|split; [exact I2|exact I3]].
  intros r d A H. apply (holds_ext o); [exact B|exact E|apply (I1 _ _ _ H)].
Qed.
Lemma new_inv o o' L b c : inv o L -> news o o' b c -> inv o' (L ++ [(om_next o + 16, MkStr b c)]).
Proof.
  intros I (B' & E & H). pose proof (ext_inv _ _ _ I E B') as (_ & J1 & _). destruct I as (B & I1 & I2 & I3).
  assert (Old : forall r d A, nth_error L r = Some (d, A) -> d + extent A <= om_next o) by (intros r d A HA; apply (holds_below _ _ _ B), (I1 _ _ _ HA)).
  assert (Cases : forall r d A, nth_error (L ++ [(om_next o + 16, MkStr b c)]) r = Some (d, A) ->
    nth_error L r = Some (d, A) \/ (r = length L /\ d = om_next o + 16 /\ A = MkStr b c)).
  { intros r d A HA. destruct (Nat.lt_ge_cases r (length L)) as [Hr|Hr].
    - left. rewrite nth_error_app1 in HA by lia. exact HA.
    - right. rewrite nth_error_app2 in HA by lia. destruct (r - length L)%nat as [|k] eqn:Ek.
      + cbn in HA. injection HA as <- <-. split; [lia|]. split; reflexivity.
      + cbn in HA. destruct k; discriminate HA. }
  split; [exact B'|]. split; [|split].
  - intros r d A HA. destruct (Cases _ _ _ HA) as [H1|(-> & -> & ->)]; [apply (J1 _ _ _ H1)|exact H].
  - intros r1 r2 d1 d2 A1 A2 H1 H2 Hne. destruct (Cases _ _ _ H1) as [G1|(-> & -> & ->)], (Cases _ _ _ H2) as [G2|(-> & -> & ->)].
    + apply (I2 r1 r2); assumption.
    + left. pose proof (Old _ _ _ G1). lia.
    + right. pose proof (Old _ _ _ G2). lia.
    + congruence.
  - rewrite nth_error_app1; [exact I3|]. apply nth_error_Some. congruence.
Qed.

(** The static empty string. *)
Lemma getEmpty_ok o L : inv o L -> exists m', doGetEmptyStr emptyStr o = Ok (set_mem o m', emptyStr + 16) /\ inv (set_mem o m') L /\
  (forall x, ~ (emptyStr <= x < emptyStr + 17) -> m' x = om_mem o x).
Proof.
  intro I. pose proof I as (B & I1 & I2 & I3). pose proof (I1 _ _ _ I3) as H.
  assert (HV : forall a n, emptyStr <= a -> a + n <= emptyStr + 17 -> valid o a n = true).
  { intros a n H1 H2. eapply holds_valid; [exact H|lia|unfold extent, len, empty, zlen; cbn; lia]. }
  unfold doGetEmptyStr. rewrite store64_ok by (apply HV; lia). cbn [bind].
  rewrite store64_ok by (rewrite valid_set_mem; apply HV; lia). cbn [bind].
  rewrite store8_ok by (rewrite !valid_set_mem; apply HV; lia). cbn [bind].
  eexists. split; [cbn [set_mem om_mem om_blocks om_next]; reflexivity|].
  match goal with |- inv (set_mem o ?m) L /\ _ => set (m' := m) end.
  assert (M : forall x, ~ (emptyStr <= x < emptyStr + 17) -> m' x = om_mem o x).
  { intros x Hx. unfold m', upd. destruct (x =? emptyStr + 16) eqn:E; [lia|]. rewrite !store_other by lia. reflexivity. }
  split; [|exact M].
  rewrite <- (update_same L 0 (emptyStr + 16, empty) I3).
  apply (inplace_inv o L 0 (emptyStr + 16) empty empty m' I I3); [| |reflexivity|reflexivity].
  - intros x Hx. apply M. unfold extent, len, empty, zlen in Hx. cbn in Hx. lia.
  - destruct H as (H0 & H1 & H2 & H3 & H4 & H5 & H6 & H7 & H8). unfold holds. cbn [set_mem om_mem om_blocks].
    assert (U : forall x, x <> emptyStr + 16 -> m' x = store 8 (store 8 (om_mem o) emptyStr 0) (emptyStr + 8) 1 x).
    { intros x Hx. unfold m', upd. destruct (x =? emptyStr + 16) eqn:E; [lia|reflexivity]. }
    replace (emptyStr + 16 - 16) with emptyStr by lia. replace (emptyStr + 16 - 8) with (emptyStr + 8) by lia.
    split; [lia|]. change (len empty) with 0. change (s_cap empty) with 1. split; [|split; [|split; [reflexivity|split; [|split; [exact H5|split; [exact H6|split; [exact H7|]]]]]]].
    + rewrite (load_ext 8 m' (store 8 (store 8 (om_mem o) emptyStr 0) (emptyStr + 8) 1)) by (intros x Hx; apply U; change (Z.of_nat 8) with 8 in *; lia).
      rewrite load_store64_other by lia. apply load_store64. apply small_s64. unfold INT_MAX, two31. lia.
    + rewrite (load_ext 8 m' (store 8 (store 8 (om_mem o) emptyStr 0) (emptyStr + 8) 1)) by (intros x Hx; apply U; change (Z.of_nat 8) with 8 in *; lia).
      apply load_store64. apply small_s64. unfold INT_MAX, two31. lia.
    + unfold m', upd. rewrite Z.add_0_r, Z.eqb_refl. reflexivity.
    + destruct H8 as (bs & Hi & Hb). exists bs. split; [|exact Hb]. replace emptyStr with (emptyStr + 16 - 16) at 1 by lia. exact Hi.
Qed.

Definition ref (sp : sstate) (v : Z) : nat := match s_var sp v with Some r => r | None => 0%nat end.

(** if (!str) str = doGetEmptyStr(); *)
Lemma nonnull_ok o L vs sp v : inv o L -> map snd L = s_store sp -> vrel (map fst L) vs (s_var sp) ->
  exists m' d, nonnull emptyStr o (vs v) = Ok (set_mem o m', d) /\ inv (set_mem o m') L /\
    (forall x, ~ (emptyStr <= x < emptyStr + 17) -> m' x = om_mem o x) /\
    nth_error L (ref sp v) = Some (d, buf_of sp (ref sp v)) /\ s_bytes (buf_of sp (ref sp v)) = text sp v /\
    (vs v <> 0 -> d = vs v /\ s_var sp v = Some (ref sp v)).
Proof.
  intros I E V. unfold nonnull, ref, text. specialize (V v). destruct (s_var sp v) as [r|] eqn:Ev.
  - destruct (ads_get _ _ _ V) as (A & HA). rewrite (buf_get _ _ _ _ _ E HA). pose proof I as (_ & I1 & _). pose proof (I1 _ _ _ HA) as (H0 & _).
    assert (vs v =? 0 = false) as -> by lia. exists (om_mem o), (vs v). split; [destruct o; reflexivity|]. split; [destruct o; exact I|].
    auto 10.
  - rewrite V. cbn [Z.eqb]. destruct (getEmpty_ok o L I) as (m' & Hm & I' & M). exists m', (emptyStr + 16). split; [exact Hm|]. split; [exact I'|].
    split; [exact M|]. pose proof I as (_ & _ & _ & I3). rewrite (buf_get _ _ _ _ _ E I3). split; [exact I3|]. split; [reflexivity|]. intro. congruence.
Qed.

Lemma text_look o L vs sp v r : inv o L -> map snd L = s_store sp -> vrel (map fst L) vs (s_var sp) -> s_var sp v = Some r ->
  nth_error L r = Some (vs v, MkStr (text sp v) (capacity sp v)) /\ holds o (vs v) (MkStr (text sp v) (capacity sp v)).
Proof.
  intros I E V H. specialize (V v). rewrite H in V. destruct (ads_get _ _ _ V) as (A & HA).
  unfold text, capacity. rewrite H, (buf_get _ _ _ _ _ E HA). assert (MkStr (s_bytes A) (s_cap A) = A) as -> by (destruct A; reflexivity).
  split; [exact HA|]. apply I with (1 := HA).
Qed.

Lemma ads_len (L : list (Z * sstr)) sp : map snd L = s_store sp -> length (map fst L) = length (s_store sp).
Proof. intro E. rewrite <- E, !map_length. reflexivity. Qed.

(** Assigning a new string. *)
Lemma put_rel o L vs sp o' b c d : inv o L -> map snd L = s_store sp -> vrel (map fst L) vs (s_var sp) -> news o o' b c ->
  rel (MkState o' (setvar vs d (om_next o + 16))) (put sp d b c).
Proof.
  intros I E V N. exists (L ++ [(om_next o + 16, MkStr b c)]). cbn [StrModel.st_mem StrModel.st_var put s_store s_var].
  split; [apply new_inv; assumption|]. rewrite !map_app, E. cbn [map fst snd]. split; [reflexivity|].
  apply vrel_set.
  - intro v. specialize (V v). destruct (s_var sp v); [|exact V]. rewrite nth_error_app1; [exact V|]. apply nth_error_Some. congruence.
  - rewrite nth_error_app2; rewrite (ads_len _ _ E); [|lia]. rewrite Nat.sub_diag. reflexivity.
Qed.

Definition agrees (m : outcome (state * out)) (s : option (sstate * out)) : Prop :=
  match s with
  | Some (sp', x) => exists st', m = Ok (st', x) /\ rel st' sp'
  | None => exists e, m = Err e
  end.

Lemma assign_new o L vs sp d b (res : outcome (omem * Z)) (st : state) : st_var st = vs -> inv o L -> map snd L = s_store sp -> vrel (map fst L) vs (s_var sp) ->
  (zlen b <= MAXSTR -> exists o', res = Ok (o', om_next o + 16) /\ news o o' b (new_cap (zlen b))) ->
  (MAXSTR < zlen b -> exists e, res = Err e) -> agrees (assign st d res) (fresh sp d b).
Proof.
  intros Hst I E V H1 H2. unfold fresh, agrees. destruct (zlen b <=? MAXSTR) eqn:EL.
  - destruct H1 as (o' & -> & N); [lia|]. eexists. split; [unfold assign; cbn [bind]; reflexivity|]. rewrite Hst. eapply put_rel; eassumption.
  - destruct H2 as (e & ->); [lia|]. eexists. reflexivity.
Qed.
Lemma assign_point o L sp d x a (st : state) : inv o L -> map snd L = s_store sp -> vrel (map fst L) (st_var st) (s_var sp) ->
  match x with None => a = 0 | Some r => nth_error (map fst L) r = Some a end ->
  agrees (assign st d (Ok (o, a))) (point sp d x).
Proof.
  intros I E V H. unfold agrees, point, assign. cbn [bind]. eexists. split; [reflexivity|]. exists L. cbn [StrModel.st_mem StrModel.st_var s_store s_var].
  split; [exact I|]. split; [exact E|]. apply vrel_set; assumption.
Qed.

Lemma pos_of o L : inv o L -> 0 < om_next o.
Proof. intros (B & I1 & _ & I3). eapply pos_next; [exact B|apply (I1 _ _ _ I3)]. Qed.

Lemma out_rel o L vs sp (st : state) x : inv o L -> map snd L = s_store sp -> vrel (map fst L) vs (s_var sp) ->
  agrees (Ok (MkState o vs, x)) (Some (sp, x)).
Proof. intros I E V. eexists. split; [reflexivity|]. exists L. auto. Qed.

(** Both operands of a binary operator. *)
Lemma both_ok o L vs sp v w : inv o L -> map snd L = s_store sp -> vrel (map fst L) vs (s_var sp) ->
  exists m' d1 d2, (let* (o, a) := nonnull emptyStr o (vs v) in let* (o, b) := nonnull emptyStr o (vs w) in Ok (o, a, b)) = Ok (set_mem o m', d1, d2) /\
    inv (set_mem o m') L /\ (forall x, ~ (emptyStr <= x < emptyStr + 17) -> m' x = om_mem o x) /\
    nth_error L (ref sp v) = Some (d1, buf_of sp (ref sp v)) /\ s_bytes (buf_of sp (ref sp v)) = text sp v /\
    nth_error L (ref sp w) = Some (d2, buf_of sp (ref sp w)) /\ s_bytes (buf_of sp (ref sp w)) = text sp w /\
    (vs v <> 0 -> d1 = vs v /\ s_var sp v = Some (ref sp v)) /\
    (forall (B : Type) (f : omem -> Z -> Z -> outcome B), (let* (o, a) := nonnull emptyStr o (vs v) in let* (o, b) := nonnull emptyStr o (vs w) in f o a b) = f (set_mem o m') d1 d2).
Proof.
  intros I E V. destruct (nonnull_ok o L vs sp v I E V) as (m1 & d1 & H1 & I1 & M1 & P1 & P2 & P3).
  destruct (nonnull_ok _ L vs sp w I1 E V) as (m2 & d2 & H2 & I2 & M2 & Q1 & Q2 & Q3).
  exists m2, d1, d2. rewrite H1. cbn [bind]. rewrite H2. cbn [bind]. change (set_mem (set_mem o m1) m2) with (set_mem o m2).
  split; [reflexivity|]. split; [exact I2|]. split; [intros x Hx; rewrite M2 by exact Hx; apply M1, Hx|]. auto 10.
Qed.

Lemma concat_step st sp d v w : rel st sp -> zlen (text sp v) + zlen (text sp w) <= INT_MAX ->
  agrees (step st (OConcat d v w)) (s_step sp (OConcat d v w)).
Proof.
  intros (L & I & E & V) HL. cbn [StrModel.step s_step].
  destruct (both_ok _ L _ sp v w I E V) as (m' & d1 & d2 & _ & I' & _ & P1 & P2 & Q1 & Q2 & _ & K). unfold doStrCat. rewrite K.
  pose proof I' as (B & J1 & _). pose proof (J1 _ _ _ P1) as H1. pose proof (J1 _ _ _ Q1) as H2.
  rewrite (holds_len _ _ _ H1). cbn [bind]. rewrite (holds_len _ _ _ H2). cbn [bind]. set (A1 := buf_of sp (ref sp v)) in *. set (A2 := buf_of sp (ref sp w)) in *.
  assert (HA : len A1 = zlen (text sp v)) by (unfold len; rewrite P2; reflexivity). assert (HB : len A2 = zlen (text sp w)) by (unfold len; rewrite Q2; reflexivity).
  pose proof (len_nn A1). pose proof (len_nn A2). rewrite !s32_small by lia. eapply assign_new; [reflexivity|exact I'|exact E|exact V| |]; intro HM; rewrite zlen_app in HM.
  - destruct (cat_fresh _ d1 A1 d2 A2 B H1 H2 ltac:(lia)) as (o' & -> & N). exists o'. split; [reflexivity|]. rewrite P2, Q2 in N. rewrite zlen_app, <- HA, <- HB. exact N.
  - unfold catCore. rewrite chk32_small by lia. cbn [bind]. rewrite allocStr_err by lia. eexists. reflexivity.
Qed.
Lemma concat_ub st sp d v w : rel st sp -> INT_MAX < zlen (text sp v) + zlen (text sp w) -> step st (OConcat d v w) = UB.
Proof.
  intros (L & I & E & V) HL. cbn [StrModel.step].
  destruct (both_ok _ L _ sp v w I E V) as (m' & d1 & d2 & _ & I' & _ & P1 & P2 & Q1 & Q2 & _ & K). unfold doStrCat. rewrite K.
  pose proof I' as (B & J1 & _). pose proof (J1 _ _ _ P1) as H1. pose proof (J1 _ _ _ Q1) as H2.
  rewrite (holds_len _ _ _ H1). cbn [bind]. rewrite (holds_len _ _ _ H2). cbn [bind]. set (A1 := buf_of sp (ref sp v)) in *. set (A2 := buf_of sp (ref sp w)) in *.
  assert (HA : len A1 = zlen (text sp v)) by (unfold len; rewrite P2; reflexivity). assert (HB : len A2 = zlen (text sp w)) by (unfold len; rewrite Q2; reflexivity).
  pose proof (len_nn A1). pose proof (len_nn A2). destruct H1 as (_ & _ & _ & _ & _ & _ & H1 & _). destruct H2 as (_ & _ & _ & _ & _ & _ & H2 & _).
  rewrite !s32_small by lia. unfold catCore. rewrite chk32_big by lia. reflexivity.
Qed.

(** += : the three facts used for the refinement and for C16. *)
Lemma append_core st sp v w : rel st sp -> zlen (text sp v) + zlen (text sp w) < INT_MAX ->
  let b := text sp v ++ text sp w in
  let c := s_cap (buf_of sp (ref sp v)) in
  (zlen b < c -> exists m' d L, step st (OAppend v w) = Ok (MkState (set_mem (st_mem st) m') (setvar (st_var st) v d), RUnit) /\
     map snd L = s_store sp /\ vrel (map fst L) (st_var st) (s_var sp) /\
     nth_error L (ref sp v) = Some (d, buf_of sp (ref sp v)) /\
     inv (set_mem (st_mem st) m') (update (ref sp v) (d, MkStr b c) L) /\
     (st_var st v <> 0 -> d = st_var st v) /\
     (forall x, ~ (emptyStr <= x < emptyStr + 17) -> ~ (d - 16 <= x < d + c) -> m' x = om_mem (st_mem st) x)) /\
  (c <= zlen b -> agrees (step st (OAppend v w)) (fresh sp v b)).
Proof.
  intros (L & I & E & V) HL b c. cbn [StrModel.step].
  destruct (both_ok _ L _ sp v w I E V) as (m' & d1 & d2 & _ & I' & M' & P1 & P2 & Q1 & Q2 & P3 & K). unfold doStrCat. rewrite K.
  pose proof I' as (B & J1 & _ & J3). pose proof (J1 _ _ _ P1) as H1. pose proof (J1 _ _ _ Q1) as H2.
  rewrite (holds_len _ _ _ H1). cbn [bind]. rewrite (holds_len _ _ _ H2). cbn [bind]. rewrite (holds_cap _ _ _ H1). cbn [bind].
  set (A1 := buf_of sp (ref sp v)) in *. set (A2 := buf_of sp (ref sp w)) in *.
  assert (HA : len A1 = zlen (text sp v)) by (unfold len; rewrite P2; reflexivity). assert (HB : len A2 = zlen (text sp w)) by (unfold len; rewrite Q2; reflexivity).
  assert (Hb : zlen b = len A1 + len A2) by (unfold b; rewrite zlen_app; lia).
  pose proof (len_nn A1) as N1. pose proof (len_nn A2) as N2. rewrite !s32_small by lia. rewrite chk32_small by lia. cbn [bind]. rewrite chk32_small by lia. cbn [bind].
  split; intro HC.
  - assert (len A1 + len A2 + 1 <=? s_cap A1 = true) as -> by (unfold c in HC; lia).
    destruct (cat_inplace _ d1 A1 d2 A2 B H1 H2 ltac:(unfold c in HC; lia)) as (o' & m2 & -> & Ho & M2 & H3).
    exists m2, d1, L. unfold assign. cbn [bind]. rewrite Ho. change (set_mem (set_mem (st_mem st) m') m2) with (set_mem (st_mem st) m2). split; [reflexivity|].
    split; [exact E|]. split; [exact V|]. split; [exact P1|]. 
    assert (HX : extent A1 = c) by (unfold extent, c in *; lia).
    split; [|split].
    + change (set_mem (st_mem st) m2) with (set_mem (set_mem (st_mem st) m') m2). apply (inplace_inv _ L (ref sp v) d1 A1 (MkStr b c) m2 I' P1).
      * intros x Hx. apply M2. unfold c in HX. lia.
      * rewrite P2, Q2 in H3. rewrite Ho in H3. exact H3.
      * rewrite HX. unfold extent, len. cbn [s_bytes s_cap]. lia.
      * intro H0. rewrite H0 in P1. rewrite J3 in P1. injection P1 as _ HA1. assert (Hc : c = 1) by (unfold c; rewrite <- HA1; reflexivity). rewrite Hc in *.
        assert (zlen b = 0) by lia. unfold zlen in *. destruct b; [reflexivity|cbn [length] in *; lia].
    + intro Hv. apply P3, Hv.
    + intros x Hx1 Hx2. rewrite M2 by (unfold c in Hx2; lia). apply M', Hx1.
  - assert (len A1 + len A2 + 1 <=? s_cap A1 = false) as -> by (unfold c in HC; lia).
    eapply assign_new; [reflexivity|exact I'|exact E|exact V| |]; intro HM.
    + destruct (cat_fresh _ d1 A1 d2 A2 B H1 H2 ltac:(lia)) as (o' & -> & N). exists o'. split; [reflexivity|]. rewrite P2, Q2 in N. rewrite Hb. exact N.
    + unfold catCore. rewrite chk32_small by lia. cbn [bind]. rewrite allocStr_err by lia. eexists. reflexivity.
Qed.

Lemma append_step st sp v w : rel st sp -> zlen (text sp v) + zlen (text sp w) < INT_MAX ->
  agrees (step st (OAppend v w)) (s_step sp (OAppend v w)).
Proof.
  intros R HL. destruct (append_core st sp v w R HL) as [C1 C2]. cbn [s_step]. fold (ref sp v).
  destruct (zlen (text sp v ++ text sp w) <? s_cap (buf_of sp (ref sp v))) eqn:EC.
  - destruct C1 as (m' & d & L & -> & E & V & P & I' & _); [lia|]. unfold overwrite, agrees. eexists. split; [reflexivity|].
    eexists. cbn [StrModel.st_mem StrModel.st_var s_store s_var]. split; [exact I'|]. rewrite !map_update. cbn [fst snd]. split; [rewrite E; reflexivity|].
    rewrite update_same by (rewrite nth_error_map, P; reflexivity). apply vrel_set; [exact V|]. rewrite nth_error_map, P. reflexivity.
  - apply C2. lia.
Qed.

Lemma slice_range s e len : e <> Some INT_MIN -> 0 <= len ->
  sliceRange s (match e with Some e => e | None => INT_MIN end) len =
  let e := match e with None => len | Some e => if e <? 0 then e + len else e end in
  if (0 <=? s) && (s <=? e) && (e <=? len) then Ok (s, e) else Err EIndex.
Proof.
  intros He Hl. unfold sliceRange. destruct e as [e|].
  - assert (e =? INT_MIN = false) as -> by (destruct (e =? INT_MIN) eqn:X; [|reflexivity]; exfalso; apply He; f_equal; lia).
    cbv zeta. destruct (e <? 0); destruct (s <? 0) eqn:E1; match goal with |- (if ?b then _ else _) = (if ?c then _ else _) => destruct b eqn:E2, c eqn:E3; try reflexivity; lia | _ => idtac end;
    match goal with |- Err _ = (if ?c then _ else _) => destruct c eqn:E3; [lia|reflexivity] end.
  - rewrite Z.eqb_refl. cbv zeta. destruct (len <? 0) eqn:E0; [lia|]. destruct (s <? 0) eqn:E1.
    + destruct ((0 <=? s) && (s <=? len) && (len <=? len)) eqn:E3; [lia|reflexivity].
    + match goal with |- (if ?b then _ else _) = (if ?c then _ else _) => destruct b eqn:E2, c eqn:E3; try reflexivity; lia end.
Qed.

Lemma step_ok st sp p : rel st sp -> wf_op p -> plain_op sp p -> agrees (step st p) (s_step sp p).
Proof.
  intros R W P. pose proof R as (L & I & E & V). pose proof I as (B & I1 & _ & I3). pose proof (pos_of _ _ I) as HP.
  destruct p as [d b|d v|d v w|d v w|v w|d v i e|d v|d c|d [b|]|v|d [b|]|v|v|v i|v w|v]; cbn [wf_op plain_op] in *.
  - cbn [StrModel.step s_step]. destruct W as [W1 W2]. destruct (literal_ok _ b B HP W1 W2) as (o' & -> & N).
    unfold constant, agrees, assign. cbn [bind]. eexists. split; [reflexivity|]. eapply put_rel; eassumption.
  - cbn [StrModel.step s_step]. unfold point, agrees. eexists. split; [reflexivity|]. exists L. cbn [StrModel.st_mem StrModel.st_var s_store s_var].
    split; [exact I|]. split; [exact E|]. apply vrel_set; [exact V|apply V].
  - apply concat_step; assumption.
  - cbn [StrModel.step s_step]. destruct P as (P1 & P2 & P3).
    destruct (s_var sp v) as [r1|] eqn:E1; [|congruence]. destruct (s_var sp w) as [r2|] eqn:E2; [|congruence].
    destruct (text_look _ _ _ _ _ _ I E V E1) as [_ H1]. destruct (text_look _ _ _ _ _ _ I E V E2) as [_ H2].
    destruct (const_cat _ _ _ _ _ B H1 H2) as (o' & -> & N); [unfold len; cbn [s_bytes]; exact P3|]. unfold len in N. cbn [s_bytes] in N.
    unfold constant, agrees, assign. cbn [bind]. eexists. split; [reflexivity|]. rewrite zlen_app. eapply put_rel; eassumption.
  - apply append_step; assumption.
  - cbn [StrModel.step s_step]. unfold doSliceStr. destruct (nonnull_ok _ L _ sp v I E V) as (m' & a & -> & I' & _ & Q1 & Q2 & _). cbn [bind].
    pose proof I' as (B' & J1 & _). pose proof (J1 _ _ _ Q1) as H. rewrite (holds_len _ _ _ H). cbn [bind]. unfold len. rewrite Q2.
    rewrite slice_range by (first [destruct e; congruence|unfold zlen; lia]). cbv zeta.
    set (e' := match e with None => _ | Some e => _ end). destruct ((0 <=? i) && (i <=? e') && (e' <=? zlen (text sp v))) eqn:EC; [|eexists; reflexivity].
    cbn [bind]. destruct (slice_new _ _ _ i e' B' H) as [S1 S2]; [lia|unfold len; rewrite Q2; lia|].
    assert (HZ : zlen (sublist i e' (text sp v)) = e' - i) by (apply sublist_len; lia).
    eapply assign_new; [reflexivity|exact I'|exact E|exact V| |]; rewrite HZ; intro HM.
    + rewrite Q2 in S1. apply S1, HM.
    + eexists. apply S2, HM.
  - cbn [StrModel.step s_step]. destruct (s_var sp v) as [r|] eqn:Ev.
    + destruct (text_look _ _ _ _ _ _ I E V Ev) as [_ H]. destruct (copyStr_ok _ _ _ B H) as [S1 S2]. unfold len in *. cbn [s_bytes] in *.
      eapply assign_new; [reflexivity|exact I|exact E|exact V|exact S1|]. intro HM. eexists. apply S2, HM.
    + pose proof (V v) as V0. rewrite Ev in V0. rewrite V0. unfold doCopyStr. cbn [Z.eqb]. eapply assign_point; try eassumption. reflexivity.
  - cbn [StrModel.step s_step]. unfold doMakeStrFromChar. destruct (getEmpty_ok _ L I) as (m' & -> & I' & _). cbn [bind].
    destruct (c mod 256 =? 0) eqn:Ec.
    + eapply assign_point; try eassumption. rewrite nth_error_map, I3. reflexivity.
    + eapply assign_new; [reflexivity|exact I'|exact E|exact V| |].
      * intros _. apply char_ok; [apply I'|exact HP|lia].
      * unfold zlen, MAXSTR. cbn. lia.
  - cbn [StrModel.step s_step]. destruct (charArr_ok _ b B) as [C1 C2]. destruct (zlen b <=? MAXSTR) eqn:EL.
    + destruct C1 as (o1 & a & -> & X1 & X2 & X3 & X4 & X5 & X6); [lia|]. cbn [bind]. unfold doMakeStrFromArr.
      pose proof (ext_inv _ _ _ I X1 X2) as I1'. destruct (getEmpty_ok _ L I1') as (m' & -> & I' & M'). cbn [bind d_data].
      assert (a =? 0 = false) as -> by lia.
      assert (HA : emptyStr + 17 <= om_next (st_mem st)).
      { pose proof (holds_below _ _ _ B (I1 _ _ _ I3)) as HB. unfold extent, len, empty, zlen in HB. cbn in HB. lia. }
      destruct (fromArr_ok (set_mem o1 m') a b) as (o' & Hr & N); try assumption.
      * lia.
      * rewrite <- X4. unfold dimsLen, load64. rewrite valid_set_mem. destruct (valid o1 _ 8); [|reflexivity]. f_equal. f_equal. apply load_ext. cbn [d_data].
        intros x Hx. apply M'. lia.
      * etransitivity; [|exact X5]. apply read_ext. intros x Hx. cbn [set_mem om_mem]. apply M'. lia.
      * lia.
      * eapply assign_new; [reflexivity|exact I'|exact E|exact V| |].
        -- intros _. exists o'. split; [exact Hr|exact N].
        -- intro HM. exfalso. destruct (until_nul_prefix b) as (r & Hb). assert (zlen (until_nul b) <= zlen b) by (rewrite Hb at 2; rewrite zlen_app; unfold zlen; lia). lia.
    + destruct C2 as (e & ->); [lia|]. eexists. reflexivity.
  - cbn [StrModel.step s_step]. unfold doMakeStrFromArr. destruct (getEmpty_ok _ L I) as (m' & -> & I' & _). cbn [bind d_data dyn_null Z.eqb].
    eapply assign_point; try eassumption. rewrite nth_error_map, I3. reflexivity.
  - cbn [StrModel.step s_step]. unfold doMakeFromStr. destruct (nonnull_ok _ L _ sp v I E V) as (m' & a & -> & I' & _ & Q1 & Q2 & _). cbn [bind].
    pose proof I' as (B' & J1 & _). pose proof (J1 _ _ _ Q1) as H. destruct (toBytes_ok _ _ _ B' H) as [S1 S2].
    unfold len in S1, S2. rewrite Q2 in S1, S2. destruct (zlen (text sp v) <=? MAXSTR) eqn:EL.
    + destruct S1 as (o' & -> & X1 & X2 & X3 & X4 & X5); [lia|]. cbn [bind]. rewrite X3. cbn [bind d_data]. rewrite X5, orb_true_r. unfold zlen at 1. rewrite Nat2Z.id, X4.
      unfold agrees. eexists. split; [reflexivity|]. exists L. cbn [StrModel.st_mem StrModel.st_var]. split; [eapply ext_inv; eassumption|]. auto.
    + destruct S2 as (e & ->); [lia|]. eexists. reflexivity.
  - cbn [StrModel.step s_step]. destruct W as [W1 W2]. unfold hostStr. pose proof (tmp_block _ (b ++ [0]) B) as T. destruct (tmpBlock (st_mem st) (b ++ [0])) as [o1 a].
    destruct T as (T1 & T2 & T3 & T4 & T5 & T6). rewrite zlen_app in T5. change (zlen [0]) with 1 in T5.
    rewrite app_length in T4. cbn [length] in T4. rewrite read_app in T4. apply app_inj_tail_iff in T4 || idtac.
    assert (S : cstr o1 a b).
    { assert (T7 : read (length b) (om_mem o1) a = b /\ om_mem o1 (a + zlen b) = 0).
      { cbn [read] in T4. unfold zlen. destruct T4 as [T4 T4']. split; [exact T4|]. exact T4'. }
      destruct T7 as [T7 T8]. split; [lia|]. auto. }
    destruct (makeStr_ok _ _ _ T1 S) as [S1 S2]. eapply assign_new; [reflexivity|eapply ext_inv; eassumption|exact E|exact V|exact S1|].
    intro HM. eexists. apply S2, HM.
  - cbn [StrModel.step s_step]. unfold vmMakeStr. cbn [Z.eqb]. eapply assign_point; try eassumption. reflexivity.
  - cbn [StrModel.step s_step]. unfold agrees, doLenStr. destruct (s_var sp v) as [r|] eqn:Ev.
    + destruct (text_look _ _ _ _ _ _ I E V Ev) as [_ H]. assert (st_var st v =? 0 = false) as -> by (destruct H; lia). rewrite (holds_len _ _ _ H). cbn [bind].
      eexists. split; [reflexivity|exact R].
    + pose proof (V v) as V0. rewrite Ev in V0. rewrite V0. cbn [Z.eqb bind]. unfold text. rewrite Ev. eexists. split; [reflexivity|exact R].
  - cbn [StrModel.step s_step]. unfold agrees, doCapStr. destruct (s_var sp v) as [r|] eqn:Ev.
    + destruct (text_look _ _ _ _ _ _ I E V Ev) as [_ H]. assert (st_var st v =? 0 = false) as -> by (destruct H; lia). rewrite (holds_cap _ _ _ H). cbn [bind].
      eexists. split; [reflexivity|exact R].
    + pose proof (V v) as V0. rewrite Ev in V0. rewrite V0. cbn [Z.eqb bind]. unfold capacity. rewrite Ev. eexists. split; [reflexivity|exact R].
  - cbn [StrModel.step s_step]. unfold doGetArrayPtr. cbn [Z.leb Z.compare]. destruct (nonnull_ok _ L _ sp v I E V) as (m' & a & -> & I' & _ & Q1 & Q2 & _). cbn [bind].
    pose proof I' as (B' & J1 & _). pose proof (J1 _ _ _ Q1) as H. rewrite (holds_len _ _ _ H). cbn [bind]. unfold len. rewrite Q2.
    destruct ((i <? 0) || (zlen (text sp v) - 1 <? i)) eqn:EC.
    + assert ((0 <=? i) && (i <? zlen (text sp v)) = false) as -> by lia. eexists. reflexivity.
    + assert ((0 <=? i) && (i <? zlen (text sp v)) = true) as -> by lia. cbn [bind]. rewrite Z.mul_1_l. unfold load8.
      rewrite (holds_valid _ _ _ (a + i) 1 H); [|lia|unfold extent, len; rewrite Q2; lia]. cbn [bind].
      unfold agrees. eexists. split; [|exists L]. do 2 f_equal. f_equal.
      destruct H as (_ & _ & _ & H3 & _). rewrite Q2 in H3. apply read_nth; [exact H3|lia]. exact (conj I' (conj E V)).
  - cbn [StrModel.step s_step]. unfold doStrCompare. destruct (both_ok _ L _ sp v w I E V) as (m' & d1 & d2 & _ & I' & _ & P1 & P2 & Q1 & Q2 & _ & K). rewrite K.
    pose proof I' as (B' & J1 & _). pose proof (holds_cstr _ _ _ (J1 _ _ _ P1)) as S1. pose proof (holds_cstr _ _ _ (J1 _ _ _ Q1)) as S2.
    rewrite (strcmp_ok _ _ _ _ _ B' S1 S2). cbn [bind]. rewrite P2, Q2. eapply out_rel; eassumption.
  - cbn [StrModel.step s_step]. unfold agrees. destruct (s_var sp v) as [r|] eqn:Ev.
    + destruct (text_look _ _ _ _ _ _ I E V Ev) as [_ H]. assert (st_var st v =? 0 = false) as -> by (destruct H; lia). unfold hostRead.
      rewrite (strlen_ok _ _ _ B (holds_cstr _ _ _ H)). cbn [bind s_bytes]. unfold zlen. rewrite Nat2Z.id. destruct H as (_ & _ & _ & H3 & _). cbn [s_bytes] in H3. rewrite H3.
      eexists. split; [reflexivity|exact R].
    + pose proof (V v) as V0. rewrite Ev in V0. rewrite V0. cbn [Z.eqb]. eexists. split; [reflexivity|exact R].
Qed.

Lemma init_rel : rel (StrModel.init emptyStr) s_init.
Proof.
  exists [(emptyStr + 16, empty)]. cbn [StrModel.init StrModel.st_mem StrModel.st_var s_init s_store s_var map snd fst].
  split; [|split; [reflexivity|intro v; reflexivity]]. split; [|split; [|split; [|reflexivity]]].
  - split; cbn [om_next om_blocks]; [lia|]. intros b z [H|[]]. apply pair_inv in H. lia.
  - intros [|r] d A H; [|destruct r; discriminate H]. cbn [nth_error] in H. assert (d = emptyStr + 16 /\ A = empty) as [-> ->] by (injection H as <- <-; auto).
    unfold holds. cbn [om_mem om_blocks]. replace (emptyStr + 16 - 16) with emptyStr by lia. replace (emptyStr + 16 - 8) with (emptyStr + 8) by lia.
    change (len empty) with 0. change (s_cap empty) with 1.
    split; [lia|]. split; [|split; [|split; [reflexivity|split; [|split; [constructor|split; [unfold INT_MAX, two31; lia|split; [unfold INT_MAX, two31; lia|]]]]]]].
    + rewrite load_store64_other by lia. reflexivity.
    + apply load_store64. apply small_s64. unfold INT_MAX, two31. lia.
    + rewrite store_other by lia. reflexivity.
    + exists 17. split; [left; reflexivity|]. unfold extent, len, empty, zlen. cbn. lia.
  - intros [|r1] [|r2] d1 d2 A1 A2 H1 H2 Hne; cbn in H1, H2; try (exfalso; apply Hne; reflexivity); try (destruct r1; discriminate H1); destruct r2; discriminate H2.
Qed.

Definition agrees_run (m : outcome (state * list out)) (s : option (sstate * list out)) : Prop :=
  match s with
  | Some (sp', xs) => exists st', m = Ok (st', xs) /\ rel st' sp'
  | None => exists e, m = Err e
  end.
Lemma run_ok ops : forall st sp, rel st sp -> plain sp ops -> agrees_run (run st ops) (s_run sp ops).
Proof.
  induction ops as [|p ops IH]; intros st sp R HP; cbn [StrModel.run s_run].
  - eexists. split; [reflexivity|exact R].
  - destruct HP as (W & P & HP). pose proof (step_ok st sp p R W P) as S. unfold agrees in S. destruct (s_step sp p) as [[sp' x]|].
    + destruct S as (st' & -> & R'). cbn [bind]. specialize (IH st' sp' R' HP). unfold agrees_run in IH. destruct (s_run sp' ops) as [[sp'' xs]|].
      * destruct IH as (st'' & -> & R''). eexists. split; [reflexivity|exact R''].
      * destruct IH as (e & ->). eexists. reflexivity.
    + destruct S as (e & ->). eexists. reflexivity.
Qed.
Lemma run_refines ops : plain s_init ops ->
  match s_run s_init ops with
  | Some (_, xs) => exists st, run (StrModel.init emptyStr) ops = Ok (st, xs)
  | None => exists e, run (StrModel.init emptyStr) ops = Err e
  end.
Proof.
  intro HP. pose proof (run_ok ops _ _ init_rel HP) as H. unfold agrees_run in H. destruct (s_run s_init ops) as [[sp xs]|]; [|exact H].
  destruct H as (st & H & _). exists st. exact H.
Qed.
Lemma reach_rel st : reachable emptyStr st -> exists sp, rel st sp.
Proof.
  intros (ops & xs & HP & HR). pose proof (run_ok ops _ _ init_rel HP) as H. unfold agrees_run in H. destruct (s_run s_init ops) as [[sp ys]|].
  - destruct H as (st' & H & R). rewrite HR in H. apply Ok_inj, pair_inv in H. destruct H as [-> _]. exists sp. exact R.
  - destruct H as (e & H). rewrite HR in H. discriminate H.
Qed.

(** Observations. *)
Lemma observe_rel st sp v : rel st sp -> observe st v = Ok (text sp v).
Proof.
  intros (L & I & E & V). unfold observe, doLenStr. destruct (s_var sp v) as [r|] eqn:Ev.
  - destruct (text_look _ _ _ _ _ _ I E V Ev) as [_ H]. assert (st_var st v =? 0 = false) as -> by (destruct H; lia). rewrite (holds_len _ _ _ H). cbn [bind].
    unfold len. cbn [s_bytes]. rewrite (holds_valid _ _ _ (st_var st v) (zlen (text sp v)) H); [|lia|unfold extent, len; cbn [s_bytes]; lia]. rewrite orb_true_r.
    unfold zlen. rewrite Nat2Z.id. destruct H as (_ & _ & _ & H3 & _). cbn [s_bytes] in H3. rewrite H3. reflexivity.
  - pose proof (V v) as V0. rewrite Ev in V0. rewrite V0. cbn [Z.eqb bind orb Z.to_nat read]. unfold text. rewrite Ev. reflexivity.
Qed.
Lemma cap_rel st sp v : rel st sp -> doCapStr (st_mem st) (st_var st v) = Ok (capacity sp v).
Proof.
  intros (L & I & E & V). unfold doCapStr. destruct (s_var sp v) as [r|] eqn:Ev.
  - destruct (text_look _ _ _ _ _ _ I E V Ev) as [_ H]. assert (st_var st v =? 0 = false) as -> by (destruct H; lia). apply (holds_cap _ _ _ H).
  - pose proof (V v) as V0. rewrite Ev in V0. rewrite V0. cbn [Z.eqb]. unfold capacity. rewrite Ev. reflexivity.
Qed.
Lemma len_rel st sp v : rel st sp -> doLenStr (st_mem st) (st_var st v) = Ok (zlen (text sp v)).
Proof.
  intros (L & I & E & V). unfold doLenStr. destruct (s_var sp v) as [r|] eqn:Ev.
  - destruct (text_look _ _ _ _ _ _ I E V Ev) as [_ H]. assert (st_var st v =? 0 = false) as -> by (destruct H; lia). apply (holds_len _ _ _ H).
  - pose proof (V v) as V0. rewrite Ev in V0. rewrite V0. cbn [Z.eqb]. unfold text. rewrite Ev. reflexivity.
Qed.
Lemma strlen_rel st sp v : rel st sp -> st_var st v <> 0 -> strlen (st_mem st) (st_var st v) = Ok (zlen (text sp v)).
Proof.
  intros (L & I & E & V) Hv. destruct (s_var sp v) as [r|] eqn:Ev.
  - destruct (text_look _ _ _ _ _ _ I E V Ev) as [_ H]. rewrite (strlen_ok _ _ _ (proj1 I) (holds_cstr _ _ _ H)). reflexivity.
  - pose proof (V v) as V0. rewrite Ev in V0. congruence.
Qed.

Lemma L_inj o L r1 r2 d : inv o L -> nth_error (map fst L) r1 = Some d -> nth_error (map fst L) r2 = Some d -> r1 = r2.
Proof.
  intros (B & I1 & I2 & _) H1 H2. destruct (ads_get _ _ _ H1) as (A1 & G1). destruct (ads_get _ _ _ H2) as (A2 & G2).
  destruct (Nat.eq_dec r1 r2) as [|Hne]; [assumption|]. destruct (I2 _ _ _ _ _ _ G1 G2 Hne); pose proof (len_nn A1); pose proof (len_nn A2); unfold extent in *; lia.
Qed.

(** The effect of putting a new string into d. *)
Lemma new_effect st st' sp d b c : rel st sp -> rel st' (put sp d b c) ->
  (forall w, w <> d -> st_var st' w = st_var st w) -> made_new st st' d b.
Proof.
  intros R R' HV. split.
  - rewrite (observe_rel _ _ d R'). unfold text, put, refer, buf_of. cbn [s_var s_store]. rewrite Z.eqb_refl. rewrite nth_error_nth with (x := MkStr b c); [reflexivity|].
    rewrite nth_error_app2, Nat.sub_diag by lia. reflexivity.
  - intros w Hw. split; [apply HV, Hw|]. assert (HS : s_var (put sp d b c) w = s_var sp w) by (cbn [put s_var]; unfold refer; destruct (w =? d) eqn:X; [lia|reflexivity]).
    assert (HD : s_var (put sp d b c) d = Some (length (s_store sp))) by (cbn [put s_var]; unfold refer; rewrite Z.eqb_refl; reflexivity).
    destruct R as (L & I & E & V). pose proof R' as (L' & I' & E' & V').
    assert (HR : match s_var sp w with Some r => (r < length (s_store sp))%nat | None => True end).
    { specialize (V w). destruct (s_var sp w); [|exact Logic.I]. rewrite <- (ads_len _ _ E). apply nth_error_Some. congruence. }
    split.
    + intro Heq. pose proof (V' w) as V1. pose proof (V' d) as V2. rewrite HS in V1. rewrite HD in V2. rewrite Heq in V1. destruct (s_var sp w) as [r|].
      * pose proof (L_inj _ _ _ _ _ I' V1 V2). lia.
      * destruct (ads_get _ _ _ V2) as (A & HA). pose proof I' as (_ & J & _). destruct (J _ _ _ HA). lia.
    + rewrite (observe_rel _ _ w R'), (observe_rel _ sp w) by (exists L; auto). f_equal. unfold text. rewrite HS. destruct (s_var sp w) as [r|]; [|reflexivity].
      unfold buf_of, put. cbn [s_store]. rewrite app_nth1 by exact HR. reflexivity.
Qed.
Lemma assign_vars st d res st' x : assign st d res = Ok (st', x) -> forall w, w <> d -> st_var st' w = st_var st w.
Proof.
  unfold assign. destruct res as [[o a]|e|]; cbn [bind]; intro H; try discriminate H. apply Ok_inj, pair_inv in H. destruct H as [H _]. subst st'.
  intros w Hw. cbn [StrModel.st_var]. unfold StrModel.setvar. destruct (w =? d) eqn:X; [lia|reflexivity].
Qed.
Lemma fresh_effect st st' sp d b x p : rel st sp -> step st p = Ok (st', x) -> agrees (step st p) (fresh sp d b) ->
  (forall w, w <> d -> st_var st' w = st_var st w) -> made_new st st' d b.
Proof.
  intros R HS HA HV. unfold agrees, fresh in HA. destruct (zlen b <=? MAXSTR).
  - destruct HA as (st2 & H2 & R2). rewrite HS in H2. apply Ok_inj, pair_inv in H2. destruct H2 as [<- _]. eapply new_effect; eassumption.
  - destruct HA as (e & H). rewrite HS in H. discriminate H.
Qed.

Lemma concat_effect st d v w a b : reachable emptyStr st -> observe st v = Ok a -> observe st w = Ok b -> zlen a + zlen b <= INT_MAX ->
  (zlen a + zlen b <= MAXSTR -> is_ok (step st (OConcat d v w)) = true) /\
  forall st' x, step st (OConcat d v w) = Ok (st', x) -> made_new st st' d (a ++ b).
Proof.
  intros HR Ha Hb HL. destruct (reach_rel _ HR) as (sp & R). rewrite (observe_rel _ _ v R) in Ha. rewrite (observe_rel _ _ w R) in Hb. apply Ok_inj in Ha, Hb. subst a b.
  pose proof (concat_step st sp d v w R HL) as S. cbn [s_step] in S. split.
  - intro HM. unfold fresh, agrees in S. rewrite zlen_app in S. destruct (zlen (text sp v) + zlen (text sp w) <=? MAXSTR) eqn:X; [|lia]. destruct S as (st' & -> & _). reflexivity.
  - intros st' x H. eapply fresh_effect; [exact R|exact H|exact S|]. cbn [StrModel.step] in H. eapply assign_vars, H.
Qed.

Lemma append_inplace_effect st v w a b c : reachable emptyStr st -> st_var st v <> 0 -> observe st v = Ok a -> observe st w = Ok b ->
  doCapStr (st_mem st) (st_var st v) = Ok c -> zlen a + zlen b < INT_MAX ->
  (zlen a + zlen b < c -> exists st', step st (OAppend v w) = Ok (st', RUnit) /\ changed_in_place st st' v (a ++ b) /\
     forall x, ~ (emptyStr <= x < emptyStr + 17) -> ~ (st_var st v - 16 <= x < st_var st v + c) -> om_mem (st_mem st') x = om_mem (st_mem st) x) /\
  (c <= zlen a + zlen b -> (zlen a + zlen b <= MAXSTR -> is_ok (step st (OAppend v w)) = true) /\
     forall st' x, step st (OAppend v w) = Ok (st', x) -> made_new st st' v (a ++ b)).
Proof.
  intros HR Hv Ha Hb Hc HL. destruct (reach_rel _ HR) as (sp & R). rewrite (observe_rel _ _ v R) in Ha. rewrite (observe_rel _ _ w R) in Hb. apply Ok_inj in Ha, Hb. subst a b.
  rewrite (cap_rel _ _ v R) in Hc. apply Ok_inj in Hc. subst c.
  destruct (s_var sp v) as [r|] eqn:Ev; [|exfalso; destruct R as (L & _ & _ & V); pose proof (V v) as V0; rewrite Ev in V0; congruence].
  destruct (append_core st sp v w R HL) as [C1 C2].
  assert (Hr : ref sp v = r) by (unfold ref; rewrite Ev; reflexivity). rewrite Hr in *.
  assert (HC : s_cap (buf_of sp r) = capacity sp v) by (unfold capacity; rewrite Ev; reflexivity). rewrite HC in *. rewrite zlen_app in *. split; intro HX.
  - destruct C1 as (m' & d & L & HS & E & V & P & I' & Hd & M); [exact HX|]. specialize (Hd Hv). subst d. eexists. split; [exact HS|].
    set (st' := MkState (set_mem (st_mem st) m') (setvar (st_var st) v (st_var st v))).
    assert (HV : forall x, st_var st' x = st_var st x) by (intro x; unfold st'; cbn [StrModel.st_var]; unfold StrModel.setvar; destruct (x =? v) eqn:X; [f_equal; lia|reflexivity]).
    set (sp' := MkS (update r (MkStr (text sp v ++ text sp w) (capacity sp v)) (s_store sp)) (s_var sp)).
    assert (R' : rel st' sp').
    { eexists. split; [exact I'|]. rewrite !map_update. cbn [fst snd]. split; [rewrite E; reflexivity|].
      rewrite update_same by (rewrite nth_error_map, P; reflexivity). intro x. rewrite HV. apply V. }
    assert (HB : forall x, text sp' x = match s_var sp x with Some r' => if (r' =? r)%nat then text sp v ++ text sp w else text sp x | None => text sp x end).
    { intro x. unfold text at 1. change (s_var sp' x) with (s_var sp x). destruct (s_var sp x) as [r'|] eqn:Ex; [|unfold text; rewrite Ex; reflexivity].
      assert (text sp x = s_bytes (buf_of sp r')) as -> by (unfold text; rewrite Ex; reflexivity). unfold buf_of, sp'. cbn [s_store].
      assert (HN : (r < length (s_store sp))%nat) by (rewrite <- (ads_len _ _ E); apply nth_error_Some; rewrite nth_error_map, P; discriminate).
      destruct (r' =? r)%nat eqn:X.
      - apply Nat.eqb_eq in X. subst r'. rewrite nth_error_nth with (x := MkStr (text sp v ++ text sp w) (capacity sp v)); [reflexivity|].
        rewrite nth_update, Nat.eqb_refl. destruct (nth_error (s_store sp) r) eqn:Y; [reflexivity|]. apply nth_error_None in Y. lia.
      - destruct (nth_error (s_store sp) r') eqn:Y.
        + rewrite !nth_error_nth with (x := s); [reflexivity|exact Y|rewrite nth_update, X; exact Y].
        + rewrite !nth_overflow; [reflexivity|apply nth_error_None, Y|]. apply nth_error_None. rewrite nth_update, X. exact Y. }
    split; [|intros x H1 H2; apply M; assumption].
    split; [|split; [apply HV|]].
    + rewrite (observe_rel _ _ v R'), HB, Ev, Nat.eqb_refl. reflexivity.
    + intros x Hx. split; [apply HV|]. rewrite (observe_rel _ _ x R'), HB, (observe_rel _ _ x R). pose proof (V v) as V1. rewrite Ev in V1. pose proof (V x) as V2.
      destruct (s_var sp x) as [r'|].
      * destruct (r' =? r)%nat eqn:X.
        -- apply Nat.eqb_eq in X. subst r'. assert (st_var st x =? st_var st v = true) as -> by (rewrite V1 in V2; injection V2; lia). reflexivity.
        -- destruct (st_var st x =? st_var st v) eqn:Y; [|reflexivity]. exfalso. apply Z.eqb_eq in Y. rewrite Y in V2.
           destruct R as (L2 & I2 & E2 & V3). pose proof (V3 v) as W1. rewrite Ev in W1. apply Nat.eqb_neq in X. apply X.
           eapply L_inj; [exact I'| |]; rewrite map_update; cbn [fst]; (rewrite update_same by (rewrite nth_error_map, P; reflexivity)); eassumption.
      * assert (st_var st x =? st_var st v = false) as -> by lia. reflexivity.
  - specialize (C2 HX). split.
    + intro HM. unfold fresh, agrees in C2. rewrite zlen_app in C2. destruct (zlen (text sp v) + zlen (text sp w) <=? MAXSTR) eqn:X; [|lia]. destruct C2 as (st' & -> & _). reflexivity.
    + intros st' x H. eapply fresh_effect; [exact R|exact H|exact C2|]. cbn [StrModel.step] in H. eapply assign_vars, H.
Qed.

Lemma append_null_effect st v w b : reachable emptyStr st -> st_var st v = 0 -> observe st w = Ok b -> zlen b < INT_MAX ->
  forall st' x, step st (OAppend v w) = Ok (st', x) ->
  observe st' v = Ok b /\ forall u, u <> v -> st_var st' u = st_var st u /\ observe st' u = observe st u.
Proof.
  intros HR Hv Hb HL st' x HS. destruct (reach_rel _ HR) as (sp & R). rewrite (observe_rel _ _ w R) in Hb. apply Ok_inj in Hb. subst b.
  assert (Ev : s_var sp v = None).
  { destruct R as (L & I & E & V). destruct (s_var sp v) as [r|] eqn:Ev; [|reflexivity]. exfalso. destruct (text_look _ _ _ _ _ _ I E V Ev) as [_ H]. destruct H. lia. }
  assert (Ht : text sp v = []) by (unfold text; rewrite Ev; reflexivity).
  assert (HV : forall u, u <> v -> st_var st' u = st_var st u) by (cbn [StrModel.step] in HS; eapply assign_vars, HS).
  destruct (append_core st sp v w R) as [C1 C2]; [rewrite Ht; unfold zlen in *; cbn [length]; lia|]. rewrite Ht in C1, C2. cbn [app] in C1, C2.
  assert (Hr : ref sp v = 0%nat) by (unfold ref; rewrite Ev; reflexivity). rewrite Hr in *.
  assert (HE : nth_error (s_store sp) 0 = Some empty).
  { destruct R as (L & (_ & _ & _ & I3) & E & _). rewrite <- E, nth_error_map, I3. reflexivity. }
  assert (HB : buf_of sp 0 = empty) by (unfold buf_of; apply nth_error_nth, HE). rewrite HB in *. change (s_cap empty) with 1 in *.
  destruct (Z.lt_ge_cases (zlen (text sp w)) 1) as [H1|H1].
  - assert (Hw : text sp w = []) by (unfold zlen in H1; destruct (text sp w); [reflexivity|cbn [length] in H1; lia]). rewrite Hw in *.
    destruct (C1 H1) as (m' & d & L & HS' & E & V & P & I' & _). rewrite HS in HS'. apply Ok_inj, pair_inv in HS'. destruct HS' as [Hst _].
    assert (R' : rel st' (MkS (s_store sp) (refer (s_var sp) v (Some 0%nat)))).
    { eexists. rewrite <- Hst. split; [exact I'|]. rewrite !map_update. cbn [fst snd]. rewrite E. split; [apply update_same, HE|].
      rewrite update_same by (rewrite nth_error_map, P; reflexivity). apply vrel_set; [exact V|]. rewrite nth_error_map, P. reflexivity. }
    split.
    + rewrite (observe_rel _ _ v R'). unfold text, refer. cbn [s_var]. rewrite Z.eqb_refl.
      f_equal. unfold buf_of. cbn [s_store]. rewrite (nth_error_nth _ _ _ HE). reflexivity.
    + intros u Hu. split; [apply HV, Hu|]. rewrite (observe_rel _ _ u R'), (observe_rel _ _ u R). unfold text, refer. cbn [s_var]. destruct (u =? v) eqn:X; [lia|]. reflexivity.
  - destruct (fresh_effect st st' sp v _ x _ R HS (C2 ltac:(lia)) HV) as [F1 F2]. split; [exact F1|]. intros u Hu. destruct (F2 u Hu) as (G1 & _ & G3). auto.
Qed.

Lemma reach_init ops sp xs : plain s_init ops -> s_run s_init ops = Some (sp, xs) -> exists st, reachable emptyStr st /\ rel st sp.
Proof.
  intros HP HS. pose proof (run_ok ops _ _ init_rel HP) as H. rewrite HS in H. destruct H as (st & H & R). exists st. split; [|exact R]. exists ops, xs. auto.
Qed.

Lemma concat_overflow st d v w a b : reachable emptyStr st -> observe st v = Ok a -> observe st w = Ok b -> INT_MAX < zlen a + zlen b ->
  step st (OConcat d v w) = UB.
Proof.
  intros HR Ha Hb HL. destruct (reach_rel _ HR) as (sp & R). rewrite (observe_rel _ _ v R) in Ha. rewrite (observe_rel _ _ w R) in Hb. apply Ok_inj in Ha, Hb. subst a b.
  eapply concat_ub; eassumption.
Qed.
Lemma any_literal b : Forall ch b -> zlen b < INT_MAX -> exists st, reachable emptyStr st /\ observe st 1 = Ok b.
Proof.
  intros H1 H2. destruct (reach_init [OLit 1 b] (put s_init 1 b (zlen b + 1)) [RUnit]) as (st & H & R).
  - cbn [plain wf_op plain_op]. split; [auto|]. split; [exact Logic.I|]. cbn [s_step]. unfold constant. exact Logic.I.
  - reflexivity.
  - exists st. split; [exact H|]. rewrite (observe_rel _ _ 1 R). reflexivity.
Qed.
Lemma long_text n : 0 <= n -> exists b, Forall ch b /\ zlen b = n.
Proof.
  intro Hn. exists (repeat 65 (Z.to_nat n)). split.
  - apply Forall_forall. intros c Hc. apply repeat_spec in Hc. subst c. unfold ch. lia.
  - unfold zlen. rewrite repeat_length. lia.
Qed.
Lemma concat_overflow_case : exists st, reachable emptyStr st /\ step st (OConcat 2 1 1) = UB.
Proof.
  destruct (long_text 1073741824) as (b & H1 & H2); [lia|]. destruct (any_literal b H1) as (st & R & H); [rewrite H2; unfold INT_MAX, two31; lia|].
  exists st. split; [exact R|]. eapply concat_overflow; [exact R|exact H|exact H|]. rewrite H2. unfold INT_MAX, two31. lia.
Qed.
Lemma string_index st v i a : reachable emptyStr st -> observe st v = Ok a ->
  (0 <= i < zlen a -> exists st', step st (OIndex v i) = Ok (st', RInt (nth (Z.to_nat i) a 0)) /\ forall w, st_var st' w = st_var st w) /\
  (~ 0 <= i < zlen a -> exists e, step st (OIndex v i) = Err e).
Proof.
  intros HR Ha. destruct (reach_rel _ HR) as (sp & R). rewrite (observe_rel _ _ v R) in Ha. apply Ok_inj in Ha. subst a.
  pose proof (step_ok st sp (OIndex v i) R Logic.I Logic.I) as S. cbn [s_step] in S. destruct ((0 <=? i) && (i <? zlen (text sp v))) eqn:X; cbn [agrees] in S.
  - split; [intros _|lia]. destruct S as (st' & HS & _). exists st'. split; [exact HS|]. cbn [StrModel.step] in HS.
    destruct (doGetArrayPtr emptyStr (st_mem st) 1 (-1) i (st_var st v)) as [[o a]|e|]; cbn [bind] in HS; try discriminate HS.
    destruct (load8 o a); cbn [bind] in HS; try discriminate HS. apply Ok_inj, pair_inv in HS. destruct HS as [HS _]. subst st'. reflexivity.
  - split; [lia|intros _; exact S].
Qed.
Lemma len_strlen st v : reachable emptyStr st -> st_var st v <> 0 ->
  exists b, observe st v = Ok b /\ doLenStr (st_mem st) (st_var st v) = Ok (zlen b) /\ strlen (st_mem st) (st_var st v) = Ok (zlen b) /\ Forall ch b.
Proof.
  intros HR Hv. destruct (reach_rel _ HR) as (sp & R). exists (text sp v). split; [apply observe_rel, R|]. split; [apply len_rel, R|].
  split; [apply strlen_rel; assumption|]. destruct R as (L & I & E & V). destruct (s_var sp v) as [r|] eqn:Ev.
  - destruct (text_look _ _ _ _ _ _ I E V Ev) as [_ H]. destruct H as (_ & _ & _ & _ & _ & H & _). exact H.
  - pose proof (V v) as V0. rewrite Ev in V0. congruence.
Qed.
End Str.

Lemma array_index emptyStr o itemSize n index data : 0 <= n -> 0 <= itemSize -> data <> 0 -> valid o data (itemSize * n) = true ->
  (0 <= index < n -> doGetArrayPtr emptyStr o itemSize n index data = Ok (o, data + itemSize * index) /\ valid o (data + itemSize * index) itemSize = true) /\
  (~ 0 <= index < n -> doGetArrayPtr emptyStr o itemSize n index data = Err EIndex).
Proof.
  intros Hn Hi Hd HV. unfold doGetArrayPtr. destruct (0 <=? n) eqn:E; [|lia]. destruct (data =? 0) eqn:E1; [lia|]. cbn [bind]. split; intro HX.
  - destruct ((index <? 0) || (n - 1 <? index)) eqn:E2; [lia|]. split; [reflexivity|]. eapply valid_sub; [exact HV|nia..].
  - destruct ((index <? 0) || (n - 1 <? index)) eqn:E2; [reflexivity|lia].
Qed.
Lemma const_index emptyStr o itemSize n index data : INT_MIN <= index <= INT_MAX -> 0 <= n -> 0 <= itemSize -> itemSize * n <= INT_MAX -> data <> 0 ->
  constArrayPtr itemSize n index data = fmap snd (doGetArrayPtr emptyStr o itemSize n index data).
Proof.
  intros Hi Hn Hs HM Hd. unfold constArrayPtr, doGetArrayPtr, doGetFieldPtr.
  assert (s32 index = index) as ->.
  { unfold s32, wraps. unfold INT_MIN, INT_MAX in *. change two32 with 4294967296. change two31 with 2147483648 in *. change (4294967296 / 2) with 2147483648. rewrite Z.mod_small; lia. }
  destruct (0 <=? n) eqn:E; [|lia]. destruct (data =? 0) eqn:E1; [lia|]. cbn [bind].
  destruct ((index <? 0) || (n - 1 <? index)) eqn:E2; [reflexivity|]. rewrite chk32_small by nia. reflexivity.
Qed.

(** A decision procedure for [plain], used by the examples. *)
Definition wf_opb (p : op) : bool :=
  match p with
  | OLit _ b | OMakeStr _ (Some b) => forallb (fun c => (0 <? c) && (c <? 256)) b && (zlen b <? INT_MAX)
  | OFromBytes _ (Some b) => forallb (fun c => (0 <=? c) && (c <? 256)) b
  | _ => true
  end.
Definition plain_opb (st : sstate) (p : op) : bool :=
  match p with
  | OConcat _ v w => zlen (text st v) + zlen (text st w) <=? INT_MAX
  | OAppend v w => zlen (text st v) + zlen (text st w) <? INT_MAX
  | OConstConcat _ v w => match s_var st v, s_var st w with Some _, Some _ => zlen (text st v) + zlen (text st w) <? INT_MAX | _, _ => false end
  | OSlice _ _ _ (Some e) => negb (e =? INT_MIN)
  | _ => true
  end.
Fixpoint plainb (st : sstate) (ops : list op) : bool :=
  match ops with
  | [] => true
  | o :: r => wf_opb o && plain_opb st o && match s_step st o with Some (st', _) => plainb st' r | None => true end
  end.
Lemma plainb_ok ops : forall st, plainb st ops = true -> plain st ops.
Proof.
  induction ops as [|p ops IH]; intros st H; cbn [plainb plain] in *; [exact I|].
  apply andb_true_iff in H. destruct H as [H H3]. apply andb_true_iff in H. destruct H as [H1 H2]. split; [|split].
  - assert (F1 : forall b, forallb (fun c => (0 <? c) && (c <? 256)) b = true -> Forall ch b).
    { intros b F. rewrite forallb_forall in F. apply Forall_forall. intros c Hc. specialize (F c Hc). unfold ch. lia. }
    assert (F2 : forall b, forallb (fun c => (0 <=? c) && (c <? 256)) b = true -> Forall byte b).
    { intros b F. rewrite forallb_forall in F. apply Forall_forall. intros c Hc. specialize (F c Hc). unfold byte. lia. }
    destruct p; cbn [wf_opb wf_op] in *; try exact I.
    + apply andb_true_iff in H1. split; [apply F1; apply H1|destruct H1; lia].
    + match goal with |- context [match ?b with _ => _ end] => destruct b end; [apply F2, H1|exact I].
    + match goal with |- context [match ?b with _ => _ end] => destruct b end; [|exact I]. apply andb_true_iff in H1. split; [apply F1; apply H1|destruct H1; lia].
  - destruct p; cbn [plain_opb plain_op] in *; try exact I; try lia.
    + destruct (s_var st v), (s_var st w); try discriminate. split; [discriminate|]. split; [discriminate|lia].
    + match goal with |- context [match ?b with _ => _ end] => destruct b end; [lia|exact I].
  - destruct (s_step st p) as [[st' x]|]; [apply IH, H3|exact I].
Qed.
