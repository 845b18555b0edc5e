From Coq Require Import ZArith Lia Bool List ZifyBool.
From Verif Require Import Base NumModel NumProofs MemModel MemProofs BlkModel BlkProofs DynModel DynSpec DynProofs.
Import ListNotations.
Local Open Scope Z_scope.
Ltac Zify.zify_post_hook ::= Z.div_mod_to_equations.

Section Dyn.
Variable size : Z.
Variable emptyDims : Z.
Hypothesis Hsize : 0 <= size <= INT_MAX.
Hypothesis Hempty : 0 < emptyDims.

Notation hdr_ok := (hdr_ok size).
Notation inplace := (inplace size).
Notation newarr := (newarr size).
Notation readable := (readable size).
Notation cap_for := (cap_for size).
Notation fits := (fits size).
Notation rd_items := (rd_items size).
Notation nonempty := (nonempty size emptyDims).

Definition inv (o : omem) (L : list (Z * sarr)) : Prop :=
  below o /\
  (forall r d A, nth_error L r = Some (d, A) -> hdr_ok o d (s_items A) (s_cap A)) /\
  (forall r1 r2 d1 d2 A1 A2, nth_error L r1 = Some (d1, A1) -> nth_error L r2 = Some (d2, A2) -> r1 <> r2 ->
     d1 + s_cap A1 * size <= d2 - 16 \/ d2 + s_cap A2 * size <= d1 - 16) /\
  nth_error L 0 = Some (emptyDims + 16, MkArr [] 0).

Definition hrel (ads : list Z) (h : dynarr) (x : option nat) : Prop :=
  match x with
  | None => d_data h = 0
  | Some r => exists d, nth_error ads r = Some d /\ h = MkDyn size d
  end.
Definition vrel (ads : list Z) (vs : Z -> dynarr) (sv : Z -> option nat) : Prop := forall v, hrel ads (vs v) (sv v).

Definition rel (st : state) (sp : sstate) : Prop :=
  exists L, inv (st_mem st) L /\ map snd L = s_store sp /\ vrel (map fst L) (st_var st) (s_var sp).

Lemma vrel_set ads vs sv d h x : vrel ads vs sv -> hrel ads h x -> vrel ads (setvar vs d h) (refer sv d x).
Proof. intros V H v. unfold setvar, refer. destruct (v =? d); [exact H|apply V]. Qed.
Lemma get_of (L : list (Z * sarr)) sp r d A : map snd L = s_store sp -> nth_error L r = Some (d, A) -> arr_of sp r = A.
Proof.
  intros E H. unfold arr_of. rewrite <- E. apply nth_error_nth. rewrite nth_error_map, H. reflexivity.
Qed.

Lemma ads_get (L : list (Z * sarr)) r d : nth_error (map fst L) r = Some d -> exists A, nth_error L r = Some (d, A).
Proof.
  rewrite nth_error_map. destruct (nth_error L r) as [[d' A]|]; cbn; intro H; [|discriminate]. injection H as ->. exists A. reflexivity.
Qed.

(** A variable that is not null. *)
Lemma look o L vs sp v r :
  inv o L -> map snd L = s_store sp -> vrel (map fst L) vs (s_var sp) -> s_var sp v = Some r ->
  exists d, vs v = MkDyn size d /\ hdr_ok o d (contents sp v) (capacity sp v) /\ nonempty (vs v) = MkDyn size d /\
    nth_error L r = Some (d, MkArr (contents sp v) (capacity sp v)).
Proof.
  intros I E V H. specialize (V v). rewrite H in V. destruct V as (d & Hd & Hv). exists d. split; [exact Hv|].
  destruct (ads_get _ _ _ Hd) as (A & HA). unfold contents, capacity. rewrite H, (get_of _ _ _ _ _ E HA).
  pose proof (proj1 (proj2 I) _ _ _ HA) as HO. split; [exact HO|]. split.
  - unfold DynModel.nonempty. rewrite Hv. cbn [d_data]. destruct HO as (H0 & _). destruct (d =? 0) eqn:E0; [lia|reflexivity].
  - rewrite HA. destruct A. reflexivity.
Qed.
Lemma look_null ads vs sp v : vrel ads vs (s_var sp) -> s_var sp v = None -> d_data (vs v) = 0 /\ contents sp v = [] /\ capacity sp v = 0.
Proof. intros V H. specialize (V v). rewrite H in V. unfold contents, capacity. rewrite H. auto. Qed.

(** Replacing null by the empty array. *)
Lemma touch_store sp v : s_store (touch sp v) = s_store sp.
Proof. unfold touch. destruct (s_var sp v); reflexivity. Qed.
Lemma touch_var sp v : exists r, s_var (touch sp v) v = Some r.
Proof.
  unfold touch. destruct (s_var sp v) as [r|] eqn:E; [exists r; exact E|]. exists 0%nat. cbn [s_var]. unfold refer. rewrite Z.eqb_refl. reflexivity.
Qed.
Lemma touch_keep sp v w r : s_var sp w = Some r -> s_var (touch sp v) w = Some r.
Proof.
  intro H. unfold touch. destruct (s_var sp v) eqn:E; [exact H|]. cbn [s_var]. unfold refer. destruct (w =? v) eqn:Ew; [|exact H].
  replace w with v in H by lia. congruence.
Qed.
Lemma touch_same sp v r : s_var sp v = Some r -> touch sp v = sp.
Proof. intro H. unfold touch. rewrite H. reflexivity. Qed.

Lemma zero_arr o L sp : inv o L -> map snd L = s_store sp -> arr_of sp 0 = MkArr [] 0.
Proof. intros I E. eapply get_of; [exact E|apply I]. Qed.
Lemma touch_contents sp v w : arr_of sp 0 = MkArr [] 0 -> contents (touch sp v) w = contents sp w /\ capacity (touch sp v) w = capacity sp w.
Proof.
  intro H. unfold touch. destruct (s_var sp v) as [r|] eqn:E; [auto|]. unfold contents, capacity. cbn [s_var]. unfold refer.
  destruct (w =? v) eqn:Ew; [|auto]. replace w with v by lia. rewrite E. unfold arr_of in *. cbn [s_store]. rewrite H. auto.
Qed.

Lemma norm_rel o L vs sp v :
  inv o L -> map snd L = s_store sp -> vrel (map fst L) vs (s_var sp) ->
  vrel (map fst L) (setvar vs v (nonempty (vs v))) (s_var (touch sp v)).
Proof.
  intros I E V y. unfold setvar, touch. destruct (s_var sp v) as [r|] eqn:Ev.
  - destruct (y =? v) eqn:Ey; [|apply V]. replace y with v by lia.
    destruct (look _ _ _ _ _ _ I E V Ev) as (d & Hd & _ & Hn & _). rewrite Hn, <- Hd. apply V.
  - cbn [s_var]. unfold refer. destruct (y =? v) eqn:Ey; [|apply V].
    destruct (look_null _ _ _ _ V Ev) as (H0 & _). unfold DynModel.nonempty. rewrite H0. cbn [Z.eqb].
    exists (emptyDims + 16). split; [|reflexivity]. rewrite nth_error_map. destruct I as (_ & _ & _ & ->). reflexivity.
Qed.

Lemma nth_update {A} (l : list A) n m x :
  nth_error (update n x l) m = if (m =? n)%nat then match nth_error l m with Some _ => Some x | None => None end else nth_error l m.
Proof.
  revert n m. induction l as [|y l IH]; intros n m.
  - destruct n; destruct (m =? _)%nat; destruct m; reflexivity.
  - destruct n as [|n], m as [|m]; cbn [update nth_error]; try reflexivity. rewrite IH. reflexivity.
Qed.

Lemma map_update {A B} (f : A -> B) n x l : map f (update n x l) = update n (f x) (map f l).
Proof. revert n. induction l as [|y l IH]; intros [|n]; cbn [update map]; try reflexivity. rewrite IH. reflexivity. Qed.

Lemma update_same {A} (l : list A) n x : nth_error l n = Some x -> update n x l = l.
Proof.
  revert n. induction l as [|y l IH]; intros [|n] H; cbn [update nth_error] in *; try discriminate.
  - injection H as ->. reflexivity.
  - rewrite IH by exact H. reflexivity.
Qed.

Lemma hdr_frame o m' d l c :
  (forall x, d - 16 <= x < d + c * size -> m' x = om_mem o x) -> hdr_ok o d l c -> hdr_ok (set_mem o m') d l c.
Proof.
  intros E (H1 & H2 & H3). split; [exact H1|]. split; [|exact H3].
  apply (holds_ext size Hsize (om_mem o)); [exact E|exact H2].
Qed.

(** An operation in place keeps the invariant. *)
Lemma inplace_rel o L r A o' l' d :
  inv o L -> nth_error L r = Some (d, A) -> inplace o o' d l' (s_cap A) ->
  inv o' (update r (d, MkArr l' (s_cap A)) L).
Proof.
  intros I HA (m' & -> & Hout & Hh). pose proof I as (B & I1 & I2 & I3). pose proof (I1 _ _ _ HA) as HO.
  assert (Hlen : 0 <= s_cap A * size).
  { apply mul_nn; [exact Hsize|]. destruct HO as (_ & (_ & _ & _ & H4 & _) & _). cbn [s_items s_cap] in H4. unfold zlen in H4. lia. }
  split; [exact B|]. split; [|split].
  - intros r1 d1 A1 H1. rewrite nth_update in H1. destruct (r1 =? r)%nat eqn:Er.
    + rewrite (proj1 (Nat.eqb_eq _ _) Er), HA in H1. injection H1 as <- <-. cbn [s_items s_cap].
      destruct HO as (P1 & _ & P3). split; [exact P1|]. split; [exact Hh|exact P3].
    + apply hdr_frame; [|apply (I1 _ _ _ H1)].
      assert (r <> r1) by (intro; subst; rewrite Nat.eqb_refl in Er; discriminate).
      destruct (I2 _ _ _ _ _ _ HA H1 H) as [D|D]; intros x Hx; apply Hout; lia.
  - intros r1 r2 d1 d2 A1 A2 H1 H2 Hne. rewrite nth_update in H1, H2.
    destruct (r1 =? r)%nat eqn:E1, (r2 =? r)%nat eqn:E2.
    + apply Nat.eqb_eq in E1, E2. congruence.
    + rewrite (proj1 (Nat.eqb_eq _ _) E1), HA in H1. injection H1 as <- <-. cbn [s_cap].
      apply (I2 r r2); try assumption. apply Nat.eqb_eq in E1. congruence.
    + rewrite (proj1 (Nat.eqb_eq _ _) E2), HA in H2. injection H2 as <- <-. cbn [s_cap].
      apply (I2 r1 r); try assumption. apply Nat.eqb_eq in E2. congruence.
    + apply (I2 r1 r2); assumption.
  - rewrite nth_update. destruct (0 =? r)%nat eqn:E0; [|exact I3]. rewrite I3. apply Nat.eqb_eq in E0. subst r.
    rewrite I3 in HA. injection HA as <- <-. cbn [s_cap] in *. destruct Hh as (_ & _ & _ & Q4 & _). cbn [s_items s_cap] in Q4.
    unfold zlen in Q4. destruct l'; [reflexivity|cbn [length] in Q4; lia].
Qed.

(** A new array keeps the invariant. *)
Lemma new_rel o L o' l : inv o L -> newarr o o' l -> inv o' (L ++ [(om_next o + 16, MkArr l (cap_for (zlen l)))]).
Proof.
  intros (B & I1 & I2 & I3) N. pose proof (newarr_below size Hsize _ _ _ B N) as B'.
  assert (Old : forall r d A, nth_error L r = Some (d, A) -> d + s_cap A * size <= om_next o).
  { intros r d A H. apply (hdr_mono size Hsize _ _ _ _ _ _ B N (I1 _ _ _ H)). }
  assert (Cases : forall r d A, nth_error (L ++ [(om_next o + 16, MkArr l (cap_for (zlen l)))]) r = Some (d, A) ->
    nth_error L r = Some (d, A) \/ (r = length L /\ d = om_next o + 16 /\ A = MkArr l (cap_for (zlen l)))).
  { intros r d A H. destruct (Nat.lt_ge_cases r (length L)) as [Hr|Hr].
    - left. rewrite nth_error_app1 in H by lia. exact H.
    - right. rewrite nth_error_app2 in H by lia. destruct (r - length L)%nat as [|k] eqn:Ek.
      + cbn in H. injection H as <- <-. split; [lia|]. split; reflexivity.
      + cbn in H. destruct k; discriminate H. }
  split; [exact B'|]. split; [|split].
  - intros r d A H. destruct (Cases _ _ _ H) as [H1|(-> & -> & ->)].
    + apply (hdr_mono size Hsize _ _ _ _ _ _ B N (I1 _ _ _ H1)).
    + cbn [s_items s_cap]. apply newarr_hdr; assumption.
  - intros r1 r2 d1 d2 A1 A2 H1 H2 Hne. destruct (Cases _ _ _ H1) as [G1|(-> & -> & ->)], (Cases _ _ _ H2) as [G2|(-> & -> & ->)].
    + apply (I2 r1 r2); assumption.
    + left. pose proof (Old _ _ _ G1). lia.
    + right. pose proof (Old _ _ _ G2). lia.
    + congruence.
  - rewrite nth_error_app1; [exact I3|]. apply nth_error_Some. congruence.
Qed.

Lemma ads_len (L : list (Z * sarr)) sp : map snd L = s_store sp -> length (map fst L) = length (s_store sp).
Proof. intro E. rewrite <- E, !map_length. reflexivity. Qed.

Lemma hrel_app ads h x d : hrel ads h x -> hrel (ads ++ [d]) h x.
Proof.
  unfold hrel. destruct x as [r|]; [|auto]. intros (d' & H & E). exists d'. split; [|exact E].
  rewrite nth_error_app1; [exact H|]. apply nth_error_Some. congruence.
Qed.

(** The state after an allocation whose result is assigned to d. *)
Lemma fresh_rel o L sp o' l d vs' :
  inv o L -> map snd L = s_store sp -> vrel (map fst L) vs' (s_var sp) -> newarr o o' l -> fits (zlen l) = true ->
  exists sp', fresh cap_for fits sp d l = Some sp' /\
    rel (MkState o' (setvar vs' d (MkDyn size (om_next o + 16)))) sp'.
Proof.
  intros I E V N F. unfold fresh. rewrite F. eexists. split; [reflexivity|].
  exists (L ++ [(om_next o + 16, MkArr l (cap_for (zlen l)))]). cbn [st_mem st_var s_store s_var].
  split; [apply new_rel; assumption|]. rewrite !map_app, E. cbn [map fst snd]. split; [reflexivity|].
  apply vrel_set.
  - intro v. apply hrel_app, V.
  - exists (om_next o + 16). split; [|reflexivity]. rewrite nth_error_app2; rewrite (ads_len _ _ E); [|lia].
    rewrite Nat.sub_diag. reflexivity.
Qed.

(** A temporary block keeps the invariant. *)
Lemma tmp_rel o L n m' : 0 <= n -> inv o L -> (forall x, x < om_next o -> m' x = om_mem o x) ->
  inv (MkOmem m' ((om_next o, n + 1) :: om_blocks o) (om_next o + n + 1)) L.
Proof.
  intros Hn (B & I1 & I2 & I3) E.
  assert (K : forall d l c, hdr_ok o d l c -> hdr_ok (MkOmem m' ((om_next o, n + 1) :: om_blocks o) (om_next o + n + 1)) d l c).
  { intros d l c (P1 & P2 & bs & Hi & Hb). pose proof (proj2 B _ _ Hi) as Hbl. split; [exact P1|]. split.
    - apply (holds_ext size Hsize (om_mem o)); [|exact P2]. cbn [s_cap om_mem]. intros x Hx. apply E. lia.
    - exists bs. split; [right; exact Hi|exact Hb]. }
  split; [|split; [|split; [exact I2|exact I3]]].
  - split; [cbn [om_next]; destruct B; lia|]. intros b s [Hi|Hi]; cbn [om_next].
    + apply pair_inv in Hi. lia.
    + pose proof (proj2 B _ _ Hi). lia.
  - intros r d A H. apply K, (I1 _ _ _ H).
Qed.

Lemma tmp_ok o L bytes : inv o L ->
  let (o', a) := tmpBlock o bytes in
  inv o' L /\ a = om_next o /\ read (length bytes) (om_mem o') a = bytes /\ valid o' a (zlen bytes) = true.
Proof.
  intro I. unfold tmpBlock, newBlock. cbn [set_mem om_mem om_blocks om_next].
  split; [|split; [reflexivity|split]].
  - apply tmp_rel; [lia|exact I|]. intros x Hx. rewrite write_other by lia. unfold zero_range.
    destruct ((_ <=? x) && _) eqn:Ex; [lia|reflexivity].
  - apply read_write.
  - eapply valid_in; [left; reflexivity|lia|unfold zlen; lia].
Qed.

Lemma fresh_none sp d l : fits (zlen l) = false -> fresh cap_for fits sp d l = None.
Proof. intro F. unfold fresh. rewrite F. reflexivity. Qed.

Lemma inplace_state o L vs sp v r o' l' d dd :
  inv o L -> map snd L = s_store sp -> vrel (map fst L) vs (s_var sp) -> s_var sp v = Some r ->
  vs v = MkDyn size d -> inplace o o' d l' (capacity sp v) ->
  rel (MkState o' (setvar vs dd (MkDyn size d))) (in_place sp dd v l').
Proof.
  intros I E V Hs Hd Hi. destruct (look _ _ _ _ _ _ I E V Hs) as (d' & Hd' & HO & _ & HL).
  rewrite Hd in Hd'. injection Hd' as <-.
  pose proof (inplace_rel _ _ _ _ _ _ _ I HL Hi) as I'. unfold in_place. rewrite Hs.
  eexists. cbn [st_mem st_var s_store s_var]. split; [exact I'|]. rewrite !map_update. cbn [fst snd s_cap].
  rewrite (get_of _ _ _ _ _ E HL). cbn [s_cap]. split; [rewrite E; reflexivity|].
  rewrite update_same by (rewrite nth_error_map, HL; reflexivity).
  apply vrel_set; [exact V|]. exists d. split; [rewrite nth_error_map, HL; reflexivity|reflexivity].
Qed.

Notation step := (step size emptyDims).
Notation s_step := (s_step size cap_for fits).

(** Growing: shared by append and insert. *)
Lemma grow_state o L vs sp v r dd d l' (res : outcome (omem * dynarr)) :
  inv o L -> map snd L = s_store sp -> vrel (map fst L) vs (s_var sp) -> s_var sp v = Some r -> vs v = MkDyn size d ->
  (zlen l' <= capacity sp v -> exists o', res = Ok (o', MkDyn size d) /\ inplace o o' d l' (capacity sp v)) ->
  (capacity sp v < zlen l' -> fits (zlen l') = true -> exists o', res = Ok (o', MkDyn size (om_next o + 16)) /\ newarr o o' l') ->
  (capacity sp v < zlen l' -> fits (zlen l') = false -> exists e, res = Err e) ->
  match grow cap_for fits sp dd v l' with
  | Some sp' => exists o' r, res = Ok (o', r) /\ rel (MkState o' (setvar vs dd r)) sp'
  | None => exists e, res = Err e
  end.
Proof.
  intros I E V Hs Hd C1 C2 C3. unfold grow. destruct (zlen l' <=? capacity sp v) eqn:Ec.
  - destruct C1 as (o' & -> & Hi); [lia|]. exists o', (MkDyn size d). split; [reflexivity|].
    exact (inplace_state o L vs sp v r o' l' d dd I E V Hs Hd Hi).
  - destruct (fits (zlen l')) eqn:F.
    + destruct C2 as (o' & -> & N); [lia|reflexivity|].
      destruct (fresh_rel o L sp o' l' dd vs I E V N F) as (sp' & Hf & Hrel). rewrite Hf.
      exists o', (MkDyn size (om_next o + 16)). split; [reflexivity|exact Hrel].
    + rewrite fresh_none by exact F. apply C3; [lia|reflexivity].
Qed.

Lemma concat_readable : forall (items : list item) m a, Forall (sized size) items ->
  read (length (concat items)) m a = concat items -> rd_items (length items) m a = items.
Proof.
  induction items as [|x items IH]; intros m a HF H; cbn [concat length DynProofs.rd_items] in *; [reflexivity|].
  inversion HF as [|y ys Hx HF']. subst. rewrite app_length, read_app in H. unfold sized, zlen in Hx.
  assert (Hsz : isz size = length x) by (unfold isz; lia).
  assert (H1 : read (length x) m a = x).
  { apply (f_equal (firstn (length x))) in H. rewrite !firstn_app in H. rewrite read_length, Nat.sub_diag in H. cbn [firstn] in H.
    rewrite !app_nil_r in H. rewrite !firstn_all2 in H by (rewrite ?read_length; lia). exact H. }
  rewrite H1 in H. apply app_inv_head in H. rewrite Hsz, H1. f_equal. apply IH; [exact HF'|]. rewrite <- Hx. exact H.
Qed.

Lemma concat_len (items : list item) : Forall (sized size) items -> zlen (concat items) = zlen items * size.
Proof.
  unfold zlen. induction 1 as [|x l Hx _ IH]; cbn [concat length]; [lia|]. rewrite app_length. unfold sized, zlen in Hx.
  rewrite Nat2Z.inj_succ, Z.mul_succ_l. lia.
Qed.

Lemma src_ok st sp s : rel st sp -> wf_src size s ->
  match src_val sp s with
  | None => exists e, srcAddr st s = Err e
  | Some x => exists o' a L, srcAddr st s = Ok (o', a) /\ inv o' L /\ map snd L = s_store sp /\
      vrel (map fst L) (st_var st) (s_var sp) /\ read (isz size) (om_mem o') a = x /\ valid o' a size = true /\
      (forall r d A, nth_error L r = Some (d, A) ->
         match s with
         | STmp _ => d + s_cap A * size <= a
         | SElem w j => (s_var sp w = Some r /\ a = d + size * j) \/ a + size <= d - 16 \/ d + s_cap A * size <= a
         end)
  end.
Proof.
  intros (L & I & E & V) W. destruct s as [b|w j]; cbn [src_val srcAddr].
  - pose proof (tmp_ok (st_mem st) L b I) as T. destruct (tmpBlock (st_mem st) b) as [o' a] eqn:ET. destruct T as (T1 & T2 & T3 & T4).
    cbn [wf_src] in W. unfold sized in W.
    exists o', a, L. split; [reflexivity|]. split; [exact T1|]. split; [exact E|]. split; [exact V|].
    split; [|split; [rewrite <- W; exact T4|]].
    + replace (isz size) with (length b) by (unfold isz, zlen in *; lia). exact T3.
    + intros r d A HA. destruct (proj1 (proj2 I) _ _ _ HA) as (_ & _ & bs & Hi & Hb). pose proof (proj2 (proj1 I) _ _ Hi). lia.
  - destruct (s_var sp w) as [rw|] eqn:Ew.
    2:{ destruct (look_null _ _ _ _ V Ew) as (H0 & -> & _). rewrite elem_none by (unfold zlen; cbn [length]; lia).
        unfold doGetDynArrayPtr. rewrite H0. eexists. reflexivity. }
    destruct (look _ _ _ _ _ _ I E V Ew) as (dw & Hm & HO & _ & HA). rewrite Hm.
    destruct (ptr_ok size Hsize _ _ _ _ j HO) as [P PN].
    destruct (Z_lt_ge_dec j 0) as [Hj|Hj]; [|destruct (Z_lt_ge_dec j (zlen (contents sp w))) as [Hj2|Hj2]].
    1,3: rewrite elem_none by lia; rewrite PN by lia; eexists; reflexivity.
    destruct (elem_read size Hsize _ _ _ _ j HO ltac:(lia)) as [P1 P2]. rewrite P1.
    rewrite P by lia. cbn [bind].
    exists (st_mem st), (dw + size * j), L. split; [reflexivity|]. split; [exact I|]. split; [exact E|]. split; [exact V|].
    split; [reflexivity|]. split; [exact P2|].
    intros r d A HA'.
    assert (Hsz : size * j + size <= capacity sp w * size).
    { pose proof (mul_lt size Hsize j (zlen (contents sp w)) ltac:(lia)).
      pose proof HO as (_ & (_ & _ & _ & H4 & _) & _). cbn [s_items s_cap] in H4.
      pose proof (mul_le size Hsize _ _ H4). lia. }
    assert (Hj0 : 0 <= size * j) by nia.
    destruct (Nat.eq_dec rw r) as [->|Hne].
    + left. rewrite HA in HA'. injection HA' as <- <-. split; reflexivity.
    + right. pose proof I as (_ & _ & I2 & _). destruct (I2 _ _ _ _ _ _ HA HA' Hne) as [Q|Q]; cbn [s_cap] in Q; [left|right]; lia.
Qed.

Definition refines (st : state) (sp : sstate) (o : op) : Prop :=
  match s_step sp o with
  | Some (sp', x) => exists st', step st o = Ok (st', x) /\ rel st' sp'
  | None => exists e, step st o = Err e
  end.

Lemma len0 {A} (l : list A) : 0 <= zlen l. Proof. unfold zlen. lia. Qed.

Lemma readable_one o a x : read (isz size) (om_mem o) a = x -> valid o a size = true -> readable o a [x].
Proof.
  intros H V. split; [cbn [length]; rewrite rd_one, H; reflexivity|]. right. unfold zlen. cbn [length].
  replace (Z.of_nat 1 * size) with size by lia. exact V.
Qed.

Lemma step_make st sp d n : rel st sp -> refines st sp (OMake d n).
Proof.
  intros (L & I & E & V). unfold refines. cbn [DynSpec.s_step DynModel.step]. unfold doBuiltinMake.
  destruct ((0 <=? n) && fits n) eqn:C.
  - apply andb_true_iff in C. destruct C as [C1 C2]. destruct (alloc_ok size Hsize (st_mem st) n ltac:(lia) C2) as (o' & Ea & N).
    assert (Hz : zlen (repeat (zero_item size) (Z.to_nat n)) = n) by (unfold zlen; rewrite repeat_length; lia).
    destruct (fresh_rel _ L sp o' _ d (st_var st) I E V N) as (sp' & Hf & Hrel); [rewrite Hz; exact C2|].
    rewrite Hf. cbn [unit_out]. rewrite Ea. cbn [bind]. eexists. split; [reflexivity|exact Hrel].
  - destruct (alloc_err size Hsize (st_mem st) n) as [e ->]; [|eexists; reflexivity].
    destruct (fits n); [left; lia|right; reflexivity].
Qed.

Lemma step_fromarr st sp d items : rel st sp -> wf_op size (OFromArr d items) -> refines st sp (OFromArr d items).
Proof.
  intros (L & I & E & V) W. unfold refines. cbn [DynSpec.s_step DynModel.step wf_op] in *.
  pose proof (tmp_ok (st_mem st) L (concat items) I) as T. destruct (tmpBlock (st_mem st) (concat items)) as [o' a]. destruct T as (T1 & T2 & T3 & T4).
  assert (R : readable o' a items).
  { split; [apply concat_readable; assumption|]. right. rewrite <- concat_len by exact W. exact T4. }
  fold (zlen items). destruct (fromarr_ok size Hsize o' items a (proj1 T1) R) as [F1 F2].
  destruct (fits (zlen items)) eqn:F.
  - destruct F1 as (o2 & -> & N); [reflexivity|]. destruct (fresh_rel _ L sp o2 _ d (st_var st) T1 E V N F) as (sp' & Hf & Hrel).
    rewrite Hf. cbn [unit_out bind]. eexists. split; [reflexivity|exact Hrel].
  - rewrite fresh_none by exact F. cbn [unit_out]. destruct F2 as [e ->]; [reflexivity|]. eexists. reflexivity.
Qed.

Lemma step_assign st sp d v : rel st sp -> refines st sp (OAssign d v).
Proof.
  intros (L & I & E & V). unfold refines. cbn [DynSpec.s_step DynModel.step]. eexists. split; [reflexivity|].
  exists L. cbn [st_mem st_var s_store s_var]. split; [exact I|]. split; [exact E|]. apply vrel_set; [exact V|apply V].
Qed.

Lemma unit_grow sp' (res : outcome (omem * dynarr)) vs' dd :
  match sp' with
  | Some sp' => exists o' r, res = Ok (o', r) /\ rel (MkState o' (setvar vs' dd r)) sp'
  | None => exists e, res = Err e
  end ->
  match unit_out sp' with
  | Some (sp', x) => exists st', (let* (m, r) := res in Ok (MkState m (setvar vs' dd r), RUnit)) = Ok (st', x) /\ rel st' sp'
  | None => exists e, (let* (m, r) := res in Ok (MkState m (setvar vs' dd r), RUnit)) = Err e
  end.
Proof.
  destruct sp' as [sp'|]; cbn [unit_out].
  - intros (o' & r & -> & H). cbn [bind]. eexists. split; [reflexivity|exact H].
  - intros [e ->]. eexists. reflexivity.
Qed.

Lemma bind_app {A B C} (x : outcome A) (f : A -> outcome B) (g : B -> outcome C) : bind (bind x f) g = bind x (fun a => bind (f a) g).
Proof. destruct x; reflexivity. Qed.
Lemma bind_ext {A B} (x : outcome A) (f g : A -> outcome B) : (forall a, f a = g a) -> bind x f = bind x g.
Proof. intro H. destruct x; cbn [bind]; auto. Qed.

Lemma setvar_same vs v h : setvar vs v h v = h.
Proof. unfold setvar. rewrite Z.eqb_refl. reflexivity. Qed.

(** The state after replacing null by the empty array. *)
Lemma touched o L vs sp v :
  inv o L -> map snd L = s_store sp -> vrel (map fst L) vs (s_var sp) ->
  exists d r, nonempty (vs v) = MkDyn size d /\ hdr_ok o d (contents sp v) (capacity sp v) /\
    s_var (touch sp v) v = Some r /\ nth_error L r = Some (d, MkArr (contents sp v) (capacity sp v)) /\
    map snd L = s_store (touch sp v) /\ vrel (map fst L) (setvar vs v (MkDyn size d)) (s_var (touch sp v)) /\
    contents (touch sp v) v = contents sp v /\ capacity (touch sp v) v = capacity sp v.
Proof.
  intros I E V. destruct (touch_var sp v) as [r Hr]. pose proof (norm_rel _ _ _ _ v I E V) as V'.
  pose proof E as E'. rewrite <- (touch_store sp v) in E'.
  destruct (look _ _ _ _ v r I E' V' Hr) as (d & Hd & HO & _ & HL). rewrite setvar_same in Hd.
  destruct (touch_contents sp v v (zero_arr _ _ _ I E)) as [T1 T2]. rewrite T1, T2 in HO, HL. rewrite Hd in V'.
  exists d, r. repeat (split; [assumption|]). assumption.
Qed.

Lemma step_append st sp d v s : rel st sp -> wf_op size (OAppend d v s) -> refines st sp (OAppend d v s).
Proof.
  intros R W. unfold refines. cbn [DynSpec.s_step DynModel.step wf_op] in *. pose proof (src_ok st sp s R W) as S.
  destruct (src_val sp s) as [x|]; [|destruct S as [e ->]; eexists; reflexivity].
  destruct S as (o & a & L & -> & I & E & V & Hx & Hv & _). cbn [bind]. unfold doBuiltinAppendItem.
  destruct (touched _ _ _ _ v I E V) as (dv & r & Hd & HO & Hs & _ & E' & V' & Hc & Hk).
  rewrite Hd in *.
  destruct (append_ok size Hsize o dv _ _ a [x] (proj1 I) HO (readable_one _ _ _ Hx Hv)) as (A1 & A2 & A3).
  change (zlen [x]) with 1 in *. rewrite <- Hk in A1, A2, A3.
  pose proof (unit_grow _ _ _ d (grow_state o L _ _ v r d dv _ _ I E' V' Hs (setvar_same _ _ _) A1 A2 A3)) as G.
  destruct (unit_out _) as [[sp' y]|].
  - destruct G as (st' & G & GR). exists st'. split; [|exact GR]. rewrite <- G. rewrite bind_app. apply bind_ext. intros [o1 r1]. reflexivity.
  - destruct G as (e & G). exists e. rewrite <- G. rewrite bind_app. apply bind_ext. intros [o1 r1]. reflexivity.
Qed.

Lemma nonempty_twice h : nonempty (nonempty h) = nonempty h.
Proof.
  unfold DynModel.nonempty. destruct (d_data h =? 0) eqn:E; cbn [d_data].
  - destruct (emptyDims + 16 =? 0); reflexivity.
  - rewrite E. reflexivity.
Qed.

Lemma step_appendarr st sp d v w : rel st sp -> refines st sp (OAppendArr d v w).
Proof.
  intros (L & I & E & V). unfold refines. cbn [DynSpec.s_step DynModel.step] in *. unfold doBuiltinAppendArr.
  destruct (touched _ _ _ _ v I E V) as (dv & r & Hd & HO & Hs & _ & E' & V' & Hc & Hk).
  destruct (touched _ _ _ _ w I E' V') as (dw & r' & Hd2 & HO2 & Hs2 & _ & E2 & V2 & Hc2 & Hk2).
  destruct (touch_contents sp v w (zero_arr _ _ _ I E)) as [Tw1 Tw2].
  destruct (touch_contents (touch sp v) w v (zero_arr _ _ _ I E')) as [Tv1 Tv2].
  assert (Hw : nonempty (st_var st w) = MkDyn size dw).
  { rewrite <- Hd2. unfold setvar. destruct (w =? v) eqn:Ew; [|reflexivity]. replace w with v by lia. rewrite <- Hd. symmetry. apply nonempty_twice. }
  rewrite Hd, Hw. rewrite Tw1 in HO2. rewrite (hdr_len size Hsize _ _ _ _ HO2). cbn [bind d_data].
  destruct (append_ok size Hsize _ dv _ _ dw (contents sp w) (proj1 I) HO (hdr_readable size Hsize _ _ _ _ HO2)) as (A1 & A2 & A3).
  assert (Hk3 : capacity sp v = capacity (touch (touch sp v) w) v) by congruence. rewrite Hk3 in A1, A2, A3.
  assert (Hv : setvar (setvar (st_var st) v (MkDyn size dv)) w (MkDyn size dw) v = MkDyn size dv).
  { unfold setvar at 1. destruct (v =? w) eqn:Ew; [|apply setvar_same]. replace w with v in * by lia. congruence. }
  pose proof (unit_grow _ _ _ d (grow_state (st_mem st) L _ _ v r d dv _ _ I E2 V2 (touch_keep _ _ _ _ Hs) Hv A1 A2 A3)) as G.
  destruct (unit_out _) as [[sp' y]|].
  - destruct G as (st' & G & GR). exists st'. split; [|exact GR]. rewrite <- G. rewrite bind_app. apply bind_ext. intros [o1 r1]. reflexivity.
  - destruct G as (e & G). exists e. rewrite <- G. rewrite bind_app. apply bind_ext. intros [o1 r1]. reflexivity.
Qed.

Lemma insert_nonempty x y z w : doBuiltinInsert size emptyDims x (nonempty y) z w = doBuiltinInsert size emptyDims x y z w.
Proof. unfold doBuiltinInsert. rewrite nonempty_twice. reflexivity. Qed.
Lemma slice_nonempty x y z w : doBuiltinSlice size emptyDims x (nonempty y) z w = doBuiltinSlice size emptyDims x y z w.
Proof. unfold doBuiltinSlice. rewrite nonempty_twice. reflexivity. Qed.

Lemma step_insert st sp d v i s : rel st sp -> wf_op size (OInsert d v i s) -> plain_op sp (OInsert d v i s) -> refines st sp (OInsert d v i s).
Proof.
  intros R W P. unfold refines. cbn [DynSpec.s_step DynModel.step wf_op plain_op] in *. pose proof (src_ok st sp s R W) as S.
  destruct (src_val sp s) as [x|]; [|destruct S as [e ->]; eexists; reflexivity].
  destruct S as (o & a & L & -> & I & E & V & Hx & Hv & Hal). cbn [bind].
  destruct (touched _ _ _ _ v I E V) as (dv & r & Hd & HO & Hs & HL0 & E' & V' & Hc & Hk).
  rewrite <- insert_nonempty, Hd in *.
  destruct ((0 <=? i) && (i <=? zlen (contents sp v))) eqn:Ei.
  2:{ unfold doBuiltinInsert. unfold DynModel.nonempty. cbn [d_data]. pose proof HO as (Hd0 & _). destruct (dv =? 0) eqn:E0; [lia|].
      rewrite (hdr_len size Hsize _ _ _ _ HO), (hdr_cap size Hsize _ _ _ _ HO). cbn [bind].
      destruct ((i <? 0) || (zlen (contents sp v) <? i)) eqn:E1; [eexists; reflexivity|lia]. }
  assert (HL : zlen (insert_at i x (contents sp v)) = zlen (contents sp v) + 1) by (apply insert_len; lia).
  destruct (insert_ok size Hsize emptyDims o dv _ _ i a x (proj1 I) HO ltac:(lia) Hx (or_intror Hv)) as (A1 & A2 & A3).
  { intros Hcap y Hy. specialize (Hal _ _ _ HL0). cbn [s_cap] in Hal.
    assert (Hlc : (zlen (contents sp v) + 1) * size <= capacity sp v * size) by (apply mul_le; lia).
    assert (0 <= i * size) by (apply mul_nn; lia).
    destruct s as [b|w j]; [lia|]. destruct Hal as [[Hw ->]|[Hal|Hal]]; [|lia..].
    assert (Hs' : s_var sp v = s_var sp w).
    { rewrite Hw. unfold touch in Hs. destruct (s_var sp v) eqn:Ev; [congruence|]. exfalso.
      destruct (look_null _ _ _ _ V Ev) as (_ & _ & K). pose proof (len0 (contents sp v)). lia. }
    specialize (P Hs' Hcap). assert (j * size <= i * size) by (apply mul_le; lia).
    replace ((i + 1) * size) with (i * size + size) by lia. lia. }
  rewrite <- HL, <- Hk in A1, A2, A3.
  set (res := doBuiltinInsert size emptyDims o (MkDyn size dv) i a) in *.
  set (res2 := let* (o1, _, r) := res in Ok (o1, r)).
  assert (G : match unit_out (grow cap_for fits (touch sp v) d v (insert_at i x (contents sp v))) with
    | Some (sp', y) => exists st', (let* (m, r) := res2 in Ok (MkState m (setvar (setvar (st_var st) v (MkDyn size dv)) d r), RUnit)) = Ok (st', y) /\ rel st' sp'
    | None => exists e, (let* (m, r) := res2 in Ok (MkState m (setvar (setvar (st_var st) v (MkDyn size dv)) d r), RUnit)) = Err e
    end).
  { apply unit_grow. apply (grow_state o L _ (touch sp v) v r d dv); try assumption; unfold res2.
    - apply setvar_same.
    - intro H. destruct (A1 H) as (o' & -> & Hi). exists o'. split; [reflexivity|exact Hi].
    - intros H F. destruct (A2 H F) as (o' & -> & Hi). exists o'. split; [reflexivity|exact Hi].
    - intros H F. destruct (A3 H F) as (e & ->). exists e. reflexivity. }
  assert (Q : (let* (m, a0, r) := res in Ok (MkState m (setvar (setvar (st_var st) v a0) d r), RUnit)) =
     (let* (m, r) := res2 in Ok (MkState m (setvar (setvar (st_var st) v (MkDyn size dv)) d r), RUnit))).
  { unfold res2. destruct (Z_le_gt_dec (zlen (insert_at i x (contents sp v))) (capacity (touch sp v) v)) as [H|H].
    - destruct (A1 H) as (o' & -> & _). reflexivity.
    - destruct (fits (zlen (insert_at i x (contents sp v)))) eqn:F.
      + destruct (A2 ltac:(lia) eq_refl) as (o' & -> & _). reflexivity.
      + destruct (A3 ltac:(lia) eq_refl) as (e & ->). reflexivity. }
  rewrite Q. exact G.
Qed.

Lemma step_delete st sp d v i : rel st sp -> refines st sp (ODelete d v i).
Proof.
  intros (L & I & E & V). unfold refines. cbn [DynSpec.s_step DynModel.step].
  destruct (s_var sp v) as [r|] eqn:Ev.
  2:{ destruct (look_null _ _ _ _ V Ev) as (H0 & -> & _). unfold zlen. cbn [length]. destruct ((0 <=? i) && _) eqn:Ei; [lia|].
      unfold doBuiltinDelete. rewrite H0. eexists. reflexivity. }
  destruct (look _ _ _ _ _ _ I E V Ev) as (dv & Hm & HO & _ & HA). 
  destruct ((0 <=? i) && (i <? zlen (contents sp v))) eqn:Ei; rewrite Hm.
  - destruct (delete_ok size Hsize _ _ _ _ i HO ltac:(lia)) as (o' & -> & Hi). cbn [bind].
    eexists. split; [reflexivity|]. exact (inplace_state _ L _ sp v r _ _ _ _ I E V Ev Hm Hi).
  - unfold doBuiltinDelete. cbn [d_data]. pose proof HO as (? & _). destruct (dv =? 0) eqn:?; [lia|]. rewrite (hdr_len size Hsize _ _ _ _ HO). cbn [bind].
    destruct ((i <? 0) || (zlen (contents sp v) - 1 <? i)) eqn:E1; [eexists; reflexivity|lia].
Qed.

Lemma step_slice st sp d v i e : rel st sp -> plain_op sp (OSlice d v i e) -> refines st sp (OSlice d v i e).
Proof.
  intros (L & I & E & V) P. unfold refines. cbn [DynSpec.s_step DynModel.step plain_op] in *.
  destruct (touched _ _ _ _ v I E V) as (dv & r & Hd & HO & Hs & HL0 & E' & V' & Hc & Hk).
  rewrite <- slice_nonempty, Hd in *. set (ec := match e with Some e => e | None => INT_MIN end).
  pose proof (slice_ok size Hsize emptyDims (st_mem st) dv _ _ i ec (proj1 I) HO) as SL. cbv zeta in SL.
  set (len := zlen (contents sp v)) in *. assert (0 <= len) by (apply len0).
  set (e1 := match e with None => len | Some e => if e <? 0 then e + len else e end).
  assert (He : (if ec =? INT_MIN then len else if ec <? 0 then ec + len else ec) = e1).
  { unfold ec, e1. destruct e as [e|]; [|reflexivity]. destruct (e =? INT_MIN) eqn:E1; [lia|reflexivity]. }
  rewrite He in SL. destruct SL as [S1 S2].
  destruct ((0 <=? i) && (i <=? e1) && (e1 <=? len)) eqn:C.
  2:{ destruct S2 as (er & ->); [lia|]. eexists. reflexivity. }
  destruct (S1 ltac:(lia) ltac:(lia)) as [S3 S4].
  assert (HL : zlen (sublist i e1 (contents sp v)) = e1 - i) by (apply sublist_len; lia).
  destruct (fits (e1 - i)) eqn:F.
  - destruct S3 as (o' & -> & N); [reflexivity|]. rewrite <- HL in F.
    destruct (fresh_rel _ L _ o' _ d _ I E' V' N F) as (sp' & Hf & Hrel). rewrite Hf. cbn [unit_out bind].
    eexists. split; [reflexivity|exact Hrel].
  - rewrite fresh_none by (rewrite HL; exact F). cbn [unit_out]. destruct S4 as (er & ->); [reflexivity|]. eexists. reflexivity.
Qed.

Lemma step_copy st sp d v : rel st sp -> refines st sp (OCopy d v).
Proof.
  intros (L & I & E & V). unfold refines. cbn [DynSpec.s_step DynModel.step].
  destruct (s_var sp v) as [r|] eqn:Ev.
  - destruct (look _ _ _ _ _ _ I E V Ev) as (dv & Hm & HO & _ & HA). rewrite Hm.
    destruct (copy_ok size Hsize (st_mem st) dv _ _ (proj1 I) HO) as [C1 C2]. destruct (fits (zlen (contents sp v))) eqn:F.
    + destruct C1 as (o' & -> & N); [reflexivity|]. destruct (fresh_rel _ L sp o' _ d _ I E V N F) as (sp' & Hf & Hrel).
      rewrite Hf. cbn [unit_out bind]. eexists. split; [reflexivity|exact Hrel].
    + rewrite fresh_none by exact F. destruct C2 as (er & ->); [reflexivity|]. eexists. reflexivity.
  - destruct (look_null _ _ _ _ V Ev) as (H0 & _). unfold doBuiltinCopy. rewrite H0. cbn [bind Z.eqb]. eexists. split; [reflexivity|].
    exists L. cbn [st_mem st_var s_store s_var]. split; [exact I|]. split; [exact E|]. apply vrel_set; [exact V|]. exact H0.
Qed.

Lemma rel_self st sp : rel st sp -> rel (MkState (st_mem st) (st_var st)) sp.
Proof. destruct st. exact (fun H => H). Qed.

Lemma step_len st sp v : rel st sp -> refines st sp (OLen v).
Proof.
  intro R. pose proof R as (L & I & E & V). unfold refines. cbn [DynSpec.s_step DynModel.step]. unfold doBuiltinLen.
  exists st. split; [|exact R]. destruct (s_var sp v) as [r|] eqn:Ev.
  - destruct (look _ _ _ _ _ _ I E V Ev) as (dv & Hm & HO & _ & HA). rewrite Hm. cbn [d_data].
    pose proof HO as (? & _). destruct (dv =? 0) eqn:?; [lia|]. rewrite (hdr_len size Hsize _ _ _ _ HO). reflexivity.
  - destruct (look_null _ _ _ _ V Ev) as (H0 & -> & _). rewrite H0. reflexivity.
Qed.
Lemma step_cap st sp v : rel st sp -> refines st sp (OCap v).
Proof.
  intro R. pose proof R as (L & I & E & V). unfold refines. cbn [DynSpec.s_step DynModel.step]. unfold doBuiltinCap.
  exists st. split; [|exact R]. destruct (s_var sp v) as [r|] eqn:Ev.
  - destruct (look _ _ _ _ _ _ I E V Ev) as (dv & Hm & HO & _ & HA). rewrite Hm. cbn [d_data].
    pose proof HO as (? & _). destruct (dv =? 0) eqn:?; [lia|]. rewrite (hdr_cap size Hsize _ _ _ _ HO). reflexivity.
  - destruct (look_null _ _ _ _ V Ev) as (H0 & _ & ->). rewrite H0. reflexivity.
Qed.
Lemma step_valid st sp v : rel st sp -> refines st sp (OValid v).
Proof.
  intro R. pose proof R as (L & I & E & V). unfold refines. cbn [DynSpec.s_step DynModel.step]. unfold doBuiltinValid.
  exists st. split; [|exact R]. destruct (s_var sp v) as [r|] eqn:Ev.
  - destruct (look _ _ _ _ _ _ I E V Ev) as (dv & Hm & HO & _ & HA). rewrite Hm. cbn [d_data].
    pose proof HO as (? & _). destruct (dv =? 0) eqn:?; [lia|]. reflexivity.
  - destruct (look_null _ _ _ _ V Ev) as (H0 & _). rewrite H0. reflexivity.
Qed.

Lemma step_get st sp v i : rel st sp -> refines st sp (OGet v i).
Proof.
  intro R. pose proof R as (L & I & E & V). unfold refines. cbn [DynSpec.s_step DynModel.step].
  destruct (s_var sp v) as [r|] eqn:Ev.
  - destruct (look _ _ _ _ _ _ I E V Ev) as (dv & Hm & HO & _ & HA). rewrite Hm.
    destruct (ptr_ok size Hsize _ _ _ _ i HO) as [P PN].
    destruct (Z_lt_ge_dec i 0) as [Hj|Hj]; [|destruct (Z_lt_ge_dec i (zlen (contents sp v))) as [Hj2|Hj2]].
    1,3: rewrite elem_none by lia; rewrite PN by lia; eexists; reflexivity.
    destruct (elem_read size Hsize _ _ _ _ i HO ltac:(lia)) as [P1 P2]. rewrite P1, P by lia. cbn [bind].
    unfold loadItem. rewrite P2, orb_true_r. cbn [bind]. exists st. split; [reflexivity|exact R].
  - destruct (look_null _ _ _ _ V Ev) as (H0 & -> & _). rewrite elem_none by (unfold zlen; cbn [length]; lia).
    unfold doGetDynArrayPtr. rewrite H0. eexists. reflexivity.
Qed.

Lemma step_set st sp v i b : rel st sp -> wf_op size (OSet v i b) -> refines st sp (OSet v i b).
Proof.
  intros R W. pose proof R as (L & I & E & V). unfold refines. cbn [DynSpec.s_step DynModel.step wf_op] in *.
  destruct (s_var sp v) as [r|] eqn:Ev.
  - destruct (look _ _ _ _ _ _ I E V Ev) as (dv & Hm & HO & _ & HA). rewrite Hm.
    destruct (ptr_ok size Hsize _ _ _ _ i HO) as [P PN].
    destruct ((0 <=? i) && (i <? zlen (contents sp v))) eqn:Ei; [|rewrite PN by lia; eexists; reflexivity].
    rewrite P by lia. cbn [bind]. destruct (set_ok size Hsize _ _ _ _ i b HO ltac:(lia) W) as (o' & -> & Hi). cbn [bind].
    eexists. split; [reflexivity|]. unfold in_place. rewrite Ev.
    pose proof (inplace_rel _ _ _ _ _ _ _ I HA Hi) as I'.
    eexists. cbn [st_mem st_var s_store s_var]. split; [exact I'|]. rewrite !map_update. cbn [fst snd s_cap].
    rewrite (get_of _ _ _ _ _ E HA). cbn [s_cap]. split; [rewrite E; reflexivity|].
    rewrite update_same by (rewrite nth_error_map, HA; reflexivity). exact V.
  - destruct (look_null _ _ _ _ V Ev) as (H0 & -> & _). unfold zlen. cbn [length]. destruct ((0 <=? i) && _) eqn:Ei; [lia|].
    unfold doGetDynArrayPtr. rewrite H0. eexists. reflexivity.
Qed.

Lemma loadItems_ok n : forall o a, (size = 0 \/ valid o a (Z.of_nat n * size) = true) -> loadItems size n o a = Ok (rd_items n (om_mem o) a).
Proof.
  induction n as [|n IH]; intros o a H; cbn [loadItems DynProofs.rd_items]; [reflexivity|].
  rewrite Nat2Z.inj_succ, Z.mul_succ_l in H. unfold loadItem.
  assert (Hn : 0 <= Z.of_nat n * size) by (apply mul_nn; lia).
  assert ((size =? 0) || valid o a size = true) as ->.
  { destruct H as [->|H]; [reflexivity|]. apply valid_inv in H. destruct H as (b & s & Hi & H1 & H2).
    rewrite (valid_in _ _ _ _ _ Hi) by lia. apply orb_true_r. }
  cbn [bind]. rewrite IH; [reflexivity|]. destruct H as [H|H]; [left; exact H|right].
  apply valid_inv in H. destruct H as (b & s & Hi & H1 & H2). apply (valid_in _ _ _ _ _ Hi); lia.
Qed.

Lemma zero_range_lo m a n x : x < a -> zero_range m a n x = m x.
Proof. intro H. unfold zero_range. destruct ((a <=? x) && _) eqn:E; [lia|reflexivity]. Qed.
Lemma zero_range_in m a n x : a <= x < a + n -> zero_range m a n x = 0.
Proof. intro H. unfold zero_range. destruct ((a <=? x) && _) eqn:E; [reflexivity|lia]. Qed.

Lemma step_toarr st sp v n : rel st sp -> wf_op size (OToArr v n) -> refines st sp (OToArr v n).
Proof.
  intros R W. pose proof R as (L & I & E & V). unfold refines. cbn [DynSpec.s_step DynModel.step wf_op] in *.
  unfold newBlock. set (a := om_next (st_mem st)). 
  assert (Hns : 0 <= n * size) by (apply mul_nn; lia).
  set (m0 := zero_range (om_mem (st_mem st)) a (n * size + 1)).
  set (o1 := MkOmem m0 _ _).
  assert (Hb : In (a, n * size + 1) (om_blocks o1)) by (left; reflexivity).
  unfold doBuiltinMakeArr. assert (Hv : valid o1 a (n * size) = true) by (apply (valid_in _ _ _ _ _ Hb); lia).
  rewrite Hv, orb_true_r. cbn [bind]. set (o2 := set_mem o1 (zero_range (om_mem o1) a (n * size))).
  assert (Lo : forall x, x < a -> om_mem o2 x = om_mem (st_mem st) x).
  { intros x Hx. unfold o2. cbn [set_mem om_mem]. rewrite zero_range_lo by lia. unfold o1. cbn [om_mem]. apply zero_range_lo. lia. }
  assert (I2 : inv o2 L) by (apply (tmp_rel (st_mem st) L (n * size)); [lia|exact I|exact Lo]).
  assert (Z2 : forall x, a <= x < a + n * size -> om_mem o2 x = 0).
  { intros x Hx. unfold o2. cbn [set_mem om_mem]. apply zero_range_in. exact Hx. }
  assert (Hv2 : valid o2 a (n * size) = true) by (apply (valid_in _ _ _ _ _ Hb); lia).
  destruct (s_var sp v) as [r|] eqn:Ev.
  - destruct (look _ _ _ _ _ _ I2 E V Ev) as (dv & Hm & HO & _ & HA). rewrite Hm. cbn [d_data d_itemSize].
    pose proof HO as (Hd0 & _). destruct (dv =? 0) eqn:?; [lia|]. rewrite (hdr_len size Hsize _ _ _ _ HO). cbn [bind].
    set (len := zlen (contents sp v)) in *. destruct (n <? len) eqn:En; [replace (len <=? n) with false by lia; eexists; reflexivity|].
    replace (len <=? n) with true by lia.
    assert (Hl0 : 0 <= len) by apply len0. assert (Hln : len * size <= n * size) by (apply mul_le; lia).
    assert (Hl1 : 0 <= len * size) by (apply mul_nn; lia).
    pose proof HO as (_ & (_ & _ & H3 & H4 & _) & bs & Hi & Hbs). cbn [s_items s_cap] in *. fold len in H4.
    assert (Hlc : len * size <= capacity sp v * size) by (apply mul_le; lia).
    assert (Hda : dv + capacity sp v * size <= a).
    { destruct (look _ _ _ _ _ _ I E V Ev) as (dv' & Hm' & (_ & _ & bs' & Hi' & Hbs') & _). rewrite Hm in Hm'. injection Hm' as <-.
      pose proof (proj2 (proj1 I) _ _ Hi'). unfold a. lia. }
    destruct (memcpy_ok o2 a dv (len * size)) as (m3 & E3 & Hm3); try lia.
    { right. split; [apply (valid_in o2 _ _ _ _ Hb); lia|]. eapply hdr_valid; [exact HO|lia|lia]. }
    rewrite E3. cbn [bind].
    assert (I3 : inv (set_mem o2 m3) L).
    { apply (tmp_rel (st_mem st) L (n * size)); [lia|exact I|]. intros x Hx. mv Hm3. apply Lo. exact Hx. }
    rewrite loadItems_ok.
    2:{ right. rewrite Z2Nat.id by lia. exact Hv2. }
    cbn [bind]. exists (MkState (set_mem o2 m3) (st_var st)). split; [|exists L; cbn [st_mem st_var]; split; [exact I3|split; [exact E|exact V]]].
    do 3 f_equal. cbn [set_mem om_mem].
    replace (Z.to_nat n) with (length (contents sp v) + (Z.to_nat n - length (contents sp v)))%nat at 1 by (unfold len, zlen in *; lia).
    rewrite rd_app. apply f_equal2.
    + etransitivity; [|exact H3]. apply rd_shift; [exact Hsize|]. intros k Hk. fold (zlen (contents sp v)) in Hk. fold len in Hk. mv Hm3.
      f_equal. lia.
    + apply rd_zero; [exact Hsize|]. fold (zlen (contents sp v)). fold len. intros x Hx.
      assert (Hk : len * size + Z.of_nat (Z.to_nat n - length (contents sp v)) * size = n * size).
      { rewrite <- Z.mul_add_distr_r. f_equal. unfold len, zlen in *. lia. }
      mv Hm3. apply Z2. lia.
  - destruct (look_null _ _ _ _ V Ev) as (H0 & -> & _). rewrite H0. cbn [Z.eqb bind]. unfold zlen. cbn [length].
    replace (Z.of_nat 0 <=? n) with true by lia. rewrite loadItems_ok.
    2:{ right. rewrite Z2Nat.id by lia. exact Hv2. }
    cbn [bind]. exists (MkState o2 (st_var st)). split; [|exists L; cbn [st_mem st_var]; split; [exact I2|split; [exact E|exact V]]].
    do 3 f_equal. cbn [app]. rewrite Nat.sub_0_r. apply rd_zero; [exact Hsize|]. intros x Hx. apply Z2. lia.
Qed.

Lemma step_ok st sp o : rel st sp -> wf_op size o -> plain_op sp o -> refines st sp o.
Proof.
  intros R W P. destruct o.
  - apply step_make; assumption.
  - apply step_fromarr; assumption.
  - apply step_assign; assumption.
  - apply step_append; assumption.
  - apply step_appendarr; assumption.
  - apply step_insert; assumption.
  - apply step_delete; assumption.
  - apply step_slice; assumption.
  - apply step_copy; assumption.
  - apply step_len; assumption.
  - apply step_cap; assumption.
  - apply step_valid; assumption.
  - apply step_get; assumption.
  - apply step_set; assumption.
  - apply step_toarr; assumption.
Qed.

Lemma init_rel : rel (init emptyDims) s_init.
Proof.
  exists [(emptyDims + 16, MkArr [] 0)]. unfold init, s_init. cbn [st_mem st_var s_store s_var map fst snd].
  split; [|split; [reflexivity|intro v; reflexivity]].
  split; [|split; [|split]].
  - split; cbn [om_next om_blocks]; [lia|]. intros b s [H|[]]. apply pair_inv in H. lia.
  - intros [|r] d A H; [|destruct r; discriminate H]. cbn [nth_error] in H. injection H as <- <-. cbn [s_items s_cap].
    split; [lia|]. split; [|exists 16; split; [left; f_equal; lia|lia]].
    unfold holds_arr. cbn [s_items s_cap om_mem]. unfold zlen. cbn [length].
    split; [reflexivity|]. split; [reflexivity|]. split; [reflexivity|]. unfold INT_MAX, two31. lia.
  - intros [|r1] [|r2] d1 d2 A1 A2 H1 H2 Hne; [congruence|destruct r2; discriminate H2|destruct r1; discriminate H1|destruct r1; discriminate H1].
  - reflexivity.
Qed.

Lemma run_ok ops : forall st sp, rel st sp -> plain size cap_for fits sp ops ->
  match s_run size cap_for fits sp ops with
  | Some (sp', xs) => exists st', run size emptyDims st ops = Ok (st', xs) /\ rel st' sp'
  | None => exists e, run size emptyDims st ops = Err e
  end.
Proof.
  induction ops as [|o ops IH]; intros st sp R P; cbn [s_run run].
  - exists st. split; [reflexivity|exact R].
  - cbn [plain] in P. destruct P as (W & P1 & P2). pose proof (step_ok st sp o R W P1) as S. unfold refines in S.
    destruct (s_step sp o) as [[sp1 x]|].
    + destruct S as (st1 & -> & R1). cbn [bind]. specialize (IH _ _ R1 P2).
      destruct (s_run size cap_for fits sp1 ops) as [[sp2 xs]|].
      * destruct IH as (st2 & -> & R2). cbn [bind]. exists st2. split; [reflexivity|exact R2].
      * destruct IH as (e & ->). exists e. reflexivity.
    + destruct S as (e & ->). exists e. reflexivity.
Qed.

(** Reachable states. *)
Lemma reach_rel st : reachable size cap_for fits emptyDims st -> exists sp, rel st sp.
Proof.
  intros (ops & xs & P & R). pose proof (run_ok ops _ _ init_rel P) as H. rewrite R in H.
  destruct (s_run _ _ _ _ ops) as [[sp ys]|]; [|destruct H; discriminate]. destruct H as (st' & H & HR).
  apply Ok_inj in H. apply pair_inv in H. destruct H as [-> _]. exists sp. exact HR.
Qed.

Lemma obs_ok st sp v : rel st sp -> observe size st v = Ok (contents sp v).
Proof.
  intros (L & I & E & V). unfold observe, doBuiltinLen. destruct (s_var sp v) as [r|] eqn:Ev.
  - destruct (look _ _ _ _ _ _ I E V Ev) as (dv & Hm & HO & _ & HA). rewrite Hm. cbn [d_data].
    pose proof HO as (? & _). destruct (dv =? 0) eqn:?; [lia|]. rewrite (hdr_len size Hsize _ _ _ _ HO). cbn [bind].
    destruct (hdr_readable size Hsize _ _ _ _ HO) as [R1 R2].
    pose proof (len0 (contents sp v)). unfold zlen in *. rewrite Nat2Z.id.
    destruct R2 as [R2|R2]; [|rewrite loadItems_ok by (right; exact R2); rewrite R1; reflexivity].
    rewrite loadItems_ok; [rewrite R1; reflexivity|]. destruct (Z.eq_dec size 0) as [Hz|Hz]; [left; exact Hz|right].
    replace (Z.of_nat _ * size) with 0 by lia. eapply hdr_valid; [exact HO|lia|].
    pose proof HO as (_ & (_ & _ & _ & H4 & _) & _). cbn [s_items s_cap] in H4. unfold zlen in H4. pose proof (mul_nn size Hsize (capacity sp v)). lia.
  - destruct (look_null _ _ _ _ V Ev) as (H0 & -> & _). rewrite H0. reflexivity.
Qed.

Lemma cap_obs st sp v : rel st sp -> doBuiltinCap (st_mem st) (st_var st v) = Ok (capacity sp v).
Proof.
  intros R. pose proof (step_cap st sp v R) as H. unfold refines in H. cbn [DynSpec.s_step DynModel.step] in H. destruct H as (st' & H & _).
  destruct (doBuiltinCap _ _); cbn [bind] in H; try discriminate. apply Ok_inj, pair_inv in H. destruct H as [_ H]. injection H as ->. reflexivity.
Qed.

Lemma same_obs st sp v w : rel st sp -> (d_data (st_var st v) = d_data (st_var st w) <-> s_var sp v = s_var sp w).
Proof.
  intros (L & I & E & V). destruct (s_var sp v) as [r|] eqn:Ev, (s_var sp w) as [r'|] eqn:Ew.
  - destruct (look _ _ _ _ _ _ I E V Ev) as (dv & Hm & HO & _ & HA). destruct (look _ _ _ _ _ _ I E V Ew) as (dw & Hm' & HO' & _ & HA').
    rewrite Hm, Hm'. cbn [d_data]. split; [|intro H; injection H as <-; rewrite HA in HA'; congruence]. intros <-.
    destruct (Nat.eq_dec r r') as [->|Hne]; [reflexivity|exfalso].
    pose proof (proj1 (proj2 (proj2 I)) _ _ _ _ _ _ HA HA' Hne) as D. cbn [s_cap] in D.
    pose proof HO as (_ & (_ & _ & _ & H4 & _) & _). pose proof HO' as (_ & (_ & _ & _ & H4' & _) & _). cbn [s_items s_cap] in *.
    pose proof (len0 (contents sp v)). pose proof (len0 (contents sp w)).
    pose proof (mul_nn size Hsize (capacity sp v)). pose proof (mul_nn size Hsize (capacity sp w)). lia.
  - destruct (look _ _ _ _ _ _ I E V Ev) as (dv & Hm & HO & _ & HA). destruct (look_null _ _ _ _ V Ew) as (H0 & _).
    rewrite Hm, H0. cbn [d_data]. destruct HO as (? & _). split; [lia|discriminate].
  - destruct (look _ _ _ _ _ _ I E V Ew) as (dv & Hm & HO & _ & HA). destruct (look_null _ _ _ _ V Ev) as (H0 & _).
    rewrite Hm, H0. cbn [d_data]. destruct HO as (? & _). split; [lia|discriminate].
  - destruct (look_null _ _ _ _ V Ev) as (H0 & _). destruct (look_null _ _ _ _ V Ew) as (H0' & _). split; congruence.
Qed.

(** In the specification: what [grow] does to every variable. *)
Lemma grow_in_place sp d v l w : zlen l <= capacity sp v -> (exists r, s_var sp v = Some r /\ (r < length (s_store sp))%nat) ->
  exists sp', grow cap_for fits sp d v l = Some sp' /\ s_var sp' d = s_var sp v /\ contents sp' d = l /\
    (w <> d -> s_var sp' w = s_var sp w /\ contents sp' w = if option_eqb (s_var sp w) (s_var sp v) then l else contents sp w).
Proof.
  intros Hl (r & Hr & Hb). unfold grow. destruct (zlen l <=? capacity sp v) eqn:E; [|lia]. eexists. split; [reflexivity|].
  assert (Hn : nth r (update r (MkArr l (s_cap (arr_of sp r))) (s_store sp)) (MkArr [] 0) = MkArr l (s_cap (arr_of sp r))).
  { apply nth_error_nth. rewrite nth_update, Nat.eqb_refl. destruct (nth_error (s_store sp) r) eqn:En; [reflexivity|]. apply nth_error_None in En. lia. }
  unfold in_place, contents, arr_of. rewrite Hr. cbn [s_store s_var]. unfold refer. rewrite Z.eqb_refl. unfold arr_of in Hn. rewrite Hn.
  split; [reflexivity|]. split; [reflexivity|]. intro Hw. destruct (w =? d) eqn:Ew; [lia|]. split; [reflexivity|].
  destruct (s_var sp w) as [rw|]; [|reflexivity]. cbn [option_eqb]. destruct (rw =? r)%nat eqn:Er.
  - apply Nat.eqb_eq in Er. subst rw. rewrite Hn. reflexivity.
  - f_equal. set (x := MkArr l _). clearbody x. clear - Er. destruct (nth_error (s_store sp) rw) as [a|] eqn:En.
    + rewrite (nth_error_nth _ _ _ En). apply nth_error_nth. rewrite nth_update, Er. exact En.
    + apply nth_error_None in En. rewrite !nth_overflow; [reflexivity|exact En|rewrite update_length; exact En].
Qed.

Lemma grow_fresh sp d v l sp' w : capacity sp v < zlen l -> grow cap_for fits sp d v l = Some sp' ->
  (forall x r, s_var sp x = Some r -> (r < length (s_store sp))%nat) ->
  s_var sp' d <> s_var sp w /\ contents sp' d = l /\ capacity sp' d = cap_for (zlen l) /\
  (w <> d -> s_var sp' w = s_var sp w /\ contents sp' w = contents sp w).
Proof.
  unfold grow. intros Hc G Hb. destruct (zlen l <=? capacity sp v) eqn:E; [lia|]. unfold fresh in G. destruct (fits (zlen l)); [|discriminate].
  injection G as <-. unfold contents, capacity, arr_of. cbn [s_var s_store]. unfold refer. rewrite Z.eqb_refl.
  assert (Hn : nth (length (s_store sp)) (s_store sp ++ [MkArr l (cap_for (zlen l))]) (MkArr [] 0) = MkArr l (cap_for (zlen l))).
  { rewrite app_nth2, Nat.sub_diag by lia. reflexivity. }
  rewrite Hn. split; [|split; [reflexivity|split; [reflexivity|]]].
  - intro H. symmetry in H. apply Hb in H. lia.
  - intro Hw. destruct (w =? d) eqn:Ew; [lia|]. split; [reflexivity|]. destruct (s_var sp w) as [r|] eqn:Er; [|reflexivity].
    rewrite app_nth1 by (eapply Hb; exact Er). reflexivity.
Qed.

Lemma var_bound st sp : rel st sp -> forall x r, s_var sp x = Some r -> (r < length (s_store sp))%nat.
Proof.
  intros (L & I & E & V) x r H. destruct (look _ _ _ _ _ _ I E V H) as (d & _ & _ & _ & HA). rewrite <- E, map_length.
  apply nth_error_Some. congruence.
Qed.

Lemma given_ok st sp s x : rel st sp -> item_given size st s = Ok x -> src_val sp s = Some x.
Proof.
  intros R H. destruct s as [b|w j]; cbn [item_given src_val] in *; [injection H as ->; reflexivity|].
  rewrite (obs_ok _ _ _ R) in H. cbn [bind] in H. destruct (elem (contents sp w) j) as [y|]; [|discriminate]. injection H as ->. reflexivity.
Qed.

Lemma option_eqb_ok x y : option_eqb x y = true <-> x = y.
Proof.
  destruct x as [a|], y as [b|]; cbn [option_eqb]; try (split; congruence). rewrite Nat.eqb_eq. split; congruence.
Qed.

Definition touched_from (sp sp1 : sstate) : Prop := exists ws, sp1 = fold_left touch ws sp.

Lemma touched_facts ws : forall sp, arr_of sp 0 = MkArr [] 0 ->
  let sp1 := fold_left touch ws sp in
  s_store sp1 = s_store sp /\ (forall w, contents sp1 w = contents sp w /\ capacity sp1 w = capacity sp w) /\
  (forall w, s_var sp1 w = s_var sp w \/ (s_var sp w = None /\ s_var sp1 w = Some 0%nat)).
Proof.
  induction ws as [|v ws IH]; intros sp Z0; cbn [fold_left].
  - split; [reflexivity|]. split; [intros; split; reflexivity|]. intro w. left. reflexivity.
  - assert (Z1 : arr_of (touch sp v) 0 = MkArr [] 0) by (unfold arr_of; rewrite touch_store; exact Z0).
    destruct (IH (touch sp v) Z1) as (H1 & H2 & H3). cbv zeta in *. split; [rewrite H1; apply touch_store|]. split.
    + intro w. destruct (H2 w) as [-> ->]. apply touch_contents, Z0.
    + intro w. destruct (H3 w) as [->|[H4 H5]].
      * unfold touch. destruct (s_var sp v) eqn:Ev; [left; reflexivity|]. cbn [s_var]. unfold refer. destruct (w =? v) eqn:Ew; [|left; reflexivity].
        right. replace w with v by lia. split; [exact Ev|reflexivity].
      * right. split; [|exact H5]. destruct (s_var sp w) eqn:Ew; [|reflexivity]. rewrite (touch_keep _ _ _ _ Ew) in H4. discriminate.
Qed.

Lemma grow_obs_in st sp ws o d v l' :
  rel st sp -> refines st sp o -> s_step sp o = unit_out (grow cap_for fits (fold_left touch ws sp) d v l') ->
  zlen l' <= capacity sp v -> 0 < capacity sp v ->
  exists st', step st o = Ok (st', RUnit) /\ changed_in_place size st st' d v l'.
Proof.
  intros R RF E Hl Hc. unfold refines in RF. rewrite E in RF.
  assert (Z0 : arr_of sp 0 = MkArr [] 0) by (destruct R as (L & I & EL & _); exact (zero_arr _ _ _ I EL)).
  destruct (touched_facts ws sp Z0) as (T1 & T2 & T3). cbv zeta in *. set (sp1 := fold_left touch ws sp) in *.
  destruct (s_var sp v) as [r|] eqn:Ev; [|unfold capacity in Hc; rewrite Ev in Hc; lia].
  assert (Hr0 : r <> 0%nat) by (intros ->; unfold capacity in Hc; rewrite Ev, Z0 in Hc; cbn in Hc; lia).
  assert (Hs1 : s_var sp1 v = Some r) by (destruct (T3 v) as [->|[H _]]; congruence).
  assert (Hb : exists r, s_var sp1 v = Some r /\ (r < length (s_store sp1))%nat).
  { exists r. split; [exact Hs1|]. rewrite T1. exact (var_bound _ _ R _ _ Ev). }
  assert (Hl1 : zlen l' <= capacity sp1 v) by (rewrite (proj2 (T2 v)); exact Hl).
  destruct (grow_in_place sp1 d v l' v Hl1 Hb) as (sp' & G & G1 & G2 & _). rewrite G in RF. cbn [unit_out] in RF.
  destruct RF as (st' & RF & R'). exists st'. split; [exact RF|].
  split; [rewrite (obs_ok _ _ _ R'), G2; reflexivity|].
  intros w Hw. rewrite (same_obs _ _ w d R'), (same_obs _ _ w v R), (obs_ok _ _ _ R'), (obs_ok _ _ _ R).
  destruct (grow_in_place sp1 d v l' w Hl1 Hb) as (sp2 & G' & _ & _ & G3). rewrite G in G'. injection G' as <-.
  destruct (G3 Hw) as [G4 G5]. rewrite G1, G4, G5, Hs1, Ev, (proj1 (T2 w)).
  assert (Hq : s_var sp1 w = Some r <-> s_var sp w = Some r).
  { destruct (T3 w) as [->|[H1 H2]]; [tauto|]. rewrite H1, H2. split; intro H; congruence. }
  split; [exact Hq|]. destruct (d_data (st_var st w) =? d_data (st_var st v)) eqn:Es.
  - apply Z.eqb_eq, (same_obs _ _ w v R) in Es. rewrite Ev in Es. apply Hq, option_eqb_ok in Es. rewrite Es. reflexivity.
  - destruct (option_eqb (s_var sp1 w) (Some r)) eqn:Eo; [|reflexivity]. apply option_eqb_ok in Eo. apply Hq in Eo.
    assert (d_data (st_var st w) = d_data (st_var st v)) by (apply (same_obs _ _ w v R); congruence). lia.
Qed.

Lemma grow_obs_new st sp ws o d v l' st' y :
  rel st sp -> refines st sp o -> s_step sp o = unit_out (grow cap_for fits (fold_left touch ws sp) d v l') ->
  capacity sp v < zlen l' -> step st o = Ok (st', y) -> made_new size st st' d l'.
Proof.
  intros R RF E Hl Hs. unfold refines in RF. rewrite E in RF.
  assert (Z0 : arr_of sp 0 = MkArr [] 0) by (destruct R as (L & I & EL & _); exact (zero_arr _ _ _ I EL)).
  destruct (touched_facts ws sp Z0) as (T1 & T2 & T3). cbv zeta in *. set (sp1 := fold_left touch ws sp) in *.
  assert (Hb : forall x r, s_var sp1 x = Some r -> (r < length (s_store sp1))%nat).
  { intros x r H. rewrite T1. destruct (T3 x) as [H1|[_ H1]]; rewrite H1 in H.
    - exact (var_bound _ _ R _ _ H).
    - injection H as <-. destruct R as (L & I & EL & _). rewrite <- EL, map_length. apply nth_error_Some.
      destruct I as (_ & _ & _ & ->). discriminate. }
  assert (Hl1 : capacity sp1 v < zlen l') by (rewrite (proj2 (T2 v)); exact Hl).
  destruct (grow cap_for fits sp1 d v l') as [sp'|] eqn:G; cbn [unit_out] in RF; [|destruct RF as (e & RF); congruence].
  destruct RF as (st2 & RF & R'). rewrite Hs in RF. apply Ok_inj, pair_inv in RF. destruct RF as [<- _].
  destruct (grow_fresh sp1 d v l' sp' v Hl1 G Hb) as (_ & G2 & _).
  split; [rewrite (obs_ok _ _ _ R'), G2; reflexivity|].
  intros w Hw. rewrite (same_obs _ _ w d R'), (obs_ok _ _ _ R'), (obs_ok _ _ _ R).
  destruct (grow_fresh sp1 d v l' sp' w Hl1 G Hb) as (G3 & _ & _ & G4). destruct (G4 Hw) as [-> ->].
  split; [congruence|]. f_equal. apply T2.
Qed.

Lemma ok_eq {A} (x y : A) : Ok x = Ok y -> x = y. Proof. intro H. injection H as ->. reflexivity. Qed.

Lemma append_item_c13 st d v s x l c :
  reachable size cap_for fits emptyDims st -> wf_op size (OAppend d v s) -> item_given size st s = Ok x ->
  observe size st v = Ok l -> doBuiltinCap (st_mem st) (st_var st v) = Ok c ->
  (zlen l + 1 <= c -> exists st', step st (OAppend d v s) = Ok (st', RUnit) /\ changed_in_place size st st' d v (l ++ [x])) /\
  (c < zlen l + 1 -> forall st' y, step st (OAppend d v s) = Ok (st', y) -> made_new size st st' d (l ++ [x])).
Proof.
  intros RC W Gx Hl Hc. destruct (reach_rel _ RC) as [sp R]. apply (given_ok _ sp) in Gx; [|exact R].
  rewrite (obs_ok _ _ _ R) in Hl. apply ok_eq in Hl. rewrite (cap_obs _ _ _ R) in Hc. apply ok_eq in Hc. subst l c.
  pose proof (step_append st sp d v s R W) as RF. pose proof (len0 (contents sp v)).
  assert (HL : zlen (contents sp v ++ [x]) = zlen (contents sp v) + 1) by (unfold zlen; rewrite app_length; cbn [length]; lia).
  assert (E : s_step sp (OAppend d v s) = unit_out (grow cap_for fits (fold_left touch [v] sp) d v (contents sp v ++ [x]))).
  { cbn [DynSpec.s_step fold_left]. rewrite Gx. reflexivity. }
  split.
  - intro Hle. eapply grow_obs_in; [exact R|exact RF|exact E|lia|lia].
  - intros Hlt st' y Hs. eapply grow_obs_new; [exact R|exact RF|exact E|lia|exact Hs].
Qed.

Lemma append_arr_c13 st d v w l l2 c :
  reachable size cap_for fits emptyDims st -> observe size st w = Ok l2 ->
  observe size st v = Ok l -> doBuiltinCap (st_mem st) (st_var st v) = Ok c ->
  (0 < c -> zlen l + zlen l2 <= c ->
     exists st', step st (OAppendArr d v w) = Ok (st', RUnit) /\ changed_in_place size st st' d v (l ++ l2)) /\
  (c < zlen l + zlen l2 -> forall st' y, step st (OAppendArr d v w) = Ok (st', y) -> made_new size st st' d (l ++ l2)).
Proof.
  intros RC Hw Hl Hc. destruct (reach_rel _ RC) as [sp R].
  rewrite (obs_ok _ _ _ R) in Hl. rewrite (obs_ok _ _ _ R) in Hw. apply ok_eq in Hl, Hw. rewrite (cap_obs _ _ _ R) in Hc. apply ok_eq in Hc. subst l c l2.
  pose proof (step_appendarr st sp d v w R) as RF. pose proof (len0 (contents sp v)).
  assert (HL : zlen (contents sp v ++ contents sp w) = zlen (contents sp v) + zlen (contents sp w)) by (unfold zlen; rewrite app_length; lia).
  assert (E : s_step sp (OAppendArr d v w) = unit_out (grow cap_for fits (fold_left touch [v; w] sp) d v (contents sp v ++ contents sp w))) by reflexivity.
  split.
  - intros Hpos Hle. eapply grow_obs_in; [exact R|exact RF|exact E|lia|lia].
  - intros Hlt st' y Hs. eapply grow_obs_new; [exact R|exact RF|exact E|lia|exact Hs].
Qed.

Lemma insert_c13 st d v i s x l c :
  reachable size cap_for fits emptyDims st -> wf_op size (OInsert d v i s) ->
  match s with SElem w j => d_data (st_var st w) = d_data (st_var st v) -> zlen l + 1 <= c -> j <= i | STmp _ => True end ->
  item_given size st s = Ok x ->
  observe size st v = Ok l -> doBuiltinCap (st_mem st) (st_var st v) = Ok c -> 0 <= i <= zlen l ->
  (zlen l + 1 <= c -> exists st', step st (OInsert d v i s) = Ok (st', RUnit) /\ changed_in_place size st st' d v (insert_at i x l)) /\
  (c < zlen l + 1 -> forall st' y, step st (OInsert d v i s) = Ok (st', y) -> made_new size st st' d (insert_at i x l)).
Proof.
  intros RC W P Gx Hl Hc Hi. destruct (reach_rel _ RC) as [sp R]. apply (given_ok _ sp) in Gx; [|exact R].
  rewrite (obs_ok _ _ _ R) in Hl. apply ok_eq in Hl. rewrite (cap_obs _ _ _ R) in Hc. apply ok_eq in Hc. subst l c.
  assert (P' : plain_op sp (OInsert d v i s)).
  { cbn [plain_op]. destruct s as [b|w j]; [exact Logic.I|]. intros H1 H2. apply P; [|exact H2]. apply (same_obs _ _ w v R). congruence. }
  pose proof (step_insert st sp d v i s R W P') as RF. pose proof (len0 (contents sp v)).
  pose proof (insert_len i x _ Hi) as HL.
  assert (E : s_step sp (OInsert d v i s) = unit_out (grow cap_for fits (fold_left touch [v] sp) d v (insert_at i x (contents sp v)))).
  { cbn [DynSpec.s_step fold_left]. rewrite Gx. destruct ((0 <=? i) && _) eqn:Ei; [reflexivity|lia]. }
  split.
  - intro Hle. eapply grow_obs_in; [exact R|exact RF|exact E|lia|lia].
  - intros Hlt st' y Hs. eapply grow_obs_new; [exact R|exact RF|exact E|lia|exact Hs].
Qed.

Lemma index_c14 st v i l :
  reachable size cap_for fits emptyDims st -> observe size st v = Ok l ->
  (0 <= i < zlen l -> exists a, doGetDynArrayPtr (st_mem st) (st_var st v) i = Ok a /\ a = d_data (st_var st v) + i * size /\
     valid (st_mem st) a size = true /\ loadItem size (st_mem st) a = Ok (nth (Z.to_nat i) l [])) /\
  (~ 0 <= i < zlen l -> exists e, doGetDynArrayPtr (st_mem st) (st_var st v) i = Err e).
Proof.
  intros RC Hl. destruct (reach_rel _ RC) as [sp R]. rewrite (obs_ok _ _ _ R) in Hl. apply ok_eq in Hl. subst l.
  pose proof R as (L & I & E & V). destruct (s_var sp v) as [r|] eqn:Ev.
  - destruct (look _ _ _ _ _ _ I E V Ev) as (dv & Hm & HO & _ & HA). rewrite Hm. cbn [d_data].
    destruct (ptr_ok size Hsize _ _ _ _ i HO) as [P PN]. split; intro Hi; [|rewrite PN by lia; eexists; reflexivity].
    destruct (elem_read size Hsize _ _ _ _ i HO Hi) as [P1 P2]. eexists. rewrite P by lia. split; [reflexivity|]. split; [lia|]. split; [exact P2|].
    unfold loadItem. rewrite P2, orb_true_r. unfold elem in P1. destruct (i <? 0) eqn:E0; [lia|].
    apply nth_error_nth with (d := []) in P1. rewrite P1. reflexivity.
  - destruct (look_null _ _ _ _ V Ev) as (H0 & -> & _). unfold zlen. cbn [length]. split; [lia|]. intros _.
    unfold doGetDynArrayPtr. rewrite H0. eexists. reflexivity.
Qed.

Lemma run_refines ops : plain size cap_for fits s_init ops ->
  match s_run size cap_for fits s_init ops with
  | Some (_, xs) => fmap snd (run size emptyDims (init emptyDims) ops) = Ok xs
  | None => exists e, run size emptyDims (init emptyDims) ops = Err e
  end.
Proof.
  intro P. pose proof (run_ok ops _ _ init_rel P) as H. destruct (s_run _ _ _ _ ops) as [[sp xs]|].
  - destruct H as (st & -> & _). reflexivity.
  - exact H.
Qed.

Lemma fits_small n : 0 <= n <= INT_MAX -> 2 * (n + 1) * size <= LIMIT -> fits n = true /\ cap_for n = 2 * (n + 1).
Proof.
  intros H1 H2. unfold DynProofs.fits, DynProofs.cap_for. destruct (LIMIT <? 2 * (n + 1) * size) eqn:E; [lia|].
  destruct (2 * (n + 1) <? n) eqn:E2; [lia|]. split; [|reflexivity]. apply andb_true_iff. split; [lia|].
  unfold chunkSizeFor, align, LIMIT, INT_MAX, two31 in *. lia.
Qed.

Lemma storage_c13 st v w l c :
  reachable size cap_for fits emptyDims st -> observe size st v = Ok l -> doBuiltinCap (st_mem st) (st_var st v) = Ok c ->
  zlen l <= c /\
  (d_data (st_var st v) <> 0 -> valid (st_mem st) (d_data (st_var st v) - 16) (16 + c * size) = true /\
     (forall cw, d_data (st_var st w) <> 0 -> d_data (st_var st w) <> d_data (st_var st v) ->
       doBuiltinCap (st_mem st) (st_var st w) = Ok cw ->
       d_data (st_var st v) + c * size <= d_data (st_var st w) - 16 \/ d_data (st_var st w) + cw * size <= d_data (st_var st v) - 16)).
Proof.
  intros RC Hl Hc. destruct (reach_rel _ RC) as [sp R].
  rewrite (obs_ok _ _ _ R) in Hl. apply ok_eq in Hl. rewrite (cap_obs _ _ _ R) in Hc. apply ok_eq in Hc. subst l c.
  pose proof R as (L & I & E & V). destruct (s_var sp v) as [r|] eqn:Ev.
  - destruct (look _ _ _ _ _ _ I E V Ev) as (dv & Hm & HO & _ & HA). rewrite Hm. cbn [d_data].
    pose proof HO as (_ & (_ & _ & _ & H4 & _) & _). cbn [s_items s_cap] in H4. split; [exact H4|]. intros _.
    split; [eapply hdr_valid; [exact HO|lia|lia]|]. intros cw Hw Hne Hcw. rewrite (cap_obs _ _ _ R) in Hcw. apply ok_eq in Hcw. subst cw.
    destruct (s_var sp w) as [r'|] eqn:Ew; [|destruct (look_null _ _ _ _ V Ew); lia].
    destruct (look _ _ _ _ _ _ I E V Ew) as (dw & Hmw & HOw & _ & HAw). rewrite Hmw in *. cbn [d_data] in *.
    assert (r <> r') by (intros ->; rewrite HA in HAw; congruence).
    apply (proj1 (proj2 (proj2 I)) _ _ _ _ _ _ HA HAw H).
  - destruct (look_null _ _ _ _ V Ev) as (H0 & -> & ->). split; [unfold zlen; cbn [length]; lia|]. intro; lia.
Qed.
End Dyn.

(** Witnesses for the two cases in which the code departs from the specification. *)
Definition w_item (k : Z) : item := repeat k 16.
Definition w_insert : list op :=
  [OFromArr 1 [w_item 1; w_item 2; w_item 3]; OInsert 1 1 0 (SElem 1 2); OGet 1 0].
Lemma insert_wrong :
  fmap snd (run 16 4096 (init 4096) w_insert) = Ok [RUnit; RUnit; RItem (w_item 2)] /\
  fmap snd (match s_run 16 (cap_for 16) (fits 16) s_init w_insert with Some x => Ok x | None => Err EOther end) = Ok [RUnit; RUnit; RItem (w_item 3)].
Proof. split; vm_compute; reflexivity. Qed.

Definition w_slice : list op := [OMake 1 3; OSlice 2 1 0 (Some INT_MIN); OLen 2].
Lemma slice_wrong :
  fmap snd (run 8 4096 (init 4096) w_slice) = Ok [RUnit; RUnit; RInt 3] /\ s_run 8 (cap_for 8) (fits 8) s_init w_slice = None.
Proof. split; vm_compute; reflexivity. Qed.

Lemma insert_wrong_ex :
  exists size ops, Forall (wf_op size) ops /\
    exists x y, x <> y /\ fmap snd (run size 4096 (init 4096) ops) = Ok [RUnit; RUnit; RItem x] /\
      match s_run size (cap_for size) (fits size) s_init ops with Some (_, l) => l = [RUnit; RUnit; RItem y] | None => False end.
Proof.
  exists 16, w_insert. split.
  - repeat constructor.
  - exists (w_item 2), (w_item 3). split; [discriminate|]. destruct insert_wrong as [H1 H2]. split; [exact H1|].
    destruct (s_run _ _ _ _ w_insert) as [[sp l]|]; cbn [fmap snd] in H2; [|discriminate H2]. apply ok_eq in H2. exact H2.
Qed.
Lemma slice_wrong_ex :
  exists size ops xs, Forall (wf_op size) ops /\ fmap snd (run size 4096 (init 4096) ops) = Ok xs /\
    s_run size (cap_for size) (fits size) s_init ops = None.
Proof.
  exists 8, w_slice. eexists. split; [repeat constructor|exact slice_wrong].
Qed.
