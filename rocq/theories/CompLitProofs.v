(** The compiled literal holds the values of its items. *)
Require Import ZArith List Bool String Lia.
Require Import Verif.Base Verif.CompLitModel Verif.CompLitSpec Verif.CompLitCheck.
Import ListNotations.
Local Open Scope nat_scope.

Scheme rep_mut := Minimality for rep Sort Prop
  with reps_mut := Minimality for reps Sort Prop
  with repm_mut := Minimality for repm Sort Prop.
Combined Scheme rep_all from rep_mut, reps_mut, repm_mut.

(** * Cells *)
Definition total (ts : list ty) : nat := list_sum (map size ts).

Lemma total_cons : forall t ts, total (t :: ts) = size t + total ts.
Proof. reflexivity. Qed.

Lemma total_repeat : forall t n, total (repeat t n) = n * size t.
Proof.
  induction n; [reflexivity|]. cbn [repeat]. rewrite total_cons, IHn. reflexivity.
Qed.

Lemma total_app : forall a b, total (a ++ b) = total a + total b.
Proof.
  induction a; intros; cbn [app]; auto. rewrite !total_cons, IHa. lia.
Qed.

Lemma sizes_total : forall fs, sizes fs = total (map snd (fieldList fs)).
Proof.
  induction fs; cbn [sizes fieldList map]; auto. rewrite total_cons, <- IHfs. auto.
Qed.

Lemma slice_len : forall m a n, List.length (slice m a n) = n.
Proof. intros. unfold slice. now rewrite map_length, seq_length. Qed.

Lemma slice_ext : forall m m' a n,
  (forall i, a <= i < a + n -> m' i = m i) -> slice m' a n = slice m a n.
Proof.
  intros. unfold slice. apply map_ext_in. intros i Hi. apply in_seq in Hi.
  apply H. lia.
Qed.

Lemma slice_app : forall m a n k,
  slice m a (n + k) = slice m a n ++ slice m (a + n) k.
Proof. intros. unfold slice. now rewrite seq_app, map_app. Qed.

Lemma blit_out : forall m a cs i,
  i < a \/ a + List.length cs <= i -> blit m a cs i = m i.
Proof.
  intros. unfold blit.
  destruct (Nat.leb_spec a i), (Nat.ltb_spec i (a + List.length cs)); cbn; auto; lia.
Qed.

Lemma blit_in : forall m a cs i, i < List.length cs ->
  blit m a cs (a + i) = nth i cs (CInt 0).
Proof.
  intros. unfold blit.
  destruct (Nat.leb_spec a (a + i)), (Nat.ltb_spec (a + i) (a + List.length cs));
    cbn; try lia. f_equal. lia.
Qed.

Lemma map_nth_seq : forall (cs : list cell) d,
  map (fun i => nth i cs d) (seq 0 (List.length cs)) = cs.
Proof.
  induction cs; intros; cbn; auto. f_equal. rewrite <- seq_shift, map_map. apply IHcs.
Qed.

Lemma slice_blit : forall m a cs, slice (blit m a cs) a (List.length cs) = cs.
Proof.
  intros. unfold slice.
  rewrite <- (map_nth_seq cs (CInt 0)) at 3.
  replace (seq a (List.length cs)) with (map (fun i => a + i) (seq 0 (List.length cs))).
  - rewrite map_map. apply map_ext_in. intros i Hi. apply in_seq in Hi.
    apply blit_in. lia.
  - generalize (List.length cs) as n. clear. intros n.
    transitivity (seq (a + 0) n); [|f_equal; lia]. generalize 0 as s.
    induction n; intros s; cbn; auto. f_equal. rewrite IHn. f_equal; lia.
Qed.

Lemma slice_blit_out : forall m a n b cs,
  a + n <= b \/ b + List.length cs <= a ->
  slice (blit m b cs) a n = slice m a n.
Proof. intros. apply slice_ext. intros i Hi. apply blit_out. lia. Qed.

Lemma app_eq_len : forall A (a b c d : list A),
  List.length a = List.length c -> a ++ b = c ++ d -> a = c /\ b = d.
Proof.
  induction a; destruct c; cbn; intros d Hl H; try discriminate; auto.
  injection H as -> H. destruct (IHa b c d) as [-> ->]; auto.
Qed.

Lemma setNth_len : forall A (l : list A) i a,
  List.length (setNth l i a) = List.length l.
Proof. induction l; destruct i; cbn; auto. Qed.

Lemma setNth_nth : forall A (l : list A) i j a,
  nth_error (setNth l i a) j =
  if Nat.eqb j i then (if j <? List.length l then Some a else None)
  else nth_error l j.
Proof.
  induction l; intros i j b; cbn [setNth].
  - destruct (Nat.eqb_spec j i); auto. cbn. now destruct j.
  - destruct i, j; auto.
    cbn [nth_error]. rewrite IHl. cbn [Nat.eqb List.length].
    destruct (Nat.eqb_spec j i); auto.
Qed.

(** * Representation *)

Lemma rep_len_all : forall os fin,
  (forall t cs v, rep os fin t cs v -> List.length cs = size t) /\
  (forall ts cs vs, reps os fin ts cs vs ->
     List.length cs = total ts /\ List.length vs = List.length ts) /\
  (forall t es kvs, repm os fin t es kvs -> True).
Proof.
  intros os fin. apply rep_all; intros; auto.
  - destruct H0. rewrite total_repeat in H0. cbn. auto.
  - destruct H0. rewrite H0. cbn [size]. fold sizes. now rewrite sizes_total.
  - destruct H2. rewrite app_length, total_cons. cbn. split; lia.
Qed.

Lemma rep_len : forall os fin t cs v, rep os fin t cs v -> List.length cs = size t.
Proof. intros os fin. apply (rep_len_all os fin). Qed.

Lemma rep_ext_all : forall os (fin : nat -> Prop) os' (fin' : nat -> Prop),
  (forall o, fin o -> nth_error os' o = nth_error os o /\ fin' o) ->
  (forall t cs v, rep os fin t cs v -> rep os' fin' t cs v) /\
  (forall ts cs vs, reps os fin ts cs vs -> reps os' fin' ts cs vs) /\
  (forall t es kvs, repm os fin t es kvs -> repm os' fin' t es kvs).
Proof.
  intros os fin os' fin' H. apply rep_all; intros; try (constructor; auto; fail).
  - destruct (H _ H0) as [E F]. eapply R_Dyn; eauto. congruence.
  - destruct (H _ H0) as [E F]. eapply R_Map; eauto. congruence.
Qed.

Lemma rep_ext : forall os (fin : nat -> Prop) os' (fin' : nat -> Prop) t cs v,
  (forall o, fin o -> nth_error os' o = nth_error os o /\ fin' o) ->
  rep os fin t cs v -> rep os' fin' t cs v.
Proof. intros. eapply (proj1 (rep_ext_all os fin os' fin' H)); auto. Qed.

Lemma repm_ext : forall os (fin : nat -> Prop) os' (fin' : nat -> Prop) t es kvs,
  (forall o, fin o -> nth_error os' o = nth_error os o /\ fin' o) ->
  repm os fin t es kvs -> repm os' fin' t es kvs.
Proof. intros. eapply (proj2 (proj2 (rep_ext_all os fin os' fin' H))); auto. Qed.

Lemma zero_rep : forall os fin t,
  rep os fin t (repeat (CInt 0) (size t)) (zeroV t).
Proof.
  intros os fin.
  apply (ty_mut
    (fun t => rep os fin t (repeat (CInt 0) (size t)) (zeroV t))
    (fun fs => reps os fin (map snd (fieldList fs)) (repeat (CInt 0) (sizes fs))
                    (zeroVs fs))).
  - constructor.
  - intros n t IH. cbn [size zeroV]. constructor.
    induction n; cbn [repeat Nat.mul]; [constructor|].
    rewrite repeat_app. constructor; auto.
  - intros fs IH. cbn [size zeroV]. fold sizes. fold zeroVs. now constructor.
  - intros. constructor.
  - intros. constructor.
  - constructor.
  - intros f t IHt r IHr. cbn [sizes fieldList map snd zeroVs].
    rewrite repeat_app. constructor; auto.
Qed.

(** Values in consecutive places of the stack. *)
Fixpoint repsAt (os : list obj) (fin : nat -> Prop) (m : nat -> cell) (a : nat)
  (ts : list ty) (vs : list value) : Prop :=
  match ts, vs with
  | [], [] => True
  | t :: ts, v :: vs =>
      rep os fin t (slice m a (size t)) v /\ repsAt os fin m (a + size t) ts vs
  | _, _ => False
  end.

Lemma repsAt_reps : forall os fin m ts a vs,
  repsAt os fin m a ts vs <-> reps os fin ts (slice m a (total ts)) vs.
Proof.
  induction ts as [|t ts IH]; intros a vs.
  - destruct vs; cbn; split; auto.
    + intros _. constructor.
    + contradiction.
    + intros H; inversion H.
  - rewrite total_cons, slice_app. destruct vs as [|v vs]; cbn [repsAt].
    + split; [contradiction|]. intros H; inversion H.
    + rewrite IH. split.
      * intros [H1 H2]. now constructor.
      * intros H. inversion H as [|t' ts' c cs v' vs' H1 H2 E1 E2 E3]; subst.
        apply app_eq_len in E2.
        -- destruct E2; subst; auto.
        -- rewrite slice_len. eapply rep_len; eauto.
Qed.

Lemma repsAt_frame : forall os fin m m' ts a vs,
  (forall i, a <= i < a + total ts -> m' i = m i) ->
  repsAt os fin m a ts vs -> repsAt os fin m' a ts vs.
Proof.
  induction ts as [|t ts IH]; intros a vs Hm H; destruct vs; cbn [repsAt] in *; auto.
  destruct H as [H1 H2]. rewrite total_cons in Hm. split.
  - rewrite (slice_ext m m'); auto. intros. apply Hm. lia.
  - apply IH; auto. intros. apply Hm. lia.
Qed.

Lemma repsAt_ext : forall os (fin : nat -> Prop) os' (fin' : nat -> Prop) m ts a vs,
  (forall o, fin o -> nth_error os' o = nth_error os o /\ fin' o) ->
  repsAt os fin m a ts vs -> repsAt os' fin' m a ts vs.
Proof.
  induction ts as [|t ts IH]; intros a vs Hm H; destruct vs; cbn [repsAt] in *; auto.
  destruct H as [H1 H2]. split; eauto using rep_ext.
Qed.

Lemma repsAt_set : forall os fin ts m a vs j u c v,
  repsAt os fin m a ts vs -> nth_error ts j = Some u -> rep os fin u c v ->
  repsAt os fin (blit m (a + total (firstn j ts)) c) a ts (setNth vs j v).
Proof.
  induction ts as [|t ts IH]; intros m a vs j u c v H Hj Hr; [destruct j; discriminate|].
  destruct vs as [|w vs]; cbn [repsAt] in H; [contradiction|]. destruct H as [H1 H2].
  pose proof (rep_len _ _ _ _ _ Hr) as Hl.
  destruct j; cbn [nth_error firstn setNth repsAt] in *.
  - injection Hj as <-. cbn [total map list_sum fold_right]. rewrite Nat.add_0_r. split.
    + rewrite <- Hl, slice_blit. auto.
    + eapply repsAt_frame; [|eassumption]. intros. apply blit_out. lia.
  - rewrite total_cons, Nat.add_assoc. split.
    + rewrite slice_blit_out; auto. lia.
    + eapply IH; eauto.
Qed.

Lemma repsAt_app : forall os fin m ts us a vs ws,
  repsAt os fin m a ts vs -> repsAt os fin m (a + total ts) us ws ->
  repsAt os fin m a (ts ++ us) (vs ++ ws).
Proof.
  induction ts as [|t ts IH]; intros us a vs ws H1 H2; destruct vs; cbn [repsAt] in H1;
    try contradiction.
  - cbn in H2. rewrite Nat.add_0_r in H2. auto.
  - destruct H1. cbn [app repsAt]. split; auto. apply IH; auto.
    rewrite total_cons in H2. now rewrite <- Nat.add_assoc.
Qed.

Lemma repsAt_len : forall os fin m ts a vs,
  repsAt os fin m a ts vs -> List.length vs = List.length ts.
Proof.
  induction ts; destruct vs; cbn; intros; try contradiction; auto.
  f_equal. eapply IHts. apply H.
Qed.

(** * Places of items *)
Definition compTys (t : ty) : list ty :=
  match t with
  | TArr n b => repeat b n
  | TRec fs => map snd (fieldList fs)
  | _ => []
  end.

Definition idx (t : ty) (named : bool) (f : option fname) (k : nat) : option nat :=
  match t with
  | TRec fs => if named
               then match f with Some f => findField fs f | None => None end
               else Some k
  | _ => Some k
  end.

Lemma fieldAt_off : forall fs k f t o, fieldAt fs k = Some (f, t, o) ->
  o = total (firstn k (map snd (fieldList fs))).
Proof.
  induction fs as [|g u r IH]; intros k f t o H; cbn in H; [discriminate|].
  destruct k; cbn [fieldList map firstn].
  - injection H as <- <- <-. reflexivity.
  - destruct (fieldAt r k) as [[[? ?] ?]|] eqn:E; [|discriminate].
    injection H as <- <- <-. rewrite total_cons. cbn. f_equal. eapply IH; eauto.
Qed.

Definition offOk (t : ty) (k off : nat) : Prop :=
  match t with TArr _ b => off = k * size b | _ => True end.

Lemma firstn_repeat : forall A (a : A) n k, k <= n ->
  firstn k (repeat a n) = repeat a k.
Proof.
  induction n; intros k H; destruct k; cbn; auto; try lia. f_equal. apply IHn. lia.
Qed.

Lemma itemPlace_ok : forall t named f k off j u,
  idx t named f k = Some j -> nth_error (compTys t) j = Some u -> offOk t k off ->
  itemPlace t named f k off = Some (u, total (firstn j (compTys t))).
Proof.
  intros t named f k off j u Hi Hj Ho.
  destruct t as [|n b|fs|b|b]; cbn in Hj; try (destruct j; discriminate).
  - cbn in *. injection Hi as <-.
    assert (k < n) by (rewrite <- (repeat_length b n); apply nth_error_Some; congruence).
    assert (u = b) by (apply nth_error_In, repeat_spec in Hj; auto).
    subst. rewrite firstn_repeat by lia. now rewrite total_repeat.
  - unfold itemPlace. cbn [idx] in Hi. rewrite Hi.
    pose proof (fieldAt_list fs j) as Hf.
    destruct (fieldAt fs j) as [[[g w] o]|] eqn:E.
    + rewrite (fieldAt_off _ _ _ _ _ E). cbn [compTys].
      rewrite (map_nth_error snd _ _ Hf) in Hj. cbn in Hj. congruence.
    + apply nth_error_None in Hf.
      assert (j < List.length (map snd (fieldList fs)))
        by (apply nth_error_Some; congruence).
      rewrite map_length in *. lia.
Qed.

Section Sim.
Variable tys : list ty.
Variable addr : list nat.
Variable nv : nat.
Hypothesis lay : layout tys addr nv.

Notation run := (run tys addr).
Notation runItems := (runItems tys addr).
Notation runAll := (runAll tys addr).
Notation runPairs := (runPairs tys addr).

Fixpoint placed (t : ty) (named : bool) (k : nat) (its : items) : Prop :=
  match its with
  | INil => True
  | ICons f e r =>
      (exists j u, idx t named f k = Some j /\
                   nth_error (compTys t) j = Some u /\ hasTy tys e u) /\
      placed t named (S k) r
  end.

Fixpoint applyL (t : ty) (named : bool) (k : nat)
  (l : list (option fname * value)) (cur : list value) : list value :=
  match l with
  | [] => cur
  | (f, v) :: l =>
      applyL t named (S k) l
        (match idx t named f k with Some j => setNth cur j v | None => cur end)
  end.

(** * Invariant *)
Definition Inv (fin : nat -> Prop) (st : state) (s : store) : Prop :=
  List.length s = List.length tys /\
  nv <= top st /\
  (forall o, fin o -> o < List.length (objs st)) /\
  (forall x t a v,
     nth_error tys x = Some t -> nth_error addr x = Some a ->
     nth_error s x = Some v ->
     rep (objs st) fin t (slice (stk st) a (size t)) v).

(** What an evaluation leaves alone: temporary variables outside [lo, hi), and
    objects other than [x]. *)
Definition Ext (lo hi : nat) (x : option nat) (fin : nat -> Prop) (st : state)
  (fin' : nat -> Prop) (st' : state) : Prop :=
  top st <= top st' /\
  (forall i, nv <= i < top st -> ~ (lo <= i < hi) -> stk st' i = stk st i) /\
  List.length (objs st) <= List.length (objs st') /\
  (forall o, o < List.length (objs st) -> x <> Some o ->
     nth_error (objs st') o = nth_error (objs st) o) /\
  (forall o, o < List.length (objs st) -> (fin' o <-> fin o)).

Lemma Ext_refl : forall lo hi x fin st, Ext lo hi x fin st fin st.
Proof. intros. unfold Ext. repeat split; auto. Qed.

Lemma Ext_trans : forall lo hi x f1 s1 f2 s2 f3 s3,
  Ext lo hi x f1 s1 f2 s2 -> Ext lo hi x f2 s2 f3 s3 -> Ext lo hi x f1 s1 f3 s3.
Proof.
  unfold Ext. intros lo hi x f1 s1 f2 s2 f3 s3 (A1 & A2 & A3 & A4 & A5)
    (B1 & B2 & B3 & B4 & B5).
  split; [lia|]. split; [|split; [lia|split]].
  - intros i H1 H2. rewrite B2, A2; auto. lia.
  - intros o H1 H2. rewrite B4, A4; auto. lia.
  - intros o H1. rewrite B5, A5; auto; [tauto|lia].
Qed.

Lemma Ext_weak : forall lo hi x f1 s1 f2 s2,
  Ext 0 0 None f1 s1 f2 s2 -> Ext lo hi x f1 s1 f2 s2.
Proof.
  unfold Ext. intros lo hi x f1 s1 f2 s2 (A1 & A2 & A3 & A4 & A5).
  split; [auto|]. split; [|split; [auto|split; auto]].
  - intros i H1 H2. apply A2; auto. lia.
  - intros o H1 H2. apply A4; auto. discriminate.
Qed.

Lemma Ext_fin : forall lo hi x (f1 : nat -> Prop) s1 (f2 : nat -> Prop) s2,
  (forall o, f1 o -> o < List.length (objs s1)) ->
  (forall o, x = Some o -> ~ f1 o) ->
  Ext lo hi x f1 s1 f2 s2 ->
  forall o, f1 o -> nth_error (objs s2) o = nth_error (objs s1) o /\ f2 o.
Proof.
  unfold Ext. intros lo hi x f1 s1 f2 s2 Hf Hx (A1 & A2 & A3 & A4 & A5) o Ho.
  split.
  - apply A4; auto. intros E. apply (Hx _ E Ho).
  - apply A5; auto.
Qed.

Definition holdsF (fin : nat -> Prop) (st : state) (t : ty) (sl : slot) (v : value) :=
  exists cs, load st t sl = Ok cs /\ rep (objs st) fin t cs v.

Definition loc (e : expr) (t : ty) (sl : slot) (st : state) : Prop :=
  match sl with
  | SNum _ => True
  | SPtr a =>
      (exists x, e = EVar x /\ nth_error addr x = Some a /\ nth_error tys x = Some t)
      \/ (nv <= a /\ a + size t <= top st)
  end.

Lemma loc_below : forall e t a st fin s, Inv fin st s -> loc e t (SPtr a) st ->
  a + size t <= top st.
Proof.
  intros e t a st fin s (_ & Ht & _) [(x & _ & H1 & H2)|[_ H]]; auto.
  destruct lay as (_ & L & _). specialize (L _ _ _ H2 H1). lia.
Qed.

(** * Assignments *)
Lemma load_num : forall st t z cs, load st t (SNum z) = Ok cs -> t = TInt.
Proof. intros st t z cs H. destruct t; cbn in H; congruence. Qed.

Lemma load_ptr : forall st t a cs, load st t (SPtr a) = Ok cs ->
  t <> TInt /\ cs = slice (stk st) a (size t).
Proof. intros st t a cs H. destruct t; cbn [load] in H; split; congruence. Qed.

Lemma load_ptr_ok : forall st t a, t <> TInt ->
  load st t (SPtr a) = Ok (slice (stk st) a (size t)).
Proof. intros st t a H. destruct t; cbn; congruence. Qed.

Lemma load_frame : forall st st' t sl cs,
  load st t sl = Ok cs ->
  (forall a i, sl = SPtr a -> a <= i < a + size t -> stk st' i = stk st i) ->
  load st' t sl = Ok cs.
Proof.
  intros st st' t sl cs H Hm. destruct sl as [z|a].
  - pose proof (load_num _ _ _ _ H). subst. exact H.
  - destruct (load_ptr _ _ _ _ H) as [Ht ->]. rewrite load_ptr_ok by auto. f_equal.
    apply slice_ext. eauto.
Qed.

Lemma Inv_temp : forall fin st s m,
  Inv fin st s -> (forall i, i < nv -> m i = stk st i) ->
  Inv fin (mkState m (top st) (objs st)) s.
Proof.
  intros fin st s m (H1 & H2 & H3 & H4) Hm. split; [auto|split; [auto|split; [auto|]]].
  intros x t a v Hx Ha Hv. cbn [objs stk]. rewrite (slice_ext (stk st) m).
  - eauto.
  - intros i Hi. apply Hm. destruct lay as (_ & L & _).
    specialize (L _ _ _ Hx Ha). lia.
Qed.

Lemma Inv_top : forall fin st s n, Inv fin st s ->
  Inv fin (mkState (stk st) (top st + n) (objs st)) s.
Proof.
  intros fin st s n (H1 & H2 & H3 & H4). split; [auto|split; [cbn; lia|split; auto]].
Qed.

Lemma Inv_objs : forall fin st s (fin' : nat -> Prop) os,
  Inv fin st s ->
  (forall o, fin o -> nth_error os o = nth_error (objs st) o /\ fin' o) ->
  (forall o, fin' o -> o < List.length os) ->
  Inv fin' (mkState (stk st) (top st) os) s.
Proof.
  intros fin st s fin' os (H1 & H2 & H3 & H4) Ho Hf.
  split; [auto|split; [auto|split; [auto|]]].
  intros x t a v Hx Ha Hv. cbn [objs stk]. eapply rep_ext; eauto.
Qed.

Lemma set_var : forall fin st s x t a sl v,
  Inv fin st s -> nth_error tys x = Some t -> nth_error addr x = Some a ->
  holdsF fin st t sl v ->
  exists st', assign st t a sl = Ok st' /\ Ext 0 0 None fin st fin st' /\
              Inv fin st' (setNth s x v).
Proof.
  intros fin st s x t a sl v HI Hx Ha (cs & Hl & Hr).
  pose proof (rep_len _ _ _ _ _ Hr) as Hlen.
  destruct HI as (H1 & H2 & H3 & H4). destruct lay as (L0 & L1 & L2).
  unfold assign. rewrite Hl. cbn [bind]. eexists; split; [reflexivity|].
  specialize (L1 _ _ _ Hx Ha) as Hb. split.
  - unfold Ext. cbn [top stk objs]. split; [auto|]. split; [|repeat split; auto].
    intros i Hi _. apply blit_out. lia.
  - split; [rewrite setNth_len; auto|]. split; [auto|]. split; [auto|].
    cbn [objs stk]. intros y u b w Hy Hb' Hw. rewrite setNth_nth in Hw.
    destruct (Nat.eqb_spec y x) as [->|Hne].
    + rewrite Hx in Hy. rewrite Ha in Hb'. injection Hy as <-. injection Hb' as <-.
      destruct (x <? List.length s); [|discriminate]. injection Hw as <-.
      rewrite <- Hlen, slice_blit. auto.
    + rewrite slice_blit_out; eauto.
      destruct (L2 y x u t b a Hne Hy Hb' Hx Ha); [left|right]; lia.
Qed.

(** * Values of variables that are not assigned *)
Lemma not_set :
  (forall e x s, sets x e = false -> nth_error (snd (ev e s)) x = nth_error s x) /\
  (forall its x s, setsItems x its = false ->
     nth_error (snd (evItems its s)) x = nth_error s x) /\
  (forall ps x acc s, setsPairs x ps = false ->
     nth_error (snd (evPairs ps acc s)) x = nth_error s x).
Proof.
  apply exprs_mut; try (intros; reflexivity).
  - intros y e IH x s H. cbn [sets] in H. apply orb_false_iff in H. destruct H as [H1 H2].
    cbn [ev]. specialize (IH x s H2). destruct (ev e s) as [v s1]. cbn [snd] in *.
    rewrite setNth_nth, H1. auto.
  - intros t its IH x s H. cbn [sets] in H. cbn [ev]. fold evItems.
    specialize (IH x s H). destruct (evItems its s). auto.
  - intros t ps IH x s H. cbn [sets] in H. cbn [ev]. fold evPairs.
    specialize (IH x [] s H). destruct (evPairs ps [] s). auto.
  - intros f e IHe r IHr x s H. cbn [setsItems] in H. apply orb_false_iff in H.
    destruct H as [H1 H2]. cbn [evItems]. fold ev. specialize (IHe x s H1).
    destruct (ev e s) as [v s1]. specialize (IHr x s1 H2).
    destruct (evItems r s1). cbn [snd] in *. congruence.
  - intros k IHk e IHe r IHr x acc s H. cbn [setsPairs] in H.
    apply orb_false_iff in H. destruct H as [H1 H2].
    apply orb_false_iff in H2. destruct H2 as [H2 H3].
    cbn [evPairs]. fold ev. specialize (IHk x s H1).
    destruct (ev k s) as [kv s1]. specialize (IHe x s1 H2).
    destruct (ev e s1) as [v s2]. cbn [snd] in *.
    rewrite IHr; auto. congruence.
Qed.

(** * Maps *)
Lemma mapHas_repm : forall os fin t es kvs k, repm os fin t es kvs ->
  mapHas es k = existsb (fun p => Z.eqb (fst p) k) kvs.
Proof. intros os fin t es kvs k H. induction H; cbn; congruence. Qed.

Lemma repm_put_old : forall os fin t es kvs k c v,
  repm os fin t es kvs -> rep os fin t c v -> mapHas es k = true ->
  repm os fin t (mapPut es k c) (mapSet kvs k v).
Proof.
  intros os fin t es kvs k c v H Hr. induction H; cbn; intros Hh; [discriminate|].
  destruct (Z.eqb_spec k0 k) as [->|Hne]; cbn in Hh; constructor; auto.
Qed.

Lemma repm_put_new : forall os fin t es kvs k z c v,
  repm os fin t es kvs -> rep os fin t c v -> mapHas es k = false ->
  repm os fin t (mapPut (es ++ [(k, z)]) k c) (mapSet kvs k v).
Proof.
  intros os fin t es kvs k z c v H Hr. induction H; cbn; intros Hh.
  - rewrite Z.eqb_refl. constructor; auto. constructor.
  - destruct (Z.eqb_spec k0 k) as [->|Hne]; cbn in Hh; [discriminate|].
    constructor; auto.
Qed.

(** * The stored items of a dynamic array *)
Lemma storeBack_ok : forall fin b a xs st vs,
  Forall2 (holdsF fin st b) xs vs ->
  (forall p, In (SPtr p) xs -> p + size b <= a) ->
  exists st', storeBack st b a (List.length xs) (rev xs) = Ok st' /\
    top st' = top st /\ objs st' = objs st /\
    (forall i, i < a \/ a + List.length xs * size b <= i -> stk st' i = stk st i) /\
    repsAt (objs st) fin (stk st') a (repeat b (List.length xs)) vs.
Proof.
  intros fin b a xs. induction xs as [|x xs IH] using rev_ind; intros st vs HF Hp.
  - inversion HF; subst. exists st. cbn. repeat split; auto.
  - apply Forall2_app_inv_l in HF. destruct HF as (vs1 & vs2 & HF & HL & ->).
    inversion HL as [|? v ? ? (cs & Hl & Hr) HL']; subst. inversion HL'; subst.
    pose proof (rep_len _ _ _ _ _ Hr) as Hlen.
    rewrite rev_app_distr. cbn [rev app]. rewrite app_length. cbn [List.length].
    rewrite Nat.add_1_r. cbn [storeBack]. unfold assign at 1. rewrite Hl. cbn [bind].
    set (st1 := mkState _ _ _).
    destruct (IH st1 vs1) as (st' & E & Ht & Ho & Hs & HR).
    { assert (K1 : forall i, i < a -> stk st1 i = stk st i)
        by (intros i Hi; cbn [st1 stk]; apply blit_out; lia).
      assert (K2 : objs st1 = objs st) by reflexivity.
      clearbody st1. clear -HF Hp K1 K2. induction HF as [|y w ys ws (c & H1 & H2) HF IH]; constructor.
      - exists c. rewrite K2. split; [|exact H2]. eapply load_frame; [exact H1|].
        intros p i -> Hi. apply K1.
        specialize (Hp p (or_introl eq_refl)). lia.
      - apply IH. intros p Hin. apply Hp. now right. }
    { intros p Hin. apply Hp. apply in_or_app. now left. }
    exists st'. split; [exact E|]. split; [exact Ht|]. split; [exact Ho|]. split.
    + intros i Hi. rewrite Hs by lia. cbn [st1 stk]. apply blit_out. lia.
    + change (repeat b (S (List.length xs))) with (b :: repeat b (List.length xs)).
      rewrite repeat_cons. apply repsAt_app; [exact HR|].
      rewrite total_repeat. cbn [repsAt]. split; auto.
      rewrite (slice_ext (stk st1) (stk st')) by (intros; apply Hs; lia).
      cbn [st1 stk]. rewrite <- Hlen, slice_blit. auto.
Qed.

(** * Simulation *)
Definition simE (e : expr) : Prop :=
  forall t fin st s, hasTy tys e t -> wf e -> safe e -> Inv fin st s ->
  exists sl st' fin',
    run e st = Ok (sl, st') /\ Ext 0 0 None fin st fin' st' /\
    Inv fin' st' (snd (ev e s)) /\ holdsF fin' st' t sl (fst (ev e s)) /\
    loc e t sl st'.

Definition simI (its : items) : Prop :=
  (forall t named a k off fin st s cur,
     placed t named k its -> wfItems its -> safeItems its -> Inv fin st s ->
     nv <= a -> a + size t <= top st -> size t = total (compTys t) ->
     offOk t k off ->
     repsAt (objs st) fin (stk st) a (compTys t) cur ->
     exists st' fin',
       runItems t named a k off its st = Ok st' /\
       Ext a (a + size t) None fin st fin' st' /\
       Inv fin' st' (snd (evItems its s)) /\
       repsAt (objs st') fin' (stk st') a (compTys t)
         (applyL t named k (fst (evItems its s)) cur)) /\
  (forall b fin st s acc,
     (forall f e, In (f, e) (itemList its) -> hasTy tys e b) ->
     wfItems its -> safeItems its -> (b = TInt \/ orderly its) -> Inv fin st s ->
     exists ss st' fin',
       runAll its acc st = Ok (rev ss ++ acc, st') /\
       Ext 0 0 None fin st fin' st' /\
       Inv fin' st' (snd (evItems its s)) /\
       Forall2 (holdsF fin' st' b) ss (map snd (fst (evItems its s))) /\
       (forall p, In (SPtr p) ss -> p + size b <= top st')).

Definition simP (ps : pairs) : Prop :=
  forall b o fin st s es acc,
    (forall k e, In (k, e) (pairList ps) -> hasTy tys k TInt) ->
    (forall k e, In (k, e) (pairList ps) -> hasTy tys e b) ->
    wfPairs ps -> safePairs ps -> Inv fin st s ->
    ~ fin o -> nth_error (objs st) o = Some (OMap es) ->
    repm (objs st) fin b es acc ->
    exists st' fin' es',
      runPairs b o ps st = Ok st' /\
      Ext 0 0 (Some o) fin st fin' st' /\
      Inv fin' st' (snd (evPairs ps acc s)) /\
      nth_error (objs st') o = Some (OMap es') /\
      repm (objs st') fin' b es' (fst (evPairs ps acc s)).

Lemma holds_num : forall fin st sl v, holdsF fin st TInt sl v ->
  exists z, sl = SNum z /\ v = VNum z.
Proof.
  intros fin st sl v (cs & Hl & Hr). destruct sl; cbn in Hl; [|discriminate].
  injection Hl as <-. inversion Hr; subst. eauto.
Qed.

Lemma sim_item : forall f e r, simE e -> simI r -> simI (ICons f e r).
Proof.
  intros f e r IHe [IH1 IH2]. split.
  - intros t named a k off fin st s cur [(j & u & Hi & Hj & Ht) Hp] [W1 W2] [S1 S2]
      HI Hnv Ha Hsz Ho HR.
    cbn [CompLitModel.runItems]. rewrite (itemPlace_ok _ _ _ _ _ _ _ Hi Hj Ho).
    fold run. destruct (IHe u fin st s Ht W1 S1 HI)
      as (sl & st1 & fin1 & E1 & X1 & I1 & (cs & Hl & Hr) & _).
    rewrite E1. cbn [bind]. unfold assign at 1. rewrite Hl. cbn [bind].
    set (o := total (firstn j (compTys t))) in *.
    set (st2 := mkState _ _ _).
    pose proof (rep_len _ _ _ _ _ Hr) as Hlen.
    assert (Hb : o + size u <= size t).
    { rewrite Hsz. subst o. clear -Hj. revert j Hj.
      induction (compTys t) as [|w ws IH]; intros j Hj; destruct j; cbn in Hj;
        try discriminate.
      - injection Hj as ->. rewrite total_cons. cbn. lia.
      - cbn [firstn]. rewrite !total_cons. specialize (IH _ Hj). lia. }
    assert (Hfin : forall o, fin o -> nth_error (objs st1) o = nth_error (objs st) o
                                      /\ fin1 o).
    { eapply Ext_fin with (x := None); [apply HI|discriminate|exact X1]. }
    pose proof (proj1 X1) as Htop.
    assert (I2 : Inv fin1 st2 (snd (ev e s))).
    { apply Inv_temp; auto. intros i Hi'. apply blit_out. lia. }
    cbn [evItems]. fold ev. destruct (ev e s) as [v s1] eqn:Eev. cbn [fst snd] in *.
    destruct (evItems r s1) as [l s2] eqn:Er. cbn [fst snd applyL].
    rewrite Hi.
    destruct (IH1 t named a (S k) (off + size u) fin1 st2 s1 (setNth cur j v))
      as (st' & fin' & E3 & X3 & I3 & R3); auto.
    + cbn [st2 top]. lia.
    + destruct t; cbn [offOk] in *; auto. cbn in Hj.
      apply nth_error_In, repeat_spec in Hj. subst. lia.
    + cbn [st2 objs stk]. apply (repsAt_set _ _ _ _ _ _ _ u); auto.
      eapply repsAt_ext; [exact Hfin|].
      eapply repsAt_frame; [|exact HR]. rewrite <- Hsz. intros i Hii.
      destruct X1 as (_ & X1 & _). apply X1; lia.
    + rewrite Er in *. cbn [fst snd] in *. exists st', fin'.
      split; [exact E3|]. split; [|split; auto].
      eapply Ext_trans; [apply Ext_weak; exact X1|].
      eapply Ext_trans; [|exact X3].
      unfold Ext, st2. cbn [top stk objs]. split; [auto|].
      split; [|repeat split; auto]. intros i Hi1 Hi2. apply blit_out. lia.
  - intros b fin st s acc Ht [W1 W2] [S1 S2] Hord HI. cbn [CompLitModel.runAll].
    fold run. destruct (IHe b fin st s) as (sl & st1 & fin1 & E1 & X1 & I1 & H1 & L1);
      auto.
    { eapply Ht. now left. }
    rewrite E1. cbn [bind].
    cbn [evItems]. fold ev. destruct (ev e s) as [v s1] eqn:Eev. cbn [fst snd] in *.
    destruct (IH2 b fin1 st1 s1 (sl :: acc)) as (ss & st2 & fin2 & E2 & X2 & I2 & H2 & B2);
      auto.
    { intros f' e' Hin. eapply Ht. right. exact Hin. }
    { destruct Hord as [Hord|[_ Hord]]; auto. }
    destruct (evItems r s1) as [l s2] eqn:Er. cbn [fst snd map] in *.
    exists (sl :: ss), st2, fin2. split; [|split; [|split; [|split]]].
    + rewrite E2. cbn [rev]. now rewrite <- app_assoc.
    + eapply Ext_trans; eauto.
    + auto.
    + constructor; auto. destruct H1 as (cs & Hl & Hr).
      assert (Hfin : forall o, fin1 o -> nth_error (objs st2) o = nth_error (objs st1) o
                                      /\ fin2 o).
      { eapply Ext_fin with (x := None); [apply I1|discriminate|exact X2]. }
      destruct sl as [z|p].
      * pose proof (load_num _ _ _ _ Hl). subst b. exists cs. split; [exact Hl|].
        eapply rep_ext; eauto.
      * destruct (load_ptr _ _ _ _ Hl) as [Hb Hcs].
        destruct L1 as [(x & -> & Hxa & Hxt)|[Hp1 Hp2]].
        -- destruct Hord as [Hord|[Hord _]]; [contradiction|].
           cbn [ev] in Eev. injection Eev as <- <-.
           exists (slice (stk st2) p (size b)). split; [now apply load_ptr_ok|].
           destruct I2 as (I2a & _ & _ & I2). eapply I2; eauto.
           pose proof (proj1 (proj2 not_set) r x s Hord) as Hns.
           rewrite Er in Hns. cbn [snd] in Hns. rewrite Hns.
           apply nth_error_nth'. destruct HI as (-> & _).
           apply nth_error_Some. congruence.
        -- exists cs. split.
           ++ eapply load_frame; [exact Hl|]. intros q i Hq Hi.
              injection Hq as <-. destruct X2 as (_ & X2 & _). apply X2; lia.
           ++ eapply rep_ext; eauto.
    + intros p [->|Hin]; auto.
      pose proof (loc_below _ _ _ _ _ _ I1 L1). destruct X2 as (X2 & _). lia.
Qed.

Lemma sim_pair : forall k e r, simE k -> simE e -> simP r -> simP (PCons k e r).
Proof.
  intros k e r IHk IHe IHr b o fin st s es acc Tk Te (W1 & W2 & W3) (S1 & S2 & S3)
    HI Hno Hob Hm.
  cbn [CompLitModel.runPairs]. fold run.
  destruct (IHk TInt fin st s) as (sl & st1 & fin1 & E1 & X1 & I1 & H1 & _); auto.
  { eapply Tk. now left. }
  rewrite E1. cbn [bind]. destruct (holds_num _ _ _ _ H1) as (z & -> & Hkv).
  cbn [evPairs]. fold ev. destruct (ev k s) as [kv s1] eqn:Ek. cbn [fst snd] in *.
  subst kv. cbn [keyOf].
  assert (Hol : o < List.length (objs st)) by (apply nth_error_Some; congruence).
  assert (Hob1 : nth_error (objs st1) o = Some (OMap es)).
  { destruct X1 as (_ & _ & _ & X1 & _). rewrite X1; auto. discriminate. }
  assert (Hno1 : ~ fin1 o).
  { destruct X1 as (_ & _ & _ & _ & X1). now rewrite X1. }
  assert (Hfin1 : forall o, fin o -> nth_error (objs st1) o = nth_error (objs st) o
                                      /\ fin1 o).
  { eapply Ext_fin with (x := None); [apply HI|discriminate|exact X1]. }
  assert (Hm1 : repm (objs st1) fin1 b es acc) by (eapply repm_ext; eauto).
  assert (Hol1 : o < List.length (objs st1)) by (apply nth_error_Some; congruence).
  (* the node *)
  assert (G : exists es2 st2, getMapPtr st1 o z (size b) = Ok st2 /\
                stk st2 = stk st1 /\ top st2 = top st1 /\
                objs st2 = setNth (objs st1) o (OMap es2) /\
                forall os f c v, repm os f b es acc -> rep os f b c v ->
                  repm os f b (mapPut es2 z c) (mapSet acc z v)).
  { unfold getMapPtr. rewrite Hob1. destruct (mapHas es z) eqn:Eh.
    - exists es, st1. split; [auto|]. split; [auto|]. split; [auto|]. split.
      + clear -Hob1. revert o Hob1. induction (objs st1) as [|x l IH]; intros o H;
          destruct o; cbn in *; try discriminate; [congruence|]. f_equal. auto.
      + intros. now apply repm_put_old.
    - eexists _, _. split; [reflexivity|]. cbn [stk top objs].
      split; [auto|]. split; [auto|]. split; [reflexivity|].
      intros. now apply repm_put_new. }
  destruct G as (es2 & st2 & -> & Gs & Gt & Go & Gm). cbn [bind].
  assert (I2 : Inv fin1 st2 s1).
  { destruct st2 as [m2 t2 o2]; cbn in Gs, Gt, Go. subst. apply Inv_objs with (fin := fin1);
      auto.
    - intros i Hi. split; auto. rewrite setNth_nth.
      destruct (Nat.eqb_spec i o); auto. subst. contradiction.
    - intros i Hi. rewrite setNth_len. now apply I1. }
  destruct (IHe b fin1 st2 s1) as (sl & st3 & fin3 & E3 & X3 & I3 & (cs & Hl & Hr) & _);
    auto.
  { eapply Te. now left. }
  rewrite E3. cbn [bind]. unfold assignMap at 1. rewrite Hl. cbn [bind].
  destruct (ev e s1) as [v s2] eqn:Ev. cbn [fst snd] in *.
  assert (Hol2 : o < List.length (objs st2)) by (rewrite Go, setNth_len; auto).
  assert (Hob3 : nth_error (objs st3) o = Some (OMap es2)).
  { destruct X3 as (_ & _ & _ & X3 & _). rewrite X3 by (auto; discriminate).
    rewrite Go, setNth_nth, Nat.eqb_refl.
    destruct (Nat.ltb_spec o (List.length (objs st1))); auto; lia. }
  rewrite Hob3. cbn [bind].
  set (st4 := mkState _ _ _).
  assert (Hno3 : ~ fin3 o).
  { destruct X3 as (_ & _ & _ & _ & X3). now rewrite X3. }
  assert (Hfin3 : forall o, fin1 o -> nth_error (objs st3) o = nth_error (objs st2) o
                                      /\ fin3 o).
  { eapply Ext_fin with (x := None); [apply I2|discriminate|exact X3]. }
  assert (Hf34 : forall i, fin3 i -> nth_error (objs st4) i = nth_error (objs st3) i
                                     /\ fin3 i).
  { intros i Hi. split; auto. cbn [st4 objs]. rewrite setNth_nth.
    destruct (Nat.eqb_spec i o); auto. subst; contradiction. }
  assert (I4 : Inv fin3 st4 s2).
  { apply Inv_objs with (fin := fin3); auto. intros i Hi. rewrite setNth_len.
    now apply I3. }
  assert (Hm3 : repm (objs st3) fin3 b es acc).
  { eapply repm_ext; [|exact Hm1]. intros i Hi. destruct (Hfin3 i Hi) as [F1 F2].
    split; auto. rewrite F1, Go, setNth_nth. destruct (Nat.eqb_spec i o); auto.
    subst; contradiction. }
  destruct (IHr b o fin3 st4 s2 (mapPut es2 z cs) (mapSet acc z v))
    as (st' & fin' & es' & E5 & X5 & I5 & O5 & M5); auto.
  { intros k' e' Hin. eapply Tk. right. exact Hin. }
  { intros k' e' Hin. eapply Te. right. exact Hin. }
  { cbn [st4 objs]. rewrite setNth_nth, Nat.eqb_refl.
    destruct (Nat.ltb_spec o (List.length (objs st3))); auto.
    assert (o < List.length (objs st3)) by (apply nth_error_Some; congruence). lia. }
  { eapply repm_ext; [exact Hf34|]. now apply Gm. }
  exists st', fin', es'. split; [exact E5|]. split; [|split; auto].
  eapply Ext_trans; [apply Ext_weak; exact X1|].
  eapply Ext_trans with (f2 := fin1) (s2 := st2).
  { unfold Ext. rewrite Gs, Gt, Go, setNth_len. split; [auto|]. split; [auto|].
    split; [auto|]. split; [|intros; reflexivity].
    intros i Hi Hne. rewrite setNth_nth. destruct (Nat.eqb_spec i o); auto. congruence. }
  eapply Ext_trans; [apply Ext_weak; exact X3|].
  eapply Ext_trans; [|exact X5].
  unfold Ext, st4. cbn [top stk objs]. rewrite setNth_len. split; [auto|].
  split; [auto|]. split; [auto|]. split; [|intros; reflexivity].
  intros i Hi Hne. rewrite setNth_nth. destruct (Nat.eqb_spec i o); auto. congruence.
Qed.
End Sim.
