(** Proofs about the storage. *)
From Coq Require Import ZArith Lia Bool List.
From Coq Require Import ZifyBool.
From Verif Require Import Base StorModel StorSpec.
Import ListNotations.
Local Open Scope Z_scope.

Definition addr (x : Z * list Z) : Z := fst x - CHUNK_HEADER.

(** A segment of the list: the blocks [l] from [p] (whose prev is [prev]) on; [q] follows it and [pl] is its last chunk. *)
Fixpoint seg (m : Z -> option chunk) (prev p : Z) (l : blocks) (pl q : Z) : Prop :=
  match l with
  | [] => p = q /\ prev = pl
  | x :: r => p = addr x /\ p <> 0 /\ exists nx,
      m p = Some {| cprev := prev; cnext := nx; csize := Z.of_nat (length (snd x)); cdata := snd x |} /\ seg m p nx r pl q
  end.

Record R (s : storage) (l : blocks) : Prop := {
  R_seg : exists pl, seg (live (heap s)) 0 (first s) l pl 0;
  R_only : forall a, live (heap s) a <> None -> In a (map addr l);
  R_nodup : NoDup (map addr l)
}.

Lemma seg_frame : forall l m m' prev p pl q, (forall a, In a (map addr l) -> m' a = m a) ->
  seg m prev p l pl q -> seg m' prev p l pl q.
Proof.
  induction l as [|x r IH]; intros m m' prev p pl q F H; [exact H|].
  destruct H as (-> & N & nx & M & H). split; [reflexivity|]. split; [exact N|]. exists nx. split.
  - rewrite F; [exact M|]. left; reflexivity.
  - eapply IH; [|exact H]. intros a I. apply F. right; exact I.
Qed.

Lemma seg_app : forall l1 l2 m prev p pl q,
  seg m prev p (l1 ++ l2) pl q <-> exists q1 p1, seg m prev p l1 p1 q1 /\ seg m p1 q1 l2 pl q.
Proof.
  induction l1 as [|x r IH]; intros; cbn [app seg].
  - split.
    + intros H. exists p, prev. auto.
    + intros (q1 & p1 & (-> & ->) & H). exact H.
  - split.
    + intros (-> & N & nx & M & H). apply IH in H. destruct H as (q1 & p1 & H1 & H2).
      exists q1, p1. split; [|exact H2]. split; [reflexivity|]. split; [exact N|]. exists nx. auto.
    + intros (q1 & p1 & (-> & N & nx & M & H1) & H2). split; [reflexivity|]. split; [exact N|]. exists nx.
      split; [exact M|]. apply IH. eauto.
Qed.

Lemma seg_live : forall l m prev p pl q a, seg m prev p l pl q -> In a (map addr l) -> m a <> None.
Proof.
  induction l as [|x r IH]; intros m prev p pl q a H I; [destruct I|].
  destruct H as (-> & N & nx & M & H). destruct I as [<-|I]; [rewrite M; discriminate|]. eapply IH; eauto.
Qed.

(** The end of a segment. *)
Lemma seg_pl : forall l m prev p pl q, seg m prev p l pl q -> (l = [] /\ pl = prev /\ p = q) \/ (exists l1 x, l = l1 ++ [x] /\ pl = addr x /\ pl <> 0).
Proof.
  intros l. destruct l as [|y l' _] using rev_ind; intros m prev p pl q H.
  - destruct H as (-> & ->). auto.
  - right. exists l', y. split; [reflexivity|]. apply seg_app in H. destruct H as (q1 & p1 & _ & (-> & N & nx & M & (_ & <-))). auto.
Qed.

Lemma upd_same : forall m a c, upd m a c a = c.
Proof. intros. unfold upd. rewrite Z.eqb_refl. reflexivity. Qed.
Lemma upd_other : forall m a c b, b <> a -> upd m a c b = m b.
Proof. intros. unfold upd. destruct (b =? a) eqn:E; [lia|reflexivity]. Qed.

(** Changing what follows a segment: the next pointer of its last chunk. *)
Lemma seg_setNext : forall l h prev p pl q q', seg (live h) prev p l pl q -> l <> [] -> NoDup (map addr l) ->
  exists h', setNext h pl q' = Ok h' /\ freed h' = freed h /\ seg (live h') prev p l pl q' /\
    (forall a, a <> pl -> live h' a = live h a) /\ (live h' pl <> None).
Proof.
  intros l h prev p pl q q' H NE ND.
  destruct l as [|x l1 _] using rev_ind; [destruct NE; reflexivity|].
  apply seg_app in H. destruct H as (q1 & p1 & H1 & (-> & N & nx & M & (-> & <-))).
  unfold setNext. rewrite M. eexists. split; [reflexivity|]. cbn [freed live]. split; [reflexivity|].
  rewrite map_app in ND. cbn [map] in ND. apply NoDup_remove_2 in ND. rewrite app_nil_r in ND.
  split; [|split].
  - apply seg_app. exists (addr x), p1. split.
    + eapply seg_frame; [|exact H1]. intros a I. apply upd_other. intros ->. contradiction.
    + split; [reflexivity|]. split; [exact N|]. exists q'. rewrite upd_same. split; [reflexivity|]. split; reflexivity.
  - intros a D. apply upd_other. exact D.
  - rewrite upd_same. discriminate.
Qed.

(** Changing what precedes a segment: the prev pointer of its first chunk. *)
Lemma seg_setPrev : forall x l h prev p pl q prev', seg (live h) prev p (x :: l) pl q -> NoDup (map addr (x :: l)) ->
  exists h', setPrev h p prev' = Ok h' /\ freed h' = freed h /\ seg (live h') prev' p (x :: l) pl q /\
    (forall a, a <> p -> live h' a = live h a) /\ (live h' p <> None).
Proof.
  intros x l h prev p pl q prev' (-> & N & nx & M & H) ND.
  unfold setPrev. rewrite M. eexists. split; [reflexivity|]. cbn [freed live]. split; [reflexivity|].
  cbn [map] in ND. apply NoDup_cons_iff in ND. destruct ND as (ND & _).
  split; [|split].
  - cbn [seg]. split; [reflexivity|]. split; [exact N|]. exists nx. rewrite upd_same. cbn. split; [reflexivity|].
    eapply seg_frame; [|exact H]. intros a I. apply upd_other. intros ->. contradiction.
  - intros a D. apply upd_other. exact D.
  - rewrite upd_same. discriminate.
Qed.

Lemma get_in : forall l p d, get p l = Some d -> exists l1 l2, l = l1 ++ (p, d) :: l2 /\ get p l1 = None.
Proof.
  induction l as [|[q e] r IH]; intros p d H; [discriminate|]. cbn [get] in H. destruct (p =? q) eqn:E.
  - apply Z.eqb_eq in E. subst q. injection H as ->. exists [], r. auto.
  - destruct (IH _ _ H) as (l1 & l2 & -> & G). exists ((q, e) :: l1), l2. cbn [get app]. rewrite E. auto.
Qed.
Lemma get_none : forall l p, get p l = None <-> ~ In (p - CHUNK_HEADER) (map addr l).
Proof.
  induction l as [|[q e] r IH]; intros p; cbn [get map In]; [tauto|].
  unfold addr at 1. cbn [fst]. destruct (p =? q) eqn:E.
  - split; [discriminate|]. intros H. exfalso. apply H. left. lia.
  - rewrite IH. split; intros H K; apply H; [destruct K; [lia|auto]|auto].
Qed.
Lemma del_notin : forall l p, ~ In (p - CHUNK_HEADER) (map addr l) -> del p l = l.
Proof.
  induction l as [|[q e] r IH]; intros p H; [reflexivity|]. cbn [map In] in H. unfold addr at 1 in H. cbn [fst] in H.
  unfold del. cbn [filter fst]. destruct (q =? p) eqn:E.
  - exfalso. apply H. left. lia.
  - cbn [negb]. f_equal. apply IH. tauto.
Qed.
Lemma del_split : forall l1 l2 p d, NoDup (map addr (l1 ++ (p, d) :: l2)) -> del p (l1 ++ (p, d) :: l2) = l1 ++ l2.
Proof.
  intros l1 l2 p d ND. rewrite map_app in ND. cbn [map] in ND. pose proof (NoDup_remove_2 _ _ _ ND) as N.
  rewrite in_app_iff in N. unfold del. rewrite filter_app. cbn [filter fst]. rewrite Z.eqb_refl. cbn [negb].
  change (filter (fun x => negb (fst x =? p)) l1) with (del p l1). change (filter (fun x => negb (fst x =? p)) l2) with (del p l2).
  unfold addr at 2 in N. cbn [fst] in N. rewrite !del_notin by tauto. reflexivity.
Qed.

(** What an operation keeps: R, and the log of releases grows by exactly the released blocks. *)
Lemma remove_ok : forall s l p d, R s l -> get p l = Some d ->
  exists s', storageRemove s p = Ok s' /\ R s' (del p l) /\ freed (heap s') = (p - CHUNK_HEADER) :: freed (heap s).
Proof.
  intros s l p d [(pl & SG) ON ND] G.
  destruct (get_in _ _ _ G) as (l1 & l2 & -> & _). rewrite (del_split _ _ _ _ ND).
  pose proof ND as ND0. rewrite map_app in ND. cbn [map] in ND.
  pose proof (NoDup_remove_2 _ _ _ ND) as NI. pose proof (NoDup_remove_1 _ _ _ ND) as N12. rewrite in_app_iff in NI.
  assert (AX : addr (p, d) = p - CHUNK_HEADER) by reflexivity. rewrite AX in *.
  apply seg_app in SG. destruct SG as (q1 & p1 & S1 & (-> & N & nx & M & S2)). rewrite AX in *.
  unfold storageRemove. rewrite M. cbn [cprev cnext].
  set (a := p - CHUNK_HEADER) in *.
  assert (NDs : NoDup (map addr l1) /\ NoDup (map addr l2) /\ (forall x, In x (map addr l1) -> ~ In x (map addr l2))).
  { clear - N12. revert N12. generalize (map addr l1) as u, (map addr l2) as v. induction u as [|y u IH]; intros v H.
    - split; [constructor|]. split; [exact H|]. intros x [].
    - cbn [app] in H. apply NoDup_cons_iff in H. destruct H as (H1 & H2). destruct (IH v H2) as (I1 & I2 & I3).
      rewrite in_app_iff in H1. split; [constructor; tauto|]. split; [exact I2|].
      intros x [<-|I]; [tauto|]. apply I3, I. }
  destruct NDs as (ND1 & ND2 & DJ).
  (* first pointer *)
  assert (FIRST : (if a =? first s then nx else first s) = match l1 with [] => nx | y :: _ => first s end).
  { destruct l1 as [|y l1'].
    - destruct S1 as (E & _). rewrite E, Z.eqb_refl. reflexivity.
    - destruct S1 as (E & _). destruct (a =? first s) eqn:K; [|reflexivity].
      exfalso. apply NI. left. left. lia. }
  rewrite FIRST.
  (* next of the predecessor *)
  assert (STEP1 : exists h1, (if p1 =? 0 then Ok (heap s) else setNext (heap s) p1 nx) = Ok h1 /\ freed h1 = freed (heap s) /\
      seg (live h1) 0 (match l1 with [] => nx | _ => first s end) l1 p1 nx /\
      (forall b, b <> p1 \/ l1 = [] -> live h1 b = live (heap s) b) /\ (forall b, live h1 b <> None -> live (heap s) b <> None)).
  { destruct l1 as [|y l1'].
    - destruct S1 as (E & <-). cbn [Z.eqb]. exists (heap s). repeat split; auto.
    - assert (P1 : p1 <> 0 /\ In p1 (map addr (y :: l1'))).
      { destruct (seg_pl _ _ _ _ _ _ S1) as [(E & _)|(u & x & E & -> & Q)]; [discriminate E|]. split; [exact Q|].
        rewrite E, map_app, in_app_iff. right. left. reflexivity. }
      destruct P1 as (P1 & PI). destruct (p1 =? 0) eqn:K; [lia|].
      destruct (seg_setNext _ _ _ _ _ _ nx S1 ltac:(discriminate) ND1) as (h1 & E1 & F1 & G1 & O1 & L1).
      exists h1. split; [exact E1|]. split; [exact F1|]. split; [exact G1|]. split.
      + intros b [D|D]; [apply O1, D|discriminate D].
      + intros b Lb. destruct (Z.eq_dec b p1) as [->|D]; [|rewrite <- O1; auto].
        eapply seg_live; [exact S1|exact PI]. }
  destruct STEP1 as (h1 & -> & F1 & G1 & O1 & L1). cbn [bind].
  assert (KEEP : forall b, In b (map addr l2) \/ b = a -> live h1 b = live (heap s) b).
  { intros b I. apply O1. destruct l1 as [|y l1']; [auto|]. left. intros ->.
    destruct (seg_pl _ _ _ _ _ _ S1) as [(E & _)|(u & x & E & -> & Q)]; [discriminate E|].
    assert (IX : In (addr x) (map addr (y :: l1'))) by (rewrite E, map_app, in_app_iff; right; left; reflexivity).
    destruct I as [I|I]; [exact (DJ _ IX I)|]. apply NI. left. rewrite <- I. exact IX. }
  assert (S2' : seg (live h1) a nx l2 pl 0).
  { eapply seg_frame; [|exact S2]. intros b I. apply KEEP. auto. }
  assert (STEP2 : exists h2, (if nx =? 0 then Ok h1 else setPrev h1 nx p1) = Ok h2 /\ freed h2 = freed (heap s) /\
      seg (live h2) p1 nx l2 (match l2 with [] => p1 | _ => pl end) 0 /\
      (forall b, ~ In b (map addr l2) -> live h2 b = live h1 b) /\ (forall b, live h2 b <> None -> live h1 b <> None)).
  { destruct l2 as [|y l2'].
    - destruct S2' as (-> & _). cbn [Z.eqb]. exists h1. split; [reflexivity|]. split; [exact F1|].
      split; [split; reflexivity|]. auto.
    - assert (NX : nx = addr y /\ nx <> 0) by (destruct S2' as (E & Q & _); auto). destruct NX as (NX & NX0).
      destruct (nx =? 0) eqn:K; [lia|].
      destruct (seg_setPrev _ _ _ _ _ _ _ p1 S2' ND2) as (h2 & E2 & F2 & G2 & O2 & L2).
      exists h2. split; [exact E2|]. split; [congruence|]. split; [exact G2|]. split.
      + intros b NIb. apply O2. intros ->. apply NIb. left. auto.
      + intros b Lb. destruct (Z.eq_dec b nx) as [->|D]; [|rewrite <- O2; auto].
        destruct S2' as (_ & _ & n2 & M2 & _). rewrite M2. discriminate. }
  destruct STEP2 as (h2 & -> & F2 & G2 & O2 & L2). cbn [bind].
  assert (LA : live h2 a = live (heap s) a).
  { rewrite O2 by tauto. apply KEEP. auto. }
  unfold cfree. rewrite LA, M. cbn [bind]. eexists. split; [reflexivity|]. split; [|cbn; congruence].
  constructor; cbn [heap first live].
  - exists (match l2 with [] => p1 | _ => pl end). apply seg_app. exists nx, p1. split.
    + eapply seg_frame; [|exact G1]. intros b I. rewrite upd_other by (intros ->; tauto). apply O2. exact (DJ _ I).
    + eapply seg_frame; [|exact G2]. intros b I. apply upd_other. intros ->. tauto.
  - intros b Lb. destruct (Z.eq_dec b a) as [->|D]; [rewrite upd_same in Lb; congruence|].
    rewrite upd_other in Lb by exact D. apply L2, L1, ON in Lb. rewrite map_app, in_app_iff in *. cbn [map In] in Lb.
    rewrite AX in Lb. fold a in Lb. destruct Lb as [|[|]]; auto. congruence.
  - rewrite map_app. exact N12.
Qed.

Lemma add_ok : forall s l a n, R s l -> fresh l a ->
  match storageAdd s a n with
  | Ok (s', x) => tooBig n = false /\ x = a + CHUNK_HEADER /\ R s' ((x, repeat 0 (Z.to_nat n)) :: l) /\ freed (heap s') = freed (heap s) /\ 0 <= n
  | Err e => tooBig n = true /\ e = EOutOfMemory
  | UB => False
  end.
Proof.
  intros s l a n [(pl & SG) ON ND] (A0 & FR). unfold storageAdd, tooBig, INT_MAX, CHUNK_HEADER in *.
  change (two31 - 1) with 2147483647.
  destruct ((n <? 0) || (2147483647 <? 24 + n)) eqn:T; [auto|].
  destruct (a =? 0) eqn:K; [lia|].
  assert (NI : ~ In a (map addr l)).
  { rewrite <- (Z.add_simpl_r a 24). apply get_none in FR. exact FR. }
  set (m := upd (live (heap s)) a _).
  assert (SG1 : seg m 0 (first s) l pl 0).
  { eapply seg_frame; [|exact SG]. intros b I. apply upd_other. intros ->. contradiction. }
  assert (LN : Z.of_nat (length (repeat 0 (Z.to_nat n))) = n) by (rewrite repeat_length; lia).
  assert (AA : addr (a + 24, repeat 0 (Z.to_nat n)) = a) by (unfold addr, CHUNK_HEADER; cbn [fst]; lia).
  destruct l as [|y l'].
  - destruct SG1 as (E & _). rewrite E. cbn [Z.eqb bind]. repeat split; auto; try lia.
    + exists a. cbn [heap first live seg]. rewrite AA. split; [reflexivity|]. split; [exact A0|]. exists 0.
      split; [|split; reflexivity]. subst m. rewrite upd_same, E. cbn [snd]. rewrite LN. reflexivity.
    + intros b Lb. cbn [heap live] in Lb. left. rewrite AA. destruct (Z.eq_dec b a) as [|D]; [auto|].
      subst m. rewrite upd_other in Lb by exact D. destruct (ON _ Lb).
    + cbn [map]. constructor; [auto|constructor].
  - pose proof SG1 as (EF & EN & _). destruct (first s =? 0) eqn:KF; [lia|].
    destruct (seg_setPrev _ _ {| live := m; freed := freed (heap s) |} _ _ _ _ a SG1 ND) as (h' & E' & F' & G' & O' & L').
    rewrite E'. cbn [bind]. cbn [live freed] in *.
    assert (AF : a <> first s) by (intros ->; apply NI; left; auto).
    split; [reflexivity|]. split; [reflexivity|]. split; [|split; [exact F'|lia]]. constructor; cbn [heap first].
    + exists pl. cbn [seg]. rewrite AA. split; [reflexivity|]. split; [exact A0|]. exists (first s). split; [|exact G'].
      rewrite O' by exact AF. subst m. rewrite upd_same. cbn [snd]. rewrite LN. reflexivity.
    + intros b Lb. cbn [map In]. rewrite AA. destruct (Z.eq_dec b a) as [|D]; [auto|]. right.
      destruct (Z.eq_dec b (first s)) as [->|D2]; [left; auto|].
      rewrite O' in Lb by exact D2. subst m. rewrite upd_other in Lb by exact D. apply ON, Lb.
    + cbn [map]. rewrite AA. constructor; auto.
Qed.

Lemma set_notin : forall l p d, ~ In (p - CHUNK_HEADER) (map addr l) -> set p d l = l.
Proof.
  induction l as [|[q e] r IH]; intros p d H; [reflexivity|]. cbn [map In] in H. unfold addr at 1 in H. cbn [fst] in H.
  unfold set. cbn [map fst]. destruct (q =? p) eqn:E.
  - exfalso. apply H. left. lia.
  - f_equal. apply IH. tauto.
Qed.

Lemma live_get : forall s l p d, R s l -> get p l = Some d ->
  exists c, live (heap s) (p - CHUNK_HEADER) = Some c /\ cdata c = d /\ csize c = Z.of_nat (length d).
Proof.
  intros s l p d [(pl & SG) ON ND] G. destruct (get_in _ _ _ G) as (l1 & l2 & -> & _).
  apply seg_app in SG. destruct SG as (q1 & p1 & S1 & (-> & N & nx & M & S2)).
  change (addr (p, d)) with (p - CHUNK_HEADER) in M. rewrite M. eexists. split; [reflexivity|]. auto.
Qed.

Lemma setData_ok : forall s l p d d', R s l -> get p l = Some d -> length d' = length d ->
  exists h', setData (heap s) (p - CHUNK_HEADER) d' = Ok h' /\ R {| first := first s; heap := h' |} (set p d' l) /\ freed h' = freed (heap s).
Proof.
  intros s l p d d' [(pl & SG) ON ND] G LD. destruct (get_in _ _ _ G) as (l1 & l2 & -> & _).
  pose proof ND as ND0. rewrite map_app in ND. cbn [map] in ND. pose proof (NoDup_remove_2 _ _ _ ND) as NI. rewrite in_app_iff in NI.
  apply seg_app in SG. destruct SG as (q1 & p1 & S1 & (-> & N & nx & M & S2)).
  change (addr (p, d)) with (p - CHUNK_HEADER) in *.
  unfold setData. rewrite M. eexists. split; [reflexivity|]. split; [|reflexivity].
  assert (SE : set p d' (l1 ++ (p, d) :: l2) = l1 ++ (p, d') :: l2).
  { unfold set. rewrite map_app. cbn [map fst]. rewrite Z.eqb_refl.
    change (map (fun x => if fst x =? p then (p, d') else x) l1) with (set p d' l1).
    change (map (fun x => if fst x =? p then (p, d') else x) l2) with (set p d' l2).
    rewrite !set_notin by tauto. reflexivity. }
  rewrite SE.
  assert (MA : map addr (l1 ++ (p, d') :: l2) = map addr (l1 ++ (p, d) :: l2)) by (rewrite !map_app; reflexivity).
  constructor; cbn [heap first live].
  - exists pl. apply seg_app. exists (p - CHUNK_HEADER), p1. split.
    + eapply seg_frame; [|exact S1]. intros b I. apply upd_other. intros ->. tauto.
    + cbn [seg]. split; [reflexivity|]. split; [exact N|]. exists nx. rewrite upd_same. cbn [snd cprev cnext csize].
      split; [rewrite LD; reflexivity|]. eapply seg_frame; [|exact S2]. intros b I. apply upd_other. intros ->. tauto.
  - intros b Lb. rewrite MA. apply ON. destruct (Z.eq_dec b (p - CHUNK_HEADER)) as [->|D]; [rewrite M; discriminate|].
    rewrite upd_other in Lb by exact D. exact Lb.
  - rewrite MA. exact ND0.
Qed.

Lemma free_seg : forall l fuel s prev pl, seg (live (heap s)) prev (first s) l pl 0 ->
  (forall a, live (heap s) a <> None -> In a (map addr l)) -> NoDup (map addr l) -> (length l <= fuel)%nat ->
  exists s', storageFree fuel s = Ok s' /\ R s' [] /\ freed (heap s') = rev (map addr l) ++ freed (heap s).
Proof.
  induction l as [|x l IH]; intros fuel s prev pl SG ON ND LE.
  - exists s. destruct SG as (E & _). split; [|split; [|reflexivity]].
    + destruct fuel; cbn [storageFree]; rewrite E; reflexivity.
    + constructor; auto. exists 0. rewrite E. split; reflexivity.
  - destruct fuel as [|f]; [cbn in LE; lia|]. cbn [storageFree].
    destruct SG as (EF & N & nx & M & SG).
    destruct (first s =? 0) eqn:K; [lia|]. rewrite M. unfold cfree. rewrite M. cbn [bind cnext].
    cbn [map] in ND. apply NoDup_cons_iff in ND. destruct ND as (NI & ND).
    destruct (IH f {| first := nx; heap := {| live := upd (live (heap s)) (first s) None; freed := first s :: freed (heap s) |} |} (first s) pl) as (s' & E & R' & F').
    + cbn [heap first live]. eapply seg_frame; [|exact SG]. intros b I. apply upd_other. rewrite EF. intros ->. contradiction.
    + cbn [heap first live]. intros b Lb. destruct (Z.eq_dec b (first s)) as [->|D]; [rewrite upd_same in Lb; congruence|].
      rewrite upd_other in Lb by exact D. apply ON in Lb. destruct Lb as [<-|]; [congruence|auto].
    + exact ND.
    + cbn in LE. lia.
    + exists s'. split; [exact E|]. split; [exact R'|]. rewrite F'. cbn [heap freed map rev]. rewrite <- app_assoc, EF. reflexivity.
Qed.

Lemma free_ok : forall l fuel s, R s l -> (length l <= fuel)%nat ->
  exists s', storageFree fuel s = Ok s' /\ R s' [] /\ freed (heap s') = rev (map addr l) ++ freed (heap s).
Proof. intros l fuel s [(pl & SG) ON ND] LE. eapply free_seg; eauto. Qed.

Lemma get_del : forall l p q, p <> q -> get q (del p l) = get q l.
Proof.
  induction l as [|[r e] l IH]; intros p q D; [reflexivity|]. unfold del. cbn [filter fst get].
  destruct (r =? p) eqn:E; cbn [negb].
  - destruct (q =? r) eqn:K; [lia|]. apply IH, D.
  - cbn [get]. destruct (q =? r); [reflexivity|]. apply IH, D.
Qed.

Lemma realloc_ok : forall s l p a n d, R s l -> fresh l a -> get p l = Some d -> Z.of_nat (length d) <= n ->
  match storageRealloc s p a n with
  | Ok (s', x) => tooBig n = false /\ x = a + CHUNK_HEADER /\ R s' ((x, d ++ repeat 0 (Z.to_nat n - length d)) :: del p l) /\
       freed (heap s') = (p - CHUNK_HEADER) :: freed (heap s)
  | Err e => tooBig n = true /\ e = EOutOfMemory
  | UB => False
  end.
Proof.
  intros s l p a n d RR FR G LN. unfold storageRealloc.
  destruct (live_get _ _ _ _ RR G) as (c & -> & CD & CS).
  pose proof (add_ok s l a n RR FR) as A. destruct (storageAdd s a n) as [[s1 x]|e|]; cbn [bind]; [|exact A|contradiction].
  destruct A as (T & -> & R1 & F1 & N0).
  assert (GA : get (a + CHUNK_HEADER) ((a + CHUNK_HEADER, repeat 0 (Z.to_nat n)) :: l) = Some (repeat 0 (Z.to_nat n))).
  { cbn [get]. rewrite Z.eqb_refl. reflexivity. }
  destruct (live_get _ _ _ _ R1 GA) as (c1 & L1 & CD1 & CS1). rewrite Z.add_simpl_r in L1. rewrite L1.
  rewrite repeat_length in CS1. destruct (csize c1 <? csize c) eqn:K; [lia|].
  rewrite CD, CD1.
  set (d' := d ++ skipn (length d) (repeat 0 (Z.to_nat n))).
  assert (LD : length d' = length (repeat 0 (Z.to_nat n))).
  { subst d'. rewrite app_length, skipn_length, repeat_length. lia. }
  destruct (setData_ok _ _ _ _ d' R1 GA LD) as (h2 & E2 & R2 & F2). rewrite Z.add_simpl_r in E2. rewrite E2. cbn [bind].
  assert (NE : a + CHUNK_HEADER <> p).
  { intros E. destruct FR as (_ & FR). congruence. }
  assert (SE : set (a + CHUNK_HEADER) d' ((a + CHUNK_HEADER, repeat 0 (Z.to_nat n)) :: l) = (a + CHUNK_HEADER, d') :: l).
  { unfold set. cbn [map fst]. rewrite Z.eqb_refl. f_equal.
    change (set (a + CHUNK_HEADER) d' l = l). apply set_notin. apply get_none, FR. }
  rewrite SE in R2.
  assert (GP : get p ((a + CHUNK_HEADER, d') :: l) = Some d).
  { cbn [get]. destruct (p =? a + CHUNK_HEADER) eqn:K2; [lia|exact G]. }
  destruct (remove_ok _ _ _ _ R2 GP) as (s3 & -> & R3 & F3). cbn [bind].
  split; [exact T|]. split; [reflexivity|]. split; [|rewrite F3; cbn [heap]; congruence].
  assert (DD : d' = d ++ repeat 0 (Z.to_nat n - length d)).
  { subst d'. f_equal. clear. revert n. generalize (length d) as k. intros k n. generalize (Z.to_nat n) as m. clear.
    induction k; intros [|m]; cbn; try reflexivity. apply IHk. }
  rewrite <- DD. unfold del in R3. cbn [filter fst] in R3. destruct (a + CHUNK_HEADER =? p) eqn:K3; [lia|]. exact R3.
Qed.

Lemma write_ok : forall s l p i b d, R s l -> get p l = Some d -> 0 <= i < Z.of_nat (length d) ->
  exists s', storageWrite s p i b = Ok s' /\ R s' (set p (firstn (Z.to_nat i) d ++ b :: skipn (S (Z.to_nat i)) d) l) /\ freed (heap s') = freed (heap s).
Proof.
  intros s l p i b d RR G I. unfold storageWrite. destruct (live_get _ _ _ _ RR G) as (c & -> & CD & CS).
  destruct ((i <? 0) || (csize c <=? i)) eqn:K; [lia|]. rewrite CD.
  destruct (setData_ok _ _ _ _ (firstn (Z.to_nat i) d ++ b :: skipn (S (Z.to_nat i)) d) RR G) as (h & -> & R' & F').
  { rewrite app_length, firstn_length. cbn [length]. rewrite skipn_length. lia. }
  cbn [bind]. eauto.
Qed.

Definition done (s : storage) : list Z := map (fun a => a + CHUNK_HEADER) (rev (freed (heap s))).

Lemma step_ok : forall fuel s l o, R s l -> legal l o -> (length l <= fuel)%nat ->
  match aop l o with
  | Ok (l1, x, f) => exists s1, sstep fuel s o = Ok (s1, x) /\ R s1 l1 /\ done s1 = done s ++ f
  | Err e => sstep fuel s o = Err e
  | UB => False
  end.
Proof.
  intros fuel s l o RR LG LE. unfold done. destruct o; cbn [aop sstep legal] in *.
  - pose proof (add_ok s l a size RR LG) as A. destruct (storageAdd s a size) as [[s1 x]|e|]; [| |contradiction].
    + destruct A as (-> & -> & R1 & F1 & _). exists s1. rewrite F1, app_nil_r. auto.
    + destruct A as (-> & ->). reflexivity.
  - destruct (get data l) as [d|] eqn:G; [|congruence].
    destruct (remove_ok _ _ _ _ RR G) as (s1 & -> & R1 & F1). exists s1. cbn [bind]. rewrite F1. cbn [rev].
    rewrite map_app. cbn [map]. rewrite Z.sub_add. auto.
  - destruct LG as (FR & d & G & LN). pose proof (realloc_ok s l data a size d RR FR G LN) as A.
    destruct (storageRealloc s data a size) as [[s1 x]|e|]; [| |contradiction].
    + destruct A as (-> & -> & R1 & F1). rewrite G. exists s1. rewrite F1. cbn [rev]. rewrite map_app. cbn [map].
      rewrite Z.sub_add. auto.
    + destruct A as (-> & ->). reflexivity.
  - destruct LG as (d & G & I). rewrite G. destruct (write_ok _ _ _ _ b _ RR G I) as (s1 & -> & R1 & F1).
    exists s1. cbn [bind]. rewrite F1, app_nil_r. auto.
  - destruct (free_ok _ fuel _ RR LE) as (s1 & -> & R1 & F1). exists s1. cbn [bind]. rewrite F1.
    rewrite rev_app_distr, rev_involutive, map_app. split; [reflexivity|]. split; [exact R1|]. f_equal.
    rewrite map_map. apply map_ext. intros [q e]. unfold addr. cbn [fst]. lia.
Qed.

Lemma aop_len : forall l o l1 x f, aop l o = Ok (l1, x, f) -> (length l1 <= S (length l))%nat.
Proof.
  assert (D : forall l p, (length (del p l) <= length l)%nat).
  { intros. unfold del. induction l; cbn; [lia|]. destruct (negb _); cbn; lia. }
  intros l o l1 x f H. destruct o; cbn [aop] in H.
  - destruct (tooBig size); [discriminate|]. injection H as <- _ _. cbn. lia.
  - injection H as <- _ _. specialize (D l data). lia.
  - destruct (tooBig size); [discriminate|]. destruct (get data l); [|discriminate]. injection H as <- _ _. cbn. specialize (D l data). lia.
  - destruct (get data l); [|discriminate]. injection H as <- _ _. unfold set. rewrite map_length. lia.
  - injection H as <- _ _. cbn. lia.
Qed.

Lemma run_ok : forall os fuel s l, R s l -> legalRun l os -> (length l + length os <= fuel)%nat ->
  match arun l os with
  | Ok (l1, xs, fs) => exists s1, srun fuel s os = Ok (s1, xs) /\ R s1 l1 /\ done s1 = done s ++ fs
  | Err e => srun fuel s os = Err e
  | UB => False
  end.
Proof.
  induction os as [|o os IH]; intros fuel s l RR LG LE; cbn [arun srun].
  - exists s. rewrite app_nil_r. auto.
  - destruct LG as (L1 & L2). cbn [length] in LE. pose proof (step_ok fuel s l o RR L1 ltac:(lia)) as ST.
    destruct (aop l o) as [[[l1 x] f]|e|] eqn:A; [| rewrite ST; reflexivity | contradiction].
    destruct ST as (s1 & -> & R1 & D1). cbn [bind fst].
    pose proof (aop_len _ _ _ _ _ A). specialize (IH fuel s1 l1 R1 L2 ltac:(lia)).
    destruct (arun l1 os) as [[[l2 xs] fs]|e|]; [|rewrite IH; reflexivity|contradiction].
    destruct IH as (s2 & -> & R2 & D2). cbn [bind fst snd]. exists s2. split; [reflexivity|]. split; [exact R2|].
    rewrite D2, D1, app_assoc. reflexivity.
Qed.

Lemma walk_seg : forall l fuel h prev p pl, seg (live h) prev p l pl 0 -> (length l <= fuel)%nat -> walk fuel h p = Some l.
Proof.
  induction l as [|[q d] l IH]; intros fuel h prev p pl SG LE.
  - destruct SG as (-> & _). destruct fuel; reflexivity.
  - destruct fuel as [|f]; [cbn in LE; lia|]. destruct SG as (E & N & nx & M & SG). cbn [walk].
    destruct (p =? 0) eqn:K; [lia|]. rewrite M. cbn [cnext cdata snd]. rewrite (IH f h _ _ _ SG) by (cbn in LE; lia).
    cbn [option_map]. unfold addr in E. cbn [fst] in E. rewrite E, Z.sub_add. reflexivity.
Qed.

Lemma R_walk : forall s l, R s l -> walk (length l) (heap s) (first s) = Some l.
Proof. intros s l [(pl & SG) _ _]. eapply walk_seg; [exact SG|lia]. Qed.
Lemma R_live : forall s l p, R s l -> (live (heap s) (p - CHUNK_HEADER) <> None <-> get p l <> None).
Proof.
  intros s l p [(pl & SG) ON ND]. split; intros H.
  - apply ON in H. intros G. apply get_none in G. contradiction.
  - destruct (in_dec Z.eq_dec (p - CHUNK_HEADER) (map addr l)) as [I|I].
    + eapply seg_live; [exact SG|exact I].
    + apply get_none in I. contradiction.
Qed.

Definition empty : cheap := {| live := fun _ => None; freed := [] |}.
Lemma R_init : R (storageInit empty) [].
Proof.
  constructor; cbn.
  - exists 0. auto.
  - congruence.
  - constructor.
Qed.

Lemma storage_thm : forall os, legalRun [] os ->
  match arun [] os with
  | Ok (l, xs, fs) => exists s, srun (length os) (storageInit empty) os = Ok (s, xs) /\
      walk (length l) (heap s) (first s) = Some l /\
      (forall p, live (heap s) (p - CHUNK_HEADER) <> None <-> get p l <> None) /\
      map (fun a => a + CHUNK_HEADER) (rev (freed (heap s))) = fs
  | Err e => srun (length os) (storageInit empty) os = Err e
  | UB => False
  end.
Proof.
  intros os LG. pose proof (run_ok os (length os) (storageInit empty) [] R_init LG ltac:(cbn; lia)) as H.
  destruct (arun [] os) as [[[l xs] fs]|e|]; [|exact H|exact H].
  destruct H as (s & E & RR & D). exists s. split; [exact E|]. split; [apply R_walk, RR|]. split; [intros p; apply R_live, RR|exact D].
Qed.
