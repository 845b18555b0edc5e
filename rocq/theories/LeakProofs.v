From Coq Require Import ZArith Lia Bool List ZifyBool Permutation.
From Verif Require Import Base MemModel BlkModel CmpModel HeapModel HeapSpec HeapProofs HeapLists HeapOps HeapAlloc HeapExtra HeapHist HeapWeak HeapFree.
From Verif Require Import LeakModel LeakSpec.
Import ListNotations.
Local Open Scope Z_scope.

Lemma sameLoc_eq t d l : sameLoc t d l = true <-> l = (t, d).
Proof.
  destruct d as [[f g] n], l as [t' [[f' g'] n']]. unfold sameLoc. cbn [fst snd].
  rewrite !andb_true_iff, !Z.eqb_eq. split; [intros [[[-> ->] ->] ->]; reflexivity|intros E; injection E as -> -> -> ->; auto].
Qed.
Lemma existsb_sameLoc t d locs : existsb (sameLoc t d) locs = true <-> In (t, d) locs.
Proof.
  rewrite existsb_exists. split.
  - intros (l & H & E). apply sameLoc_eq in E. subst. exact H.
  - intros H. exists (t, d). split; [exact H|]. apply sameLoc_eq. reflexivity.
Qed.

(** * Sums *)
Definition sumf (f : Z -> Z) (l : list Z) : Z := fold_right (fun y n => f y + n) 0 l.
Lemma sumf_app f a b : sumf f (a ++ b) = sumf f a + sumf f b.
Proof. induction a as [|x a IH]; cbn; [reflexivity|]. fold (sumf f (a ++ b)) (sumf f a). lia. Qed.
Lemma sumf_perm f a b : Permutation a b -> sumf f a = sumf f b.
Proof.
  induction 1; cbn; unfold sumf in *; lia.
Qed.
Lemma zsum_sumf f (g : Z -> Z) n : zsum (fun i => f (g i)) n = sumf f (map (fun k => g (Z.of_nat k)) (seq 0 n)).
Proof.
  induction n as [|n IH]; [reflexivity|]. cbn [zsum]. rewrite seq_S, map_app, sumf_app, IH. cbn. lia.
Qed.
Lemma sumf_filter f l : (forall y, In y l -> 0 <= f y) -> sumf f (filter (fun y => 0 <? f y) l) = sumf f l.
Proof.
  induction l as [|y l IH]; intros H; [reflexivity|]. cbn [filter].
  pose proof (H y (or_introl eq_refl)). specialize (IH (fun z K => H z (or_intror K))).
  destruct (0 <? f y) eqn:E; cbn; fold (sumf f l) (sumf f (filter (fun y => 0 <? f y) l)); lia.
Qed.

(** * The chunks of a page *)
Section Chunks.
Variable sites : Z -> site.
Variable debugAt : Z -> option place.
Definition locOf (y : Z) : option loc := option_map (fun d => (fst (sites y), d)) (debugAt (snd (sites y))).

Lemma leakChunks_S n h a i locs : leakChunks sites debugAt (S n) h a i locs =
      if i <? pg_occ (h_page h a) then
        match h_hdr h (chunk_at h a i) with
        | None => UB
        | Some c =>
            if hd_ref c =? 0 then leakChunks sites debugAt n h a (i + 1) locs else
            let (type, ip) := sites (chunk_at h a i) in
            match debugAt ip with
            | None => UB
            | Some debug =>
                if existsb (sameLoc type debug) locs then leakChunks sites debugAt n h a (i + 1) locs
                else let* r := leakChunks sites debugAt n h a (i + 1) ((type, debug) :: locs) in Ok (LLoc (type, debug) :: r)
            end
        end
      else Ok [].
Proof. reflexivity. Qed.

Lemma leakChunks_ok h a :
  (forall i, 0 <= i < pg_occ (h_page h a) -> exists c, h_hdr h (chunk_at h a i) = Some c /\ 0 <= hd_ref c /\
     (0 < hd_ref c -> locOf (chunk_at h a i) <> None)) ->
  forall m i locs, 0 <= i -> i + Z.of_nat m = pg_occ (h_page h a) ->
  exists r, leakChunks sites debugAt (S m) h a i locs = Ok (map LLoc r) /\ NoDup r /\
    forall l, In l r <-> ~ In l locs /\ exists j, i <= j < pg_occ (h_page h a) /\
      0 < ref_at h (chunk_at h a j) /\ locOf (chunk_at h a j) = Some l.
Proof.
  intros HC. induction m as [|m IH]; intros i locs Hi Hm.
  - exists []. cbn [leakChunks]. replace (i <? pg_occ (h_page h a)) with false by lia.
    split; [reflexivity|]. split; [constructor|]. intros l. split; [intros []|]. intros (_ & j & Hj & _). lia.
  - rewrite leakChunks_S. replace (i <? pg_occ (h_page h a)) with true by lia.
    destruct (HC i ltac:(lia)) as (c & Hc & H0 & Hl). rewrite Hc.
    assert (RA : ref_at h (chunk_at h a i) = hd_ref c) by (unfold ref_at; rewrite Hc; reflexivity).
    destruct (hd_ref c =? 0) eqn:E.
    + destruct (IH (i + 1) locs ltac:(lia) ltac:(lia)) as (r & Hr & N & Q). exists r. split; [exact Hr|]. split; [exact N|].
      intros l. rewrite Q. split; intros (A & j & Hj & B & C); (split; [exact A|]); exists j; (split; [|split; assumption]).
      * lia.
      * assert (j <> i) by (intros ->; lia). lia.
    + specialize (Hl ltac:(lia)). unfold locOf in Hl.
      destruct (sites (chunk_at h a i)) as [t ip] eqn:Es. cbn [fst snd] in Hl.
      destruct (debugAt ip) as [d|] eqn:Ed; [|exfalso; apply Hl; reflexivity].
      assert (LO : locOf (chunk_at h a i) = Some (t, d)) by (unfold locOf; rewrite Es; cbn [fst snd]; rewrite Ed; reflexivity).
      destruct (existsb (sameLoc t d) locs) eqn:Ex.
      * apply existsb_sameLoc in Ex.
        destruct (IH (i + 1) locs ltac:(lia) ltac:(lia)) as (r & Hr & N & Q). exists r. split; [exact Hr|]. split; [exact N|].
        intros l. rewrite Q. split; intros (A & j & Hj & B & C); (split; [exact A|]); exists j; (split; [|split; assumption]).
        -- lia.
        -- assert (j <> i) by (intros ->; rewrite LO in C; injection C as <-; contradiction). lia.
      * assert (NX : ~ In (t, d) locs) by (rewrite <- existsb_sameLoc; congruence).
        destruct (IH (i + 1) ((t, d) :: locs) ltac:(lia) ltac:(lia)) as (r & Hr & N & Q). rewrite Hr. cbn [bind].
        exists ((t, d) :: r). split; [reflexivity|]. split.
        -- constructor; [|exact N]. intros K. apply Q in K as [K _]. apply K. left. reflexivity.
        -- intros l. split.
           ++ intros [<-|K].
              ** split; [exact NX|]. exists i. split; [lia|]. split; [lia|exact LO].
              ** apply Q in K as (A & j & Hj & B & C). split; [intros Y; apply A; right; exact Y|]. exists j. split; [lia|auto].
           ++ intros (A & j & Hj & B & C). destruct (Z.eq_dec j i) as [->|Hne].
              ** rewrite LO in C. injection C as <-. left. reflexivity.
              ** assert (D : {(t, d) = l} + {(t, d) <> l}) by (repeat decide equality).
                 destruct D as [D|D]; [left; exact D|right]. apply Q. split; [intros [Y|Y]; contradiction|].
                 exists j. split; [lia|auto].
Qed.
End Chunks.

(** * Blocks of a page *)
Lemma in_pageb h a b : inPageb h a b = true <-> in_page h a b.
Proof. unfold inPageb, in_page. lia. Qed.

Lemma in_page_uniq h s F R B G a k b : inv h s F R B G -> In a F -> nth_error s k = Some b -> alive b -> in_page h a b ->
  exists i, 0 <= i < pg_occ (h_page h a) /\ b_addr b = chunk_at h a i + 40 /\
    h_hdr h (chunk_at h a i) = Some (MkHdr (b_refs b) (b_size b) (b_onFree b) (b_stack b)).
Proof.
  intros I Ha Hk Hal Hp. pose proof I as (L & Hg & Hr & C & U).
  destruct (block_place _ _ _ _ _ _ _ _ _ L Hg C Hk Hal) as (a2 & i & Ha2 & _ & Hi & HA & HH & S1 & S2).
  destruct (Z.eq_dec a a2) as [->|N]; [eauto|]. exfalso.
  destruct (F_geo _ _ _ _ _ _ L Hg Ha) as (n & Hn & _ & _ & _ & _ & P1 & _ & P2).
  destruct (F_geo _ _ _ _ _ _ L Hg Ha2) as (n2 & Hn2 & _ & _ & PC & _ & Q1 & _ & Q2).
  destruct (c_page _ _ _ _ C a2 Ha2) as (_ & O2 & _).
  destruct (chunk_range _ _ _ _ _ _ i L Hg Ha2 ltac:(lia)) as [R1 R2].
  unfold in_page in Hp. unfold HEADER in *.
  destruct (g_disj _ Hg a n a2 n2 Hn Hn2 N) as [D|D]; unfold HEADER in D; lia.
Qed.

Lemma in_page_here h s F R B G k b a i : inv h s F R B G -> In a F -> nth_error s k = Some b -> alive b ->
  0 <= i < pg_occ (h_page h a) -> b_addr b = chunk_at h a i + 40 -> in_page h a b.
Proof.
  intros I Ha Hk Hal Hi HA. pose proof I as (L & Hg & Hr & C & U).
  destruct (block_place _ _ _ _ _ _ _ _ _ L Hg C Hk Hal) as (a2 & i2 & Ha2 & _ & Hi2 & HA2 & HH & S1 & S2).
  destruct (c_page _ _ _ _ C a Ha) as (_ & O1 & _). destruct (c_page _ _ _ _ C a2 Ha2) as (_ & O2 & _).
  destruct (chunk_inj _ _ _ _ _ a a2 i i2 L Hg Ha Ha2) as [<- <-]; [lia|lia|lia|].
  destruct (chunk_range _ _ _ _ _ _ i L Hg Ha ltac:(lia)) as [R1 R2]. unfold in_page. lia.
Qed.

(** Live chunks are live blocks. *)
Lemma live_chunk h s F R B G a y : inv h s F R B G -> In a F ->
  ((exists j, 0 <= j < pg_occ (h_page h a) /\ 0 < ref_at h (chunk_at h a j) /\ y = chunk_at h a j) <->
   exists k b, nth_error s k = Some b /\ alive b /\ in_page h a b /\ y = b_addr b - 40).
Proof.
  intros I Ha. pose proof I as (L & Hg & Hr & C & U). split.
  - intros (j & Hj & H0 & ->). destruct (c_chunk _ _ _ _ C a j Ha Hj) as (c & Hc & _ & Hx).
    unfold ref_at in H0. rewrite Hc in H0. destruct (Hx H0) as (k & b & Hk & Hal & HA).
    exists k, b. split; [exact Hk|]. split; [exact Hal|]. split; [eapply in_page_here; eauto|lia].
  - intros (k & b & Hk & Hal & Hp & ->). destruct (in_page_uniq _ _ _ _ _ _ _ _ _ I Ha Hk Hal Hp) as (i & Hi & HA & HH).
    exists i. split; [exact Hi|]. split; [|lia]. unfold ref_at. rewrite HH. cbn [hd_ref]. exact Hal.
Qed.

Lemma total_filter h a f s : (forall b, In b s -> 0 <= b_refs b) ->
  (forall b, In b s -> aliveb b = true -> inPageb h a b = true -> b_refs b = f (b_addr b - 40)) ->
  total_refs (filter (inPageb h a) s) = sumf f (map (fun b => b_addr b - 40) (filter (fun b => aliveb b && inPageb h a b) s)).
Proof.
  induction s as [|b s IH]; intros H0 H; [reflexivity|]. cbn [filter].
  specialize (IH (fun x K => H0 x (or_intror K)) (fun x K => H x (or_intror K))).
  pose proof (H0 b (or_introl eq_refl)) as Hb. pose proof (H b (or_introl eq_refl)) as Hf.
  destruct (inPageb h a b); [|rewrite andb_false_r; exact IH]. rewrite andb_true_r. unfold aliveb in *.
  destruct (0 <? b_refs b) eqn:E; cbn [total_refs map].
  - cbn [sumf fold_right]. fold (sumf f (map (fun b => b_addr b - 40) (filter (fun b => (0 <? b_refs b) && inPageb h a b) s))).
    rewrite (Hf eq_refl eq_refl), IH. reflexivity.
  - rewrite IH. lia.
Qed.

Lemma nodup_map_inj {A} (f : nat -> A) : (forall i j, f i = f j -> i = j) -> forall l, NoDup l -> NoDup (map f l).
Proof.
  intros H. induction 1 as [|x l N _ IH]; cbn; constructor; auto.
  intros K. apply in_map_iff in K as (y & E & Y). apply H in E. congruence.
Qed.

Lemma page_total h s F R B G a : inv h s F R B G -> In a F ->
  pg_ref (h_page h a) = total_refs (filter (inPageb h a) s).
Proof.
  intros I Ha. pose proof I as (L & Hg & Hr & C & U). destruct (c_page _ _ _ _ C a Ha) as (_ & O1 & -> & _).
  assert (NN : forall b, In b s -> 0 <= b_refs b).
  { intros b Hb. destruct (In_nth_error _ _ Hb) as (k & Hk). destruct (c_block _ _ _ _ C k b Hk) as (x & id & _ & _ & H3 & _). exact H3. }
  rewrite (total_filter h a (ref_at h)).
  2: exact NN.
  2: { intros b Hb Hal Hp. destruct (In_nth_error _ _ Hb) as (k & Hk). apply in_pageb in Hp. unfold aliveb in Hal.
       destruct (in_page_uniq _ _ _ _ _ _ _ _ _ I Ha Hk ltac:(unfold alive; lia) Hp) as (i & Hi & HA & HH).
       rewrite HA. replace (chunk_at h a i + 40 - 40) with (chunk_at h a i) by lia. unfold ref_at. rewrite HH. reflexivity. }
  unfold refs. rewrite (zsum_sumf (ref_at h) (chunk_at h a)).
  destruct (F_geo _ _ _ _ _ _ L Hg Ha) as (n & _ & _ & _ & HC & _).
  set (all := map (fun k => chunk_at h a (Z.of_nat k)) (seq 0 (Z.to_nat (pg_occ (h_page h a))))).
  assert (INA : forall y, In y all <-> exists j, 0 <= j < pg_occ (h_page h a) /\ y = chunk_at h a j).
  { intros y. unfold all. rewrite in_map_iff. split.
    - intros (k & <- & Hk). apply in_seq in Hk. exists (Z.of_nat k). split; [lia|reflexivity].
    - intros (j & Hj & ->). exists (Z.to_nat j). split; [f_equal; lia|]. apply in_seq. lia. }
  rewrite <- sumf_filter.
  2: { intros y Hy. apply INA in Hy as (j & Hj & ->). destruct (c_chunk _ _ _ _ C a j Ha Hj) as (c & Hc & Hc0 & _).
       unfold ref_at. rewrite Hc. exact Hc0. }
  apply sumf_perm. apply NoDup_Permutation.
  - apply NoDup_filter. unfold all. apply nodup_map_inj; [|apply seq_NoDup].
    intros i j E. unfold chunk_at in E. assert (Z.of_nat i = Z.of_nat j) by nia. lia.
  - apply nodup_filter. intros i j x y Hi Hj Px Py E.
    destruct (Nat.eq_dec i j) as [|Hne]; [assumption|]. exfalso. apply andb_true_iff in Px as [Px _]. apply andb_true_iff in Py as [Py _]. unfold aliveb in *.
    pose proof (inv_apart _ _ _ _ _ _ _ _ _ _ I Hi Hj Hne ltac:(unfold alive; lia) ltac:(unfold alive; lia)) as Q.
    destruct (inv_inside _ _ _ _ _ _ _ _ I Hi ltac:(unfold alive; lia)) as (S1 & _). destruct (inv_inside _ _ _ _ _ _ _ _ I Hj ltac:(unfold alive; lia)) as (S2 & _). unfold apart in Q. lia.
  - intros y. rewrite filter_In, INA, in_map_iff. split.
    + intros [(j & Hj & ->) P]. destruct (proj1 (live_chunk _ _ _ _ _ _ a (chunk_at h a j) I Ha)) as (k & b & Hk & Hal & Hp & E).
      { exists j. split; [exact Hj|]. split; [lia|reflexivity]. }
      exists b. split; [lia|]. apply filter_In. split; [eapply nth_error_In; exact Hk|].
      apply andb_true_iff. split; [unfold aliveb, alive in *; lia|apply in_pageb; exact Hp].
    + intros (b & <- & Hb). apply filter_In in Hb as [Hb P]. apply andb_true_iff in P as [P1 P2]. apply in_pageb in P2. unfold aliveb in P1.
      destruct (In_nth_error _ _ Hb) as (k & Hk).
      destruct (proj2 (live_chunk _ _ _ _ _ _ a (b_addr b - 40) I Ha)) as (j & Hj & H0 & E).
      { exists k, b. split; [exact Hk|]. split; [unfold alive; lia|]. split; [exact P2|reflexivity]. }
      split; [exists j; auto|]. rewrite E. lia.
Qed.

(** * Sites *)
Section Traced.
Variable malloc : list (Z * Z) -> Z -> option Z.
Hypothesis Hmalloc : malloc_ok malloc.

Lemma traced_history h s cs st w : traced malloc h s cs st w -> history malloc h s cs.
Proof. induction 1; [constructor|]. econstructor; eauto. Qed.

Lemma count_ref_nth s : forall i d k b, nth_error (count_ref s i d) k = Some b ->
  exists b0, nth_error s k = Some b0 /\ b_addr b = b_addr b0 /\ (b_refs b = b_refs b0 \/ (k = i)).
Proof.
  induction s as [|x s IH]; intros [|i] d [|k] b H; cbn in H; try discriminate.
  - injection H as <-. exists x. cbn. auto.
  - exists b. auto.
  - injection H as <-. exists x. auto.
  - destruct (IH i d k b H) as (b0 & H1 & H2 & H3). exists b0. cbn. split; [exact H1|]. split; [exact H2|].
    destruct H3 as [H3| ->]; auto.
Qed.
Lemma owner_alive s : forall p i b, owner s p = Some i -> nth_error s i = Some b -> alive b.
Proof.
  induction s as [|x s IH]; intros p i b H E; cbn in H; [discriminate|].
  destruct (aliveb x && withinb p x) eqn:Q.
  - injection H as <-. cbn in E. injection E as <-. apply andb_true_iff in Q as [Q _]. unfold aliveb in Q. unfold alive. lia.
  - destruct (owner s p) as [j|] eqn:O; [|discriminate]. injection H as <-. cbn in E. eapply IH; eauto.
Qed.
Lemma count_ref_length s : forall i d, length (count_ref s i d) = length s.
Proof. induction s as [|x s IH]; intros [|i] d; cbn; auto. Qed.

Lemma traced_sites h s cs st w : traced malloc h s cs st w ->
  length w = length s /\
  forall k b, nth_error s k = Some b -> alive b -> nth_error w k = Some (st (b_addr b - 40)).
Proof.
  induction 1 as [st|h s cs st w o h' x z T [IHL IHS] HL HS].
  - split; [reflexivity|]. intros [|k] b H; discriminate.
  - pose proof (traced_history _ _ _ _ _ T) as HI.
    destruct o as [size f k0|p d|p|p|a v|l|]; cbn [a_step newSite]; [| |split; assumption..].
    + destruct x as [p|l|v|]; cbn [a_step newSite]; auto.
      destruct (alloc_thm malloc Hmalloc _ _ _ _ _ _ _ _ HI HS) as (_ & AP & _).
      assert (HI2 : history malloc h' (s ++ [MkB p size 1 f k0]) (cs ++ [])) by (exact (later_step _ _ _ _ _ _ _ _ _ HI HL HS)).
      destruct (history_inv malloc Hmalloc _ _ _ HI2) as (F & R & B & G & I2).
      split; [rewrite !app_length, IHL; reflexivity|]. intros k b Hk Hal.
      destruct (Nat.lt_ge_cases k (length s)) as [Lt|Ge].
      * rewrite nth_error_app1 in Hk by exact Lt. rewrite nth_error_app1 by lia.
        pose proof (AP b (nth_error_In _ _ Hk) Hal) as Q.
        assert (Hk2 : nth_error (s ++ [MkB p size 1 f k0]) k = Some b) by (rewrite nth_error_app1 by exact Lt; exact Hk).
        destruct (inv_inside _ _ _ _ _ _ _ _ I2 Hk2 Hal) as (S1 & _).
        assert (Hn : nth_error (s ++ [MkB p size 1 f k0]) (length s) = Some (MkB p size 1 f k0)) by (rewrite nth_error_app2, Nat.sub_diag by lia; reflexivity).
        destruct (inv_inside _ _ _ _ _ _ _ _ I2 Hn ltac:(unfold alive; cbn; lia)) as (S2 & _).
        unfold apart in Q. cbn [b_addr b_size] in Q, S2.
        replace (b_addr b - 40 =? p - 40) with false by lia. apply IHS; assumption.
      * rewrite nth_error_app2 in Hk by exact Ge. rewrite nth_error_app2 by lia. rewrite IHL.
        destruct (k - length s)%nat as [|m]; [|destruct m; discriminate]. cbn in Hk |- *. injection Hk as <-. cbn [b_addr].
        rewrite Z.eqb_refl. reflexivity.
    + cbn [a_step newSite]. destruct (owner s p) as [i|] eqn:O; auto.
      split; [rewrite count_ref_length; exact IHL|]. intros k b Hk Hal.
      destruct (count_ref_nth _ _ _ _ _ Hk) as (b0 & H1 & -> & [E|E]).
      * apply IHS; [exact H1|]. unfold alive in *. lia.
      * subst. apply IHS; [exact H1|]. eapply owner_alive; eauto.
Qed.

Variable debugAt : Z -> option place.

(** The part of the report about a page. *)
Lemma page_part h s cs st w F R B G a : traced malloc h s cs st w -> known debugAt w -> inv h s F R B G -> In a F ->
  exists p, part_page p = a /\ about debugAt h s w p /\
    forall level normal, pageLeakSan st debugAt h a level normal =
      Ok (if (0 <? level) && normal then lines level p else []).
Proof.
  intros T K I Ha. pose proof I as (L & Hg & Hr & C & U). destruct (traced_sites _ _ _ _ _ T) as [TL TS].
  destruct (c_page _ _ _ _ C a Ha) as (_ & O1 & _).
  assert (HC : forall i, 0 <= i < pg_occ (h_page h a) -> exists c, h_hdr h (chunk_at h a i) = Some c /\ 0 <= hd_ref c /\
     (0 < hd_ref c -> locOf st debugAt (chunk_at h a i) <> None)).
  { intros i Hi. destruct (c_chunk _ _ _ _ C a i Ha Hi) as (c & Hc & H0 & Hx). exists c. split; [exact Hc|]. split; [exact H0|].
    intros Hp. destruct (Hx Hp) as (k & b & Hk & Hal & HA). pose proof (TS k b Hk Hal) as Q.
    replace (b_addr b - 40) with (chunk_at h a i) in Q by lia. unfold locOf.
    destruct (st (chunk_at h a i)) as [t ip]. cbn [fst snd]. pose proof (K t ip (nth_error_In _ _ Q)) as KK.
    destruct (debugAt ip); [discriminate|contradiction]. }
  destruct (leakChunks_ok st debugAt h a HC (Z.to_nat (pg_occ (h_page h a))) 0 [] ltac:(lia) ltac:(lia)) as (r & Hr1 & N & Q).
  exists (MkPart a (pg_ref (h_page h a)) r). split; [reflexivity|]. split.
  - split; [exact (page_total _ _ _ _ _ _ _ I Ha)|]. split; [exact (U a Ha)|]. split; [exact N|].
    cbn [part_locs part_page]. intros l. rewrite Q. unfold leaked. split.
    + intros (_ & j & Hj & H0 & HL). destruct (proj1 (live_chunk _ _ _ _ _ _ a (chunk_at h a j) I Ha)) as (k & b & Hk & Hal & Hp & E).
      { exists j. auto. }
      pose proof (TS k b Hk Hal) as Qs. rewrite <- E in Qs. unfold locOf in HL.
      destruct (st (chunk_at h a j)) as [t ip]. cbn [fst snd] in HL. destruct (debugAt ip) as [d|] eqn:Ed; [|discriminate].
      injection HL as <-. exists k, b, ip. cbn [fst snd]. auto.
    + intros (k & b & ip & Hk & Hal & Hp & Hw & Hd). split; [intros []|].
      destruct (proj2 (live_chunk _ _ _ _ _ _ a (b_addr b - 40) I Ha)) as (j & Hj & H0 & E).
      { exists k, b. auto. }
      exists j. split; [exact Hj|]. split; [exact H0|]. pose proof (TS k b Hk Hal) as Qs. rewrite Hw, E in Qs. injection Qs as Qs.
      unfold locOf. rewrite <- Qs. cbn [fst snd]. rewrite Hd. destruct l. reflexivity.
  - intros level normal. unfold pageLeakSan, lines. destruct ((0 <? level) && normal); [|reflexivity].
    cbn [part_page part_refs part_locs]. destruct (1 <? level).
    + rewrite Hr1. reflexivity.
    + reflexivity.
Qed.

Lemma leakPages_ok h st level normal F (P : Z -> part -> Prop) :
  (forall a, In a F -> exists p, P a p /\ pageLeakSan st debugAt h a level normal =
      Ok (if (0 <? level) && normal then lines level p else [])) ->
  forall l fuel, sseg (nx h) l -> (length l < fuel)%nat -> ~ In 0 l -> incl l F ->
  exists ps, Forall2 P l ps /\ leakPages st debugAt fuel h (hd 0 l) level normal =
    Ok (if (0 <? level) && normal then concat (map (lines level) ps) else []).
Proof.
  intros HP. induction l as [|a l IH]; intros fuel S1 S2 S3 S4; (destruct fuel as [|fuel]; [cbn in S2; lia|]).
  - exists []. split; [constructor|]. cbn. destruct ((0 <? level) && normal); reflexivity.
  - cbn [hd leakPages]. destruct (a =? 0) eqn:E0; [exfalso; apply S3; left; lia|]. cbn in S1. destruct S1 as [S11 S12]. unfold nx in S11.
    destruct (HP a (S4 a (or_introl eq_refl))) as (p & Hp & ->). cbn [bind].
    destruct (IH fuel S12 ltac:(cbn in S2; lia) ltac:(intro Y; apply S3; right; exact Y) ltac:(intros y Hy; apply S4; right; exact Hy)) as (ps & Hps & E).
    rewrite S11, E. cbn [bind]. exists (p :: ps). split; [constructor; assumption|].
    destruct ((0 <? level) && normal); reflexivity.
Qed.

Theorem report_ok h s cs st w : traced malloc h s cs st w -> known debugAt w ->
  forall level normal, exists ps, report debugAt h s w ps /\
    leakReport st debugAt h level normal = Ok (if (0 <? level) && normal then concat (map (lines level) ps) else []).
Proof.
  intros T K level normal. destruct (history_inv malloc Hmalloc _ _ _ (traced_history _ _ _ _ _ T)) as (F & R & B & G & I).
  pose proof I as (L & Hg & Hr & C & U).
  destruct (leakPages_ok h st level normal F (fun a p => part_page p = a /\ about debugAt h s w p)) with (l := F) (fuel := walk h) as (ps & Hps & E).
  - intros a Ha. destruct (page_part _ _ _ _ _ _ _ _ _ a T K I Ha) as (p & P1 & P2 & P3). exists p. auto.
  - apply (dseg_sseg _ (pv h) _ 0), (l_F _ _ _ _ _ L).
  - eapply walk_len; [exact L|auto].
  - exact (F_n0 _ _ _ _ _ L Hg).
  - apply incl_refl.
  - exists ps. split; [|unfold leakReport; rewrite (l_first _ _ _ _ _ L); exact E].
    assert (MF : map part_page ps = F).
    { clear - Hps. induction Hps as [|a p l ps [H _] _ IH]; cbn; congruence. }
    assert (AB : Forall (about debugAt h s w) ps).
    { clear - Hps. induction Hps as [|a p l ps [_ H] _ IH]; constructor; auto. }
    assert (ND : NoDup F) by apply (lists_sep _ _ _ _ _ L Hg).
    split; [rewrite MF; exact ND|]. split; [exact AB|].
    intros b Hb Hal. destruct (In_nth_error _ _ Hb) as (k & Hk).
    destruct (block_place _ _ _ _ _ _ _ _ _ L Hg C Hk Hal) as (a & i & Ha & _ & Hi & HA & HH & _).
    pose proof Ha as Ha'. rewrite <- MF in Ha'. apply in_map_iff in Ha' as (p & Ep & Hp). exists p. split; [exact Hp|].
    assert (IP : in_page h a b) by (eapply in_page_here; eauto). rewrite Ep. split; [exact IP|].
    intros q Hq Hqb.
    assert (Hqa : In (part_page q) F) by (rewrite <- MF; apply in_map; exact Hq).
    destruct (in_page_uniq _ _ _ _ _ _ _ _ _ I Hqa Hk Hal Hqb) as (i2 & Hi2 & HA2 & _).
    destruct (c_page _ _ _ _ C a Ha) as (_ & O1 & _). destruct (c_page _ _ _ _ C _ Hqa) as (_ & O2 & _).
    destruct (chunk_inj _ _ _ _ _ a (part_page q) i i2 L Hg Ha Hqa) as [EQ _]; [lia|lia|lia|].
    rewrite <- MF in ND. clear - ND Hp Hq EQ Ep.
    assert (EE : part_page q = part_page p) by congruence. clear EQ Ep.
    induction ps as [|x ps IH]; [destruct Hp|]. cbn in ND. apply NoDup_cons_iff in ND as [N1 N2].
    destruct Hp as [->|Hp], Hq as [->|Hq]; auto.
    + exfalso. apply N1. rewrite <- EE. apply in_map. exact Hq.
    + exfalso. apply N1. rewrite EE. apply in_map. exact Hp.
Qed.

(** Without live blocks there is nothing to report, and otherwise there is. *)
Lemma report_nil h s w ps : report debugAt h s w ps -> (forall b, In b s -> 0 <= b_refs b) -> (ps = [] <-> forall b, In b s -> ~ alive b).
Proof.
  intros (_ & A & X) NN. split.
  - intros -> b Hb Hal. destruct (X b Hb Hal) as (p & [] & _).
  - intros H. destruct ps as [|p ps]; [reflexivity|]. exfalso. inversion A as [|x l (E & P & _) _ Ex]. clear Ex A.
    assert (Q : total_refs (filter (inPageb h (part_page p)) s) <= 0).
    { clear - H NN. induction s as [|b s IH]; cbn; [lia|].
      assert (IH' : total_refs (filter (inPageb h (part_page p)) s) <= 0) by (apply IH; intros y Y; [apply NN|apply H]; right; exact Y).
      pose proof (H b (or_introl eq_refl)) as Q. unfold alive in Q.
      destruct (inPageb h (part_page p) b); cbn [total_refs]; lia. }
    lia.
Qed.

Lemma refs_nn h s cs : history malloc h s cs -> forall b, In b s -> 0 <= b_refs b.
Proof.
  intros H b Hb. destruct (history_inv malloc Hmalloc _ _ _ H) as (F & R & B & G & L & Hg & Hr & C & U).
  destruct (In_nth_error _ _ Hb) as (k & Hk). destruct (c_block _ _ _ _ C k b Hk) as (x & id & _ & _ & H3 & _). exact H3.
Qed.

Theorem silent_ok h s cs st w : traced malloc h s cs st w -> known debugAt w -> forall level, 0 < level ->
  (leakReport st debugAt h level true = Ok [] <-> forall b, In b s -> ~ alive b).
Proof.
  intros T K level HL. destruct (report_ok _ _ _ _ _ T K level true) as (ps & HR & ->).
  replace ((0 <? level) && true) with true by lia.
  rewrite <- (report_nil _ _ _ _ HR (refs_nn _ _ _ (traced_history _ _ _ _ _ T))).
  split; [|intros ->; reflexivity]. destruct ps as [|p ps]; [reflexivity|]. discriminate.
Qed.

(** Every place where something leaked, and no other, is named. *)
Theorem places_ok h s cs st w : traced malloc h s cs st w -> known debugAt w -> forall level, 1 < level ->
  exists r, leakReport st debugAt h level true = Ok r /\
    forall l, In (LLoc l) r <-> leaked debugAt s w (fun _ => True) l.
Proof.
  intros T K level HL. destruct (report_ok _ _ _ _ _ T K level true) as (ps & (ND & AB & X) & ->).
  replace ((0 <? level) && true) with true by lia. eexists. split; [reflexivity|].
  rewrite Forall_forall in AB. intros l. rewrite in_concat. split.
  - intros (y & Hy & Hl). apply in_map_iff in Hy as (p & <- & Hp). unfold lines in Hl.
    replace (1 <? level) with true in Hl by lia. destruct Hl as [Hl|Hl]; [discriminate|].
    apply in_map_iff in Hl as (l' & E & Hl). injection E as ->. destruct (AB p Hp) as (_ & _ & _ & Q).
    apply Q in Hl as (k & b & ip & H1 & H2 & _ & H3 & H4). exists k, b, ip. auto.
  - intros (k & b & ip & H1 & H2 & _ & H3 & H4). destruct (X b (nth_error_In _ _ H1) H2) as (p & Hp & IP & _).
    exists (lines level p). split; [apply in_map; exact Hp|]. unfold lines. replace (1 <? level) with true by lia. right.
    apply in_map. destruct (AB p Hp) as (_ & _ & _ & Q). apply Q. exists k, b, ip. auto.
Qed.

Lemma pageRefs_app a b : pageRefs (a ++ b) = pageRefs a + pageRefs b.
Proof. induction a as [|[] a IH]; cbn; lia. Qed.
Lemma pageRefs_locs l : pageRefs (map LLoc l) = 0.
Proof. induction l; cbn; auto. Qed.

Lemma parts_total h s ps : (forall b, In b s -> 0 <= b_refs b) ->
  (forall b, In b s -> alive b -> exists p, In p ps /\ in_page h (part_page p) b /\ forall q, In q ps -> in_page h (part_page q) b -> q = p) ->
  NoDup (map part_page ps) ->
  fold_right (fun p n => total_refs (filter (inPageb h (part_page p)) s) + n) 0 ps = total_refs s.
Proof.
  intros NN X ND. induction s as [|b s IH].
  - clear. induction ps as [|p ps IH]; cbn in *; lia.
  - assert (IH' := IH (fun y Y => NN y (or_intror Y)) (fun y Y => X y (or_intror Y))). clear IH.
    cbn [total_refs]. rewrite <- IH'.
    assert (S1 : forall l, fold_right (fun p n => total_refs (filter (inPageb h (part_page p)) (b :: s)) + n) 0 l =
      fold_right (fun p n => (if inPageb h (part_page p) b then b_refs b else 0) + n) 0 l +
      fold_right (fun p n => total_refs (filter (inPageb h (part_page p)) s) + n) 0 l).
    { induction l as [|p l IHl]; [reflexivity|]. cbn [fold_right]. rewrite IHl. cbn [filter].
      destruct (inPageb h (part_page p) b); cbn [total_refs]; lia. }
    rewrite S1. f_equal.
    pose proof (NN b (or_introl eq_refl)) as Hb.
    assert (Z0 : b_refs b = 0 -> forall l, fold_right (fun p n => (if inPageb h (part_page p) b then b_refs b else 0) + n) 0 l = 0).
    { intros E l. induction l as [|p l IHl]; [reflexivity|]. cbn [fold_right]. rewrite IHl, E. destruct (inPageb h (part_page p) b); reflexivity. }
    destruct (Z.eq_dec (b_refs b) 0) as [E|E]; [rewrite Z0 by exact E; lia|].
    destruct (X b (or_introl eq_refl) ltac:(unfold alive; lia)) as (p & Hp & IP & UQ).
    clear - ND Hp IP UQ. induction ps as [|q ps IH]; [destruct Hp|]. cbn [fold_right map] in *. apply NoDup_cons_iff in ND as [N1 N2].
    destruct (inPageb h (part_page q) b) eqn:Q.
    + apply in_pageb in Q. pose proof (UQ q (or_introl eq_refl) Q) as ->.
      assert (R : forall l, incl l ps -> fold_right (fun p n => (if inPageb h (part_page p) b then b_refs b else 0) + n) 0 l = 0).
      { induction l as [|x l IHl]; intros HI; [reflexivity|]. cbn [fold_right]. rewrite IHl by (intros y Y; apply HI; right; exact Y).
        destruct (inPageb h (part_page x) b) eqn:QX; [|reflexivity]. exfalso. apply in_pageb in QX.
        pose proof (UQ x (or_intror (HI x (or_introl eq_refl))) QX) as ->. apply N1. apply in_map. apply HI. left. reflexivity. }
      rewrite R by apply incl_refl. lia.
    + destruct Hp as [->|Hp]; [apply in_pageb in IP; congruence|]. rewrite IH; auto. intros x Hx. apply UQ. right. exact Hx.
Qed.

Theorem refs_ok h s cs st w : traced malloc h s cs st w -> known debugAt w -> forall level, 0 < level ->
  exists r, leakReport st debugAt h level true = Ok r /\ pageRefs r = total_refs s.
Proof.
  intros T K level HL. destruct (report_ok _ _ _ _ _ T K level true) as (ps & (ND & AB & X) & ->).
  replace ((0 <? level) && true) with true by lia. eexists. split; [reflexivity|].
  rewrite <- (parts_total h s ps (refs_nn _ _ _ (traced_history _ _ _ _ _ T)) X ND).
  clear - AB. induction AB as [|p ps (E & _) _ IH]; [reflexivity|]. cbn [map concat fold_right]. rewrite pageRefs_app, IH. f_equal.
  unfold lines. cbn [pageRefs]. rewrite <- E. destruct (1 <? level); [rewrite pageRefs_locs; lia|cbn; lia].
Qed.

(** The end of a program: the stack of the main fiber is released. *)
Theorem end_ok h s cs st w stack k : traced malloc h s cs st w -> known debugAt w -> owner s stack = Some k -> total_refs s < INT_MAX ->
  exists h' cs', traced malloc h' (count_ref s k (-1)) cs' st w /\
    forall level normal, vmFree st debugAt h stack level normal = leakReport st debugAt h' level normal.
Proof.
  intros T K O TR. pose proof (traced_history _ _ _ _ _ T) as HI.
  destruct (ref_succeeds malloc Hmalloc _ _ _ stack (-1) k HI ltac:(auto) O TR) as (h' & b & Hk & HS & _).
  exists h'. eexists. split.
  - pose proof (tr_step malloc h s cs st w (ORef stack (-1)) h' (RCalls (calls_for b stack (-1))) (0, 0) T) as Q.
    specialize (Q ltac:(cbn; split; [auto|left; congruence]) HS). cbn [a_step newSite] in Q. rewrite O in Q. exact Q.
  - intros level normal. unfold vmFree. unfold step in HS.
    destruct (pageFind h stack) as [[h1 a]| |] eqn:PF; cbn [bind] in HS |- *; try discriminate.
    destruct (resolved_thm malloc Hmalloc _ _ _ stack k b HI O Hk) as (a' & A0 & PF' & _). rewrite PF in PF'. injection PF' as -> ->.
    replace (a' =? 0) with false in * by lia.
    destruct (chunkRefCnt (set_last h a') a' stack (-1)) as [[[h2 c] calls]| |]; cbn [bind] in HS |- *; try discriminate.
    injection HS as -> _. reflexivity.
Qed.
End Traced.

(** * Examples *)
Lemma playSites_traced malloc ops : forall h s cs st w r, traced malloc h s cs st w -> playSites malloc h s cs st w ops = Some r ->
  let '(h', s', cs', st', w') := r in traced malloc h' s' cs' st' w'.
Proof.
  induction ops as [|[o z] ops IH]; intros h s cs st w r T E; cbn [playSites] in E.
  - injection E as <-. exact T.
  - destruct (legalb h s o) eqn:L; [|discriminate]. destruct (step malloc h o) as [[h' x]| |] eqn:S; try discriminate.
    eapply IH; [|exact E]. eapply tr_step; [exact T|apply legalb_ok; exact L|exact S].
Qed.
Lemma play_report malloc debugAt ops s cs w level r :
  option_map (fun q => let '(h, s, cs, st, w) := q in (s, cs, w, leakReport st debugAt h level true))
    (playSites malloc init [] [] (fun _ => (0, 0)) [] ops) = Some (s, cs, w, r) ->
  exists h st, traced malloc h s cs st w /\ leakReport st debugAt h level true = r.
Proof.
  destruct (playSites malloc init [] [] (fun _ => (0, 0)) [] ops) as [[[[[h s'] cs'] st] w']|] eqn:E; [|discriminate].
  cbn [option_map]. intros Q. injection Q as -> -> -> Q. exists h, st. split; [|exact Q].
  exact (playSites_traced malloc ops _ _ _ _ _ _ (tr_init malloc (fun _ => (0, 0))) E).
Qed.
