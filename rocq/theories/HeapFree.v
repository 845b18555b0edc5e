From Coq Require Import ZArith Lia Bool List ZifyBool Permutation.
From Verif Require Import Base MemModel BlkModel CmpModel HeapModel HeapSpec HeapProofs HeapLists HeapOps HeapAlloc HeapExtra HeapHist HeapWeak.
Import ListNotations.
Local Open Scope Z_scope.
Ltac Zify.zify_post_hook ::= Z.div_mod_to_equations.

(** * Freeing all pages at the end *)
Lemma zsum_shift f : forall n, zsum f (S n) = f 0 + zsum (fun i => f (i + 1)) n.
Proof.
  induction n as [|n IH]; [cbn; lia|]. change (zsum f (S (S n))) with (zsum f (S n) + f (Z.of_nat (S n))). rewrite IH. cbn [zsum]. replace (Z.of_nat n + 1) with (Z.of_nat (S n)) by lia. lia.
Qed.
Definition cb (h : heap) (y : Z) : list (Z * Z) := match h_hdr h y with Some c => if (0 <? hd_ref c) && negb (hd_onFree c =? 0) then [(hd_onFree c, y + 40)] else [] | None => [] end.
Fixpoint cbs (h : heap) (a : Z) (m : nat) (i : Z) : list (Z * Z) := match m with O => [] | S m' => cb h (chunk_at h a i) ++ cbs h a m' (i + 1) end.
Lemma cb_len h y : Z.of_nat (length (cb h y)) = onf_at h y.
Proof. unfold cb, onf_at. destruct (h_hdr h y) as [c|]; [|reflexivity]. destruct ((0 <? hd_ref c) && negb (hd_onFree c =? 0)); reflexivity. Qed.
Lemma cbs_len h a m : forall i, Z.of_nat (length (cbs h a m i)) = zsum (fun j => onf_at h (chunk_at h a (i + j))) m.
Proof.
  induction m as [|m IH]; intro i; [reflexivity|]. rewrite zsum_shift. cbn [cbs]. rewrite app_length, Nat2Z.inj_add, cb_len, IH, Z.add_0_r. f_equal. apply zsum_ext. intros j _. do 2 f_equal. lia.
Qed.
Lemma freeChunks_S n h a i onf : freeChunks (S n) h a i onf =
      if (i <? pg_occ (h_page h a)) && (0 <? onf) then
        match h_hdr h (chunk_at h a i) with
        | None => UB
        | Some c =>
            if (hd_ref c =? 0) || (hd_onFree c =? 0) then freeChunks n h a (i + 1) onf
            else let* r := freeChunks n h a (i + 1) (onf - 1) in Ok ((hd_onFree c, chunk_at h a i + 40) :: r)
        end
      else Ok [].
Proof. reflexivity. Qed.
Lemma freeChunks_ok h a : (forall i, 0 <= i < pg_occ (h_page h a) -> exists c, h_hdr h (chunk_at h a i) = Some c /\ 0 <= hd_ref c) ->
  forall m i onf, 0 <= i -> i + Z.of_nat m = pg_occ (h_page h a) -> onf = Z.of_nat (length (cbs h a m i)) -> freeChunks (S m) h a i onf = Ok (cbs h a m i).
Proof.
  intros Hc. induction m as [|m IH]; intros i onf Hi Hm Ho.
  - rewrite freeChunks_S. replace (i <? pg_occ (h_page h a)) with false by lia. reflexivity.
  - rewrite freeChunks_S. destruct ((i <? pg_occ (h_page h a)) && (0 <? onf)) eqn:E.
    + destruct (Hc i ltac:(lia)) as (c & Hh & Hr). rewrite Hh. cbn [cbs] in Ho |- *. unfold cb in Ho |- *. rewrite Hh in Ho |- *.
      destruct ((hd_ref c =? 0) || (hd_onFree c =? 0)) eqn:E2.
      * replace ((0 <? hd_ref c) && negb (hd_onFree c =? 0)) with false in * by lia. cbn [app] in *. apply IH; [lia|lia|exact Ho].
      * replace ((0 <? hd_ref c) && negb (hd_onFree c =? 0)) with true in * by lia. cbn [app length] in *. rewrite (IH (i + 1) (onf - 1)); [reflexivity|lia|lia|lia].
    + assert (onf = 0) by lia. assert (Hn : length (cbs h a (S m) i) = 0%nat) by lia. apply length_zero_iff_nil in Hn. rewrite Hn. reflexivity.
Qed.
Fixpoint all_cbs (h : heap) (l : list Z) : list (Z * Z) := match l with [] => [] | a :: r => cbs h a (Z.to_nat (pg_occ (h_page h a))) 0 ++ all_cbs h r end.
Lemma freePages_ok h s F G : cont h s F G -> forall l fuel, sseg (nx h) l -> (length l < fuel)%nat -> ~ In 0 l -> incl l F -> freePages fuel h (hd 0 l) = Ok (all_cbs h l).
Proof.
  intro C. induction l as [|a l IH]; intros fuel S1 S2 S3 S4; (destruct fuel as [|fuel]; [cbn in S2; lia|]).
  - reflexivity.
  - cbn [hd freePages]. destruct (a =? 0) eqn:E0; [exfalso; apply S3; left; lia|]. cbn in S1. destruct S1 as [S11 S12]. unfold nx in S11. pose proof (S4 a (or_introl eq_refl)) as Ha.
    destruct (c_page _ _ _ _ C a Ha) as (_ & Ho & _ & Q4 & _). cbn [all_cbs]. rewrite (freeChunks_ok h a) with (m := Z.to_nat (pg_occ (h_page h a))).
    + cbn [bind]. rewrite S11, IH; [reflexivity|exact S12|cbn in S2; lia|intro Y; apply S3; right; exact Y|intros y Hy; apply S4; right; exact Hy].
    + intros i Hi. destruct (c_chunk _ _ _ _ C a i Ha Hi) as (c & Hc & Hc0 & _). eauto.
    + lia.
    + lia.
    + rewrite Q4, cbs_len. unfold onfs. apply zsum_ext. intros j _. do 2 f_equal.
Qed.
Lemma cbs_in h a : forall m i e, In e (cbs h a m i) <-> exists j, i <= j < i + Z.of_nat m /\ In e (cb h (chunk_at h a j)).
Proof.
  induction m as [|m IH]; intros i e; cbn [cbs].
  - split; [intros []|intros (j & Hj & _); lia].
  - rewrite in_app_iff, IH. split.
    + intros [H|(j & Hj & H)]; [exists i; split; [lia|exact H]|exists j; split; [lia|exact H]].
    + intros (j & Hj & H). destruct (Z.eq_dec j i) as [->|]; [left; exact H|right; exists j; split; [lia|exact H]].
Qed.
Lemma cb_in h y e : In e (cb h y) -> snd e = y + 40.
Proof. unfold cb. destruct (h_hdr h y) as [c|]; [|intros []]. destruct ((0 <? hd_ref c) && negb (hd_onFree c =? 0)); [|intros []]. intros [<-|[]]. reflexivity. Qed.
Lemma nodup_app {A} (l1 l2 : list A) : NoDup l1 -> NoDup l2 -> (forall x, In x l1 -> ~ In x l2) -> NoDup (l1 ++ l2).
Proof.
  induction l1 as [|a l1 IH]; cbn; intros N1 N2 D; [exact N2|]. apply NoDup_cons_iff in N1 as [N11 N12]. constructor; [|apply IH; auto]. rewrite in_app_iff. intros [Y|Y]; [auto|exact (D a (or_introl eq_refl) Y)].
Qed.
Lemma cbs_nodup h a : 0 < pg_chunk (h_page h a) -> forall m i, NoDup (cbs h a m i).
Proof.
  intro Hc. induction m as [|m IH]; intro i; cbn [cbs]; [constructor|]. apply nodup_app; [|apply IH|].
  - unfold cb. destruct (h_hdr h (chunk_at h a i)) as [c|]; [|constructor]. destruct ((0 <? hd_ref c) && negb (hd_onFree c =? 0)); [|constructor]. constructor; [intros []|constructor].
  - intros e H1 H2. apply cb_in in H1. apply cbs_in in H2 as (j & Hj & H2). apply cb_in in H2. pose proof (chunk_apart h a i j Hc ltac:(lia)). lia.
Qed.
Lemma nodup_filter {A} (P : block -> bool) (f : block -> A) : forall s, (forall i j x y, nth_error s i = Some x -> nth_error s j = Some y -> P x = true -> P y = true -> f x = f y -> i = j) -> NoDup (map f (filter P s)).
Proof.
  induction s as [|b s IH]; intro H; cbn; [constructor|]. assert (IHs : NoDup (map f (filter P s))) by (apply IH; intros i j x y Hi Hj Hx Hy E; assert (S i = S j) by (apply (H (S i) (S j) x y); assumption); lia).
  destruct (P b) eqn:E; [|exact IHs]. cbn. constructor; [|exact IHs]. intro Y. apply in_map_iff in Y as (x & Ex & Hx). apply filter_In in Hx as [Hx Px]. destruct (In_nth_error _ _ Hx) as (k & Hk).
  assert (S k = 0%nat) by (apply (H (S k) 0%nat x b); try assumption; reflexivity). discriminate.
Qed.
Section Thms.
Variable malloc : list (Z * Z) -> Z -> option Z.
Hypothesis Hmalloc : malloc_ok malloc.
Lemma free_thm h s cs : history malloc h s cs -> exists l, pageFree h = Ok l /\ Permutation l (map (fun b => (b_onFree b, b_addr b)) (filter wants_call s)).
Proof.
  intro H. destruct (history_inv malloc Hmalloc _ _ _ H) as (F & R & B & G & I). pose proof I as (L & Hg & Hr & C & U). exists (all_cbs h F). split.
  - unfold pageFree. rewrite (l_first _ _ _ _ _ L). apply (freePages_ok h s F G C); [apply (dseg_sseg _ (pv h) _ 0), (l_F _ _ _ _ _ L)|eapply walk_len; [exact L|auto]|exact (F_n0 _ _ _ _ _ L Hg)|apply incl_refl].
  - assert (MEM : forall l e, In e (all_cbs h l) <-> exists a j, In a l /\ 0 <= j < Z.of_nat (Z.to_nat (pg_occ (h_page h a))) /\ In e (cb h (chunk_at h a j))).
    { induction l as [|a l IH]; intro e; cbn [all_cbs]; [split; [intros []|intros (a & j & [] & _)]|]. rewrite in_app_iff, cbs_in, IH. split.
      - intros [(j & Hj & Y)|(x & j & Hx & Y)]; [exists a, j; split; [left; reflexivity|split; [lia|exact Y]]|exists x, j; split; [right; exact Hx|exact Y]].
      - intros (x & j & [<-|Hx] & Hj & Y); [left; exists j; split; [lia|exact Y]|right; exists x, j; auto]. }
    assert (OCC : forall x, In x F -> 0 <= pg_occ (h_page h x) <= pg_num (h_page h x)) by (intros x Hx; apply (c_page _ _ _ _ C x Hx)).
    apply NoDup_Permutation.
    + assert (ND : forall l, NoDup l -> incl l F -> NoDup (all_cbs h l)); [|apply ND; [apply (lists_sep _ _ _ _ _ L Hg)|apply incl_refl]].
      induction l as [|a l IH]; intros N HI; cbn [all_cbs]; [constructor|]. apply NoDup_cons_iff in N as [N1 N2]. pose proof (HI a (or_introl eq_refl)) as Ha. destruct (F_geo _ _ _ _ _ _ L Hg Ha) as (n & _ & _ & _ & HC & _).
      apply nodup_app; [apply cbs_nodup; exact HC|apply IH; [exact N2|intros y Hy; apply HI; right; exact Hy]|].
      intros e H1 H2. apply cbs_in in H1 as (j1 & Hj1 & H1). apply MEM in H2 as (a2 & j2 & Ha2 & Hj2 & H2). apply cb_in in H1, H2. pose proof (HI a2 (or_intror Ha2)) as Ha2'. pose proof (OCC a Ha). pose proof (OCC a2 Ha2').
      destruct (chunk_inj _ _ _ _ _ a a2 j1 j2 L Hg Ha Ha2') as [E _]; [lia|lia|lia|]. subst a2. contradiction.
    + apply nodup_filter. intros i j x y Hi Hj Px Py E. injection E as _ E. unfold wants_call in *. apply andb_true_iff in Px as [Px _]. apply andb_true_iff in Py as [Py _]. unfold aliveb in *.
      destruct (Nat.eq_dec i j) as [|Hne]; [assumption|]. exfalso. pose proof (inv_apart _ _ _ _ _ _ _ _ _ _ I Hi Hj Hne ltac:(unfold alive; lia) ltac:(unfold alive; lia)) as Q.
      destruct (inv_inside _ _ _ _ _ _ _ _ I Hi ltac:(unfold alive; lia)) as (S1 & _). destruct (inv_inside _ _ _ _ _ _ _ _ I Hj ltac:(unfold alive; lia)) as (S2 & _). unfold apart in Q. lia.
    + intro e. rewrite MEM, in_map_iff. split.
      * intros (a & j & Ha & Hj & He). pose proof (OCC a Ha). unfold cb in He. destruct (c_chunk _ _ _ _ C a j Ha ltac:(lia)) as (c & Hc & _ & Hx). rewrite Hc in He. destruct ((0 <? hd_ref c) && negb (hd_onFree c =? 0)) eqn:E; [|destruct He].
        destruct He as [<-|[]]. destruct (Hx ltac:(lia)) as (k & b & Hk & Hal & HA). exists b. destruct (block_place _ _ _ _ _ _ _ _ _ L Hg C Hk Hal) as (a2 & i2 & Ha2 & _ & Hi2 & HA2 & HH2 & _). pose proof (OCC a2 Ha2).
        destruct (chunk_inj _ _ _ _ _ a a2 j i2 L Hg Ha Ha2) as [<- <-]; [lia|lia|lia|]. rewrite Hc in HH2. injection HH2 as ->. cbn [hd_ref hd_onFree] in *. split; [rewrite HA; reflexivity|]. apply filter_In. split; [eapply nth_error_In; exact Hk|]. exact E.
      * intros (b & <- & Hb). apply filter_In in Hb as [Hb Hw]. destruct (In_nth_error _ _ Hb) as (k & Hk). unfold wants_call, aliveb in Hw. destruct (block_place _ _ _ _ _ _ _ _ _ L Hg C Hk ltac:(unfold alive; lia)) as (a & i & Ha & _ & Hi & HA & HH & _).
        exists a, i. split; [exact Ha|]. split; [lia|]. unfold cb. rewrite HH. cbn [hd_ref hd_onFree]. rewrite Hw. left. rewrite HA. reflexivity.
Qed.

(** * Memory usage *)
Lemma held_thm h s cs : history malloc h s cs -> exists u, step malloc h OMemUsage = Ok (h, RInt u) /\ held (h_blocks h) <= u.
Proof. intro H. destruct (history_inv malloc Hmalloc _ _ _ H) as (F & R & B & G & L & Hg & _). exists (h_total h). split; [reflexivity|exact (g_total _ Hg)]. Qed.

Definition exactly (num chunk : Z) (h : heap) : Prop :=
  (forall a n, In (a, n) (h_blocks h) -> pg_chunk (h_page h a) = chunk /\ pg_num (h_page h a) = num /\ n = num * chunk) /\ h_total h = held (h_blocks h).
Lemma exactly_pay num chunk h h' : exactly num chunk h -> (forall x, pg_chunk (h_page h' x) = pg_chunk (h_page h x) /\ pg_num (h_page h' x) = pg_num (h_page h x)) -> h_blocks h' = h_blocks h -> h_total h' = h_total h -> exactly num chunk h'.
Proof. intros [E1 E2] P B T. split; [|congruence]. intros a n. rewrite B. destruct (P a) as [-> ->]. apply E1. Qed.
Lemma add_exact num chunk h s F R B G h' a : inv h s F R B G -> exactly num chunk h -> pageAdd malloc h num chunk = Ok (h', a) -> exactly num chunk h'.
Proof.
  intros (L & Hg & _) [E1 E2] H. unfold pageAdd, walk in H. cbn [pageFindRecycled] in H.
  assert (TAIL : forall h2, (forall x n, In (x, n) (h_blocks h2) -> x <> a -> pg_chunk (h_page h2 x) = chunk /\ pg_num (h_page h2 x) = num) -> (forall x n, In (x, n) (h_blocks h2) -> n = num * chunk) -> h_total h2 = held (h_blocks h2) ->
     (let* id' := chk32 (h_free h2 + 1) in
      let h3 := set_free h2 id' in
      let h4 := set_page h3 a (MkPage (h_free h2) 0 num 0 0 chunk 0 (h_first h3) (a + num * chunk)) in
      let h5 := if h_first h4 =? 0 then h4 else modify h4 (h_first h4) (fun p => with_prev p a) in
      let h6 := set_first h5 a in
      let low := if (h_low h6 =? 0) || (a <? h_low h6) then a else h_low h6 in
      let high := if (h_high h6 =? 0) || (h_high h6 <? a + num * chunk) then a + num * chunk else h_high h6 in
      Ok (set_last (set_range h6 low high) a, a)) = Ok (h', a) -> exactly num chunk h').
  { intros h2 Q1 Q2 Q3 HH. destruct (chk32 (h_free h2 + 1)) as [id'| |]; cbn [bind] in HH; try discriminate. cbv zeta in HH. apply (f_equal (fun o => match o with Ok (x, _) => x | _ => h' end)) in HH. cbn beta iota in HH. rewrite <- HH.
    assert (PP : forall x, (x = a \/ (pg_chunk (h_page h2 x) = chunk /\ pg_num (h_page h2 x) = num)) -> pg_chunk (h_page h' x) = chunk /\ pg_num (h_page h' x) = num).
    { intros x Hx. rewrite <- HH. cbn [set_last set_range set_first h_page]. destruct (h_first _ =? 0); unfold modify, set_page; cbn [h_page set_free h_first].
      - destruct (x =? a) eqn:E; [cbn; auto|]. destruct Hx as [?|Hx]; [lia|exact Hx].
      - destruct (x =? h_first h2) eqn:E3; cbn [with_prev pg_chunk pg_num].
        + destruct (h_first h2 =? a) eqn:E; [cbn; auto|]. destruct Hx as [?|Hx]; [lia|]. replace (h_first h2) with x by lia. exact Hx.
        + destruct (x =? a) eqn:E; [cbn; auto|]. destruct Hx as [?|Hx]; [lia|exact Hx]. }
    rewrite HH. split; [|rewrite <- HH; destruct (h_first _ =? 0); exact Q3]. intros x n Hx.
    assert (Hx2 : In (x, n) (h_blocks h2)) by (rewrite <- HH in Hx; destruct (h_first _ =? 0) in Hx; exact Hx). rewrite (Q2 _ _ Hx2).
    destruct (PP x) as [-> ->]; [|auto]. destruct (Z.eq_dec x a) as [|Hne]; [left; assumption|right; exact (Q1 _ _ Hx2 Hne)]. }
  destruct (h_recycled h =? 0) eqn:ER.
  - cbn [bind Z.eqb] in H. destruct (malloc (h_blocks h) (num * chunk)) as [a0|]; cbn [bind] in H; [|discriminate].
    assert (a0 = a) by (destruct (chk32 _) as [?| |] in H; cbn [bind] in H; try discriminate; apply (f_equal (fun o => match o with Ok (_, x) => x | _ => 0 end)) in H; exact H). subst a0.
    apply (TAIL (set_blocks h ((a, num * chunk) :: h_blocks h) (h_total h + num * chunk))); [| |cbn; lia|exact H].
    + intros x n [Hx|Hx] Hne; [congruence|]. destruct (E1 _ _ Hx) as (? & ? & _). auto.
    + intros x n [Hx|Hx]; [congruence|]. apply (E1 _ _ Hx).
  - pose proof (l_rec _ _ _ _ _ L) as HR. assert (In (h_recycled h) R) by (destruct R as [|c R]; cbn in HR; [lia|left; congruence]). destruct (lists_in _ _ _ _ _ (h_recycled h) L) as (n0 & Hn0); [rewrite !in_app_iff; auto|].
    destruct (E1 _ _ Hn0) as (C1 & C2 & C3). unfold page_size in H. rewrite C1, C2, Z.leb_refl in H. cbn [bind] in H. rewrite ER in H. cbn [bind] in H.
    assert (h_recycled h = a) as <- by (destruct (chk32 _) as [?| |] in H; cbn [bind] in H; try discriminate; apply (f_equal (fun o => match o with Ok (_, x) => x | _ => 0 end)) in H; exact H).
    apply (TAIL (set_recycled h (pg_next (h_page h (h_recycled h))))); [| |exact E2|exact H].
    + intros x n Hx _. destruct (E1 _ _ Hx) as (? & ? & _). auto.
    + intros x n Hx. apply (E1 _ _ Hx).
Qed.
Definition page_of (c : Z) : Z := if MIN_PAGE / c =? 0 then 1 else MIN_PAGE / c.
Lemma only_history P h s : only malloc P h s -> exists cs, history malloc h s cs.
Proof. induction 1 as [|h s o h' x H [cs IH] HP Hl Hs]; [exists []; constructor|]. eexists. eapply later_step; eassumption. Qed.
Lemma exact_thm c h s : only malloc (one_size c) h s -> step malloc h OMemUsage = Ok (h, RInt (held (h_blocks h))).
Proof.
  intro H. assert (E : exactly (page_of c) c h); [|cbn [step]; destruct E as [_ ->]; reflexivity].
  induction H as [|h s o h' x H IH HP Hl Hs].
  - split; [intros a n []|reflexivity].
  - destruct (only_history _ _ _ H) as (cs & HH). destruct (history_inv malloc Hmalloc _ _ _ HH) as (F & R & B & G & I). destruct o as [size g st|p d|p|w|y v|l|].
    + cbn [one_size] in HP. cbn [step] in Hs. destruct (chunkAlloc malloc h size g st) as [(h1 & p1)| |] eqn:EA; cbn [bind] in Hs; try discriminate. injection Hs as <- <-.
      unfold chunkAlloc in EA. rewrite HP in EA. destruct ((size <? 0) || (INT_MAX <? c)) eqn:E0; [discriminate|]. pose proof I as (L & Hg & Hr & C & U). unfold pageFindForAlloc in EA. rewrite (l_first _ _ _ _ _ L) in EA.
      destruct (allocLoop_ok h c F F (walk h) 0 INT_MAX) as (a & EL & HA).
      { apply (dseg_sseg _ (pv h) _ 0), (l_F _ _ _ _ _ L). } { eapply walk_len; [exact L|auto]. } { exact (F_n0 _ _ _ _ _ L Hg). } { apply incl_refl. } { auto. }
      rewrite EL in EA. cbn [bind] in EA.
      assert (TAIL : forall h2 a2, exactly (page_of c) c h2 ->
        (let h1 := set_bytes h2 (zero_range (h_mem h2) (a2 + pg_occ (h_page h2 a2) * pg_chunk (h_page h2 a2)) (pg_chunk (h_page h2 a2))) in
         let h2' := set_hdr h1 (a2 + pg_occ (h_page h2 a2) * pg_chunk (h_page h2 a2)) (MkHdr 1 size g st) in
         let h3 := modify h2' a2 (fun p => with_occ p (pg_occ p + 1)) in
         let h4 := if g =? 0 then h3 else modify h3 a2 (fun p => with_onf p (pg_onf p + 1)) in
         let* r := chk32 (pg_ref (h_page h4 a2) + 1) in
         Ok (modify h4 a2 (fun p => with_ref p r), a2 + pg_occ (h_page h2 a2) * pg_chunk (h_page h2 a2) + 40)) = Ok (h1, p1) -> exactly (page_of c) c h1).
      { intros h2 a2 EX HH2. cbv zeta in HH2. destruct (chk32 _) as [r| |] in HH2; cbn [bind] in HH2; try discriminate. apply (f_equal (fun o => match o with Ok (x, _) => x | _ => h1 end)) in HH2. cbn beta iota in HH2. rewrite <- HH2.
        apply (exactly_pay _ _ h2); [exact EX| | |]; [|destruct (g =? 0); reflexivity|destruct (g =? 0); reflexivity].
        intro y. destruct (g =? 0); unfold modify, set_page, set_hdr, set_bytes; cbn [h_page]; destruct (y =? a2) eqn:E; rewrite ?Z.eqb_refl; cbn; try (replace y with a2 by lia); auto. }
      destruct (a =? 0) eqn:Ea.
      * destruct (pageAdd malloc h _ c) as [(h2 & a2)| |] eqn:EP in EA; cbn [bind] in EA; try discriminate. apply (TAIL h2 a2); [|exact EA]. eapply add_exact; [exact I|exact IH|exact EP].
      * cbn [bind] in EA. apply (TAIL (set_last h a) a); [|exact EA]. exact IH.
    + destruct Hl as [Hd Hl]. destruct (owner s p) as [k|] eqn:Ho.
      * destruct (ref_step malloc _ _ _ _ _ _ _ _ _ _ _ I Hd Ho Hs) as (b & F' & R' & B' & _ & _ & _ & _ & _ & _ & _ & Q1 & Q2 & Q3 & _). apply (exactly_pay _ _ h); assumption.
      * destruct Hl as [Hl|Hf]; [congruence|]. rewrite (ref_foreign malloc _ _ _ _ _ _ _ d I Hf) in Hs. injection Hs as <- _. exact IH.
    + cbn [step] in Hs. destruct (doWeakenPtr h p) as [(h1 & w)| |] eqn:E; cbn [bind] in Hs; try discriminate. injection Hs as <- <-. destruct (weaken_step _ _ _ _ _ _ _ _ _ I (proj2 Hl) E) as [(a0 & Ha & ->)| ->]; exact IH.
    + cbn [step] in Hs. destruct (doStrengthenPtr h w) as [p| |]; cbn [bind] in Hs; try discriminate. injection Hs as <- <-. exact IH.
    + cbn [step] in Hs. injection Hs as <- <-. exact IH.
    + cbn [step] in Hs. injection Hs as <- <-. exact IH.
    + cbn [step] in Hs. injection Hs as <- <-. exact IH.
Qed.
(** * Progress *)
Lemma chk32_pos z : 0 <= z <= INT_MAX -> chk32 z = Ok z.
Proof. intro H. unfold chk32. replace ((INT_MIN <=? z) && (z <=? INT_MAX)) with true; [reflexivity|]. unfold INT_MIN, two31. lia. Qed.
Lemma unlink_free h a : h_free (unlink h a) = h_free h.
Proof. unfold unlink. destruct (pg_prev (h_page h a) =? 0); destruct (_ =? 0); reflexivity. Qed.
Lemma sweep_free : forall fuel h a h', sweep fuel h a = Ok h' -> h_free h' = h_free h.
Proof.
  induction fuel as [|fuel IH]; intros h a h' H; cbn [sweep] in H; [discriminate|]. destruct (a =? 0); [injection H as <-; reflexivity|]. destruct (pageMayBeReferencedByTemporaries h a); [eapply IH, H|].
  apply IH in H. rewrite H. unfold set_black, pageMoveToRecycled, set_recycled, modify, set_page. cbn [h_free]. rewrite unlink_free. destruct (a =? h_black h); reflexivity.
Qed.
Lemma remove_free h a bl h' : pageRemove h a bl = Ok h' -> h_free h' = h_free h.
Proof.
  unfold pageRemove. set (h0 := if a =? h_first h then _ else h). assert (E0 : h_free h0 = h_free h) by (unfold h0; destruct (a =? h_first h); reflexivity).
  set (h1 := if a =? h_last _ then _ else _). assert (E1 : h_free h1 = h_free h) by (unfold h1; destruct (a =? h_last _); cbn [set_last h_free]; rewrite unlink_free; exact E0).
  destruct bl.
  - unfold pageMoveToBlacklisted, pageMoveBlacklistedToRecycled. destruct (if h_blsize h1 <? MAX_BLACKLISTED then _ else _) as [h2| |] eqn:E; cbn [bind]; try discriminate. intro H.
    assert (E2 : h_free h2 = h_free h1) by (destruct (h_blsize h1 <? MAX_BLACKLISTED); [injection E as <-; reflexivity|eapply sweep_free, E]).
    injection H as <-. unfold set_black. cbn [h_free]. destruct (h_black _ =? 0); cbn [modify set_page h_free]; congruence.
  - intro H. injection H as <-. exact E1.
Qed.
Lemma find_free h p h' a : pageFind h p = Ok (h', a) -> h_free h' = h_free h.
Proof.
  unfold pageFind. destruct (_ && _); [intro H; injection H as <- _; reflexivity|]. destruct (_ && _); [intro H; injection H as <- _; reflexivity|]. destruct (if h_last h =? 0 then _ else _) as [c| |]; cbn [bind]; try discriminate.
  destruct c; [intro H; injection H as <- _; reflexivity|]. generalize (h_first h). generalize (walk h). induction n as [|n IH]; intros x H; cbn [findLoop] in H; [discriminate|]. destruct (x =? 0); [injection H as <- _; reflexivity|].
  destruct (if x =? h_last h then _ else _) as [c| |]; cbn [bind] in H; try discriminate. destruct c; [injection H as <- _; reflexivity|]. eapply IH, H.
Qed.
Lemma recyc_free : forall fuel h size h' a, pageFindRecycled fuel h size = Ok (h', a) -> h_free h' = h_free h.
Proof.
  induction fuel as [|fuel IH]; intros h size h' a H; cbn [pageFindRecycled] in H; [discriminate|]. destruct (h_recycled h =? 0); [injection H as <- _; reflexivity|]. destruct (size <=? _); [injection H as <- _; reflexivity|].
  apply IH in H. rewrite H. reflexivity.
Qed.
Lemma add_free h num chunk h' a : pageAdd malloc h num chunk = Ok (h', a) -> h_free h' = h_free h + 1.
Proof.
  unfold pageAdd. destruct (pageFindRecycled _ _ _) as [(h1 & a1)| |] eqn:E1; cbn [bind]; try discriminate. apply recyc_free in E1.
  destruct (if a1 =? 0 then _ else _) as [(h2 & a2)| |] eqn:E2; cbn [bind]; try discriminate. assert (E3 : h_free h2 = h_free h1) by (destruct (a1 =? 0); [destruct (malloc _ _); [injection E2 as <- _; reflexivity|discriminate]|injection E2 as <- _; reflexivity]).
  destruct (chk32 (h_free h2 + 1)) as [id| |] eqn:E; cbn [bind]; try discriminate. apply chk32_inv in E as [-> _]. intro H. apply (f_equal (fun o => match o with Ok (x, _) => x | _ => h' end)) in H. cbn beta iota in H. rewrite <- H.
  destruct (h_first _ =? 0); cbn [set_last set_range set_first modify set_page set_free h_free]; lia.
Qed.
Lemma step_free h o h' x : step malloc h o = Ok (h', x) -> h_free h <= h_free h' <= h_free h + (match o with OAlloc _ _ _ => 1 | _ => 0 end).
Proof.
  intro H. destruct o as [size g st|p d|p|w|y v|l|]; cbn [step] in H.
  - destruct (chunkAlloc malloc h size g st) as [(h1 & p1)| |] eqn:EA; cbn [bind] in H; try discriminate. injection H as <- _. unfold chunkAlloc in EA. destruct (_ || _); [discriminate|].
    destruct (pageFindForAlloc h _) as [(h2 & a)| |] eqn:E2; cbn [bind] in EA; try discriminate.
    assert (E3 : h_free h2 = h_free h).
    { revert E2. unfold pageFindForAlloc. generalize (h_first h) 0 INT_MAX. generalize (walk h). induction n as [|n IH]; intros z best bs HH; cbn [allocLoop] in HH; [discriminate|].
      destruct (z =? 0); [injection HH as <- _; destruct (best =? 0); reflexivity|]. destruct (pg_occ _ <? pg_num _); [|eapply IH, HH]. destruct (pg_chunk _ =? _); [injection HH as <- _; reflexivity|]. destruct (_ && _); eapply IH, HH. }
    destruct (if a =? 0 then _ else _) as [(h3 & a3)| |] eqn:E4 in EA; cbn [bind] in EA; try discriminate.
    assert (E5 : h_free h <= h_free h3 <= h_free h + 1) by (destruct (a =? 0); [apply add_free in E4; lia|injection E4 as <- _; lia]).
    destruct (chk32 _) as [r| |] in EA; cbn [bind] in EA; try discriminate. apply (f_equal (fun o => match o with Ok (x, _) => x | _ => h1 end)) in EA. cbn beta iota in EA. rewrite <- EA. destruct (g =? 0); exact E5.
  - destruct (pageFind h p) as [(h1 & a)| |] eqn:E; cbn [bind] in H; try discriminate. apply find_free in E. destruct (a =? 0); [injection H as <- _; lia|].
    destruct (chunkRefCnt h1 a p d) as [((h2 & r) & calls)| |] eqn:E2; cbn [bind] in H; try discriminate. injection H as <- _. unfold chunkRefCnt in E2. destruct (h_hdr h1 _) as [c|]; [|discriminate]. destruct (_ || _); [discriminate|].
    destruct (chk32 (hd_ref c + d)) as [cr| |]; cbn [bind] in E2; try discriminate. destruct (chk32 (pg_ref _ + d)) as [pr| |]; cbn [bind] in E2; try discriminate. destruct (pr =? 0).
    + destruct (pageRemove _ _ _) as [h3| |] eqn:E3 in E2; cbn [bind] in E2; try discriminate. apply remove_free in E3. injection E2 as <- _ _. rewrite E3. destruct (_ && _); cbn [modify set_page set_hdr h_free]; lia.
    + injection E2 as <- _ _. destruct (_ && _); cbn [modify set_page set_hdr h_free]; lia.
  - destruct (doWeakenPtr h p) as [(h1 & w)| |] eqn:E; cbn [bind] in H; try discriminate. injection H as <- _. unfold doWeakenPtr in E. destruct (pageFind h p) as [(h2 & a)| |] eqn:E2; cbn [bind] in E; try discriminate. apply find_free in E2.
    assert (h1 = h2); [|subst; lia]. destruct (a =? 0); [injection E as <- _; reflexivity|]. destruct (h_hdr _ _) as [c|]; [|discriminate]. destruct (hd_stack c); [discriminate|].
    apply (f_equal (fun o => match o with Ok (x, _) => x | _ => h1 end)) in E. symmetry. exact E.
  - destruct (doStrengthenPtr h w); cbn [bind] in H; try discriminate. injection H as <- _. lia.
  - injection H as <- _. cbn. lia.
  - injection H as <- _. cbn. lia.
  - injection H as <- _. lia.
Qed.
Lemma astep_len s o x : (length s <= length (a_step s o x))%nat.
Proof. destruct o, x; cbn [a_step]; rewrite ?app_length; try lia; destruct (owner s ptr); rewrite ?count_len; lia. Qed.
Lemma history_free h s cs : history malloc h s cs -> 1 <= h_free h <= 1 + Z.of_nat (length s).
Proof.
  induction 1 as [|h1 s1 cs o h2 x HL IH Hl Hs]; [cbn; lia|]. pose proof (step_free _ _ _ _ Hs). pose proof (astep_len s1 o x). destruct o; try lia. cbn [step] in Hs. destruct (chunkAlloc _ _ _ _ _) as [(h3 & p)| |]; cbn [bind] in Hs; try discriminate. injection Hs as <- <-.
  cbn [a_step] in *. rewrite app_length in *. cbn [length] in *. lia.
Qed.
Lemma alloc_progress h s cs size f st : history malloc h s cs -> 1 + Z.of_nat (length s) < INT_MAX -> total_refs s < INT_MAX ->
  (exists h' p, step malloc h (OAlloc size f st) = Ok (h', RPtr p)) \/
  (step malloc h (OAlloc size f st) = Err EOutOfMemory /\
   (size < 0 \/ INT_MAX < chunkSizeFor size \/ exists l n, incl l (h_blocks h) /\ n <= INT_MAX /\ malloc l n = None)).
Proof.
  intros H HN HT. destruct (history_inv malloc Hmalloc _ _ _ H) as (F & R & B & G & I). pose proof (history_free _ _ _ H) as HF. cbn [step]. unfold chunkAlloc.
  destruct ((size <? 0) || (INT_MAX <? chunkSizeFor size)) eqn:E0; [right; split; [reflexivity|lia]|]. assert (H0 : 0 <= size) by lia. assert (HC : chunkSizeFor size <= INT_MAX) by lia. destruct (chunkSize_bound size H0) as [CB1 CB2]. pose proof I as (L & Hg & Hr & C & U). unfold pageFindForAlloc. rewrite (l_first _ _ _ _ _ L).
  destruct (allocLoop_ok h (chunkSizeFor size) F F (walk h) 0 INT_MAX) as (a & EL & HA).
  { apply (dseg_sseg _ (pv h) _ 0), (l_F _ _ _ _ _ L). } { eapply walk_len; [exact L|auto]. } { exact (F_n0 _ _ _ _ _ L Hg). } { apply incl_refl. } { auto. }
  rewrite EL. cbn [bind].
  assert (TAIL : forall h2 a2, pg_ref (h_page h2 a2) < INT_MAX -> 0 <= pg_ref (h_page h2 a2) -> exists h' p,
    (let* (h, p) := (let p := h_page h2 a2 in let chunk := a2 + pg_occ p * pg_chunk p in
         let h1 := set_bytes h2 (zero_range (h_mem h2) chunk (pg_chunk p)) in
         let h2' := set_hdr h1 chunk (MkHdr 1 size f st) in
         let h3 := modify h2' a2 (fun p => with_occ p (pg_occ p + 1)) in
         let h4 := if f =? 0 then h3 else modify h3 a2 (fun p => with_onf p (pg_onf p + 1)) in
         let* r := chk32 (pg_ref (h_page h4 a2) + 1) in
         Ok (modify h4 a2 (fun p => with_ref p r), chunk + 40)) in Ok (h, RPtr p)) = Ok (h', RPtr p)).
  { intros h2 a2 Q Q0. cbv zeta. match goal with |- context [chk32 (pg_ref ?X + 1)] => assert (E : pg_ref X = pg_ref (h_page h2 a2)) by (destruct (f =? 0); unfold modify, set_page; cbn [h_page set_hdr set_bytes]; rewrite ?Z.eqb_refl; reflexivity); rewrite E end.
    assert (E2 : chk32 (pg_ref (h_page h2 a2) + 1) = Ok (pg_ref (h_page h2 a2) + 1)) by (apply chk32_pos; lia). rewrite E2. cbn [bind]. eauto. }
  destruct (a =? 0) eqn:Ea.
  - set (num := if MIN_PAGE / chunkSizeFor size =? 0 then 1 else MIN_PAGE / chunkSizeFor size).
    assert (Hn : 0 < num /\ num * chunkSizeFor size <= INT_MAX).
    { unfold num, MIN_PAGE, INT_MAX, two31 in *. set (c := chunkSizeFor size) in *. clearbody c. assert (Hc : 0 < c) by lia. pose proof (Z.mul_div_le 1048576 c Hc). pose proof (Z.div_pos 1048576 c ltac:(lia) Hc).
      change (1024 * 1024) with 1048576 in *. destruct (1048576 / c =? 0) eqn:E; [lia|]. set (q := 1048576 / c) in *. clearbody q. rewrite Z.mul_comm. lia. }
    assert (HP : (exists h2 a2, pageAdd malloc h num (chunkSizeFor size) = Ok (h2, a2)) \/ (pageAdd malloc h num (chunkSizeFor size) = Err EOutOfMemory /\ exists l n, incl l (h_blocks h) /\ n <= INT_MAX /\ malloc l n = None)).
    { unfold pageAdd. assert (0 < num) by apply (proj1 Hn).
      destruct (findRecycled_ok (num * chunkSizeFor size) ltac:(apply Z.mul_pos_pos; lia) R (walk h) h F B L Hg) as (h1 & a1 & R' & E1 & _ & _ & SM & _ & INC); [eapply walk_len; [exact L|auto]|]. rewrite E1. apply recyc_free in E1. cbn [bind].
      destruct (a1 =? 0) eqn:E2.
      - destruct (malloc (h_blocks h1) (num * chunkSizeFor size)) as [z|] eqn:EM; cbn [bind].
        + left. cbn [set_blocks h_free]. rewrite E1, chk32_pos by lia. cbn [bind]. eauto.
        + right. split; [reflexivity|]. exists (h_blocks h1), (num * chunkSizeFor size). split; [exact INC|split; [apply Hn|exact EM]].
      - left. cbn [bind]. rewrite E1, chk32_pos by lia. cbn [bind]. eauto. }
    destruct HP as [(h2 & a2 & EP)|(EP & HE)]; rewrite EP; cbn [bind]; [left|right; split; [reflexivity|auto]].
    destruct (pageAdd_ok malloc Hmalloc h s F R B G num (chunkSizeFor size) h2 a2 I (proj1 Hn) ltac:(lia) (proj2 Hn) EP) as (R' & L1 & Hg1 & Hr1 & C1 & U1 & IR & NI & (PO & PN & PC) & _).
    destruct (c_page _ _ _ _ C1 a2 (or_introl eq_refl)) as (_ & _ & Q3 & _). unfold refs in Q3. rewrite PO in Q3. cbn in Q3. apply TAIL; rewrite Q3; [reflexivity|lia].
  - left. cbn [bind]. destruct HA as [HA|(HA & _)]; [lia|]. apply TAIL; cbn [set_last h_page]; [pose proof (page_refs_le _ _ _ _ _ _ _ I HA); lia|pose proof (U a HA); lia].
Qed.
Lemma resolved_thm h s cs p k b : history malloc h s cs -> owner s p = Some k -> nth_error s k = Some b ->
  exists a, a <> 0 /\ pageFind h p = Ok (set_last h a, a) /\ pageGetChunk h a p = b_addr b - 40 /\ h_hdr h (pageGetChunk h a p) = Some (MkHdr (b_refs b) (b_size b) (b_onFree b) (b_stack b)).
Proof.
  intros H Ho Hk. destruct (history_inv malloc Hmalloc _ _ _ H) as (F & R & B & G & I). destruct (owner_spec _ _ _ Ho) as (b' & Hk' & Hal & Hw). rewrite Hk in Hk'. injection Hk' as <-.
  destruct (find_alive _ _ _ _ _ _ _ _ _ I Hk Hal Hw) as (a & i & EF & Ha & HG & Hi & HA & HH & HC & HR). exists a. rewrite HC. split; [|split; [exact EF|split; [lia|exact HH]]].
  intros ->. destruct I as (L & Hg & _). exact (F_n0 _ _ _ _ _ L Hg Ha).
Qed.
Lemma legalb_ok h s o : legalb h s o = true -> legal h s o.
Proof.
  assert (R : forall p, reachb h s p = true -> owner s p <> None \/ foreign h p).
  { intros p H. unfold reachb in H. destruct (owner s p); [left; discriminate|right]. intros a n Hin Y. unfold foreignb in H. rewrite forallb_forall in H. specialize (H _ Hin). cbn [fst snd] in H. lia. }
  destruct o; cbn [legalb legal]; intro H; try exact I.
  - apply andb_true_iff in H as [H1 H2]. split; [lia|auto].
  - apply andb_true_iff in H as [H1 H2]. split; [lia|auto].
  - auto.
Qed.
Lemma play_later h0 s0 : forall ops h s cs h' s' cs', later malloc h0 s0 h s cs -> play malloc h s cs ops = Some (h', s', cs') -> later malloc h0 s0 h' s' cs'.
Proof.
  induction ops as [|o ops IH]; intros h s cs h' s' cs' HL H; cbn [play] in H.
  - injection H as <- <- <-. exact HL.
  - destruct (legalb h s o) eqn:E; [|discriminate]. destruct (step malloc h o) as [(h1 & x)| |] eqn:ES; try discriminate. eapply IH; [|exact H]. eapply later_step; [exact HL|apply legalb_ok; exact E|exact ES].
Qed.
Lemma play_history ops s cs : option_map (fun r => (snd (fst r), snd r)) (play malloc init [] [] ops) = Some (s, cs) -> exists h, history malloc h s cs.
Proof.
  intro H. destruct (play malloc init [] [] ops) as [((h & s') & cs')|] eqn:E; [|discriminate]. cbn in H. injection H as <- <-. exists h. eapply play_later; [apply later_here|exact E].
Qed.
Lemma play_usage ops u : option_map (fun r => (h_total (fst (fst r)), held (h_blocks (fst (fst r))))) (play malloc init [] [] ops) = Some u ->
  exists h s cs, history malloc h s cs /\ (h_total h, held (h_blocks h)) = u.
Proof.
  intro H. destruct (play malloc init [] [] ops) as [((h & s') & cs')|] eqn:E; [|discriminate]. injection H as <-. exists h, s', cs'. split; [eapply play_later; [apply later_here|exact E]|reflexivity].
Qed.
End Thms.
Lemma bump_ok : malloc_ok bump.
Proof.
  intros l n a H. unfold bump in H. destruct (_ <? two63) eqn:E; [|discriminate]. injection H as <-. set (top := fold_right _ 1000 l) in *.
  assert (T : 1000 <= top /\ forall b m, In (b, m) l -> b + m <= top).
  { unfold top. clear. induction l as [|(b & m) l IH]; cbn [fold_right fst snd]; [split; [lia|intros b m []]|]. destruct IH as [I1 I2]. split; [lia|]. intros b' m' [H|H]; [injection H as <- <-; lia|]. specialize (I2 _ _ H). lia. }
  unfold HEADER in *. split; [lia|]. split; [lia|]. intros b m Hin. right. destruct T as [_ T]. specialize (T _ _ Hin). lia.
Qed.
Lemma stale_case : exists h h' b0 b1 p, history bump h [b0; b1] [] /\ ~ alive b0 /\ within p b0 /\ b_refs b1 = 1 /\ step bump h (ORef p 1) = Ok (h', RCalls []) /\ history bump h' [b0; add_ref b1 1] [].
Proof.
  destruct (play_history bump [OAlloc 16 0 false; ORef 1088 (-1); OAlloc 16 0 false] [MkB 1088 16 0 0 false; MkB 1088 16 1 0 false] []) as (h & H); [vm_compute; reflexivity|].
  destruct (ref_succeeds bump bump_ok h _ _ 1088 1 1%nat H ltac:(auto) ltac:(vm_compute; reflexivity) ltac:(vm_compute; reflexivity)) as (h' & b & Hb & HS & HH). injection Hb as <-.
  exists h, h', (MkB 1088 16 0 0 false), (MkB 1088 16 1 0 false), 1088. split; [exact H|]. split; [unfold alive; cbn; lia|]. split; [unfold within; cbn; lia|]. split; [reflexivity|]. split; [exact HS|exact HH].
Qed.
Lemma interior_case : exists h b p, history bump h [b] [(b_onFree b, p)] /\ p <> b_addr b.
Proof.
  destruct (play_history bump [OAlloc 16 7 false; ORef 1096 1; ORef 1088 (-1); ORef 1096 (-1)] [MkB 1088 16 0 7 false] [(7, 1096)]) as (h & H); [vm_compute; reflexivity|].
  exists h, (MkB 1088 16 0 7 false), 1096. split; [exact H|discriminate].
Qed.
Lemma drift_case : exists h s cs, history bump h s cs /\ (h_total h, held (h_blocks h)) = (2951552, 2000064).
Proof. apply (play_usage bump [OAlloc 2000000 0 false; ORef 1088 (-1); OAlloc 16 0 false; ORef 1088 (-1); OAlloc 2000000 0 false]). vm_compute. reflexivity. Qed.
