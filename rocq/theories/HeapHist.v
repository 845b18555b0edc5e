From Coq Require Import ZArith Lia Bool List ZifyBool Permutation.
From Verif Require Import Base MemModel BlkModel CmpModel HeapModel HeapSpec HeapProofs HeapLists HeapOps HeapAlloc HeapExtra.
Import ListNotations.
Local Open Scope Z_scope.
Ltac Zify.zify_post_hook ::= Z.div_mod_to_equations.

Lemma init_inv : inv init [] [] [] [] [].
Proof.
  split; [constructor; cbn; auto|]. split; [constructor; cbn; try tauto; [constructor|lia]|]. split; [split; [left; reflexivity|split; [intros a []|cbn; lia]]|]. split; [|intros a []].
  constructor; cbn; try tauto; try (intros [|k]; discriminate). unfold INT_MAX, two31. lia.
Qed.
Lemma inv_ext h h' s F R B G : inv h s F R B G -> h_page h' = h_page h -> h_hdr h' = h_hdr h -> h_blocks h' = h_blocks h -> h_first h' = h_first h -> h_recycled h' = h_recycled h -> h_black h' = h_black h ->
  h_last h' = h_last h -> h_low h' = h_low h -> h_high h' = h_high h -> h_free h' = h_free h -> h_total h' = h_total h -> inv h' s F R B G.
Proof.
  intros (L & Hg & Hr & C & U) E1 E2 E3 E4 E5 E6 E7 E8 E9 E10 E11. assert (S : same_pay h h') by (intro x; rewrite E1; reflexivity). split; [|split; [|split; [|split]]].
  - destruct L as [l1 l2 l3 l4 l5 l6 l7]. constructor; try congruence; unfold nx, pv; rewrite E1; assumption.
  - apply (geo_same h); assumption.
  - apply (rng_sub h _ F); try assumption; [apply incl_refl|rewrite E7; apply Hr].
  - apply (cont_same h _ _ F); try assumption; [apply incl_refl|auto].
  - apply (used_sub h); assumption.
Qed.

Section Hist.
Variable malloc : list (Z * Z) -> Z -> option Z.
Hypothesis Hmalloc : malloc_ok malloc.

Lemma ref_step h s F R B G p d k h' x : inv h s F R B G -> (d = 1 \/ d = -1) -> owner s p = Some k -> step malloc h (ORef p d) = Ok (h', x) ->
  exists b F' R' B', nth_error s k = Some b /\ alive b /\ within p b /\ inv h' (count_ref s k d) F' R' B' G /\ x = RCalls (calls_for b p d) /\ h_mem h' = h_mem h /\ h_temps h' = h_temps h /\
    h_blocks h' = h_blocks h /\ h_total h' = h_total h /\
    (forall y, pg_chunk (h_page h' y) = pg_chunk (h_page h y) /\ pg_num (h_page h' y) = pg_num (h_page h y)) /\ (forall y, In y R' -> In y R \/ pageMayBeReferencedByTemporaries h y = false).
Proof.
  intros I Hd Ho H. destruct (owner_spec _ _ _ Ho) as (b & Hk & Hal & Hw). destruct (find_alive _ _ _ _ _ _ _ _ _ I Hk Hal Hw) as (a & i & EF & Ha & HG & Hi & HA & HH & HC & HR).
  pose proof (inv_last _ _ _ _ _ _ _ I Ha) as I1. pose proof (refcnt_ok (set_last h a) s F R B G k b p a i d I1 Hk Hal Ha HG Hi HA HH HC Hd) as Q.
  cbn [step] in H. rewrite EF in H. cbn [bind] in H. destruct (a =? 0) eqn:E0.
  { exfalso. destruct I as (L & Hg & _). apply (F_n0 _ _ _ _ _ L Hg). replace 0 with a by lia. exact Ha. }
  destruct (pg_ref (h_page (set_last h a) a) + d <=? INT_MAX).
  - destruct Q as (h2 & r & F' & R' & B' & Q & I2 & _ & Q1 & Q2 & Q3 & Q4 & Q5 & Q6). rewrite Q in H. cbn [bind] in H. injection H as <- <-.
    exists b, F', R', B'. split; [exact Hk|]. split; [exact Hal|]. split; [exact Hw|]. split; [exact I2|]. split; [reflexivity|]. split; [exact Q1|]. split; [exact Q2|]. split; [exact Q3|]. split; [exact Q4|]. split; [exact Q5|exact Q6].
  - rewrite Q in H. discriminate.
Qed.
Lemma ref_foreign h s F R B G p d : inv h s F R B G -> foreign h p -> step malloc h (ORef p d) = Ok (h, RCalls []).
Proof. intros I Hf. cbn [step]. rewrite (find_foreign _ _ _ _ _ _ _ I Hf). reflexivity. Qed.
Lemma weaken_step h s F R B G p h' w : inv h s F R B G -> (owner s p <> None \/ foreign h p) -> doWeakenPtr h p = Ok (h', w) ->
  (exists a, In a F /\ h' = set_last h a) \/ h' = h.
Proof.
  intros I Hl H. unfold doWeakenPtr in H. destruct (owner s p) as [k|] eqn:Ho.
  - destruct (owner_spec _ _ _ Ho) as (b & Hk & Hal & Hw). destruct (find_alive _ _ _ _ _ _ _ _ _ I Hk Hal Hw) as (a & i & EF & Ha & HG & Hi & HA & HH & HC & HR).
    rewrite EF in H. cbn [bind] in H. destruct (a =? 0).
    + apply (f_equal (fun o => match o with Ok (x, _) => x | _ => h' end)) in H. cbn beta iota in H. left. eauto.
    + destruct (h_hdr (set_last h a) (pageGetChunk (set_last h a) a p)) as [c|]; [|discriminate]. destruct (hd_stack c); [discriminate|]. apply (f_equal (fun o => match o with Ok (x, _) => x | _ => h' end)) in H. cbn beta iota in H. left. eauto.
  - destruct Hl as [Hl|Hf]; [congruence|]. rewrite (find_foreign _ _ _ _ _ _ _ I Hf) in H. cbn [bind Z.eqb] in H. apply (f_equal (fun o => match o with Ok (x, _) => x | _ => h' end)) in H. right. symmetry. exact H.
Qed.
Lemma step_inv h s F R B G o h' x : inv h s F R B G -> legal h s o -> step malloc h o = Ok (h', x) -> exists F' R' B' E, inv h' (a_step s o x) F' R' B' (G ++ E).
Proof.
  intros I Hl H. destruct o as [size f st|p d|p|w|y v|l|].
  - cbn [step] in H. destruct (chunkAlloc malloc h size f st) as [(h1 & p)| |] eqn:E; cbn [bind] in H; try discriminate. injection H as <- <-. cbn [a_step].
    destruct (alloc_ok malloc Hmalloc _ _ _ _ _ _ _ _ _ _ _ I E) as (F' & R' & B' & e & a & I' & _). exists F', R', B', [e]. exact I'.
  - destruct Hl as [Hd Hl]. cbn [a_step]. destruct (owner s p) as [k|] eqn:Ho.
    + destruct (ref_step _ _ _ _ _ _ _ _ _ _ _ I Hd Ho H) as (b & F' & R' & B' & _ & _ & _ & I' & _). exists F', R', B', []. rewrite app_nil_r. exact I'.
    + destruct Hl as [Hl|Hf]; [congruence|]. rewrite (ref_foreign _ _ _ _ _ _ _ d I Hf) in H. injection H as <- _. exists F, R, B, []. rewrite app_nil_r. exact I.
  - cbn [step] in H. destruct (doWeakenPtr h p) as [(h1 & w)| |] eqn:E; cbn [bind] in H; try discriminate. injection H as <- <-. exists F, R, B, []. rewrite app_nil_r.
    destruct (weaken_step _ _ _ _ _ _ _ _ _ I (proj2 Hl) E) as [(a & Ha & ->)| ->]; [apply inv_last; assumption|exact I].
  - cbn [step] in H. destruct (doStrengthenPtr h w) as [p| |]; cbn [bind] in H; try discriminate. injection H as <- <-. exists F, R, B, []. rewrite app_nil_r. exact I.
  - cbn [step] in H. injection H as <- <-. exists F, R, B, []. rewrite app_nil_r. apply (inv_ext h); try reflexivity. exact I.
  - cbn [step] in H. injection H as <- <-. exists F, R, B, []. rewrite app_nil_r. apply (inv_ext h); try reflexivity. exact I.
  - cbn [step] in H. injection H as <- <-. exists F, R, B, []. rewrite app_nil_r. exact I.
Qed.
Lemma later_inv h s h' s' cs F R B G : later malloc h s h' s' cs -> inv h s F R B G -> exists F' R' B' E, inv h' s' F' R' B' (G ++ E).
Proof.
  intros H I. induction H as [|h1 s1 cs o h2 x H IH Hl Hs].
  - exists F, R, B, []. rewrite app_nil_r. exact I.
  - destruct IH as (F1 & R1 & B1 & E1 & I1). destruct (step_inv _ _ _ _ _ _ _ _ _ I1 Hl Hs) as (F2 & R2 & B2 & E2 & I2). exists F2, R2, B2, (E1 ++ E2). rewrite app_assoc. exact I2.
Qed.
Lemma history_inv h s cs : history malloc h s cs -> exists F R B G, inv h s F R B G.
Proof. intro H. destruct (later_inv _ _ _ _ _ _ _ _ _ H init_inv) as (F & R & B & E & I). eauto. Qed.
(** Blocks keep their address, size, and callback. *)
Definition same_block (b b' : block) : Prop := b_addr b' = b_addr b /\ b_size b' = b_size b /\ b_onFree b' = b_onFree b /\ b_stack b' = b_stack b.
Lemma later_block h s h' s' cs : later malloc h s h' s' cs -> forall k b, nth_error s k = Some b -> exists b', nth_error s' k = Some b' /\ same_block b b'.
Proof.
  intros H k b Hk. induction H as [|h1 s1 cs o h2 x H IH Hl Hs].
  - exists b. unfold same_block. auto.
  - destruct IH as (b1 & Hk1 & S1).
    assert (A : forall y, nth_error (s1 ++ [y]) k = Some b1) by (intro y; rewrite nth_error_app1; [exact Hk1|apply nth_error_Some; congruence]).
    destruct o, x; cbn [a_step]; eauto; destruct (owner s1 _) as [j|]; eauto; rewrite nth_count; (destruct (Nat.eqb k j); [rewrite Hk1; cbn; eexists; split; [reflexivity|exact S1]|eauto]).
Qed.
(** A released block stays released. *)
Lemma owner_alive s p k : owner s p = Some k -> exists b, nth_error s k = Some b /\ alive b.
Proof. intro H. destruct (owner_spec _ _ _ H) as (b & ? & ? & _). eauto. Qed.
End Hist.

(** Lists and chains. *)
Lemma chain_iff h l : sseg (nx h) l -> ~ In 0 l -> forall x, chain h (hd 0 l) x <-> In x l.
Proof.
  intros HS H0 x. split.
  - remember (hd 0 l) as a eqn:Ea. intro H. revert l HS H0 Ea. induction H as [a Ha|a b Ha H IH]; intros l HS H0 Ea.
    + destruct l as [|c l]; cbn in Ea; [congruence|]. left. congruence.
    + destruct l as [|c l]; cbn in Ea; [congruence|]. subst c. cbn in HS. destruct HS as [HS1 HS2]. right. apply IH; [exact HS2|intro Y; apply H0; right; exact Y|exact HS1].
  - revert HS H0. induction l as [|c l IH]; intros HS H0 Hx; [destruct Hx|]. cbn in HS. destruct HS as [HS1 HS2]. cbn [hd]. assert (Hc : c <> 0) by (intro Y; apply H0; left; exact Y).
    destruct Hx as [->|Hx]; [apply chain_here; exact Hc|]. apply chain_next; [exact Hc|]. unfold nx in HS1. rewrite HS1. apply IH; [exact HS2|intro Y; apply H0; right; exact Y|exact Hx].
Qed.
Lemma in_use_iff h s F R B G x : inv h s F R B G -> in_use h x <-> In x F.
Proof.
  intros (L & Hg & _). unfold in_use. rewrite (l_first _ _ _ _ _ L). apply chain_iff; [apply (dseg_sseg _ (pv h) _ 0), (l_F _ _ _ _ _ L)|exact (F_n0 _ _ _ _ _ L Hg)].
Qed.
Lemma recycled_iff h s F R B G x : inv h s F R B G -> recycled h x <-> In x R.
Proof.
  intros (L & Hg & _). unfold recycled. rewrite (l_rec _ _ _ _ _ L). apply chain_iff; [exact (l_R _ _ _ _ _ L)|]. intro Y. apply (lists_n0 _ _ _ _ _ L Hg). rewrite !in_app_iff. auto.
Qed.

(** * C17 *)
Lemma inv_apart h s F R B G i j b1 b2 : inv h s F R B G -> nth_error s i = Some b1 -> nth_error s j = Some b2 -> i <> j -> alive b1 -> alive b2 -> apart b1 b2.
Proof.
  intros (L & Hg & Hr & C & U) H1 H2 Hne A1 A2. destruct (block_place _ _ _ _ _ _ _ _ _ L Hg C H1 A1) as (a1 & i1 & Ha1 & G1 & Hi1 & Ad1 & _ & S1 & Q1).
  destruct (block_place _ _ _ _ _ _ _ _ _ L Hg C H2 A2) as (a2 & i2 & Ha2 & G2 & Hi2 & Ad2 & _ & S2 & Q2). unfold apart. rewrite Ad1, Ad2.
  destruct (c_page _ _ _ _ C a1 Ha1) as (_ & O1 & _). destruct (c_page _ _ _ _ C a2 Ha2) as (_ & O2 & _).
  destruct (Z.eq_dec a1 a2) as [E|Hn].
  - subst a2. destruct (Z.lt_total i1 i2) as [Hl|[He|Hl]].
    + pose proof (chunk_apart h a1 i1 i2 ltac:(lia) Hl). lia.
    + exfalso. subst i2. apply Hne. apply (c_uniq _ _ _ _ C i j b1 b2 H1 H2); congruence.
    + pose proof (chunk_apart h a1 i2 i1 ltac:(lia) Hl). lia.
  - destruct (chunk_range _ _ _ _ _ _ i1 L Hg Ha1 ltac:(lia)). destruct (chunk_range _ _ _ _ _ _ i2 L Hg Ha2 ltac:(lia)). pose proof (pages_apart _ _ _ _ _ _ _ L Hg Ha1 Ha2 Hn). unfold HEADER in *. lia.
Qed.
Lemma inv_inside h s F R B G k b : inv h s F R B G -> nth_error s k = Some b -> alive b -> 0 <= b_size b /\ exists a n, In (a, n) (h_blocks h) /\ a <= b_addr b /\ b_addr b + b_size b < a + n /\ a + n < two63 /\ In a F /\ b_addr b + b_size b < pg_end (h_page h a).
Proof.
  intros (L & Hg & Hr & C & U) H1 A1. destruct (block_place _ _ _ _ _ _ _ _ _ L Hg C H1 A1) as (a1 & i1 & Ha1 & G1 & Hi1 & Ad1 & _ & S1 & Q1). split; [exact S1|].
  destruct (c_page _ _ _ _ C a1 Ha1) as (_ & O1 & _). destruct (chunk_range _ _ _ _ _ _ i1 L Hg Ha1 ltac:(lia)). destruct (F_geo _ _ _ _ _ _ L Hg Ha1) as (n & Hn & _ & N1 & _ & _ & N2 & _ & N3).
  exists a1, n. split; [exact Hn|]. split; [lia|]. split; [lia|]. split; [exact N1|]. split; [exact Ha1|lia].
Qed.
Section Thms.
Variable malloc : list (Z * Z) -> Z -> option Z.
Hypothesis Hmalloc : malloc_ok malloc.
Lemma disjoint_thm h s cs i j b1 b2 : history malloc h s cs -> nth_error s i = Some b1 -> nth_error s j = Some b2 -> i <> j -> alive b1 -> alive b2 -> apart b1 b2.
Proof. intros H. destruct (history_inv malloc Hmalloc _ _ _ H) as (F & R & B & G & I). eapply inv_apart, I. Qed.
Lemma inside_thm h s cs k b : history malloc h s cs -> nth_error s k = Some b -> alive b ->
  0 <= b_size b /\ exists a n, In (a, n) (h_blocks h) /\ a <= b_addr b /\ b_addr b + b_size b < a + n /\ a + n < two63.
Proof.
  intros H Hk Ha. destruct (history_inv malloc Hmalloc _ _ _ H) as (F & R & B & G & I). destruct (inv_inside _ _ _ _ _ _ _ _ I Hk Ha) as (Q & a & n & Q1 & Q2 & Q3 & Q4 & _). split; [exact Q|]. exists a, n. auto.
Qed.
Lemma alloc_thm h s cs size f st h' p : history malloc h s cs -> step malloc h (OAlloc size f st) = Ok (h', RPtr p) ->
  (forall x, p <= x <= p + size -> h_mem h' x = 0) /\
  (forall b, In b s -> alive b -> apart b (MkB p size 1 f st)) /\
  (forall b x, In b s -> alive b -> within x b -> h_mem h' x = h_mem h x) /\
  (forall x, foreign h' x -> h_mem h' x = h_mem h x).
Proof.
  intros H HS. destruct (history_inv malloc Hmalloc _ _ _ H) as (F & R & B & G & I). cbn [step] in HS. destruct (chunkAlloc malloc h size f st) as [(h1 & p1)| |] eqn:E; cbn [bind] in HS; try discriminate.
  injection HS as -> ->. destruct (alloc_ok malloc Hmalloc _ _ _ _ _ _ _ _ _ _ _ I E) as (F' & R' & B' & e & a & I' & Hsz & Ha & Hp & Hc & _ & _ & Hm).
  assert (LAST : nth_error (s ++ [MkB p size 1 f st]) (length s) = Some (MkB p size 1 f st)) by (rewrite nth_error_app2, Nat.sub_diag by lia; reflexivity).
  assert (AL : alive (MkB p size 1 f st)) by (unfold alive; cbn; lia).
  assert (OLD : forall b, In b s -> exists k, (k < length s)%nat /\ nth_error s k = Some b /\ nth_error (s ++ [MkB p size 1 f st]) k = Some b).
  { intros b Hb. destruct (In_nth_error _ _ Hb) as (k & Hk). assert (k < length s)%nat by (apply nth_error_Some; congruence). exists k. split; [assumption|]. split; [exact Hk|]. rewrite nth_error_app1; assumption. }
  destruct I' as (L' & Hg' & Hr' & C' & U'). destruct (c_page _ _ _ _ C' a Ha) as (_ & O' & Q3 & _). pose proof (U' a Ha) as Hpos.
  assert (Ho : 0 < pg_occ (h_page h' a)).
  { destruct (Z.eq_dec (pg_occ (h_page h' a)) 0) as [Y|Y]; [|lia]. rewrite Q3 in Hpos. unfold refs in Hpos. rewrite Y in Hpos. cbn in Hpos. lia. }
  destruct (F_geo _ _ _ _ _ _ L' Hg' Ha) as (n & Hn & _ & _ & HC' & _ & N2 & _ & N3).
  destruct (chunk_range _ _ _ _ _ _ (pg_occ (h_page h' a) - 1) L' Hg' Ha ltac:(lia)) as [K1 K2]. rewrite <- Hp in K1, K2.
  split; [|split; [|split]].
  - intros x Hx. rewrite Hm. replace ((p - 40 <=? x) && (x <? p - 40 + pg_chunk (h_page h' a))) with true by lia. reflexivity.
  - intros b Hb Hal. destruct (OLD b Hb) as (k & Hlt & Hk & Hk'). apply (inv_apart h' (s ++ [MkB p size 1 f st]) F' R' B' (G ++ [e]) k (length s)); try assumption; [|lia]. exact (conj L' (conj Hg' (conj Hr' (conj C' U')))).
  - intros b x Hb Hal Hw. destruct (OLD b Hb) as (k & Hlt & Hk & Hk').
    destruct (within_chunk _ _ _ _ _ _ _ _ _ x L' Hg' C' Hk' Hal Hw) as (a2 & i2 & Ha2 & HG2 & Hi2 & HA2 & _ & _ & HR2 & HRC).
    destruct (c_page _ _ _ _ C' a2 Ha2) as (_ & O2 & _). destruct (F_geo _ _ _ _ _ _ L' Hg' Ha2) as (n2 & _ & _ & _ & HC2 & _).
    rewrite Hm. destruct ((p - 40 <=? x) && (x <? p - 40 + pg_chunk (h_page h' a))) eqn:EX; [|reflexivity]. exfalso.
    destruct (Z.eq_dec a a2) as [<-|Hne].
    + destruct (Z.lt_total i2 (pg_occ (h_page h' a) - 1)) as [Y|[Y|Y]].
      * pose proof (chunk_apart h' a _ _ HC' Y). lia.
      * assert (k = length s); [|lia]. assert (AD : b_addr b = b_addr (MkB p size 1 f st)) by (cbn; subst i2; lia).
        destruct (Nat.eq_dec k (length s)) as [|Hne]; [assumption|]. exfalso. pose proof (inv_apart h' _ F' R' B' (G ++ [e]) k (length s) b _ (conj L' (conj Hg' (conj Hr' (conj C' U')))) Hk' LAST Hne Hal AL) as Q.
        unfold apart in Q. rewrite AD in Q. cbn in Q. unfold within in Hw. lia.
      * lia.
    + destruct (chunk_range _ _ _ _ _ _ i2 L' Hg' Ha2 ltac:(lia)). pose proof (pages_apart _ _ _ _ _ _ _ L' Hg' Ha Ha2 Hne). unfold HEADER in *. lia.
  - intros x Hf. rewrite Hm. destruct ((p - 40 <=? x) && (x <? p - 40 + pg_chunk (h_page h' a))) eqn:EX; [|reflexivity]. exfalso. apply (Hf _ _ Hn). unfold HEADER. lia.
Qed.
Lemma mem_frame h s cs o h' x : history malloc h s cs -> legal h s o -> step malloc h o = Ok (h', x) -> (forall size f st, o <> OAlloc size f st) -> (forall a v, o <> OWrite a v) -> h_mem h' = h_mem h.
Proof.
  intros H Hl HS NA NW. destruct (history_inv malloc Hmalloc _ _ _ H) as (F & R & B & G & I). destruct o as [size f st|p d|p|w|y v|l|].
  - exfalso. eapply NA; reflexivity.
  - destruct Hl as [Hd Hl]. destruct (owner s p) as [k|] eqn:Ho.
    + destruct (ref_step malloc _ _ _ _ _ _ _ _ _ _ _ I Hd Ho HS) as (b & F' & R' & B' & _ & _ & _ & _ & _ & Q & _). exact Q.
    + destruct Hl as [Hl|Hf]; [congruence|]. rewrite (ref_foreign malloc _ _ _ _ _ _ _ d I Hf) in HS. injection HS as <- _. reflexivity.
  - cbn [step] in HS. destruct (doWeakenPtr h p) as [(h1 & w)| |] eqn:E; cbn [bind] in HS; try discriminate. injection HS as <- <-.
    destruct (weaken_step _ _ _ _ _ _ _ _ _ I (proj2 Hl) E) as [(a & Ha & ->)| ->]; reflexivity.
  - cbn [step] in HS. destruct (doStrengthenPtr h w) as [p| |]; cbn [bind] in HS; try discriminate. injection HS as <- <-. reflexivity.
  - exfalso. eapply NW; reflexivity.
  - cbn [step] in HS. injection HS as <- <-. reflexivity.
  - cbn [step] in HS. injection HS as <- <-. reflexivity.
Qed.

(** * C18 *)
Lemma total_nn s : (forall b, In b s -> 0 <= b_refs b) -> 0 <= total_refs s.
Proof. induction s as [|b s IH]; cbn; intro H; [lia|]. pose proof (H b (or_introl eq_refl)). assert (0 <= total_refs s) by (apply IH; auto). lia. Qed.
Lemma total_app s1 s2 : total_refs (s1 ++ s2) = total_refs s1 + total_refs s2.
Proof. induction s1 as [|b s1 IH]; cbn; [lia|]. rewrite IH. lia. Qed.
Lemma inj_sum (f addr : Z -> Z) : forall n s, (forall b, In b s -> 0 <= b_refs b) ->
  (forall i, 0 <= i < Z.of_nat n -> 0 < f i -> exists b, In b s /\ b_addr b = addr i /\ b_refs b = f i) ->
  (forall i j, 0 <= i < Z.of_nat n -> 0 <= j < Z.of_nat n -> addr i = addr j -> i = j) -> zsum f n <= total_refs s.
Proof.
  induction n as [|n IH]; intros s Hnn Hex Hinj; cbn [zsum]; [apply total_nn; exact Hnn|]. destruct (Z.lt_ge_cases 0 (f (Z.of_nat n))) as [Hp|Hp].
  - destruct (Hex (Z.of_nat n) ltac:(lia) Hp) as (b & Hb & Hba & Hbr). destruct (in_split b s Hb) as (s1 & s2 & ->).
    assert (Q : zsum f n <= total_refs (s1 ++ s2)).
    { apply IH.
      - intros b0 Hb0. apply Hnn. rewrite in_app_iff in *. cbn. tauto.
      - intros i Hi Hf. destruct (Hex i ltac:(lia) Hf) as (b0 & Hb0 & Ha0 & Hr0). exists b0. split; [|auto]. rewrite in_app_iff in *. cbn in Hb0. destruct Hb0 as [?|[<-|?]]; [auto| |auto].
        exfalso. assert (i = Z.of_nat n) by (apply Hinj; [lia|lia|congruence]). lia.
      - intros i j Hi Hj. apply Hinj; lia. }
    rewrite total_app in *. cbn [total_refs]. lia.
  - assert (zsum f n <= total_refs s); [|lia]. apply IH; [exact Hnn|intros i Hi; apply Hex; lia|intros i j Hi Hj; apply Hinj; lia].
Qed.
Lemma page_refs_le h s F R B G a : inv h s F R B G -> In a F -> pg_ref (h_page h a) <= total_refs s.
Proof.
  intros (L & Hg & Hr & C & U) Ha. destruct (c_page _ _ _ _ C a Ha) as (Qid & Ho & -> & _). destruct (F_geo _ _ _ _ _ _ L Hg Ha) as (n & _ & _ & _ & HC & _). unfold refs. apply (inj_sum _ (fun i => chunk_at h a i + 40)).
  - intros b Hb. destruct (In_nth_error _ _ Hb) as (k & Hk). destruct (c_block _ _ _ _ C k b Hk) as (? & ? & _ & _ & ? & _). assumption.
  - intros i Hi Hp. destruct (c_chunk _ _ _ _ C a i Ha ltac:(lia)) as (c & Hc & _ & Hx). unfold ref_at in *. rewrite Hc in *. destruct (Hx Hp) as (k & b & Hk & Hal & HA). exists b. split; [eapply nth_error_In; exact Hk|]. split; [exact HA|].
    destruct (block_place _ _ _ _ _ _ _ _ _ L Hg C Hk Hal) as (a2 & i2 & Ha2 & _ & Hi2 & HA2 & HH2 & _). destruct (c_page _ _ _ _ C a2 Ha2) as (_ & Ho2 & _).
    destruct (chunk_inj _ _ _ _ _ a a2 i i2 L Hg Ha Ha2) as [-> ->]; [lia|lia|lia|]. rewrite Hc in HH2. injection HH2 as ->. reflexivity.
  - intros i j Hi Hj E. destruct (chunk_inj _ _ _ _ _ a a i j L Hg Ha Ha) as [_ ->]; [lia|lia|lia|reflexivity].
Qed.
(** References are counted: the operation succeeds, and the block's count becomes visible at the next release. *)
Lemma ref_succeeds h s cs p d k : history malloc h s cs -> (d = 1 \/ d = -1) -> owner s p = Some k -> total_refs s < INT_MAX ->
  exists h' b, nth_error s k = Some b /\ step malloc h (ORef p d) = Ok (h', RCalls (calls_for b p d)) /\ history malloc h' (count_ref s k d) (cs ++ calls_for b p d).
Proof.
  intros H Hd Ho HT. destruct (history_inv malloc Hmalloc _ _ _ H) as (F & R & B & G & I). destruct (owner_spec _ _ _ Ho) as (b & Hk & Hal & Hw).
  destruct (find_alive _ _ _ _ _ _ _ _ _ I Hk Hal Hw) as (a & i & EF & Ha & HG & Hi & HA & HH & HC & HR).
  pose proof (inv_last _ _ _ _ _ _ _ I Ha) as I1. pose proof (refcnt_ok (set_last h a) s F R B G k b p a i d I1 Hk Hal Ha HG Hi HA HH HC Hd) as Q.
  pose proof (page_refs_le _ _ _ _ _ _ _ I Ha) as Hle. cbn [set_last h_page] in Q. destruct (pg_ref (h_page h a) + d <=? INT_MAX) eqn:E; [|lia].
  destruct Q as (h2 & r & F' & R' & B' & Q & _). exists h2, b. split; [exact Hk|].
  assert (HS : step malloc h (ORef p d) = Ok (h2, RCalls (calls_for b p d))).
  { cbn [step]. rewrite EF. cbn [bind]. destruct (a =? 0) eqn:E0; [exfalso; destruct I as (L & Hg & _); apply (F_n0 _ _ _ _ _ L Hg); replace 0 with a by lia; exact Ha|]. rewrite Q. reflexivity. }
  split; [exact HS|]. pose proof (later_step malloc init [] h s cs (ORef p d) h2 (RCalls (calls_for b p d)) H) as LS. cbn [legal a_step calls_of] in LS. rewrite Ho in LS. apply LS; [|exact HS]. split; [exact Hd|left; discriminate].
Qed.
Lemma page_used h s cs a n : history malloc h s cs -> In (a, n) (h_blocks h) -> (in_use h a <-> exists b, In b s /\ alive b /\ in_page h a b).
Proof.
  intros H HB. destruct (history_inv malloc Hmalloc _ _ _ H) as (F & R & B & G & I). rewrite (in_use_iff _ _ _ _ _ _ _ I). split.
  - intro Ha. destruct I as (L & Hg & Hr & C & U). pose proof (U a Ha) as Hp. destruct (c_page _ _ _ _ C a Ha) as (_ & Ho & Q3 & _). rewrite Q3 in Hp. unfold refs in Hp. destruct (zsum_pos _ _ Hp) as (i & Hi & Hf).
    destruct (c_chunk _ _ _ _ C a i Ha ltac:(lia)) as (c & Hc & _ & Hx). unfold ref_at in Hf. rewrite Hc in Hf. destruct (Hx Hf) as (k & b & Hk & Hal & HA). exists b. split; [eapply nth_error_In; exact Hk|]. split; [exact Hal|].
    destruct (block_place _ _ _ _ _ _ _ _ _ L Hg C Hk Hal) as (a2 & i2 & Ha2 & _ & Hi2 & HA2 & HH2 & S2 & Q2). destruct (c_page _ _ _ _ C a2 Ha2) as (_ & Ho2 & _).
    destruct (chunk_inj _ _ _ _ _ a a2 i i2 L Hg Ha Ha2) as [-> ->]; [lia|lia|lia|]. destruct (chunk_range _ _ _ _ _ _ i2 L Hg Ha2 ltac:(lia)). unfold in_page. lia.
  - intros (b & Hb & Hal & Hin). destruct (In_nth_error _ _ Hb) as (k & Hk). destruct (inv_inside _ _ _ _ _ _ _ _ I Hk Hal) as (S0 & a2 & m & Q1 & Q2 & Q3 & _ & Q5 & Q6).
    destruct (Z.eq_dec a a2) as [->|Hne]; [exact Q5|]. exfalso. destruct I as (L & Hg & _). pose proof (g_disj _ Hg _ _ _ _ HB Q1 Hne). pose proof (g_geo _ Hg _ _ HB). unfold in_page, HEADER in *. lia.
Qed.
End Thms.
