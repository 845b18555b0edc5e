From Coq Require Import ZArith Lia Bool List ZifyBool Permutation.
From Verif Require Import Base MemModel BlkModel CmpModel HeapModel HeapSpec HeapProofs HeapLists HeapOps HeapAlloc.
Import ListNotations.
Local Open Scope Z_scope.
Ltac Zify.zify_post_hook ::= Z.div_mod_to_equations.

Lemma chunkSize_bound size : 0 <= size -> 41 + size <= chunkSizeFor size /\ 64 <= chunkSizeFor size.
Proof. intro H. unfold chunkSizeFor, align. lia. Qed.
Lemma allocLoop_ok h c F : forall l fuel best bs, sseg (nx h) l -> (length l < fuel)%nat -> ~ In 0 l -> incl l F ->
  (best = 0 \/ (In best F /\ pg_occ (h_page h best) < pg_num (h_page h best) /\ c <= pg_chunk (h_page h best))) ->
  exists a, (allocLoop fuel h (hd 0 l) c best bs = Ok (if a =? 0 then h else set_last h a, a)) /\
    (a = 0 \/ (In a F /\ pg_occ (h_page h a) < pg_num (h_page h a) /\ c <= pg_chunk (h_page h a))).
Proof.
  induction l as [|x l IH]; intros fuel best bs HS HL H0 HI HB; destruct fuel as [|fuel]; try (cbn in HL; lia).
  - exists best. cbn. split; [reflexivity|exact HB].
  - cbn [hd allocLoop]. destruct (x =? 0) eqn:E0; [exfalso; apply H0; left; lia|]. cbn in HS. destruct HS as [HS1 HS2]. unfold nx in HS1. rewrite HS1. cbn in HL.
    assert (Hl : forall best bs, (best = 0 \/ (In best F /\ pg_occ (h_page h best) < pg_num (h_page h best) /\ c <= pg_chunk (h_page h best))) ->
      exists a, (allocLoop fuel h (hd 0 l) c best bs = Ok (if a =? 0 then h else set_last h a, a)) /\ (a = 0 \/ (In a F /\ pg_occ (h_page h a) < pg_num (h_page h a) /\ c <= pg_chunk (h_page h a)))).
    { intros. apply IH; [exact HS2|lia|intro X; apply H0; right; exact X|intros y Hy; apply HI; right; exact Hy|assumption]. }
    destruct (pg_occ (h_page h x) <? pg_num (h_page h x)) eqn:E1; [|apply Hl; exact HB].
    destruct (pg_chunk (h_page h x) =? c) eqn:E2.
    + exists x. rewrite E0. split; [reflexivity|]. right. split; [apply HI; left; reflexivity|lia].
    + destruct ((c <? pg_chunk (h_page h x)) && (pg_chunk (h_page h x) <? bs)) eqn:E3; [|apply Hl; exact HB]. apply Hl. right. split; [apply HI; left; reflexivity|lia].
Qed.
(** The last part of chunkAlloc. *)
Lemma alloc_tail h s F R B G a size f st h' p :
  lists h F R B [] -> geo h -> rng h F -> cont h s F G -> (forall x, In x F -> x <> a -> 0 < pg_ref (h_page h x)) -> In a F -> pg_occ (h_page h a) < pg_num (h_page h a) -> 0 <= size -> 41 + size <= pg_chunk (h_page h a) ->
  (let h1 := set_bytes h (zero_range (h_mem h) (a + pg_occ (h_page h a) * pg_chunk (h_page h a)) (pg_chunk (h_page h a))) in
   let h2 := set_hdr h1 (a + pg_occ (h_page h a) * pg_chunk (h_page h a)) (MkHdr 1 size f st) in
   let h3 := modify h2 a (fun p => with_occ p (pg_occ p + 1)) in
   let h4 := if f =? 0 then h3 else modify h3 a (fun p => with_onf p (pg_onf p + 1)) in
   let* r := chk32 (pg_ref (h_page h4 a) + 1) in
   Ok (modify h4 a (fun p => with_ref p r), a + pg_occ (h_page h a) * pg_chunk (h_page h a) + 40)) = Ok (h', p) ->
  inv h' (s ++ [MkB p size 1 f st]) F R B (G ++ [(a, pg_id (h_page h' a))]) /\
  (forall x, h_mem h' x = if (p - 40 <=? x) && (x <? p - 40 + pg_chunk (h_page h a)) then 0 else h_mem h x) /\ h_temps h' = h_temps h /\ h_blocks h' = h_blocks h /\ h_total h' = h_total h /\
  p = chunk_at h a (pg_occ (h_page h a)) + 40 /\ (forall x, pg_chunk (h_page h' x) = pg_chunk (h_page h x) /\ pg_num (h_page h' x) = pg_num (h_page h x) /\ pg_end (h_page h' x) = pg_end (h_page h x)).
Proof.
  intros L Hg Hr C U Ha Hocc Hs Hc H. cbv zeta in H. fold (chunk_at h a (pg_occ (h_page h a))) in H. set (ch := chunk_at h a (pg_occ (h_page h a))) in *.
  match type of H with bind (chk32 (pg_ref (h_page ?hh a) + 1)) _ = _ => set (h4 := hh) in * end.
  assert (P4 : forall x, h_page h4 x = if x =? a then with_onf (with_occ (h_page h x) (pg_occ (h_page h x) + 1)) (pg_onf (h_page h x) + (if f =? 0 then 0 else 1)) else h_page h x).
  { intro x. unfold h4. destruct (f =? 0); unfold modify, set_page, set_hdr, set_bytes; cbn [h_page].
    - destruct (x =? a) eqn:E; [|reflexivity]. replace x with a by lia. rewrite Z.add_0_r. reflexivity.
    - rewrite Z.eqb_refl. destruct (x =? a) eqn:E; [|reflexivity]. replace x with a by lia. reflexivity. }
  assert (E4 : pg_ref (h_page h4 a) = pg_ref (h_page h a)) by (rewrite P4, Z.eqb_refl; reflexivity). rewrite E4 in H.
  destruct (chk32 (pg_ref (h_page h a) + 1)) as [r| |] eqn:ER; cbn [bind] in H; try discriminate. apply chk32_inv in ER as [-> ER].
  assert (Hp : p = ch + 40) by (apply (f_equal (fun o => match o with Ok (_, x) => x | _ => 0 end)) in H; symmetry; exact H).
  assert (Hh : h' = modify h4 a (fun p => with_ref p (pg_ref (h_page h a) + 1))) by (apply (f_equal (fun o => match o with Ok (x, _) => x | _ => h' end)) in H; symmetry; exact H). clear H.
  assert (P5 : forall x, h_page h' x = if x =? a then with_ref (h_page h4 x) (pg_ref (h_page h a) + 1) else h_page h4 x).
  { intro x. rewrite Hh. unfold modify, set_page. cbn [h_page]. destruct (x =? a) eqn:E; [|reflexivity]. replace x with a by lia. reflexivity. }
  assert (Fld : h_temps h' = h_temps h /\ h_blocks h' = h_blocks h /\ h_total h' = h_total h /\ h_free h' = h_free h /\ h_first h' = h_first h /\ h_recycled h' = h_recycled h /\ h_black h' = h_black h /\ h_last h' = h_last h /\
     h_low h' = h_low h /\ h_high h' = h_high h /\ h_mem h' = zero_range (h_mem h) ch (pg_chunk (h_page h a)) /\ (forall y, h_hdr h' y = if y =? ch then Some (MkHdr 1 size f st) else h_hdr h y)) by (rewrite Hh; unfold h4; destruct (f =? 0); cbn; auto 20).
  clear Hh. destruct Fld as (Xt & Xb & Xto & Xf & Xfi & Xre & Xbl & Xla & Xlo & Xhi & Xm & Xh).
  assert (PF : forall x, pg_id (h_page h' x) = pg_id (h_page h x) /\ pg_num (h_page h' x) = pg_num (h_page h x) /\ pg_chunk (h_page h' x) = pg_chunk (h_page h x) /\ pg_end (h_page h' x) = pg_end (h_page h x) /\
     nx h' x = nx h x /\ pv h' x = pv h x) by (intro x; unfold nx, pv; rewrite P5, P4; destruct (x =? a); cbn; auto 10).
  assert (PR : forall x, pg_ref (h_page h' x) = pg_ref (h_page h x) + (if x =? a then 1 else 0)) by (intro x; rewrite P5, P4; destruct (x =? a) eqn:E; cbn; [replace x with a by lia; reflexivity|lia]).
  split; [|split; [intro x; rewrite Xm, Hp; unfold zero_range; replace (ch + 40 - 40) with ch by lia; reflexivity|split; [exact Xt|split; [exact Xb|split; [exact Xto|split; [exact Hp|intro x; destruct (PF x) as (_ & ? & ? & ? & _); auto]]]]]].
  split; [|split; [|split; [|split]]].
  - destruct L as [l1 l2 l3 l4 l5 l6 l7]. constructor; try congruence; [| |].
    + apply (dseg_ext (nx h) (pv h)); [intros x _; apply PF|exact l1].
    + apply (sseg_ext (nx h)); [intros x _; apply PF|exact l3].
    + apply (dseg_ext (nx h) (pv h)); [intros x _; apply PF|exact l5].
  - destruct Hg as [g1 g2 g3 g4]. constructor; rewrite ?Xb, ?Xto; try assumption. intros x n Hx. unfold page_size. destruct (PF x) as (_ & -> & -> & -> & _). apply g2. exact Hx.
  - destruct Hr as (r1 & r2 & r3). split; [rewrite Xla; exact r1|]. split; [|rewrite Xlo; exact r3]. intros x Hx. destruct (PF x) as (_ & _ & _ & -> & _). rewrite Xlo, Xhi. apply r2. exact Hx.
  - destruct (PF a) as (-> & _). subst p. apply (cont_alloc h s F R B [] G a size f st h' L Hg C Ha Hocc Hs Hc); try assumption.
    + apply ER.
    + intro x. destruct (PF x) as (? & ? & ? & _). auto.
    + intro x. rewrite P5, P4. destruct (x =? a); cbn; lia.
    + intro x. rewrite P5, P4. destruct (x =? a); cbn; [destruct (f =? 0); reflexivity|lia].
  - intros x Hx. rewrite PR. destruct (x =? a) eqn:E; [|rewrite Z.add_0_r; apply U; [exact Hx|lia]]. assert (x = a) by lia. subst x.
    destruct (c_page _ _ _ _ C a Ha) as (_ & Ho & -> & _). assert (0 <= refs h a); [|lia]. unfold refs. apply zsum_nn. intros j Hj. destruct (c_chunk _ _ _ _ C a j Ha ltac:(lia)) as (c & Hcc & Hc0 & _). unfold ref_at. rewrite Hcc. exact Hc0.
Qed.

Section Alloc.
Variable malloc : list (Z * Z) -> Z -> option Z.
Hypothesis Hmalloc : malloc_ok malloc.
Lemma alloc_ok h s F R B G size f st h' p : inv h s F R B G -> chunkAlloc malloc h size f st = Ok (h', p) ->
  exists F' R' B' e a, inv h' (s ++ [MkB p size 1 f st]) F' R' B' (G ++ [e]) /\ 0 <= size /\ In a F' /\ p - 40 = chunk_at h' a (pg_occ (h_page h' a) - 1) /\ 41 + size <= pg_chunk (h_page h' a) /\
    incl R' R /\ h_temps h' = h_temps h /\
    (forall x, h_mem h' x = if (p - 40 <=? x) && (x <? p - 40 + pg_chunk (h_page h' a)) then 0 else h_mem h x).
Proof.
  intros I H. unfold chunkAlloc in H. destruct ((size <? 0) || (INT_MAX <? chunkSizeFor size)) eqn:E0; [discriminate|].
  destruct (chunkSize_bound size ltac:(lia)) as [CB1 CB2]. destruct I as (L & Hg & Hr & C & U).
  unfold pageFindForAlloc in H. rewrite (l_first _ _ _ _ _ L) in H.
  destruct (allocLoop_ok h (chunkSizeFor size) F F (walk h) 0 INT_MAX) as (a & EA & HA).
  { apply (dseg_sseg _ (pv h) _ 0), (l_F _ _ _ _ _ L). } { eapply walk_len; [exact L|auto]. } { exact (F_n0 _ _ _ _ _ L Hg). } { apply incl_refl. } { auto. }
  rewrite EA in H. cbn [bind] in H.
  assert (OCCX : forall h0 x, pg_occ (h_page h0 x) = pg_occ (h_page h0 x)) by reflexivity. clear OCCX.
  destruct (a =? 0) eqn:Ea.
  - destruct (pageAdd malloc h _ _) as [(h1 & a1)| |] eqn:EP in H; cbn [bind] in H; try discriminate.
    set (n := MIN_PAGE / chunkSizeFor size) in *. set (num := if n =? 0 then 1 else n) in *.
    assert (Hn : 0 < num /\ num * chunkSizeFor size <= INT_MAX).
    { unfold num, n, MIN_PAGE, INT_MAX, two31 in *. set (c := chunkSizeFor size) in *. clearbody c. assert (Hc : 0 < c) by lia. pose proof (Z.mul_div_le 1048576 c Hc). pose proof (Z.div_pos 1048576 c ltac:(lia) Hc).
      change (1024 * 1024) with 1048576 in *. destruct (1048576 / c =? 0) eqn:E; [lia|]. set (q := 1048576 / c) in *. clearbody q. rewrite Z.mul_comm. lia. }
    destruct Hn as [Hn1 Hn2].
    destruct (pageAdd_ok malloc Hmalloc h s F R B G num (chunkSizeFor size) h1 a1 (conj L (conj Hg (conj Hr (conj C U)))) Hn1 ltac:(lia) Hn2 EP) as (R' & L1 & Hg1 & Hr1 & C1 & U1 & IR & NI & (PO & PN & PC) & Xm & Xt & _ & _ & PAY).
    destruct (alloc_tail h1 s (a1 :: F) R' B G a1 size f st h' p L1 Hg1 Hr1 C1) as (I' & M' & T' & B' & TT' & P' & PF'); try assumption.
    { intros x [<-|Hx] Hne; [congruence|]. apply U1. exact Hx. } { left. reflexivity. } { lia. } { lia. } { lia. }
    exists (a1 :: F), R', B, (a1, pg_id (h_page h' a1)), a1. split; [exact I'|]. split; [lia|]. split; [left; reflexivity|].
    destruct (PF' a1) as (PF1 & PF2 & PF3). rewrite PF1.
    assert (PO' : pg_occ (h_page h' a1) = 1).
    { destruct I' as (L' & Hg' & _ & C' & _). destruct (block_place _ _ _ _ _ _ _ (length s) (MkB p size 1 f st) L' Hg' C') as (aa & ii & Q1 & Q2 & Q3 & Q4 & _); [rewrite nth_error_app2, Nat.sub_diag by lia; reflexivity|unfold alive; cbn; lia|].
      rewrite nth_error_app2 in Q2 by (rewrite (c_len _ _ _ _ C); lia). rewrite (c_len _ _ _ _ C), Nat.sub_diag in Q2. cbn in Q2. injection Q2 as <- _.
      assert (ref1 : pg_ref (h_page h' a1) = 1 \/ True) by auto. clear ref1.
      revert H. cbv zeta. intro H. destruct (chk32 _) as [r| |] eqn:EK in H; cbn [bind] in H; try discriminate. apply (f_equal (fun o => match o with Ok (x, _) => pg_occ (h_page x a1) | _ => 0 end)) in H. rewrite <- H.
      destruct (f =? 0); unfold modify, set_page, set_hdr, set_bytes; cbn; rewrite Z.eqb_refl; cbn; rewrite ?Z.eqb_refl; cbn; lia. }
    rewrite PO'. split; [unfold chunk_at in *; rewrite P', PF1, PO; lia|]. split; [lia|]. split; [exact IR|]. split; [congruence|]. rewrite Xm in M'. exact M'.
  - destruct HA as [->|(HA1 & HA2 & HA3)]; [cbn in Ea; discriminate|]. cbn [bind] in H.
    pose proof (inv_last h s F R B G a (conj L (conj Hg (conj Hr (conj C U)))) HA1) as (L1 & Hg1 & Hr1 & C1 & U1).
    destruct (alloc_tail (set_last h a) s F R B G a size f st h' p L1 Hg1 Hr1 C1) as (I' & M' & T' & B' & TT' & P' & PF'); try assumption.
    { intros x Hx _. apply U1. exact Hx. } all: cbn [set_last h_page]; try lia.
    exists F, R, B, (a, pg_id (h_page h' a)), a. split; [exact I'|]. split; [lia|]. split; [exact HA1|]. destruct (PF' a) as (PF1 & PF2 & PF3). rewrite PF1. cbn [set_last h_page] in *.
    assert (PO' : pg_occ (h_page h' a) = pg_occ (h_page h a) + 1).
    { revert H. cbv zeta. intro H. destruct (chk32 _) as [r| |] eqn:EK in H; cbn [bind] in H; try discriminate. apply (f_equal (fun o => match o with Ok (x, _) => pg_occ (h_page x a) | _ => 0 end)) in H. rewrite <- H.
      destruct (f =? 0); unfold modify, set_page, set_hdr, set_bytes; cbn; rewrite Z.eqb_refl; cbn; rewrite ?Z.eqb_refl; cbn; lia. }
    rewrite PO'. split; [unfold chunk_at in *; cbn in P'; rewrite P', PF1; lia|]. split; [lia|]. split; [apply incl_refl|]. split; [exact T'|]. exact M'.
Qed.
End Alloc.
