From Coq Require Import ZArith Lia Bool List ZifyBool Permutation.
From Verif Require Import Base MemModel BlkModel CmpModel HeapModel HeapSpec HeapProofs HeapLists HeapOps HeapAlloc HeapExtra HeapHist.
Import ListNotations.
Local Open Scope Z_scope.
Ltac Zify.zify_post_hook ::= Z.div_mod_to_equations.

(** * Weak pointers *)
Lemma lor_add x y k : 0 <= y < 2 ^ k -> 0 <= k -> Z.lor (x * 2 ^ k) y = x * 2 ^ k + y.
Proof.
  intros Hy Hk. assert (E : Z.land (x * 2 ^ k) y = 0).
  { apply Z.bits_inj'. intros n Hn. rewrite Z.land_spec, Z.bits_0. destruct (Z.lt_ge_cases n k) as [H|H].
    - rewrite Z.mul_pow2_bits_low by exact H. reflexivity.
    - destruct (Z.eq_dec y 0) as [->|]; [rewrite Z.bits_0; apply andb_false_r|]. rewrite (Z.bits_above_log2 y n); [apply andb_false_r|lia|]. apply Z.log2_lt_pow2; [lia|]. eapply Z.lt_le_trans; [apply Hy|]. apply Z.pow_le_mono_r; lia. }
  rewrite <- Z.lxor_lor by exact E. symmetry. apply Z.add_nocarry_lxor. exact E.
Qed.
Definition encode (id off : Z) : Z := Z.lor (Z.lor two63 (id * two32)) off.
Lemma encode_eq id off : 0 <= id < two31 -> 0 <= off < two31 -> encode id off = two63 + id * two32 + off.
Proof.
  intros Hi Ho. unfold encode. change two63 with (1 * 2 ^ 63). change two32 with (2 ^ 32). rewrite (lor_add 1 (id * 2 ^ 32) 63); [|unfold two31 in *; change (2 ^ 63) with 9223372036854775808; change (2 ^ 32) with 4294967296; lia|lia].
  replace (1 * 2 ^ 63 + id * 2 ^ 32) with ((2 ^ 31 + id) * 2 ^ 32) by (change (2 ^ 63) with (2 ^ 31 * 2 ^ 32); lia).
  rewrite lor_add; [reflexivity| |lia]. unfold two31 in *. change (2 ^ 32) with 4294967296. lia.
Qed.
Lemma decode_bit id off : 0 <= id < two31 -> 0 <= off < two31 -> Z.testbit (encode id off) 63 = true.
Proof.
  intros Hi Ho. rewrite encode_eq by assumption. apply Z.testbit_true; [lia|]. unfold two63, two31, two32 in *. change (2 ^ 63) with 9223372036854775808.
  replace ((9223372036854775808 + id * 4294967296 + off) / 9223372036854775808) with 1; [reflexivity|]. apply (Z.div_unique _ _ _ (id * 4294967296 + off)); lia.
Qed.
Lemma decode_id id off : 0 <= id < two31 -> 0 <= off < two31 -> Z.land (Z.shiftr (encode id off) 32) 0x7FFFFFFF = id.
Proof.
  intros Hi Ho. rewrite encode_eq by assumption. rewrite Z.shiftr_div_pow2 by lia. change 0x7FFFFFFF with (Z.ones 31). rewrite Z.land_ones by lia.
  unfold two63, two31, two32 in *. change (2 ^ 32) with 4294967296. change (2 ^ 31) with 2147483648.
  replace ((9223372036854775808 + id * 4294967296 + off) / 4294967296) with (2147483648 + id) by (apply (Z.div_unique _ _ _ off); lia).
  symmetry. apply (Z.mod_unique _ _ 1); lia.
Qed.
Lemma decode_off id off : 0 <= id < two31 -> 0 <= off < two31 -> Z.land (encode id off) 0x7FFFFFFF = off.
Proof.
  intros Hi Ho. rewrite encode_eq by assumption. change 0x7FFFFFFF with (Z.ones 31). rewrite Z.land_ones by lia.
  unfold two63, two31, two32 in *. change (2 ^ 31) with 2147483648. symmetry. apply (Z.mod_unique _ _ (4294967296 + id * 2)); lia.
Qed.

Section Thms.
Variable malloc : list (Z * Z) -> Z -> option Z.
Hypothesis Hmalloc : malloc_ok malloc.

Lemma app_nth {A} (l e : list A) k x : nth_error l k = Some x -> nth_error (l ++ e) k = Some x.
Proof. intro H. rewrite nth_error_app1; [exact H|]. apply nth_error_Some. congruence. Qed.
(** What a weak pointer to a block gives later on. *)
Lemma weaken_alive h s F R B G k b p : inv h s F R B G -> owner s p = Some k -> nth_error s k = Some b -> b_stack b = false ->
  exists a, doWeakenPtr h p = Ok (set_last h a, encode (pg_id (h_page h a)) (p - a)) /\ In a F /\ nth_error G k = Some (a, pg_id (h_page h a)) /\ 0 <= p - a < two31 /\ 0 < pg_id (h_page h a) < two31 /\ within p b /\
    (exists i, b_addr b = chunk_at h a i + 40).
Proof.
  intros I Ho Hk Hst. destruct (owner_spec _ _ _ Ho) as (b' & Hk' & Hal & Hw). rewrite Hk in Hk'. injection Hk' as <-.
  destruct (find_alive _ _ _ _ _ _ _ _ _ I Hk Hal Hw) as (a & i & EF & Ha & HG & Hi & HA & HH & HC & HR). exists a.
  assert (Ha0 : a =? 0 = false) by (destruct (a =? 0) eqn:E0; [exfalso; destruct I as (L & Hg & _); apply (F_n0 _ _ _ _ _ L Hg); replace 0 with a by lia; exact Ha|reflexivity]).
  split; [|split; [exact Ha|split; [exact HG|]]].
  - unfold doWeakenPtr. rewrite EF. cbn [bind]. rewrite Ha0. change (pageGetChunk (set_last h a) a p) with (pageGetChunk h a p). rewrite HC. change (h_hdr (set_last h a)) with (h_hdr h). rewrite HH. cbn [hd_stack]. rewrite Hst. reflexivity.
  - destruct I as (L & Hg & _ & C & _). destruct (F_geo _ _ _ _ _ _ L Hg Ha) as (n & _ & _ & _ & _ & _ & _ & N2 & N3). destruct (c_page _ _ _ _ C a Ha) as (Qid & _). pose proof (c_free _ _ _ _ C). unfold INT_MAX, two31 in *.
    split; [lia|]. split; [lia|]. split; [exact Hw|]. exists i. exact HA.
Qed.
Lemma strengthen_later h s F R B G k b b0 p a id : inv h s F R B G -> nth_error s k = Some b -> nth_error G k = Some (a, id) -> same_block b0 b -> b_stack b = false -> within p b0 ->
  0 <= p - a < two31 -> 0 < id < two31 -> doStrengthenPtr h (encode id (p - a)) = Ok (if aliveb b then p else 0).
Proof.
  intros I Hk HG (SB1 & SB2 & SB3 & SB4) Hst Hw Ho Hid. unfold doStrengthenPtr. rewrite decode_bit, decode_id, decode_off by lia. destruct I as (L & Hg & Hr & C & U).
  unfold pageFindById. rewrite (l_first _ _ _ _ _ L). destruct (idLoop_spec h id F (walk h)) as (x & Ex & Hx).
  { apply (dseg_sseg _ (pv h) _ 0), (l_F _ _ _ _ _ L). } { eapply walk_len; [exact L|auto]. } { exact (F_n0 _ _ _ _ _ L Hg). }
  rewrite Ex. cbn [bind]. destruct (c_block _ _ _ _ C k b Hk) as (a' & id' & B1 & B2 & B3 & B4 & B5 & B6). rewrite HG in B1. injection B1 as <- <-.
  destruct Hx as [[-> Hx]|[Hx1 Hx2]].
  - cbn [Z.eqb]. unfold aliveb. destruct (0 <? b_refs b) eqn:EA; [|reflexivity]. exfalso. destruct (B5 ltac:(unfold alive; lia)) as [Y1 Y2]. exact (Hx a Y1 Y2).
  - destruct (B6 x Hx1 Hx2) as (-> & i & Hi & HA & HH & HS).
    destruct (a =? 0) eqn:E0; [exfalso; apply (F_n0 _ _ _ _ _ L Hg); replace 0 with a by lia; exact Hx1|].
    replace (a + (p - a)) with p by lia. unfold within in Hw. rewrite SB1, SB2 in *.
    assert (EC : pageGetChunk h a p = chunk_at h a i). { replace p with (chunk_at h a i + (p - chunk_at h a i)) at 1 by lia. apply get_chunk; lia. }
    rewrite EC, HH. cbn [hd_stack hd_ref]. rewrite Hst. unfold aliveb. destruct (b_refs b =? 0) eqn:E1, (0 <? b_refs b) eqn:E2; try lia; reflexivity.
Qed.
Lemma weak_thm h s cs p k b h1 w h2 s2 cs2 : history malloc h s cs -> owner s p = Some k -> nth_error s k = Some b -> b_stack b = false -> step malloc h (OWeaken p) = Ok (h1, RInt w) ->
  later malloc h1 s h2 s2 cs2 -> exists b2, nth_error s2 k = Some b2 /\ step malloc h2 (OStrengthen w) = Ok (h2, RPtr (if aliveb b2 then p else 0)).
Proof.
  intros H Ho Hk Hst HS HL. destruct (history_inv malloc Hmalloc _ _ _ H) as (F & R & B & G & I).
  destruct (weaken_alive _ _ _ _ _ _ _ _ _ I Ho Hk Hst) as (a & EW & Ha & HG & Hoff & Hid & Hw & _). cbn [step] in HS. rewrite EW in HS. cbn [bind] in HS.
  assert (E1 : h1 = set_last h a) by (apply (f_equal (fun o => match o with Ok (x, _) => x | _ => h1 end)) in HS; symmetry; exact HS).
  assert (E2 : w = encode (pg_id (h_page h a)) (p - a)) by (apply (f_equal (fun o => match o with Ok (_, RInt x) => x | _ => w end)) in HS; symmetry; exact HS). clear HS. subst h1.
  pose proof (inv_last _ _ _ _ _ _ _ I Ha) as I1. destruct (later_inv malloc Hmalloc _ _ _ _ _ _ _ _ _ HL I1) as (F2 & R2 & B2 & E & I2).
  destruct (later_block malloc _ _ _ _ _ HL k b Hk) as (b2 & Hk2 & SB). exists b2. split; [exact Hk2|]. cbn [step]. rewrite E2.
  rewrite (strengthen_later _ _ _ _ _ _ _ _ b p a _ I2 Hk2 (app_nth _ _ _ _ HG) SB); try assumption; [reflexivity|]. destruct SB as (_ & _ & _ & ->). exact Hst.
Qed.
(** Pointers outside the heap survive as they are. *)
Lemma weak_foreign h s cs p : history malloc h s cs -> foreign h p -> 0 <= p < two63 -> step malloc h (OWeaken p) = Ok (h, RInt p) /\ forall h2, step malloc h2 (OStrengthen p) = Ok (h2, RPtr p).
Proof.
  intros H Hf Hp. destruct (history_inv malloc Hmalloc _ _ _ H) as (F & R & B & G & I). split.
  - cbn [step]. unfold doWeakenPtr. rewrite (find_foreign _ _ _ _ _ _ _ I Hf). cbn [bind Z.eqb]. unfold u64, wrapu. do 3 f_equal. apply Z.mod_small. clear -Hp. unfold two63, two64 in *. lia.
  - intro h2. cbn [step]. unfold doStrengthenPtr. destruct (Z.testbit p 63) eqn:E; [|reflexivity]. exfalso. apply Z.testbit_true in E; [|lia]. rewrite Z.div_small in E by (change (2 ^ 63) with two63; lia). discriminate.
Qed.
Lemma weak_stack h s cs p k b : history malloc h s cs -> owner s p = Some k -> nth_error s k = Some b -> b_stack b = true -> step malloc h (OWeaken p) = Err EOther.
Proof.
  intros H Ho Hk Hst. destruct (history_inv malloc Hmalloc _ _ _ H) as (F & R & B & G & I). destruct (owner_spec _ _ _ Ho) as (b' & Hk' & Hal & Hw). rewrite Hk in Hk'. injection Hk' as <-.
  destruct (find_alive _ _ _ _ _ _ _ _ _ I Hk Hal Hw) as (a & i & EF & Ha & HG & Hi & HA & HH & HC & HR).
  cbn [step]. unfold doWeakenPtr. rewrite EF. cbn [bind]. destruct (a =? 0) eqn:E0; [exfalso; destruct I as (L & Hg & _); apply (F_n0 _ _ _ _ _ L Hg); replace 0 with a by lia; exact Ha|].
  change (pageGetChunk (set_last h a) a p) with (pageGetChunk h a p). rewrite HC. change (h_hdr (set_last h a)) with (h_hdr h). rewrite HH. cbn [hd_stack]. rewrite Hst. reflexivity.
Qed.

(** * Dangling pointers *)
Lemma dangling_thm h1 s1 cs1 h2 s2 cs2 a i j b c b2 c2 p : history malloc h1 s1 cs1 -> later malloc h1 s1 h2 s2 cs2 ->
  nth_error s1 i = Some b -> alive b -> in_page h1 a b -> nth_error s1 j = Some c -> alive c -> in_page h1 a c -> (exists n, In (a, n) (h_blocks h1)) ->
  nth_error s2 i = Some b2 -> ~ alive b2 -> nth_error s2 j = Some c2 -> alive c2 -> within p b -> forall d, step malloc h2 (ORef p d) = Err EDangling.
Proof.
  intros H HL Hi Hb Pb Hj Hc Pc (n & HN) Hi2 Hb2 Hj2 Hc2 Hw d. destruct (history_inv malloc Hmalloc _ _ _ H) as (F & R & B & G & I).
  destruct (later_inv malloc Hmalloc _ _ _ _ _ _ _ _ _ HL I) as (F2 & R2 & B2 & E & I2).
  assert (PG : forall k x, nth_error s1 k = Some x -> alive x -> in_page h1 a x -> nth_error G k = Some (a, pg_id (h_page h1 a))).
  { intros k x Hk Hx Hp. destruct I as (L & Hg & Hr & C & U). destruct (block_place _ _ _ _ _ _ _ _ _ L Hg C Hk Hx) as (a' & i' & Ha' & HG' & Hi' & HA' & _ & HS' & HC').
    destruct (Z.eq_dec a' a) as [->|Hne]; [exact HG'|]. exfalso. destruct (c_page _ _ _ _ C a' Ha') as (_ & Ho & _). destruct (chunk_range _ _ _ _ _ _ i' L Hg Ha' ltac:(lia)).
    destruct (F_geo _ _ _ _ _ _ L Hg Ha') as (n' & Hn' & _ & _ & _ & _ & N1 & _ & N2). pose proof (g_disj _ Hg _ _ _ _ Hn' HN Hne). pose proof (g_geo _ Hg _ _ HN). unfold in_page, HEADER in *. lia. }
  pose proof (app_nth _ E _ _ (PG _ _ Hi Hb Pb)) as Gi. pose proof (app_nth _ E _ _ (PG _ _ Hj Hc Pc)) as Gj.
  destruct (later_block malloc _ _ _ _ _ HL i b Hi) as (b2' & Hi2' & SB). rewrite Hi2 in Hi2'. injection Hi2' as <-. destruct SB as (SB1 & SB2 & _).
  destruct I2 as (L & Hg & (Hla & Hra & _) & C & U). destruct (block_place _ _ _ _ _ _ _ _ _ L Hg C Hj2 Hc2) as (a' & i' & Ha' & HG' & _). rewrite Gj in HG'. injection HG' as <- Eid.
  destruct (c_block _ _ _ _ C i b2 Hi2) as (a' & id' & B1 & _ & B3 & B4 & _ & B6). rewrite Gi in B1. injection B1 as <- <-. destruct (B6 a Ha' (eq_sym Eid)) as (_ & q & Hq & HA & HH & HS).
  destruct (c_page _ _ _ _ C a Ha') as (_ & Ho & _). destruct (chunk_range _ _ _ _ _ _ q L Hg Ha' ltac:(lia)) as [K1 K2]. unfold within in Hw. unfold alive in Hb2.
  assert (EC : pageGetChunk h2 a p = chunk_at h2 a q). { replace p with (chunk_at h2 a q + (p - chunk_at h2 a q)) at 1 by lia. apply get_chunk; lia. }
  assert (CT : pageContainsPtr h2 a p = Err EDangling).
  { unfold pageContainsPtr. replace ((a <=? p) && (p <? pg_end (h_page h2 a))) with true by lia. rewrite EC, HH. cbn [hd_ref]. destruct (b_refs b2 <=? 0) eqn:X; [reflexivity|lia]. }
  assert (CF : forall x, In x F2 -> x <> a -> pageContainsPtr h2 x p = Ok false).
  { intros x Hx Hne. unfold pageContainsPtr. pose proof (pages_apart _ _ _ _ _ _ _ L Hg Hx Ha' Hne). unfold HEADER in *. replace ((x <=? p) && (p <? pg_end (h_page h2 x))) with false by lia. reflexivity. }
  destruct (Hra a Ha') as [Q1 Q2].
  assert (FL : forall l fuel, sseg (nx h2) l -> (length l < fuel)%nat -> ~ In 0 l -> incl l F2 -> In a l -> a <> h_last h2 -> findLoop fuel h2 (hd 0 l) p = Err EDangling).
  { induction l as [|x l IH]; intros fuel S1 S2 S3 S4 S5 S6; [destruct S5|]. destruct fuel as [|fuel]; [cbn in S2; lia|]. cbn [hd findLoop]. destruct (x =? 0) eqn:E0; [exfalso; apply S3; left; lia|]. cbn in S1. destruct S1 as [S11 S12].
    destruct (Z.eq_dec x a) as [->|Hne]; [destruct (a =? h_last h2) eqn:X; [lia|]; rewrite CT; reflexivity|].
    assert (EE : (if x =? h_last h2 then Ok false else pageContainsPtr h2 x p) = Ok false) by (destruct (x =? h_last h2); [reflexivity|apply CF; [apply S4; left; reflexivity|exact Hne]]). rewrite EE. cbn [bind]. unfold nx in S11. rewrite S11.
    destruct S5 as [S5|S5]; [congruence|]. apply IH; auto; [cbn in S2; lia|intro Y; apply S3; right; exact Y|intros y Hy; apply S4; right; exact Hy]. }
  assert (PF : pageFind h2 p = Err EDangling).
  { unfold pageFind. replace (negb (h_low h2 =? 0) && (p <? h_low h2)) with false by lia. replace (negb (h_high h2 =? 0) && (h_high h2 <=? p)) with false by lia.
    assert (FF : a <> h_last h2 -> findLoop (walk h2) h2 (h_first h2) p = Err EDangling).
    { intro Hne. rewrite (l_first _ _ _ _ _ L). apply FL; auto; [apply (dseg_sseg _ (pv h2) _ 0), (l_F _ _ _ _ _ L)|eapply walk_len; [exact L|auto]|exact (F_n0 _ _ _ _ _ L Hg)|apply incl_refl]. }
    destruct (h_last h2 =? 0) eqn:E0.
    - cbn [bind]. apply FF. intro Y. apply (F_n0 _ _ _ _ _ L Hg). replace 0 with a by lia. exact Ha'.
    - destruct Hla as [Hla|Hla]; [lia|]. destruct (Z.eq_dec (h_last h2) a) as [Y|Hne]; [rewrite Y, CT; reflexivity|]. rewrite (CF _ Hla Hne). cbn [bind]. apply FF. congruence. }
  cbn [step]. rewrite PF. reflexivity.
Qed.
(** Pages that temporaries may point into are not recycled. *)
Lemma temps_thm h s cs o h' x : history malloc h s cs -> legal h s o -> step malloc h o = Ok (h', x) ->
  forall a, recycled h' a -> recycled h a \/ forall t, In t (h_temps h) -> ~ (a <= t < pg_end (h_page h a)).
Proof.
  intros H Hl HS a. destruct (history_inv malloc Hmalloc _ _ _ H) as (F & R & B & G & I).
  assert (SAME : (forall y, nx h' y = nx h y) -> h_recycled h' = h_recycled h -> recycled h' a -> recycled h a).
  { intros E1 E2. unfold recycled. rewrite E2. generalize (h_recycled h). intros r Hr. induction Hr as [r Hr|r z Hr HH IH]; [apply chain_here; exact Hr|]. apply chain_next; [exact Hr|]. specialize (E1 r). unfold nx in E1. rewrite E1 in IH. exact IH. }
  destruct o as [size f st|p d|p|w|y v|l|].
  - cbn [step] in HS. destruct (chunkAlloc malloc h size f st) as [(h1 & p)| |] eqn:E; cbn [bind] in HS; try discriminate. injection HS as <- <-.
    destruct (alloc_ok malloc Hmalloc _ _ _ _ _ _ _ _ _ _ _ I E) as (F' & R' & B' & e & a0 & I' & _ & _ & _ & _ & IR & _). rewrite (recycled_iff _ _ _ _ _ _ _ I'), (recycled_iff _ _ _ _ _ _ _ I). intro Y. left. apply IR, Y.
  - destruct Hl as [Hd Hl]. destruct (owner s p) as [k|] eqn:Ho.
    + destruct (ref_step malloc _ _ _ _ _ _ _ _ _ _ _ I Hd Ho HS) as (b & F' & R' & B' & _ & _ & _ & I' & _ & _ & _ & _ & _ & _ & Q). rewrite (recycled_iff _ _ _ _ _ _ _ I'), (recycled_iff _ _ _ _ _ _ _ I). intro Y.
      destruct (Q a Y) as [Z1|Z1]; [left; exact Z1|right]. intros t Ht Hb. unfold pageMayBeReferencedByTemporaries in Z1.
      assert (X : existsb (fun t => (a <=? t) && (t <? pg_end (h_page h a))) (h_temps h) = true) by (apply existsb_exists; exists t; split; [exact Ht|lia]). congruence.
    + destruct Hl as [Hl|Hf]; [congruence|]. rewrite (ref_foreign malloc _ _ _ _ _ _ _ d I Hf) in HS. injection HS as <- _. auto.
  - cbn [step] in HS. destruct (doWeakenPtr h p) as [(h1 & w)| |] eqn:E; cbn [bind] in HS; try discriminate. injection HS as <- <-.
    destruct (weaken_step _ _ _ _ _ _ _ _ _ I (proj2 Hl) E) as [(a0 & Ha & ->)| ->]; intro Y; left; [apply SAME; auto|exact Y].
  - cbn [step] in HS. destruct (doStrengthenPtr h w) as [p| |]; cbn [bind] in HS; try discriminate. injection HS as <- <-. auto.
  - cbn [step] in HS. injection HS as <- <-. intro Y. left. apply SAME; auto.
  - cbn [step] in HS. injection HS as <- <-. intro Y. left. apply SAME; auto.
  - cbn [step] in HS. injection HS as <- <-. auto.
Qed.

(** * Callbacks *)
Lemma dead_app f s1 s2 : dead_with f (s1 ++ s2) = dead_with f s1 + dead_with f s2.
Proof. induction s1 as [|b s1 IH]; cbn; [reflexivity|]. rewrite IH. lia. Qed.
Lemma calls_app f l1 l2 : calls_to f (l1 ++ l2) = calls_to f l1 + calls_to f l2.
Proof. induction l1 as [|(g & q) l1 IH]; cbn; [reflexivity|]. rewrite IH. lia. Qed.
Lemma dead_count f s : forall k d b, nth_error s k = Some b -> dead_with f (count_ref s k d) = dead_with f s + (if negb (aliveb (add_ref b d)) && (b_onFree b =? f) then 1 else 0) - (if negb (aliveb b) && (b_onFree b =? f) then 1 else 0).
Proof.
  induction s as [|c s IH]; intros [|k] d b H; cbn in H; try discriminate.
  - injection H as ->. cbn [count_ref dead_with add_ref b_onFree]. lia.
  - cbn [count_ref dead_with]. rewrite (IH k d b H). lia.
Qed.
Lemma calls_thm h s cs f : history malloc h s cs -> f <> 0 -> calls_to f cs = dead_with f s.
Proof.
  intros H Hf. unfold history in H. remember init as h0. remember (@nil block) as s0. assert (HH : later malloc h0 s0 h s cs) by exact H. subst h0 s0. revert HH.
  induction 1 as [|h1 s1 cs o h2 x HL IH Hl Hs]; [reflexivity|]. specialize (IH HL).
  destruct (later_inv malloc Hmalloc _ _ _ _ _ _ _ _ _ HL init_inv) as (F & R & B & G & I). rewrite calls_app, IH.
  destruct o as [size g st|p d|p|w|y v|l|].
  - cbn [step] in Hs. destruct (chunkAlloc malloc h1 size g st) as [(h3 & p)| |] eqn:E; cbn [bind] in Hs; try discriminate. injection Hs as <- <-. cbn [a_step calls_of calls_to]. rewrite dead_app. cbn. lia.
  - destruct Hl as [Hd Hl]. cbn [a_step]. destruct (owner s1 p) as [k|] eqn:Ho.
    + destruct (ref_step malloc _ _ _ _ _ _ _ _ _ _ _ I Hd Ho Hs) as (b & F' & R' & B' & Hk & Hal & _ & _ & -> & _). cbn [calls_of]. rewrite (dead_count f s1 k d b Hk). unfold calls_for, alive in *. unfold aliveb. cbn [add_ref b_refs b_onFree].
      destruct (0 <? b_refs b) eqn:E1; [|lia]. cbn [negb andb]. destruct (b_onFree b =? 0) eqn:E2, (b_refs b =? 1) eqn:E3, (d =? -1) eqn:E4, (0 <? b_refs b + d) eqn:E5, (b_onFree b =? f) eqn:E6; cbn [negb andb calls_to]; rewrite ?E6; lia.
    + destruct Hl as [Hl|Hf2]; [congruence|]. rewrite (ref_foreign malloc _ _ _ _ _ _ _ d I Hf2) in Hs. injection Hs as <- <-. cbn. lia.
  - cbn [step] in Hs. destruct (doWeakenPtr h1 p) as [(h3 & w)| |] eqn:E; cbn [bind] in Hs; try discriminate. injection Hs as <- <-. cbn. lia.
  - cbn [step] in Hs. destruct (doStrengthenPtr h1 w) as [p| |]; cbn [bind] in Hs; try discriminate. injection Hs as <- <-. cbn. lia.
  - cbn [step] in Hs. injection Hs as <- <-. cbn. lia.
  - cbn [step] in Hs. injection Hs as <- <-. cbn. lia.
  - cbn [step] in Hs. injection Hs as <- <-. cbn. lia.
Qed.
Lemma call_thm h s cs p d k b h' x : history malloc h s cs -> (d = 1 \/ d = -1) -> owner s p = Some k -> nth_error s k = Some b -> step malloc h (ORef p d) = Ok (h', x) ->
  x = RCalls (if negb (b_onFree b =? 0) && (b_refs b =? 1) && (d =? -1) then [(b_onFree b, p)] else []).
Proof.
  intros H Hd Ho Hk Hs. destruct (history_inv malloc Hmalloc _ _ _ H) as (F & R & B & G & I). destruct (ref_step malloc _ _ _ _ _ _ _ _ _ _ _ I Hd Ho Hs) as (b' & F' & R' & B' & Hk' & _ & _ & _ & -> & _).
  rewrite Hk in Hk'. injection Hk' as <-. reflexivity.
Qed.
End Thms.
