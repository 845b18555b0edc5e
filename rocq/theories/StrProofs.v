From Coq Require Import ZArith Lia Bool List ZifyBool.
From Verif Require Import Base NumModel NumProofs MemModel MemProofs BlkModel BlkProofs CmpModel DynModel DynSpec DynProofs StrModel StrSpec.
Import ListNotations.
Local Open Scope Z_scope.
Ltac Zify.zify_post_hook ::= Z.div_mod_to_equations.

Definition M31 : Z := 2147483647.
Lemma INT_MAX_M : INT_MAX = M31. Proof. reflexivity. Qed.
Lemma strCap_new n : 0 <= n -> strCapFor n = new_cap n.
Proof.
  intro H. unfold strCapFor, new_cap. change LIMIT with 2147482623. 
  destruct (2147482623 <? 2 * (n + 1)) eqn:E1; match goal with |- context [if ?b then _ else _] => destruct b eqn:E2 end; lia.
Qed.
Lemma chunk_bound s : (chunkSizeFor s <= INT_MAX) <-> s <= 2147483543.
Proof. unfold chunkSizeFor, align. change INT_MAX with 2147483647. lia. Qed.
Lemma new_cap_fits n : 0 <= n -> (16 + new_cap n <= 2147483543 <-> n <= MAXSTR).
Proof. intro H. unfold new_cap, MAXSTR. lia. Qed.
Lemma new_cap_bounds n : 0 <= n -> n <= new_cap n /\ 2 <= new_cap n /\ (n <= MAXSTR -> new_cap n <= MAXSTR).
Proof. unfold new_cap, MAXSTR. lia. Qed.

(** The heap grows. *)
Definition ext (o o' : omem) : Prop :=
  om_next o <= om_next o' /\ (forall x, x < om_next o -> om_mem o' x = om_mem o x) /\
  (forall b, In b (om_blocks o) -> In b (om_blocks o')).
Lemma ext_refl o : ext o o.
Proof. repeat split; auto. lia. Qed.
Lemma ext_trans o1 o2 o3 : ext o1 o2 -> ext o2 o3 -> ext o1 o3.
Proof.
  intros (A1 & A2 & A3) (B1 & B2 & B3). split; [lia|]. split; [|auto]. intros x Hx. rewrite B2 by lia. apply A2, Hx.
Qed.
Lemma ext_set o o' m : ext o o' -> (forall x, x < om_next o -> m x = om_mem o' x) -> ext o (set_mem o' m).
Proof.
  intros (A1 & A2 & A3) H. split; [exact A1|]. split; [|exact A3]. intros x Hx. cbn [set_mem om_mem]. rewrite H by exact Hx. apply A2, Hx.
Qed.

Definition len (A : sstr) : Z := zlen (s_bytes A).
Definition extent (A : sstr) : Z := Z.max (s_cap A) (len A + 1).

(** The string A has its characters at d. *)
Definition holds (o : omem) (d : Z) (A : sstr) : Prop :=
  16 < d /\ s64 (load 8 (om_mem o) (d - 16)) = len A /\ s64 (load 8 (om_mem o) (d - 8)) = s_cap A /\
  read (length (s_bytes A)) (om_mem o) d = s_bytes A /\ om_mem o (d + len A) = 0 /\
  Forall ch (s_bytes A) /\ len A < INT_MAX /\ 0 < s_cap A <= INT_MAX /\
  exists bs, In (d - 16, bs) (om_blocks o) /\ 16 + extent A <= bs.

Lemma holds_frame o o' d A :
  (forall x, d - 16 <= x < d + extent A -> om_mem o' x = om_mem o x) -> (forall b, In b (om_blocks o) -> In b (om_blocks o')) ->
  holds o d A -> holds o' d A.
Proof.
  intros E B (H0 & H1 & H2 & H3 & H4 & H5 & H6 & H7 & bs & H8 & H9). unfold holds, extent, len, zlen in *.
  split; [exact H0|]. split; [rewrite <- H1; f_equal; apply load_ext; intros x Hx; apply E; lia|].
  split; [rewrite <- H2; f_equal; apply load_ext; intros x Hx; apply E; lia|].
  split; [etransitivity; [|exact H3]; apply read_ext; intros x Hx; apply E; lia|].
  split; [rewrite <- H4; apply E; lia|].
  split; [exact H5|]. split; [exact H6|]. split; [exact H7|].
  exists bs. split; [apply B, H8|exact H9].
Qed.
Lemma holds_valid o d A a n : holds o d A -> d - 16 <= a -> a + n <= d + extent A -> valid o a n = true.
Proof. intros (_ & _ & _ & _ & _ & _ & _ & _ & bs & Hi & Hb) H1 H2. apply (valid_in _ (d - 16) bs); [exact Hi|lia..]. Qed.
Lemma holds_below o d A : below o -> holds o d A -> d + extent A <= om_next o.
Proof. intros B (_ & _ & _ & _ & _ & _ & _ & _ & bs & Hi & Hb). pose proof (proj2 B _ _ Hi). lia. Qed.
Lemma len_nn A : 0 <= len A.
Proof. unfold len, zlen. lia. Qed.
Lemma holds_len o d A : holds o d A -> strLen o d = Ok (len A).
Proof.
  intro H. pose proof (len_nn A). unfold strLen. rewrite load64_ok by (eapply holds_valid; [exact H|unfold extent; lia..]).
  f_equal. apply H.
Qed.
Lemma holds_cap o d A : holds o d A -> strCap o d = Ok (s_cap A).
Proof.
  intro H. pose proof (len_nn A). unfold strCap. rewrite load64_ok by (eapply holds_valid; [exact H|unfold extent; lia..]).
  f_equal. apply H.
Qed.
Lemma holds_ext o o' d A : below o -> ext o o' -> holds o d A -> holds o' d A.
Proof.
  intros B (E1 & E2 & E3) H. pose proof (holds_below _ _ _ B H). apply (holds_frame o); [|exact E3|exact H].
  intros x Hx. apply E2. lia.
Qed.
Lemma s32_small z : 0 <= z <= INT_MAX -> s32 z = z.
Proof.
  intro H. unfold s32, wraps. change INT_MAX with 2147483647 in H. change (two32 / 2) with 2147483648. change two32 with 4294967296.
  rewrite Z.mod_small by lia. lia.
Qed.
Lemma chk32_small z : 0 <= z <= INT_MAX -> chk32 z = Ok z.
Proof. intro H. unfold chk32. change INT_MIN with (-2147483648) in *. destruct ((-2147483648 <=? z) && (z <=? INT_MAX)) eqn:E; [reflexivity|lia]. Qed.
Lemma chk32_big z : INT_MAX < z -> chk32 z = UB.
Proof. intro H. unfold chk32. destruct ((INT_MIN <=? z) && (z <=? INT_MAX)) eqn:E; [lia|reflexivity]. Qed.

(** A C string. *)
Definition cstr (o : omem) (a : Z) (b : list Z) : Prop :=
  0 < a /\ read (length b) (om_mem o) a = b /\ om_mem o (a + zlen b) = 0 /\ Forall ch b /\ valid o a (zlen b + 1) = true.
Lemma holds_cstr o d A : holds o d A -> cstr o d (s_bytes A).
Proof.
  intro H. pose proof H as (H0 & H1 & H2 & H3 & H4 & H5 & H6 & _). split; [lia|]. split; [exact H3|]. split; [exact H4|]. split; [exact H5|].
  eapply holds_valid; [exact H|lia|]. unfold extent, len. lia.
Qed.
Lemma valid_sub o a n b k : valid o a n = true -> a <= b -> b + k <= a + n -> valid o b k = true.
Proof. intros H H1 H2. apply valid_inv in H. destruct H as (c & s & Hi & G1 & G2). eapply valid_in; [exact Hi|lia..]. Qed.

Lemma strlenFrom_ok o : forall b a n fuel, read (length b) (om_mem o) (a + n) = b -> om_mem o (a + n + zlen b) = 0 -> Forall ch b ->
  valid o (a + n) (zlen b + 1) = true -> zlen b < Z.of_nat fuel -> strlenFrom fuel o a n = Ok (n + zlen b).
Proof.
  induction b as [|c b IH]; intros a n fuel H1 H2 H3 H4 H5; (destruct fuel as [|fuel]; [unfold zlen in *; cbn [length] in *; lia|]); cbn [strlenFrom].
  - unfold load8. rewrite (valid_sub _ _ _ (a + n) 1 H4) by (unfold zlen; cbn [length]; lia). cbn [bind]. unfold zlen in *. cbn [length] in *.
    replace (a + n + Z.of_nat 0) with (a + n) in H2 by lia. rewrite H2. cbn [Z.eqb]. f_equal. lia.
  - inversion H3 as [|? ? Hc H3']; subst. unfold zlen in *. cbn [length] in *.
    unfold load8. rewrite (valid_sub _ _ _ (a + n) 1 H4) by lia. cbn [bind].
    cbn [read] in H1. apply (f_equal (fun l => (hd 0 l, tl l))) in H1. cbn [hd tl] in H1. apply pair_inv in H1. destruct H1 as [Hc1 H1].
    rewrite Hc1. unfold ch in Hc. destruct (c =? 0) eqn:E; [lia|].
    rewrite IH; [f_equal; lia| | |exact H3'| |lia].
    + replace (a + (n + 1)) with (a + n + 1) by lia. exact H1.
    + replace (a + (n + 1) + Z.of_nat (length b)) with (a + n + Z.of_nat (S (length b))) by lia. exact H2.
    + eapply valid_sub; [exact H4|lia..].
Qed.
Lemma enough_ok o a n : below o -> valid o a n = true -> 0 < a -> n < Z.of_nat (enough o).
Proof. intros B V H. pose proof (valid_below _ _ _ B V). unfold enough. destruct B. lia. Qed.
Lemma strlen_ok o a b : below o -> cstr o a b -> strlen o a = Ok (zlen b).
Proof.
  intros B (H0 & H1 & H2 & H3 & H4). unfold strlen. pose proof (enough_ok _ _ _ B H4 H0).
  rewrite (strlenFrom_ok o b); rewrite ?Z.add_0_r; try assumption; try lia. f_equal.
Qed.

Lemma strcmpFrom_ok o : forall b p q b' fuel, cstr o p b -> cstr o q b' -> zlen b < Z.of_nat fuel ->
  strcmpFrom fuel o p q = Ok (bytes_cmp b b').
Proof.
  assert (T : forall a c b, cstr o a (c :: b) -> om_mem o a = c /\ ch c /\ valid o a 1 = true /\ cstr o (a + 1) b).
  { intros a c b (H0 & H1 & H2 & H3 & H4). unfold zlen in *. cbn [length read] in *.
    apply (f_equal (fun l => (hd 0 l, tl l))) in H1. cbn [hd tl] in H1. apply pair_inv in H1. destruct H1 as [Hc1 H1].
    inversion H3; subst. split; [reflexivity|]. split; [assumption|]. split; [eapply valid_sub; [exact H4|lia..]|].
    split; [lia|]. split; [exact H1|]. split; [|split; [assumption|eapply valid_sub; [exact H4|unfold zlen; lia..]]].
    rewrite <- H2. f_equal. unfold zlen. lia. }
  assert (N : forall a, cstr o a [] -> om_mem o a = 0 /\ valid o a 1 = true).
  { intros a (H0 & H1 & H2 & H3 & H4). unfold zlen in *. cbn [length] in *. split; [rewrite <- H2; f_equal; lia|exact H4]. }
  induction b as [|c b IH]; intros p q b' fuel P Q F; (destruct fuel as [|fuel]; [unfold zlen in *; cbn [length] in *; lia|]); cbn [strcmpFrom];
    unfold load8.
  - destruct (N _ P) as (P1 & ->). destruct b' as [|c' b'].
    + destruct (N _ Q) as (Q1 & ->). cbn [bind bytes_cmp]. rewrite P1, Q1. reflexivity.
    + destruct (T _ _ _ Q) as (Q1 & Q2 & -> & _). cbn [bind bytes_cmp]. rewrite P1, Q1. unfold ch in Q2.
      destruct (0 =? c') eqn:E; [lia|]. destruct (0 <? c') eqn:E2; [reflexivity|lia].
  - destruct (T _ _ _ P) as (P1 & P2 & -> & P3). unfold ch in P2. destruct b' as [|c' b'].
    + destruct (N _ Q) as (Q1 & ->). cbn [bind bytes_cmp]. rewrite P1, Q1.
      destruct (c =? 0) eqn:E; [lia|]. destruct (c <? 0) eqn:E2; [lia|reflexivity].
    + destruct (T _ _ _ Q) as (Q1 & Q2 & -> & Q3). cbn [bind bytes_cmp]. rewrite P1, Q1.
      destruct (c =? c') eqn:E.
      * destruct (c =? 0) eqn:E0; [lia|]. destruct (c <? c') eqn:E1; [lia|]. destruct (c' <? c) eqn:E2; [lia|].
        apply IH; try assumption. unfold zlen in *. cbn [length] in F. lia.
      * destruct (c <? c') eqn:E1; [reflexivity|]. destruct (c' <? c) eqn:E2; [reflexivity|lia].
Qed.
Lemma strcmp_ok o p q b b' : below o -> cstr o p b -> cstr o q b' -> strcmp o p q = Ok (bytes_cmp b b').
Proof.
  intros B P Q. apply strcmpFrom_ok; try assumption. destruct P as (P0 & _ & _ & _ & P4). pose proof (enough_ok _ _ _ B P4 P0). lia.
Qed.

(** Freshly allocated, still empty space for n characters. *)
Definition raw (o o' : omem) (n c : Z) : Prop :=
  let a := om_next o + 16 in
  below o' /\ ext o o' /\ s64 (load 8 (om_mem o') (a - 16)) = n /\ s64 (load 8 (om_mem o') (a - 8)) = c /\
  om_mem o' (a + n) = 0 /\ exists bs, In (a - 16, bs) (om_blocks o') /\ 16 + Z.max c (n + 1) <= bs.

Lemma small_s64 n : 0 <= n <= 2 * (INT_MAX + 1) -> in_s64 n.
Proof. apply len_s64. Qed.

Lemma zero_in m a n x : a <= x < a + n -> zero_range m a n x = 0.
Proof. intro H. unfold zero_range. destruct ((a <=? x) && (x <? a + n)) eqn:E; [reflexivity|lia]. Qed.
Lemma zero_out m a n x : ~ a <= x < a + n -> zero_range m a n x = m x.
Proof. intro H. unfold zero_range. destruct ((a <=? x) && (x <? a + n)) eqn:E; [lia|reflexivity]. Qed.

(** The common part of doAllocStr and storageAddStr. *)
Definition setup (o : omem) (s n c : Z) : outcome (omem * Z) :=
  let (o1, dimsAndData) := newBlock o s in
  let* o1 := store64 o1 dimsAndData n in
  let* o1 := store64 o1 (dimsAndData + 8) c in
  let data := dimsAndData + 16 in
  let* o1 := store8 o1 (data + n) 0 in
  Ok (o1, data).
Lemma setup_ok o s n c : below o -> 0 <= n <= INT_MAX -> 0 < c <= INT_MAX + 1 -> 16 + c <= s + 1 -> 16 + n <= s ->
  exists o', setup o s n c = Ok (o', om_next o + 16) /\ raw o o' n c.
Proof.
  intros B Hn Hc Hs1 Hs2. unfold setup. cbn [newBlock]. set (o1 := MkOmem _ _ _).
  assert (Hb : In (om_next o, s + 1) (om_blocks o1)) by (left; reflexivity).
  rewrite store64_ok by (apply (valid_in _ _ _ _ _ Hb); lia). cbn [bind].
  rewrite store64_ok by (rewrite valid_set_mem; apply (valid_in _ _ _ _ _ Hb); lia). cbn [bind].
  unfold store8. rewrite !valid_set_mem. rewrite (valid_in _ _ _ (om_next o + 16 + n) 1 Hb) by lia. cbn [bind].
  eexists. split; [reflexivity|]. cbn [set_mem om_mem om_blocks om_next]. unfold raw.
  cbn [om_mem om_blocks om_next set_mem].
  assert (U : forall x, x <> om_next o + 16 + n ->
    upd (store 8 (store 8 (om_mem o1) (om_next o) n) (om_next o + 8) c) (om_next o + 16 + n) (0 mod 256) x =
    store 8 (store 8 (om_mem o1) (om_next o) n) (om_next o + 8) c x).
  { intros x Hx. unfold upd. destruct (x =? om_next o + 16 + n) eqn:E; [lia|reflexivity]. }
  replace (om_next o + 16 - 16) with (om_next o) by lia. replace (om_next o + 16 - 8) with (om_next o + 8) by lia.
  split; [|split; [|split; [|split; [|split]]]].
  - unfold below, o1. cbn [set_mem om_next om_blocks]. split; [destruct B; lia|]. intros b t [Hi|Hi].
    + apply pair_inv in Hi. lia.
    + pose proof (proj2 B _ _ Hi). lia.
  - unfold ext. cbn [set_mem om_mem om_blocks om_next]. unfold o1 at 1. cbn [om_next]. split; [lia|]. split; [|intros b Hi; right; exact Hi].
    intros x Hx. rewrite U by lia. rewrite !store_other by lia. unfold o1. cbn [om_mem]. apply zero_out. lia.
  - rewrite (load_ext 8 _ (store 8 (store 8 (om_mem o1) (om_next o) n) (om_next o + 8) c)) by (intros x Hx; apply U; change (Z.of_nat 8) with 8 in *; lia).
    rewrite load_store64_other by lia. apply load_store64. apply small_s64. lia.
  - rewrite (load_ext 8 _ (store 8 (store 8 (om_mem o1) (om_next o) n) (om_next o + 8) c)) by (intros x Hx; apply U; change (Z.of_nat 8) with 8 in *; lia).
    apply load_store64. apply small_s64. lia.
  - unfold upd. rewrite Z.eqb_refl. reflexivity.
  - exists (s + 1). split; [exact Hb|lia].
Qed.

Lemma allocStr_ok o n : below o -> 0 <= n <= MAXSTR -> exists o', doAllocStr o n = Ok (o', om_next o + 16) /\ raw o o' n (new_cap n).
Proof.
  intros B Hn. unfold doAllocStr, chunkAlloc. rewrite strCap_new by lia.
  pose proof (new_cap_bounds n ltac:(lia)) as (H1 & H2 & H3).
  pose proof (proj2 (chunk_bound (16 + new_cap n)) (proj2 (new_cap_fits n ltac:(lia)) ltac:(lia))).
  destruct ((16 + new_cap n <? 0) || (INT_MAX <? chunkSizeFor (16 + new_cap n))) eqn:E; [lia|]. cbn [bind].
  clear E H. unfold MAXSTR in *. change INT_MAX with 2147483647 in *.
  apply (setup_ok o (16 + new_cap n) n (new_cap n) B); change INT_MAX with 2147483647; lia.
Qed.
Lemma allocStr_err o n : MAXSTR < n -> doAllocStr o n = Err EOutOfMemory.
Proof.
  intro Hn. unfold doAllocStr, chunkAlloc. rewrite strCap_new by (unfold MAXSTR in *; lia).
  assert (~ chunkSizeFor (16 + new_cap n) <= INT_MAX).
  { rewrite chunk_bound, new_cap_fits by (unfold MAXSTR in *; lia). lia. }
  destruct ((16 + new_cap n <? 0) || (INT_MAX <? chunkSizeFor (16 + new_cap n))) eqn:E; [reflexivity|lia].
Qed.
Lemma storageStr_ok o n : below o -> 0 <= n < INT_MAX -> exists o', storageAddStr o n = Ok (o', om_next o + 16) /\ raw o o' n (n + 1).
Proof. intros B Hn. apply (setup_ok o (16 + n) n (n + 1)); try assumption; lia. Qed.

(** A new string: allocated after everything in o. *)
Definition news (o o' : omem) (b : list Z) (c : Z) : Prop :=
  below o' /\ ext o o' /\ holds o' (om_next o + 16) (MkStr b c).

(** Filling raw space with its characters makes a string. *)
Lemma fill o o' b c m' : below o -> 0 <= om_next o -> raw o o' (zlen b) c -> Forall ch b -> zlen b < INT_MAX -> 0 < c <= INT_MAX ->
  0 < om_next o ->
  (forall x, ~ (om_next o + 16 <= x < om_next o + 16 + zlen b) -> m' x = om_mem o' x) ->
  read (length b) m' (om_next o + 16) = b -> news o (set_mem o' m') b c.
Proof.
  intros B Hp (R1 & R2 & R3 & R4 & R5 & R6) HF HL HC H0 M R. pose proof R2 as (E1 & E2 & E3).
  split; [exact R1|]. split; [apply ext_set; [exact R2|intros x Hx; apply M; lia]|].
  unfold holds, extent, len. cbn [set_mem om_mem om_blocks s_bytes s_cap]. unfold zlen in *.
  split; [lia|]. split; [|split; [|split; [exact R|split; [rewrite M by lia; exact R5|split; [exact HF|split; [exact HL|split; [exact HC|exact R6]]]]]]].
  - etransitivity; [|exact R3]. f_equal. apply load_ext. intros x Hx. apply M. lia.
  - etransitivity; [|exact R4]. f_equal. apply load_ext. intros x Hx. apply M. lia.
Qed.

Lemma raw_valid o o' n c a k : raw o o' n c -> om_next o <= a -> a + k <= om_next o + 16 + Z.max c (n + 1) -> valid o' a k = true.
Proof.
  intros (_ & _ & _ & _ & _ & bs & Hi & Hb) H1 H2. replace (om_next o + 16 - 16) with (om_next o) in Hi by lia.
  eapply valid_in; [exact Hi|lia..].
Qed.
Lemma ext_valid o o' a n : ext o o' -> valid o a n = true -> valid o' a n = true.
Proof. intros (_ & _ & E) H. apply valid_inv in H. destruct H as (b & s & Hi & H1 & H2). eapply valid_in; [apply E, Hi|lia..]. Qed.
Lemma ext_cstr o o' a b : below o -> ext o o' -> cstr o a b -> cstr o' a b.
Proof.
  intros B E (H0 & H1 & H2 & H3 & H4). pose proof (valid_below _ _ _ B H4). pose proof E as (_ & E2 & _). unfold zlen in *. split; [exact H0|].
  split; [etransitivity; [|exact H1]; apply read_ext; intros x Hx; apply E2; lia|].
  split; [unfold zlen in *; rewrite E2 by lia; exact H2|]. split; [exact H3|]. eapply ext_valid; [exact E|exact H4].
Qed.
Lemma read_moved m m' dst src n k off : moved m m' dst src n -> 0 <= off -> off + Z.of_nat k <= n -> read k m' (dst + off) = read k m (src + off).
Proof.
  intros M H1 H2. apply read_shift. intros i Hi. rewrite M.
  destruct ((dst <=? dst + off + i) && (dst + off + i <? dst + n)) eqn:E; [f_equal; lia|lia].
Qed.
Lemma moved_out m m' dst src n x : moved m m' dst src n -> ~ dst <= x < dst + n -> m' x = m x.
Proof. intros M H. rewrite M. destruct ((dst <=? x) && (x <? dst + n)) eqn:E; [lia|reflexivity]. Qed.
Lemma moved_in m m' dst src n x : moved m m' dst src n -> dst <= x < dst + n -> m' x = m (src + (x - dst)).
Proof. intros M H. rewrite M. destruct ((dst <=? x) && (x <? dst + n)) eqn:E; [reflexivity|lia]. Qed.

(** Reading part of a C string. *)
Lemma read_firstn k n m a : (k <= n)%nat -> firstn k (read n m a) = read k m a.
Proof.
  intro H. replace n with (k + (n - k))%nat by lia. rewrite read_app, firstn_app, read_length, Nat.sub_diag.
  cbn [firstn]. rewrite app_nil_r. apply firstn_all2. rewrite read_length. lia.
Qed.
Lemma read_skipn k n m a : (k <= n)%nat -> skipn k (read n m a) = read (n - k) m (a + Z.of_nat k).
Proof.
  intro H. replace n with (k + (n - k))%nat at 1 by lia. rewrite read_app, skipn_app, read_length, Nat.sub_diag.
  cbn [skipn]. rewrite skipn_all2 by (rewrite read_length; lia). reflexivity.
Qed.
Lemma read_sublist m a b s e : read (length b) m a = b -> 0 <= s <= e -> e <= zlen b -> read (Z.to_nat (e - s)) m (a + s) = sublist s e b.
Proof.
  intros H H1 H2. unfold sublist, zlen in *. rewrite <- H at 1. rewrite read_skipn by lia. rewrite read_firstn by lia.
  f_equal. lia.
Qed.
Lemma read_nth m a b i : read (length b) m a = b -> 0 <= i < zlen b -> m (a + i) = nth (Z.to_nat i) b 0.
Proof.
  intros H Hi. unfold zlen in Hi. pose proof (read_sublist m a b i (i + 1) H ltac:(lia)) as R. unfold zlen, sublist in R. specialize (R ltac:(lia)).
  replace (i + 1 - i) with 1 in R by lia. cbn [Z.to_nat Pos.to_nat Pos.iter_op] in R. change (Z.to_nat 1) with 1%nat in R. cbn [read] in R.
  rewrite <- (firstn_skipn (Z.to_nat i) b) at 1. rewrite app_nth2; rewrite firstn_length_le by lia; [|lia]. rewrite Nat.sub_diag.
  destruct (skipn (Z.to_nat i) b) as [|y l] eqn:E.
  - exfalso. apply (f_equal (@length Z)) in E. rewrite skipn_length in E. cbn in E. lia.
  - cbn [firstn] in R. injection R as R. exact R.
Qed.

Lemma store64_same o d A : holds o d A -> exists m', store64 o (d - 16) (len A) = Ok (set_mem o m') /\ forall x, m' x = om_mem o x \/ d - 16 <= x < d - 8.
Proof.
  intro H. pose proof (len_nn A). eexists. split; [apply store64_ok; eapply holds_valid; [exact H|unfold extent; lia..]|].
  intro x. destruct (Z_lt_ge_dec x (d - 16)); [left; apply store_other; lia|].
  destruct (Z_lt_ge_dec x (d - 8)); [right; lia|]. left. apply store_other. lia.
Qed.

(** Writing a string's length again. *)
Lemma setlen o d A : holds o d A -> exists o', store64 o (d - 16) (len A) = Ok o' /\ holds o' d A /\ (exists m', o' = set_mem o m' /\ forall x, ~ (d - 16 <= x < d - 8) -> m' x = om_mem o x).
Proof.
  intro H. pose proof (len_nn A) as HN. eexists. split; [apply store64_ok; eapply holds_valid; [exact H|unfold extent; lia..]|].
  assert (M : forall x, ~ (d - 16 <= x < d - 8) -> store 8 (om_mem o) (d - 16) (len A) x = om_mem o x) by (intros x Hx; apply store_other; lia).
  split; [|eexists; split; [reflexivity|exact M]].
  destruct H as (H0 & H1 & H2 & H3 & H4 & H5 & H6 & H7 & H8). unfold holds. cbn [set_mem om_mem om_blocks].
  split; [exact H0|]. split; [apply load_store64; apply small_s64; lia|].
  split; [rewrite load_store64_other by lia; exact H2|].
  split; [etransitivity; [|exact H3]; apply read_ext; intros x Hx; apply M; lia|].
  split; [rewrite M by lia; exact H4|]. auto.
Qed.

Lemma zlen_app {A} (l r : list A) : zlen (l ++ r) = zlen l + zlen r.
Proof. unfold zlen. rewrite app_length. lia. Qed.
Lemma read_app_eq m a b1 b2 : read (length b1) m a = b1 -> read (length b2) m (a + zlen b1) = b2 -> read (length (b1 ++ b2)) m a = b1 ++ b2.
Proof. intros H1 H2. rewrite app_length, read_app. unfold zlen in H2. rewrite H1, H2. reflexivity. Qed.

Lemma pos_next o d A : below o -> holds o d A -> 0 < om_next o.
Proof. intros B H. pose proof (holds_below _ _ _ B H). pose proof (len_nn A). destruct H. unfold extent in *. lia. Qed.

Lemma cat_fresh o d1 A1 d2 A2 : below o -> holds o d1 A1 -> holds o d2 A2 -> len A1 + len A2 <= MAXSTR ->
  exists o', catCore o false d1 d2 (len A1) (len A2) = Ok (o', om_next o + 16) /\
    news o o' (s_bytes A1 ++ s_bytes A2) (new_cap (len A1 + len A2)).
Proof.
  intros B P1 P2 HL. pose proof (len_nn A1) as N1. pose proof (len_nn A2) as N2. pose proof (pos_next _ _ _ B P1) as HP.
  assert (HI : MAXSTR < INT_MAX) by (unfold MAXSTR, INT_MAX, two31; lia).
  unfold catCore. rewrite (chk32_small (len A1 + len A2)) by lia. cbn [bind].
  destruct (allocStr_ok o (len A1 + len A2) B ltac:(lia)) as (o1 & -> & R). cbn [bind].
  pose proof R as (R1 & R2 & R3 & R4 & R5 & R6).
  pose proof (new_cap_bounds (len A1 + len A2) ltac:(lia)) as (C1 & C2 & C3).
  set (c := new_cap (len A1 + len A2)) in *.
  pose proof (holds_below _ _ _ B P1) as L1. pose proof (holds_below _ _ _ B P2) as L2. unfold extent in L1, L2.
  destruct (memmove_ok o1 (om_next o + 16) d1 (len A1) N1) as (m1 & -> & M1).
  { right. split; [eapply raw_valid; [exact R|lia..]|]. eapply ext_valid; [exact R2|]. eapply holds_valid; [exact P1|unfold extent; lia..]. }
  cbn [bind]. rewrite chk32_small by (destruct P2 as (_ & _ & _ & _ & _ & _ & P2 & _); lia). cbn [bind].
  destruct (memmove_ok (set_mem o1 m1) (om_next o + 16 + len A1) d2 (len A2 + 1) ltac:(lia)) as (m2 & -> & M2).
  { right. rewrite !valid_set_mem. split; [eapply raw_valid; [exact R|lia..]|]. eapply ext_valid; [exact R2|]. eapply holds_valid; [exact P2|unfold extent; lia..]. }
  cbn [bind]. cbn [set_mem om_mem] in M2. change (set_mem (set_mem o1 m1) m2) with (set_mem o1 m2).
  assert (N : news o (set_mem o1 m2) (s_bytes A1 ++ s_bytes A2) c).
  { assert (E2 : forall x, x < om_next o -> om_mem o1 x = om_mem o x) by apply R2.
    assert (HZ : m2 (om_next o + 16 + len A1 + len A2) = 0).
    { rewrite (moved_in _ _ _ _ _ _ M2) by lia. rewrite (moved_out _ _ _ _ _ _ M1) by lia.
      replace (d2 + (om_next o + 16 + len A1 + len A2 - (om_next o + 16 + len A1))) with (d2 + len A2) by lia.
      rewrite E2 by lia. apply P2. }
    apply fill; try assumption; try lia.
    - unfold zlen. rewrite app_length, Nat2Z.inj_add. exact R.
    - apply Forall_app. split; [apply P1|apply P2].
    - rewrite zlen_app. unfold len in *. lia.
    - intros x Hx. rewrite zlen_app in Hx. unfold len in *.
      destruct (Z.eq_dec x (om_next o + 16 + zlen (s_bytes A1) + zlen (s_bytes A2))) as [->|Hne].
      + rewrite HZ. rewrite Z.add_assoc in R5. symmetry. exact R5.
      + rewrite (moved_out _ _ _ _ _ _ M2) by lia. rewrite (moved_out _ _ _ _ _ _ M1) by lia. reflexivity.
    - destruct P1 as (P10 & _ & _ & P13 & _). destruct P2 as (P20 & _ & _ & P23 & _). unfold len, zlen in *. apply read_app_eq.
      + transitivity (read (length (s_bytes A1)) m1 (om_next o + 16)).
        { apply read_ext. intros x Hx. apply (moved_out _ _ _ _ _ _ M2). lia. }
        rewrite <- (Z.add_0_r (om_next o + 16)). rewrite (read_moved _ _ _ _ _ _ 0 M1) by lia. rewrite Z.add_0_r.
        etransitivity; [|exact P13]. apply read_ext. intros x Hx. apply E2. lia.
      + unfold zlen. rewrite <- (Z.add_0_r (om_next o + 16 + _)). rewrite (read_moved _ _ _ _ _ _ 0 M2) by lia. rewrite Z.add_0_r.
        etransitivity; [|exact P23]. apply read_ext. intros x Hx. rewrite (moved_out _ _ _ _ _ _ M1) by lia. apply E2. lia. }
  destruct N as (Q1 & Q2 & Q3).
  pose proof (setlen _ _ _ Q3) as (o' & Hs & Q4 & m' & -> & Q5). unfold len in Hs. cbn [s_bytes] in Hs. rewrite zlen_app in Hs.
  cbn [bind]. fold (len A1) in Hs. fold (len A2) in Hs. rewrite Hs. cbn [bind]. eexists. split; [reflexivity|].
  split; [exact Q1|]. split; [|exact Q4]. apply ext_set; [exact Q2|]. intros x Hx. apply Q5. lia.
Qed.

(** Appending in place. *)
Lemma cat_inplace o d1 A1 d2 A2 : below o -> holds o d1 A1 -> holds o d2 A2 -> len A1 + len A2 < s_cap A1 ->
  exists o' m', catCore o true d1 d2 (len A1) (len A2) = Ok (o', d1) /\ o' = set_mem o m' /\
    (forall x, ~ (d1 - 16 <= x < d1 + s_cap A1) -> m' x = om_mem o x) /\
    holds o' d1 (MkStr (s_bytes A1 ++ s_bytes A2) (s_cap A1)).
Proof.
  intros B P1 P2 HL. pose proof (len_nn A1) as N1. pose proof (len_nn A2) as N2.
  pose proof P1 as (P10 & P11 & P12 & P13 & P14 & P15 & P16 & P17 & bs & P18 & P19).
  pose proof P2 as (P20 & P21 & P22 & P23 & P24 & P25 & P26 & P27 & _).
  unfold catCore. cbn [bind]. rewrite chk32_small by lia. cbn [bind].
  destruct (memmove_ok o (d1 + len A1) d2 (len A2 + 1) ltac:(lia)) as (m2 & -> & M2).
  { right. split; [eapply holds_valid; [exact P1|unfold extent; lia..]|eapply holds_valid; [exact P2|unfold extent; lia..]]. }
  cbn [bind]. rewrite chk32_small by lia. cbn [bind].
  rewrite store64_ok by (rewrite valid_set_mem; eapply holds_valid; [exact P1|unfold extent; lia..]). cbn [bind].
  eexists. eexists. split; [reflexivity|]. split; [reflexivity|]. cbn [set_mem om_mem om_blocks om_next].
  assert (SO : forall x, ~ (d1 - 16 <= x < d1 - 8) -> store 8 m2 (d1 - 16) (len A1 + len A2) x = m2 x) by (intros x Hx; apply store_other; lia).
  split.
  - intros x Hx. rewrite SO by lia. apply (moved_out _ _ _ _ _ _ M2). lia.
  - unfold holds, extent, len. cbn [set_mem om_mem om_blocks s_bytes s_cap]. rewrite zlen_app. fold (len A1). fold (len A2).
    split; [exact P10|]. split; [apply load_store64; apply small_s64; lia|].
    split; [rewrite load_store64_other by lia; etransitivity; [|exact P12]; f_equal; apply load_ext; intros x Hx; apply (moved_out _ _ _ _ _ _ M2); lia|].
    split; [|split; [|split; [apply Forall_app; split; assumption|split; [lia|split; [exact P17|exists bs; split; [exact P18|unfold extent in P19; lia]]]]]].
    + unfold len, zlen in *. apply read_app_eq.
      * etransitivity; [|exact P13]. apply read_ext. intros x Hx. rewrite SO by lia. apply (moved_out _ _ _ _ _ _ M2). lia.
      * etransitivity; [apply read_ext; intros x Hx; apply SO; unfold zlen in *; lia|].
        unfold zlen. rewrite <- (Z.add_0_r (d1 + _)). rewrite (read_moved _ _ _ _ _ _ 0 M2) by lia. rewrite Z.add_0_r. exact P23.
    + rewrite SO by lia. rewrite (moved_in _ _ _ _ _ _ M2) by lia.
      replace (d2 + (d1 + (len A1 + len A2) - (d1 + len A1))) with (d2 + len A2) by lia. exact P24.
Qed.

(** Copying characters into fresh space; [k] is 0, or 1 when the terminating NUL is copied as well. *)
Lemma copy_in o o1 b c src k : below o -> 0 < om_next o -> raw o o1 (zlen b) c -> 0 < c <= INT_MAX -> Forall ch b -> zlen b < INT_MAX ->
  0 <= k <= 1 -> valid o src (zlen b + k) = true -> read (length b) (om_mem o) src = b -> (k = 1 -> om_mem o (src + zlen b) = 0) ->
  exists m2, memcpy o1 (om_next o + 16) src (zlen b + k) = Ok (set_mem o1 m2) /\ news o (set_mem o1 m2) b c.
Proof.
  intros B HP R HC HF HL Hk V HR HZ. pose proof R as (R1 & R2 & R3 & R4 & R5 & R6). unfold zlen in *.
  pose proof (valid_below _ _ _ B V) as VB.
  destruct (memcpy_ok o1 (om_next o + 16) src (Z.of_nat (length b) + k) ltac:(lia)) as (m & Hm & M).
  { right. split; [eapply raw_valid; [exact R|lia..]|eapply ext_valid; [exact R2|exact V]]. }
  { right. lia. }
  exists m. split; [exact Hm|]. assert (E2 : forall x, x < om_next o -> om_mem o1 x = om_mem o x) by apply R2.
  apply fill; try assumption; try lia.
  - intros x Hx. destruct (Z_lt_ge_dec x (om_next o + 16)); [apply (moved_out _ _ _ _ _ _ M); lia|].
    destruct (Z_lt_ge_dec x (om_next o + 16 + Z.of_nat (length b) + k)); [|apply (moved_out _ _ _ _ _ _ M); lia].
    unfold zlen in *. assert (x = om_next o + 16 + Z.of_nat (length b)) as -> by lia. rewrite R5.
    rewrite (moved_in _ _ _ _ _ _ M) by lia. rewrite E2 by lia. rewrite <- HZ by lia. f_equal. lia.
  - rewrite <- (Z.add_0_r (om_next o + 16)). rewrite (read_moved _ _ _ _ _ _ 0 M) by lia. rewrite Z.add_0_r.
    etransitivity; [|exact HR]. apply read_ext. intros x Hx. apply E2. lia.
Qed.

Lemma valid_exists o d A : holds o d A -> valid o d 0 = true.
Proof. intro H. pose proof (len_nn A). eapply holds_valid; [exact H|unfold extent; lia..]. Qed.

Lemma below_pos o : below o -> 0 <= om_next o. Proof. intro B. apply B. Qed.

(** strcpy into fresh space. *)
Lemma strcpy_in o o1 b c src : below o -> 0 < om_next o -> raw o o1 (zlen b) c -> 0 < c <= INT_MAX -> zlen b < INT_MAX -> cstr o src b ->
  exists m2, strcpy o1 (om_next o + 16) src = Ok (set_mem o1 m2) /\ news o (set_mem o1 m2) b c.
Proof.
  intros B HP R HC HL S. pose proof R as (R1 & R2 & _). unfold strcpy. rewrite (strlen_ok o1 src b R1 (ext_cstr _ _ _ _ B R2 S)). cbn [bind].
  destruct S as (S0 & S1 & S2 & S3 & S4). apply copy_in; try assumption; lia.
Qed.

Lemma copyStr_ok o d A : below o -> holds o d A ->
  (len A <= MAXSTR -> exists o', doCopyStr o d = Ok (o', om_next o + 16) /\ news o o' (s_bytes A) (new_cap (len A))) /\
  (MAXSTR < len A -> doCopyStr o d = Err EOutOfMemory).
Proof.
  intros B H. pose proof (len_nn A) as HN. pose proof (pos_next _ _ _ B H) as HP. unfold doCopyStr.
  assert (d =? 0 = false) as -> by (destruct H; lia). rewrite (holds_len _ _ _ H). cbn [bind]. split; intro HL.
  - destruct (allocStr_ok o (len A) B ltac:(lia)) as (o1 & -> & R). cbn [bind].
    pose proof (new_cap_bounds (len A) ltac:(lia)) as (C1 & C2 & C3).
    destruct (strcpy_in o o1 (s_bytes A) (new_cap (len A)) d B HP R) as (m2 & -> & N).
    + unfold MAXSTR, INT_MAX, two31 in *. lia.
    + apply H.
    + apply holds_cstr, H.
    + cbn [bind]. eexists. split; [reflexivity|exact N].
  - rewrite allocStr_err by exact HL. reflexivity.
Qed.

(** umkaMakeStr *)
Lemma makeStr_ok o a b : below o -> cstr o a b ->
  (zlen b <= MAXSTR -> exists o', vmMakeStr o a = Ok (o', om_next o + 16) /\ news o o' b (new_cap (zlen b))) /\
  (MAXSTR < zlen b -> vmMakeStr o a = Err EOutOfMemory).
Proof.
  intros B S. pose proof S as (S0 & _ & _ & _ & S4). pose proof (valid_below _ _ _ B S4) as VB.
  unfold vmMakeStr. assert (a =? 0 = false) as -> by lia. rewrite (strlen_ok o a b B S). cbn [bind]. unfold zlen in *. split; intro HL.
  - destruct (allocStr_ok o (Z.of_nat (length b)) B ltac:(lia)) as (o1 & -> & R). cbn [bind].
    pose proof (new_cap_bounds (Z.of_nat (length b)) ltac:(lia)) as (C1 & C2 & C3).
    destruct (strcpy_in o o1 b (new_cap (zlen b)) a B ltac:(lia) R) as (m2 & -> & N).
    + unfold MAXSTR, INT_MAX, two31, zlen in *. lia.
    + unfold MAXSTR, INT_MAX, two31, zlen in *. lia.
    + exact S.
    + cbn [bind]. eexists. split; [reflexivity|exact N].
  - rewrite allocStr_err by exact HL. reflexivity.
Qed.

Lemma store8_ok o a v : valid o a 1 = true -> store8 o a v = Ok (set_mem o (upd (om_mem o) a (v mod 256))).
Proof. intro H. unfold store8. rewrite H. reflexivity. Qed.

(** Writing the terminating NUL again. *)
Lemma setnul o o' b c : news o o' b c -> exists o2, store8 o' (om_next o + 16 + zlen b) 0 = Ok o2 /\ news o o2 b c.
Proof.
  intros (N1 & N2 & N3). eexists. split; [apply store8_ok; eapply holds_valid; [exact N3|unfold zlen; lia|unfold extent, len; cbn; lia]|].
  assert (U : forall x, upd (om_mem o') (om_next o + 16 + zlen b) (0 mod 256) x = om_mem o' x).
  { intro x. unfold upd. destruct (x =? om_next o + 16 + zlen b) eqn:E; [|reflexivity].
    destruct N3 as (_ & _ & _ & _ & N3 & _). unfold len in N3. cbn [s_bytes] in N3. replace x with (om_next o + 16 + zlen b) by lia. rewrite N3. reflexivity. }
  split; [exact N1|]. split; [apply ext_set; [exact N2|intros; apply U]|]. apply (holds_frame o'); [intros; apply U|auto|exact N3].
Qed.

Lemma Forall_sub {A} (P : A -> Prop) l s e : Forall P l -> Forall P (sublist s e l).
Proof.
  intro H. unfold sublist. apply Forall_forall. intros x Hx. rewrite Forall_forall in H. apply H.
  rewrite <- (firstn_skipn (Z.to_nat s) l). apply in_app_iff. right.
  rewrite <- (firstn_skipn (Z.to_nat (e - s)) (skipn (Z.to_nat s) l)). apply in_app_iff. left. exact Hx.
Qed.

Lemma slice_new o d A s e : below o -> holds o d A -> 0 <= s <= e -> e <= len A ->
  (e - s <= MAXSTR -> exists o', (let* (o1, substr) := doAllocStr o (e - s) in
     let* o1 := memcpy o1 substr (d + s) (e - s) in
     let* o1 := store8 o1 (substr + (e - s)) 0 in Ok (o1, substr)) = Ok (o', om_next o + 16) /\
     news o o' (sublist s e (s_bytes A)) (new_cap (e - s))) /\
  (MAXSTR < e - s -> (let* (o1, substr) := doAllocStr o (e - s) in
     let* o1 := memcpy o1 substr (d + s) (e - s) in
     let* o1 := store8 o1 (substr + (e - s)) 0 in Ok (o1, substr)) = Err EOutOfMemory).
Proof.
  intros B H Hs He. pose proof (pos_next _ _ _ B H) as HP. 
  assert (HZ : zlen (sublist s e (s_bytes A)) = e - s) by (apply sublist_len; [lia|exact He]).
  split; intro HL; [|rewrite allocStr_err by exact HL; reflexivity].
  destruct (allocStr_ok o (e - s) B ltac:(lia)) as (o1 & -> & R). cbn [bind].
  pose proof (new_cap_bounds (e - s) ltac:(lia)) as (C1 & C2 & C3).
  destruct (copy_in o o1 (sublist s e (s_bytes A)) (new_cap (e - s)) (d + s) 0 B HP) as (m2 & Hm & N); rewrite ?HZ; try lia; try assumption.
  - unfold MAXSTR, INT_MAX, two31 in *. lia.
  - apply Forall_sub, H.
  - unfold MAXSTR, INT_MAX, two31 in *. lia.
  - eapply holds_valid; [exact H|lia|unfold extent; lia].
  - replace (length (sublist s e (s_bytes A))) with (Z.to_nat (e - s)) by (unfold zlen in HZ; lia). apply read_sublist; [apply H|lia|exact He].
  - rewrite HZ, Z.add_0_r in Hm. rewrite Hm. cbn [bind]. destruct (setnul _ _ _ _ N) as (o2 & Hn & N2). rewrite HZ in Hn. rewrite Hn. cbn [bind].
    eexists. split; [reflexivity|exact N2].
Qed.

Lemma const_cat o d1 A1 d2 A2 : below o -> holds o d1 A1 -> holds o d2 A2 -> len A1 + len A2 < INT_MAX ->
  exists o', constStrCat o d1 d2 = Ok (o', om_next o + 16) /\ news o o' (s_bytes A1 ++ s_bytes A2) (len A1 + len A2 + 1).
Proof.
  intros B P1 P2 HL. pose proof (len_nn A1) as N1. pose proof (len_nn A2) as N2. pose proof (pos_next _ _ _ B P1) as HP.
  unfold constStrCat. rewrite (holds_len _ _ _ P1), (holds_len _ _ _ P2). cbn [bind]. rewrite s32_small by lia.
  destruct (storageStr_ok o (len A1 + len A2) B ltac:(lia)) as (o1 & -> & R). cbn [bind].
  pose proof R as (R1 & R2 & R3 & R4 & R5 & R6). assert (E2 : forall x, x < om_next o -> om_mem o1 x = om_mem o x) by apply R2.
  pose proof (ext_cstr _ _ _ _ B R2 (holds_cstr _ _ _ P1)) as S1. pose proof (ext_cstr _ _ _ _ B R2 (holds_cstr _ _ _ P2)) as S2.
  pose proof (holds_below _ _ _ B P1) as L1. pose proof (holds_below _ _ _ B P2) as L2. unfold extent in L1, L2.
  unfold strcpy at 1. rewrite (strlen_ok _ _ _ R1 S1). fold (len A1). cbn [bind].
  destruct (memcpy_ok o1 (om_next o + 16) d1 (len A1 + 1) ltac:(lia)) as (m1 & -> & M1).
  { right. split; [eapply raw_valid; [exact R|lia..]|apply S1]. }
  { right. lia. }
  cbn [bind]. unfold strcat.
  assert (S3 : cstr (set_mem o1 m1) (om_next o + 16) (s_bytes A1)).
  { split; [lia|]. cbn [set_mem om_mem]. destruct S1 as (_ & T1 & T2 & T3 & T4). fold (len A1) in *. split; [|split; [|split; [exact T3|rewrite valid_set_mem; eapply raw_valid; [exact R|lia..]]]].
    - rewrite <- (Z.add_0_r (om_next o + 16)). unfold len, zlen in *. rewrite (read_moved _ _ _ _ _ _ 0 M1) by lia. rewrite Z.add_0_r. exact T1.
    - rewrite (moved_in _ _ _ _ _ _ M1) by lia. replace (d1 + (om_next o + 16 + len A1 - (om_next o + 16))) with (d1 + len A1) by lia. exact T2. }
  rewrite (strlen_ok (set_mem o1 m1) _ _ R1 S3). cbn [bind]. fold (len A1).
  assert (S4 : cstr (set_mem o1 m1) d2 (s_bytes A2)).
  { destruct S2 as (T0 & T1 & T2 & T3 & T4). fold (len A2) in *. split; [exact T0|]. cbn [set_mem om_mem]. fold (len A2). split; [|split; [|split; [exact T3|exact T4]]].
    - etransitivity; [|exact T1]. apply read_ext. intros x Hx. unfold len, zlen in *. apply (moved_out _ _ _ _ _ _ M1). lia.
    - rewrite (moved_out _ _ _ _ _ _ M1) by lia. exact T2. }
  unfold strcpy. rewrite (strlen_ok (set_mem o1 m1) _ _ R1 S4). cbn [bind]. fold (len A2).
  destruct (memcpy_ok (set_mem o1 m1) (om_next o + 16 + len A1) d2 (len A2 + 1) ltac:(lia)) as (m2 & -> & M2).
  { right. rewrite !valid_set_mem. split; [eapply raw_valid; [exact R|lia..]|apply S4]. }
  { right. lia. }
  cbn [bind]. cbn [set_mem om_mem] in M2. change (set_mem (set_mem o1 m1) m2) with (set_mem o1 m2). eexists. split; [reflexivity|].
  assert (HZ : m2 (om_next o + 16 + len A1 + len A2) = 0).
  { rewrite (moved_in _ _ _ _ _ _ M2) by lia. rewrite (moved_out _ _ _ _ _ _ M1) by lia.
    replace (d2 + (om_next o + 16 + len A1 + len A2 - (om_next o + 16 + len A1))) with (d2 + len A2) by lia.
    rewrite E2 by lia. apply P2. }
  apply fill; try assumption; try lia.
  - unfold zlen. rewrite app_length, Nat2Z.inj_add. exact R.
  - apply Forall_app. split; [apply P1|apply P2].
  - rewrite zlen_app. unfold len in *. lia.
  - intros x Hx. rewrite zlen_app in Hx. unfold len in *.
    destruct (Z.eq_dec x (om_next o + 16 + zlen (s_bytes A1) + zlen (s_bytes A2))) as [->|Hne].
    + rewrite HZ. rewrite Z.add_assoc in R5. symmetry. exact R5.
    + rewrite (moved_out _ _ _ _ _ _ M2) by lia. rewrite (moved_out _ _ _ _ _ _ M1) by lia. reflexivity.
  - destruct S3 as (_ & T3 & _). destruct S4 as (_ & T4 & _). cbn [set_mem om_mem] in *. unfold len, zlen in *. apply read_app_eq.
    + etransitivity; [|exact T3]. apply read_ext. intros x Hx. apply (moved_out _ _ _ _ _ _ M2). lia.
    + unfold zlen. rewrite <- (Z.add_0_r (om_next o + 16 + _)). rewrite (read_moved _ _ _ _ _ _ 0 M2) by lia. rewrite Z.add_0_r. exact T4.
Qed.

Lemma literal_ok o b : below o -> 0 < om_next o -> Forall ch b -> zlen b < INT_MAX ->
  exists o', literal o b = Ok (o', om_next o + 16) /\ news o o' b (zlen b + 1).
Proof.
  intros B HP HF HL. unfold literal. fold (zlen b).
  destruct (storageStr_ok o (zlen b) B ltac:(unfold zlen in *; lia)) as (o1 & -> & R). cbn [bind]. unfold zlen in *.
  rewrite (raw_valid _ _ _ _ (om_next o + 16) (Z.of_nat (length b)) R) by lia. rewrite orb_true_r. eexists. split; [reflexivity|].
  apply fill; try assumption; try lia; unfold zlen.
  - intros x Hx. apply write_other. lia.
  - apply read_write.
Qed.

Lemma char_ok o c : below o -> 0 < om_next o -> c mod 256 <> 0 ->
  exists o', (let* (o1, dest) := doAllocStr o 1 in
   let* o1 := store8 o1 dest (c mod 256) in
   let* o1 := store8 o1 (dest + 1) 0 in Ok (o1, dest)) = Ok (o', om_next o + 16) /\ news o o' [c mod 256] (new_cap 1).
Proof.
  intros B HP Hc. destruct (allocStr_ok o 1 B ltac:(unfold MAXSTR; lia)) as (o1 & -> & R). cbn [bind].
  pose proof (new_cap_bounds 1 ltac:(lia)) as (C1 & C2 & C3). unfold MAXSTR in *.
  rewrite store8_ok by (eapply raw_valid; [exact R|lia..]). cbn [bind].
  assert (N : news o (set_mem o1 (upd (om_mem o1) (om_next o + 16) ((c mod 256) mod 256))) [c mod 256] (new_cap 1)).
  { rewrite Z.mod_mod by lia. apply fill; try assumption; try lia.
    - constructor; [|constructor]. unfold ch. pose proof (Z.mod_pos_bound c 256). lia.
    - unfold zlen, INT_MAX, two31. cbn. lia.
    - unfold INT_MAX, two31. lia.
    - intros x Hx. unfold zlen in Hx. cbn in Hx. unfold upd. destruct (x =? om_next o + 16) eqn:E; [lia|reflexivity].
    - cbn [length read]. unfold upd. rewrite Z.eqb_refl. reflexivity. }
  destruct (setnul _ _ _ _ N) as (o2 & Hn & N2). unfold zlen in Hn. cbn [length] in Hn. change (Z.of_nat 1) with 1 in Hn. rewrite Hn. cbn [bind].
  eexists. split; [reflexivity|exact N2].
Qed.

(** Conversions from and to []char. *)
Definition single (b : list Z) : list item := map (fun c => [c]) b.
Lemma rd_single n : forall m a, rd_items 1 n m a = single (read n m a).
Proof. induction n as [|n IH]; intros m a; cbn [rd_items read single map]; [reflexivity|]. rewrite IH. reflexivity. Qed.
Lemma single_inj b b' : single b = single b' -> b = b'.
Proof. revert b'. induction b as [|x b IH]; intros [|y b'] H; cbn in H; try discriminate; [reflexivity|]. injection H as <- H. f_equal. apply IH, H. Qed.
Lemma len_single b : length (single b) = length b.
Proof. apply map_length. Qed.
Lemma zlen_single b : zlen (single b) = zlen b.
Proof. unfold zlen, single. rewrite map_length. reflexivity. Qed.
Lemma Hsize1 : 0 <= 1 <= INT_MAX. Proof. unfold INT_MAX, two31. lia. Qed.
Lemma cap_for1 n : 0 <= n -> cap_for 1 n = new_cap n.
Proof.
  intro H. unfold cap_for, new_cap. change LIMIT with 2147482623. rewrite Z.mul_1_r, Z.div_1_r.
  destruct (2147482623 <? 2 * (n + 1)) eqn:E1; match goal with |- context [if ?b then _ else _] => destruct b eqn:E2 end; lia.
Qed.
Lemma fits1 n : 0 <= n -> fits 1 n = (n <=? MAXSTR).
Proof.
  intro H. unfold fits. rewrite cap_for1, Z.mul_1_r by exact H. pose proof (chunk_bound (16 + new_cap n)). pose proof (new_cap_fits n H).
  change INT_MAX with 2147483647 in *. unfold MAXSTR in *. destruct (n <=? 2147483647) eqn:E1, (chunkSizeFor (16 + new_cap n) <=? 2147483647) eqn:E2; cbn [andb]; lia.
Qed.

Lemma newarr_ext o o' l : below o -> newarr 1 o o' l -> ext o o' /\ below o'.
Proof.
  intros B N. pose proof (newarr_below 1 Hsize1 _ _ _ B N) as B'. split; [|exact B']. pose proof N as (N1 & N2 & N3 & (H1 & H2 & H3 & H4 & H5)).
  cbn [s_items DynSpec.s_cap] in *. unfold zlen in *. split; [lia|]. split; [exact N1|]. intros b Hi. rewrite N2. right. exact Hi.
Qed.
Lemma newarr_bytes o o' b : below o -> newarr 1 o o' (single b) -> 
  dimsLen o' (MkDyn 1 (om_next o + 16)) = Ok (zlen b) /\ read (length b) (om_mem o') (om_next o + 16) = b /\
  valid o' (om_next o + 16) (zlen b) = true.
Proof.
  intros B N. pose proof (newarr_hdr 1 _ _ _ B N) as H. rewrite (hdr_len 1 Hsize1 _ _ _ _ H), zlen_single. split; [reflexivity|].
  pose proof H as (_ & (H1 & H2 & H3 & H4 & H5) & _). cbn [s_items DynSpec.s_cap] in *. split.
  - apply single_inj. rewrite <- rd_single. rewrite len_single in H3. exact H3.
  - unfold zlen in *. eapply (hdr_valid 1); [exact H|lia|]. rewrite len_single in *. lia.
Qed.

Lemma tmp_block o b : below o -> let (o', a) := tmpBlock o b in
  below o' /\ ext o o' /\ a = om_next o /\ read (length b) (om_mem o') a = b /\ valid o' a (zlen b) = true /\ om_next o < om_next o'.
Proof.
  intro B. unfold tmpBlock, newBlock. cbn [set_mem om_mem om_blocks om_next]. split; [|split; [|split; [reflexivity|split; [|split]]]].
  - unfold below. cbn [set_mem om_next om_blocks]. split; [destruct B; lia|]. intros c s [Hi|Hi].
    + apply pair_inv in Hi. lia.
    + pose proof (proj2 B _ _ Hi). lia.
  - unfold ext. cbn [set_mem om_next om_mem om_blocks]. split; [lia|]. split; [|intros c Hi; right; exact Hi].
    intros x Hx. rewrite write_other by lia. apply zero_out. lia.
  - apply read_write.
  - eapply valid_in; [left; reflexivity|lia|unfold zlen; lia].
  - lia.
Qed.

Lemma charArr_ok o b : below o -> 
  (zlen b <= MAXSTR -> exists o' d, charArr o b = Ok (o', MkDyn 1 d) /\ ext o o' /\ below o' /\ om_next o + 16 <= d /\
     dimsLen o' (MkDyn 1 d) = Ok (zlen b) /\ read (length b) (om_mem o') d = b /\ valid o' d (zlen b) = true) /\
  (MAXSTR < zlen b -> exists e, charArr o b = Err e).
Proof.
  intro B. unfold charArr. pose proof (tmp_block o b B) as T. destruct (tmpBlock o b) as [o1 a]. destruct T as (T1 & T2 & T3 & T4 & T5 & T6).
  assert (HR : readable 1 o1 a (single b)).
  { split.
    - rewrite rd_single, len_single. rewrite T4. reflexivity.
    - rewrite zlen_single, Z.mul_1_r. right. exact T5. }
  destruct (fromarr_ok 1 Hsize1 o1 (single b) a T1 HR) as [F1 F2]. rewrite zlen_single in F1, F2. unfold zlen in *. rewrite fits1 in F1, F2 by lia. split; intro HL.
  - destruct F1 as (o2 & -> & N); [lia|]. destruct (newarr_ext _ _ _ T1 N) as [E B2]. pose proof (newarr_bytes _ _ _ T1 N) as (D1 & D2 & D3).
    exists o2, (om_next o1 + 16). split; [reflexivity|]. split; [eapply ext_trans; eassumption|]. split; [exact B2|].
    split; [destruct T1; lia|]. auto.
  - apply F2. lia.
Qed.

Lemma scanArr_ok o src : forall b n fuel, read (length b) (om_mem o) (d_data src + n) = b -> dimsLen o src = Ok (n + zlen b) -> 
  (valid o (d_data src + n) (zlen b) = true) -> Forall byte b -> zlen b < Z.of_nat fuel ->
  scanArr fuel o src n = Ok (n + zlen (until_nul b)).
Proof.
  induction b as [|c b IH]; intros n fuel HR HD HV HF Hfu; (destruct fuel as [|fuel]; [unfold zlen in *; cbn [length] in *; lia|]); cbn [scanArr]; rewrite HD; cbn [bind];
    unfold zlen in *; cbn [length] in *.
  - destruct (n <? n + Z.of_nat 0) eqn:E; [lia|]. cbn [until_nul length]. f_equal. lia.
  - destruct (n <? n + Z.of_nat (S (length b))) eqn:E; [|lia]. unfold load8. rewrite (valid_sub _ _ _ (d_data src + n) 1 HV) by lia. cbn [bind].
    cbn [read] in HR. apply (f_equal (fun l => (hd 0 l, tl l))) in HR. cbn [hd tl] in HR. apply pair_inv in HR. destruct HR as [Hc HR].
    rewrite Hc. cbn [until_nul]. destruct (c =? 0) eqn:E0; [cbn [length]; f_equal; lia|]. inversion HF; subst.
    rewrite IH; [cbn [length]; f_equal; lia| | | |assumption|lia].
    + replace (d_data src + (n + 1)) with (d_data src + n + 1) by lia. exact HR.
    + rewrite HD. f_equal. lia.
    + eapply valid_sub; [exact HV|lia..].
Qed.

Lemma until_nul_ch b : Forall byte b -> Forall ch (until_nul b).
Proof.
  induction 1 as [|c b Hc _ IH]; cbn [until_nul]; [constructor|]. unfold byte in Hc. destruct (c =? 0) eqn:E; [constructor|]. constructor; [unfold ch; lia|exact IH].
Qed.
Lemma until_nul_prefix b : exists r, b = until_nul b ++ r.
Proof.
  induction b as [|c b (r & IH)]; cbn [until_nul]; [exists []; reflexivity|]. destruct (c =? 0); [eexists; reflexivity|]. exists r. cbn [app]. f_equal. exact IH.
Qed.

Lemma fromArr_ok o d b : below o -> 0 < d -> dimsLen o (MkDyn 1 d) = Ok (zlen b) -> read (length b) (om_mem o) d = b -> 
  valid o d (zlen b) = true -> Forall byte b -> zlen b <= MAXSTR ->
  exists o', (let* len := scanArr (enough o) o (MkDyn 1 d) 0 in
    let* (o1, dest) := doAllocStr o len in
    let* o1 := memcpy o1 dest d len in Ok (o1, dest)) = Ok (o', om_next o + 16) /\ 
    news o o' (until_nul b) (new_cap (zlen (until_nul b))).
Proof.
  intros B Hd HD HR HV HF HL. pose proof (enough_ok _ _ _ B HV Hd) as HE. pose proof (valid_below _ _ _ B HV) as VB.
  rewrite (scanArr_ok o (MkDyn 1 d) b 0); cbn [d_data]; rewrite ?Z.add_0_r; try assumption.
  cbn [bind Z.add]. destruct (until_nul_prefix b) as (r & Hr).
  assert (HZ : zlen (until_nul b) + zlen r = zlen b) by (rewrite Hr at 2; rewrite zlen_app; reflexivity). unfold zlen in *.
  destruct (allocStr_ok o (Z.of_nat (length (until_nul b))) B ltac:(lia)) as (o1 & -> & R). cbn [bind].
  pose proof (new_cap_bounds (zlen (until_nul b)) ltac:(unfold zlen; lia)) as (C1 & C2 & C3).
  destruct (copy_in o o1 (until_nul b) (new_cap (zlen (until_nul b))) d 0 B ltac:(lia) R) as (m2 & Hm & N).
  - unfold MAXSTR, INT_MAX, two31, zlen in *. lia.
  - apply until_nul_ch, HF.
  - unfold MAXSTR, INT_MAX, two31, zlen in *. lia.
  - lia.
  - eapply valid_sub; [exact HV|lia|unfold zlen in *; lia].
  - rewrite <- (read_firstn _ (length b)) by lia. rewrite HR. rewrite Hr at 2. rewrite firstn_app, Nat.sub_diag. cbn [firstn]. rewrite app_nil_r. apply firstn_all.
  - lia.
  - unfold zlen in Hm. rewrite Z.add_0_r in Hm. rewrite Hm. cbn [bind]. eexists. split; [reflexivity|exact N].
Qed.

Lemma toBytes_ok o d A : below o -> holds o d A ->
  (len A <= MAXSTR -> exists o', (let* n := strLen o d in
    let* (o1, dest) := doAllocDynArray 1 o n in
    let* n := dimsLen o1 dest in
    let* o1 := memcpy o1 (d_data dest) d n in Ok (o1, dest)) = Ok (o', MkDyn 1 (om_next o + 16)) /\ ext o o' /\ below o' /\
    dimsLen o' (MkDyn 1 (om_next o + 16)) = Ok (len A) /\ read (length (s_bytes A)) (om_mem o') (om_next o + 16) = s_bytes A /\
    valid o' (om_next o + 16) (len A) = true) /\
  (MAXSTR < len A -> exists e, (let* n := strLen o d in
    let* (o1, dest) := doAllocDynArray 1 o n in
    let* n := dimsLen o1 dest in
    let* o1 := memcpy o1 (d_data dest) d n in Ok (o1, dest)) = Err e).
Proof.
  intros B H. pose proof (len_nn A). rewrite (holds_len _ _ _ H). cbn [bind]. split; intro HL.
  - assert (HR : readable 1 o d (single (s_bytes A))).
    { split.
      - rewrite rd_single, len_single. f_equal. apply H.
      - rewrite zlen_single, Z.mul_1_r. right. fold (len A). eapply holds_valid; [exact H|unfold extent; lia..]. }
    destruct (fill_ok 1 Hsize1 o (single (s_bytes A)) d B) as (o1 & E1 & E2 & _ & o2 & _ & E3 & N).
    + rewrite zlen_single. fold (len A). rewrite fits1 by lia. lia.
    + exact HR.
    + rewrite zlen_single in *. fold (len A) in *. rewrite E1. cbn [bind]. rewrite E2. cbn [bind d_data]. rewrite Z.mul_1_r in E3. rewrite E3. cbn [bind].
      exists o2. split; [reflexivity|]. destruct (newarr_ext _ _ _ B N) as [E B2]. pose proof (newarr_bytes _ _ _ B N) as (D1 & D2 & D3). auto 10.
  - destruct (alloc_err 1 Hsize1 o (len A)) as [e ->]; [right; rewrite fits1 by lia; lia|]. eexists. reflexivity.
Qed.
