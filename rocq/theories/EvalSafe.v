(** Assignment with exact counts touches no released memory. *)
From Coq Require Import ZArith Lia Bool List.
From Verif Require Import Base EvalModel EvalSpec EvalProofs EvalStmt.
Import ListNotations.
Local Open Scope Z_scope.

Notation cnt l b := (count_occ Nat.eq_dec l b).

Lemma liveRefs_set m : forall b k k' x, nth_error m b = Some k ->
  (cnt (liveRefs (setNth m b k')) x + cnt (blockRefs k) x = cnt (liveRefs m) x + cnt (blockRefs k') x)%nat.
Proof.
  unfold liveRefs. induction m as [|y m IH]; intros [|b] k k' x; cbn; try discriminate.
  - intros [= ->]. rewrite !count_occ_app. lia.
  - intros H. rewrite !count_occ_app. specialize (IH _ _ k' x H). lia.
Qed.
Lemma liveRefs_len m : forall b k k', nth_error m b = Some k ->
  (length (liveRefs (setNth m b k')) + length (blockRefs k) = length (liveRefs m) + length (blockRefs k'))%nat.
Proof.
  unfold liveRefs. induction m as [|y m IH]; intros [|b] k k'; cbn; try discriminate.
  - intros [= ->]. rewrite !app_length. lia.
  - intros H. rewrite !app_length. specialize (IH _ _ k' H). lia.
Qed.
Lemma in_live m b k x : nth_error m b = Some k -> blive k = true -> In x (refs (bcells k)) -> In x (liveRefs m).
Proof. intros N L I. apply in_flat_map. exists k. split; [exact (nth_error_In _ _ N)|]. unfold blockRefs. now rewrite L. Qed.

(** Counts with pending releases [l]. *)
Definition Cnt (m : mem) (l : list nat) : Prop :=
  (forall b k, nth_error m b = Some k ->
     match bcnt k with None => blive k = true | Some c => blive k = true -> c = Z.of_nat (cnt (liveRefs m) b + cnt l b) /\ 1 <= c end)
  /\ forall b, In b (liveRefs m ++ l) -> exists k c, nth_error m b = Some k /\ blive k = true /\ bcnt k = Some c.
Lemma Cnt_nil m : counted m <-> Cnt m [].
Proof.
  unfold counted, Cnt. split; intros [A B]; split.
  - intros b k N. specialize (A b k N). destruct (bcnt k); auto. intros L. specialize (A L). cbn. rewrite Nat.add_0_r. exact A.
  - intros b. rewrite app_nil_r. apply B.
  - intros b k N. specialize (A b k N). destruct (bcnt k); auto. intros L. specialize (A L). cbn in A. rewrite Nat.add_0_r in A. exact A.
  - intros b I. apply B. now rewrite app_nil_r.
Qed.

Lemma cnt_in l b : In b l <-> (0 < cnt l b)%nat.
Proof. rewrite (count_occ_In Nat.eq_dec). lia. Qed.

Lemma reach_keep m m' : (forall b k, reach m b -> nth_error m b = Some k -> blive k = true ->
    exists k', nth_error m' b = Some k' /\ blive k' = true /\ bcells k' = bcells k /\ (bcnt k = None -> bcnt k' = None)) -> forall b, reach m b -> reach m' b.
Proof.
  intros H b R. induction R as [b k N C L|b k c R IH N L I].
  - destruct (H _ _ (reachVar _ _ _ N C L) N L) as (k' & N' & L' & _ & C'). exact (reachVar _ _ _ N' (C' C) L').
  - destruct (H _ _ R N L) as (k' & N' & L' & E & _). apply (reachRef _ _ _ _ IH N' L'). now rewrite E.
Qed.
Lemma reach_live m l b : Cnt m l -> reach m b -> exists k, nth_error m b = Some k /\ blive k = true.
Proof.
  intros [A B] R. inversion R as [b' k N C L|b' k c R' N L I]; subst; [eauto|].
  destruct (B b) as (k' & c & N' & L' & _); [|eauto]. apply in_or_app. left. exact (in_live _ _ _ _ N L I).
Qed.

(** One release. *)
Lemma dec_step m b l k c : Cnt m (b :: l) -> nth_error m b = Some k -> blive k = true -> bcnt k = Some c ->
  let m' := if c =? 1 then setNth m b (Blk (bcells k) (Some 0) false) else setNth m b (Blk (bcells k) (Some (c - 1)) true) in
  let l' := if c =? 1 then refs (bcells k) ++ l else l in
  Cnt m' l' /\ (forall x, reach m x -> reach m' x) /\ (length (liveRefs m') + length l' + 1 = length (liveRefs m) + length (b :: l))%nat.
Proof.
  intros [A B] N L C. pose proof (A b k N) as Ab. rewrite C in Ab. destruct (Ab L) as [E G]. cbn [count_occ] in E. destruct (Nat.eq_dec b b) as [_|X]; [|congruence].
  destruct (Z.eqb_spec c 1) as [->|D]; cbn zeta.
  - assert (Z1 : cnt (liveRefs m) b = O) by lia. assert (Z2 : cnt l b = O) by lia.
    set (k' := Blk (bcells k) (Some 0) false).
    pose proof (fun x => liveRefs_set m b k k' x N) as Cs. pose proof (liveRefs_len m b k k' N) as Ls. unfold blockRefs in Cs, Ls. rewrite L in Cs, Ls. cbn [k' blive count_occ length] in Cs, Ls.
    split; [split|split].
    + intros x kx Nx. apply setNth_eq in Nx. destruct Nx as [[<- ->]|[Dx Nx]]; [cbn; discriminate|]. specialize (A x kx Nx). destruct (bcnt kx) as [cx|]; auto. intros Lx. specialize (A Lx).
      cbn [count_occ] in A. destruct (Nat.eq_dec b x) as [|_]; [congruence|]. rewrite count_occ_app. specialize (Cs x). unfold k' in *. lia.
    + intros x I. assert (x <> b /\ In x (liveRefs m ++ b :: l)) as [Dx Ix].
      { rewrite !in_app_iff, !cnt_in in I. specialize (Cs x). unfold k' in *. split.
        - intros ->. lia.
        - rewrite in_app_iff. cbn [In]. rewrite !cnt_in. destruct I as [I|[I|I]]; [left; lia|left; lia|auto]. }
      destruct (B x Ix) as (kx & cx & Nx & Lx & Cx). exists kx, cx. rewrite setNth_other by congruence. auto.
    + apply reach_keep. intros x kx Rx Nx Lx. exists kx. rewrite setNth_other; auto. intros <-. rewrite N in Nx. injection Nx as <-.
      inversion Rx as [b' k2 N2 C2 L2|b' k2 c2 R' N2 L2 I2]; subst.
      * rewrite N in N2. injection N2 as <-. congruence.
      * pose proof (in_live _ _ _ _ N2 L2 I2) as I3. rewrite cnt_in in I3. lia.
    + rewrite app_length. cbn [length]. unfold k' in *. lia.
  - set (k' := Blk (bcells k) (Some (c - 1)) true).
    pose proof (fun x => liveRefs_set m b k k' x N) as Cs. pose proof (liveRefs_len m b k k' N) as Ls. unfold blockRefs in Cs, Ls. rewrite L in Cs, Ls. cbn [k' blive bcells] in Cs, Ls.
    split; [split|split].
    + intros x kx Nx. apply setNth_eq in Nx. destruct Nx as [[<- ->]|[Dx Nx]].
      * cbn [k' bcnt blive]. intros _. specialize (Cs b). unfold k' in *. lia.
      * specialize (A x kx Nx). destruct (bcnt kx) as [cx|]; auto. intros Lx. specialize (A Lx).
        cbn [count_occ] in A. destruct (Nat.eq_dec b x) as [|_]; [congruence|]. specialize (Cs x). unfold k' in *. lia.
    + intros x I. assert (Ix : In x (liveRefs m ++ b :: l)).
      { rewrite !in_app_iff, !cnt_in in I. specialize (Cs x). unfold k' in *. rewrite in_app_iff. cbn [In]. rewrite !cnt_in. destruct I as [I|I]; [left; lia|auto]. }
      destruct (B x Ix) as (kx & cx & Nx & Lx & Cx). destruct (Nat.eq_dec b x) as [<-|Dx].
      * exists k', (c - 1). rewrite (setNth_same _ _ _ _ N). auto.
      * exists kx, cx. rewrite setNth_other by congruence. auto.
    + apply reach_keep. intros x kx Rx Nx Lx. destruct (Nat.eq_dec b x) as [<-|Dx].
      * exists k'. rewrite (setNth_same _ _ _ _ N). rewrite N in Nx. injection Nx as <-. cbn. split; [reflexivity|]. split; [reflexivity|]. split; [reflexivity|congruence].
      * exists kx. rewrite setNth_other by congruence. auto.
    + cbn [length]. unfold k' in *. lia.
Qed.

Lemma decs_safe fuel : forall m l, Cnt m l -> (length (liveRefs m) + length l <= fuel)%nat ->
  exists m', decs fuel m l = Ok m' /\ Cnt m' [] /\ forall x, reach m x -> reach m' x.
Proof.
  induction fuel as [|fuel IH]; intros m [|b l] C F; cbn [decs]; try (exists m; auto; fail).
  { cbn [length] in F. lia. }
  destruct (proj2 C b) as (k & c & N & L & E). { apply in_or_app. right. now left. }
  unfold getBlock. rewrite N, L. cbn [bind]. rewrite E. destruct (dec_step m b l k c C N L E) as (C' & R' & S'). cbn [length] in *.
  destruct (c =? 1).
  - destruct (IH _ _ C') as (m' & D & Cm & Rm); [lia|]. exists m'. auto.
  - destruct (IH _ _ C') as (m' & D & Cm & Rm); [lia|]. exists m'. auto.
Qed.

(** Dead blocks stay dead, and cells are not changed. *)
Lemma decs_keeps fuel : forall m l m', decs fuel m l = Ok m' -> forall b k, nth_error m b = Some k ->
  exists k', nth_error m' b = Some k' /\ bcells k' = bcells k /\ (blive k' = true -> blive k = true).
Proof.
  induction fuel as [|fuel IH]; intros m [|b l] m'; cbn [decs]; try discriminate; try (intros [= <-] b' k' H; exists k'; auto; fail).
  destruct (getBlock m b) as [kb| |] eqn:G; cbn [bind]; try discriminate. destruct (getBlock_nth _ _ _ G) as [N L].
  destruct (bcnt kb) as [c|]; [|apply IH]. intros D x k Nx.
  assert (exists m1 l1 k1, decs fuel m1 l1 = Ok m' /\ nth_error m1 x = Some k1 /\ bcells k1 = bcells k /\ (blive k1 = true -> blive k = true)) as (m1 & l1 & k1 & D1 & N1 & E1 & L1).
  { destruct (Nat.eq_dec b x) as [<-|Dx].
    - rewrite N in Nx. injection Nx as <-. destruct (c =? 1); do 3 eexists; (split; [exact D|]; split; [exact (setNth_same _ _ _ _ N)|]; split; [reflexivity|]; cbn; auto; discriminate).
    - destruct (c =? 1); do 3 eexists; (split; [exact D|]; split; [rewrite setNth_other by exact Dx; exact Nx|auto]). }
  destruct (IH _ _ _ D1 _ _ N1) as (k' & N' & E' & L'). exists k'. split; [exact N'|]. split; [congruence|auto].
Qed.

(** Storing before or after the release makes no difference if the place survives. *)
Definition recell (m : mem) (a : nat) (cs : list val) : mem := match nth_error m a with Some k => setNth m a (Blk cs (bcnt k) (blive k)) | None => m end.
Lemma setNth_comm {A} (m : list A) : forall a b x y, a <> b -> setNth (setNth m a x) b y = setNth (setNth m b y) a x.
Proof. induction m as [|z m IH]; intros [|a] [|b] x y D; cbn; auto; try congruence. f_equal. apply IH. congruence. Qed.
Lemma setNth_twice {A} (m : list A) : forall a x y, setNth (setNth m a x) a y = setNth m a y.
Proof. induction m as [|z m IH]; intros [|a] x y; cbn; auto. f_equal. apply IH. Qed.
Lemma recell_set_other m a cs b k : a <> b -> recell (setNth m b k) a cs = setNth (recell m a cs) b k.
Proof. intros D. unfold recell. rewrite setNth_other by congruence. destruct (nth_error m a); [|reflexivity]. apply setNth_comm. congruence. Qed.
Lemma recell_set_same m a cs k k0 : nth_error m a = Some k0 -> recell (setNth m a k) a cs = setNth (recell m a cs) a (Blk cs (bcnt k) (blive k)).
Proof. intros N. unfold recell. rewrite (setNth_same _ _ _ _ N), N. now rewrite !setNth_twice. Qed.
Lemma recell_nth m a cs b : nth_error (recell m a cs) b = if Nat.eq_dec b a then match nth_error m a with Some k => Some (Blk cs (bcnt k) (blive k)) | None => None end else nth_error m b.
Proof.
  unfold recell. destruct (nth_error m a) as [k|] eqn:N.
  - destruct (Nat.eq_dec b a) as [->|D]; [exact (setNth_same _ _ _ _ N)|]. apply setNth_other. congruence.
  - destruct (Nat.eq_dec b a) as [->|D]; auto.
Qed.
Lemma decs_recell fuel a cs : forall m l m', decs fuel (recell m a cs) l = Ok m' -> (forall k, nth_error m' a = Some k -> blive k = true) ->
  exists m2, decs fuel m l = Ok m2 /\ m' = recell m2 a cs.
Proof.
  induction fuel as [|fuel IH]; intros m [|b l] m'; cbn [decs]; try discriminate; try (intros [= <-] _; exists m; auto; fail).
  destruct (getBlock (recell m a cs) b) as [kb| |] eqn:G; cbn [bind]; try discriminate. destruct (getBlock_nth _ _ _ G) as [N L]. rewrite recell_nth in N.
  destruct (Nat.eq_dec b a) as [->|D].
  - destruct (nth_error m a) as [k|] eqn:Na; [|discriminate]. injection N as <-. cbn [bcnt blive bcells] in *. unfold getBlock. rewrite Na, L. cbn [bind].
    destruct (bcnt k) as [c|]; [|apply IH]. destruct (c =? 1).
    + intros D Lv. exfalso. destruct (decs_keeps _ _ _ _ D a (Blk cs (Some 0) false)) as (k' & N' & _ & L').
      { apply (setNth_same _ _ _ (Blk cs (bcnt k) (blive k))). rewrite recell_nth. destruct (Nat.eq_dec a a); [|congruence]. now rewrite Na. }
      specialize (L' (Lv _ N')). discriminate.
    + intros D Lv. apply (IH (setNth m a (Blk (bcells k) (Some (c - 1)) true))); [|exact Lv]. rewrite (recell_set_same _ _ _ _ _ Na). exact D.
  - unfold getBlock. rewrite N, L. cbn [bind]. destruct (bcnt kb) as [c|]; [|apply IH].
    destruct (c =? 1); intros E Lv; (eapply IH; [|exact Lv]); (rewrite recell_set_other by congruence); exact E.
Qed.

Lemma refs_app x y : refs (x ++ y) = refs x ++ refs y.
Proof. unfold refs. apply flat_map_app. Qed.

(** Counting new references [l] that lead to live heap blocks. *)
Definition heapLive (m : mem) (b : nat) : Prop := exists k c, nth_error m b = Some k /\ blive k = true /\ bcnt k = Some c.
Lemma incs_safe l : forall m p, Cnt m p -> Forall (heapLive m) l ->
  exists m', incs m l = Ok m' /\ Cnt m' (p ++ l) /\ (forall x, reach m x -> reach m' x) /\ (forall b, nth_error m' b = None <-> nth_error m b = None)
   /\ forall x, cnt (liveRefs m') x = cnt (liveRefs m) x.
Proof.
  induction l as [|b l IH]; intros m p C F; cbn [incs].
  { exists m. rewrite app_nil_r. repeat split; auto. apply C. apply C. }
  inversion F as [|b' l' (k & c & N & L & E) Fl]; subst. unfold inc1, getBlock. rewrite N, L. cbn [bind]. rewrite E.
  set (k' := Blk (bcells k) (Some (c + 1)) true).
  pose proof (fun x => liveRefs_set m b k k' x N) as Cs. unfold blockRefs in Cs. rewrite L in Cs. cbn [k' blive bcells] in Cs.
  destruct C as [A B].
  assert (C' : Cnt (setNth m b k') (p ++ [b])).
  { split.
    - intros x kx Nx. apply setNth_eq in Nx. destruct Nx as [[<- ->]|[Dx Nx]].
      + cbn [k' bcnt blive]. intros _. specialize (A b k N). rewrite E in A. specialize (A L). rewrite count_occ_app. cbn [count_occ]. destruct (Nat.eq_dec b b); [|congruence].
        specialize (Cs b). unfold k' in *. lia.
      + specialize (A x kx Nx). destruct (bcnt kx); auto. intros Lx. specialize (A Lx). rewrite count_occ_app. cbn [count_occ]. destruct (Nat.eq_dec b x); [congruence|].
        specialize (Cs x). unfold k' in *. lia.
    - intros x I. rewrite !in_app_iff in I. destruct (Nat.eq_dec b x) as [<-|Dx].
      + exists k', (c + 1). rewrite (setNth_same _ _ _ _ N). auto.
      + destruct (B x) as (kx & cx & H). { rewrite in_app_iff. destruct I as [I|[I|[I|[]]]]; [left|now right|congruence]. rewrite cnt_in in *. specialize (Cs x). unfold k' in *. lia. }
        exists kx, cx. now rewrite setNth_other by exact Dx. }
  destruct (IH _ _ C') as (m' & I' & Cm & Rm & Nm & Lm).
  { apply Forall_forall. intros x Ix. rewrite Forall_forall in Fl. destruct (Fl x Ix) as (kx & cx & H). destruct (Nat.eq_dec b x) as [<-|Dx].
    - exists k', (c + 1). rewrite (setNth_same _ _ _ _ N). auto.
    - exists kx, cx. now rewrite setNth_other by exact Dx. }
  exists m'. split; [exact I'|]. split; [now rewrite <- app_assoc in Cm|]. split; [|split].
  - intros x Rx. apply Rm. revert x Rx. apply reach_keep. intros x kx Rx Nx Lx. destruct (Nat.eq_dec b x) as [<-|Dx].
    + exists k'. rewrite (setNth_same _ _ _ _ N). rewrite N in Nx. injection Nx as <-. cbn. split; [reflexivity|]. split; [reflexivity|]. split; [reflexivity|congruence].
    + exists kx. rewrite setNth_other by exact Dx. auto.
  - intros x. rewrite Nm. destruct (Nat.eq_dec b x) as [<-|Dx]; [rewrite (setNth_same _ _ _ _ N); split; congruence|]. now rewrite setNth_other.
  - intros x. rewrite Lm. specialize (Cs x). unfold k' in *. lia.
Qed.

(** The block of the place is reachable without the cells of the place. *)
Lemma reach_recell m a cs : reach m a -> reach (recell m a cs) a.
Proof.
  intros R. enough (H : forall b, reach m b -> reach (recell m a cs) b \/ reach (recell m a cs) a) by (destruct (H a R); auto).
  clear R. intros b R. induction R as [b k N C L|b k c R IH N L I].
  - left. destruct (Nat.eq_dec b a) as [->|D].
    + apply (reachVar _ _ (Blk cs (bcnt k) (blive k))); auto. rewrite recell_nth. destruct (Nat.eq_dec a a); [|congruence]. now rewrite N.
    + apply (reachVar _ _ k); auto. rewrite recell_nth. destruct (Nat.eq_dec b a); [congruence|exact N].
  - destruct IH as [IH|IH]; [|auto]. destruct (Nat.eq_dec b a) as [->|D]; [auto|]. left. apply (reachRef _ b k); auto. rewrite recell_nth. destruct (Nat.eq_dec b a); [congruence|exact N].
Qed.

Lemma split3 {A} (l : list A) i n : l = firstn i l ++ firstn n (skipn i l) ++ skipn (i + n) l.
Proof.
  rewrite <- (firstn_skipn i l) at 1. f_equal. rewrite <- (firstn_skipn n (skipn i l)) at 1. f_equal.
  revert i. induction l; intros [|i]; cbn; auto. now rewrite skipn_nil.
Qed.

Theorem assign_safe fuel m p a t vs old :
  counted m -> asAddr p = Ok a -> reach m (fst a) -> load m a (size t) = Ok old -> length vs = size t -> Forall (heapLive m) (refs vs) ->
  (gc t = false -> refs vs = [] /\ refs old = []) -> (length (liveRefs m) + length (refs vs) <= fuel)%nat ->
  exists m', assign fuel m p t vs = Ok m' /\ counted m' /\ load m' a (size t) = Ok vs /\ reach m' (fst a)
    /\ forall b, reach m' b -> b <> fst a -> view m' b = view m b.
Proof.
  intros C Pa R Ld Lv F G Fu. apply Cnt_nil in C. unfold assign. rewrite Pa.
  assert (Tv : trefs t vs = refs vs) by (unfold trefs; destruct (gc t); [reflexivity|]; now rewrite (proj1 (G eq_refl))).
  assert (To : trefs t old = refs old) by (unfold trefs; destruct (gc t); [reflexivity|]; now rewrite (proj2 (G eq_refl))).
  rewrite Tv. destruct (incs_safe _ m [] C F) as (m1 & I & C1 & R1 & N1 & L1). cbn [app] in C1. rewrite I. cbn [bind].
  unfold read. rewrite Pa. cbn [bind]. pose proof (incs_load _ _ _ I a (size t)) as Ld1. rewrite Ld in Ld1. rewrite Ld1. cbn [bind]. rewrite To.
  (* The memory with the new values in place *)
  pose proof Ld1 as Ld2. unfold load in Ld2. destruct (getBlock m1 (fst a)) as [k| |] eqn:Gb; cbn [bind] in Ld2; try discriminate. destruct (getBlock_nth _ _ _ Gb) as [Nk Lk].
  destruct (Nat.leb (snd a + size t) (length (bcells k))) eqn:Bd; [|discriminate]. injection Ld2 as Eo.
  set (cs := firstn (snd a) (bcells k) ++ vs ++ skipn (snd a + size t) (bcells k)).
  assert (Ec : bcells k = firstn (snd a) (bcells k) ++ old ++ skipn (snd a + size t) (bcells k)) by (rewrite <- Eo; apply split3).
  assert (Er : forall x, (cnt (refs cs) x + cnt (refs old) x = cnt (refs (bcells k)) x + cnt (refs vs) x)%nat).
  { intros x. rewrite (f_equal refs Ec). unfold cs. rewrite !refs_app, !count_occ_app. lia. }
  assert (Erl : (length (refs cs) + length (refs old) = length (refs (bcells k)) + length (refs vs))%nat).
  { rewrite (f_equal refs Ec). unfold cs. rewrite !refs_app, !app_length. lia. }
  set (k' := Blk cs (bcnt k) (blive k)).
  assert (Erc : recell m1 (fst a) cs = setNth m1 (fst a) k') by (unfold recell; now rewrite Nk).
  pose proof (fun x => liveRefs_set m1 (fst a) k k' x Nk) as Cs. pose proof (liveRefs_len m1 (fst a) k k' Nk) as Ls. unfold blockRefs in Cs, Ls. cbn [k' blive bcells] in Cs, Ls. rewrite Lk in Cs, Ls.
  assert (C2 : Cnt (recell m1 (fst a) cs) (refs old)).
  { rewrite Erc. destruct C1 as [A B]. split.
    - intros x kx Nx. assert (exists kx0, nth_error m1 x = Some kx0 /\ bcnt kx0 = bcnt kx /\ blive kx0 = blive kx) as (k0 & N0 & E0 & L0).
      { apply setNth_eq in Nx. destruct Nx as [[<- ->]|[Dx Nx]]; [exists k; auto|exists kx; auto]. }
      specialize (A x k0 N0). rewrite E0, L0 in A. destruct (bcnt kx); auto. intros Lx. specialize (A Lx). specialize (Cs x). specialize (Er x). unfold k' in *. rewrite Lk in *. lia.
    - intros x Ix. destruct (B x) as (k0 & c0 & N0 & L0 & E0). { rewrite in_app_iff, !cnt_in in *. specialize (Cs x). specialize (Er x). unfold k' in *. rewrite Lk in *. lia. }
      destruct (Nat.eq_dec (fst a) x) as [<-|Dx].
      + rewrite Nk in N0. injection N0 as <-. exists k', c0. rewrite (setNth_same _ _ _ _ Nk). auto.
      + exists k0, c0. rewrite setNth_other by exact Dx. auto. }
  assert (Len1 : length (liveRefs m1) = length (liveRefs m)).
  { clear -L1. revert L1. generalize (liveRefs m) as y. induction (liveRefs m1) as [|x l IH]; intros y H.
    - destruct y as [|b y]; [reflexivity|]. specialize (H b). cbn in H. destruct (Nat.eq_dec b b); [lia|congruence].
    - assert (Ix : In x y) by (rewrite cnt_in, <- H; cbn; destruct (Nat.eq_dec x x); [lia|congruence]).
      destruct (in_split _ _ Ix) as (y1 & y2 & ->). rewrite app_length. cbn [length]. rewrite (IH (y1 ++ y2)); [rewrite app_length; lia|].
      intros z. specialize (H z). rewrite count_occ_app in *. cbn [count_occ] in H. destruct (Nat.eq_dec x z); lia. }
  destruct (decs_safe fuel _ _ C2) as (m' & D & C' & R').
  { rewrite Erc. unfold k' in *. rewrite Lk in *. lia. }
  pose proof (R' _ (reach_recell _ _ cs (R1 _ R))) as Ra. destruct (reach_live _ _ _ C' Ra) as (ka & Na & La).
  destruct (decs_recell _ _ _ _ _ _ D) as (m2 & D2 & ->). { intros kk Nkk. congruence. }
  rewrite D2. cbn [bind]. rewrite recell_nth in Na. destruct (Nat.eq_dec (fst a) (fst a)); [|congruence]. destruct (nth_error m2 (fst a)) as [k2|] eqn:N2; [|discriminate]. injection Na as <-.
  destruct (decs_keeps _ _ _ _ D2 _ _ Nk) as (k2' & N2' & E2 & _). rewrite N2 in N2'. injection N2' as <-. cbn [blive] in La.
  assert (St : store m2 a vs = Ok (recell m2 (fst a) cs)).
  { unfold store, getBlock. rewrite N2, La. cbn [bind]. rewrite E2, Lv, Bd. unfold recell. rewrite N2, La. reflexivity. }
  exists (recell m2 (fst a) cs). split; [exact St|]. split; [now apply Cnt_nil|]. split; [|split; [exact Ra|]].
  - apply Nat.leb_le in Bd. unfold load, getBlock. rewrite recell_nth. destruct (Nat.eq_dec (fst a) (fst a)); [|congruence]. rewrite N2. cbn [blive bcells]. rewrite La. cbn [bind].
    assert (Lf : length (firstn (snd a) (bcells k)) = snd a) by (rewrite firstn_length; lia).
    cbn [bcells]. replace (Nat.leb (snd a + size t) (length cs)) with true.
    + f_equal. unfold cs. rewrite skipn_app, Lf, Nat.sub_diag, skipn_all2 by lia. cbn [app skipn]. rewrite firstn_app, Lv, Nat.sub_diag, firstn_O, app_nil_r. apply firstn_all2. lia.
    + symmetry. apply Nat.leb_le. unfold cs. rewrite !app_length, Lf. lia.
  - intros b Rb Db. destruct (reach_live _ _ _ C' Rb) as (kb & Nb & Lb). rewrite recell_nth in Nb. destruct (Nat.eq_dec b (fst a)); [congruence|].
    destruct (nth_error m1 b) as [kb1|] eqn:Nb1.
    + rewrite <- (incs_view _ _ _ I b). destruct (decs_keeps _ _ _ _ D2 _ _ Nb1) as (kb' & Nb' & Eb & Lb'). rewrite Nb in Nb'. injection Nb' as <-.
      unfold view, getBlock. rewrite recell_nth. destruct (Nat.eq_dec b (fst a)); [congruence|]. rewrite Nb, Nb1, Lb, (Lb' Lb). cbn [bind]. now rewrite Eb.
    + exfalso. assert (X : forall f mm ll mm', decs f mm ll = Ok mm' -> nth_error mm b = None -> nth_error mm' b = None).
      { clear. induction f as [|f IH]; intros mm [|x ll] mm'; cbn [decs]; try discriminate; try (now intros [= <-]).
        destruct (getBlock mm x) as [kx| |] eqn:G; cbn [bind]; try discriminate. destruct (getBlock_nth _ _ _ G) as [N _]. destruct (bcnt kx); [|apply IH].
        destruct (_ =? 1); intros E0 N0; (refine (IH _ _ _ E0 _)); (rewrite setNth_other; [exact N0|congruence]). }
      rewrite (X _ _ _ _ D2 Nb1) in Nb. discriminate.
Qed.
