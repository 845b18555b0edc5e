(** Proofs about callbacks of released blocks. *)
From Coq Require Import ZArith Lia Bool List Permutation.
From Verif Require Import Base OnFreeModel OnFreeSpec.
Import ListNotations.
Local Open Scope Z_scope.

Section P.
Variables (children : Z -> list Z) (onFree : Z -> option (list cmd)).
Notation loop_ := (loop children onFree).

(** Reads. *)
Definition goodEv (e : event) : Prop := match e with ERead p v O => v = p | _ => True end.
Definition goodTr (st : state) : Prop := Forall goodEv (s_trace st).
Lemma reads_cmds dec p l : (forall q st st', goodTr st -> dec q st = Ok st' -> goodTr st') ->
  forall k st st', goodTr st -> (k = O -> s_slot st = p) -> runCmds dec p k l st = Ok st' -> goodTr st'.
Proof.
  intros D. induction l as [|[|q|q] l IH]; intros k st st' G S H; cbn [runCmds] in H.
  - injection H as <-. auto.
  - eapply IH; [| |exact H]; [|exact S]. unfold goodTr. cbn. apply Forall_app. split; auto. constructor; auto. destruct k; cbn; auto.
  - destruct (s_rc st q <=? 0); try discriminate. eapply IH; [| |exact H]; [exact G|exact S].
  - destruct (dec q st) as [st1| |] eqn:E; try discriminate. cbn [bind] in H. eapply IH; [| |exact H]; [eauto|discriminate].
Qed.
Lemma reads_chunk dec p st st' : (forall q st st', goodTr st -> dec q st = Ok st' -> goodTr st') ->
  goodTr st -> chunkDec onFree dec p st = Ok st' -> goodTr st'.
Proof.
  intros D G H. unfold chunkDec in H. destruct (s_rc st p <=? 0); try discriminate.
  destruct (onFree p) as [l|]; [destruct (s_rc st p =? 1)|]; cbn [bind] in H; try (injection H as <-; exact G).
  destruct (runCmds _ _ _ _ _) as [st1| |] eqn:E; try discriminate. cbn [bind] in H. injection H as <-.
  eapply reads_cmds in E; eauto. unfold goodTr. cbn. apply Forall_app. split; auto. repeat constructor.
Qed.
Lemma reads_loop n : forall st st', goodTr st -> loop_ n st = Ok st' -> goodTr st'.
Proof.
  induction n as [|n IH]; intros st st' G H; cbn [loop] in H; try discriminate.
  destruct (s_cands st) as [|[p|p] r] eqn:C.
  - injection H as <-. auto.
  - destruct (1 <? s_rc st p).
    + destruct (chunkDec _ _ _ _) as [st1| |] eqn:E; try discriminate. cbn [bind] in H.
      eapply IH; [|exact H]. eapply reads_chunk; [|exact (G : goodTr (setCands st r))|exact E]. intros q s1 s2 G1 H1; refine (IH _ _ _ H1); exact G1.
    + eapply IH; [|exact H]. exact G.
  - destruct (chunkDec _ _ _ _) as [st1| |] eqn:E; try discriminate. cbn [bind] in H.
    eapply IH; [|exact H]. eapply reads_chunk; [|exact (G : goodTr (setCands st r))|exact E]. intros q s1 s2 G1 H1; refine (IH _ _ _ H1); exact G1.
Qed.

(** Releases with callbacks that only look. *)
Hypothesis Hpass : passive onFree.
Definition ptr (c : cand) : Z := match c with Child p | Deferred p => p end.
Definition defs (l : list cand) : list Z := flat_map (fun c => match c with Deferred p => [p] | _ => [] end) l.
Definition cb (p : Z) : bool := match onFree p with Some _ => true | None => false end.
Definition pend (q : Z) (l : list cand) : Z := times q (map ptr l).

Lemma times_cons q x a : times q (x :: a) = one x q + times q a.
Proof. reflexivity. Qed.
Lemma times_nil q : times q [] = 0.
Proof. reflexivity. Qed.
Lemma times_app q a b : times q (a ++ b) = times q a + times q b.
Proof. induction a as [|x a IH]; cbn [app]; rewrite ?times_cons, ?times_nil; lia. Qed.
Lemma times_rev q a : times q (rev a) = times q a.
Proof. induction a as [|x a IH]; auto. cbn [rev]. rewrite times_app, IH, !times_cons, times_nil. lia. Qed.
Lemma defs_app a b : defs (a ++ b) = defs a ++ defs b.
Proof. apply flat_map_app. Qed.
Lemma defs_children l : defs (rev (map Child l)) = [].
Proof. induction l as [|x l IH]; cbn; auto. rewrite defs_app, IH. reflexivity. Qed.
Lemma pend_expand q p r : pend q (rev (map Child (children p)) ++ Deferred p :: r) = times q (children p) + one p q + pend q r.
Proof.
  unfold pend. rewrite map_app, times_app, map_rev, times_rev, map_map. cbn [ptr map]. rewrite map_id, times_cons. lia.
Qed.
Lemma pend_cons q c r : pend q (c :: r) = one (ptr c) q + pend q r.
Proof. reflexivity. Qed.
Lemma held_cons q f l : held children q (f :: l) = times q (children f) + held children q l.
Proof. reflexivity. Qed.
Lemma calls_app a b : calls_of (a ++ b) = calls_of a ++ calls_of b.
Proof. apply flat_map_app. Qed.

Lemma passive_cmds dec p l : Forall (fun c => c = CRead) l -> forall k st, exists t,
  runCmds dec p k l st = Ok (MkSt (s_rc st) (s_cands st) (s_slot st) (s_trace st ++ t)) /\ calls_of t = [].
Proof.
  induction 1 as [|c l -> _ IH]; intros k st; cbn [runCmds].
  - exists []. rewrite app_nil_r. destruct st; auto.
  - destruct (IH k (log st (ERead p (s_slot st) k))) as (t & E & C). exists (ERead p (s_slot st) k :: t).
    rewrite E. cbn. rewrite <- app_assoc. auto.
Qed.
Lemma passive_chunk dec p st st' : chunkDec onFree dec p st = Ok st' ->
  0 < s_rc st p /\ s_rc st' = upd (s_rc st) p (s_rc st p - 1) /\ s_cands st' = s_cands st /\
  exists t, s_trace st' = s_trace st ++ t /\ calls_of t = if cb p && (s_rc st p =? 1) then [p] else [].
Proof.
  unfold chunkDec, cb. intros H. destruct (s_rc st p <=? 0) eqn:Z; try discriminate. apply Z.leb_gt in Z.
  destruct (onFree p) as [l|] eqn:F; [destruct (s_rc st p =? 1) eqn:R|]; cbn [bind] in H.
  - destruct (passive_cmds dec p l (Hpass _ _ F) 0 (log (setSlot st p) (ECall p))) as (t & E & C). rewrite E in H. cbn [bind] in H.
    injection H as <-. cbn. repeat split; auto. exists (ECall p :: t). rewrite <- app_assoc. split; auto. change (p :: calls_of t = [p]). rewrite C. auto.
  - injection H as <-. cbn. repeat split; auto. exists []. rewrite app_nil_r. auto.
  - injection H as <-. cbn. repeat split; auto. exists []. rewrite app_nil_r. auto.
Qed.

Lemma upd_same f p v : upd f p v p = v.
Proof. unfold upd. rewrite Z.eqb_refl. auto. Qed.
Lemma upd_other f p v q : q <> p -> upd f p v q = f q.
Proof. unfold upd. intros. destruct (Z.eqb_spec q p); congruence. Qed.
Lemma upd_one f p q : upd f p (f p - 1) q = f q - one p q.
Proof. unfold upd, one. rewrite (Z.eqb_sym p q). destruct (Z.eqb_spec q p); subst; lia. Qed.
Lemma one_nn p q : 0 <= one p q <= 1.
Proof. unfold one. destruct (p =? q); lia. Qed.
Lemma one_refl p : one p p = 1.
Proof. unfold one. rewrite Z.eqb_refl. auto. Qed.
Lemma one_ne p q : p <> q -> one p q = 0.
Proof. unfold one. intros. destruct (Z.eqb_spec p q); congruence. Qed.

Lemma loop_ok n : forall st st', loop_ n st = Ok st' -> (forall p, In p (defs (s_cands st)) -> s_rc st p <= 1) ->
  exists E t,
    (forall q, s_rc st' q = s_rc st q - pend q (s_cands st) - held children q E) /\
    (forall q, (s_rc st q <= 0 -> s_rc st' q = s_rc st q) /\ (0 < s_rc st q -> 0 <= s_rc st' q)) /\
    NoDup (defs (s_cands st) ++ E) /\
    (forall q, In q (defs (s_cands st) ++ E) <-> 0 < s_rc st q /\ s_rc st' q = 0) /\
    s_trace st' = s_trace st ++ t /\ Permutation (calls_of t) (filter cb (defs (s_cands st) ++ E)).
Proof.
  induction n as [|n IH]; intros st st' H P; cbn [loop] in H; try discriminate.
  destruct (s_cands st) as [|[p|p] r] eqn:C.
  - injection H as <-. exists [], []. cbn. rewrite app_nil_r. repeat split; auto; try constructor; intros; try lia; tauto.
  - destruct (1 <? s_rc st p) eqn:R.
    + apply Z.ltb_lt in R. destruct (chunkDec _ _ _ _) as [st1| |] eqn:D; try discriminate. cbn [bind] in H.
      destruct (passive_chunk _ _ _ _ D) as (_ & RC & CA & t0 & T0 & L0). cbn [setCands s_rc s_cands s_trace] in RC, CA, T0, L0.
      assert (X : forall q, s_rc st1 q = s_rc st q - one p q) by (intros q; rewrite RC; apply upd_one).
      destruct (IH _ _ H) as (E & t & A & B & N & I & T & L); rewrite CA in *.
      { intros q Q. rewrite X. specialize (P q Q). pose proof (one_nn p q). lia. }
      exists E, (t0 ++ t). cbn [defs flat_map app] in *. fold (defs r) in *.
      assert (Y : forall q, 0 < s_rc st q <-> 0 < s_rc st1 q).
      { intros q. rewrite X. destruct (Z.eq_dec p q) as [<-|Q]; [rewrite one_refl; lia|rewrite (one_ne _ _ Q); lia]. }
      repeat split; auto.
      * intros q. rewrite A, X, pend_cons. cbn [ptr]. lia.
      * intros Q. assert (p <> q) by (intros ->; lia). destruct (B q) as [B1 _]. rewrite B1; rewrite X, (one_ne p q); auto; lia.
      * intros Q. apply (B q). apply Y. auto.
      * apply Y, I. auto.
      * apply I. auto.
      * intros [Q1 Q2]. apply I. split; auto. apply Y; auto.
      * rewrite T, T0, app_assoc. auto.
      * rewrite calls_app, L0. destruct (Z.eqb_spec (s_rc st p) 1); [lia|]. rewrite andb_false_r. exact L.
    + apply Z.ltb_ge in R.
      destruct (IH _ _ H) as (E & t & A & B & N & I & T & L); cbn [setCands s_cands s_rc s_trace] in *.
      { rewrite defs_app, defs_children. cbn. intros q [<-|Q]; auto. }
      rewrite defs_app, defs_children in *. cbn [app defs flat_map] in N, I, L. fold (defs r) in *.
      assert (M : Permutation (p :: defs r ++ E) (defs r ++ p :: E)) by apply Permutation_middle.
      exists (p :: E), t. cbn [defs flat_map app]. fold (defs r). repeat split; auto.
      * intros q. rewrite A, pend_expand, pend_cons, held_cons. cbn [ptr]. lia.
      * apply B.
      * apply B.
      * eapply Permutation_NoDup; eauto.
      * apply I. eapply Permutation_in; [apply Permutation_sym; exact M|auto].
      * apply I. eapply Permutation_in; [apply Permutation_sym; exact M|auto].
      * intros Q. eapply Permutation_in; [exact M|]. apply I. auto.
      * eapply Permutation_trans; [exact L|].
        clear - M. induction M; cbn; auto; repeat match goal with |- context [cb ?x] => destruct (cb x) end; eauto using Permutation.
  - destruct (chunkDec _ _ _ _) as [st1| |] eqn:D; try discriminate. cbn [bind] in H.
    destruct (passive_chunk _ _ _ _ D) as (R0 & RC & CA & t0 & T0 & L0). cbn [setCands s_rc s_cands s_trace] in R0, RC, CA, T0, L0.
    assert (R1 : s_rc st p = 1) by (specialize (P p (or_introl eq_refl)); lia).
    assert (X : forall q, s_rc st1 q = s_rc st q - one p q) by (intros q; rewrite RC; apply upd_one).
    destruct (IH _ _ H) as (E & t & A & B & N & I & T & L); rewrite CA in *.
    { intros q Q. rewrite X. specialize (P q (or_intror Q)). pose proof (one_nn p q). lia. }
    assert (Z0 : s_rc st1 p = 0) by (rewrite X, one_refl; lia).
    assert (Z1 : s_rc st' p = 0) by (destruct (B p) as [B1 _]; rewrite B1; lia).
    exists E, (t0 ++ t). cbn [defs flat_map app]. fold (defs r). repeat split; auto.
    + intros q. rewrite A, X, pend_cons. cbn [ptr]. lia.
    + intros Q. assert (p <> q) by (intros ->; lia). destruct (B q) as [B1 _]. rewrite B1; rewrite X, (one_ne p q); auto; lia.
    + intros Q. destruct (Z.eq_dec p q) as [<-|Q']; [lia|]. apply (B q). rewrite X, (one_ne p q); auto. lia.
    + constructor; auto. intros Q. apply I in Q. lia.
    + destruct H0 as [<-|Q]; [lia|]. apply I in Q. rewrite X in Q. pose proof (one_nn p q). lia.
    + destruct H0 as [<-|Q]; [lia|]. apply I in Q. tauto.
    + intros [Q1 Q2]. destruct (Z.eq_dec p q) as [<-|Q']; [left; auto|right]. apply I. rewrite X, (one_ne p q); auto. lia.
    + rewrite T, T0, app_assoc. auto.
    + rewrite calls_app, L0, R1. cbn [Z.eqb Pos.eqb]. rewrite andb_true_r. cbn [filter]. destruct (cb p); cbn; auto.
Qed.

Lemma release_ok n p st st' : decRef children onFree n p st = Ok st' ->
  exists t, s_trace st' = s_trace st ++ t /\ released children onFree p (s_rc st) (s_rc st') (calls_of t).
Proof.
  intros H. apply loop_ok in H; [|intros q []].
  destruct H as (E & t & A & B & N & I & T & L). cbn in *. exists t. split; auto. exists E. repeat split; auto.
  - intros q. rewrite A. unfold pend. cbn. lia.
  - apply I. auto.
  - apply I. auto.
  - apply I.
  - eapply Permutation_NoDup; [apply Permutation_sym; exact L|]. apply NoDup_filter. auto.
  - eapply Permutation_in in H; [|exact L]. apply filter_In in H. tauto.
  - eapply Permutation_in in H; [|exact L]. apply filter_In in H. unfold cb in H. destruct (onFree q); [congruence|destruct H; discriminate].
  - intros [Q1 Q2]. eapply Permutation_in; [apply Permutation_sym; exact L|]. apply filter_In. split; auto. unfold cb. destruct (onFree q); congruence.
Qed.

(** With counts that agree with the references a release comes to its end. *)
Lemma chunk_runs dec p st : 0 < s_rc st p -> exists st', chunkDec onFree dec p st = Ok st'.
Proof.
  intros H. unfold chunkDec. destruct (Z.leb_spec (s_rc st p) 0); [lia|].
  destruct (onFree p) as [l|] eqn:F; [destruct (s_rc st p =? 1)|]; cbn [bind]; eauto.
  destruct (passive_cmds dec p l (Hpass _ _ F) 0 (log (setSlot st p) (ECall p))) as (t & -> & _). cbn [bind]. eauto.
Qed.
Lemma times_nn q l : 0 <= times q l.
Proof. induction l as [|x l IH]; [rewrite times_nil; lia|]. rewrite times_cons. pose proof (one_nn x q). lia. Qed.
Lemma held_nn q l : 0 <= held children q l.
Proof. induction l as [|x l IH]; [cbn; lia|]. rewrite held_cons. pose proof (times_nn q (children x)). lia. Qed.
Lemma held_app q a b : held children q (a ++ b) = held children q a + held children q b.
Proof. induction a as [|x a IH]; [reflexivity|]. cbn [app]. rewrite !held_cons, IH. lia. Qed.
Lemma pend_nn q l : 0 <= pend q l.
Proof. apply times_nn. Qed.
Lemma pend_defs q l : In q (defs l) -> 1 <= pend q l.
Proof.
  induction l as [|c l IH]; [intros []|]. rewrite pend_cons. intros H. pose proof (one_nn (ptr c) q). pose proof (pend_nn q l).
  destruct c as [p|p]; cbn [defs flat_map app] in H; fold (defs l) in H.
  - specialize (IH H). lia.
  - destruct H as [->|H]; [cbn [ptr]; rewrite one_refl; lia|specialize (IH H); lia].
Qed.
Fixpoint weight (l : list Z) : nat := match l with [] => O | p :: l' => (S (length (children p)) + weight l')%nat end.
Lemma weight_app a b : weight (a ++ b) = (weight a + weight b)%nat.
Proof. induction a as [|x a IH]; cbn [app weight]; [reflexivity|rewrite IH; lia]. Qed.

Lemma loop_runs ext n : (forall q, 0 <= ext q) -> forall A st, (weight A + length (s_cands st) < n)%nat -> NoDup A ->
  (forall q, s_rc st q = ext q + pend q (s_cands st) + held children q A) ->
  (forall q, In q (defs (s_cands st)) -> s_rc st q <= 1) ->
  (forall q, 0 < s_rc st q -> In q A \/ In q (defs (s_cands st))) ->
  exists A' st', loop_ n st = Ok st' /\ counted children A' ext (s_rc st') /\ incl A' A.
Proof.
  intros EX. induction n as [|n IH]; intros A st W ND RC D1 LV; [lia|]. cbn [loop].
  destruct (s_cands st) as [|[p|p] r] eqn:C.
  - exists A, st. split; [reflexivity|]. split; [|apply incl_refl]. repeat split; auto.
    + intros q. rewrite RC. unfold pend. cbn. lia.
    + intros q H. destruct (LV q H) as [I|[]]. auto.
  - assert (R1 : 1 <= s_rc st p).
    { rewrite RC, pend_cons. cbn [ptr]. rewrite one_refl. pose proof (EX p). pose proof (pend_nn p r). pose proof (held_nn p A). lia. }
    destruct (Z.ltb_spec 1 (s_rc st p)) as [R|R].
    + destruct (chunk_runs (fun q st0 => loop_ n (setCands st0 [Child q])) p (setCands st r)) as (st1 & E); [cbn; lia|].
      rewrite E. cbn [bind]. destruct (passive_chunk _ _ _ _ E) as (_ & RC1 & CA & _). cbn [setCands s_rc s_cands] in RC1, CA.
      assert (X : forall q, s_rc st1 q = s_rc st q - one p q) by (intros q; rewrite RC1; apply upd_one).
      apply IH; rewrite ?CA; auto.
      * cbn [length] in W. lia.
      * intros q. rewrite X, RC, pend_cons. cbn [ptr]. lia.
      * intros q Q. rewrite X. specialize (D1 q Q). pose proof (one_nn p q). lia.
      * intros q Q. rewrite X in Q. apply LV. pose proof (one_nn p q). lia.
    + assert (NI : ~ In p (defs r)).
      { intros Q. apply pend_defs in Q. rewrite RC, pend_cons in R. cbn [ptr] in R. rewrite one_refl in R. pose proof (EX p). pose proof (held_nn p A). lia. }
      assert (IA : In p A) by (destruct (LV p) as [I|I]; [lia|auto|contradiction]).
      apply in_split in IA. destruct IA as (a & b & ->).
      destruct (IH (a ++ b) (setCands st (rev (map Child (children p)) ++ Deferred p :: r))) as (A' & st' & E & K & I); cbn [setCands s_cands s_rc].
      * rewrite weight_app in *. cbn [weight] in W. rewrite app_length, rev_length, map_length. cbn [length] in *. lia.
      * eapply NoDup_remove_1; eauto.
      * intros q. rewrite pend_expand, RC, pend_cons, !held_app, held_cons. cbn [ptr]. lia.
      * rewrite defs_app, defs_children. cbn. intros q [<-|Q]; auto.
      * rewrite defs_app, defs_children. cbn [app defs flat_map]. fold (defs r). intros q Q.
        destruct (LV q Q) as [J|J]; [|right; right; exact J]. apply in_app_or in J. destruct J as [J|[J|J]].
        -- left. apply in_or_app. auto.
        -- right. left. auto.
        -- left. apply in_or_app. auto.
      * exists A', st'. split; [exact E|]. split; [exact K|]. intros q Q. specialize (I q Q). apply in_app_or in I. apply in_or_app. cbn [In]. tauto.
  - assert (R1 : 1 <= s_rc st p).
    { rewrite RC, pend_cons. cbn [ptr]. rewrite one_refl. pose proof (EX p). pose proof (pend_nn p r). pose proof (held_nn p A). lia. }
    destruct (chunk_runs (fun q st0 => loop_ n (setCands st0 [Child q])) p (setCands st r)) as (st1 & E); [cbn; lia|].
    rewrite E. cbn [bind]. destruct (passive_chunk _ _ _ _ E) as (_ & RC1 & CA & _). cbn [setCands s_rc s_cands] in RC1, CA.
    assert (X : forall q, s_rc st1 q = s_rc st q - one p q) by (intros q; rewrite RC1; apply upd_one).
    assert (R2 : s_rc st p <= 1) by (apply D1; left; reflexivity).
    apply IH; rewrite ?CA; auto.
    + cbn [length] in W. lia.
    + intros q. rewrite X, RC, pend_cons. cbn [ptr]. lia.
    + intros q Q. rewrite X. specialize (D1 q (or_intror Q)). pose proof (one_nn p q). lia.
    + intros q Q. rewrite X in Q. destruct (Z.eq_dec p q) as [<-|N]; [rewrite one_refl in Q; lia|].
      rewrite (one_ne _ _ N) in Q. destruct (LV q) as [J|[J|J]]; auto; [lia|contradiction].
Qed.
Lemma release_runs blocks roots p st : counted children blocks roots (s_rc st) -> 0 < roots p ->
  exists N, forall n, (N <= n)%nat -> exists blocks' st', decRef children onFree n p st = Ok st' /\ incl blocks' blocks /\
    counted children blocks' (fun q => roots q - one p q) (s_rc st').
Proof.
  intros (ND & R0 & RC & LV) RP. exists (S (S (weight blocks))). intros n L.
  destruct (loop_runs (fun q => roots q - one p q) n) with (A := blocks) (st := setCands st [Child p]) as (A' & st' & E & K & I);
    cbn [setCands s_cands s_rc length]; auto; try lia.
  - intros q. destruct (Z.eq_dec p q) as [<-|N]; [rewrite one_refl; lia|rewrite (one_ne _ _ N); specialize (R0 q); lia].
  - intros q. rewrite RC. unfold pend. cbn [map ptr]. rewrite times_cons, times_nil. lia.
  - intros q [].
  - exists A', st'. auto.
Qed.
End P.
