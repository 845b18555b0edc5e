(** Proofs about for-in loops over sequences. *)
From Coq Require Import ZArith Lia Bool List Permutation Sorted.
From Verif Require Import Base LoopModel LoopSpec.
Import ListNotations.
Local Open Scope Z_scope.

Lemma exec_app p q c : exec (p ++ q) c = let* c := exec p c in exec q c.
Proof.
  revert c. induction p as [|i p IH]; intros c; [reflexivity|]. cbn [app exec].
  destruct (step i c) as [c'| |]; cbn [bind]; [apply IH|reflexivity|reflexivity].
Qed.
Lemma holds_load u p v l : holds u p v -> load l u p = Ok v.
Proof.
  intros [n|b i w E|m k w E]; cbn [load]; [reflexivity| |now rewrite E].
  unfold itemAt. destruct (Z.of_nat i <? 0) eqn:F; [apply Z.ltb_lt in F; lia|]. now rewrite Nat2Z.id, E.
Qed.
Lemma itemAt_nat l k v : nth_error l k = Some v -> itemAt l (Z.of_nat k) = Ok v.
Proof. intros E. unfold itemAt. destruct (Z.of_nat k <? 0) eqn:F; [apply Z.ltb_lt in F; lia|]. now rewrite Nat2Z.id, E. Qed.

(** What #collection holds during the loop. *)
Definition collOk (d : loop) (b n : nat) (v : value) : Prop :=
  match lcoll d with
  | KArr _ => v = VRef (PBlock b)
  | KDyn => v = VDyn (Some b) \/ v = VDyn None /\ n = O
  | KStr => v = VStr (Some b) \/ v = VStr None /\ n = O
  | _ => False
  end.
Definition ready (d : loop) (b n : nat) (l : vars) : Prop :=
  l VLen = VInt (Z.of_nat n) /\ (litem d = true -> collOk d b n (l VColl)).

Ltac run := cbn [exec step bind structured itemKind itemZero isMap isArr loadPtr load app orb lcoll lderef litem lptr lkind lzero setVar lvarEq].

Lemma header_ok d u b n e (l : vars) : denotes d u b n e -> check d = Ok tt ->
  exists l' : vars, exec (header d) ([e], l, u) = Ok ([], l', u) /\ ready d b n l' /\ l' VIdx = VInt 0.
Proof.
  intros D C. destruct d as [c df it pt k z]. unfold header.
  assert (T : forall l0 : vars, exists l', exec (if it then [IZero VItem (itemZero (Loop c df it pt k z))] else []) ([], l0, u) = Ok ([], l', u)
     /\ l' VLen = l0 VLen /\ l' VColl = l0 VColl /\ l' VIdx = l0 VIdx).
  { intros l0. destruct it; eexists; (split; [reflexivity|]); repeat split; reflexivity. }
  destruct D as [E L|p o E H L|o E F B L|p o E F B H L]; cbn [lcoll lderef litem lptr lkind lzero] in *; subst c; unfold ready, collOk; cbn [lcoll litem].
  - destruct df; cbn [isMap isArr orb app]; rewrite orb_false_r.
    + destruct it; run; eexists; (split; [reflexivity|]); repeat split; try reflexivity; discriminate.
    + destruct it; run; eexists; (split; [reflexivity|]); repeat split; try reflexivity; discriminate.
  - assert (N : blkLen u o = Z.of_nat n) by (destruct L as [[-> <-]|[-> ->]]; reflexivity).
    assert (Q : o = Some b \/ o = None /\ n = O) by (destruct L as [[? ?]|[? ?]]; auto). clear L.
    cbn [isMap isArr orb app]; rewrite orb_false_r.
    destruct df, it; run; unfold doLen; cbn [loadPtr bind]; rewrite ?(holds_load u p _ _ H); cbn [bind]; run; rewrite ?(holds_load u p _ _ H);
      cbn [bind]; eexists; (split; [reflexivity|]); repeat split; cbn; rewrite ?N; try reflexivity; try discriminate; intros _;
      destruct Q as [-> |[-> ->]]; auto.
  - assert (N : blkLen u o = Z.of_nat n) by (destruct L as [[-> <-]|[-> ->]]; reflexivity).
    assert (Q : o = Some b \/ o = None /\ n = O) by (destruct L as [[? ?]|[? ?]]; auto). clear L. subst df.
    cbn [isMap isArr orb app]; rewrite orb_false_r.
    destruct it; run; unfold doLen; cbn [bind]; run; eexists; (split; [reflexivity|]); repeat split; cbn; rewrite ?N; try reflexivity; try discriminate; intros _;
      destruct Q as [-> |[-> ->]]; auto.
  - assert (N : blkLen u o = Z.of_nat n) by (destruct L as [[-> <-]|[-> ->]]; reflexivity).
    assert (Q : o = Some b \/ o = None /\ n = O) by (destruct L as [[? ?]|[? ?]]; auto). clear L. subst df.
    cbn [isMap isArr orb app]; rewrite orb_false_r.
    destruct it; run; rewrite ?(holds_load u p _ _ H); run; unfold doLen; cbn [bind]; run; eexists; (split; [reflexivity|]); repeat split; cbn; rewrite ?N;
      try reflexivity; try discriminate; intros _; destruct Q as [-> |[-> ->]]; auto.
Qed.

Lemma cond_ok (l : vars) u i n : l VIdx = VInt i -> l VLen = VInt n -> exec cond ([], l, u) = Ok ([VInt (if i <? n then 1 else 0)], l, u).
Proof. intros A B. unfold cond. run. rewrite A. run. rewrite B. run. reflexivity. Qed.
Lemma next_ok (l : vars) u i : l VIdx = VInt i -> i < INT_MAX -> exec next ([], l, u) = Ok ([], setVar l VIdx (VInt (i + 1)), u).
Proof. intros A B. unfold next. run. rewrite A. apply Z.ltb_lt in B. rewrite B. reflexivity. Qed.

(** Fetching the item at index [k]. *)
Definition lenOk (d : loop) (b n : nat) (u : mem) : Prop := lcoll d = KDyn \/ (n <= length (mblk u b))%nat.
Definition smallStr (d : loop) (n : nat) : Prop := match lcoll d with KStr => Z.of_nat n <= 2147483647 | KArr z => z = Z.of_nat n | _ => True end.

Lemma fetch_ok d b n (l : vars) u k : check d = Ok tt -> isMap (lcoll d) = false -> (litem d = true -> collOk d b n (l VColl)) -> lenOk d b n u -> smallStr d n ->
  l VIdx = VInt (Z.of_nat k) -> (k < n)%nat ->
  match shown d b k u with
  | Some x => exists l' : vars, exec (fetch d) ([], l, u) = Ok ([], l', u) /\ (litem d = true -> l' VItem = x) /\ (litem d = false -> x = VNull)
                         /\ l' VIdx = l VIdx /\ l' VLen = l VLen /\ l' VColl = l VColl
  | None => exec (fetch d) ([], l, u) = Err EIndex
  end.
Proof.
  intros C M Co Le Sm Ix Lt. destruct d as [c df it pt kd z]. unfold shown, fetch. cbn [lcoll litem lptr lkind lzero] in *. rewrite M.
  destruct it; [|exists l; cbn; repeat split; congruence].
  specialize (Co eq_refl). unfold collOk, lenOk, smallStr in *. cbn [lcoll] in *.
  assert (K0 : Z.of_nat k <? 0 = false) by (apply Z.ltb_ge; lia).
  destruct c; try discriminate M; try contradiction Co.
  - destruct Le as [Le|Le]; [discriminate|]. cbn [check lcoll lptr] in C.
    destruct pt; [discriminate|].
    destruct (nth_error (mblk u b) k) as [v|] eqn:E; [|apply nth_error_None in E; lia].
    destruct Co as [Co|[_ Co]]; [|lia].
    eexists. split.
    + run. rewrite Co. run. rewrite Ix. run. rewrite K0. cbn [orb].
      destruct (2147483647 - 1 <? Z.of_nat k) eqn:F; [apply Z.ltb_lt in F; lia|]. run. rewrite (itemAt_nat _ _ _ E). run. reflexivity.
    + cbn. repeat split; try reflexivity. discriminate.
  - destruct Le as [Le|Le]; [discriminate|]. subst n0.
    destruct (nth_error (mblk u b) k) as [v|] eqn:E; [|apply nth_error_None in E; lia].
    destruct pt.
    + eexists. split.
      * run. rewrite Co. run. rewrite Ix. run. rewrite K0. cbn [orb].
        destruct (Z.of_nat n - 1 <? Z.of_nat k) eqn:F; [apply Z.ltb_lt in F; lia|]. run. reflexivity.
      * cbn. repeat split; try reflexivity. discriminate.
    + eexists. split.
      * run. rewrite Co. run. rewrite Ix. run. rewrite K0. cbn [orb].
        destruct (Z.of_nat n - 1 <? Z.of_nat k) eqn:F; [apply Z.ltb_lt in F; lia|]. run.
        destruct (structured kd) eqn:Sk; run; rewrite ?Sk; run; rewrite (itemAt_nat _ _ _ E); run; rewrite ?Sk; run; reflexivity.
      * cbn. repeat split; try reflexivity. discriminate.
  - destruct Co as [Co|[_ Co]]; [|lia].
    destruct (nth_error (mblk u b) k) as [v|] eqn:E.
    + assert (F : blkLen u (Some b) - 1 <? Z.of_nat k = false).
      { apply Z.ltb_ge. unfold blkLen. assert (nth_error (mblk u b) k <> None) by congruence. apply nth_error_Some in H. lia. }
      destruct pt.
      * eexists. split.
        -- run. rewrite Ix. run. rewrite Co. run. rewrite K0. cbn [orb]. rewrite F. run. reflexivity.
        -- cbn. repeat split; try reflexivity. discriminate.
      * eexists. split.
        -- run. rewrite Ix. run. rewrite Co. run. rewrite K0. cbn [orb]. rewrite F. run.
           destruct (structured kd) eqn:Sk; run; rewrite ?Sk; run; rewrite (itemAt_nat _ _ _ E); run; rewrite ?Sk; run; reflexivity.
        -- cbn. repeat split; try reflexivity. discriminate.
    + assert (F : blkLen u (Some b) - 1 <? Z.of_nat k = true).
      { apply Z.ltb_lt. unfold blkLen. apply nth_error_None in E. lia. }
      run. rewrite Ix. run. rewrite Co. run. rewrite K0. cbn [orb]. rewrite F. reflexivity.
Qed.

Lemma shown_item d b k u x : shown d b k u = Some x -> litem d = false -> x = VNull.
Proof. unfold shown. intros E F. rewrite F in E. now injection E as <-. Qed.

Lemma iter_ok d mb s b n : check d = Ok tt -> isMap (lcoll d) = false -> smallStr d n -> does mb s -> keepsLen d b s -> Z.of_nat n <= INT_MAX ->
  forall m k fuel (l : vars) u, (k + m = n)%nat -> (m < fuel)%nat -> ready d b n l -> l VIdx = VInt (Z.of_nat k) -> lenOk d b n u ->
  iter d mb fuel l u = visits d b s k m u.
Proof.
  intros C M Sm Do Ke Hn. induction m as [|m IH]; intros k fuel l u Km Fu [R1 R2] Ix Le; (destruct fuel as [|fuel]; [lia|]); cbn [iter visits];
    rewrite (cond_ok _ _ _ _ Ix R1); cbn [bind].
  - destruct (Z.of_nat k <? Z.of_nat n) eqn:E; [apply Z.ltb_lt in E; lia|]. reflexivity.
  - destruct (Z.of_nat k <? Z.of_nat n) eqn:E; [|apply Z.ltb_ge in E; lia].
    assert (Lt : (k < n)%nat) by lia. cbn match.
    pose proof (fetch_ok d b n l u k C M R2 Le Sm Ix Lt) as F.
    destruct (shown d b k u) as [x|] eqn:Sh; [|now rewrite F].
    destruct F as (l' & F1 & F2 & F3 & F4 & F5 & F6). rewrite F1. cbn [bind].
    unfold nameVar. rewrite M. rewrite F4, Ix.
    assert (X : (if litem d then l' VItem else VNull) = x) by (destruct (litem d); [now apply F2|now rewrite F3]).
    rewrite X. specialize (Do (Z.of_nat k) x u). destruct (s (Z.of_nat k) x u) as [[u' f]| e |] eqn:Sx.
    + destruct Do as [x' ->]. cbn [bind after].
      assert (I : setVar (setVar l' VIdx (VInt (Z.of_nat k))) VItem x' VIdx = VInt (Z.of_nat k)) by reflexivity.
      assert (Le' : lenOk d b n u').
      { destruct Le as [Le|Le]; [now left|]. destruct Ke as [Ke|Ke]; [now left|]. right. specialize (Ke _ _ _ _ _ Sx). lia. }
      destruct f; try reflexivity.
      * rewrite (next_ok _ _ _ I) by lia. cbn [bind]. apply IH; [lia|lia| |cbn; f_equal; lia|exact Le'].
        split; [exact (eq_trans F5 R1)|]. intros T. cbn. rewrite F6. now apply R2.
      * rewrite (next_ok _ _ _ I) by lia. cbn [bind]. apply IH; [lia|lia| |cbn; f_equal; lia|exact Le'].
        split; [exact (eq_trans F5 R1)|]. intros T. cbn. rewrite F6. now apply R2.
    + rewrite Do. reflexivity.
    + rewrite Do. reflexivity.
Qed.

Lemma denotes_facts d u b n e : denotes d u b n e -> isMap (lcoll d) = false /\ smallStr d n /\ (lenOk d b n u).
Proof.
  intros D. unfold smallStr, lenOk. destruct D as [E L|p o E H L|o E F B L|p o E F B H L]; rewrite E; repeat split; auto; right;
    try (destruct L as [[_ L]|[_ L]]); lia.
Qed.
Theorem forIn_ok d mb s u b n e l fuel : denotes d u b n e -> check d = Ok tt -> does mb s -> keepsLen d b s -> Z.of_nat n <= INT_MAX -> (n < fuel)%nat ->
  forIn d mb fuel l e u = visits d b s 0 n u.
Proof.
  intros D C Do Ke Hn Fu. destruct (denotes_facts _ _ _ _ _ D) as (M & Sm & Le).
  unfold forIn. rewrite C. cbn [bind]. destruct (header_ok d u b n e l D C) as (l' & -> & R & I). cbn [bind].
  apply iter_ok with (n := n); auto.
Qed.

(** If the body leaves the collection alone, it gets exactly its items. *)
Lemma after_eq (P : mem -> Prop) r f g : (forall u fl, r = Ok (u, fl) -> P u) -> (forall u, P u -> f u = g u) -> after r f = after r g.
Proof.
  intros A B. destruct r as [[u fl]| |]; [|reflexivity|reflexivity]. cbn [after].
  destruct fl; try reflexivity; apply B; eapply A; reflexivity.
Qed.
Lemma visits_unchanged d b s items : litem d = true -> lptr d = false ->
  (forall i x u u' f, s i x u = Ok (u', f) -> mblk u' b = mblk u b) ->
  forall l k u, mblk u b = items -> skipn k items = l -> visits d b s k (length l) u = forEach s (numbered k l) u.
Proof.
  intros It Pt Ke. induction l as [|v l IH]; intros k u U Sk; [reflexivity|]. cbn [length visits numbered forEach].
  assert (E : nth_error items k = Some v).
  { rewrite <- (firstn_skipn k items), Sk. assert (length (firstn k items) = k).
    { apply firstn_length_le. destruct (Nat.le_gt_cases k (length items)) as [|G]; [assumption|]. rewrite skipn_all2 in Sk by lia. discriminate. }
    rewrite nth_error_app2, H, Nat.sub_diag by lia. reflexivity. }
  unfold shown. rewrite It, Pt, U, E. apply (after_eq (fun u => mblk u b = items)).
  - intros u' fl Q. rewrite (Ke _ _ _ _ _ Q). exact U.
  - intros u' Q. apply IH; [exact Q|]. 
    clear -Sk. revert l v Sk. generalize items. induction k as [|k IHk]; intros it l v Sk.
    + cbn in Sk. subst it. reflexivity.
    + destruct it as [|w it]; [discriminate|]. cbn [skipn Nat.add] in *. now apply (IHk it l v).
Qed.
(** If it does not make it shorter, no item is missing. *)
Lemma visits_grow d b s n : (forall i x u u' f, s i x u = Ok (u', f) -> (length (mblk u b) <= length (mblk u' b))%nat) ->
  forall m k u, (k + m = n)%nat -> (n <= length (mblk u b))%nat ->
  visits d b s k m u = Err EIndex -> exists k' x' u', (k <= k' < n)%nat /\ s (Z.of_nat k') x' u' = Err EIndex.
Proof.
  intros Ke. induction m as [|m IH]; intros k u Km Le V; [discriminate|]. cbn [visits] in V.
  assert (Sh : exists x, shown d b k u = Some x).
  { unfold shown. destruct (litem d); [|eauto]. destruct (nth_error (mblk u b) k) eqn:E; [eauto|]. apply nth_error_None in E. lia. }
  destruct Sh as [x Sh]. rewrite Sh in V. unfold after in V. destruct (s (Z.of_nat k) x u) as [[u' f]| e |] eqn:Sx.
  - assert (Le' : (n <= length (mblk u' b))%nat) by (specialize (Ke _ _ _ _ _ Sx); lia).
    destruct f; try discriminate; (destruct (IH (k + 1)%nat u' ltac:(lia) Le' V) as (k' & x' & u2 & B1 & B2); exists k', x', u2; split; [lia|exact B2]).
  - exists k, x, u. split; [lia|]. congruence.
  - discriminate.
Qed.
