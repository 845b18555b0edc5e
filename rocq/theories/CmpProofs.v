From Coq Require Import ZArith Lia Bool List.
From Coq Require Import ZifyBool.
From Coq.Floats Require Import SpecFloat.
From Verif Require Import Base NumModel NumSpec NumProofs RealProofs MemModel MemProofs CmpModel CmpSpec.
Import ListNotations.
Local Open Scope Z_scope.
Ltac Zify.zify_post_hook ::= Z.div_mod_to_equations.

Scheme reads_ind2 := Induction for reads Sort Prop
  with reads_items_ind2 := Induction for reads_items Sort Prop.
Combined Scheme reads_mut from reads_ind2, reads_items_ind2.

Lemma vcmp_seq l l' : vcmp (VSeq l) (VSeq l') = lexcmp vcmp l l'.
Proof.
  revert l'. induction l as [|x r IH]; destruct l' as [|y s]; try reflexivity.
  cbn [vcmp lexcmp] in *. destruct (vcmp x y) as [[]|]; try reflexivity. apply IH.
Qed.
Lemma vcmp_dyn l l' : vcmp (VDyn l) (VDyn l') = lexcmp vcmp l l'.
Proof.
  revert l'. induction l as [|x r IH]; destruct l' as [|y s]; try reflexivity.
  cbn [vcmp lexcmp] in *. destruct (vcmp x y) as [[]|]; try reflexivity. apply IH.
Qed.

Fixpoint all_close (l l' : list cval) : Prop :=
  match l, l' with x :: r, y :: s => close x y /\ all_close r s | _, _ => True end.
Lemma close_seq l l' : close (VSeq l) (VSeq l') -> all_close l l'.
Proof.
  revert l'. induction l as [|x r IH]; destruct l' as [|y s]; cbn; try exact (fun _ => I).
  intros [A B]. split; [exact A|]. apply IH. exact B.
Qed.
Lemma close_dyn l l' : close (VDyn l) (VDyn l') -> all_close l l'.
Proof.
  revert l'. induction l as [|x r IH]; destruct l' as [|y s]; cbn; try exact (fun _ => I).
  intros [A B]. split; [exact A|]. apply IH. exact B.
Qed.

Lemma isub_ok w a b : in_s64 (a - b) -> isub w a b = Ok (a - b).
Proof.
  intro H. destruct w; cbn [isub].
  - apply chk64_ok. exact H.
  - rewrite s64_id by exact H. reflexivity.
Qed.

Lemma sub_compare a b : sign_is (a - b) (a ?= b).
Proof. unfold sign_is. destruct (a ?= b) eqn:E; [rewrite Z.compare_eq_iff in E|rewrite Z.compare_lt_iff in E|rewrite Z.compare_gt_iff in E]; [rewrite Z.compare_eq_iff|rewrite Z.compare_lt_iff|rewrite Z.compare_gt_iff]; lia. Qed.

Lemma isub_narrow k a b : kindOrdinal k = true -> k <> KUInt -> k <> KInt -> holds k a -> holds k b -> in_s64 (a - b).
Proof.
  unfold holds, in_range, denote, range, in_s64, INT64_MIN, INT64_MAX, two63.
  intros Hk Hu Hi [A A'] [B B']. destruct k; try discriminate; try congruence; lia.
Qed.

Lemma strcmp_spec m s : forall t p q,
  cstring m p s -> cstring m q t ->
  exists d c, lexcmp (fun x y : Z => Some (x ?= y)) s t = Some c /\ sign_is d c /\
    forall fuel, (length s < fuel)%nat -> strcmp fuel m p q = Ok d.
Proof.
  induction s as [|x s IH]; intros t p q Hs Ht.
  - destruct t as [|y t].
    + cbn in Hs, Ht. exists 0, Eq. repeat split. intros [|f] Hf; [cbn in Hf; lia|]. cbn [strcmp].
      rewrite Hs, Ht. reflexivity.
    + cbn in Hs, Ht. destruct Ht as (E & R & _). exists (-1), Lt. repeat split.
      intros [|f] Hf; [cbn in Hf; lia|]. cbn [strcmp]. rewrite Hs, E.
      destruct (0 =? y) eqn:E0; [lia|]. destruct (0 <? y) eqn:E1; [reflexivity|lia].
  - destruct Hs as (Ex & Rx & Hs). destruct t as [|y t].
    + cbn in Ht. exists 1, Gt. repeat split.
      intros [|f] Hf; [cbn in Hf; lia|]. cbn [strcmp]. rewrite Ex, Ht.
      destruct (x =? 0) eqn:E0; [lia|]. destruct (x <? 0) eqn:E1; [lia|reflexivity].
    + destruct Ht as (Ey & Ry & Ht). cbn [lexcmp]. destruct (x ?= y) eqn:C.
      * apply Z.compare_eq in C. rewrite <- C in Ey. destruct (IH t (p + 1) (q + 1) Hs Ht) as (d & c & L & S & F).
        exists d, c. repeat split; auto. intros [|f] Hf; [cbn in Hf; lia|]. cbn [strcmp].
        rewrite Ex, Ey, Z.eqb_refl. destruct (x =? 0) eqn:E0; [lia|]. apply F. cbn in Hf. lia.
      * rewrite Z.compare_lt_iff in C. exists (-1), Lt. repeat split.
        intros [|f] Hf; [cbn in Hf; lia|]. cbn [strcmp]. rewrite Ex, Ey.
        destruct (x =? y) eqn:E0; [lia|]. destruct (x <? y) eqn:E1; [reflexivity|lia].
      * rewrite Z.compare_gt_iff in C. exists 1, Gt. repeat split.
        intros [|f] Hf; [cbn in Hf; lia|]. cbn [strcmp]. rewrite Ex, Ey.
        destruct (x =? y) eqn:E0; [lia|]. destruct (x <? y) eqn:E1; [lia|reflexivity].
Qed.

Definition is_str (m : mem) (p : Z) (s : list Z) : Prop := (p = 0 /\ s = []) \/ (p <> 0 /\ cstring m p s).

Lemma strcmp_null_spec m p q s t :
  is_str m p s -> is_str m q t ->
  exists d c, lexcmp (fun x y : Z => Some (x ?= y)) s t = Some c /\ sign_is d c /\
    forall fuel, (length s < fuel)%nat -> strcmp_null fuel m p q = Ok d.
Proof.
  intros [[-> ->]|[Np Hp]] [[-> ->]|[Nq Hq]]; unfold strcmp_null.
  - exists 0, Eq. repeat split.
  - replace (q =? 0) with false by lia. cbn [andb Z.eqb]. destruct t as [|y t]; cbn in Hq |- *.
    + exists 0, Eq. repeat split. intros. rewrite Hq. reflexivity.
    + destruct Hq as (E & R & _). exists (-1), Lt. repeat split. intros. rewrite E.
      replace (y =? 0) with false by lia. reflexivity.
  - replace (p =? 0) with false by lia. cbn [andb Z.eqb]. destruct s as [|x s]; cbn in Hp |- *.
    + exists 0, Eq. repeat split. intros. rewrite Hp. reflexivity.
    + destruct Hp as (E & R & _). exists 1, Gt. repeat split. intros. rewrite E.
      replace (x =? 0) with false by lia. reflexivity.
  - replace (q =? 0) with false by lia. replace (p =? 0) with false by lia. cbn [andb].
    apply strcmp_spec; assumption.
Qed.

Lemma real_cmp x y :
  valid x = true -> valid y = true -> x <> S754_nan -> y <> S754_nan -> (forall s, x = S754_infinity s -> y <> S754_infinity s) ->
  exists c, SFcompare x y = Some c /\
    sign_is (if SFeqb (SFsub64 x y) sfzero then 0 else if SFgtb (SFsub64 x y) sfzero then 1 else -1) c.
Proof.
  intros Vx Vy Nx Ny I.
  assert (~ same_inf x y) as SI.
  { unfold same_inf. destruct x, y; auto. intros ->. apply (I s0); reflexivity. }
  destruct (sub_sign x y Vx Vy Nx Ny SI) as [E G].
  pose proof (SFeqb_spec x y Vx Vy) as E2. pose proof (SFltb_spec y x Vy Vx) as L2.
  assert (exists c, SFcompare x y = Some c) as [c C].
  { destruct x, y; cbn; try congruence; eauto; destruct s; eauto. }
  exists c. split; [exact C|].
  assert (SFcompare y x = Some (CompOpp c)) as C'.
  { clear - C Vx Vy. destruct x as [s|s| |s m e], y as [s'|s'| |s' m' e'];
    try (rewrite compare_finite in * by assumption; injection C as <-; f_equal; apply Z.compare_antisym);
    cbn in *; try discriminate; destruct s; try destruct s'; injection C as <-; reflexivity. }
  unfold sign_is.
  destruct (SFeqb (SFsub64 x y) sfzero).
  - assert (SFeqb x y = true) as Q by (apply E2, E; reflexivity). unfold SFeqb in Q. rewrite C in Q.
    destruct c; try discriminate. reflexivity.
  - assert (SFeqb x y = false) as Q.
    { destruct (SFeqb x y); auto. destruct E as [_ E]. rewrite E in *; [congruence|]. apply E2. reflexivity. }
    unfold SFeqb in Q. rewrite C in Q.
    destruct (SFgtb (SFsub64 x y) sfzero).
    + assert (SFltb y x = true) as R by (apply L2, G; reflexivity). unfold SFltb in R. rewrite C' in R.
      destruct c; try discriminate. reflexivity.
    + destruct c; try discriminate; try reflexivity.
      assert (SFltb y x = true) as R. { unfold SFltb. rewrite C'. reflexivity. }
      apply L2, G in R. discriminate.
Qed.

Lemma chk32_ok z : INT_MIN <= z <= INT_MAX -> chk32 z = Ok z.
Proof. intro H. unfold chk32. replace ((INT_MIN <=? z) && (z <=? INT_MAX)) with true by lia. reflexivity. Qed.

Definition both (tt : tytab) (m : mem) (a b ty : Z) (r : outcome Z) (n : nat) : Prop :=
  forall fuel w, (n <= fuel)%nat -> doCompare fuel w tt m a b ty = r /\ constCompare fuel w tt m a b ty = r.


Lemma weak_sub a b : in_s64 a -> in_s64 b -> in_s64 (a - b) -> s64 (u64 (u64 a - u64 b)) = a - b.
Proof.
  unfold in_s64, s64, u64, wraps, wrapu, INT64_MIN, INT64_MAX, two63, two64. intros A B C.
  change (18446744073709551616 / 2) with 9223372036854775808. lia.
Qed.

Lemma ri_inv tt m off ty rest p v l :
  reads_items tt m ((off, ty) :: rest) p (v :: l) ->
  exists s, doDeref m (t_kind (tt ty)) (p + off) = Ok s /\ reads tt m ty s v /\ reads_items tt m rest p l.
Proof. intro H. inversion H; subst. eauto. Qed.

Lemma compare_exact tt m :
  (forall ty a va, reads tt m ty a va ->
     forall b vb, reads tt m ty b vb -> close va vb ->
     exists n d c, vcmp va vb = Some c /\ sign_is d c /\ both tt m a b ty (Ok d) n) /\
  (forall items p l, reads_items tt m items p l ->
     (forall q l', reads_items tt m items q l' -> all_close l l' ->
      exists n d c, lexcmp vcmp l l' = Some c /\ sign_is d c /\
        forall fuel w, (n <= fuel)%nat ->
          cmp_items tt m doDeref (doCompare fuel w tt m) items p q = Ok d /\
          cmp_items tt m constDeref (constCompare fuel w tt m) items p q = Ok d) /\
     (forall i size base q l' L L',
      size = t_size (tt base) ->
      items = array_items (length l) i size base ->
      reads_items tt m (array_items (length l') i size base) q l' -> all_close l l' ->
      L = i + Z.of_nat (length l) -> L' = i + Z.of_nat (length l') ->
      exists n d c, lexcmp vcmp l l' = Some c /\ sign_is d c /\
        forall fuel w k, (n <= fuel)%nat -> (min (length l) (length l') < k)%nat ->
          cmp_dyn tt m doDeref (doCompare fuel w tt m) k i L L' p q base = Ok d /\
          cmp_dyn tt m constDeref (constCompare fuel w tt m) k i L L' p q base = Ok d)).
Proof.
  assert (KM : forall ty s v, reads tt m ty s v -> t_kind (tt ty) <> KMap).
  { intros ty s v H. inversion H; subst; intro E; try rewrite E in *; try discriminate; intuition discriminate. }
  apply reads_mut.
  - (* ordinals *)
    intros ty z Hk Hu Hz b vb Rb C. inversion Rb; subst;
      try (exfalso; destruct (t_kind (tt ty)); cbn in *; intuition congruence).
    cbn [close] in C. exists 1%nat, (z - b), (z ?= b). split; [reflexivity|]. split; [apply sub_compare|].
    intros [|f] w Hf; [lia|]. cbn [doCompare constCompare].
    destruct (t_kind (tt ty)) eqn:K; try discriminate; try congruence; cbn [cmp_scalar];
      rewrite isub_ok by exact C; split; reflexivity.
  - (* uint *)
    intros ty z Hk Hz b vb Rb C. inversion Rb; subst;
      try (exfalso; destruct (t_kind (tt ty)); cbn in *; intuition congruence).
    exists 1%nat, (if u64 z =? u64 b then 0 else if u64 b <? u64 z then 1 else -1), (denote KUInt z ?= denote KUInt b).
    split; [reflexivity|]. split.
    { unfold sign_is, denote. change (z mod 18446744073709551616) with (u64 z).
      change (b mod 18446744073709551616) with (u64 b).
      destruct (u64 z ?= u64 b) eqn:E; [rewrite Z.compare_eq_iff in E|rewrite Z.compare_lt_iff in E|rewrite Z.compare_gt_iff in E].
      - rewrite E, Z.eqb_refl. reflexivity.
      - replace (u64 z =? u64 b) with false by lia. replace (u64 b <? u64 z) with false by lia. reflexivity.
      - replace (u64 z =? u64 b) with false by lia. replace (u64 b <? u64 z) with true by lia. reflexivity. }
    intros [|f] w Hf; [lia|]. cbn [doCompare constCompare]. rewrite Hk. cbn [cmp_scalar]. split; reflexivity.
  - (* reals *)
    intros ty z Hk Hz b vb Rb C. inversion Rb; subst;
      try (exfalso; destruct (t_kind (tt ty)); cbn in *; intuition congruence).
    cbn [close] in C. destruct C as (C1 & C2 & C3).
    destruct (real_cmp (realVal z) (realVal b) (realVal_valid z) (realVal_valid b) C1 C2 C3) as (c & V & Sg).
    eexists 1%nat, _, c. split; [exact V|]. split; [exact Sg|].
    intros [|f] w Hf; [lia|]. cbn [doCompare constCompare].
    destruct (t_kind (tt ty)); try discriminate; cbn [cmp_scalar]; split; reflexivity.
  - (* pointers *)
    intros ty z Hk Hz b vb Rb C. inversion Rb; subst;
      try (exfalso; destruct (t_kind (tt ty)); cbn in *; intuition congruence).
    cbn [close] in C. exists 1%nat, (z - b), (z ?= b). split; [reflexivity|]. split; [apply sub_compare|].
    intros [|f] w Hf; [lia|]. cbn [doCompare constCompare].
    destruct Hk as [Hk|Hk]; rewrite Hk; cbn [cmp_scalar].
    + rewrite isub_ok by exact C; split; reflexivity.
    + rewrite weak_sub by assumption. split; reflexivity.
  - (* strings *)
    intros ty z s Hk Hs b vb Rb C. inversion Rb; subst;
      try (exfalso; destruct (t_kind (tt ty)); cbn in *; intuition congruence).
    destruct (strcmp_null_spec m z b s s0 Hs H0) as (d & c & V & Sg & F).
    exists (S (length s)), d, c. split; [exact V|]. split; [exact Sg|].
    intros [|f] w Hf; [lia|]. cbn [doCompare constCompare]. rewrite Hk. cbn [cmp_scalar].
    rewrite F by lia. split; reflexivity.
  - (* arrays and structures *)
    intros ty z l Hk Hz Hl IH b vb Rb C. inversion Rb; subst;
      try (exfalso; destruct (t_kind (tt ty)); cbn in *; intuition congruence).
    destruct IH as [IH _]. destruct (IH _ _ H1 (close_seq _ _ C)) as (n & d & c & V & Sg & F).
    exists (S n), d, c. rewrite vcmp_seq. split; [exact V|]. split; [exact Sg|].
    intros [|f] w Hf; [lia|]. cbn [doCompare constCompare].
    destruct (F f w ltac:(lia)) as [F1 F2].
    replace ((z =? 0) || (b =? 0)) with false by lia.
    destruct Hk as [Hk|Hk]; rewrite Hk; split; assumption.
  - (* dynamic arrays *)
    intros ty z l Hk Hz Hlen Hl IH b vb Rb C. inversion Rb; subst;
      try (exfalso; destruct (t_kind (tt ty)); cbn in *; intuition congruence).
    destruct IH as [_ IH].
    destruct (IH 0 _ (t_base (tt ty)) (dyn_data m b) l0 (dyn_len m z) (dyn_len m b) eq_refl eq_refl H2 (close_dyn _ _ C)
                ltac:(lia) ltac:(lia)) as (n & d & c & V & Sg & F).
    exists (S n), d, c. rewrite vcmp_dyn. split; [exact V|]. split; [exact Sg|].
    intros [|f] w Hf; [lia|]. cbn [doCompare constCompare]. rewrite Hk.
    replace (z =? 0) with false by lia. replace (b =? 0) with false by lia. cbn [orb].
    apply F; lia.
  - (* no items *)
    intros p. split.
    + intros q l' H C. inversion H; subst. exists O, 0, Eq. repeat split; reflexivity.
    + intros i size base q l' L L' Hs Hi H C HL HL'. destruct l' as [|y s].
      * exists O, 0, Eq. split; [reflexivity|]. split; [reflexivity|].
        intros fuel w [|k] _ Hk; [cbn in Hk; lia|]. cbn [cmp_dyn]. cbn in HL, HL'.
        replace ((i =? L) && (i =? L')) with true by lia. split; reflexivity.
      * exists O, (-1), Lt. split; [reflexivity|]. split; [reflexivity|].
        intros fuel w [|k] _ Hk; [cbn in Hk; lia|]. cbn [cmp_dyn]. cbn [length] in HL, HL'.
        replace ((i =? L) && (i =? L')) with false by lia. replace (i =? L) with true by lia. split; reflexivity.
  - (* an item *)
    intros off ty rest p s v l Ho Hd Rv IHv Rl IHl.
    assert (CD : forall x, constDeref m (t_kind (tt ty)) x = doDeref m (t_kind (tt ty)) x).
    { intro x. apply const_deref_agree. eapply KM. exact Rv. }
    split.
    + intros q l' H C. destruct l' as [|y l']; [inversion H|]. destruct C as [C1 C2].
      pose proof (ri_inv _ _ _ _ _ _ _ _ H) as (s1 & H5 & H6 & H7).
      destruct (IHv _ _ H6 C1) as (n1 & d1 & c1 & V1 & S1 & F1).
      destruct IHl as [IHl _]. destruct (IHl _ _ H7 C2) as (n2 & d2 & c2 & V2 & S2 & F2).
      cbn [lexcmp]. rewrite V1.
      exists (max n1 n2), (if d1 =? 0 then d2 else d1), (match c1 with Eq => c2 | _ => c1 end).
      split; [destruct c1; auto|]. split.
      { unfold sign_is in *. destruct (d1 =? 0) eqn:E.
        - replace d1 with 0 in S1 by lia. cbn in S1. subst c1. exact S2.
        - destruct c1; auto. rewrite Z.compare_eq_iff in S1. lia. }
      intros fuel w Hf. cbn [cmp_items]. rewrite chk32_ok by (unfold INT_MIN, INT_MAX, two31 in *; lia).
      cbn [bind]. rewrite !CD, Hd. cbn [bind]. rewrite H5. cbn [bind].
      destruct (F1 fuel w ltac:(lia)) as [G1 G2]. rewrite G1, G2. cbn [bind].
      destruct (F2 fuel w ltac:(lia)) as [G3 G4]. destruct (d1 =? 0); split; auto.
    + intros i size base q l' L L' Hs Hi H C HL HL'. cbn [length array_items] in Hi. injection Hi as -> -> Hr.
      destruct l' as [|y l'].
      * exists O, 1, Gt. split; [reflexivity|]. split; [reflexivity|].
        intros fuel w [|k] _ Hk; [cbn in Hk; lia|]. cbn [cmp_dyn]. cbn [length] in HL, HL'.
        replace ((i =? L) && (i =? L')) with false by lia. replace (i =? L) with false by lia.
        replace (i =? L') with true by lia. split; reflexivity.
      * cbn [length array_items] in H. destruct (ri_inv _ _ _ _ _ _ _ _ H) as (s0 & H5 & H6 & H7). subst. destruct C as [C1 C2].
        destruct (IHv _ _ H6 C1) as (n1 & d1 & c1 & V1 & S1 & F1).
        destruct IHl as [_ IHl].
        cbn [length].
        destruct (IHl (i + 1) _ base q l' (i + Z.of_nat (S (length l))) (i + Z.of_nat (S (length l'))) eq_refl eq_refl H7 C2 ltac:(lia) ltac:(lia))
          as (n2 & d2 & c2 & V2 & S2 & F2).
        cbn [lexcmp]. rewrite V1.
        exists (max n1 n2), (if d1 =? 0 then d2 else d1), (match c1 with Eq => c2 | _ => c1 end).
        split; [destruct c1; auto|]. split.
        { unfold sign_is in *. destruct (d1 =? 0) eqn:E.
          - replace d1 with 0 in S1 by lia. cbn in S1. subst c1. exact S2.
          - destruct c1; auto. rewrite Z.compare_eq_iff in S1. lia. }
        intros fuel w [|k] Hf Hk; [lia|]. cbn [cmp_dyn].
        replace ((i =? i + Z.of_nat (S (length l))) && (i =? i + Z.of_nat (S (length l')))) with false by lia.
        replace (i =? i + Z.of_nat (S (length l))) with false by lia.
        replace (i =? i + Z.of_nat (S (length l'))) with false by lia.
        rewrite chk32_ok by (unfold INT_MIN, INT_MAX, two31 in *; lia).
        cbn [bind]. rewrite !CD, Hd. cbn [bind]. rewrite H5. cbn [bind].
        destruct (F1 fuel w ltac:(lia)) as [G1 G2]. rewrite G1, G2. cbn [bind].
        cbn [length Nat.min] in Hk.
        destruct (F2 fuel w k ltac:(lia) ltac:(lia)) as [G3 G4]. destruct (d1 =? 0); split; auto.
Qed.
