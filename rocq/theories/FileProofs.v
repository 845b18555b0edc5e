From Coq Require Import ZArith Lia Bool List ZifyBool.
Import ListNotations.
From Verif Require Import Base BlkModel DynModel FileModel FileSpec.
Local Open Scope Z_scope.

Lemma setn_length {A} : forall n (a : A) l, length (setn n a l) = length l.
Proof. induction n; destruct l; cbn; auto. Qed.
Lemma setn_same {A} : forall n (a : A) l, (n < length l)%nat -> nth_error (setn n a l) n = Some a.
Proof. induction n; destruct l; cbn; intros; try lia; auto. apply IHn. lia. Qed.
Lemma setn_other {A} : forall n m (a : A) l, n <> m -> nth_error (setn n a l) m = nth_error l m.
Proof. induction n; destruct l, m; cbn; intros; try congruence; auto. Qed.
Lemma setn_nth {A} : forall n m (a b : A) l, nth_error (setn n a l) m = Some b -> (n = m /\ b = a) \/ (n <> m /\ nth_error l m = Some b).
Proof.
  intros n m a b l H. destruct (Nat.eq_dec n m) as [-> | N]; [left | right; rewrite setn_other in H by auto; auto].
  assert (L : (m < length l)%nat) by (rewrite <- (setn_length m a); apply nth_error_Some; congruence).
  rewrite setn_same in H by auto. injection H as <-. auto.
Qed.
Lemma nth_lt {A} : forall (l : list A) n a, nth_error l n = Some a -> (n < length l)%nat.
Proof. intros. apply nth_error_Some. congruence. Qed.

Lemma s32_id : forall z, - two31 <= z <= INT_MAX -> s32 z = z.
Proof. intros z H. unfold s32, wraps, INT_MAX, two32, two31 in *. replace (4294967296 / 2) with 2147483648 by reflexivity. rewrite Z.mod_small by lia. lia. Qed.

Lemma getObj_open : forall s h k t, isOpen s h k t -> getObj s h = Ok (Some k).
Proof. intros s h k t (A & _). unfold getObj. rewrite A. reflexivity. Qed.
Lemma getStream_open : forall s h k t, isOpen s h k t -> getStream (wd s) k = Ok t.
Proof. intros s h k t (_ & A & B). unfold getStream. rewrite A, B. reflexivity. Qed.

Lemma open_set : forall s h k t t' w, isOpen s h k t -> streams w = setn k t' (streams (wd s)) -> sopen t' = true -> isOpen (MkSt w (objs s)) h k t'.
Proof. intros s h k t t' w (A & B & C) E O. split; [exact A | split; auto]. cbn [wd]. rewrite E. apply setn_same. eapply nth_lt; eauto. Qed.

(** ** Seeking and telling *)
Lemma seek_ok : forall s h k t off origin, isOpen s h k t -> sseek t = true -> - two31 <= off <= INT_MAX -> (origin = 0 \/ origin = 1 \/ origin = 2) ->
  let pos := (if origin =? 0 then 0 else if origin =? 1 then spos t else Z.of_nat (length (inodes (wd s) (sino t)))) + off in
  0 <= pos ->
  exists s', fseek true s (Some h) off origin = Ok (s', 0) /\ isOpen s' h k (MkS (sino t) pos (srd t) (swr t) (sapp t) true false LNone true)
    /\ inodes (wd s') = inodes (wd s) /\ objs s' = objs s /\ dirs (wd s') = dirs (wd s).
Proof.
  intros s h k t off origin O K R G pos P. unfold fseek, rtlfseek. rewrite (getObj_open _ _ _ _ O). cbn [bind].
  assert (S : s32 origin = origin) by (apply s32_id; unfold INT_MAX, two31; lia). rewrite S.
  replace (if origin =? 0 then 0 else if origin =? 1 then 1 else if origin =? 2 then 2 else 0) with origin by (destruct G as [-> | [-> | ->]]; reflexivity).
  unfold cfseek. rewrite (getStream_open _ _ _ _ O). cbn [bind]. rewrite s32_id by auto. fold pos. rewrite K. cbn [negb orb].
  replace (pos <? 0) with false by lia. cbn [bind Z.eqb OK]. eexists. split; [reflexivity|]. split; [|auto].
  eapply open_set; eauto; reflexivity.
Qed.

Lemma tell_ok : forall s h k t, isOpen s h k t -> sseek t = true -> 0 <= spos t -> ftell true s (Some h) = Ok (spos t, 0).
Proof.
  intros s h k t O K P. unfold ftell, rtlftell. rewrite (getObj_open _ _ _ _ O). cbn [bind]. unfold cftell. rewrite (getStream_open _ _ _ _ O). cbn [bind]. rewrite K. cbn [bind].
  replace (0 <=? spos t) with true by lia. reflexivity.
Qed.

(** ** Reading *)
Lemma read_ok : forall s h k t l lim, isOpen s h k t -> srd t = true -> slast t <> LWrite -> 0 <= spos t -> size_ok l -> l <> [] -> 0 <= lim ->
  let rest := skipn (Z.to_nat (spos t)) (inodes (wd s) (sino t)) in
  let n := Z.min (Z.min (Z.of_nat (length l)) lim) (Z.of_nat (length rest)) in
  exists s' t', fread true s (Some h) (BBytes l) lim = Ok (s', (firstn (Z.to_nat n) rest ++ skipn (Z.to_nat n) l, n, if n =? Z.of_nat (length l) then 0 else 5))
    /\ isOpen s' h k t' /\ spos t' = spos t + n /\ sino t' = sino t /\ inodes (wd s') = inodes (wd s) /\ objs s' = objs s /\ dirs (wd s') = dirs (wd s)
    /\ (n < Z.of_nat (length l) -> seof t' = true).
Proof.
  intros s h k t l lim O R L P Z0 N0 L0 rest n. unfold fread. cbn [dataOf].
  assert (Ln : 0 < Z.of_nat (length l)) by (destruct l; [congruence | cbn [length]; lia]).
  replace (Z.of_nat (length l) =? 0) with false by lia.
  unfold rtlfread. rewrite (getObj_open _ _ _ _ O). cbn [bind]. unfold cfread. rewrite (getStream_open _ _ _ _ O). cbn [bind]. rewrite R. cbn [negb].
  unfold size_ok in Z0. rewrite s32_id by (unfold INT_MAX, two31 in *; lia). unfold toSize. replace (Z.of_nat (length l) <? 0) with false by lia.
  fold rest. fold n. assert (Lf : length (firstn (Z.to_nat n) rest) = Z.to_nat n) by (apply firstn_length_le; lia).
  rewrite Lf. rewrite Z2Nat.id by lia. replace (Z.of_nat (length l) <? n) with false by lia.
  assert (D : forall A (x y : A), match slast t with LWrite => x | _ => y end = y) by (destruct (slast t); congruence).
  rewrite D. cbn [bind]. do 2 eexists. split; [reflexivity|]. split; [eapply open_set; eauto; reflexivity|]. cbn [spos sino seof]. repeat split; auto.
  intro H. replace (n <? Z.of_nat (length l)) with true by lia. apply orb_true_r.
Qed.

(** ** Writing *)
Lemma nth_error_repeat' {A} : forall n (a : A) i, nth_error (repeat a n) i = if Nat.ltb i n then Some a else None.
Proof. induction n; destruct i; cbn; auto. rewrite IHn. reflexivity. Qed.
Lemma nth_error_firstn' {A} : forall n (l : list A) i, nth_error (firstn n l) i = if Nat.ltb i n then nth_error l i else None.
Proof. induction n as [|n IH]; intros l i; [destruct i; reflexivity|]. destruct l as [|a l]; [cbn [firstn]; destruct i; cbn [nth_error]; match goal with |- context [if ?b then _ else _] => destruct b; reflexivity end|]. destruct i; [reflexivity|]. cbn [firstn nth_error]. rewrite IH. reflexivity. Qed.
Lemma nth_error_skipn' {A} : forall n (l : list A) i, nth_error (skipn n l) i = nth_error l (n + i).
Proof. induction n; destruct l; cbn; auto. intro i. destruct i; reflexivity. Qed.

Lemma writeAt_patched : forall old pos d, patched old (Z.of_nat pos) d (writeAt old pos d).
Proof.
  intros old pos d i. unfold writeAt.
  assert (L : length (firstn pos (old ++ repeat 0 (pos - length old))) = pos) by (rewrite firstn_length_le; auto; rewrite app_length, repeat_length; lia).
  destruct (Z.of_nat i <? Z.of_nat pos) eqn:A.
  - rewrite nth_error_app1 by lia. rewrite nth_error_firstn'. replace (Nat.ltb i pos) with true by lia.
    destruct (Nat.ltb i (length old)) eqn:B.
    + rewrite nth_error_app1 by lia. reflexivity.
    + rewrite nth_error_app2 by lia. rewrite nth_error_repeat'. replace (Nat.ltb (i - length old) (pos - length old)) with true by lia. reflexivity.
  - rewrite nth_error_app2 by lia. rewrite L.
    destruct (Z.of_nat i <? Z.of_nat pos + Z.of_nat (length d)) eqn:B.
    + rewrite nth_error_app1 by lia. f_equal. lia.
    + rewrite nth_error_app2 by lia. rewrite nth_error_skipn'. f_equal. lia.
Qed.

Lemma write_ok : forall s h k t l lim, isOpen s h k t -> swr t = true -> (slast t <> LRead \/ seof t = true) -> 0 <= spos t -> size_ok l -> l <> [] -> 0 <= lim ->
  let n := Z.min (Z.of_nat (length l)) lim in
  let pos := if sapp t then Z.of_nat (length (inodes (wd s) (sino t))) else spos t in
  exists s' t', fwrite true s (Some h) (BBytes l) lim = Ok (s', (n, if n =? Z.of_nat (length l) then 0 else 5))
    /\ isOpen s' h k t' /\ t' = MkS (sino t) (pos + n) (srd t) (swr t) (sapp t) (sseek t) (seof t) LWrite true
    /\ inodes (wd s') (sino t) = writeAt (inodes (wd s) (sino t)) (Z.to_nat pos) (firstn (Z.to_nat n) l)
    /\ patched (inodes (wd s) (sino t)) pos (firstn (Z.to_nat n) l) (inodes (wd s') (sino t))
    /\ (forall j, j <> sino t -> inodes (wd s') j = inodes (wd s) j) /\ objs s' = objs s /\ dirs (wd s') = dirs (wd s).
Proof.
  intros s h k t l lim O W L P Z0 N0 L0 n pos. unfold fwrite. cbn [dataOf].
  assert (Ln : 0 < Z.of_nat (length l)) by (destruct l; [congruence | cbn [length]; lia]).
  replace (Z.of_nat (length l) =? 0) with false by lia.
  unfold rtlfwrite. rewrite (getObj_open _ _ _ _ O). cbn [bind]. unfold cfwrite. rewrite (getStream_open _ _ _ _ O). cbn [bind]. rewrite W. cbn [negb].
  unfold size_ok in Z0. rewrite s32_id by (unfold INT_MAX, two31 in *; lia). unfold toSize. replace (Z.of_nat (length l) <? 0) with false by lia.
  rewrite Z.ltb_irrefl. fold n. fold pos. assert (Lf : length (firstn (Z.to_nat n) l) = Z.to_nat n) by (apply firstn_length_le; lia).
  assert (D : forall A (x y : A), match slast t, seof t with LRead, false => x | _, _ => y end = y) by (intros; destruct L as [L | ->]; destruct (slast t); try destruct (seof t); congruence).
  rewrite D. cbn [bind]. rewrite Lf, Z2Nat.id by lia. do 2 eexists. split; [reflexivity|]. split; [eapply open_set; eauto; reflexivity|]. cbn [wd setStream setInode inodes objs dirs].
  rewrite Nat.eqb_refl. split; [reflexivity|]. split; [reflexivity|]. split.
  - assert (Hp : 0 <= pos) by (unfold pos; destruct (sapp t); lia).
    generalize (writeAt_patched (inodes (wd s) (sino t)) (Z.to_nat pos) (firstn (Z.to_nat n) l)). rewrite Z2Nat.id by lia. auto.
  - split; auto. intros j J. destruct (Nat.eqb_spec j (sino t)); congruence.
Qed.

(** ** freadall *)
Lemma makeChars_ok : forall n, 0 <= n <= 2147483392 -> makeChars n = Ok (repeat 0 (Z.to_nat n)).
Proof.
  intros n H. unfold makeChars. replace ((n <? 0) || (INT_MAX <? n)) with false by (unfold INT_MAX, two31; lia).
  unfold newCap, chk64. rewrite Z.mul_1_r.
  replace (in_s64b (2 * (n + 1))) with true by (unfold in_s64b, INT64_MIN, INT64_MAX, two63; lia). cbn [bind].
  set (c := if (if LIMIT <? 2 * (n + 1) then LIMIT / 1 else 2 * (n + 1)) <? n then n else _).
  assert (C : 0 <= c <= 2147483392). { unfold c, LIMIT, INT_MAX, two31. rewrite Z.div_1_r. destruct (2147483648 - 1 - 1024 <? 2 * (n + 1)) eqn:?; match goal with |- context [if ?b then _ else _] => destruct b eqn:? end; lia. }
  replace (INT_MAX <? chunkSizeFor (16 + c)) with false; [reflexivity|]. symmetry. apply Z.ltb_ge. clear - C.
  unfold chunkSizeFor, align, INT_MAX, two31. Z.div_mod_to_equations. lia.
Qed.

Lemma makeChars_small : forall n l, makeChars n = Ok l -> size_ok l.
Proof.
  intros n l. unfold makeChars. destruct ((n <? 0) || (INT_MAX <? n)) eqn:E; [discriminate|]. destruct (newCap 1 n); cbn [bind]; try discriminate.
  destruct (INT_MAX <? chunkSizeFor (16 + a)); [discriminate|]. intro H. injection H as H. subst l. unfold size_ok. rewrite repeat_length. lia.
Qed.

Lemma skipn_repeat {A} : forall n (a : A), skipn n (repeat a n) = [].
Proof. intros. apply skipn_all2. rewrite repeat_length. lia. Qed.

Lemma readall_ok : forall s h k t lim, isOpen s h k t -> sseek t = true -> srd t = true ->
  let c := inodes (wd s) (sino t) in
  Z.of_nat (length c) <= lim ->
  exists s', freadall true s (Some h) lim = Ok (s', (if Z.of_nat (length c) <=? 2147483392 then (c, 0) else ([], 5)))
    /\ inodes (wd s') = inodes (wd s) /\ objs s' = objs s /\ dirs (wd s') = dirs (wd s).
Proof.
  intros s h k t lim O K R c L. unfold freadall.
  destruct (seek_ok s h k t 0 2 O K) as (s1 & E1 & O1 & I1 & B1 & D1); [unfold two31, INT_MAX, two31; lia | auto | cbn; lia |].
  rewrite Z.add_0_r in O1. change (if 2 =? 0 then 0 else if 2 =? 1 then spos t else Z.of_nat (length (inodes (wd s) (sino t)))) with (Z.of_nat (length c)) in O1.
  rewrite E1. cbn [bind negb Z.eqb OK]. rewrite (tell_ok _ _ _ _ O1 eq_refl) by (cbn; lia). cbn [bind negb Z.eqb OK spos].
  destruct (Z.of_nat (length c) <=? 2147483392) eqn:B.
  2:{ replace (2147483392 <? Z.of_nat (length c)) with true by lia. eexists. split; [reflexivity|]. auto. }
  replace (2147483392 <? Z.of_nat (length c)) with false by lia.
  destruct (seek_ok s1 h k _ 0 0 O1 eq_refl) as (s2 & E2 & O2 & I2 & B2 & D2); [unfold two31, INT_MAX, two31; lia | auto | cbn; lia |].
  cbn [Z.eqb sino srd swr sapp] in O2. change (0 + 0) with 0 in O2. rewrite E2. cbn [bind negb Z.eqb OK]. rewrite makeChars_ok by lia. cbn [bind]. rewrite Nat2Z.id.
  destruct c as [|b r] eqn:C.
  - cbn [length repeat]. unfold fread. cbn [dataOf length Z.of_nat Z.eqb bind negb OK]. eexists. split; [reflexivity|]. rewrite B2, I2, D2, I1, D1. auto.
  - rewrite <- C in *.
    edestruct (read_ok s2 h k _ (repeat 0 (length c)) lim O2) as (s3 & t3 & E3 & O3 & _ & _ & I3 & B3 & D3 & _); cbn [srd slast spos sino swr sapp]; try congruence; auto; try lia.
    + unfold size_ok. rewrite repeat_length. unfold INT_MAX, two31. lia.
    + rewrite C. cbn. congruence.
    + cbn [spos sino] in E3. change (Z.to_nat 0) with 0%nat in E3. cbn [skipn] in E3. rewrite I2, I1 in E3. fold c in E3. rewrite repeat_length in E3.
      replace (Z.min (Z.min (Z.of_nat (length c)) lim) (Z.of_nat (length c))) with (Z.of_nat (length c)) in E3 by lia. rewrite Nat2Z.id, firstn_all, skipn_repeat, app_nil_r, Z.eqb_refl in E3.
      rewrite E3. cbn [bind negb Z.eqb OK]. eexists. split; [reflexivity|]. rewrite I3, I2, I1, B3, B2, B1, D3, D2, D1. auto.
Qed.

(** ** Opening, writing piece by piece, closing, opening, reading *)
Lemma writeAt_end : forall l d, writeAt l (length l) d = l ++ d.
Proof. intros. unfold writeAt. rewrite Nat.sub_diag. cbn [repeat]. rewrite app_nil_r, firstn_all. rewrite skipn_all2 by lia. rewrite app_nil_r. reflexivity. Qed.

Lemma pieces_ok : forall ds s h k t, isOpen s h k t -> swr t = true -> slast t <> LRead -> sapp t = false -> spos t = Z.of_nat (length (inodes (wd s) (sino t))) -> Forall size_ok ds ->
  exists s' t' outs, run true s (writes h ds) = Ok (s', outs) /\ isOpen s' h k t' /\ sino t' = sino t
    /\ outs = map (fun d => RCount (Z.of_nat (length d)) 0) ds /\ inodes (wd s') (sino t) = inodes (wd s) (sino t) ++ concat ds /\ objs s' = objs s /\ dirs (wd s') = dirs (wd s).
Proof.
  induction ds as [|d ds IH]; intros s h k t O W L A P F; cbn [writes map run].
  - exists s, t, []. cbn [concat]. rewrite app_nil_r. auto 8.
  - inversion F as [|? ? Fd Fds]; subst. destruct d as [|b r] eqn:D.
    + cbn [step]. unfold fwrite. cbn [dataOf length Z.of_nat Z.eqb bind]. destruct (IH s h k t) as (s' & t' & outs & E & R); auto. unfold writes in E. rewrite E. cbn [bind]. exists s', t', (RCount 0 OK :: outs). destruct R as (R1 & R2 & R3 & R4).
      split; [reflexivity|]. split; [auto|]. split; [auto|]. split; [rewrite R3; reflexivity|]. cbn [concat app]. auto.
    + rewrite <- D in *. cbn [step]. edestruct (write_ok s h k t d (Z.of_nat (length d))) as (s1 & t1 & E1 & O1 & T1 & I1 & _ & _ & B1 & D1); auto; try lia; [congruence|].
      rewrite A in *. rewrite Z.min_id in *. rewrite Z.eqb_refl in E1. rewrite E1. cbn [bind]. rewrite Nat2Z.id, firstn_all in I1. rewrite P, Nat2Z.id, writeAt_end in I1.
      destruct (IH s1 h k t1) as (s' & t' & outs & E & R1 & R2 & R3 & R4 & R5 & R6); auto; try (subst t1; cbn; congruence).
      { subst t1. cbn [spos sino]. rewrite I1, app_length, P. lia. }
      unfold writes in E. rewrite E. cbn [bind]. exists s', t', (RCount (Z.of_nat (length d)) 0 :: outs). assert (Si : sino t1 = sino t) by (subst t1; reflexivity). rewrite Si in *.
      split; [reflexivity|]. split; [auto|]. split; [auto|]. split; [rewrite R3; reflexivity|]. rewrite R4, I1, <- app_assoc, R5, R6. cbn [concat]. auto.
Qed.

Lemma eqs_refl : forall x, eqs x x = true.
Proof. intro x. unfold eqs. destruct (list_eq_dec Z.eq_dec x x); congruence. Qed.

Lemma run_app : forall en a b s, run en s (a ++ b) = let* (s, x) := run en s a in let* (s, y) := run en s b in Ok (s, x ++ y).
Proof.
  induction a as [|o a IH]; intros b s; cbn [app run].
  - cbn [bind]. destruct (run en s b) as [[? ?]|?|]; reflexivity.
  - destruct (step en s o) as [[s1 x]|e|]; cbn [bind]; auto. rewrite IH. destruct (run en s1 a) as [[s2 xs]|e|]; cbn [bind]; auto. destruct (run en s2 b) as [[s3 ys]|e|]; reflexivity.
Qed.

Lemma fopen_w : forall s nm, exists s' k t, fopen true s (Some nm) [119; 98] true = Ok (s', (Some (length (objs s)), 0)) /\ isOpen s' (length (objs s)) k t
  /\ swr t = true /\ srd t = false /\ slast t = LNone /\ sapp t = false /\ spos t = 0 /\ inodes (wd s') (sino t) = [] /\ assoc nm (dirs (wd s')) = Some (sino t) /\ length (objs s') = S (length (objs s)).
Proof.
  intros s nm. unfold fopen. replace (existsb (eqs [119; 98]) modes) with true by reflexivity. unfold rtlfopen, cfopen. cbn [negb Z.eqb].
  change (119 =? 114) with false. change (119 =? 119) with true. cbv iota. destruct (assoc nm (dirs (wd s))) as [i|] eqn:A; cbn [bind].
  - do 3 eexists. split; [reflexivity|]. split. { split; [|split]. - cbn [objs]. rewrite nth_error_app2, Nat.sub_diag by lia. reflexivity. - cbn [wd streams setInode]. rewrite nth_error_app2, Nat.sub_diag by lia. reflexivity. - reflexivity. }
    cbn. rewrite Nat.eqb_refl, A. repeat split; auto. rewrite app_length. cbn. lia.
  - do 3 eexists. split; [reflexivity|]. split. { split; [|split]. - cbn [objs]. rewrite nth_error_app2, Nat.sub_diag by lia. reflexivity. - cbn [wd streams]. rewrite nth_error_app2, Nat.sub_diag by lia. reflexivity. - reflexivity. }
    cbn. rewrite Nat.eqb_refl, eqs_refl. repeat split; auto. rewrite app_length. cbn. lia.
Qed.

Lemma fopen_r : forall s nm i, assoc nm (dirs (wd s)) = Some i -> exists s' k t, fopen true s (Some nm) [114; 98] true = Ok (s', (Some (length (objs s)), 0)) /\ isOpen s' (length (objs s)) k t
  /\ srd t = true /\ sseek t = true /\ sino t = i /\ inodes (wd s') = inodes (wd s).
Proof.
  intros s nm i A. unfold fopen. replace (existsb (eqs [114; 98]) modes) with true by reflexivity. unfold rtlfopen, cfopen. cbn [negb Z.eqb].
  change (114 =? 114) with true. cbv iota. rewrite A. cbn [bind].
  do 3 eexists. split; [reflexivity|]. split. { split; [|split]. - cbn [objs]. rewrite nth_error_app2, Nat.sub_diag by lia. reflexivity. - cbn [wd streams]. rewrite nth_error_app2, Nat.sub_diag by lia. reflexivity. - reflexivity. }
  auto.
Qed.

Lemma fclose_ok : forall s h k t, isOpen s h k t -> exists s', fclose true s (Some h) true = Ok (s', 0) /\ inodes (wd s') = inodes (wd s) /\ dirs (wd s') = dirs (wd s) /\ objs s' = setn h (Live None) (objs s).
Proof.
  intros s h k t O. unfold fclose, rtlfclose. rewrite (getObj_open _ _ _ _ O). cbn [bind]. unfold cfclose. rewrite (getStream_open _ _ _ _ O). cbn [bind Z.eqb OK]. eexists. split; [reflexivity|]. auto.
Qed.

Lemma roundtrip : forall s nm ds, Forall size_ok ds -> Z.of_nat (length (concat ds)) <= 2147483392 ->
  let h := length (objs s) in
  exists s', run true s ([OOpen (Some nm) [119; 98] true] ++ writes h ds ++ [OClose (Some h) true; OOpen (Some nm) [114; 98] true; OReadAll (Some (S h)) (Z.of_nat (length (concat ds)))])
    = Ok (s', [RFile (Some h) 0] ++ map (fun d => RCount (Z.of_nat (length d)) 0) ds ++ [RCode 0; RFile (Some (S h)) 0; RAll (concat ds) 0]).
Proof.
  intros s nm ds F L h. rewrite run_app. cbn [run step].
  destruct (fopen_w s nm) as (s1 & k & t & E1 & O1 & W & R & La & A & P & I & D & N). rewrite E1. cbn [bind]. fold h in O1, N. rewrite run_app.
  destruct (pieces_ok ds s1 h k t) as (s2 & t2 & outs & E2 & O2 & T2 & -> & I2 & B2 & D2); auto; try congruence. { rewrite I, P. reflexivity. }
  fold (writes h ds). rewrite E2. cbn [bind]. cbn [run step]. destruct (fclose_ok s2 h k t2 O2) as (s3 & E3 & I3 & D3 & B3). rewrite E3. cbn [bind].
  assert (N3 : length (objs s3) = S h) by (rewrite B3, setn_length, B2; auto).
  destruct (fopen_r s3 nm (sino t)) as (s4 & k4 & t4 & E4 & O4 & R4 & K4 & I4 & J4). { rewrite D3, D2. exact D. }
  rewrite E4, N3 in *. cbn [bind]. edestruct (readall_ok s4 (S h) k4 t4) as (s5 & E5 & _); auto.
  2:{ rewrite E5. cbn [bind]. rewrite I4, J4, I3, I2, I. cbn [app]. replace (Z.of_nat (length (concat ds)) <=? 2147483392) with true by lia. eexists. reflexivity. }
  rewrite I4, J4, I3, I2, I. cbn [app]. lia.
Qed.
