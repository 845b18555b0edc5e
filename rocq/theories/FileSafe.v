From Coq Require Import ZArith Lia Bool List ZifyBool.
Import ListNotations.
From Verif Require Import Base BlkModel DynModel FileModel FileSpec FileProofs.
Local Open Scope Z_scope.

Definition good (t : stream) : Prop :=
  (srd t = true -> swr t = false) /\ (srd t = true -> slast t <> LWrite) /\ (swr t = true -> slast t <> LRead).

(** One world after another: the same streams, as open as before. *)
Definition keeps (w w' : world) : Prop :=
  length (streams w') = length (streams w) /\
  forall k t', nth_error (streams w') k = Some t' -> exists t, nth_error (streams w) k = Some t /\ sopen t' = sopen t /\ (good t -> good t').

Lemma keeps_refl : forall w, keeps w w.
Proof. intro w. split; eauto. Qed.
Lemma keeps_set : forall w w' k t t', nth_error (streams w) k = Some t -> streams w' = setn k t' (streams w) -> sopen t' = sopen t -> (good t -> good t') -> keeps w w'.
Proof.
  intros w w' k t t' H E O G. split; rewrite E; [apply setn_length|]. intros j u U. apply setn_nth in U. destruct U as [(-> & ->) | (N & U)]; eauto.
Qed.

Record inv (s : st) : Prop := {
  i_len : (3 <= length (objs s))%nat;
  i_std : forall k, (k < 3)%nat -> exists t, nth_error (streams (wd s)) k = Some t /\ sopen t = true;
  i_obj : forall h k, nth_error (objs s) h = Some (Live (Some k)) -> (exists t, nth_error (streams (wd s)) k = Some t /\ sopen t = true) /\ ((h < 3)%nat -> k = h) /\ ((3 <= h)%nat -> (3 <= k)%nat);
  i_inj : forall h h' k, nth_error (objs s) h = Some (Live (Some k)) -> nth_error (objs s) h' = Some (Live (Some k)) -> h = h';
  i_good : forall k t, nth_error (streams (wd s)) k = Some t -> good t }.

Lemma inv_keeps : forall s w, inv s -> keeps (wd s) w -> inv (MkSt w (objs s)).
Proof.
  intros s w [A B C D E] (L & K). 
  assert (X : forall k, (exists t, nth_error (streams (wd s)) k = Some t /\ sopen t = true) -> exists t, nth_error (streams w) k = Some t /\ sopen t = true).
  { intros k (t & T & O). destruct (nth_error (streams w) k) as [t'|] eqn:T'; [|apply nth_error_None in T'; apply nth_lt in T; lia].
    destruct (K _ _ T') as (u & U & V & _). exists t'. split; auto. rewrite U in T. injection T as ->. congruence. }
  constructor; cbn [objs wd]; auto.
  - intros h k H. destruct (C h k H) as (X1 & X2). auto.
  - intros k t' T. destruct (K _ _ T) as (t & T0 & _ & G). eauto.
Qed.

(** ** The C library on open streams *)
Lemma getStream_inv : forall w k t, getStream w k = Ok t -> nth_error (streams w) k = Some t /\ sopen t = true.
Proof. intros w k t. unfold getStream. destruct (nth_error _ _) as [u|]; [|discriminate]. destruct (sopen u) eqn:E; [|discriminate]. intro H. injection H as ->. auto. Qed.

Definition fine {A} (w : world) (r : outcome (world * A)) : Prop := match r with Ok (w', _) => keeps w w' | Err _ => True | UB => False end.

Lemma cfread_fine : forall w k t buf cnt lim, nth_error (streams w) k = Some t -> sopen t = true -> good t -> 0 <= cnt <= Z.of_nat (length buf) -> fine w (cfread w k buf cnt lim).
Proof.
  intros w k t buf cnt lim T O G C. unfold cfread, getStream. rewrite T, O. cbn [bind]. destruct (srd t) eqn:R; [|cbn; apply keeps_refl]. cbn [negb].
  assert (W : slast t <> LWrite) by (apply G; auto). assert (N : swr t = false) by (apply G; auto).
  unfold toSize. replace (cnt <? 0) with false by lia. set (rest := skipn _ _). set (got := firstn _ _).
  assert (Lg : Z.of_nat (length got) <= cnt) by (unfold got; rewrite firstn_length; lia). clearbody got.
  replace (Z.of_nat (length buf) <? Z.of_nat (length got)) with false by lia.
  destruct (slast t) eqn:La; try congruence; cbn [fine]; (eapply keeps_set; [exact T | reflexivity | rewrite O; reflexivity |]); intros _; unfold good; cbn [srd swr slast]; repeat split; congruence.
Qed.

Lemma cfwrite_fine : forall w k t buf cnt lim, nth_error (streams w) k = Some t -> sopen t = true -> good t -> 0 <= cnt <= Z.of_nat (length buf) -> fine w (cfwrite w k buf cnt lim).
Proof.
  intros w k t buf cnt lim T O G C. unfold cfwrite, getStream. rewrite T, O. cbn [bind]. unfold toSize. replace (cnt <? 0) with false by lia.
  replace (Z.of_nat (length buf) <? cnt) with false by lia. destruct (swr t) eqn:W; [|cbn; apply keeps_refl]. cbn [negb].
  assert (N : slast t <> LRead) by (apply G; auto). assert (R : srd t = false) by (destruct (srd t) eqn:R; auto; destruct G as (G & _); rewrite G in W by auto; congruence).
  destruct (slast t) eqn:La; try congruence; cbn [fine]; (eapply keeps_set; [exact T | reflexivity | rewrite O; reflexivity |]); intros _; unfold good; cbn [srd swr slast]; repeat split; congruence.
Qed.

Lemma cfseek_fine : forall w k t off o, nth_error (streams w) k = Some t -> sopen t = true -> fine w (cfseek w k off o).
Proof.
  intros w k t off o T O. unfold cfseek, getStream. rewrite T, O. cbn [bind]. destruct (negb (sseek t) || _); cbn [fine]; [apply keeps_refl|].
  eapply keeps_set; [exact T | reflexivity | rewrite O; reflexivity |]. intros (G1 & G2 & G3). unfold good; cbn [srd swr slast]. repeat split; auto; congruence.
Qed.

Lemma cfflush_fine : forall w k t, nth_error (streams w) k = Some t -> sopen t = true -> fine w (cfflush w k).
Proof.
  intros w k t T O. unfold cfflush, getStream. rewrite T, O. cbn [bind fine].
  eapply keeps_set; [exact T | reflexivity | rewrite O; reflexivity |]. intros (G1 & G2 & G3). unfold good; cbn [srd swr slast]. repeat split; auto; destruct (slast t); try congruence; intros; auto.
Qed.

(** ** The functions of the runtime *)
Definition safe {A} (r : outcome (st * A)) : Prop := match r with Ok (s', _) => inv s' | Err _ => True | UB => False end.

Lemma safe_bind {A B} : forall (x : outcome (st * A)) (f : st * A -> outcome (st * B)), safe x -> (forall s a, x = Ok (s, a) -> inv s -> safe (f (s, a))) -> safe (bind x f).
Proof. intros [[s a]|e|] f H K; cbn [bind safe] in *; auto. Qed.

Lemma obj_cases : forall s h, inv s -> match getObj s h with Ok (Some k) => exists t, nth_error (objs s) h = Some (Live (Some k)) /\ nth_error (streams (wd s)) k = Some t /\ sopen t = true /\ good t | Ok None => nth_error (objs s) h = Some (Live None) | Err _ => True | UB => False end.
Proof.
  intros s h I. unfold getObj. destruct (nth_error (objs s) h) as [[[k|]|]|] eqn:E; auto. destruct (i_obj s I h k E) as ((t & T & O) & _). exists t. repeat split; auto; eapply i_good; eauto.
Qed.

Lemma fine_safe {A} : forall s (r : outcome (world * A)), inv s -> fine (wd s) r -> safe (bind r (fun '(w, x) => Ok (MkSt w (objs s), x))).
Proof. intros s [[w x]|e|] I F; cbn [bind safe fine] in *; auto. apply inv_keeps; auto. Qed.

Lemma fread_safe : forall en s f b lim, inv s -> careful (ORead f b lim) -> safe (fread en s f b lim).
Proof.
  intros en s f b lim I C. unfold fread. destruct f as [h|]; [|exact I]. 
  assert (X : forall l, size_ok l -> safe (if Z.of_nat (length l) =? 0 then Ok (s, (l, 0, OK)) else let* (s0, (l', size)) := rtlfread en s l (Z.of_nat (length l)) h lim in Ok (s0, (l', size, if size =? Z.of_nat (length l) then OK else EOF)))).
  { intros l S. destruct (Z.of_nat (length l) =? 0) eqn:E; [exact I|]. unfold size_ok in S. apply safe_bind; [|intros s0 [l' size] _ I0; exact I0].
    unfold rtlfread. generalize (obj_cases s h I). destruct en.
    - destruct (getObj s h) as [[k|]|e|]; cbn [bind]; auto. intros (t & H & T & O & G). rewrite s32_id by (unfold INT_MAX, two31 in *; lia). apply fine_safe; auto. eapply cfread_fine; eauto. lia.
    - destruct (getObj s h) as [[k|]|e|]; cbn [bind]; auto. }
  destruct b as [|l|p l]; cbn [dataOf careful] in *.
  - apply X. unfold size_ok. cbn. unfold INT_MAX, two31. lia.
  - apply X; auto.
  - destruct p; [exact I | apply X; auto].
Qed.

Lemma fwrite_safe : forall en s f b lim, inv s -> careful (OWrite f b lim) -> safe (fwrite en s f b lim).
Proof.
  intros en s f b lim I C. unfold fwrite. destruct f as [h|]; [|exact I]. 
  assert (X : forall l, size_ok l -> safe (if Z.of_nat (length l) =? 0 then Ok (s, (0, OK)) else let* (s0, size) := rtlfwrite en s l (Z.of_nat (length l)) h lim in Ok (s0, (size, if size =? Z.of_nat (length l) then OK else EOF)))).
  { intros l S. destruct (Z.of_nat (length l) =? 0) eqn:E; [exact I|]. unfold size_ok in S. apply safe_bind; [|intros s0 size _ I0; exact I0].
    unfold rtlfwrite. generalize (obj_cases s h I). destruct en.
    - destruct (getObj s h) as [[k|]|e|]; cbn [bind]; auto. intros (t & H & T & O & G). rewrite s32_id by (unfold INT_MAX, two31 in *; lia). apply fine_safe; auto. eapply cfwrite_fine; eauto. lia.
    - destruct (getObj s h) as [[k|]|e|]; cbn [bind]; auto. }
  destruct b as [|l|p l]; cbn [dataOf careful] in *.
  - apply X. unfold size_ok. cbn. unfold INT_MAX, two31. lia.
  - apply X; auto.
  - destruct p; [exact I | apply X; auto].
Qed.

Lemma fseek_safe : forall en s f off o, inv s -> safe (fseek en s f off o).
Proof.
  intros en s f off o I. unfold fseek. destruct f as [h|]; [|exact I]. apply safe_bind; [|intros s0 r _ I0; exact I0]. unfold rtlfseek. generalize (obj_cases s h I). destruct en.
  - destruct (getObj s h) as [[k|]|e|]; cbn [bind]; auto. intros (t & H & T & O & G). apply fine_safe; auto. eapply cfseek_fine; eauto.
  - destruct (getObj s h) as [[k|]|e|]; cbn [bind]; auto.
Qed.

Lemma ftell_safe : forall en s f, inv s -> ftell en s f <> UB.
Proof.
  intros en s f I. unfold ftell. destruct f as [h|]; [|discriminate]. unfold rtlftell. generalize (obj_cases s h I).
  destruct (getObj s h) as [[k|]|e|]; cbn [bind]; auto; try discriminate; try (destruct en; discriminate).
  intros (t & H & T & O & G). destruct en; [|discriminate]. unfold cftell, getStream. rewrite T, O. discriminate.
Qed.

Lemma feof_safe : forall en s f, inv s -> feof en s f <> UB.
Proof.
  intros en s f I. unfold feof. destruct f as [h|]; [|discriminate]. unfold rtlfeof. generalize (obj_cases s h I).
  destruct (getObj s h) as [[k|]|e|]; cbn [bind]; auto; try discriminate; try (destruct en; discriminate).
  intros (t & H & T & O & G). destruct en; [|discriminate]. unfold cfeof, getStream. rewrite T, O. discriminate.
Qed.

Lemma fflush_safe : forall s f, inv s -> safe (fflush s f).
Proof.
  intros s f I. unfold fflush. destruct f as [h|]; [|exact I]. apply safe_bind; [|intros s0 r _ I0; exact I0]. unfold rtlfflush. generalize (obj_cases s h I).
  destruct (getObj s h) as [[k|]|e|]; cbn [bind]; auto. intros (t & H & T & O & G). apply fine_safe; auto. eapply cfflush_fine; eauto.
Qed.

Lemma freadall_safe : forall en s f lim, inv s -> safe (freadall en s f lim).
Proof.
  intros en s f lim I. unfold freadall. apply safe_bind; [apply fseek_safe; auto|]. intros s1 e _ I1. destruct (negb (e =? OK)); [exact I1|].
  generalize (ftell_safe en s1 f I1). destruct (ftell en s1 f) as [[size e2]|x|]; cbn [bind]; [|exact (fun _ => Logic.I) | intro H; exfalso; auto]. intros _.
  destruct (negb (e2 =? OK)); [exact I1|]. destruct (_ <? size); [exact I1|]. apply safe_bind; [apply fseek_safe; auto|]. intros s2 e3 _ I2. destruct (negb (e3 =? OK)); [exact I2|].
  destruct (makeChars size) as [l|x|] eqn:M; cbn [bind].
  - apply safe_bind; [apply fread_safe; auto; cbn [careful]; eapply makeChars_small; eauto|]. intros s3 [[d n] e4] _ I3. destruct (negb (e4 =? OK)); exact I3.
  - exact Logic.I.
  - unfold makeChars in M. destruct (_ || _) eqn:R; [discriminate|]. unfold newCap, chk64 in M. rewrite Z.mul_1_r in M.
    replace (in_s64b (2 * (size + 1))) with true in M by (unfold in_s64b, INT64_MIN, INT64_MAX, two63, INT_MAX, two31 in *; lia). cbn [bind] in M. destruct (_ <? chunkSizeFor _) in M; discriminate.
Qed.

(** ** Opening and closing *)
Lemma opened_inv : forall s d ino n e t, inv s -> good t -> sopen t = true ->
  inv (MkSt (MkW d ino n e (streams (wd s) ++ [t])) (objs s ++ [Live (Some (length (streams (wd s))))])).
Proof.
  intros s d ino n e t I G O. 
  assert (L3 : (3 <= length (streams (wd s)))%nat) by (destruct (i_std s I 2%nat) as (u & U & _); [lia | apply nth_lt in U; lia]).
  assert (X : forall k u, nth_error (streams (wd s)) k = Some u -> nth_error (streams (wd s) ++ [t]) k = Some u) by (intros k u U; rewrite nth_error_app1; auto; eapply nth_lt; eauto).
  assert (Y : forall h k, nth_error (objs s ++ [Live (Some (length (streams (wd s))))]) h = Some (Live (Some k)) -> nth_error (objs s) h = Some (Live (Some k)) \/ (h = length (objs s) /\ k = length (streams (wd s)))).
  { intros h k H. destruct (Nat.lt_ge_cases h (length (objs s))) as [L | L].
    - rewrite nth_error_app1 in H by auto. auto.
    - rewrite nth_error_app2 in H by auto. destruct (h - length (objs s))%nat as [|m] eqn:M; [|destruct m; discriminate]. injection H as <-. right. split; [lia | auto]. }
  destruct I as [A B C D E]. constructor; cbn [objs wd streams].
  - rewrite app_length. lia.
  - intros k K. destruct (B k K) as (u & U & V). eauto.
  - intros h k H. destruct (Y h k H) as [H1 | (-> & ->)].
    + destruct (C h k H1) as ((u & U & V) & W). eauto.
    + split; [|split; lia]. exists t. split; auto. rewrite nth_error_app2, Nat.sub_diag by lia. reflexivity.
  - intros h h' k H H'. destruct (Y h k H) as [H1 | (-> & ->)], (Y h' _ H') as [H2 | (-> & K2)]; auto.
    + eauto.
    + subst k. destruct (C _ _ H1) as ((u & U & _) & _). apply nth_lt in U. lia.
    + destruct (C _ _ H2) as ((u & U & _) & _). apply nth_lt in U. lia.
  - intros k u U. destruct (Nat.lt_ge_cases k (length (streams (wd s)))) as [L | L].
    + rewrite nth_error_app1 in U by auto. eauto.
    + rewrite nth_error_app2 in U by auto. destruct (k - length (streams (wd s)))%nat as [|m]; [injection U as <-; auto | destruct m; discriminate].
Qed.

Lemma modes_start : forall mode, existsb (eqs mode) modes = true -> exists c r, mode = c :: r /\ (c = 114 \/ c = 119 \/ c = 97).
Proof.
  intros mode H. apply existsb_exists in H. destruct H as (m & M & E). unfold eqs in E. destruct (list_eq_dec Z.eq_dec mode m) as [-> |]; [|discriminate].
  cbn [In modes] in M. repeat (destruct M as [<- | M]; [do 2 eexists; split; [reflexivity | auto]|]). contradiction.
Qed.

Lemma fopen_safe : forall en s name mode ok, inv s -> careful (OOpen name mode ok) -> safe (fopen en s name mode ok).
Proof.
  intros en s name mode ok I (N & P). unfold fopen. destruct (existsb (eqs mode) modes) eqn:M; [|exact I]. apply modes_start in M. destruct M as (c & r & -> & C).
  apply safe_bind; [|intros s0 f _ I0; exact I0]. unfold rtlfopen. destruct en; [|exact I]. destruct name as [nm|]; [|congruence]. unfold cfopen.
  assert (Q : hasPlus (c :: r) = false). { unfold hasPlus. destruct (existsb (Z.eqb 43) (c :: r)) eqn:E; auto. apply existsb_exists in E. destruct E as (x & X & Y). apply Z.eqb_eq in Y. subst x. contradiction. }
  rewrite Q. assert (G1 : forall i, good (MkS i 0 true false false true false LNone true)) by (intro i; unfold good; cbn; repeat split; congruence).
  assert (G2 : forall i a, good (MkS i 0 false true a true false LNone true)) by (intros i a; unfold good; cbn; repeat split; congruence).
  destruct ok; cbn [negb].
  - destruct C as [-> | [-> | ->]]; cbn [Z.eqb Pos.eqb]; destruct (assoc nm (dirs (wd s))) as [i|]; cbn [bind safe streams setInode dirs inodes inext env]; try (destruct s; exact I); apply opened_inv; auto.
  - destruct C as [-> | [-> | ->]]; cbn [Z.eqb Pos.eqb orb bind safe]; destruct s; exact I.
Qed.

Lemma closed_inv : forall s h k t x, inv s -> (3 <= h)%nat -> nth_error (objs s) h = Some (Live (Some k)) -> nth_error (streams (wd s)) k = Some t -> (x = Live None \/ x = Gone) ->
  inv (MkSt (setStream (wd s) k (MkS (sino t) (spos t) (srd t) (swr t) (sapp t) (sseek t) (seof t) (slast t) false)) (setn h x (objs s))).
Proof.
  intros s h k t x I H3 H T X. destruct I as [A B C D E]. destruct (C h k H) as (_ & _ & K3).
  assert (Y : forall h' k', nth_error (setn h x (objs s)) h' = Some (Live (Some k')) -> h' <> h /\ nth_error (objs s) h' = Some (Live (Some k'))).
  { intros h' k' Q. apply setn_nth in Q. destruct Q as [(_ & Q) | (Q & R)]; [destruct X; subst x; discriminate | auto]. }
  constructor; cbn [objs wd streams setStream].
  - rewrite setn_length. auto.
  - intros j J. rewrite setn_other by (specialize (K3 H3); lia). auto.
  - intros h' k' Q. destruct (Y h' k' Q) as (N & Q'). destruct (C _ _ Q') as (U & W). split; auto. rewrite setn_other; auto. intro E0. subst k'. apply N. eauto.
  - intros h1 h2 j Q1 Q2. destruct (Y _ _ Q1), (Y _ _ Q2). eauto.
  - intros j u U. apply setn_nth in U. destruct U as [(_ & ->) | (_ & U)]; eauto. apply E in T. exact T.
Qed.

Lemma gone_inv : forall s h, inv s -> inv (MkSt (wd s) (setn h Gone (objs s))).
Proof.
  intros s h I. destruct I as [A B C D E].
  assert (Y : forall h' k', nth_error (setn h Gone (objs s)) h' = Some (Live (Some k')) -> nth_error (objs s) h' = Some (Live (Some k'))).
  { intros h' k' Q. apply setn_nth in Q. destruct Q as [(_ & Q) | (Q & R)]; [discriminate | auto]. }
  constructor; cbn [objs wd]; eauto. rewrite setn_length. auto.
Qed.

Lemma std_inv : forall s n, inv s -> (n < 3)%nat -> inv (MkSt (wd s) (setn n (Live (Some n)) (objs s))).
Proof.
  intros s n I N. destruct I as [A B C D E].
  assert (Y : forall h' k', nth_error (setn n (Live (Some n)) (objs s)) h' = Some (Live (Some k')) -> (h' = n /\ k' = n) \/ (h' <> n /\ nth_error (objs s) h' = Some (Live (Some k')))).
  { intros h' k' Q. apply setn_nth in Q. destruct Q as [(-> & Q) | (Q & R)]; [injection Q as ->; auto | auto]. }
  constructor; cbn [objs wd]; auto.
  - rewrite setn_length. auto.
  - intros h k Q. destruct (Y _ _ Q) as [(-> & ->) | (_ & Q')]; [|auto]; split; [auto | split; [auto | lia]].
  - intros h h' k Q Q'. destruct (Y _ _ Q) as [(-> & ->) | (X1 & X2)], (Y _ _ Q') as [(-> & K) | (Y1 & Y2)]; eauto.
    + destruct (C _ _ Y2) as (_ & P1 & P2). destruct (Nat.lt_ge_cases h' 3) as [L | L]; [specialize (P1 L) | specialize (P2 L)]; lia.
    + subst k. destruct (C _ _ X2) as (_ & P1 & P2). destruct (Nat.lt_ge_cases h 3) as [L | L]; [specialize (P1 L) | specialize (P2 L)]; lia.
Qed.

Lemma step_safe : forall en o s, inv s -> careful o -> safe (step en s o).
Proof.
  intros en o s I C. destruct o; cbn [step].
  - destruct (Nat.ltb n 3) eqn:N; [|exact Logic.I]. apply std_inv; auto. lia.
  - apply safe_bind; [apply fopen_safe; auto | intros ? [? ?] _ I0; exact I0].
  - apply safe_bind; [|intros ? ? _ I0; exact I0]. unfold fclose. destruct f as [h|]; [|exact I]. apply safe_bind; [|intros ? ? _ I0; exact I0]. unfold rtlfclose. generalize (obj_cases s h I). destruct en.
    + destruct (getObj s h) as [[k|]|e|]; cbn [bind]; auto. intros (t & H & T & O & G). unfold cfclose, getStream. rewrite T, O. cbn [bind safe]. apply closed_inv; auto.
    + destruct (getObj s h) as [[k|]|e|]; cbn [bind]; auto.
  - apply safe_bind; [apply fseek_safe; auto | intros ? ? _ I0; exact I0].
  - generalize (ftell_safe en s f I). destruct (ftell en s f) as [[? ?]|e|]; cbn [bind safe]; auto.
  - apply safe_bind; [|intros ? ? _ I0; exact I0]. unfold remove. apply safe_bind; [|intros ? ? _ I0; exact I0]. unfold rtlremove. destruct en; [|exact I]. apply fine_safe; auto. unfold cremove.
    cbn [careful] in C. destruct name as [nm|]; [|congruence]. destruct (assoc nm (dirs (wd s))); [destruct ok|]; cbn [fine]; split; cbn [streams]; eauto.
  - generalize (feof_safe en s f I). destruct (feof en s f) as [?|e|]; cbn [bind safe]; auto.
  - apply safe_bind; [apply fflush_safe; auto | intros ? ? _ I0; exact I0].
  - apply safe_bind; [apply fread_safe; auto | intros ? [[? ?] ?] _ I0; exact I0].
  - apply safe_bind; [apply freadall_safe; auto | intros ? [? ?] _ I0; exact I0].
  - apply safe_bind; [apply fwrite_safe; auto | intros ? [? ?] _ I0; exact I0].
  - apply safe_bind; [|intros ? ? _ I0; exact I0]. unfold fprint. destruct f as [h|]; cbn [bind]; [|destruct en; exact Logic.I]. generalize (obj_cases s h I).
    destruct (getObj s h) as [[k|]|e|]; cbn [bind]; auto; [|destruct en; exact (fun _ => Logic.I)]. intros (t & H & T & O & G). destruct en; [|exact Logic.I]. unfold getStream at 1. rewrite T, O. cbn [bind].
    destruct (swr t); [|exact I]. apply fine_safe; auto. eapply cfwrite_fine; eauto. lia.
  - apply safe_bind; [|intros ? ? _ I0; exact I0]. unfold print. destruct (i_std s I 1%nat) as (t & T & O); [lia|]. apply fine_safe; auto. eapply cfwrite_fine; eauto; [eapply i_good; eauto | lia].
  - unfold rtlgetenv. destruct en; [|exact I]. cbn [careful] in C. destruct name; [exact I | congruence].
  - unfold dropFile. destruct (Nat.ltb h 3) eqn:N; [exact I|]. generalize (obj_cases s h I). destruct (getObj s h) as [[k|]|e|]; cbn [bind]; auto.
    + intros (t & H & T & O & G). unfold cfclose, getStream. rewrite T, O. cbn [bind safe]. apply closed_inv; auto. lia.
    + intros _. apply gone_inv; auto.
Qed.

Lemma run_safe : forall en ops s, inv s -> Forall careful ops -> safe (run en s ops).
Proof.
  induction ops as [|o r IH]; intros s I F; cbn [run]; [exact I|]. inversion F; subst. apply safe_bind; [apply step_safe; auto|]. intros s1 x _ I1. apply safe_bind; [auto|]. intros s2 xs _ I2. exact I2.
Qed.

Lemma init_inv : forall d f n e, inv (init d f n e).
Proof.
  intros d f n e. constructor; cbn [objs wd streams init].
  - cbn. lia.
  - intros [|[|[|k]]] K; try lia; eexists; split; reflexivity.
  - intros [|[|[|h]]] k H; cbn in H; try discriminate. destruct h; discriminate.
  - intros [|[|[|h]]] h' k H; cbn in H; try discriminate. destruct h; discriminate.
  - intros [|[|[|k]]] t T; cbn in T; try (injection T as <-; unfold good; cbn; repeat split; congruence). destruct k; discriminate.
Qed.

Lemma careful_no_ub : forall en d f n e ops, Forall careful ops -> run en (init d f n e) ops <> UB.
Proof. intros en d f n e ops F H. generalize (run_safe en ops _ (init_inv d f n e) F). rewrite H. auto. Qed.

(** ** Closed files *)
Lemma closed_refuses : forall en s h o, nth_error (objs s) h = Some (Live None) -> onFile h o -> exists r, step en s o = Ok (s, r) /\ refuses h o r.
Proof.
  intros en s h o H F. assert (G : getObj s h = Ok None) by (unfold getObj; rewrite H; reflexivity).
  assert (Sk : forall off org, fseek en s (Some h) off org = Ok (s, EOF)) by (intros; unfold fseek, rtlfseek; rewrite G; destruct en; reflexivity).
  destruct o; cbn [onFile] in F; try contradiction; destruct f as [h'|]; try contradiction; subst h'; cbn [step refuses].
  - unfold fclose, rtlfclose. rewrite G. destruct en; eexists; split; try reflexivity.
  - rewrite Sk. eexists. split; reflexivity.
  - unfold ftell, rtlftell. rewrite G. destruct en; eexists; split; try reflexivity.
  - unfold feof, rtlfeof. rewrite G. destruct en; eexists; split; try reflexivity.
  - unfold fflush, rtlfflush. rewrite G. eexists; split; try reflexivity.
  - unfold fread, rtlfread. rewrite G. destruct b as [|l|p l]; cbn [dataOf].
    + eexists. split; [reflexivity | exact I].
    + destruct (Z.of_nat (length l) =? 0) eqn:E.
      * eexists. split; [reflexivity|]. destruct l; [congruence | cbn in E; lia].
      * destruct en; (eexists; split; [reflexivity|]; intros _ _; change (0 =? Z.of_nat (length l)) with (0 =? Z.of_nat (length l)); rewrite Z.eqb_sym, E; reflexivity).
    + destruct p; [eexists; split; [reflexivity | exact I]|]. destruct (Z.of_nat (length l) =? 0); [|destruct en]; (eexists; split; [reflexivity | exact I]).
  - unfold freadall. rewrite Sk. eexists. split; reflexivity.
  - unfold fwrite, rtlfwrite. rewrite G. destruct b as [|l|p l]; cbn [dataOf].
    + eexists. split; [reflexivity | exact I].
    + destruct (Z.of_nat (length l) =? 0) eqn:E.
      * eexists. split; [reflexivity|]. destruct l; [congruence | cbn in E; lia].
      * destruct en; (eexists; split; [reflexivity|]; intros _ _; rewrite Z.eqb_sym, E; reflexivity).
    + destruct p; [eexists; split; [reflexivity | exact I]|]. destruct (Z.of_nat (length l) =? 0); [|destruct en]; (eexists; split; [reflexivity | exact I]).
Qed.

(** Nothing but releasing the last reference changes a closed file. *)
Ltac crack1 := match goal with
  | H : bind ?x _ = Ok _ |- _ => let E := fresh "E" in destruct x as [?|?|] eqn:E; cbn [bind] in H; [|discriminate H|discriminate H]
  | H : Ok _ = Ok _ |- _ => injection H; clear H; intros; subst
  | H : Err _ = Ok _ |- _ => discriminate H
  | H : (let (_, _) := ?p in _) = Ok _ |- _ => destruct p
  | H : (if ?b then _ else _) = Ok _ |- _ => destruct b eqn:?
  | H : match ?x with _ => _ end = Ok _ |- _ => destruct x eqn:?
  end.
Ltac crack H := repeat crack1.

Definition same (h : nat) (s s' : st) : Prop := nth_error (objs s) h = Some (Live None) -> nth_error (objs s') h = Some (Live None).
Lemma app_same : forall (l : list obj) x h y, nth_error l h = Some y -> nth_error (l ++ [x]) h = Some y.
Proof. intros. rewrite nth_error_app1; auto. eapply nth_lt; eauto. Qed.

Lemma step_same : forall en h o s s' r, (3 <= h)%nat -> (forall ok, o <> ODrop h ok) -> step en s o = Ok (s', r) -> same h s s'.
Proof.
  intros en h o s s' r H3 N H S. 
  assert (Sk : forall s f off org s' e, fseek en s f off org = Ok (s', e) -> objs s' = objs s) by (intros; unfold fseek, rtlfseek in *; destruct f; crack H0; reflexivity).
  assert (Rd : forall s f b lim s' e, fread en s f b lim = Ok (s', e) -> objs s' = objs s) by (intros; unfold fread, rtlfread in *; destruct f; crack H0; reflexivity).
  destruct o; cbn [step] in H.
  - destruct (Nat.ltb n 3) eqn:L; [|discriminate]. unfold rtlstd in H. injection H as <- <-. cbn [objs]. rewrite setn_other by lia. auto.
  - unfold fopen, rtlfopen in H. crack H; cbn [objs]; auto using app_same.
  - unfold fclose, rtlfclose in H. crack H; cbn [objs]; auto;
    (match goal with |- nth_error (setn ?n _ _) _ = _ => destruct (Nat.eq_dec n h) as [-> | Q]; [|rewrite setn_other by auto; auto] end; apply setn_same; eapply nth_lt; eauto).
  - crack H. apply Sk in E. cbn [objs]. congruence.
  - crack H. auto.
  - unfold remove, rtlremove in H. crack H; cbn [objs]; auto.
  - crack H. auto.
  - unfold fflush, rtlfflush in H. crack H; cbn [objs]; auto.
  - crack H. apply Rd in E. cbn [objs]. congruence.
  - unfold freadall in H. crack H; repeat match goal with E : fseek _ _ _ _ _ = _ |- _ => apply Sk in E | E : fread _ _ _ _ _ = _ |- _ => apply Rd in E end; congruence.
  - unfold fwrite, rtlfwrite in H. crack H; cbn [objs]; auto.
  - unfold fprint in H. crack H; cbn [objs]; auto.
  - unfold print in H. crack H; cbn [objs]; auto.
  - crack H. auto.
  - assert (h0 <> h) by (intro; subst; eapply N; reflexivity). unfold dropFile in H. crack H; cbn [objs]; auto; rewrite setn_other by auto; auto.
Qed.

Lemma run_same : forall en h ops s s' rs, (3 <= h)%nat -> (forall ok, ~ In (ODrop h ok) ops) -> run en s ops = Ok (s', rs) -> same h s s'.
Proof.
  induction ops as [|o r IH]; intros s s' rs H3 N H; cbn [run] in H; [injection H as <- <-; intro; auto|].
  destruct (step en s o) as [[s1 x]|e|] eqn:E; cbn [bind] in H; try discriminate. destruct (run en s1 r) as [[s2 xs]|e|] eqn:E2; cbn [bind] in H; try discriminate. injection H as <- <-.
  intro S. eapply IH; eauto; [intros ok F; apply (N ok); right; auto|]. eapply step_same; eauto. intros ok F. apply (N ok). left. auto.
Qed.

(** ** The sandbox *)
(** What both worlds have in common, and what a world keeps of its files. *)
Record alike (s1 s2 : st) : Prop := {
  a_objs : objs s1 = objs s2;
  a_str : streams (wd s1) = streams (wd s2);
  a_len : length (streams (wd s1)) = 3%nat;
  a_open : forall k t, nth_error (streams (wd s1)) k = Some t -> sopen t = true;
  a_out : forall t, nth_error (streams (wd s1)) 1 = Some t -> swr t = true /\ sapp t = false /\ slast t <> LRead /\ sino t = 1%nat;
  a_obj : forall h k, nth_error (objs s1) h = Some (Live (Some k)) -> (k < 3)%nat }.

Definition keptFiles (s s' : st) : Prop := dirs (wd s') = dirs (wd s) /\ env (wd s') = env (wd s) /\ forall i, i <> 1%nat -> inodes (wd s') i = inodes (wd s) i.
Lemma kept_refl : forall s, keptFiles s s.
Proof. intro. repeat split. Qed.

Definition agree (s1 s2 : st) {A} (r1 r2 : outcome (st * A)) : Prop :=
  match r1, r2 with
  | Ok (t1, x1), Ok (t2, x2) => x1 = x2 /\ alike t1 t2 /\ keptFiles s1 t1 /\ keptFiles s2 t2
  | Err a, Err b => a = b
  | _, _ => False
  end.

Lemma agree_here {A} : forall s1 s2 (x : A), alike s1 s2 -> agree s1 s2 (Ok (s1, x)) (Ok (s2, x)).
Proof. intros. cbn. auto using kept_refl. Qed.

Lemma obj_alike : forall s1 s2 h, alike s1 s2 -> getObj s1 h = getObj s2 h.
Proof. intros s1 s2 h A. unfold getObj. rewrite (a_objs _ _ A). reflexivity. Qed.
Lemma obj_noub : forall s h, getObj s h <> UB.
Proof. intros. unfold getObj. destruct (nth_error _ _) as [[?|]|]; discriminate. Qed.

(** Functions that look at nothing but the objects. *)
Lemma agree_obj {A B} : forall s1 s2 h (f : A -> B) (c : option nat -> A), alike s1 s2 ->
  agree s1 s2 (let* x := getObj s1 h in Ok (s1, f (c x))) (let* x := getObj s2 h in Ok (s2, f (c x))).
Proof.
  intros s1 s2 h f c A0. rewrite <- (obj_alike s1 s2 h A0). generalize (obj_noub s1 h). destruct (getObj s1 h); cbn [bind]; intro N; [apply agree_here; auto | reflexivity | congruence].
Qed.

Lemma alike_setStream : forall s1 s2 k t t' w1 w2, alike s1 s2 -> nth_error (streams (wd s1)) k = Some t -> sopen t' = true -> (k = 1%nat -> swr t' = true /\ sapp t' = false /\ slast t' <> LRead /\ sino t' = 1%nat) ->
  streams w1 = setn k t' (streams (wd s1)) -> streams w2 = setn k t' (streams (wd s2)) -> alike (MkSt w1 (objs s1)) (MkSt w2 (objs s2)).
Proof.
  intros s1 s2 k t t' w1 w2 [A B C D E F] T O K W1 W2. constructor; cbn [objs wd]; auto.
  - rewrite W1, W2, B. reflexivity.
  - rewrite W1, setn_length. auto.
  - rewrite W1. intros j u U. apply setn_nth in U. destruct U as [(_ & ->) | (_ & U)]; eauto.
  - rewrite W1. intros u U. apply setn_nth in U. destruct U as [(-> & ->) | (_ & U)]; eauto.
Qed.

Lemma print_agree : forall s1 s2 text lim, alike s1 s2 -> agree s1 s2 (print s1 text lim) (print s2 text lim).
Proof.
  intros s1 s2 text lim A. unfold print, cfwrite, getStream. rewrite <- (a_str _ _ A).
  destruct (nth_error (streams (wd s1)) 1) as [t|] eqn:T; [|apply nth_error_None in T; rewrite (a_len _ _ A) in T; lia].
  rewrite (a_open _ _ A _ _ T). cbn [bind]. destruct (a_out _ _ A t T) as (W & P & L & I). rewrite W. cbn [negb]. unfold toSize. replace (Z.of_nat (length text) <? 0) with false by lia. rewrite Z.ltb_irrefl.
  assert (D : forall X (x y : X), match slast t, seof t with LRead, false => x | _, _ => y end = y) by (intros; destruct (slast t); congruence).
  rewrite !D. cbn [bind agree]. split; [reflexivity|]. rewrite P. split; [|split].
  - eapply alike_setStream; [exact A | exact T | | | reflexivity | cbn; rewrite <- (a_str _ _ A); reflexivity]; [reflexivity | intros _; cbn; repeat split; auto; congruence].
  - repeat split. intros i N. cbn. rewrite I. destruct (Nat.eqb_spec i 1); congruence.
  - repeat split. intros i N. cbn. rewrite I. destruct (Nat.eqb_spec i 1); congruence.
Qed.

Lemma flush_agree : forall s1 s2 f, alike s1 s2 -> agree s1 s2 (fflush s1 f) (fflush s2 f).
Proof.
  intros s1 s2 f A. unfold fflush. destruct f as [h|]; [|apply agree_here; auto]. unfold rtlfflush. rewrite <- (obj_alike s1 s2 h A). generalize (obj_noub s1 h).
  destruct (getObj s1 h) as [[k|]|e|] eqn:G; cbn [bind]; intro N; [| apply agree_here; auto | reflexivity | congruence].
  unfold cfflush, getStream. rewrite <- (a_str _ _ A).
  assert (K : (k < 3)%nat). { unfold getObj in G. destruct (nth_error (objs s1) h) as [[x|]|] eqn:H; try discriminate. injection G as ->. eapply a_obj; eauto. }
  destruct (nth_error (streams (wd s1)) k) as [t|] eqn:T; [|apply nth_error_None in T; rewrite (a_len _ _ A) in T; lia].
  rewrite (a_open _ _ A _ _ T). cbn [bind Z.eqb agree]. split; [reflexivity|]. split; [|split; repeat split].
  eapply alike_setStream; [exact A | exact T | | | reflexivity | cbn; rewrite <- (a_str _ _ A); reflexivity]; [reflexivity|]. intros ->. destruct (a_out _ _ A t T) as (W & P & L & I). cbn. repeat split; auto. destruct (slast t); congruence.
Qed.

Lemma drop_agree : forall s1 s2 h ok, alike s1 s2 -> (length (objs s1) <= 3)%nat -> agree s1 s2 (let* s := dropFile s1 h ok in Ok (s, RNone)) (let* s := dropFile s2 h ok in Ok (s, RNone)).
Proof.
  intros s1 s2 h ok A L. unfold dropFile. destruct (Nat.ltb h 3) eqn:H; [apply agree_here; auto|]. rewrite <- (obj_alike s1 s2 h A). unfold getObj. replace (nth_error (objs s1) h) with (@None obj) by (symmetry; apply nth_error_None; lia). reflexivity.
Qed.

Lemma step_agree : forall o s1 s2, alike s1 s2 -> (length (objs s1) <= 3)%nat -> agree s1 s2 (step false s1 o) (step false s2 o).
Proof.
  intros o s1 s2 A L. assert (H := agree_here (A := out) s1 s2).
  assert (N := obj_noub s1). assert (G := fun h => obj_alike s1 s2 h A).
  destruct o; cbn [step].
  - destruct (Nat.ltb n 3) eqn:Q; [|reflexivity]. cbn [rtlstd agree]. split; [reflexivity|]. split; [|split; repeat split]. destruct A as [A B C D E F]. constructor; cbn [objs wd]; auto; [congruence|].
    intros h k K. apply setn_nth in K. destruct K as [(_ & K) | (_ & K)]; [injection K as ->; lia | eauto].
  - unfold fopen. destruct (existsb _ _); cbn; auto using kept_refl.
  - unfold fclose, rtlfclose. destruct f as [h|]; [|apply H; exact A]. rewrite <- G. specialize (N h). destruct (getObj s1 h); cbn [bind]; [apply H; exact A | reflexivity | congruence].
  - unfold fseek, rtlfseek. destruct f as [h|]; [|apply H; exact A]. rewrite <- G. specialize (N h). destruct (getObj s1 h); cbn [bind]; [apply H; exact A | reflexivity | congruence].
  - unfold ftell, rtlftell. destruct f as [h|]; [|apply H; exact A]. rewrite <- G. specialize (N h). destruct (getObj s1 h); cbn [bind]; [apply H; exact A | reflexivity | congruence].
  - unfold remove, rtlremove. cbn [bind]. apply H; exact A.
  - unfold feof, rtlfeof. destruct f as [h|]; [|apply H; exact A]. rewrite <- G. specialize (N h). destruct (getObj s1 h); cbn [bind]; [apply H; exact A | reflexivity | congruence].
  - generalize (flush_agree s1 s2 f A). destruct (fflush s1 f) as [[? ?]|?|], (fflush s2 f) as [[? ?]|?|]; cbn [agree bind]; try contradiction; auto. intros (-> & R). auto.
  - unfold fread. destruct f as [h|]; [|apply H; exact A]. destruct (dataOf b) as [l|c]; [|apply H; exact A]. destruct (_ =? 0); [apply H; exact A|]. unfold rtlfread. rewrite <- G. specialize (N h). destruct (getObj s1 h); cbn [bind]; [apply H; exact A | reflexivity | congruence].
  - unfold freadall, fseek, rtlfseek. destruct f as [h|]; [|apply H; exact A]. rewrite <- G. specialize (N h). destruct (getObj s1 h); cbn [bind Z.eqb negb]; [apply H; exact A | reflexivity | congruence].
  - unfold fwrite. destruct f as [h|]; [|apply H; exact A]. destruct (dataOf b) as [l|c]; [|apply H; exact A]. destruct (_ =? 0); [apply H; exact A|]. unfold rtlfwrite. rewrite <- G. specialize (N h). destruct (getObj s1 h); cbn [bind]; [apply H; exact A | reflexivity | congruence].
  - unfold fprint. destruct f as [h|]; [|reflexivity]. rewrite <- G. specialize (N h). destruct (getObj s1 h); cbn [bind]; [reflexivity | reflexivity | congruence].
  - generalize (print_agree s1 s2 text lim A). destruct (print s1 text lim) as [[? ?]|?|], (print s2 text lim) as [[? ?]|?|]; cbn [agree bind]; try contradiction; auto. intros (-> & R). auto.
  - cbn [rtlgetenv bind]. apply H; exact A.
  - apply drop_agree; auto.
Qed.

Lemma sandbox_len : forall o s s' r, step false s o = Ok (s', r) -> length (objs s') = length (objs s) \/ exists h ok, o = ODrop h ok.
Proof.
  intros o s s' r H. destruct o; cbn [step] in H; try (right; eauto; fail); left.
  - destruct (Nat.ltb n 3); [|discriminate]. injection H as <- <-. apply setn_length.
  - unfold fopen, rtlfopen in H. crack H; reflexivity.
  - unfold fclose, rtlfclose in H. crack H; reflexivity.
  - unfold fseek, rtlfseek in H. crack H; reflexivity.
  - crack H. reflexivity.
  - unfold remove, rtlremove in H. crack H; reflexivity.
  - crack H. reflexivity.
  - unfold fflush, rtlfflush in H. crack H; reflexivity.
  - unfold fread, rtlfread in H. crack H; reflexivity.
  - unfold freadall, fseek, rtlfseek in H. destruct f as [h|]; cbn [bind] in H; [destruct (getObj s h); cbn [bind] in H|]; try discriminate; injection H as <- <-; reflexivity.
  - unfold fwrite, rtlfwrite in H. crack H; reflexivity.
  - unfold fprint in H. crack H; discriminate.
  - unfold print in H. crack H; reflexivity.
  - crack H. reflexivity.
Qed.

Lemma drop_len : forall s h ok s', (length (objs s) <= 3)%nat -> dropFile s h ok = Ok s' -> s' = s.
Proof. intros s h ok s' L. unfold dropFile. destruct (Nat.ltb h 3) eqn:H; [intro E; injection E; auto|]. unfold getObj. replace (nth_error (objs s) h) with (@None obj) by (symmetry; apply nth_error_None; lia). discriminate. Qed.

Lemma run_agree : forall ops s1 s2, alike s1 s2 -> (length (objs s1) <= 3)%nat -> agree s1 s2 (run false s1 ops) (run false s2 ops).
Proof.
  induction ops as [|o r IH]; intros s1 s2 A L; cbn [run]; [apply agree_here; auto|]. generalize (step_agree o s1 s2 A L).
  destruct (step false s1 o) as [[t1 x1]|e1|] eqn:E1, (step false s2 o) as [[t2 x2]|e2|] eqn:E2; cbn [agree bind]; try contradiction; auto. intros (-> & A' & K1 & K2).
  assert (L' : (length (objs t1) <= 3)%nat). { destruct (sandbox_len _ _ _ _ E1) as [Q | (h & ok & ->)]; [lia|]. cbn [step] in E1. destruct (dropFile s1 h ok) eqn:D; cbn [bind] in E1; try discriminate. apply drop_len in D; auto. injection E1 as <- <-. subst. auto. }
  specialize (IH t1 t2 A' L'). destruct (run false t1 r) as [[u1 y1]|e1|], (run false t2 r) as [[u2 y2]|e2|]; cbn [agree bind] in *; try contradiction; auto.
  destruct IH as (-> & A'' & K1' & K2'). split; [reflexivity|]. split; [auto|].
  destruct K1 as (P1 & P2 & P3), K2 as (Q1 & Q2 & Q3), K1' as (P1' & P2' & P3'), K2' as (Q1' & Q2' & Q3').
  split; (split; [congruence | split; [congruence|]]); intros i N; [rewrite P3', P3 by auto | rewrite Q3', Q3 by auto]; reflexivity.
Qed.

Lemma init_alike : forall d1 f1 n1 e1 d2 f2 n2 e2, alike (init d1 f1 n1 e1) (init d2 f2 n2 e2).
Proof.
  intros. constructor; cbn [objs wd streams init]; auto.
  - intros [|[|[|k]]] t T; cbn in T; try (injection T as <-; reflexivity). destruct k; discriminate.
  - intros t T. cbn in T. injection T as <-. cbn. repeat split; congruence.
  - intros [|[|[|h]]] k H; cbn in H; try discriminate. destruct h; discriminate.
Qed.

Lemma sandbox_thm : forall ops d1 f1 n1 e1 d2 f2 n2 e2,
  match run false (init d1 f1 n1 e1) ops, run false (init d2 f2 n2 e2) ops with
  | Ok (s1, x1), Ok (s2, x2) => x1 = x2 /\ dirs (wd s1) = d1 /\ forall i, i <> 1%nat -> inodes (wd s1) i = f1 i
  | Err a, Err b => a = b
  | _, _ => False
  end.
Proof.
  intros. generalize (run_agree ops _ _ (init_alike d1 f1 n1 e1 d2 f2 n2 e2)). cbn [objs init length]. intro H. specialize (H ltac:(lia)).
  destruct (run false (init d1 f1 n1 e1) ops) as [[s1 x1]|?|], (run false (init d2 f2 n2 e2) ops) as [[s2 x2]|?|]; cbn [agree] in H; try contradiction; auto.
  destruct H as (-> & _ & (K & _ & K2) & _). auto.
Qed.
