From Coq Require Import ZArith Lia Bool List ZifyBool.
From Verif Require Import Base PathModel PathSpec.
Import ListNotations.
Local Open Scope list_scope.
Local Open Scope Z_scope.
Ltac Zify.zify_post_hook ::= Z.div_mod_to_equations.

Definition init : ps := mkps [] [] 0.
Lemma pathLoop_app size a : forall b p, pathLoop size (a ++ b) p = let* q := pathLoop size a p in match q with Some p => pathLoop size b p | None => Ok None end.
Proof.
  induction a as [|c a IH]; intros b p; [reflexivity|]. cbn [app pathLoop]. destruct (pathStep size p c) as [[q|]| |]; cbn [bind]; try reflexivity. apply IH.
Qed.
Lemma wrDots_ok d : forall size o s, Z.of_nat (length o) + Z.of_nat d <= size -> wrDots d size (mkps o s (Z.of_nat d)) = Ok (mkps (o ++ repeat 46 d) s 0).
Proof.
  induction d as [|d IH]; intros size o s H; [cbn; rewrite app_nil_r; reflexivity|]. cbn [wrDots]. unfold wr. cbn [out seps dots]. replace (_ <? size) with true by lia. cbn [bind out seps dots]. replace (Z.of_nat (S d) - 1) with (Z.of_nat d) by lia. rewrite IH by (rewrite app_length; cbn [length]; lia). cbn [repeat]. rewrite <- app_assoc. reflexivity.
Qed.
Definition isSep (c : Z) : bool := (c =? 47) || (c =? 92).
Definition isBlank (c : Z) : bool := (c =? 32) || (c =? 9).
(** One ordinary character after [d] dots. *)
Lemma step_char size o s d c : isSep c = false -> c <> 46 -> 0 <= d -> Z.of_nat (length o) + d < size ->
  pathStep size (mkps o s d) c = Ok (Some (mkps (o ++ repeat 46 (Z.to_nat (if isBlank c then 0 else d)) ++ [c]) s 0)).
Proof.
  intros H1 H2 H3 H4. unfold pathStep. fold (isSep c). rewrite H1. replace (c =? 46) with false by lia. fold (isBlank c). cbn [out seps dots]. destruct (isBlank c).
  - cbn [dots]. change (Z.to_nat 0) with O. cbn [wrDots bind repeat app]. unfold wr. cbn [out seps dots]. replace (_ <? size) with true by lia. reflexivity.
  - cbn [dots]. replace (mkps o s d) with (mkps o s (Z.of_nat (Z.to_nat d))) by (f_equal; lia). rewrite wrDots_ok by lia. cbn [bind]. unfold wr. cbn [out seps dots]. rewrite app_length, repeat_length. replace (_ <? size) with true by lia. cbn [bind]. rewrite <- app_assoc. reflexivity.
Qed.
Lemma step_sep size o s d c : isSep c = true -> d <> 1 -> d <> 2 -> Z.of_nat (length o) < size -> Z.of_nat (length s) < size ->
  pathStep size (mkps o s d) c = Ok (Some (mkps (o ++ [47]) (s ++ [Z.of_nat (length o)]) 0)).
Proof.
  intros H1 H2 H3 H4 H5. unfold pathStep. fold (isSep c). rewrite H1. cbn [out seps dots]. replace (d =? 1) with false by lia. replace (d =? 2) with false by lia. unfold pushSep. cbn [out seps dots]. replace (_ <? size) with true by lia. cbn [bind]. unfold wr. cbn [out seps dots]. replace (_ <? size) with true by lia. reflexivity.
Qed.
(** * Every path *)
(** The state after reading [k] characters. Every prefix up to a separator replays to itself. *)
Record Inv (size k : Z) (p : ps) : Prop := {
  inv_dots : 0 <= dots p;
  inv_len : Z.of_nat (length (out p)) + dots p <= k;
  inv_seps : (length (seps p) <= length (out p))%nat;
  inv_self : pathLoop size (out p) init = Ok (Some (mkps (out p) (seps p) 0));
  inv_sep : forall j w, nth_error (seps p) j = Some w -> 0 <= w < Z.of_nat (length (out p)) /\ (j <= Z.to_nat w)%nat /\
     pathLoop size (firstn (Z.to_nat (w + 1)) (out p)) init = Ok (Some (mkps (firstn (Z.to_nat (w + 1)) (out p)) (firstn (S j) (seps p)) 0));
  inv_inc : forall i j v w, (i < j)%nat -> nth_error (seps p) i = Some v -> nth_error (seps p) j = Some w -> v < w }.
Lemma inv_init size : Inv size 0 init.
Proof.
  split; cbn; try lia; try reflexivity; intros; [destruct j; discriminate|destruct i; discriminate].
Qed.
Lemma firstn_pre {A} n (a b : list A) : (n <= length a)%nat -> firstn n (a ++ b) = firstn n a.
Proof. intro H. rewrite firstn_app. replace (n - length a)%nat with O by lia. cbn. apply app_nil_r. Qed.
(** Writing [x], which replays to itself after what is there, with no new separator. *)
Lemma inv_write size k k' p x : Inv size k p -> Z.of_nat (length (out p ++ x)) <= k' -> pathLoop size x (mkps (out p) (seps p) 0) = Ok (Some (mkps (out p ++ x) (seps p) 0)) -> Inv size k' (mkps (out p ++ x) (seps p) 0).
Proof.
  intros [D L S0 SF SP IC] HL HX. rewrite app_length in HL. split; cbn [out seps dots].
  - lia.
  - rewrite app_length. lia.
  - rewrite app_length. lia.
  - rewrite pathLoop_app, SF. cbn [bind]. exact HX.
  - intros j w E. destruct (SP j w E) as (W & J & R). rewrite app_length. split; [lia|]. split; [exact J|]. rewrite firstn_pre by lia. exact R.
  - exact IC.
Qed.
Lemma nth_error_snoc {A} (l : list A) x j w : nth_error (l ++ [x]) j = Some w -> (nth_error l j = Some w /\ (j < length l)%nat) \/ (j = length l /\ w = x).
Proof.
  intro H. destruct (Nat.lt_ge_cases j (length l)) as [L|L]; [left; rewrite nth_error_app1 in H by exact L; auto|]. rewrite nth_error_app2 in H by exact L. destruct (j - length l)%nat as [|m] eqn:E; [right; cbn in H; split; [lia|congruence]|]. destruct m; discriminate.
Qed.
Lemma inv_step size k p c : Inv size k p -> k + 1 < size -> (exists q, pathStep size p c = Ok (Some q) /\ Inv size (k + 1) q) \/ pathStep size p c = Ok None.
Proof.
  intros I K. destruct (isSep c) eqn:ES.
  - destruct (Z.eq_dec (dots p) 1) as [E1|E1]; [|destruct (Z.eq_dec (dots p) 2) as [E2|E2]].
    + left. exists (mkps (out p) (seps p) 0). unfold pathStep. fold (isSep c). rewrite ES, E1. cbn [Z.eqb Pos.eqb]. split; [reflexivity|]. destruct I as [D L S0 SF SP IC]. split; cbn [out seps dots]; try assumption; lia.
    + unfold pathStep. fold (isSep c). rewrite ES, E2. cbn [Z.eqb Pos.eqb]. destruct (Z.of_nat (length (seps p)) <? 2) eqn:EN; [right; reflexivity|]. left. destruct I as [D L S0 SF SP IC].
      set (m := (length (seps p) - 1)%nat). assert (LM : length (firstn m (seps p)) = m) by (rewrite firstn_length; lia). rewrite LM. assert (NM : nth_error (firstn m (seps p)) (m - 1) = nth_error (seps p) (m - 1)). { rewrite <- (firstn_skipn m (seps p)) at 2. rewrite nth_error_app1 by lia. reflexivity. }
      rewrite NM. destruct (nth_error (seps p) (m - 1)) as [w|] eqn:EW; [|apply nth_error_None in EW; lia]. destruct (SP _ _ EW) as (W & J & R). eexists. split; [reflexivity|]. set (o := firstn (Z.to_nat (w + 1)) (out p)) in *. assert (LO : length o = Z.to_nat (w + 1)) by (unfold o; rewrite firstn_length; lia).
      assert (EM : S (m - 1) = m) by lia. rewrite EM in R. split; cbn [out seps dots].
      * lia.
      * lia.
      * rewrite firstn_length. lia.
      * exact R.
      * intros j v EJ. assert (HJ : (j < m)%nat) by (rewrite <- LM; apply nth_error_Some; congruence). assert (EJ' : nth_error (seps p) j = Some v). { rewrite <- (firstn_skipn m (seps p)). rewrite nth_error_app1 by lia. exact EJ. }
        destruct (SP _ _ EJ') as (V & J' & R'). assert (VW : v <= w). { destruct (Nat.eq_dec j (m - 1)) as [->|NE]; [assert (v = w) by congruence; lia|]. assert (v < w) by (eapply IC; [|exact EJ'|exact EW]; lia). lia. }
        split; [lia|]. split; [exact J'|]. unfold o. rewrite firstn_firstn. replace (Nat.min (Z.to_nat (v + 1)) (Z.to_nat (w + 1))) with (Z.to_nat (v + 1)) by lia. rewrite firstn_firstn. replace (Nat.min (S j) m) with (S j) by lia. exact R'.
      * intros i j v v' HIJ EI EJ. assert (G : forall x y, nth_error (firstn m (seps p)) x = Some y -> nth_error (seps p) x = Some y). { intros x y EX. rewrite <- (firstn_skipn m (seps p)). rewrite nth_error_app1; [exact EX|]. apply nth_error_Some. congruence. } eapply IC; [exact HIJ|apply G; exact EI|apply G; exact EJ].
    + left. destruct p as [o s d]. destruct I as [D L S0 SF SP IC]. cbn [out seps dots] in *. rewrite step_sep by (try assumption; lia). eexists. split; [reflexivity|].
      assert (SF2 : pathLoop size (o ++ [47]) init = Ok (Some (mkps (o ++ [47]) (s ++ [Z.of_nat (length o)]) 0))). { rewrite pathLoop_app, SF. cbn [bind pathLoop]. rewrite step_sep by (try reflexivity; lia). reflexivity. }
      split; cbn [out seps dots]; try rewrite !app_length; cbn [length]; try lia.
      * exact SF2.
      * intros j w E. apply nth_error_snoc in E as [[E HJ]|[-> ->]].
        -- destruct (SP _ _ E) as (W & J & R). split; [lia|]. split; [exact J|]. rewrite firstn_pre by lia. rewrite firstn_pre by lia. exact R.
        -- split; [lia|]. split; [lia|]. assert (F1 : firstn (Z.to_nat (Z.of_nat (length o) + 1)) (o ++ [47]) = o ++ [47]) by (apply firstn_all2; rewrite app_length; cbn; lia). assert (F2 : firstn (S (length s)) (s ++ [Z.of_nat (length o)]) = s ++ [Z.of_nat (length o)]) by (apply firstn_all2; rewrite app_length; cbn; lia). rewrite F1, F2. exact SF2.
      * intros i j v w HIJ EI EJ. apply nth_error_snoc in EI as [[EI HI]|[-> ->]]; apply nth_error_snoc in EJ as [[EJ HJ]|[-> ->]]; try lia; try exact (IC _ _ _ _ HIJ EI EJ); destruct (SP _ _ EI); lia.
  - left. destruct (Z.eq_dec c 46) as [->|NC].
    + eexists. split; [reflexivity|]. destruct I as [D L S0 SF SP IC]. split; cbn [out seps dots]; try assumption; lia.
    + pose proof I as [D L S0 SF SP IC]. destruct p as [o s d]. cbn [out seps dots] in *. rewrite step_char by (try assumption; lia). eexists. split; [reflexivity|]. set (e := if isBlank c then 0 else d). assert (HE : 0 <= e <= d) by (unfold e; destruct (isBlank c); lia).
      apply (inv_write size k (k + 1) (mkps o s d) (repeat 46 (Z.to_nat e) ++ [c]) I); cbn [out seps].
      * rewrite !app_length, repeat_length. cbn [length]. lia.
      * rewrite pathLoop_app. assert (G : forall n f, 0 <= f -> pathLoop size (repeat 46 n) (mkps o s f) = Ok (Some (mkps o s (f + Z.of_nat n)))). { clear. induction n as [|n IH]; intros f Hf; [cbn; do 3 f_equal; lia|]. cbn [repeat pathLoop]. unfold pathStep. cbn [Z.eqb Pos.eqb orb bind out seps dots]. rewrite IH by lia. do 3 f_equal. lia. }
        rewrite G by lia. cbn [bind pathLoop]. rewrite step_char by (try assumption; lia). cbn [bind]. replace (Z.to_nat (if isBlank c then 0 else 0 + Z.of_nat (Z.to_nat e))) with (Z.to_nat e) by (unfold e; destruct (isBlank c); lia). reflexivity.
Qed.
Lemma inv_loop size l : forall k p, Inv size k p -> k + Z.of_nat (length l) < size -> (exists q, pathLoop size l p = Ok (Some q) /\ Inv size (k + Z.of_nat (length l)) q) \/ pathLoop size l p = Ok None.
Proof.
  induction l as [|c l IH]; intros k p I K.
  - left. exists p. split; [reflexivity|]. cbn [length]. replace (k + Z.of_nat 0) with k by lia. exact I.
  - cbn [length] in *. cbn [pathLoop]. destruct (inv_step size k p c I ltac:(lia)) as [(q & -> & IQ)|E]; [|right; rewrite E; reflexivity]. cbn [bind]. destruct (IH (k + 1) q IQ ltac:(lia)) as [(r & E & IR)|E]; [left; exists r; split; [exact E|]|right; exact E]. replace (k + Z.of_nat (S (length l))) with (k + 1 + Z.of_nat (length l)) by lia. exact IR.
Qed.
(** What is left of a path after truncation. *)
Definition cut (size : Z) (l : cstr) : cstr := firstn (Z.to_nat (size - 1)) l.
Definition full (path cur : cstr) : cstr := (if modulePathIsAbsolute path then [] else cur) ++ path.
Lemma reg_eq path cur size : 0 < size -> moduleRegularizePath path cur size = match pathLoop size (cut size (full path cur)) init with
  | Ok (Some p) => if 0 <? dots p then Ok None else Ok (Some (out p)) | Ok None => Ok None | Err e => Err e | UB => UB end.
Proof.
  intro HS. unfold moduleRegularizePath. fold (full path cur). fold (cut size (full path cur)). fold init. assert (L : Z.of_nat (length (cut size (full path cur))) < size) by (unfold cut; rewrite firstn_length; lia). destruct (inv_loop size (cut size (full path cur)) 0 init (inv_init size) ltac:(lia)) as [(q & E & IQ)|E]; rewrite E; cbn [bind]; [|reflexivity].
  destruct (0 <? dots q); [reflexivity|]. unfold wr. destruct IQ as [D L2 _ _ _ _]. replace (_ <? size) with true by lia. reflexivity.
Qed.
Lemma within_thm path cur size : 0 < size -> (exists r, moduleRegularizePath path cur size = Ok (Some r) /\ Z.of_nat (length r) < size) \/ moduleRegularizePath path cur size = Ok None.
Proof.
  intro HS. rewrite reg_eq by exact HS. assert (L : Z.of_nat (length (cut size (full path cur))) < size) by (unfold cut; rewrite firstn_length; lia). destruct (inv_loop size (cut size (full path cur)) 0 init (inv_init size) ltac:(lia)) as [(q & -> & IQ)|E]; [|right; rewrite E; reflexivity].
  destruct (0 <? dots q); [right; reflexivity|left]. eexists. split; [reflexivity|]. destruct IQ as [D L2 _ _ _ _]. lia.
Qed.
(** The root stays. *)
Definition rooted (pre : cstr) (p : ps) : Prop := firstn (S (length pre)) (out p) = pre ++ [47] /\ nth_error (seps p) 0 = Some (Z.of_nat (length pre)).
Lemma rooted_out pre p : rooted pre p -> exists r, out p = pre ++ 47 :: r.
Proof. intros [H _]. exists (skipn (S (length pre)) (out p)). rewrite <- (firstn_skipn (S (length pre)) (out p)) at 1. rewrite H, <- app_assoc. reflexivity. Qed.
Lemma rooted_step size k pre p c q : Inv size k p -> k + 1 < size -> rooted pre p -> pathStep size p c = Ok (Some q) -> rooted pre q.
Proof.
  intros I K [R1 R2] H. pose proof I as [D L S0 SF SP IC]. destruct (SP _ _ R2) as (W0 & _ & _). unfold pathStep in H. fold (isSep c) in H. destruct (isSep c) eqn:ES.
  - destruct (dots p =? 1); [assert (q = mkps (out p) (seps p) 0) by congruence; subst; split; assumption|]. destruct (dots p =? 2).
    + destruct (Z.of_nat (length (seps p)) <? 2) eqn:EN; [discriminate|]. set (m := (length (seps p) - 1)%nat) in *. assert (LM : length (firstn m (seps p)) = m) by (rewrite firstn_length; lia). rewrite LM in H.
      assert (NM : forall x, (x < m)%nat -> nth_error (firstn m (seps p)) x = nth_error (seps p) x). { intros x Hx. rewrite <- (firstn_skipn m (seps p)) at 2. rewrite nth_error_app1 by lia. reflexivity. } rewrite NM in H by lia. destruct (nth_error (seps p) (m - 1)) as [w|] eqn:EW; [|discriminate].
      assert (q = mkps (firstn (Z.to_nat (w + 1)) (out p)) (firstn m (seps p)) 0) by congruence. subst q. assert (W1 : Z.of_nat (length pre) <= w). { destruct (Nat.eq_dec (m - 1) 0) as [E|E]; [rewrite E in EW; assert (w = Z.of_nat (length pre)) by congruence; lia|]. assert (Z.of_nat (length pre) < w) by (eapply (IC 0%nat (m - 1)%nat); [lia|exact R2|exact EW]). lia. }
      split; cbn [out seps]; [rewrite firstn_firstn; replace (Nat.min _ _) with (S (length pre)) by lia; exact R1|rewrite NM by lia; exact R2].
    + unfold pushSep, wr in H. cbn [out seps dots] in H. replace (Z.of_nat (length (seps p)) <? size) with true in H by lia. cbn [bind out seps dots] in H. replace (Z.of_nat (length (out p)) <? size) with true in H by lia. cbn [bind out seps dots] in H. assert (q = mkps (out p ++ [47]) (seps p ++ [Z.of_nat (length (out p))]) 0) by congruence. subst q.
      split; cbn [out seps]; [rewrite firstn_pre by lia; exact R1|]. rewrite nth_error_app1; [exact R2|]. apply nth_error_Some. congruence.
  - destruct (c =? 46) eqn:E46; [assert (q = mkps (out p) (seps p) (dots p + 1)) by congruence; subst; split; assumption|].
    assert (G : pathStep size p c = Ok (Some q)) by (unfold pathStep; fold (isSep c); rewrite ES, E46; exact H). destruct p as [o s d]. cbn [out seps dots] in *. rewrite step_char in G by (try assumption; lia). assert (q = mkps (o ++ repeat 46 (Z.to_nat (if isBlank c then 0 else d)) ++ [c]) s 0) by congruence. subst q. split; cbn [out seps]; [rewrite firstn_pre by lia; exact R1|exact R2].
Qed.
Lemma rooted_loop size pre l : forall k p q, Inv size k p -> k + Z.of_nat (length l) < size -> rooted pre p -> pathLoop size l p = Ok (Some q) -> rooted pre q.
Proof.
  induction l as [|c l IH]; intros k p q I K R H; [cbn in H; assert (q = p) by congruence; subst; exact R|]. cbn [length] in K. cbn [pathLoop] in H. destruct (inv_step size k p c I ltac:(lia)) as [(q1 & E & IQ)|E]; rewrite E in H; cbn [bind] in H; [|discriminate]. eapply (IH (k + 1) q1); [exact IQ|lia| |exact H]. eapply rooted_step; [exact I|lia|exact R|exact E].
Qed.
Lemma abs_split l : modulePathIsAbsolute l = true -> exists pre r, l = pre ++ 47 :: r /\ Forall (fun c => isBlank c = true) pre.
Proof.
  induction l as [|c l IH]; cbn [modulePathIsAbsolute]; [discriminate|]. fold (isBlank c). destruct (isBlank c) eqn:E; intro H.
  - destruct (IH H) as (pre & r & -> & F). exists (c :: pre), r. split; [reflexivity|]. constructor; assumption.
  - exists [], l. split; [assert (c = 47) by lia; subst c; reflexivity|constructor].
Qed.
Lemma abs_intro pre r : Forall (fun c => isBlank c = true) pre -> modulePathIsAbsolute (pre ++ 47 :: r) = true.
Proof. induction 1 as [|c pre H F IH]; [reflexivity|]. cbn [app modulePathIsAbsolute]. fold (isBlank c). rewrite H. exact IH. Qed.
Lemma blanks_loop size pre : forall o, Forall (fun c => isBlank c = true) pre -> Z.of_nat (length o) + Z.of_nat (length pre) < size -> pathLoop size pre (mkps o [] 0) = Ok (Some (mkps (o ++ pre) [] 0)).
Proof.
  induction pre as [|c pre IH]; intros o HF HL; [cbn; rewrite app_nil_r; reflexivity|]. inversion HF; subst. cbn [length] in HL. cbn [pathLoop]. assert (ES : isSep c = false /\ c <> 46) by (unfold isBlank, isSep in *; lia). rewrite step_char by (try apply ES; lia). cbn [bind]. rewrite H1. change (Z.to_nat 0) with O. cbn [repeat app]. rewrite IH; [|assumption|rewrite app_length; cbn; lia]. rewrite <- app_assoc. reflexivity.
Qed.
Lemma cut_abs size l : modulePathIsAbsolute (cut size l) = true -> modulePathIsAbsolute l = true.
Proof. unfold cut. generalize (Z.to_nat (size - 1)) as n. induction l as [|c l IH]; intros n H; [rewrite firstn_nil in H; exact H|]. destruct n as [|n]; [discriminate|]. cbn [firstn modulePathIsAbsolute] in *. destruct (_ || _); [eapply IH; exact H|exact H]. Qed.
(** An absolute path stays absolute, below the same root. *)
Lemma root_thm path cur size r : 0 < size -> modulePathIsAbsolute (cut size (full path cur)) = true -> moduleRegularizePath path cur size = Ok (Some r) ->
  exists pre a b, Forall (fun c => isBlank c = true) pre /\ cut size (full path cur) = pre ++ 47 :: a /\ r = pre ++ 47 :: b.
Proof.
  intros HS HA H. rewrite reg_eq in H by exact HS. assert (L : Z.of_nat (length (cut size (full path cur))) < size) by (unfold cut; rewrite firstn_length; lia). destruct (abs_split _ HA) as (pre & a & EP & F). rewrite EP in *. replace (pre ++ 47 :: a) with ((pre ++ [47]) ++ a) in H by (rewrite <- app_assoc; reflexivity).
  rewrite app_length in L. cbn [length] in L. assert (E0 : pathLoop size (pre ++ [47]) init = Ok (Some (mkps (pre ++ [47]) [Z.of_nat (length pre)] 0))). { rewrite pathLoop_app. unfold init. rewrite blanks_loop by (try assumption; cbn; lia). cbn [bind pathLoop app]. rewrite step_sep; [reflexivity|reflexivity|lia|lia|lia|cbn; lia]. }
  assert (I0 : Inv size (Z.of_nat (length (pre ++ [47]))) (mkps (pre ++ [47]) [Z.of_nat (length pre)] 0)). { destruct (inv_loop size (pre ++ [47]) 0 init (inv_init size)) as [(q & E & IQ)|E]; [rewrite app_length; cbn; lia| |congruence]. assert (q = mkps (pre ++ [47]) [Z.of_nat (length pre)] 0) by congruence. subst q. exact IQ. }
  rewrite pathLoop_app, E0 in H. cbn [bind] in H. destruct (pathLoop size a (mkps (pre ++ [47]) [Z.of_nat (length pre)] 0)) as [[q|]| |] eqn:EA; try discriminate. destruct (0 <? dots q); [discriminate|]. assert (r = out q) by congruence. subst r.
  assert (R : rooted pre q). { eapply rooted_loop; [exact I0| | |exact EA]; [rewrite app_length; cbn; lia|]. split; [cbn [out]; apply firstn_all2; rewrite app_length; cbn; lia|reflexivity]. }
  destruct (rooted_out _ _ R) as [b EB]. exists pre, a, b. auto.
Qed.
Lemma idem_thm path cur size r : 0 < size -> modulePathIsAbsolute (cut size (full path cur)) = true -> moduleRegularizePath path cur size = Ok (Some r) -> forall cur', moduleRegularizePath r cur' size = Ok (Some r).
Proof.
  intros HS HA H cur'. destruct (root_thm _ _ _ _ HS HA H) as (pre & a & b & F & _ & ER). rewrite reg_eq in H by exact HS. assert (L : Z.of_nat (length (cut size (full path cur))) < size) by (unfold cut; rewrite firstn_length; lia). destruct (inv_loop size (cut size (full path cur)) 0 init (inv_init size) ltac:(lia)) as [(q & E & IQ)|E]; rewrite E in H; [|discriminate].
  destruct (0 <? dots q) eqn:ED; [discriminate|]. assert (RO : r = out q) by congruence. rewrite RO in *. clear RO. destruct IQ as [D L2 _ SF _ _]. rewrite reg_eq by exact HS. assert (EF : cut size (full (out q) cur') = out q). { unfold full. rewrite ER at 1. rewrite (abs_intro pre b F). cbn [app]. unfold cut. apply firstn_all2. lia. }
  rewrite EF, SF. reflexivity.
Qed.
(** * Paths made of proper components *)
Definition okrun (d : nat) (n : cstr) : Prop :=
  Forall (fun c => isSep c = false) n /\ (n = [] -> d = O) /\ (forall p, n <> p ++ [46]) /\ (forall p q c, blank c -> n <> p ++ 46 :: c :: q) /\ (d <> O -> forall c q, n = c :: q -> ~ blank c).
Lemma run_ok size s r n : forall o d, okrun d n -> Z.of_nat (length o) + Z.of_nat d + Z.of_nat (length n) < size ->
  pathLoop size (n ++ r) (mkps o s (Z.of_nat d)) = pathLoop size r (mkps (o ++ repeat 46 d ++ n) s 0).
Proof.
  induction n as [|c n IH]; intros o d (F & E0 & EE & EB & EH) HL.
  - rewrite (E0 eq_refl). cbn [app repeat]. rewrite app_nil_r. reflexivity.
  - inversion F; subst. cbn [length] in HL. cbn [app pathLoop]. destruct (Z.eq_dec c 46) as [->|NC].
    + assert (ST : pathStep size (mkps o s (Z.of_nat d)) 46 = Ok (Some (mkps o s (Z.of_nat (S d))))) by (unfold pathStep; cbn [Z.eqb Pos.eqb orb out seps dots]; do 3 f_equal; lia). rewrite ST. cbn [bind]. rewrite IH; [|split; [assumption|split; [|split; [|split]]]|lia].
      * change (repeat 46 (S d)) with (46 :: repeat 46 d). rewrite repeat_cons. rewrite <- !app_assoc. reflexivity.
      * intros ->. exfalso. exact (EE [] eq_refl).
      * intros p E. apply (EE (46 :: p)). rewrite E. reflexivity.
      * intros p q c HB E. apply (EB (46 :: p) q c HB). rewrite E. reflexivity.
      * intros _ c q E HB. apply (EB [] q c HB). rewrite E. reflexivity.
    + rewrite step_char by (try assumption; lia). cbn [bind]. rewrite (IH _ O); [|split; [assumption|split; [reflexivity|split; [|split]]]|].
      * cbn [repeat app]. assert (EN : (if isBlank c then 0 else Z.of_nat d) = Z.of_nat d). { destruct (isBlank c) eqn:EB2; [|reflexivity]. destruct d as [|d]; [reflexivity|]. exfalso. apply (EH ltac:(discriminate) c n eq_refl). unfold blank, isBlank in *. lia. } rewrite EN, Nat2Z.id, <- !app_assoc. reflexivity.
      * intros p E. apply (EE (c :: p)). rewrite E. reflexivity.
      * intros p q c' HB E. apply (EB (c :: p) q c' HB). rewrite E. reflexivity.
      * intro HH. exfalso. apply HH. reflexivity.
      * rewrite !app_length, repeat_length. cbn [length]. destruct (isBlank c); lia.
Qed.
Lemma proper_run n : proper n -> okrun 0 n.
Proof.
  intros (H1 & H2 & H3 & H4). split; [|split; [reflexivity|split; [exact H3|split; [exact H4|]]]].
  - eapply Forall_impl; [|exact H2]. unfold isSep. cbn. lia.
  - intro HH. exfalso. apply HH. reflexivity.
Qed.
Fixpoint sp (at_ : list (list Z)) : list Z := match at_ with [] => [0] | n :: u => sp u ++ [Z.of_nat (length (folder_text u) + length n)] end.
Lemma folder_cons n u : folder_text (n :: u) = folder_text u ++ n ++ [47].
Proof. unfold folder_text. cbn [rev]. rewrite flat_map_app. cbn [flat_map]. rewrite app_nil_r. reflexivity. Qed.
Lemma sp_len u : length (sp u) = S (length u).
Proof. induction u as [|n u IH]; [reflexivity|]. cbn [sp]. rewrite app_length, IH. cbn. lia. Qed.
Lemma sp_last u : exists s, sp u = s ++ [Z.of_nat (length (folder_text u)) - 1].
Proof.
  destruct u as [|n u]; [exists []; reflexivity|]. exists (sp u). cbn [sp]. do 3 f_equal. rewrite folder_cons, !app_length. cbn [length]. lia.
Qed.
Lemma folder_len u : (length u < length (folder_text u))%nat.
Proof. induction u as [|n u IH]; [cbn; lia|]. rewrite folder_cons, !app_length. cbn [length]. lia. Qed.
Lemma comps_ok size r l : forall u, Forall (fun c => cproper (fst c)) l -> Z.of_nat (length (folder_text u)) + Z.of_nat (length (ptext l)) < size ->
  pathLoop size (ptext l ++ r) (mkps (folder_text u) (sp u) 0) = match resolve l u with Some v => pathLoop size r (mkps (folder_text v) (sp v) 0) | None => Ok None end.
Proof.
  induction l as [|[c back] l IH]; intros u HF HL; [reflexivity|]. inversion HF as [|? ? HC HF2]; subst. cbn [fst] in HC. cbn [ptext] in *. rewrite <- app_assoc. cbn [app]. rewrite app_length in HL. cbn [length] in HL. set (sepc := if back then 92 else 47) in *. assert (SS : isSep sepc = true) by (unfold sepc; destruct back; reflexivity). pose proof (folder_len u) as FL. pose proof (sp_len u) as SL.
  destruct c as [| |n]; cbn [ctext resolve] in *.
  - cbn [app pathLoop]. unfold pathStep at 1. cbn [Z.eqb Pos.eqb orb bind out seps dots]. unfold pathStep. fold (isSep sepc). rewrite SS. cbn [dots]. change (0 + 1 =? 1) with true. cbn [bind out seps dots]. apply IH; [exact HF2|lia].
  - cbn [app pathLoop]. unfold pathStep at 1. cbn [Z.eqb Pos.eqb orb bind out seps dots]. unfold pathStep at 1. cbn [Z.eqb Pos.eqb orb bind out seps dots]. unfold pathStep. fold (isSep sepc). rewrite SS. cbn [dots]. change (0 + 1 + 1 =? 1) with false. change (0 + 1 + 1 =? 2) with true. cbn [out seps].
    rewrite SL. destruct u as [|n u]; [reflexivity|]. replace (Z.of_nat (S (length (n :: u))) <? 2) with false by (cbn [length]; lia). cbn [sp]. pose proof (sp_len u) as SL'. replace (S (length (n :: u)) - 1)%nat with (length (sp u)) by (cbn [length]; lia). rewrite firstn_app, firstn_all, Nat.sub_diag. cbn [firstn]. rewrite app_nil_r.
    destruct (sp_last u) as [s0 ES]. assert (EN : nth_error (sp u) (length (sp u) - 1) = Some (Z.of_nat (length (folder_text u)) - 1)). { rewrite ES at 1. rewrite ES. rewrite app_length. cbn [length]. replace (length s0 + 1 - 1)%nat with (length s0) by lia. rewrite nth_error_app2 by lia. rewrite Nat.sub_diag. reflexivity. }
    rewrite EN. cbn [bind]. pose proof (folder_len u) as FL'. rewrite folder_cons in *. replace (Z.to_nat (Z.of_nat (length (folder_text u)) - 1 + 1)) with (length (folder_text u)) by lia. rewrite firstn_app, firstn_all, Nat.sub_diag. cbn [firstn]. rewrite app_nil_r. apply IH; [exact HF2|]. rewrite app_length in HL. cbn [length] in HL. lia.
  - change 0 with (Z.of_nat 0) at 1. rewrite run_ok; [|apply proper_run; exact HC|lia]. cbn [repeat app]. cbn [pathLoop]. rewrite step_sep; [|exact SS|lia|lia|rewrite app_length; lia|lia]. cbn [bind]. rewrite app_length. replace (sp u ++ [Z.of_nat (length (folder_text u) + length n)]) with (sp (n :: u)) by reflexivity. replace ((folder_text u ++ n) ++ [47]) with (folder_text (n :: u)) by (rewrite folder_cons, app_assoc; reflexivity). apply IH; [exact HF2|]. rewrite folder_cons, !app_length. cbn [length]. lia.
Qed.
Lemma resolve_len l : forall u v, resolve l u = Some v -> (length (folder_text v) <= length (folder_text u) + length (ptext l))%nat.
Proof.
  induction l as [|[c back] l IH]; intros u v H; [cbn in H; assert (v = u) by congruence; subst; lia|]. cbn [ptext]. rewrite app_length. cbn [length]. destruct c as [| |n]; cbn [resolve ctext length] in *.
  - specialize (IH u v H). lia.
  - destruct u as [|n u]; [discriminate|]. specialize (IH u v H). rewrite folder_cons, app_length. lia.
  - specialize (IH _ v H). rewrite folder_cons, !app_length in IH. cbn [length] in IH. lia.
Qed.
Lemma resolve_thm path cur size l f : 0 < size -> full path cur = 47 :: ptext l ++ f -> Forall (fun c => cproper (fst c)) l -> (f = [] \/ proper f) -> Z.of_nat (length (full path cur)) < size ->
  moduleRegularizePath path cur size = Ok (match resolve l [] with Some v => Some (folder_text v ++ f) | None => None end).
Proof.
  intros HS EF HF HP HL. rewrite reg_eq by exact HS. unfold cut. rewrite firstn_all2 by lia. rewrite EF in *. cbn [length] in HL. rewrite app_length in HL. cbn [pathLoop]. unfold init. rewrite step_sep; [|reflexivity|lia|lia|cbn; lia|cbn; lia]. cbn [bind app length].
  change (mkps [47] [Z.of_nat 0] 0) with (mkps (folder_text []) (sp []) 0). rewrite comps_ok; [|exact HF|cbn [folder_text rev flat_map length]; lia]. destruct (resolve l []) as [v|] eqn:ER; [|reflexivity]. apply resolve_len in ER. change (length (folder_text [])) with 1%nat in ER.
  destruct HP as [->|HP]; [cbn [pathLoop dots out]; cbn [Z.ltb Z.compare]; rewrite app_nil_r; reflexivity|]. rewrite <- (app_nil_r f) at 1. change 0 with (Z.of_nat 0) at 1. rewrite run_ok; [|apply proper_run; exact HP|lia]. cbn [repeat app pathLoop dots out Z.ltb Z.compare]. reflexivity.
Qed.
Lemma abs_iff p : modulePathIsAbsolute p = true <-> absolute p.
Proof.
  split.
  - intro H. destruct (abs_split p H) as (w & r & -> & F). exists w, r. split; [reflexivity|]. eapply Forall_impl; [|exact F]. unfold isBlank, blank. cbn. lia.
  - intros (w & r & -> & F). apply abs_intro. eapply Forall_impl; [|exact F]. unfold isBlank, blank. cbn. lia.
Qed.
Lemma joined_full path cur whole : joined path cur whole -> full path cur = whole.
Proof.
  unfold full. intros [[A ->]|[A ->]]; rewrite <- abs_iff in A; [rewrite A; reflexivity|]. destruct (modulePathIsAbsolute path); [exfalso; apply A; reflexivity|reflexivity].
Qed.
Lemma cut_absolute size w : Z.of_nat (length w) < size -> modulePathIsAbsolute w = true -> modulePathIsAbsolute (cut size w) = true.
Proof. intros L H. unfold cut. rewrite firstn_all2 by lia. exact H. Qed.
(** * File names *)
Lemma strrchrB_none s c : forall i last, ~ In c s -> strrchrB s c i last = last.
Proof. induction s as [|x s IH]; intros i last H; [reflexivity|]. cbn [strrchrB]. assert (E : (x =? c) = false) by (cbn in H; lia). rewrite E. apply IH. cbn in H. tauto. Qed.
Lemma strrchrB_app a : forall b c i last, strrchrB (a ++ b) c i last = strrchrB b c (i + Z.of_nat (length a)) (strrchrB a c i last).
Proof. induction a as [|x a IH]; intros b c i last; [cbn; f_equal; lia|]. cbn [app strrchrB length]. rewrite IH. f_equal. lia. Qed.
Lemma strrchr_none s c : ~ In c s -> strrchr s c = None.
Proof. intro H. apply strrchrB_none. exact H. Qed.
Lemma strrchr_last a b c : ~ In c b -> strrchr (a ++ c :: b) c = Some (Z.of_nat (length a)).
Proof. intro H. unfold strrchr. rewrite strrchrB_app. cbn [strrchrB]. rewrite Z.eqb_refl. rewrite strrchrB_none by exact H. reflexivity. Qed.
Lemma strrchr_bound s c i : strrchr s c = Some i -> 0 <= i < Z.of_nat (length s).
Proof.
  unfold strrchr. assert (G : forall s i0 last, 0 <= i0 -> (forall j, last = Some j -> 0 <= j < i0 + Z.of_nat (length s)) -> forall j, strrchrB s c i0 last = Some j -> 0 <= j < i0 + Z.of_nat (length s)).
  { clear. induction s as [|x s IH]; intros i0 last H0 HL j H; [apply HL; exact H|]. cbn [strrchrB length] in *. replace (i0 + Z.of_nat (S (length s))) with (i0 + 1 + Z.of_nat (length s)) by lia. eapply IH; [lia| |exact H]. intros k E. destruct (x =? c); [assert (k = i0) by congruence; lia|specialize (HL k E); lia]. }
  intro H. apply (G s 0 None ltac:(lia) ltac:(discriminate) i H).
Qed.
(** The position after the last separator. *)
Lemma start_ok d n : is_folder d -> plain n ->
  match (match strrchr (d ++ n) 92, strrchr (d ++ n) 47 with Some b, None => Some b | Some b, Some a => if a <? b then Some b else Some a | None, x => x end) with Some i => i + 1 | None => 0 end = Z.of_nat (length d).
Proof.
  intros HD HN. assert (N1 : ~ In 47 n) by (intro H; unfold plain in HN; rewrite Forall_forall in HN; apply HN in H; lia). assert (N2 : ~ In 92 n) by (intro H; unfold plain in HN; rewrite Forall_forall in HN; apply HN in H; lia).
  destruct HD as [->|(p & c & -> & HC)].
  - cbn [app]. rewrite !strrchr_none by assumption. reflexivity.
  - rewrite <- app_assoc. cbn [app]. assert (GB : forall x i, ~ In x n -> x <> c -> strrchr (p ++ c :: n) x = Some i -> i < Z.of_nat (length p)). { intros x i HX HXC H. unfold strrchr in H. rewrite strrchrB_app in H. cbn [strrchrB] in H. replace (c =? x) with false in H by lia. rewrite strrchrB_none in H by exact HX. apply (strrchr_bound p x i) in H. lia. }
    rewrite app_length. cbn [length]. destruct HC as [->| ->].
    + rewrite (strrchr_last p n 47) by exact N1. destruct (strrchr (p ++ 47 :: n) 92) as [b|] eqn:E; [|lia]. apply GB in E; [|exact N2|lia]. replace (Z.of_nat (length p) <? b) with false by lia. lia.
    + rewrite (strrchr_last p n 92) by exact N2. destruct (strrchr (p ++ 92 :: n) 47) as [b|] eqn:E; [|lia]. apply GB in E; [|exact N1|lia]. replace (b <? Z.of_nat (length p)) with true by lia. lia.
Qed.
Lemma modname_eq path : moduleNameFromPath path =
  let start := match (match strrchr path 92, strrchr path 47 with Some b, None => Some b | Some b, Some a => if a <? b then Some b else Some a | None, x => x end) with Some i => i + 1 | None => 0 end in
  let stop := match strrchr path 46 with Some i => i | None => Z.of_nat (length path) end in
  if stop <=? start then Err ESyntax else Ok (firstn (Z.to_nat start) path, firstn (Z.to_nat (stop - start)) (skipn (Z.to_nat start) path)).
Proof. unfold moduleNameFromPath. cbv zeta. destruct (strrchr path 92), (strrchr path 47); reflexivity. Qed.
Lemma cut_name (d n e : list Z) : firstn (length d) (d ++ n ++ e) = d /\ firstn (length n) (skipn (length d) (d ++ n ++ e)) = n.
Proof. split; [rewrite firstn_app, firstn_all, Nat.sub_diag; cbn; apply app_nil_r|]. rewrite skipn_app, skipn_all, Nat.sub_diag. cbn [skipn app]. rewrite firstn_app, firstn_all, Nat.sub_diag. cbn. apply app_nil_r. Qed.
Lemma name_ext d n e : is_folder d -> plain n -> plain e -> ~ In 46 e -> n <> [] -> moduleNameFromPath (d ++ n ++ 46 :: e) = Ok (d, n).
Proof.
  intros HD HN HE H46 H0. rewrite modname_eq. rewrite start_ok; [|exact HD|]. 2: { unfold plain in *. apply Forall_app. split; [exact HN|]. constructor; [lia|exact HE]. }
  cbv zeta. replace (strrchr (d ++ n ++ 46 :: e) 46) with (Some (Z.of_nat (length d + length n))). 2: { rewrite app_assoc, strrchr_last by exact H46. rewrite app_length. reflexivity. }
  assert (LN : (0 < length n)%nat) by (destruct n; [congruence|cbn; lia]). replace (_ <=? _) with false by lia. rewrite Nat2Z.id. replace (Z.to_nat (Z.of_nat (length d + length n) - Z.of_nat (length d))) with (length n) by lia. destruct (cut_name d n (46 :: e)) as [-> ->]. reflexivity.
Qed.
Lemma name_noext d n : is_folder d -> plain n -> ~ In 46 (d ++ n) -> n <> [] -> moduleNameFromPath (d ++ n) = Ok (d, n).
Proof.
  intros HD HN H46 H0. rewrite modname_eq. rewrite start_ok by assumption. cbv zeta. rewrite (strrchr_none (d ++ n) 46 H46). rewrite app_length. assert (LN : (0 < length n)%nat) by (destruct n; [congruence|cbn; lia]). replace (_ <=? _) with false by lia. rewrite Nat2Z.id. replace (Z.to_nat (Z.of_nat (length d + length n) - Z.of_nat (length d))) with (length n) by lia. destruct (cut_name d n []) as [E1 E2]. rewrite !app_nil_r in *. rewrite E1, E2. reflexivity.
Qed.
(** Whatever the path, the results come from it. *)
Lemma name_split path d n : moduleNameFromPath path = Ok (d, n) -> exists e, path = d ++ n ++ e /\ n <> [] /\ is_folder d /\ (e = [] \/ exists r, e = 46 :: r /\ ~ In 46 r).
Proof.
  intro H. rewrite modname_eq in H. cbv zeta in H. set (start := match (match strrchr path 92, strrchr path 47 with Some b, None => Some b | Some b, Some a => if a <? b then Some b else Some a | None, x => x end) with Some i => i + 1 | None => 0 end) in *. set (stop := match strrchr path 46 with Some i => i | None => Z.of_nat (length path) end) in *.
  destruct (stop <=? start) eqn:ES; [discriminate|]. assert (E1 : d = firstn (Z.to_nat start) path) by congruence. assert (E2 : n = firstn (Z.to_nat (stop - start)) (skipn (Z.to_nat start) path)) by congruence.
  assert (S0 : 0 <= start). { unfold start. destruct (strrchr path 92) as [b|] eqn:EB, (strrchr path 47) as [a|] eqn:EA; try apply strrchr_bound in EB; try apply strrchr_bound in EA; try lia. destruct (a <? b); lia. }
  assert (S1 : stop <= Z.of_nat (length path)). { unfold stop. destruct (strrchr path 46) as [i|] eqn:EI; [apply strrchr_bound in EI; lia|lia]. }
  assert (SPL : forall c i, strrchr path c = Some i -> path = firstn (Z.to_nat i) path ++ c :: skipn (Z.to_nat (i + 1)) path /\ ~ In c (skipn (Z.to_nat (i + 1)) path)).
  { clear. intros c i. pattern path at 1 2 3 4. revert i. induction path as [|x p IH] using rev_ind; intros i H; [discriminate|]. unfold strrchr in H. rewrite strrchrB_app in H. cbn [strrchrB] in H. destruct (x =? c) eqn:E.
    - assert (i = Z.of_nat (length p)) by (assert (0 + Z.of_nat (length p) = i) by congruence; lia). subst i. rewrite Nat2Z.id. rewrite firstn_app, firstn_all, Nat.sub_diag. cbn [firstn]. rewrite app_nil_r. rewrite skipn_all2 by (rewrite app_length; cbn; lia). split; [replace x with c by lia; reflexivity|intros []].
    - fold (strrchr p c) in H. destruct (IH i H) as [IH1 IH2]. apply strrchr_bound in H. rewrite firstn_app. replace (Z.to_nat i - length p)%nat with O by lia. cbn [firstn]. rewrite app_nil_r. rewrite skipn_app. replace (Z.to_nat (i + 1) - length p)%nat with O by lia. cbn [skipn]. split; [rewrite IH1 at 1; rewrite <- app_assoc; reflexivity|]. intro HI. apply in_app_or in HI as [HI|[HI|[]]]; [auto|lia]. }
  exists (skipn (Z.to_nat stop) path). split; [|split; [|split]].
  - rewrite E1, E2. assert (G : skipn (Z.to_nat start) path = firstn (Z.to_nat (stop - start)) (skipn (Z.to_nat start) path) ++ skipn (Z.to_nat stop) path). { replace (skipn (Z.to_nat stop) path) with (skipn (Z.to_nat (stop - start)) (skipn (Z.to_nat start) path)); [symmetry; apply firstn_skipn|]. assert (SS : forall (a b : nat) (l : list Z), skipn a (skipn b l) = skipn (b + a) l) by (clear; intros a b; induction b as [|b IH]; intros [|x l]; try reflexivity; [cbn; apply skipn_nil|cbn; apply IH]). rewrite SS. f_equal. lia. }
    rewrite <- G. symmetry. apply firstn_skipn.
  - intro HN. apply (f_equal (@length Z)) in HN. rewrite E2, firstn_length, skipn_length in HN. cbn [length] in HN. lia.
  - assert (K : forall c i, (c = 47 \/ c = 92) -> strrchr path c = Some i -> start = i + 1 -> is_folder d). { intros c i HC HI Hs. right. exists (firstn (Z.to_nat i) path), c. split; [|exact HC]. destruct (SPL c i HI) as [P1 _]. apply strrchr_bound in HI. rewrite E1, Hs. rewrite P1 at 1. rewrite firstn_app. rewrite firstn_length. replace (Z.to_nat (i + 1) - Nat.min (Z.to_nat i) (length path))%nat with 1%nat by lia. cbn [firstn]. f_equal. rewrite firstn_firstn. f_equal. lia. }
    unfold start in K. destruct (strrchr path 92) as [b|] eqn:EB, (strrchr path 47) as [a|] eqn:EA.
    + destruct (a <? b); [apply (K 92 b); auto|apply (K 47 a); auto].
    + apply (K 92 b); auto.
    + apply (K 47 a); auto.
    + left. rewrite E1. unfold start. reflexivity.
  - unfold stop. destruct (strrchr path 46) as [i|] eqn:EI; [right|left; apply skipn_all2; lia]. destruct (SPL 46 i EI) as [P1 P2]. apply strrchr_bound in EI. exists (skipn (Z.to_nat (i + 1)) path). split; [|exact P2]. rewrite P1 at 1. rewrite skipn_app. rewrite skipn_all2 by (rewrite firstn_length; lia). cbn [app]. rewrite firstn_length. replace (Z.to_nat i - Nat.min (Z.to_nat i) (length path))%nat with O by lia. reflexivity.
Qed.
