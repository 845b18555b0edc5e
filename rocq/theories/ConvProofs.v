(** Proofs about conversions. *)
From Coq Require Import ZArith Lia Bool List.
From Coq.Floats Require Import SpecFloat.
From Verif Require Import Base NumModel NumSpec NumProofs ConvModel ConvSpec ConvExec.
Import ListNotations.
Local Open Scope Z_scope.

Lemma kindEqb_true a b : kindEqb a b = true -> a = b.
Proof. unfold kindEqb. destruct (kindEq a b); [auto|discriminate]. Qed.
Lemma kindEqb_refl a : kindEqb a a = true.
Proof. unfold kindEqb. destruct (kindEq a a); [reflexivity|contradiction]. Qed.
Lemma tyEqb_true a b : tyEqb a b = true -> a = b.
Proof.
  revert b. induction a; intros [] E; cbn in E; try discriminate; try reflexivity.
  - now rewrite (kindEqb_true _ _ E).
  - now rewrite (IHa _ E).
  - apply andb_true_iff in E. destruct E as [E1 E2]. apply Z.eqb_eq in E1. now rewrite E1, (IHa _ E2).
  - apply Nat.eqb_eq in E. now rewrite E.
Qed.
Lemma tyEqb_refl a : tyEqb a a = true.
Proof. induction a; cbn; auto using kindEqb_refl, Nat.eqb_refl. now rewrite Z.eqb_refl. Qed.

(** Representation is kept if the blocks involved are. *)
Lemma Forall2_map2 {A B} (P Q : A -> B -> Prop) : (forall a b, P a b -> Q a b) -> forall l m, Forall2 P l m -> Forall2 Q l m.
Proof. intros I l m H. induction H; constructor; auto. Qed.
Lemma rep_ext (h h' : nat -> list value) (P P' : nat -> Prop) t : (forall b, P b -> h' b = h b) -> (forall b, P b -> P' b) ->
  forall v x, rep h P t v x -> rep h' P' t v x.
Proof.
  intros E I. induction t as [k| |t IH|n t IH|i]; intros v x R; cbn [rep] in *.
  - exact R.
  - exact R.
  - destruct v as [| |[b|]| | |]; try contradiction; destruct x; try contradiction; [|exact R]. destruct R as (R1 & R2 & R3).
    rewrite (E _ R1). split; [now apply I|]. split; [exact R2|]. eapply Forall2_map2; [|exact R3]. exact IH.
  - destruct v; try contradiction; destruct x; try contradiction. destruct R as (R1 & R2 & R3). split; [exact R1|]. split; [exact R2|].
    eapply Forall2_map2; [|exact R3]. exact IH.
  - exact R.
Qed.
Lemma Forall2_len {A B} (P : A -> B -> Prop) l m : Forall2 P l m -> length l = length m.
Proof. induction 1; cbn; congruence. Qed.
Lemma Forall2_nth {A B} (P : A -> B -> Prop) l m i x : Forall2 P l m -> nth_error m i = Some x -> exists y, nth_error l i = Some y /\ P y x.
Proof.
  intros H. revert i. induction H as [|a b l m H1 H2 IH]; intros [|i] E; cbn in E; try discriminate.
  - injection E as <-. now exists a.
  - now apply IH.
Qed.

(** A value of a type converts to itself. *)
Lemma convNum_same k x : convNum k k x = Ok x.
Proof. unfold convNum. now rewrite kindEqb_refl. Qed.
Lemma convAll_id (f : dval -> outcome dval) l : Forall (fun x => f x = Ok x) l -> convAll f l = Ok l.
Proof. induction 1 as [|x l H1 H2 IH]; [reflexivity|]. cbn [convAll]. rewrite IH. cbn [bind]. rewrite H1. reflexivity. Qed.
Lemma conv_same h P t : forall v x, rep h P t v x -> conv t t x = Ok x.
Proof.
  induction t as [k| |t IH|n t IH|i]; intros v x R.
  - destruct v; try contradiction. destruct x; try contradiction. cbn [conv]. now rewrite convNum_same.
  - now destruct x.
  - destruct x as [x|s|l|j]; try reflexivity. cbn [conv]. rewrite convAll_id; [reflexivity|].
    cbn [rep] in R. destruct v as [| |[b|]| | |]; try contradiction; [|subst; constructor]. destruct R as (_ & _ & R).
    induction R as [|a y l m R1 R2 IHR]; constructor; [now apply (IH a)|exact IHR].
  - now destruct x.
  - now destruct x.
Qed.
Lemma Forall2_repeat {A B} (P : A -> B -> Prop) a b n : P a b -> Forall2 P (repeat a n) (repeat b n).
Proof. intros H. induction n; constructor; auto. Qed.
Lemma holds_zero k : kindOrdinal k = true -> holds k 0 /\ 0 = denote k 0.
Proof. intros H. unfold holds, in_range, in_s64. destruct k; try discriminate H; vm_compute; repeat split; try discriminate; reflexivity. Qed.
Lemma rep_zero (h : nat -> list value) P t : wfTy t -> rep h P t (zero t) (dzero t).
Proof.
  induction t as [k| |t IH|n t IH|i]; intros W; cbn [rep zero dzero wfTy] in *.
  - unfold numRep. apply orb_true_iff in W. destruct (kindOrdinal k) eqn:K; [now apply holds_zero|]. destruct W as [W|W]; [discriminate|]. now split.
  - split; [reflexivity|]. split; [unfold small; cbn; lia|constructor].
  - reflexivity.
  - destruct W as [W1 W2]. unfold small. rewrite repeat_length. split; [lia|]. split; [lia|]. apply Forall2_repeat, IH, W2.
  - reflexivity.
Qed.

(** Numbers. *)
Lemma inRange_iff k x : inRange k x = true <-> in_range k x.
Proof. unfold inRange, in_range. destruct (range k) as [[lo hi]|]; [|split; [discriminate|contradiction]]. rewrite andb_true_iff, !Z.leb_le. tauto. Qed.
Lemma ordinal_holds k z x : kindOrdinal k = true -> numRep k z x -> holds k z /\ x = denote k z.
Proof. unfold numRep. intros ->. auto. Qed.
Lemma range_ord d k z x : kindOrdinal d = true -> kindOrdinal k = true -> numRep k z x ->
  match (if inRange d x then Ok x else Err EOverflow) with
  | Ok y => doAssertRange d k z = Ok z /\ numRep d z y
  | Err e => doAssertRange d k z = Err e
  | UB => False
  end.
Proof.
  intros Hd Hk R. destruct (ordinal_holds _ _ _ Hk R) as [H ->]. destruct (assert_range_exact d k z Hd H) as [A B].
  destruct (inRange d (denote k z)) eqn:E.
  - apply inRange_iff in E. destruct (A E) as (A1 & A2 & A3). split; [exact A1|]. unfold numRep. rewrite Hd. split; [exact A2|]. now rewrite A3.
  - apply B. intros I. apply inRange_iff in I. congruence.
Qed.
Lemma SFltb_abs_pos (M : spec_float) mm me r : M = S754_finite false mm me -> SFltb r (SFopp M) || SFltb M r = SFltb M (SFabs r).
Proof.
  intros ->. destruct r as [s|s| |s m e]; try destruct s; try reflexivity; cbn [SFabs SFopp SFltb SFcompare negb].
  - unfold SFltb, SFcompare. cbn [SFopp negb]. destruct (Z.compare e me) eqn:C.
    + rewrite Z.compare_antisym, C. cbn [CompOpp]. unfold Pos.compare. rewrite (Pos.compare_cont_antisym m mm Eq). cbn [CompOpp].
      destruct (Pos.compare_cont Eq mm m); reflexivity.
    + rewrite Z.compare_antisym, C. reflexivity.
    + rewrite Z.compare_antisym, C. reflexivity.
Qed.
Lemma SFltb_abs M r : M = FLT_MAX \/ M = DBL_MAX -> SFltb r (SFopp M) || SFltb M r = SFltb M (SFabs r).
Proof. intros [-> | ->]; eapply SFltb_abs_pos; reflexivity. Qed.

(** What the code of a conversion does. *)
Definition good (c : list instr) (d t : ty) (n n' : nat) : Prop := forall s P v rest x,
  stk s = v :: rest -> srep s n P t v x -> (forall b, P b -> (b < hnext s)%nat) ->
  match conv d t x with
  | Ok y => exists s' v', runs c s (Ok s') /\ stk s' = v' :: rest /\ kept s s' n /\ srep s' n' (fun b => P b \/ (hnext s <= b < hnext s')%nat) d v' y
  | Err e => runs c s (Err e)
  | UB => False
  end.
Lemma kept_refl s n : kept s s n.
Proof. repeat split; auto. Qed.
Ltac go := eapply runs_step; [reflexivity|cbn [step withStk setSlot alloc stk slots heap hnext bind structured loadPtr load]; try reflexivity|].

Lemma srep_rep s n P t v x : srep s n P t v x -> exists v0, rep (heap s) P t v0 x.
Proof. unfold srep. destruct (structured t); [intros (p & c & _ & _ & R & _); eauto|eauto]. Qed.
Lemma good_nil t n : good [] t t n n.
Proof.
  intros s P v rest x St Sr Lt. destruct (srep_rep _ _ _ _ _ _ Sr) as [v0 R]. rewrite (conv_same _ _ _ _ _ R).
  exists s, v. split; [apply runs_nil|]. split; [exact St|]. split; [apply kept_refl|].
  unfold srep in *. destruct (structured t).
  - destruct Sr as (p & c & A & B & C & D). exists p, c. repeat split; auto.
    + eapply rep_ext; [reflexivity| |exact C]. auto.
    + destruct p; [exact D|now left].
  - eapply rep_ext; [reflexivity| |exact Sr]. auto.
Qed.
Lemma good_num d k n c : (forall z x, numRep k z x -> match convNum d k x with
    | Ok y => exists z', (forall l sl h hn, step c (St (VNum z :: l) sl h hn) = Ok (St (VNum z' :: l) sl h hn)) /\ numRep d z' y
    | Err e => e <> EFuel /\ forall l sl h hn, step c (St (VNum z :: l) sl h hn) = Err e | UB => False end) ->
  isWhile c = false -> good [c] (TNum d) (TNum k) n n.
Proof.
  intros H W [l sl h hn] P v rest x St Sr Lt. cbn in St. subst l. unfold srep in Sr. cbn [structured rep] in Sr.
  destruct v as [z| | | | |]; try contradiction. destruct x as [x| | |]; try contradiction. cbn [conv]. specialize (H z x Sr).
  destruct (convNum d k x) as [y|e|]; cbn [bind].
  - destruct H as (z' & H1 & H2). eexists. exists (VNum z'). split; [eapply runs_step; [exact W|apply H1|apply runs_nil]|].
    split; [reflexivity|]. split; [repeat split; auto|]. exact H2.
  - destruct H as [H1 H2]. apply runs_err; auto.
  - contradiction.
Qed.
Lemma good_range_ord d k n : kindOrdinal d = true -> kindOrdinal k = true -> kindEqb d k = false -> good [IRange d k] (TNum d) (TNum k) n n.
Proof.
  intros Hd Hk Ne. apply good_num; [|reflexivity]. intros z x R. unfold convNum. rewrite Ne, Hd.
  pose proof (range_ord d k z x Hd Hk R) as Q. destruct (inRange d x).
  - destruct Q as [Q1 Q2]. exists z. split; [|exact Q2]. intros. cbn [step stk]. rewrite Q1. reflexivity.
  - split; [discriminate|]. intros. cbn [step stk]. rewrite Q. reflexivity.
Qed.
Lemma real_not_ord k : kindReal k = true -> kindOrdinal k = false.
Proof. destruct k; (discriminate || reflexivity). Qed.
Lemma good_range_real d k n : kindReal d = true -> kindReal k = true -> kindEqb d k = false -> good [IRange d k] (TNum d) (TNum k) n n.
Proof.
  intros Hd Hk Ne. apply good_num; [|reflexivity]. intros z x R. unfold convNum. rewrite Ne, (real_not_ord _ Hd), Hk.
  unfold numRep in R. rewrite (real_not_ord _ Hk) in R. destruct R as [_ ->].
  assert (E : typeConvOverflow d k z = SFltb (match d with KReal32 => FLT_MAX | _ => DBL_MAX end) (SFabs (realVal z))).
  { destruct d; try discriminate; cbn [typeConvOverflow]; apply SFltb_abs; auto. }
  destruct (SFltb _ _) eqn:F.
  - split; [discriminate|]. intros. cbn [step stk]. unfold doAssertRange. rewrite E. reflexivity.
  - exists z. split; [intros; cbn [step stk]; unfold doAssertRange; rewrite E; reflexivity|]. unfold numRep. rewrite (real_not_ord _ Hd). now split.
Qed.
Lemma good_real d k n : kindReal d = true -> kindIntegerOrEnum k = true -> good [IReal k] (TNum d) (TNum k) n n.
Proof.
  intros Hd Hk. assert (Ok1 : kindOrdinal k = true) by (unfold kindOrdinal; now rewrite Hk).
  apply good_num; [|reflexivity]. intros z x R. destruct (ordinal_holds _ _ _ Ok1 R) as [H ->]. unfold convNum.
  assert (Ne : kindEqb d k = false) by (destruct (kindEqb d k) eqn:E; [apply kindEqb_true in E; subst; rewrite real_not_ord in Ok1 by exact Hd; discriminate|reflexivity]).
  rewrite Ne, (real_not_ord _ Hd). assert (Nr : kindReal k = false) by (destruct k; (discriminate || reflexivity)). rewrite Nr.
  eexists. split; [intros; cbn [step stk]; reflexivity|]. unfold numRep. rewrite (real_not_ord _ Hd). split; [exact Hd|].
  destruct k; try discriminate Hk; reflexivity.
Qed.

(** Strings and bytes. *)
Definition byteKind (k : kind) : Prop := k = KChar \/ k = KUInt8.
Lemma byte_rep k z x : byteKind k -> numRep k z x <-> x = z /\ 0 <= z <= 255.
Proof.
  intros [-> | ->]; unfold numRep, holds, in_s64, in_range; cbn [kindOrdinal kindIntegerOrEnum orb range denote]; unfold INT64_MIN, INT64_MAX, two63;
    split; intros H; repeat split; try lia.
Qed.
Lemma bytes_rep h P k vs l : byteKind k -> Forall2 (rep h P (TNum k)) vs l -> exists zs, nums vs = Some zs /\ dnums l = Some zs /\ length zs = length vs /\ Forall (fun c => 0 <= c <= 255) zs.
Proof.
  intros B H. induction H as [|v x vs l H1 H2 IH]; [now exists []|]. cbn [rep] in H1. destruct v as [z| | | | |]; try contradiction. destruct x as [x| | |]; try contradiction.
  apply byte_rep in H1; [|exact B]. destruct H1 as [-> H1]. destruct IH as (zs & A1 & A2 & A3 & A4). exists (z :: zs). cbn [nums dnums length]. rewrite A1, A2, A3. repeat split. now constructor.
Qed.
Lemma cut_same l : upToZero l = beforeZero l.
Proof. induction l as [|z l IH]; [reflexivity|]. cbn [upToZero beforeZero]. destruct z; cbn [Z.eqb]; [reflexivity|now rewrite IH|now rewrite IH]. Qed.
Lemma cut_len l : (length (beforeZero l) <= length l)%nat.
Proof. induction l as [|z l IH]; [reflexivity|]. cbn [beforeZero]. destruct z; cbn [length]; lia. Qed.
Lemma cut_bytes l : Forall (fun c => 0 <= c <= 255) l -> Forall (fun c => 0 <= c <= 255) (beforeZero l).
Proof. induction 1 as [|z l H1 H2 IH]; [constructor|]. cbn [beforeZero]. destruct z; constructor; auto. Qed.
Lemma map_rep h P k s : byteKind k -> Forall (fun c => 0 <= c <= 255) s -> Forall2 (rep h P (TNum k)) (map VNum s) (map DNum s).
Proof. intros B H. induction H; constructor; [|assumption]. cbn [rep]. apply byte_rep; auto. Qed.

Lemma good_char n : good (IMakeStr true :: copyTemp TStr n) TStr (TNum KChar) n (n + 1).
Proof.
  intros [l sl h hn] P v rest x St Sr Lt. cbn in St. subst l. unfold srep in Sr. cbn [structured rep] in Sr.
  destruct v as [z| | | | |]; try contradiction. destruct x as [x| | |]; try contradiction. apply byte_rep in Sr; [|now left]. destruct Sr as [-> Sr].
  cbn [conv]. eexists. eexists. split; [|split; [|split]].
  - go. unfold copyTemp. go. go. go. cbn [bind store setSlot withStk stk slots heap hnext]. apply runs_nil.
  - reflexivity.
  - repeat split; cbn; auto. intros m Hm. destruct (Nat.eqb m n) eqn:E; [apply Nat.eqb_eq in E; lia|reflexivity].
  - unfold srep. cbn [structured rep]. split; [reflexivity|]. unfold small. destruct (z =? 0); (split; [cbn; lia|]); repeat constructor; lia.
Qed.
Lemma good_chars k n : byteKind k -> good (IMakeStr false :: copyTemp TStr n) TStr (TDyn (TNum k)) n (n + 1).
Proof.
  intros B [l sl h hn] P v rest x St Sr Lt. cbn in St. subst l. unfold srep in Sr. cbn [structured] in Sr.
  destruct Sr as (p & c & -> & L & R & Pl). cbn [rep] in R.
  assert (Q : exists o, c = VHdr o /\ exists m, x = DSeq m /\ exists zs, nums (match o with Some b => h b | None => [] end) = Some zs /\ dnums m = Some zs /\ small zs /\ Forall (fun c => 0 <= c <= 255) zs).
  { destruct c as [| |o| | |]; try contradiction. exists o. split; [reflexivity|]. destruct o as [b|]; destruct x as [| |m|]; try contradiction; exists m; (split; [reflexivity|]).
    - destruct R as (_ & Sm & R). destruct (bytes_rep h P k _ _ B R) as (zs & A1 & A2 & A3 & A4). exists zs. repeat split; try assumption. unfold small. rewrite A3. exact Sm.
    - subst m. exists []. split; [reflexivity|]. split; [reflexivity|]. split; [unfold small; cbn; lia|constructor]. }
  destruct Q as (o & -> & m & -> & zs & N1 & N2 & N0 & N3). cbn [conv]. rewrite N2.
  eexists. eexists. split; [|split; [|split]].
  - eapply runs_step; [reflexivity| |].
    + cbn [step stk loadPtr]. rewrite L. cbn [bind]. cbn [heap]. rewrite N1. reflexivity.
    + unfold copyTemp. go. go. go. cbn [bind store setSlot withStk stk slots heap hnext]. apply runs_nil.
  - reflexivity.
  - repeat split; cbn; auto. intros i Hm. destruct (Nat.eqb i n) eqn:E; [apply Nat.eqb_eq in E; lia|reflexivity].
  - unfold srep. cbn [structured rep]. rewrite cut_same. split; [reflexivity|]. split; [|now apply cut_bytes]. unfold small in *. pose proof (cut_len zs). lia.
Qed.

(** New dynamic arrays of converted items, from strings and from arrays. *)
Lemma good_new pre d t n : (forall sl h hn P v rest x, srep (St (v :: rest) sl h hn) n P t v x -> (forall b, P b -> (b < hn)%nat) ->
    exists items l s1, conv (TDyn d) t x = Ok (DSeq l) /\ small items /\ Forall2 (rep h P d) items l
      /\ runs pre (St (v :: rest) sl h hn) (Ok s1) /\ s1 = setSlot (alloc (St (VRef (PSlot n) :: rest) sl h hn) items) n (VHdr (Some hn))) ->
  good (pre ++ copyTemp (TDyn d) (n + 1)) (TDyn d) t n (n + 2).
Proof.
  intros H [l sl h hn] P v rest x St Sr Lt. cbn in St. subst l. destruct (H sl h hn P v rest x Sr Lt) as (items & l & s1 & C & Sm & R & Ru & ->). rewrite C.
  eexists. eexists. split; [|split; [|split]].
  - eapply runs_app; [exact Ru|]. unfold copyTemp. go. go. go. apply runs_nil.
  - reflexivity.
  - repeat split; cbn; auto.
    + intros m Hm. destruct (Nat.eqb m (n + 1)) eqn:E; [apply Nat.eqb_eq in E; lia|]. destruct (Nat.eqb m n) eqn:F; [apply Nat.eqb_eq in F; lia|reflexivity].
    + intros b Hb. destruct (Nat.eqb b hn) eqn:E; [apply Nat.eqb_eq in E; lia|reflexivity].
  - unfold srep. cbn [structured]. exists (PSlot n), (VHdr (Some hn)). split; [reflexivity|]. split.
    + cbn. destruct (Nat.eqb n (n + 1)) eqn:E; [apply Nat.eqb_eq in E; lia|]. now rewrite Nat.eqb_refl.
    + split; [|lia]. cbn [rep heap hnext setSlot alloc withStk]. rewrite Nat.eqb_refl. split; [right; lia|]. split; [exact Sm|].
      eapply Forall2_map2; [|exact R]. intros a b. apply rep_ext; [|auto].
      intros c Hc. destruct (Nat.eqb c hn) eqn:E; [|reflexivity]. apply Nat.eqb_eq in E. specialize (Lt c Hc). cbn in Lt. lia.
Qed.
Lemma good_bytes k n : byteKind k -> good ([IPushLocalPtr n; IMakeFromStr] ++ copyTemp (TDyn (TNum k)) (n + 1)) (TDyn (TNum k)) TStr n (n + 2).
Proof.
  intros B. apply good_new. intros sl h hn P v rest x Sr Lt. unfold srep in Sr. cbn [structured rep] in Sr.
  destruct v as [|s| | | |]; try contradiction. destruct x as [|s'| |]; try contradiction. destruct Sr as (<- & Sm & By).
  exists (map VNum s), (map DNum s). eexists. split; [reflexivity|]. split; [unfold small; now rewrite map_length|]. split; [now apply map_rep|].
  split; [|reflexivity]. go. go. apply runs_nil.
Qed.
Lemma good_fromArr d m n : good ([IPushInt m; IPushLocalPtr n; IMakeFromArr] ++ copyTemp (TDyn d) (n + 1)) (TDyn d) (TArr m d) n (n + 2).
Proof.
  apply good_new. intros sl h hn P v rest x Sr Lt. unfold srep in Sr. cbn [structured] in Sr.
  destruct Sr as (p & c & -> & L & R & Pl). cbn [rep] in R. destruct c as [| | |vs| |]; try contradiction. destruct x as [| |l|]; try contradiction.
  destruct R as (R1 & R2 & R3). exists vs, l. eexists. split; [reflexivity|]. split; [exact R2|]. split; [exact R3|]. split; [|reflexivity].
  go. go. eapply runs_step; [reflexivity| |apply runs_nil]. cbn [step withStk stk slots heap hnext loadPtr].
  replace (load _ p) with (Ok (VArr vs)) by (symmetry; destruct p; exact L). cbn [bind].
  rewrite <- R1, Nat2Z.id, firstn_all. reflexivity.
Qed.
Lemma good_toArr d m n : wfTy (TArr m d) -> good ([IPushLocalPtr n; IMakeArr m d] ++ copyTemp (TArr m d) (n + 1)) (TArr m d) (TDyn d) n (n + 2).
Proof.
  intros [Wm Wd] [l sl h hn] P v rest x St Sr Lt. cbn in St. subst l. unfold srep in Sr. cbn [structured] in Sr.
  destruct Sr as (p & c & -> & L & R & Pl). cbn [rep] in R.
  assert (Q : exists o, c = VHdr o /\ exists l, x = DSeq l /\ Forall2 (rep h P d) (match o with Some b => h b | None => [] end) l).
  { destruct c as [| |o| | |]; try contradiction. exists o. split; [reflexivity|]. destruct o as [b|]; destruct x as [| |l|]; try contradiction; exists l; (split; [reflexivity|]).
    - now destruct R as (_ & _ & R).
    - subst l. constructor. }
  destruct Q as (o & -> & l & -> & Q). set (items := match o with Some b => h b | None => [] end) in *. cbn [conv].
  pose proof (Forall2_len _ _ _ Q) as Ln. rewrite <- Ln.
  assert (S1 : step (IMakeArr m d) (St (VRef (PSlot n) :: VRef p :: rest) sl h hn) =
    if m <? Z.of_nat (length items) then Err EIllegalLen
    else Ok (St (VRef (PSlot n) :: rest) (fun i => if Nat.eqb i n then VArr (items ++ repeat (zero d) (Z.to_nat m - length items)) else sl i) h hn)).
  { cbn [step stk loadPtr]. replace (load _ p) with (Ok (VHdr o)) by (symmetry; destruct p; exact L). reflexivity. }
  destruct (m <? Z.of_nat (length items)) eqn:E.
  - cbn [app]. go. apply runs_err; [reflexivity|exact S1|discriminate].
  - apply Z.ltb_ge in E. eexists. eexists. split; [|split; [|split]].
    + cbn [app]. go. eapply runs_step; [reflexivity|exact S1|]. unfold copyTemp. go. go. go. apply runs_nil.
    + reflexivity.
    + repeat split; cbn; auto.
      intros i Hm. destruct (Nat.eqb i (n + 1)) eqn:E1; [apply Nat.eqb_eq in E1; lia|]. destruct (Nat.eqb i n) eqn:F; [apply Nat.eqb_eq in F; lia|reflexivity].
    + unfold srep. cbn [structured]. exists (PSlot n). eexists. split; [reflexivity|]. split.
      * cbn. destruct (Nat.eqb n (n + 1)) eqn:E1; [apply Nat.eqb_eq in E1; lia|]. rewrite Nat.eqb_refl. reflexivity.
      * split; [|lia]. cbn [rep heap hnext setSlot withStk]. unfold small. rewrite app_length, repeat_length. split; [lia|]. split; [lia|].
        apply Forall2_app.
        -- eapply Forall2_map2; [|exact Q]. intros a b. apply rep_ext; auto.
        -- apply Forall2_repeat, rep_zero, Wd.
Qed.
