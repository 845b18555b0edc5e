(** The loop that converts the items of a dynamic array, and conversions as a whole. *)
From Coq Require Import ZArith Lia Bool List.
From Verif Require Import Base NumModel NumSpec NumProofs ConvModel ConvSpec ConvExec ConvProofs.
Import ListNotations.
Local Open Scope Z_scope.

Lemma convAll_tail f m l e : convAll f (skipn m l) = Err e -> convAll f l = Err e.
Proof. revert l. induction m as [|m IH]; intros l H; [exact H|]. destruct l as [|x l]; [discriminate|]. cbn [skipn] in H. cbn [convAll]. now rewrite (IH _ H). Qed.
Lemma convAll_len f l m : convAll f l = Ok m -> length m = length l.
Proof.
  revert m. induction l as [|x l IH]; intros m H; cbn [convAll] in H; [now injection H as <-|].
  destruct (convAll f l) as [a|e|]; try discriminate. cbn [bind] in H. destruct (f x); try discriminate. injection H as <-. cbn. now rewrite (IH a).
Qed.
Lemma skipn_nth {A} m (l : list A) x : nth_error l m = Some x -> skipn m l = x :: skipn (S m) l.
Proof. revert l. induction m as [|m IH]; intros [|y l] H; cbn in *; try discriminate; [congruence|]. now apply IH. Qed.
Lemma replace_mid zs z done v : replace (zs ++ z :: done) (length zs) v = zs ++ v :: done.
Proof. induction zs as [|a zs IH]; [reflexivity|]. cbn [app length replace]. now rewrite IH. Qed.
Lemma snoc_len {A} (l : list A) m : length l = S m -> exists l' a, l = l' ++ [a] /\ length l' = m.
Proof.
  intros H. destruct (exists_last (l := l)) as (l' & a & E); [destruct l; discriminate|]. exists l', a. split; [exact E|]. subst. rewrite app_length in H. cbn in H. lia.
Qed.
Lemma load_kept (s s' : st) p (n : nat) (P : nat -> Prop) :
  (forall m, (m < n)%nat -> slots s' m = slots s m) -> (forall b, P b -> heap s' b = heap s b) ->
  match p with PSlot m => (m < n)%nat | PItem b _ => P b end -> load s' p = load s p.
Proof. intros A B. destruct p as [m|b i]; intros H; cbn [load]; [now rewrite A|now rewrite B]. Qed.

Section Loop.
Variables (c : list instr) (d t : ty) (n n' : nat).
Hypothesis Good : good c d t (n + 3) n'.
Let arr := (n + 1)%nat.
Let idx := (n + 2)%nat.
Definition cond0 : list instr := [IPushLocal idx; IPushInt 0; IGe].
Definition body0 : list instr :=
  [IDup; IPushLocal idx; IGetDyn; IDeref t] ++ c ++ [IPushLocalPtr arr; IDeref (TDyn d); IPushLocal idx; IGetDyn; IAssign d] ++ [IPushLocalPtr idx; IDec].

Section Run.
Variables (s0 : st) (P : nat -> Prop) (p : place) (o : option nat) (l : list dval) (rest : list value).
Hypothesis PLt : forall b, P b -> (b < hnext s0)%nat.
Hypothesis Ppl : match p with PSlot m => (m < n)%nat | PItem b _ => P b end.
Hypothesis Ld : load s0 p = Ok (VHdr o).
Hypothesis Src : match o with Some b => P b /\ small (heap s0 b) /\ Forall2 (rep (heap s0) P t) (heap s0 b) l | None => l = [] end.
Let D := hnext s0.

Definition inv (m : nat) (s : st) (done : list value) (ds : list dval) : Prop :=
  stk s = VRef p :: rest /\ slots s arr = VHdr (Some D) /\ slots s idx = VNum (Z.of_nat m - 1)
  /\ (forall k, (k < n)%nat -> slots s k = slots s0 k) /\ (forall b, (b < D)%nat -> heap s b = heap s0 b) /\ (D < hnext s)%nat
  /\ (m <= length l)%nat /\ (exists zs, length zs = m /\ heap s D = zs ++ done)
  /\ Forall2 (rep (heap s) (fun b => P b \/ (D < b < hnext s)%nat) d) done ds /\ convAll (conv d t) (skipn m l) = Ok ds.

Lemma cond_runs m s done ds : inv m s done ds -> runs cond0 s (Ok (withStk s (VNum (if 0 <=? Z.of_nat m - 1 then 1 else 0) :: VRef p :: rest))).
Proof.
  intros (S1 & S2 & S3 & _). destruct s as [k sl h hn]. cbn [stk slots] in *. subst k. unfold cond0.
  eapply runs_step; [reflexivity|reflexivity|]. cbn [withStk slots stk]. rewrite S3. eapply runs_step; [reflexivity|reflexivity|].
  eapply runs_step; [reflexivity|reflexivity|]. apply runs_nil.
Qed.
Lemma item_at m : (m < length l)%nat -> exists b v x, o = Some b /\ P b /\ small (heap s0 b) /\ nth_error l m = Some x /\ nth_error (heap s0 b) m = Some v
  /\ (m < length (heap s0 b))%nat /\ rep (heap s0) P t v x.
Proof.
  intros L. destruct o as [b|]; [|subst l; cbn in L; lia]. destruct Src as (A & B & F).
  destruct (nth_error l m) as [x|] eqn:E; [|apply nth_error_None in E; lia]. destruct (Forall2_nth _ _ _ _ _ F E) as (v & V & R).
  exists b, v, x. repeat split; auto. apply nth_error_Some. congruence.
Qed.
(** Pushing item [m] of the source. *)
Lemma push_item m s x : (forall k, (k < n)%nat -> slots s k = slots s0 k) -> (forall b, (b < D)%nat -> heap s b = heap s0 b) -> stk s = VRef p :: rest ->
  slots s idx = VNum (Z.of_nat m) -> nth_error l m = Some x ->
  exists v, runs [IDup; IPushLocal idx; IGetDyn; IDeref t] s (Ok (withStk s (v :: VRef p :: rest))) /\ srep (withStk s (v :: VRef p :: rest)) (n + 3) P t v x.
Proof.
  intros Sl Hp St Ix Nx. assert (L : (m < length l)%nat) by (apply nth_error_Some; congruence).
  destruct (item_at m L) as (b & v & x' & Eo & Pb & Sm & Nx' & Nv & Lb & R). assert (x' = x) by congruence. subst x'.
  assert (Hb : heap s b = heap s0 b) by (apply Hp, PLt, Pb).
  assert (G : runs [IDup; IPushLocal idx; IGetDyn] s (Ok (withStk s (VRef (PItem b (Z.of_nat m)) :: VRef p :: rest)))).
  { destruct s as [k sl h hn]. cbn [stk slots heap] in *. subst k. go. go. eapply runs_step; [reflexivity| |apply runs_nil].
    cbn [step withStk stk slots heap hnext loadPtr]. rewrite Ix. cbn [loadPtr].
    match goal with |- context [load ?q p] => rewrite (load_kept s0 q p n P Sl (fun b Hb => Hp b (PLt b Hb)) Ppl), Ld end. cbn [bind]. rewrite Eo. cbn [heap]. rewrite Hb.
    destruct (Z.of_nat m <? 0) eqn:E1; [apply Z.ltb_lt in E1; lia|]. destruct (_ <? Z.of_nat m) eqn:E2; [apply Z.ltb_lt in E2; lia|]. reflexivity. }
  assert (Ldm : forall k, load (withStk s k) (PItem b (Z.of_nat m)) = Ok v).
  { intros k. cbn [load withStk heap]. destruct (Z.of_nat m <? 0) eqn:E1; [apply Z.ltb_lt in E1; lia|]. now rewrite Hb, Nat2Z.id, Nv. }
  assert (R' : rep (heap s) P t v x) by (eapply rep_ext; [|intros ? H; exact H|exact R]; intros ? H; apply Hp, PLt, H).
  exists (if structured t then VRef (PItem b (Z.of_nat m)) else v). split.
  - change [IDup; IPushLocal idx; IGetDyn; IDeref t] with ([IDup; IPushLocal idx; IGetDyn] ++ [IDeref t]). eapply runs_app; [exact G|].
    eapply runs_step; [reflexivity| |apply runs_nil]. cbn [step withStk stk]. destruct (structured t); [reflexivity|].
    cbn [loadPtr]. match goal with |- context [load ?q _] => change q with (withStk s (stk q)) end. rewrite Ldm. reflexivity.
  - unfold srep. destruct (structured t).
    + exists (PItem b (Z.of_nat m)), v. repeat split; auto.
    + exact R'.
Qed.
(** Storing the converted item. *)
Lemma store_item m s v zs z done : stk s = v :: VRef p :: rest -> slots s arr = VHdr (Some D) -> slots s idx = VNum (Z.of_nat m) ->
  heap s D = zs ++ z :: done -> length zs = m -> Z.of_nat m <= 9223372036854775807 ->
  forall cell, (if structured d then loadPtr s v else Ok v) = Ok cell ->
  runs ([IPushLocalPtr arr; IDeref (TDyn d); IPushLocal idx; IGetDyn; IAssign d] ++ [IPushLocalPtr idx; IDec]) s
    (Ok (St (VRef p :: rest) (fun k => if Nat.eqb k idx then VNum (Z.of_nat m - 1) else slots s k) (fun b => if Nat.eqb b D then zs ++ cell :: done else heap s b) (hnext s))).
Proof.
  intros St Sa Si Hd Lz Lm cell Ce. destruct s as [k sl h hn]. cbn [stk slots heap hnext] in *. subst k. cbn [app].
  assert (Len : Z.of_nat (length (h D)) = Z.of_nat m + 1 + Z.of_nat (length done)) by (rewrite Hd, app_length; cbn [length]; lia).
  go. go. go. eapply runs_step; [reflexivity| |].
  { cbn [step withStk stk slots heap hnext loadPtr]. rewrite Si. cbn [loadPtr load slots withStk]. rewrite Sa. cbn [bind heap].
    destruct (Z.of_nat m <? 0) eqn:E1; [apply Z.ltb_lt in E1; lia|]. destruct (_ <? Z.of_nat m) eqn:E2; [apply Z.ltb_lt in E2; lia|]. reflexivity. }
  eapply runs_step; [reflexivity| |].
  { cbn [step withStk stk slots heap hnext].
    match goal with |- context [if structured d then loadPtr ?q v else Ok v] => assert (Ce' : (if structured d then loadPtr q v else Ok v) = Ok cell) end.
    { destruct (structured d); [|exact Ce]. rewrite <- Ce. destruct v as [| | | | |[|]]; reflexivity. }
    rewrite Ce'. cbn [bind store heap withStk].
    destruct (Z.of_nat m <? 0) eqn:E1; [apply Z.ltb_lt in E1; lia|]. destruct (_ <=? Z.of_nat m) eqn:E2; [apply Z.leb_le in E2; lia|]. cbn [orb].
    rewrite Nat2Z.id, Hd, <- Lz, replace_mid. reflexivity. }
  go. eapply runs_step; [reflexivity| |].
  { cbn [step withStk stk slots heap hnext setBlk]. rewrite Si. rewrite (chk64_ok (Z.of_nat m - 1)) by (unfold in_s64, INT64_MIN, INT64_MAX, two63; lia). cbn [bind]. reflexivity. }
  apply runs_nil.
Qed.

Lemma loop_ok m : forall s done ds, inv m s done ds ->
  match convAll (conv d t) l with
  | Ok ys => exists s' done', runs [IWhile cond0 body0] s (Ok s') /\ inv 0 s' done' ys
  | Err e => runs [IWhile cond0 body0] s (Err e)
  | UB => False
  end.
Proof.
  induction m as [|m IH]; intros s done ds I; pose proof (cond_runs _ _ _ _ I) as C.
  - destruct I as (S1 & S2 & S3 & S4 & S5 & S6 & S7 & S8 & S9 & S10). cbn [skipn] in S10. rewrite S10. exists s, done. split.
    + eapply runs_while_false; [exact C|reflexivity|]. destruct s as [k sl h hn]. cbn in S1. subst k. apply runs_nil.
    + repeat split; assumption.
  - destruct (0 <=? Z.of_nat (S m) - 1) eqn:E; [|apply Z.leb_gt in E; lia].
    destruct I as (S1 & S2 & S3 & S4 & S5 & S6 & S7 & (zs & S8 & S8') & S9 & S10).
    destruct (nth_error l m) as [x|] eqn:Nx; [|apply nth_error_None in Nx; lia].
    replace (Z.of_nat (S m) - 1) with (Z.of_nat m) in S3 by lia.
    destruct (item_at m ltac:(lia)) as (b0 & _ & _ & _ & Pb0 & Sm0 & _ & _ & Lb0 & _).
    destruct (push_item m s x S4 S5 S1 S3 Nx) as (v & R1 & Sr).
    assert (SelfEq : withStk (withStk s (VNum 1 :: VRef p :: rest)) (VRef p :: rest) = s) by (destruct s as [k sl h hn]; cbn in S1; subst k; reflexivity).
    assert (Lt1 : forall b, P b -> (b < hnext (withStk s (v :: VRef p :: rest)))%nat) by (intros b Hb; cbn; specialize (PLt b Hb); unfold D in *; lia).
    pose proof (Good (withStk s (v :: VRef p :: rest)) P v (VRef p :: rest) x eq_refl Sr Lt1) as G.
    pose proof (skipn_nth _ _ _ Nx) as Sk.
    destruct (conv d t x) as [y|e|] eqn:Cx; [| |contradiction].
    + destruct G as (s3 & v' & R2 & T3 & (K1 & K2 & K3) & Sr3). cbn [withStk slots heap hnext] in K1, K2, K3, Sr3.
      destruct (snoc_len zs m S8) as (zs' & z & -> & Lz). rewrite <- app_assoc in S8'. cbn [app] in S8'.
      assert (Cell : exists cell, (if structured d then loadPtr s3 v' else Ok v') = Ok cell /\ rep (heap s3) (fun b => P b \/ (hnext s <= b < hnext s3)%nat) d cell y).
      { unfold srep in Sr3. destruct (structured d); [|now exists v']. destruct Sr3 as (q & cell & -> & A & B & _). now exists cell. }
      destruct Cell as (cell & Ce & Rc).
      assert (Sa3 : slots s3 arr = VHdr (Some D)) by (rewrite K1; [exact S2|unfold arr; lia]).
      assert (Si3 : slots s3 idx = VNum (Z.of_nat m)) by (rewrite K1; [exact S3|unfold idx; lia]).
      assert (Hd3 : heap s3 D = zs' ++ z :: done) by (rewrite K2; [exact S8'|exact S6]).
      assert (Small : Z.of_nat m <= 9223372036854775807) by (unfold small in Sm0; lia).
      pose proof (store_item m s3 v' zs' z done T3 Sa3 Si3 Hd3 Lz Small cell Ce) as R3.
      match type of R3 with runs _ _ (Ok ?q) => set (s4 := q) in * end.
      assert (I4 : inv m s4 (cell :: done) (y :: ds)).
      { unfold inv, s4. cbn [stk slots heap hnext]. rewrite Nat.eqb_refl. split; [reflexivity|]. split.
        - destruct (Nat.eqb arr idx) eqn:Q; [apply Nat.eqb_eq in Q; unfold arr, idx in Q; lia|exact Sa3].
        - split; [now rewrite ?Nat.eqb_refl|]. split.
          + intros k Hk. destruct (Nat.eqb k idx) eqn:Q; [apply Nat.eqb_eq in Q; unfold idx in Q; lia|]. rewrite K1 by lia. now apply S4.
          + split.
            * intros b Hb. destruct (Nat.eqb b D) eqn:Q; [apply Nat.eqb_eq in Q; lia|]. rewrite K2 by lia. now apply S5.
            * split; [lia|]. split; [lia|]. split; [exists zs'; rewrite ?Nat.eqb_refl; now split|].
              assert (Nd : forall b, P b -> b <> D) by (intros b Hb Eb; subst b; specialize (PLt D Hb); unfold D in PLt; lia).
              split.
              -- constructor.
                 ++ eapply rep_ext; [| |exact Rc]; cbv beta.
                    ** intros b [Hb|Hb]; (destruct (Nat.eqb b D) eqn:Q; [apply Nat.eqb_eq in Q|reflexivity]); [now apply Nd in Hb|lia].
                    ** intros b [Hb|Hb]; [now left|right; lia].
                 ++ eapply Forall2_map2; [|exact S9]. intros a1 a2. apply rep_ext; cbv beta.
                    ** intros b [Hb|Hb]; (destruct (Nat.eqb b D) eqn:Q; [apply Nat.eqb_eq in Q|]).
                       --- now apply Nd in Hb.
                       --- apply K2. specialize (PLt b Hb). unfold D in *. lia.
                       --- lia.
                       --- apply K2. lia.
                    ** intros b [Hb|Hb]; [now left|right; lia].
              -- rewrite Sk. cbn [convAll]. rewrite S10. cbn [bind]. rewrite Cx. reflexivity. }
      specialize (IH s4 _ _ I4).
      assert (Rb : runs body0 s (Ok s4)).
      { unfold body0. eapply runs_app; [exact R1|]. eapply runs_app; [exact R2|]. exact R3. }
      destruct (convAll (conv d t) l) as [ys|e|].
      * destruct IH as (s' & done' & IH1 & IH2). exists s', done'. split; [|exact IH2].
        eapply runs_while_true; [exact C|reflexivity|discriminate| |exact IH1]. rewrite SelfEq. exact Rb.
      * eapply runs_while_true; [exact C|reflexivity|discriminate| |exact IH]. rewrite SelfEq. exact Rb.
      * exact IH.
    + assert (Ce : convAll (conv d t) (skipn m l) = Err e) by (rewrite Sk; cbn [convAll]; rewrite S10; cbn [bind]; now rewrite Cx).
      rewrite (convAll_tail _ _ _ _ Ce). eapply runs_while_err; [exact C|reflexivity|discriminate|]. rewrite SelfEq.
      unfold body0. eapply runs_app; [exact R1|]. apply runs_app_err. exact G.
Qed.
End Run.

Definition loopCode : list instr :=
  [IDup; ILen; IPushLocalPtr n; IAssign (TNum KInt)] ++ [IZero arr (VHdr None); IPushLocal n; IPushLocalPtr arr; IMake d; IPop]
  ++ [IPushLocal n; IPushInt 1; ISub; IPushLocalPtr idx; IAssign (TNum KInt)] ++ [IWhile cond0 body0] ++ [IPop; IPushLocalPtr arr; IDeref (TDyn d)].

Lemma loop_full : (n + 3 <= n')%nat -> forall s P v rest x,
  stk s = v :: rest -> srep s n P (TDyn t) v x -> (forall b, P b -> (b < hnext s)%nat) ->
  match conv (TDyn d) (TDyn t) x with
  | Ok y => exists s' v', runs loopCode s (Ok s') /\ stk s' = v' :: rest /\ kept s s' n /\ srep s' n' (fun b => P b \/ (hnext s <= b < hnext s')%nat) (TDyn d) v' y
                          /\ loadPtr s' v' = Ok (VHdr (Some (hnext s)))
  | Err e => runs loopCode s (Err e)
  | UB => False
  end.
Proof.
  intros Hn s P v rest x Stk Sr Lt. unfold srep in Sr. cbn [structured] in Sr. destruct Sr as (p & c0 & -> & Ld & R & Pl). cbn [rep] in R.
  assert (Q : exists o l, c0 = VHdr o /\ x = DSeq l /\ match o with Some b => P b /\ small (heap s b) /\ Forall2 (rep (heap s) P t) (heap s b) l | None => l = [] end).
  { destruct c0 as [| |o| | |]; try contradiction. exists o. destruct o as [b|]; destruct x as [| |l|]; try contradiction; exists l; auto. }
  destruct Q as (o & l & -> & -> & Src). set (items := match o with Some b => heap s b | None => [] end).
  assert (Li : length items = length l) by (unfold items; destruct o; [destruct Src as (_ & _ & F); exact (Forall2_len _ _ _ F)|now subst l]).
  assert (Sm : Z.of_nat (length items) <= 9223372036854775807) by (unfold items; destruct o; [apply Src|cbn; lia]).
  set (L := Z.of_nat (length items)) in *.
  set (s1 := St (VRef p :: rest) (fun k => if Nat.eqb k idx then VNum (L - 1) else if Nat.eqb k arr then VHdr (Some (hnext s)) else if Nat.eqb k arr then VHdr None else if Nat.eqb k n then VNum L else slots s k)
       (fun b => if Nat.eqb b (hnext s) then repeat (zero d) (Z.to_nat L) else heap s b) (S (hnext s))).
  assert (A1 : Nat.eqb n arr = false) by (apply Nat.eqb_neq; unfold arr; lia).
  assert (A2 : Nat.eqb arr idx = false) by (apply Nat.eqb_neq; unfold arr, idx; lia).
  assert (Pre : runs ([IDup; ILen; IPushLocalPtr n; IAssign (TNum KInt)] ++ [IZero arr (VHdr None); IPushLocal n; IPushLocalPtr arr; IMake d; IPop]
      ++ [IPushLocal n; IPushInt 1; ISub; IPushLocalPtr idx; IAssign (TNum KInt)]) s (Ok s1)).
  { destruct s as [k sl h hn]. cbn [stk slots heap hnext] in *. subst k. cbn [app].
    go. eapply runs_step; [reflexivity| |].
    { cbn [step withStk stk loadPtr slots heap hnext]. match goal with |- context [load ?q p] => replace (load q p) with (Ok (VHdr o)) by (symmetry; destruct p; exact Ld) end.
      cbn [bind heap]. replace (match o with Some b => Z.of_nat (length (h b)) | None => 0 end) with L by (unfold L, items; destruct o; reflexivity). reflexivity. }
    go. go. go. eapply runs_step; [reflexivity|cbn [step withStk setSlot stk slots heap hnext]; rewrite A1, Nat.eqb_refl; reflexivity|].
    go. eapply runs_step; [reflexivity| |].
    { cbn [step withStk setSlot stk slots heap hnext]. destruct (L <? 0) eqn:Q; [apply Z.ltb_lt in Q; unfold L in Q; lia|]. reflexivity. }
    go. eapply runs_step; [reflexivity|cbn [step withStk setSlot stk slots heap hnext alloc]; rewrite A1, Nat.eqb_refl; reflexivity|].
    go. eapply runs_step; [reflexivity| |].
    { cbn [step withStk setSlot stk slots heap hnext alloc]. rewrite (chk64_ok (L - 1)) by (unfold in_s64, INT64_MIN, INT64_MAX, two63; unfold L in *; lia). reflexivity. }
    go. go. apply runs_nil. }
  assert (I : inv s P p l rest (length l) s1 [] []).
  { unfold inv, s1. cbn [stk slots heap hnext]. rewrite ?Nat.eqb_refl, A2, ?Nat.eqb_refl. split; [reflexivity|]. split; [reflexivity|]. split; [now rewrite <- Li|].
    split; [|split; [|split; [|split; [|split; [|split]]]]].
    - intros k Hk. destruct (Nat.eqb k idx) eqn:Q; [apply Nat.eqb_eq in Q; unfold idx in Q; lia|]. destruct (Nat.eqb k arr) eqn:Q1; [apply Nat.eqb_eq in Q1; unfold arr in Q1; lia|].
      destruct (Nat.eqb k n) eqn:Q2; [apply Nat.eqb_eq in Q2; lia|reflexivity].
    - intros b Hb. destruct (Nat.eqb b (hnext s)) eqn:Q; [apply Nat.eqb_eq in Q; lia|reflexivity].
    - lia.
    - lia.
    - eexists. rewrite app_nil_r. split; [|reflexivity]. rewrite repeat_length. unfold L. rewrite Nat2Z.id. exact Li.
    - constructor.
    - now rewrite skipn_all. }
  pose proof (loop_ok s P p o l rest Lt Pl Ld Src (length l) s1 [] [] I) as Lp. cbn [conv].
  destruct (convAll (conv d t) l) as [ys|e|]; cbn [bind].
  - destruct Lp as (s2 & done & Lr & (S1 & S2 & S3 & S4 & S5 & S6 & S7 & (zs & S8 & S8') & S9 & S10)). cbn [skipn] in S10.
    destruct zs; [|discriminate]. cbn [app] in S8'.
    exists (withStk s2 (VRef (PSlot arr) :: rest)), (VRef (PSlot arr)). split; [|split; [reflexivity|split; [|split]]].
    + match type of Pre with runs ?q _ _ => change loopCode with (q ++ [IWhile cond0 body0] ++ [IPop; IPushLocalPtr arr; IDeref (TDyn d)]) end.
      eapply runs_app; [exact Pre|]. eapply runs_app; [exact Lr|]. destruct s2 as [k sl h hn]. cbn in S1. subst k. go. go. go. apply runs_nil.
    + split; [exact S4|]. split; [exact S5|cbn; lia].
    + unfold srep. cbn [structured]. exists (PSlot arr), (VHdr (Some (hnext s))). split; [reflexivity|]. split; [cbn; now rewrite S2|].
      split; [|unfold arr; lia]. cbn [rep withStk heap hnext]. split; [right; lia|]. rewrite S8'.
      pose proof (Forall2_len _ _ _ S9) as Ld9.
      split.
      * unfold small. rewrite Ld9. rewrite (convAll_len _ _ _ S10), <- Li. exact Sm.
      * eapply Forall2_map2; [|exact S9]. intros a b. apply rep_ext; [reflexivity|]. intros e [He|He]; [now left|right; lia].
    + cbn. now rewrite S2.
  - match type of Pre with runs ?q _ _ => change loopCode with (q ++ [IWhile cond0 body0] ++ [IPop; IPushLocalPtr arr; IDeref (TDyn d)]) end.
    eapply runs_app; [exact Pre|]. apply runs_app_err. exact Lp.
  - exact Lp.
Qed.
Lemma good_loop : (n + 3 <= n')%nat -> good loopCode (TDyn d) (TDyn t) n n'.
Proof.
  intros Hn s P v rest x Stk Sr Lt. pose proof (loop_full Hn s P v rest x Stk Sr Lt) as F. destruct (conv (TDyn d) (TDyn t) x); [|exact F|exact F].
  destruct F as (s' & v' & A & B & C & E & _). now exists s', v'.
Qed.
End Loop.
