(** Proofs about format strings. *)
From Coq Require Import ZArith Lia Bool ZifyBool List.
From Verif Require Import Base NumModel NumSpec FmtModel FmtSpec.
Import ListNotations.
Local Open Scope Z_scope.

(** ** Skipping characters *)

Definition headNot (p : Z -> bool) (l : list Z) : Prop := match l with x :: _ => p x = false | [] => True end.

Lemma span_fwd : forall p l, l = fst (span p l) ++ snd (span p l) /\ Forall (fun c => p c = true) (fst (span p l)) /\ headNot p (snd (span p l)).
Proof.
  induction l as [|c r IH]; cbn [span]; [cbn; auto|]. destruct (p c) eqn:E; cbn [fst snd app].
  - destruct IH as (A & B & C). split; [f_equal; exact A|]. split; [constructor; assumption|exact C].
  - split; [reflexivity|]. split; [constructor|]. exact E.
Qed.
Lemma span_app : forall p a b, Forall (fun c => p c = true) a -> headNot p b -> span p (a ++ b) = (a, b).
Proof.
  induction a as [|c r IH]; intros b F H; cbn [app span].
  - destruct b as [|x b]; [reflexivity|]. cbn [headNot] in H. cbn [span]. rewrite H. reflexivity.
  - inversion F as [|x y F1 F2]; subst. rewrite F1, (IH b F2 H). reflexivity.
Qed.

Lemma flag_iff : forall c, isFlag c = true <-> flagChar c.
Proof.
  intros c. unfold isFlag, flagChar. cbn [In]. lia.
Qed.
Lemma digit_iff : forall c, isDigit c = true <-> digitChar c.
Proof. intros c. unfold isDigit, digitChar. lia. Qed.

Definition szOf (l : clength) : fsize := match l with Lhh => SzHH | Lh => SzH | Lno => SzN | Ll => SzL | Lll => SzLL end.
Definition lenOf (s : fsize) : clength := match s with SzHH => Lhh | SzH => Lh | SzN => Lno | SzL => Ll | SzLL => Lll end.

Definition precText (p : option (list Z)) : list Z := match p with Some d => 46 :: d | None => [] end.
Definition precOf (l : list Z) : option (list Z) := match l with 46 :: r => Some (fst (span isDigit r)) | _ => None end.

Lemma z_case : forall (c d : Z) {A} (x y : A), c <> d -> (if c =? d then x else y) = y.
Proof. intros. destruct (c =? d) eqn:E; [lia|reflexivity]. Qed.

Lemma prec_eq : forall l, skipPrec l = match l with c :: r => if c =? 46 then snd (span isDigit r) else l | [] => l end.
Proof.
  intros [|c r]; [reflexivity|]. unfold skipPrec.
  destruct (c =? 46) eqn:E; [apply Z.eqb_eq in E; subst; reflexivity|].
  destruct c as [|p|p]; try reflexivity. repeat (destruct p as [p|p|]; try reflexivity; try discriminate).
Qed.
Lemma precOf_eq : forall l, precOf l = match l with c :: r => if c =? 46 then Some (fst (span isDigit r)) else None | [] => None end.
Proof.
  intros [|c r]; [reflexivity|]. unfold precOf.
  destruct (c =? 46) eqn:E; [apply Z.eqb_eq in E; subst; reflexivity|].
  destruct c as [|p|p]; try reflexivity. repeat (destruct p as [p|p|]; try reflexivity; try discriminate).
Qed.

Lemma prec_fwd : forall l, l = precText (precOf l) ++ skipPrec l /\ (forall d, precOf l = Some d -> Forall digitChar d).
Proof.
  intros l. rewrite prec_eq, precOf_eq. destruct l as [|c r]; [split; [reflexivity|discriminate]|].
  destruct (c =? 46) eqn:E; [|split; [reflexivity|discriminate]]. apply Z.eqb_eq in E. subst c.
  destruct (span_fwd isDigit r) as (A & B & C). split; [cbn [precText app]; f_equal; exact A|].
  intros d D. injection D as <-. eapply Forall_impl; [|exact B]. intros x. apply digit_iff.
Qed.

Lemma len_eq : forall l, skipLen l =
  match l with
  | a :: r => if a =? 104 then (match r with b :: r2 => if b =? 104 then (SzHH, r2) else (SzH, r) | [] => (SzH, r) end)
              else if a =? 108 then (match r with b :: r2 => if b =? 108 then (SzLL, r2) else (SzL, r) | [] => (SzL, r) end)
              else (SzN, l)
  | [] => (SzN, l)
  end.
Proof.
  intros [|a r]; [reflexivity|]. unfold skipLen.
  destruct (a =? 104) eqn:E; [apply Z.eqb_eq in E; subst|].
  - destruct r as [|b r]; [reflexivity|]. destruct (b =? 104) eqn:E; [apply Z.eqb_eq in E; subst; reflexivity|].
    destruct b as [|p|p]; try reflexivity. repeat (destruct p as [p|p|]; try reflexivity; try discriminate).
  - destruct (a =? 108) eqn:E2; [apply Z.eqb_eq in E2; subst|].
    + destruct r as [|b r]; [reflexivity|]. destruct (b =? 108) eqn:E2; [apply Z.eqb_eq in E2; subst; reflexivity|].
      destruct b as [|p|p]; try reflexivity. repeat (destruct p as [p|p|]; try reflexivity; try discriminate).
    + destruct a as [|p|p]; try reflexivity. repeat (destruct p as [p|p|]; try reflexivity; try discriminate).
Qed.

Lemma len_fwd : forall l, l = spellLen (lenOf (fst (skipLen l))) ++ snd (skipLen l).
Proof.
  intros l. rewrite len_eq. destruct l as [|a r]; [reflexivity|].
  destruct (a =? 104) eqn:E; [apply Z.eqb_eq in E; subst|].
  - destruct r as [|b r]; [reflexivity|]. destruct (b =? 104) eqn:E; [apply Z.eqb_eq in E; subst; reflexivity|reflexivity].
  - destruct (a =? 108) eqn:E2; [apply Z.eqb_eq in E2; subst|reflexivity].
    destruct r as [|b r]; [reflexivity|]. destruct (b =? 108) eqn:E2; [apply Z.eqb_eq in E2; subst; reflexivity|reflexivity].
Qed.

(** The letters. *)
Lemma letter_thm : forall c f, familyOf c = Some f ->
  In c [100; 105; 117; 120; 88; 102; 70; 101; 69; 103; 71; 115; 99; 118; 37] /\
  f = (if (c =? 100) || (c =? 105) then FSigned else if (c =? 117) || (c =? 120) || (c =? 88) then FUnsigned
       else if c =? 115 then FString else if c =? 99 then FChar else if c =? 118 then FAny else if c =? 37 then FPercent else FReal).
Proof.
  intros c f H. unfold familyOf in H.
  destruct c as [|p|p]; try discriminate.
  repeat (destruct p as [p|p|]; try discriminate; try (injection H as <-; split; [cbn [In]; tauto|reflexivity])).
Qed.

Definition kindOf (f : family) (l : clength) : kind :=
  match f with
  | FSigned => match l with Lhh => KInt8 | Lh => KInt16 | Lno | Ll => KInt32 | Lll => KInt end
  | FUnsigned => match l with Lhh => KUInt8 | Lh => KUInt16 | Lno | Ll => KUInt32 | Lll => KUInt end
  | FReal => match l with Lno => KReal32 | _ => KReal end
  | FString => KStr
  | FChar => KChar
  | FAny => KInterface
  | FPercent => KVoid
  end.

Lemma letterKind_fwd : forall c sz k, c <> 37 -> letterKind c sz = Some k -> exists f, familyOf c = Some f /\ f <> FPercent /\ lenOk f (lenOf sz) /\ k = kindOf f (lenOf sz).
Proof.
  intros c sz k NP H. unfold letterKind in H.
  assert (C : forall x, (c =? x) = true -> c = x) by (intros; lia).
  repeat match type of H with
  | context [if ?b then _ else _] => let E := fresh "E" in destruct b eqn:E
  end; try discriminate.
  - apply orb_true_iff in E. destruct E as [E|E]; apply C in E; subst c; injection H as <-; eexists; (split; [reflexivity|]); (split; [discriminate|]); destruct sz; cbn; auto.
  - rewrite !orb_true_iff in E0. destruct E0 as [[E0|E0]|E0]; apply C in E0; subst c; injection H as <-; eexists; (split; [reflexivity|]); (split; [discriminate|]); destruct sz; cbn; auto.
  - rewrite !orb_true_iff in E1. destruct E1 as [[[[[E1|E1]|E1]|E1]|E1]|E1]; apply C in E1; subst c; destruct sz; try discriminate; injection H as <-; eexists; (split; [reflexivity|]); (split; [discriminate|]); cbn; auto.
  - destruct sz; try discriminate; injection H as <-. apply C in E3. subst c. exists FString. cbn. repeat split; discriminate.
  - destruct sz; try discriminate; injection H as <-. apply orb_true_iff in E2. destruct E2 as [E2|E2]; [congruence|]. apply C in E2. subst c. exists FChar. cbn. repeat split; discriminate.
  - injection H as <-. apply C in E3. subst c. exists FAny. cbn. repeat split; discriminate.
Qed.

Lemma letterKind_bwd : forall c f l, familyOf c = Some f -> f <> FPercent -> lenOk f l -> letterKind c (szOf l) = Some (kindOf f l).
Proof.
  intros c f l H NP LO. destruct (letter_thm c f H) as (I & E). cbn [In] in I.
  repeat (destruct I as [<-|I]; [cbn in E; subst f; destruct l; cbn in LO; try contradiction; try congruence; reflexivity|]). destruct I.
Qed.

(** ** A conversion *)

(** What follows '%'. *)
Definition body (c : conv) : list Z := vflags c ++ vwidth c ++ precText (vprec c) ++ spellLen (vlen c) ++ [vlet c].
Lemma spell_body : forall c, spell c = 37 :: body c.
Proof. reflexivity. Qed.

Definition convOf (r2 : list Z) (x : Z) : conv :=
  let r3 := snd (span isFlag r2) in
  let r4 := snd (span isDigit r3) in
  {| vflags := fst (span isFlag r2); vwidth := fst (span isDigit r3); vprec := precOf r4; vlen := lenOf (fst (skipLen (skipPrec r4))); vlet := x |}.

Definition after (r2 : list Z) : fsize * list Z := skipLen (skipPrec (snd (span isDigit (snd (span isFlag r2))))).

Lemma conv_fwd : forall r2 x r6, snd (after r2) = x :: r6 ->
  r2 = body (convOf r2 x) ++ r6 /\ (forall f, familyOf x = Some f -> lenOk f (lenOf (fst (after r2))) -> wfConv (convOf r2 x)).
Proof.
  intros r2 x r6 H. unfold after in *.
  destruct (span_fwd isFlag r2) as (A1 & A2 & A3). destruct (span_fwd isDigit (snd (span isFlag r2))) as (B1 & B2 & B3).
  destruct (prec_fwd (snd (span isDigit (snd (span isFlag r2))))) as (C1 & C2).
  pose proof (len_fwd (skipPrec (snd (span isDigit (snd (span isFlag r2)))))) as D1. rewrite H in D1.
  split.
  - unfold body, convOf. cbn [vflags vwidth vprec vlen vlet]. rewrite A1 at 1. rewrite B1 at 1. rewrite C1 at 1. rewrite D1 at 1.
    rewrite <- !app_assoc. reflexivity.
  - intros f F L. constructor; cbn [convOf vflags vwidth vprec vlen vlet].
    + eapply Forall_impl; [|exact A2]. intros y. apply flag_iff.
    + split; [eapply Forall_impl; [|exact B2]; intros y; apply digit_iff|].
      intros d r E ->. rewrite E in B1. cbn [app] in B1. rewrite B1 in A3. cbn [headNot] in A3. discriminate.
    + exact C2.
    + exists f. auto.
Qed.

Lemma letter_facts : forall c f, familyOf c = Some f -> isFlag c = false /\ isDigit c = false /\ c <> 46 /\ c <> 104 /\ c <> 108.
Proof.
  intros c f H. destruct (letter_thm c f H) as (I & _). cbn [In] in I.
  repeat (destruct I as [<-|I]; [repeat split; try reflexivity; lia|]). destruct I.
Qed.

Lemma conv_bwd : forall c tail, wfConv c -> after (body c ++ tail) = (szOf (vlen c), vlet c :: tail).
Proof.
  intros c tail [WF [WW WW0] WP (f & F & L)]. destruct (letter_facts _ _ F) as (L1 & L2 & L3 & L4 & L5). unfold after, body.
  rewrite <- !app_assoc. cbn [app].
  assert (T1 : forall p, p (vlet c) = false -> p 46 = false -> p 104 = false -> p 108 = false ->
    headNot p (precText (vprec c) ++ spellLen (vlen c) ++ vlet c :: tail)).
  { intros p P1 P2 P3 P4. destruct (vprec c); cbn [precText app headNot]; [exact P2|]. destruct (vlen c); cbn [spellLen app headNot]; assumption. }
  rewrite (span_app isFlag (vflags c)).
  2: { eapply Forall_impl; [|exact WF]. intros y. apply flag_iff. }
  2: { destruct (vwidth c) as [|d r] eqn:W; cbn [app]; [apply T1; [exact L1|reflexivity..]|]. cbn [headNot].
       inversion WW as [|x y D1 D2]; subst x y. specialize (WW0 d r eq_refl). unfold digitChar in D1. unfold isFlag. lia. }
  cbn [snd]. rewrite (span_app isDigit (vwidth c)); [|eapply Forall_impl; [|exact WW]; intros y; apply digit_iff|apply T1; [exact L2|reflexivity..]].
  cbn [snd].
  assert (P : skipPrec (precText (vprec c) ++ spellLen (vlen c) ++ vlet c :: tail) = spellLen (vlen c) ++ vlet c :: tail).
  { rewrite prec_eq. destruct (vprec c) as [d|]; cbn [precText app].
    - cbn [Z.eqb Pos.eqb]. rewrite (span_app isDigit d); [reflexivity|eapply Forall_impl; [|exact (WP d eq_refl)]; intros y; apply digit_iff|].
      destruct (vlen c); cbn [spellLen app headNot]; try reflexivity. exact L2.
    - destruct (vlen c); cbn [spellLen app]; try reflexivity. rewrite z_case by exact L3. reflexivity. }
  rewrite P, len_eq. destruct (vlen c); cbn [spellLen app szOf]; cbn [Z.eqb Pos.eqb]; try reflexivity; rewrite ?z_case by assumption; reflexivity.
Qed.

(** ** The scan *)

Lemma argConvs_app : forall l1 l2, argConvs (l1 ++ l2) = argConvs l1 ++ argConvs l2.
Proof.
  induction l1 as [|[t|c] r IH]; intros l2; cbn [argConvs app]; [reflexivity|apply IH|]. destruct (familyOf (vlet c)) as [[]|]; cbn [app]; rewrite IH; reflexivity.
Qed.
Lemma spellAll_app : forall l1 l2, spellAll (l1 ++ l2) = spellAll l1 ++ spellAll l2.
Proof. intros. unfold spellAll. rewrite map_app, concat_app. reflexivity. Qed.

(** A piece: texts and percents, then possibly a conversion with an argument. *)
Inductive isPiece (rest : list Z) (i : nat) (r : fres) : Prop :=
| PEnd : forall items, rest = spellAll items -> Forall wfItem items -> argConvs items = [] -> fkind r = KVoid -> flen r = (i + length rest)%nat -> isPiece rest i r
| PConv : forall items c f tail, rest = spellAll items ++ spell c ++ tail -> Forall wfItem items -> argConvs items = [] -> wfConv c ->
    familyOf (vlet c) = Some f -> f <> FPercent -> flen r = (i + length (spellAll items ++ spell c))%nat -> S (fletter r) = flen r ->
    fkind r = kindOf f (vlen c) -> fsz r = szOf (vlen c) -> isPiece rest i r.

Lemma sz_len : forall l, lenOf (szOf l) = l. Proof. destruct l; reflexivity. Qed.
Lemma len_sz : forall l, szOf (lenOf l) = l. Proof. destruct l; reflexivity. Qed.

Lemma scan_fwd : forall n i rest letter sz r, scan n i rest letter sz = Ok (Some r) -> isPiece rest i r.
Proof.
  induction n as [|n IH]; intros i rest letter sz r H; cbn [scan] in H; [discriminate|].
  destruct rest as [|z rest0] eqn:RE.
  { injection H as <-. apply (PEnd _ _ _ []); cbn; auto. }
  rewrite <- RE in *. clear RE. set (p := fun c => negb (c =? 37)) in *. destruct (span_fwd p rest) as (A1 & A2 & A3).
  assert (TX : ~ In 37 (fst (span p rest))). { intros X. rewrite Forall_forall in A2. specialize (A2 37 X). discriminate. }
  destruct (snd (span p rest)) as [|q r2] eqn:S2.
  - injection H as <-. rewrite app_nil_r in A1. apply (PEnd _ _ _ [Text rest]); cbn [flen fkind].
    + unfold spellAll. cbn. rewrite app_nil_r. reflexivity.
    + constructor; [cbn [wfItem]; rewrite A1; exact TX|constructor].
    + reflexivity.
    + reflexivity.
    + rewrite A1 at 2. reflexivity.
  - cbn [headNot] in A3. assert (q = 37) by (unfold p in A3; lia). subst q.
    change (skipLen (skipPrec (snd (span isDigit (snd (span isFlag r2)))))) with (after r2) in H.
    destruct (snd (after r2)) as [|x r6] eqn:AF; [discriminate|]. destruct (conv_fwd r2 x r6 AF) as (C1 & C2).
    assert (LB : (length r2 - length (x :: r6) + 1)%nat = length (body (convOf r2 x))).
    { rewrite C1 at 1. rewrite app_length. cbn [length].
      assert (1 <= length (body (convOf r2 x)))%nat by (unfold body; rewrite !app_length; cbn [length]; lia). lia. }
    cbn [length] in LB.
    destruct (x =? 37) eqn:XP.
    + assert (x = 37) by lia. subst x. apply IH in H. assert (WF : wfConv (convOf r2 37)) by (apply (C2 FPercent); reflexivity).
      assert (TE : rest = spellAll [Text (fst (span p rest)); Conv (convOf r2 37)] ++ r6).
      { unfold spellAll. cbn [map concat spellItem]. rewrite app_nil_r, spell_body, <- app_assoc. cbn [app]. rewrite <- C1. exact A1. }
      assert (WI : Forall wfItem [Text (fst (span p rest)); Conv (convOf r2 37)]) by (constructor; [exact TX|constructor; [exact WF|constructor]]).
      assert (LE : length (spellAll [Text (fst (span p rest)); Conv (convOf r2 37)]) = (length (fst (span p rest)) + 1 + length (body (convOf r2 37)))%nat).
      { unfold spellAll. cbn [map concat spellItem]. rewrite app_nil_r, spell_body, app_length. cbn [length]. lia. }
      destruct H as [items E1 E2 E3 E4 E5|items c f tail E1 E2 E3 E4 E5 E6 E7 E8 E9 E10].
      * apply (PEnd _ _ _ ([Text (fst (span p rest)); Conv (convOf r2 37)] ++ items)).
        -- rewrite spellAll_app, <- E1. exact TE.
        -- apply Forall_app. auto.
        -- rewrite argConvs_app. cbn. exact E3.
        -- exact E4.
        -- apply (f_equal (@length Z)) in TE. rewrite app_length, LE in TE. cbn [length] in E5. lia.
      * apply (PConv _ _ _ ([Text (fst (span p rest)); Conv (convOf r2 37)] ++ items) c f tail); try assumption.
        -- rewrite spellAll_app, <- app_assoc, <- E1. exact TE.
        -- apply Forall_app. auto.
        -- rewrite spellAll_app, !app_length, LE. rewrite app_length in E7. cbn [length] in E7. lia.
    + destruct (letterKind x (fst (after r2))) as [k|] eqn:LK; [|discriminate]. injection H as <-.
      destruct (letterKind_fwd x _ _ ltac:(lia) LK) as (f & F1 & F2 & F3 & F4).
      apply (PConv _ _ _ [Text (fst (span p rest))] (convOf r2 x) f r6); cbn [flen fletter fkind fsz].
      * unfold spellAll. cbn [map concat spellItem]. rewrite app_nil_r, spell_body. cbn [app]. rewrite <- C1. exact A1.
      * constructor; [exact TX|constructor].
      * reflexivity.
      * apply (C2 f); assumption.
      * exact F1.
      * exact F2.
      * unfold spellAll. cbn [map concat spellItem]. rewrite app_nil_r, spell_body, app_length. cbn [length]. lia.
      * lia.
      * exact F4.
      * unfold convOf. cbn [vlen]. change (skipLen (skipPrec (snd (span isDigit (snd (span isFlag r2)))))) with (after r2). rewrite len_sz. reflexivity.
Qed.

(** Conversely. *)
Definition notPct (c : Z) : bool := negb (c =? 37).
Lemma scan_text : forall n i l X letter sz, ~ In 37 l -> X <> [] -> scan (S n) i (l ++ X) letter sz = scan (S n) (i + length l) X letter sz.
Proof.
  intros n i l X letter sz NI NE. destruct X as [|y X]; [congruence|]. clear NE.
  assert (SP : span notPct (l ++ y :: X) = (l ++ fst (span notPct (y :: X)), snd (span notPct (y :: X)))).
  { clear - NI. induction l as [|c r IH]; cbn [app]; [destruct (span _ (y :: X)); reflexivity|].
    cbn [span].
    assert (E : notPct c = true) by (unfold notPct; destruct (c =? 37) eqn:E; [exfalso; apply NI; left; lia|reflexivity]). rewrite E.
    rewrite IH by (intros H; apply NI; right; exact H). reflexivity. }
  assert (U : forall m j x, x <> [] -> scan (S n) j x letter m =
    match snd (span notPct x) with
    | [] => Ok (Some {| flen := j + length (fst (span notPct x)); fletter := letter; fkind := KVoid; fsz := SzN |})
    | _ :: r2 =>
        let i5 := (j + length (fst (span notPct x)) + 1 + (length r2 - length (snd (after r2))))%nat in
        match snd (after r2) with
        | [] => Ok None
        | c :: r6 => if c =? 37 then scan n (i5 + 1) r6 i5 (fst (after r2))
                     else match letterKind c (fst (after r2)) with
                          | None => Ok None
                          | Some k => Ok (Some {| flen := i5 + 1; fletter := i5; fkind := k; fsz := fst (after r2) |})
                          end
        end
    end).
  { intros m j [|a x] NE; [congruence|]. reflexivity. }
  rewrite !U by (destruct l; discriminate). rewrite SP. cbn [fst snd]. rewrite app_length, Nat.add_assoc. reflexivity.
Qed.

Lemma family_pct : forall c, familyOf c = Some FPercent <-> c = 37.
Proof.
  intros c. split; [|intros ->; reflexivity]. intros F. destruct (letter_thm _ _ F) as (I & X). cbn [In] in I.
  repeat (destruct I as [<-|I]; [cbn in X; try discriminate; reflexivity|]). destruct I.
Qed.

Lemma scan_conv : forall n i c tail letter sz f, wfConv c -> familyOf (vlet c) = Some f ->
  scan (S n) i (spell c ++ tail) letter sz =
    if vlet c =? 37 then scan n (i + length (spell c)) tail (i + length (body c)) (szOf (vlen c))
    else Ok (Some {| flen := i + length (spell c); fletter := i + length (body c); fkind := kindOf f (vlen c); fsz := szOf (vlen c) |}).
Proof.
  intros n i c tail letter sz f WF F. rewrite spell_body. cbn [app length]. cbn [scan span]. cbn [Z.eqb Pos.eqb negb fst snd length].
  change (skipLen (skipPrec (snd (span isDigit (snd (span isFlag (body c ++ tail))))))) with (after (body c ++ tail)).
  rewrite (conv_bwd c tail WF). cbn [fst snd length]. rewrite app_length.
  assert (1 <= length (body c))%nat by (unfold body; rewrite !app_length; cbn [length]; lia).
  replace (i + 0 + 1 + (length (body c) + length tail - S (length tail)))%nat with (i + length (body c))%nat by lia.
  replace (i + length (body c) + 1)%nat with (i + S (length (body c)))%nat by lia.
  destruct (vlet c =? 37) eqn:E; [reflexivity|].
  assert (NP : f <> FPercent) by (intros ->; apply family_pct in F; lia).
  destruct WF as [_ _ _ (f' & F' & L)]. rewrite F in F'. injection F' as <-. rewrite (letterKind_bwd _ _ _ F NP L). reflexivity.
Qed.

Lemma spell_len : forall c, (2 <= length (spell c))%nat.
Proof. intros c. rewrite spell_body. unfold body. cbn [length]. rewrite !app_length. cbn [length]. lia. Qed.

Lemma scan_items : forall items n i X letter sz, Forall wfItem items -> argConvs items = [] -> X <> [] -> (length (spellAll items ++ X) < n)%nat ->
  exists n' letter' sz', (length X < S n')%nat /\ scan n i (spellAll items ++ X) letter sz = scan (S n') (i + length (spellAll items)) X letter' sz'.
Proof.
  induction items as [|it r IH]; intros n i X letter sz W A NE L.
  - destruct n as [|n]; [lia|]. exists n, letter, sz. cbn [spellAll map concat app length] in *. rewrite Nat.add_0_r. split; [exact L|reflexivity].
  - inversion W as [|x y W1 W2]; subst x y. change (spellAll (it :: r)) with (spellItem it ++ spellAll r) in *. rewrite <- app_assoc in *. rewrite (app_length (spellItem it) (spellAll r)).
    destruct it as [l|c]; cbn [spellItem wfItem argConvs] in *.
    + destruct n as [|n]; [lia|]. rewrite scan_text; [|exact W1|intros H; apply app_eq_nil in H; tauto]. rewrite app_length in L.
      destruct (IH (S n) (i + length l)%nat X letter sz W2 A NE ltac:(lia)) as (n' & l' & s' & H1 & H2). exists n', l', s'. split; [exact H1|]. rewrite H2. f_equal. lia.
    + destruct (familyOf (vlet c)) as [f|] eqn:F; [|discriminate]. destruct f; try discriminate.
      destruct n as [|n]; [lia|]. rewrite (scan_conv n i c _ letter sz FPercent W1 F). pose proof (proj1 (family_pct _) F) as E. rewrite E. cbn [Z.eqb Pos.eqb].
      rewrite app_length in L. pose proof (spell_len c).
      destruct (IH n (i + length (spell c))%nat X (i + length (body c))%nat (szOf (vlen c)) W2 A NE ltac:(lia)) as (n' & l' & s' & H1 & H2). exists n', l', s'. split; [exact H1|]. rewrite H2. f_equal. lia.
Qed.

Lemma scan_end : forall items n i letter sz, Forall wfItem items -> argConvs items = [] -> (length (spellAll items) < n)%nat ->
  exists r, scan n i (spellAll items) letter sz = Ok (Some r) /\ fkind r = KVoid /\ flen r = (i + length (spellAll items))%nat.
Proof.
  induction items as [|it r IH]; intros n i letter sz W A L.
  - destruct n as [|n]; [lia|]. cbn. eexists. split; [reflexivity|]. cbn. split; [reflexivity|lia].
  - inversion W as [|x y W1 W2]; subst x y. change (spellAll (it :: r)) with (spellItem it ++ spellAll r) in *. rewrite app_length in *.
    destruct it as [l|c]; cbn [spellItem wfItem argConvs] in *.
    + destruct n as [|n]; [lia|]. destruct (spellAll r) as [|z zs] eqn:SE.
      * rewrite app_nil_r. cbn [scan]. destruct l as [|y l]; [cbn; eexists; split; [reflexivity|]; cbn; split; [reflexivity|lia]|].
        assert (SP : span (fun c => negb (c =? 37)) (y :: l) = (y :: l, [])).
        { rewrite <- (app_nil_r (y :: l)) at 1. apply span_app; [|exact Logic.I]. apply Forall_forall. intros q Q. destruct (q =? 37) eqn:E; [|reflexivity]. exfalso. apply W1. assert (q = 37) as <- by lia. exact Q. }
        rewrite SP. cbn [fst snd]. eexists. split; [reflexivity|]. cbn [fkind flen length]. split; [reflexivity|lia].
      * rewrite scan_text; [|exact W1|discriminate]. destruct (IH (S n) (i + length l)%nat letter sz W2 A ltac:(lia)) as (x & H1 & H2 & H3). exists x. split; [exact H1|]. split; [exact H2|]. lia.
    + destruct (familyOf (vlet c)) as [f|] eqn:F; [|discriminate]. destruct f; try discriminate.
      destruct n as [|n]; [lia|]. rewrite (scan_conv n i c _ letter sz FPercent W1 F). pose proof (proj1 (family_pct _) F) as E. rewrite E. cbn [Z.eqb Pos.eqb].
      pose proof (spell_len c).
      destruct (IH n (i + length (spell c))%nat (i + length (body c))%nat (szOf (vlen c)) W2 A ltac:(lia)) as (x & H1 & H2 & H3). exists x. split; [exact H1|]. split; [exact H2|]. lia.
Qed.

Lemma scan_total : forall n i rest letter sz, (length rest < n)%nat -> exists o, scan n i rest letter sz = Ok o.
Proof.
  induction n as [|n IH]; intros i rest letter sz L; [lia|]. cbn [scan]. destruct rest as [|z zs] eqn:RE; [eauto|]. rewrite <- RE in *. clear RE.
  destruct (span_fwd (fun c => negb (c =? 37)) rest) as (A1 & _ & _).
  destruct (snd (span (fun c => negb (c =? 37)) rest)) as [|q r2] eqn:S2; [eauto|].
  change (skipLen (skipPrec (snd (span isDigit (snd (span isFlag r2)))))) with (after r2).
  destruct (snd (after r2)) as [|x r6] eqn:AF; [eauto|]. destruct (conv_fwd r2 x r6 AF) as (C1 & _).
  destruct (x =? 37); [|destruct (letterKind x (fst (after r2))); eauto].
  apply IH. apply (f_equal (@length Z)) in A1. apply (f_equal (@length Z)) in C1. rewrite app_length in *. cbn [length] in *. lia.
Qed.

Lemma valid_total : forall f, exists o, typeFormatStringValid f = Ok o.
Proof. intros f. apply scan_total. lia. Qed.
Lemma valid_fwd : forall f r, typeFormatStringValid f = Ok (Some r) -> isPiece f 0 r.
Proof. intros f r. apply scan_fwd. Qed.
Lemma valid_end : forall items, Forall wfItem items -> argConvs items = [] ->
  exists r, typeFormatStringValid (spellAll items) = Ok (Some r) /\ fkind r = KVoid /\ flen r = length (spellAll items).
Proof. intros items W A. apply (scan_end items _ 0 0%nat SzN W A). lia. Qed.
Lemma valid_conv : forall items c f tail, Forall wfItem items -> argConvs items = [] -> wfConv c -> familyOf (vlet c) = Some f -> f <> FPercent ->
  typeFormatStringValid (spellAll items ++ spell c ++ tail) =
  Ok (Some {| flen := length (spellAll items ++ spell c); fletter := length (spellAll items) + length (body c); fkind := kindOf f (vlen c); fsz := szOf (vlen c) |}).
Proof.
  intros items c f tail W A WF F NP. unfold typeFormatStringValid.
  destruct (scan_items items (S (length (spellAll items ++ spell c ++ tail))) 0 (spell c ++ tail) 0%nat SzN W A) as (n' & l' & s' & H1 & H2); [discriminate|lia|].
  rewrite H2, (scan_conv n' _ c tail l' s' f WF F). destruct (vlet c =? 37) eqn:E; [exfalso; apply NP; apply Z.eqb_eq in E; rewrite E in F; injection F as <-; reflexivity|].
  rewrite app_length. cbn [Nat.add]. reflexivity.
Qed.
