(** Lexer: literals, comments, strings and tokens. *)
From Coq Require Import ZArith Lia Bool List ZifyBool.
From Verif Require Import Base LexModel LexSpec LexProofs.
Import ListNotations.
Local Open Scope list_scope.
Local Open Scope Z_scope.
Ltac Zify.zify_post_hook ::= Z.div_mod_to_equations.

(** * Integer literals *)
Lemma digit_dec c : lexCharDigit c 10 = match digit 10 c with Some d => d | None => -1 end.
Proof.
  unfold lexCharDigit, digit, lookup, isDigit. cbn [Z.eqb Pos.eqb]. destruct ((48 <=? c) && (c <=? 57)) eqn:E.
  - assert (H : c = 48 \/ c = 49 \/ c = 50 \/ c = 51 \/ c = 52 \/ c = 53 \/ c = 54 \/ c = 55 \/ c = 56 \/ c = 57) by lia. repeat destruct H as [->|H]; try reflexivity. subst. reflexivity.
  - destruct (find _ dec_digits) as [[a b]|] eqn:F; [|reflexivity]. exfalso. apply find_some in F as [F G]. cbn [fst] in G. apply Z.eqb_eq in G. subst a. cbn in F. repeat destruct F as [F|F]; try (injection F; intros; subst; discriminate). contradiction.
Qed.
Lemma digit_hex c : lexCharDigit c 16 = match digit 16 c with Some d => d | None => -1 end.
Proof.
  unfold lexCharDigit, digit, lookup, hexDigit. cbn [Z.eqb Pos.eqb]. destruct ((48 <=? c) && (c <=? 57)) eqn:E; [|destruct ((97 <=? c) && (c <=? 102)) eqn:E2; [|destruct ((65 <=? c) && (c <=? 70)) eqn:E3]].
  - assert (H : c = 48 \/ c = 49 \/ c = 50 \/ c = 51 \/ c = 52 \/ c = 53 \/ c = 54 \/ c = 55 \/ c = 56 \/ c = 57) by lia. repeat destruct H as [->|H]; try reflexivity. subst. reflexivity.
  - assert (H : c = 97 \/ c = 98 \/ c = 99 \/ c = 100 \/ c = 101 \/ c = 102) by lia. repeat destruct H as [->|H]; try reflexivity. subst. reflexivity.
  - assert (H : c = 65 \/ c = 66 \/ c = 67 \/ c = 68 \/ c = 69 \/ c = 70) by lia. repeat destruct H as [->|H]; try reflexivity. subst. reflexivity.
  - destruct (find _ hex_digits) as [[a b]|] eqn:F; [|reflexivity]. exfalso. apply find_some in F as [F G]. cbn [fst] in G. apply Z.eqb_eq in G. subst a. cbn in F. repeat destruct F as [F|F]; try (injection F; intros; subst; discriminate). contradiction.
Qed.
Definition okbase (b : Z) : Prop := b = 10 \/ b = 16.
Lemma digit_is b c : okbase b -> lexCharDigit c b = match digit b c with Some d => d | None => -1 end.
Proof. intros [->| ->]; [apply digit_dec|apply digit_hex]. Qed.
Lemma digit_range b c d : okbase b -> digit b c = Some d -> 0 <= d < b.
Proof.
  intros [->| ->] H.
  - pose proof (digit_dec c) as E. rewrite H in E. subst d. unfold lexCharDigit, isDigit in *. cbn [Z.eqb Pos.eqb] in *. destruct ((48 <=? c) && (c <=? 57)) eqn:F; [lia|]. unfold digit, lookup in H. cbn [Z.eqb] in H. destruct (find _ _) as [[x y]|] eqn:G; [|discriminate]. apply find_some in G as [G _]. injection H as H. subst y. cbn in G. repeat destruct G as [G|G]; try discriminate. contradiction.
  - unfold digit, lookup in H. cbn [Z.eqb Pos.eqb] in H. destruct (find _ _) as [[x y]|] eqn:G; [|discriminate]. apply find_some in G as [G _]. cbn [option_map snd] in H. assert (y = d) by congruence. subst y. clear H. cbn in G. repeat destruct G as [G|G]; try (injection G; intros; subst; lia). contradiction.
Qed.
Lemma digit_chars b c d : okbase b -> digit b c = Some d -> 48 <= c <= 102 /\ c <> 95 /\ c <> 88.
Proof.
  intros HB H. assert (G : exists p, In p hex_digits /\ fst p = c). { unfold digit, lookup in H. destruct (find _ _) as [p|] eqn:F in H; [|discriminate]. apply find_some in F as [F1 F2]. exists p. split; [|lia]. destruct HB as [->| ->]; [apply in_or_app; left; exact F1|exact F1]. }
  destruct G as (p & G & <-). cbn in G. repeat destruct G as [G|G]; try (subst p; cbn; lia). contradiction.
Qed.
(** The overflow test is exact. *)
Lemma over_exact v b d : okbase b -> 0 <= v < two64 -> 0 <= d < b ->
  negb (u64 (v * b) / b =? v) || (u64 (u64 (v * b) + d) <? v) = (two64 <=? v * b + d).
Proof.
  intros HB HV HD. unfold u64, wrapu in *. assert (T : 1000 < two64) by reflexivity. assert (B : 10 <= b <= 16) by (destruct HB; lia).
  destruct (v * b <? two64) eqn:E.
  - rewrite (Z.mod_small (v * b)) by nia. rewrite Z.div_mul by lia. rewrite Z.eqb_refl. cbn [negb orb]. destruct (two64 <=? v * b + d) eqn:E2.
    + assert (M : (v * b + d) mod two64 = v * b + d - two64) by (symmetry; apply Z.mod_unique with 1; lia). rewrite M. assert (16 <= v) by nia. lia.
    + rewrite Z.mod_small by lia. assert (v <= v * b + d) by nia. lia.
  - assert (two64 <= v * b) by lia. assert (M : (v * b) mod two64 < v * b). { pose proof (Z.mod_pos_bound (v * b) (two64) ltac:(reflexivity)). lia. }
    assert ((v * b) mod two64 / b < v) by (apply Z.div_lt_upper_bound; lia). replace (two64 <=? v * b + d) with true by lia. replace (_ =? v) with false by lia. reflexivity.
Qed.
Lemma dvalue_ge b l : okbase b -> forall v, 0 <= v -> v <= dvalue b l v.
Proof.
  intro HB. assert (1 <= b) by (destruct HB; lia). induction l as [|[u c] l IH]; intros v Hv; [cbn; lia|]. cbn [dvalue]. pose proof (digit_range b c). destruct (digit b c) as [d|]; [specialize (H0 d HB eq_refl)|]; (eapply Z.le_trans; [|apply IH; nia]); nia.
Qed.
Definition stops (b : Z) (r : sc) : Prop := digit b (peek r) = None /\ peek r <> 95.
Lemma digitLoop_ok b l : okbase b -> forall c n v len r, dvalid b ((false, c) :: l) -> stops b r -> 0 <= v < two64 -> (length (c :: dtext l ++ r) < n)%nat ->
  digitLoop n (c :: dtext l ++ r) b false v len false = let w := dvalue b ((false, c) :: l) v in if w <? two64 then Ok (w, len + Z.of_nat (S (length l)), r) else Err ESyntax.
Proof.
  intros HB. induction l as [|[u c2] l IH]; intros c n v len r [H1 H2] HS HV HN; (destruct n as [|n]; [cbn in HN; lia|]; inversion H2 as [|? ? HC HF]; subst; cbn [snd] in HC; destruct (digit b c) as [d|] eqn:ED; [|congruence]; clear HC;
    pose proof (digit_range b c d HB ED) as RD; pose proof (digit_chars b c d HB ED) as CD; cbn [digitLoop peek]; rewrite digit_is, ED by exact HB; replace (d =? -1) with false by lia; rewrite over_exact by assumption; cbn [dvalue]; rewrite ED; assert (B1 : 1 <= b) by (destruct HB; lia)).
  - cbn [dtext flat_map app dvalue]. cbv zeta. replace (v * b + d <? two64) with (negb (two64 <=? v * b + d)) by lia. destruct (two64 <=? v * b + d) eqn:EO; [reflexivity|]. cbn [andb orb negb]. rewrite (lexChar_nz c) by lia.
    assert (EU : u64 (u64 (v * b) + d) = v * b + d). { unfold u64, wrapu. rewrite (Z.mod_small (v * b)) by (unfold two64 in *; nia). apply Z.mod_small. unfold two64 in *. nia. } rewrite EU.
    destruct HS as [HS1 HS2]. replace (peek r =? 95) with false by lia. destruct n as [|n]; [cbn in HN; lia|]. cbn [digitLoop]. rewrite digit_is, HS1 by exact HB. cbn [Z.eqb Pos.eqb]. reflexivity.
  - inversion HF as [|? ? HC2 HF2]; subst. cbn [snd] in HC2. destruct (digit b c2) as [d2|] eqn:ED2; [|congruence]. pose proof (digit_chars b c2 d2 HB ED2) as CD2. pose proof (digit_range b c2 d2 HB ED2) as RD2. destruct (two64 <=? v * b + d) eqn:EO.
    + cbn [negb andb]. pose proof (dvalue_ge b l HB ((v * b + d) * b + d2)). cbv zeta. replace (dvalue b l ((v * b + d) * b + d2) <? two64) with false by nia. reflexivity.
    + cbn [andb orb negb]. assert (EU : u64 (u64 (v * b) + d) = v * b + d). { unfold u64, wrapu. rewrite (Z.mod_small (v * b)) by (unfold two64 in *; nia). apply Z.mod_small. unfold two64 in *. nia. } rewrite EU. rewrite (lexChar_nz c) by lia.
      assert (HV2 : 0 <= v * b + d < two64) by nia. assert (VV : dvalid b ((false, c2) :: l)) by (split; [reflexivity|constructor; [cbn; congruence|exact HF2]]).
      assert (G : forall m, (S (length (dtext l ++ r)) < m)%nat -> digitLoop m (c2 :: dtext l ++ r) b false (v * b + d) (len + 1) false = (let w := dvalue b l ((v * b + d) * b + d2) in if w <? two64 then Ok (w, len + Z.of_nat (S (S (length l))), r) else Err ESyntax)).
      { intros m Hm. rewrite IH by assumption. cbn [dvalue]. rewrite ED2. cbv zeta. replace (len + 1 + Z.of_nat (S (length l))) with (len + Z.of_nat (S (S (length l)))) by lia. reflexivity. }
      destruct u; cbn [dtext flat_map fst snd app] in *; fold (dtext l) in *; cbn [peek peek1].
      * cbn [Z.eqb Pos.eqb bind peek]. rewrite digit_is, ED2 by exact HB. replace (d2 =? -1) with false by lia. rewrite lexChar_nz by lia. apply G. cbn [length] in HN. lia.
      * replace (c2 =? 95) with false by lia. apply G. cbn [length] in HN. lia.
Qed.
Lemma digitSeq_ok b l r : okbase b -> dvalid b l -> stops b r -> lexDigitSeq (dtext l ++ r) b false = if dvalue b l 0 <? two64 then Ok (dvalue b l 0, Z.of_nat (length l), r) else Err ESyntax.
Proof.
  intros HB HV HS. unfold lexDigitSeq. destruct l as [|[u c] l]; [destruct HV; contradiction|]. destruct HV as [H1 H2]. subst u. inversion H2 as [|? ? HC HF]; subst. cbn [snd] in HC. destruct (digit b c) as [d|] eqn:ED; [|congruence].
  change (peek (dtext ((false, c) :: l) ++ r)) with c. rewrite digit_is, ED by exact HB. pose proof (digit_range b c d HB ED). replace (d =? -1) with false by lia. cbn [dtext flat_map fst snd app]. fold (dtext l). rewrite digitLoop_ok; [reflexivity|exact HB|split; [reflexivity|exact H2]|exact HS|unfold two64; lia|unfold fuelOf; cbn [length]; lia].
Qed.
(** An underscore that is not followed by a digit. *)
Lemma digitLoop_bad b l : okbase b -> forall c n v len r, dvalid b ((false, c) :: l) -> digit b (peek r) = None -> 0 <= v < two64 -> (length (c :: dtext l ++ 95%Z :: r) < n)%nat ->
  digitLoop n (c :: dtext l ++ 95 :: r) b false v len false = Err ESyntax.
Proof.
  intros HB. induction l as [|[u c2] l IH]; intros c n v len r [H1 H2] HS HV HN; (destruct n as [|n]; [cbn in HN; lia|]; inversion H2 as [|? ? HC HF]; subst; cbn [snd] in HC; destruct (digit b c) as [d|] eqn:ED; [|congruence]; clear HC;
    pose proof (digit_range b c d HB ED) as RD; pose proof (digit_chars b c d HB ED) as CD; cbn [digitLoop peek]; rewrite digit_is, ED by exact HB; replace (d =? -1) with false by lia; rewrite over_exact by assumption; assert (B1 : 1 <= b) by (destruct HB; lia);
    destruct (two64 <=? v * b + d) eqn:EO; [reflexivity|]; cbn [andb orb negb]; rewrite (lexChar_nz c) by lia).
  - cbn [dtext flat_map app peek peek1 Z.eqb Pos.eqb bind]. rewrite digit_is, HS by exact HB. reflexivity.
  - inversion HF as [|? ? HC2 HF2]; subst. cbn [snd] in HC2. destruct (digit b c2) as [d2|] eqn:ED2; [|congruence]. pose proof (digit_chars b c2 d2 HB ED2) as CD2. pose proof (digit_range b c2 d2 HB ED2) as RD2.
    assert (EU : u64 (u64 (v * b) + d) = v * b + d). { unfold u64, wrapu. rewrite (Z.mod_small (v * b)) by (unfold two64 in *; nia). apply Z.mod_small. unfold two64 in *. nia. } rewrite EU.
    assert (HV2 : 0 <= v * b + d < two64) by nia. assert (VV : dvalid b ((false, c2) :: l)) by (split; [reflexivity|constructor; [cbn; congruence|exact HF2]]).
    destruct u; cbn [dtext flat_map fst snd app] in *; fold (dtext l) in *; cbn [peek peek1].
    + cbn [Z.eqb Pos.eqb bind peek]. rewrite digit_is, ED2 by exact HB. replace (d2 =? -1) with false by lia. rewrite lexChar_nz by lia. apply IH; try assumption. cbn [length] in HN. cbn [length]. lia.
    + replace (c2 =? 95) with false by lia. apply IH; try assumption. cbn [length] in HN. cbn [length]. lia.
Qed.
(** Nothing to skip. *)
Lemma spaces_none s : is_skip (peek s) = false -> lexSpacesAndComments s = Ok s.
Proof. intro H. unfold lexSpacesAndComments, fuelOf. cbn [spacesLoop]. fold (is_skip (peek s)). rewrite H. reflexivity. Qed.
Definition int_token (v : Z) (r : sc) : outcome (token * sc) := if v <? two64 then Ok ((TIntNumber, VInt v), r) else Err ESyntax.
Lemma raw_number s : isDigit (peek s) = true -> lexNextWithEOLN s = let* (t, s) := lexNumber s in
  let '(t, s) := (if isNone (fst t) then let '(k, s) := lexOperator s in ((k, VNothing), s) else (t, s)) in
  if isNone (fst t) then (if peek s =? 0 then Ok ((TEof, VNothing), s) else Err ESyntax) else Ok (t, s).
Proof.
  intro H. unfold lexNextWithEOLN. rewrite spaces_none by (unfold isDigit, is_skip in *; lia). cbn [bind]. replace (isLetter (peek s)) with false by (unfold isLetter, isDigit in *; lia). rewrite H. reflexivity.
Qed.
Lemma int_dec l r : dvalid 10 l -> ends_dec r -> (l = [(false, 48)] -> ~ In (peek r) [88; 120]) -> lexNextWithEOLN (dtext l ++ r) = int_token (dvalue 10 l 0) r.
Proof.
  intros HV [HR1 HR2] H0. assert (ST : stops 10 r) by (split; [exact HR1|intro E; apply HR2; rewrite E; cbn; tauto]). pose proof (digitSeq_ok 10 l r (or_introl eq_refl) HV ST) as DS.
  destruct l as [|[u c] l]; [destruct HV; contradiction|]. destruct HV as [H1 H2]. subst u. inversion H2 as [|? ? HC HF]; subst. cbn [snd] in HC. destruct (digit 10 c) as [d|] eqn:ED; [|congruence]. pose proof (digit_range 10 c d (or_introl eq_refl) ED) as RD.
  assert (CD : 48 <= c <= 57). { pose proof (digit_dec c) as E. rewrite ED in E. unfold lexCharDigit, isDigit in E. cbn [Z.eqb Pos.eqb] in E. destruct ((48 <=? c) && (c <=? 57)) eqn:F; lia. }
  assert (NX : exists c1, (if c =? 48 then peek1 (dtext ((false, c) :: l) ++ r) else Ok 0) = Ok c1 /\ ((c =? 48) && ((c1 =? 120) || (c1 =? 88)) = false)).
  { destruct (c =? 48) eqn:E48; [|exists 0; split; reflexivity]. assert (EC : c = 48) by lia. eexists. split; [reflexivity|]. cbn [andb]. destruct l as [|[u c2] l].
    - cbn [dtext flat_map fst snd app peek]. rewrite EC in H0. specialize (H0 eq_refl). cbn in H0. lia.
    - inversion HF as [|? ? HC2 HF2]; subst. cbn [snd] in HC2. destruct (digit 10 c2) as [d2|] eqn:ED2; [|congruence]. pose proof (digit_chars 10 c2 d2 (or_introl eq_refl) ED2). destruct u; cbn; lia. }
  set (s := dtext ((false, c) :: l) ++ r) in *. assert (PS : peek s = c) by reflexivity. rewrite raw_number by (rewrite PS; unfold isDigit; lia). unfold lexNumber. rewrite PS.
  destruct NX as (c1 & NX1 & NX2). rewrite NX1. cbn [bind]. cbv zeta. rewrite NX2, PS. replace (c =? 46) with false by lia. cbn [bind andb negb]. rewrite DS. unfold int_token. destruct (dvalue 10 ((false, c) :: l) 0 <? two64); [|reflexivity]. cbn [bind fst]. cbn [Z.eqb Pos.eqb].
  unfold lexCharIf. assert (N1 : peek r <> 46 /\ peek r <> 101 /\ peek r <> 69) by (repeat split; intro E; apply HR2; rewrite E; cbn; tauto). replace (peek r =? 46) with false by lia. cbn [andb bind]. replace (peek r =? 101) with false by lia. replace (peek r =? 69) with false by lia. reflexivity.
Qed.
Lemma int_hex x u l r : In x [88; 120] -> dvalid 16 l -> ends_hex r -> lexNextWithEOLN (48 :: x :: (if u : bool then [95] else []) ++ dtext l ++ r) = int_token (dvalue 16 l 0) r.
Proof.
  intros HX HV [HR1 HR2]. assert (ST : stops 16 r) by (split; [exact HR1|intro E; apply HR2; rewrite E; cbn; tauto]). pose proof (digitSeq_ok 16 l r (or_intror eq_refl) HV ST) as DS.
  destruct l as [|[u2 c] l]; [destruct HV; contradiction|]. destruct HV as [H1 H2]. subst u2. inversion H2 as [|? ? HC HF]; subst. cbn [snd] in HC. destruct (digit 16 c) as [d|] eqn:ED; [|congruence]. pose proof (digit_chars 16 c d (or_intror eq_refl) ED) as CD.
  rewrite raw_number by reflexivity. unfold lexNumber. cbn [peek peek1 Z.eqb Pos.eqb bind andb]. assert (EX : (x =? 120) || (x =? 88) = true) by (destruct HX as [<-|[<-|[]]]; reflexivity). rewrite EX. set (s := dtext ((false, c) :: l) ++ r) in *. assert (PS : peek s = c) by reflexivity.
  assert (ES : snd (lexCharIf (lexChar (lexChar (48 :: x :: (if u then [95] else []) ++ s))) 95) = s). { rewrite !lexChar_nz by (try lia; destruct HX as [<-|[<-|[]]]; lia). unfold lexCharIf. destruct u; cbn [app peek]; [cbn [Z.eqb Pos.eqb snd]; apply lexChar_nz; lia|]. rewrite PS. replace (c =? 95) with false by lia. reflexivity. }
  rewrite ES. rewrite PS. replace (c =? 46) with false by lia. cbn [bind andb negb]. rewrite DS. unfold int_token. destruct (dvalue 16 ((false, c) :: l) 0 <? two64); reflexivity.
Qed.
Lemma int_underscore l r : dvalid 10 l -> digit 10 (peek r) = None -> lexNextWithEOLN (dtext l ++ 95 :: r) = Err ESyntax.
Proof.
  intros HV HR.
  destruct l as [|[u c] l]; [destruct HV; contradiction|]. destruct HV as [H1 H2]. subst u. inversion H2 as [|? ? HC HF]; subst. cbn [snd] in HC. destruct (digit 10 c) as [d|] eqn:ED; [|congruence]. pose proof (digit_range 10 c d (or_introl eq_refl) ED) as RD.
  assert (CD : 48 <= c <= 57). { pose proof (digit_dec c) as E. rewrite ED in E. unfold lexCharDigit, isDigit in E. cbn [Z.eqb Pos.eqb] in E. destruct ((48 <=? c) && (c <=? 57)) eqn:F; lia. }
  assert (NX : exists c1, (if c =? 48 then peek1 (dtext ((false, c) :: l) ++ 95 :: r) else Ok 0) = Ok c1 /\ ((c =? 48) && ((c1 =? 120) || (c1 =? 88)) = false)).
  { destruct (c =? 48) eqn:E48; [|exists 0; split; reflexivity]. assert (EC : c = 48) by lia. eexists. split; [reflexivity|]. cbn [andb]. destruct l as [|[u c2] l].
    - reflexivity.
    - inversion HF as [|? ? HC2 HF2]; subst. cbn [snd] in HC2. destruct (digit 10 c2) as [d2|] eqn:ED2; [|congruence]. pose proof (digit_chars 10 c2 d2 (or_introl eq_refl) ED2). destruct u; cbn; lia. }
  set (s := dtext ((false, c) :: l) ++ 95 :: r) in *. assert (PS : peek s = c) by reflexivity. rewrite raw_number by (rewrite PS; unfold isDigit; lia). unfold lexNumber. rewrite PS.
  destruct NX as (c1 & NX1 & NX2). rewrite NX1. cbn [bind]. cbv zeta. rewrite NX2, PS. replace (c =? 46) with false by lia. cbn [bind andb negb]. unfold lexDigitSeq. rewrite PS, digit_dec, ED. replace (d =? -1) with false by lia. unfold s. cbn [dtext flat_map fst snd app]. fold (dtext l). rewrite digitLoop_bad; [reflexivity|left; reflexivity|split; [reflexivity|exact H2]|exact HR|unfold two64; lia|unfold fuelOf; cbn [length]; lia].
Qed.

(** * Comments *)
Lemma spaces_fuel s n : (length s < n)%nat -> spacesLoop n s = lexSpacesAndComments s.
Proof. intro H. apply spacesLoop_fuel; [exact H|unfold fuelOf; lia]. Qed.
Lemma skip_blank c r : In c [32; 9; 13] -> lexSpacesAndComments (c :: r) = lexSpacesAndComments r.
Proof.
  intro H. unfold lexSpacesAndComments at 1. unfold fuelOf. cbn [spacesLoop peek]. replace (_ || _) with true by (cbn in H; lia). cbn [negb]. replace (c =? 47) with false by (cbn in H; lia). rewrite lexChar_nz by (cbn in H; lia). apply spaces_fuel. cbn. lia.
Qed.
Lemma lineLoop_ok b : forall n r, Forall (fun c => c <> 0 /\ c <> 10) b -> (r = [] \/ peek r = 10) -> (length (b ++ r) < n)%nat -> lineLoop n (b ++ r) = Ok r.
Proof.
  induction b as [|c b IH]; intros n r HF HR HN; (destruct n as [|n]; [lia|]); cbn [lineLoop app].
  - replace (_ || _) with true; [reflexivity|]. destruct HR as [->|HR]; [reflexivity|rewrite HR; reflexivity].
  - inversion HF as [|? ? HC HF2]; subst. cbn [peek]. replace (_ || _) with false by lia. rewrite lexChar_nz by lia. apply IH; [exact HF2|exact HR|cbn in HN; lia].
Qed.
Lemma skip_line b r : Forall (fun c => c <> 0 /\ c <> 10) b -> (r = [] \/ peek r = 10) -> lexSpacesAndComments (47 :: 47 :: b ++ r) = lexSpacesAndComments r.
Proof.
  intros HF HR. unfold lexSpacesAndComments at 1. unfold fuelOf. cbn [spacesLoop peek]. cbn [Z.eqb Pos.eqb orb negb]. rewrite lexChar_nz by lia. cbn [peek Z.eqb Pos.eqb]. unfold lexSingleLineComment. rewrite lexChar_nz by lia. rewrite lineLoop_ok; [|exact HF|exact HR|unfold fuelOf; lia]. cbn [bind]. apply spaces_fuel. cbn [length]. rewrite app_length. lia.
Qed.
Lemma stars_parity l : forall n, Nat.even (last_stars l (S (S n))) = Nat.even (last_stars l n).
Proof. induction l as [|c l IH]; intro n; [reflexivity|]. cbn [last_stars]. destruct (c =? 42); [apply IH|reflexivity]. Qed.
Lemma multi_ok m : forall b n r, (length b < m)%nat -> (forall p q, b ++ [42] <> p ++ 42 :: 47 :: q) -> no_nul b -> Nat.even (last_stars b 0) = true -> (length (b ++ 42%Z :: 47%Z :: r) < n)%nat ->
  multiLoop n (b ++ 42 :: 47 :: r) = Ok (47 :: r).
Proof.
  induction m as [|m IH]; intros b n r HM HU HZ HE HN; [lia|]. destruct n as [|n]; [lia|]. destruct b as [|c b]; [reflexivity|]. inversion HZ as [|? ? HC HZ2]; subst. cbn [app multiLoop peek]. replace (c =? 0) with false by lia. rewrite lexChar_nz by lia. destruct (c =? 42) eqn:E.
  - assert (c = 42) by lia. subst c. destruct b as [|d b]; [discriminate|]. inversion HZ2 as [|? ? HD HZ3]; subst. cbn [app peek]. assert (d <> 47) by (intros ->; apply (HU [] (b ++ [42])); reflexivity). replace (d =? 47) with false by lia. rewrite lexChar_nz by lia. apply IH.
    + cbn in HM. lia.
    + intros p q EQ. apply (HU (42 :: d :: p) q). cbn [app]. rewrite EQ. reflexivity.
    + exact HZ3.
    + cbn [last_stars] in HE. cbn [Z.eqb Pos.eqb] in HE. destruct (d =? 42); [rewrite stars_parity in HE; exact HE|exact HE].
    + cbn in HN. lia.
  - apply IH.
    + cbn in HM. lia.
    + intros p q EQ. apply (HU (c :: p) q). cbn [app]. rewrite EQ. reflexivity.
    + exact HZ2.
    + cbn [last_stars] in HE. rewrite E in HE. exact HE.
    + cbn in HN. lia.
Qed.
Lemma skip_block b r : (forall p q, b ++ [42] <> p ++ 42 :: 47 :: q) -> no_nul b -> Nat.even (last_stars b 0) = true -> lexSpacesAndComments (47 :: 42 :: b ++ 42 :: 47 :: r) = lexSpacesAndComments r.
Proof.
  intros HU HZ HE. unfold lexSpacesAndComments at 1. unfold fuelOf. cbn [spacesLoop peek]. cbn [Z.eqb Pos.eqb orb negb]. rewrite lexChar_nz by lia. cbn [peek Z.eqb Pos.eqb]. unfold lexMultiLineComment. rewrite lexChar_nz by lia. rewrite (multi_ok (S (length b))); [|lia|exact HU|exact HZ|exact HE|unfold fuelOf; lia]. cbn [bind peek Z.eqb Pos.eqb]. rewrite lexChar_nz by lia. apply spaces_fuel. cbn [length]. rewrite app_length. cbn [length]. lia.
Qed.
Lemma trivia_skip l f : trivia l f -> lexSpacesAndComments (l ++ f) = lexSpacesAndComments f.
Proof.
  induction 1 as [f|c l f HC HT IH|b l f HB HE HT IH|b l f HU HZ HE HT IH]; cbn [app]; [reflexivity|rewrite skip_blank by exact HC; exact IH| |].
  - rewrite <- app_assoc. rewrite skip_line by assumption. exact IH.
  - rewrite <- app_assoc. cbn [app]. rewrite skip_block by assumption. exact IH.
Qed.
Lemma trivia_raw l f : trivia l f -> lexNextWithEOLN (l ++ f) = lexNextWithEOLN f.
Proof. intro H. unfold lexNextWithEOLN. rewrite (trivia_skip l f H). reflexivity. Qed.
Lemma trivia_next p l f : trivia l f -> lexNext p (l ++ f) = lexNext p f.
Proof. intro H. rewrite (lexNext_step p (l ++ f)), (lexNext_step p f), (trivia_raw l f H). reflexivity. Qed.
Lemma multi_unended m : forall l n, (length l < m)%nat -> unended l -> (length l < n)%nat -> exists s, multiLoop n l = Ok s /\ peek s = 0.
Proof.
  induction m as [|m IH]; intros l n HM HU HN; [lia|]. destruct n as [|n]; [lia|]. cbn [multiLoop]. destruct (peek l =? 0) eqn:EZ; [exists l; split; [reflexivity|lia]|]. pose proof (lexChar_cons l ltac:(lia)) as EL. set (r := lexChar l) in *. assert (LR : (length r < length l)%nat) by (apply lexChar_lt; lia).
  destruct (peek l =? 42) eqn:E.
  - assert (ES : peek l = 42) by lia. rewrite ES in EL. destruct (peek r =? 47) eqn:E2.
    + exfalso. pose proof (lexChar_cons r ltac:(lia)) as ER. assert (peek r = 47) by lia. rewrite H in ER. apply (HU [] (lexChar r)). rewrite EL, ER. reflexivity.
    + pose proof (lexChar_le r). apply IH; [lia| |lia]. destruct (suffix_char r) as [p EP]. intros p2 q2 EQ. apply (HU (42 :: p ++ p2) q2). rewrite EL, EP, EQ. cbn [app]. rewrite <- app_assoc. reflexivity.
  - apply IH; [lia| |lia]. intros p2 q2 EQ. apply (HU (peek l :: p2) q2). rewrite EL at 1. rewrite EQ. reflexivity.
Qed.
Lemma unended_err p l f : trivia l (47 :: 42 :: f) -> unended f -> lexNext p (l ++ 47 :: 42 :: f) = Err ESyntax.
Proof.
  intros HT HU. rewrite trivia_next by exact HT. rewrite lexNext_step. unfold lexNextWithEOLN, lexSpacesAndComments, fuelOf. cbn [spacesLoop peek]. cbn [Z.eqb Pos.eqb orb negb]. rewrite lexChar_nz by lia. cbn [peek Z.eqb Pos.eqb]. unfold lexMultiLineComment. rewrite lexChar_nz by lia.
  destruct (multi_unended (S (length f)) f (fuelOf f) ltac:(lia) HU ltac:(unfold fuelOf; lia)) as (s & -> & E). cbn [bind]. rewrite E. reflexivity.
Qed.

(** * Strings *)
Lemma dvalue_hex l f : forall v n, Forall (fun p => digit 16 (snd p) <> None) l -> Forall (fun d => fst d = false) l -> digit 16 (peek f) = None -> hexSeq (dtext l ++ f) v n = (dvalue 16 l v, n + Z.of_nat (length l)).
Proof.
  assert (HX : forall c, hexDigit c = match digit 16 c with Some d => d | None => -1 end) by (intro c; exact (digit_hex c)).
  induction l as [|[u c] l IH]; intros v n HD HU HF.
  - cbn [dtext flat_map app dvalue length]. destruct f as [|x f]; [cbn [hexSeq]; f_equal; lia|]. cbn [peek] in HF. cbn [hexSeq]. rewrite HX, HF. cbn [Z.eqb Pos.eqb]. f_equal. lia.
  - inversion HD as [|? ? HC HD2]; subst. inversion HU as [|? ? HU1 HU2]; subst. cbn [fst snd] in *. subst u. cbn [dtext flat_map fst snd app]. fold (dtext l). cbn [hexSeq]. rewrite HX. cbn [dvalue]. destruct (digit 16 c) as [d|] eqn:ED; [|congruence]. pose proof (digit_range 16 c d (or_intror eq_refl) ED). replace (d =? -1) with false by lia. rewrite IH by assumption. f_equal. cbn [length]. lia.
Qed.
Lemma dtext_len l : Forall (fun d : bool * Z => fst d = false) l -> length (dtext l) = length l.
Proof. induction 1 as [|[u c] l H HF IH]; [reflexivity|]. cbn [fst] in H. subst u. cbn. fold (dtext l). lia. Qed.
Lemma sscanf_ok l f : dvalid 16 l -> Forall (fun d => fst d = false) l -> 0 <= dvalue 16 l 0 < two32 -> digit 16 (peek f) = None -> (l = [(false, 48)] -> ~ In (peek f) [88; 120]) ->
  sscanfX (dtext l ++ f) = Ok (Some (dvalue 16 l 0, Z.of_nat (length l))).
Proof.
  intros [HV1 HV2] HU HR HF H0. unfold sscanfX. destruct l as [|[u c] l]; [contradiction|]. subst u. inversion HV2 as [|? ? HC HV3]; subst. cbn [snd] in HC. destruct (digit 16 c) as [d|] eqn:ED; [|congruence]. pose proof (digit_chars 16 c d (or_intror eq_refl) ED) as CD.
  assert (ES : skipSpaces (dtext ((false, c) :: l) ++ f) 0 = (dtext ((false, c) :: l) ++ f, 0)) by (cbn [dtext flat_map fst snd app skipSpaces]; replace (isspace c) with false by (unfold isspace; lia); reflexivity). rewrite ES.
  assert (E2 : (match dtext ((false, c) :: l) ++ f with [] => (false, dtext ((false, c) :: l) ++ f, 0) | c0 :: r => if c0 =? 45 then (true, r, 0 + 1) else if c0 =? 43 then (false, r, 0 + 1) else (false, dtext ((false, c) :: l) ++ f, 0) end) = (false, dtext ((false, c) :: l) ++ f, 0)).
  { cbn [dtext flat_map fst snd app]. replace (c =? 45) with false by lia. replace (c =? 43) with false by lia. reflexivity. }
  rewrite E2. clear ES E2.
  assert (E3 : (match dtext ((false, c) :: l) ++ f with c0 :: d0 :: r => if (c0 =? 48) && ((d0 =? 120) || (d0 =? 88)) then (r, 0 + 2) else (dtext ((false, c) :: l) ++ f, 0) | _ => (dtext ((false, c) :: l) ++ f, 0) end) = (dtext ((false, c) :: l) ++ f, 0)).
  { cbn [dtext flat_map fst snd app]. fold (dtext l). destruct l as [|[u2 c2] l].
    - cbn [dtext flat_map app]. destruct f as [|x f]; [reflexivity|]. destruct (c =? 48) eqn:E48; [|reflexivity]. assert (c = 48) by lia. subst c. specialize (H0 eq_refl). cbn [peek In] in H0. replace ((x =? 120) || (x =? 88)) with false by lia. reflexivity.
    - inversion HU as [|? ? _ HU2]; subst. inversion HU2 as [|? ? HU3 _]; subst. cbn [fst] in HU3. subst u2. inversion HV3 as [|? ? HC2 _]; subst. cbn [snd] in HC2. destruct (digit 16 c2) as [d2|] eqn:ED2; [|congruence]. pose proof (digit_chars 16 c2 d2 (or_intror eq_refl) ED2) as CD2.
      cbn [dtext flat_map fst snd app]. replace ((c2 =? 120) || (c2 =? 88)) with false by lia. rewrite andb_false_r. reflexivity. }
  rewrite E3. rewrite dvalue_hex by assumption. cbn [length]. replace (0 + Z.of_nat (S (length l)) =? 0) with false by lia. replace (two32 <=? _) with false by lia. do 3 f_equal.
Qed.
(** Reading one piece. [esc] tells whether it is written with a backslash. *)
Definition esc (p : piece) : bool := match p with Plain _ => false | _ => true end.
Lemma esc_lookup c v : lookup escapes c = Some v -> c <> 120 /\ c <> 0 /\ simpleEsc c = v.
Proof.
  unfold lookup. destruct (find _ escapes) as [p|] eqn:F; [|discriminate]. apply find_some in F as [F1 F2]. intro H. assert (snd p = v) by (cbn in H; congruence). subst v. assert (fst p = c) by lia. subst c. cbn in F1. repeat destruct F1 as [<-|F1]; try (cbn; repeat split; (discriminate || reflexivity)). contradiction.
Qed.
Lemma esc_piece p x f : x <> 0 -> cvalid p f -> exists y, y <> 0 /\ lexEscChar (x :: spell p ++ f) = Ok (pvalue p, esc p, y :: f).
Proof.
  intros HX HV. unfold lexEscChar. rewrite lexChar_nz by exact HX. destruct p as [c|c|l]; cbn [spell app peek pvalue esc cvalid] in *.
  - exists c. cbn in HV. split; [lia|]. replace (c =? 92) with false by lia. reflexivity.
  - destruct (lookup escapes c) as [v|] eqn:E; [|congruence]. destruct (esc_lookup c v E) as (H1 & H2 & H3). exists c. split; [exact H2|]. cbn [Z.eqb Pos.eqb]. rewrite lexChar_nz by lia. cbn [peek]. replace (c =? 120) with false by lia. rewrite H3. reflexivity.
  - destruct HV as (V1 & V2 & V3 & V4 & V5). cbn [Z.eqb Pos.eqb]. rewrite lexChar_nz by lia. cbn [peek Z.eqb Pos.eqb]. rewrite lexChar_nz by lia. rewrite sscanf_ok by (try assumption; unfold two32; lia). cbn [bind]. replace (255 <? dvalue 16 l 0) with false by lia.
    pose proof (dtext_len l V2) as DL. destruct V1 as [V0 V1]. assert (G : exists a y, dtext l = a ++ [y] /\ y <> 0 /\ length a = (length l - 1)%nat).
    { assert (NE : dtext l <> []) by (destruct l; [contradiction|intro E; rewrite E in DL; discriminate]). destruct (exists_last NE) as (a & y & EY). exists a, y. split; [exact EY|]. split; [|rewrite EY, app_length in DL; cbn in DL; lia].
      assert (IN : In y (dtext l)) by (rewrite EY; apply in_or_app; right; left; reflexivity). clear -IN V1 V2. induction l as [|[u c] l IH]; [contradiction|]. inversion V1 as [|? ? A1 A2]; subst. inversion V2 as [|? ? B1 B2]; subst. cbn [fst snd] in *. subst u. cbn in IN. destruct IN as [<-|IN]; [|apply IH; assumption]. destruct (digit 16 c) as [d|] eqn:ED; [|congruence]. pose proof (digit_chars 16 c d (or_intror eq_refl) ED). lia. }
    destruct G as (a & y & EY & NY & LA). exists y. split; [exact NY|]. rewrite EY. replace (Z.to_nat (Z.of_nat (length l) - 1)) with (length a) by lia. rewrite <- app_assoc. rewrite skipn_app, skipn_all, Nat.sub_diag. reflexivity.
Qed.
Lemma pvalid_c p f : pvalid p f -> cvalid p f /\ pvalue p <> 0 /\ (esc p = true \/ pvalue p <> 34 /\ pvalue p <> 10).
Proof.
  destruct p as [c|c|l]; cbn [pvalid cvalid pvalue esc].
  - intro H. cbn in H. split; [cbn; lia|]. split; [lia|]. right. lia.
  - intros [H1 H2]. split; [exact H1|]. split; [|left; reflexivity]. destruct (lookup escapes c) as [v|] eqn:E; [|congruence]. unfold lookup in E. destruct (find _ escapes) as [p|] eqn:F; [|discriminate]. apply find_some in F as [F1 F2]. assert (snd p = v) by (cbn in E; congruence). assert (fst p = c) by lia. subst. cbn in F1. repeat destruct F1 as [<-|F1]; try (cbn; discriminate); [exfalso; apply H2; reflexivity|contradiction].
  - intros (H1 & H2 & H3 & H4). split; [|split; [lia|left; reflexivity]]. repeat split; try assumption; try lia; try (apply H1). intros ->. cbn in H3. lia.
Qed.
Lemma conds v e : v <> 0 -> (e = true \/ v <> 34 /\ v <> 10) -> negb (v =? 34) || e = true /\ ((v =? 0) || (v =? 10)) && negb e = false /\ (v =? 0) = false.
Proof. intros H1 H2. destruct e; cbn [negb]; rewrite ?orb_true_r, ?andb_false_r, ?orb_false_r, ?andb_true_r; [repeat split; lia|]. destruct H2 as [H2|H2]; [discriminate|]. repeat split; lia. Qed.
Lemma singleD_pieces ps : forall n p x f, pvalid p (spell_all ps ++ 34 :: f) -> pvalid_all ps (34 :: f) -> x <> 0 -> (length ps + 1 < n)%nat ->
  singleD n (pvalue p) (esc p) (x :: spell_all ps ++ 34 :: f) = Ok (pvalue p :: map pvalue ps, f).
Proof.
  induction ps as [|q ps IH]; intros n p x f HP HA HX HN; (destruct n as [|n]; [lia|]); destruct (pvalid_c _ _ HP) as (C1 & C2 & C3); cbn [singleD].
  - destruct (conds _ _ C2 C3) as (-> & -> & ->). unfold lexEscChar. rewrite lexChar_nz by exact HX. cbn [spell_all flat_map app peek Z.eqb Pos.eqb bind fst snd map].
    destruct n as [|n]; [cbn in HN; lia|]. cbn [singleD]. cbn [Z.eqb Pos.eqb negb orb bind]. rewrite lexChar_nz by lia. reflexivity.
  - destruct (conds _ _ C2 C3) as (-> & -> & ->). cbn [pvalid_all] in HA. destruct HA as [HQ HA]. destruct (pvalid_c _ _ HQ) as (D1 & _).
    change (spell_all (q :: ps)) with (spell q ++ spell_all ps). rewrite <- app_assoc. destruct (esc_piece q x _ HX D1) as (y & HY & ->). cbn [bind fst snd]. rewrite IH; [reflexivity|assumption|assumption|exact HY|cbn in HN; lia].
Qed.
Lemma spell_len ps : (length ps <= length (spell_all ps))%nat.
Proof. induction ps as [|p ps IH]; [cbn; lia|]. change (spell_all (p :: ps)) with (spell p ++ spell_all ps). rewrite app_length. cbn [length]. assert (1 <= length (spell p))%nat by (destruct p; cbn; lia). lia. Qed.
Lemma strD_pieces ps f : pvalid_all ps (34 :: f) -> strD (34 :: spell_all ps ++ 34 :: f) = Ok (map pvalue ps, f).
Proof.
  intro H. unfold strD. cbn [peek Z.eqb Pos.eqb]. destruct ps as [|p ps].
  - cbn [spell_all flat_map app]. reflexivity.
  - cbn [pvalid_all] in H. destruct H as [HP HA]. destruct (pvalid_c _ _ HP) as (C1 & _). change (spell_all (p :: ps)) with (spell p ++ spell_all ps). rewrite <- app_assoc. destruct (esc_piece p 34 _ ltac:(lia) C1) as (y & HY & E). rewrite E. cbn [bind fst snd]. apply singleD_pieces; [exact HP|exact HA|exact HY|].
    unfold fuelOf. cbn [length]. rewrite !app_length. cbn [length]. pose proof (spell_len ps). assert (1 <= length (spell p))%nat by (destruct p; cbn; lia). lia.
Qed.
Lemma bad_end_err x f : x <> 0 -> bad_end f -> exists c e s, lexEscChar (x :: f) = Ok (c, e, s) /\ ((c = 0) \/ (c = 10 /\ e = false)).
Proof.
  intros HX HB. unfold lexEscChar. rewrite lexChar_nz by exact HX. destruct HB as [->|[HB|[r ->]]].
  - cbn. do 3 eexists. split; [reflexivity|left; reflexivity].
  - rewrite HB. cbn [Z.eqb Pos.eqb]. do 3 eexists. split; [reflexivity|right; split; reflexivity].
  - cbn. do 3 eexists. split; [reflexivity|left; reflexivity].
Qed.
Lemma singleD_bad n c e s : ((c = 0) \/ (c = 10 /\ e = false)) -> singleD (S n) c e s = Err ESyntax.
Proof. intros [->|[-> ->]]; cbn; [destruct e|]; reflexivity. Qed.
Lemma singleD_unended ps : forall n p x f, bad_end f -> pvalid p (spell_all ps ++ f) -> pvalid_all ps f -> x <> 0 -> (length ps + 1 < n)%nat ->
  singleD n (pvalue p) (esc p) (x :: spell_all ps ++ f) = Err ESyntax.
Proof.
  induction ps as [|q ps IH]; intros n p x f HB HP HA HX HN; (destruct n as [|n]; [lia|]); destruct (pvalid_c _ _ HP) as (C1 & C2 & C3); cbn [singleD];
    destruct (conds _ _ C2 C3) as (-> & -> & ->).
  - cbn [spell_all flat_map app]. destruct (bad_end_err x f HX HB) as (c & e & s & -> & H). cbn [bind fst snd]. destruct n as [|n]; [cbn in HN; lia|]. rewrite singleD_bad by exact H. reflexivity.
  - cbn [pvalid_all] in HA. destruct HA as [HQ HA]. destruct (pvalid_c _ _ HQ) as (D1 & _).
    change (spell_all (q :: ps)) with (spell q ++ spell_all ps). rewrite <- app_assoc. destruct (esc_piece q x _ HX D1) as (y & HY & ->). cbn [bind fst snd]. rewrite IH; [reflexivity|assumption|assumption|assumption|exact HY|cbn in HN; lia].
Qed.
Lemma strD_unended ps f : bad_end f -> pvalid_all ps f -> strD (34 :: spell_all ps ++ f) = Err ESyntax.
Proof.
  intros HB H. unfold strD. cbn [peek Z.eqb Pos.eqb]. destruct ps as [|p ps].
  - cbn [spell_all flat_map app]. destruct (bad_end_err 34 f ltac:(lia) HB) as (c & e & s & -> & E). cbn [bind fst snd]. unfold fuelOf. apply singleD_bad. exact E.
  - cbn [pvalid_all] in H. destruct H as [HP HA]. destruct (pvalid_c _ _ HP) as (C1 & _). change (spell_all (p :: ps)) with (spell p ++ spell_all ps). rewrite <- app_assoc. destruct (esc_piece p 34 _ ltac:(lia) C1) as (y & HY & E). rewrite E. cbn [bind fst snd]. apply singleD_unended; [exact HB|exact HP|exact HA|exact HY|].
    unfold fuelOf. cbn [length]. rewrite !app_length. pose proof (spell_len ps). assert (1 <= length (spell p))%nat by (destruct p; cbn; lia). lia.
Qed.
Lemma backD_ok b : forall n f, Forall (fun c => c <> 0 /\ c <> 96) b -> (length b < n)%nat -> backD n (b ++ 96 :: f) = Ok (filter (fun c => negb (c =? 13)) b, f).
Proof.
  induction b as [|c b IH]; intros n f HF HN; (destruct n as [|n]; [lia|]); cbn [app backD peek].
  - cbn [Z.eqb Pos.eqb]. rewrite lexChar_nz by lia. reflexivity.
  - inversion HF as [|? ? HC HF2]; subst. replace (c =? 96) with false by lia. replace (c =? 0) with false by lia. rewrite lexChar_nz by lia. rewrite IH; [|exact HF2|cbn in HN; lia]. cbn [filter]. destruct (c =? 13); reflexivity.
Qed.
Lemma backD_unended b : forall n, Forall (fun c => c <> 0 /\ c <> 96) b -> (length b < n)%nat -> backD n b = Err ESyntax.
Proof.
  induction b as [|c b IH]; intros n HF HN; (destruct n as [|n]; [lia|]); cbn [app backD peek]; [reflexivity|]. inversion HF as [|? ? HC HF2]; subst. replace (c =? 96) with false by lia. replace (c =? 0) with false by lia. rewrite lexChar_nz by lia. rewrite IH; [|exact HF2|cbn in HN; lia]. destruct (c =? 13); reflexivity.
Qed.
(** Whatever the text: a string value never contains a NUL. *)
Lemma singleD_nul n : forall c e s l s', singleD n c e s = Ok (l, s') -> no_nul l.
Proof.
  induction n as [|n IH]; intros c e s l s' H; [discriminate|]. cbn [singleD] in H. destruct (negb (c =? 34) || e); [|assert (l = []) by congruence; subst; constructor]. destruct (_ && _); [discriminate|]. destruct (c =? 0) eqn:E; [discriminate|]. destruct (lexEscChar s) as [(r & s1)| |]; cbn [bind] in H; try discriminate.
  destruct (singleD n (fst r) (snd r) s1) as [(l2 & s2)| |] eqn:E2; cbn [bind] in H; try discriminate. assert (l = c :: l2) by congruence. subst. constructor; [lia|]. eapply IH. exact E2.
Qed.
Lemma backD_nul n : forall s l s', backD n s = Ok (l, s') -> no_nul l.
Proof.
  induction n as [|n IH]; intros s l s' H; [discriminate|]. cbn [backD] in H. destruct (peek s =? 96); [assert (l = []) by congruence; subst; constructor|]. destruct (peek s =? 0) eqn:E; [discriminate|]. destruct (peek s =? 13); [eapply IH; exact H|].
  destruct (backD n (lexChar s)) as [(l2 & s2)| |] eqn:E2; cbn [bind] in H; try discriminate. assert (l = peek s :: l2) by congruence. subst. constructor; [lia|]. eapply IH. exact E2.
Qed.
Lemma str_nul s l s' : strD s = Ok (l, s') -> no_nul l.
Proof. unfold strD. destruct (peek s =? 34); [|apply backD_nul]. destruct (lexEscChar s) as [(r & s1)| |]; cbn [bind]; try discriminate. apply singleD_nul. Qed.
Lemma raw_string s : peek s = 34 \/ peek s = 96 -> lexNextWithEOLN s = fmap (fun p : list Z * sc => ((TStrLiteral, VStr (fst p ++ [0])), snd p)) (strD s).
Proof.
  intro H. unfold lexNextWithEOLN. rewrite spaces_none by (unfold is_skip; lia). cbn [bind]. replace (isLetter (peek s)) with false by (unfold isLetter; lia). replace (isDigit (peek s) || (peek s =? 46)) with false by (unfold isDigit; lia). replace (peek s =? 39) with false by lia. replace ((peek s =? 34) || (peek s =? 96)) with true by lia. rewrite str_thm. destruct (strD s) as [(l & s')| |]; reflexivity.
Qed.
Lemma char_ok p f : cvalid p (39 :: f) -> lexNextWithEOLN (39 :: spell p ++ 39 :: f) = Ok ((TCharLiteral, VInt (pvalue p)), f).
Proof.
  intro H. unfold lexNextWithEOLN. rewrite spaces_none by reflexivity. cbn [bind peek]. change (isLetter 39) with false. change (isDigit 39 || (39 =? 46)) with false. change (39 =? 39) with true. cbv iota. unfold lexCharLiteral. destruct (esc_piece p 39 (39 :: f) ltac:(lia) H) as (y & HY & ->). cbn [bind fst]. rewrite lexChar_nz by exact HY. cbn [peek Z.eqb Pos.eqb]. rewrite lexChar_nz by lia. reflexivity.
Qed.

(** * Operators and identifiers *)
Fixpoint prefixb (w l : list Z) : bool := match w, l with [], _ => true | a :: w, b :: l => (a =? b) && prefixb w l | _ :: _, [] => false end.
Lemma prefixb_spec w : forall l, prefixb w l = true -> exists r, l = w ++ r.
Proof. induction w as [|a w IH]; intros l H; [exists l; reflexivity|]. destruct l as [|b l]; [discriminate|]. cbn in H. apply andb_true_iff in H as [H1 H2]. destruct (IH l H2) as [r ->]. exists r. cbn. f_equal. lia. Qed.
Definition longestb (w text : list Z) : bool := forallb (fun p : tk * list Z => negb (prefixb (snd p) text) || (length (snd p) <=? length w)%nat) operators.
Lemma longest_b w text : longest w text -> longestb w text = true.
Proof. intro H. apply forallb_forall. intros [k' w'] IN. cbn [snd]. destruct (prefixb w' text) eqn:E; [|reflexivity]. destruct (prefixb_spec w' text E) as [r ER]. cbn [negb orb]. apply Nat.leb_le. exact (H k' w' r IN ER). Qed.
Lemma raw_op s : is_skip (peek s) = false \/ (peek s = 47 /\ peek (lexChar s) <> 47 /\ peek (lexChar s) <> 42) -> isLetter (peek s) = false -> isDigit (peek s) = false -> peek s <> 39 -> peek s <> 34 -> peek s <> 96 ->
  (peek s = 46 -> isDigit (peek (lexChar s)) = false) -> lexNextWithEOLN s = let '(k, s1) := lexOperator s in if isNone k then (if peek s1 =? 0 then Ok ((TEof, VNothing), s1) else Err ESyntax) else Ok ((k, VNothing), s1).
Proof.
  intros H1 H2 H3 H4 H5 H6 H7. unfold lexNextWithEOLN. assert (ES : lexSpacesAndComments s = Ok s). { destruct H1 as [H1|(H1 & H1a & H1b)]; [apply spaces_none; exact H1|]. unfold lexSpacesAndComments, fuelOf. cbn [spacesLoop]. rewrite H1. cbn [Z.eqb Pos.eqb orb negb]. replace (peek (lexChar s) =? 47) with false by lia. replace (peek (lexChar s) =? 42) with false by lia. reflexivity. }
  rewrite ES. cbn [bind]. rewrite H2, H3. cbn [orb]. destruct (peek s =? 46) eqn:E46.
  - assert (P : peek s = 46) by lia. unfold lexNumber. rewrite P. cbn [Z.eqb Pos.eqb andb bind]. rewrite P. cbn [Z.eqb Pos.eqb]. rewrite peek1_nz by lia. cbn [bind]. assert (D : lexCharDigit (peek (lexChar s)) 10 = -1) by (unfold lexCharDigit; cbn [Z.eqb Pos.eqb]; rewrite (H7 P); reflexivity). rewrite D. cbn [Z.eqb Pos.eqb andb bind fst isNone]. destruct (lexOperator s) as [k s1]. cbn [fst isNone]. destruct (isNone k); reflexivity.
  - replace (peek s =? 39) with false by lia. replace ((peek s =? 34) || (peek s =? 96)) with false by lia. cbn [bind fst isNone]. destruct (lexOperator s) as [k s1]. cbn [fst]. destruct (isNone k); reflexivity.
Qed.
Lemma op_ok k w r : In (k, w) operators -> longest w (w ++ r) -> (w = [47] -> peek r <> 47 /\ peek r <> 42) -> (w = [46] -> isDigit (peek r) = false) -> lexNextWithEOLN (w ++ r) = Ok ((k, VNothing), r).
Proof.
  intros IN HL H1 H2. apply longest_b in HL.
  assert (G : forall x, peek r = x -> x <> 0 -> r = x :: lexChar r) by (intros x <- Hx; apply lexChar_cons; exact Hx).
  assert (G1 : forall x, (peek r =? x) = true -> x <> 0 -> longestb w (w ++ x :: lexChar r) = true) by (intros x E Hx; rewrite <- (G x) by lia; exact HL).
  cbn in IN. repeat destruct IN as [IN|IN]; try contradiction; injection IN as <- <-;
    (rewrite raw_op; [|first [left; reflexivity|right; cbn [app]; rewrite lexChar_nz by lia; destruct (H1 eq_refl); split; [reflexivity|split; assumption]|right; split; [reflexivity|split; cbn; discriminate]]|reflexivity|reflexivity|cbn; discriminate|cbn; discriminate|cbn; discriminate|first [cbn; discriminate|cbn [app]; rewrite lexChar_nz by lia; intros _; first [exact (H2 eq_refl)|reflexivity]]]);
    cbn [app]; unfold lexOperator; cbn [peek Z.eqb Pos.eqb]; unfold opShift, opEq2, opEq; rewrite ?lexChar_nz by lia; cbn [peek Z.eqb Pos.eqb]; rewrite ?lexChar_nz by lia;
    repeat match goal with |- context [if peek r =? ?x then _ else _] => let E := fresh in destruct (peek r =? x) eqn:E; [specialize (G1 x E ltac:(lia)); discriminate G1|] end; reflexivity.
Qed.
Lemma no_op s : peek s <> 0 -> is_skip (peek s) = false -> isLetter (peek s) = false -> isDigit (peek s) = false -> peek s <> 39 -> peek s <> 34 -> peek s <> 96 -> (forall k w r, In (k, w) operators -> s <> w ++ r) -> lexNextWithEOLN s = Err ESyntax.
Proof.
  intros H0 H1 H2 H3 H4 H5 H6 HN. assert (D : forall k c, In (k, [c]) operators -> peek s <> c). { intros k c IN E. apply (HN k [c] (lexChar s) IN). rewrite <- E. exact (lexChar_cons s H0). }
  assert (P46 : peek s <> 46) by (eapply D; cbn; intuition eauto). rewrite raw_op; [|left; exact H1|exact H2|exact H3|exact H4|exact H5|exact H6|intro E; contradiction]. unfold lexOperator. cbv zeta.
  repeat match goal with |- context [if peek s =? ?c then _ else _] => replace (peek s =? c) with false by (symmetry; apply Z.eqb_neq; eapply D; cbn; intuition eauto) end. cbn [isNone]. replace (peek s =? 0) with false by lia. reflexivity.
Qed.
Lemma letter_is c : isLetter c = true <-> is_letter c.
Proof.
  unfold is_letter. split; intro H.
  - assert (R : In c (map Z.of_nat (seq 0 123))) by (apply in_map_iff; exists (Z.to_nat c); unfold isLetter in H; split; [lia|apply in_seq; lia]).
    assert (A : forallb (fun c => implb (isLetter c) (existsb (Z.eqb c) letters)) (map Z.of_nat (seq 0 123)) = true) by (vm_compute; reflexivity). rewrite forallb_forall in A. specialize (A c R). cbv beta in A. rewrite H in A. cbn [implb] in A. apply existsb_exists in A as (x & I & E). apply Z.eqb_eq in E. subst x. exact I.
  - cbn in H. repeat destruct H as [<-|H]; try reflexivity. contradiction.
Qed.
Lemma alnum_is c : isLetter c || isDigit c = true <-> is_alnum c.
Proof.
  unfold is_alnum. rewrite orb_true_iff, letter_is. unfold is_letter. match goal with |- context [In c (txt ?s)] => assert (E : isDigit c = true <-> In c (txt s)) end; [|tauto]. split; intro H.
  - unfold isDigit in H. assert (D : c = 48 \/ c = 49 \/ c = 50 \/ c = 51 \/ c = 52 \/ c = 53 \/ c = 54 \/ c = 55 \/ c = 56 \/ c = 57) by lia. cbn. intuition auto.
  - cbn in H. repeat destruct H as [<-|H]; try reflexivity. contradiction.
Qed.
Lemma identLoop_ok rest : forall c n name r, is_alnum c -> Forall is_alnum rest -> ~ is_alnum (peek r) -> (length (rest ++ r) + 1 < n)%nat -> Z.of_nat (length name) <= MAX_IDENT_LEN ->
  identLoop n (c :: rest ++ r) name = if Z.of_nat (length (name ++ c :: rest)) <=? MAX_IDENT_LEN then Ok (name ++ c :: rest, r) else Err ESyntax.
Proof.
  induction rest as [|d rest IH]; intros c n name r HC HF HR HN HL; (destruct n as [|n]; [lia|]); assert (NC : c <> 0) by (intros ->; apply alnum_is in HC; discriminate); cbn [identLoop app peek]; (replace (MAX_IDENT_LEN <? Z.of_nat (length name)) with false by lia); rewrite lexChar_nz by exact NC.
  - destruct (MAX_IDENT_LEN <? Z.of_nat (length (name ++ [c]))) eqn:E; [replace (_ <=? _) with false by lia; reflexivity|]. replace (_ <=? _) with true by lia. destruct (isLetter (peek r) || isDigit (peek r)) eqn:E2; [exfalso; apply HR; apply alnum_is; exact E2|reflexivity].
  - inversion HF as [|? ? HD HF2]; subst. destruct (MAX_IDENT_LEN <? Z.of_nat (length (name ++ [c]))) eqn:E.
    + rewrite app_length in E. cbn [length] in E. rewrite app_length. cbn [length]. replace (_ <=? _) with false by lia. reflexivity.
    + cbn [peek]. apply alnum_is in HD. rewrite HD. apply alnum_is in HD. rewrite IH; [|exact HD|exact HF2|exact HR|cbn [app length] in HN; lia|lia]. rewrite <- app_assoc. reflexivity.
Qed.
Lemma eqb_list_spec a : forall b, eqb_list a b = true <-> a = b.
Proof. induction a as [|x a IH]; intros [|y b]; cbn; try (split; discriminate); [tauto|]. rewrite andb_true_iff, IH, Z.eqb_eq. split; [intros [-> ->]; reflexivity|intro H; injection H; auto]. Qed.
Lemma keyword_table : keywords = map (fun p => (txt (fst p), snd p)) keyword_list.
Proof. reflexivity. Qed.
Lemma find_kind name l : (exists w, In (w, findKeyword name (map (fun p => (txt (fst p), snd p)) l)) l /\ name = txt w) \/
  (findKeyword name (map (fun p => (txt (fst p), snd p)) l) = TIdent /\ forall w k', In (w, k') l -> name <> txt w).
Proof.
  induction l as [|[w k] l IH]; [right; split; [reflexivity|intros w k' []]|]. cbn [map findKeyword fst snd]. destruct (eqb_list name (txt w)) eqn:E.
  - left. exists w. split; [left; reflexivity|]. apply eqb_list_spec. exact E.
  - destruct IH as [(w2 & I & EN)|[E1 E2]]; [left; exists w2; split; [right; exact I|exact EN]|]. right. split; [exact E1|]. intros w2 k2 [I|I]; [|eapply E2; exact I]. injection I as <- <-. intro EN. apply eqb_list_spec in EN. congruence.
Qed.
Lemma ident_ok name r : (exists c rest, name = c :: rest /\ is_letter c) -> Forall is_alnum name -> ~ is_alnum (peek r) ->
  if Z.of_nat (length name) <=? 255 then exists k, ident_kind name k /\ lexNextWithEOLN (name ++ r) = Ok ((k, VName name), r) else lexNextWithEOLN (name ++ r) = Err ESyntax.
Proof.
  intros (c & rest & -> & HC) HF HR. inversion HF as [|? ? HA HF2]; subst. apply letter_is in HC. assert (EQ : lexNextWithEOLN ((c :: rest) ++ r) = if Z.of_nat (length (c :: rest)) <=? MAX_IDENT_LEN then Ok ((findKeyword (c :: rest) keywords, VName (c :: rest)), r) else Err ESyntax).
  { unfold lexNextWithEOLN. cbn [app]. rewrite spaces_none by (cbn [peek]; unfold isLetter in HC; unfold is_skip; lia). cbn [bind peek]. rewrite HC. unfold lexKeywordOrIdent. rewrite identLoop_ok; [|exact HA|exact HF2|exact HR|unfold fuelOf; cbn [length]; lia|cbn; unfold MAX_IDENT_LEN; lia]. cbn [app]. destruct (_ <=? MAX_IDENT_LEN); [|reflexivity]. cbn [bind fst].
    assert (N : isNone (findKeyword (c :: rest) keywords) = false). { unfold keywords. cbn [findKeyword]. repeat match goal with |- context [if ?b then _ else _] => destruct b; [reflexivity|] end. reflexivity. } rewrite N. cbn [fst]. rewrite N. reflexivity. }
  rewrite EQ. unfold MAX_IDENT_LEN. destruct (_ <=? 255); [|reflexivity]. eexists. split; [|reflexivity]. rewrite keyword_table. apply find_kind.
Qed.
Lemma next_raw p s t s' : lexNextWithEOLN s = Ok (t, s') -> fst t <> TEoln -> lexNext p s = Ok (t, s').
Proof. intros E H. rewrite lexNext_step, E. cbn [bind]. destruct (isEoln (fst t)) eqn:EE; [|reflexivity]. exfalso. apply H. destruct (fst t); try discriminate; reflexivity. Qed.
Lemma next_err p s e : lexNextWithEOLN s = Err e -> lexNext p s = Err e.
Proof. intros E. rewrite lexNext_step, E. reflexivity. Qed.
(** * Integer literals: nothing else is accepted *)
Definition headf (l : list (bool * Z)) : Prop := match l with [] => True | (u, _) :: _ => u = false end.
Lemma digitLoop_sound b : okbase b -> forall n s v len w len' s', 0 <= v < two64 -> digitLoop n s b false v len false = Ok (w, len', s') ->
  exists l, s = dtext l ++ s' /\ headf l /\ Forall (fun p => digit b (snd p) <> None) l /\ w = dvalue b l v /\ 0 <= w < two64 /\ (digit b (peek s) <> None -> l <> []).
Proof.
  intro HB. assert (B1 : 1 <= b) by (destruct HB; lia). induction n as [|n IH]; intros s v len w len' s' HV H; [discriminate|]. cbn [digitLoop] in H. rewrite digit_is in H by exact HB. destruct (digit b (peek s)) as [d|] eqn:ED.
  - pose proof (digit_range b _ d HB ED) as RD. pose proof (digit_chars b _ d HB ED) as CD. replace (d =? -1) with false in H by lia. rewrite over_exact in H by assumption. destruct (two64 <=? v * b + d) eqn:EO; [discriminate|]. cbn [andb orb negb] in H.
    assert (EU : u64 (u64 (v * b) + d) = v * b + d). { unfold u64, wrapu. rewrite (Z.mod_small (v * b)) by (unfold two64 in *; nia). apply Z.mod_small. unfold two64 in *. nia. } rewrite EU in H. assert (HV2 : 0 <= v * b + d < two64) by nia. pose proof (lexChar_cons s ltac:(lia)) as ES. set (r := lexChar s) in *. destruct (peek r =? 95) eqn:E95.
    + rewrite peek1_nz in H by lia. cbn [bind] in H. rewrite digit_is in H by exact HB. destruct (digit b (peek (lexChar r))) as [d2|] eqn:ED2; [|discriminate]. pose proof (digit_range b _ d2 HB ED2). replace (d2 =? -1) with false in H by lia. pose proof (lexChar_cons r ltac:(lia)) as ER. assert (P95 : peek r = 95) by lia. rewrite P95 in ER. destruct (IH _ _ _ _ _ _ HV2 H) as (l & E1 & E2 & E3 & E4 & E5 & E6). destruct l as [|[u c] l]; [exfalso; apply E6; [rewrite ED2; discriminate|reflexivity]|].
      cbn [headf] in E2. subst u. exists ((false, peek s) :: (true, c) :: l). cbn [dtext flat_map fst snd app] in *. fold (dtext l) in *. split; [rewrite ES at 1; rewrite ER, E1; reflexivity|]. split; [reflexivity|]. inversion E3; subst. split; [constructor; [cbn; congruence|constructor; assumption]|]. split; [cbn [dvalue]; rewrite ED; reflexivity|]. split; [exact E5|discriminate].
    + destruct (IH _ _ _ _ _ _ HV2 H) as (l & E1 & E2 & E3 & E4 & E5 & E6). exists ((false, peek s) :: l). cbn [dtext flat_map fst snd app] in *. fold (dtext l) in *. split; [rewrite ES at 1; rewrite E1; reflexivity|]. split; [reflexivity|]. split; [constructor; [cbn; congruence|exact E3]|]. split; [cbn [dvalue]; rewrite ED; exact E4|]. split; [exact E5|discriminate].
  - cbn [Z.eqb Pos.eqb] in H. exists []. assert (w = v /\ s' = s) as [-> ->] by (split; congruence). repeat split; try constructor; cbn; try lia. congruence.
Qed.
Lemma digitSeq_sound b s w len s' : okbase b -> lexDigitSeq s b false = Ok (w, len, s') -> exists l, dvalid b l /\ s = dtext l ++ s' /\ w = dvalue b l 0 /\ 0 <= w < two64.
Proof.
  intros HB H. unfold lexDigitSeq in H. rewrite digit_is in H by exact HB. destruct (digit b (peek s)) as [d|] eqn:ED; [|discriminate]. pose proof (digit_range b _ d HB ED) as RD. replace (d =? -1) with false in H by lia. apply digitLoop_sound in H as (l & E1 & E2 & E3 & E4 & E5 & E6); [|exact HB|unfold two64; lia]. exists l. specialize (E6 ltac:(congruence)). split; [split; [destruct l as [|[u c] l]; [congruence|exact E2]|exact E3]|]. auto.
Qed.
Lemma int_sound s v s' : isDigit (peek s) = true -> lexNextWithEOLN s = Ok ((TIntNumber, VInt v), s') -> int_text s v s' /\ 0 <= v < two64.
Proof.
  intros HD. rewrite raw_number by exact HD. assert (G : lexNumber s = Ok ((TIntNumber, VInt v), s') -> int_text s v s' /\ 0 <= v < two64).
  { unfold lexNumber. destruct (peek s =? 48) eqn:E48.
    - rewrite peek1_nz by lia. cbn [bind andb]. pose proof (lexChar_cons s ltac:(lia)) as ES. assert (P48 : peek s = 48) by lia. rewrite P48 in ES. set (r := lexChar s) in *. destruct ((peek r =? 120) || (peek r =? 88)) eqn:EX.
      + pose proof (lexChar_cons r ltac:(lia)) as ER. set (q := lexCharIf (lexChar r) 95). assert (EQ : exists u : bool, lexChar r = (if u then [95] else []) ++ snd q). { unfold q, lexCharIf. destruct (peek (lexChar r) =? 95) eqn:E; [|exists false; reflexivity]. exists true. cbn [snd app]. rewrite (lexChar_cons (lexChar r)) at 1 by lia. f_equal. lia. }
        destruct EQ as [u EQ]. destruct (if peek (snd q) =? 46 then peek1 (snd q) else Ok 0) as [c2| |]; cbn [bind]; try discriminate. destruct (_ && (lexCharDigit c2 10 =? -1)); [discriminate|]. cbn [Z.eqb Pos.eqb]. rewrite andb_false_r. cbn [negb]. destruct (lexDigitSeq (snd q) 16 false) as [((w & len) & s2)| |] eqn:DS; cbn [bind fst]; try discriminate.
        intro H. assert (w = v /\ s2 = s') as [-> ->] by (split; congruence). apply digitSeq_sound in DS as (l & D1 & D2 & D3 & D4); [|right; reflexivity]. split; [|exact D4]. right. exists (peek r), u, l. split; [cbn; lia|]. split; [exact D1|]. split; [|exact D3]. rewrite ES, ER, EQ, D2. reflexivity.
      + rewrite P48. cbn [Z.eqb Pos.eqb bind andb negb]. destruct (lexDigitSeq s 10 false) as [((w & len) & s2)| |] eqn:DS; cbn [bind fst]; try discriminate. apply digitSeq_sound in DS as (l & D1 & D2 & D3 & D4); [|left; reflexivity].
        unfold lexCharIf. destruct (peek s2 =? 46) eqn:E46.
        * cbn [andb]. destruct (if negb _ then _ else _) as [((frac & fracLen) & s4)| |]; cbn [bind]; try discriminate. destruct (peek s4 =? 101); [|destruct (peek s4 =? 69)]; try discriminate; [destruct (peek (lexChar s4) =? 45)|destruct (peek (lexChar s4) =? 45)]; match goal with |- (let* _ := ?o in _) = _ -> _ => destruct o as [((? & ?) & ?)| |]; discriminate end.
        * cbn [andb bind]. destruct (peek s2 =? 101); [|destruct (peek s2 =? 69)]; try (destruct (peek (lexChar s2) =? 45); match goal with |- (let* _ := ?o in _) = _ -> _ => destruct o as [((? & ?) & ?)| |]; discriminate end).
          intro H. assert (w = v /\ s2 = s') as [-> ->] by (split; congruence). split; [|exact D4]. left. exists l. auto.
    - cbn [bind andb]. destruct (peek s =? 46) eqn:EP; [unfold isDigit in HD; lia|]. cbn [bind andb Z.eqb Pos.eqb negb]. destruct (lexDigitSeq s 10 false) as [((w & len) & s2)| |] eqn:DS; cbn [bind fst]; try discriminate. apply digitSeq_sound in DS as (l & D1 & D2 & D3 & D4); [|left; reflexivity].
      unfold lexCharIf. destruct (peek s2 =? 46) eqn:E46.
      * cbn [andb]. destruct (if negb _ then _ else _) as [((frac & fracLen) & s4)| |]; cbn [bind]; try discriminate. destruct (peek s4 =? 101); [|destruct (peek s4 =? 69)]; try discriminate; [destruct (peek (lexChar s4) =? 45)|destruct (peek (lexChar s4) =? 45)]; match goal with |- (let* _ := ?o in _) = _ -> _ => destruct o as [((? & ?) & ?)| |]; discriminate end.
      * cbn [andb bind]. destruct (peek s2 =? 101); [|destruct (peek s2 =? 69)]; try (destruct (peek (lexChar s2) =? 45); match goal with |- (let* _ := ?o in _) = _ -> _ => destruct o as [((? & ?) & ?)| |]; discriminate end).
        intro H. assert (w = v /\ s2 = s') as [-> ->] by (split; congruence). split; [|exact D4]. left. exists l. auto. }
  pose proof (number_kind s) as K. destruct (lexNumber s) as [([k v1] & s2)| |]; cbn [bind]; try discriminate. destruct (K (k, v1) s2 eq_refl) as [[K1 _]|[K1|K1]]; cbn [fst] in K1; subst k; cbn [fst isNone]; try discriminate.
  - pose proof (operator_ok s2) as (_ & _ & _ & _). assert (NI : fst (lexOperator s2) <> TIntNumber). { unfold lexOperator, opShift, opEq2, opEq. cbv zeta. repeat match goal with |- context [if ?b then _ else _] => destruct b; try discriminate end. } destruct (lexOperator s2) as [k3 s3]. cbn [fst] in *. destruct (isNone k3); [destruct (peek s3 =? 0); discriminate|]. congruence.
  - exact G.
Qed.
(** * Progress of the parser's tokens *)
Lemma next_safe n : forall p s, (length s < n)%nat -> safe s (lexNext p s) (fun r => suffix (snd r) s /\ (fst (fst r) <> TEof -> (length (snd r) < length s)%nat) /\ fst (fst r) <> TNone /\ fst (fst r) <> TEoln).
Proof.
  induction n as [|n IH]; intros p s H; [lia|]. rewrite lexNext_step. eapply safe_bind; [apply raw_safe|apply suffix_refl|]. intros [[k v] s1] (S1 & L1 & N1 & I1). cbn [fst snd] in *. destruct (isEoln k) eqn:EK.
  - assert (k = TEoln) by (destruct k; try discriminate; reflexivity). subst k. specialize (L1 ltac:(discriminate)). destruct (endsStmt p).
    + cbn. split; [exact S1|]. split; [intros _; exact L1|]. split; discriminate.
    + eapply safe_impl; [exact S1| |apply IH; lia]. cbn. intros [t s2] (S2 & L2 & N2). cbn [fst snd] in *. split; [eapply suffix_trans; eassumption|]. split; [intro HH; specialize (L2 HH); lia|exact N2].
  - cbn. split; [exact S1|]. split; [exact L1|]. split; [exact N1|]. intros ->. discriminate.
Qed.
Lemma int_only prev s v s' : In (peek s) digits10 -> lexNext prev s = Ok ((TIntNumber, VInt v), s') -> int_text s v s' /\ 0 <= v < two64.
Proof.
  intros HD H. assert (D : isDigit (peek s) = true) by (cbn in HD; repeat destruct HD as [<-|HD]; try reflexivity; contradiction). apply int_sound; [exact D|]. rewrite lexNext_step in H. destruct (lexNextWithEOLN s) as [([k v1] & s1)| |] eqn:E; cbn [bind fst snd] in H; try discriminate.
  destruct (isEoln k) eqn:EK; [|congruence]. exfalso. assert (k = TEoln) by (destruct k; try discriminate; reflexivity). subst k. rewrite raw_number in E by exact D. pose proof (number_kind s) as K. unfold lexNumber in E, K. destruct (endsStmt prev); [discriminate|].
  pose proof (number_safe s) as NS. fold (lexNumber s) in E, K. destruct (lexNumber s) as [([k v2] & s2)| |] eqn:EN; cbn [bind] in E; try discriminate. destruct (K (k, v2) s2 eq_refl) as [[K1 K2]|[K1|K1]]; cbn [fst snd] in K1; subst k; cbn [fst isNone] in E; try discriminate.
  clear NS K K2. unfold lexNumber in EN. assert (P46 : peek s2 = 46).
  { destruct (if peek s =? 48 then peek1 s else Ok 0) as [c1| |]; cbn [bind] in EN; try discriminate. set (s3 := if (peek s =? 48) && _ then _ else s) in *. set (base := if (peek s =? 48) && _ then 16 else 10) in *. clearbody s3 base. destruct (peek s3 =? 46) eqn:E3.
    - destruct (peek1 s3) as [c2| |]; cbn [bind] in EN; try discriminate. destruct (lexCharDigit c2 10 =? -1); cbn [andb] in EN; [|exfalso].
      + assert (s2 = s3) by congruence. subst. apply Z.eqb_eq. exact E3.
      + destruct (if negb _ then _ else _) as [(whole & s4)| |]; cbn [bind] in EN; try discriminate. destruct (base =? 10); [|discriminate]. destruct (lexCharIf s4 46) as [dot s5]. destruct (if dot && _ then _ else _) as [((frac & fracLen) & s6)| |]; cbn [bind] in EN; try discriminate.
        destruct (let '(e, s) := lexCharIf s6 101 in if e then (e, s) else lexCharIf s 69) as [e s7]. destruct e; [destruct (lexCharIf s7 45) as [neg s8]; destruct (lexDigitSeq _ 10 false) as [((expon & uu) & s9)| |]; discriminate|]. destruct dot; discriminate.
    - exfalso. cbn [bind andb] in EN. destruct (if negb _ then _ else _) as [(whole & s4)| |]; cbn [bind] in EN; try discriminate. destruct (base =? 10); [|discriminate]. destruct (lexCharIf s4 46) as [dot s5]. destruct (if dot && _ then _ else _) as [((frac & fracLen) & s6)| |]; cbn [bind] in EN; try discriminate.
      destruct (let '(e, s) := lexCharIf s6 101 in if e then (e, s) else lexCharIf s 69) as [e s7]. destruct e; [destruct (lexCharIf s7 45) as [neg s8]; destruct (lexDigitSeq _ 10 false) as [((expon & uu) & s9)| |]; discriminate|]. destruct dot; discriminate. }
  unfold lexOperator in E. rewrite P46 in E. cbn [Z.eqb Pos.eqb] in E. destruct (peek (lexChar s2) =? 46); discriminate.
Qed.
(** Deciding that there is no end mark. *)
Fixpoint no_mark (l : list Z) : bool := match l with c :: r => negb ((c =? 42) && (peek r =? 47)) && no_mark r | [] => true end.
Lemma no_mark_ok l : no_mark l = true -> forall p q, l <> p ++ 42 :: 47 :: q.
Proof.
  intros H p. revert l H. induction p as [|x p IH]; intros l H q E; subst l; [discriminate H|]. cbn [app no_mark] in H. apply andb_true_iff in H as [_ H]. exact (IH _ H q eq_refl).
Qed.
Lemma back_fuel b (r : list Z) : (length b < fuelOf (96%Z :: b ++ 96%Z :: r))%nat.
Proof. unfold fuelOf. cbn [length]. rewrite app_length. lia. Qed.
Lemma digits10_is c : isDigit c = true -> In c digits10.
Proof. unfold isDigit. intro H. assert (D : c = 48 \/ c = 49 \/ c = 50 \/ c = 51 \/ c = 52 \/ c = 53 \/ c = 54 \/ c = 55 \/ c = 56 \/ c = 57) by lia. cbn. intuition auto. Qed.
Lemma no_token s : peek s <> 0 -> ~ is_alnum (peek s) -> ~ In (peek s) ([32; 9; 13; 39; 34; 96]) -> (forall k w r, In (k, w) operators -> s <> w ++ r) -> lexNextWithEOLN s = Err ESyntax.
Proof.
  intros H0 HA HI HN. cbn in HI. assert (L : isLetter (peek s) || isDigit (peek s) = false) by (destruct (isLetter (peek s) || isDigit (peek s)) eqn:E; [exfalso; apply HA, alnum_is, E|reflexivity]). apply orb_false_iff in L as [L1 L2].
  assert (D47 : peek s <> 47). { intro E. apply (HN TDiv [47] (lexChar s)); [cbn; tauto|]. cbn [app]. rewrite <- E. exact (lexChar_cons s H0). }
  apply no_op; try assumption; try (intro E; apply HI; rewrite E; tauto). unfold is_skip. lia.
Qed.
