From Coq Require Import ZArith Lia Bool List ZifyBool.
From Verif Require Import Base LexModel LexSpec.
Import ListNotations.
Local Open Scope list_scope.
Local Open Scope Z_scope.
Ltac Zify.zify_post_hook ::= Z.div_mod_to_equations.

(** * Basics *)
Lemma lexChar_cons s : peek s <> 0 -> s = peek s :: lexChar s.
Proof. destruct s as [|c r]; cbn [peek lexChar]; intro H; [contradiction|]. replace (c =? 0) with false by lia. reflexivity. Qed.
Lemma lexChar_nz c r : c <> 0 -> lexChar (c :: r) = r.
Proof. intro H. cbn. replace (c =? 0) with false by lia. reflexivity. Qed.
Lemma lexChar_z s : peek s = 0 -> lexChar s = s.
Proof. destruct s as [|c r]; cbn; intro H; [reflexivity|]. subst. reflexivity. Qed.
Lemma lexChar_lt s : peek s <> 0 -> (length (lexChar s) < length s)%nat.
Proof. intro H. rewrite (lexChar_cons s H) at 2. cbn. lia. Qed.
Definition suffix (a b : list Z) : Prop := exists p, b = p ++ a.
Lemma suffix_refl a : suffix a a.
Proof. exists []. reflexivity. Qed.
Lemma suffix_trans a b c : suffix a b -> suffix b c -> suffix a c.
Proof. intros [p ->] [q ->]. exists (q ++ p). apply app_assoc. Qed.
Lemma suffix_len a b : suffix a b -> (length a <= length b)%nat.
Proof. intros [p ->]. rewrite app_length. lia. Qed.
Lemma suffix_char s : suffix (lexChar s) s.
Proof. destruct (Z.eq_dec (peek s) 0) as [E|E]; [rewrite (lexChar_z s E); apply suffix_refl|]. exists [peek s]. exact (lexChar_cons s E). Qed.
Lemma lexChar_le s : (length (lexChar s) <= length s)%nat.
Proof. apply suffix_len, suffix_char. Qed.
Lemma suffix_skipn n s : suffix (skipn n s) s.
Proof. exists (firstn n s). symmetry. apply firstn_skipn. Qed.
#[export] Hint Resolve suffix_refl suffix_char suffix_skipn : core.

(** Texts with an escape \x whose number does not fit 32 bits. *)
Definition wide (s : sc) : Prop := exists pre l, s = pre ++ 92 :: 120 :: l /\ sscanfX l = UB.
Lemma wide_suffix a b : suffix a b -> wide a -> wide b.
Proof. intros [p ->] (pre & l & -> & H). exists (p ++ pre), l. split; [apply app_assoc|exact H]. Qed.
Definition safe {A} (s : sc) (o : outcome A) (Q : A -> Prop) : Prop :=
  match o with Ok a => Q a | Err e => e = ESyntax | UB => wide s end.
Lemma safe_bind {A B} s s0 (o : outcome A) (f : A -> outcome B) Q R : safe s0 o Q -> suffix s0 s -> (forall a, Q a -> safe s (f a) R) -> safe s (let* x := o in f x) R.
Proof. destruct o; cbn; intros H1 HS H2; [apply H2, H1|exact H1|eapply wide_suffix; eassumption]. Qed.
Lemma safe_impl {A} s0 s (o : outcome A) (Q R : A -> Prop) : suffix s0 s -> (forall a, Q a -> R a) -> safe s0 o Q -> safe s o R.
Proof. intros HS H. destruct o; cbn; [apply H|exact (fun x => x)|apply wide_suffix, HS]. Qed.

(** * Escapes *)
Lemma skipSpaces_spec l n : exists k, skipSpaces l n = (skipn k l, n + Z.of_nat k) /\ (k <= length l)%nat.
Proof.
  revert n. induction l as [|c r IH]; intro n; [exists O; split; [cbn; f_equal; lia|reflexivity]|]. cbn [skipSpaces]. destruct (isspace c); [|exists O; split; [cbn; f_equal; lia|lia]].
  destruct (IH (n + 1)) as (k & E & Hk). exists (S k). rewrite E. split; [cbn [skipn]; f_equal; lia|cbn; lia].
Qed.
Lemma hexSeq_spec l v n : exists k w, hexSeq l v n = (w, n + Z.of_nat k) /\ (k <= length l)%nat /\ Forall (fun c => hexDigit c <> -1) (firstn k l).
Proof.
  revert v n. induction l as [|c r IH]; intros v n; [exists O, v; split; [cbn; f_equal; lia|split; [reflexivity|constructor]]|]. cbn [hexSeq]. destruct (hexDigit c =? -1) eqn:E; [exists O, v; split; [f_equal; lia|split; [lia|constructor]]|].
  destruct (IH (v * 16 + hexDigit c) (n + 1)) as (k & w & E1 & Hk & HF). exists (S k), w. rewrite E1. split; [f_equal; lia|]. split; [cbn; lia|]. cbn [firstn]. constructor; [lia|exact HF].
Qed.
Lemma hexDigit_nz c : hexDigit c <> -1 -> c <> 0.
Proof. unfold hexDigit. intros H ->. apply H. reflexivity. Qed.
(** The characters converted: the last one is a digit. *)
Lemma skipn_skipn {A} (l : list A) : forall a b, skipn a (skipn b l) = skipn (b + a) l.
Proof. induction l as [|x l IH]; intros a b; [rewrite !skipn_nil; reflexivity|]. destruct b as [|b]; [reflexivity|]. cbn [skipn Nat.add]. apply IH. Qed.
Lemma sscanfX_ok l v m : sscanfX l = Ok (Some (v, m)) -> exists k, m = Z.of_nat (S k) /\ peek (skipn k l) <> 0 /\ 0 <= v < two32.
Proof.
  unfold sscanfX. destruct (skipSpaces_spec l 0) as (k1 & E1 & H1). rewrite E1. set (l1 := skipn k1 l).
  set (q := match l1 with [] => _ | _ => _ end). assert (exists neg k2, q = (neg, skipn k2 l1, 0 + Z.of_nat k1 + Z.of_nat k2)) as (neg & k2 & E2).
  { unfold q. destruct l1 as [|c r]; [exists false, O; apply f_equal2; [reflexivity|cbn; lia]|]. destruct (c =? 45); [exists true, 1%nat; apply f_equal2; [reflexivity|cbn; lia]|]. destruct (c =? 43); [exists false, 1%nat; apply f_equal2; [reflexivity|cbn; lia]|exists false, O; apply f_equal2; [reflexivity|lia]]. }
  rewrite E2. set (l2 := skipn k2 l1). set (q2 := match l2 with [] => _ | _ => _ end). assert (exists k3, q2 = (skipn k3 l2, 0 + Z.of_nat k1 + Z.of_nat k2 + Z.of_nat k3)) as (k3 & E3).
  { unfold q2. destruct l2 as [|c [|d r]]; [exists O; apply f_equal2; [reflexivity|cbn; lia]|exists O; apply f_equal2; [reflexivity|cbn; lia]|]. destruct (_ && _); [exists 2%nat; apply f_equal2; [reflexivity|cbn; lia]|exists O; apply f_equal2; [reflexivity|lia]]. }
  rewrite E3. destruct (hexSeq_spec (skipn k3 l2) 0 (0 + Z.of_nat k1 + Z.of_nat k2 + Z.of_nat k3)) as (k4 & w & E4 & H4 & F4). rewrite E4. destruct (_ =? _) eqn:E5; [discriminate|]. destruct (two32 <=? w) eqn:E6; [discriminate|]. intro H.
  assert (Hk4 : (0 < k4)%nat) by lia. destruct k4 as [|k4]; [lia|]. exists (k1 + k2 + k3 + k4)%nat. split; [assert (EM : m = 0 + Z.of_nat k1 + Z.of_nat k2 + Z.of_nat k3 + Z.of_nat (S k4)) by congruence; clear -EM; lia|]. split.
  - assert (EQ : skipn (k1 + k2 + k3 + k4) l = skipn k4 (skipn k3 l2)). { unfold l2, l1. rewrite !skipn_skipn. f_equal. lia. } rewrite EQ. clear -F4 H4. revert F4 H4. generalize (skipn k3 l2). induction k4 as [|k IH]; intros x F H.
    + destruct x as [|c r]; [cbn in H; lia|]. cbn [firstn] in F. inversion F. cbn. apply hexDigit_nz. assumption.
    + destruct x as [|c r]; [cbn in H; lia|]. cbn [skipn]. apply IH; [|cbn in H; lia]. change (firstn (S (S k)) (c :: r)) with (c :: firstn (S k) r) in F. inversion F. assumption.
  - assert (W : 0 <= w). { assert (HH : forall l v n, 0 <= v -> 0 <= fst (hexSeq l v n)). { clear. induction l as [|c r IH]; intros v n Hv; [exact Hv|]. cbn [hexSeq]. destruct (hexDigit c =? -1) eqn:E; [exact Hv|]. apply IH. assert (0 <= hexDigit c) by (unfold hexDigit in *; destruct ((48 <=? c) && (c <=? 57)) eqn:?; [lia|]; destruct ((97 <=? c) && (c <=? 102)) eqn:?; [lia|]; destruct ((65 <=? c) && (c <=? 70)) eqn:?; lia). lia. }
      specialize (HH (skipn k3 l2) 0 (0 + Z.of_nat k1 + Z.of_nat k2 + Z.of_nat k3) ltac:(lia)). rewrite E4 in HH. exact HH. }
    assert (V : v = if neg then (two32 - w) mod two32 else w) by congruence. subst v. destruct neg; [apply Z.mod_pos_bound; reflexivity|lia].
Qed.
Lemma sscanfX_noerr l e : sscanfX l <> Err e.
Proof.
  unfold sscanfX. destruct (skipSpaces l 0) as [l1 n1]. destruct (match l1 with [] => _ | _ => _ end) as [[neg l2] n2]. destruct (match l2 with [] => _ | _ => _ end) as [l3 n3]. destruct (hexSeq l3 0 n3) as [v m]. destruct (m =? n3); [discriminate|]. destruct (two32 <=? v); discriminate.
Qed.
Lemma esc_safe s : safe s (lexEscChar s) (fun r => let '(c, e, s') := r in suffix s' (lexChar s) /\ (c <> 0 -> peek s' <> 0)).
Proof.
  unfold lexEscChar. destruct (peek (lexChar s) =? 92) eqn:E1; [|cbn; split; [apply suffix_refl|exact (fun x => x)]]. destruct (peek (lexChar (lexChar s)) =? 120) eqn:E2.
  - destruct (sscanfX (lexChar (lexChar (lexChar s)))) as [[(hex & len)|]| |] eqn:E3; cbn [bind].
    + destruct (255 <? hex) eqn:E4; cbn; [reflexivity|]. destruct (sscanfX_ok _ _ _ E3) as (k & -> & Hk & _). replace (Z.to_nat (Z.of_nat (S k) - 1)) with k by lia. split; [|intros _; exact Hk]. eapply suffix_trans; [apply suffix_skipn|]. eapply suffix_trans; apply suffix_char.
    + reflexivity.
    + destruct (sscanfX_noerr _ _ E3).
    + cbn. apply Z.eqb_eq in E1, E2. destruct (suffix_char s) as [p Hp]. exists p, (lexChar (lexChar (lexChar s))). split; [|exact E3]. rewrite Hp at 1. f_equal. rewrite (lexChar_cons (lexChar s)) at 1 by lia. rewrite E1. f_equal. rewrite (lexChar_cons (lexChar (lexChar s))) at 1 by lia. rewrite E2. reflexivity.
  - cbn. split; [apply suffix_char|]. intros H HP. apply H. rewrite HP. reflexivity.
Qed.

(** * Progress *)
Lemma lineLoop_safe n : forall s, (length s < n)%nat -> safe s (lineLoop n s) (fun s' => suffix s' s).
Proof.
  induction n as [|n IH]; intros s H; [lia|]. cbn [lineLoop]. destruct ((peek s =? 0) || (peek s =? 10)) eqn:E; [apply suffix_refl|]. eapply safe_impl; [apply suffix_char| |apply IH].
  - cbn. intros a Ha. eapply suffix_trans; [exact Ha|apply suffix_char].
  - pose proof (lexChar_lt s ltac:(lia)). lia.
Qed.
Lemma single_safe s : safe s (lexSingleLineComment s) (fun s' => suffix s' (lexChar s)).
Proof. unfold lexSingleLineComment. eapply safe_impl; [apply suffix_char|intros a Ha; exact Ha|apply lineLoop_safe; unfold fuelOf; lia]. Qed.
Lemma multiLoop_safe n : forall s, (length s < n)%nat -> safe s (multiLoop n s) (fun s' => suffix s' s).
Proof.
  induction n as [|n IH]; intros s H; [lia|]. cbn [multiLoop]. destruct (peek s =? 0) eqn:E; [apply suffix_refl|]. pose proof (lexChar_lt s ltac:(lia)). destruct (peek s =? 42).
  - destruct (peek (lexChar s) =? 47); [apply suffix_char|]. pose proof (lexChar_le (lexChar s)). eapply safe_impl; [eapply suffix_trans; apply suffix_char| |apply IH; lia]. cbn. intros a Ha. eapply suffix_trans; [exact Ha|]. eapply suffix_trans; apply suffix_char.
  - eapply safe_impl; [apply suffix_char| |apply IH; lia]. cbn. intros a Ha. eapply suffix_trans; [exact Ha|apply suffix_char].
Qed.
Lemma multi_safe s : safe s (lexMultiLineComment s) (fun s' => suffix s' (lexChar s)).
Proof.
  unfold lexMultiLineComment. eapply safe_bind; [apply multiLoop_safe; unfold fuelOf; lia|apply suffix_char|]. cbn. intros a Ha. destruct (peek a =? 0); [reflexivity|]. cbn. eapply suffix_trans; [apply suffix_char|exact Ha].
Qed.
Definition is_skip (c : Z) : bool := (c =? 32) || (c =? 9) || (c =? 13) || (c =? 47).
Lemma spacesLoop_safe n : forall s, (length s < n)%nat -> safe s (spacesLoop n s) (fun s' => suffix s' s).
Proof.
  induction n as [|n IH]; intros s H; [lia|]. cbn [spacesLoop]. fold (is_skip (peek s)). destruct (is_skip (peek s)) eqn:E; cbn [negb]; [|apply suffix_refl]. assert (NZ : peek s <> 0) by (unfold is_skip in E; lia). pose proof (lexChar_lt s NZ). destruct (peek s =? 47).
  - destruct (peek (lexChar s) =? 47); [|destruct (peek (lexChar s) =? 42); [|apply suffix_refl]].
    + eapply safe_bind; [apply single_safe|apply suffix_char|]. cbv beta. intros a Ha. pose proof (suffix_len _ _ Ha). pose proof (lexChar_le (lexChar s)). assert (suffix a s) by (eapply suffix_trans; [exact Ha|eapply suffix_trans; apply suffix_char]). eapply safe_impl; [eassumption| |apply IH; lia]. cbv beta. intros b Hb. eapply suffix_trans; [exact Hb|assumption].
    + eapply safe_bind; [apply multi_safe|apply suffix_char|]. cbv beta. intros a Ha. pose proof (suffix_len _ _ Ha). pose proof (lexChar_le (lexChar s)). assert (suffix a s) by (eapply suffix_trans; [exact Ha|eapply suffix_trans; apply suffix_char]). eapply safe_impl; [eassumption| |apply IH; lia]. cbv beta. intros b Hb. eapply suffix_trans; [exact Hb|assumption].
  - eapply safe_impl; [apply suffix_char| |apply IH; lia]. cbn. intros a Ha. eapply suffix_trans; [exact Ha|apply suffix_char].
Qed.
Lemma spaces_safe s : safe s (lexSpacesAndComments s) (fun s' => suffix s' s).
Proof. apply spacesLoop_safe. unfold fuelOf. lia. Qed.
(** The amount of fuel does not matter. *)
Lemma spacesLoop_fuel n : forall m s, (length s < n)%nat -> (length s < m)%nat -> spacesLoop n s = spacesLoop m s.
Proof.
  induction n as [|n IH]; intros m s Hn Hm; [lia|]. destruct m as [|m]; [lia|]. cbn [spacesLoop]. fold (is_skip (peek s)). destruct (is_skip (peek s)) eqn:E; cbn [negb]; [|reflexivity]. assert (NZ : peek s <> 0) by (unfold is_skip in E; lia). pose proof (lexChar_lt s NZ).
  pose proof (lexChar_le (lexChar s)). destruct (peek s =? 47); [|apply IH; lia]. destruct (peek (lexChar s) =? 47).
  - pose proof (single_safe (lexChar s)) as HS. destruct (lexSingleLineComment (lexChar s)) as [a| |]; cbn [bind]; try reflexivity. cbn in HS. apply suffix_len in HS. apply IH; lia.
  - destruct (peek (lexChar s) =? 42); [|reflexivity]. pose proof (multi_safe (lexChar s)) as HS. destruct (lexMultiLineComment (lexChar s)) as [a| |]; cbn [bind]; try reflexivity. cbn in HS. apply suffix_len in HS. apply IH; lia.
Qed.
Lemma isLetter_nz c : isLetter c = true -> c <> 0.
Proof. intros H ->. discriminate. Qed.
Lemma isDigit_nz c : isDigit c = true -> c <> 0.
Proof. intros H ->. discriminate. Qed.
Lemma identLoop_safe n : forall s name, (length s <= n)%nat -> peek s <> 0 -> Z.of_nat (length name) <= MAX_IDENT_LEN -> safe s (identLoop n s name) (fun r => suffix (snd r) (lexChar s)).
Proof.
  induction n as [|n IH]; intros s name H HP HN; [pose proof (lexChar_lt s HP); lia|]. cbn [identLoop]. replace (MAX_IDENT_LEN <? Z.of_nat (length name)) with false by lia. destruct (MAX_IDENT_LEN <? Z.of_nat (length (name ++ [peek s]))) eqn:E1; [reflexivity|].
  pose proof (lexChar_lt s HP). destruct (isLetter (peek (lexChar s)) || isDigit (peek (lexChar s))) eqn:E2; [|apply suffix_refl]. eapply safe_impl; [apply suffix_char| |apply IH; [lia| |lia]].
  - cbn. intros a Ha. eapply suffix_trans; [exact Ha|apply suffix_char].
  - apply orb_true_iff in E2 as [E2|E2]; [apply isLetter_nz|apply isDigit_nz]; exact E2.
Qed.
Lemma hexDigit_bounds c : hexDigit c = -1 \/ 0 <= hexDigit c < 16.
Proof. unfold hexDigit. destruct ((48 <=? c) && (c <=? 57)) eqn:?; [lia|]. destruct ((97 <=? c) && (c <=? 102)) eqn:?; [lia|]. destruct ((65 <=? c) && (c <=? 70)) eqn:?; lia. Qed.
Lemma cdigit_nz c b : lexCharDigit c b <> -1 -> c <> 0.
Proof. intros H ->. apply H. unfold lexCharDigit. destruct (b =? 10); [reflexivity|]. destruct (b =? 16); reflexivity. Qed.
Lemma digitLoop_safe n : forall s base isFrac v len skip, (length s < n)%nat -> safe s (digitLoop n s base isFrac v len skip) (fun r => suffix (snd r) s).
Proof.
  induction n as [|n IH]; intros s base isFrac v len skip H; [lia|]. cbn [digitLoop]. destruct (lexCharDigit (peek s) base =? -1) eqn:E1; [apply suffix_refl|]. assert (NZ : peek s <> 0) by (eapply cdigit_nz; instantiate (1 := base); lia). pose proof (lexChar_lt s NZ).
  cbv zeta. destruct (_ && negb isFrac); [reflexivity|]. destruct (peek (lexChar s) =? 95) eqn:E2.
  - assert (NZ2 : peek (lexChar s) <> 0) by lia. pose proof (lexChar_cons _ NZ2) as EC. pose proof (lexChar_lt _ NZ2). rewrite EC at 1. cbn [peek1 bind]. destruct (lexCharDigit (peek (lexChar (lexChar s))) base =? -1); [reflexivity|]. eapply safe_impl; [eapply suffix_trans; apply suffix_char| |apply IH; lia].
    cbn. intros a Ha. eapply suffix_trans; [exact Ha|]. eapply suffix_trans; apply suffix_char.
  - eapply safe_impl; [apply suffix_char| |apply IH; lia]. cbn. intros a Ha. eapply suffix_trans; [exact Ha|apply suffix_char].
Qed.
Lemma digitSeq_safe s base isFrac : safe s (lexDigitSeq s base isFrac) (fun r => suffix (snd r) s /\ (length (snd r) < length s)%nat).
Proof.
  unfold lexDigitSeq. destruct (lexCharDigit (peek s) base =? -1) eqn:E1; [reflexivity|]. assert (NZ : peek s <> 0) by (eapply cdigit_nz; instantiate (1 := base); lia). pose proof (lexChar_lt s NZ). unfold fuelOf. cbn [digitLoop]. rewrite E1.
  cbv zeta. destruct (_ && negb isFrac); [reflexivity|]. destruct (peek (lexChar s) =? 95) eqn:E2.
  - assert (NZ2 : peek (lexChar s) <> 0) by lia. pose proof (lexChar_cons _ NZ2) as EC. pose proof (lexChar_lt _ NZ2). rewrite EC at 1. cbn [peek1 bind]. destruct (lexCharDigit (peek (lexChar (lexChar s))) base =? -1); [reflexivity|]. eapply safe_impl; [eapply suffix_trans; apply suffix_char| |apply digitLoop_safe; lia].
    cbn. intros a Ha. split; [eapply suffix_trans; [exact Ha|]; eapply suffix_trans; apply suffix_char|]. apply suffix_len in Ha. lia.
  - eapply safe_impl; [apply suffix_char| |apply digitLoop_safe; lia]. cbn. intros a Ha. split; [eapply suffix_trans; [exact Ha|apply suffix_char]|]. apply suffix_len in Ha. lia.
Qed.
Lemma charIf_suffix s c : suffix (snd (lexCharIf s c)) s.
Proof. unfold lexCharIf. destruct (peek s =? c); [apply suffix_char|apply suffix_refl]. Qed.
Lemma charIf_lt s c : c <> 0 -> fst (lexCharIf s c) = true -> (length (snd (lexCharIf s c)) < length s)%nat.
Proof. unfold lexCharIf. intro H. destruct (peek s =? c) eqn:E; [intros _; apply lexChar_lt; lia|discriminate]. Qed.
Lemma peek1_nz s : peek s <> 0 -> peek1 s = Ok (peek (lexChar s)).
Proof. intro H. rewrite (lexChar_cons s H) at 1. reflexivity. Qed.
(** A number ends after its start unless it is none. *)
Lemma number_safe s : safe s (lexNumber s) (fun r => suffix (snd r) s /\ (fst (fst r) <> TNone -> (length (snd r) < length s)%nat)).
Proof.
  unfold lexNumber. assert (E1 : exists c1, (if peek s =? 48 then peek1 s else Ok 0) = Ok c1) by (destruct (peek s =? 48) eqn:E; [rewrite peek1_nz by lia; eauto|eauto]). destruct E1 as [c1 ->]. cbn [bind].
  set (hex := (peek s =? 48) && _). set (s1 := if hex then _ else s). assert (S1 : suffix s1 s) by (unfold s1; destruct hex; [eapply suffix_trans; [apply charIf_suffix|]; eapply suffix_trans; apply suffix_char|apply suffix_refl]). clearbody s1 hex.
  assert (E2 : exists c2, (if peek s1 =? 46 then peek1 s1 else Ok 0) = Ok c2) by (destruct (peek s1 =? 46) eqn:E; [rewrite peek1_nz by lia; eauto|eauto]). destruct E2 as [c2 ->]. cbn [bind]. destruct ((peek s1 =? 46) && (lexCharDigit c2 10 =? -1)); [cbn; split; [exact S1|congruence]|].
  set (base := if hex then 16 else 10). pose proof (suffix_len _ _ S1) as L1.
  assert (P : safe s1 (if negb ((peek s1 =? 46) && (base =? 10)) then let* (r, s) := lexDigitSeq s1 base false in Ok (fst r, s) else Ok (0, s1))
    (fun r => suffix (snd r) s1 /\ ((length (snd r) < length s1)%nat \/ (peek (snd r) = 46 /\ base = 10)))).
  { destruct ((peek s1 =? 46) && (base =? 10)) eqn:E; cbn [negb]; [cbn; split; [apply suffix_refl|right; lia]|]. eapply safe_bind; [apply digitSeq_safe|apply suffix_refl|]. cbn. intros [[a b] c] [H1 H2]. cbn in *. split; [exact H1|left; exact H2]. }
  eapply safe_bind; [exact P|exact S1|]. intros [whole s2] [S2 L2]. cbn [fst snd] in S2, L2. pose proof (suffix_len _ _ S2) as L2'. destruct (base =? 10) eqn:EB; [|cbn; split; [eapply suffix_trans; eassumption|intros _; lia]].
  pose proof (charIf_suffix s2 46) as S3. pose proof (charIf_lt s2 46 ltac:(lia)) as L3. destruct (lexCharIf s2 46) as [dot s3] eqn:E3. cbn [fst snd] in S3, L3. pose proof (suffix_len _ _ S3) as L3'.
  assert (LT : (length s3 < length s1)%nat). { destruct L2 as [L2|[L2 _]]; [lia|]. unfold lexCharIf in E3. rewrite L2 in E3. injection E3 as <- <-. specialize (L3 eq_refl). lia. }
  assert (S31 : suffix s3 s) by (eapply suffix_trans; [exact S3|eapply suffix_trans; eassumption]).
  assert (P4 : safe s3 (if dot && negb (lexCharDigit (peek s3) 10 =? -1) then lexDigitSeq s3 10 true else Ok (0, 0, s3)) (fun r => suffix (snd r) s3)).
  { destruct (dot && _); [|apply suffix_refl]. eapply safe_impl; [apply suffix_refl| |apply digitSeq_safe]. cbn. intros a [Ha _]. exact Ha. }
  eapply safe_bind; [exact P4|exact S31|]. intros [[frac fracLen] s4] S4. cbn [snd] in S4. pose proof (suffix_len _ _ S4) as L4.
  set (q := let '(e, s) := lexCharIf s4 101 in if e then (e, s) else lexCharIf s 69). assert (S5 : suffix (snd q) s4). { unfold q. pose proof (charIf_suffix s4 101) as Q. destruct (lexCharIf s4 101) as [e s5]. cbn [snd] in Q. destruct e; [exact Q|]. eapply suffix_trans; [apply charIf_suffix|exact Q]. }
  destruct q as [e s5]. cbn [snd] in S5. pose proof (suffix_len _ _ S5) as L5. assert (S51 : suffix s5 s) by (eapply suffix_trans; [exact S5|eapply suffix_trans; eassumption]). destruct e.
  - pose proof (charIf_suffix s5 45) as S6. destruct (lexCharIf s5 45) as [neg s6]. cbn [snd] in S6. set (s7 := if neg then s6 else snd (lexCharIf s6 43)). assert (S7 : suffix s7 s6) by (unfold s7; destruct neg; [apply suffix_refl|apply charIf_suffix]). clearbody s7.
    assert (S71 : suffix s7 s5) by (eapply suffix_trans; eassumption). pose proof (suffix_len _ _ S71). eapply safe_bind; [apply digitSeq_safe|eapply suffix_trans; [exact S71|exact S51]|]. intros [[expon u] s8] [S8 L8]. cbn in *. split; [eapply suffix_trans; [exact S8|eapply suffix_trans; eassumption]|]. intros _. lia.
  - destruct dot; cbn; (split; [exact S51|intros _; lia]).
Qed.
Lemma charLit_safe s : peek s <> 0 -> safe s (lexCharLiteral s) (fun r => suffix (snd r) s /\ (length (snd r) < length s)%nat).
Proof.
  intro NZ. unfold lexCharLiteral. pose proof (lexChar_lt s NZ). eapply safe_bind; [apply esc_safe|apply suffix_refl|]. intros [[c e] s'] [Ha Hb]. cbn. destruct (peek (lexChar s') =? 39); [|reflexivity]. cbn.
  assert (suffix (lexChar (lexChar s')) (lexChar s)) by (eapply suffix_trans; [eapply suffix_trans; apply suffix_char|exact Ha]). split; [eapply suffix_trans; [eassumption|apply suffix_char]|]. apply suffix_len in H0. lia.
Qed.
(** ** String literals: what the two passes have in common. *)
Fixpoint singleD (n : nat) (c : Z) (escaped : bool) (s : sc) : outcome (list Z * sc) :=
  match n with
  | O => Err EFuel
  | S n =>
      if negb (c =? 34) || escaped then
        if ((c =? 0) || (c =? 10)) && negb escaped then Err ESyntax
        else if c =? 0 then Err ESyntax
        else let* (r, s) := lexEscChar s in let* (l, s) := singleD n (fst r) (snd r) s in Ok (c :: l, s)
      else Ok ([], lexChar s)
  end.
Fixpoint backD (n : nat) (s : sc) : outcome (list Z * sc) :=
  match n with
  | O => Err EFuel
  | S n =>
      if peek s =? 96 then Ok ([], lexChar s)
      else if peek s =? 0 then Err ESyntax
      else if peek s =? 13 then backD n (lexChar s)
      else let* (l, s') := backD n (lexChar s) in Ok (peek s :: l, s')
  end.
Definition strD (s : sc) : outcome (list Z * sc) :=
  if peek s =? 34 then let* (r, s1) := lexEscChar s in singleD (fuelOf s) (fst r) (snd r) s1 else backD (fuelOf s) (lexChar s).
Lemma put_ok pre x buf c : put (Some (pre ++ x :: buf)) (Z.of_nat (length pre)) c = Ok (Some ((pre ++ [c]) ++ buf)).
Proof.
  unfold put. rewrite app_length. cbn [length]. replace (_ && _) with true by lia. rewrite Nat2Z.id, firstn_app, firstn_all, Nat.sub_diag. cbn [firstn]. rewrite app_nil_r. do 2 f_equal. rewrite <- app_assoc. cbn [app]. do 2 f_equal.
  replace (Z.to_nat (Z.of_nat (length pre) + 1)) with (length pre + 1)%nat by lia. rewrite skipn_app. replace (length pre + 1 - length pre)%nat with 1%nat by lia. rewrite skipn_all2 by lia. reflexivity.
Qed.
Lemma single_none n : forall size c e s, singleLoop n None size c e s = fmap (fun p : list Z * sc => (None, size + Z.of_nat (length (fst p)) + 1, snd p)) (singleD n c e s).
Proof.
  induction n as [|n IH]; intros size c e s; [reflexivity|]. cbn [singleLoop singleD]. destruct (negb (c =? 34) || e); [|cbn; do 2 f_equal; f_equal; lia]. destruct (_ && _); [reflexivity|]. destruct (c =? 0); [reflexivity|]. cbn [put bind].
  destruct (lexEscChar s) as [(r & s')| |]; cbn [bind]; try reflexivity. rewrite IH. destruct (singleD n (fst r) (snd r) s') as [(l & s2)| |]; cbn; try reflexivity. do 2 f_equal; try reflexivity. f_equal. lia.
Qed.
Lemma single_some n : forall pre buf c e s, (match singleD n c e s with Ok (l, _) => length l < length buf | _ => True end)%nat -> forall l s', singleD n c e s = Ok (l, s') ->
  exists k, singleLoop n (Some (pre ++ buf)) (Z.of_nat (length pre)) c e s = Ok (Some (pre ++ l ++ [0] ++ skipn (S (length l)) buf), k, s').
Proof.
  induction n as [|n IH]; intros pre buf c e s HL l s' H; [discriminate|]. rewrite H in HL. cbn [singleLoop singleD] in *. destruct (negb (c =? 34) || e).
  - destruct (_ && _); [discriminate|]. destruct (c =? 0); [discriminate|]. destruct buf as [|x buf]; [cbn in HL; lia|]. rewrite put_ok. cbn [bind]. destruct (lexEscChar s) as [(r & s1)| |]; cbn [bind] in *; try discriminate.
    destruct (singleD n (fst r) (snd r) s1) as [(l2 & s2)| |] eqn:E2; cbn [bind] in H; try discriminate. injection H as <- <-. destruct (IH (pre ++ [c]) buf (fst r) (snd r) s1) with (l := l2) (s' := s2) as (k & E); [rewrite E2; cbn in HL; lia|exact E2|].
    rewrite app_length in E. cbn [length] in E. replace (Z.of_nat (length pre) + 1) with (Z.of_nat (length pre + 1)) by lia. exists k. rewrite E. cbn [app length skipn]. rewrite <- app_assoc. reflexivity.
  - injection H as <- <-. destruct buf as [|x buf]; [cbn in HL; lia|]. rewrite put_ok. cbn [bind]. eexists. cbn [app length skipn]. rewrite <- app_assoc. reflexivity.
Qed.
Lemma back_none n : forall size s, backLoop n None size s = fmap (fun p : list Z * sc => (None, size + Z.of_nat (length (fst p)) + 1, snd p)) (backD n s).
Proof.
  induction n as [|n IH]; intros size s; [reflexivity|]. cbn [backLoop backD]. destruct (peek s =? 96); [cbn; do 2 f_equal; f_equal; lia|]. destruct (peek s =? 0); [reflexivity|]. destruct (peek s =? 13); [apply IH|]. cbn [put bind]. rewrite IH.
  destruct (backD n (lexChar s)) as [(l & s2)| |]; cbn; try reflexivity. do 2 f_equal; try reflexivity. f_equal. lia.
Qed.
Lemma back_some n : forall pre buf s l s', backD n s = Ok (l, s') -> (length l < length buf)%nat ->
  exists k, backLoop n (Some (pre ++ buf)) (Z.of_nat (length pre)) s = Ok (Some (pre ++ l ++ [0] ++ skipn (S (length l)) buf), k, s').
Proof.
  induction n as [|n IH]; intros pre buf s l s' H HL; [discriminate|]. cbn [backLoop backD] in *. destruct (peek s =? 96).
  - injection H as <- <-. destruct buf as [|x buf]; [cbn in HL; lia|]. rewrite put_ok. cbn [bind]. eexists. cbn [app length skipn]. rewrite <- app_assoc. reflexivity.
  - destruct (peek s =? 0); [discriminate|]. destruct (peek s =? 13); [apply IH; assumption|]. destruct (backD n (lexChar s)) as [(l2 & s2)| |] eqn:E2; cbn [bind] in H; try discriminate. injection H as <- <-. destruct buf as [|x buf]; [cbn in HL; lia|]. rewrite put_ok. cbn [bind].
    destruct (IH (pre ++ [peek s]) buf (lexChar s) l2 s2 E2 ltac:(cbn in HL; lia)) as (k & E). rewrite app_length in E. cbn [length] in E. replace (Z.of_nat (length pre) + 1) with (Z.of_nat (length pre + 1)) by lia. exists k. rewrite E. cbn [app length skipn]. rewrite <- app_assoc. reflexivity.
Qed.
(** The filling pass writes exactly the buffer made by the sizing pass. *)
Lemma str_thm s : lexStrLiteral s = fmap (fun p : list Z * sc => ((TStrLiteral, VStr (fst p ++ [0])), snd p)) (strD s).
Proof.
  assert (G : forall l s', strD s = Ok (l, s') -> exists k, lexStrLiteralAndGetSize (Some (repeat 0 (Z.to_nat (Z.of_nat (length l) + 1)))) s = Ok (Some (l ++ [0]), k, s')).
  { intros l s' H. unfold strD, lexStrLiteralAndGetSize in *. replace (Z.to_nat (Z.of_nat (length l) + 1)) with (S (length l)) by lia. set (buf := repeat 0 (S (length l))). assert (HB : length buf = S (length l)) by apply repeat_length.
    assert (HK : skipn (S (length l)) buf = []) by (apply skipn_all2; lia). destruct (peek s =? 34).
    - destruct (lexEscChar s) as [(r & s1)| |]; cbn [bind] in *; try discriminate. destruct (single_some (fuelOf s) [] buf (fst r) (snd r) s1) with (l := l) (s' := s') as (k & E); [rewrite H; lia|exact H|]. cbn [app length] in E. change (Z.of_nat 0) with 0 in E. exists k. rewrite E, HK. reflexivity.
    - destruct (back_some (fuelOf s) [] buf (lexChar s) l s' H ltac:(lia)) as (k & E). cbn [app length] in E. change (Z.of_nat 0) with 0 in E. exists k. rewrite E, HK. reflexivity. }
  unfold lexStrLiteral. assert (N : lexStrLiteralAndGetSize None s = fmap (fun p : list Z * sc => (None, Z.of_nat (length (fst p)) + 1, snd p)) (strD s)).
  { unfold lexStrLiteralAndGetSize, strD. destruct (peek s =? 34); [|apply back_none]. destruct (lexEscChar s) as [(r & s1)| |]; cbn [bind fmap]; try reflexivity. apply single_none. }
  rewrite N. destruct (strD s) as [(l & s')| |] eqn:E; cbn [fmap bind fst snd]; try reflexivity. destruct (G l s' eq_refl) as (k & ->). reflexivity.
Qed.
Lemma singleD_safe n : forall c e s, (length s < n)%nat -> (c <> 0 -> peek s <> 0) -> safe s (singleD n c e s) (fun r => suffix (snd r) (lexChar s)).
Proof.
  induction n as [|n IH]; intros c e s H HC; [lia|]. cbn [singleD]. destruct (negb (c =? 34) || e); [|apply suffix_refl]. destruct (_ && _); [reflexivity|]. destruct (c =? 0) eqn:E; [reflexivity|]. pose proof (lexChar_lt s (HC ltac:(lia))).
  eapply safe_bind; [apply esc_safe|apply suffix_refl|]. intros [[c1 e1] s1] [Ha Hb]. cbn [fst snd]. pose proof (suffix_len _ _ Ha). eapply safe_bind; [apply IH; [lia|exact Hb]|eapply suffix_trans; [exact Ha|apply suffix_char]|]. cbn. intros [l s2] Hs. cbn [snd] in *. eapply suffix_trans; [exact Hs|]. eapply suffix_trans; [apply suffix_char|exact Ha].
Qed.
Lemma backD_safe n : forall s, (length s < n)%nat -> safe s (backD n s) (fun r => suffix (snd r) s).
Proof.
  induction n as [|n IH]; intros s H; [lia|]. cbn [backD]. destruct (peek s =? 96); [apply suffix_char|]. destruct (peek s =? 0) eqn:E; [reflexivity|]. pose proof (lexChar_lt s ltac:(lia)). destruct (peek s =? 13).
  - eapply safe_impl; [apply suffix_char| |apply IH; lia]. cbn. intros a Ha. eapply suffix_trans; [exact Ha|apply suffix_char].
  - eapply safe_bind; [apply IH; lia|apply suffix_char|]. cbn. intros [l a] Ha. cbn [snd] in *. eapply suffix_trans; [exact Ha|apply suffix_char].
Qed.
Lemma strD_safe s : peek s <> 0 -> safe s (strD s) (fun r => suffix (snd r) s /\ (length (snd r) < length s)%nat).
Proof.
  intro NZ. pose proof (lexChar_lt s NZ). unfold strD. destruct (peek s =? 34).
  - eapply safe_bind; [apply esc_safe|apply suffix_refl|]. intros [[c1 e1] s1] [Ha Hb]. cbn [fst snd]. pose proof (suffix_len _ _ Ha). eapply safe_impl; [eapply suffix_trans; [exact Ha|apply suffix_char]| |apply singleD_safe; [unfold fuelOf; lia|exact Hb]].
    intros r Hr. assert (suffix (snd r) (lexChar s)) by (eapply suffix_trans; [exact Hr|eapply suffix_trans; [apply suffix_char|exact Ha]]). split; [eapply suffix_trans; [eassumption|apply suffix_char]|]. apply suffix_len in H1. lia.
  - eapply safe_impl; [apply suffix_char| |apply backD_safe; unfold fuelOf; lia]. intros r Hr. split; [eapply suffix_trans; [exact Hr|apply suffix_char]|]. apply suffix_len in Hr. lia.
Qed.
Lemma operator_ok s : suffix (snd (lexOperator s)) s /\ (fst (lexOperator s) <> TNone -> (length (snd (lexOperator s)) < length s)%nat) /\ (fst (lexOperator s) = TNone -> snd (lexOperator s) = s) /\ fst (lexOperator s) <> TEof.
Proof.
  assert (Q : forall r, suffix r (lexChar s) -> peek s <> 0 -> suffix r s /\ (length r < length s)%nat). { intros r Hr NZ. split; [eapply suffix_trans; [exact Hr|apply suffix_char]|]. apply suffix_len in Hr. pose proof (lexChar_lt s NZ). lia. }
  assert (R : forall r k, suffix r (lexChar s) -> peek s <> 0 -> k <> TNone -> k <> TEof -> suffix r s /\ (k <> TNone -> (length r < length s)%nat) /\ (k = TNone -> r = s) /\ k <> TEof). { intros r k H1 H2 H3 H4. destruct (Q r H1 H2). repeat split; try assumption; intros; [assumption|contradiction]. }
  unfold lexOperator, opShift, opEq2, opEq. cbv zeta.
  repeat match goal with |- context [if peek s =? ?k then _ else _] => destruct (peek s =? k) eqn:?E; [repeat match goal with |- context [if peek ?x =? ?y then _ else _] => destruct (peek x =? y) end; cbn [fst snd]; (apply R; [eauto using suffix_trans|lia|discriminate|discriminate])|] end.
  cbn. split; [apply suffix_refl|]. split; [congruence|]. split; [reflexivity|discriminate].
Qed.
Lemma number_kind s t s' : lexNumber s = Ok (t, s') -> (fst t = TNone /\ snd t = VNothing) \/ fst t = TIntNumber \/ fst t = TRealNumber.
Proof.
  unfold lexNumber. destruct (if peek s =? 48 then peek1 s else Ok 0) as [c1| |]; cbn [bind]; try discriminate. set (s1 := if (peek s =? 48) && _ then _ else s). set (base := if (peek s =? 48) && _ then 16 else 10). clearbody s1 base.
  destruct (if peek s1 =? 46 then peek1 s1 else Ok 0) as [c2| |]; cbn [bind]; try discriminate. destruct (_ && (lexCharDigit c2 10 =? -1)); [intro H; assert (t = (TNone, VNothing)) by congruence; subst t; auto|].
  destruct (if negb _ then _ else _) as [(whole & s2)| |]; cbn [bind]; try discriminate. destruct (base =? 10); [|intro H; assert (t = (TIntNumber, VInt whole)) by congruence; subst t; auto]. destruct (lexCharIf s2 46) as [dot s3].
  destruct (if dot && _ then _ else _) as [((frac & fracLen) & s4)| |]; cbn [bind]; try discriminate. destruct (let '(e, s) := lexCharIf s4 101 in if e then (e, s) else lexCharIf s 69) as [e s5]. destruct e.
  - destruct (lexCharIf s5 45) as [neg s6]. destruct (lexDigitSeq _ 10 false) as [((expon & u) & s8)| |]; cbn [bind]; try discriminate. intro H. assert (t = (TRealNumber, VReal whole frac fracLen expon neg)) by congruence. subst t. auto.
  - destruct dot; intro H; [assert (t = (TRealNumber, VReal whole frac fracLen 0 false)) by congruence|assert (t = (TIntNumber, VInt whole)) by congruence]; subst t; auto.
Qed.
Lemma raw_safe s : safe s (lexNextWithEOLN s) (fun r => suffix (snd r) s /\ (fst (fst r) <> TEof -> (length (snd r) < length s)%nat) /\ fst (fst r) <> TNone /\ fst (fst r) <> TImplicitSemicolon).
Proof.
  unfold lexNextWithEOLN. eapply safe_bind; [apply spaces_safe|apply suffix_refl|]. intros s1 S1. cbv beta in S1. pose proof (suffix_len _ _ S1) as L1. cbv zeta.
  set (o := if isLetter (peek s1) then _ else _). assert (P : safe s1 o (fun r => suffix (snd r) s1 /\ (fst (fst r) <> TNone -> (length (snd r) < length s1)%nat) /\ fst (fst r) <> TImplicitSemicolon /\ fst (fst r) <> TEof)).
  { unfold o. destruct (isLetter (peek s1)) eqn:E1; [|destruct (isDigit (peek s1) || (peek s1 =? 46)); [|destruct (peek s1 =? 39) eqn:E2; [|destruct ((peek s1 =? 34) || (peek s1 =? 96)) eqn:E3]]].
    - unfold lexKeywordOrIdent. eapply safe_bind; [apply identLoop_safe; [unfold fuelOf; lia|apply isLetter_nz; exact E1|cbn; unfold MAX_IDENT_LEN; lia]|apply suffix_refl|]. intros [name s2] Hs. cbn [safe fst snd] in *. pose proof (lexChar_lt s1 (isLetter_nz _ E1)). split; [eapply suffix_trans; [exact Hs|apply suffix_char]|]. apply suffix_len in Hs. split; [lia|].
      unfold keywords. cbn [findKeyword]. repeat match goal with |- context [if ?b then _ else _] => destruct b; [split; discriminate|] end. split; discriminate.
    - pose proof (number_safe s1) as H. pose proof (number_kind s1) as K. destruct (lexNumber s1) as [(t & s2)| |]; cbn [safe fst snd] in *; try exact H. destruct H as [H1 H2]. split; [exact H1|]. split; [exact H2|]. destruct (K t s2 eq_refl) as [[K' _]|[K'|K']]; rewrite K'; split; discriminate.
    - pose proof (charLit_safe s1 ltac:(lia)) as H. unfold lexCharLiteral in *. destruct (lexEscChar s1) as [(r & s2)| |]; cbn [bind safe] in *; try exact H. destruct (peek (lexChar s2) =? 39); cbn [safe fst snd] in *; [|exact H]. destruct H as [H1 H2]. split; [exact H1|]. split; [intros _; exact H2|]. split; discriminate.
    - rewrite str_thm. pose proof (strD_safe s1 ltac:(lia)) as H. destruct (strD s1) as [(l & s2)| |]; cbn [fmap safe fst snd] in *; try exact H. destruct H as [H1 H2]. split; [exact H1|]. split; [intros _; exact H2|]. split; discriminate.
    - cbn. split; [apply suffix_refl|]. split; [congruence|]. split; discriminate. }
  eapply safe_bind; [exact P|exact S1|]. intros [[k v] s2] (S2 & L2 & I2 & F2). cbn [fst snd] in *. destruct (isNone k) eqn:EN.
  - destruct (operator_ok s2) as (S3 & L3 & N3 & F3). assert (I3 : fst (lexOperator s2) <> TImplicitSemicolon). { unfold lexOperator, opShift, opEq2, opEq. cbv zeta. repeat match goal with |- context [if ?b then _ else _] => destruct b; try discriminate end. }
    destruct (lexOperator s2) as [k3 s3]. cbn [fst snd] in *. assert (S31 : suffix s3 s) by (eapply suffix_trans; [exact S3|eapply suffix_trans; eassumption]). apply suffix_len in S2. destruct (isNone k3) eqn:EN3.
    + assert (k3 = TNone) by (destruct k3; try discriminate; reflexivity). subst k3. destruct (peek s3 =? 0); [|reflexivity]. cbn. split; [exact S31|]. split; [congruence|]. split; discriminate.
    + assert (k3 <> TNone) by (intros ->; discriminate). cbn. split; [exact S31|]. split; [intros _; specialize (L3 H); lia|]. split; assumption.
  - cbn [fst]. rewrite EN. assert (k <> TNone) by (intros ->; discriminate). cbn. split; [eapply suffix_trans; eassumption|]. split; [intros _; specialize (L2 H); lia|]. split; assumption.
Qed.

(** * Token streams *)
Lemma nextLoop_fuel n : forall m p s, (length s < n)%nat -> (length s < m)%nat -> nextLoop n p s = nextLoop m p s.
Proof.
  induction n as [|n IH]; intros m p s Hn Hm; [lia|]. destruct m as [|m]; [lia|]. cbn [nextLoop]. pose proof (raw_safe s) as H. destruct (lexNextWithEOLN s) as [((k & v) & s1)| |]; cbn [bind safe fst snd] in *; try reflexivity.
  destruct (isEoln k && endsStmt p) eqn:E; cbn [fst]; [reflexivity|]. destruct (isEoln k) eqn:E2; [|reflexivity]. destruct H as (_ & HL & _). assert (k <> TEof) by (intros ->; discriminate). specialize (HL H). apply IH; lia.
Qed.
(** One step of [lexNext]. *)
Lemma lexNext_step p s : lexNext p s = let* (t, s1) := lexNextWithEOLN s in
  if isEoln (fst t) then (if endsStmt p then Ok ((TImplicitSemicolon, snd t), s1) else lexNext TEoln s1) else Ok (t, s1).
Proof.
  unfold lexNext at 1. unfold fuelOf. cbn [nextLoop]. pose proof (raw_safe s) as H. destruct (lexNextWithEOLN s) as [((k & v) & s1)| |]; cbn [bind safe fst snd] in *; try reflexivity. destruct (isEoln k) eqn:E2; cbn [andb]; [|cbn [fst]; rewrite E2; reflexivity].
  destruct (endsStmt p); [reflexivity|]. cbn [fst]. rewrite E2. assert (k = TEoln) by (destruct k; try discriminate; reflexivity). subst k. destruct H as (_ & HL & _). specialize (HL ltac:(discriminate)). apply nextLoop_fuel; unfold fuelOf; lia.
Qed.
Lemma endsStmt_spec p : endsStmt p = true <-> In p ends_statement.
Proof. unfold ends_statement. destruct p; cbn; split; intro H; try discriminate; try reflexivity; try tauto; repeat destruct H as [H|H]; try discriminate; contradiction. Qed.
Lemma raw_fun s l : raw s l -> forall l', raw s l' -> l' = l.
Proof. induction 1 as [s v s' E|s t s' l E NE HR IH]; intros l' H'; inversion H' as [? v2 s2 E2|? t2 s2 l2 E2 NE2 HR2]; subst; rewrite E in E2; injection E2; intros; subst; cbn in *; try congruence. rewrite (IH _ HR2). reflexivity. Qed.
(** The parser's tokens are those of the text, with its line ends replaced. *)
Lemma semi_thm s l : raw s l -> forall p, exists r, cooked p s r /\ semicolons p l r.
Proof.
  induction 1 as [s v s' E|s [k v] s' l E NE HR IH]; intro p.
  - exists [(TEof, v)]. split; [apply cooked_eof with s'; rewrite lexNext_step, E; reflexivity|]. apply semi_other; [discriminate|constructor].
  - destruct (isEoln k) eqn:EK.
    + assert (k = TEoln) by (destruct k; try discriminate; reflexivity). subst k. destruct (endsStmt p) eqn:EP.
      * destruct (IH TImplicitSemicolon) as (r & C & S). exists ((TImplicitSemicolon, v) :: r). split; [apply cooked_cons with s'; [rewrite lexNext_step, E; cbn; rewrite EP; reflexivity|discriminate|exact C]|]. constructor; [apply endsStmt_spec; exact EP|exact S].
      * destruct (IH TEoln) as (r & C & S). exists r. split; [|constructor; [rewrite <- endsStmt_spec, EP; discriminate|exact S]]. assert (EQ : lexNext p s = lexNext TEoln s') by (rewrite lexNext_step, E; cbn; rewrite EP; reflexivity).
        inversion C; subst; [eapply cooked_eof|eapply cooked_cons]; try eassumption; rewrite EQ; eassumption.
    + destruct (IH k) as (r & C & S). exists ((k, v) :: r). split; [apply cooked_cons with s'; [rewrite lexNext_step, E; cbn [bind fst]; rewrite EK; reflexivity|exact NE|exact C]|]. apply semi_other; [cbn; intros ->; discriminate|exact S].
Qed.
Lemma cooked_fun p s l : cooked p s l -> forall l', cooked p s l' -> l' = l.
Proof. induction 1 as [p s v s' E|p s t s' l E NE HR IH]; intros l' H'; inversion H' as [? ? v2 s2 E2|? ? t2 s2 l2 E2 NE2 HR2]; subst; rewrite E in E2; injection E2; intros; subst; cbn in *; try congruence. rewrite (IH _ HR2). reflexivity. Qed.
(** Every text has a finite stream of tokens, an error or a wide escape. *)
Lemma raw_total n : forall s, (length s < n)%nat -> (exists l, raw s l /\ (length l <= n)%nat) \/ (exists s', suffix s' s /\ lexNextWithEOLN s' = Err ESyntax) \/ wide s.
Proof.
  induction n as [|n IH]; intros s H; [lia|]. pose proof (raw_safe s) as HS. destruct (lexNextWithEOLN s) as [((k & v) & s1)|e|] eqn:E; cbn [safe fst snd] in HS.
  - destruct HS as (S1 & L1 & _). assert (D : k = TEof \/ k <> TEof) by (destruct k; (left; reflexivity) || (right; discriminate)). destruct D as [->|D].
    + left. exists [(TEof, v)]. split; [eapply raw_eof; exact E|cbn; lia].
    + destruct (IH s1) as [(l & R & HL)|[(s' & S' & E')|W]]; [specialize (L1 D); lia| | |].
      * left. exists ((k, v) :: l). split; [eapply raw_cons; [exact E|exact D|exact R]|cbn; lia].
      * right. left. exists s'. split; [eapply suffix_trans; eassumption|exact E'].
      * right. right. eapply wide_suffix; eassumption.
  - right. left. exists s. subst e. split; [apply suffix_refl|exact E].
  - right. right. exact HS.
Qed.
