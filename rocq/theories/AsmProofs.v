(** The assembly listing: both passes write the same text. *)
From Coq Require Import ZArith Lia Bool List Ascii String.
From Verif Require Import Base AsmModel AsmSpec.
Import ListNotations.
Local Open Scope Z_scope.

Lemma len_app a b : len (a ++ b) = len a + len b.
Proof. unfold len. rewrite app_length. lia. Qed.
Lemma len_nonneg a : 0 <= len a. Proof. unfold len. lia. Qed.
Lemma len_nil : len [] = 0. Proof. reflexivity. Qed.

(** * Marks *)
Lemma nth_setAt l : forall n m, nth m (setAt l n) false = true <->
  (nth m l false = true \/ (m = n /\ (n < List.length l)%nat)).
Proof.
  induction l as [|b l IH]; intros n m; cbn [setAt List.length].
  - destruct m; cbn; split; intros; try discriminate; destruct H as [H|H]; try discriminate; lia.
  - destruct n as [|n]; destruct m as [|m]; cbn [nth].
    + split; auto. intros _. right. lia.
    + split; [auto|intros [H|H]; [auto|lia]].
    + split; [auto|intros [H|H]; [auto|lia]].
    + rewrite IH. split; intros [H|H]; auto; right; lia.
Qed.
Lemma length_setAt l : forall n, List.length (setAt l n) = List.length l.
Proof. induction l; intros [|n]; cbn; auto. Qed.

Lemma isJump_jump i : isJump (op i) = true <-> jump i.
Proof.
  unfold jump. split.
  - destruct (op i); cbn; try discriminate; tauto.
  - intros [<-|[<-|[<-|[]]]]; reflexivity.
Qed.
Lemma isHalt_halt o : isHalt o = true <-> o = P_HALT.
Proof. destruct o; cbn; split; congruence. Qed.

Lemma live_0 c : live c 0. Proof. intros k i H. lia. Qed.
Lemma live_S i c k : op i <> P_HALT -> live c k -> live (i :: c) (S k).
Proof. intros N L [|m] j H E; [injection E as <-; auto|]. eapply L; [|exact E]. lia. Qed.
Lemma live_S_inv i c k : live (i :: c) (S k) -> op i <> P_HALT /\ live c k.
Proof.
  intros L. split; [apply (L 0%nat); [lia|reflexivity]|].
  intros m j H E. apply (L (S m) j); [lia|exact E].
Qed.

Lemma marks_ok cap c : forall ip from to,
  (exists i, In i c /\ op i = P_HALT) ->
  (forall i, In i c -> jump i -> 0 <= intVal i <= Z.of_nat cap) ->
  List.length from = (cap + 1)%nat -> List.length to = (cap + 1)%nat ->
  (ip + List.length c <= cap)%nat ->
  exists from' to', marks cap c ip from to = Ok (from', to') /\
    List.length from' = (cap + 1)%nat /\ List.length to' = (cap + 1)%nat /\
    (forall n, nth n from' false = true <->
       (nth n from false = true \/
        exists k i, nth_error c k = Some i /\ live c k /\ jump i /\ n = (ip + k)%nat)) /\
    (forall n, nth n to' false = true <->
       (nth n to false = true \/
        exists k i, nth_error c k = Some i /\ live c k /\ jump i /\ intVal i = Z.of_nat n)).
Proof.
  induction c as [|i c IH]; intros ip from to (h & Hh & Hop) HJ Lf Lt HL; [destruct Hh|].
  cbn [marks].
  assert (E : exists f t,
    (if isJump (op i)
     then if (intVal i <? 0) || (Z.of_nat cap <? intVal i) then UB
          else Ok (setAt from ip, setAt to (Z.to_nat (intVal i)))
     else Ok (from, to)) = Ok (f, t) /\ List.length f = (cap + 1)%nat /\ List.length t = (cap + 1)%nat /\
     (forall n, nth n f false = true <-> (nth n from false = true \/ (jump i /\ n = ip))) /\
     (forall n, nth n t false = true <-> (nth n to false = true \/ (jump i /\ intVal i = Z.of_nat n)))).
  { destruct (isJump (op i)) eqn:J.
    - apply isJump_jump in J. pose proof (HJ i (or_introl eq_refl) J) as B.
      replace ((intVal i <? 0) || (Z.of_nat cap <? intVal i)) with false by lia.
      do 2 eexists. split; [reflexivity|]. rewrite !length_setAt. do 2 (split; auto).
      cbn [List.length] in HL.
      split; intros n; rewrite nth_setAt; split; intros [H|H]; auto; right.
      + tauto.
      + split; [tauto|lia].
      + split; [auto|lia].
      + lia.
    - do 2 eexists. split; [reflexivity|]. do 2 (split; auto).
      assert (~ jump i) by (rewrite <- isJump_jump; congruence).
      split; intros n; tauto. }
  destruct E as (f & t & -> & Lf' & Lt' & Ef & Et). cbn [bind fst snd].
  destruct (isHalt (op i)) eqn:HH.
  - apply isHalt_halt in HH. exists f, t. split; auto. do 2 (split; auto).
    assert (NJ : ~ jump i) by (unfold jump; rewrite HH; cbn; intuition discriminate).
    split; intros n; rewrite ?Ef, ?Et; split; intros [H|H]; auto; try tauto.
    + destruct H as ([|k] & j & E & L & J & _); [injection E as <-; tauto|].
      apply live_S_inv in L. tauto.
    + destruct H as ([|k] & j & E & L & J & _); [injection E as <-; tauto|].
      apply live_S_inv in L. tauto.
  - assert (NH : op i <> P_HALT) by (rewrite <- isHalt_halt; congruence).
    destruct Hh as [<-|Hh]; [contradiction|].
    destruct (IH (S ip) f t) as (f' & t' & -> & Lf2 & Lt2 & Ef2 & Et2); eauto.
    { intros j Hj. apply HJ. right. exact Hj. }
    { cbn [List.length] in HL. lia. }
    exists f', t'. split; auto. do 2 (split; auto).
    split; intros n; rewrite ?Ef2, ?Et2, ?Ef, ?Et; split.
    + intros [[H|[J ->]]|(k & j & E & L & J & ->)]; auto; right.
      * exists 0%nat, i. repeat split; auto. apply live_0. 
      * exists (S k), j. repeat split; auto; [now apply live_S|lia].
    + intros [H|([|k] & j & E & L & J & ->)]; auto.
      * injection E as <-. left. right. split; auto; lia.
      * apply live_S_inv in L. right. exists k, j. repeat split; auto; try tauto; lia.
    + intros [[H|[J V]]|(k & j & E & L & J & V)]; auto; right.
      * exists 0%nat, i. repeat split; auto. apply live_0.
      * exists (S k), j. repeat split; auto. now apply live_S.
    + intros [H|([|k] & j & E & L & J & V)]; auto.
      * injection E as <-. left. right. auto.
      * apply live_S_inv in L. right. exists k, j. repeat split; auto; tauto.
Qed.

(** * Lines *)
Lemma rightIn_pad w c s t : rightIn w c s t <-> t = padLeft c w s.
Proof.
  unfold rightIn, padLeft. split.
  - intros (pad & -> & F & L). f_equal. rewrite app_length in L.
    assert (List.length pad = w - List.length s)%nat as <- by lia.
    clear L. induction F as [|x pad <- F IH]; cbn; [reflexivity|]. now f_equal.
  - intros ->. exists (repeat c (w - List.length s)). split; auto. split.
    + apply Forall_forall. intros x H. apply repeat_spec in H. auto.
    + rewrite app_length, repeat_length. lia.
Qed.

Lemma spell_at fmtPtr l p s : atAddress fmtPtr p l s <-> s = spellByPtr fmtPtr l p.
Proof.
  split.
  - induction 1 as [|i l G A|i l s D H IH]; cbn [spellByPtr]; auto.
    + rewrite G, A, Z.eqb_refl. reflexivity.
    + destruct D as [->|D]; [exact IH|].
      destruct (Z.eqb_spec p (addr i)); [congruence|]. rewrite andb_false_r. exact IH.
  - intros ->. induction l as [|i l IH]; cbn [spellByPtr]; [constructor|].
    destruct (isGlobal i) eqn:G; cbn [andb].
    + destruct (Z.eqb_spec p (addr i)); [apply aa_here|apply aa_next]; auto.
    + apply aa_next; auto.
Qed.

Lemma opName_entry o : entry opcodeSpelling (Z.of_nat (opIndex o)) = Ok (lit (opName o)) /\
  firstn 255 (lit (opName o)) = lit (opName o).
Proof. destruct o; split; reflexivity. Qed.

Lemma entry_some t i s : entry t i = Ok s <->
  exists n w, i = Z.of_nat n /\ nth_error t n = Some w /\ s = lit w.
Proof.
  unfold entry. split.
  - destruct (Z.ltb_spec i 0); [discriminate|].
    destruct (nth_error t (Z.to_nat i)) as [w|] eqn:E; [|discriminate].
    intros H0. injection H0 as <-. exists (Z.to_nat i), w. repeat split; auto. lia.
  - intros (n & w & -> & E & ->). destruct (Z.ltb_spec (Z.of_nat n) 0); [lia|].
    rewrite Nat2Z.id, E. reflexivity.
Qed.

Section Asm.
Variables fmtInt fmtReal fmtPtr : Z -> text.
Variable idents : list ident.
Variable code : list instr.
Variable dbg : list debug.

Notation operandText := (operandText fmtInt fmtReal fmtPtr idents dbg).
Notation operand := (operand fmtInt fmtReal fmtPtr idents dbg).

Lemma operand_text i s : operand i s ->
  (hasOperand (op i) = true /\ operandText i = Ok s) \/ (hasOperand (op i) = false /\ s = []).
Proof.
  intros H. destruct H.
  - left. unfold AsmModel.operandText. cbn in H.
    repeat destruct H as [<-|H]; try (split; reflexivity). destruct H.
  - left. unfold AsmModel.operandText. cbn in H.
    repeat destruct H as [<-|H]; try (split; reflexivity). destruct H.
  - left. apply spell_at in H0. subst. unfold AsmModel.operandText. cbn in H.
    repeat destruct H as [<-|H]; try (split; reflexivity). destruct H.
  - left. assert (E : entry regSpelling (intVal i) = Ok (lit s)) by (apply entry_some; eauto).
    unfold AsmModel.operandText. cbn in H.
    repeat destruct H as [<-|H]; try (rewrite E; split; reflexivity). destruct H.
  - left. unfold AsmModel.operandText. cbn in H.
    repeat destruct H as [<-|H]; try (split; reflexivity). destruct H.
  - left. assert (E : entry builtinSpelling (intVal i) = Ok (lit s)) by (apply entry_some; eauto).
    unfold AsmModel.operandText. rewrite H, E. split; reflexivity.
  - left. unfold AsmModel.operandText. rewrite H, H0.
    destruct (Z.ltb_spec (Z.of_nat n) 0); [lia|]. rewrite Nat2Z.id, H1. split; reflexivity.
  - left. apply spell_at in H1. subst. unfold AsmModel.operandText. rewrite H, H0. split; reflexivity.
  - left. unfold AsmModel.operandText. rewrite H, H0. split; reflexivity.
  - left. unfold AsmModel.operandText. rewrite H. destruct (kindWord i) as [[k w]|]; [|split; reflexivity].
    rewrite (H0 k w) by auto. split; reflexivity.
  - right. split; auto. cbn in H. destruct (op i); try reflexivity; exfalso; apply H; tauto.
Qed.

(** One pass: what is written so far, and the invariant of the memory. *)
Section Pass.
Variable bufOf : Z -> option Z.
Variable sizeOf : Z -> Z.
Variable Inv : text -> text -> Prop.
Variable top : Z.
Hypothesis top_int : top <= INT_MAX.
Hypothesis emit_ok : forall b c mem T s, Inv mem T -> len T = b + c -> 0 <= b -> 0 <= c ->
  len T + len s <= top ->
  exists mem', emit (bufOf b) (sizeOf b) (mem, c) s = Ok (mem', c + len s) /\ Inv mem' (T ++ s).
Hypothesis print_ok : forall mem T s, Inv mem T -> len T + len s <= top ->
  exists mem', snprintf mem (bufOf (len T)) (sizeOf (len T)) s = Ok mem' /\ Inv mem' (T ++ s).
Hypothesis sub_ok : forall mem T, Inv mem T -> len T <= top ->
  nonnull mem (bufOf 0) (len T) = Ok (bufOf (len T)) /\ nonneg (sizeOf 0 - len T) = sizeOf (len T).

Lemma emit_opt b c mem T o : Inv mem T -> len T = b + c -> 0 <= b -> 0 <= c ->
  len T + len (word o) <= top ->
  exists mem', match o with Some w => emit (bufOf b) (sizeOf b) (mem, c) (lit " " ++ w) | None => Ok (mem, c) end
    = Ok (mem', c + len (word o)) /\ Inv mem' (T ++ word o).
Proof.
  intros I L B C H. destruct o as [w|]; cbn [word] in *.
  - apply emit_ok; auto.
  - exists mem. rewrite len_nil, Z.add_0_r, app_nil_r. auto.
Qed.

Lemma vmAsm_ok ip i d mem T s : Inv mem T -> lineOf fmtInt fmtReal fmtPtr idents dbg ip i d s ->
  len T + len s <= top ->
  exists mem', vmAsm fmtInt fmtReal fmtPtr idents dbg ip i d mem (bufOf (len T)) (sizeOf (len T)) =
    Ok (mem', len s) /\ Inv mem' (T ++ s).
Proof.
  intros I HL. destruct HL as [a b c k s Ha Hb Hc Hk Hs]. intros H.
  apply rightIn_pad in Ha, Hb, Hc.
  unfold vmAsm. destruct (opName_entry (op i)) as [N1 N2]. rewrite N1. cbn [bind]. rewrite N2. rewrite <- Ha, <- Hb, <- Hc.
  set (first := a ++ lit " " ++ b ++ lit " " ++ c) in *.
  replace (a ++ lit " " ++ b ++ lit " " ++ c ++ word (tokWord i) ++ word (typeWord i) ++ k ++ s)
    with (first ++ word (tokWord i) ++ word (typeWord i) ++ k ++ s) in *
    by (unfold first; rewrite <- !app_assoc; reflexivity).
  clearbody first. clear a b c Ha Hb Hc. rewrite !len_app in *.
  pose proof (len_nonneg T). pose proof (len_nonneg first). pose proof (len_nonneg k).
  pose proof (len_nonneg s). pose proof (len_nonneg (word (tokWord i))).
  pose proof (len_nonneg (word (typeWord i))).
  destruct (print_ok mem T first I ltac:(lia)) as (m1 & -> & I1). cbn [bind].
  replace (len first <=? INT_MAX) with true by lia. cbn [bind].
  destruct (emit_opt (len T) (len first) m1 (T ++ first) (tokWord i)) as (m2 & E2 & I2);
    auto; try (rewrite ?len_app; lia).
  rewrite E2. cbn [bind]. clear E2.
  destruct (emit_opt (len T) (len first + len (word (tokWord i))) m2
              ((T ++ first) ++ word (tokWord i)) (typeWord i)) as (m3 & E3 & I3);
    auto; try (rewrite ?len_app; lia).
  rewrite E3. cbn [bind]. clear E3.
  set (T3 := ((T ++ first) ++ word (tokWord i)) ++ word (typeWord i)) in *.
  set (c3 := len first + len (word (tokWord i)) + len (word (typeWord i))) in *.
  assert (L3 : len T3 = len T + c3) by (unfold T3, c3; rewrite !len_app; lia).
  assert (E4 : exists m4,
    match kindWord i with
    | Some (_, w) =>
        if match typeWord i with Some _ => keepsKind (op i) | None => true end
        then emit (bufOf (len T)) (sizeOf (len T)) (m3, c3) (lit " " ++ w)
        else Ok (m3, c3)
    | None => Ok (m3, c3)
    end = Ok (m4, c3 + len k) /\ Inv m4 (T3 ++ k)).
  { assert (Same : k = [] -> exists m4, Ok (m3, c3) = Ok (m4, c3 + len k) /\ Inv m4 (T3 ++ k)).
    { intros ->. exists m3. rewrite len_nil, Z.add_0_r, app_nil_r. auto. }
    assert (KK : match typeWord i with Some _ => keepsKind (op i) | None => true end = true <->
                 (typeWord i = None \/ op i = P_ASSERT_RANGE \/ op i = P_GET_MAP)).
    { destruct (typeWord i); [|tauto]. destruct (op i); cbn; split; try tauto; try discriminate;
        intros [X|[X|X]]; discriminate. }
    destruct (kindWord i) as [[kk w]|] eqn:EK; cbn [option_map snd word] in Hk.
    - destruct Hk as [[P ->]|[P ->]].
      + apply KK in P. rewrite P. apply emit_ok; auto; unfold c3; lia.
      + destruct (match typeWord i with Some _ => keepsKind (op i) | None => true end) eqn:Q.
        * exfalso. apply P. now apply KK.
        * apply Same. reflexivity.
    - apply Same. destruct Hk as [[_ ->]|[_ ->]]; reflexivity. }
  destruct E4 as (m4 & E4 & I4). rewrite E4. cbn [bind]. clear E4.
  assert (LT : len (T3 ++ k) = len T + (c3 + len k)) by (rewrite len_app; lia).
  assert (TT : T ++ first ++ word (tokWord i) ++ word (typeWord i) ++ k ++ s = (T3 ++ k) ++ s).
  { unfold T3. rewrite <- !app_assoc. reflexivity. }
  rewrite TT. replace (len first + (len (word (tokWord i)) + (len (word (typeWord i)) + (len k + len s))))
    with (c3 + len k + len s) by (unfold c3; lia).
  destruct (operand_text i s Hs) as [[-> ->]|[-> ->]].
  - cbn [bind]. apply emit_ok; auto; unfold c3 in *; lia.
  - exists m4. rewrite len_nil, Z.add_0_r, app_nil_r. auto.
Qed.

Variable cap : nat.
Variables from to : list bool.
Hypothesis from_len : List.length from = (cap + 1)%nat.
Hypothesis to_len : List.length to = (cap + 1)%nat.
Hypothesis from_ok : forall n, nth n from false = true <->
  exists i, nth_error code n = Some i /\ live code n /\ jump i.
Hypothesis to_ok : forall n, nth n to false = true <->
  exists k i, nth_error code k = Some i /\ live code k /\ jump i /\ intVal i = Z.of_nat n.
Hypothesis fits : (List.length code <= cap)%nat.

Lemma emit_when b mem T P s t : Inv mem T -> len T = b -> when P s t -> len T + len t <= top ->
  forall q : bool, (q = true <-> P) ->
  exists mem', (if q then emit (bufOf 0) (sizeOf 0) (mem, b) s else Ok (mem, b)) = Ok (mem', b + len t) /\
    Inv mem' (T ++ t).
Proof.
  intros I L W H q Q. destruct W as [[p ->]|[p ->]].
  - apply Q in p. rewrite p. apply emit_ok; auto; try lia. subst b. apply len_nonneg.
  - destruct q; [exfalso; apply p; now apply Q|]. exists mem. rewrite len_nil, Z.add_0_r, app_nil_r. auto.
Qed.

Lemma lines_ok : forall c ds ip prev mem T s pre, code = pre ++ c -> List.length pre = ip ->
  live code ip -> Inv mem T ->
  listing fmtInt fmtReal fmtPtr idents code dbg ip prev c ds s -> len T + len s <= top ->
  exists mem', lines fmtInt fmtReal fmtPtr idents dbg c ds ip prev from to (bufOf 0) (sizeOf 0)
      (mem, len T) = Ok (mem', len T + len s) /\ Inv mem' (T ++ s).
Proof.
  induction c as [|i c IH]; intros ds ip prev mem T s pre EC EP LV I HL H; [inversion HL|].
  assert (HI : nth_error code ip = Some i).
  { rewrite EC, nth_error_app2, EP, Nat.sub_diag by lia. reflexivity. }
  assert (HB : exists d ds' s1 s2, ds = d :: ds' /\ s = s1 ++ s2 /\
    block fmtInt fmtReal fmtPtr idents code dbg ip prev i d s1 /\
    ((op i = P_HALT /\ s2 = []) \/
     (op i <> P_HALT /\ listing fmtInt fmtReal fmtPtr idents code dbg (S ip) (Some (fileAddr d)) c ds' s2))).
  { inversion HL; subst.
    - exists d, ds0, s, []. rewrite app_nil_r. auto 10.
    - exists d, ds0, s0, t. auto 10. }
  destruct HB as (d & ds' & s1 & s2 & -> & -> & B & D).
  destruct B as [m f l e Hm Hf Hl He].
  rewrite !len_app in *. cbn [lines].
  pose proof (len_nonneg T). pose proof (len_nonneg m). pose proof (len_nonneg f).
  pose proof (len_nonneg l). pose proof (len_nonneg e). pose proof (len_nonneg s2).
  change (len NL) with 1 in *.
  destruct (emit_when (len T) mem T _ _ _ I eq_refl Hm ltac:(lia)
    (match prev with Some a => negb (Nat.eqb (fileAddr d) a) | None => true end)) as (m1 & E1 & I1).
  { destruct prev as [a|].
    - destruct (Nat.eqb_spec (fileAddr d) a) as [->|N]; cbn; split; congruence.
    - split; congruence. }
  rewrite E1. cbn [bind]. clear E1.
  assert (HF : exists m2, match op i with
    | P_ENTER_FRAME => emit (bufOf 0) (sizeOf 0) (m1, len T + len m) (NL ++ lit "Function: " ++ fnName d ++ NL ++ NL)
    | _ => Ok (m1, len T + len m) end = Ok (m2, len T + len m + len f) /\ Inv m2 ((T ++ m) ++ f)).
  { destruct (emit_when (len T + len m) m1 (T ++ m) _ _ _ I1 ltac:(rewrite len_app; lia) Hf
      ltac:(rewrite len_app; lia) (match op i with P_ENTER_FRAME => true | _ => false end)) as (m2 & E2 & I2).
    { destruct (op i); split; congruence. }
    exists m2. split; auto. destruct (op i); exact E2. }
  destruct HF as (m2 & -> & I2). cbn [bind fst snd].
  assert (L2 : len ((T ++ m) ++ f) = len T + len m + len f) by (rewrite !len_app; lia).
  destruct (sub_ok _ _ I2 ltac:(lia)) as [S1 S2]. rewrite <- L2. rewrite S1. cbn [bind]. rewrite S2.
  destruct (vmAsm_ok ip i d m2 _ l I2 Hl ltac:(lia)) as (m3 & -> & I3). cbn [bind fst snd].
  replace (len ((T ++ m) ++ f) + len l <=? INT_MAX) with true by lia. cbn [bind].
  destruct (emit_ok 0 (len ((T ++ m) ++ f) + len l) m3 (((T ++ m) ++ f) ++ l) NL I3) as (m4 & -> & I4);
    try (rewrite ?len_app; change (len NL) with 1; lia).
  change (len NL) with 1 in *. cbn [bind].
  set (T4 := (((T ++ m) ++ f) ++ l) ++ NL) in *.
  assert (L4 : len T4 = len ((T ++ m) ++ f) + len l + 1).
  { unfold T4. rewrite (len_app _ NL), (len_app _ l). reflexivity. }
  assert (Bi : (ip < List.length code)%nat) by (apply nth_error_Some; congruence).
  destruct (nth_error from ip) as [bf|] eqn:NF; [|apply nth_error_None in NF; lia].
  destruct (nth_error to (S ip)) as [bt|] eqn:NT; [|apply nth_error_None in NT; lia].
  destruct (emit_when (len T4) m4 T4 _ _ _ I4 eq_refl He ltac:(lia)
     (match op i with P_RETURN => true | _ => false end || bf || bt)) as (m5 & E5 & I5).
  { apply (nth_error_nth _ _ false) in NF, NT. rewrite !orb_true_iff. unfold separated.
    rewrite <- NF, <- NT. rewrite (from_ok ip), (to_ok (S ip)). split.
    - intros [[X|(j & X & _ & J)]|X].
      + left. destruct (op i); congruence.
      + rewrite HI in X. injection X as <-. auto.
      + right. right. exact X.
    - intros [X|[X|X]].
      + rewrite X. auto.
      + left. right. eauto.
      + right. exact X. }
  rewrite <- L4. rewrite E5. cbn [bind].
  assert (L5 : len T4 + len e = len (T4 ++ e)) by (rewrite len_app; reflexivity).
  rewrite L5.
  assert (TS : T ++ (m ++ f ++ l ++ NL ++ e) ++ s2 = (T4 ++ e) ++ s2).
  { unfold T4. rewrite <- !app_assoc. reflexivity. }
  rewrite TS.
  replace (len T + (len m + (len f + (len l + (1 + len e))) + len s2)) with (len (T4 ++ e) + len s2) by lia.
  destruct D as [[X ->]|[X D]].
  - rewrite X. cbn [isHalt]. exists m5. rewrite len_nil, Z.add_0_r, app_nil_r. auto.
  - destruct (isHalt (op i)) eqn:Y; [apply isHalt_halt in Y; contradiction|].
    apply (IH ds' (S ip) (Some (fileAddr d)) m5 (T4 ++ e) s2 (pre ++ [i])); auto.
    + rewrite <- app_assoc. exact EC.
    + rewrite app_length. cbn. lia.
    + intros k j K E. destruct (Nat.eq_dec k ip) as [->|]; [congruence|]. apply (LV k); auto. lia.
    + lia.
Qed.
End Pass.
End Asm.
