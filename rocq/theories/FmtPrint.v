(** Proofs about printf and scanf. *)
From Coq Require Import ZArith Lia Bool ZifyBool List.
From Verif Require Import Base NumModel NumSpec NumExtra NumProofs FmtModel FmtSpec FmtProofs.
Import ListNotations.
Local Open Scope Z_scope.

Lemma kind_eqb_eq : forall a b, kind_eqb a b = true <-> a = b.
Proof. intros a b. split; [destruct a, b; try discriminate; reflexivity|intros ->; destruct b; reflexivity]. Qed.
Lemma kind_eqb_refl : forall a, kind_eqb a a = true.
Proof. destruct a; reflexivity. Qed.

Lemma isInt_iff : forall k, isInt k <-> kindIntegerOrEnum k = true.
Proof. intros k. unfold isInt. cbn [In]. destruct k; cbn [kindIntegerOrEnum]; split; intros H; try discriminate; try reflexivity; intuition congruence. Qed.

Lemma conv_overflow : forall dest src v, kindOrdinal dest = true -> holds src v -> (typeConvOverflow dest src v = false <-> in_range dest (denote src v)).
Proof.
  intros dest src v D H. destruct (assert_range_exact dest src v D H) as (A & B). unfold doAssertRange in *. split.
  - intros E. rewrite E in *. assert (X : in_range dest (denote src v) \/ ~ in_range dest (denote src v)).
    { unfold in_range. destruct (range dest) as [[lo hi]|]; [lia|auto]. }
    destruct X as [X|X]; [exact X|]. specialize (B X). discriminate.
  - intros X. destruct (A X) as (E & _). destruct (typeConvOverflow dest src v); [discriminate|reflexivity].
Qed.

(** ** Acceptance of a value *)

Definition stepOk (expected k : kind) (v : Z) : bool :=
  compatPrintf expected k true && negb (negb (kind_eqb expected KVoid) && typeConvOverflow expected k v).

Lemma accept_iff : forall c f k v, familyOf (vlet c) = Some f -> f <> FPercent -> lenOk f (vlen c) -> argOk (k, v) ->
  (stepOk (kindOf f (vlen c)) k v = true <-> accepts c (k, v)).
Proof.
  intros c f k v F NP LO (NV & HO). cbn [fst snd] in *. unfold accepts. rewrite F. unfold stepOk, compatPrintf.
  replace (kind_eqb k KVoid) with false by (symmetry; destruct (kind_eqb k KVoid) eqn:E; [apply kind_eqb_eq in E; congruence|reflexivity]).
  cbn [andb].
  assert (INT : forall d sg b, kindIntegerOrEnum d = true -> (forall z, in_range d z <-> fitsInt sg b z) ->
    ((if kind_eqb d KNone then true else kind_eqb k d || kindIntegerOrEnum k && kindIntegerOrEnum d || kindReal k && kindReal d || negb false && kind_eqb d KInterface) &&
     negb (negb (kind_eqb d KVoid) && typeConvOverflow d k v) = true <-> isInt k /\ fitsInt sg b (denote k v))).
  { intros d sg b D RG. rewrite isInt_iff, <- RG.
    assert (X : (if kind_eqb d KNone then true else kind_eqb k d || kindIntegerOrEnum k && kindIntegerOrEnum d || kindReal k && kindReal d || negb false && kind_eqb d KInterface) = kindIntegerOrEnum k).
    { destruct d; try discriminate; destruct k; reflexivity. }
    rewrite X. replace (kind_eqb d KVoid) with false by (destruct d; try discriminate; reflexivity). cbn [negb andb].
    destruct (kindIntegerOrEnum k) eqn:KI; [|split; [discriminate|intros [E _]; discriminate]]. cbn [andb].
    rewrite negb_true_iff, (conv_overflow d k v); [tauto|unfold kindOrdinal; rewrite D; reflexivity|].
    apply HO. unfold kindOrdinal. rewrite KI. reflexivity. }
  destruct f; try congruence; cbn [kindOf].
  - destruct (vlen c); (apply INT; [reflexivity|]); intros z; unfold in_range, range, fitsInt, bitsOf; cbn [Z.sub Z.pow]; lia.
  - destruct (vlen c); (apply INT; [reflexivity|]); intros z; unfold in_range, range, fitsInt, bitsOf; cbn [Z.sub Z.pow]; lia.
  - destruct (real_conv_exact k v) as (R1 & R2).
    assert (RK : kind_eqb k KReal32 || kind_eqb k KReal = kindReal k) by (destruct k; reflexivity).
    destruct (vlen c); cbn [lenOk] in LO; try contradiction; cbn [kind_eqb kindReal kindIntegerOrEnum negb andb]; rewrite ?andb_false_r, ?andb_true_r, ?orb_false_r.
    + replace (kind_eqb k KReal32 || kindReal k) with (kindReal k) by (destruct k; reflexivity).
      rewrite andb_true_iff, negb_true_iff, <- not_true_iff_false, R1. split.
      * intros [A B]. split; [destruct k; try discriminate; auto|]. tauto.
      * intros [A B]. split; [destruct A as [-> | ->]; reflexivity|]. tauto.
    + replace (kind_eqb k KReal || kindReal k) with (kindReal k) by (destruct k; reflexivity).
      rewrite andb_true_iff, negb_true_iff, <- not_true_iff_false, R2. split.
      * intros [A B]. split; [destruct k; try discriminate; auto|]. intros s E. apply B. eauto.
      * intros [A B]. split; [destruct A as [-> | ->]; reflexivity|]. intros (s & E). exact (B s E).
  - destruct k; cbn; split; intros H; try discriminate; try reflexivity.
  - destruct k; cbn [kind_eqb kindIntegerOrEnum kindReal orb andb negb]; split; intros H; try discriminate; try reflexivity.
    rewrite negb_true_iff. apply (conv_overflow KChar KChar v eq_refl); apply HO; reflexivity.
  - destruct k; cbn; split; intros H; try discriminate; try reflexivity; congruence.
Qed.

(** ** The argument *)

Lemma wraps_id : forall m z, 0 < m -> - (2 ^ m / 2) <= z < 2 ^ m / 2 -> wraps (2 ^ m) z = z.
Proof.
  intros m z M H. unfold wraps. assert (E : 2 ^ m = 2 * 2 ^ (m - 1)) by (rewrite <- Z.pow_succ_r by lia; f_equal; lia).
  assert (D : 2 ^ m / 2 = 2 ^ (m - 1)) by (rewrite E, Z.mul_comm, Z.div_mul by lia; reflexivity). rewrite D in *.
  rewrite Z.mod_small by lia. lia.
Qed.
Lemma wrapu_id : forall m z, 0 <= z < m -> wrapu m z = z.
Proof. intros m z H. unfold wrapu. apply Z.mod_small. exact H. Qed.

Definition passBits (k : kind) : Z := match k with KInt | KUInt => 64 | _ => 32 end.

Lemma slot_int : forall k v, kindIntegerOrEnum k = true -> holds k v -> exists s, printSlot k v = Ok (Some (PInt (passBits k) s (denote k v))).
Proof.
  intros k v KI (S & H). unfold in_range, denote in H. destruct k; try discriminate; cbn [range] in H; cbn [printSlot passBits denote]; eexists;
    rewrite ?wraps_id by (cbn [Z.pow Z.pow_pos Pos.iter Z.mul Pos.mul]; lia); rewrite ?wrapu_id by (cbn [Z.pow Z.pow_pos Pos.iter Z.mul Pos.mul]; lia); reflexivity.
Qed.

Lemma printed_int : forall c k v s, (familyOf (vlet c) = Some FSigned /\ fitsInt true (bitsOf (vlen c)) (denote k v)) \/
    (familyOf (vlet c) = Some FUnsigned /\ fitsInt false (bitsOf (vlen c)) (denote k v)) ->
  readBits (vlen c) = 32 \/ k = KInt \/ k = KUInt -> printed c (PInt (passBits k) s (denote k v)) = Some (denote k v).
Proof.
  intros c k v s H W. unfold printed.
  assert (B : passBits k <? readBits (vlen c) = false).
  { destruct W as [W|[-> | ->]]; [rewrite W; destruct k; reflexivity|destruct (vlen c); reflexivity..]. }
  destruct H as [[F H]|[F H]]; rewrite F, B; f_equal; unfold fitsInt, bitsOf in H; destruct (vlen c); cbn [readBits];
    first [apply wraps_id; [lia|] | apply wrapu_id]; cbn [Z.pow Z.pow_pos Pos.iter Z.mul Pos.mul Z.sub Z.add Z.opp Z.pos_sub Pos.pred_double Z.div] in *; lia.
Qed.

(** The edits for %v. *)
Lemma setNth_app : forall l1 l2 n x, setNth (l1 ++ l2) (length l1 + n) x = l1 ++ setNth l2 n x.
Proof. induction l1 as [|y r IH]; intros; cbn [app length setNth Nat.add]; [reflexivity|]. f_equal. apply IH. Qed.

Lemma edit_thm : forall pre c k, vlen c = Lno \/ (vwidth c = [] /\ vprec c = None) ->
  editAny (pre ++ spell c) {| flen := length (pre ++ spell c); fletter := length pre + length (body c); fkind := k; fsz := szOf (vlen c) |} = pre ++ spell (asString c).
Proof.
  intros pre c k H. unfold editAny. cbn [fletter fsz].
  set (b1 := 37 :: vflags c ++ vwidth c ++ precText (vprec c)).
  assert (SP : spell c = b1 ++ spellLen (vlen c) ++ [vlet c]).
  { unfold b1, spell, precText. cbn [app]. rewrite <- !app_assoc. reflexivity. }
  assert (LB : length (body c) = (length b1 + length (spellLen (vlen c)))%nat).
  { unfold body, b1. cbn [length]. rewrite !app_length. cbn [length]. lia. }
  assert (B1 : (1 <= length b1)%nat) by (unfold b1; cbn [length]; lia).
  assert (SA : spell (asString c) = if match vlen c with Lno => true | _ => false end then b1 ++ [115] else
     37 :: vflags c ++ repeat 32 (length (spellLen (vlen c))) ++ vwidth c ++ precText (vprec c) ++ [115]).
  { unfold spell, asString, b1. cbn [vflags vwidth vprec vlen vlet spellLen]. destruct (vlen c); cbn [spellLen length repeat app]; rewrite ?app_nil_r, <- ?app_assoc; reflexivity. }
  rewrite SP, LB, SA.
  assert (R : forall n, (length pre + (length b1 + n))%nat = (length (pre ++ b1) + n)%nat) by (intros; rewrite app_length; lia).
  rewrite R. rewrite (app_assoc pre b1).
  assert (CH : vlen c <> Lno -> b1 = 37 :: vflags c /\ vwidth c ++ precText (vprec c) = []).
  { intros N. destruct H as [H|[H1 H2]]; [congruence|]. unfold b1. rewrite H1, H2. cbn. rewrite app_nil_r. auto. }
  assert (P1 : (1 <= length (pre ++ b1))%nat) by (rewrite app_length; lia).
  destruct (vlen c) eqn:VL; cbn [szOf spellLen length app repeat].
  - destruct (CH ltac:(discriminate)) as (C1 & C2). replace (1 <=? length (pre ++ b1) + 2)%nat with true by lia. replace (2 <=? length (pre ++ b1) + 2)%nat with true by lia.
    rewrite setNth_app. replace (length (pre ++ b1) + 2 - 1)%nat with (length (pre ++ b1) + 1)%nat by lia. rewrite setNth_app.
    replace (length (pre ++ b1) + 2 - 2)%nat with (length (pre ++ b1) + 0)%nat by lia. rewrite setNth_app. cbn [setNth]. rewrite app_assoc in SA. rewrite C1, <- app_assoc.
    rewrite (app_assoc (vwidth c)), C2. cbn [app]. reflexivity.
  - destruct (CH ltac:(discriminate)) as (C1 & C2). replace (1 <=? length (pre ++ b1) + 1)%nat with true by lia.
    rewrite setNth_app. replace (length (pre ++ b1) + 1 - 1)%nat with (length (pre ++ b1) + 0)%nat by lia. rewrite setNth_app. cbn [setNth]. rewrite C1, <- app_assoc.
    rewrite (app_assoc (vwidth c)), C2. cbn [app]. reflexivity.
  - rewrite setNth_app. cbn [setNth]. rewrite <- app_assoc. reflexivity.
  - destruct (CH ltac:(discriminate)) as (C1 & C2). replace (1 <=? length (pre ++ b1) + 1)%nat with true by lia.
    rewrite setNth_app. replace (length (pre ++ b1) + 1 - 1)%nat with (length (pre ++ b1) + 0)%nat by lia. rewrite setNth_app. cbn [setNth]. rewrite C1, <- app_assoc.
    rewrite (app_assoc (vwidth c)), C2. cbn [app]. reflexivity.
  - destruct (CH ltac:(discriminate)) as (C1 & C2). replace (1 <=? length (pre ++ b1) + 2)%nat with true by lia. replace (2 <=? length (pre ++ b1) + 2)%nat with true by lia.
    rewrite setNth_app. replace (length (pre ++ b1) + 2 - 1)%nat with (length (pre ++ b1) + 1)%nat by lia. rewrite setNth_app.
    replace (length (pre ++ b1) + 2 - 2)%nat with (length (pre ++ b1) + 0)%nat by lia. rewrite setNth_app. cbn [setNth]. rewrite C1, <- app_assoc.
    rewrite (app_assoc (vwidth c)), C2. cbn [app]. reflexivity.
Qed.

(** ** One step *)

Lemma step_conv : forall items c f tail k v, Forall wfItem items -> argConvs items = [] -> wfConv c -> familyOf (vlet c) = Some f -> f <> FPercent -> argOk (k, v) ->
  (accepts c (k, v) /\ exists cl, printfStep (spellAll items ++ spell c ++ tail) k v = Ok (cl, tail) /\ passes c (k, v) (spellAll items) cl) \/
  (~ accepts c (k, v) /\ exists e, printfStep (spellAll items ++ spell c ++ tail) k v = Err e).
Proof.
  intros items c f tail k v W A WF F NP AO.
  assert (LO : lenOk f (vlen c)). { destruct WF as [_ _ _ (f' & F' & L)]. rewrite F in F'. injection F' as <-. exact L. }
  pose proof (accept_iff c f k v F NP LO AO) as AC. unfold printfStep. rewrite (valid_conv items c f tail W A WF F NP). cbn [bind flen fletter fkind fsz].
  unfold stepOk in AC. destruct (compatPrintf (kindOf f (vlen c)) k true) eqn:CP; cbn [negb andb] in *.
  2: { right. split; [intros X; apply AC in X; discriminate|eauto]. }
  destruct (negb (kind_eqb (kindOf f (vlen c)) KVoid) && typeConvOverflow (kindOf f (vlen c)) k v) eqn:OV; cbn [negb] in AC.
  { right. split; [intros X; apply AC in X; discriminate|eauto]. }
  left. assert (AX : accepts c (k, v)) by (apply AC; reflexivity). split; [exact AX|].
  assert (FN : firstn (length (spellAll items ++ spell c)) (spellAll items ++ spell c ++ tail) = spellAll items ++ spell c).
  { rewrite app_assoc, firstn_app, Nat.sub_diag, firstn_all, firstn_O, app_nil_r. reflexivity. }
  assert (SK : skipn (length (spellAll items ++ spell c)) (spellAll items ++ spell c ++ tail) = tail).
  { rewrite app_assoc, skipn_app, Nat.sub_diag, skipn_all. reflexivity. }
  rewrite FN, SK. replace (length (spellAll items) + length (body c) <? length (spellAll items ++ spell c))%nat with true by (rewrite app_length, spell_body; cbn [length]; lia).
  rewrite andb_true_r. unfold accepts in AX. unfold passes. rewrite F in *. destruct AO as (NV & HO). cbn [fst snd] in *.
  assert (NI : f <> FAny -> kind_eqb (kindOf f (vlen c)) KInterface = false) by (intros NA; destruct f; try congruence; destruct (vlen c); reflexivity).
  destruct f; try congruence.
  - rewrite NI by discriminate. destruct AX as [I R]. apply isInt_iff in I. destruct (slot_int k v I) as (s & E). { apply HO. unfold kindOrdinal. rewrite I. reflexivity. }
    rewrite E. cbn [bind]. eexists. split; [reflexivity|]. cbn [cpiece cfmt carg]. split; [reflexivity|]. split; [reflexivity|]. eexists. split; [reflexivity|].
    split; [unfold argClass; rewrite F; exact Logic.I|]. intros X. apply printed_int; [left; auto|exact X].
  - rewrite NI by discriminate. destruct AX as [I R]. apply isInt_iff in I. destruct (slot_int k v I) as (s & E). { apply HO. unfold kindOrdinal. rewrite I. reflexivity. }
    rewrite E. cbn [bind]. eexists. split; [reflexivity|]. cbn [cpiece cfmt carg]. split; [reflexivity|]. split; [reflexivity|]. eexists. split; [reflexivity|].
    split; [unfold argClass; rewrite F; exact Logic.I|]. intros X. apply printed_int; [right; auto|exact X].
  - rewrite NI by discriminate. destruct AX as [[-> | ->] _]; cbn [printSlot bind]; eexists; (split; [reflexivity|]); cbn [cpiece cfmt carg]; auto.
  - rewrite NI by discriminate. subst k. cbn [printSlot bind]. eexists. split; [reflexivity|]. cbn [cpiece cfmt carg]. auto.
  - rewrite NI by discriminate. subst k. cbn [printSlot bind]. eexists. split; [reflexivity|]. cbn [cpiece cfmt carg]. split; [reflexivity|]. split; [reflexivity|].
    eexists. split; [reflexivity|]. split; [unfold argClass; rewrite F; exact Logic.I|]. unfold printed. rewrite F. f_equal.
    destruct (HO eq_refl) as (_ & R). unfold in_range, denote, range in R. rewrite !wrapu_id; cbn [Z.pow Z.pow_pos Pos.iter Z.mul Pos.mul]; try lia. rewrite wrapu_id; cbn [Z.pow Z.pow_pos Pos.iter Z.mul Pos.mul]; lia.
  - cbn [kindOf kind_eqb]. cbn [printSlot bind]. eexists. split; [reflexivity|]. cbn [cpiece cfmt carg]. split; [reflexivity|]. split; [reflexivity|].
    intros H. apply edit_thm. exact H.
Qed.

Lemma step_end : forall items k v, Forall wfItem items -> argConvs items = [] ->
  (k <> KVoid -> exists e, printfStep (spellAll items) k v = Err e) /\
  (k = KVoid -> exists cl, printfStep (spellAll items) k v = Ok (cl, []) /\ cpiece cl = spellAll items /\ cfmt cl = spellAll items /\ carg cl = None).
Proof.
  intros items k v W A. destruct (valid_end items W A) as (r & E & K & L). unfold printfStep. rewrite E. cbn [bind]. rewrite K.
  replace (kind_eqb KVoid KVoid) with true by reflexivity. cbn [negb andb]. split.
  - intros NV. replace (compatPrintf KVoid k true) with false by (destruct k; try congruence; reflexivity). cbn [negb]. eauto.
  - intros ->. cbn [compatPrintf kind_eqb andb negb orb printSlot bind]. eexists. split; [rewrite L, skipn_all; reflexivity|]. cbn [cpiece cfmt carg]. rewrite firstn_all. auto.
Qed.

Lemma step_end_void : forall items c f tail v, Forall wfItem items -> argConvs items = [] -> wfConv c -> familyOf (vlet c) = Some f -> f <> FPercent ->
  exists e, printfStep (spellAll items ++ spell c ++ tail) KVoid v = Err e.
Proof.
  intros items c f tail v W A WF F NP. unfold printfStep. rewrite (valid_conv items c f tail W A WF F NP). cbn [bind fkind].
  replace (compatPrintf (kindOf f (vlen c)) KVoid true) with false by (destruct f; try congruence; destruct (vlen c); reflexivity). cbn [negb]. eauto.
Qed.

(** Every format is a sequence of items up to an invalid conversion, if any. *)
Lemma split_arg : forall items c cs, argConvs items = c :: cs -> exists i1 i2, items = i1 ++ Conv c :: i2 /\ argConvs i1 = [] /\ argConvs i2 = cs /\ familyOf (vlet c) <> Some FPercent.
Proof.
  induction items as [|[t|d] r IH]; intros c cs H; cbn [argConvs] in H; [discriminate| |].
  - destruct (IH c cs H) as (i1 & i2 & E & A & B & D). exists (Text t :: i1), i2. subst. cbn [argConvs app]. auto.
  - assert (X : (familyOf (vlet d) = Some FPercent /\ argConvs r = c :: cs) \/ (familyOf (vlet d) <> Some FPercent /\ d :: argConvs r = c :: cs)).
    { destruct (familyOf (vlet d)) as [[]|]; try (right; split; [discriminate|exact H]). left. auto. }
    destruct X as [[F X]|[F X]].
    + destruct (IH c cs X) as (i1 & i2 & E & A & B & D). exists (Conv d :: i1), i2. subst. cbn [argConvs app]. rewrite F. auto.
    + injection X as -> <-. exists [], r. cbn [app argConvs]. auto.
Qed.

Lemma printf_thm : forall args f, Forall argOk args ->
  match printfAll f args with
  | Ok cs => exists items, f = spellAll items /\ Forall wfItem items /\ Forall2 accepts (argConvs items) args /\ callsFor items args cs
  | Err _ => ~ formatFor accepts f args
  | UB => False
  end.
Proof.
  induction args as [|[k v] args IH]; intros f AO; cbn [printfAll].
  - destruct (valid_total f) as (o & V). destruct o as [r|].
    + destruct (valid_fwd f r V) as [items E W A K L|items c fm tail E W A WF F NP L _ K S].
      * subst f. destruct (proj2 (step_end items KVoid 0 W A) eq_refl) as (cl & ST & P1 & P2 & P3). rewrite ST. cbn [bind fst].
        exists items. split; [reflexivity|]. split; [exact W|]. split; [rewrite A; constructor|]. constructor; assumption.
      * subst f. destruct (step_end_void items c fm tail 0 W A WF F NP) as (e & ST). rewrite ST. cbn [bind].
        intros (its & E & W2 & F2). inversion F2 as [Z|]. destruct (valid_end its W2 (eq_sym Z)) as (r2 & V2 & K2 & _).
        rewrite <- E, V in V2. injection V2 as <-. rewrite K2 in K. destruct fm; try congruence; destruct (vlen c); discriminate.
    + unfold printfStep. rewrite V. cbn [bind]. intros (its & E & W2 & F2). inversion F2 as [Z|]. destruct (valid_end its W2 (eq_sym Z)) as (r2 & V2 & _). rewrite <- E, V in V2. discriminate.
  - inversion AO as [|x y AO1 AO2]; subst x y.
    assert (NOT : forall e, (exists r, typeFormatStringValid f = Ok (Some r) /\ fkind r = KVoid) \/ typeFormatStringValid f = Ok None -> printfStep f k v = Err e -> ~ formatFor accepts f ((k, v) :: args)).
    { intros e H _ (its & E & W2 & F2). inversion F2 as [|c x cs ys F3 F4 X]. symmetry in X. destruct (split_arg its c cs X) as (i1 & i2 & E2 & A1 & A2 & NP). subst its.
      apply Forall_app in W2. destruct W2 as [W1 W2]. inversion W2 as [|a b W3 W4]; subst a b. cbn [wfItem] in W3.
      destruct (wf_let _ W3) as (fm & FM & _). assert (NP3 : fm <> FPercent) by congruence.
      rewrite spellAll_app in E. change (spellAll (Conv c :: i2)) with (spell c ++ spellAll i2) in E. rewrite E, (valid_conv i1 c fm (spellAll i2) W1 A1 W3 FM NP3) in H.
      destruct H as [(r & Hr & K)|Hr]; [|discriminate]. injection Hr as <-. cbn [fkind] in K. destruct fm; try congruence; destruct (vlen c); discriminate. }
    destruct (valid_total f) as (o & V). destruct o as [r|].
    + destruct (valid_fwd f r V) as [items E W A K L|items c fm tail E W A WF F NP L _ K S].
      * destruct (proj1 (step_end items k v W A) (proj1 AO1)) as (e & ST). rewrite E, ST. cbn [bind]. rewrite <- E in *. apply (NOT e); [left; eauto|exact ST].
      * subst f. destruct (step_conv items c fm tail k v W A WF F NP AO1) as [(AC & cl & ST & PS)|(AC & e & ST)]; rewrite ST; cbn [bind fst snd].
        -- specialize (IH tail AO2). destruct (printfAll tail args) as [cs|e|]; cbn [bind]; [| |exact IH].
           ++ destruct IH as (its & E & W2 & F2 & CF). exists (items ++ Conv c :: its). split; [rewrite spellAll_app, E; reflexivity|].
              split; [apply Forall_app; split; [exact W|constructor; [exact WF|exact W2]]|]. split; [|apply CArg; assumption].
              rewrite argConvs_app, A. cbn [argConvs app]. rewrite F. destruct fm; try congruence; constructor; assumption.
           ++ intros (its & E & W2 & F2). apply IH. inversion F2 as [|c' x cs ys F3 F4 X]. symmetry in X. destruct (split_arg its c' cs X) as (i1 & i2 & E2 & A1 & A2 & NP2). subst its.
              apply Forall_app in W2. destruct W2 as [W1 W2]. inversion W2 as [|a b W3 W4]; subst a b. cbn [wfItem] in W3. destruct (wf_let _ W3) as (fm' & FM & _). assert (NP3 : fm' <> FPercent) by congruence.
              rewrite spellAll_app in E. change (spellAll (Conv c' :: i2)) with (spell c' ++ spellAll i2) in E.
              pose proof (valid_conv i1 c' fm' (spellAll i2) W1 A1 W3 FM NP3) as V2. rewrite <- E, (valid_conv items c fm tail W A WF F NP) in V2.
              assert (LL : length (spellAll items ++ spell c) = length (spellAll i1 ++ spell c')) by congruence. clear V2.
              assert (TT : tail = spellAll i2). { rewrite !app_assoc in E. apply (f_equal (skipn (length (spellAll items ++ spell c)))) in E. rewrite skipn_app, Nat.sub_diag, skipn_all in E. rewrite LL, skipn_app, Nat.sub_diag, skipn_all in E. exact E. }
              exists i2. split; [exact TT|]. split; [exact W4|]. rewrite A2. exact F4.
        -- intros (its & E & W2 & F2). inversion F2 as [|c' x cs ys F3 F4 X]. symmetry in X. destruct (split_arg its c' cs X) as (i1 & i2 & E2 & A1 & A2 & NP2). subst its.
           apply Forall_app in W2. destruct W2 as [W1 W2]. inversion W2 as [|a b W3 W4]; subst a b. cbn [wfItem] in W3. destruct (wf_let _ W3) as (fm' & FM & _). assert (NP3 : fm' <> FPercent) by congruence.
           rewrite spellAll_app in E. change (spellAll (Conv c' :: i2)) with (spell c' ++ spellAll i2) in E.
           destruct (step_conv i1 c' fm' (spellAll i2) k v W1 A1 W3 FM NP3 AO1) as [(_ & cl & ST2 & _)|(AC2 & _)]; [rewrite <- E, ST in ST2; discriminate|exact (AC2 F3)].
    + destruct (printfStep f k v) as [[cl rest]|e|] eqn:ST; cbn [bind].
      * unfold printfStep in ST. rewrite V in ST. discriminate.
      * apply (NOT e); [right; exact V|reflexivity].
      * unfold printfStep in ST. rewrite V in ST. discriminate.
Qed.
