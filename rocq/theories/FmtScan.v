(** Proofs about scanf and the compile-time check. *)
From Coq Require Import ZArith Lia Bool ZifyBool List.
From Verif Require Import Base NumModel NumSpec NumExtra NumProofs FmtModel FmtSpec FmtProofs FmtPrint.
Import ListNotations.
Local Open Scope Z_scope.

(** ** A walk over a format with a test for each piece *)
Section Walk.
Variable X : Type.
Variable chk : kind -> option X -> bool.
Variable acc : conv -> X -> Prop.
Variable okx : X -> Prop.
Hypothesis chk_end : chk KVoid None = true.
Hypothesis chk_more : forall c f, wfConv c -> familyOf (vlet c) = Some f -> f <> FPercent -> chk (kindOf f (vlen c)) None = false.
Hypothesis chk_few : forall x, okx x -> chk KVoid (Some x) = false.
Hypothesis chk_acc : forall c f x, wfConv c -> familyOf (vlet c) = Some f -> f <> FPercent -> okx x -> (chk (kindOf f (vlen c)) (Some x) = true <-> acc c x).

Fixpoint walk (f : list Z) (xs : list X) : bool :=
  match typeFormatStringValid f with
  | Ok (Some r) =>
      match xs with
      | [] => chk (fkind r) None
      | x :: xs1 => chk (fkind r) (Some x) && walk (skipn (flen r) f) xs1
      end
  | _ => false
  end.

Lemma first_conv : forall items c cs, Forall wfItem items -> argConvs items = c :: cs -> exists i1 i2 f, items = i1 ++ Conv c :: i2 /\ Forall wfItem i1 /\ Forall wfItem i2 /\
  argConvs i1 = [] /\ argConvs i2 = cs /\ wfConv c /\ familyOf (vlet c) = Some f /\ f <> FPercent /\ spellAll items = spellAll i1 ++ spell c ++ spellAll i2.
Proof.
  intros items c cs W A. destruct (split_arg items c cs A) as (i1 & i2 & E & A1 & A2 & NP). subst items. apply Forall_app in W. destruct W as [W1 W2].
  inversion W2 as [|a b W3 W4]; subst a b. cbn [wfItem] in W3. destruct (wf_let _ W3) as (f & F & _). exists i1, i2, f.
  split; [reflexivity|]. split; [exact W1|]. split; [exact W4|]. split; [exact A1|]. split; [exact A2|]. split; [exact W3|]. split; [exact F|]. split; [congruence|].
  rewrite spellAll_app. reflexivity.
Qed.

Lemma skip_piece : forall (a b c : list Z), skipn (length (a ++ b)) (a ++ b ++ c) = c.
Proof. intros. rewrite app_assoc, skipn_app, Nat.sub_diag, skipn_all. reflexivity. Qed.

Lemma walk_bwd : forall xs f, Forall okx xs -> formatFor acc f xs -> walk f xs = true.
Proof.
  induction xs as [|x xs IH]; intros f O (items & E & W & F2); cbn [walk].
  - inversion F2 as [Z|]. destruct (valid_end items W (eq_sym Z)) as (r & V & K & L). rewrite E, V, K. exact chk_end.
  - inversion F2 as [|c y cs ys F3 F4 Z]. symmetry in Z. destruct (first_conv items c cs W Z) as (i1 & i2 & fm & E2 & W1 & W2 & A1 & A2 & WF & F & NP & SP).
    inversion O as [|u w O1 O2]. subst u w. rewrite E, SP, (valid_conv i1 c fm (spellAll i2) W1 A1 WF F NP). cbn [fkind flen]. rewrite skip_piece.
    apply andb_true_iff. split; [apply (chk_acc c fm x WF F NP O1); exact F3|]. apply IH; [exact O2|]. exists i2. rewrite A2. auto.
Qed.
Lemma walk_fwd : forall xs f, Forall okx xs -> walk f xs = true -> formatFor acc f xs.
Proof.
  induction xs as [|x xs IH]; intros f O H; cbn [walk] in H; destruct (valid_total f) as (o & V); rewrite V in H; destruct o as [r|]; try discriminate.
  - destruct (valid_fwd f r V) as [items E W A K L|items c fm tail E W A WF F NP L _ K S].
    + exists items. split; [exact E|]. split; [exact W|]. rewrite A. constructor.
    + rewrite K, (chk_more c fm WF F NP) in H. discriminate.
  - apply andb_true_iff in H. destruct H as [H1 H2]. inversion O as [|u w O1 O2]. subst u w.
    destruct (valid_fwd f r V) as [items E W A K L|items c fm tail E W A WF F NP L _ K S].
    + rewrite K, (chk_few x O1) in H1. discriminate.
    + rewrite K in H1. apply (chk_acc c fm x WF F NP O1) in H1. subst f. cbn [Nat.add] in L. rewrite L in H2. rewrite skip_piece in H2.
      destruct (IH tail O2 H2) as (its & E & W2 & F2). exists (items ++ Conv c :: its). split; [rewrite spellAll_app, E; reflexivity|].
      split; [apply Forall_app; split; [exact W|constructor; [exact WF|exact W2]]|].
      rewrite argConvs_app, A. cbn [argConvs app]. rewrite F. destruct fm; try congruence; constructor; assumption.
Qed.
End Walk.

(** ** The compile-time check *)
Definition chkOf (compat : kind -> kind -> bool -> bool) (e : kind) (o : option kind) : bool :=
  match o with None => compat e KVoid true | Some k => compat e k false end.
Lemma static_walk : forall compat ks f, match staticCheck compat f ks with Ok _ => walk _ (chkOf compat) f ks = true | Err _ => walk _ (chkOf compat) f ks = false | UB => False end.
Proof.
  induction ks as [|k ks IH]; intros f; cbn [staticCheck walk]; destruct (valid_total f) as (o & V); rewrite V; cbn [bind]; destruct o as [r|]; try reflexivity; cbn [chkOf].
  - destruct (compat (fkind r) KVoid true); reflexivity.
  - destruct (compat (fkind r) k false); cbn [andb]; [apply IH|reflexivity].
Qed.

Lemma isInt_dec : forall k, kindIntegerOrEnum k = true <-> isInt k.
Proof. intros. symmetry. apply isInt_iff. Qed.

Lemma printf_chk : forall c f x, wfConv c -> familyOf (vlet c) = Some f -> f <> FPercent -> True -> (chkOf compatPrintf (kindOf f (vlen c)) (Some x) = true <-> acceptsKind c x).
Proof.
  intros c f x WF F NP _. destruct WF as [_ _ _ (f' & F' & LO)]. rewrite F in F'. injection F' as <-. unfold acceptsKind, chkOf. rewrite F. rewrite <- ?isInt_dec.
  destruct f; try congruence; rewrite <- ?isInt_dec; destruct (vlen c); cbn [lenOk] in LO; try contradiction; destruct x; cbn; split; intros H; try discriminate; try reflexivity; intuition congruence.
Qed.
Lemma scanf_chk : forall c f x, wfConv c -> familyOf (vlet c) = Some f -> f <> FPercent -> True -> (chkOf compatScanf (kindOf f (vlen c)) (Some x) = true <-> scanAccepts c x).
Proof.
  intros c f x WF F NP _. destruct WF as [_ _ _ (f' & F' & LO)]. rewrite F in F'. injection F' as <-. unfold scanAccepts, chkOf. rewrite F.
  destruct f; try congruence; destruct (vlen c); cbn [lenOk] in LO; try contradiction; destruct x; cbn; split; intros H; try discriminate; try reflexivity; intuition congruence.
Qed.

Lemma all_true : forall (A : Type) (l : list A), Forall (fun _ => True) l.
Proof. induction l; constructor; auto. Qed.

Lemma static_printf : forall f ks,
  match staticCheck compatPrintf f ks with Ok _ => formatFor acceptsKind f ks | Err _ => ~ formatFor acceptsKind f ks | UB => False end.
Proof.
  intros f ks. pose proof (static_walk compatPrintf ks f) as S.
  assert (MORE : forall c f, wfConv c -> familyOf (vlet c) = Some f -> f <> FPercent -> chkOf compatPrintf (kindOf f (vlen c)) None = false).
  { intros c fm _ _ NP. destruct fm; try congruence; destruct (vlen c); reflexivity. }
  assert (FEW : forall x, True -> chkOf compatPrintf KVoid (Some x) = false) by (intros [] _; reflexivity).
  destruct (staticCheck compatPrintf f ks); [| |exact S].
  - exact (walk_fwd kind (chkOf compatPrintf) acceptsKind (fun _ => True) MORE FEW printf_chk ks f (all_true _ _) S).
  - intros H. rewrite (walk_bwd kind (chkOf compatPrintf) acceptsKind (fun _ => True) eq_refl printf_chk ks f (all_true _ _) H) in S. discriminate.
Qed.
Lemma static_scanf : forall f ks,
  match staticCheck compatScanf f ks with Ok _ => formatFor scanAccepts f ks | Err _ => ~ formatFor scanAccepts f ks | UB => False end.
Proof.
  intros f ks. pose proof (static_walk compatScanf ks f) as S.
  assert (MORE : forall c f, wfConv c -> familyOf (vlet c) = Some f -> f <> FPercent -> chkOf compatScanf (kindOf f (vlen c)) None = false).
  { intros c fm _ _ NP. destruct fm; try congruence; destruct (vlen c); reflexivity. }
  assert (FEW : forall x, True -> chkOf compatScanf KVoid (Some x) = false) by (intros [] _; reflexivity).
  destruct (staticCheck compatScanf f ks); [| |exact S].
  - exact (walk_fwd kind (chkOf compatScanf) scanAccepts (fun _ => True) MORE FEW scanf_chk ks f (all_true _ _) S).
  - intros H. rewrite (walk_bwd kind (chkOf compatScanf) scanAccepts (fun _ => True) eq_refl scanf_chk ks f (all_true _ _) H) in S. discriminate.
Qed.

(** ** scanf *)
Lemma scanf_walk : forall ks f, Forall (fun k => k <> KVoid) ks -> match scanfAll f ks with
  | Ok cs => exists items, f = spellAll items /\ Forall wfItem items /\ Forall2 scanAccepts (argConvs items) ks /\ scallsFor items ks cs
  | Err _ => walk _ (chkOf compatScanf) f ks = false
  | UB => False
  end.
Proof.
  induction ks as [|k ks IH]; intros f NV; cbn [scanfAll walk]; unfold scanfStep; destruct (valid_total f) as (o & V); rewrite V; cbn [bind]; destruct o as [r|]; try reflexivity.
  - destruct (valid_fwd f r V) as [items E W A K L|items c fm tail E W A WF F NP L _ K S]; rewrite K.
    + cbn [compatScanf kindOrdinal kindIntegerOrEnum kindReal kind_eqb andb orb negb bind fst]. exists items. split; [exact E|]. split; [exact W|]. split; [rewrite A; constructor|].
      cbn [Nat.add] in L. rewrite L, E, firstn_all. constructor; cbn [spiece sfmt sdest]; auto.
    + replace (compatScanf (kindOf fm (vlen c)) KVoid true) with false by (destruct fm; try congruence; destruct (vlen c); reflexivity). cbn [negb bind chkOf].
      destruct fm; try congruence; destruct (vlen c); reflexivity.
  - inversion NV as [|x y N1 N2]; subst x y. assert (CT : forall e, compatScanf e k true = compatScanf e k false) by (intros e; unfold compatScanf; destruct k; try congruence; reflexivity).
    cbn [chkOf]. rewrite CT.
    destruct (valid_fwd f r V) as [items E W A K L|items c fm tail E W A WF F NP L _ K S]; rewrite K.
    + replace (compatScanf KVoid k false) with false by (destruct k; reflexivity). reflexivity.
    + destruct (compatScanf (kindOf fm (vlen c)) k false) eqn:CS; cbn [negb bind andb fst snd]; [|reflexivity].
      subst f. cbn [Nat.add] in L. rewrite L, skip_piece. specialize (IH tail N2). destruct (scanfAll tail ks) as [cs|e|]; cbn [bind]; [| |exact IH]; [|exact IH].
      destruct IH as (its & E & W2 & F2 & CF). exists (items ++ Conv c :: its). split; [rewrite spellAll_app, E; reflexivity|].
      split; [apply Forall_app; split; [exact W|constructor; [exact WF|exact W2]]|].
      assert (SA : scanAccepts c k) by (apply (scanf_chk c fm k WF F NP Logic.I); exact CS).
      split. { rewrite argConvs_app, A. cbn [argConvs app]. rewrite F. destruct fm; try congruence; constructor; assumption. }
      assert (FN : firstn (length (spellAll items ++ spell c)) (spellAll items ++ spell c ++ tail) = spellAll items ++ spell c).
      { rewrite app_assoc, firstn_app, Nat.sub_diag, firstn_all, firstn_O, app_nil_r. reflexivity. }
      rewrite FN. unfold scanAccepts in SA. rewrite F in SA.
      assert (D : (vlen c = Ll /\ familyOf (vlet c) <> Some FReal) \/ (vwidth c <> [] /\ familyOf (vlet c) = Some FChar) \/
                  ((vlen c <> Ll \/ familyOf (vlet c) = Some FReal) /\ (vwidth c = [] \/ familyOf (vlet c) <> Some FChar) /\ written c = sizeOf k)).
      { unfold written. rewrite F. destruct fm; try congruence; try contradiction.
        - destruct (vlen c); subst k; try (left; split; [reflexivity|discriminate]); right; right; (split; [left; discriminate|]); (split; [right; discriminate|]); reflexivity.
        - destruct (vlen c); subst k; try (left; split; [reflexivity|discriminate]); right; right; (split; [left; discriminate|]); (split; [right; discriminate|]); reflexivity.
        - right. right. split; [right; reflexivity|]. split; [right; discriminate|]. destruct (vlen c); subst k; reflexivity.
        - destruct (vlen c) eqn:VL; try (left; split; [reflexivity|discriminate]); right; right; (split; [left; discriminate|]); (split; [right; discriminate|]); subst k; reflexivity.
        - destruct WF as [_ _ _ (f' & F' & LO)]. rewrite F in F'. injection F' as <-. cbn [lenOk] in LO.
          destruct (vwidth c) eqn:VW; [|right; left; split; [discriminate|reflexivity]]. right. right. split; [left; intros VL; rewrite VL in LO; contradiction|]. split; [auto|]. subst k. reflexivity. }
      destruct D as [D|[D|(D1 & D2 & D3)]].
      * apply SOdd; cbn [spiece sfmt sdest]; rewrite ?app_assoc; auto.
      * apply SOdd; cbn [spiece sfmt sdest]; rewrite ?app_assoc; auto.
      * apply SArg; cbn [spiece sfmt sdest]; rewrite ?app_assoc; auto.
Qed.

Lemma scanf_thm : forall f ks, Forall (fun k => k <> KVoid) ks -> match scanfAll f ks with
  | Ok cs => exists items, f = spellAll items /\ Forall wfItem items /\ Forall2 scanAccepts (argConvs items) ks /\ scallsFor items ks cs
  | Err _ => ~ formatFor scanAccepts f ks
  | UB => False
  end.
Proof.
  intros f ks NV. pose proof (scanf_walk ks f NV) as S. destruct (scanfAll f ks); [exact S| |exact S].
  intros H. rewrite (walk_bwd kind (chkOf compatScanf) scanAccepts (fun _ => True) eq_refl scanf_chk ks f (all_true _ _) H) in S. discriminate.
Qed.

(** ** After the check, only an overflow can stop printf *)
Lemma static_run : forall args f, staticCheck compatPrintf f (map fst args) = Ok tt -> Forall argOk args ->
  (exists cs, printfAll f args = Ok cs) \/ printfAll f args = Err EOverflow.
Proof.
  induction args as [|[k v] args IH]; intros f H AO; cbn [staticCheck printfAll map fst] in *; destruct (valid_total f) as (o & V); unfold printfStep; rewrite V in *; cbn [bind] in *; destruct o as [r|]; try discriminate.
  - destruct (valid_fwd f r V) as [items E W A K L|items c fm tail E W A WF F NP L _ K S]; rewrite K in *.
    + left. cbn [compatPrintf kind_eqb andb negb orb printSlot bind]. eauto.
    + replace (compatPrintf (kindOf fm (vlen c)) KVoid true) with false in H by (destruct fm; try congruence; destruct (vlen c); reflexivity). discriminate.
  - inversion AO as [|x y AO1 AO2]; subst x y.
    destruct (compatPrintf (fkind r) k false) eqn:CP; [|discriminate].
    assert (CT : compatPrintf (fkind r) k true = true). { unfold compatPrintf in *. destruct AO1 as [NV _]. cbn [fst] in NV. destruct k; try congruence; exact CP. }
    rewrite CT. cbn [negb].
    destruct (negb (kind_eqb (fkind r) KVoid) && typeConvOverflow (fkind r) k v); [right; reflexivity|].
    assert (PS : exists a, printSlot (if kind_eqb (fkind r) KInterface && (fletter r <? flen r)%nat then KStr else k) v = Ok a).
    { destruct (valid_fwd f r V) as [items E W A K L|items c fm tail E W A WF F NP L LT K S]; rewrite K in *.
      - destruct AO1 as [NV _]. cbn [fst] in NV. destruct k; try congruence; discriminate.
      - replace (fletter r <? flen r)%nat with true by lia. rewrite andb_true_r.
        destruct fm; try congruence; destruct (vlen c); cbn [kindOf kind_eqb] in *; try (eexists; reflexivity); destruct k; try discriminate; eexists; reflexivity. }
    destruct PS as (a & PS). rewrite PS. cbn [bind snd fst]. destruct (IH _ H AO2) as [(cs & E)|E]; rewrite E; cbn [bind]; eauto.
Qed.

(** ** Pieces *)
Lemma calls_concat : forall items args cs, callsFor items args cs -> concat (map cpiece cs) = spellAll items /\ length cs = S (length args) /\ map (fun c => match carg c with Some _ => true | None => false end) cs = repeat true (length args) ++ [false].
Proof.
  intros items args cs H. induction H as [its cl A P F C|its c rest x args cl cs A P H (I1 & I2 & I3)]; cbn [map concat length repeat app].
  - rewrite P, C, app_nil_r. auto.
  - split; [|split; [congruence|]].
    + destruct x as [k v]. destruct P as [P _]. rewrite I1, P, spellAll_app. change (spellAll (Conv c :: rest)) with (spell c ++ spellAll rest). rewrite app_assoc. reflexivity.
    + rewrite I3. f_equal. destruct x as [k v]. destruct P as [_ P]. destruct (familyOf (vlet c)) as [[]|]; try contradiction;
        repeat match goal with H : _ /\ _ |- _ => destruct H | H : exists _, _ |- _ => destruct H end; repeat match goal with H : carg cl = _ |- _ => rewrite H end; reflexivity.
Qed.
Lemma scalls_concat : forall items ks cs, scallsFor items ks cs -> concat (map spiece cs) = spellAll items /\ map sdest cs = ks ++ [KVoid].
Proof.
  intros items ks cs H. induction H as [its cl A P F C|its c rest k ks cl cs A P F D N1 N2 WR H (I1 & I2)|its c rest k ks cl cs A P F D N H (I1 & I2)]; cbn [map concat app].
  - rewrite P, C, app_nil_r. auto.
  - split; [|congruence]. rewrite I1, P, spellAll_app. change (spellAll (Conv c :: rest)) with (spell c ++ spellAll rest). rewrite app_assoc. reflexivity.
  - split; [|congruence]. rewrite I1, P, spellAll_app. change (spellAll (Conv c :: rest)) with (spell c ++ spellAll rest). rewrite app_assoc. reflexivity.
Qed.
Lemma printf_pieces : forall f args cs, Forall argOk args -> printfAll f args = Ok cs ->
  concat (map cpiece cs) = f /\ length cs = S (length args) /\ map (fun c => match carg c with Some _ => true | None => false end) cs = repeat true (length args) ++ [false].
Proof.
  intros f args cs AO H. pose proof (printf_thm args f AO) as T. rewrite H in T. destruct T as (items & E & _ & _ & C). rewrite E. exact (calls_concat items args cs C).
Qed.
Lemma scanf_pieces : forall f ks cs, Forall (fun k => k <> KVoid) ks -> scanfAll f ks = Ok cs -> concat (map spiece cs) = f /\ map sdest cs = ks ++ [KVoid].
Proof.
  intros f ks cs NV H. pose proof (scanf_thm f ks NV) as T. rewrite H in T. destruct T as (items & E & _ & _ & C). rewrite E. exact (scalls_concat items ks cs C).
Qed.

(** ** Where the library does something else *)
Definition conv0 (w : list Z) (l : clength) (c : Z) : conv := {| vflags := []; vwidth := w; vprec := None; vlen := l; vlet := c |}.
Lemma refuted_printf : exists c cl a, printfAll (spell c) [(KInt32, -1)] = Ok [cl; {| cfmt := []; cpiece := []; carg := None |}] /\ carg cl = Some a /\ cfmt cl = spell c /\ printed c a = None.
Proof. exists (conv0 [] Lll 100). eexists. eexists. split; [vm_compute; reflexivity|]. split; [reflexivity|]. split; vm_compute; reflexivity. Qed.
Lemma refuted_any : exists f cl, printfAll f [(KInt, 5)] = Ok [cl; {| cfmt := []; cpiece := []; carg := None |}] /\ carg cl = Some PStr /\ ~ formatFor accepts (cfmt cl) [(KStr, 0)].
Proof.
  exists [37; 53; 108; 118]. eexists. split; [vm_compute; reflexivity|]. split; [reflexivity|]. cbn [cfmt].
  assert (AO : Forall argOk [(KStr, 0)]) by (constructor; [split; [discriminate|intros X; discriminate]|constructor]).
  pose proof (printf_thm [(KStr, 0)] [37; 53; 32; 115] AO) as T. assert (E : printfAll [37; 53; 32; 115] [(KStr, 0)] = Err ESyntax) by (vm_compute; reflexivity). rewrite E in T. exact T.
Qed.
Lemma refuted_scanf : (exists c cl, scanfAll (spell c) [KInt32] = Ok [cl; {| sfmt := [37; 110]; spiece := []; sdest := KVoid |}] /\ sdest cl = KInt32 /\ sizeOf KInt32 < written c) /\
  (exists c cl, scanfAll (spell c) [KChar] = Ok [cl; {| sfmt := [37; 110]; spiece := []; sdest := KVoid |}] /\ sdest cl = KChar /\ sizeOf KChar < written c).
Proof.
  split; [exists (conv0 [] Ll 100)|exists (conv0 [53] Lno 99)]; eexists; (split; [vm_compute; reflexivity|]); split; vm_compute; reflexivity.
Qed.
