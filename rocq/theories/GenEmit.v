(** Each emitter only changes the code since the last jump target, and preserves its effect. *)
From Coq Require Import ZArith Bool List Lia ZifyBool.
From Verif Require Import Base NumModel NumExtra MemModel BlkModel GenModel GenVm GenSpec GenProofs.
Import ListNotations.
Local Open Scope Z_scope.

Definition iso (r : list instr) : gst := mkgst r 0 [] [] [] [].
Definition isbar (i : instr) : bool := match i with INop | IJump _ _ | IHalt => true | _ => false end.
Definition guarded (g : gst) (b : list instr) : Prop :=
  (lastJump g <= length b)%nat /\ (lastJump g = length b \/ exists i b', b = i :: b' /\ isbar i = true).
Definition onto (g : gst) (b : list instr) (x : outcome gst) : outcome gst :=
  match x with Ok g' => Ok (with_rc g (rc g' ++ b)) | Err e => Err e | UB => UB end.

Lemma prev1 g i l : rc g = i :: l -> (lastJump g <= length l)%nat -> getPrevInstr g 1 = Some i.
Proof. intros R L. unfold getPrevInstr, ip. rewrite R. cbn [length]. replace (_ <? _)%nat with false by lia. reflexivity. Qed.
Lemma prev2 g i j l : rc g = i :: j :: l -> (lastJump g <= length l)%nat -> getPrevInstr g 2 = Some j.
Proof. intros R L. unfold getPrevInstr, ip. rewrite R. cbn [length]. replace (_ <? _)%nat with false by lia. reflexivity. Qed.
Lemma prev1_bar g b : rc g = b -> guarded g b -> getPrevInstr g 1 = None \/ exists i, getPrevInstr g 1 = Some i /\ isbar i = true.
Proof.
  intros R (L & [Q|(i & b' & Q & B)]); unfold getPrevInstr, ip; rewrite R; clear R.
  - left. rewrite Q. replace (_ <? _)%nat with true by lia. reflexivity.
  - subst b. destruct (_ <? _)%nat; [left; reflexivity|]. right. exists i. split; [reflexivity|exact B].
Qed.
Lemma prev2_bar g i b : rc g = i :: b -> guarded g b -> getPrevInstr g 2 = None \/ exists i, getPrevInstr g 2 = Some i /\ isbar i = true.
Proof.
  intros R (L & [Q|(j & b' & Q & B)]); unfold getPrevInstr, ip; rewrite R; clear R; cbn [length].
  - left. rewrite Q. replace (_ <? _)%nat with true by lia. reflexivity.
  - subst b. destruct (_ <? _)%nat; [left; reflexivity|]. right. exists j. split; [reflexivity|exact B].
Qed.
Lemma iso1 i l : getPrevInstr (iso (i :: l)) 1 = Some i. Proof. reflexivity. Qed.
Lemma iso0 : getPrevInstr (iso []) 1 = None. Proof. reflexivity. Qed.
Lemma iso2 i j l : getPrevInstr (iso (i :: j :: l)) 2 = Some j. Proof. reflexivity. Qed.
Lemma iso21 i : getPrevInstr (iso [i]) 2 = None. Proof. reflexivity. Qed.


Section Iso.
Variables (g : gst) (b : list instr).
Hypothesis G : guarded g b.

(** Case analysis on the last instructions of the open code [r]. *)
Ltac start R :=
  let L := fresh "L" in pose proof G as (L & _);
  match type of R with rc g = ?r ++ b => destruct r as [|i0 [|j0 l0]] end; cbn [app] in R;
  [ rewrite ?iso0; let D := fresh in destruct (prev1_bar g b R G) as [D|(?i & D & ?)]; rewrite D;
    [|match type of D with _ = Some ?i => destruct i; try discriminate end]
  | match type of R with rc g = ?x :: b => rewrite (prev1 g x b R L); rewrite iso1; rewrite ?iso21;
      let D := fresh in destruct (prev2_bar g x b R G) as [D|(?i & D & ?)]; rewrite ?D; clear D;
      [ | match goal with Q : isbar ?i = true |- _ => destruct i; try discriminate Q end ]; destruct x
    end
  | match type of R with rc g = ?x :: ?y :: ?l =>
      rewrite (prev1 g x (y :: l) R ltac:(cbn [length]; rewrite app_length; lia)); rewrite iso1;
      rewrite ?(prev2 g x y l R ltac:(rewrite app_length; lia)); rewrite ?iso2; destruct x
    end ];
  cbv beta iota.
Ltac fin R := cbn [onto bind]; unfold genAddInstr, genRemoveInstr, genSetLast, genSetPrev, with_rc;
  repeat progress (cbn [rc iso tl app lastJump gstack brk cnt ret]; rewrite ?R); reflexivity.

Lemma pushLocalPtr_iso r o : rc g = r ++ b -> genPushLocalPtr g o = with_rc g (rc (genPushLocalPtr (iso r) o) ++ b).
Proof. intro R. unfold genPushLocalPtr. start R. all: try fin R. destruct j0; try fin R. destruct (_ =? _); fin R. Qed.
Lemma pushReg_iso r x : rc g = r ++ b -> genPushReg g x = with_rc g (rc (genPushReg (iso r) x) ++ b).
Proof. intro R. unfold genPushReg. start R. all: try fin R. all: destruct r; try fin R; destruct (reg_eqb x RSelf); fin R. Qed.
Lemma pushZero_iso r x : rc g = r ++ b -> genPushZero g x = with_rc g (rc (genPushZero (iso r) x) ++ b).
Proof. intro R. unfold genPushZero. start R. all: try fin R. Qed.
Lemma pop_iso r : rc g = r ++ b -> genPop g = with_rc g (rc (genPop (iso r)) ++ b).
Proof. intro R. unfold genPop. start R. all: try fin R. Qed.
Lemma popReg_iso r x : rc g = r ++ b -> genPopReg g x = with_rc g (rc (genPopReg (iso r) x) ++ b).
Proof. intro R. unfold genPopReg. start R. all: try fin R. all: destruct (reg_eqb _ x); fin R. Qed.
Lemma swapAssign_iso r k n : rc g = r ++ b -> genSwapAssign g k n = with_rc g (rc (genSwapAssign (iso r) k n) ++ b).
Proof. intro R. unfold genSwapAssign. start R. all: try fin R. Qed.
Lemma with_rc_self r : rc g = r ++ b -> g = with_rc g (rc (iso r) ++ b).
Proof. intro R. cbn [rc iso]. rewrite <- R. destruct g; reflexivity. Qed.
Lemma refCnt_iso r inc t : rc g = r ++ b -> genRefCnt g inc t = with_rc g (rc (genRefCnt (iso r) inc t) ++ b).
Proof.
  intro R. unfold genRefCnt. replace (optimizeRefCnt g t) with (optimizeRefCnt (iso r) t).
  - destruct (tgc t && _); [fin R|apply with_rc_self; exact R].
  - unfold optimizeRefCnt. start R. all: reflexivity.
Qed.
Lemma getFieldPtr_iso r o : rc g = r ++ b -> genGetFieldPtr g o = with_rc g (rc (genGetFieldPtr (iso r) o) ++ b).
Proof. intro R. unfold genGetFieldPtr. start R. all: try fin R. Qed.
Lemma unary_iso r o k : rc g = r ++ b -> genUnary g o k = onto g b (genUnary (iso r) o k).
Proof. intro R. unfold genUnary. start R. all: try fin R. all: destruct (isIncDec o); try fin R; destruct (constUnary o k _); fin R. Qed.
Lemma binary_iso lm r o k : rc g = r ++ b -> genBinary lm g o k = onto g b (genBinary lm (iso r) o k).
Proof.
  intro R. unfold genBinary. start R. all: try fin R. destruct j0; try fin R. destruct (_ || _); try fin R.
  destruct (constBinary _ _ _ _ _); fin R.
Qed.
Lemma builtin_iso lm r f k : rc g = r ++ b -> genCallBuiltin lm g f k = onto g b (genCallBuiltin lm (iso r) f k).
Proof.
  intro R. unfold genCallBuiltin. start R. all: try fin R.
  all: destruct f; try fin R; try (destruct (constCallBuiltin _ _ _ _ _); fin R).
  all: destruct j0; try fin R; destruct (constCallBuiltin _ _ _ _ _); fin R.
Qed.
End Iso.
Lemma guarded_with_rc g b l : guarded g b -> guarded (with_rc g l) b.
Proof. intros (A & B). split; [exact A|exact B]. Qed.
Lemma with_rc_with_rc g l l' : with_rc (with_rc g l) l' = with_rc g l'. Proof. reflexivity. Qed.
Lemma deref_iso k : forall n m g b r, guarded g b -> rc g = r ++ b -> (length r < n)%nat -> (length r < m)%nat ->
  genDerefF n g k = with_rc g (rc (genDerefF m (iso r) k) ++ b).
Proof.
  induction n as [|n IH]; intros m g b r G R N M; [lia|]. destruct m as [|m]; [lia|]. cbn [genDerefF].
  pose proof G as (L & _). destruct r as [|i0 l0].
  - rewrite iso0. cbn [app] in R. destruct (prev1_bar g b R G) as [D|(i & D & B)]; rewrite D.
    + unfold genAddInstr. rewrite R. reflexivity.
    + destruct i; try discriminate B; unfold genAddInstr; rewrite R; reflexivity.
  - cbn [app] in R. rewrite (prev1 g i0 (l0 ++ b) R ltac:(rewrite app_length; lia)), iso1.
    assert (forall i, genSetLast g i = with_rc g (rc (genSetLast (iso (i0 :: l0)) i) ++ b)) as Q1 by (intro; unfold genSetLast; rewrite R; reflexivity).
    assert (forall i, genAddInstr g i = with_rc g (rc (genAddInstr (iso (i0 :: l0)) i) ++ b)) as Q2 by (intro; unfold genAddInstr; rewrite R; reflexivity).
    assert (forall i, genAddInstr (genRemoveInstr g) i = with_rc g (rc (genAddInstr (genRemoveInstr (iso (i0 :: l0))) i) ++ b)) as Q3
      by (intro; unfold genAddInstr, genRemoveInstr; rewrite R; reflexivity).
    destruct i0; try apply Q1; try apply Q2; try apply Q3.
    + destruct (isPtr k0); [apply Q3|apply Q2].
    + destruct (o =? 0); [|apply Q1].
      replace (genRemoveInstr g) with (with_rc g (l0 ++ b)) by (unfold genRemoveInstr; rewrite R; reflexivity).
      rewrite (IH m (with_rc g (l0 ++ b)) b l0); [reflexivity|apply guarded_with_rc; exact G|reflexivity|cbn [length] in N; lia|cbn [length] in M; lia].
Qed.
Lemma getArrayPtr_iso g b r size len : guarded g b -> rc g = r ++ b -> genGetArrayPtr g size len = onto g b (genGetArrayPtr (iso r) size len).
Proof.
  intros G R. unfold genGetArrayPtr. pose proof G as (L & _).
  assert (forall i, Ok (genAddInstr g i) = onto g b (Ok (genAddInstr (iso r) i))) as Q2 by (intro; unfold genAddInstr; rewrite R; reflexivity).
  destruct r as [|i0 l0].
  - rewrite iso0. cbn [app] in R. destruct (prev1_bar g b R G) as [D|(i & D & B)]; rewrite D; [apply Q2|destruct i; try discriminate B; apply Q2].
  - cbn [app] in R. rewrite (prev1 g i0 (l0 ++ b) R ltac:(rewrite app_length; lia)), iso1. destruct i0; try apply Q2.
    destruct (isInt k && (0 <=? len)); [|apply Q2]. cbv zeta. destruct (_ || _); [reflexivity|]. destruct (_ && _); [|reflexivity].
    cbn [onto]. f_equal. replace (genRemoveInstr g) with (with_rc g (l0 ++ b)) by (unfold genRemoveInstr; rewrite R; reflexivity).
    rewrite (getFieldPtr_iso (with_rc g (l0 ++ b)) b (guarded_with_rc _ _ _ G) l0); reflexivity.
Qed.
Lemma genReq_iso lm g b r q : guarded g b -> rc g = r ++ b -> genReq lm g q = onto g b (genReq lm (iso r) q).
Proof.
  intros G R.
  assert (forall i, Ok (genAddInstr g i) = onto g b (Ok (genAddInstr (iso r) i))) as A by (intro; unfold genAddInstr; rewrite R; reflexivity).
  destruct q; cbn [genReq]; try apply A; cbn [onto].
  - f_equal. apply pushLocalPtr_iso; assumption.
  - f_equal. apply pushReg_iso; assumption.
  - f_equal. apply pushZero_iso; assumption.
  - f_equal. apply pop_iso; assumption.
  - f_equal. apply popReg_iso; assumption.
  - f_equal. unfold genDeref. apply deref_iso; try assumption; unfold ip; [rewrite R, app_length; lia|cbn; lia].
  - f_equal. apply swapAssign_iso; assumption.
  - f_equal. apply refCnt_iso; assumption.
  - f_equal. destruct (tgc t); [specialize (A (IRefCntAssign swap lft t)); cbn [onto] in A; congruence|].
    destruct swap; [apply swapAssign_iso; assumption|specialize (A (IAssign (tk t) (tsz t))); cbn [onto] in A; congruence].
  - apply unary_iso; assumption.
  - apply binary_iso; assumption.
  - apply getArrayPtr_iso; assumption.
  - f_equal. apply getFieldPtr_iso; assumption.
  - apply builtin_iso; assumption.
Qed.

(** ** The effect. *)
Section Effect.
Variable H : Type.
Variable E : env H.
Hypothesis EOK : refcnt_ok E.
Notation ref := (refines H E).

Lemma pre1 i l l' x : ref [i; x] l' -> ref (rev (i :: l) ++ [x]) (rev l ++ l').
Proof. intro Q. cbn [rev]. rewrite <- app_assoc. apply refines_pre. exact Q. Qed.
Lemma pre2 i j l l' x : ref [j; i; x] l' -> ref (rev (i :: j :: l) ++ [x]) (rev l ++ l').
Proof. intro Q. cbn [rev]. rewrite <- !app_assoc. apply refines_pre. exact Q. Qed.
Lemma keep_ l x : ref (rev l ++ [x]) (rev (x :: l)).
Proof. apply refines_refl. Qed.

Lemma deref_ref k : forall n r, (length r < n)%nat -> ref (rev r ++ [IDeref k]) (rev (rc (genDerefF n (iso r) k))).
Proof.
  induction n as [|n IH]; intros r N; [lia|]. cbn [genDerefF]. destruct r as [|i l]; [rewrite iso0; apply keep_|]. rewrite iso1.
  cbn [length] in N. destruct i; try apply keep_.
  - destruct k0; try apply keep_. apply (pre1 _ _ [_]). apply r_push_deref.
  - apply (pre1 _ _ [_]). apply r_local_deref.
  - apply (pre1 _ _ [_]). apply r_array_deref.
  - apply (pre1 _ _ [_]). apply r_dyn_deref.
  - apply (pre1 _ _ [_]). apply r_map_deref.
  - destruct (o =? 0) eqn:O.
    + apply Z.eqb_eq in O. subst o. eapply refines_trans; [apply pre1; apply r_field0_deref|]. apply IH. lia.
    + apply (pre1 _ _ [_]). apply r_field_deref.
Qed.
Lemma fieldptr_ref o r : ref (rev r ++ [IGetFieldPtr o]) (rev (rc (genGetFieldPtr (iso r) o))).
Proof.
  unfold genGetFieldPtr. destruct r as [|i l]; [apply keep_|]. rewrite iso1. destruct i; try apply keep_.
  - apply (pre1 _ _ [_]). apply r_local_field.
  - apply (pre1 _ _ [_]). apply r_field_field.
Qed.
Lemma swapassign_ref k n r : ref (rev r ++ [ISwapAssign k n]) (rev (rc (genSwapAssign (iso r) k n))).
Proof.
  unfold genSwapAssign. destruct r as [|i l]; [apply keep_|]. rewrite iso1. destruct i; try apply keep_.
  apply (pre1 _ _ [_]). apply r_swap_assign.
Qed.
Lemma emit_ref q r g' : genReq (elm E) (iso r) q = Ok g' -> ref (rev r ++ [instr_of q]) (rev (rc g')).
Proof.
  intro Q. destruct q; cbn [genReq instr_of] in *;
    try (match type of Q with Ok ?x = Ok _ => assert (g' = x) as -> by congruence end; try apply keep_; clear Q).
  - unfold genPushLocalPtr. destruct r as [|i [|j l]]; try apply keep_.
    + rewrite iso1, iso21. destruct i; apply keep_.
    + rewrite iso1, iso2. destruct i; try apply keep_. destruct j; try apply keep_. destruct (o =? _) eqn:O; [|apply keep_].
      apply Z.eqb_eq in O. subst. apply (pre2 _ _ _ [_]). apply r_zero.
  - unfold genPushReg. destruct r as [|i l]; [apply keep_|]. rewrite iso1. destruct i; try apply keep_. destruct r; try apply keep_.
    destruct r0; try apply keep_. cbn [reg_eqb]. rewrite <- (app_nil_r (rev (rc _))).
    apply pre1. apply r_pop_push.
  - unfold genPushZero. destruct r as [|i l]; [apply keep_|]. rewrite iso1. destruct i; try apply keep_. apply (pre1 _ _ [_]). apply r_push_zero.
  - unfold genPop. destruct r as [|i l]; [apply keep_|]. rewrite iso1. destruct i; try apply keep_. apply (pre1 _ _ [_]). apply r_pop.
  - unfold genPopReg. destruct r as [|i l]; [apply keep_|]. rewrite iso1. destruct i; try apply keep_. destruct (reg_eqb r r0) eqn:RR; [|apply keep_].
    assert (r = r0) as -> by (destruct r, r0; try discriminate RR; reflexivity).
    rewrite <- (app_nil_r (rev (rc _))). apply pre1. apply r_push_pop.
  - unfold genDeref. apply deref_ref. cbn. lia.
  - apply swapassign_ref.
  - unfold genRefCnt. destruct (tgc t) eqn:GC; cbn [andb].
    2:{ rewrite <- (app_nil_r (rev (rc _))). apply refines_pre. apply r_nogc; assumption. }
    destruct (optimizeRefCnt (iso r) t) eqn:O; cbn [negb]; [|apply keep_].
    unfold optimizeRefCnt in O. destruct r as [|i l]; [discriminate|]. rewrite iso1 in O.
    destruct i; try discriminate O.
    + destruct k; try discriminate O. cbn [isPtr andb] in O. apply (pre1 _ _ [_]). apply r_static; [assumption|].
      destruct (tk t); cbn in O; try discriminate O; auto.
    + apply (pre1 _ _ [_]). apply r_zeroed; assumption.
  - destruct (tgc t) eqn:GC; [apply keep_|]. eapply refines_trans; [apply refines_pre; apply r_assign; assumption|].
    destruct swap; [apply swapassign_ref|apply keep_].
  - unfold genUnary in Q. destruct r as [|i l]; [rewrite iso0 in Q|rewrite iso1 in Q; destruct i];
      try (match type of Q with Ok ?x = Ok _ => assert (g' = x) as -> by congruence end; apply keep_).
    destruct (isIncDec o) eqn:ID; [match type of Q with Ok ?x = Ok _ => assert (g' = x) as -> by congruence end; apply keep_|].
    destruct (constUnary o k v) eqn:CU; cbn [bind] in Q; try discriminate.
    match type of Q with Ok ?x = Ok _ => assert (g' = x) as -> by congruence end. apply (pre1 _ _ [_]). apply r_unary; assumption.
  - unfold genBinary in Q. destruct r as [|i [|j l]]; [rewrite iso0 in Q|rewrite iso1, iso21 in Q; destruct i|rewrite iso1, iso2 in Q; destruct i; try destruct j];
      try (match type of Q with Ok ?x = Ok _ => assert (g' = x) as -> by congruence end; apply keep_).
    destruct (kindOrdinal k || kindReal k) eqn:KO; [|match type of Q with Ok ?x = Ok _ => assert (g' = x) as -> by congruence end; apply keep_].
    destruct (constBinary (elm E) o k v0 v) eqn:CB; cbn [bind] in Q; try discriminate.
    match type of Q with Ok ?x = Ok _ => assert (g' = x) as -> by congruence end. apply (pre2 _ _ _ [_]). apply r_binary; assumption.
  - unfold genGetArrayPtr in Q. destruct r as [|i l]; [rewrite iso0 in Q|rewrite iso1 in Q; destruct i];
      try (match type of Q with Ok ?x = Ok _ => assert (g' = x) as -> by congruence end; apply keep_).
    destruct (isInt k && (0 <=? len)) eqn:IL; [|match type of Q with Ok ?x = Ok _ => assert (g' = x) as -> by congruence end; apply keep_].
    cbv zeta in Q. destruct (_ || _) eqn:RG; [discriminate|]. destruct (_ && _) eqn:SZ in Q; [|discriminate].
    assert (g' = genGetFieldPtr (iso l) (size * s32 v)) as -> by (change (Ok (genGetFieldPtr (iso l) (size * s32 v)) = Ok g') in Q; congruence).
    apply andb_prop in IL. destruct IL as (KI & LL). destruct k; try discriminate KI.
    eapply refines_trans; [apply pre1; apply r_array_const; [lia|exact RG]|]. apply fieldptr_ref.
  - apply fieldptr_ref.
  - unfold genCallBuiltin in Q. destruct r as [|i l]; [rewrite iso0 in Q|rewrite iso1 in Q; destruct i];
      try (match type of Q with Ok ?x = Ok _ => assert (g' = x) as -> by congruence end; apply keep_).
    assert (f <> FMakeRealLeft -> f <> FAtan2 -> (let* r := constCallBuiltin (elm E) f k0 v 0 in Ok (genSetLast (iso (IPush k0 v :: l)) (IPush (resultKind f) r))) = Ok g' ->
            ref (rev (IPush k0 v :: l) ++ [IBuiltin f k]) (rev (rc g'))) as B1.
    { intros N1 N2 Q1. destruct (constCallBuiltin (elm E) f k0 v 0) eqn:CB; cbn [bind] in Q1; try discriminate.
      match type of Q1 with Ok ?x = Ok _ => assert (g' = x) as -> by congruence end. apply (pre1 _ _ [_]). apply r_builtin1; assumption. }
    destruct f; try (apply B1; [discriminate|discriminate|exact Q]); clear B1.
    + destruct l as [|j l]; [rewrite iso21 in Q|rewrite iso2 in Q; destruct j];
        try (match type of Q with Ok ?x = Ok _ => assert (g' = x) as -> by congruence end; apply keep_).
      match type of Q with (let* r := ?c in _) = _ => destruct c eqn:CB end; cbn [bind] in Q; try discriminate.
      match type of Q with Ok ?x = Ok _ => assert (g' = x) as -> by congruence end.
      change (rev (rc (genSetPrev (iso (IPush k0 v :: IPush k1 v0 :: l)) (IPush KReal a)))) with ((rev l ++ [IPush KReal a]) ++ [IPush k0 v]).
      rewrite <- app_assoc. apply pre2. apply r_make_left; assumption.
    + destruct l as [|j l]; [rewrite iso21 in Q|rewrite iso2 in Q; destruct j];
        try (match type of Q with Ok ?x = Ok _ => assert (g' = x) as -> by congruence end; apply keep_).
      match type of Q with (let* r := ?c in _) = _ => destruct c eqn:CB end; cbn [bind] in Q; try discriminate.
      match type of Q with Ok ?x = Ok _ => assert (g' = x) as -> by congruence end. apply (pre2 _ _ _ [_]). eapply r_atan2; eassumption.
Qed.
(** Nothing but instructions that go on to the next is made of them. *)
Definition plainI (i : instr) : bool := negb (isbar i).
Definition barReq (q : req) : bool := match q with QNop | QHalt => true | _ => false end.
End Effect.
