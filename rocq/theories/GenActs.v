(** Every call of the generator keeps the segments of both codes in correspondence. *)
From Coq Require Import ZArith Bool List Lia ZifyBool.
From Verif Require Import Base NumModel MemModel BlkModel GenModel GenVm GenSpec GenProofs GenEmit GenSim.
Import ListNotations.
Local Open Scope nat_scope.

(** ** Emitting never makes a barrier out of other instructions. *)
Lemma nobar_cons i l : nobar (i :: l) <-> isbar i = false /\ nobar l.
Proof. unfold nobar. cbn. rewrite andb_true_iff, negb_true_iff. tauto. Qed.
Lemma nobar_app a b : nobar (a ++ b) <-> nobar a /\ nobar b.
Proof. unfold nobar. rewrite forallb_app, andb_true_iff. tauto. Qed.
Lemma nobar_rev a : nobar (rev a) <-> nobar a.
Proof. induction a as [|i a IH]; [tauto|]. cbn [rev]. rewrite nobar_app, IH, !nobar_cons. unfold nobar at 2. cbn. tauto. Qed.
Lemma nobar_tl a : nobar a -> nobar (tl a). Proof. destruct a; [auto|]. rewrite nobar_cons. tauto. Qed.
Lemma nobar_add g i : nobar (rc g) -> isbar i = false -> nobar (rc (genAddInstr g i)).
Proof. intros. cbn. apply nobar_cons. auto. Qed.
Lemma nobar_rem g : nobar (rc g) -> nobar (rc (genRemoveInstr g)).
Proof. apply nobar_tl. Qed.
Lemma nobar_set g i : nobar (rc g) -> isbar i = false -> nobar (rc (genSetLast g i)).
Proof. intros. cbn. apply nobar_cons. split; [auto|apply nobar_tl; auto]. Qed.
Lemma nobar_setprev g i : nobar (rc g) -> isbar i = false -> nobar (rc (genSetPrev g i)).
Proof.
  intros N I. unfold genSetPrev. destruct (rc g) as [|a [|b l]] eqn:R; [rewrite R; exact N|rewrite R; exact N|].
  cbn [rc with_rc]. rewrite !nobar_cons in *. tauto.
Qed.
Ltac nb := repeat first [assumption | reflexivity | apply nobar_add | apply nobar_set | apply nobar_rem | apply nobar_setprev].
Lemma nobar_deref k : forall n g, nobar (rc g) -> nobar (rc (genDerefF n g k)).
Proof.
  induction n as [|n IH]; intros g N; [exact N|]. cbn [genDerefF]. destruct (getPrevInstr g 1) as [[]|]; nb.
  - destruct (isPtr _); nb.
  - destruct (_ =? _)%Z; [apply IH|]; nb.
Qed.
Lemma nobar_field g o : nobar (rc g) -> nobar (rc (genGetFieldPtr g o)).
Proof. intro N. unfold genGetFieldPtr. destruct (getPrevInstr g 1) as [[]|]; nb. Qed.
Lemma nobar_swap g k n : nobar (rc g) -> nobar (rc (genSwapAssign g k n)).
Proof. intro N. unfold genSwapAssign. destruct (getPrevInstr g 1) as [[]|]; nb. Qed.
Lemma nobar_emit lm q g g' : barReq q = false -> nobar (rc g) -> genReq lm g q = Ok g' -> nobar (rc g').
Proof.
  intros B N Q.
  destruct q; try discriminate B; cbn [genReq] in Q;
    try (match type of Q with Ok ?x = Ok _ => assert (g' = x) as -> by congruence end; clear Q); nb.
  - unfold genPushLocalPtr. destruct (getPrevInstr g 1) as [[]|]; nb. destruct (getPrevInstr g 2) as [[]|]; nb. destruct (_ =? _)%Z; nb.
  - unfold genPushReg. destruct (getPrevInstr g 1) as [[]|]; nb. destruct r0; nb. destruct (reg_eqb _ _); nb.
  - unfold genPushZero. destruct (getPrevInstr g 1) as [[]|]; nb.
  - unfold genPop. destruct (getPrevInstr g 1) as [[]|]; nb.
  - unfold genPopReg. destruct (getPrevInstr g 1) as [[]|]; nb. destruct (reg_eqb _ _); nb.
  - apply nobar_deref; nb.
  - apply nobar_swap; nb.
  - unfold genRefCnt. destruct (tgc t && _); nb.
  - destruct (tgc t); nb. destruct swap; nb. apply nobar_swap; nb.
  - unfold genUnary in Q. destruct (getPrevInstr g 1) as [[]|];
      try (match type of Q with Ok ?x = Ok _ => assert (g' = x) as -> by congruence end; nb).
    destruct (isIncDec o); [|destruct (constUnary _ _ _); try discriminate; cbn [bind] in Q];
      match type of Q with Ok ?x = Ok _ => assert (g' = x) as -> by congruence end; nb.
  - unfold genBinary in Q. destruct (getPrevInstr g 1) as [[]|], (getPrevInstr g 2) as [[]|];
      try (match type of Q with Ok ?x = Ok _ => assert (g' = x) as -> by congruence end; nb).
    destruct (_ || _); [destruct (constBinary _ _ _ _ _); try discriminate; cbn [bind] in Q|];
      match type of Q with Ok ?x = Ok _ => assert (g' = x) as -> by congruence end; nb.
  - unfold genGetArrayPtr in Q. destruct (getPrevInstr g 1) as [[]|];
      try (match type of Q with Ok ?x = Ok _ => assert (g' = x) as -> by congruence end; nb).
    destruct (isInt k && _); [cbv zeta in Q; destruct (_ || _); [discriminate|]; destruct (_ && _); [|discriminate]|];
      match type of Q with Ok ?x = Ok _ => assert (g' = x) as -> by congruence end; [apply nobar_field|]; nb.
  - apply nobar_field; nb.
  - unfold genCallBuiltin in Q. destruct (getPrevInstr g 1) as [[]|];
      try (match type of Q with Ok ?x = Ok _ => assert (g' = x) as -> by congruence end; nb).
    destruct f; try (destruct (getPrevInstr g 2) as [[]|]);
      try (match type of Q with (let* r := ?c in _) = _ => destruct c end; try discriminate; cbn [bind] in Q);
      (match type of Q with Ok ?x = Ok _ => assert (g' = x) as -> by congruence end; nb).
Qed.
Lemma instr_of_nobar q : barReq q = false -> isbar (instr_of q) = false.
Proof. destruct q; intro B; try discriminate B; reflexivity. Qed.

Section Acts.
Variable H : Type.
Variable E : env H.
Hypothesis EOK : refcnt_ok E.
Notation KK := (K H E).
Notation emitO := (genReq (elm E)).

Definition markok (sg : list seg) (m : mark) (j : nat) : Prop :=
  match m with Stub => single sg j | Head => j <= length sg | Stub2 | ForStub => single sg j /\ single sg (S j) end.
Definition saved (sg : list seg) (p o : list nat) (ms : list mark) : Prop :=
  exists J, p = map (pos true sg) J /\ o = map (pos false sg) J /\ Forall2 (markok sg) ms J.
Definition stubs (sg : list seg) (p o : list (list nat)) : Prop :=
  exists B, p = map (map (pos true sg)) B /\ o = map (map (pos false sg)) B /\ Forall (Forall (single sg)) B.
Definition gst_ok (sg : list seg) (gp go : gst) : Prop :=
  stubs sg (brk gp) (brk go) /\ stubs sg (cnt gp) (cnt go) /\ stubs sg (ret gp) (ret go).
Definition InvS (sg : list seg) (lp lo : list instr) (ms : list mark) (gp go : gst) : Prop :=
  KK (rc gp) (rc go) (lastJump go) sg lp lo /\ saved sg (gstack gp) (gstack go) ms /\ gst_ok sg gp go.
Definition Inv (ms : list mark) (gp go : gst) : Prop := exists sg lp lo, InvS sg lp lo ms gp go.

Lemma markok_ext a b m j : ext a b -> markok a m j -> markok b m j.
Proof. intros (L & P & S) M. destruct m; cbn in *; [auto|lia|destruct M; auto|destruct M; auto]. Qed.
Lemma markok_le a m j : markok a m j -> j <= length a.
Proof. destruct m; cbn; intro M; try lia; [apply single_lt in M; lia|destruct M as (M & _); apply single_lt in M; lia..]. Qed.
Lemma map_pos_ext sel a b J : ext a b -> Forall (fun j => j <= length a) J -> map (pos sel a) J = map (pos sel b) J.
Proof. intros (L & P & S) F. induction F as [|j J Q F IH]; [reflexivity|]. cbn. rewrite IH, (P sel j Q). reflexivity. Qed.
Lemma saved_le sg J ms : Forall2 (markok sg) ms J -> Forall (fun j => j <= length sg) J.
Proof. induction 1 as [|m j ms J M F IH]; constructor; [apply (markok_le _ _ _ M)|exact IH]. Qed.
Lemma saved_ext a b p o ms : ext a b -> saved a p o ms -> saved b p o ms.
Proof.
  intros X (J & -> & -> & F). pose proof (saved_le _ _ _ F). exists J. repeat split; try (apply map_pos_ext; assumption).
  clear - X F. induction F; constructor; [eapply markok_ext; eassumption|assumption].
Qed.
Lemma stubs_ext a b p o : ext a b -> stubs a p o -> stubs b p o.
Proof.
  intros X (B & -> & -> & F). exists B.
  assert (forall sel, map (map (pos sel a)) B = map (map (pos sel b)) B) as Q.
  { intro sel. clear - X F. induction F as [|l B Q F IH]; [reflexivity|]. cbn. rewrite IH. f_equal. apply map_pos_ext; [exact X|].
    eapply Forall_impl; [|exact Q]. intros j S. apply single_lt in S. lia. }
  repeat split; try apply Q. eapply Forall_impl; [|exact F]. intro l. apply Forall_impl. apply (proj2 (proj2 X)).
Qed.
Lemma gst_ok_ext a b gp go : ext a b -> gst_ok a gp go -> gst_ok b gp go.
Proof. intros X (A & B & C). repeat split; eapply stubs_ext; eassumption. Qed.

Lemma guard_guarded g b : guard (lastJump g) b -> guarded g (rev b).
Proof.
  intros (L & Q). split; rewrite rev_length; [exact L|]. destruct Q as [Q|(b' & i & -> & B)]; [left; exact Q|].
  right. exists i, (rev b'). rewrite rev_app_distr. auto.
Qed.

(** A request that is not a barrier. *)
Lemma op_emit sg lp lo ms gp go q go' : InvS sg lp lo ms gp go -> barReq q = false -> emitO go q = Ok go' ->
  exists lo', InvS sg (lp ++ [instr_of q]) lo' ms (genAddInstr gp (instr_of q)) go'.
Proof.
  intros ((P & O & F & R & NP & NO & G) & SV & GO) B Q.
  assert (rc go = rev lo ++ rev (code_of false sg)) as RC by (rewrite <- rev_app_distr, <- O, rev_involutive; reflexivity).
  pose proof (genReq_iso (elm E) go (rev (code_of false sg)) (rev lo) q (guard_guarded _ _ G) RC) as I. rewrite Q in I.
  destruct (emitO (iso (rev lo)) q) as [gi| |] eqn:EI; cbn [onto] in I; try discriminate.
  assert (go' = with_rc go (rc gi ++ rev (code_of false sg))) as -> by congruence.
  exists (rev (rc gi)). split; [|split; assumption]. cbn [rc genAddInstr with_rc lastJump].
  assert (nobar (rc gi)) as NGI by (apply (nobar_emit (elm E) q (iso (rev lo)) gi B); [apply nobar_rev; exact NO|exact EI]).
  repeat split; try assumption.
  - cbn [rev]. rewrite P, app_assoc. reflexivity.
  - rewrite rev_app_distr, rev_involutive. reflexivity.
  - eapply refines_trans; [apply refines_app; [exact R|apply refines_refl]|].
    rewrite <- (rev_involutive lo) at 1. apply (emit_ref H E EOK q (rev lo) gi EI).
  - apply nobar_app. split; [exact NP|]. apply nobar_cons. split; [apply instr_of_nobar; exact B|reflexivity].
  - apply nobar_rev. exact NGI.
  - apply (proj1 G).
  - apply (proj2 G).
Qed.

(** A segment boundary and a single instruction, without a segment for code when there is none. *)
Lemma K_single0 rcp rco lj sg s : KK rcp rco lj sg [] [] -> (isSingle s = true \/ s = SHalt) -> target_ok (1 + length sg) s ->
  let sg' := sg ++ [s] in
  KK (concS true sg' s :: rcp) (concS false sg' s :: rco) lj sg' [] [].
Proof.
  intros (P & O & F & R & NP & NO & (G & _)) S TS sg'. pose proof (seg_target _ _ _ _ F) as T.
  assert (forall sel, code_of sel sg' = code_of sel sg ++ [concS sel sg' s]) as C.
  { intro sel. unfold sg'. rewrite code_app by exact T. cbn [flat_map]. f_equal. rewrite app_nil_r.
    unfold concS. destruct S as [S| ->]; [destruct s; try discriminate S; reflexivity|reflexivity]. }
  assert (isbar (concS false sg' s) = true) as B by (destruct S as [S| ->]; [destruct s; try discriminate S; reflexivity|reflexivity]).
  repeat split; try exact eq_refl; try apply ref_nil.
  - cbn [rev]. rewrite C, P, <- !app_assoc. reflexivity.
  - cbn [rev]. rewrite C, O, <- !app_assoc. reflexivity.
  - unfold sg'. apply Forall_app. split; [eapply seg_ok_mono; [|exact F]; rewrite app_length; lia|].
    constructor; [|constructor]. rewrite app_length. cbn [length].
    destruct S as [S| ->]; [|exact I]. destruct s; try discriminate S; cbn in *; [exact I|lia].
  - rewrite C, !app_length. lia.
  - right. rewrite C. eexists _, (concS false sg' s). split; [reflexivity|exact B].
Qed.
Definition upd (g : gst) (l : list instr) (lj : nat) (s : list nat) : gst := mkgst l lj s (brk g) (cnt g) (ret g).

Lemma op_bar sg lp lo ms gp go q go' : InvS sg lp lo ms gp go -> barReq q = true -> emitO go q = Ok go' ->
  exists s, (s = SNop \/ s = SHalt) /\ (q = QNop -> s = SNop) /\
  InvS (sg ++ [SStr lp lo; s]) [] [] ms (genAddInstr gp (instr_of q)) go'.
Proof.
  intros (KI & SV & GO) B Q.
  exists (match q with QNop => SNop | _ => SHalt end).
  assert (go' = genAddInstr go (instr_of q)) as -> by (destruct q; try discriminate B; cbn in *; congruence).
  split; [destruct q; auto|]. split; [intros ->; reflexivity|].
  split; [|split; [eapply saved_ext; [apply ext_app|exact SV]|eapply gst_ok_ext; [apply ext_app|exact GO]]].
  pose proof (K_single H E (rc gp) (rc go) (lastJump go) sg lp lo (match q with QNop => SNop | _ => SHalt end) KI) as L.
  destruct q; try discriminate B; apply L; cbn; auto.
Qed.

Lemma lj_upd g p : lastJump (genUpdateLastJump g p) = Nat.max (lastJump g) p.
Proof. unfold genUpdateLastJump. destruct (_ <? _) eqn:Q; cbn; lia. Qed.
Lemma rc_upd g p : rc (genUpdateLastJump g p) = rc g. Proof. unfold genUpdateLastJump. destruct (_ <? _); reflexivity. Qed.
Lemma stack_upd g p : gstack (genUpdateLastJump g p) = gstack g. Proof. unfold genUpdateLastJump. destruct (_ <? _); reflexivity. Qed.
Lemma upd_eq g p : genUpdateLastJump g p = mkgst (rc g) (Nat.max (lastJump g) p) (gstack g) (brk g) (cnt g) (ret g).
Proof. unfold genUpdateLastJump. destruct (_ <? _) eqn:Q; [|replace (Nat.max _ _) with (lastJump g) by lia; destruct g; reflexivity]. f_equal. lia. Qed.

Lemma saved_len sg p o ms : saved sg p o ms -> length p = length o.
Proof. intros (J & -> & -> & _). rewrite !map_length. reflexivity. Qed.
Lemma op_save sg lp lo ms gp go go' : InvS sg lp lo ms gp go -> genSavePos go = Ok go' ->
  exists gp', genSavePos gp = Ok gp' /\ let sg' := sg ++ [SStr lp lo] in
  KK (rc gp') (rc go') (lastJump go') sg' [] [] /\ gst_ok sg' gp' go' /\
  exists p o, gstack gp' = pos true sg' (length sg') :: p /\ gstack go' = pos false sg' (length sg') :: o /\ saved sg' p o ms.
Proof.
  intros (KI & SV & GO) Q. unfold genSavePos in *. pose proof (saved_len _ _ _ _ SV) as LEN. rewrite LEN.
  destruct (MAX_BLOCK_NESTING <=? length (gstack go)); [discriminate|]. cbv zeta in *.
  rewrite !upd_eq in *. eexists. split; [reflexivity|]. set (sg' := sg ++ [SStr lp lo]). rewrite <- (f_equal (fun x => match x with Ok g => g | _ => go end) Q).
  cbn [rc lastJump gstack brk cnt ret] in *. unfold ip in *. cbn [rc] in *.
  assert (KK (rc gp) (rc go) (length (rc go)) sg' [] []) as KC by (apply (K_close H E _ _ (lastJump go)); exact KI).
  split; [|split].
  - replace (Nat.max _ _) with (length (rc go)); [exact KC|]. pose proof (K_lj _ _ _ _ _ _ _ _ KI). lia.
  - eapply gst_ok_ext; [apply ext_app|exact GO].
  - exists (gstack gp), (gstack go). rewrite (K_len_p _ _ _ _ _ _ _ _ KC), (K_len_o _ _ _ _ _ _ _ _ KC). cbn [length].
    rewrite !Nat.add_0_r. repeat split; try reflexivity. eapply saved_ext; [apply ext_app|exact SV].
Qed.
Lemma saved_cons sg p o ms m j : saved sg p o ms -> markok sg m j -> saved sg (pos true sg j :: p) (pos false sg j :: o) (m :: ms).
Proof. intros (J & -> & -> & F) M. exists (j :: J). repeat split; [constructor; assumption]. Qed.
Lemma op_head ms gp go go' : Inv ms gp go -> genSavePos go = Ok go' -> exists gp', genSavePos gp = Ok gp' /\ Inv (Head :: ms) gp' go'.
Proof.
  intros (sg & lp & lo & I) Q. destruct (op_save _ _ _ _ _ _ _ I Q) as (gp' & Q' & KI & GO & p & o & SP & SO & SV).
  exists gp'. split; [exact Q'|]. exists (sg ++ [SStr lp lo]), [], []. split; [exact KI|split; [|exact GO]].
  rewrite SP, SO. apply saved_cons; [exact SV|]. cbn. lia.
Qed.
Lemma single_last sg s : isSingle s = true -> single (sg ++ [s]) (length sg).
Proof. intro S. exists s. split; [|exact S]. rewrite nth_error_app2 by lia. rewrite Nat.sub_diag. reflexivity. Qed.
(** A stub: the position is saved and the segments end with the stub. *)
Lemma op_stub_ sg lp lo ms gp go go' : InvS sg lp lo ms gp go -> genStub emitO go = Ok go' ->
  exists gp', genStub emitPlain gp = Ok gp' /\ InvS ((sg ++ [SStr lp lo]) ++ [SNop]) [] [] (Stub :: ms) gp' go' /\
    (exists p o, gstack gp' = pos true ((sg ++ [SStr lp lo]) ++ [SNop]) (length (sg ++ [SStr lp lo])) :: p /\
      gstack go' = pos false ((sg ++ [SStr lp lo]) ++ [SNop]) (length (sg ++ [SStr lp lo])) :: o /\ saved ((sg ++ [SStr lp lo]) ++ [SNop]) p o ms).
Proof.
  intros I Q. unfold genStub in *. destruct (genSavePos go) as [g1| |] eqn:S; cbn [bind] in Q; try discriminate.
  destruct (op_save _ _ _ _ _ _ _ I S) as (gp1 & S' & KI & GO & p & o & SP & SO & SV). rewrite S'. cbn [bind emitPlain instr_of].
  eexists. split; [reflexivity|]. cbn [genReq] in Q. assert (go' = genAddInstr g1 INop) as -> by congruence.
  set (sg' := sg ++ [SStr lp lo]) in *.
  assert (ext sg' (sg' ++ [SNop])) as X by apply ext_app.
  assert (forall sel, pos sel (sg' ++ [SNop]) (length sg') = pos sel sg' (length sg')) as PE by (intro; apply pos_app; lia).
  assert (saved (sg' ++ [SNop]) p o ms) as SV' by (eapply saved_ext; eassumption).
  split.
  - split; [|split].
    + exact (K_single0 _ _ _ sg' SNop KI ltac:(auto) Logic.I).
    + cbn [gstack genAddInstr with_rc]. rewrite SP, SO, <- !PE. apply saved_cons; [exact SV'|]. apply single_last. reflexivity.
    + eapply gst_ok_ext; [exact X|exact GO].
  - exists p, o. cbn [gstack genAddInstr with_rc]. rewrite SP, SO, <- !PE. auto.
Qed.

(** Overwriting a stub with a jump to the end. *)
Lemma saved_uncons sg p o m ms : saved sg p o (m :: ms) ->
  exists j p' o', p = pos true sg j :: p' /\ o = pos false sg j :: o' /\ markok sg m j /\ saved sg p' o' ms.
Proof.
  intros (J & -> & -> & F). inversion F as [|m' j ms' J' M F']; subst. exists j, (map (pos true sg) J'), (map (pos false sg) J').
  repeat split; try assumption. exists J'. auto.
Qed.
Lemma pos_end_lt rcp rco lj sg sel n : KK rcp rco lj sg [] [] -> single sg n -> pos sel sg n < length (if sel then rcp else rco).
Proof.
  intros KI S. pose proof (K_len_p _ _ _ _ _ _ _ _ KI). pose proof (K_len_o _ _ _ _ _ _ _ _ KI). cbn [length] in *.
  pose proof (single_pos sel _ _ S). pose proof (pos_mono sel sg (Datatypes.S n) (length sg) ltac:(pose proof (single_lt _ _ S); lia)).
  destruct sel; lia.
Qed.
(** genGoFromTo on both sides, from segment [n] to boundary [t]. *)
Lemma op_goto rest_p rest_o sg gp go j n t go' : KK (rc gp) (rc go) (lastJump go) sg [] [] -> single sg n -> t <= length sg ->
  gstack gp = rest_p -> gstack go = rest_o ->
  genGoFromTo go j (pos false sg n) (pos false sg t) = Ok go' ->
  exists gp', genGoFromTo gp j (pos true sg n) (pos true sg t) = Ok gp' /\
  let sg' := setnth sg n (SJmp j t) in ext sg sg' /\ length sg' = length sg /\
  KK (rc gp') (rc go') (lastJump go') sg' [] [] /\ gstack gp' = rest_p /\ gstack go' = rest_o /\
  brk gp' = brk gp /\ cnt gp' = cnt gp /\ ret gp' = ret gp /\ brk go' = brk go /\ cnt go' = cnt go /\ ret go' = ret go.
Proof.
  intros KI S T GP GO Q. unfold genGoFromTo in *.
  pose proof (pos_end_lt _ _ _ _ true n KI S) as LP. pose proof (pos_end_lt _ _ _ _ false n KI S) as LO. cbn iota in *.
  unfold ip in *. replace (pos true sg n <? length (rc gp)) with true by lia. replace (pos false sg n <? length (rc go)) with true in Q by lia.
  rewrite !upd_eq in *. cbn [rc lastJump gstack brk cnt ret with_rc] in *.
  eexists. split; [reflexivity|]. set (sg' := setnth sg n (SJmp j t)). unfold with_rc in Q. cbn [rc lastJump gstack brk cnt ret] in Q.
  assert (go' = mkgst (setnth (rc go) (length (rc go) - 1 - pos false sg n) (IJump j (pos false sg t)))
           (Nat.max (Nat.max (lastJump go) (pos false sg n)) (pos false sg t)) (gstack go) (brk go) (cnt go) (ret go)) as -> by congruence.
  cbn [rc lastJump gstack brk cnt ret with_rc].
  split; [apply ext_setnth; [exact S|reflexivity]|]. split; [apply setnth_length|]. split; [|repeat split; assumption].
  apply (K_patch H E _ _ (lastJump go)); [exact KI|exact S|exact T|].
  pose proof (K_len_o _ _ _ _ _ _ _ _ KI). cbn [length] in *. pose proof (K_lj _ _ _ _ _ _ _ _ KI).
  pose proof (pos_mono false sg t (length sg) T). lia.
Qed.
(** The same, from a state with open code, to the end of the code. *)
Lemma op_goto_end sg lp lo gp go j n go' : KK (rc gp) (rc go) (lastJump go) sg lp lo -> single sg n ->
  genGoFromTo go j (pos false sg n) (ip go) = Ok go' ->
  exists gp' sg', genGoFromTo gp j (pos true sg n) (ip gp) = Ok gp' /\ ext sg sg' /\
  KK (rc gp') (rc go') (lastJump go') sg' [] [] /\ gstack gp' = gstack gp /\ gstack go' = gstack go /\
  brk gp' = brk gp /\ cnt gp' = cnt gp /\ ret gp' = ret gp /\ brk go' = brk go /\ cnt go' = cnt go /\ ret go' = ret go.
Proof.
  intros KI S Q. set (sg1 := sg ++ [SStr lp lo]).
  pose proof (K_close H E _ _ _ _ _ _ KI) as KC. fold sg1 in KC.
  assert (ext sg sg1) as X by apply ext_app. pose proof (single_lt _ _ S) as SL.
  assert (forall sel, pos sel sg1 n = pos sel sg n) as PE by (intro; apply (proj1 (proj2 X)); lia).
  set (go1 := mkgst (rc go) (length (rc go)) (gstack go) (brk go) (cnt go) (ret go)).
  assert (genGoFromTo go1 j (pos false sg1 n) (pos false sg1 (length sg1)) = Ok go') as Q1.
  { rewrite <- Q. unfold genGoFromTo, ip. cbn [rc go1]. rewrite PE. destruct (_ <? _) eqn:L; [|reflexivity]. rewrite !upd_eq.
    cbn [rc lastJump gstack brk cnt ret go1 with_rc].
    pose proof (K_len_o _ _ _ _ _ _ _ _ KC) as LO. cbn [length] in LO. rewrite Nat.add_0_r in LO. rewrite <- LO.
    pose proof (K_lj _ _ _ _ _ _ _ _ KI). unfold with_rc. cbn [rc lastJump gstack brk cnt ret]. do 2 f_equal. lia. }
  destruct (op_goto (gstack gp) (gstack go) sg1 gp go1 j n (length sg1) go' KC (proj2 (proj2 X) _ S) ltac:(lia) eq_refl eq_refl Q1)
    as (gp' & QP & EX & LEN & KI' & REST).
  exists gp', (setnth sg1 n (SJmp j (length sg1))). split; [|split; [eapply ext_trans; eassumption|split; [exact KI'|exact REST]]].
  rewrite <- QP. f_equal; [symmetry; apply PE|]. unfold ip. rewrite (K_len_p _ _ _ _ _ _ _ _ KC). cbn [length]. lia.
Qed.
Lemma gst_ok_eq sg gp go gp' go' : brk gp' = brk gp -> cnt gp' = cnt gp -> ret gp' = ret gp -> brk go' = brk go -> cnt go' = cnt go -> ret go' = ret go ->
  gst_ok sg gp go -> gst_ok sg gp' go'.
Proof. unfold gst_ok. intros -> -> -> -> -> ->. auto. Qed.

Lemma op_fix0 ms gp go j go' : Inv (Stub :: ms) gp go -> genFixup go j 0 = Ok go' -> exists gp', genFixup gp j 0 = Ok gp' /\ Inv ms gp' go'.
Proof.
  intros (sg & lp & lo & KI & SV & GO) Q. destruct (saved_uncons _ _ _ _ _ SV) as (n & p & o & GP & GQ & S & SV').
  unfold genFixup, genRestorePos in *. rewrite GQ in Q. rewrite GP. cbn [bind] in *. unfold ip in *. cbn [rc] in *. rewrite Nat.add_0_r in *.
  set (gp1 := mkgst (rc gp) (lastJump gp) p (brk gp) (cnt gp) (ret gp)).
  set (go1 := mkgst (rc go) (lastJump go) o (brk go) (cnt go) (ret go)) in *.
  destruct (op_goto_end sg lp lo gp1 go1 j n go' KI S Q) as (gp' & sg' & QP & X & KI' & G1 & G2 & B1 & B2 & B3 & B4 & B5 & B6).
  exists gp'. split; [exact QP|]. exists sg', [], []. split; [exact KI'|]. split.
  - rewrite G1, G2. eapply saved_ext; eassumption.
  - eapply gst_ok_eq; try eassumption. eapply gst_ok_ext; eassumption.
Qed.
Lemma op_fixups0 j : forall n ms gp go ms' go', Inv ms gp go -> popStubs n ms = Some ms' -> genFixups n go j 0 = Ok go' ->
  exists gp', genFixups n gp j 0 = Ok gp' /\ Inv ms' gp' go'.
Proof.
  induction n as [|n IH]; intros ms gp go ms' go' I P Q; cbn [genFixups popStubs] in *.
  - assert (ms = ms') as <- by congruence. assert (go = go') as <- by congruence. eauto.
  - destruct ms as [|[] ms]; try discriminate. destruct (genFixup go j 0) as [g1| |] eqn:F; cbn [bind] in Q; try discriminate.
    destruct (op_fix0 _ _ _ _ _ I F) as (gp1 & FP & I1). rewrite FP. cbn [bind]. eapply IH; eassumption.
Qed.

(** With a stub still to come at the end of the code. *)
Definition V (ms : list mark) (gp go : gst) : Prop := exists sg,
  KK (INop :: rc gp) (INop :: rc go) (lastJump go) sg [] [] /\ (exists sg0, sg = sg0 ++ [SNop] /\ pos true sg (length sg0) = length (rc gp) /\ pos false sg (length sg0) = length (rc go)) /\
  saved sg (gstack gp) (gstack go) ms /\ gst_ok sg gp go.
Lemma V_intro ms gp go : Inv ms gp go -> V ms gp go.
Proof.
  intros (sg & lp & lo & KI & SV & GO). exists (sg ++ [SStr lp lo; SNop]).
  assert (ext sg (sg ++ [SStr lp lo; SNop])) as X by apply ext_app.
  split; [exact (K_single H E _ _ _ sg lp lo SNop KI ltac:(auto) Logic.I)|]. split; [|split; [eapply saved_ext; eassumption|eapply gst_ok_ext; eassumption]].
  exists (sg ++ [SStr lp lo]). rewrite <- app_assoc. split; [reflexivity|].
  pose proof (K_close H E _ _ _ _ _ _ KI) as KC. pose proof (K_len_p _ _ _ _ _ _ _ _ KC). pose proof (K_len_o _ _ _ _ _ _ _ _ KC). cbn [length] in *.
  change (sg ++ [SStr lp lo; SNop]) with (sg ++ [SStr lp lo] ++ [SNop]). rewrite app_assoc. split; rewrite pos_app by lia; lia.
Qed.
Lemma op_fix1 ms gp go j go' : V (Stub :: ms) gp go -> genFixup go j 1 = Ok go' -> exists gp', genFixup gp j 1 = Ok gp' /\ V ms gp' go'.
Proof.
  intros (sg & KI & (sg0 & SG & PP & PO) & SV & GO) Q. destruct (saved_uncons _ _ _ _ _ SV) as (n & p & o & GP & GQ & S & SV').
  unfold genFixup, genRestorePos in *. rewrite GQ in Q. rewrite GP. cbn [bind] in *. unfold ip in *. cbn [rc] in *.
  pose proof (K_len_p _ _ _ _ _ _ _ _ KI) as LP. pose proof (K_len_o _ _ _ _ _ _ _ _ KI) as LO. cbn [length] in LP, LO. rewrite Nat.add_0_r in LP, LO.
  assert (single sg (length sg0)) as SL by (rewrite SG; apply single_last; reflexivity).
  unfold genGoFromTo, ip in *. cbn [rc] in *.
  destruct (pos false sg n <? length (rc go)) eqn:L1; [|discriminate].
  assert (n <> length sg0) as NE by (intros ->; lia).
  assert (pos true sg n < length (rc gp)) as L2.
  { pose proof (single_lt _ _ S) as L. rewrite SG, app_length in L. cbn in L.
    pose proof (single_pos true _ _ S). pose proof (pos_mono true sg (Datatypes.S n) (length sg0) ltac:(lia)). lia. }
  replace (pos true sg n <? length (rc gp)) with true by lia.
  rewrite !upd_eq in *. cbn [rc lastJump gstack brk cnt ret with_rc] in *. unfold with_rc in *. cbn [rc lastJump gstack brk cnt ret] in *.
  eexists. split; [reflexivity|]. match type of Q with Ok ?x = Ok _ => assert (go' = x) as -> by congruence end. clear Q.
  exists (setnth sg n (SJmp j (length sg))). cbn [rc lastJump gstack brk cnt ret].
  assert (ext sg (setnth sg n (SJmp j (length sg)))) as X by (apply ext_setnth; [exact S|reflexivity]).
  pose proof (K_lj _ _ _ _ _ _ _ _ KI) as LJ. cbn [length] in LJ.
  split; [|split; [|split; [eapply saved_ext; eassumption|eapply gst_ok_ext; [exact X|exact GO]]]].
  - pose proof (K_patch H E _ _ _ (Nat.max (Nat.max (lastJump go) (pos false sg n)) (length (rc go) + 1)) sg n j (length sg) KI S (le_n _)
       ltac:(cbn [length]; lia)) as KP. cbv zeta in KP. cbn [length] in KP.
    replace (Datatypes.S (length (rc gp)) - 1 - pos true sg n) with (Datatypes.S (length (rc gp) - 1 - pos true sg n)) in KP by lia.
    replace (Datatypes.S (length (rc go)) - 1 - pos false sg n) with (Datatypes.S (length (rc go) - 1 - pos false sg n)) in KP by lia.
    cbn [setnth] in KP. rewrite <- LP, <- LO in KP. rewrite !Nat.add_1_r in *. exact KP.
  - exists (setnth sg0 n (SJmp j (length sg))). assert (n < length sg0) as NL.
    { pose proof (single_lt _ _ S) as L. rewrite SG, app_length in L. cbn in L. lia. }
    rewrite SG at 1. rewrite setnth_app_l by exact NL. rewrite !setnth_length.
    split; [reflexivity|]. rewrite !pos_setnth by (auto; reflexivity). auto.
Qed.
Lemma op_fixups1 j : forall n ms gp go ms' go', V ms gp go -> popStubs n ms = Some ms' -> genFixups n go j 1 = Ok go' ->
  exists gp', genFixups n gp j 1 = Ok gp' /\ V ms' gp' go'.
Proof.
  induction n as [|n IH]; intros ms gp go ms' go' I P Q; cbn [genFixups popStubs] in *.
  - assert (ms = ms') as <- by congruence. assert (go = go') as <- by congruence. eauto.
  - destruct ms as [|[] ms]; try discriminate. destruct (genFixup go j 1) as [g1| |] eqn:F; cbn [bind] in Q; try discriminate.
    destruct (op_fix1 _ _ _ _ _ I F) as (gp1 & FP & I1). rewrite FP. cbn [bind]. eapply IH; eassumption.
Qed.
Lemma V_stub ms gp go go' : V ms gp go -> genStub emitO go = Ok go' -> exists gp', genStub emitPlain gp = Ok gp' /\ Inv (Stub :: ms) gp' go'.
Proof.
  intros (sg & KI & (sg0 & SG & PP & PO) & SV & GO) Q. unfold genStub, genSavePos in *. rewrite (saved_len _ _ _ _ SV).
  destruct (MAX_BLOCK_NESTING <=? length (gstack go)); [discriminate|]. cbn [bind emitPlain genReq instr_of] in *. cbv zeta in *. rewrite !upd_eq in *.
  eexists. split; [reflexivity|]. match type of Q with Ok ?x = Ok _ => assert (go' = x) as -> by congruence end. clear Q.
  unfold ip. cbn [rc gstack]. exists sg, [], []. split; [|split].
  - cbn [rc lastJump genAddInstr with_rc]. apply (K_up H E _ _ (lastJump go)); [exact KI|]. cbn [length].
    pose proof (K_lj _ _ _ _ _ _ _ _ KI) as LJ. cbn [length] in LJ. lia.
  - cbn [gstack genAddInstr with_rc]. rewrite <- PP, <- PO. apply saved_cons; [exact SV|]. rewrite SG. apply single_last. reflexivity.
  - exact GO.
Qed.
Lemma op_stub ms gp go go' : Inv ms gp go -> genStub emitO go = Ok go' -> exists gp', genStub emitPlain gp = Ok gp' /\ Inv (Stub :: ms) gp' go'.
Proof. intros I Q. eapply V_stub; [apply V_intro; exact I|exact Q]. Qed.
Lemma op_emit_inv ms gp go q go' : Inv ms gp go -> emitO go q = Ok go' -> exists gp', emitPlain gp q = Ok gp' /\ Inv ms gp' go'.
Proof.
  intros (sg & lp & lo & I) Q. eexists. split; [reflexivity|]. destruct (barReq q) eqn:B.
  - destruct (op_bar _ _ _ _ _ _ _ _ I B Q) as (s & _ & _ & I'). eexists _, _, _. exact I'.
  - destruct (op_emit _ _ _ _ _ _ _ _ I B Q) as (lo' & I'). eexists _, _, _. exact I'.
Qed.
(** A jump back. *)
Lemma op_back sg lp lo gp go j n : KK (rc gp) (rc go) (lastJump go) sg lp lo -> n <= length sg ->
  exists sg', KK (rc (genGoto gp j (pos true sg n))) (rc (genGoto go j (pos false sg n))) (lastJump (genGoto go j (pos false sg n))) sg' [] [] /\
    ext sg sg' /\ ip (genGoto gp j (pos true sg n)) = pos true sg' (length sg') /\ ip (genGoto go j (pos false sg n)) = pos false sg' (length sg').
Proof.
  intros KI L. unfold genGoto. rewrite !upd_eq. cbn [rc lastJump gstack brk cnt ret genAddInstr with_rc]. unfold ip.
  set (sg' := sg ++ [SStr lp lo; SJmp j n]).
  assert (ext sg sg') as X by apply ext_app.
  pose proof (K_single H E _ _ _ sg lp lo (SJmp j n) KI ltac:(left; reflexivity) ltac:(cbn; lia)) as KS. cbv zeta in KS. fold sg' in KS.
  unfold concS in KS. cbn [conc hd] in KS. rewrite !(proj1 (proj2 X) _ _ L) in KS. exists sg'.
  pose proof (K_lj _ _ _ _ _ _ _ _ KI). pose proof (pos_mono false sg n _ L). pose proof (K_len_o _ _ _ _ _ _ _ _ KI).
  split; [|split; [exact X|]].
  - apply (K_up H E _ _ (lastJump go)); [exact KS|]. cbn [length]. lia.
  - pose proof (K_len_p _ _ _ _ _ _ _ _ KS). pose proof (K_len_o _ _ _ _ _ _ _ _ KS). cbn [length] in *. cbn [rc length genAddInstr with_rc]. lia.
Qed.

Lemma op_while ms gp go go' : Inv (Stub :: Head :: ms) gp go -> genWhileEpilog go = Ok go' -> exists gp', genWhileEpilog gp = Ok gp' /\ Inv ms gp' go'.
Proof.
  intros I Q. unfold genWhileEpilog in *. destruct (genFixup go JIfNot 1) as [g1| |] eqn:F; cbn [bind] in Q; try discriminate.
  destruct (op_fix1 _ _ _ _ _ (V_intro _ _ _ I) F) as (gp1 & FP & (sg & KI & (sg0 & SG & PP & PO) & SV & GO)). rewrite FP. cbn [bind].
  destruct (saved_uncons _ _ _ _ _ SV) as (n & p & o & GP & GQ & S & SV').
  unfold genRestorePos in *. rewrite GQ in Q. rewrite GP. cbn [bind] in *. eexists. split; [reflexivity|].
  match type of Q with Ok ?x = Ok _ => assert (go' = x) as -> by congruence end. clear Q.
  assert (single sg (length sg0)) as SL by (rewrite SG; apply single_last; reflexivity).
  cbn in S. exists (setnth sg (length sg0) (SJmp JGoto n)), [], [].
  assert (ext sg (setnth sg (length sg0) (SJmp JGoto n))) as X by (apply ext_setnth; [exact SL|reflexivity]).
  unfold genGoto. rewrite !upd_eq. unfold InvS. unfold genAddInstr, with_rc. cbn [rc lastJump gstack brk cnt ret].
  split; [|split; [eapply saved_ext; eassumption|exact (gst_ok_ext _ _ _ _ X GO)]].
  pose proof (K_lj _ _ _ _ _ _ _ _ KI) as LJ. pose proof (K_len_o _ _ _ _ _ _ _ _ KI) as LO. cbn [length] in *.
  pose proof (pos_mono false sg n _ S).
  pose proof (K_patch H E _ _ _ (Nat.max (Nat.max (lastJump g1) (length (rc g1))) (pos false sg n)) sg (length sg0) JGoto n KI SL S
       ltac:(cbn [length]; lia)) as KP. cbv zeta in KP. cbn [length] in KP. rewrite PP, PO in KP.
  replace (Datatypes.S (length (rc gp1)) - 1 - length (rc gp1)) with 0 in KP by lia.
  replace (Datatypes.S (length (rc g1)) - 1 - length (rc g1)) with 0 in KP by lia. exact KP.
Qed.
Lemma op_forcond ms gp go go' : Inv ms gp go -> genForCondEpilog emitO go = Ok go' ->
  exists gp', genForCondEpilog emitPlain gp = Ok gp' /\ Inv (Stub2 :: ms) gp' go'.
Proof.
  intros (sg & lp & lo & I) Q. unfold genForCondEpilog in *. destruct (genStub emitO go) as [g1| |] eqn:S; cbn [bind] in Q; try discriminate.
  destruct (op_stub_ _ _ _ _ _ _ _ I S) as (gp1 & S' & (KI & _ & GO) & p & o & SP & SO & SV). rewrite S'. cbn [bind emitPlain instr_of].
  eexists. split; [reflexivity|]. cbn [genReq] in Q. assert (go' = genAddInstr g1 INop) as -> by congruence.
  set (sg0 := sg ++ [SStr lp lo]) in *. set (sg1 := sg0 ++ [SNop]) in *. exists (sg1 ++ [SNop]), [], [].
  assert (ext sg1 (sg1 ++ [SNop])) as X by apply ext_app.
  split; [exact (K_single0 _ _ _ sg1 SNop KI ltac:(auto) Logic.I)|]. split; [|exact (gst_ok_ext _ _ _ _ X GO)].
  cbn [gstack genAddInstr with_rc]. rewrite SP, SO.
  assert (length sg0 <= length sg1) as LL by (unfold sg1; rewrite app_length; lia).
  rewrite <- !(proj1 (proj2 X)) by exact LL. apply saved_cons; [eapply saved_ext; eassumption|]. split.
  - apply (proj2 (proj2 X)). apply single_last. reflexivity.
  - replace (Datatypes.S (length sg0)) with (length sg1) by (unfold sg1; rewrite app_length; cbn; lia). apply single_last. reflexivity.
Qed.
Lemma op_forpost ms gp go go' : Inv (Stub2 :: Head :: ms) gp go -> genForPostStmtEpilog go = Ok go' ->
  exists gp', genForPostStmtEpilog gp = Ok gp' /\ Inv (ForStub :: ms) gp' go'.
Proof.
  intros (sg & lp & lo & KI & SV & GO) Q.
  destruct (saved_uncons _ _ _ _ _ SV) as (n & p & o & GP & GQ & (S1 & S2) & SV1).
  destruct (saved_uncons _ _ _ _ _ SV1) as (h & p' & o' & GP' & GQ' & SH & SV2). cbn in SH. subst p o.
  unfold genForPostStmtEpilog, genRestorePos in *. rewrite GQ in Q. rewrite GP. cbn [bind gstack] in *.
  set (gp1 := mkgst (rc (mkgst (rc gp) (lastJump gp) (pos true sg h :: p') (brk gp) (cnt gp) (ret gp))) (lastJump gp) p' (brk gp) (cnt gp) (ret gp)) in *.
  set (go1 := mkgst (rc (mkgst (rc go) (lastJump go) (pos false sg h :: o') (brk go) (cnt go) (ret go))) (lastJump go) o' (brk go) (cnt go) (ret go)) in *.
  destruct (op_back sg lp lo gp1 go1 JGoto h KI SH) as (sg1 & K1 & X1 & IP1 & IO1).
  set (gp2 := genGoto gp1 JGoto (pos true sg h)) in *. set (go2 := genGoto go1 JGoto (pos false sg h)) in *.
  change ((let* g := genGoFromTo go2 JIf (pos false sg n) (ip go2) in if MAX_BLOCK_NESTING <=? length (gstack g) then UB
    else Ok (mkgst (rc g) (lastJump g) (pos false sg n :: gstack g) (brk g) (cnt g) (ret g))) = Ok go') in Q.
  destruct (genGoFromTo go2 JIf (pos false sg n) (ip go2)) as [g3| |] eqn:F; cbn [bind] in Q; try discriminate.
  pose proof (single_lt _ _ S1) as NL.
  rewrite IO1 in F. rewrite <- (proj1 (proj2 X1) false n ltac:(lia)) in F.
  destruct (op_goto p' o' sg1 gp2 go2 JIf n (length sg1) g3 K1 (proj2 (proj2 X1) _ S1) (le_n _)
     ltac:(unfold gp2, genGoto; rewrite !upd_eq; reflexivity) ltac:(unfold go2, genGoto; rewrite !upd_eq; reflexivity) F)
    as (g4 & FP & X2 & LEN & K2 & G1 & G2 & B1 & B2 & B3 & B4 & B5 & B6).
  change (exists gp', (let* g := genGoFromTo gp2 JIf (pos true sg n) (ip gp2) in if MAX_BLOCK_NESTING <=? length (gstack g) then UB
    else Ok (mkgst (rc g) (lastJump g) (pos true sg n :: gstack g) (brk g) (cnt g) (ret g))) = Ok gp' /\ Inv (ForStub :: ms) gp' go').
  rewrite IP1. rewrite <- (proj1 (proj2 X1) true n ltac:(lia)). rewrite FP. cbn [bind]. rewrite G2 in Q. rewrite G1.
  rewrite (saved_len _ _ _ _ SV2). destruct (MAX_BLOCK_NESTING <=? length o'); [discriminate|].
  eexists. split; [reflexivity|]. match type of Q with Ok ?x = Ok _ => assert (go' = x) as -> by congruence end. clear Q.
  set (sg2 := setnth sg1 n (SJmp JIf (length sg1))) in *.
  assert (ext sg sg2) as X by (eapply ext_trans; eassumption).
  exists sg2, [], []. split; [exact K2|]. split.
  - cbn [gstack]. rewrite (proj1 (proj2 X1) true n ltac:(lia)).
    rewrite <- (proj1 (proj2 X) true n ltac:(lia)), <- (proj1 (proj2 X) false n ltac:(lia)).
    apply saved_cons; [eapply saved_ext; eassumption|]. split; apply (proj2 (proj2 X)); assumption.
  - apply (gst_ok_eq sg2 gp go); cbn [brk cnt ret]; try (rewrite ?B1, ?B2, ?B3, ?B4, ?B5, ?B6; unfold gp2, go2, genGoto; rewrite !upd_eq; reflexivity).
    exact (gst_ok_ext _ _ _ _ X GO).
Qed.
Lemma op_for ms gp go go' : Inv (ForStub :: ms) gp go -> genForEpilog go = Ok go' -> exists gp', genForEpilog gp = Ok gp' /\ Inv ms gp' go'.
Proof.
  intros (sg & lp & lo & KI & SV & GO) Q.
  destruct (saved_uncons _ _ _ _ _ SV) as (n & p & o & GP & GQ & (S1 & S2) & SV1).
  unfold genForEpilog, genRestorePos in *. rewrite GQ in Q. rewrite GP. cbn [bind gstack] in *. cbv zeta in *.
  set (gp1 := mkgst (rc gp) (lastJump gp) p (brk gp) (cnt gp) (ret gp)) in *.
  set (go1 := mkgst (rc go) (lastJump go) o (brk go) (cnt go) (ret go)) in *.
  pose proof (single_lt _ _ S2) as NL.
  assert (forall sel, pos sel sg n + 1 = pos sel sg (S n)) as P1 by (intro; rewrite (single_pos _ _ _ S1); lia).
  assert (forall sel, pos sel sg n + 2 = pos sel sg (S (S n))) as P2 by (intro; rewrite (single_pos _ _ _ S2), (single_pos _ _ _ S1); lia).
  rewrite P1, P2 in *.
  destruct (op_back sg lp lo gp1 go1 JGoto (S (S n)) KI ltac:(lia)) as (sg1 & K1 & X1 & IP1 & IO1).
  set (gp2 := genGoto gp1 JGoto (pos true sg (S (S n)))) in *. set (go2 := genGoto go1 JGoto (pos false sg (S (S n)))) in *.
  rewrite IO1 in Q. rewrite <- (proj1 (proj2 X1) false (S n) ltac:(lia)) in Q.
  destruct (op_goto p o sg1 gp2 go2 JGoto (S n) (length sg1) go' K1 (proj2 (proj2 X1) _ S2) (le_n _)
     ltac:(unfold gp2, genGoto; rewrite !upd_eq; reflexivity) ltac:(unfold go2, genGoto; rewrite !upd_eq; reflexivity) Q)
    as (g4 & FP & X2 & LEN & K2 & G1 & G2 & B1 & B2 & B3 & B4 & B5 & B6).
  rewrite IP1. rewrite <- (proj1 (proj2 X1) true (S n) ltac:(lia)). rewrite FP. eexists. split; [reflexivity|].
  assert (ext sg (setnth sg1 (S n) (SJmp JGoto (length sg1)))) as X by (eapply ext_trans; eassumption).
  eexists _, [], []. split; [exact K2|]. split; [rewrite G1, G2; eapply saved_ext; eassumption|].
  apply (gst_ok_eq _ gp go); try (rewrite ?B1, ?B2, ?B3, ?B4, ?B5, ?B6; unfold gp2, go2, genGoto; rewrite !upd_eq; reflexivity).
  exact (gst_ok_ext _ _ _ _ X GO).
Qed.

(** Breaks, continues and returns. *)
Lemma gst_ok_gotos sg gp go (w0 : goto) : gst_ok sg gp go <-> (forall w, stubs sg (gotos gp w) (gotos go w)).
Proof. split; [intros (A & B & C) []; assumption|intro A; repeat split; [apply (A GBreak)|apply (A GContinue)|apply (A GReturn)]]. Qed.
Lemma gotos_set g w l w' : gotos (set_gotos g w l) w' = if match w, w' with GBreak, GBreak | GContinue, GContinue | GReturn, GReturn => true | _, _ => false end then l else gotos g w'.
Proof. destruct w, w'; reflexivity. Qed.
Lemma set_gotos_other g w l : rc (set_gotos g w l) = rc g /\ lastJump (set_gotos g w l) = lastJump g /\ gstack (set_gotos g w l) = gstack g.
Proof. destruct w; auto. Qed.
Lemma gst_ok_set sg gp go w p o : gst_ok sg gp go -> stubs sg p o -> gst_ok sg (set_gotos gp w p) (set_gotos go w o).
Proof.
  intros G S. apply (gst_ok_gotos _ _ _ w). intro w'. rewrite !gotos_set. destruct (match w with GBreak => _ | _ => _ end); [exact S|].
  apply (proj1 (gst_ok_gotos sg gp go w)). exact G.
Qed.
Lemma op_gprolog ms gp go w : Inv ms gp go -> Inv ms (genGotosProlog gp w) (genGotosProlog go w).
Proof.
  intros (sg & lp & lo & KI & SV & GO). exists sg, lp, lo. unfold genGotosProlog, InvS.
  destruct (set_gotos_other gp w ([] :: gotos gp w)) as (-> & _ & ->). destruct (set_gotos_other go w ([] :: gotos go w)) as (-> & -> & ->).
  split; [exact KI|]. split; [exact SV|]. apply gst_ok_set; [exact GO|].
  destruct (proj1 (gst_ok_gotos sg gp go w) GO w) as (B & -> & -> & F). exists ([] :: B). repeat split. constructor; [constructor|exact F].
Qed.
Lemma op_gstub ms gp go w go' : Inv ms gp go -> genGotosAddStub emitO go w = Ok go' -> exists gp', genGotosAddStub emitPlain gp w = Ok gp' /\ Inv ms gp' go'.
Proof.
  intros (sg & lp & lo & KI & SV & GO) Q. unfold genGotosAddStub in *.
  destruct (proj1 (gst_ok_gotos sg gp go w) GO w) as (B & GP & GQ & F). rewrite GQ in Q. rewrite GP.
  destruct B as [|l B]; cbn [map] in *; [discriminate|]. rewrite map_length in *. destruct (MAX_GOTOS <=? length l); [discriminate|].
  cbn [genReq] in Q. unfold emitPlain. eexists. split; [reflexivity|]. match type of Q with Ok ?x = Ok _ => assert (go' = x) as -> by congruence end. clear Q.
  set (sg' := (sg ++ [SStr lp lo]) ++ [SNop]).
  assert (ext sg sg') as X by (unfold sg'; rewrite <- app_assoc; apply ext_app).
  pose proof (K_single H E _ _ _ sg lp lo SNop KI ltac:(auto) Logic.I) as KS. cbv zeta in KS. unfold concS in KS. cbn [conc hd] in KS.
  change (sg ++ [SStr lp lo; SNop]) with (sg ++ [SStr lp lo] ++ [SNop]) in KS. rewrite app_assoc in KS. fold sg' in KS.
  pose proof (K_close H E _ _ _ _ _ _ KI) as KC. pose proof (K_len_p _ _ _ _ _ _ _ _ KC) as LP. pose proof (K_len_o _ _ _ _ _ _ _ _ KC) as LO.
  cbn [length] in LP, LO. rewrite Nat.add_0_r in LP, LO.
  assert (single sg' (length (sg ++ [SStr lp lo]))) as SL by (apply single_last; reflexivity).
  exists sg', [], []. unfold InvS. unfold genAddInstr, with_rc. cbn [rc lastJump gstack instr_of].
  split; [|split].
  - destruct (set_gotos_other gp w ((ip gp :: map (pos true sg) l) :: map (map (pos true sg)) B)) as (-> & _ & _).
    destruct (set_gotos_other go w ((ip go :: map (pos false sg) l) :: map (map (pos false sg)) B)) as (-> & -> & _). exact KS.
  - destruct (set_gotos_other gp w ((ip gp :: map (pos true sg) l) :: map (map (pos true sg)) B)) as (_ & _ & ->).
    destruct (set_gotos_other go w ((ip go :: map (pos false sg) l) :: map (map (pos false sg)) B)) as (_ & _ & ->). eapply saved_ext; eassumption.
  - match goal with |- gst_ok _ (mkgst _ _ _ (brk ?a) _ _) (mkgst _ _ _ (brk ?b) _ _) => apply (gst_ok_eq sg' a b); try reflexivity end.
    apply gst_ok_set; [exact (gst_ok_ext _ _ _ _ X GO)|].
    assert (stubs sg' (map (map (pos true sg)) (l :: B)) (map (map (pos false sg)) (l :: B))) as (B' & E1 & E2 & F').
    { apply (stubs_ext sg sg' _ _ X). exists (l :: B). auto. }
    destruct B' as [|l' B']; [discriminate E1|]. cbn [map] in E1, E2. assert (map (pos true sg) l = map (pos true sg') l' /\ map (map (pos true sg)) B = map (map (pos true sg')) B') as (-> & ->) by (split; congruence).
    assert (map (pos false sg) l = map (pos false sg') l' /\ map (map (pos false sg)) B = map (map (pos false sg')) B') as (-> & ->) by (split; congruence).
    exists ((length (sg ++ [SStr lp lo]) :: l') :: B'). inversion F'; subst. repeat split; [| |constructor; [constructor|]; assumption].
    + cbn [map]. do 2 f_equal. unfold ip. rewrite LP. unfold sg'. rewrite (pos_app _ (sg ++ [SStr lp lo]) [SNop]) by lia. reflexivity.
    + cbn [map]. do 2 f_equal. unfold ip. rewrite LO. unfold sg'. rewrite (pos_app _ (sg ++ [SStr lp lo]) [SNop]) by lia. reflexivity.
Qed.
Lemma op_gfix : forall l sg lp lo ms gp go go', InvS sg lp lo ms gp go -> Forall (single sg) l -> genGotosFix (map (pos false sg) l) go = Ok go' ->
  exists gp' sg' lp' lo', genGotosFix (map (pos true sg) l) gp = Ok gp' /\ ext sg sg' /\ InvS sg' lp' lo' ms gp' go' /\
    (forall w, gotos gp' w = gotos gp w /\ gotos go' w = gotos go w).
Proof.
  induction l as [|n l IH]; intros sg lp lo ms gp go go' I F Q; cbn [map genGotosFix] in *.
  - assert (go = go') as <- by congruence. exists gp, sg, lp, lo. auto using ext_refl.
  - inversion F as [|? ? Sn Fl]; subst. destruct (genGotosFix (map (pos false sg) l) go) as [g1| |] eqn:F1; cbn [bind] in Q; try discriminate.
    destruct (IH _ _ _ _ _ _ _ I Fl F1) as (gp1 & sg1 & lp1 & lo1 & FP & X1 & (KI & SV & GO) & GT). rewrite FP. cbn [bind].
    pose proof (single_lt _ _ Sn) as NL. rewrite <- (proj1 (proj2 X1) false n ltac:(lia)) in Q. rewrite <- (proj1 (proj2 X1) true n ltac:(lia)).
    destruct (op_goto_end _ _ _ _ _ _ n _ KI (proj2 (proj2 X1) _ Sn) Q) as (gp2 & sg2 & QP & X2 & K2 & G1 & G2 & B1 & B2 & B3 & B4 & B5 & B6).
    exists gp2, sg2, [], []. split; [exact QP|]. split; [eapply ext_trans; eassumption|]. split; [split; [exact K2|split]|].
    + rewrite G1, G2. eapply saved_ext; eassumption.
    + eapply gst_ok_eq; try eassumption. eapply gst_ok_ext; eassumption.
    + intro w. destruct (GT w) as (T1 & T2). rewrite <- T1, <- T2. destruct w; cbn; auto.
Qed.
Lemma op_gepilog ms gp go w go' : Inv ms gp go -> genGotosEpilog go w = Ok go' -> exists gp', genGotosEpilog gp w = Ok gp' /\ Inv ms gp' go'.
Proof.
  intros (sg & lp & lo & KI & SV & GO) Q. unfold genGotosEpilog in *.
  destruct (proj1 (gst_ok_gotos sg gp go w) GO w) as (B & GP & GQ & F). rewrite GQ in Q. rewrite GP.
  destruct B as [|l B]; cbn [map] in *; [discriminate|]. inversion F as [|? ? Fl FB]; subst.
  destruct (genGotosFix (map (pos false sg) l) go) as [g1| |] eqn:F1; cbn [bind] in Q; try discriminate.
  destruct (op_gfix l sg lp lo ms gp go g1 ltac:(split; [|split]; assumption) Fl F1) as (gp1 & sg1 & lp1 & lo1 & FP & X & (K1 & SV1 & GO1) & GT).
  rewrite FP. cbn [bind]. eexists. split; [reflexivity|]. match type of Q with Ok ?x = Ok _ => assert (go' = x) as -> by congruence end. clear Q.
  exists sg1, lp1, lo1. unfold InvS.
  destruct (set_gotos_other gp1 w (map (map (pos true sg)) B)) as (-> & _ & ->). destruct (set_gotos_other g1 w (map (map (pos false sg)) B)) as (-> & -> & ->).
  split; [exact K1|]. split; [exact SV1|]. apply gst_ok_set; [exact GO1|]. apply (stubs_ext sg sg1 _ _ X). exists B. auto.
Qed.

(** ** Any call. *)
Lemma act_ok ms ms' gp go a go' : Inv ms gp go -> nest1 ms a = Some ms' -> genAct emitO go a = Ok go' ->
  exists gp', genAct emitPlain gp a = Ok gp' /\ Inv ms' gp' go'.
Proof.
  intros I N Q. destruct a; cbn [genAct nest1] in *.
  - assert (ms' = ms) as -> by congruence. eapply op_emit_inv; eassumption.
  - assert (ms' = Stub :: ms) as -> by congruence. eapply op_stub; eassumption.
  - destruct ms as [|[] ms]; try discriminate. assert (ms' = ms) as -> by congruence. eapply op_fix0; eassumption.
  - destruct ms as [|[] ms]; try discriminate. assert (ms' = Stub :: ms) as -> by congruence. unfold genElseProlog in *.
    destruct (genFixup go JIfNot 1) as [g1| |] eqn:F; cbn [bind] in Q; try discriminate.
    destruct (op_fix1 _ _ _ _ _ (V_intro _ _ _ I) F) as (gp1 & FP & I1). rewrite FP. cbn [bind]. eapply V_stub; eassumption.
  - destruct ms as [|[] ms]; try discriminate. assert (ms' = ms) as -> by congruence. eapply op_fix0; eassumption.
  - assert (ms' = ms) as -> by congruence. eapply op_emit_inv; eassumption.
  - assert (ms' = Stub :: ms) as -> by congruence. unfold genCaseConstantCheck in *.
    destruct (emitO go _) as [g1| |] eqn:F; cbn [bind] in Q; try discriminate.
    destruct (op_emit_inv _ _ _ _ _ I F) as (gp1 & FP & I1). rewrite FP. cbn [bind].
    destruct (emitO g1 _) as [g2| |] eqn:F2; cbn [bind] in Q; try discriminate.
    destruct (op_emit_inv _ _ _ _ _ I1 F2) as (gp2 & FP2 & I2). rewrite FP2. cbn [bind].
    destruct (emitO g2 _) as [g3| |] eqn:F3; cbn [bind] in Q; try discriminate.
    destruct (op_emit_inv _ _ _ _ _ I2 F3) as (gp3 & FP3 & I3). rewrite FP3. cbn [bind].
    eapply op_stub; eassumption.
  - destruct (popStubs n ms) as [l|] eqn:P; [|discriminate]. assert (ms' = Stub :: l) as -> by congruence. unfold genCaseBlockProlog in *.
    destruct (genFixups n go JIf 1) as [g1| |] eqn:F; cbn [bind] in Q; try discriminate.
    destruct (op_fixups1 _ _ _ _ _ _ _ (V_intro _ _ _ I) P F) as (gp1 & FP & I1). rewrite FP. cbn [bind]. eapply V_stub; eassumption.
  - destruct ms as [|[] ms]; try discriminate. assert (ms' = Stub :: ms) as -> by congruence. unfold genCaseBlockEpilog in *.
    destruct (genFixup go JGoto 1) as [g1| |] eqn:F; cbn [bind] in Q; try discriminate.
    destruct (op_fix1 _ _ _ _ _ (V_intro _ _ _ I) F) as (gp1 & FP & I1). rewrite FP. cbn [bind]. eapply V_stub; eassumption.
  - eapply op_fixups0; eassumption.
  - assert (ms' = Head :: ms) as -> by congruence. eapply op_head; eassumption.
  - assert (ms' = Stub :: ms) as -> by congruence. eapply op_stub; eassumption.
  - destruct ms as [|[] [|[] ms]]; try discriminate. assert (ms' = ms) as -> by congruence. eapply op_while; eassumption.
  - assert (ms' = Head :: ms) as -> by congruence. eapply op_head; eassumption.
  - destruct ms as [|[] ms]; try discriminate. assert (ms' = Stub2 :: Head :: ms) as -> by congruence. eapply op_forcond; eassumption.
  - destruct ms as [|[] [|[] ms]]; try discriminate. assert (ms' = ForStub :: ms) as -> by congruence. eapply op_forpost; eassumption.
  - destruct ms as [|[] ms]; try discriminate. assert (ms' = ms) as -> by congruence. eapply op_for; eassumption.
  - assert (ms' = Stub :: ms) as -> by congruence. unfold genShortCircuitProlog in *.
    destruct (emitO go _) as [g1| |] eqn:F; cbn [bind] in Q; try discriminate.
    destruct (op_emit_inv _ _ _ _ _ I F) as (gp1 & FP & I1). rewrite FP. cbn [bind].
    destruct (genStub emitO g1) as [g2| |] eqn:F2; cbn [bind] in Q; try discriminate.
    destruct (op_stub _ _ _ _ I1 F2) as (gp2 & FP2 & I2). rewrite FP2. cbn [bind]. eapply op_emit_inv; eassumption.
  - destruct ms as [|[] ms]; try discriminate. assert (ms' = ms) as -> by congruence. unfold genShortCircuitEpilog in *. eapply op_fix0; eassumption.
  - assert (ms' = ms) as -> by congruence. assert (go' = genGotosProlog go w) as -> by congruence. eexists. split; [reflexivity|]. apply op_gprolog. exact I.
  - assert (ms' = ms) as -> by congruence. eapply op_gstub; eassumption.
  - assert (ms' = ms) as -> by congruence. eapply op_gepilog; eassumption.
Qed.
Lemma acts_ok : forall l ms ms' gp go go', Inv ms gp go -> nested ms l = Some ms' -> genActs emitO go l = Ok go' ->
  exists gp', genActs emitPlain gp l = Ok gp' /\ Inv ms' gp' go'.
Proof.
  induction l as [|a l IH]; intros ms ms' gp go go' I N Q; cbn [nested genActs] in *.
  - assert (ms' = ms) as -> by congruence. assert (go' = go) as -> by congruence. eauto.
  - destruct (nest1 ms a) as [m1|] eqn:N1; [|discriminate]. destruct (genAct emitO go a) as [g1| |] eqn:F; cbn [bind] in Q; try discriminate.
    destruct (act_ok _ _ _ _ _ _ I N1 F) as (gp1 & FP & I1). rewrite FP. cbn [bind]. eapply IH; eassumption.
Qed.
Lemma init_ok : Inv [] genInit genInit.
Proof.
  exists [], [], []. repeat split; try exact eq_refl; try apply ref_nil; try constructor; cbn; auto.
  - exists []. repeat split; constructor.
  - exists []. repeat split; constructor.
  - exists []. repeat split; constructor.
  - exists []. repeat split; constructor.
Qed.
End Acts.
