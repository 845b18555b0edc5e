(** The code the generator makes for control statements when it never optimises. *)
From Coq Require Import ZArith Bool List Lia.
From Verif Require Import Base NumModel MemModel BlkModel GenModel GenVm GenSpec GenSim CtlModel CtlSpec.
Import ListNotations.
Local Open Scope nat_scope.

Scheme stmt_ind2 := Induction for stmt Sort Prop
  with cases_ind2 := Induction for cases Sort Prop
  with tcases_ind2 := Induction for tcases Sort Prop.
Combined Scheme stmt_mut from stmt_ind2, cases_ind2, tcases_ind2.

Fixpoint sz (p : stmt) : nat :=
  match p with
  | Skip => 0
  | Req _ => 1
  | Seq a b => sz a + sz b
  | Short _ b => 3 + sz b
  | If a => 1 + sz a
  | IfElse a b => 1 + sz a + 1 + sz b
  | Switch cs d => 1 + csz cs + sz d
  | TSwitch cs d => tsz_ cs + sz d + 1
  | For1 i c b p => sz i + sz c + 1 + sz b + sz p + 1
  | For2 i c p b => sz i + sz c + 2 + sz p + 1 + sz b + 1
  | Goto _ => 1
  end
with csz (cs : cases) : nat := match cs with CNil => 0 | CCons ks b r => 4 * length ks + 1 + sz b + 1 + csz r end
with tsz_ (cs : tcases) : nat := match cs with TNil => 0 | TCons _ b r => 5 + 1 + sz b + 1 + 1 + tsz_ r end.

Definition stub (o : option nat) : instr := match o with Some t => IJump JGoto t | None => INop end.
Record tgts : Type := mkT { tb : option nat; tc : option nat; tr : option nat }.
Definition tg (T : tgts) (w : goto) : option nat := match w with GBreak => tb T | GContinue => tc T | GReturn => tr T end.
Definition inner (T : tgts) (b c : nat) : tgts := mkT (Some b) (Some c) (tr T).
Definition chk (o : option nat) (kv : kind * Z) : list instr :=
  [IPushReg RSwitch; IPush KInt (snd kv); IBinary OpEqEq (fst kv); match o with Some t => IJump JIf t | None => INop end].
Fixpoint cg (p : stmt) (a : nat) (T : tgts) : list instr :=
  match p with
  | Skip => []
  | Req q => [instr_of q]
  | Seq x y => cg x a T ++ cg y (a + sz x) T
  | Short isAnd b => IDup :: IJump (if isAnd then JIfNot else JIf) (a + 3 + sz b) :: IPop 1 :: cg b (a + 3) T
  | If x => IJump JIfNot (a + 1 + sz x) :: cg x (a + 1) T
  | IfElse x y => (IJump JIfNot (a + sz x + 2) :: cg x (a + 1) T) ++ IJump JGoto (a + sz x + 2 + sz y) :: cg y (a + sz x + 2) T
  | Switch cs d => IPopReg RSwitch :: ccg cs (a + 1) T (Some (a + 1 + csz cs + sz d)) ++ cg d (a + 1 + csz cs) T
  | TSwitch cs d => tcg cs a T (Some (a + tsz_ cs + sz d)) ++ cg d (a + tsz_ cs) T ++ [IPop 1]
  | For1 i c b p =>
      let h := a + sz i in let body := h + sz c + 1 in let cont := body + sz b in let ex := cont + sz p + 1 in
      cg i a T ++ cg c h T ++ IJump JIfNot ex :: cg b body (inner T ex cont) ++ cg p cont T ++ [IJump JGoto h]
  | For2 i c p b =>
      let h := a + sz i in let post := h + sz c + 2 in let body := post + sz p + 1 in let ex := body + sz b + 1 in
      cg i a T ++ cg c h T ++ IJump JIf body :: IJump JGoto ex :: cg p post T ++ IJump JGoto h :: cg b body (inner T ex (body + sz b)) ++ [IJump JGoto post]
  | Goto w => [stub (tg T w)]
  end
with ccg (cs : cases) (a : nat) (T : tgts) (e : option nat) : list instr :=
  match cs with
  | CNil => []
  | CCons ks b r =>
      let blk := a + 4 * length ks + 1 in
      flat_map (chk (Some blk)) ks ++ IJump JGoto (blk + sz b + 1) :: cg b blk T ++ stub e :: ccg r (blk + sz b + 1) T e
  end
with tcg (cs : tcases) (a : nat) (T : tgts) (e : option nat) : list instr :=
  match cs with
  | TNil => []
  | TCons t b r => map instr_of (typeTest t) ++ IJump JIfNot (a + 6 + sz b + 1) :: cg b (a + 6) T ++ stub e :: IPop 1 :: tcg r (a + 6 + sz b + 2) T e
  end.

Lemma chks_len o ks : length (flat_map (chk o) ks) = 4 * length ks.
Proof. induction ks; cbn [flat_map length] in *; [reflexivity|]. rewrite app_length, IHks. cbn [chk length]. lia. Qed.
Lemma cg_len_all :
  (forall p a T, length (cg p a T) = sz p) /\ (forall cs a T e, length (ccg cs a T e) = csz cs) /\ (forall cs a T e, length (tcg cs a T e) = tsz_ cs).
Proof.
  apply stmt_mut; intros; cbn [cg ccg tcg sz csz tsz_]; cbv zeta;
  repeat first [rewrite app_length | rewrite chks_len | progress (cbn [length app typeTest map])];
  repeat match goal with H : forall _, _ |- _ => rewrite H end; cbn [length]; try lia.
Qed.
Lemma cg_len p a T : length (cg p a T) = sz p. Proof. apply cg_len_all. Qed.
Lemma ccg_len cs a T e : length (ccg cs a T e) = csz cs. Proof. apply cg_len_all. Qed.
Lemma tcg_len cs a T e : length (tcg cs a T e) = tsz_ cs. Proof. apply cg_len_all. Qed.

(** Positions of stubs, relative to the start. *)
Definition sh (n : nat) (l : list nat) : list nat := map (Nat.add n) l.
Fixpoint gpos (w : goto) (p : stmt) : list nat :=
  match p with
  | Skip | Req _ => []
  | Seq a b => gpos w a ++ sh (sz a) (gpos w b)
  | Short _ a => sh 3 (gpos w a)
  | If a => sh 1 (gpos w a)
  | IfElse a b => sh 1 (gpos w a) ++ sh (sz a + 2) (gpos w b)
  | Switch cs d => sh 1 (cgpos w cs) ++ sh (1 + csz cs) (gpos w d)
  | TSwitch cs d => tgpos w cs ++ sh (tsz_ cs) (gpos w d)
  | For1 i c b p => if goto_eqb w GReturn then sh (sz i + sz c + 1) (gpos w b) else []
  | For2 i c p b => if goto_eqb w GReturn then sh (sz i + sz c + 2 + sz p + 1) (gpos w b) else []
  | Goto x => if goto_eqb w x then [0] else []
  end
with cgpos (w : goto) (cs : cases) : list nat :=
  match cs with CNil => [] | CCons ks b r => sh (4 * length ks + 1) (gpos w b) ++ sh (4 * length ks + 1 + sz b + 1) (cgpos w r) end
with tgpos (w : goto) (cs : tcases) : list nat :=
  match cs with TNil => [] | TCons _ b r => sh 6 (gpos w b) ++ sh (6 + sz b + 2) (tgpos w r) end.
Fixpoint epos (cs : cases) : list nat :=
  match cs with CNil => [] | CCons ks b r => (4 * length ks + 1 + sz b) :: sh (4 * length ks + 1 + sz b + 1) (epos r) end.
Fixpoint tepos (cs : tcases) : list nat :=
  match cs with TNil => [] | TCons _ b r => (6 + sz b) :: sh (6 + sz b + 2) (tepos r) end.

Definition putall (ps : list nat) (i : instr) (l : list instr) : list instr := fold_right (fun p l => setnth l p i) l ps.
Lemma putall_len ps i l : length (putall ps i l) = length l.
Proof. induction ps as [|p ps IH]; [reflexivity|]. cbn. rewrite setnth_length. exact IH. Qed.
Lemma putall_app p q i l : putall (p ++ q) i l = putall p i (putall q i l).
Proof. unfold putall. apply fold_right_app. Qed.
Lemma putall_sh A ps i l : putall (sh (length A) ps) i (A ++ l) = A ++ putall ps i l.
Proof.
  induction ps as [|p ps IH]; [reflexivity|]. cbn [sh map putall fold_right] in *. change (setnth (putall (sh (length A) ps) i (A ++ l)) (length A + p) i = A ++ setnth (putall ps i l) p i).
  rewrite IH, setnth_app_r by lia. replace (length A + p - length A) with p by lia. reflexivity.
Qed.
Lemma putall_l ps i A l : Forall (fun p => p < length A) ps -> putall ps i (A ++ l) = putall ps i A ++ l.
Proof.
  induction 1 as [|p ps L F IH]; [reflexivity|]. cbn [putall fold_right] in *. change (setnth (putall ps i (A ++ l)) p i = setnth (putall ps i A) p i ++ l).
  change (putall ps i (A ++ l) = putall ps i A ++ l) in IH. rewrite IH, setnth_app_l by (rewrite putall_len; exact L). reflexivity.
Qed.
Lemma sh_lt n ps m : Forall (fun p => p < m) ps -> Forall (fun p => p < n + m) (sh n ps).
Proof. induction 1; cbn; constructor; [lia|assumption]. Qed.
Lemma lt_mono ps n m : n <= m -> Forall (fun p => p < n) ps -> Forall (fun p => p < m) ps.
Proof. intro L. apply Forall_impl. intros. lia. Qed.
Lemma gpos_lt_all w :
  (forall p, Forall (fun x => x < sz p) (gpos w p)) /\ (forall cs, Forall (fun x => x < csz cs) (cgpos w cs)) /\ (forall cs, Forall (fun x => x < tsz_ cs) (tgpos w cs)).
Proof.
  apply stmt_mut; intros; cbn [gpos cgpos tgpos sz csz tsz_]; try (destruct (goto_eqb _ _)); repeat (apply Forall_app; split); try (constructor; [lia|constructor]); try (constructor; fail);
  try (match goal with H : Forall _ ?l |- Forall _ (sh ?n ?l) => eapply lt_mono; [|apply sh_lt; exact H]; lia end);
  try (match goal with H : Forall _ ?l |- Forall _ ?l => eapply lt_mono; [|exact H]; lia end).
Qed.
Lemma gpos_lt w p : Forall (fun x => x < sz p) (gpos w p). Proof. apply gpos_lt_all. Qed.
Lemma cgpos_lt w p : Forall (fun x => x < csz p) (cgpos w p). Proof. apply gpos_lt_all. Qed.
Lemma tgpos_lt w p : Forall (fun x => x < tsz_ p) (tgpos w p). Proof. apply gpos_lt_all. Qed.
Lemma epos_lt cs : Forall (fun x => x < csz cs) (epos cs).
Proof. induction cs as [|ks b r IH]; cbn; constructor; [lia|]. eapply lt_mono; [|apply sh_lt; exact IH]. lia. Qed.
Lemma tepos_lt cs : Forall (fun x => x < tsz_ cs) (tepos cs).
Proof. induction cs as [|ks b r IH]; cbn [tepos tsz_]; constructor; [lia|]. eapply lt_mono; [|apply sh_lt; exact IH]. lia. Qed.
Lemma epos_len cs : length (epos cs) = ncases cs.
Proof. induction cs as [|ks b r IH]; cbn; [reflexivity|]. unfold sh. rewrite map_length, IH. reflexivity. Qed.
Lemma tepos_len cs : length (tepos cs) = ntcases cs.
Proof. induction cs as [|ks b r IH]; cbn; [reflexivity|]. unfold sh. rewrite map_length, IH. reflexivity. Qed.

(** Filling in the stubs. *)
Definition upd (T : tgts) (w : goto) (t : nat) : tgts :=
  match w with GBreak => mkT (Some t) (tc T) (tr T) | GContinue => mkT (tb T) (Some t) (tr T) | GReturn => mkT (tb T) (tc T) (Some t) end.
Lemma putall_cons ps i x l : putall (sh 1 ps) i (x :: l) = x :: putall ps i l.
Proof. exact (putall_sh [x] ps i l). Qed.
Lemma putall_at n A ps i l : n = length A -> putall (sh n ps) i (A ++ l) = A ++ putall ps i l.
Proof. intros ->. apply putall_sh. Qed.
Lemma sh_sh n m ps : sh n (sh m ps) = sh (n + m) ps.
Proof. unfold sh. rewrite map_map. apply map_ext. intro. lia. Qed.
Lemma putall_two A B p q n i : n = length A -> Forall (fun x => x < n) p -> putall (p ++ sh n q) i (A ++ B) = putall p i A ++ putall q i B.
Proof. intros -> F. rewrite putall_app, putall_sh. apply putall_l. exact F. Qed.
Lemma quiet_gpos_all w :
  (forall p, leaves w p = false -> gpos w p = []) /\ (forall cs, cleaves w cs = false -> cgpos w cs = []) /\ (forall cs, tleaves w cs = false -> tgpos w cs = []).
Proof.
  apply stmt_mut; cbn [leaves cleaves tleaves gpos cgpos tgpos]; intros;
  repeat match goal with H : _ || _ = false |- _ => apply orb_false_elim in H; destruct H end;
  repeat match goal with H : ?a = false -> _ = [], K : ?a = false |- _ => rewrite (H K); clear H end; try reflexivity.
  - destruct w; try reflexivity. cbn [goto_eqb andb] in *. match goal with H : ?a = false -> _ = [], K : ?a = false |- _ => rewrite (H K) end. reflexivity.
  - destruct w; try reflexivity. cbn [goto_eqb andb] in *. match goal with H : ?a = false -> _ = [], K : ?a = false |- _ => rewrite (H K) end. reflexivity.
  - match goal with H : _ = false |- _ => rewrite H end. reflexivity.
Qed.
Lemma quiet_gpos w p : quiet p = true -> gpos w p = [].
Proof.
  intro Q. unfold quiet in Q. apply negb_true_iff in Q. apply orb_false_elim in Q. destruct Q as (Q & C). apply orb_false_elim in Q. destruct Q as (A & B).
  apply quiet_gpos_all. destruct w; assumption.
Qed.
Lemma putall_mid n A M R ps i : n = length A -> Forall (fun x => x < length M) ps -> putall (sh n ps) i (A ++ M ++ R) = A ++ putall ps i M ++ R.
Proof. intros -> F. rewrite putall_sh, putall_l by exact F. reflexivity. Qed.
Lemma re1 {X} (i c : list X) x l : i ++ c ++ x :: l = (i ++ c ++ [x]) ++ l.
Proof. rewrite <- !app_assoc. reflexivity. Qed.
Lemma re2 {X} (i c : list X) x y p z l : i ++ c ++ x :: y :: p ++ z :: l = (i ++ c ++ x :: y :: p ++ [z]) ++ l.
Proof. rewrite <- !app_assoc. cbn [app]. rewrite <- app_assoc. reflexivity. Qed.
Lemma fill_all w t :
  (forall p a T, wf p = true -> tg T w = None -> putall (gpos w p) (IJump JGoto t) (cg p a T) = cg p a (upd T w t)) /\
  (forall cs a T e, cwf cs = true -> tg T w = None -> putall (cgpos w cs) (IJump JGoto t) (ccg cs a T e) = ccg cs a (upd T w t) e) /\
  (forall cs a T e, twf cs = true -> tg T w = None -> putall (tgpos w cs) (IJump JGoto t) (tcg cs a T e) = tcg cs a (upd T w t) e).
Proof.
  apply stmt_mut; cbn [wf cwf twf]; intros;
  repeat match goal with H : _ && _ = true |- _ => apply andb_prop in H; destruct H end.
  - reflexivity.
  - reflexivity.
  - cbn [gpos cg]. rewrite putall_two by (rewrite ?cg_len; auto using gpos_lt). rewrite H, H0 by assumption. reflexivity.
  - cbn [gpos cg]. change (?x :: ?y :: ?z :: ?l) with ([x; y; z] ++ l). rewrite putall_at by reflexivity. rewrite H by assumption. reflexivity.
  - cbn [gpos cg]. rewrite putall_cons, H by assumption. reflexivity.
  - cbn [gpos cg]. replace (sh (sz a + 2) (gpos w b)) with (sh (S (sz a)) (sh 1 (gpos w b))) by (rewrite sh_sh; f_equal; lia).
    rewrite putall_two. 2:{ cbn [length]. rewrite cg_len. reflexivity. } 2:{ apply (sh_lt 1 _ (sz a)). apply gpos_lt. }
    rewrite !putall_cons, H, H0 by assumption. reflexivity.
  - cbn [gpos cg]. rewrite <- sh_sh. unfold sh at 1 2. rewrite <- map_app. change (map (Nat.add 1) ?l) with (sh 1 l). rewrite putall_cons.
    rewrite putall_two by (rewrite ?ccg_len; auto using cgpos_lt). rewrite H, H0 by assumption. reflexivity.
  - cbn [gpos cg]. rewrite putall_two by (rewrite ?tcg_len; auto using tgpos_lt). rewrite putall_l by (rewrite cg_len; apply gpos_lt).
    rewrite H, H0 by assumption. reflexivity.
  - cbn [gpos cg]; cbv zeta.
    assert (forall q x, quiet q = true -> (forall a T, wf q = true -> tg T w = None -> putall (gpos w q) (IJump JGoto t) (cg q a T) = cg q a (upd T w t)) -> wf q = true -> cg q x (upd T w t) = cg q x T) as QQ.
    { intros q x Q F W. rewrite <- F by assumption. rewrite quiet_gpos by exact Q. reflexivity. }
    rewrite !(QQ init), !(QQ cond), !(QQ post) by assumption. destruct w; cbn [goto_eqb].
    1,2: reflexivity.
    rewrite re1. rewrite putall_mid.
    2:{ rewrite !app_length, !cg_len. cbn [length]. lia. } 2:{ rewrite cg_len. apply gpos_lt. }
    rewrite H1 by assumption. rewrite <- re1. reflexivity.
  - cbn [gpos cg]; cbv zeta.
    assert (forall q x, quiet q = true -> (forall a T, wf q = true -> tg T w = None -> putall (gpos w q) (IJump JGoto t) (cg q a T) = cg q a (upd T w t)) -> wf q = true -> cg q x (upd T w t) = cg q x T) as QQ.
    { intros q x Q F W. rewrite <- F by assumption. rewrite quiet_gpos by exact Q. reflexivity. }
    rewrite !(QQ init), !(QQ cond), !(QQ post) by assumption. destruct w; cbn [goto_eqb].
    1,2: reflexivity.
    rewrite re2. rewrite putall_mid.
    2:{ rewrite !app_length. cbn [length]. rewrite !app_length, !cg_len. cbn [length]. lia. } 2:{ rewrite cg_len. apply gpos_lt. }
    rewrite H2 by assumption. rewrite <- re2. reflexivity.
  - cbn [gpos cg]. destruct w, w0; cbn in *; rewrite ?H0; reflexivity.
  - reflexivity.
  - cbn [cgpos ccg]; cbv zeta.
    change (?f ++ ?x :: ?b ++ ?r) with (f ++ [x] ++ b ++ r).
    rewrite putall_app. 
    assert (forall b e r, flat_map (chk (Some (a + 4 * length ks + 1))) ks ++ [IJump JGoto (a + 4 * length ks + 1 + sz body + 1)] ++ b ++ stub e :: r =
      (flat_map (chk (Some (a + 4 * length ks + 1))) ks ++ [IJump JGoto (a + 4 * length ks + 1 + sz body + 1)] ++ b ++ [stub e]) ++ r) as R
      by (intros; rewrite <- !app_assoc; reflexivity).
    rewrite R. rewrite putall_at by (rewrite !app_length, chks_len, cg_len; cbn [length]; lia). rewrite <- R.
    rewrite (app_assoc (flat_map _ _)). rewrite putall_mid. 2:{ rewrite app_length, chks_len. cbn [length]. lia. } 2:{ rewrite cg_len. apply gpos_lt. }
    rewrite H, H0 by assumption. rewrite <- app_assoc. reflexivity.
  - reflexivity.
  - cbn [tgpos tcg]. rewrite putall_app.
    assert (forall b e r, map instr_of (typeTest t0) ++ IJump JIfNot (a + 6 + sz body + 1) :: b ++ stub e :: IPop 1 :: r =
      (map instr_of (typeTest t0) ++ IJump JIfNot (a + 6 + sz body + 1) :: b ++ [stub e; IPop 1]) ++ r) as R
      by (intros; rewrite <- !app_assoc; cbn [app]; rewrite <- app_assoc; reflexivity).
    rewrite R. rewrite putall_at by (rewrite !app_length; cbn [length]; rewrite app_length, cg_len; cbn [length typeTest map]; lia). rewrite <- R.
    change (map instr_of (typeTest t0) ++ ?x :: ?l) with ((map instr_of (typeTest t0) ++ [x]) ++ l). rewrite putall_mid by (rewrite ?cg_len; try reflexivity; apply gpos_lt).
    rewrite H, H0 by assumption. reflexivity.
Qed.
Lemma fill w t p a T : wf p = true -> tg T w = None -> putall (gpos w p) (IJump JGoto t) (cg p a T) = cg p a (upd T w t).
Proof. apply fill_all. Qed.
Lemma fill_e t cs : forall a T, putall (epos cs) (IJump JGoto t) (ccg cs a T None) = ccg cs a T (Some t).
Proof.
  induction cs as [|ks b r IH]; intros a T; [reflexivity|]. cbn [epos ccg]; cbv zeta.
  change (?x :: sh ?n ?l) with ([x] ++ sh n l). rewrite putall_app.
  assert (forall c e r, flat_map (chk (Some (a + 4 * length ks + 1))) ks ++ IJump JGoto (a + 4 * length ks + 1 + sz b + 1) :: c ++ e :: r =
      (flat_map (chk (Some (a + 4 * length ks + 1))) ks ++ IJump JGoto (a + 4 * length ks + 1 + sz b + 1) :: c) ++ e :: r) as R0
      by (intros; rewrite <- !app_assoc; reflexivity).
  assert (forall c e r, flat_map (chk (Some (a + 4 * length ks + 1))) ks ++ IJump JGoto (a + 4 * length ks + 1 + sz b + 1) :: c ++ e :: r =
      (flat_map (chk (Some (a + 4 * length ks + 1))) ks ++ IJump JGoto (a + 4 * length ks + 1 + sz b + 1) :: c ++ [e]) ++ r) as R
      by (intros; rewrite <- !app_assoc; cbn [app]; rewrite <- app_assoc; reflexivity).
  rewrite R. rewrite putall_at by (rewrite !app_length, chks_len; cbn [length]; rewrite app_length, cg_len; cbn [length]; lia). rewrite IH, <- R.
  rewrite R0. cbn [putall fold_right]. rewrite setnth_app_r by (rewrite app_length, chks_len; cbn [length]; rewrite cg_len; lia).
  rewrite app_length, chks_len; cbn [length]; rewrite cg_len. replace (_ - _) with 0 by lia. cbn [setnth]. rewrite <- R0. reflexivity.
Qed.
Lemma fill_te t cs : forall a T, putall (tepos cs) (IJump JGoto t) (tcg cs a T None) = tcg cs a T (Some t).
Proof.
  induction cs as [|k b r IH]; intros a T; [reflexivity|]. cbn [tepos tcg]; cbv zeta.
  change (?x :: sh ?n ?l) with ([x] ++ sh n l). rewrite putall_app.
  assert (forall c e r, map instr_of (typeTest k) ++ IJump JIfNot (a + 6 + sz b + 1) :: c ++ e :: r =
      (map instr_of (typeTest k) ++ IJump JIfNot (a + 6 + sz b + 1) :: c) ++ e :: r) as R0
      by (intros; rewrite <- !app_assoc; reflexivity).
  assert (forall c e r, map instr_of (typeTest k) ++ IJump JIfNot (a + 6 + sz b + 1) :: c ++ e :: IPop 1 :: r =
      (map instr_of (typeTest k) ++ IJump JIfNot (a + 6 + sz b + 1) :: c ++ [e; IPop 1]) ++ r) as R
      by (intros; rewrite <- !app_assoc; cbn [app]; rewrite <- app_assoc; reflexivity).
  rewrite R. rewrite putall_at by (rewrite !app_length; cbn [length]; rewrite app_length, cg_len; cbn [length typeTest map]; lia). rewrite IH, <- R.
  rewrite R0. cbn [putall fold_right]. rewrite setnth_app_r by (rewrite app_length; cbn [length typeTest map]; rewrite cg_len; lia).
  rewrite app_length; cbn [length typeTest map]; rewrite cg_len. replace (_ - _) with 0 by lia. cbn [setnth]. rewrite <- R0. reflexivity.
Qed.
Fixpoint kpos (ks : list (kind * Z)) : list nat := match ks with [] => [] | _ :: r => 3 :: sh 4 (kpos r) end.
Lemma kpos_lt ks : Forall (fun p => p < 4 * length ks) (kpos ks).
Proof. induction ks as [|k r IH]; cbn [kpos length]; constructor; [lia|]. eapply lt_mono; [|apply sh_lt; exact IH]. lia. Qed.
Lemma kpos_len ks : length (kpos ks) = length ks.
Proof. induction ks; cbn; [reflexivity|]. unfold sh. rewrite map_length. congruence. Qed.
Lemma fill_k t ks : putall (kpos ks) (IJump JIf t) (flat_map (chk None) ks) = flat_map (chk (Some t)) ks.
Proof.
  induction ks as [|k r IH]; [reflexivity|]. cbn [kpos flat_map]. change (3 :: sh 4 (kpos r)) with ([3] ++ sh 4 (kpos r)). rewrite putall_app.
  rewrite putall_at by reflexivity. rewrite IH. reflexivity.
Qed.
