(** Straight-line code: what the generator makes of it, and when it stops. *)
From Coq Require Import ZArith Bool List Lia ZifyBool.
From Verif Require Import Base NumModel NumSpec NumProofs NumExtra MemModel BlkModel GenModel GenVm GenSpec GenProofs GenEmit GenSim GenRun.
Import ListNotations.
Local Open Scope Z_scope.

Section Stop.
Variable H : Type.
Variable E : env H.
Hypothesis EOK : refcnt_ok E.
Notation ref := (refines H E).

Fixpoint genReqs (g : gst) (l : list req) : outcome gst :=
  match l with [] => Ok g | q :: r => let* g := genReq (elm E) g q in genReqs g r end.
Lemma genActs_reqs : forall l g, genActs (genReq (elm E)) g (map AReq l) = genReqs g l.
Proof. induction l as [|q l IH]; intro g; [reflexivity|]. cbn [map genActs genAct genReqs]. destruct (genReq (elm E) g q); cbn [bind]; auto. Qed.
Lemma nested_reqs : forall l m, nested m (map AReq l) = Some m.
Proof. induction l as [|q l IH]; intro m; [reflexivity|]. cbn. destruct m; apply IH. Qed.
Lemma req_iso r q g : genReq (elm E) (iso r) q = Ok g -> g = iso (rc g).
Proof.
  intro Q. rewrite (genReq_iso (elm E) (iso r) [] r q) in Q; [|unfold guarded; cbn; auto|rewrite app_nil_r; reflexivity].
  destruct (genReq (elm E) (iso r) q); cbn in Q; try discriminate. assert (g = with_rc (iso r) (rc a ++ [])) as -> by congruence. reflexivity.
Qed.
Lemma reqs_ref : forall l r g, genReqs (iso r) l = Ok g -> ref (rev r ++ map instr_of l) (rev (rc g)).
Proof.
  induction l as [|q l IH]; intros r g Q; cbn [genReqs map] in *.
  - assert (g = iso r) as -> by congruence. rewrite app_nil_r. apply refines_refl.
  - destruct (genReq (elm E) (iso r) q) as [g1| |] eqn:Q1; cbn [bind] in Q; try discriminate.
    rewrite (req_iso _ _ _ Q1) in Q. eapply refines_trans; [|apply IH; exact Q].
    change (instr_of q :: map instr_of l) with ([instr_of q] ++ map instr_of l). rewrite app_assoc. apply refines_app; [|apply refines_refl].
    apply emit_ref; assumption.
Qed.
Lemma exec_real : forall l s, exec E true l s = RUB \/ exec E true l s = exec E false l s.
Proof.
  induction l as [|i l IH]; intro s; [right; reflexivity|]. cbn [exec]. destruct (step_real H E i s) as [-> | ->]; [left; reflexivity|].
  destruct (step E false i s); auto.
Qed.
Lemma straight_thm l g s r : genActs (genReq (elm E)) genInit (map AReq l) = Ok g -> exec E true (map instr_of l) s = r -> ~ bad r ->
  exec E false (map instr_of l) s = r /\ same_res r (exec E false (code g) s).
Proof.
  intros Q X B. rewrite genActs_reqs in Q. pose proof (reqs_ref l [] g Q s s (same_refl H s)) as R. cbn [rev app] in R. rewrite X in R.
  destruct R as [R|R]; [contradiction|]. split.
  - destruct (exec_real (map instr_of l) s) as [U|U]; [|congruence]. rewrite U in X. subst r. destruct (B I).
  - unfold code. destruct (exec_real (rev (rc g)) s) as [U|U]; [|congruence]. rewrite U in R. destruct r; contradiction.
Qed.

Definition isOk (r : res H) : Prop := match r with ROk _ => True | _ => False end.
Definition fails (l : list instr) : Prop := forall s, ~ isOk (exec E true l s).
Lemma fails_ref a b : ref a b -> fails b -> fails a.
Proof.
  intros R F s K. specialize (F s). destruct (R s s (same_refl H s)) as [B|S]; destruct (exec E true a s) as [?|[] ? ?|]; cbn in *; try contradiction.
  destruct (exec E true b s); cbn in *; auto.
Qed.
Lemma fails_pre p l : fails l -> fails (p ++ l).
Proof. intros F s. rewrite exec_app. destruct (exec E true p s); cbn; auto. Qed.
Lemma fails_post p l : fails l -> fails (l ++ p).
Proof. intros F s. rewrite exec_app. specialize (F s). destruct (exec E true l s); cbn in *; tauto. Qed.
Lemma pushes pk v l s : isOk (exec E true (IPush pk v :: l) s) -> isOk (exec E true l (wc s (push (co s) (v, Some pk)))).
Proof. cbn [exec]. unfold step. destruct (_ <? _); [cbn; tauto|]. destruct (_ && _); cbn; tauto. Qed.
Lemma emit_fails q r e : genReq (elm E) (iso r) q = Err e -> (forall k, q <> QBuiltin FAtan2 k) -> fails (rev r ++ [instr_of q]).
Proof.
  intros Q NA. destruct q; cbn [genReq instr_of] in *; try discriminate Q.
  - unfold genUnary in Q. destruct r as [|i l]; [rewrite iso0 in Q|rewrite iso1 in Q; destruct i]; try discriminate Q.
    destruct (isIncDec o) eqn:ID; [discriminate|]. destruct (constUnary o k v) eqn:CU; cbn [bind] in Q; try discriminate.
    cbn [rev]. rewrite <- app_assoc. apply fails_pre. intros s K. apply pushes in K. revert K. cbn [exec]. unfold step.
    match goal with |- context [if ?b then RErr EStackOverflow _ _ else _] => destruct b; [cbn; tauto|] end. rewrite ID. unfold unary. cbn [co wc stk push with_stk]. destruct (true && isPtr k); [tauto|].
    rewrite <- (proj1 (folding_agree (elm E) o k v 0)), CU. cbn. tauto.
  - unfold genBinary in Q. destruct r as [|i [|j l]]; [rewrite iso0 in Q|rewrite iso1, iso21 in Q; destruct i|rewrite iso1, iso2 in Q; destruct i; try destruct j]; try discriminate Q.
    destruct (kindOrdinal k || kindReal k) eqn:KO; [|discriminate]. destruct (constBinary (elm E) o k v0 v) eqn:CB; cbn [bind] in Q; try discriminate.
    cbn [rev]. rewrite <- !app_assoc. apply fails_pre. intros s K. apply pushes in K. apply pushes in K. revert K. cbn [exec]. unfold step.
    match goal with |- context [if ?b then RErr EStackOverflow _ _ else _] => destruct b; [cbn; tauto|] end. unfold binary. cbn [co wc stk push with_stk]. rewrite <- (proj2 (folding_agree (elm E) o k v0 v)), CB. cbn. tauto.
  - unfold genGetArrayPtr in Q. destruct r as [|i l]; [rewrite iso0 in Q|rewrite iso1 in Q; destruct i]; try discriminate Q.
    destruct (isInt k && (0 <=? len)) eqn:IL; [|discriminate]. cbv zeta in Q. destruct (_ || _) eqn:RG; [|destruct (_ && _) eqn:SZ in Q; discriminate Q].
    cbn [rev]. rewrite <- app_assoc. apply fails_pre. intros s K. apply pushes in K. revert K. cbn [exec]. unfold step.
    match goal with |- context [if ?b then RErr EStackOverflow _ _ else _] => destruct b; [cbn; tauto|] end. unfold getArray. cbn [co wc stk push with_stk]. destruct (stk (co s)) as [|[d x] t]; [cbn; tauto|].
    apply andb_prop in IL. destruct IL as (-> & ->). cbn [andb]. destruct (s32 v =? v) eqn:SV; cbn [negb]; [|cbn; tauto].
    destruct (d =? 0); [cbn; tauto|]. cbn [snd fst]. replace (s32 v) with v in RG by lia. rewrite RG. cbn. tauto.
  - unfold genCallBuiltin in Q. destruct r as [|i l]; [rewrite iso0 in Q|rewrite iso1 in Q; destruct i]; try discriminate Q.
    assert (f <> FMakeReal -> f <> FMakeRealLeft -> f <> FAtan2 -> (let* r := constCallBuiltin (elm E) f k0 v 0 in Ok (genSetLast (iso (IPush k0 v :: l)) (IPush (resultKind f) r))) = Err e ->
            fails (rev (IPush k0 v :: l) ++ [IBuiltin f k])) as B1.
    { intros N0 N1 N2 Q1. destruct (constCallBuiltin (elm E) f k0 v 0) eqn:CB; cbn [bind] in Q1; try discriminate.
      assert (constCallBuiltin (elm E) f k v 0 = Err e0) as CB' by (rewrite <- CB; destruct f; try contradiction; reflexivity).
      pose proof (builtin_folding (elm E) f k v 0 [] ltac:(intro; contradiction)) as B. rewrite CB' in B. cbn [fmap] in B.
      cbn [rev]. rewrite <- app_assoc. apply fails_pre. intros s K. apply pushes in K. revert K. cbn [exec]. unfold step.
      match goal with |- context [if ?b then RErr EStackOverflow _ _ else _] => destruct b; [cbn; tauto|] end. unfold builtin. cbn [co wc stk push with_stk].
      destruct f; try contradiction; cbn [andb]; cbn [arg_stack] in B; rewrite B; cbn; tauto. }
    destruct f; try (apply B1; [discriminate|discriminate|discriminate|exact Q]); clear B1.
    + cbn [constCallBuiltin] in Q. destruct k0; discriminate.
    + destruct l as [|j l]; [rewrite iso21 in Q|rewrite iso2 in Q; destruct j]; try discriminate Q.
      cbn [constCallBuiltin] in Q. destruct k1; discriminate.
    + destruct (NA k eq_refl).
Qed.
Lemma reqs_fail : forall l r e, genReqs (iso r) l = Err e -> (forall k, ~ In (QBuiltin FAtan2 k) l) -> fails (rev r ++ map instr_of l).
Proof.
  induction l as [|q l IH]; intros r e Q NA; cbn [genReqs map] in *; [discriminate|].
  change (instr_of q :: map instr_of l) with ([instr_of q] ++ map instr_of l). rewrite app_assoc.
  destruct (genReq (elm E) (iso r) q) as [g1| |] eqn:Q1; cbn [bind] in Q; try discriminate.
  - rewrite (req_iso _ _ _ Q1) in Q. eapply fails_ref; [|eapply IH; [exact Q|intros k K; apply (NA k); right; exact K]].
    apply refines_app; [|apply refines_refl]. apply emit_ref; assumption.
  - apply fails_post. eapply emit_fails; [exact Q1|]. intros k ->. apply (NA k). left. reflexivity.
Qed.
Lemma stops_thm l e s : genActs (genReq (elm E)) genInit (map AReq l) = Err e -> (forall k, ~ In (QBuiltin FAtan2 k) l) ->
  match exec E true (map instr_of l) s with ROk _ => False | _ => True end.
Proof.
  intros Q NA. rewrite genActs_reqs in Q. pose proof (reqs_fail l [] e Q NA s) as F. cbn [rev app] in F. destruct (exec E true _ s); [destruct (F I)|exact I..].
Qed.
End Stop.
