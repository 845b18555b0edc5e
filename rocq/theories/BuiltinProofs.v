(** Proofs about calls of built-in functions. *)
From Coq Require Import ZArith Lia Bool List.
From Verif Require Import BuiltinModel BuiltinSpec.
Import ListNotations.
Local Open Scope Z_scope.

Lemma tyEq_ok a : forall b, tyEq a b = true <-> a = b.
Proof.
  induction a; intros []; cbn; try (split; congruence); try tauto;
    rewrite ?andb_true_iff, ?Z.eqb_eq, ?IHa, ?IHa1, ?IHa2;
    (split; [intros H; repeat match goal with H : _ /\ _ |- _ => destruct H end; congruence
            |intros H; inversion H; subst; auto]).
Qed.
Lemma placeEq_ok p q : placeEq p q = true <-> p = q.
Proof. destruct p, q; cbn; rewrite ?Z.eqb_eq; split; congruence. Qed.
Lemma store_same m p v : store m p v p = v.
Proof. unfold store. destruct (placeEq p p) eqn:E; auto. assert (placeEq p p = true) by (apply placeEq_ok; auto). congruence. Qed.
Lemma store_other m p v q : q <> p -> store m p v q = m q.
Proof. unfold store. destruct (placeEq q p) eqn:E; auto. apply placeEq_ok in E. congruence. Qed.

Lemma exec_app c1 : forall c2 st, exec (c1 ++ c2) st = match exec c1 st with Running st' => exec c2 st' | r => r end.
Proof. induction c1 as [|i c1 IH]; cbn [exec app]; intros; auto. destruct (exec1 i st); auto. Qed.

Section P.
Variables (conv compat : ty -> ty -> bool) (ioOk : builtin -> nat -> ty -> bool) (ioEnd : builtin -> nat -> bool) (sizeOf : ty -> option Z) (less : ty -> bool).
Variables (fiberFn : ty) (compareFn : ty -> ty).
Hypothesis Hconv : forall d, conv d TVoid = false.
Hypothesis Hcompat : forall d, d <> TVoid -> compat d TVoid = false.
Hypothesis Hio : forall b i, ioOk b i TVoid = false.

Notation parse := (parseCall conv compat ioOk ioEnd sizeOf less fiberFn compareFn).
Notation mean := (means conv compat ioOk ioEnd sizeOf less fiberFn compareFn).

Lemma ev a s m nx seen : a_ty a <> TVoid -> exec1 (IEval a) (MkS s m nx seen) = Running (MkS (plain a :: s) m nx seen).
Proof. cbn [exec1]. destruct (a_ty a); try congruence; reflexivity. Qed.
Lemma ex_eval a c s m nx seen : a_ty a <> TVoid -> exec (IEval a :: c) (MkS s m nx seen) = exec c (MkS (plain a :: s) m nx seen).
Proof. intros H. cbn [exec]. rewrite ev by auto. reflexivity. Qed.
Lemma ex_conv t c v s m nx seen : exec (IConv t :: c) (MkS (v :: s) m nx seen) = exec c (MkS (VConv t v :: s) m nx seen).
Proof. reflexivity. Qed.
Lemma ex_push v c s m nx seen : exec (IPush v :: c) (MkS s m nx seen) = exec c (MkS (v :: s) m nx seen).
Proof. reflexivity. Qed.
Lemma ex_temp o c s m nx seen : exec (IPushTemp o :: c) (MkS s m nx seen) = exec c (MkS (VPtr (PTemp o) :: s) m nx seen).
Proof. reflexivity. Qed.
Lemma ex_swapassign c p v s m nx seen : exec (ISwapAssign :: c) (MkS (VPtr p :: v :: s) m nx seen) = exec c (MkS s (store m p v) nx seen).
Proof. reflexivity. Qed.
Lemma ex_assign c p v s m nx seen : exec (IAssign :: c) (MkS (v :: VPtr p :: s) m nx seen) = exec c (MkS s (store m p v) nx seen).
Proof. reflexivity. Qed.
Lemma ex_pop c v s m nx seen : exec (IPop :: c) (MkS (v :: s) m nx seen) = exec c (MkS s m nx seen).
Proof. reflexivity. Qed.
Lemma ex_dup c v s m nx seen : exec (IDup :: c) (MkS (v :: s) m nx seen) = exec c (MkS (v :: v :: s) m nx seen).
Proof. reflexivity. Qed.
Lemma ex_swap c a b s m nx seen : exec (ISwap :: c) (MkS (a :: b :: s) m nx seen) = exec c (MkS (b :: a :: s) m nx seen).
Proof. reflexivity. Qed.
Lemma ex_call b t c s m nx seen : exec (ICall b t :: c) (MkS s m nx seen) =
  match callBuiltin b t (MkS s m nx seen) with Running st' => exec c st' | r => r end.
Proof. reflexivity. Qed.
Lemma conv_nv d a : conv d (a_ty a) = true -> a_ty a <> TVoid.
Proof. intros H E. rewrite E, Hconv in H. discriminate. Qed.
Lemma compat_nv d a : d <> TVoid -> compat d (a_ty a) = true -> a_ty a <> TVoid.
Proof. intros D H E. rewrite E, Hcompat in H; auto. discriminate. Qed.

(** Input and output. *)
Lemma io_parse b l : forall i c, ioValues ioOk b i l = Some c ->
  exists vs, io_vals ioOk b i l vs /\
  forall s f k rest m nx seen,
    exec (c ++ [IPush (VInt 0); ICall b TVoid; IPop]) (MkS (f :: s :: k :: rest) m nx seen) =
    exec [] (if isIO b then MkS ((match b with BSprintf | BSscanf => fold_left VStream (io_events b s f vs) s | _ => s end)
                  :: fold_left VCount (io_events b s f vs) k :: rest) m nx
                 (seen ++ match b with BSprintf => [] | _ => map FIO (io_events b s f vs) end) else MkS [] m nx seen) \/ isIO b = false.
Proof.
  induction l as [|x l IH]; intros i c H; cbn [ioValues] in H.
  - injection H as <-. exists []. split; [constructor|]. intros.
    destruct (isIO b) eqn:B; auto. left. destruct b; try discriminate; cbn; rewrite ?app_nil_r; reflexivity.
  - destruct x as [a| |]; try discriminate.
    assert (exists t c', (isInput b = false /\ t = a_ty a \/ isInput b = true /\ a_ty a = TPtr t) /\ a_ty a <> TVoid /\
              ioOk b i t = true /\ ioValues ioOk b (S i) l = Some c' /\ c = IEval a :: ICall b t :: c') as (t & c' & T & NV & O & L & ->).
    { destruct (isInput b).
      - destruct (a_ty a) eqn:TA; try discriminate.
        match type of H with context [ioOk b i ?x] => destruct (ioOk b i x) eqn:O; try discriminate end.
        destruct (ioValues ioOk b (S i) l) eqn:L; try discriminate. injection H as <-. do 2 eexists. repeat split; eauto. congruence.
      - destruct (ioOk b i (a_ty a)) eqn:O; try discriminate.
        destruct (ioValues ioOk b (S i) l) eqn:L; try discriminate. injection H as <-. do 2 eexists. repeat split; eauto.
        intros E. rewrite E, Hio in O. discriminate. }
    destruct (IH _ _ L) as (vs & V & R). exists ((t, plain a) :: vs). split.
    { destruct T as [[T ->]|[T TA]]; [eapply iv_out|eapply iv_in]; eauto. }
    intros. destruct (isIO b) eqn:B; [left|auto].
    cbn [app exec]. rewrite ev by auto.
    destruct b; try discriminate; cbn [exec1 callBuiltin callIO st_stack st_mem st_next st_seen io_events fold_left map];
      (match goal with |- exec _ (MkS (?f' :: ?s' :: ?k' :: ?r') ?m' ?n' ?sn) = _ =>
         destruct (R s' f' k' r' m' n' sn) as [R'|R']; [rewrite R'|discriminate] end);
      rewrite <- ?app_assoc; reflexivity.
Qed.
Lemma io_back b l : forall i vs, io_vals ioOk b i l vs -> exists c, ioValues ioOk b i l = Some c.
Proof.
  induction 1 as [|i a l vs B O _ (c & IH)|i a t l vs B T O _ (c & IH)]; cbn [ioValues]; eauto; rewrite B, ?T, O, IH; eauto.
Qed.

(** The other functions. *)
Ltac crack H :=
  repeat (cbv beta iota zeta delta [expr convert runtimeOnly emit] in H;
    match type of H with
    | None = Some _ => discriminate H
    | Some _ = Some _ => fail 1
    | context [conv ?d ?x] => destruct (conv d x) eqn:?; try discriminate H
    | context [compat ?d ?x] => destruct (compat d x) eqn:?; try discriminate H
    | context [match ?x with _ => _ end] => destruct x eqn:?; try discriminate H
    end).
Ltac nv := first [eapply conv_nv; eassumption | eapply compat_nv; [|eassumption]; discriminate | congruence].
Ltac runs := repeat (cbn [app]; first
  [ rewrite ex_eval by nv | rewrite ex_conv | rewrite ex_push | rewrite ex_temp | rewrite ex_swapassign | rewrite ex_assign
  | rewrite ex_pop | rewrite ex_dup | rewrite ex_swap
  | rewrite ex_call; cbn [callBuiltin putResult pushVal st_stack st_mem st_next st_seen deref Z.eqb] ]); cbn [exec].
Ltac frame := split; cbn [st_next st_mem]; [lia|intros p N1 N2 N3; rewrite ?store_other; auto].
Ltac done_ :=
  cbn [meets fst snd st_stack st_mem st_next st_seen];
  first [ split; [reflexivity|split; [reflexivity|frame]]
        | eexists; split; [reflexivity|split; [cbn; rewrite ?store_same; try reflexivity|split; [rewrite ?app_nil_r; reflexivity|frame]]]
        | reflexivity ].

Definition good (n : Z) (b : builtin) (items : list item) (r : option parsed) : Prop :=
  forall c t k, r = Some (c, t, k) -> k = None /\ exists m, mean b items t m /\ forall st, meets n st m (exec c st).

Lemma g_insert n l : good n BInsert l (parseInsert conv n l).
Proof.
  intros c t k H. unfold parseInsert in H. crack H; injection H as <- <- <-; split; auto;
    (eexists; split; [eapply s_insert; eauto|intros [s m nx seen]]).
  unfold itemPtr. match goal with |- context [structured ?x] => destruct (structured x) end; runs; done_.
Qed.
Ltac start H := intros c t k H; crack H; injection H as <- <- <-; (split; [reflexivity|]).
Ltac by_ C := eexists; split; [eapply C; eauto; try congruence|intros [s m nx seen]; runs; try done_].

Lemma g_math b n l : isMath b = true -> good n b l (parseMath conv false b l).
Proof.
  intros B c t k H. destruct b; try discriminate B; unfold parseMath in H; crack H; injection H as <- <- <-; (split; [reflexivity|]);
    first [by_ s_atan2 | by_ s_math; first [apply m_int|apply m_to_int; cbn; tauto|apply m_real; cbn; tauto]].
Qed.
Lemma g_new n l : good n BNew l (parseNew conv l).
Proof.
  unfold parseNew. intros c t k H. destruct l as [|[|t0|] l]; try discriminate.
  assert (N : t0 <> TVoid /\ t0 <> TNull) by (destruct t0; try discriminate; split; congruence).
  assert (H' : match l with
        | [] => emit [ICall BNew t0] (TPtr t0)
        | [XExpr a] => match convert conv false t0 a with Some c => emit (ICall BNew t0 :: IDup :: IEval a :: c ++ [IAssign]) (TPtr t0) | None => None end
        | _ => None end = Some (c, t, k)) by (destruct t0; try discriminate; exact H).
  clear H. rename H' into H. destruct N. crack H; injection H as <- <- <-; (split; [reflexivity|]).
  - eexists. split; [eapply s_new; auto|]. intros [s m nx seen]. runs. cbn. exists nx. rewrite store_same, app_nil_r.
    repeat split; auto; cbn; try lia. intros p N1 N2 N3. rewrite store_other; auto. intros ->. specialize (N3 _ eq_refl). cbn in N3. lia.
  - eexists. split; [eapply s_new_val; eauto|]. intros [s m nx seen]. runs. cbn. exists nx. rewrite store_same, app_nil_r.
    repeat split; auto; cbn; try lia.
    intros p N1 N2 N3. rewrite !store_other; auto; intros ->; specialize (N3 _ eq_refl); cbn in N3; lia.
Qed.
Lemma g_make n l : good n BMake l (parseMake conv compat fiberFn n l).
Proof. unfold parseMake. start H; first [solve [by_ s_make_fiber]|solve [by_ s_make_dyn]|solve [by_ s_make_map]]. Qed.
Lemma g_copy n l : good n BCopy l (parseCopy n l).
Proof.
  unfold parseCopy. intros c t k H. destruct l as [|[a| |] []]; try discriminate.
  destruct (a_ty a) eqn:T; try discriminate; injection H as <- <- <-; (split; [reflexivity|]); by_ s_copy.
Qed.
Lemma g_append n l : good n BAppend l (parseAppend conv n l).
Proof.
  unfold parseAppend. intros c t k H. destruct l as [|[a| |] [|[x| |] []]]; try discriminate.
  destruct (a_ty a) as [| | | | | | | | |b| | | | | | |] eqn:T; try discriminate. cbv zeta in H.
  destruct (tyEq (TDyn b) (a_ty x)) eqn:E.
  { apply tyEq_ok in E. injection H as <- <- <-. split; [reflexivity|]. by_ s_append_same. }
  assert (N : a_ty x <> TDyn b). { intros X. rewrite X in E. assert (tyEq (TDyn b) (TDyn b) = true) by (apply tyEq_ok; auto). congruence. }
  assert (D : (exists m, a_ty x = TArray b m) \/ (forall m, a_ty x <> TArray b m)).
  { destruct (a_ty x) as [| | | | | | | |b0 n0| | | | | | | |]; try (right; congruence). destruct (tyEq b b0) eqn:Q; [apply tyEq_ok in Q; subst; eauto|].
    right. intros m X. injection X as -> _. assert (tyEq b b = true) by (apply tyEq_ok; auto). congruence. }
  destruct D as [(sz & D)|D].
  { rewrite D in H. assert (Q : tyEq b b = true) by (apply tyEq_ok; auto). rewrite Q in H. injection H as <- <- <-.
    split; [reflexivity|]. by_ s_append_array. }
  assert (H' : match convert conv false b x with Some c =>
     emit (IEval a :: IEval x :: c ++ itemPtr n b ++ [IPush (VInt 1); IPushTemp (n + 1); ICall BAppend (TDyn b)]) (TDyn b) | None => None end = Some (c, t, k)).
  { destruct (a_ty x) as [| | | | | | | |b0 n0| | | | | | | |] eqn:X; try exact H. destruct (tyEq b b0) eqn:Q; [|exact H]. apply tyEq_ok in Q. subst. destruct (D n0); auto. }
  clear H. rename H' into H. crack H. injection H as <- <- <-. split; [reflexivity|].
  eexists; split; [eapply s_append_item; eauto|intros [s m nx seen]]. unfold itemPtr. destruct (structured b); runs; done_.
Qed.
Lemma g_delete n l : good n BDelete l (parseDelete conv n l).
Proof.
  unfold parseDelete. intros c t k H. destruct l as [|[a| |] [|[x| |] []]]; try discriminate.
  destruct (a_ty a) eqn:T; try discriminate; crack H; injection H as <- <- <-; (split; [reflexivity|]); [by_ s_delete|by_ s_delete_key].
Qed.
Lemma g_slice n l : good n BSlice l (parseSlice conv n l).
Proof.
  unfold parseSlice. intros c t k H. destruct l as [|[a| |] [|[x| |] l]]; try discriminate.
  destruct (a_ty a) eqn:T; try discriminate;
    (destruct l as [|[j| |] []]; cbv beta iota delta [convert] in H;
     destruct (conv TInt (a_ty x)) eqn:?; try discriminate; try (destruct (conv TInt (a_ty j)) eqn:?; try discriminate));
    injection H as <- <- <-; (split; [reflexivity|]); first [solve [by_ s_slice]|solve [by_ s_slice_end]].
Qed.
Lemma g_sort n l : good n BSort l (parseSort conv less compareFn l).
Proof.
  unfold parseSort. intros c t k H. destruct l as [|[a| |] [|[x| |] l]]; try discriminate.
  destruct (a_ty a) as [| | | | | | | | |b| | | | | | |] eqn:T; try discriminate.
  destruct (tyEq (a_ty x) TBool) eqn:E.
  - apply tyEq_ok in E. destruct l as [|[| |[[f o]|]] []]; try discriminate.
    + destruct (less b) eqn:?; try discriminate. injection H as <- <- <-. split; [reflexivity|]. by_ s_sort_fast.
    + destruct b; try discriminate. destruct (less f) eqn:?; try discriminate. injection H as <- <- <-. split; [reflexivity|]. by_ s_sort_field.
  - assert (N : a_ty x <> TBool) by (intros X; rewrite X in E; discriminate).
    destruct l; try discriminate. crack H. injection H as <- <- <-. split; [reflexivity|]. by_ s_sort.
Qed.
Lemma g_len n l : good n BLen l (parseLen false l).
Proof.
  unfold parseLen. intros c t k H. destruct l as [|[a| |] []]; try discriminate.
  destruct (a_ty a) eqn:T; try discriminate; injection H as <- <- <-; (split; [reflexivity|]);
    first [solve [by_ s_len_array]|solve [by_ s_len]].
Qed.
Lemma g_cap n l : good n BCap l (parseCap false l).
Proof.
  unfold parseCap. intros c t k H. destruct l as [|[a| |] []]; try discriminate.
  destruct (a_ty a) eqn:T; try discriminate; injection H as <- <- <-; (split; [reflexivity|]); by_ s_cap.
Qed.
Lemma g_sizeof n l : good n BSizeOf l (parseSizeOf sizeOf false l).
Proof.
  unfold parseSizeOf. intros c t k H. destruct l as [|[a|t0|] []]; try discriminate.
  - cbn [expr] in H. destruct (sizeOf (a_ty a)) eqn:Z; try discriminate. cbn in H. injection H as <- <- <-. split; [reflexivity|].
    eexists; split; [eapply s_sizeof; eauto|intros [s m nx seen]].
    destruct (a_ty a) eqn:T; cbn [app]; try (runs; done_). cbn [exec exec1]. rewrite T. runs. done_.
  - destruct (sizeOf t0) eqn:Z; try discriminate. injection H as <- <- <-. split; [reflexivity|]. by_ s_sizeof_type.
Qed.
Lemma g_self b r n l : In (b, r) [(BSizeOfSelf, TInt); (BSelfPtr, TPtr TVoid); (BSelfHasPtr, TBool)] -> good n b l (parseSelf b r l).
Proof.
  unfold parseSelf. intros I c t k H. destruct l as [|[a| |] []]; try discriminate.
  destruct (a_ty a) eqn:T; try discriminate; injection H as <- <- <-. split; [reflexivity|].
  eexists; split; [eapply s_self; eauto|intros [s m nx seen]].
  destruct I as [I|[I|[I|[]]]]; injection I as <- <-; runs; done_.
Qed.
Lemma g_selftypeeq n l : good n BSelfTypeEq l (parseSelfTypeEq l).
Proof.
  unfold parseSelfTypeEq. intros c t k H. destruct l as [|[a| |] [|[x| |] []]]; try discriminate.
  destruct (a_ty a) eqn:T; try discriminate. destruct (a_ty x) eqn:T'; try discriminate. injection H as <- <- <-. split; [reflexivity|].
  by_ s_selftypeeq.
Qed.
Lemma g_typeptr n l : good n BTypePtr l (parseTypePtr false l).
Proof.
  unfold parseTypePtr. intros c t k H. destruct l as [|[a|t0|] []]; try discriminate.
  destruct t0; try discriminate; injection H as <- <- <-; (split; [reflexivity|]); by_ s_typeptr.
Qed.
Lemma g_valid n l : good n BValid l (parseValid l).
Proof.
  unfold parseValid. intros c t k H. destruct l as [|[a| |] []]; try discriminate.
  destruct (a_ty a) eqn:T; try discriminate; injection H as <- <- <-; (split; [reflexivity|]);
    (eexists; split; [eapply s_valid; rewrite T; eauto 8|intros [s m nx seen]; runs; done_]).
Qed.
Lemma g_validkey n l : good n BValidKey l (parseValidKey conv l).
Proof.
  unfold parseValidKey. intros c t k H. destruct l as [|[a| |] [|[x| |] []]]; try discriminate.
  destruct (a_ty a) eqn:T; try discriminate. crack H. injection H as <- <- <-. split; [reflexivity|]. by_ s_validkey.
Qed.
Lemma g_keys n l : good n BKeys l (parseKeys n l).
Proof.
  unfold parseKeys. intros c t k H. destruct l as [|[a| |] []]; try discriminate.
  destruct (a_ty a) eqn:T; try discriminate. injection H as <- <- <-. split; [reflexivity|]. by_ s_keys.
Qed.
Lemma g_resume n l : good n BResume l (parseResume conv l).
Proof.
  unfold parseResume. intros c t k H. destruct l as [|[a| |] []]; try discriminate; crack H; injection H as <- <- <-; (split; [reflexivity|]);
    [by_ s_yield|by_ s_resume].
Qed.
Lemma g_leaksan n l : good n BLeakSan l (parseLeakSan conv l).
Proof.
  unfold parseLeakSan. intros c t k H. destruct l as [|[a| |] []]; try discriminate. crack H. injection H as <- <- <-. split; [reflexivity|].
  by_ s_leaksan.
Qed.
Lemma g_exit n l : good n BExit l (parseExit conv l).
Proof.
  unfold parseExit. intros c t k H. destruct l as [|[a| |] [|[x| |] []]]; try discriminate; crack H; injection H as <- <- <-;
    (split; [reflexivity|]); [by_ s_exit|by_ s_exit_msg].
Qed.
Lemma io_end b stream l c t k : ioRest compat ioOk ioEnd b stream l = Some (c, t, k) -> isIO b = true ->
  exists f l' vs, l = XExpr f :: l' /\ compat TStr (a_ty f) = true /\ io_vals ioOk b 0 l' vs /\ ioEnd b (length l') = true /\ k = None /\
    t = match b with BSprintf => TStr | _ => TInt end /\
    forall sv, (forall s m nx seen c', exec (stream ++ c') (MkS s m nx seen) = exec c' (MkS (sv :: s) m nx seen)) ->
    forall s m nx seen, exec c (MkS s m nx seen) =
      Running (MkS ((match snd (io_meaning b sv (plain f) vs) with RVal v => v | _ => VNull end) :: s) m nx
                   (seen ++ fst (io_meaning b sv (plain f) vs))).
Proof.
  unfold ioRest. intros H B. destruct l as [|[f| |] l]; try discriminate.
  destruct (compat TStr (a_ty f)) eqn:F; try discriminate. destruct (ioEnd b (length l)) eqn:En; try discriminate. cbn [andb] in H.
  destruct (ioValues ioOk b 0 l) as [cv|] eqn:V; try discriminate. unfold emit in H. injection H as <- <- <-.
  destruct (io_parse _ _ _ _ V) as (vs & IV & R). exists f, l, vs. repeat split; auto.
  intros sv S s m nx seen. rewrite ex_push, S. cbn [app]. rewrite ex_eval by nv.
  replace (cv ++ IPush (VInt 0) :: ICall b TVoid :: IPop :: match b with BSprintf => [ISwap; IPop] | _ => [IPop] end)
    with ((cv ++ [IPush (VInt 0); ICall b TVoid; IPop]) ++ match b with BSprintf => [ISwap; IPop] | _ => [IPop] end)
    by (rewrite <- app_assoc; reflexivity).
  rewrite exec_app. destruct (R sv (plain f) (VInt 0) s m nx seen) as [R'|R']; [|congruence]. rewrite R', B.
  destruct b; try discriminate B; reflexivity.
Qed.
Lemma g_io b n l : isIO b = true -> good n b l (parseIO conv compat ioOk ioEnd b l).
Proof.
  intros B c t k H.
  assert (K : forall sv stream l0, ioRest compat ioOk ioEnd b stream l0 = Some (c, t, k) ->
     (forall s m nx seen c', exec (stream ++ c') (MkS s m nx seen) = exec c' (MkS (sv :: s) m nx seen)) ->
     exists f l' vs, l0 = XExpr f :: l' /\ compat TStr (a_ty f) = true /\ io_vals ioOk b 0 l' vs /\ ioEnd b (length l') = true /\ k = None /\
       t = match b with BSprintf => TStr | _ => TInt end /\
       forall st, meets n st (io_meaning b sv (plain f) vs) (exec c st)).
  { intros sv stream l0 P S. destruct (io_end _ _ _ _ _ _ P B) as (f & l' & vs & E & F & V & En & K & T & R).
    exists f, l', vs. repeat split; auto. intros [s m nx seen]. rewrite (R sv S).
    destruct b; try discriminate B; cbn [meets io_meaning fst snd st_stack st_mem st_next st_seen];
      (eexists; split; [reflexivity|split; [|split; [reflexivity|frame]]]);
      match goal with |- value_at _ ?x = _ => assert (W : exists y e, x = VStream y e \/ x = VCount y e) end;
      try (match goal with |- context [io_events ?b ?s ?f ?v] => assert (Ne : io_events b s f v <> []) by (destruct v as [|[]]; discriminate);
             destruct (io_events b s f v) as [|e0 es] using rev_ind; [congruence|rewrite fold_left_app; cbn; eauto] end);
      destruct W as (y & e & [-> | ->]); reflexivity. }
  assert (P0 : forall s m nx seen c', exec ([IPush VNull] ++ c') (MkS s m nx seen) = exec c' (MkS (VNull :: s) m nx seen)) by reflexivity.
  assert (P1 : forall d a, conv d (a_ty a) = true -> forall s m nx seen c',
    exec ((IEval a :: [IConv d]) ++ c') (MkS s m nx seen) = exec c' (MkS (as_ d a :: s) m nx seen)).
  { intros d a C *. cbn [app]. rewrite ex_eval by nv. apply ex_conv. }
  destruct b; try discriminate B; unfold parseIO, convert in H; cbv beta iota zeta in H;
    try (destruct (K _ _ _ H P0) as (f & l' & vs & -> & F & V & En & -> & -> & R); split; [reflexivity|];
         eexists; split; [eapply s_print; eauto; cbn; tauto|exact R]);
    (destruct l as [|[a| |] l]; try discriminate;
     match type of H with context [conv ?d ?x] => destruct (conv d x) eqn:C; try discriminate end;
     destruct (K _ _ _ H (P1 _ _ C)) as (f & l' & vs & -> & F & V & En & -> & -> & R); split; [reflexivity|];
     eexists; split; [eapply s_fprint; eauto; cbn; tauto|exact R]).
Qed.

Lemma run_ok n b l c t k : parse false n b l = Some (c, t, k) ->
  k = None /\ exists m, mean b l t m /\ forall st, meets n st m (exec c st).
Proof.
  destruct b; cbn [parseCall runtimeOnly]; intros H;
    first [ eapply g_io; [reflexivity|exact H] | eapply g_math; [reflexivity|exact H] | eapply g_new; exact H | eapply g_make; exact H
          | eapply g_copy; exact H | eapply g_append; exact H | eapply g_insert; exact H | eapply g_delete; exact H | eapply g_slice; exact H
          | eapply g_sort; exact H | discriminate H | eapply g_len; exact H | eapply g_cap; exact H | eapply g_sizeof; exact H
          | eapply g_self; [|exact H]; cbn; tauto | eapply g_selftypeeq; exact H | eapply g_typeptr; exact H | eapply g_valid; exact H
          | eapply g_validkey; exact H | eapply g_keys; exact H | eapply g_resume; exact H | eapply g_leaksan; exact H | eapply g_exit; exact H
          | idtac ].
  destruct l; try discriminate. injection H as <- <- <-. split; [reflexivity|]. by_ s_memusage.
Qed.
End P.
