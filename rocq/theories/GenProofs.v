(** The peephole rules preserve the effect of straight-line code. *)
From Coq Require Import ZArith Bool List Lia ZifyBool SpecFloat.
From Verif Require Import Base NumModel NumProofs NumExtra MemModel BlkModel SortExtra GenModel GenVm GenSpec.
Import ListNotations.
Local Open Scope Z_scope.

Section P.
Variable H : Type.
Variable E : env H.
Hypothesis EOK : refcnt_ok E.

Definition refres (r1 r2 : res H) : Prop := bad r1 \/ same_res r1 r2.
Definition refines (l1 l2 : list instr) : Prop := forall s1 s2, same s1 s2 -> refres (exec E true l1 s1) (exec E true l2 s2).
Definition locally (l1 l2 : list instr) : Prop := forall s, refres (exec E true l1 s) (exec E true l2 s).

Lemma same_refl (s : st H) : same s s. Proof. split; auto. Qed.
Lemma same_trans (a b c : st H) : same a b -> same b c -> same a c.
Proof. intros (C1 & F1) (C2 & F2). split; [congruence|]. intro F. destruct (F1 F) as (F' & S'). destruct (F2 F'). split; congruence. Qed.
Lemma refres_refl r : refres r r.
Proof. destruct r as [s|e m h|]; [right; apply same_refl|right; cbn; auto|left; exact I]. Qed.
Lemma refres_trans a b c : refres a b -> refres b c -> refres a c.
Proof.
  intros [B|S1] R2; [left; exact B|].
  destruct a as [s|e m h|], b as [s'|e' m' h'|]; cbn in S1; try contradiction.
  - destruct R2 as [B|S2]; [destruct B|]. destruct c; cbn in S2; try contradiction. right. cbn. eapply same_trans; eassumption.
  - destruct S1 as (-> & -> & ->). exact R2.
Qed.

(** One instruction from states that are the same. *)
Ltac dst := repeat match goal with |- context [match ?x with _ => _ end] => destruct x eqn:?; cbn [bad same_res] end.
Lemma keep_same s1 s2 x : same s1 s2 -> refres (keep s1 x) (keep s2 x).
Proof. intros (C & F). destruct x; cbn [keep]; [right; split; cbn; auto|right; cbn; auto|left; exact I]. Qed.
Lemma lose_same s1 s2 x : same s1 s2 -> refres (lose E s1 x) (lose E s2 x).
Proof. intros (C & F). destruct x; cbn [lose]; [right; split; cbn; [auto|discriminate]|right; cbn; auto|left; exact I]. Qed.
Lemma setReg_same (s1 s2 : st H) r v : same s1 s2 -> same (setReg s1 r v) (setReg s2 r v).
Proof. intros (C & F). destruct r; split; cbn; rewrite ?C; auto. Qed.
Lemma wc_same (s1 s2 : st H) c : same s1 s2 -> same (wc s1 c) (wc s2 c).
Proof. intros (C & F). split; cbn; auto. Qed.

Lemma step_same i s1 s2 : same s1 s2 -> refres (step E true i s1) (step E true i s2).
Proof.
  intro S. pose proof S as (C & F). unfold step. rewrite <- C.
  destruct (lim (co s1) <? Z.of_nat (length (stk (co s1)))); [apply refres_refl|].
  destruct i; try (apply keep_same; exact S); try apply refres_refl.
  - destruct (true && isPtr k && negb (estatic E v)); [apply refres_refl|apply keep_same; exact S].
  - destruct (n <? 0); [apply refres_refl|].
    destruct (lim (co s1) <? Z.of_nat (length (stk (co s1))) + n); [apply refres_refl|apply keep_same; exact S].
  - destruct r.
    2:{ destruct (fresh s1) eqn:FR; cbn [andb negb].
        - destruct (F eq_refl) as (F2 & SS). rewrite F2. cbn [negb]. right. cbn. split; cbn; [congruence|discriminate].
        - left. exact I. }
    all: unfold getReg; rewrite <- C; apply keep_same; exact S.
  - destruct ((n <? 0) || (Z.of_nat (length (stk (co s1))) <? n)); [apply refres_refl|apply keep_same; exact S].
  - destruct (stk (co s1)); [apply refres_refl|]. right. cbn [same_res]. apply setReg_same. apply wc_same. exact S.
  - destruct (stk (co s1)); [apply refres_refl|apply keep_same; exact S].
  - destruct (stk (co s1)) as [|? [|? ?]]; try apply refres_refl. apply keep_same; exact S.
  - destruct (stk (co s1)) as [|[? ?] ?]; try apply refres_refl. apply keep_same; exact S.
  - destruct (stk (co s1)) as [|[? ?] [|[? ?] ?]]; try apply refres_refl. apply keep_same; exact S.
  - destruct (stk (co s1)) as [|[? ?] [|[? ?] ?]]; try apply refres_refl. apply keep_same; exact S.
  - destruct (stk (co s1)) as [|[? ?] ?]; try apply refres_refl. apply lose_same; exact S.
  - destruct (stk (co s1)) as [|[? ?] [|[? ?] ?]]; try apply refres_refl. apply lose_same; exact S.
  - destruct (isIncDec o); apply keep_same; exact S.
  - apply lose_same; exact S.
Qed.
Lemma exec_app l1 l2 s : exec E true (l1 ++ l2) s = match exec E true l1 s with ROk s' => exec E true l2 s' | r => r end.
Proof. revert s. induction l1 as [|i l IH]; intro s; [reflexivity|]. cbn [exec app]. destruct (step E true i s); [apply IH|reflexivity|reflexivity]. Qed.

Lemma refines_refl l : refines l l.
Proof.
  induction l as [|i l IH]; intros s1 s2 S; [right; exact S|]. cbn [exec].
  destruct (step_same i s1 s2 S) as [B|R].
  - left. destruct (step E true i s1) as [?|[] ? ?|]; cbn in B |- *; tauto.
  - destruct (step E true i s1), (step E true i s2); cbn in R; try contradiction; [apply IH; exact R|right; exact R].
Qed.
Lemma refines_trans a b c : refines a b -> refines b c -> refines a c.
Proof. intros R1 R2 s1 s2 S. eapply refres_trans; [apply R1; exact S|apply R2; apply same_refl]. Qed.
Lemma refines_app a b c d : refines a b -> refines c d -> refines (a ++ c) (b ++ d).
Proof.
  intros R1 R2 s1 s2 S. rewrite !exec_app. destruct (R1 s1 s2 S) as [B|R].
  - left. destruct (exec E true a s1) as [?|[] ? ?|]; cbn in B |- *; tauto.
  - destruct (exec E true a s1), (exec E true b s2); cbn in R; try contradiction; [apply R2; exact R|right; exact R].
Qed.
Lemma locally_refines a b : locally a b -> refines a b.
Proof. intros L s1 s2 S. eapply refres_trans; [apply L|apply refines_refl; exact S]. Qed.
Lemma refines_pre p a b : refines a b -> refines (p ++ a) (p ++ b).
Proof. apply refines_app. apply refines_refl. Qed.

(** ** The rules. *)
Ltac start :=
  apply locally_refines; intros [c sf fr]; cbn [exec]; unfold step; cbn [co self fresh];
  destruct (lim c <? Z.of_nat (length (stk c))) eqn:LIM; [left; exact I|].
Ltac ovf := match goal with
  | |- refres (match (if ?b then RErr EStackOverflow _ _ else _) with _ => _ end) _ => destruct b eqn:?; [left; exact I|]
  end.
Ltac ub := left; exact I.

Lemma with_stk_stk (c : core H) l : stk (with_stk c l) = l. Proof. reflexivity. Qed.
Lemma in_s64b_ok z : in_s64b z = true -> s64 z = z.
Proof. intro Q. apply s64_id. unfold in_s64b in Q. unfold in_s64. lia. Qed.
Lemma addp_strict (c : core H) p d q : addp true c p d = Some q ->
  q = p + d /\ in_s64b q = true /\ q <> 0 /\ (inframe c p = true -> inframe c q = true).
Proof.
  unfold addp. cbn [andb]. intro A.
  destruct (in_s64b (p + d)) eqn:I; cbn [negb orb] in A; [|discriminate].
  destruct (p + d =? 0) eqn:Z0; cbn [orb] in A; [discriminate|].
  destruct (inframe c p) eqn:F1, (inframe c (p + d)) eqn:F2; cbn [andb negb] in A; try discriminate;
  assert (q = p + d) as -> by (rewrite in_s64b_ok in A by exact I; congruence); repeat split; try assumption; try lia; congruence.
Qed.
Lemma addp_intro (c : core H) p d : in_s64b (p + d) = true -> p + d <> 0 -> (inframe c p = true -> inframe c (p + d) = true) ->
  addp true c p d = Some (p + d).
Proof.
  intros I N F. unfold addp. rewrite I. replace (p + d =? 0) with false by lia. cbn [negb orb andb].
  destruct (inframe c p) eqn:F1; cbn [andb]; [rewrite F by reflexivity|]; cbn [negb]; rewrite in_s64b_ok by exact I; reflexivity.
Qed.
Lemma base_inframe (c : core H) : inframe c (base c) = true.
Proof. unfold inframe, INT_MIN, INT_MAX, two31. lia. Qed.
Lemma inframe_stk (c : core H) l p : inframe (with_stk c l) p = inframe c p. Proof. reflexivity. Qed.

Lemma r_push_zero n m : refines [IPushZero n; IPushZero m] [IPushZero (n + m)].
Proof.
  start. destruct (n <? 0) eqn:N; [ub|]. destruct (lim c <? Z.of_nat (length (stk c)) + n) eqn:L1; [ub|].
  cbn [keep wc co]. ovf.
  destruct (m <? 0) eqn:M; [ub|]. ovf.
  cbn [stk lim with_stk] in *. rewrite app_length, repeat_length in *.
  replace (n + m <? 0) with false by lia. destruct (lim c <? Z.of_nat (length (stk c)) + (n + m)) eqn:L4; [exfalso; unfold slot in *; lia|].
  right. cbn. split; cbn; [|auto]. unfold with_stk. cbn. f_equal. rewrite app_assoc, <- repeat_app. f_equal. f_equal. lia.
Qed.
Lemma skipn_add {A} n : forall m (l : list A), skipn n (skipn m l) = skipn (m + n) l.
Proof. induction m as [|m IH]; intro l; [reflexivity|]. destruct l; [rewrite !skipn_nil; reflexivity|cbn; apply IH]. Qed.
Lemma r_pop n : refines [IPop n; IPop 1] [IPop (n + 1)].
Proof.
  start. destruct ((n <? 0) || (Z.of_nat (length (stk c)) <? n)) eqn:N; [ub|].
  cbn [keep wc co]. ovf.
  destruct ((1 <? 0) || _) eqn:M; [ub|]. cbn [stk lim with_stk] in *. rewrite skipn_length in *.
  destruct ((n + 1 <? 0) || (Z.of_nat (length (stk c)) <? n + 1)) eqn:Q; [exfalso; unfold slot in *; lia|].
  right. cbn. split; cbn; [|auto]. unfold with_stk. cbn. f_equal. rewrite skipn_add. f_equal. lia.
Qed.
Lemma r_push_pop r : refines [IPushReg r; IPopReg r] [].
Proof.
  start. destruct r.
  2:{ destruct fr; cbn [andb negb]; [|ub]. cbn [co push with_stk stk]. ovf.
      cbn [stk]. right. cbn. split; cbn; [destruct c; reflexivity|auto]. }
  all: cbn [keep]; cbn [co wc push with_stk stk]; ovf; cbn [stk]; right; cbn; split; cbn; [destruct c; reflexivity|auto].
Qed.
Lemma r_pop_push : refines [IPopReg RSelf; IPushReg RSelf] [].
Proof.
  start. destruct (stk c) as [|v l] eqn:S; [ub|]. cbn [setReg co wc with_stk stk lim]. ovf.
  cbn [fresh andb negb]. right. cbn. split; cbn; [destruct c; cbn in S |- *; subst; reflexivity|discriminate].
Qed.
Lemma r_swap_assign k n : refines [ISwap; ISwapAssign k n] [IAssign k n].
Proof.
  start. destruct (stk c) as [|[a x] [|[b y] l]] eqn:S; try ub. cbn [keep wc co]. ovf. cbn [stk with_stk].
  unfold assign. cbn [mm with_stk]. destruct (doAssign (mm c) k b a n); cbn [lift keep ferr]; [right|right|left]; cbn; auto.
  split; cbn; auto.
Qed.
Lemma r_zero o n : refines [IPushLocalPtr o; IZero n; IPushLocalPtr o] [IPushLocalPtrZero o (s32 n)].
Proof.
  start. unfold pushLocal. destruct (addp true c (base c) o) as [p|] eqn:A; [|ub]. cbn [keep wc co obind].
  ovf. cbn [stk push with_stk].
  change (zeroAt E true p n (with_stk (push c (p, None)) (stk c))) with
    (if (n <? 0) || (INT_MAX <? n) || (true && inframe c p && (n <? evsize E (p - base c))) then OUB
     else OOk (with_mm (with_stk (push c (p, None)) (stk c)) (zero_range (mm c) p n))).
  change (zeroAt E true p (s32 n) (push c (p, None))) with
    (if (s32 n <? 0) || (INT_MAX <? s32 n) || (true && inframe c p && (s32 n <? evsize E (p - base c))) then OUB
     else OOk (with_mm (push c (p, None)) (zero_range (mm c) p (s32 n)))).
  destruct ((n <? 0) || (INT_MAX <? n) || _) eqn:Z; [ub|].
  assert (s32 n = n) as -> by (apply s32_id; unfold INT_MIN, two31 in *; lia).
  rewrite Z. cbn [keep].
  cbn [wc co]. ovf.
  match goal with |- context [addp true ?x ?y o] => change (addp true x y o) with (addp true c (base c) o) end.
  rewrite A. cbn [keep]. right. cbn. split; cbn; auto.
Qed.
Lemma r_push_deref k p : refines [IPush KPtr p; IDeref k] [IPushGlobal k p].
Proof.
  start. cbn [isPtr andb]. destruct (estatic E p); cbn [negb]; [|ub]. cbn [keep wc co]. ovf.
  unfold derefTop. cbn [stk push with_stk mm]. destruct (doDeref (mm c) k p); cbn [lift keep ferr]; [right|right|left]; cbn; auto.
  split; cbn; auto.
Qed.
Lemma r_local_deref k o : refines [IPushLocalPtr o; IDeref k] [IPushLocal k (s32 o)].
Proof.
  start. unfold pushLocal. destruct (addp true c (base c) o) as [p|] eqn:A; [|ub].
  destruct (addp_strict _ _ _ _ A) as (P & _ & _ & F). specialize (F (base_inframe c)).
  assert (s32 o = o) as -> by (apply s32_id; unfold inframe in F; lia). rewrite A. cbn [keep wc co]. ovf.
  cbn [obind]. destruct (derefTop k (push c (p, None))); cbn [keep]; [right|right|left]; cbn; auto. split; cbn; auto.
Qed.
Lemma r_sel_deref k i j (f : core H -> ores H) :
  (forall s, step E true i s = if lim (co s) <? Z.of_nat (length (stk (co s))) then RErr EStackOverflow (mm (co s)) (hp (co s)) else keep s (f (co s))) ->
  (forall s, step E true j s = if lim (co s) <? Z.of_nat (length (stk (co s))) then RErr EStackOverflow (mm (co s)) (hp (co s)) else keep s (obind (f (co s)) (derefTop k))) ->
  refines [i; IDeref k] [j].
Proof.
  intros I J. apply locally_refines. intro s. cbn [exec]. rewrite I, J. ovf.
  destruct (f (co s)) as [c|e m h|]; cbn [keep obind]; [|right; cbn; auto|ub].
  unfold step. cbn [wc co]. ovf. destruct (derefTop k c); cbn [keep]; [right|right|left]; cbn; auto. split; cbn; auto.
Qed.
Lemma r_array_deref k a n : refines [IGetArrayPtr a n; IDeref k] [IGetArray k a n].
Proof. apply (r_sel_deref k _ _ (getArray E true a n)); reflexivity. Qed.
Lemma r_dyn_deref k : refines [IGetDynArrayPtr; IDeref k] [IGetDynArray k].
Proof. apply (r_sel_deref k _ _ (esel E None)); reflexivity. Qed.
Lemma r_map_deref k t : refines [IGetMapPtr t; IDeref k] [IGetMap k t].
Proof. apply (r_sel_deref k _ _ (esel E (Some t))); reflexivity. Qed.
Lemma r_field_deref k o : refines [IGetFieldPtr o; IDeref k] [IGetField k o].
Proof. apply (r_sel_deref k _ _ (getField true o)); reflexivity. Qed.
Lemma r_field0_deref k : refines [IGetFieldPtr 0; IDeref k] [IDeref k].
Proof.
  start. unfold getField. destruct (stk c) as [|[p x] l] eqn:S; [ub|].
  destruct (p =? 0) eqn:P.
  { cbn [keep ferr]. right. unfold derefTop. rewrite S. unfold doDeref. rewrite P. cbn. auto. }
  destruct (addp true c p 0) as [q|] eqn:A; [|ub]. destruct (addp_strict _ _ _ _ A) as (Q & _). replace (p + 0) with p in Q by lia. subst q.
  cbn [keep wc co]. ovf. unfold derefTop. rewrite S. cbn [stk with_stk mm].
  destruct (doDeref (mm c) k p); cbn [lift keep ferr]; [right|right|left]; cbn; auto. split; cbn; auto.
Qed.
Lemma r_local_field p o : refines [IPushLocalPtr p; IGetFieldPtr o] [IPushLocalPtr (p + o)].
Proof.
  start. unfold pushLocal. destruct (addp true c (base c) p) as [q|] eqn:A; [|ub].
  destruct (addp_strict _ _ _ _ A) as (Q & _ & NZ & F). specialize (F (base_inframe c)).
  cbn [keep wc co]. ovf. unfold getField. cbn [stk push with_stk].
  replace (q =? 0) with false by lia. destruct (addp true _ q o) as [w|] eqn:B; [|ub].
  destruct (addp_strict _ _ _ _ B) as (W & I & NW & FW). change (inframe c q = true -> inframe c w = true) in FW. specialize (FW F).
  rewrite addp_intro by (replace (base c + (p + o)) with w by lia; auto).
  replace (base c + (p + o)) with w by lia. cbn [keep]. right. cbn. split; cbn; auto.
Qed.
Lemma r_field_field p o : refines [IGetFieldPtr p; IGetFieldPtr o] [IGetFieldPtr (p + o)].
Proof.
  start. unfold getField at 1. destruct (stk c) as [|[a x] l] eqn:S; [ub|].
  destruct (a =? 0) eqn:P.
  { right. unfold getField. rewrite S, P. cbn. auto. }
  destruct (addp true c a p) as [q|] eqn:A; [|ub]. destruct (addp_strict _ _ _ _ A) as (Q & _ & NZ & F).
  cbn [keep wc co]. ovf. unfold getField. rewrite S. cbn [stk push with_stk].
  replace (q =? 0) with false by lia. rewrite P. destruct (addp true _ q o) as [w|] eqn:B; [|ub].
  destruct (addp_strict _ _ _ _ B) as (W & I & NW & FW). change (inframe c q = true -> inframe c w = true) in FW.
  rewrite addp_intro by (replace (a + (p + o)) with w by lia; auto).
  replace (a + (p + o)) with w by lia. cbn [keep]. right. cbn. split; cbn; auto.
Qed.
Lemma r_array_const v size len : 0 <= len -> (s32 v <? 0) || (len - 1 <? s32 v) = false ->
  refines [IPush KInt v; IGetArrayPtr size len] [IGetFieldPtr (size * s32 v)].
Proof.
  intros L R. start. cbn [isPtr andb]. cbn [keep wc co]. ovf.
  unfold getArray, getField. cbn [stk push with_stk]. destruct (stk c) as [|[d x] l] eqn:S; [ub|].
  replace (0 <=? len) with true by lia. cbn [andb isInt]. destruct (s32 v =? v) eqn:V; cbn [negb]; [|ub].
  assert (s32 v = v) as V' by lia. rewrite V' in *. clear V V'.
  destruct (d =? 0) eqn:D; [right; cbn; auto|]. cbn [fst snd]. rewrite R.
  destruct (addp true _ d (size * v)) as [q|] eqn:A; [|ub].
  match type of A with addp true ?x _ _ = _ => change (addp true c d (size * v) = Some q) in A end.  cbn [keep]. right. cbn. split; cbn; auto.
Qed.
Lemma r_unary pk v o k r : isIncDec o = false -> constUnary o k v = Ok r -> refines [IPush pk v; IUnary o k] [IPush k r].
Proof.
  intros ID R. rewrite (proj1 (folding_agree (elm E) o k v 0)) in R. start.
  destruct (true && isPtr pk && negb (estatic E v)) eqn:ST; [ub|]. cbn [keep wc co]. ovf.
  rewrite ID. unfold unary. cbn [stk push with_stk andb]. destruct (isPtr k); [ub|]. rewrite R. cbn [lift keep andb].
  right. cbn. split; cbn; auto.
Qed.
Lemma r_binary pa a pb b o k r : kindOrdinal k || kindReal k = true -> constBinary (elm E) o k a b = Ok r ->
  refines [IPush pa a; IPush pb b; IBinary o k] [IPush (if isComparison o then KBool else k) r].
Proof.
  intros OK R. rewrite (proj2 (folding_agree (elm E) o k a b)) in R. start.
  destruct (true && isPtr pa && negb (estatic E a)) eqn:ST; [ub|]. cbn [keep wc co]. ovf.
  destruct (true && isPtr pb && negb (estatic E b)) eqn:ST1; [ub|]. cbn [keep wc co]. ovf.
  unfold binary. cbn [stk push with_stk]. rewrite R. cbn [lift keep].
  replace (isPtr (if isComparison o then KBool else k)) with false by (destruct (isComparison o), k; try discriminate OK; reflexivity).
  cbn [andb keep]. right. cbn. split; cbn; auto.
Qed.
Lemma one_builtin f k v n r c : f <> FMakeRealLeft -> f <> FAtan2 -> kindsFit n k v = true \/ f <> FMakeReal ->
  constCallBuiltin (elm E) f (match n with Some pk => pk | None => k end) v 0 = Ok r ->
  builtin E true f k (with_stk c ((v, n) :: stk c)) = OUB \/
  builtin E true f k (with_stk c ((v, n) :: stk c)) = OOk (with_stk c ((r, match n with Some _ => Some (resultKind f) | None => None end) :: stk c)).
Proof.
  intros N1 N2 K R.
  assert (constCallBuiltin (elm E) f k v 0 = Ok r) as R'.
  { destruct f; try congruence; try exact R. destruct K as [K|K]; [|congruence]. destruct n as [pk|]; [|exact R].
    cbn [kindsFit] in K. apply orb_prop in K. destruct K as [K|K].
    - assert (isUInt pk = isUInt k) as Q by (destruct (isUInt pk), (isUInt k); cbn in K; congruence).
      rewrite <- R. cbn [constCallBuiltin]. destruct pk, k; try reflexivity; discriminate Q.
    - assert (u64 v = v) as U.
      { unfold u64, wrapu. apply Z.mod_small. unfold in_s64b, INT64_MAX, two63, two64 in *. lia. }
      rewrite <- R. cbn [constCallBuiltin]. destruct pk, k; rewrite ?U; reflexivity. }
  pose proof (builtin_folding (elm E) f k v 0 [] ltac:(intro; contradiction)) as B. rewrite R' in B. cbn [fmap] in B.
  unfold builtin. cbn [stk with_stk].
  destruct f; try contradiction; cbn [andb]; try (destruct (negb (kindsFit n k v)); [left; reflexivity|]);
  cbn [arg_stack res_stack] in B; rewrite B; right; reflexivity.
Qed.
Lemma r_builtin1 pk v f k r : f <> FMakeRealLeft -> f <> FAtan2 -> constCallBuiltin (elm E) f pk v 0 = Ok r ->
  refines [IPush pk v; IBuiltin f k] [IPush (resultKind f) r].
Proof.
  intros N1 N2 R. start. destruct (true && isPtr pk && negb (estatic E v)) eqn:ST; [ub|]. cbn [keep wc co]. ovf.
  assert (kindsFit (Some pk) k v = true \/ f <> FMakeReal \/ builtin E true f k (push c (v, Some pk)) = OUB) as [K|[K|K]].
  { destruct (kindsFit (Some pk) k v) eqn:KF; [left; reflexivity|]. right. destruct f; try (left; discriminate).
    right. unfold builtin. cbn [stk push with_stk]. rewrite KF. reflexivity. }
  3:{ rewrite K. ub. }
  all: destruct (one_builtin f k v (Some pk) r c N1 N2 ltac:(auto) R) as [B|B]; change (builtin E true f k (push c (v, Some pk))) with (builtin E true f k (with_stk c ((v, Some pk) :: stk c))); rewrite B; [ub|];
    replace (isPtr (resultKind f)) with false by (destruct f; reflexivity); cbn [andb keep]; right; cbn; split; cbn; auto.
Qed.
Lemma r_make_left pk v pk2 v2 k r : constCallBuiltin (elm E) FMakeRealLeft pk v 0 = Ok r ->
  refines [IPush pk v; IPush pk2 v2; IBuiltin FMakeRealLeft k] [IPush KReal r; IPush pk2 v2].
Proof.
  intro R. start. destruct (true && isPtr pk && negb (estatic E v)) eqn:ST; [ub|]. cbn [keep wc co]. ovf.
  destruct (true && isPtr pk2 && negb (estatic E v2)) eqn:ST2; [ub|]. cbn [keep wc co]. ovf.
  unfold builtin. cbn [stk push with_stk]. destruct (kindsFit (Some pk) k v) eqn:K; cbn [andb negb]; [|ub].
  assert (constCallBuiltin (elm E) FMakeRealLeft k v 0 = Ok r) as R'.
  { cbn [kindsFit] in K. apply orb_prop in K. destruct K as [K|K].
    - assert (isUInt pk = isUInt k) as Q by (destruct (isUInt pk), (isUInt k); cbn in K; congruence).
      rewrite <- R. cbn [constCallBuiltin]. destruct pk, k; try reflexivity; discriminate Q.
    - assert (u64 v = v) as U.
      { unfold u64, wrapu. apply Z.mod_small. unfold in_s64b, INT64_MAX, two63, two64 in *. lia. }
      rewrite <- R. cbn [constCallBuiltin]. destruct pk, k; rewrite ?U; reflexivity. }
  cbn [doMathBuiltin]. cbn [constCallBuiltin] in R'. cbn [lift keep isPtr andb].
  assert (match k with KUInt => realSlot (real_of_int (u64 v)) | _ => realSlot (real_of_int v) end = r) as -> by (destruct k; congruence).
  cbn [wc co]. replace (lim (push c (r, Some KReal)) <? Z.of_nat (length (stk (push c (r, Some KReal))))) with false.
  cbn [keep resultKind]. right. cbn. split; cbn; auto.
Qed.
Lemma r_atan2 pk v pk2 v2 k r : constCallBuiltin (elm E) FAtan2 pk v v2 = Ok r ->
  refines [IPush pk v; IPush pk2 v2; IBuiltin FAtan2 k] [IPush KReal r].
Proof.
  intro R. start. destruct (true && isPtr pk && negb (estatic E v)) eqn:ST; [ub|]. cbn [keep wc co]. ovf.
  destruct (true && isPtr pk2 && negb (estatic E v2)) eqn:ST2; [ub|]. cbn [keep wc co]. ovf.
  unfold builtin. cbn [stk push with_stk doMathBuiltin]. cbn [constCallBuiltin] in R.
  destruct (SFeqb (realVal v) sfzero); cbn [orb] in R; [discriminate|]. destruct (SFeqb (realVal v2) sfzero); [discriminate|].
  cbn [andb lift keep isPtr]. right. assert (r = realSlot (m_atan2 (elm E) (realVal v) (realVal v2))) as -> by congruence.
  cbn. split; cbn; auto.
Qed.
Lemma r_nogc inc t : tgc t = false -> refines [IRefCnt inc t] [].
Proof.
  intro G. start. destruct (stk c) as [|[p x] l] eqn:S; [ub|]. unfold refCnt. destruct (_ && _); [ub|].
  rewrite (proj1 EOK) by exact G. cbn [lose]. right. cbn. split; cbn; [reflexivity|discriminate].
Qed.
Lemma r_static inc t p : tk t = KPtr \/ tk t = KStr -> refines [IPush KPtr p; IRefCnt inc t] [IPush KPtr p].
Proof.
  intro G. start. cbn [isPtr andb]. destruct (estatic E p) eqn:ST; cbn [negb]; [|ub]. cbn [keep wc co]. ovf.
  cbn [stk push with_stk]. unfold refCnt. replace (kindStructured (tk t)) with false by (destruct G as [-> | ->]; reflexivity).
  cbn [andb]. rewrite (proj1 (proj2 EOK)) by assumption. cbn [lose]. right. cbn. split; cbn; [reflexivity|discriminate].
Qed.
Lemma r_zeroed inc t o n : kindStructured (tk t) = true -> refines [IPushLocalPtrZero o n; IRefCnt inc t] [IPushLocalPtrZero o n].
Proof.
  intro G. start. unfold pushLocal. destruct (addp true c (base c) o) as [p|] eqn:A; [|ub]. cbn [obind].
  destruct (addp_strict _ _ _ _ A) as (_ & _ & _ & F). specialize (F (base_inframe c)).
  cbn [stk push with_stk]. 
  change (zeroAt E true p n (with_stk c ((p, None) :: stk c))) with
    (if (n <? 0) || (INT_MAX <? n) || (true && inframe c p && (n <? evsize E (p - base c))) then OUB
     else OOk (with_mm (push c (p, None)) (zero_range (mm c) p n))).
  change (zeroAt E true p n (push c (p, None))) with
    (if (n <? 0) || (INT_MAX <? n) || (true && inframe c p && (n <? evsize E (p - base c))) then OUB
     else OOk (with_mm (push c (p, None)) (zero_range (mm c) p n))).
  destruct (_ || _) eqn:Z; [ub|]. rewrite F in Z. cbn [keep wc co]. ovf.
  cbn [stk push with_stk with_mm]. unfold refCnt. rewrite G. 
  match goal with |- context [inframe ?x p] => change (inframe x p) with (inframe c p) end. rewrite F. cbn [andb].
  match goal with |- context [if ?b then OUB else _] => destruct b eqn:V end; [ub|].
  rewrite (proj2 (proj2 EOK)).
  - cbn [lose]. right. cbn. split; cbn; [reflexivity|discriminate].
  - exact G.
  - intros x X. change ((if (p <=? x) && (x <? p + n) then 0 else mm c x) = 0). replace ((p <=? x) && (x <? p + n)) with true; [reflexivity|].
    cbn [andb] in Z. change ((evsize E (p - base c) <? tsz t) = false) in V. lia.
Qed.
Lemma r_assign swap lft t : tgc t = false ->
  refines [IRefCntAssign swap lft t] [if swap then ISwapAssign (tk t) (tsz t) else IAssign (tk t) (tsz t)].
Proof.
  intro G. apply locally_refines. intros [c sf fr]. cbn [exec]. unfold step at 1. cbn [co self fresh]. ovf.
  destruct (stk c) as [|[a x] [|[b y] l]] eqn:S; try ub.
  unfold refCntAssign. destruct (true && _) eqn:K; [ub|].
  assert (forall lhs rhs, refres (lose E (mkst c sf fr) (obind (if lft then OOk (with_stk c l) else erefcnt E true t rhs (with_stk c l)) (fun c =>
     lift c (doDeref (mm c) (tk t) lhs) (fun v =>
     obind (erefcnt E false t v c) (fun c =>
     lift c (doAssign (mm c) (tk t) lhs rhs (tsz t)) (fun m => OOk (with_mm c m)))))))
    (keep (mkst c sf fr) (assign (tk t) (tsz t) lhs rhs l c))) as Q.
  { intros lhs rhs. replace (if lft then _ else _) with (OOk (with_stk c l)) by (destruct lft; [reflexivity|rewrite (proj1 EOK) by exact G; reflexivity]).
    cbn [obind]. cbn [mm with_stk]. unfold assign. destruct (lhs =? 0) eqn:L0.
    { unfold doDeref, doAssign. rewrite L0. right. cbn. auto. }
    destruct (doDeref (mm c) (tk t) lhs) as [v|e|] eqn:D; cbn [lift].
    - rewrite (proj1 EOK) by exact G. cbn [obind mm with_stk].
      destruct (doAssign (mm c) (tk t) lhs rhs (tsz t)); cbn [lift lose keep ferr]; [right|right|left]; cbn; auto.
      split; cbn; [reflexivity|discriminate].
    - exfalso. unfold doDeref in D. rewrite L0 in D. destruct (tk t); try discriminate K; try discriminate D.
      destruct (_ <=? _); discriminate D.
    - ub. }
  destruct swap; unfold step; cbn [co]; match goal with Q1 : (lim c <? _) = false |- _ => rewrite ?S; rewrite ?S in Q1; rewrite ?Q1 end;
  match goal with |- context [assign _ _ ?x ?y l c] => specialize (Q x y) end;
  match type of Q with refres ?x ?y => destruct x, y; exact Q end.
Qed.
End P.
