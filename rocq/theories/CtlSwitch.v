(** Which branch a switch takes. *)
From Coq Require Import ZArith Bool List Lia Permutation ZifyBool.
From Verif Require Import Base NumModel NumProofs NumExtra MemModel BlkModel GenModel GenVm GenSpec CtlModel CtlSpec.
Import ListNotations.
Local Open Scope Z_scope.

Lemma eq_ord lm k a b : kindOrdinal k = true -> in_s64 a -> in_s64 b -> doBinary lm OpEqEq k a b = Ok (b2z (a =? b)).
Proof.
  intros O A B. unfold doBinary. destruct k; try discriminate; cbn [kindReal]; try reflexivity.
  f_equal. f_equal. unfold u64, wrapu, two64, in_s64, INT64_MIN, INT64_MAX, two63 in *. destruct (a =? b) eqn:Q; [apply Z.eqb_eq in Q; subst; apply Z.eqb_refl|].
  apply Z.eqb_neq in Q. apply Z.eqb_neq. intro M. apply Q. 
  assert (forall x, -9223372036854775808 <= x <= 9223372036854775807 -> x mod 18446744073709551616 = if x <? 0 then x + 18446744073709551616 else x) as X.
  { intros x L. destruct (x <? 0) eqn:N.
    - rewrite <- (Z_mod_plus_full x 1). rewrite Z.mod_small by lia. lia.
    - apply Z.mod_small. lia. }
  rewrite (X a), (X b) in M by lia. destruct (a <? 0) eqn:?, (b <? 0) eqn:?; lia.
Qed.
Lemma find_spec lm k v : kindOrdinal k = true -> in_s64 v -> forall l, Forall in_s64 l -> constArrayFind lm k l v = Ok (existsb (Z.eqb v) l).
Proof.
  intros O V. induction 1 as [|x l X F IH]; [reflexivity|]. cbn [constArrayFind existsb]. rewrite (proj2 (folding_agree lm OpEqEq k x v)), eq_ord by assumption. cbn [bind].
  rewrite (Z.eqb_sym v x). destruct (x =? v); cbn [b2z Z.eqb orb]; [reflexivity|exact IH].
Qed.
Lemma parse_constants lm k : kindOrdinal k = true -> forall vs old, Forall in_s64 old -> Forall in_s64 vs -> NoDup old ->
  ((exists l, parseConstants lm k old vs = Ok l) <-> NoDup (old ++ vs) /\ Forall (fun v => typeOverflow k v = false) vs) /\
  (forall l, parseConstants lm k old vs = Ok l -> l = old ++ vs) /\ parseConstants lm k old vs <> UB.
Proof.
  intro O. induction vs as [|v vs IH]; intros old F V N; cbn [parseConstants].
  - rewrite app_nil_r. repeat split; try congruence; try assumption; [constructor|eauto].
  - inversion V as [|? ? V1 V2]; subst. destruct (typeOverflow k v) eqn:T.
    { split; [|split; congruence]. split; [intros (l & Q); discriminate|]. intros (_ & Q). inversion Q; congruence. }
    rewrite find_spec by assumption. cbn [bind]. destruct (existsb (Z.eqb v) old) eqn:X.
    { split; [|split; congruence]. split; [intros (l & Q); discriminate|]. intros (Q & _). exfalso. apply existsb_exists in X. destruct X as (y & I & Y). apply Z.eqb_eq in Y. subst y.
      apply NoDup_remove_2 in Q. apply Q. apply in_or_app. auto. }
    assert (NoDup (old ++ [v])) as N'.
    { apply (Permutation_NoDup (l := v :: old)); [apply Permutation_cons_append|]. constructor; [|exact N]. intro I. assert (existsb (Z.eqb v) old = true) as Y; [|congruence].
      apply existsb_exists. exists v. split; [exact I|apply Z.eqb_refl]. }
    destruct (IH (old ++ [v])) as (A & B & C); [apply Forall_app; auto|assumption|assumption|]. split; [|split].
    + rewrite A, <- app_assoc. cbn [app]. split; intros (P & Q); (split; [exact P|]); [constructor; assumption|inversion Q; assumption].
    + intros l Q. rewrite (B l Q), <- app_assoc. reflexivity.
    + exact C.
Qed.
Lemma parse_cases lm k : kindOrdinal k = true -> forall cs old, allOf k cs -> Forall in_s64 old -> NoDup old ->
  ((exists l, parseCases lm k old cs = Ok l) <-> NoDup (old ++ constants cs) /\ Forall (fun v => typeOverflow k v = false) (constants cs)) /\ parseCases lm k old cs <> UB.
Proof.
  intro O. induction cs as [|ks b r IH]; intros old A F N; cbn [parseCases constants].
  - rewrite app_nil_r. repeat split; try congruence; try assumption; [constructor|eauto].
  - destruct A as (A1 & A2). assert (Forall in_s64 (map snd ks)) as VS. { clear - A1. induction A1 as [|x l (_ & X) _ IH]; cbn; constructor; assumption. }
    destruct (parse_constants lm k O (map snd ks) old F VS N) as (P & Q & U). destruct (parseConstants lm k old (map snd ks)) as [l| |] eqn:L; cbn [bind].
    + specialize (Q l eq_refl). subst l. destruct (proj1 P (ex_intro _ _ eq_refl)) as (ND & OV). destruct (IH (old ++ map snd ks) A2 ltac:(apply Forall_app; auto) ND) as (X & Y). split; [|exact Y].
      rewrite X, <- app_assoc. rewrite Forall_app. tauto.
    + split; [|congruence]. split; [intros (l & Z); discriminate|]. intros (ND & OV). apply Forall_app in OV. destruct OV as (OV & _). rewrite app_assoc in ND.
      assert (exists l, @Err (list Z) e = Ok l) as (l & Z); [|discriminate]. apply P. split; [|exact OV]. clear - ND. induction (constants r) as [|x c IH] using rev_ind; [rewrite app_nil_r in ND; exact ND|].
      rewrite app_assoc in ND. apply NoDup_remove_1 in ND. rewrite app_nil_r in ND. apply IH. exact ND.
    + congruence.
Qed.
Lemma parse_switch lm k cs : allOf k cs ->
  ((exists l, parseExprSwitch lm k cs = Ok l) <-> kindOrdinal k = true /\ NoDup (constants cs) /\ Forall (fun v => typeOverflow k v = false) (constants cs)) /\ parseExprSwitch lm k cs <> UB.
Proof.
  intro A. unfold parseExprSwitch. destruct (kindOrdinal k) eqn:O.
  - destruct (parse_cases lm k O cs [] A ltac:(constructor) ltac:(constructor)) as (P & U). split; [|exact U]. rewrite P. cbn [app]. tauto.
  - split; [|congruence]. split; [intros (l & Q); discriminate|intros (Q & _); discriminate].
Qed.

Section Pick.
Variable H : Type.
Variable E : env H.
Variable strict : bool.
Lemma matches_spec k s f : kindOrdinal k = true -> in_s64 (fst (rsw (co s))) -> Z.of_nat (length (stk (co s))) + 2 <= lim (co s) ->
  forall ks, Forall (fun kv => fst kv = k /\ in_s64 (snd kv)) ks -> matches E ks s f = f (existsb (fun kv => fst (rsw (co s)) =? snd kv) ks).
Proof.
  intros O X R. induction 1 as [|[k' v] ks (K & V) F IH]; [reflexivity|]. cbn [matches existsb fst snd] in *. subst k'. unfold room.
  replace (lim (co s) <? Z.of_nat (length (stk (co s))) + 2) with false by lia. rewrite eq_ord by assumption. destruct (_ =? v); cbn [b2z Z.eqb orb]; [reflexivity|exact IH].
Qed.
Lemma pick_case n k d s : kindOrdinal k = true -> in_s64 (fst (rsw (co s))) -> Z.of_nat (length (stk (co s))) + 2 <= lim (co s) ->
  forall cs, allOf k cs -> NoDup (constants cs) ->
  (forall ks b, caseIn ks b cs -> In (fst (rsw (co s))) (map snd ks) -> evc E strict n cs d s = on (ev E strict n b s) (fun s => room 0 s (Go On s))) /\
  (~ In (fst (rsw (co s))) (constants cs) -> evc E strict n cs d s = d s).
Proof.
  intros O X R. induction cs as [|ks b r IH]; intros A N; cbn [caseIn constants evc allOf] in *; [split; [contradiction|reflexivity]|].
  destruct A as (A1 & A2). rewrite (matches_spec k) by assumption.
  assert (existsb (fun kv => fst (rsw (co s)) =? snd kv) ks = true <-> In (fst (rsw (co s))) (map snd ks)) as EX.
  { rewrite existsb_exists, in_map_iff. split; intros (y & Y); exists y; [destruct Y as (I & Y); apply Z.eqb_eq in Y; auto|destruct Y as (Y & I); split; [exact I|apply Z.eqb_eq; congruence]]. }
  assert (NoDup (constants r)) as N'. { clear - N. induction (map snd ks); [exact N|]. inversion N; auto. }
  destruct (IH A2 N') as (P & Q). split.
  - intros ks' b' [(-> & ->)|C] I.
    + rewrite (proj2 EX I). reflexivity.
    + destruct (existsb _ ks) eqn:B.
      * exfalso. pose proof (proj1 EX eq_refl) as B1. clear B; rename B1 into B. assert (In (fst (rsw (co s))) (constants r)) as J. { clear - C I. induction r as [|ks2 b2 r IH]; cbn in *; [contradiction|]. apply in_or_app. destruct C as [(-> & ->)|C]; auto. }
        clear - N B J. induction (map snd ks) as [|x l IH]; [contradiction|]. cbn in N. inversion N; subst. destruct B as [->|B]; [apply H2; apply in_or_app; auto|auto].
      * unfold room at 1. replace (lim (co s) <? Z.of_nat (length (stk (co s))) + 0) with false by lia. eapply P; eassumption.
  - intro NI. rewrite in_app_iff in NI. destruct (existsb _ ks) eqn:B; [exfalso; apply NI; left; apply EX; reflexivity|].
    unfold room at 1. replace (lim (co s) <? Z.of_nat (length (stk (co s))) + 0) with false by lia. apply Q. tauto.
Qed.
Lemma switch_thm n k cs d s x y l cl : allOf k cs -> parseExprSwitch (elm E) k cs = Ok cl -> stk (co s) = (x, y) :: l -> in_s64 x -> Z.of_nat (length l) + 2 <= lim (co s) ->
  let s' := setReg (wc s (with_stk (co s) l)) RSwitch (x, y) in
  (forall ks b, caseIn ks b cs -> In x (map snd ks) -> ev E strict n (Switch cs d) s = on (ev E strict n b s') (fun s => room 0 s (Go On s))) /\
  (~ In x (constants cs) -> ev E strict n (Switch cs d) s = ev E strict n d s').
Proof.
  intros A P K X R s'. destruct (proj1 (proj1 (parse_switch (elm E) k cs A)) (ex_intro _ _ P)) as (O & N & _).
  assert (ev E strict n (Switch cs d) s = evc E strict n cs (ev E strict n d) s') as EV.
  { change (room 0 s (top s (fun v s => evc E strict n cs (ev E strict n d) (setReg s RSwitch v))) = evc E strict n cs (ev E strict n d) s').
    unfold room, top. rewrite K. destruct (_ <? _) eqn:Q; [|reflexivity]. exfalso. unfold slot in *. cbn [length] in Q. lia. }
  rewrite EV. apply (pick_case n k (ev E strict n d) s' O X R cs A N).
Qed.
End Pick.

(** A case of a type switch is taken exactly if the assertion gives a value other than null, which is then on the stack. *)
Lemma type_switch_thm :
  forall H (E : env H) strict n t body rest d s v l c1 a m, stk (co s) = v :: l -> Z.of_nat (length l) + 4 <= lim (co s) ->
  estatic E 0 = true -> eopq E t (with_stk (co s) (v :: v :: l)) = OOk c1 -> stk c1 = (a, m) :: v :: l -> lim c1 = lim (co s) -> in_s64 a ->
  let s1 := mkst c1 (eself E c1 (self s)) false in
  evt E strict n (TCons t body rest) d s =
    (if a =? 0 then evt E strict n rest d (wc s1 (with_stk c1 (v :: l))) else on (ev E strict n body s1) (fun s => room 0 s (Go On s))).
Proof.
  intros H E strict n t body rest d s v l c1 a m SK LM ST OP S1 L1 A s1.
  assert (P1 : prim E strict IDup s = Go On (wc s (with_stk (co s) (v :: v :: l)))).
  { unfold prim, step. rewrite SK. cbn [length]. destruct (_ <? _) eqn:Q; [exfalso; lia|]. reflexivity. }
  assert (P2 : prim E strict (IOther t) (wc s (with_stk (co s) (v :: v :: l))) = Go On s1).
  { unfold prim, step. cbn [co wc]. destruct (_ <? _) eqn:Q; [exfalso; cbn [with_stk stk lim length] in Q; lia|].
    rewrite OP. reflexivity. }
  assert (P3 : prim E strict IDup s1 = Go On (wc s1 (with_stk c1 ((a, m) :: (a, m) :: v :: l)))).
  { unfold prim, step. subst s1. cbn [co]. rewrite S1. cbn [length]. destruct (_ <? _) eqn:Q; [exfalso; lia|]. reflexivity. }
  assert (P4 : prim E strict (IPush KPtr 0) (wc s1 (with_stk c1 ((a, m) :: (a, m) :: v :: l))) =
               Go On (wc s1 (with_stk c1 ((0, Some KPtr) :: (a, m) :: (a, m) :: v :: l)))).
  { unfold prim, step. cbn [co wc with_stk stk lim length]. destruct (_ <? _) eqn:Q; [exfalso; lia|].
    rewrite ST. cbn [negb]. rewrite andb_false_r. reflexivity. }
  assert (UU : (u64 a =? u64 0) = (a =? 0)).
  { unfold u64, wrapu, in_s64, INT64_MIN, INT64_MAX, two63, two64 in *. rewrite Z.mod_0_l by lia.
    destruct (a =? 0) eqn:Q; [apply Z.eqb_eq in Q; subst a; reflexivity|].
    apply Z.eqb_neq. intros K. apply Z.mod_divide in K; [|lia]. destruct K as (z & K). lia. }
  assert (P5 : exists k, prim E strict (IBinary OpNotEq KPtr) (wc s1 (with_stk c1 ((0, Some KPtr) :: (a, m) :: (a, m) :: v :: l))) =
               Go On (wc s1 (with_stk c1 ((b2z (negb (a =? 0)), k) :: (a, m) :: v :: l)))).
  { unfold prim, step. cbn [co wc with_stk stk lim length]. destruct (_ <? _) eqn:Q; [exfalso; lia|].
    unfold binary, doBinary, lift. cbn [with_stk stk]. rewrite UU. eexists. reflexivity. }
  destruct P5 as (k & P5).
  cbn [evt]. unfold typeTest. cbn [map instr_of prims]. rewrite P1. cbn [on]. rewrite P2. cbn [on]. rewrite P3. cbn [on]. rewrite P4. cbn [on]. rewrite P5. cbn [on].
  unfold test, room, top. cbn [co wc with_stk stk lim length].
  destruct (_ <? _) eqn:Q; [exfalso; lia|]. cbn [fst].
  assert (W : wc (wc s1 (with_stk c1 ((b2z (negb (a =? 0)), k) :: (a, m) :: v :: l))) (with_stk (with_stk c1 ((b2z (negb (a =? 0)), k) :: (a, m) :: v :: l)) ((a, m) :: v :: l)) = s1).
  { subst s1. destruct c1. cbn in S1. subst. reflexivity. }
  unfold wc, with_stk in W |- *. cbn [co stk self GenVm.fresh mm hp GenVm.rres GenVm.rheap rsw GenVm.rlist base lim] in W |- *. rewrite W.
  destruct (a =? 0); cbn [negb b2z Z.eqb]; [|reflexivity].
  unfold prim, step. subst s1. cbn [co]. rewrite S1. cbn [length]. destruct (lim c1 <? Z.of_nat (S (S (length l)))) eqn:Q2; [exfalso; lia|].
  destruct (Z.of_nat (S (S (length l))) <? 1) eqn:Q3; [exfalso; lia|]. reflexivity.
Qed.
