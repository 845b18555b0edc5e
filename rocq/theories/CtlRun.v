(** The code of CtlProofs.v does what the statements say. *)
From Coq Require Import ZArith Bool List Lia.
From Verif Require Import Base NumModel MemModel BlkModel GenModel GenVm GenSpec GenSim CtlModel CtlSpec CtlProofs.
Import ListNotations.
Local Open Scope nat_scope.

Section Run.
Variable H : Type.
Variable E : env H.
Variable strict : bool.
Notation run := (run E strict).
Notation st := (st H).

Lemma run_mono p : forall n m pc s r, run n p pc s = Fin r -> n <= m -> run m p pc s = Fin r.
Proof.
  induction n as [|n IH]; intros m pc s r Q L; [discriminate|]. destruct m as [|m]; [lia|]. cbn [GenVm.run] in *.
  destruct (nth_error p pc) as [i|]; [|exact Q]. destruct i; try exact Q;
    try (match type of Q with context [step E strict ?i s] => destruct (step E strict i s) end; [eapply IH; [exact Q|lia]|exact Q|exact Q]).
  destruct (_ <? _)%Z; [exact Q|]. destruct j; [eapply IH; [exact Q|lia]| |]; destruct (stk (co s)) as [|[v x] l]; try exact Q; (eapply IH; [exact Q|lia]).
Qed.
Lemma oof_mono p n m pc s : run m p pc s = OutOfFuel -> n <= m -> run n p pc s = OutOfFuel.
Proof. intros Q L. destruct (run n p pc s) as [r|] eqn:F; [|reflexivity]. rewrite (run_mono _ _ _ _ _ _ F L) in Q. discriminate. Qed.

Definition reach (p : list instr) (pc : nat) (s : st) (pc' : nat) (s' : st) : Prop := exists k, forall m, run (k + m) p pc s = run m p pc' s'.
Lemma reach_refl p pc s : reach p pc s pc s. Proof. exists 0. reflexivity. Qed.
Lemma reach_trans p a s b s' c s'' : reach p a s b s' -> reach p b s' c s'' -> reach p a s c s''.
Proof. intros (k & K) (l & L). exists (k + l). intro m. rewrite <- Nat.add_assoc, K, L. reflexivity. Qed.
Lemma reach_fin p a s b s' k r : reach p a s b s' -> run k p b s' = Fin r -> exists k, run k p a s = Fin r.
Proof. intros (l & L) Q. exists (l + k). rewrite L. exact Q. Qed.
Lemma reach_oof p a s b s' n : reach p a s b s' -> run n p b s' = OutOfFuel -> run n p a s = OutOfFuel.
Proof. intros (l & L) Q. apply (oof_mono p n (l + n)); [rewrite L; exact Q|lia]. Qed.

Definition sim (p : list instr) (n : nat) (pc : nat) (s : st) (x : out H) (e : nat) (T : tgts) : Prop :=
  match x with
  | Go On s' => reach p pc s e s'
  | Go (Jmp w) s' => match tg T w with Some t => reach p pc s t s' | None => True end
  | Stop r => exists k, run k p pc s = Fin r
  | Fuel => run n p pc s = OutOfFuel
  end.
Lemma sim_le p n m pc s x e T : n <= m -> sim p m pc s x e T -> sim p n pc s x e T.
Proof. intros L. destruct x as [[|w] s'|r|]; cbn [sim]; auto. intro. eapply oof_mono; eassumption. Qed.
Lemma sim_reach p n pc s pc' s' x e T : reach p pc s pc' s' -> sim p n pc' s' x e T -> sim p n pc s x e T.
Proof.
  intros R. destruct x as [[|w] z|r|]; cbn [sim].
  - apply reach_trans. exact R.
  - destruct (tg T w); [|auto]. apply reach_trans. exact R.
  - intros (k & K). eapply reach_fin; eassumption.
  - apply reach_oof. exact R.
Qed.
Lemma sim_on p n pc s x e e' f T : sim p n pc s x e T -> (forall s', sim p n e s' (f s') e' T) -> sim p n pc s (on x f) e' T.
Proof. intros A B. destruct x as [[|w] s'|r|]; cbn [on]; try exact A. eapply sim_reach; [exact A|apply B]. Qed.

Definition has (p : list instr) (pc : nat) (l : list instr) : Prop := exists A B, p = A ++ l ++ B /\ length A = pc.
Lemma has_app p pc l1 l2 : has p pc (l1 ++ l2) -> has p pc l1 /\ has p (pc + length l1) l2.
Proof.
  intros (A & B & -> & L). split.
  - exists A, (l2 ++ B). rewrite <- !app_assoc. auto.
  - exists (A ++ l1), B. rewrite <- !app_assoc, app_length. split; [reflexivity|lia].
Qed.
Lemma has_cons p pc i l : has p pc (i :: l) -> nth_error p pc = Some i /\ has p (S pc) l.
Proof.
  intros (A & B & -> & L). split.
  - rewrite nth_error_app2 by lia. replace (pc - length A) with 0 by lia. reflexivity.
  - exists (A ++ [i]), B. rewrite <- !app_assoc, app_length. cbn. split; [reflexivity|lia].
Qed.

Lemma reach1 p pc s pc' s' : (forall m, run (S m) p pc s = run m p pc' s') -> reach p pc s pc' s'.
Proof. intro Q. exists 1. exact Q. Qed.
Lemma sim_prim p n pc s i T : nth_error p pc = Some i -> (forall j d, i <> IJump j d) -> sim p n pc s (prim E strict i s) (S pc) T.
Proof.
  intros N J. unfold prim. destruct (match i with IHalt => true | _ => false end) eqn:K.
  - destruct i; try discriminate. unfold room. rewrite Z.add_0_r. destruct (_ <? _)%Z eqn:O; exists 1; cbn [GenVm.run]; rewrite N, O; reflexivity.
  - assert (match i with IHalt => room 0 s (Stop (ROk s)) | _ => match step E strict i s with ROk s => Go On s | r => Stop r end end =
            match step E strict i s with ROk s => Go On s | r => Stop r end) as -> by (destruct i; (reflexivity || discriminate)).
    assert (forall m, run (S m) p pc s = match step E strict i s with ROk s => run m p (S pc) s | r => Fin r end) as R.
    { intro m. cbn [GenVm.run]. rewrite N. destruct i; try reflexivity; [|discriminate]. exfalso. eapply J. reflexivity. }
    destruct (step E strict i s) as [s'|e m h|] eqn:S.
    + apply reach1. exact R.
    + exists 1. rewrite R. reflexivity.
    + exists 1. rewrite R. reflexivity.
Qed.
Lemma sim_goto p n pc s d x e T : nth_error p pc = Some (IJump JGoto d) -> sim p n d s x e T -> sim p (S n) pc s (room 0 s x) e T.
Proof.
  intros N Q. unfold room. rewrite Z.add_0_r. destruct (_ <? _)%Z eqn:O.
  - exists 1. cbn [GenVm.run]. rewrite N, O. reflexivity.
  - assert (forall m, run (S m) p pc s = run m p d s) as R by (intro m; cbn [GenVm.run]; rewrite N, O; reflexivity).
    destruct x as [[|w] z|r|].
    + exact (sim_reach p n _ _ _ _ _ _ _ (reach1 _ _ _ _ _ R) Q).
    + exact (sim_reach p n _ _ _ _ _ _ _ (reach1 _ _ _ _ _ R) Q).
    + exact (sim_reach p n _ _ _ _ _ _ _ (reach1 _ _ _ _ _ R) Q).
    + cbn [sim]. rewrite R. exact Q.
Qed.
Lemma sim_goto_ p n pc s d x e T : nth_error p pc = Some (IJump JGoto d) -> sim p n d s x e T -> sim p n pc s (room 0 s x) e T.
Proof. intros. apply (sim_le p n (S n)); [lia|]. eapply sim_goto; eassumption. Qed.
Lemma sim_test p n pc s (neg : bool) d f e T : nth_error p pc = Some (IJump (if neg then JIfNot else JIf) d) ->
  (forall b s', sim p n (if Bool.eqb b neg then S pc else d) s' (f b s') e T) -> sim p n pc s (test s f) e T.
Proof.
  intros N Q. unfold test, room, top. rewrite Z.add_0_r. destruct (_ <? _)%Z eqn:O.
  - exists 1. cbn [GenVm.run]. rewrite N, O. reflexivity.
  - destruct (stk (co s)) as [|[v x] l] eqn:K.
    + exists 1. cbn [GenVm.run]. rewrite N, K, O. destruct neg; reflexivity.
    + eapply sim_reach; [|apply Q]. apply reach1. intro m. cbn [GenVm.run fst]. rewrite N, K, O. destruct neg, (v =? 0)%Z; reflexivity.
Qed.
Lemma sim_prims p n T : forall l pc s, has p pc l -> (forall i j d, In i l -> i <> IJump j d) -> sim p n pc s (prims E strict l s) (pc + length l) T.
Proof.
  induction l as [|i l IH]; intros pc s A J; cbn [prims length].
  - rewrite Nat.add_0_r. apply reach_refl.
  - apply has_cons in A. destruct A as (N & A). eapply sim_on; [apply sim_prim; [exact N|intros; apply J; left; reflexivity]|].
    intro s'. replace (pc + S (length l)) with (S pc + length l) by lia. apply IH; [exact A|]. intros. apply J. right. assumption.
Qed.
Lemma instr_of_nj q j d : instr_of q <> IJump j d. Proof. destruct q; discriminate. Qed.
Lemma instrs_nj qs : forall i j d, In i (map instr_of qs) -> i <> IJump j d.
Proof. intros i j d Q. apply in_map_iff in Q. destruct Q as (q & <- & _). apply instr_of_nj. Qed.

Lemma wc_id (s : st) l : l = stk (co s) -> wc s (with_stk (co s) l) = s.
Proof. intros ->. destruct s as [[]]. reflexivity. Qed.
Lemma sim_matches p n e T blk : forall ks pc s f, has p pc (flat_map (chk (Some blk)) ks) ->
  sim p n blk s (f true) e T -> sim p n (pc + 4 * length ks) s (f false) e T -> sim p n pc s (matches E ks s f) e T.
Proof.
  induction ks as [|[k v] ks IH]; intros pc s f A X Y; cbn [matches flat_map length] in *.
  - rewrite Nat.add_0_r in Y. exact Y.
  - apply has_app in A. destruct A as (A & A'). cbn [chk length fst snd] in A, A'.
    apply has_cons in A. destruct A as (N1 & A). apply has_cons in A. destruct A as (N2 & A). apply has_cons in A. destruct A as (N3 & A).
    apply has_cons in A. destruct A as (N4 & _). cbn [fst snd] in N2, N3.
    set (L := Z.of_nat (length (stk (co s)))).
    assert (forall q (x : slot), Z.of_nat (length (x :: q)) = (Z.of_nat (length q) + 1)%Z) as LC by (intros; cbn [length]; lia).
    unfold room. fold L. destruct (lim (co s) <? L)%Z eqn:O1.
    { replace (lim (co s) <? L + 2)%Z with true by lia. exists 1. cbn [GenVm.run]. rewrite N1. cbv beta iota zeta delta [step]. fold L. rewrite O1. reflexivity. }
    set (s1 := wc s (push (co s) (rsw (co s)))).
    assert (reach p pc s (S pc) s1) as R1.
    { apply reach1. intro m. cbn [GenVm.run]. rewrite N1. cbv beta iota zeta delta [step]. fold L. rewrite O1. reflexivity. }
    destruct (lim (co s) <? L + 1)%Z eqn:O2.
    { replace (lim (co s) <? L + 2)%Z with true by lia. eapply sim_reach; [exact R1|]. exists 1. cbn [GenVm.run]. rewrite N2. cbv beta iota zeta delta [step].
      cbn [s1 wc co push with_stk lim stk]. rewrite LC. fold L. rewrite O2. reflexivity. }
    set (s2 := wc s1 (push (co s1) (v, Some KInt))).
    assert (reach p pc s (S (S pc)) s2) as R2.
    { eapply reach_trans; [exact R1|]. apply reach1. intro m. cbn [GenVm.run]. rewrite N2. cbv beta iota zeta delta [step]. change (lim (co s1)) with (lim (co s)).
      change (stk (co s1)) with (rsw (co s) :: stk (co s)). rewrite LC. fold L. rewrite O2. cbn [isPtr]. rewrite andb_false_r. reflexivity. }
    destruct (lim (co s) <? L + 2)%Z eqn:O3.
    { eapply sim_reach; [exact R2|]. exists 1. cbn [GenVm.run]. rewrite N3. cbv beta iota zeta delta [step]. change (lim (co s2)) with (lim (co s)).
      change (stk (co s2)) with ((v, Some KInt) :: rsw (co s) :: stk (co s)). rewrite !LC. fold L. replace (L + 1 + 1)%Z with (L + 2)%Z by lia. rewrite O3. reflexivity. }
    assert (forall m, run (S m) p (S (S pc)) s2 = match step E strict (IBinary OpEqEq k) s2 with ROk s => run m p (S (S (S pc))) s | r => Fin r end) as R3.
    { intro m. cbn [GenVm.run]. rewrite N3. reflexivity. }
    cbv beta iota zeta delta [step] in R3. change (lim (co s2)) with (lim (co s)) in R3. change (stk (co s2)) with ((v, Some KInt) :: rsw (co s) :: stk (co s)) in R3. rewrite !LC in R3. fold L in R3.
    replace (L + 1 + 1)%Z with (L + 2)%Z in R3 by lia. rewrite O3 in R3. unfold binary in R3. change (stk (co s2)) with ((v, Some KInt) :: rsw (co s) :: stk (co s)) in R3.
    destruct (rsw (co s)) as [x nx] eqn:RS. cbn [fst]. destruct (doBinary (elm E) OpEqEq k x v) as [b|er|]; cbn [lift keep] in R3.
    + eapply sim_reach; [exact R2|]. eapply sim_reach; [apply reach1; exact R3|].
      match type of R3 with forall m, _ = run m p _ ?z => set (s3 := z) in * end.
      assert (reach p (S (S (S pc))) s3 (if (b =? 0)%Z then S (S (S (S pc))) else blk) s) as R4.
      { apply reach1. intro m. cbn [GenVm.run]. rewrite N4. change (lim (co s3)) with (lim (co s)). unfold s3 at 1 2. cbn [wc co with_stk stk]. rewrite LC. fold L. rewrite O2.
        f_equal. unfold s3, s2, s1. cbn [wc co with_stk push mm hp rres rheap rsw rlist base lim self fresh]. destruct s as [[]]. reflexivity. }
      eapply sim_reach; [exact R4|]. destruct (b =? 0)%Z; [|exact X]. replace (S (S (S (S pc)))) with (pc + 4) by lia. apply IH; [exact A'|exact X|].
      replace (pc + 4 + 4 * length ks) with (pc + 4 * S (length ks)) by lia. exact Y.
    + eapply sim_reach; [exact R2|]. exists 1. rewrite R3. reflexivity.
    + eapply sim_reach; [exact R2|]. exists 1. rewrite R3. reflexivity.
Qed.
Lemma sim_eq p n pc s x e T pc' e' : sim p n pc s x e T -> pc = pc' -> e = e' -> sim p n pc' s x e' T.
Proof. intros Q <- <-. exact Q. Qed.

Lemma R_all p n :
  (forall q pc T s, has p pc (cg q pc T) -> sim p n pc s (ev E strict n q s) (pc + sz q) T) /\
  (forall cs pc T s x d, has p pc (ccg cs pc T (Some x)) -> (forall s, sim p n (pc + csz cs) s (d s) x T) -> sim p n pc s (evc E strict n cs d s) x T) /\
  (forall cs pc T s x d, has p pc (tcg cs pc T (Some x)) -> (forall s, sim p n (pc + tsz_ cs) s (d s) x T) -> sim p n pc s (evt E strict n cs d s) x T).
Proof.
  apply stmt_mut.
  - intros pc T s A. cbn [ev sz]. rewrite Nat.add_0_r. apply reach_refl.
  - intros q pc T s A. cbn [ev sz cg] in *. apply has_cons in A. rewrite Nat.add_1_r. apply sim_prim; [apply A|apply instr_of_nj].
  - intros a IHa b IHb pc T s A. cbn [ev sz cg] in *. apply has_app in A. rewrite cg_len in A. destruct A as (A & B).
    eapply sim_on; [apply IHa; exact A|]. intro s'. eapply sim_eq; [apply IHb; exact B|lia|lia].
  - intros isAnd b IH pc T s A. cbn [ev sz cg] in *. apply has_cons in A. destruct A as (N1 & A). apply has_cons in A. destruct A as (N2 & A). apply has_cons in A. destruct A as (N3 & A).
    destruct (stk (co s)) as [|v l] eqn:K.
    { unfold room. rewrite Z.add_0_r. rewrite K. destruct (_ <? _)%Z eqn:O; exists 1; cbn [GenVm.run]; rewrite N1; cbv beta iota zeta delta [step]; rewrite K, O; reflexivity. }
    unfold room. rewrite K. destruct (lim (co s) <? Z.of_nat (length (v :: l)))%Z eqn:O1.
    { replace (_ <? _)%Z with true by lia. exists 1. cbn [GenVm.run]. rewrite N1. cbv beta iota zeta delta [step]. rewrite K, O1. reflexivity. }
    set (s1 := wc s (with_stk (co s) (v :: v :: l))).
    assert (reach p pc s (S pc) s1) as R1. { apply reach1. intro m. cbn [GenVm.run]. rewrite N1. cbv beta iota zeta delta [step]. rewrite K, O1. reflexivity. }
    assert (Z.of_nat (length (stk (co s1))) = Z.of_nat (length (v :: l)) + 1)%Z as L1 by (cbn [s1 wc co with_stk stk length]; lia).
    destruct (lim (co s) <? Z.of_nat (length (v :: l)) + 1)%Z eqn:O2.
    { eapply sim_reach; [exact R1|]. exists 1. cbn [GenVm.run]. rewrite N2. rewrite L1. change (lim (co s1)) with (lim (co s)). rewrite O2. reflexivity. }
    destruct v as [v x].
    assert (reach p (S pc) s1 (if Bool.eqb (v =? 0)%Z isAnd then pc + 3 + sz b else S (S pc)) s) as R2.
    { apply reach1. intro m. cbn [GenVm.run]. rewrite N2. rewrite L1. change (lim (co s1)) with (lim (co s)). rewrite O2. 
      change (stk (co s1)) with ((v, x) :: (v, x) :: l). assert (wc s1 (with_stk (co s1) ((v, x) :: l)) = s) as WI by (transitivity (wc s (with_stk (co s) ((v, x) :: l))); [reflexivity|apply wc_id; symmetry; exact K]).
      destruct isAnd; rewrite WI; destruct (v =? 0)%Z; reflexivity. }
    eapply sim_reach; [eapply reach_trans; [exact R1|exact R2]|]. cbn [fst]. destruct (Bool.eqb _ _).
    { replace (pc + 3 + sz b) with (pc + (3 + sz b)) by lia. apply reach_refl. }
    unfold top. rewrite K. eapply sim_reach.
    { apply reach1. intro m. cbn [GenVm.run]. rewrite N3. cbv beta iota zeta delta [step]. rewrite K, O1. replace (_ || _) with false by (cbn [length]; lia).
      change (skipn (Z.to_nat 1) ((v, x) :: l)) with l. cbn [keep]. reflexivity. }
    replace (pc + 3) with (S (S (S pc))) in A by lia. eapply sim_eq; [apply IH; exact A|reflexivity|lia].
  - intros a IH pc T s A. cbn [ev sz cg] in *. apply has_cons in A. destruct A as (N1 & A). rewrite Nat.add_1_r in A, N1.
    apply (sim_test p n pc s true (S pc + sz a)); [exact N1|]. intros b s'. destruct b; cbn [Bool.eqb].
    + eapply sim_eq; [apply IH; exact A|reflexivity|lia].
    + replace (pc + (1 + sz a)) with (S pc + sz a) by lia. apply reach_refl.
  - intros a IHa b IHb pc T s A. cbn [ev sz cg] in *. apply has_app in A. destruct A as (A & B). apply has_cons in A. destruct A as (N1 & A). cbn [length] in B. rewrite cg_len in B.
    apply has_cons in B. destruct B as (N2 & B). rewrite Nat.add_1_r in A.
    apply (sim_test p n pc s true (pc + sz a + 2)); [exact N1|]. intros c s'. destruct c; cbn [Bool.eqb].
    + eapply sim_on; [apply IHa; exact A|]. intro z. eapply sim_goto_; [rewrite <- N2; f_equal; lia|]. replace (pc + (1 + sz a + 1 + sz b)) with (pc + sz a + 2 + sz b) by lia. apply reach_refl.
    + eapply sim_eq; [apply IHb; replace (pc + sz a + 2) with (S (pc + S (sz a))) by lia; replace (pc + sz a + 2) with (S (pc + S (sz a))) in B by lia; exact B|lia|lia].
  - intros cs IHc d IHd pc T s A. cbn [ev sz cg] in *. apply has_cons in A. destruct A as (N1 & A). apply has_app in A. rewrite ccg_len in A. destruct A as (A & B).
    unfold room, top. rewrite Z.add_0_r. destruct (_ <? _)%Z eqn:O.
    { exists 1. cbn [GenVm.run]. rewrite N1. cbv beta iota zeta delta [step]. rewrite O. reflexivity. }
    destruct (stk (co s)) as [|v l] eqn:K.
    { exists 1. cbn [GenVm.run]. rewrite N1. cbv beta iota zeta delta [step]. rewrite K, O. reflexivity. }
    eapply sim_reach. { apply reach1. intro m. cbn [GenVm.run]. rewrite N1. cbv beta iota zeta delta [step]. rewrite K, O. reflexivity. }
    rewrite Nat.add_1_r in A, B. replace (pc + (1 + csz cs + sz d)) with (S pc + csz cs + sz d) by lia. apply IHc; [exact A|]. intro s'. apply IHd. exact B.
  - intros cs IHc d IHd pc T s A. cbn [ev sz cg] in *. apply has_app in A. rewrite tcg_len in A. destruct A as (A & B). apply has_app in B. rewrite cg_len in B. destruct B as (B & C).
    apply has_cons in C. destruct C as (N & _).
    eapply sim_on. { apply IHc; [exact A|]. intro s'. apply IHd. exact B. } intro s'. eapply sim_eq; [apply sim_prim; [exact N|discriminate]|reflexivity|lia].
  - intros i IHi c IHc b IHb q IHq pc T s A. cbn [ev sz cg] in *. cbv zeta in A. apply has_app in A. rewrite cg_len in A. destruct A as (Ai & A). apply has_app in A. rewrite cg_len in A. destruct A as (Ac & A).
    apply has_cons in A. destruct A as (N1 & A). apply has_app in A. rewrite cg_len in A. destruct A as (Ab & A). apply has_app in A. rewrite cg_len in A. destruct A as (Aq & A). apply has_cons in A. destruct A as (N2 & _).
    eapply sim_on; [apply IHi; exact Ai|]. set (h := pc + sz i) in *. set (body := h + sz c + 1) in *. set (cont := body + sz b) in *. set (ex := cont + sz q + 1) in *.
    replace (pc + _) with ex by (unfold ex, cont, body, h; lia).
    replace (S (h + sz c)) with body in * by (unfold body; lia).
    enough (forall j s, j <= n -> sim p j h s (loop false (ev E strict n c) (ev E strict n b) (ev E strict n q) j s) ex T) as X by (intro s'; apply X; lia).
    induction j as [|j IHj]; intros s' L; [reflexivity|]. cbn [loop].
    eapply sim_on; [eapply sim_le; [|apply IHc; exact Ac]; lia|]. intro s1.
    apply (sim_test p (S j) (h + sz c) s1 true ex); [exact N1|]. intros t s2. destruct t; cbn [Bool.eqb]; [|apply reach_refl].
    replace (S (h + sz c)) with body by (unfold body; lia). pose proof (IHb body (inner T ex cont) s2 Ab) as SB. fold cont in SB.
    destruct (ev E strict n b s2) as [[|[| |]] s3|r|]; cbn [sim tg inner tb tc tr] in SB |- *.
    + eapply sim_reach; [exact SB|]. eapply sim_on; [eapply sim_le; [|apply IHq; exact Aq]; lia|]. intro s4. eapply sim_goto; [exact N2|]. apply IHj. lia.
    + exact SB.
    + eapply sim_reach; [exact SB|]. eapply sim_on; [eapply sim_le; [|apply IHq; exact Aq]; lia|]. intro s4. eapply sim_goto; [exact N2|]. apply IHj. lia.
    + exact SB.
    + exact SB.
    + eapply oof_mono; [exact SB|lia].
  - intros i IHi c IHc q IHq b IHb pc T s A. cbn [ev sz cg] in *. cbv zeta in A. apply has_app in A. rewrite cg_len in A. destruct A as (Ai & A). apply has_app in A. rewrite cg_len in A. destruct A as (Ac & A).
    apply has_cons in A. destruct A as (N1 & A). apply has_cons in A. destruct A as (N0 & A). apply has_app in A. rewrite cg_len in A. destruct A as (Aq & A). apply has_cons in A. destruct A as (N3 & A).
    apply has_app in A. rewrite cg_len in A. destruct A as (Ab & A). apply has_cons in A. destruct A as (N2 & _).
    eapply sim_on; [apply IHi; exact Ai|]. set (h := pc + sz i) in *. set (post := h + sz c + 2) in *. set (body := post + sz q + 1) in *. set (ex := body + sz b + 1) in *.
    replace (pc + _) with ex by (unfold ex, body, post, h; lia).
    replace (S (S (h + sz c))) with post in * by (unfold post; lia). replace (S (post + sz q)) with body in * by (unfold body; lia).
    enough (forall j s, j <= n -> sim p j h s (loop true (ev E strict n c) (ev E strict n b) (ev E strict n q) j s) ex T) as X by (intro s'; apply X; lia).
    induction j as [|j IHj]; intros s' L; [reflexivity|]. cbn [loop].
    eapply sim_on; [eapply sim_le; [|apply IHc; exact Ac]; lia|]. intro s1.
    apply (sim_test p (S j) (h + sz c) s1 false body); [exact N1|]. intros t s2. destruct t; cbn [Bool.eqb].
    2:{ eapply sim_goto_; [exact N0|]. apply reach_refl. }
    pose proof (IHb body (inner T ex (body + sz b)) s2 Ab) as SB.
    assert (forall s3, sim p (S j) (body + sz b) s3 (room 0 s3 (on (ev E strict n q s3) (fun s => room 0 s (loop true (ev E strict n c) (ev E strict n b) (ev E strict n q) j s)))) ex T) as NX.
    { intro s3. eapply sim_goto_; [exact N2|]. eapply sim_on; [eapply sim_le; [|apply IHq; exact Aq]; lia|]. intro s4. eapply sim_goto; [exact N3|]. apply IHj. lia. }
    destruct (ev E strict n b s2) as [[|[| |]] s3|r|]; cbn [sim tg inner tb tc tr] in SB |- *.
    + eapply sim_reach; [exact SB|]. apply NX.
    + exact SB.
    + eapply sim_reach; [exact SB|]. apply NX.
    + exact SB.
    + exact SB.
    + eapply oof_mono; [exact SB|lia].
  - intros w pc T s A. cbn [ev sz cg] in *. apply has_cons in A. destruct A as (N & _). destruct (tg T w) as [t|] eqn:W; cbn [stub] in N.
    + eapply sim_goto_; [exact N|]. cbn [sim]. rewrite W. apply reach_refl.
    + unfold room. rewrite Z.add_0_r. destruct (_ <? _)%Z eqn:O.
      * exists 1. cbn [GenVm.run]. rewrite N. cbv beta iota zeta delta [step]. rewrite O. reflexivity.
      * cbn [sim]. rewrite W. exact Logic.I.
  - intros pc T s x d A D. cbn [evc csz] in *. rewrite Nat.add_0_r in D. apply D.
  - intros ks b IHb r IHr pc T s x d A D. cbn [evc csz ccg] in *. cbv zeta in A. apply has_app in A. rewrite chks_len in A. destruct A as (Ak & A). apply has_cons in A. destruct A as (N1 & A).
    apply has_app in A. rewrite cg_len in A. destruct A as (Ab & A). apply has_cons in A. destruct A as (N2 & A). cbn [stub] in N2.
    replace (S (pc + 4 * length ks)) with (pc + 4 * length ks + 1) in * by lia.
    eapply sim_matches; [exact Ak| |].
    + eapply sim_on; [apply IHb; exact Ab|]. intro s'. eapply sim_goto_; [exact N2|]. apply reach_refl.
    + eapply sim_goto_; [exact N1|]. replace (S (pc + 4 * length ks + 1 + sz b)) with (pc + 4 * length ks + 1 + sz b + 1) in A by lia. apply IHr; [exact A|].
      intro s'. replace (pc + 4 * length ks + 1 + sz b + 1 + csz r) with (pc + (4 * length ks + 1 + sz b + 1 + csz r)) by lia. apply D.
  - intros pc T s x d A D. cbn [evt tsz_] in *. rewrite Nat.add_0_r in D. apply D.
  - intros t b IHb r IHr pc T s x d A D. cbn [evt tsz_ tcg] in *. apply has_app in A. rewrite map_length in A. cbn [typeTest length] in A. destruct A as (At & A). apply has_cons in A. destruct A as (N1 & A).
    apply has_app in A. rewrite cg_len in A. destruct A as (Ab & A). apply has_cons in A. destruct A as (N2 & A). cbn [stub] in N2. apply has_cons in A. destruct A as (N3 & A).
    replace (S (pc + 5)) with (pc + 6) in * by lia.
    eapply sim_on. { apply sim_prims; [exact At|apply instrs_nj]. } intro s1. rewrite map_length. cbn [typeTest length].
    apply (sim_test p n (pc + 5) s1 true (pc + 6 + sz b + 1)); [exact N1|]. intros c s2. destruct c; cbn [Bool.eqb].
    + replace (S (pc + 5)) with (pc + 6) by lia. eapply sim_on; [apply IHb; exact Ab|]. intro s'. eapply sim_goto_; [exact N2|]. apply reach_refl.
    + replace (pc + 6 + sz b + 1) with (S (pc + 6 + sz b)) by lia. eapply sim_on; [apply sim_prim; [exact N3|discriminate]|]. intro s3.
      replace (S (S (pc + 6 + sz b))) with (pc + 6 + sz b + 2) in * by lia. apply IHr; [exact A|].
      intro s'. replace (pc + 6 + sz b + 2 + tsz_ r) with (pc + (5 + 1 + sz b + 1 + 1 + tsz_ r)) by lia. apply D.
Qed.
End Run.
