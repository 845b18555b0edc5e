(** Running code that consists of corresponding segments. *)
From Coq Require Import ZArith Bool List Lia ZifyBool.
From Verif Require Import Base NumModel MemModel BlkModel GenModel GenVm GenSpec GenProofs GenEmit GenSim GenActs.
Import ListNotations.
Local Open Scope nat_scope.

Section R.
Variable H : Type.
Variable E : env H.
Notation KK := (K H E).

(** ** The rules only reject. *)
Lemma addp_real (c : core H) p d : addp true c p d = None \/ addp true c p d = addp false c p d.
Proof. unfold addp. cbn [andb]. destruct (_ || _); auto. Qed.
Lemma pushLocal_real o (c : core H) : pushLocal true o c = OUB \/ pushLocal true o c = pushLocal false o c.
Proof. unfold pushLocal. destruct (addp_real c (base c) o) as [-> | ->]; auto. Qed.
Lemma zeroAt_real p n (c : core H) : zeroAt E true p n c = OUB \/ zeroAt E true p n c = zeroAt E false p n c.
Proof. unfold zeroAt. cbn [andb]. rewrite orb_false_r. destruct (_ || _)%bool eqn:Q; [auto|]. apply orb_false_elim in Q. destruct Q as (-> & _). auto. Qed.
Lemma getArray_real a b (c : core H) : getArray E true a b c = OUB \/ getArray E true a b c = getArray E false a b c.
Proof.
  unfold getArray. destruct (stk c) as [|[i n] [|[d x] l]]; auto. cbn [andb].
  destruct (_ && match n with Some _ => _ | None => _ end); [auto|]. destruct (_ && _); [auto|]. cbv zeta. destruct (_ || _); [auto|].
  match goal with |- context [addp true c ?p ?d] => destruct (addp_real c p d) as [-> | ->]; auto end.
Qed.
Lemma getField_real o (c : core H) : getField true o c = OUB \/ getField true o c = getField false o c.
Proof. unfold getField. destruct (stk c) as [|[p x] l]; auto. destruct (_ =? _)%Z; auto. destruct (addp_real c p o) as [-> | ->]; auto. Qed.
Lemma refCnt_real inc t p (c : core H) : refCnt E true inc t p c = OUB \/ refCnt E true inc t p c = refCnt E false inc t p c.
Proof. unfold refCnt. cbn [andb]. destruct (_ && _); auto. Qed.
Lemma refCntAssign_real lft t a b (c : core H) : refCntAssign E true lft t a b c = OUB \/ refCntAssign E true lft t a b c = refCntAssign E false lft t a b c.
Proof. unfold refCntAssign. cbn [andb]. destruct (match tk t with KNone => _ | _ => _ end); auto. Qed.
Lemma unary_real o k (c : core H) : unary true o k c = OUB \/ unary true o k c = unary false o k c.
Proof. unfold unary. destruct (stk c) as [|[v n] l]; auto. cbn [andb]. destruct (isPtr k); auto. Qed.
Lemma builtin_real f k (c : core H) : builtin E true f k c = OUB \/ builtin E true f k c = builtin E false f k c.
Proof.
  unfold builtin. destruct f; destruct (stk c) as [|[v n] [|[w m] l]]; auto; cbn [andb];
  match goal with |- context [if ?b then OUB else _] => destruct b; auto end.
Qed.
Definition okres (a b : res H) : Prop := a = RUB \/ a = b.
Lemma keep_ok s a b : a = OUB \/ a = b -> okres (keep s a) (keep s b).
Proof. intros [-> | ->]; [left|right]; reflexivity. Qed.
Lemma lose_ok s a b : a = OUB \/ a = b -> okres (lose E s a) (lose E s b).
Proof. intros [-> | ->]; [left|right]; reflexivity. Qed.
Lemma obind_ok (a b : ores H) f g : a = OUB \/ a = b -> (forall c, f c = OUB \/ f c = g c) -> obind a f = OUB \/ obind a f = obind b g.
Proof. intros [-> | ->] F; [left; reflexivity|]. destruct b; cbn; auto. Qed.
Lemma step_real i s : okres (step E true i s) (step E false i s).
Proof.
  unfold step. destruct (_ <? _)%Z; [right; reflexivity|]. destruct i; try (right; reflexivity).
  - cbn [andb]. destruct (isPtr k && _); [left|right]; reflexivity.
  - apply keep_ok, pushLocal_real.
  - apply keep_ok, obind_ok; [apply pushLocal_real|]. intro c. destruct (stk c) as [|[p x] l]; [auto|apply zeroAt_real].
  - apply keep_ok, obind_ok; [apply pushLocal_real|auto].
  - destruct r; try (right; reflexivity). cbn [andb]. destruct (negb (fresh s)); [left|right]; reflexivity.
  - destruct (stk (co s)) as [|[p x] l]; [right; reflexivity|]. apply keep_ok, zeroAt_real.
  - destruct (stk (co s)) as [|[p x] l]; [right; reflexivity|]. apply lose_ok, refCnt_real.
  - destruct (stk (co s)) as [|[p x] [|[q y] l]]; try (right; reflexivity). apply lose_ok, refCntAssign_real.
  - destruct (isIncDec o); [right; reflexivity|]. apply keep_ok, unary_real.
  - apply keep_ok, getArray_real.
  - apply keep_ok, obind_ok; [apply getArray_real|auto].
  - apply keep_ok, getField_real.
  - apply keep_ok, obind_ok; [apply getField_real|auto].
  - apply keep_ok, builtin_real.
Qed.
Lemma run_real p : forall n pc s, run E true n p pc s = Fin RUB \/ run E true n p pc s = run E false n p pc s.
Proof.
  induction n as [|n IH]; intros pc s; [right; reflexivity|]. cbn [run]. destruct (nth_error p pc) as [i|]; [|left; reflexivity].
  destruct i; try (right; reflexivity);
    try (match goal with |- context [step E true ?i ?z] => destruct (step_real i z) as [-> | ->]; [left; reflexivity|destruct (step E false i z); auto] end; fail).
  destruct (_ <? _)%Z; [right; reflexivity|]. destruct j; destruct (stk (co s)) as [|[v x] l]; auto.
Qed.

(** ** Segments. *)
Section Sel.
Variable sel : bool.
Definition full (c : core H) : bool := (lim c <? Z.of_nat (length (stk c)))%Z.
Fixpoint segrun (n : nat) (sg : list seg) (j : nat) (s : st H) : rres_ H :=
  match n with
  | O => OutOfFuel
  | S n =>
      let c := co s in
      match nth_error sg j with
      | None => Fin RUB
      | Some (SStr lp lo) => match exec E true (if sel then lp else lo) s with ROk s => segrun n sg (S j) s | r => Fin r end
      | Some SNop => Fin (step E true INop s)
      | Some SHalt => if full c then Fin (RErr EStackOverflow (mm c) (hp c)) else Fin (ROk s)
      | Some (SJmp jk t) =>
          if full c then Fin (RErr EStackOverflow (mm c) (hp c)) else
          match jk, stk c with
          | JGoto, _ => segrun n sg t s
          | JIf, (v, _) :: l => segrun n sg (if (v =? 0)%Z then S j else t) (wc s (with_stk c l))
          | JIfNot, (v, _) :: l => segrun n sg (if (v =? 0)%Z then t else S j) (wc s (with_stk c l))
          | _, [] => Fin RUB
          end
      end
  end.

Lemma nth_at (p a l b : list instr) : p = a ++ l ++ b -> forall i x, nth_error l i = Some x -> nth_error p (length a + i) = Some x.
Proof.
  intros -> i x N. rewrite nth_error_app2 by lia. replace (length a + i - length a) with i by lia. rewrite nth_error_app1; [exact N|].
  apply nth_error_Some. congruence.
Qed.
Lemma run_plain p n pc s i : nth_error p pc = Some i -> isbar i = false ->
  run E true (S n) p pc s = match step E true i s with ROk s' => run E true n p (S pc) s' | r => Fin r end.
Proof. intros N B. cbn [run]. rewrite N. destruct i; try discriminate B; reflexivity. Qed.
Lemma exec_run : forall l p a b s, p = a ++ l ++ b -> nobar l ->
  match exec E true l s with
  | ROk s' => forall m, run E true (length l + m) p (length a) s = run E true m p (length a + length l) s'
  | r => forall m, length l <= m -> run E true m p (length a) s = Fin r
  end.
Proof.
  induction l as [|i l IH]; intros p a b s P N.
  - cbn. intro m. rewrite Nat.add_0_r. reflexivity.
  - apply nobar_cons in N. destruct N as (NI & NL). cbn [exec].
    pose proof (nth_at p a (i :: l) b P 0 i eq_refl) as N0. rewrite Nat.add_0_r in N0.
    destruct (step E true i s) as [s1|e m0 h|] eqn:S1.
    + specialize (IH p (a ++ [i]) b s1 ltac:(rewrite <- app_assoc; exact P) NL). rewrite app_length in IH. cbn [length] in IH |- *.
      destruct (exec E true l s1) as [s2|e m0 h|].
      * intro m. cbn [plus]. rewrite (run_plain _ _ _ _ _ N0 NI), S1. replace (S (length a)) with (length a + 1) by lia. rewrite IH. f_equal. lia.
      * intros m L. destruct m; [lia|]. rewrite (run_plain _ _ _ _ _ N0 NI), S1. replace (S (length a)) with (length a + 1) by lia. apply IH. lia.
      * intros m L. destruct m; [lia|]. rewrite (run_plain _ _ _ _ _ N0 NI), S1. replace (S (length a)) with (length a + 1) by lia. apply IH. lia.
    + intros m L. cbn [length] in L. destruct m; [lia|]. rewrite (run_plain _ _ _ _ _ N0 NI), S1. reflexivity.
    + intros m L. cbn [length] in L. destruct m; [lia|]. rewrite (run_plain _ _ _ _ _ N0 NI), S1. reflexivity.
Qed.
(** Fuel needed can only be more. *)
Lemma run_mono p : forall n m pc s r, run E true n p pc s = Fin r -> n <= m -> run E true m p pc s = Fin r.
Proof.
  induction n as [|n IH]; intros m pc s r Q L; [discriminate|]. destruct m as [|m]; [lia|]. cbn [run] in *.
  destruct (nth_error p pc) as [i|]; [|exact Q]. destruct i; try exact Q;
    try (match type of Q with context [step E true ?i s] => destruct (step E true i s) end; [eapply IH; [exact Q|lia]|exact Q|exact Q]).
  destruct (_ <? _)%Z; [exact Q|]. destruct j; [eapply IH; [exact Q|lia]| |]; destruct (stk (co s)) as [|[v x] l]; try exact Q; (eapply IH; [exact Q|lia]).
Qed.

Lemma at_flat sg0 : forall j l s, nth_error l j = Some s ->
  exists a b, flat_map (conc sel sg0) l = a ++ conc sel sg0 s ++ b /\ length a = pos sel l j.
Proof.
  intros j l s. revert j. induction l as [|x l IH]; intros [|j] N; cbn [nth_error flat_map pos] in *; try discriminate.
  - assert (x = s) as -> by congruence. exists [], (flat_map (conc sel sg0) l). auto.
  - destruct (IH j N) as (a & b & Q & L). exists (conc sel sg0 x ++ a), b. rewrite Q, <- app_assoc. split; [reflexivity|].
    rewrite app_length, conc_len, L. reflexivity.
Qed.
Lemma pos_next_l : forall l j s, nth_error l j = Some s -> pos sel l (S j) = pos sel l j + slen sel s.
Proof.
  induction l as [|a r IH]; intros [|j] s N; cbn [nth_error] in *; try discriminate.
  - assert (a = s) as -> by congruence. cbn [pos]. destruct r; cbn [pos]; lia.
  - specialize (IH j s N). change (slen sel a + pos sel r (S j) = slen sel a + pos sel r j + slen sel s). lia.
Qed.

Variable sg : list seg.
Hypothesis OK : Forall (seg_ok H E (length sg)) sg.
Let p := code_of sel sg.

Lemma at_seg j s : nth_error sg j = Some s ->
  exists a b, p = a ++ conc sel sg s ++ b /\ length a = pos sel sg j.
Proof.
  intro N. exact (at_flat sg j sg s N).
Qed.
Lemma seg_here j lp lo : nth_error sg j = Some (SStr lp lo) -> nobar (if sel then lp else lo).
Proof.
  intro N. pose proof (proj1 (Forall_forall _ _) OK _ (nth_error_In _ _ N)) as (_ & A & B). destruct sel; assumption.
Qed.
Lemma pos_next j s : nth_error sg j = Some s -> pos sel sg (S j) = pos sel sg j + slen sel s.
Proof. apply pos_next_l. Qed.
Lemma bar_here j s i : nth_error sg j = Some s -> conc sel sg s = [i] -> nth_error p (pos sel sg j) = Some i.
Proof. intros N C. destruct (at_seg j s N) as (a & b & Q & L). rewrite C in Q. rewrite <- L, <- (Nat.add_0_r (length a)). exact (nth_at p a [i] b Q 0 i eq_refl). Qed.

Lemma seg_to_run : forall n j s r, j <= length sg -> segrun n sg j s = Fin r -> exists m, run E true m p (pos sel sg j) s = Fin r.
Proof.
  induction n as [|n IH]; intros j s r J Q; [discriminate|]. cbn [segrun] in Q. destruct (nth_error sg j) as [g|] eqn:N.
  2:{ apply nth_error_None in N. assert (j = length sg) as -> by lia. exists 1. cbn [run].
      replace (nth_error p (pos sel sg (length sg))) with (@None instr); [exact Q|]. symmetry. apply nth_error_None. unfold p. rewrite pos_all. lia. }
  assert (S j <= length sg) as J1 by (apply nth_error_Some; congruence).
  destruct g.
  - destruct (at_seg j _ N) as (a & b & P & L). cbn [conc] in P.
    pose proof (exec_run (if sel then lp else lo) p a b s P (seg_here _ _ _ N)) as X.
    destruct (exec E true _ s) as [s1|e m0 h|].
    + destruct (IH (S j) s1 r J1 Q) as (m & M). exists (length (if sel then lp else lo) + m). rewrite <- L, X. rewrite <- M. f_equal.
      rewrite (pos_next _ _ N), L. reflexivity.
    + exists (length (if sel then lp else lo)). rewrite <- L, X by lia. exact Q.
    + exists (length (if sel then lp else lo)). rewrite <- L, X by lia. exact Q.
  - exists 1. cbn [run]. rewrite (bar_here _ _ _ N eq_refl). rewrite <- Q. unfold step. destruct (_ <? _)%Z; reflexivity.
  - exists 1. cbn [run]. rewrite (bar_here _ _ _ N eq_refl). unfold full in Q. destruct (_ <? _)%Z; exact Q.
  - assert (t <= length sg) as TL by exact (proj1 (Forall_forall _ _) OK _ (nth_error_In _ _ N)).
    assert (pos sel sg (S j) = S (pos sel sg j)) as PN by (rewrite (pos_next _ _ N); cbn [slen]; lia).
    unfold full in Q. destruct (_ <? _)%Z eqn:LIM.
    { exists 1. cbn [run]. rewrite (bar_here _ _ _ N eq_refl), LIM. exact Q. }
    destruct j0.
    + destruct (IH _ _ _ TL Q) as (m & M). exists (S m). cbn [run]. rewrite (bar_here _ _ _ N eq_refl), LIM. exact M.
    + destruct (stk (co s)) as [|[v x] l] eqn:S; [exists 1; cbn [run]; rewrite (bar_here _ _ _ N eq_refl), S, LIM; exact Q|].
      assert ((if (v =? 0)%Z then Datatypes.S j else t) <= length sg) as BB by (destruct (v =? 0)%Z; assumption).
      destruct (IH _ _ _ BB Q) as (m & M). exists (Datatypes.S m). cbn [run]. rewrite (bar_here _ _ _ N eq_refl), S, LIM.
      rewrite <- M. destruct (v =? 0)%Z; rewrite ?PN; reflexivity.
    + destruct (stk (co s)) as [|[v x] l] eqn:S; [exists 1; cbn [run]; rewrite (bar_here _ _ _ N eq_refl), S, LIM; exact Q|].
      assert ((if (v =? 0)%Z then t else Datatypes.S j) <= length sg) as BB by (destruct (v =? 0)%Z; assumption).
      destruct (IH _ _ _ BB Q) as (m & M). exists (Datatypes.S m). cbn [run]. rewrite (bar_here _ _ _ N eq_refl), S, LIM.
      rewrite <- M. destruct (v =? 0)%Z; rewrite ?PN; reflexivity.
Qed.
Lemma run_to_seg : forall m k j s r, length sg - j <= k -> j <= length sg -> run E true m p (pos sel sg j) s = Fin r -> exists n, segrun n sg j s = Fin r.
Proof.
  induction m as [m IHm] using lt_wf_ind. induction k as [|k IHk]; intros j s r KL J Q.
  - assert (j = length sg) as -> by lia. exists 1. cbn [segrun]. rewrite (proj2 (nth_error_None _ _)) by lia.
    destruct m; [discriminate|]. cbn [run] in Q. rewrite (proj2 (nth_error_None _ _)) in Q by (unfold p; rewrite pos_all; lia). exact Q.
  - destruct (nth_error sg j) as [g|] eqn:N.
    2:{ exists 1. cbn [segrun]. rewrite N. apply nth_error_None in N.
        destruct m; [discriminate|]. cbn [run] in Q. rewrite (proj2 (nth_error_None _ _)) in Q; [exact Q|]. unfold p. rewrite pos_all. apply pos_mono. exact N. }
    assert (S j <= length sg) as J1 by (apply nth_error_Some; congruence).
    destruct g.
    + destruct (at_seg j _ N) as (a & b & P & L). cbn [conc] in P.
      pose proof (exec_run (if sel then lp else lo) p a b s P (seg_here _ _ _ N)) as X.
      destruct (exec E true _ s) as [s1|e m0 h|] eqn:EX.
      * assert (exists n, segrun n sg (S j) s1 = Fin r) as (n & NR).
        { assert (length (if sel then lp else lo) <= m -> run E true (m - length (if sel then lp else lo)) p (pos sel sg (S j)) s1 = Fin r) as R1.
          { intro LE. rewrite (pos_next _ _ N), <- L. cbn [slen]. rewrite <- X. rewrite L. replace (_ + _) with m by lia. exact Q. }
          destruct (le_lt_dec (length (if sel then lp else lo)) m) as [LE|LT].
          - specialize (R1 LE). destruct (length (if sel then lp else lo)) as [|q] eqn:LL.
            + rewrite Nat.sub_0_r in R1. apply (IHk (S j) s1 r ltac:(lia) J1 R1).
            + apply (IHm (m - S q) ltac:(lia) (length sg) (S j) s1 r ltac:(lia) J1 R1).
          - exfalso. pose proof (run_mono p m _ _ _ _ Q (Nat.lt_le_incl _ _ LT)) as Q2. specialize (X 0). rewrite Nat.add_0_r in X. rewrite <- L in Q2. rewrite X in Q2. discriminate Q2. }
        exists (S n). cbn [segrun]. rewrite N, EX. exact NR.
      * exists 1. cbn [segrun]. rewrite N, EX. specialize (X (m + length (if sel then lp else lo)) ltac:(lia)). rewrite L in X.
        rewrite (run_mono p m (m + length (if sel then lp else lo)) _ _ _ Q ltac:(lia)) in X. congruence.
      * exists 1. cbn [segrun]. rewrite N, EX. specialize (X (m + length (if sel then lp else lo)) ltac:(lia)). rewrite L in X.
        rewrite (run_mono p m (m + length (if sel then lp else lo)) _ _ _ Q ltac:(lia)) in X. congruence.
    + destruct m; [discriminate|]. cbn [run] in Q. rewrite (bar_here _ _ _ N eq_refl) in Q. exists 1. cbn [segrun]. rewrite N. rewrite <- Q. unfold step. destruct (_ <? _)%Z; reflexivity.
    + destruct m; [discriminate|]. cbn [run] in Q. rewrite (bar_here _ _ _ N eq_refl) in Q. exists 1. cbn [segrun]. rewrite N. unfold full. destruct (_ <? _)%Z; exact Q.
    + assert (t <= length sg) as TL by exact (proj1 (Forall_forall _ _) OK _ (nth_error_In _ _ N)).
      assert (pos sel sg (S j) = S (pos sel sg j)) as PN by (rewrite (pos_next _ _ N); cbn [slen]; lia).
      destruct m as [|m]; [discriminate|]. cbn [run] in Q. rewrite (bar_here _ _ _ N eq_refl) in Q.
      destruct (_ <? _)%Z eqn:LIM.
      { exists 1. cbn [segrun]. unfold full. rewrite N, LIM. exact Q. }
      destruct j0.
      * destruct (IHm m ltac:(lia) (length sg) t s r ltac:(lia) TL Q) as (n & M). exists (S n). cbn [segrun]. unfold full. rewrite N, LIM. exact M.
      * destruct (stk (co s)) as [|[v x] l] eqn:S; [exists 1; cbn [segrun]; unfold full; rewrite N, S, LIM; exact Q|].
        assert (run E true m p (pos sel sg (if (v =? 0)%Z then Datatypes.S j else t)) (wc s (with_stk (co s) l)) = Fin r) as Q1
          by (rewrite <- Q; destruct (v =? 0)%Z; rewrite ?PN; reflexivity).
        assert ((if (v =? 0)%Z then Datatypes.S j else t) <= length sg) as BB by (destruct (v =? 0)%Z; assumption).
        destruct (IHm m ltac:(lia) (length sg) _ _ _ ltac:(lia) BB Q1) as (n & M).
        exists (Datatypes.S n). cbn [segrun]. unfold full. rewrite N, S, LIM. exact M.
      * destruct (stk (co s)) as [|[v x] l] eqn:S; [exists 1; cbn [segrun]; unfold full; rewrite N, S, LIM; exact Q|].
        assert (run E true m p (pos sel sg (if (v =? 0)%Z then t else Datatypes.S j)) (wc s (with_stk (co s) l)) = Fin r) as Q1
          by (rewrite <- Q; destruct (v =? 0)%Z; rewrite ?PN; reflexivity).
        assert ((if (v =? 0)%Z then t else Datatypes.S j) <= length sg) as BB by (destruct (v =? 0)%Z; assumption).
        destruct (IHm m ltac:(lia) (length sg) _ _ _ ltac:(lia) BB Q1) as (n & M).
        exists (Datatypes.S n). cbn [segrun]. unfold full. rewrite N, S, LIM. exact M.
Qed.
End Sel.

(** ** Both codes in step. *)
Definition lock (a b : rres_ H) : Prop :=
  match a, b with
  | Fin r1, Fin r2 => bad r1 \/ same_res r1 r2
  | Fin r1, OutOfFuel => bad r1
  | OutOfFuel, OutOfFuel => True
  | OutOfFuel, Fin _ => False
  end.
Lemma lock_bad r x : bad r -> lock (Fin r) x.
Proof. intro B. destruct x; cbn; auto. Qed.
Lemma in_step sg : Forall (seg_ok H E (length sg)) sg -> forall n j s1 s2, same s1 s2 -> lock (segrun true n sg j s1) (segrun false n sg j s2).
Proof.
  intro OK. induction n as [|n IH]; intros j s1 s2 S; [exact I|]. cbn [segrun]. pose proof S as (C & _). rewrite <- C.
  destruct (nth_error sg j) as [g|] eqn:N; [|left; exact I]. destruct g.
  - pose proof (proj1 (Forall_forall _ _) OK _ (nth_error_In _ _ N)) as (R & _). destruct (R s1 s2 S) as [B|R'].
    + destruct (exec E true lp s1) as [?|[] ? ?|]; try destruct B; apply lock_bad; exact I.
    + destruct (exec E true lp s1), (exec E true lo s2); cbn in R'; try contradiction; [apply IH; exact R'|right; exact R'].
  - unfold step. rewrite <- C. destruct (_ <? _)%Z; right; cbn; auto.
  - destruct (full (co s1)); [left; exact I|]. right. exact S.
  - destruct (full (co s1)); [left; exact I|]. destruct j0; [apply IH; exact S| |]; destruct (stk (co s1)) as [|[v x] l]; try (left; exact I);
      apply IH; apply wc_same; exact S.
Qed.
End R.

Section Main.
Variable H : Type.
Variable E : env H.
Hypothesis EOK : refcnt_ok E.

Lemma whole_lock l ms go : nested [] l = Some ms -> genActs (genReq (elm E)) genInit l = Ok go ->
  exists gp sg, genActs emitPlain genInit l = Ok gp /\ code gp = code_of true sg /\ code go = code_of false sg /\ Forall (seg_ok H E (length sg)) sg.
Proof.
  intros N Q. destruct (acts_ok H E EOK l [] ms genInit genInit go (init_ok H E) N Q) as (gp & QP & sg & lp & lo & KI & _).
  pose proof (K_close H E _ _ _ _ _ _ KI) as (A & B & F & _). rewrite app_nil_r in A, B. exists gp, (sg ++ [SStr lp lo]). auto.
Qed.
Lemma whole_thm l ms go : nested [] l = Some ms -> genActs (genReq (elm E)) genInit l = Ok go ->
  exists gp, genActs emitPlain genInit l = Ok gp /\
  forall s,
    (forall n r, run E true n (code gp) 0 s = Fin r -> ~ bad r ->
       run E false n (code gp) 0 s = Fin r /\ exists n' r', run E false n' (code go) 0 s = Fin r' /\ same_res r r') /\
    (forall n' r', run E false n' (code go) 0 s = Fin r' ->
       exists n r, run E true n (code gp) 0 s = Fin r /\ (bad r \/ same_res r r')).
Proof.
  intros N Q. destruct (whole_lock l ms go N Q) as (gp & sg & QP & CP & CO & OK). exists gp. split; [exact QP|]. intro s. rewrite CP, CO. split.
  - intros n r R NB. split.
    { destruct (run_real H E (code_of true sg) n 0 s) as [U|U]; [rewrite U in R; assert (r = RUB) as -> by congruence; destruct (NB I)|congruence]. }
    destruct (run_to_seg H E true sg OK n (length sg) 0 s r ltac:(lia) ltac:(lia)) as (k & SR); [destruct sg; exact R|].
    pose proof (in_step H E sg OK k 0 s s (same_refl H s)) as L. rewrite SR in L.
    destruct (segrun H E false k sg 0 s) as [r'|] eqn:SO; cbn in L; [|contradiction]. destruct L as [B|L]; [contradiction|].
    destruct (seg_to_run H E false sg OK k 0 s r' ltac:(lia) SO) as (m & M). exists m, r'. split; [|exact L].
    assert (run E true m (code_of false sg) 0 s = Fin r') as M' by (destruct sg; exact M).
    destruct (run_real H E (code_of false sg) m 0 s) as [U|U]; [|congruence]. rewrite U in M'. assert (r' = RUB) as -> by congruence.
    destruct r; contradiction.
  - intros n' r' R.
    destruct (run_real H E (code_of false sg) n' 0 s) as [U|U].
    + destruct (run_to_seg H E false sg OK n' (length sg) 0 s RUB ltac:(lia) ltac:(lia)) as (k & SR); [destruct sg; exact U|].
      pose proof (in_step H E sg OK k 0 s s (same_refl H s)) as L. rewrite SR in L.
      destruct (segrun H E true k sg 0 s) as [r|] eqn:SO; cbn in L; [|contradiction].
      destruct (seg_to_run H E true sg OK k 0 s r ltac:(lia) SO) as (m & M). exists m, r. split; [destruct sg; exact M|].
      destruct L as [B|L]; [left; exact B|]. destruct r; contradiction.
    + rewrite R in U. destruct (run_to_seg H E false sg OK n' (length sg) 0 s r' ltac:(lia) ltac:(lia)) as (k & SR); [destruct sg; exact U|].
      pose proof (in_step H E sg OK k 0 s s (same_refl H s)) as L. rewrite SR in L.
      destruct (segrun H E true k sg 0 s) as [r|] eqn:SO; cbn in L; [|contradiction].
      destruct (seg_to_run H E true sg OK k 0 s r ltac:(lia) SO) as (m & M). exists m, r. split; [destruct sg; exact M|exact L].
Qed.
End Main.
