(** Source semantics: what ends in the source ends in the machine. *)
From Coq Require Import ZArith Lia Bool List.
From Verif Require Import Base TempModel TempSpec TempBase TempScope TempExpr TempStmt TempMain SourceSpec SourceBase SourceBack SourceStmt SourceMain SourceDet.
Import ListNotations.
Local Open Scope Z_scope.

Lemma step_err : forall i s e, step i s <> Err e.
Proof.
  assert (Ie : forall v s e, incRef v s <> Err e) by (intros [|[]] s e; cbn; try discriminate; destruct (_ <? _); discriminate).
  assert (De : forall v s e, decRef v s <> Err e) by (intros [|[]] s e; cbn; try discriminate; destruct (_ <? _); discriminate).
  assert (Le : forall v s e, textOf v s <> Err e) by (intros [|[]] s e; cbn; try discriminate; destruct (_ <? _); discriminate).
  intros i s e. destruct i; cbn [step]; destruct (stk s) as [|w0 l0]; try discriminate; auto.
  all: repeat match goal with
    | |- match nth_error ?a ?b with _ => _ end <> _ => destruct (nth_error a b); try discriminate
    | |- (if ?b then _ else _) <> _ => destruct b; try discriminate
    | |- match ?v with VInt _ => _ | VRef _ => _ end <> _ => destruct v; try discriminate
    | |- match ?l with [] => _ | _ :: _ => _ end <> _ => destruct l; try discriminate
    | |- bind (incRef ?v ?s) _ <> _ => let H := fresh in destruct (incRef v s) eqn:H; cbn [bind]; try discriminate; [|exfalso; eapply Ie; eassumption]
    | |- bind (decRef ?v ?s) _ <> _ => let H := fresh in destruct (decRef v s) eqn:H; cbn [bind]; try discriminate; try (exfalso; eapply De; eassumption)
    | |- bind (textOf ?v ?s) _ <> _ => let H := fresh in destruct (textOf v s) eqn:H; cbn [bind]; try discriminate; try (exfalso; eapply Le; eassumption)
    end.
Qed.
Definition plain (i : instr) : bool := match i with ICall _ | IIf _ _ | IShort _ _ | ILoop _ _ _ | IBreak | IContinue | IReturn => false | _ => true end.
Lemma plain_step : forall funs i k q s, plain i = true -> exec funs (S k) (i :: q) s = let* s1 := step i s in exec funs k q s1.
Proof. intros funs i k q s H. destruct i; try discriminate; reflexivity. Qed.
Lemma plain_release : forall l, forallb plain (release l) = true.
Proof. induction l as [|i l]; auto. unfold release. cbn [flat_map]. fold (release l). destruct (_ && _); cbn; auto. Qed.
Ltac inv1 H := match type of H with bind ?x _ = _ => let E := fresh "E" in destruct x as [[? ?]| | ] eqn:E; cbn [bind] in H; try discriminate H end.

Section Halts.
Variable funs : list (nat * (code * code)).
Notation exec := (exec funs).
Definition halts (p : code) (s : st) : Prop := exists n, exec n p s <> Err EFuel.
Definition comes (p : code) (s s1 : st) (g : signal) : Prop := exists n, exec n p s = Ok (s1, g).

Lemma more : forall n m p s, exec n p s <> Err EFuel -> (n <= m)%nat -> exec m p s = exec n p s.
Proof. intros n m p s H L. induction L; auto. rewrite exec_mono by congruence. exact IHL. Qed.
Lemma moreOk : forall n m p s r, exec n p s = Ok r -> (n <= m)%nat -> exec m p s = Ok r.
Proof. intros n m p s r H L. rewrite (more n m); auto; congruence. Qed.
Lemma comes_le : forall n p s s1 g, comes p s s1 g -> exec n p s <> Err EFuel -> exec n p s = Ok (s1, g).
Proof. intros n p s s1 g (m & H) N. destruct (Nat.le_ge_cases n m); [rewrite <- (more n m); auto|apply (moreOk m n); auto]. Qed.
(** Halting with enough fuel. *)
Lemma halts_ge : forall p s k, halts p s -> exists n, (k <= n)%nat /\ exec n p s <> Err EFuel.
Proof. intros p s k (n & H). exists (n + k)%nat. split; [lia|]. rewrite (more n); auto; lia. Qed.
Definition joined (n m : nat) (p q : code) (s : st) : outcome (st * signal) := match exec n p s with Ok (s1, Next) => exec m q s1 | r => r end.
Lemma joined_ok : forall n m p q s, joined n m p q s <> Err EFuel -> exec (n + m) (p ++ q) s = joined n m p q s.
Proof.
  unfold joined. induction n; intros m p q s H; [cbn in H; congruence|]. destruct p as [|i p].
  { cbn [app]. change (exec (S n) [] s) with (Ok (s, Next)) in *. cbn in H |- *. apply (more m (S (n + m))); auto. lia. }
  assert (Mo : forall p0 s0, exec n p0 s0 <> Err EFuel -> exec (n + m) p0 s0 = exec n p0 s0) by (intros; apply more; auto; lia).
  change (S n + m)%nat with (S (n + m)). cbn [app]. destruct (plain i) eqn:Pl.
  { rewrite (plain_step funs i n p) in *; auto. rewrite (plain_step funs i (n + m) (p ++ q)) by auto. destruct (step i s) as [s1| | ]; cbn [bind] in *; auto. }
  destruct i; try discriminate Pl; cbn [TempModel.exec] in *; try reflexivity.
  - destruct (nth_error funs f) as [[k [body ending]]|]; auto. destruct (Nat.ltb _ _); auto. match goal with |- context [exec n body ?t] => set (s0 := t) in * end.
    destruct (exec n body s0) as [[s1 g1]| | ] eqn:E1; cbn [bind] in *; try (rewrite (Mo body s0), E1 by congruence; reflexivity).
    rewrite (Mo body s0), E1 by congruence. cbn [bind]. destruct g1; auto;
    (destruct (exec n ending s1) as [[s2 g2]| | ] eqn:E2; cbn [bind] in *; try (rewrite (Mo ending s1), E2 by congruence; reflexivity);
     rewrite (Mo ending s1), E2 by congruence; cbn [bind]; destruct g2; auto; destruct (stk s2); auto).
  - destruct (stk s) as [|[z|] l]; auto. destruct (exec n _ (withStk s l)) as [[s1 g1]| | ] eqn:E1; cbn [bind] in *; try (rewrite Mo, E1 by congruence; reflexivity).
    rewrite Mo, E1 by congruence. cbn [bind]. destruct g1; auto.
  - destruct (stk s) as [|[z|] l]; auto. destruct (eqb _ _); auto. destruct (exec n _ (withStk s l)) as [[s1 g1]| | ] eqn:E1; cbn [bind] in *; try (rewrite Mo, E1 by congruence; reflexivity).
    rewrite Mo, E1 by congruence. cbn [bind]. destruct g1; auto.
  - destruct (exec n cond s) as [[s1 g1]| | ] eqn:E1; cbn [bind] in *; try (rewrite Mo, E1 by congruence; reflexivity). rewrite Mo, E1 by congruence. cbn [bind]. destruct g1; auto.
    destruct (stk s1) as [|[z|] l]; auto. destruct (z =? 0); auto.
    destruct (exec n body (withStk s1 l)) as [[s2 g2]| | ] eqn:E2; cbn [bind] in *; try (rewrite Mo, E2 by congruence; reflexivity). rewrite Mo, E2 by congruence. cbn [bind].
    destruct g2; auto; (destruct (exec n post s2) as [[s3 g3]| | ] eqn:E3; cbn [bind] in *; try (rewrite Mo, E3 by congruence; reflexivity); rewrite Mo, E3 by congruence; cbn [bind]; destruct g3; auto;
    apply (IHn m (ILoop cond post body :: p)); auto).
Qed.
Lemma H_app : forall p q s, halts p s -> (forall s1, comes p s s1 Next -> halts q s1) -> halts (p ++ q) s.
Proof.
  intros p q s (n & H) Hq. destruct (exec n p s) as [[s1 g]| | ] eqn:E.
  - destruct g; [|exists (n + 0)%nat; rewrite joined_ok; unfold joined; rewrite E; discriminate ..].
    destruct (Hq s1) as (m & Hm); [exists n; exact E|]. exists (n + m)%nat. rewrite joined_ok; unfold joined; rewrite E; auto.
  - exists (n + 0)%nat. rewrite joined_ok; unfold joined; rewrite E; auto.
  - exists (n + 0)%nat. rewrite joined_ok; unfold joined; rewrite E; auto.
Qed.
Lemma H_plain : forall p s, forallb plain p = true -> halts p s.
Proof.
  induction p as [|i p]; intros s H; [exists 1%nat; discriminate|]. cbn in H. apply andb_true_iff in H as (A & B). destruct (step i s) as [s1|e| ] eqn:E.
  - destruct (IHp s1 B) as (n & Hn). exists (S n). rewrite plain_step, E by auto. exact Hn.
  - destruct (step_err _ _ _ E).
  - exists 1%nat. rewrite plain_step, E by auto. discriminate.
Qed.
Lemma H_end : forall p q s, halts p s -> forallb plain q = true -> halts (p ++ q) s.
Proof. intros. apply H_app; auto. intros. apply H_plain; auto. Qed.
Lemma H_jump : forall i s, i = IBreak \/ i = IContinue \/ i = IReturn -> halts [i] s.
Proof. intros i s [-> | [-> | ->]]; exists 1%nat; discriminate. Qed.
Lemma H_if : forall a b s, (forall z l, stk s = VInt z :: l -> halts (if z =? 0 then b else a) (withStk s l)) -> halts [IIf a b] s.
Proof.
  intros a b s H. destruct (stk s) as [|[z|] l] eqn:E; [exists 1%nat; cbn; rewrite E; discriminate| |exists 1%nat; cbn; rewrite E; discriminate].
  destruct (halts_ge _ _ 1 (H z l eq_refl)) as (n & L & N). exists (S n). cbn [TempModel.exec]. rewrite E. destruct (exec n _ _) as [[s1 g]| | ]; cbn [bind]; auto. destruct g; try discriminate. destruct n; [lia|]. discriminate.
Qed.
Lemma H_short : forall op c s, (forall z l, stk s = VInt z :: l -> eqb (z =? 0) op = false -> halts c (withStk s l)) -> halts [IShort op c] s.
Proof.
  intros op c s H. destruct (stk s) as [|[z|] l] eqn:E; [exists 1%nat; cbn; rewrite E; discriminate| |exists 1%nat; cbn; rewrite E; discriminate].
  destruct (eqb (z =? 0) op) eqn:Q; [exists 2%nat; cbn [TempModel.exec]; rewrite E, Q; discriminate|].
  destruct (halts_ge _ _ 1 (H z l eq_refl Q)) as (n & L & N). exists (S n). cbn [TempModel.exec]. rewrite E, Q. destruct (exec n _ _) as [[s1 g]| | ]; cbn [bind]; auto. destruct g; try discriminate. destruct n; [lia|]. discriminate.
Qed.
Lemma H_call : forall f k body ending s, nth_error funs f = Some (k, (body, ending)) -> halts body (St [] (fun i => nth i (rev (firstn k (stk s))) (VInt 0)) (globs s) (cnt s) (ostr s) (onext s) (res s)) ->
  (forall s1, halts ending s1) -> halts [ICall f] s.
Proof.
  intros f k body ending s E (n & H) He. match type of H with exec n body ?t <> _ => set (s0 := t) in * end.
  destruct (exec n body s0) as [[s1 g1]| | ] eqn:E1; [|exists (S n); cbn [TempModel.exec]; rewrite E; destruct (Nat.ltb _ _); [discriminate|]; fold s0; rewrite E1; auto ..].
  destruct (He s1) as (m & Hm). exists (S (S (n + m))). remember (S (n + m)) as j eqn:J. cbn [TempModel.exec]. rewrite E. destruct (Nat.ltb _ _); [discriminate|]. fold s0. rewrite (moreOk n j body s0 _ E1) by lia. cbn [bind].
  destruct g1; try discriminate; (rewrite (more m j) by (auto; lia); destruct (exec m ending s1) as [[s2 g2]| | ]; cbn [bind]; auto; destruct g2; try discriminate; destruct (stk s2); try discriminate; rewrite J; discriminate).
Qed.
Lemma H_loop : forall cd ps bd s, halts cd s -> (forall s1 z l, comes cd s s1 Next -> stk s1 = VInt z :: l -> z <> 0 -> halts bd (withStk s1 l) /\
  forall s2 g, comes bd (withStk s1 l) s2 g -> g = Next \/ g = Cnt -> halts ps s2 /\ forall s3, comes ps s2 s3 Next -> halts [ILoop cd ps bd] s3) -> halts [ILoop cd ps bd] s.
Proof.
  intros cd ps bd s (n & H) Hb. destruct (exec n cd s) as [[s1 g1]| | ] eqn:E1; [|exists (S n); cbn [TempModel.exec]; rewrite E1; auto ..].
  destruct g1; [|exists (S n); cbn [TempModel.exec]; rewrite E1; discriminate ..].
  destruct (stk s1) as [|[z|] l] eqn:Es; [exists (S n); cbn [TempModel.exec]; rewrite E1; cbn [bind]; rewrite Es; discriminate| |exists (S n); cbn [TempModel.exec]; rewrite E1; cbn [bind]; rewrite Es; discriminate].
  destruct (Z.eqb_spec z 0) as [Ez|Nz]. { exists (S (S n)). remember (S n) as j eqn:J. cbn [TempModel.exec]. rewrite (moreOk n j _ _ _ E1) by lia. cbn [bind]. rewrite Es. subst z. cbn [Z.eqb]. rewrite J. discriminate. }
  destruct (Hb s1 z l) as ((m & Hm) & Hn); auto; [exists n; auto|].
  destruct (exec m bd (withStk s1 l)) as [[s2 g2]| | ] eqn:E2; [|exists (S (n + m)); cbn [TempModel.exec]; rewrite (moreOk n (n + m) _ _ _ E1) by lia; cbn [bind]; rewrite Es; destruct (Z.eqb_spec z 0); [contradiction|]; rewrite (more m (n + m)) by (try lia; congruence); rewrite E2; auto ..].
  assert (Again : g2 = Next \/ g2 = Cnt -> halts [ILoop cd ps bd] s).
  { intros Hg. destruct (Hn s2 g2) as ((k & Hk) & Hr); auto; [exists m; auto|]. destruct (exec k ps s2) as [[s3 g3]| | ] eqn:E3.
    - assert (Q : g3 = Next -> exists j, exec j [ILoop cd ps bd] s3 <> Err EFuel) by (intros ->; apply Hr; exists k; auto).
      destruct g3.
      + destruct (Q eq_refl) as (i & Hi). exists (S (n + m + k + i)). cbn [TempModel.exec]. rewrite (moreOk n (n + m + k + i) _ _ _ E1) by lia. cbn [bind]. rewrite Es. destruct (Z.eqb_spec z 0); [contradiction|].
        rewrite (moreOk m (n + m + k + i) _ _ _ E2) by lia. cbn [bind]. rewrite (moreOk k (n + m + k + i) _ _ _ E3) by lia. cbn [bind]. rewrite (more i (n + m + k + i)) by (auto; lia). destruct Hg as [-> | ->]; auto.
      + exists (S (n + m + k)). cbn [TempModel.exec]. rewrite (moreOk n (n + m + k) _ _ _ E1) by lia. cbn [bind]. rewrite Es. destruct (Z.eqb_spec z 0); [contradiction|].
        rewrite (moreOk m (n + m + k) _ _ _ E2) by lia. cbn [bind]. rewrite (moreOk k (n + m + k) _ _ _ E3) by lia. cbn [bind]. destruct Hg as [-> | ->]; discriminate.
      + exists (S (n + m + k)). cbn [TempModel.exec]. rewrite (moreOk n (n + m + k) _ _ _ E1) by lia. cbn [bind]. rewrite Es. destruct (Z.eqb_spec z 0); [contradiction|].
        rewrite (moreOk m (n + m + k) _ _ _ E2) by lia. cbn [bind]. rewrite (moreOk k (n + m + k) _ _ _ E3) by lia. cbn [bind]. destruct Hg as [-> | ->]; discriminate.
      + exists (S (n + m + k)). cbn [TempModel.exec]. rewrite (moreOk n (n + m + k) _ _ _ E1) by lia. cbn [bind]. rewrite Es. destruct (Z.eqb_spec z 0); [contradiction|].
        rewrite (moreOk m (n + m + k) _ _ _ E2) by lia. cbn [bind]. rewrite (moreOk k (n + m + k) _ _ _ E3) by lia. cbn [bind]. destruct Hg as [-> | ->]; discriminate.
    - exists (S (n + m + k)). cbn [TempModel.exec]. rewrite (moreOk n (n + m + k) _ _ _ E1) by lia. cbn [bind]. rewrite Es. destruct (Z.eqb_spec z 0); [contradiction|].
      rewrite (moreOk m (n + m + k) _ _ _ E2) by lia. cbn [bind]. rewrite (more k (n + m + k) ps s2) by (try lia; congruence). rewrite E3. cbn [bind]. destruct Hg as [-> | ->]; auto.
    - exists (S (n + m + k)). cbn [TempModel.exec]. rewrite (moreOk n (n + m + k) _ _ _ E1) by lia. cbn [bind]. rewrite Es. destruct (Z.eqb_spec z 0); [contradiction|].
      rewrite (moreOk m (n + m + k) _ _ _ E2) by lia. cbn [bind]. rewrite (more k (n + m + k) ps s2) by (try lia; congruence). rewrite E3. cbn [bind]. destruct Hg as [-> | ->]; auto. }
  destruct g2; try (apply Again; auto; fail).
  - exists (S (S (n + m))). remember (S (n + m)) as j eqn:J. cbn [TempModel.exec]. rewrite (moreOk n j _ _ _ E1) by lia. cbn [bind]. rewrite Es. destruct (Z.eqb_spec z 0); [contradiction|]. rewrite (moreOk m j _ _ _ E2) by lia. cbn [bind]. rewrite J. discriminate.
  - exists (S (S (n + m))). remember (S (n + m)) as j eqn:J. cbn [TempModel.exec]. rewrite (moreOk n j _ _ _ E1) by lia. cbn [bind]. rewrite Es. destruct (Z.eqb_spec z 0); [contradiction|]. rewrite (moreOk m j _ _ _ E2) by lia. cbn [bind]. discriminate.
Qed.
Lemma from_tri : forall p s s1 g (Q : st -> signal -> Prop), (forall n, tri funs false n p s Q) -> comes p s s1 g -> Q s1 g.
Proof. intros p s s1 g Q H (n & E). specialize (H n). unfold tri in H. rewrite E in H. exact H. Qed.
End Halts.
