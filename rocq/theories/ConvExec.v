(** Running code, without fuel. *)
From Coq Require Import ZArith Lia Bool List.
From Verif Require Import Base NumModel ConvModel.
Import ListNotations.
Local Open Scope Z_scope.

Definition runs (p : list instr) (s : st) (r : outcome st) : Prop := exists f, exec f p s = r /\ r <> Err EFuel.
Definition isWhile (i : instr) : bool := match i with IWhile _ _ => true | _ => false end.
Lemma exec_step f i q s : isWhile i = false -> exec (S f) (i :: q) s = let* s := step i s in exec f q s.
Proof. destruct i; (discriminate || reflexivity). Qed.
Lemma exec_while f c b q s : exec (S f) (IWhile c b :: q) s =
  let* s := exec f c s in
  match stk s with VNum z :: l => if z =? 0 then exec f q (withStk s l) else let* s := exec f b (withStk s l) in exec f (IWhile c b :: q) s | _ => UB end.
Proof. reflexivity. Qed.
Lemma exec_mono f : forall p s r, exec f p s = r -> r <> Err EFuel -> exec (S f) p s = r.
Proof.
  induction f as [|f IH]; intros p s r E N; [cbn in E; congruence|].
  destruct p as [|i q]; [exact E|]. destruct (isWhile i) eqn:W.
  - destruct i; try discriminate. rewrite exec_while in E |- *.
    destruct (exec f cond s) as [s1|e|] eqn:C; cbn [bind] in E.
    + rewrite (IH _ _ _ C) by discriminate. cbn [bind]. destruct (stk s1) as [|[z| | | | |] l]; try exact E.
      destruct (z =? 0); [now apply IH|]. destruct (exec f body (withStk s1 l)) as [s2|e|] eqn:B; cbn [bind] in E.
      * rewrite (IH _ _ _ B) by discriminate. cbn [bind]. now apply IH.
      * rewrite (IH _ _ _ B) by congruence. exact E.
      * rewrite (IH _ _ _ B) by discriminate. exact E.
    + rewrite (IH _ _ _ C) by congruence. exact E.
    + rewrite (IH _ _ _ C) by discriminate. exact E.
  - rewrite exec_step in E |- * by exact W. destruct (step i s) as [s1|e|]; cbn [bind] in *; [now apply IH|exact E|exact E].
Qed.
Lemma exec_le f g p s r : (f <= g)%nat -> exec f p s = r -> r <> Err EFuel -> exec g p s = r.
Proof. intros L E N. induction L as [|g L IH]; [exact E|]. now apply exec_mono. Qed.

Lemma runs_nil s : runs [] s (Ok s).
Proof. exists 1%nat. split; [reflexivity|discriminate]. Qed.
Lemma runs_step i q s s' r : isWhile i = false -> step i s = Ok s' -> runs q s' r -> runs (i :: q) s r.
Proof. intros W E (f & F & N). exists (S f). rewrite exec_step, E by exact W. now split. Qed.
Lemma runs_err i q s e : isWhile i = false -> step i s = Err e -> e <> EFuel -> runs (i :: q) s (Err e).
Proof. intros W E N. exists 1%nat. rewrite exec_step, E by exact W. split; [reflexivity|congruence]. Qed.
Lemma runs_while_false c b q s s1 l r : runs c s (Ok s1) -> stk s1 = VNum 0 :: l -> runs q (withStk s1 l) r -> runs (IWhile c b :: q) s r.
Proof.
  intros (f & F & _) T (g & G & N). exists (S (max f g)). split; [|exact N]. rewrite exec_while.
  rewrite (exec_le f (max f g) _ _ _ ltac:(lia) F) by discriminate. cbn [bind]. rewrite T. cbn [Z.eqb].
  now apply (exec_le g (max f g)); [lia|exact G|].
Qed.
Lemma runs_while_true c b q s s1 z l s2 r : runs c s (Ok s1) -> stk s1 = VNum z :: l -> z <> 0 -> runs b (withStk s1 l) (Ok s2) ->
  runs (IWhile c b :: q) s2 r -> runs (IWhile c b :: q) s r.
Proof.
  intros (f & F & _) T Z (g & G & _) (h & H & N). set (m := max f (max g h)). exists (S m). split; [|exact N]. rewrite exec_while.
  rewrite (exec_le f m _ _ _ ltac:(lia) F) by discriminate. cbn [bind]. rewrite T. apply Z.eqb_neq in Z. rewrite Z.
  rewrite (exec_le g m _ _ _ ltac:(lia) G) by discriminate. cbn [bind].
  now apply (exec_le h m); [lia|exact H|].
Qed.
Lemma runs_while_err c b q s s1 z l e : runs c s (Ok s1) -> stk s1 = VNum z :: l -> z <> 0 -> runs b (withStk s1 l) (Err e) ->
  runs (IWhile c b :: q) s (Err e).
Proof.
  intros (f & F & _) T Z (g & G & N). set (m := max f g). exists (S m). split; [|exact N]. rewrite exec_while.
  rewrite (exec_le f m _ _ _ ltac:(lia) F) by discriminate. cbn [bind]. rewrite T. apply Z.eqb_neq in Z. rewrite Z.
  now rewrite (exec_le g m _ _ _ ltac:(lia) G) by exact N.
Qed.
Lemma runs_app p q s s1 r : runs p s (Ok s1) -> runs q s1 r -> runs (p ++ q) s r.
Proof.
  intros (f & F & _) R. revert p s F. induction f as [|f IH]; intros p s F; [discriminate|].
  destruct p as [|i p]; [injection F as <-; exact R|]. cbn [app]. destruct (isWhile i) eqn:W.
  - destruct i; try discriminate. rewrite exec_while in F. destruct (exec f cond s) as [s2|e|] eqn:C; try discriminate. cbn [bind] in F.
    assert (C' : runs cond s (Ok s2)) by (exists f; split; [exact C|discriminate]).
    destruct (stk s2) as [|[z| | | | |] l] eqn:T; try discriminate. destruct (z =? 0) eqn:Z.
    + apply Z.eqb_eq in Z. subst z. apply IH in F. eapply runs_while_false; eauto.
    + apply Z.eqb_neq in Z. destruct (exec f body (withStk s2 l)) as [s3|e|] eqn:B; try discriminate. cbn [bind] in F.
      apply IH in F. eapply runs_while_true; eauto. exists f. split; [exact B|discriminate].
  - rewrite exec_step in F by exact W. destruct (step i s) as [s2|e|] eqn:E; try discriminate. cbn [bind] in F. apply IH in F. eapply runs_step; eauto.
Qed.
Lemma runs_app_err p q s e : runs p s (Err e) -> runs (p ++ q) s (Err e).
Proof.
  intros (f & F & N). revert p s F. induction f as [|f IH]; intros p s F; [cbn in F; congruence|].
  destruct p as [|i p]; [discriminate|]. cbn [app]. destruct (isWhile i) eqn:W.
  - destruct i; try discriminate. rewrite exec_while in F. destruct (exec f cond s) as [s2|e2|] eqn:C; try discriminate; cbn [bind] in F.
    + assert (C' : runs cond s (Ok s2)) by (exists f; split; [exact C|discriminate]).
      destruct (stk s2) as [|[z| | | | |] l] eqn:T; try discriminate. destruct (z =? 0) eqn:Z.
      * apply Z.eqb_eq in Z. subst z. apply IH in F. eapply runs_while_false; eauto.
      * apply Z.eqb_neq in Z. destruct (exec f body (withStk s2 l)) as [s3|e3|] eqn:B; try discriminate; cbn [bind] in F.
        -- apply IH in F. eapply runs_while_true; eauto. exists f. split; [exact B|discriminate].
        -- injection F as ->. eapply runs_while_err; eauto. exists f. now split.
    + injection F as ->. exists (S f). rewrite exec_while, C. now split.
  - rewrite exec_step in F by exact W. destruct (step i s) as [s2|e2|] eqn:E; try discriminate; cbn [bind] in F.
    + apply IH in F. eapply runs_step; eauto.
    + injection F as ->. apply runs_err; [exact W|exact E|congruence].
Qed.
Lemma runs_exec p s r : runs p s r -> exists f, forall g, (f <= g)%nat -> exec g p s = r.
Proof. intros (f & F & N). exists f. intros g L. now apply (exec_le f). Qed.
