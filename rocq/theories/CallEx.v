(** Deciding the premises about runs for particular programs. *)
From Coq Require Import ZArith Lia Bool List ZifyBool.
From Verif Require Import Base CallModel CallSpec.
Import ListNotations.
Local Open Scope Z_scope.

Section Dec.
Variable code : Z -> option instr.
Variable ext : nat -> list val -> hostprog.
Fixpoint awayc (g n : nat) (v : vm astk) : bool :=
  match n with
  | O => true
  | S m => negb (involved v g) && match step _ aops code ext v with Ok (Go _ w) => awayc g m w | _ => false end
  end.
Definition deepb (v : vm astk) (f d : nat) : bool := match getF _ v f with Ok x => Nat.leb d (depth (a_stk (f_stk _ x))) | _ => false end.
Fixpoint withinc (f d n : nat) (v : vm astk) : option Z :=
  match n with
  | O => Some 0
  | S m => match step _ aops code ext v with
           | Ok (Go _ w) => if deepb w f d then match withinc f d m w with Some t => Some (counted code v f d + t) | None => None end else None
           | _ => None
           end
  end.
Lemma after_S : forall n v w, step _ aops code ext v = Ok (Go _ w) -> (exists u, run _ aops code ext n w = Ok (Go _ u)) -> after aops code ext (S n) v = after aops code ext n w.
Proof. intros n v w H (u & E). unfold after. cbn [run]. rewrite H. cbn [bind]. rewrite E. reflexivity. Qed.
Lemma awayc_run : forall n g v, awayc g n v = true -> exists u, run _ aops code ext n v = Ok (Go _ u).
Proof.
  induction n as [|n IH]; intros g v H; cbn [awayc] in H; [exists v; reflexivity|]. apply andb_prop in H as (_ & H).
  cbn [run]. destruct (step _ aops code ext v) as [[w|w]| |] eqn:E; try discriminate. cbn [bind]. eauto.
Qed.
Lemma awayc_ok : forall n g v, awayc g n v = true -> away code ext g n v (after aops code ext n v).
Proof.
  induction n as [|n IH]; intros g v H; [reflexivity|]. cbn [awayc] in H. apply andb_prop in H as (N & H). cbn [away]. split; [apply negb_true_iff; exact N|].
  destruct (step _ aops code ext v) as [[w|w]| |] eqn:E; try discriminate. exists w. split; [reflexivity|]. rewrite (after_S n v w E); [auto|eapply awayc_run; eassumption].
Qed.
Lemma withinc_run : forall n f d v t, withinc f d n v = Some t -> exists u, run _ aops code ext n v = Ok (Go _ u).
Proof.
  induction n as [|n IH]; intros f d v t H; cbn [withinc] in H; [exists v; reflexivity|].
  cbn [run]. destruct (step _ aops code ext v) as [[w|w]| |] eqn:E; try discriminate. cbn [bind]. destruct (deepb w f d); [|discriminate]. destruct (withinc f d n w) eqn:W; [|discriminate]. eauto.
Qed.
Lemma withinc_ok : forall n f d v t, withinc f d n v = Some t -> within code ext f d n v (after aops code ext n v) t.
Proof.
  induction n as [|n IH]; intros f d v t H; cbn [withinc] in H; [injection H as <-; split; reflexivity|]. cbn [within].
  destruct (step _ aops code ext v) as [[w|w]| |] eqn:E; try discriminate. destruct (deepb w f d) eqn:D; [|discriminate]. destruct (withinc f d n w) as [t'|] eqn:W; [|discriminate]. injection H as <-.
  exists w. split; [reflexivity|]. split.
  - unfold deepb in D. destruct (getF _ w f) as [x| |] eqn:G; try discriminate. exists x. split; [exact G|]. apply Nat.leb_le. exact D.
  - rewrite (after_S n v w E) by (eapply withinc_run; eassumption). replace (counted code v f d + t' - counted code v f d) with t' by lia. auto.
Qed.
End Dec.
