(** Source semantics: a program has at most one meaning. *)
From Coq Require Import ZArith Lia Bool List.
From Verif Require Import Base TempModel SourceSpec.
Import ListNotations.
Local Open Scope Z_scope.

Scheme ev_m := Minimality for ev Sort Prop with evs_m := Minimality for evs Sort Prop with ex_m := Minimality for ex Sort Prop with lp_m := Minimality for lp Sort Prop.
Combined Scheme source_ind from ev_m, evs_m, ex_m, lp_m.

Section Det.
Variable prog : list fn.
Ltac clash :=
  repeat match goal with
  | IH : forall x G, ev prog ?e ?g ?t x G -> _, H : ev prog ?e ?g ?t _ _ |- _ => destruct (IH _ _ H); subst; clear H
  | IH : forall x G, evs prog ?e ?g ?t x G -> _, H : evs prog ?e ?g ?t _ _ |- _ => destruct (IH _ _ H); subst; clear H
  | IH : forall e' G o, ex prog ?e ?g ?t e' G o -> _, H : ex prog ?e ?g ?t _ _ _ |- _ => destruct (IH _ _ _ H) as (? & ? & ?); subst; clear H
  | IH : forall e' G o, lp prog ?e ?g ?q ?p ?b e' G o -> _, H : lp prog ?e ?g ?q ?p ?b _ _ _ |- _ => destruct (IH _ _ _ H) as (? & ? & ?); subst; clear H
  | H : SI _ = SI _ |- _ => injection H as ?; subst
  | H : SS _ = SS _ |- _ => injection H as ?; subst
  | H : OReturn _ = OReturn _ |- _ => injection H as ?; subst
  | H : Some _ = Some _ |- _ => injection H as ?; subst
  | A : nth_error ?l ?f = Some ?x, B : nth_error ?l ?f = Some ?y |- _ => assert (x = y) by congruence; subst; clear B
  | A : get ?l ?f = Some ?x, B : get ?l ?f = Some ?y |- _ => assert (x = y) by congruence; subst; clear B
  | H : ?o = ONext \/ ?o = OContinue |- _ => destruct H; try discriminate
  end; try congruence; try discriminate; auto.
Lemma det : (forall e G t x G', ev prog e G t x G' -> forall y H', ev prog e G t y H' -> y = x /\ H' = G') /\
  (forall e G t x G', evs prog e G t x G' -> forall y H', evs prog e G t y H' -> y = x /\ H' = G') /\
  (forall e G s e' G' o, ex prog e G s e' G' o -> forall e2 H' o2, ex prog e G s e2 H' o2 -> e2 = e' /\ H' = G' /\ o2 = o) /\
  (forall e G q p b e' G' o, lp prog e G q p b e' G' o -> forall e2 H' o2, lp prog e G q p b e2 H' o2 -> e2 = e' /\ H' = G' /\ o2 = o).
Proof.
  apply source_ind; intros; match goal with H : _ |- _ => inversion H; subst; clear H end; clash.
Qed.
End Det.
