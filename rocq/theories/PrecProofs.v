From Coq Require Import ZArith List Bool Arith Lia.
From Verif Require Import Base PrecModel PrecSpec.
Import ListNotations.

Scheme says_mut := Induction for says Sort Prop
  with names_mut := Induction for names Sort Prop
  with lists_mut := Induction for lists Sort Prop.
Combined Scheme says_names_lists from says_mut, names_mut, lists_mut.

Scheme expr_mut := Induction for expr Sort Prop
  with desig_mut := Induction for desig Sort Prop
  with args_mut := Induction for args Sort Prop.
Combined Scheme expr_desig_args from expr_mut, desig_mut, args_mut.

Definition num (l : lvl) : nat :=
  match l with LTerm => 6 | LRelTerm => 5 | LRel => 4 | LLogTerm => 3 | LLogExpr => 2 end.

Lemma reads_prec l o : reads l o = true <-> prec o = num l.
Proof. destruct l, o; cbn; split; intro H; try reflexivity; discriminate. Qed.

Lemma prec_ge o : 2 <= prec o <= 6.
Proof. destruct o; cbn; lia. Qed.

Lemma says_le e s : forall p q, says p e s -> q <= p -> says q e s.
Proof.
  intros p q H L. destruct H.
  - apply says_lit; lia.
  - apply says_des; auto; lia.
  - apply says_addr; auto; lia.
  - apply says_un; auto; lia.
  - apply says_par; auto; lia.
  - apply says_bin; auto; lia.
  - apply says_cond; auto; lia.
Qed.

(** ** What is parsed is what the text says *)

Lemma bind_ok A B (x : outcome A) (f : A -> outcome B) b :
  bind x f = Ok b -> exists a, x = Ok a /\ f a = Ok b.
Proof. destruct x; cbn; intro H; try discriminate. eauto. Qed.

Ltac bi H :=
  match type of H with
  | bind ?x ?f = Ok _ =>
      let a := fresh "y" in let E := fresh "E" in
      apply bind_ok in H; destruct H as (a & E & H);
      try (match type of a with (_ * _)%type => destruct a end); cbn beta iota in H
  end.

Lemma eat_ok t ts r : eat t ts = Ok r -> (t = TRpar \/ t = TRbracket \/ t = TColon) -> ts = t :: r.
Proof.
  destruct ts as [|t' ts]; cbn; [discriminate|].
  intros H T. destruct T as [-> | [-> | ->]], t'; cbn in H; try discriminate; inversion H; reflexivity.
Qed.

Lemma unaryOf_ok t u : unaryOf t = Some u -> t = utok u.
Proof.
  destruct t as [| |o| | | | | | | | | | | |]; cbn; try discriminate.
  - destruct o; cbn; intro H; inversion H; reflexivity.
  - intro H; inversion H; reflexivity.
Qed.

Definition leftNum (l : lvl) : nat := match l with LRel => 5 | _ => num l end.

Lemma leftNum_ok l o : reads l o = true -> leftPrec o = leftNum l.
Proof. destruct l, o; cbn; intro H; try reflexivity; discriminate. Qed.

Lemma sound : forall n,
  (forall ts e r, parseExpr n ts = Ok (e, r) -> exists s, ts = s ++ r /\ says 1 e s) /\
  (forall l ts e r, parseBin n l ts = Ok (e, r) -> exists s, ts = s ++ r /\ says (num l) e s) /\
  (forall l a ts e r, parseRest n l a ts = Ok (e, r) ->
     exists s, ts = s ++ r /\ forall sa, says (leftNum l) a sa -> says (num l) e (sa ++ s)) /\
  (forall ts e r, parseFactor n ts = Ok (e, r) -> exists s, ts = s ++ r /\ says 7 e s) /\
  (forall d ts e r, parseSelectors n d ts = Ok (e, r) ->
     exists s, ts = s ++ r /\ forall sd, names d sd -> names e (sd ++ s)) /\
  (forall ts es r, parseActualParams n ts = Ok (es, r) -> exists s, ts = s ++ r /\ lists es s).
Proof.
  induction n as [|n (IE & IB & IR & IF & IS & IA)].
  - repeat split; intros; discriminate.
  - assert (OPD : forall l ts e r,
      (match operandOf l with Some l' => parseBin n l' ts | None => parseFactor n ts end) = Ok (e, r) ->
      exists s, ts = s ++ r /\ says (S (num l)) e s).
    { intros l ts e r H. destruct l; cbn in H.
      - exact (IF _ _ _ H).
      - exact (IB _ _ _ _ H).
      - exact (IB _ _ _ _ H).
      - exact (IB _ _ _ _ H).
      - exact (IB _ _ _ _ H). }
    split; [|split; [|split; [|split; [|split]]]].
    + intros ts e r H. cbn in H. bi H.
      destruct (IB _ _ _ _ E) as (s & -> & Hs). cbn in Hs.
      destruct l as [|t l0].
      { inversion H; subst. exists s. split; auto. eapply says_le; eauto. }
      destruct t;
        try (inversion H; subst; exists s; split; auto; eapply says_le; eauto; fail).
      bi H. bi H. bi H. inversion H; subst.
      destruct (IE _ _ _ E0) as (s1 & -> & Hs1).
      apply eat_ok in E1; [|auto]. subst l.
      destruct (IE _ _ _ E2) as (s2 & -> & Hs2).
      exists (s ++ TQuestion :: s1 ++ TColon :: s2). split.
      * rewrite <- !app_assoc. cbn. rewrite <- !app_assoc. reflexivity.
      * apply says_cond; auto.
    + intros l ts e r H. cbn in H. bi H.
      destruct (OPD _ _ _ _ E) as (s & -> & Hs).
      destruct (IR _ _ _ _ _ H) as (s1 & -> & Hs1).
      exists (s ++ s1). split; [now rewrite app_assoc|].
      apply Hs1. eapply says_le; eauto. destruct l; cbn; lia.
    + intros l a ts e r H. cbn in H.
      assert (DONE : Ok (a, ts) = Ok (e, r) -> exists s, ts = s ++ r /\
        forall sa, says (leftNum l) a sa -> says (num l) e (sa ++ s)).
      { intro Q. inversion Q; subst. exists []. split; auto. intros sa Hsa. rewrite app_nil_r.
        eapply says_le; eauto. destruct l; cbn; lia. }
      destruct ts as [|t ts]; [auto|]. destruct t; try (auto; fail).
      destruct (reads l o) eqn:R; [|auto].
      bi H. destruct (OPD _ _ _ _ E) as (s & -> & Hs).
      pose proof (proj1 (reads_prec _ _) R) as P.
      assert (B : forall sa, says (leftNum l) a sa -> says (num l) (EBin o a e0) (sa ++ TOp o :: s)).
      { intros sa Hsa. apply says_bin; [lia| |].
        - rewrite (leftNum_ok _ _ R). exact Hsa.
        - rewrite P. exact Hs. }
      destruct (repeats l) eqn:RP.
      * destruct (IR _ _ _ _ _ H) as (s1 & -> & Hs1).
        exists (TOp o :: s ++ s1). split; [cbn; now rewrite app_assoc|].
        intros sa Hsa.
        replace (sa ++ TOp o :: s ++ s1) with ((sa ++ TOp o :: s) ++ s1)
          by (rewrite <- app_assoc; reflexivity).
        apply Hs1. replace (leftNum l) with (num l) by (destruct l; try discriminate; reflexivity).
        auto.
      * inversion H; subst. exists (TOp o :: s). split; [reflexivity|]. auto.
    + intros ts e r H. cbn in H.
      assert (UN : forall t l, (match unaryOf t with
          | Some u => let* (e, r) := parseFactor n l in Ok (EUn u e, r)
          | None => Err EOther end) = Ok (e, r) -> exists s, t :: l = s ++ r /\ says 7 e s).
      { intros t l Q. destruct (unaryOf t) as [u|] eqn:U; [|discriminate].
        bi Q. inversion Q; subst. destruct (IF _ _ _ E) as (s & -> & Hs).
        apply unaryOf_ok in U. subst t.
        exists (utok u :: s). split; [reflexivity|]. apply says_un; auto. }
      destruct ts as [|t ts]; [discriminate|].
      destruct t; try (apply UN; exact H).
      * bi H. inversion H; subst. destruct (IS _ _ _ _ E) as (s & -> & Hs).
        exists (TIdent x :: s). split; [reflexivity|]. apply says_des; auto.
        exact (Hs [TIdent x] (names_ident x)).
      * inversion H; subst. exists [TLit c]. split; [reflexivity|]. apply says_lit; auto.
      * destruct o; try (apply UN; exact H).
        destruct ts as [|t ts]; [discriminate|].
        destruct t; try discriminate.
        bi H. inversion H; subst. destruct (IS _ _ _ _ E) as (s & -> & Hs).
        exists (TOp OAnd :: TIdent x :: s). split; [reflexivity|]. apply says_addr; auto.
        exact (Hs [TIdent x] (names_ident x)).
      * bi H. bi H. inversion H; subst. destruct (IE _ _ _ E) as (s & -> & Hs).
        apply eat_ok in E0; [|auto]. subst l.
        exists (TLpar :: s ++ [TRpar]). split; [cbn; now rewrite <- app_assoc|].
        apply says_par; auto.
    + intros d ts e r H. cbn in H.
      assert (DONE : Ok (d, ts) = Ok (e, r) -> exists s, ts = s ++ r /\
        forall sd, names d sd -> names e (sd ++ s)).
      { intro Q. inversion Q; subst. exists []. split; auto. intros sd Hsd. rewrite app_nil_r. exact Hsd. }
      destruct ts as [|t ts]; [auto|]. destruct t; try (auto; fail).
      * (* call *)
        assert (C : (let* (es, r0) := parseActualParams n ts in
                     let* r1 := eat TRpar (skipEol r0) in parseSelectors n (DCall d es) r1) = Ok (e, r) ->
                    exists s, TLpar :: ts = s ++ r /\ forall sd, names d sd -> names e (sd ++ s)).
        { intro Q. bi Q. bi Q. destruct (IA _ _ _ E) as (s & -> & Hs).
          apply eat_ok in E0; [|auto].
          destruct (IS _ _ _ _ Q) as (s1 & Es1 & Hs1).
          assert (Z : l = TRpar :: y \/ l = TEol :: TRpar :: y).
          { destruct l as [|t l]; [discriminate|]. destruct t; cbn in E0; try discriminate; auto.
            right. now rewrite E0. }
          destruct Z as [-> | ->]; subst y.
          - exists (TLpar :: s ++ TRpar :: s1). split; [cbn; now rewrite <- app_assoc|].
            intros sd Hsd.
            replace (sd ++ TLpar :: s ++ TRpar :: s1) with ((sd ++ TLpar :: s ++ [TRpar]) ++ s1)
              by (rewrite <- app_assoc; cbn; now rewrite <- app_assoc).
            apply Hs1. apply names_call; auto.
          - exists (TLpar :: s ++ TEol :: TRpar :: s1). split; [cbn; now rewrite <- app_assoc|].
            intros sd Hsd.
            replace (sd ++ TLpar :: s ++ TEol :: TRpar :: s1) with ((sd ++ TLpar :: s ++ [TEol; TRpar]) ++ s1)
              by (rewrite <- app_assoc; cbn; now rewrite <- app_assoc).
            apply Hs1. apply names_call_line; auto. }
        destruct ts as [|t ts]; [auto|]. destruct t; try (auto; fail).
        destruct (IS _ _ _ _ H) as (s1 & -> & Hs1).
        exists (TLpar :: TRpar :: s1). split; [reflexivity|].
        intros sd Hsd.
        replace (sd ++ TLpar :: TRpar :: s1) with ((sd ++ [TLpar; TRpar]) ++ s1)
          by (now rewrite <- app_assoc).
        apply Hs1. apply names_call0; auto.
      * bi H. bi H. destruct (IE _ _ _ E) as (s & -> & Hs). apply eat_ok in E0; [|auto]. subst l.
        destruct (IS _ _ _ _ H) as (s1 & -> & Hs1).
        exists (TLbracket :: s ++ TRbracket :: s1). split; [cbn; now rewrite <- app_assoc|].
        intros sd Hsd.
        replace (sd ++ TLbracket :: s ++ TRbracket :: s1) with ((sd ++ TLbracket :: s ++ [TRbracket]) ++ s1)
          by (rewrite <- app_assoc; cbn; now rewrite <- app_assoc).
        apply Hs1. apply names_index; auto.
      * destruct ts as [|t ts]; [discriminate|]. destruct t; try discriminate.
        destruct (IS _ _ _ _ H) as (s1 & -> & Hs1).
        exists (TPeriod :: TIdent x :: s1). split; [reflexivity|].
        intros sd Hsd.
        replace (sd ++ TPeriod :: TIdent x :: s1) with ((sd ++ [TPeriod; TIdent x]) ++ s1)
          by (now rewrite <- app_assoc).
        apply Hs1. apply names_field; auto.
      * destruct (IS _ _ _ _ H) as (s1 & -> & Hs1).
        exists (TCaret :: s1). split; [reflexivity|].
        intros sd Hsd.
        replace (sd ++ TCaret :: s1) with ((sd ++ [TCaret]) ++ s1)
          by (now rewrite <- app_assoc).
        apply Hs1. apply names_deref; auto.
    + intros ts es r H. cbn in H. bi H. destruct (IE _ _ _ E) as (s & -> & Hs).
      destruct l as [|t l].
      { inversion H; subst. exists s. split; auto. now apply lists_one. }
      destruct t; try (inversion H; subst; exists s; split; auto; now apply lists_one).
      bi H. inversion H; subst. destruct (IA _ _ _ E0) as (s1 & -> & Hs1).
      exists (s ++ TComma :: s1). split; [now rewrite <- app_assoc|]. now apply lists_cons.
Qed.

(** ** What a text says is what is parsed *)

Definition ev {A} (f : nat -> A) (x : A) : Prop := exists N, forall n, N <= n -> f n = x.

Lemma ev_S A (f g : nat -> A) x : (forall n, f (S n) = g n) -> ev g x -> ev f x.
Proof.
  intros E (N & H). exists (S N). intros [|n] L; [lia|]. rewrite E. apply H. lia.
Qed.

Lemma ev_bind A B (f : nat -> outcome A) (g : nat -> A -> outcome B) a y :
  ev f (Ok a) -> ev (fun n => g n a) y -> ev (fun n => bind (f n) (g n)) y.
Proof.
  intros (N & H) (M & K). exists (max N M). intros n L. rewrite H by lia. cbn. apply K. lia.
Qed.

Lemma ev_const A (x : A) : ev (fun _ => x) x.
Proof. exists 0. reflexivity. Qed.

(** What may follow an operand of precedence [p]. *)
Definition follows (p : nat) (r : list tok) : Prop :=
  match r with
  | (TCaret | TLbracket | TPeriod | TLpar) :: _ => False
  | TOp o :: _ => prec o < p
  | TQuestion :: _ => 2 <= p
  | _ => True
  end.

Lemma follows_le p q r : follows p r -> p <= q -> follows q r.
Proof. destruct r as [|t r]; [auto|]. destruct t; cbn; try lia; auto. Qed.

Definition operand (l : lvl) (n : nat) (ts : list tok) : outcome (expr * list tok) :=
  match operandOf l with Some l' => parseBin n l' ts | None => parseFactor n ts end.

Definition readsAt (p : nat) (n : nat) (ts : list tok) : outcome (expr * list tok) :=
  match p with
  | 0 | 1 => parseExpr n ts
  | 2 => parseBin n LLogExpr ts
  | 3 => parseBin n LLogTerm ts
  | 4 => parseBin n LRel ts
  | 5 => parseBin n LRelTerm ts
  | 6 => parseBin n LTerm ts
  | _ => parseFactor n ts
  end.

Lemma operand_at l n ts : operand l n ts = readsAt (S (num l)) n ts.
Proof. destruct l; reflexivity. Qed.

Lemma bin_at l n ts : parseBin n l ts = readsAt (num l) n ts.
Proof. destruct l; reflexivity. Qed.

Lemma rest_stops l a r : follows (num l) r -> ev (fun n => parseRest n l a r) (Ok (a, r)).
Proof.
  intro F. exists 1. intros [|n] L; [lia|]. cbn.
  destruct r as [|t r]; [reflexivity|]. destruct t; try reflexivity.
  destruct (reads l o) eqn:R; [|reflexivity]. apply reads_prec in R. cbn in F. lia.
Qed.

Lemma bin_step l ts e r x :
  ev (fun n => readsAt (S (num l)) n ts) (Ok (e, r)) ->
  ev (fun n => parseRest n l e r) x ->
  ev (fun n => parseBin n l ts) x.
Proof.
  intros H K. eapply ev_S; [intro n; reflexivity|].
  cbn beta. apply (ev_bind _ _ (fun n => operand l n ts) (fun n '(a, r) => parseRest n l a r) (e, r)).
  - destruct H as (N & H). exists N. intros n L. rewrite operand_at. auto.
  - exact K.
Qed.

Lemma rest_step l a o ts b r x :
  prec o = num l -> repeats l = true ->
  ev (fun n => readsAt (S (num l)) n ts) (Ok (b, r)) ->
  ev (fun n => parseRest n l (EBin o a b) r) x ->
  ev (fun n => parseRest n l a (TOp o :: ts)) x.
Proof.
  intros P RP H K.
  eapply ev_S with (g := fun n => let* (b, r) := operand l n ts in parseRest n l (EBin o a b) r).
  - intro n. cbn. rewrite (proj2 (reads_prec _ _) P), RP. reflexivity.
  - apply (ev_bind _ _ (fun n => operand l n ts) (fun n '(b, r) => parseRest n l (EBin o a b) r) (b, r)).
    + destruct H as (N & H). exists N. intros n L. rewrite operand_at. auto.
    + exact K.
Qed.

Lemma rest_once l a o ts b r :
  prec o = num l -> repeats l = false ->
  ev (fun n => readsAt (S (num l)) n ts) (Ok (b, r)) ->
  ev (fun n => parseRest n l a (TOp o :: ts)) (Ok (EBin o a b, r)).
Proof.
  intros P RP H.
  eapply ev_S with (g := fun n => let* (b, r) := operand l n ts in Ok (EBin o a b, r)).
  - intro n. cbn. rewrite (proj2 (reads_prec _ _) P), RP. reflexivity.
  - apply (ev_bind _ _ (fun n => operand l n ts) (fun n '(b, r) => Ok (EBin o a b, r)) (b, r)).
    + destruct H as (N & H). exists N. intros n L. rewrite operand_at. auto.
    + apply ev_const.
Qed.

(** Descending from one level to the next when nothing of that level follows. *)
Lemma at_lower p ts e r :
  1 <= p <= 6 ->
  ev (fun n => readsAt (S p) n ts) (Ok (e, r)) -> follows p r ->
  ev (fun n => readsAt p n ts) (Ok (e, r)).
Proof.
  intros P H F.
  assert (p = 1 \/ exists l, p = num l) as [-> | (l & ->)].
  { destruct (Nat.eq_dec p 1); [auto|right].
    assert (p = 2 \/ p = 3 \/ p = 4 \/ p = 5 \/ p = 6) as D by lia.
    destruct D as [-> | [-> | [-> | [-> | ->]]]];
      [exists LLogExpr|exists LLogTerm|exists LRel|exists LRelTerm|exists LTerm]; reflexivity. }
  - cbn [readsAt] in *.
    eapply ev_S with (g := fun n => let* (c, r) := parseBin n LLogExpr ts in
      match r with
      | TQuestion :: r =>
          let* (a, r) := parseExpr n r in
          let* r := eat TColon r in
          let* (b, r) := parseExpr n r in
          Ok (ECond c a b, r)
      | _ => Ok (c, r)
      end); [reflexivity|].
    eapply ev_bind; [exact H|]. cbn beta iota.
    destruct r as [|t r]; [apply ev_const|]. destruct t; try apply ev_const.
    cbn in F. lia.
  - destruct (rest_stops l e r F) as (N & K).
    destruct (bin_step l ts e r _ H (ex_intro _ N K)) as (M & Q).
    exists M. intros n L. rewrite <- bin_at. auto.
Qed.

Lemma at_down ts e r : forall k p,
  1 <= p -> p + k <= 7 ->
  ev (fun n => readsAt (p + k) n ts) (Ok (e, r)) -> follows p r ->
  ev (fun n => readsAt p n ts) (Ok (e, r)).
Proof.
  induction k as [|k IH]; intros p P K H F.
  - rewrite Nat.add_0_r in H. exact H.
  - apply at_lower; [lia| |exact F].
    apply IH; [lia|lia| |eapply follows_le; eauto].
    replace (S p + k) with (p + S k) by lia. exact H.
Qed.

Lemma factor_at p ts e r :
  1 <= p <= 7 ->
  ev (fun n => parseFactor n ts) (Ok (e, r)) -> follows p r ->
  ev (fun n => readsAt p n ts) (Ok (e, r)).
Proof.
  intros P H F. apply (at_down ts e r (7 - p) p); [lia|lia| |exact F].
  replace (p + (7 - p)) with 7 by lia. exact H.
Qed.

Lemma sel_stops d r : follows 7 r -> ev (fun n => parseSelectors n d r) (Ok (d, r)).
Proof.
  intro F. exists 1. intros [|n] L; [lia|]. cbn.
  destruct r as [|t r]; [reflexivity|]. destruct t; cbn in F; try reflexivity; contradiction.
Qed.

(** The level at which the operators of precedence [prec o] are read. *)
Definition lvlOf (o : op) : lvl :=
  match prec o with
  | 6 => LTerm
  | 5 => LRelTerm
  | 4 => LRel
  | 3 => LLogTerm
  | _ => LLogExpr
  end.

Lemma lvlOf_num o : prec o = num (lvlOf o).
Proof. destruct o; reflexivity. Qed.

Lemma starts : (forall p e s, says p e s -> exists t s', s = t :: s' /\ t <> TRpar) /\
  (forall d s, names d s -> exists x s', s = TIdent x :: s') /\
  (forall es s, lists es s -> exists t s', s = t :: s' /\ t <> TRpar).
Proof.
  apply says_names_lists; intros;
    repeat match goal with
           | H : exists _, _ |- _ => destruct H
           | H : _ /\ _ |- _ => destruct H
           end; subst; cbn;
    try (eexists; eexists; split; [reflexivity|]; try discriminate; try assumption; fail).
  - eexists; eexists; split; [reflexivity|]. destruct u; discriminate.
  - eauto.
  - eauto.
  - eauto.
  - eauto.
  - eauto.
  - eauto.
  - eauto.
Qed.

Lemma complete :
  (forall p e s, says p e s -> 
     (1 <= p -> forall r, follows p r -> ev (fun n => readsAt p n (s ++ r)) (Ok (e, r))) /\
     (forall l r x, p = num l -> repeats l = true -> follows (S p) r ->
        ev (fun n => parseRest n l e r) x -> ev (fun n => parseBin n l (s ++ r)) x)) /\
  (forall d s, names d s -> exists x s', s = TIdent x :: s' /\
     forall r y, ev (fun n => parseSelectors n d r) y -> ev (fun n => parseSelectors n (DIdent x) (s' ++ r)) y) /\
  (forall es s, lists es s ->
     forall r, match r with TRpar :: _ | TEol :: _ => True | _ => False end ->
     ev (fun n => parseActualParams n (s ++ r)) (Ok (es, r))).
Proof.
  assert (FAC : forall p e s, p <= 7 ->
     (forall r, follows 7 r -> ev (fun n => parseFactor n (s ++ r)) (Ok (e, r))) ->
     (1 <= p -> forall r, follows p r -> ev (fun n => readsAt p n (s ++ r)) (Ok (e, r))) /\
     (forall l r x, p = num l -> repeats l = true -> follows (S p) r ->
        ev (fun n => parseRest n l e r) x -> ev (fun n => parseBin n l (s ++ r)) x)).
  { intros p e s P H. split.
    - intros P1 r F. apply factor_at; [lia| |exact F]. apply H. eapply follows_le; eauto.
    - intros l r x -> RP F K. eapply bin_step; [|exact K].
      apply factor_at; [destruct l; cbn; lia| |exact F].
      apply H. eapply follows_le; [exact F|]. destruct l; cbn; lia. }
  apply says_names_lists.
  - intros p c P. apply FAC; [exact P|]. intros r F. exists 1. intros [|n] L; [lia|reflexivity].
  - intros p d s P _ (x & s' & -> & IH). apply FAC; [exact P|]. intros r F.
    eapply ev_S with (g := fun n => let* (d, r) := parseSelectors n (DIdent x) (s' ++ r) in Ok (EDes d, r));
      [reflexivity|].
    eapply ev_bind; [apply IH; apply sel_stops; exact F|]. apply ev_const.
  - intros p d s P _ (x & s' & -> & IH). apply FAC; [exact P|]. intros r F.
    eapply ev_S with (g := fun n => let* (d, r) := parseSelectors n (DIdent x) (s' ++ r) in Ok (EAddr d, r));
      [reflexivity|].
    eapply ev_bind; [apply IH; apply sel_stops; exact F|]. apply ev_const.
  - intros p u e s P _ (IH & _). apply FAC; [exact P|]. intros r F.
    eapply ev_S with (g := fun n => let* (e, r) := parseFactor n (s ++ r) in Ok (EUn u e, r));
      [destruct u; reflexivity|].
    eapply ev_bind; [apply (IH ltac:(lia) r F)|]. apply ev_const.
  - intros p e s P _ (IH & _). apply FAC; [exact P|]. intros r F.
    eapply ev_S with (g := fun n => let* (e, r) := parseExpr n (s ++ TRpar :: r) in
                                    let* r := eat TRpar r in Ok (e, r)).
    + intro n. cbn. rewrite <- app_assoc. reflexivity.
    + eapply ev_bind; [apply (IH ltac:(lia) (TRpar :: r)); exact I|]. cbn. apply ev_const.
  - intros p o a b s t P _ (IA & IA') _ (IB & _).
    pose proof (prec_ge o) as PG. pose proof (lvlOf_num o) as LN.
    set (l := lvlOf o) in *.
    assert (RB : forall r, follows (S (prec o)) r ->
      ev (fun n => readsAt (S (num l)) n (t ++ r)) (Ok (b, r))).
    { intros r F. rewrite <- LN. apply IB; [lia|exact F]. }
    assert (APP : forall r, (s ++ TOp o :: t) ++ r = s ++ TOp o :: t ++ r)
      by (intro r; rewrite <- app_assoc; reflexivity).
    assert (MAIN : forall r, follows (prec o) r ->
      ev (fun n => readsAt (prec o) n ((s ++ TOp o :: t) ++ r)) (Ok (EBin o a b, r))).
    { intros r F. rewrite APP.
      assert (Q : ev (fun n => parseBin n l (s ++ TOp o :: t ++ r)) (Ok (EBin o a b, r))).
      { destruct (repeats l) eqn:RP.
        - apply (IA' l (TOp o :: t ++ r)); [destruct o; try reflexivity; discriminate|exact RP| |].
          + cbn. destruct o; cbn; lia.
          + eapply rest_step; [exact LN|exact RP|apply RB; eapply follows_le; [exact F|lia]|].
            apply rest_stops. rewrite <- LN. exact F.
        - assert (L4 : l = LRel) by (destruct l; try discriminate; reflexivity).
          eapply bin_step; [|eapply rest_once; [exact LN|exact RP|apply RB; eapply follows_le; [exact F|lia]]].
          assert (E5 : leftPrec o = S (num l)) by (rewrite L4; unfold leftPrec; rewrite LN, L4; reflexivity).
          rewrite <- E5. apply IA; [rewrite E5; lia|].
          cbn. rewrite E5, LN. lia. }
      destruct Q as (N & Q). exists N. intros n L. rewrite LN, <- bin_at. auto. }
    split.
    + intros P1 r F. apply (at_down _ _ _ (prec o - p) p); [lia|lia| |exact F].
      replace (p + (prec o - p)) with (prec o) by lia.
      apply MAIN. eapply follows_le; eauto.
    + intros l' r x El RP F K.
      destruct (Nat.eq_dec p (prec o)) as [EP|NP].
      * assert (l' = l) by (assert (num l' = num l) by lia; destruct l', l; cbn in *; congruence || discriminate).
        subst l'. rewrite APP.
        apply (IA' l (TOp o :: t ++ r)); [destruct o; try reflexivity; discriminate|exact RP| |].
        -- cbn. destruct o; cbn; lia.
        -- eapply rest_step; [exact LN|exact RP|apply RB; rewrite <- EP; exact F|exact K].
      * eapply bin_step; [|exact K].
        apply (at_down _ _ _ (prec o - S (num l')) (S (num l'))); [lia|lia| |rewrite <- El; exact F].
        replace (S (num l') + (prec o - S (num l'))) with (prec o) by lia.
        apply MAIN. eapply follows_le; [exact F|]. lia.
  - intros p c a b s t u P _ (IC & _) _ (IA & _) _ (IB & _). split.
    + intros P1 r F. assert (p = 1) by lia. subst p. cbn [readsAt].
      eapply ev_S with (g := fun n => let* (c, r) := parseBin n LLogExpr (s ++ TQuestion :: t ++ TColon :: u ++ r) in
        match r with
        | TQuestion :: r =>
            let* (a, r) := parseExpr n r in
            let* r := eat TColon r in
            let* (b, r) := parseExpr n r in
            Ok (ECond c a b, r)
        | _ => Ok (c, r)
        end).
      { intro n. cbn. repeat rewrite <- app_assoc. cbn. repeat rewrite <- app_assoc. reflexivity. }
      eapply ev_bind; [apply (IC ltac:(lia) (TQuestion :: t ++ TColon :: u ++ r)); cbn; lia|]. cbn beta iota.
      eapply (ev_bind _ _ _ (fun n '(a, r) => let* r0 := eat TColon r in
         let* (b0, r1) := parseExpr n r0 in Ok (ECond c a b0, r1)));
        [apply (IA ltac:(lia) (TColon :: u ++ r)); exact I|]. cbn [eat tokEq bind].
      eapply (ev_bind _ _ _ (fun n '(b, r) => Ok (ECond c a b, r)));
        [apply (IB ltac:(lia) r); exact F|]. apply ev_const.
    + intros l r x E. destruct l; cbn in E; lia.
  - intro x. exists x, []. split; [reflexivity|]. intros r y H. exact H.
  - intros d s _ (x & s' & -> & IH). exists x, (s' ++ [TCaret]). split; [reflexivity|].
    intros r y H. rewrite <- app_assoc. apply IH. eapply ev_S; [|exact H]. reflexivity.
  - intros d e s t _ (x & s' & -> & IH) _ (IE & _).
    exists x, (s' ++ TLbracket :: t ++ [TRbracket]). split; [reflexivity|].
    intros r y H. rewrite <- app_assoc. apply IH.
    eapply ev_S with (g := fun n => let* (e, r) := parseExpr n (t ++ TRbracket :: r) in
          let* r := eat TRbracket r in parseSelectors n (DIndex d e) r).
    { intro n. cbn. rewrite <- app_assoc. reflexivity. }
    eapply (ev_bind _ _ _ (fun n '(e, r) => let* r := eat TRbracket r in parseSelectors n (DIndex d e) r));
      [apply (IE ltac:(lia) (TRbracket :: r)); exact I|]. exact H.
  - intros d f s _ (x & s' & -> & IH). exists x, (s' ++ [TPeriod; TIdent f]). split; [reflexivity|].
    intros r y H. rewrite <- app_assoc. apply IH. eapply ev_S; [|exact H]. reflexivity.
  - intros d s _ (x & s' & -> & IH). exists x, (s' ++ [TLpar; TRpar]). split; [reflexivity|].
    intros r y H. rewrite <- app_assoc. apply IH. eapply ev_S; [|exact H]. reflexivity.
  - intros d es s t _ (x & s' & -> & IH) LS IA.
    exists x, (s' ++ TLpar :: t ++ [TRpar]). split; [reflexivity|].
    intros r y H. rewrite <- app_assoc. apply IH.
    eapply ev_S with (g := fun n => let* (es, r) := parseActualParams n (t ++ TRpar :: r) in
              let* r := eat TRpar (skipEol r) in parseSelectors n (DCall d es) r).
    { intro n. cbn. rewrite <- app_assoc. cbn.
      destruct (proj2 (proj2 starts) _ _ LS) as (t0 & t' & -> & NT). cbn. destruct t0; try reflexivity. congruence. }
    eapply (ev_bind _ _ _ (fun n '(es, r) => let* r := eat TRpar (skipEol r) in parseSelectors n (DCall d es) r));
      [apply (IA (TRpar :: r)); exact I|]. exact H.
  - intros d es s t _ (x & s' & -> & IH) LS IA.
    exists x, (s' ++ TLpar :: t ++ [TEol; TRpar]). split; [reflexivity|].
    intros r y H. rewrite <- app_assoc. apply IH.
    eapply ev_S with (g := fun n => let* (es, r) := parseActualParams n (t ++ TEol :: TRpar :: r) in
              let* r := eat TRpar (skipEol r) in parseSelectors n (DCall d es) r).
    { intro n. cbn. rewrite <- app_assoc. cbn.
      destruct (proj2 (proj2 starts) _ _ LS) as (t0 & t' & -> & NT). cbn. destruct t0; try reflexivity. congruence. }
    eapply (ev_bind _ _ _ (fun n '(es, r) => let* r := eat TRpar (skipEol r) in parseSelectors n (DCall d es) r));
      [apply (IA (TEol :: TRpar :: r)); exact I|]. exact H.
  - intros e s _ (IE & _) r R.
    eapply ev_S with (g := fun n => let* (e, r) := parseExpr n (s ++ r) in
      match r with
      | TComma :: r => let* (es, r) := parseActualParams n r in Ok (ACons e es, r)
      | _ => Ok (ACons e ANil, r)
      end); [reflexivity|].
    eapply ev_bind; [apply (IE ltac:(lia) r); destruct r as [|[]]; cbn; auto; contradiction|].
    cbn beta iota. destruct r as [|t r]; [contradiction|]. destruct t; try contradiction; apply ev_const.
  - intros e es s t _ (IE & _) _ IL r R.
    eapply ev_S with (g := fun n => let* (e, r) := parseExpr n (s ++ TComma :: t ++ r) in
      match r with
      | TComma :: r => let* (es, r) := parseActualParams n r in Ok (ACons e es, r)
      | _ => Ok (ACons e ANil, r)
      end).
    { intro n. cbn. rewrite <- app_assoc. reflexivity. }
    eapply ev_bind; [apply (IE ltac:(lia) (TComma :: t ++ r)); exact I|].
    cbn beta iota. 
    eapply (ev_bind _ _ _ (fun n '(es, r) => Ok (ACons e es, r))); [apply (IL r R)|]. apply ev_const.
Qed.
