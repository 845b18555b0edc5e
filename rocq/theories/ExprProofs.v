(** Proofs about the parsing of expressions. *)
From Coq Require Import ZArith Lia Bool List.
From Verif Require Import Base NumModel NumExtra ExprModel ExprSpec.
Import ListNotations.
Local Open Scope Z_scope.

Section Proofs.
Variable lm : libm.

(** The code for an expression. *)
Fixpoint codeOf (a : ast) : rexpr :=
  match a with
  | AInt v | AConst _ v => RLit v
  | AVar _ x => RVar x
  | AUn o a => RUn o (kindOf a) (codeOf a)
  | ABin o a b => RBin o (kindOf a) (codeOf a) (codeOf b)
  | AAnd a b => RAnd (codeOf a) (codeOf b)
  | AOr a b => ROr (codeOf a) (codeOf b)
  | ACond c a b => RCond (codeOf c) (codeOf a) (codeOf b)
  end.
Lemma eval_code : forall env a, eval lm env (codeOf a) = value lm env a.
Proof.
  intros env. induction a as [v|k v|k x|o a IH|o a IHa b IHb|a IHa b IHb|a IHa b IHb|c IHc a IHa b IHb]; cbn [codeOf eval value]; rewrite ?IH, ?IHa, ?IHb, ?IHc; try reflexivity.
  destruct (value lm env a) as [v|e|]; cbn [bind]; try reflexivity. destruct (v =? 0) eqn:V; [|reflexivity]. apply Z.eqb_eq in V. congruence.
Qed.
Lemma full_value : forall env a v, full lm a = Ok v -> value lm env a = Ok v.
Proof.
  intros env. induction a as [w|k w|k x|o a IH|o a IHa b IHb|a IHa b IHb|a IHa b IHb|c IHc a IHa b IHb]; intros v H; cbn [full value] in *; try exact H; try discriminate.
  - destruct (full lm a) as [x|?|]; try discriminate. rewrite (IH x eq_refl). exact H.
  - destruct (full lm a) as [x|?|]; try discriminate. cbn [bind] in H. destruct (full lm b) as [y|?|]; try discriminate. rewrite (IHa x eq_refl), (IHb y eq_refl). exact H.
  - destruct (full lm a) as [x|?|]; try discriminate. cbn [bind] in H. destruct (full lm b) as [y|?|]; try discriminate. rewrite (IHa x eq_refl), (IHb y eq_refl). cbn [bind] in *. destruct (x =? 0); exact H.
  - destruct (full lm a) as [x|?|]; try discriminate. cbn [bind] in H. destruct (full lm b) as [y|?|]; try discriminate. rewrite (IHa x eq_refl), (IHb y eq_refl). cbn [bind] in *. destruct (x =? 0); exact H.
  - destruct (full lm c) as [z|?|]; try discriminate. cbn [bind] in H. destruct (full lm a) as [x|?|]; try discriminate. cbn [bind] in H. destruct (full lm b) as [y|?|]; try discriminate.
    rewrite (IHa x eq_refl), (IHb y eq_refl), (IHc z eq_refl). cbn [bind] in *. destruct (z =? 0); exact H.
Qed.

Lemma level_eqb_eq : forall a b, level_eqb a b = true <-> a = b.
Proof. intros [] []; split; intros H; try discriminate; reflexivity. Qed.

(** ** The code parser accepts only expressions *)

(** The expressions a loop of level [l] may start with and make. *)
Definition start (l : level) (t : list tok) (a : ast) : Prop := match l with LRel => G LRelTerm t a | _ => G l t a end.

Definition goodLevel (l : level) : Prop := l = LTerm \/ l = LRelTerm \/ l = LRel \/ l = LAnd \/ l = LOr.

(** The functions unfolded once. *)
Lemma parse_factor : forall cst n1 ts, parse lm cst (S n1) LFactor ts =
  match ts with
  | TkInt v :: r => Ok (KInt, lit cst v, r)
  | TkConst k v :: r => Ok (k, lit cst v, r)
  | TkVar k x :: r => if cst then Err ESyntax else Ok (k, ICode (RVar x), r)
  | TkOp (TArith o) :: r =>
      if isUnary o then
        let* (k, a, r1) := parse lm cst n1 LFactor r in
        if validOp (TArith o) k then let* b := applyUn o k a in Ok (k, b, r1) else Err EIllegalType
      else Err ESyntax
  | TkLPar :: r => let* (k, a, r1) := parse lm cst n1 LExpr r in match r1 with TkRPar :: r2 => Ok (k, a, r2) | _ => Err ESyntax end
  | _ => Err ESyntax
  end.
Proof. reflexivity. Qed.
Lemma parse_expr : forall cst n1 ts, parse lm cst (S n1) LExpr ts =
  let* (k, c, r) := parse lm cst n1 LOr ts in
  match r with
  | TkQuestion :: r1 =>
      if negb (isKBool k) then Err EIllegalType else
      let* (ka, a, r2) := parse lm cst n1 LExpr r1 in
      match r2 with
      | TkColon :: r3 =>
          let* (kb, b, r4) := parse lm cst n1 LExpr r3 in
          if negb (sameKind ka kb) then Err EIllegalType else
          let* x := applyCond c a b in Ok (ka, x, r4)
      | _ => Err ESyntax
      end
  | _ => Ok (k, c, r)
  end.
Proof. reflexivity. Qed.
Lemma loop_S : forall cst n1 l k a ts, loop lm cst (S n1) l k a ts =
  match ts with
  | TkOp o :: r =>
      match opLevel o with
      | Some l1 =>
          if level_eqb l1 l then
            match stops o a with
            | Some b => loop lm cst n1 l k b r
            | None =>
                let* (k2, b, r2) := parse lm cst n1 (down l) r in
                if negb (sameKind k k2 && validOp o k) then Err EIllegalType else
                let* c := match o with TArith o1 => applyBin lm o1 k a b | _ => applyLogic o a b end in
                match l with LRel => Ok (KBool, c, r2) | _ => loop lm cst n1 l k c r2 end
            end
          else Ok (k, a, ts)
      | None => Ok (k, a, ts)
      end
  | _ => Ok (k, a, ts)
  end.
Proof. reflexivity. Qed.
Lemma parse_S : forall cst n l ts, goodLevel l -> parse lm cst (S n) l ts = let* (k, a, r) := parse lm cst n (down l) ts in loop lm cst n l k a r.
Proof. intros cst n l ts [->|[->|[->|[->| ->]]]]; reflexivity. Qed.

Lemma start_up : forall l t a, goodLevel l -> G (down l) t a -> start l t a.
Proof. intros l t a H D. destruct H as [->|[->|[->|[->| ->]]]]; cbn [down start] in *; [apply GTerm0|apply GSum0|exact D|apply GAnd0|apply GOr0]; exact D. Qed.
Lemma start_G : forall l t a, goodLevel l -> start l t a -> G l t a.
Proof. intros l t a H D. destruct H as [->|[->|[->|[->| ->]]]]; cbn [start] in *; try exact D. apply GRel0. exact D. Qed.

(** The tree of an operator. *)
Definition node (o : otok) (a b : ast) : ast := match o with TArith o1 => ABin o1 a b | TAndAnd => AAnd a b | TOrOr => AOr a b end.

Lemma G_bin : forall l o t1 a t2 b, goodLevel l -> opLevel o = Some l -> start l t1 a -> G (down l) t2 b -> G l (t1 ++ TkOp o :: t2) (node o a b).
Proof.
  intros l o t1 a t2 b GL OL S D. destruct o as [o| |]; cbn [node].
  - destruct o; try discriminate; injection OL as <-; cbn [start down] in *;
      first [apply GTerm; [exact S|cbn; tauto|exact D] | apply GSum; [exact S|cbn; tauto|exact D] | apply GRel; [exact S|cbn; tauto|exact D]].
  - injection OL as <-. apply GAnd; assumption.
  - injection OL as <-. apply GOr; assumption.
Qed.

Lemma sameKind_iff : forall a b, sameKind a b = true <-> a = b /\ (a = KInt \/ a = KBool).
Proof. intros a b. unfold sameKind. destruct a, b; cbn; split; intros H; try discriminate; try reflexivity; intuition congruence. Qed.

Lemma node_type : forall l o a b k k2, opLevel o = Some l -> typeOf a = Some k -> typeOf b = Some k2 -> sameKind k k2 && validOp o k = true ->
  typeOf (node o a b) = Some (match l with LRel => KBool | _ => k end).
Proof.
  intros l o a b k k2 OL Ta Tb H. apply andb_true_iff in H. destruct H as [H V]. apply sameKind_iff in H. destruct H as [<- K].
  destruct o as [o| |]; cbn [node typeOf]; rewrite Ta, Tb.
  - destruct K as [-> | ->]; destruct o; try discriminate; injection OL as <-; try discriminate; reflexivity.
  - injection OL as <-. destruct K as [-> | ->]; [discriminate|reflexivity].
  - injection OL as <-. destruct K as [-> | ->]; [discriminate|reflexivity].
Qed.
Lemma node_type_inv : forall l o a b k, opLevel o = Some l -> typeOf (node o a b) = Some k ->
  exists k1, typeOf a = Some k1 /\ typeOf b = Some k1 /\ sameKind k1 k1 && validOp o k1 = true /\ k = (match l with LRel => KBool | _ => k1 end).
Proof.
  intros l o a b k OL T. destruct o as [o| |]; cbn [node typeOf] in T; destruct (typeOf a) as [ka|] eqn:Ta; try discriminate; destruct ka; try discriminate;
    destruct (typeOf b) as [kb|] eqn:Tb; try discriminate; destruct kb; try discriminate; eexists; (split; [reflexivity|]); (split; [reflexivity|]).
  - destruct o; cbn [arithOp] in T; injection T as <-; try discriminate OL; injection OL as <-; split; reflexivity.
  - destruct o; cbn [arithOp] in T; try discriminate T; injection T as <-; try discriminate OL; injection OL as <-; split; reflexivity.
  - injection T as <-. injection OL as <-. split; reflexivity.
  - injection T as <-. injection OL as <-. split; reflexivity.
Qed.

Lemma node_code : forall o a b c, match o with TArith o1 => applyBin lm o1 (kindOf a) (ICode (codeOf a)) (ICode (codeOf b)) | _ => applyLogic o (ICode (codeOf a)) (ICode (codeOf b)) end = Ok c ->
  c = ICode (codeOf (node o a b)).
Proof. intros o a b c H. destruct o; cbn [applyBin applyLogic] in H; injection H as <-; reflexivity. Qed.

Definition SoundP (n : nat) : Prop := forall l ts k it rest, parse lm false n l ts = Ok (k, it, rest) ->
  exists t a, ts = t ++ rest /\ G l t a /\ typeOf a = Some k /\ it = ICode (codeOf a).
Definition SoundL (n : nat) : Prop := forall l t0 a0 k ts k' it' rest, goodLevel l -> start l t0 a0 -> typeOf a0 = Some k -> loop lm false n l k (ICode (codeOf a0)) ts = Ok (k', it', rest) ->
  exists t a, ts = t ++ rest /\ G l (t0 ++ t) a /\ typeOf a = Some k' /\ it' = ICode (codeOf a).

Lemma kindOf_some : forall a k, typeOf a = Some k -> kindOf a = k. Proof. intros a k H. unfold kindOf. rewrite H. reflexivity. Qed.

Lemma sound : forall n, SoundP n /\ SoundL n.
Proof.
  induction n as [|n (IP & IL)]; [split; intros l; intros; discriminate|]. split.
  - intros l ts k it rest H.
    assert (LV : goodLevel l -> (let* x := parse lm false n (down l) ts in let '(k, a, r) := x in loop lm false n l k a r) = Ok (k, it, rest) -> exists t a, ts = t ++ rest /\ G l t a /\ typeOf a = Some k /\ it = ICode (codeOf a)).
    { intros GL E. destruct (parse lm false n (down l) ts) as [[[k1 a1] r1]|?|] eqn:P; try discriminate. cbn [bind] in E. destruct (IP _ _ _ _ _ P) as (t1 & b1 & T1 & G1 & Y1 & C1). subst a1 ts.
      destruct (IL l t1 b1 k1 r1 k it rest GL (start_up l t1 b1 GL G1) Y1 E) as (t & a & T & Gr & Y & C). subst r1. exists (t1 ++ t), a. rewrite <- app_assoc. auto. }
    destruct l; try (apply LV; [unfold goodLevel; tauto|rewrite parse_S in H by (unfold goodLevel; tauto); exact H]); clear LV; [rewrite parse_factor in H|rewrite parse_expr in H].
    + destruct ts as [|[v|kk v|kk x|o| | | | |] r]; try discriminate.
      * injection H as <- <- <-. exists [TkInt v], (AInt v). cbn. split; [reflexivity|]. split; [constructor|]. auto.
      * injection H as <- <- <-. exists [TkConst kk v], (AConst kk v). cbn. split; [reflexivity|]. split; [constructor|]. auto.
      * injection H as <- <- <-. exists [TkVar kk x], (AVar kk x). cbn. split; [reflexivity|]. split; [constructor|]. auto.
      * destruct o as [o| |]; try discriminate. destruct (isUnary o) eqn:U; [|discriminate]. destruct (parse lm false n LFactor r) as [[[k1 a1] r1]|?|] eqn:P; try discriminate. cbn [bind] in H.
        destruct (validOp (TArith o) k1) eqn:V; [|discriminate]. destruct (IP _ _ _ _ _ P) as (t1 & b1 & T1 & G1 & Y1 & C1). subst a1. cbn [applyUn bind] in H. injection H as <- <- <-.
        exists (TkOp (TArith o) :: t1), (AUn o b1). split; [subst r; reflexivity|]. split; [apply GUn; [destruct o; try discriminate; cbn; tauto|exact G1]|]. cbn [typeOf codeOf]. rewrite (kindOf_some _ _ Y1), Y1.
        split; [destruct k1, o; try discriminate; reflexivity|reflexivity].
      * destruct (parse lm false n LExpr r) as [[[k1 a1] r1]|?|] eqn:P; try discriminate. cbn [bind] in H. destruct r1 as [|[| | | | | | | |] r1]; try discriminate. injection H as <- <- <-.
        destruct (IP _ _ _ _ _ P) as (t1 & b1 & T1 & G1 & Y1 & C1). exists (TkLPar :: t1 ++ [TkRPar]), b1. split; [subst r; cbn [app]; rewrite <- app_assoc; reflexivity|]. split; [apply GPar; exact G1|]. auto.
    + destruct (parse lm false n LOr ts) as [[[k1 a1] r1]|?|] eqn:P; try discriminate. cbn [bind] in H. destruct (IP _ _ _ _ _ P) as (t1 & b1 & T1 & G1 & Y1 & C1).
      assert (X : (exists r, r1 = TkQuestion :: r) \/ Ok (k1, a1, r1) = Ok (k, it, rest)). { destruct r1 as [|[| | | | | | | |] r1]; auto. left. eauto. }
      destruct X as [(r & ->)|X]; [|injection X as <- <- <-; exists t1, b1; split; [exact T1|]; split; [apply GExpr0; exact G1|auto]].
      destruct (negb (isKBool k1)) eqn:KB; [discriminate|]. destruct (parse lm false n LExpr r) as [[[k2 a2] r2]|?|] eqn:P2; try discriminate. cbn [bind] in H.
      destruct r2 as [|[| | | | | | | |] r2]; try discriminate. destruct (parse lm false n LExpr r2) as [[[k3 a3] r3]|?|] eqn:P3; try discriminate. cbn [bind] in H.
      destruct (negb (sameKind k2 k3)) eqn:SK; [discriminate|]. destruct (IP _ _ _ _ _ P2) as (t2 & b2 & T2 & G2 & Y2 & C2). destruct (IP _ _ _ _ _ P3) as (t3 & b3 & T3 & G3 & Y3 & C3).
      subst a1 a2 a3. cbn [applyCond bind] in H. injection H as <- <- <-. exists (t1 ++ TkQuestion :: t2 ++ TkColon :: t3), (ACond b1 b2 b3).
      split; [subst; rewrite <- app_assoc; cbn [app]; rewrite <- app_assoc; reflexivity|]. split; [apply GExpr; assumption|]. cbn [typeOf codeOf]. rewrite Y1, Y2, Y3. split; [|reflexivity].
      apply negb_false_iff in SK. apply sameKind_iff in SK. destruct SK as [<- K]. destruct k1; try discriminate. destruct K as [-> | ->]; reflexivity.
  - intros l t0 a0 k ts k' it' rest GL S0 Y0 H. rewrite loop_S in H.
    assert (DONE : Ok (k, ICode (codeOf a0), ts) = Ok (k', it', rest) -> exists t a, ts = t ++ rest /\ G l (t0 ++ t) a /\ typeOf a = Some k' /\ it' = ICode (codeOf a)).
    { intros E. injection E as <- <- <-. exists [], a0. rewrite app_nil_r. split; [reflexivity|]. split; [apply start_G; assumption|]. auto. }
    destruct ts as [|[v|kk v|kk x|o| | | | |] r]; try (apply DONE; exact H). destruct (opLevel o) as [l1|] eqn:OL; [|apply DONE; exact H].
    destruct (level_eqb l1 l) eqn:LE; [|apply DONE; exact H]. apply level_eqb_eq in LE. subst l1. clear DONE.
    replace (stops o (ICode (codeOf a0))) with (@None item) in H by (destruct o; reflexivity).
    destruct (parse lm false n (down l) r) as [[[k2 a2] r2]|?|] eqn:P; try discriminate. cbn [bind] in H. destruct (negb (sameKind k k2 && validOp o k)) eqn:SK; [discriminate|]. apply negb_false_iff in SK.
    destruct (IP _ _ _ _ _ P) as (t2 & b2 & T2 & G2 & Y2 & C2). subst a2.
    destruct (match o with TArith o1 => applyBin lm o1 k (ICode (codeOf a0)) (ICode (codeOf b2)) | _ => applyLogic o (ICode (codeOf a0)) (ICode (codeOf b2)) end) as [c|?|] eqn:AP; try discriminate. cbn [bind] in H.
    rewrite <- (kindOf_some _ _ Y0) in AP. apply node_code in AP. subst c.
    pose proof (G_bin l o t0 a0 t2 b2 GL OL S0 G2) as GN. pose proof (node_type l o a0 b2 k k2 OL Y0 Y2 SK) as TN.
    assert (X : (l = LRel /\ Ok (KBool, ICode (codeOf (node o a0 b2)), r2) = Ok (k', it', rest)) \/ (l <> LRel /\ loop lm false n l k (ICode (codeOf (node o a0 b2))) r2 = Ok (k', it', rest))).
    { destruct l; try (right; split; [discriminate|exact H]). left. auto. }
    destruct X as [[-> X]|[NL X]].
    + injection X as <- <- <-. exists (TkOp o :: t2), (node o a0 b2). split; [subst r; reflexivity|]. auto.
    + assert (S2 : start l (t0 ++ TkOp o :: t2) (node o a0 b2)) by (destruct l; try exact GN; congruence).
      assert (T2' : typeOf (node o a0 b2) = Some k) by (rewrite TN; destruct l; try reflexivity; congruence).
      destruct (IL l _ _ k r2 k' it' rest GL S2 T2' X) as (t & a & T & Gr & Y & C). exists (TkOp o :: t2 ++ t), a. split; [subst r r2; cbn [app]; rewrite <- app_assoc; reflexivity|].
      split; [|auto]. rewrite <- app_assoc in Gr. exact Gr.
Qed.

(** ** Both parsers accept the expressions *)

(** What an expression gives. *)
Definition itemOf (cst : bool) (a : ast) : outcome item := if cst then fmap IConst (full lm a) else Ok (ICode (codeOf a)).
Definition fine (cst : bool) (a : ast) : Prop := cst = true -> noSkip lm a.

Definition P (cst : bool) (l : level) (t : list tok) (a : ast) : Prop := forall k it rest, typeOf a = Some k -> itemOf cst a = Ok it -> fine cst a -> ends (rank l) rest ->
  exists n0, forall n, (n0 <= n)%nat -> parse lm cst n l (t ++ rest) = Ok (k, it, rest).
Definition Q (cst : bool) (l : level) (t : list tok) (a : ast) : Prop := forall k it rest, typeOf a = Some k -> itemOf cst a = Ok it -> fine cst a -> ends (rank (down l)) rest ->
  exists j n0, forall n, (n0 <= n)%nat -> parse lm cst (j + n) l (t ++ rest) = loop lm cst n l k it rest.

Lemma loop_end : forall cst n l k it rest, ends (rank l) rest -> loop lm cst (S n) l k it rest = Ok (k, it, rest).
Proof.
  intros cst n l k it rest E. rewrite loop_S. destruct rest as [|[| | |o| | | | |] r]; try reflexivity. cbn [ends continues] in E. destruct (opLevel o) as [l1|]; [|reflexivity].
  replace (level_eqb l1 l) with false; [reflexivity|]. destruct l1, l; cbn in *; try reflexivity; lia.
Qed.
Lemma ends_up : forall l rest, ends (rank l) rest -> ends (rank (down l)) rest.
Proof. intros l rest. unfold ends. destruct rest as [|t r]; [auto|]. destruct (continues t) as [q|]; [|auto]. destruct l; cbn; lia. Qed.
Lemma Q_P : forall cst l t a, Q cst l t a -> P cst l t a.
Proof.
  intros cst l t a H k it rest T I F E. destruct (H k it rest T I F (ends_up _ _ E)) as (j & n0 & X). exists (j + S n0)%nat. intros n Hn. replace n with (j + S (n - j - 1))%nat by lia. rewrite X by lia. apply loop_end. exact E.
Qed.
Lemma P_Q : forall cst l t a, goodLevel l -> P cst (down l) t a -> Q cst l t a.
Proof.
  intros cst l t a GL H k it rest T I F E. destruct (H k it rest T I F E) as (n0 & X). exists 1%nat, n0. intros n Hn. cbn [Nat.add]. rewrite parse_S by exact GL. rewrite X by exact Hn. reflexivity.
Qed.

Lemma fold_bin : forall o k a b, constBinary lm o k a b = doBinary lm o k a b. Proof. intros. apply (folding_agree lm o k a b). Qed.
Lemma fold_un : forall o k a, constUnary o k a = doUnary o k a. Proof. intros. apply (folding_agree lm o k a 0). Qed.

Lemma node_item : forall cst o a b it k, typeOf a = Some k -> itemOf cst (node o a b) = Ok it -> fine cst (node o a b) ->
  exists i1 i2, itemOf cst a = Ok i1 /\ itemOf cst b = Ok i2 /\ fine cst a /\ fine cst b /\ stops o i1 = None /\ match o with TArith o1 => applyBin lm o1 k i1 i2 | _ => applyLogic o i1 i2 end = Ok it.
Proof.
  intros cst o a b it k T I F. unfold itemOf, fine in *. destruct cst.
  - specialize (F eq_refl). destruct o as [o| |]; cbn [node full noSkip] in *.
    + destruct (full lm a) as [x|?|]; try discriminate. cbn [bind fmap] in *. destruct (full lm b) as [y|?|]; try discriminate. cbn [bind fmap] in *. exists (IConst x), (IConst y).
      split; [reflexivity|]. split; [reflexivity|]. split; [intros _; tauto|]. split; [intros _; tauto|]. split; [reflexivity|]. cbn [applyBin]. rewrite fold_bin. rewrite (kindOf_some _ _ T) in I.
      destruct (doBinary lm o k x y); try discriminate. cbn [fmap bind] in *. exact I.
    + destruct F as (F1 & F2 & F3). destruct (full lm a) as [x|?|]; try discriminate. cbn [bind fmap] in *. destruct (full lm b) as [y|?|]; try discriminate. cbn [bind fmap] in *. exists (IConst x), (IConst y).
      assert (X : (x =? 0) = false) by (destruct (x =? 0) eqn:E; [apply Z.eqb_eq in E; congruence|reflexivity]). rewrite X in I.
      split; [reflexivity|]. split; [reflexivity|]. split; [intros _; tauto|]. split; [intros _; tauto|]. cbn [stops applyLogic]. rewrite X. split; [reflexivity|exact I].
    + destruct F as (F1 & F2 & F3). rewrite F3 in *. cbn [bind fmap] in *. destruct (full lm b) as [y|?|]; try discriminate. cbn [bind fmap] in *. exists (IConst 0), (IConst y).
      split; [reflexivity|]. split; [reflexivity|]. split; [intros _; tauto|]. split; [intros _; tauto|]. split; [reflexivity|exact I].
  - injection I as <-. exists (ICode (codeOf a)), (ICode (codeOf b)). split; [reflexivity|]. split; [reflexivity|]. split; [discriminate|]. split; [discriminate|].
    split; [destruct o; reflexivity|]. destruct o; cbn [node codeOf applyBin applyLogic]; rewrite ?(kindOf_some _ _ T); reflexivity.
Qed.

Lemma op_ends : forall l o r, goodLevel l -> opLevel o = Some l -> ends (rank (down l)) (TkOp o :: r).
Proof. intros l o r GL OL. cbn [ends continues]. rewrite OL. destruct GL as [->|[->|[->|[->| ->]]]]; cbn; lia. Qed.

(** One operator in a loop. *)
Lemma loop_op : forall cst l o k i1 k2 i2 c r r2 n, goodLevel l -> opLevel o = Some l -> stops o i1 = None -> parse lm cst n (down l) r = Ok (k2, i2, r2) -> sameKind k k2 && validOp o k = true ->
  match o with TArith o1 => applyBin lm o1 k i1 i2 | _ => applyLogic o i1 i2 end = Ok c ->
  loop lm cst (S n) l k i1 (TkOp o :: r) = match l with LRel => Ok (KBool, c, r2) | _ => loop lm cst n l k c r2 end.
Proof.
  intros cst l o k i1 k2 i2 c r r2 n GL OL ST PR SK AP. rewrite loop_S. rewrite OL. replace (level_eqb l l) with true by (destruct l; reflexivity). rewrite ST, PR. cbn [bind]. rewrite SK. cbn [negb]. rewrite AP. cbn [bind]. reflexivity.
Qed.

Lemma Q_node : forall cst l o t1 a t2 b, goodLevel l -> l <> LRel -> opLevel o = Some l -> Q cst l t1 a -> P cst (down l) t2 b -> Q cst l (t1 ++ TkOp o :: t2) (node o a b).
Proof.
  intros cst l o t1 a t2 b GL NR OL Q1 P2 k it rest T I F E. destruct (node_type_inv l o a b k OL T) as (k1 & Ta & Tb & V & K). assert (K' : k = k1) by (destruct l; congruence). subst k1.
  destruct (node_item cst o a b it k Ta I F) as (i1 & i2 & I1 & I2 & F1 & F2 & ST & AP).
  destruct (Q1 k i1 (TkOp o :: t2 ++ rest) Ta I1 F1 (op_ends l o _ GL OL)) as (j & n1 & X1). destruct (P2 k i2 rest Tb I2 F2 E) as (n2 & X2).
  exists (S j), (Nat.max n1 n2). intros n Hn. rewrite <- app_assoc. cbn [app]. replace (S j + n)%nat with (j + S n)%nat by lia. rewrite X1 by lia.
  rewrite (loop_op cst l o k i1 k i2 it (t2 ++ rest) rest n GL OL ST (X2 n ltac:(lia)) V AP). destruct l; try reflexivity; congruence.
Qed.
Lemma P_rel : forall cst o t1 a t2 b, opLevel o = Some LRel -> P cst LRelTerm t1 a -> P cst LRelTerm t2 b -> P cst LRel (t1 ++ TkOp o :: t2) (node o a b).
Proof.
  intros cst o t1 a t2 b OL P1 P2 k it rest T I F E. assert (GL : goodLevel LRel) by (unfold goodLevel; tauto). destruct (node_type_inv LRel o a b k OL T) as (k1 & Ta & Tb & V & K). subst k.
  destruct (node_item cst o a b it k1 Ta I F) as (i1 & i2 & I1 & I2 & F1 & F2 & ST & AP).
  destruct (P1 k1 i1 (TkOp o :: t2 ++ rest) Ta I1 F1 (op_ends LRel o _ GL OL)) as (n1 & X1). destruct (P2 k1 i2 rest Tb I2 F2 (ends_up LRel _ E)) as (n2 & X2).
  exists (S (S (Nat.max n1 n2))). intros n Hn. destruct n as [|[|n]]; try lia. rewrite <- app_assoc. cbn [app]. rewrite parse_S by exact GL. cbn [down]. rewrite X1 by lia. cbn [bind].
  rewrite (loop_op cst LRel o k1 i1 k1 i2 it (t2 ++ rest) rest n GL OL ST (X2 n ltac:(lia)) V AP). reflexivity.
Qed.

Definition Comp (cst : bool) (l : level) (t : list tok) (a : ast) : Prop :=
  P cst l t a /\ match l with LTerm | LRelTerm | LAnd | LOr => Q cst l t a | _ => True end.

Ltac gl := unfold goodLevel; tauto.
Lemma complete : forall cst l t a, G l t a -> Comp cst l t a.
Proof.
  intros cst l t a H. induction H as [v|k v|k x|o t a U H IH|t a H IH|t a H IH|t1 a o t2 b H1 IH1 U H2 IH2|t a H IH|t1 a o t2 b H1 IH1 U H2 IH2|t a H IH|t1 a o t2 b H1 IH1 U H2 IH2|t a H IH|t1 a t2 b H1 IH1 H2 IH2|t a H IH|t1 a t2 b H1 IH1 H2 IH2|t a H IH|t c t1 a t2 b H0 IH0 H1 IH1 H2 IH2].
  - split; [|exact Logic.I]. intros k it rest T I F E. exists 1%nat. intros [|n] Hn; [lia|]. rewrite parse_factor; cbn [app]. injection T as <-. unfold itemOf in I. cbn [full codeOf] in I. unfold lit. destruct cst; injection I as <-; reflexivity.
  - split; [|exact Logic.I]. intros k2 it rest T I F E. exists 1%nat. intros [|n] Hn; [lia|]. rewrite parse_factor; cbn [app]. injection T as <-. unfold itemOf in I. cbn [full codeOf] in I. unfold lit. destruct cst; injection I as <-; reflexivity.
  - split; [|exact Logic.I]. intros k2 it rest T I F E. exists 1%nat. intros [|n] Hn; [lia|]. rewrite parse_factor; cbn [app]. injection T as <-. unfold itemOf in I. destruct cst; [discriminate|]. injection I as <-. reflexivity.
  - split; [|exact Logic.I]. intros k it rest T I F E. cbn [typeOf] in T. destruct (typeOf a) as [k1|] eqn:Ta; [|discriminate].
    assert (V : validOp (TArith o) k1 = true /\ k = k1). { destruct k1; try discriminate; destruct o; try discriminate T; cbn [In] in U; injection T as <-; split; try reflexivity; exfalso; intuition discriminate. }
    destruct V as [V ->].
    assert (X : exists i1, itemOf cst a = Ok i1 /\ fine cst a /\ applyUn o k1 i1 = Ok it).
    { unfold itemOf, fine in *. destruct cst.
      - cbn [full noSkip] in *. destruct (full lm a) as [x|?|]; try discriminate. cbn [bind fmap] in *. exists (IConst x). split; [reflexivity|]. split; [exact F|]. cbn [applyUn]. rewrite fold_un. rewrite (kindOf_some _ _ Ta) in I. destruct (doUnary o k1 x); try discriminate. exact I.
      - injection I as <-. eexists. split; [reflexivity|]. split; [discriminate|]. cbn [applyUn codeOf]. rewrite (kindOf_some _ _ Ta). reflexivity. }
    destruct X as (i1 & I1 & F1 & AP). destruct IH as [IH _]. destruct (IH k1 i1 rest Ta I1 F1 E) as (n0 & X). exists (S n0). intros [|n] Hn; [lia|]. rewrite parse_factor; cbn [app].
    replace (isUnary o) with true by (cbn [In] in U; destruct o; try reflexivity; exfalso; intuition discriminate). rewrite X by lia. cbn [bind]. rewrite V, AP. reflexivity.
  - split; [|exact Logic.I]. intros k it rest T I F E. destruct IH as [IH _]. destruct (IH k it (TkRPar :: rest) T I F Logic.I) as (n0 & X). exists (S n0). intros [|n] Hn; [lia|]. rewrite parse_factor; cbn [app]. rewrite <- app_assoc. cbn [app]. rewrite X by lia. reflexivity.
  - assert (QQ : Q cst LTerm t a) by (apply P_Q; [gl|apply IH]). split; [apply Q_P; exact QQ|exact QQ].
  - assert (QQ : Q cst LTerm (t1 ++ TkOp (TArith o) :: t2) (ABin o a b)). { apply (Q_node cst LTerm (TArith o)); [gl|discriminate| |apply IH1|apply IH2]. cbn [In] in U. destruct o; try reflexivity; exfalso; intuition discriminate. }
    split; [apply Q_P; exact QQ|exact QQ].
  - assert (QQ : Q cst LRelTerm t a) by (apply P_Q; [gl|apply IH]). split; [apply Q_P; exact QQ|exact QQ].
  - assert (QQ : Q cst LRelTerm (t1 ++ TkOp (TArith o) :: t2) (ABin o a b)). { apply (Q_node cst LRelTerm (TArith o)); [gl|discriminate| |apply IH1|apply IH2]. cbn [In] in U. destruct o; try reflexivity; exfalso; intuition discriminate. }
    split; [apply Q_P; exact QQ|exact QQ].
  - split; [|exact Logic.I]. apply Q_P. apply P_Q; [gl|apply IH].
  - split; [|exact Logic.I]. apply (P_rel cst (TArith o)); [|apply IH1|apply IH2]. cbn [In] in U. destruct o; try reflexivity; exfalso; intuition discriminate.
  - assert (QQ : Q cst LAnd t a) by (apply P_Q; [gl|apply IH]). split; [apply Q_P; exact QQ|exact QQ].
  - assert (QQ : Q cst LAnd (t1 ++ TkOp TAndAnd :: t2) (AAnd a b)) by (apply (Q_node cst LAnd TAndAnd); [gl|discriminate|reflexivity|apply IH1|apply IH2]). split; [apply Q_P; exact QQ|exact QQ].
  - assert (QQ : Q cst LOr t a) by (apply P_Q; [gl|apply IH]). split; [apply Q_P; exact QQ|exact QQ].
  - assert (QQ : Q cst LOr (t1 ++ TkOp TOrOr :: t2) (AOr a b)) by (apply (Q_node cst LOr TOrOr); [gl|discriminate|reflexivity|apply IH1|apply IH2]). split; [apply Q_P; exact QQ|exact QQ].
  - split; [|exact Logic.I]. intros k it rest T I F E. destruct IH as [IH _]. destruct (IH k it rest T I F (ends_up LExpr _ E)) as (n0 & X). exists (S n0). intros [|n] Hn; [lia|]. rewrite parse_expr. rewrite X by lia. cbn [bind].
    destruct rest as [|[| | | | | | | |] r]; try reflexivity. cbn in E. lia.
  - split; [|exact Logic.I]. intros k it rest T I F E. cbn [typeOf] in T. destruct (typeOf c) as [kc|] eqn:Tc; [|discriminate]. destruct kc; try discriminate.
    assert (TT : typeOf a = Some k /\ typeOf b = Some k /\ sameKind k k = true). { destruct (typeOf a) as [ka|]; [|discriminate]. destruct ka; try discriminate; destruct (typeOf b) as [kb|]; try discriminate; destruct kb; try discriminate; injection T as <-; auto. }
    destruct TT as (Ta & Tb & SK).
    assert (X : exists i0 i1 i2, itemOf cst c = Ok i0 /\ itemOf cst a = Ok i1 /\ itemOf cst b = Ok i2 /\ fine cst c /\ fine cst a /\ fine cst b /\ applyCond i0 i1 i2 = Ok it).
    { unfold itemOf, fine in *. destruct cst.
      - cbn [full noSkip] in *. specialize (F eq_refl). destruct (full lm c) as [z|?|]; try discriminate. cbn [bind fmap] in *. destruct (full lm a) as [x|?|]; try discriminate. cbn [bind fmap] in *. destruct (full lm b) as [y|?|]; try discriminate. cbn [bind fmap] in *.
        exists (IConst z), (IConst x), (IConst y). do 3 (split; [reflexivity|]). do 3 (split; [intros _; tauto|]). exact I.
      - injection I as <-. do 3 eexists. do 3 (split; [reflexivity|]). do 3 (split; [discriminate|]). reflexivity. }
    destruct X as (i0 & i1 & i2 & I0 & I1 & I2 & F0 & F1 & F2 & AP). destruct IH0 as [IH0 _]. destruct IH1 as [IH1 _]. destruct IH2 as [IH2 _].
    destruct (IH0 KBool i0 (TkQuestion :: t1 ++ TkColon :: t2 ++ rest) Tc I0 F0 ltac:(cbn; lia)) as (n0 & X0). destruct (IH1 k i1 (TkColon :: t2 ++ rest) Ta I1 F1 Logic.I) as (n1 & X1). destruct (IH2 k i2 rest Tb I2 F2 E) as (n2 & X2).
    exists (S (n0 + n1 + n2)). intros [|n] Hn; [lia|]. rewrite parse_expr. rewrite <- app_assoc. cbn [app]. rewrite <- app_assoc. cbn [app]. rewrite X0 by lia. cbn [bind isKBool negb]. rewrite X1 by lia. cbn [bind]. rewrite X2 by lia. cbn [bind]. rewrite SK. cbn [negb]. rewrite AP. reflexivity.
Qed.

Lemma const_thm : forall t a k v rest, G LExpr t a -> typeOf a = Some k -> full lm a = Ok v -> noSkip lm a -> ends 6 rest ->
  exists n0, forall n, (n0 <= n)%nat -> parse lm true n LExpr (t ++ rest) = Ok (k, IConst v, rest) /\
    exists c, parse lm false n LExpr (t ++ rest) = Ok (k, ICode c, rest) /\ forall env, eval lm env c = Ok v.
Proof.
  intros t a k v rest Gr T Fv NS E. destruct (complete true _ _ _ Gr) as [P1 _]. destruct (complete false _ _ _ Gr) as [P2 _].
  destruct (P1 k (IConst v) rest T) as (n1 & X1); [unfold itemOf; rewrite Fv; reflexivity|intros _; exact NS|exact E|].
  destruct (P2 k (ICode (codeOf a)) rest T eq_refl ltac:(discriminate) E) as (n2 & X2). exists (Nat.max n1 n2). intros n Hn. split; [apply X1; lia|]. exists (codeOf a). split; [apply X2; lia|].
  intros env. rewrite eval_code. apply full_value. exact Fv.
Qed.
Lemma code_thm : forall ts k rest, 
  (forall n it, parse lm false n LExpr ts = Ok (k, it, rest) -> exists t a c, ts = t ++ rest /\ G LExpr t a /\ typeOf a = Some k /\ it = ICode c /\ forall env, eval lm env c = value lm env a) /\
  (forall t a, ts = t ++ rest -> G LExpr t a -> typeOf a = Some k -> ends 6 rest -> exists n0 c, forall n, (n0 <= n)%nat -> parse lm false n LExpr ts = Ok (k, ICode c, rest) /\ forall env, eval lm env c = value lm env a).
Proof.
  intros ts k rest. split.
  - intros n it H. destruct (proj1 (sound n) _ _ _ _ _ H) as (t & a & A & B & D & F). exists t, a, (codeOf a). split; [exact A|]. split; [exact B|]. split; [exact D|]. split; [exact F|]. intros env. apply eval_code.
  - intros t a A Gr T E. destruct (complete false _ _ _ Gr) as [P2 _]. destruct (P2 k (ICode (codeOf a)) rest T eq_refl ltac:(discriminate) E) as (n2 & X2). exists n2, (codeOf a). intros n Hn. subst ts. split; [apply X2; exact Hn|]. intros env. apply eval_code.
Qed.
End Proofs.
