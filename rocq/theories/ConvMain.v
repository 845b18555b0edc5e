(** Casts: which there are and what they give. *)
From Coq Require Import ZArith Lia Bool List.
From Verif Require Import Base NumModel NumSpec NumProofs ConvModel ConvSpec ConvExec ConvProofs ConvLoop.
Import ListNotations.
Local Open Scope Z_scope.

Lemma good_range_same k n : kindOrdinal k = true -> good [IRange k k] (TNum k) (TNum k) n n.
Proof.
  intros Hk. apply good_num; [|reflexivity]. intros z x R. rewrite convNum_same. exists z. split; [|exact R].
  destruct (ordinal_holds _ _ _ Hk R) as [H _]. destruct (assert_range_exact k k z Hk H) as [A _]. destruct (A (proj2 H)) as (A1 & _). intros. cbn [step stk]. now rewrite A1.
Qed.
Lemma good_ord d k n : kindOrdinal d = true -> kindOrdinal k = true -> good [IRange d k] (TNum d) (TNum k) n n.
Proof.
  intros Hd Hk. destruct (kindEqb d k) eqn:E; [apply kindEqb_true in E; subst; now apply good_range_same|now apply good_range_ord].
Qed.

Section Main.
Variable same : ty -> ty -> bool.
Hypothesis sameEq : forall a b, same a b = true -> a = b.
Hypothesis sameReal : forall k, kindReal k = true -> same (TNum k) (TNum k) = true.
Notation explicit := (explicit same).
Notation cast := (cast same).

Lemma implicit_ok d t n c n' : wfTy d -> implicit d t n = Some (c, n') -> good c d t n n' /\ (n <= n')%nat.
Proof.
  intros W E. destruct d as [d| |d|m d|i]; destruct t as [k| |t|m' t|j]; cbn [implicit] in E; try discriminate.
  - destruct ((kindEqb d KUInt && kindSigned k) || (kindSigned d && kindEqb k KUInt)) eqn:C.
    + injection E as <- <-. split; [|lia]. apply orb_true_iff in C.
      destruct C as [C|C]; apply andb_true_iff in C; destruct C as [C1 C2].
      * apply kindEqb_true in C1. subst d. apply good_ord; [reflexivity|]. destruct k; (discriminate || reflexivity).
      * apply kindEqb_true in C2. subst k. apply good_ord; [|reflexivity]. destruct d; (discriminate || reflexivity).
    + destruct (kindReal d && kindIntegerOrEnum k) eqn:C'; [|discriminate]. apply andb_true_iff in C'. destruct C' as [C1 C2]. injection E as <- <-. split; [|lia]. now apply good_real.
  - destruct k; try discriminate. injection E as <- <-. split; [apply good_char|lia].
  - destruct t as [k| | | |]; try discriminate. destruct k; try discriminate. injection E as <- <-. split; [apply good_chars; now left|lia].
  - destruct d as [[]| | | |]; discriminate E.
  - destruct d as [k| | | |]; try discriminate. destruct k; try discriminate. injection E as <- <-. split; [apply (good_bytes KChar); now left|lia].
  - destruct d as [[]| | | |]; discriminate E.
  - destruct (tyEqb d t) eqn:Q.
    + apply tyEqb_true in Q. subst t. assert (E' : Some ([IPushInt m'; IPushLocalPtr n; IMakeFromArr] ++ copyTemp (TDyn d) (n + 1), (n + 2)%nat) = Some (c, n')) by (destruct d as [[]| | | |]; exact E).
      injection E' as <- <-. split; [apply good_fromArr|lia].
    + destruct d as [[]| | | |]; discriminate E.
  - destruct d as [[]| | | |]; discriminate E.
  - destruct (tyEqb d t) eqn:Q; [|discriminate]. apply tyEqb_true in Q. subst t. injection E as <- <-. split; [now apply good_toArr|lia].
Qed.
Lemma explicit_eq d t n : explicit d t n =
  match implicit d t n with
  | Some (c, n) => Ok (c, d, n)
  | None =>
      if same d t then Ok ([], d, n)
      else
        match d, t with
        | TNum a, TNum k => if (kindOrdinal k && kindOrdinal a) || (kindReal k && kindReal a) then Ok ([IRange a k], d, n) else Ok ([], t, n)
        | TStr, TDyn (TNum KUInt8) => Ok (IMakeStr false :: copyTemp TStr n, d, (n + 1)%nat)
        | TDyn (TNum KUInt8), TStr => Ok ([IPushLocalPtr n; IMakeFromStr] ++ copyTemp d (n + 1), d, (n + 2)%nat)
        | TDyn a, TDyn b =>
            let* (c, n') := explicit a b (n + 3) in
            if negb (tyEqb a (snd c)) then Err EOther else Ok (loopCode (fst c) a b n, d, n')
        | _, _ => Ok ([], t, n)
        end
  end.
Proof. destruct d; reflexivity. Qed.
Theorem explicit_ok d : forall t n c u n', wfTy d -> wfTy t -> explicit d t n = Ok (c, u, n') -> tyEqb d u = true -> good c d t n n' /\ (n <= n')%nat.
Proof.
  induction d as [d| |d IH|m d IH|i]; intros t n c u n' Wd Wt E U; rewrite explicit_eq in E;
    (match type of E with match implicit ?a ?b ?m with _ => _ end = _ => destruct (implicit a b m) as [[c1 n1]|] eqn:I end;
     [injection E as <- <- <-; exact (implicit_ok _ _ _ _ _ Wd I)|]);
    (match type of E with (if same ?a ?b then _ else _) = _ => destruct (same a b) eqn:Sa end;
     [injection E as <- <- <-; apply sameEq in Sa; rewrite Sa; split; [apply good_nil|lia]|]).
  - destruct t as [k| |t|m' t|j]; try (injection E as <- <- <-; discriminate U).
    destruct ((kindOrdinal k && kindOrdinal d) || (kindReal k && kindReal d)) eqn:C.
    + injection E as <- <- <-. split; [|lia]. apply orb_true_iff in C. destruct C as [C|C]; apply andb_true_iff in C; destruct C as [C1 C2]; [now apply good_ord|].
      apply good_range_real; try assumption. destruct (kindEqb d k) eqn:Q; [|reflexivity]. apply kindEqb_true in Q. subst k. now rewrite sameReal in Sa.
    + injection E as <- <- <-. cbn in U. apply kindEqb_true in U. subst k. split; [apply good_nil|lia].
  - destruct t as [k| |t|m' t|j]; try (injection E as <- <- <-; discriminate U); try (injection E as <- <- <-; split; [apply good_nil|lia]).
    destruct t as [k| | | |]; try (injection E as <- <- <-; discriminate U). destruct k; try (injection E as <- <- <-; discriminate U).
    injection E as <- <- <-. split; [apply good_chars; now right|lia].
  - destruct t as [k| |t|m' t|j].
    + destruct d as [[]| | | |]; injection E as <- <- <-; discriminate U.
    + destruct d as [k| | | |]; try (injection E as <- <- <-; discriminate U). destruct k; try (injection E as <- <- <-; discriminate U).
      injection E as <- <- <-. split; [apply (good_bytes KUInt8); now right|lia].
    + assert (E' : (let* (c, n') := explicit d t (n + 3) in if negb (tyEqb d (snd c)) then Err EOther else Ok (loopCode (fst c) d t n, TDyn d, n')) = Ok (c, u, n'))
        by (destruct d as [[]| | | |]; exact E).
      destruct (explicit d t (n + 3)) as [[[c1 u1] n1]|e|] eqn:X; try discriminate. cbn [bind fst snd] in E'.
      destruct (tyEqb d u1) eqn:U1; try discriminate. cbn [negb] in E'. injection E' as <- <- <-. cbn [wfTy] in Wd, Wt.
      destruct (IH _ _ _ _ _ Wd Wt X U1) as [G L]. split; [|lia]. apply (good_loop _ _ _ _ _ G L).
    + destruct d as [[]| | | |]; injection E as <- <- <-; discriminate U.
    + destruct d as [[]| | | |]; injection E as <- <- <-; discriminate U.
  - destruct t as [k| |t|m' t|j]; injection E as <- <- <-; try discriminate U. apply tyEqb_true in U. rewrite U. split; [apply good_nil|lia].
  - destruct t as [k| |t|m' t|j]; injection E as <- <- <-; try discriminate U. apply tyEqb_true in U. rewrite U. split; [apply good_nil|lia].
Qed.
Theorem cast_ok d t n c n' : wfTy d -> wfTy t -> cast d t n = Ok (c, n') -> good c d t n n' /\ (n <= n')%nat.
Proof.
  intros Wd Wt E. unfold ConvModel.cast in E. destruct (explicit d t n) as [[[c1 u1] n1]|e|] eqn:X; try discriminate. cbn [bind fst snd] in E.
  destruct (tyEqb d u1) eqn:U; try discriminate. injection E as <- <-. exact (explicit_ok _ _ _ _ _ _ Wd Wt X U).
Qed.

(** Which casts are accepted. *)
Lemma implicit_castable d t n c n' : implicit d t n = Some (c, n') -> castable d t.
Proof.
  intros E. destruct d as [d| |d|m d|i]; destruct t as [k| |t|m' t|j]; cbn [implicit] in E; try discriminate.
  - apply C_num. destruct d; destruct k; try reflexivity; discriminate E.
  - destruct k; try discriminate. apply C_char.
  - destruct t as [[]| | | |]; try discriminate. apply C_chars. now left.
  - destruct d as [[]| | | |]; discriminate E.
  - destruct d as [[]| | | |]; try discriminate. apply C_str. now left.
  - destruct d as [[]| | | |]; discriminate E.
  - destruct (tyEqb d t) eqn:Q; [apply tyEqb_true in Q; subst t; apply C_fromArr|]. destruct d as [[]| | | |]; discriminate E.
  - destruct d as [[]| | | |]; discriminate E.
  - destruct (tyEqb d t) eqn:Q; [|discriminate]. apply tyEqb_true in Q. subst t. apply C_toArr.
Qed.
Lemma explicit_castable d : forall t n c u n', explicit d t n = Ok (c, u, n') -> tyEqb d u = true -> castable d t.
Proof.
  induction d as [d| |d IH|m d IH|i]; intros t n c u n' E U; rewrite explicit_eq in E;
    (match type of E with match implicit ?a ?b ?m with _ => _ end = _ => destruct (implicit a b m) as [[c1 n1]|] eqn:I end;
     [exact (implicit_castable _ _ _ _ _ I)|]);
    (match type of E with (if same ?a ?b then _ else _) = _ => destruct (same a b) eqn:Sa end;
     [apply sameEq in Sa; rewrite Sa; apply C_same|]).
  - destruct t as [k| |t|m' t|j]; try (injection E as <- <- <-; discriminate U).
    destruct ((kindOrdinal k && kindOrdinal d) || (kindReal k && kindReal d)) eqn:C.
    + apply C_num. unfold numConv. rewrite (andb_comm (kindOrdinal d)), (andb_comm (kindReal d) (kindReal k)), C. reflexivity.
    + injection E as <- <- <-. cbn in U. apply kindEqb_true in U. subst k. apply C_same.
  - destruct t as [k| |t|m' t|j]; try (injection E as <- <- <-; discriminate U); try apply C_same.
    destruct t as [[]| | | |]; try (injection E as <- <- <-; discriminate U). apply C_chars. now right.
  - destruct t as [k| |t|m' t|j].
    + destruct d as [[]| | | |]; injection E as <- <- <-; discriminate U.
    + destruct d as [[]| | | |]; try (injection E as <- <- <-; discriminate U). apply C_str. now right.
    + assert (E' : (let* (c, n') := explicit d t (n + 3) in if negb (tyEqb d (snd c)) then Err EOther else Ok (loopCode (fst c) d t n, TDyn d, n')) = Ok (c, u, n'))
        by (destruct d as [[]| | | |]; exact E).
      destruct (explicit d t (n + 3)) as [[[c1 u1] n1]|e|] eqn:X; try discriminate. cbn [bind fst snd] in E'.
      destruct (tyEqb d u1) eqn:U1; try discriminate. apply C_items. exact (IH _ _ _ _ _ X U1).
    + destruct d as [[]| | | |]; injection E as <- <- <-; discriminate U.
    + destruct d as [[]| | | |]; injection E as <- <- <-; discriminate U.
  - destruct t as [k| |t|m' t|j]; injection E as <- <- <-; try discriminate U. apply tyEqb_true in U. rewrite U. apply C_same.
  - destruct t as [k| |t|m' t|j]; injection E as <- <- <-; try discriminate U. apply tyEqb_true in U. rewrite U. apply C_same.
Qed.
(** Every conversion is Ok (some type) or an error, never undefined. *)
Lemma explicit_same t n : exists c n', explicit t t n = Ok (c, t, n').
Proof.
  revert n. induction t as [k| |t IH|m t IH|i]; intros n; rewrite explicit_eq;
    (match goal with |- context [implicit ?a ?b ?q] => destruct (implicit a b q) as [[c1 n1]|] eqn:I end; [eauto|]);
    (match goal with |- context [same ?a ?b] => destruct (same a b) end; [eauto|]); eauto.
  - destruct ((kindOrdinal k && kindOrdinal k) || (kindReal k && kindReal k)); eauto.
  - destruct (IH (n + 3)%nat) as (c & n' & E). exists (loopCode c t t n), n'.
    assert (E' : (let* (c, n') := explicit t t (n + 3) in if negb (tyEqb t (snd c)) then Err EOther else Ok (loopCode (fst c) t t n, TDyn t, n')) = Ok (loopCode c t t n, TDyn t, n'))
      by (rewrite E; cbn [bind fst snd]; now rewrite tyEqb_refl).
    destruct t as [[]| | | |]; exact E'.
Qed.
Lemma castable_explicit d t : castable d t -> forall n, exists c n', explicit d t n = Ok (c, d, n').
Proof.
  induction 1 as [t|d k N| |k K|k K|m t|m t|d t C IH]; intros n.
  - apply explicit_same.
  - rewrite explicit_eq. destruct (implicit (TNum d) (TNum k) n) as [[c1 n1]|] eqn:I; [eauto|]. destruct (same (TNum d) (TNum k)); [eauto|].
    destruct ((kindOrdinal k && kindOrdinal d) || (kindReal k && kindReal d)) eqn:Q; [eauto|]. exfalso.
    destruct d; destruct k; cbn in N, Q, I; discriminate.
  - rewrite explicit_eq. cbn [implicit]. eauto.
  - rewrite explicit_eq. destruct K as [-> | ->]; cbn [implicit]; [eauto|]. destruct (same _ _); eauto.
  - rewrite explicit_eq. destruct K as [-> | ->]; cbn [implicit]; [eauto|]. destruct (same _ _); eauto.
  - rewrite explicit_eq. cbn [implicit]. rewrite tyEqb_refl. eauto.
  - rewrite explicit_eq. assert (E : implicit (TDyn t) (TArr m t) n = Some ([IPushInt m; IPushLocalPtr n; IMakeFromArr] ++ copyTemp (TDyn t) (n + 1), (n + 2)%nat))
      by (cbn [implicit]; rewrite tyEqb_refl; destruct t as [[]| | | |]; reflexivity).
    rewrite E. eauto.
  - rewrite explicit_eq. destruct (implicit (TDyn d) (TDyn t) n) as [[c1 n1]|] eqn:I; [eauto|]. destruct (same (TDyn d) (TDyn t)); [eauto|].
    destruct (IH (n + 3)%nat) as (c & n' & E). exists (loopCode c d t n), n'.
    assert (E' : (let* (c, n') := explicit d t (n + 3) in if negb (tyEqb d (snd c)) then Err EOther else Ok (loopCode (fst c) d t n, TDyn d, n')) = Ok (loopCode c d t n, TDyn d, n'))
      by (rewrite E; cbn [bind fst snd]; now rewrite tyEqb_refl).
    destruct d as [[]| | | |]; exact E'.
Qed.
Lemma explicit_out d : forall t n, explicit d t n <> UB /\ forall e, explicit d t n = Err e -> e = EOther.
Proof.
  induction d as [d| |d IH|m d IH|i]; intros t n; rewrite explicit_eq;
    (match goal with |- context [implicit ?a ?b ?q] => destruct (implicit a b q) as [[c1 n1]|] end; [split; discriminate|]);
    (match goal with |- context [same ?a ?b] => destruct (same a b) end; [split; discriminate|]); destruct t as [k| |t|m' t|j]; try (split; discriminate).
  - destruct (_ || _); split; discriminate.
  - destruct t as [[]| | | |]; split; discriminate.
  - destruct d as [[]| | | |]; split; discriminate.
  - destruct d as [[]| | | |]; split; discriminate.
  - assert (G : forall r, r = (let* (c, n') := explicit d t (n + 3) in if negb (tyEqb d (snd c)) then Err EOther else Ok (loopCode (fst c) d t n, TDyn d, n')) -> r <> UB /\ forall e, r = Err e -> e = EOther).
    { intros r ->. destruct (IH t (n + 3)%nat) as [A B]. destruct (explicit d t (n + 3)) as [[[c1 u1] n1]|e|]; cbn [bind fst snd].
      - destruct (negb _); split; congruence.
      - split; [discriminate|]. intros e' Q. injection Q as <-. now apply B.
      - contradiction. }
    apply G. destruct d as [[]| | | |]; reflexivity.
  - destruct d as [[]| | | |]; split; discriminate.
  - destruct d as [[]| | | |]; split; discriminate.
Qed.
Theorem cast_castable d t n : (castable d t -> exists c n', cast d t n = Ok (c, n')) /\ (~ castable d t -> cast d t n = Err EOther).
Proof.
  unfold ConvModel.cast. split.
  - intros C. destruct (castable_explicit d t C n) as (c & n' & E). rewrite E. cbn [bind fst snd]. rewrite tyEqb_refl. eauto.
  - intros C. destruct (explicit_out d t n) as [A B]. destruct (explicit d t n) as [[[c1 u1] n1]|e|] eqn:X; cbn [bind fst snd].
    + destruct (tyEqb d u1) eqn:U; [|reflexivity]. destruct C. exact (explicit_castable _ _ _ _ _ _ X U).
    + now rewrite (B e eq_refl).
    + contradiction.
Qed.

(** An array cast to a type declared as its own shares its items; any other cast of an array to an array makes new ones. *)
Theorem cast_shares t n : same (TDyn t) (TDyn t) = true -> cast (TDyn t) (TDyn t) n = Ok ([], n).
Proof.
  intros Sa. unfold ConvModel.cast. rewrite explicit_eq.
  assert (I : implicit (TDyn t) (TDyn t) n = None) by (destruct t as [[]| | | |]; reflexivity). rewrite I, Sa. cbn [bind fst snd]. now rewrite tyEqb_refl.
Qed.
Theorem cast_copies d t n c n' : same (TDyn d) (TDyn t) = false -> wfTy d -> wfTy t -> cast (TDyn d) (TDyn t) n = Ok (c, n') ->
  forall s P v rest x y, stk s = v :: rest -> srep s n P (TDyn t) v x -> (forall b, P b -> (b < hnext s)%nat) -> conv (TDyn d) (TDyn t) x = Ok y ->
  exists s' v', runs c s (Ok s') /\ stk s' = v' :: rest /\ loadPtr s' v' = Ok (VHdr (Some (hnext s))).
Proof.
  intros Sa Wd Wt E s P v rest x y Stk Sr Lt Cv. unfold ConvModel.cast in E. rewrite explicit_eq in E.
  assert (I : implicit (TDyn d) (TDyn t) n = None) by (destruct d as [[]| | | |]; reflexivity). rewrite I, Sa in E.
  assert (E' : (let* (c, n0) := (let* (c, n') := explicit d t (n + 3) in if negb (tyEqb d (snd c)) then Err EOther else Ok (loopCode (fst c) d t n, TDyn d, n')) in
                if tyEqb (TDyn d) (snd c) then Ok (fst c, n0) else Err EOther) = Ok (c, n')) by (destruct d as [[]| | | |]; exact E).
  destruct (explicit d t (n + 3)) as [[[c1 u1] n1]|e|] eqn:X; try discriminate. cbn [bind fst snd] in E'.
  destruct (tyEqb d u1) eqn:U1; try discriminate. cbn [negb bind fst snd] in E'. rewrite tyEqb_refl in E'. injection E' as <- <-.
  destruct (explicit_ok _ _ _ _ _ _ Wd Wt X U1) as [G L]. pose proof (loop_full _ _ _ _ _ G L s P v rest x Stk Sr Lt) as F. rewrite Cv in F.
  destruct F as (s' & v' & A & B & _ & _ & D). now exists s', v'.
Qed.
End Main.

(** Round trips. *)
Lemma dnums_map s : dnums (map DNum s) = Some s.
Proof. induction s as [|z s IH]; [reflexivity|]. cbn [map dnums]. now rewrite IH. Qed.
Lemma cut_none s : ~ In 0 s -> beforeZero s = s.
Proof. induction s as [|z s IH]; intros H; [reflexivity|]. cbn [beforeZero]. destruct z; [destruct H; now left| |]; (f_equal; apply IH; intros I; apply H; now right). Qed.
Theorem str_round k s : ~ In 0 s -> exists y, conv (TDyn (TNum k)) TStr (DStr s) = Ok y /\ conv TStr (TDyn (TNum k)) y = Ok (DStr s).
Proof. intros H. eexists. split; [reflexivity|]. cbn [conv]. now rewrite dnums_map, cut_none. Qed.
Theorem num_round d k x y : kindOrdinal d = true -> kindOrdinal k = true -> in_range k x -> convNum d k x = Ok y -> y = x /\ convNum k d y = Ok x.
Proof.
  intros Hd Hk I. unfold convNum. destruct (kindEqb d k) eqn:E.
  - apply kindEqb_true in E. subst d. rewrite kindEqb_refl. intros Q. injection Q as <-. auto.
  - rewrite Hd. destruct (inRange d x); [|discriminate]. intros Q. injection Q as <-. split; [reflexivity|].
    destruct (kindEqb k d); [reflexivity|]. rewrite Hk. apply inRange_iff in I. now rewrite I.
Qed.
Lemma convAll_ok f l ys : convAll f l = Ok ys <-> Forall2 (fun x y => f x = Ok y) l ys.
Proof.
  revert ys. induction l as [|x l IH]; intros ys; cbn [convAll]; split; intros H.
  - injection H as <-. constructor.
  - now inversion H.
  - destruct (convAll f l) as [m|e|]; try discriminate. cbn [bind] in H. destruct (f x) as [y|e|] eqn:F; try discriminate. injection H as <-. constructor; [exact F|now apply IH].
  - inversion H as [|a b l1 l2 H1 H2]; subst. apply IH in H2. rewrite H2. cbn [bind]. rewrite H1. reflexivity.
Qed.
