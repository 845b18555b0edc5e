(** Proofs about the textual representation. *)
From Coq Require Import ZArith Lia Bool ZifyBool List.
From Verif Require Import Base ReprModel ReprSpec.
Import ListNotations.
Local Open Scope Z_scope.

Notation len t := (Z.of_nat (length t)).

(** [b'] is [b] with [t] at [o], and perhaps a zero after it. *)
Definition agrees (b b' : list Z) (o : nat) (t : list Z) : Prop :=
  length b' = length b /\ (forall i, (i < o \/ o + length t < i)%nat -> nth i b' 0 = nth i b 0) /\
  (forall i, (i < length t)%nat -> nth (o + i) b' 0 = nth i t 0) /\
  (nth (o + length t) b' 0 = 0 \/ nth (o + length t) b' 0 = nth (o + length t) b 0).

Definition writes (t : list Z) (f : printer) : Prop :=
  (forall off, f 0 off None = if INT_MAX <? len t then UB else Ok (len t, None)) /\
  (forall N o b, (o + length t <= N)%nat -> (N + 1 <= length b)%nat -> Z.of_nat N < INT_MAX ->
     exists b', f (Z.of_nat N + 1) (Z.of_nat o) (Some b) = Ok (len t, Some b') /\ agrees b b' o t).
Definition R (o : outcome (list Z)) (f : printer) : Prop :=
  match o with
  | Ok t => writes t f
  | Err e => forall off, f 0 off None = Err e \/ f 0 off None = UB
  | UB => True
  end.

Lemma nothing_R : R (Ok []) nothing.
Proof.
  split; [intros; reflexivity|]. intros N o b _ _ _. exists b. split; [reflexivity|]. split; [reflexivity|]. split; [auto|]. split; [cbn [length]; lia|]. right. reflexivity.
Qed.

Lemma nth_write : forall (b t : list Z) o i, (o + length t <= length b)%nat ->
  nth i (firstn o b ++ t ++ skipn (o + length t) b) 0 = if (i <? o)%nat then nth i b 0 else if (i <? o + length t)%nat then nth (i - o) t 0 else nth i b 0.
Proof.
  intros b t o i H. assert (L : length (firstn o b) = o) by (rewrite firstn_length; lia).
  destruct (i <? o)%nat eqn:A.
  - rewrite app_nth1 by lia. rewrite <- (firstn_skipn o b) at 2. rewrite app_nth1 by lia. reflexivity.
  - rewrite app_nth2 by lia. rewrite L. destruct (i <? o + length t)%nat eqn:B.
    + rewrite app_nth1 by lia. reflexivity.
    + rewrite app_nth2 by lia. rewrite <- (firstn_skipn (o + length t) b) at 2. rewrite app_nth2; rewrite firstn_length; [|lia]. f_equal. lia.
Qed.

Lemma sn_R : forall t, R (Ok t) (sn t).
Proof.
  intros t. split; [intros off; reflexivity|]. intros N o b H1 H2 H3. unfold sn.
  replace (INT_MAX <? len t) with false by lia. replace (Z.of_nat N + 1 <=? 0) with false by lia.
  rewrite firstn_all2 by lia. replace ((Z.of_nat o <? 0) || (len b <? Z.of_nat o + len (t ++ [0]))) with false by (rewrite app_length; cbn [length]; lia).
  eexists. split; [reflexivity|]. rewrite Nat2Z.id.
  assert (L : length (t ++ [0]) = (length t + 1)%nat) by (rewrite app_length; reflexivity).
  split; [|split; [|split]].
  - rewrite !app_length, firstn_length, skipn_length. cbn [length]. lia.
  - intros i Hi. rewrite nth_write by lia. rewrite L. destruct (i <? o)%nat eqn:A; [reflexivity|]. replace (i <? o + (length t + 1))%nat with false by lia. reflexivity.
  - intros i Hi. rewrite nth_write by lia. rewrite L. replace (o + i <? o)%nat with false by lia. replace (o + i <? o + (length t + 1))%nat with true by lia.
    replace (o + i - o)%nat with i by lia. apply app_nth1. lia.
  - left. rewrite nth_write by lia. rewrite L. replace (o + length t <? o)%nat with false by lia. replace (o + length t <? o + (length t + 1))%nat with true by lia.
    replace (o + length t - o)%nat with (length t) by lia. rewrite app_nth2, Nat.sub_diag by lia. reflexivity.
Qed.

Lemma agrees_app : forall b b1 b2 o t1 t2, agrees b b1 o t1 -> agrees b1 b2 (o + length t1) t2 -> (o + length t1 + length t2 < length b)%nat -> agrees b b2 o (t1 ++ t2).
Proof.
  intros b b1 b2 o t1 t2 (L1 & O1 & I1 & E1) (L2 & O2 & I2 & E2) LB. unfold agrees. rewrite app_length. split; [congruence|]. split; [|split].
  - intros i Hi. rewrite O2 by lia. apply O1. lia.
  - intros i Hi. destruct (Nat.lt_ge_cases i (length t1)) as [A|A].
    + rewrite app_nth1 by lia. rewrite O2 by lia. apply I1. exact A.
    + rewrite app_nth2 by lia. rewrite <- I2 by lia. f_equal. lia.
  - rewrite Nat.add_assoc. destruct E2 as [E2|E2]; [left; exact E2|]. rewrite E2. destruct t2 as [|x t2].
    + cbn [length]. rewrite Nat.add_0_r. exact E1.
    + right. apply O1. cbn [length]. lia.
Qed.

Lemma andThen_R : forall o1 o2 f g, R o1 f -> R o2 g -> R (cat o1 o2) (andThen f g).
Proof.
  intros o1 o2 f g H1 H2. unfold cat. destruct o1 as [t1|e1|]; cbn [bind R] in *; [| |exact Logic.I].
  - destruct H1 as (P1 & W1). destruct o2 as [t2|e2|]; cbn [bind R] in *; [| |exact Logic.I].
    + destruct H2 as (P2 & W2). split.
      * intros off. unfold andThen. rewrite P1. rewrite app_length, Nat2Z.inj_add. destruct (INT_MAX <? len t1) eqn:A; cbn [bind fst snd]; [replace (INT_MAX <? len t1 + len t2) with true by lia; reflexivity|].
        rewrite P2. destruct (INT_MAX <? len t2) eqn:B; cbn [bind fst snd]; [replace (INT_MAX <? len t1 + len t2) with true by lia; reflexivity|]. reflexivity.
      * intros N o b B1 B2 B3. rewrite app_length in B1. destruct (W1 N o b ltac:(lia) B2 B3) as (b1 & E1 & A1). unfold andThen. rewrite E1. cbn [bind fst snd].
        rewrite <- Nat2Z.inj_add. destruct (W2 N (o + length t1)%nat b1 ltac:(lia) ltac:(destruct A1 as (L & _); lia) B3) as (b2 & E2 & A2). rewrite E2. cbn [bind fst snd].
        replace (INT_MAX <? len t1 + len t2) with false by lia. exists b2. rewrite app_length, Nat2Z.inj_add. split; [reflexivity|]. apply (agrees_app b b1); try assumption. lia.
    + intros off. unfold andThen. rewrite P1. destruct (INT_MAX <? len t1); cbn [bind fst snd]; [right; reflexivity|]. destruct (H2 (off + len t1)) as [E|E]; rewrite E; cbn [bind]; auto.
  - intros off. unfold andThen. destruct (H1 off) as [E|E]; rewrite E; cbn [bind]; auto.
Qed.

Lemma cat_assoc : forall a b c, cat (cat a b) c = cat a (cat b c).
Proof. intros a b c. unfold cat. destruct a as [x|?|]; cbn [bind]; try reflexivity. destruct b as [y|?|]; cbn [bind]; try reflexivity. destruct c as [z|?|]; cbn [bind]; try reflexivity. rewrite app_assoc. reflexivity. Qed.
Lemma cat_ok : forall a b, cat (Ok a) (Ok b) = Ok (a ++ b). Proof. reflexivity. Qed.
Lemma cat_nil : forall a, cat (Ok []) a = a. Proof. intros [x|?|]; reflexivity. Qed.
Lemma cat_nil_r : forall a, cat a (Ok []) = a. Proof. intros [x|?|]; cbn [cat bind]; unfold cat; cbn [bind]; rewrite ?app_nil_r; reflexivity. Qed.

Lemma open_R : forall c depth (pretty : bool), R (Ok (if pretty then c :: margin (S depth) else [c])) (openInd c depth pretty).
Proof.
  intros c depth pretty. unfold openInd. destruct pretty.
  - change (c :: margin (S depth)) with ([c] ++ margin (S depth)). rewrite <- cat_ok. apply andThen_R; [apply sn_R|]. unfold margin, newLine, spaces. replace (4 * (depth + 1))%nat with (4 * S depth)%nat by lia. apply sn_R.
  - change [c] with ([c] ++ []) at 1. rewrite <- cat_ok. apply andThen_R; [apply sn_R|apply nothing_R].
Qed.
Lemma close_R : forall c depth (pretty : bool), R (Ok (if pretty then margin depth ++ [c] else [c])) (closeInd c depth pretty).
Proof.
  intros c depth pretty. unfold closeInd. destruct pretty.
  - rewrite <- cat_ok. apply andThen_R; [|apply sn_R]. destruct depth as [|d]; [apply sn_R|]. replace (0 <? S d)%nat with true by lia. apply sn_R.
  - change [c] with ([] ++ [c]) at 1. rewrite <- cat_ok. apply andThen_R; [apply nothing_R|apply sn_R].
Qed.
Lemma sep_R : forall depth pretty, R (Ok (between depth pretty)) (sepInd depth pretty).
Proof. intros depth pretty. unfold between, sepInd. destruct pretty; [|apply sn_R]. unfold margin, newLine, spaces. replace (4 * (depth + 1))%nat with (4 * S depth)%nat by lia. apply sn_R. Qed.

Lemma loop_R : forall (A : Type) (one : A -> printer) (tx : A -> outcome (list Z)) sep f l, R (Ok sep) f -> (forall x, R (tx x) (one x)) -> R (separated sep (map tx l)) (loop A one f l).
Proof.
  intros A one tx sep f l HS HO. induction l as [|x r IH]; [apply nothing_R|]. destruct r as [|y r]; [apply HO|].
  change (R (cat (tx x) (cat (Ok sep) (separated sep (map tx (y :: r))))) (andThen (andThen (one x) f) (loop A one f (y :: r)))). rewrite <- cat_assoc. apply andThen_R; [|exact IH]. apply andThen_R; [apply HO|exact HS].
Qed.

Lemma bracket_R : forall o c depth pretty inner f, R inner f -> R (bracketed o c depth pretty inner) (andThen (andThen (openInd o depth pretty) f) (closeInd c depth pretty)).
Proof.
  intros o c depth pretty inner f H.
  assert (E : bracketed o c depth pretty inner = cat (cat (Ok (if pretty then o :: margin (S depth) else [o])) inner) (Ok (if pretty then margin depth ++ [c] else [c]))).
  { unfold bracketed. destruct pretty; rewrite cat_assoc; reflexivity. }
  rewrite E. apply andThen_R; [|apply close_R]. apply andThen_R; [apply open_R|exact H].
Qed.

Lemma R_ext : forall o f g, (forall m off b, f m off b = g m off b) -> R o f -> R o g.
Proof.
  intros o f g E H. destruct o as [t|e|]; cbn [R] in *; [|intros off; rewrite <- E; apply H|exact H]. destruct H as (P & W). split; [intros off; rewrite <- E; apply P|].
  intros N o b H1 H2 H3. rewrite <- E. apply W; assumption.
Qed.

Section Main.
Variable C : lib.
Variable look : ref -> outcome node.

Lemma andThen_assoc_R : forall o f g h, R o (andThen f (andThen g h)) -> R o (andThen f (andThen g h)). Proof. auto. Qed.

Lemma fill_R : forall pretty deref todo r, R (text C look pretty deref todo r) (fill C look pretty deref todo r).
Proof.
  intros pretty deref. induction todo as [|todo IH]; intros r; [apply sn_R|].
  set (depth := (MAX_DEPTH - S todo)%nat). cbn [text fill]. fold depth. destruct (look r) as [n|e|]; cbn [bind]; [|intros off; left; reflexivity|exact Logic.I].
  destruct n; try apply sn_R.
  - destruct t as [r1|]; [|apply (R_ext _ (andThen (sn (tPtr C p)) nothing)); [reflexivity|rewrite <- (cat_nil_r (Ok (tPtr C p))); apply andThen_R; [apply sn_R|apply nothing_R]]].
    destruct deref; [|apply (R_ext _ (andThen (sn (tPtr C p)) nothing)); [reflexivity|rewrite <- (cat_nil_r (Ok (tPtr C p))); apply andThen_R; [apply sn_R|apply nothing_R]]].
    apply (R_ext _ (andThen (sn (tPtr C p)) (andThen (andThen (andThen (sn [32; 45; 62; 32]) (openInd 40 depth pretty)) (fill C look pretty true todo r1)) (closeInd 41 depth pretty)))); [reflexivity|].
    assert (E : cat (Ok (tPtr C p ++ [32; 45; 62; 32])) (bracketed 40 41 depth pretty (text C look pretty true todo r1)) =
      cat (Ok (tPtr C p)) (cat (cat (cat (Ok [32; 45; 62; 32]) (Ok (if pretty then 40 :: margin (S depth) else [40]))) (text C look pretty true todo r1)) (Ok (if pretty then margin depth ++ [41] else [41])))).
    { rewrite <- cat_ok. unfold bracketed. destruct pretty; rewrite !cat_assoc; reflexivity. }
    rewrite E. apply andThen_R; [apply sn_R|]. apply andThen_R; [|apply close_R]. apply andThen_R; [|apply IH]. apply andThen_R; [apply sn_R|apply open_R].
  - apply bracket_R. apply loop_R; [apply sep_R|exact IH].
  - destruct items as [l|]; apply bracket_R; [|apply nothing_R]. apply loop_R; [apply sep_R|exact IH].
  - destruct entries as [l|]; apply bracket_R; [|apply nothing_R]. apply loop_R; [apply sep_R|]. intros [k i]. cbn [fst snd]. rewrite <- cat_assoc. apply andThen_R; [|apply IH]. apply andThen_R; [apply IH|apply sn_R].
  - apply bracket_R. apply loop_R; [apply sep_R|]. intros [name i]. cbn [fst snd]. destruct skip; [apply IH|]. apply andThen_R; [apply sn_R|apply IH].
  - destruct self as [[name r1]|]; [|apply sn_R]. destruct pretty; [|apply IH].
    assert (E : cat (Ok name) (bracketed 40 41 depth true (text C look true deref todo r1)) = cat (cat (cat (Ok name) (Ok (40 :: margin (S depth)))) (text C look true deref todo r1)) (Ok (margin depth ++ [41]))).
    { unfold bracketed. rewrite !cat_assoc. reflexivity. }
    rewrite E. apply (R_ext _ (andThen (andThen (andThen (sn name) (openInd 40 depth true)) (fill C look true deref todo r1)) (closeInd 41 depth true))); [reflexivity|].
    apply andThen_R; [|exact (close_R 41 depth true)]. apply andThen_R; [|apply IH]. apply andThen_R; [apply sn_R|exact (open_R 40 depth true)].
  - apply nothing_R.
Qed.

(** The prediction. *)
Lemma predict_thm : forall pretty deref r,
  match text C look pretty deref MAX_DEPTH r with
  | Ok t => fill C look pretty deref MAX_DEPTH r 0 0 None = if INT_MAX <? len t then UB else Ok (len t, None)
  | Err e => fill C look pretty deref MAX_DEPTH r 0 0 None = Err e \/ fill C look pretty deref MAX_DEPTH r 0 0 None = UB
  | UB => True
  end.
Proof.
  intros pretty deref r. pose proof (fill_R pretty deref MAX_DEPTH r) as H. destruct (text C look pretty deref MAX_DEPTH r) as [t|e|]; cbn [R] in H; [exact (proj1 H 0)|apply H|exact Logic.I].
Qed.

Lemma list_split : forall (l t : list Z) n z, length t = n -> (n < length l)%nat -> (forall i, (i < n)%nat -> nth i l 0 = nth i t 0) -> nth n l 0 = z -> l = t ++ z :: skipn (S n) l.
Proof.
  intros l t n z L H I E. rewrite <- (firstn_skipn n l) at 1. f_equal.
  - apply (nth_ext _ _ 0 0); [rewrite firstn_length; lia|]. intros i Hi. rewrite firstn_length in Hi. rewrite <- I by lia. rewrite <- (firstn_skipn n l) at 2. rewrite app_nth1 by (rewrite firstn_length; lia). reflexivity.
  - subst z. clear -H. revert l H. induction n as [|n IH]; intros [|x l] H; cbn [length] in *; try lia; [reflexivity|]. change (skipn (S n) (x :: l)) with (skipn n l). cbn [nth]. rewrite (IH l) by lia. reflexivity.
Qed.

Lemma repr_thm : forall pretty deref r junk t, text C look pretty deref MAX_DEPTH r = Ok t -> len t < INT_MAX ->
  exists rest, doRepr C look pretty deref r junk = Ok (len t, t ++ 0 :: rest).
Proof.
  intros pretty deref r junk t T LT. pose proof (fill_R pretty deref MAX_DEPTH r) as H. rewrite T in H. destruct H as (P & W). unfold doRepr. rewrite P. replace (INT_MAX <? len t) with false by lia. cbn [bind fst snd].
  replace (INT_MAX <? len t + 1) with false by lia. set (size := if 256 <? len t + 1 then len t + 1 else 256). assert (S1 : len t + 1 <= size) by (unfold size; destruct (256 <? len t + 1) eqn:E; lia).
  set (b0 := firstn (Z.to_nat size) (junk ++ repeat 0 (Z.to_nat size))).
  assert (L0 : length b0 = Z.to_nat size) by (unfold b0; rewrite firstn_length, app_length, repeat_length; lia).
  rewrite Nat2Z.id. set (b := firstn (length t) b0 ++ 0 :: skipn (length t + 1) b0).
  assert (LB : length b = Z.to_nat size) by (unfold b; rewrite app_length; cbn [length]; rewrite firstn_length, skipn_length; lia).
  assert (Z0 : nth (length t) b 0 = 0). { unfold b. rewrite app_nth2; rewrite firstn_length; [|lia]. replace (length t - Nat.min (length t) (length b0))%nat with 0%nat by lia. reflexivity. }
  destruct (W (length t) 0%nat b ltac:(lia) ltac:(lia) LT) as (b' & E & A). cbn [Z.of_nat] in E. rewrite E. cbn [bind snd]. exists (skipn (S (length t)) b'). f_equal. f_equal.
  destruct A as (A1 & A2 & A3 & A4). apply list_split; [reflexivity|lia|exact A3|]. cbn [Nat.add] in A4. destruct A4 as [A4|A4]; [exact A4|congruence].
Qed.
End Main.

(** Texts without zeros *)
Lemma clean_cat : forall a b t, cat a b = Ok t -> (forall x, a = Ok x -> clean x) -> (forall x, b = Ok x -> clean x) -> clean t.
Proof.
  intros a b t E A B. unfold cat in E. destruct a as [x|?|]; try discriminate. destruct b as [y|?|]; try discriminate. injection E as <-. apply Forall_app. split; [apply A|apply B]; reflexivity.
Qed.
Lemma clean_ok : forall t, clean t -> forall x, Ok t = Ok x -> clean x. Proof. intros t H x E. injection E as <-. exact H. Qed.
Lemma clean_repeat : forall n, clean (repeat 32 n). Proof. induction n; cbn; constructor; [discriminate|assumption]. Qed.
Lemma clean_margin : forall d, clean (margin d). Proof. intros. constructor; [discriminate|apply clean_repeat]. Qed.
Lemma clean_between : forall d p, clean (between d p). Proof. intros d []; [apply clean_margin|repeat constructor; discriminate]. Qed.
Lemma clean_separated : forall sep l, clean sep -> (forall o t, In o l -> o = Ok t -> clean t) -> forall t, separated sep l = Ok t -> clean t.
Proof.
  intros sep l S. induction l as [|x [|y r] IH]; intros H t E.
  - injection E as <-. constructor.
  - apply (H x); [left; reflexivity|exact E].
  - change (cat x (cat (Ok sep) (separated sep (y :: r))) = Ok t) in E. apply (clean_cat _ _ _ E); [intros u U; apply (H x); [left; reflexivity|exact U]|]. intros u U. apply (clean_cat _ _ _ U); [apply clean_ok; exact S|]. intros w W. apply IH; [|exact W]. intros o s I. apply H. right. exact I.
Qed.
Lemma clean_bracketed : forall o c d p inner t, o <> 0 -> c <> 0 -> bracketed o c d p inner = Ok t -> (forall x, inner = Ok x -> clean x) -> clean t.
Proof.
  intros o c d p inner t O Cc E H. unfold bracketed in E. destruct p.
  - apply (clean_cat _ _ _ E); [apply clean_ok; constructor; [exact O|apply clean_margin]|]. intros x X. apply (clean_cat _ _ _ X); [exact H|]. apply clean_ok. apply Forall_app. split; [apply clean_margin|repeat constructor; exact Cc].
  - apply (clean_cat _ _ _ E); [apply clean_ok; repeat constructor; exact O|]. intros x X. apply (clean_cat _ _ _ X); [exact H|]. apply clean_ok. repeat constructor. exact Cc.
Qed.
Lemma clean_text : forall C look pretty deref, libOk C -> (forall r n, look r = Ok n -> nodeOk n) -> forall todo r t, text C look pretty deref todo r = Ok t -> clean t.
Proof.
  intros C look pretty deref CO NO. induction todo as [|todo IH]; intros r t E; cbn [text] in E.
  { injection E as <-. repeat constructor; discriminate. }
  destruct (look r) as [n|?|] eqn:LK; try discriminate. cbn [bind] in E. specialize (NO r n LK). set (depth := (MAX_DEPTH - S todo)%nat) in *.
  assert (GO : forall l o x, In o (map (text C look pretty deref todo) l) -> o = Ok x -> clean x). { intros l o x I X. apply in_map_iff in I. destruct I as (a & A & _). rewrite <- A in X. exact (IH a x X). }
  destruct n; cbn [nodeOk] in NO.
  - injection E as <-. repeat constructor; discriminate.
  - injection E as <-. apply CO.
  - injection E as <-. apply CO.
  - injection E as <-. destruct (v =? 0); repeat constructor; discriminate.
  - injection E as <-. destruct (32 <=? v mod 256) eqn:V; [|apply CO]. repeat constructor; lia.
  - injection E as <-. apply CO.
  - destruct t0 as [r1|]; [|injection E as <-; apply CO]. destruct deref; [|injection E as <-; apply CO]. apply (clean_cat _ _ _ E).
    + apply clean_ok. apply Forall_app. split; [apply CO|repeat constructor; discriminate].
    + intros x X. (refine (clean_bracketed _ _ _ _ _ _ _ _ X _); [discriminate|discriminate|]). apply IH.
  - injection E as <-. apply CO.
  - injection E as <-. constructor; [discriminate|]. apply Forall_app. split; [exact NO|repeat constructor; discriminate].
  - (refine (clean_bracketed _ _ _ _ _ _ _ _ E _); [discriminate|discriminate|]). apply clean_separated; [apply clean_between|apply GO].
  - destruct items as [l|]; (refine (clean_bracketed _ _ _ _ _ _ _ _ E _); [discriminate|discriminate|]); [|apply clean_ok; constructor]. apply clean_separated; [apply clean_between|apply GO].
  - destruct entries as [l|]; (refine (clean_bracketed _ _ _ _ _ _ _ _ E _); [discriminate|discriminate|]); [|apply clean_ok; constructor]. apply clean_separated; [apply clean_between|].
    intros o x I X. apply in_map_iff in I. destruct I as (a & A & _). rewrite <- A in X. apply (clean_cat _ _ _ X); [apply IH|]. intros y Y. apply (clean_cat _ _ _ Y); [|apply IH]. apply clean_ok. repeat constructor; discriminate.
  - (refine (clean_bracketed _ _ _ _ _ _ _ _ E _); [discriminate|discriminate|]). apply clean_separated; [apply clean_between|].
    intros o x I X. apply in_map_iff in I. destruct I as (a & A & I). rewrite <- A in X. destruct skip; [exact (IH _ _ X)|]. apply (clean_cat _ _ _ X); [|apply IH]. apply clean_ok. apply Forall_app.
    split; [exact (proj1 (Forall_forall _ _) NO a I)|repeat constructor; discriminate].
  - destruct self as [[name r1]|]; [|injection E as <-; repeat constructor; discriminate]. destruct pretty; [|exact (IH _ _ E)]. apply (clean_cat _ _ _ E); [apply clean_ok; exact NO|].
    intros x X. (refine (clean_bracketed _ _ _ _ _ _ _ _ X _); [discriminate|discriminate|]). apply IH.
  - injection E as <-. apply (proj2 (Forall_app (fun c => c <> 0) tFiber (tPtr C p))). split; [repeat constructor; discriminate|apply CO].
  - injection E as <-. apply (proj2 (Forall_app (fun c => c <> 0) tFn (tInt C v))). split; [repeat constructor; discriminate|apply CO].
  - injection E as <-. constructor.
Qed.
Lemma cstring_clean : forall t r, clean t -> cstring (t ++ 0 :: r) = t.
Proof. induction t as [|c t IH]; intros r H; [reflexivity|]. inversion H as [|a b H1 H2]; subst. cbn [app cstring]. replace (c =? 0) with false by lia. rewrite IH by exact H2. reflexivity. Qed.

(** ** sprintf *)
Definition strOk (s : rstr) (t : list Z) : Prop := rlen s = len t /\ exists rest, rbuf s = t ++ 0 :: rest.
Lemma alloc_ok : forall n junk, 0 <= n -> n + 1 <= INT_MAX - 1024 -> exists s, allocStr n junk = Ok s /\ rlen s = n /\ n + 1 <= rcap s.
Proof.
  intros n junk H1 H2. unfold allocStr. unfold INT_MAX, two31 in *.
  set (cap := if (if 2147483648 - 1 - 1024 <? 2 * (n + 1) then 2147483648 - 1 - 1024 else 2 * (n + 1)) <? n then n else if 2147483648 - 1 - 1024 <? 2 * (n + 1) then 2147483648 - 1 - 1024 else 2 * (n + 1)).
  assert (K : n + 1 <= cap).
  { unfold cap. destruct (2147483648 - 1 - 1024 <? 2 * (n + 1)) eqn:E1; [destruct (2147483648 - 1 - 1024 <? n) eqn:E2; lia|destruct (2 * (n + 1) <? n) eqn:E2; lia]. }
  clearbody cap. replace ((n <? 0) || (cap <=? n)) with false by lia. eexists. split; [reflexivity|]. split; [reflexivity|]. unfold rcap. cbn [rbuf]. rewrite app_length. cbn [length]. rewrite skipn_length, !firstn_length, app_length, repeat_length. lia.
Qed.

Lemma step_ok : forall s t u junk, strOk s t -> len t + len u + 1 <= INT_MAX - 1024 -> exists s', sprintfStep s (len t) u junk = Ok (s', len (t ++ u)) /\ strOk s' (t ++ u).
Proof.
  intros s t u junk (SL & rest & SB) H. unfold sprintfStep. unfold sn at 1. replace (INT_MAX <? len u) with false by lia. cbn [Z.leb Z.compare bind fst].
  replace (INT_MAX <? len t + len u + 1) with false by lia.
  assert (X : exists s1, (if len t + len u + 1 <=? rcap s then Ok {| rlen := len t + len u; rbuf := rbuf s |}
    else let* n := allocStr (len t + len u) junk in if (rcap s <? len t) || (rcap n <=? len t) then UB
      else Ok {| rlen := rlen n; rbuf := firstn (Z.to_nat (len t)) (rbuf s) ++ 0 :: skipn (Z.to_nat (len t) + 1) (rbuf n) |}) = Ok s1 /\
    rlen s1 = len t + len u /\ firstn (length t) (rbuf s1) = t /\ (length t + length u + 1 <= length (rbuf s1))%nat).
  { destruct (len t + len u + 1 <=? rcap s) eqn:CP.
    - eexists. split; [reflexivity|]. cbn [rlen rbuf]. split; [reflexivity|]. split; [rewrite SB, firstn_app, Nat.sub_diag, firstn_all, firstn_O, app_nil_r; reflexivity|]. unfold rcap in CP. lia.
    - destruct (alloc_ok (len t + len u) junk ltac:(lia) ltac:(lia)) as (n & E & NL & NC). rewrite E. cbn [bind].
      assert (RC : len t + 1 <= rcap s) by (unfold rcap; rewrite SB, app_length; cbn [length]; lia).
      replace ((rcap s <? len t) || (rcap n <=? len t)) with false by lia. eexists. split; [reflexivity|]. cbn [rlen rbuf]. split; [exact NL|]. rewrite Nat2Z.id.
      assert (FT : firstn (length t) (rbuf s) = t) by (rewrite SB, firstn_app, Nat.sub_diag, firstn_all, firstn_O, app_nil_r; reflexivity). rewrite FT.
      split; [rewrite firstn_app, Nat.sub_diag, firstn_all, firstn_O, app_nil_r; reflexivity|]. rewrite app_length. cbn [length]. rewrite skipn_length. unfold rcap in NC. lia. }
  destruct X as (s1 & E & L1 & F1 & C1). rewrite E. cbn [bind].
  assert (SNE : sn u (len u + 1) (len t) (Some (rbuf s1)) = Ok (len u, Some (t ++ (u ++ [0]) ++ skipn (length t + length (u ++ [0])) (rbuf s1)))).
  { unfold sn. replace (INT_MAX <? len u) with false by lia. replace (len u + 1 <=? 0) with false by lia. rewrite firstn_all2 by lia.
    replace ((len t <? 0) || (len (rbuf s1) <? len t + len (u ++ [0]))) with false by (rewrite app_length; cbn [length]; lia). rewrite Nat2Z.id, F1. reflexivity. }
  assert (LE : len (t ++ u) = len t + len u) by (rewrite app_length; lia).
  rewrite SNE, LE. cbn [bind snd fst]. eexists. split; [reflexivity|]. split; cbn [rlen rbuf]; [rewrite LE; exact L1|].
  eexists. rewrite <- !app_assoc. cbn [app]. reflexivity.
Qed.

Lemma sprintf_thm : forall texts s t junk, strOk s t -> len t + len (concat texts) + 1 <= INT_MAX - 1024 ->
  exists s', sprintfAll s (len t) texts junk = Ok (s', len (t ++ concat texts)) /\ strOk s' (t ++ concat texts).
Proof.
  induction texts as [|u texts IH]; intros s t junk SO H; cbn [sprintfAll concat] in *.
  - exists s. rewrite app_nil_r. auto.
  - rewrite app_length, Nat2Z.inj_add in H. destruct (step_ok s t u junk SO ltac:(lia)) as (s1 & E & SO1). rewrite E. cbn [bind fst snd].
    destruct (IH s1 (t ++ u) junk SO1) as (s2 & E2 & SO2). { rewrite app_length, Nat2Z.inj_add. lia. } rewrite E2. exists s2. rewrite <- app_assoc in *. auto.
Qed.

(** ** A text that is too long *)
Definition libZ : lib := {| tInt := fun _ => []; tUInt := fun _ => []; tReal := fun _ => []; tPtr := fun _ => []; tHex := fun _ => []; tHex2 := fun _ => [] |}.
Definition lookTwice (s : list Z) (r : ref) : outcome node := if r =? 0 then Ok (NArr [1; 1]) else Ok (NStr s).
Lemma twice_text : forall s, text libZ (lookTwice s) false false MAX_DEPTH 0 = Ok ([91] ++ ((34 :: s ++ [34]) ++ [32] ++ 34 :: s ++ [34]) ++ [93]).
Proof. intros s. reflexivity. Qed.
Lemma twice_ub : forall s, 2 ^ 30 <= len s -> fill libZ (lookTwice s) false false MAX_DEPTH 0 0 0 None = UB.
Proof.
  intros s L. pose proof (predict_thm libZ (lookTwice s) false false 0) as P. rewrite twice_text in P. rewrite P.
  assert (B : (INT_MAX <? len ([91] ++ ((34 :: s ++ [34]) ++ [32] ++ 34 :: s ++ [34]) ++ [93])) = true).
  { rewrite !app_length. cbn [length]. rewrite !app_length. cbn [length]. apply Z.ltb_lt. unfold INT_MAX, two31. lia. }
  rewrite B. reflexivity.
Qed.
Lemma exists_long : exists s : list Z, 2 ^ 30 <= len s.
Proof. assert (H : forall n, exists s : list Z, len s = Z.of_nat n) by (intros n; exists (repeat 97 n); rewrite repeat_length; reflexivity). destruct (H (Z.to_nat (2 ^ 30))) as (s & E). exists s. rewrite E, Z2Nat.id; lia. Qed.
Lemma long_ub : exists C look t, text C look false false MAX_DEPTH 0 = Ok t /\ fill C look false false MAX_DEPTH 0 0 0 None = UB.
Proof. destruct exists_long as (s & L). exists libZ, (lookTwice s). eexists. split; [apply twice_text|apply twice_ub; exact L]. Qed.
