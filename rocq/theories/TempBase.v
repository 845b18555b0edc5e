(** Temporaries: the machine. *)
From Coq Require Import ZArith Lia Bool List.
From Verif Require Import Base TempModel TempSpec.
Import ListNotations.
Local Open Scope Z_scope.

Lemma occ_nil : forall o, occ o [] = 0. Proof. reflexivity. Qed.
Lemma occ_cons : forall o v l, occ o (v :: l) = occ o [v] + occ o l.
Proof. intros. unfold occ. cbn [filter]. destruct (refersTo o v); cbn [length]; lia. Qed.
Lemma occ_app : forall o a b, occ o (a ++ b) = occ o a + occ o b.
Proof. intros. unfold occ. rewrite filter_app, app_length. lia. Qed.
Lemma occ_ge : forall o l, 0 <= occ o l. Proof. intros. unfold occ. lia. Qed.
Lemma occ_self : forall o p, occ o [VRef (Some p)] = if Nat.eqb o p then 1 else 0.
Proof. intros. unfold occ. cbn. rewrite Nat.eqb_sym. destruct (Nat.eqb o p); reflexivity. Qed.
Lemma occ_in : forall o l, In (VRef (Some o)) l -> 1 <= occ o l.
Proof. induction l; intros [].
  - subst a. rewrite occ_cons, occ_self, Nat.eqb_refl. pose proof (occ_ge o l). lia.
  - rewrite occ_cons. pose proof (occ_ge o [a]). apply IHl in H. lia. Qed.
Lemma occ_rev : forall o l, occ o (rev l) = occ o l.
Proof. induction l; auto. cbn [rev]. rewrite occ_app, IHl, (occ_cons _ a l). lia. Qed.
Lemma occ_int : forall o z, occ o [VInt z] = 0. Proof. reflexivity. Qed.
Lemma occ_null : forall o, occ o [VRef None] = 0. Proof. reflexivity. Qed.
Lemma occ_noref : forall o v, isRef v = false -> occ o [v] = 0. Proof. intros o [] E; [reflexivity|discriminate]. Qed.
Lemma occ_replace : forall o l g v w, nth_error l g = Some w -> occ o (replace l g v) = occ o l - occ o [w] + occ o [v].
Proof.
  induction l; intros g v w E; destruct g; cbn in E; try discriminate.
  - injection E as <-. cbn [replace]. rewrite (occ_cons o v), (occ_cons o a l). lia.
  - cbn [replace]. rewrite (occ_cons o a (replace _ _ _)), (occ_cons o a l), (IHl _ _ _ E). lia.
Qed.
Lemma kinds_replace : forall ks l g v gc, kinds ks l -> nth_error ks g = Some gc -> isRef v = gc -> kinds ks (replace l g v).
Proof.
  intros ks l g v gc K. revert g. induction K; intros g E I; destruct g; cbn in E; try discriminate.
  - injection E as ->. constructor; auto.
  - cbn. constructor; auto. apply IHK; auto.
Qed.
Lemma kinds_nth : forall ks l g gc, kinds ks l -> nth_error ks g = Some gc -> exists v, nth_error l g = Some v /\ isRef v = gc.
Proof.
  intros ks l g gc K. revert g. induction K; intros g E; destruct g; cbn in E; try discriminate.
  - injection E as ->. exists y. auto.
  - apply IHK in E. exact E.
Qed.

(** What holds between instructions: [L] are the identifiers whose slots are live, [W] the owned values elsewhere. *)
Definition held (L : list ident) (s : st) : list value := map (fun i => slots s (islot i)) L.
Record inv (gty : list bool) (L : list ident) (s : st) (R : nat -> Z) (W : list value) : Prop := {
  iglob : kinds gty (globs s);
  ifresh : forall o, (onext s <= o)%nat -> cnt s o = 0;
  icnt : forall o, cnt s o = R o + occ o (globs s) + occ o (held L s) + occ o W;
  ikind : forall i, In i L -> isRef (slots s (islot i)) = igc i }.

Lemma held_set : forall L s n v, ~ In n (map islot L) -> held L (setSlot s n v) = held L s.
Proof.
  intros. apply map_ext_in. intros i I. cbn. destruct (Nat.eqb_spec (islot i) n); auto. subst. destruct H. apply in_map. exact I.
Qed.
Lemma held_set_in : forall o L s i v, NoDup (map islot L) -> In i L ->
  occ o (held L (setSlot s (islot i) v)) = occ o (held L s) - occ o [slots s (islot i)] + occ o [v].
Proof.
  induction L as [|j L]; intros s i v N I; [destruct I|]. inversion N; subst. unfold held in *. cbn [map].
  rewrite (occ_cons o (slots _ _)), (occ_cons o (slots s (islot j))). destruct I as [-> |I].
  - pose proof (held_set L s (islot i) v H1) as E. unfold held in E. rewrite E. cbn. rewrite Nat.eqb_refl. lia.
  - assert (islot j <> islot i) by (intros E; rewrite E in H1; apply H1; apply in_map; exact I).
    rewrite IHL by auto. cbn. destruct (Nat.eqb_spec (islot j) (islot i)); [contradiction|lia].
Qed.

Section Machine.
Variable funs : list (nat * (code * code)).
Variable K : bool.                                   (** the program is careful *)
Definition tri (n : nat) (p : code) (s : st) (Q : st -> signal -> Prop) : Prop :=
  match exec funs n p s with Ok (s', g) => Q s' g | Err _ => True | UB => K = false end.

Lemma exec_mono : forall n p s, exec funs n p s <> Err EFuel -> exec funs (S n) p s = exec funs n p s.
Proof.
  induction n; intros p s H; [cbn in H; congruence|].
  assert (X : forall p s, exec funs n p s = Err EFuel \/ exec funs (S n) p s = exec funs n p s).
  { intros. destruct (exec funs n p0 s0) as [ |e| ] eqn:E; [right|destruct e|right]; auto; try (right; rewrite <- E; apply IHn; congruence);
      rewrite <- E; apply IHn; congruence. }
  set (m := S n) in *. destruct p as [|i q]; [reflexivity|].
  assert (H' : exec funs (S n) (i :: q) s <> Err EFuel) by exact H. clear H. rename H' into H.
  change (exec funs (S m) (i :: q) s = exec funs (S n) (i :: q) s). clear IHn. clearbody m.
  destruct i; try reflexivity.
  all: try (cbn [exec] in *; match goal with |- bind ?e _ = bind ?e _ => let x := fresh in destruct e as [x| | ]; try reflexivity; cbn [bind] in *; destruct (X q x); congruence end).
  - cbn [exec] in *. destruct (nth_error funs f) as [[k [body ending]]|]; [|reflexivity].
    destruct (Nat.ltb _ _); [reflexivity|].
    match goal with |- context [exec funs n body ?t] => set (s0 := t) in * end.
    destruct (X body s0) as [E|E]; [rewrite E in H; cbn in H; congruence|rewrite E].
    destruct (exec funs n body s0) as [[s1 []]| | ]; try reflexivity; cbn [bind] in *;
    (destruct (X ending s1) as [F|F]; [rewrite F in H; cbn in H; congruence|rewrite F];
    destruct (exec funs n ending s1) as [[s2 []]| | ]; try reflexivity; cbn [bind] in *; destruct (stk s2); try reflexivity;
    match goal with |- exec funs m q ?t = _ => destruct (X q t); congruence end).
  - cbn [exec] in *. destruct (stk s) as [|[z|] l]; try reflexivity.
    destruct (X (if z =? 0 then b else a) (withStk s l)) as [E|E]; [rewrite E in H; cbn in H; congruence|rewrite E].
    destruct (exec funs n _ _) as [[s1 []]| | ]; try reflexivity. cbn [bind] in *. destruct (X q s1); congruence.
  - cbn [exec] in *. destruct (stk s) as [|[z|] l]; try reflexivity. destruct (eqb _ _). { destruct (X q s); congruence. }
    destruct (X c (withStk s l)) as [E|E]; [rewrite E in H; cbn in H; congruence|rewrite E].
    destruct (exec funs n _ _) as [[s1 []]| | ]; try reflexivity. cbn [bind] in *. destruct (X q s1); congruence.
  - cbn [exec] in *.
    destruct (X cond s) as [E|E]; [rewrite E in H; cbn in H; congruence|rewrite E].
    destruct (exec funs n cond s) as [[s1 []]| | ]; try reflexivity. cbn [bind] in *. destruct (stk s1) as [|[z|] l]; try reflexivity.
    destruct (z =? 0). { destruct (X q (withStk s1 l)); congruence. }
    destruct (X body (withStk s1 l)) as [F|F]; [rewrite F in H; cbn in H; congruence|rewrite F].
    destruct (exec funs n body (withStk s1 l)) as [[s2 g]| | ]; try reflexivity. cbn [bind] in *.
    assert (Y : (let* (s, g) := exec funs n post s2 in match g with Next => exec funs n (ILoop cond post body :: q) s | _ => UB end) <> Err EFuel ->
      (let* (s, g) := exec funs m post s2 in match g with Next => exec funs m (ILoop cond post body :: q) s | _ => UB end) =
      (let* (s, g) := exec funs n post s2 in match g with Next => exec funs n (ILoop cond post body :: q) s | _ => UB end)).
    { intros Hn. destruct (X post s2) as [P|P]; [rewrite P in Hn; cbn in Hn; congruence|rewrite P].
      destruct (exec funs n post s2) as [[s3 []]| | ]; try reflexivity. cbn [bind] in *. destruct (X (ILoop cond post body :: q) s3); congruence. }
    destruct g; [apply Y; exact H| |apply Y; exact H|reflexivity]. destruct (X q s2); congruence.
Qed.
Lemma tri_S : forall n p s Q, tri (S n) p s Q -> tri n p s Q.
Proof.
  unfold tri. intros n p s Q H. destruct (exec funs n p s) eqn:E; auto; rewrite exec_mono in H by congruence; rewrite E in H; exact H.
Qed.
Lemma tri_le : forall m n p s Q, (m <= n)%nat -> tri n p s Q -> tri m p s Q.
Proof. intros m n p s Q L. induction L; auto. intros H. apply IHL, tri_S, H. Qed.
Lemma tri_imp : forall n p s (Q Q' : st -> signal -> Prop), tri n p s Q -> (forall s' g, Q s' g -> Q' s' g) -> tri n p s Q'.
Proof. unfold tri. intros. destruct (exec funs n p s) as [[]| | ]; auto. Qed.
Lemma tri_nil : forall n s (Q : st -> signal -> Prop), Q s Next -> tri n [] s Q.
Proof. unfold tri. intros. destruct n; cbn; auto. Qed.
Definition post (Q : st -> signal -> Prop) (T : st -> Prop) : st -> signal -> Prop := fun s g => match g with Next => T s | _ => Q s g end.
Lemma tri_app : forall n p q s Q, tri n p s (post Q (fun s' => tri n q s' Q)) -> tri n (p ++ q) s Q.
Proof.
  induction n; intros p q s Q H; [exact I|].
  assert (W : forall p0 s0, tri n p0 s0 (post Q (fun s' => tri (S n) q s' Q)) -> tri n (p0 ++ q) s0 Q).
  { intros. apply IHn. eapply tri_imp; [exact H0|]. intros s' []; cbn; auto. apply tri_S. }
  destruct p as [|i p]. { unfold tri in H at 1. cbn [exec post] in H. exact H. }
  unfold tri in *. cbn [app].
  assert (Step : match (let* s1 := step i s in exec funs n p s1) with Ok (s', g) => post Q (fun s' => match exec funs (S n) q s' with Ok (s', g) => Q s' g | Err _ => True | UB => K = false end) s' g | Err _ => True | UB => K = false end ->
      match (let* s1 := step i s in exec funs n (p ++ q) s1) with Ok (s', g) => Q s' g | Err _ => True | UB => K = false end).
  { destruct (step i s) as [s1| | ]; cbn [bind]; auto. intros G. apply W. exact G. }
  destruct i; try exact (Step H); clear Step; cbn [exec] in *; try exact H.
  - destruct (nth_error funs f) as [[k [body ending]]|]; auto. destruct (Nat.ltb _ _); auto.
    destruct (exec funs n body _) as [[s1 []]| | ]; cbn [bind] in *; auto; (destruct (exec funs n ending s1) as [[s2 []]| | ]; cbn [bind] in *; auto; destruct (stk s2); auto; apply W; exact H).
  - destruct (stk s) as [|[z|] l]; auto. destruct (exec funs n _ _) as [[s1 []]| | ]; cbn [bind] in *; auto. apply W. exact H.
  - destruct (stk s) as [|[z|] l]; auto. destruct (eqb _ _). { apply W. exact H. }
    destruct (exec funs n _ _) as [[s1 []]| | ]; cbn [bind] in *; auto. apply W. exact H.
  - destruct (exec funs n cond s) as [[s1 []]| | ]; cbn [bind] in *; auto. destruct (stk s1) as [|[z|] l]; auto.
    destruct (z =? 0). { apply W. exact H. }
    destruct (exec funs n body _) as [[s2 g]| | ]; cbn [bind] in *; auto. destruct g; auto.
    + destruct (exec funs n post0 s2) as [[s3 []]| | ]; cbn [bind] in *; auto. apply (W (ILoop cond post0 body :: p)). exact H.
    + apply W. exact H.
    + destruct (exec funs n post0 s2) as [[s3 []]| | ]; cbn [bind] in *; auto. apply (W (ILoop cond post0 body :: p)). exact H.
Qed.
(** Code that goes on with the next instruction. *)
Definition nx (T : st -> Prop) : st -> signal -> Prop := fun s g => g = Next /\ T s.
Lemma tri_next : forall n p q s Q T, tri n p s (nx T) -> (forall s', T s' -> tri n q s' Q) -> tri n (p ++ q) s Q.
Proof. intros. apply tri_app. eapply tri_imp; [exact H|]. intros s' g [-> G]. cbn. auto. Qed.
Lemma tri_step : forall n i q s s' Q, (forall k, exec funs (S k) (i :: q) s = let* s1 := step i s in exec funs k q s1) -> step i s = Ok s' -> tri n q s' Q -> tri n (i :: q) s Q.
Proof. intros n i q s s' Q E S H. destruct n; [exact I|]. unfold tri. rewrite E, S. cbn [bind]. apply tri_S in H. exact H. Qed.
Lemma tri_ub : forall n i q s Q, (forall k, exec funs (S k) (i :: q) s = let* s1 := step i s in exec funs k q s1) ->
  (match step i s with Ok s' => tri n q s' Q | Err _ => True | UB => K = false end) -> tri n (i :: q) s Q.
Proof. intros n i q s Q E H. destruct n; [exact I|]. unfold tri. rewrite E. destruct (step i s); cbn [bind]; auto. apply tri_S in H. exact H. Qed.

(** References held somewhere are alive. *)
Variable gty : list bool.
Lemma inv_alive : forall L s R W o, inv gty L s R W -> (forall o, 0 <= R o) -> In (VRef (Some o)) (globs s) \/ In (VRef (Some o)) (held L s) \/ In (VRef (Some o)) W -> 0 < cnt s o.
Proof.
  intros L s R W o I P H. rewrite (icnt _ _ _ _ _ I). specialize (P o). pose proof (occ_ge o (globs s)). pose proof (occ_ge o (held L s)). pose proof (occ_ge o W).
  destruct H as [H|[H|H]]; apply occ_in in H; lia.
Qed.
Lemma incRef_ok : forall v s, isRef v = true -> (forall o, v = VRef (Some o) -> 0 < cnt s o) ->
  exists s', incRef v s = Ok s' /\ stk s' = stk s /\ slots s' = slots s /\ globs s' = globs s /\ onext s' = onext s /\ res s' = res s /\ (forall o, cnt s' o = cnt s o + occ o [v]) /\ ostr s' = ostr s.
Proof.
  intros [z|[o|]] s E H; try discriminate; cbn.
  - specialize (H o eq_refl). destruct (Z.ltb_spec 0 (cnt s o)); [|lia]. eexists. split; [reflexivity|]. cbn. repeat split; auto.
    intros p. rewrite occ_self. destruct (Nat.eqb_spec p o); subst; lia.
  - exists s. repeat split; auto. intros o. pose proof (occ_null o). lia.
Qed.
Lemma decRef_ok : forall v s, isRef v = true -> (forall o, v = VRef (Some o) -> 0 < cnt s o) ->
  exists s', decRef v s = Ok s' /\ stk s' = stk s /\ slots s' = slots s /\ globs s' = globs s /\ onext s' = onext s /\ res s' = res s /\ (forall o, cnt s' o = cnt s o - occ o [v]) /\ ostr s' = ostr s.
Proof.
  intros [z|[o|]] s E H; try discriminate; cbn.
  - specialize (H o eq_refl). destruct (Z.ltb_spec 0 (cnt s o)); [|lia]. eexists. split; [reflexivity|]. cbn. repeat split; auto.
    intros p. rewrite occ_self. destruct (Nat.eqb_spec p o); subst; lia.
  - exists s. repeat split; auto. intros o. pose proof (occ_null o). lia.
Qed.
Lemma textOf_ok : forall v s, isRef v = true -> (forall o, v = VRef (Some o) -> 0 < cnt s o) -> exists z, textOf v s = Ok z.
Proof.
  intros [z|[o|]] s E H; try discriminate; cbn; eauto. specialize (H o eq_refl). destruct (Z.ltb_spec 0 (cnt s o)); [eauto|lia].
Qed.
Lemma incRef_inv : forall v s s', incRef v s = Ok s' -> isRef v = true /\ (forall o, v = VRef (Some o) -> 0 < cnt s o).
Proof.
  intros [z|[o|]] s s'; cbn; try discriminate; intros H; split; auto; try discriminate. intros p E. injection E as <-. destruct (Z.ltb_spec 0 (cnt s o)); [auto|discriminate].
Qed.
(** Fresh objects are not referred to. *)
Lemma inv_old : forall L s R W o, inv gty L s R W -> (forall o, 0 <= R o) -> (onext s <= o)%nat -> R o = 0 /\ occ o (globs s) = 0 /\ occ o (held L s) = 0 /\ occ o W = 0.
Proof.
  intros L s R W o I P H. pose proof (icnt _ _ _ _ _ I o). rewrite (ifresh _ _ _ _ _ I o H) in H0. specialize (P o).
  pose proof (occ_ge o (globs s)). pose proof (occ_ge o (held L s)). pose proof (occ_ge o W). lia.
Qed.
Lemma inv_stk : forall L s R W l, inv gty L s R W -> inv gty L (withStk s l) R W.
Proof. intros L s R W l []. constructor; auto. Qed.
Lemma inv_new : forall L s R W z, inv gty L s R W -> (forall o, 0 <= R o) -> inv gty L (newObj s z) R (VRef (Some (onext s)) :: W).
Proof.
  intros L s R W z I P. destruct (inv_old _ _ _ _ (onext s) I P (Nat.le_refl _)) as (a & b & c & d). destruct I as [G F C D]. constructor; cbn; auto.
  - intros o H. destruct (Nat.eqb_spec o (onext s)); [lia|]. apply F. lia.
  - intros o. change (held L (newObj s z)) with (held L s). rewrite occ_cons, occ_self. destruct (Nat.eqb_spec o (onext s)); [subst|]; rewrite ?C; lia.
Qed.
Lemma inv_perm : forall L L' s R W W', inv gty L s R W -> (forall o, occ o (held L s) + occ o W = occ o (held L' s) + occ o W') -> (forall i, In i L' -> isRef (slots s (islot i)) = igc i) -> inv gty L' s R W'.
Proof. intros L L' s R W W' [G F C D] H1 H2. constructor; auto. intros o. rewrite C. specialize (H1 o). lia. Qed.

(** Release of the identifiers of a list. *)
Lemma tri_release : forall n l L s R W, (forall o, 0 <= R o) -> inv gty (filter iused l ++ L) s R W ->
  tri n (release l) s (nx (fun s' => inv gty L s' R W /\ stk s' = stk s /\ slots s' = slots s /\ globs s' = globs s /\ res s' = res s)).
Proof.
  induction l as [|i l]; intros L s R W P I.
  - apply tri_nil. split; auto.
  - unfold release. cbn [flat_map]. fold (release l). cbn [filter] in I. destruct (iused i) eqn:U; [|rewrite andb_false_r; exact (IHl L s R W P I)].
    cbn [app] in I. destruct (igc i) eqn:G; cbn [andb app].
    + assert (V : isRef (slots s (islot i)) = true) by (rewrite (ikind _ _ _ _ _ I i); auto; left; auto).
      destruct (decRef_ok (slots s (islot i)) s V) as (s1 & E1 & S1 & S2 & S3 & S4 & S5 & S6 & _).
      { intros o Eo. eapply inv_alive; [exact I|exact P|]. right. left. left. exact Eo. }
      eapply tri_step; [reflexivity|exact E1|]. eapply tri_imp; [apply (IHl L s1 R W P)|].
      * destruct I as [Ig If Ic Ik]. constructor.
        -- rewrite S3. auto.
        -- intros o Ho. rewrite S4 in Ho. pose proof (If o Ho) as Z0. rewrite S6, Z0. pose proof (Ic o) as Z1. rewrite Z0 in Z1. unfold held in Z1. cbn [map] in Z1.
           rewrite occ_cons in Z1. specialize (P o). pose proof (occ_ge o (globs s)). pose proof (occ_ge o [slots s (islot i)]). pose proof (occ_ge o W).
           pose proof (occ_ge o (map (fun i0 : ident => slots s (islot i0)) (filter iused l ++ L))). lia.
        -- intros o. rewrite S6, Ic, S3. unfold held. rewrite S2. cbn [map]. rewrite (occ_cons o (slots s (islot i))). lia.
        -- intros j Hj. rewrite S2. apply Ik. right. exact Hj.
      * intros s' g (-> & J & A & B & C & D). split; auto. rewrite A, B, C, D. auto.
    + apply (IHl L s R W P). eapply inv_perm; [exact I| |].
      * intros o. unfold held. cbn [map]. rewrite (occ_cons o (slots s (islot i))), occ_noref; [lia|]. rewrite <- G. apply (ikind _ _ _ _ _ I). left. reflexivity.
      * intros j Hj. apply (ikind _ _ _ _ _ I). right. exact Hj.
Qed.
End Machine.
