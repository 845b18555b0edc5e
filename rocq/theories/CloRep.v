(** How the machine represents the values of CloSpec.v, and the pieces of code that move them. *)
From Coq Require Import ZArith Lia Bool List.
From Verif Require Import Base CloModel CloSpec CloMem.
Import ListNotations.
Local Open Scope Z_scope.

Definition prefix {A} (a b : list A) : Prop := exists r, b = a ++ r.
Lemma prefix_refl A (a : list A) : prefix a a.
Proof. exists []. symmetry. apply app_nil_r. Qed.
Lemma prefix_trans A (a b c : list A) : prefix a b -> prefix b c -> prefix a c.
Proof. intros [r ->] [q ->]. exists (r ++ q). symmetry. apply app_assoc. Qed.
Lemma prefix_app A (a b : list A) : prefix a (a ++ b).
Proof. exists b. reflexivity. Qed.
Lemma prefix_nth A (a b : list A) x : prefix (a ++ [x]) b -> nth_error b (length a) = Some x.
Proof. intros [r ->]. rewrite <- app_assoc, nth_error_app2 by lia. rewrite Nat.sub_diag. reflexivity. Qed.

Lemma F2_impl A B (P Q : A -> B -> Prop) l m : (forall a b, P a b -> Q a b) -> Forall2 P l m -> Forall2 Q l m.
Proof. intros H. induction 1; constructor; auto. Qed.

Definition poff (p : place) : nat := match p with PLoc n => n | PGlob n => n end.
Definition pblk (b : nat) (p : place) : nat := match p with PLoc _ => b | PGlob _ => 0%nat end.

Section Rep.
Variable genv : env.
Variable tab : list fcode.

Fixpoint rep (M : list block) (v : sval) (t : ty) (sl : list val) {struct v} : Prop :=
  match v with
  | SInt z => t = TInt /\ sl = [VZ z]
  | SNull => (exists ps r, t = TFn ps r) /\ sl = [VZ 0; VZ 0; VZ 0]
  | SClo caps ps b =>
      exists r e fc u1 u2 cts t0 pb cb,
        t = TFn (map snd ps) r /\ sl = [VZ (Z.of_nat e + 1); u1; u2] /\ nth_error tab e = Some fc /\
        length cts = length caps /\
        cstmt genv r (fnEnv (combine (map fst caps) cts) ps r) b (Cst (fnStart (combine (map fst caps) cts) ps r) t0) = Ok (pb, cb) /\
        fc = fnCode (combine (map fst caps) cts) ps r (fst pb) (cnext cb) /\ prefix (ctab cb) tab /\
        match caps with
        | [] => True
        | _ => u2 = VTag cts /\ exists h d, u1 = VPtr h 0 /\ nth_error M h = Some (Blk true d) /\
            (fix go (l : vars) (ts : list ty) (d : list val) : Prop := match l, ts with
                              | [], [] => d = []
                              | x :: l, t :: ts => exists d1 d2, d = d1 ++ d2 /\ (let (_, v) := x in rep M v t d1) /\ go l ts d2
                              | _, _ => False
                              end) caps cts d
        end
  end.
Definition repl (M : list block) := fix go (l : vars) (ts : list ty) (d : list val) : Prop :=
  match l, ts with
  | [], [] => d = []
  | x :: l, t :: ts => exists d1 d2, d = d1 ++ d2 /\ (let (_, v) := x in rep M v t d1) /\ go l ts d2
  | _, _ => False
  end.
(** A closure without its entry point. *)
Definition clo (M : list block) (caps : vars) (ps : list (nat * ty)) (b : stmt) (r : ty) (fc : fcode) (u1 u2 : val) : Prop :=
  exists cts t0 pb cb,
    length cts = length caps /\
    cstmt genv r (fnEnv (combine (map fst caps) cts) ps r) b (Cst (fnStart (combine (map fst caps) cts) ps r) t0) = Ok (pb, cb) /\
    fc = fnCode (combine (map fst caps) cts) ps r (fst pb) (cnext cb) /\ prefix (ctab cb) tab /\
    match caps with
    | [] => True
    | _ => u2 = VTag cts /\ exists h d, u1 = VPtr h 0 /\ nth_error M h = Some (Blk true d) /\ repl M caps cts d
    end.
Lemma rep_clo M caps ps b t sl : rep M (SClo caps ps b) t sl <->
  exists r e fc u1 u2, t = TFn (map snd ps) r /\ sl = [VZ (Z.of_nat e + 1); u1; u2] /\ nth_error tab e = Some fc /\ clo M caps ps b r fc u1 u2.
Proof.
  split.
  - intros (r & e & fc & u1 & u2 & cts & t0 & pb & cb & H1 & H2 & H3 & H4). exists r, e, fc, u1, u2. repeat (split; [assumption|]). exists cts, t0, pb, cb. exact H4.
  - intros (r & e & fc & u1 & u2 & H1 & H2 & H3 & cts & t0 & pb & cb & H4). exists r, e, fc, u1, u2, cts, t0, pb, cb. repeat (split; [assumption|]). exact H4.
Qed.

Lemma sval_ind2 (P : sval -> Prop) : (forall z, P (SInt z)) -> P SNull -> (forall caps ps b, Forall (fun x => P (snd x)) caps -> P (SClo caps ps b)) -> forall v, P v.
Proof.
  intros H1 H2 H3. fix IH 1. intros [z| |caps ps b]; [apply H1|apply H2|]. apply H3. induction caps as [|[x v] caps IHc]; constructor; [apply IH|exact IHc].
Qed.
Lemma repl_all M M' l : Forall (fun x => forall t sl, rep M (snd x) t sl -> rep M' (snd x) t sl) l -> forall ts d, repl M l ts d -> repl M' l ts d.
Proof.
  induction 1 as [|[x v] l H F IHl]; intros [|t1 ts] d R; try contradiction; [exact R|].
  destruct R as (d1 & d2 & -> & R1 & R2). exists d1, d2. split; [reflexivity|]. split; [apply H; exact R1|apply IHl; exact R2].
Qed.
Lemma rep_heaps M M' : heaps M M' -> forall v t sl, rep M v t sl -> rep M' v t sl.
Proof.
  intros H. induction v as [z| |caps ps b F] using sval_ind2; intros t sl R; [exact R|exact R|].
  apply rep_clo in R. apply rep_clo. destruct R as (r & e & fc & u1 & u2 & H1 & H2 & H3 & cts & t0 & pb & cb & H4 & H5 & H6 & H7 & H8).
  exists r, e, fc, u1, u2. repeat (split; [assumption|]). exists cts, t0, pb, cb. repeat (split; [assumption|]).
  destruct caps as [|x caps]; [exact I|]. destruct H8 as (H8 & h & d & E & G & R). split; [exact H8|]. exists h, d. split; [exact E|]. split; [apply H; auto|].
  eapply repl_all; eauto.
Qed.
Lemma repl_heaps M M' : heaps M M' -> forall l ts d, repl M l ts d -> repl M' l ts d.
Proof. intros H l. apply repl_all. apply Forall_forall. intros x _. apply rep_heaps. exact H. Qed.
Lemma clo_heaps M M' caps ps b r fc u1 u2 : heaps M M' -> clo M caps ps b r fc u1 u2 -> clo M' caps ps b r fc u1 u2.
Proof.
  intros H (cts & t0 & pb & cb & H4 & H5 & H6 & H7 & H8). exists cts, t0, pb, cb. repeat (split; [assumption|]). destruct caps as [|x caps]; [exact I|].
  destruct H8 as (H8 & h & d & E & F & R). split; [exact H8|]. exists h, d. split; [exact E|]. split; [apply H; auto|]. apply (repl_heaps _ _ H). exact R.
Qed.
Lemma rep_len M v t sl : rep M v t sl -> length sl = size t.
Proof.
  destruct v as [z| |caps ps b].
  - intros [-> ->]. reflexivity.
  - intros [(ps & r & ->) ->]. reflexivity.
  - intros R. apply rep_clo in R. destruct R as (r & e & fc & u1 & u2 & -> & -> & _). reflexivity.
Qed.
Lemma rep_zero M t : rep M (zero t) t (repeat (VZ 0) (size t)).
Proof. destruct t; cbn; eauto. Qed.
Lemma rep_int M v sl : rep M v TInt sl -> exists z, v = SInt z /\ sl = [VZ z].
Proof.
  destruct v as [z| |caps ps b].
  - intros [_ ->]. eauto.
  - intros [(ps & r & X) _]. discriminate.
  - intros R. apply rep_clo in R. destruct R as (r & e & fc & u1 & u2 & X & _). discriminate.
Qed.

(** The result of an expression on the stack. *)
Definition wrep (M : list block) (v : sval) (t : ty) (w : val) : Prop :=
  if structured t then exists b o sl, w = VPtr b o /\ reads M b o (size t) = Ok sl /\ rep M v t sl
  else rep M v t [w].
(** A variable. *)
Definition isat (M : list block) (b o : nat) (t : ty) (v : sval) : Prop := exists sl, reads M b o (size t) = Ok sl /\ rep M v t sl.
Lemma isat_chg P M M' b o t v : chg P M M' -> (forall i, (o <= i < o + size t)%nat -> ~ P b i) -> isat M b o t v -> isat M' b o t v.
Proof. intros C N (sl & R & Q). exists sl. split; [eapply reads_chg; eauto|]. eapply rep_heaps; [eapply chg_heaps; eauto|exact Q]. Qed.

Section Code.
Context (cf : fcode -> st -> outcome st) (lim : nat).
Notation X := (exec tab cf lim).
Lemma ptr_ok p k M stk rg b : X (ptr p ++ k) (St M stk rg b) = X k (St M (VPtr (pblk b p) (poff p) :: stk) rg b).
Proof. destruct p; reflexivity. Qed.
Lemma load_ok M b p t v : isat M (pblk b p) (poff p) t v ->
  exists w, (forall k stk rg, X (load p t ++ k) (St M stk rg b) = X k (St M (w :: stk) rg b)) /\ wrep M v t w.
Proof.
  intros (sl & R & Q). unfold load, wrep. destruct (structured t) eqn:S.
  - exists (VPtr (pblk b p) (poff p)). split; [|eauto 10]. intros k stk rg. rewrite <- app_assoc. apply ptr_ok.
  - destruct t; [|discriminate]. cbn [size reads] in R. destruct (read M (pblk b p) (poff p)) as [w| |] eqn:E; try discriminate. injection R as <-.
    exists w. split; [|exact Q]. intros k stk rg. rewrite <- app_assoc, ptr_ok. apply x_deref. exact E.
Qed.
Lemma store_ok M b n o t v w : frame M b n -> (o + size t <= n)%nat -> wrep M v t w ->
  exists M', store M (VPtr b o) w (arg t) = Ok M' /\ chg (span b o (size t)) M M' /\ isat M' b o t v.
Proof.
  intros F L W. unfold wrep in W. unfold arg, store, isat. destruct (structured t) eqn:S.
  - destruct W as (b2 & o2 & sl & -> & R & Q). rewrite R. cbn [bind]. pose proof (rep_len _ _ _ _ Q) as E.
    destruct (writes_ok b n sl M o F ltac:(lia)) as (M' & H1 & H2 & H3). rewrite E in *. exists M'. split; [exact H1|]. split; [exact H2|].
    exists sl. split; [exact H3|]. eapply rep_heaps; [eapply chg_heaps; exact H2|exact Q].
  - destruct t; [|discriminate]. cbn [size] in *. destruct (write_ok M b n o w F ltac:(lia)) as (M' & H1 & H2 & H3). exists M'. split; [exact H1|]. split; [exact H2|].
    exists [w]. cbn [reads]. rewrite H3. split; [reflexivity|]. eapply rep_heaps; [eapply chg_heaps; exact H2|exact W].
Qed.
Lemma zeroVar_ok M b n o j : frame M b n -> (o + j <= n)%nat ->
  exists M', (forall k stk rg, X (zeroVar o j ++ k) (St M stk rg b) = X k (St M' stk rg b)) /\ chg (span b o j) M M' /\ reads M' b o j = Ok (repeat (VZ 0) j).
Proof.
  intros F L. destruct (writes_ok b n (repeat (VZ 0) j) M o F) as (M' & H1 & H2 & H3); [rewrite repeat_length; lia|]. rewrite repeat_length in *.
  exists M'. split; [|split; assumption]. intros k stk rg. cbn [zeroVar app]. rewrite x_local. apply x_zero. exact H1.
Qed.

(** Capturing: the values of the variables are put into the structure at [m]. *)
Lemma cap_ok b n m : forall l off M vs, frame M b n -> (m + off + sizes (map snd l) <= n)%nat ->
  Forall2 (fun x v => isat M (pblk b (fst x)) (poff (fst x)) (snd x) v /\ (pblk b (fst x) = b -> (poff (fst x) + size (snd x) <= m)%nat)) l vs ->
  exists M' d, (forall k stk rg, X (capCode m off l ++ k) (St M stk rg b) = X k (St M' stk rg b)) /\ chg (span b (m + off) (sizes (map snd l))) M M' /\
    reads M' b (m + off) (sizes (map snd l)) = Ok d /\ forall xs, length xs = length vs -> repl M' (combine xs vs) (map snd l) d.
Proof.
  induction l as [|[p t] l IH]; intros off M vs F L H; inversion H as [|x v l' vs' [H1 H2] H3 EA EB]; subst; clear H; cbn [map snd sizes fold_right fst] in *.
  - exists M, []. split; [reflexivity|]. split; [apply chg_refl|]. split; [reflexivity|]. intros [|? ?] E; [|discriminate]. reflexivity.
  - destruct (load_ok _ _ _ _ _ H1) as (w & Hw & W).
    destruct (store_ok M b n (m + off) t v w F ltac:(lia) W) as (M1 & S1 & C1 & A1).
    destruct (IH (off + size t)%nat M1 vs' (frame_chg _ _ _ _ _ C1 F)) as (M2 & d & E2 & C2 & R2 & P2).
    + unfold sizes. lia.
    + eapply F2_impl; [|exact H3]. intros [q u] y [Ha Hb]. cbn [fst snd] in *. split; [|exact Hb]. eapply isat_chg; [exact C1| |exact Ha].
      unfold span. intros i Hi [Eb Ho]. specialize (Hb Eb). lia.
    + exists M2. destruct A1 as (sl & R1 & Q1). exists (sl ++ d). split.
      { intros k stk rg. cbn [capCode app]. rewrite x_local, x_field, <- app_assoc, Hw. cbn [app]. rewrite <- E2. apply x_assign. exact S1. }
      pose proof (chg_heaps _ _ _ C2) as Hh. fold (sizes (map snd l)). split; [|split].
      * eapply chg_trans; [eapply chg_mono; [|exact C1]|eapply chg_mono; [|exact C2]]; intros k i _; unfold span; lia.
      * apply reads_app; [|rewrite <- R2; f_equal; lia]. eapply reads_chg; [exact C2| |exact R1]. unfold span. intros; lia.
      * intros [|x xs] E; [discriminate|]. cbn in E. cbn [combine]. exists sl, d. split; [reflexivity|]. split; [eapply rep_heaps; eauto|]. apply P2. lia.
Qed.
End Code.
End Rep.
