(** The code for operands and assignments computes what they mean. *)
From Coq Require Import ZArith Lia Bool List.
From Verif Require Import Base EvalModel EvalSpec.
Import ListNotations.
Local Open Scope Z_scope.

Scheme des_mut := Induction for des Sort Prop
  with expr_mut := Induction for expr Sort Prop.
Combined Scheme de_ind from des_mut, expr_mut.

(** * Memory *)
Lemma setNth_same {A} (l : list A) i x y : nth_error l i = Some y -> nth_error (setNth l i x) i = Some x.
Proof. revert i. induction l; intros [|i] H; cbn in *; try discriminate; auto. Qed.
Lemma setNth_other {A} (l : list A) i j x : i <> j -> nth_error (setNth l i x) j = nth_error l j.
Proof. revert i j. induction l; intros [|i] [|j] H; cbn; auto; congruence. Qed.
Lemma setNth_eq {A} (l : list A) i j x y : nth_error (setNth l i x) j = Some y -> (i = j /\ y = x) \/ (i <> j /\ nth_error l j = Some y).
Proof.
  intros H. destruct (Nat.eq_dec i j) as [->|N]; [left|right].
  - destruct (nth_error l j) eqn:E.
    + rewrite (setNth_same _ _ _ _ E) in H. now injection H as <-.
    + exfalso. revert j E H. induction l; intros [|j] E H; cbn in *; try discriminate; eauto.
  - rewrite setNth_other in H by exact N. auto.
Qed.

Definition view (m : mem) (b : nat) : outcome (list val) := let* k := getBlock m b in Ok (bcells k).
Lemma load_view m a n : load m a n = let* c := view m (fst a) in if Nat.leb (snd a + n) (length c) then Ok (firstn n (skipn (snd a) c)) else UB.
Proof. unfold load, view. destruct (getBlock m (fst a)); reflexivity. Qed.
Lemma load_same m m' a n : view m' (fst a) = view m (fst a) -> load m' a n = load m a n.
Proof. intros H. now rewrite !load_view, H. Qed.
Lemma view_nth m m' b : nth_error m' b = nth_error m b -> view m' b = view m b.
Proof. unfold view, getBlock. now intros ->. Qed.
Lemma getBlock_nth m b k : getBlock m b = Ok k -> nth_error m b = Some k /\ blive k = true.
Proof. unfold getBlock. destruct (nth_error m b); [|discriminate]. destruct (blive b0) eqn:E; [|discriminate]. intros [= ->]. auto. Qed.

Lemma inc1_view m b m' : inc1 m b = Ok m' -> forall c, view m' c = view m c.
Proof.
  unfold inc1. destruct (getBlock m b) as [k| |] eqn:G; cbn [bind]; try discriminate. destruct (getBlock_nth _ _ _ G) as [N L].
  destruct (bcnt k); intros [= <-]; [|reflexivity]. intros c. unfold view, getBlock. destruct (Nat.eq_dec b c) as [<-|D].
  - rewrite (setNth_same _ _ _ _ N), N, L. reflexivity.
  - now rewrite setNth_other.
Qed.
Lemma incs_view l : forall m m', incs m l = Ok m' -> forall c, view m' c = view m c.
Proof.
  induction l as [|b l IH]; intros m m'; cbn [incs]. { intros [= <-]. reflexivity. }
  destruct (inc1 m b) eqn:E; cbn [bind]; try discriminate. intros H c. now rewrite (IH _ _ H), (inc1_view _ _ _ E).
Qed.
Lemma incs_load l m m' : incs m l = Ok m' -> forall a n, load m' a n = load m a n.
Proof. intros H a n. apply load_same, (incs_view _ _ _ H). Qed.
Lemma incs_cells l m m' : incs m l = Ok m' -> forall s t, cellsOf m' s t = cellsOf m s t.
Proof. intros H s t. unfold cellsOf. destruct (structured t); [|reflexivity]. destruct (asAddr s); cbn [bind]; [|reflexivity..]. apply (incs_load _ _ _ H). Qed.

(** Static blocks are not changed by counting. *)
Lemma inc1_static m b m' : inc1 m b = Ok m' -> forall c k, nth_error m c = Some k -> bcnt k = None -> nth_error m' c = Some k.
Proof.
  unfold inc1. destruct (getBlock m b) as [k0| |] eqn:G; cbn [bind]; try discriminate. destruct (getBlock_nth _ _ _ G) as [N L].
  destruct (bcnt k0) eqn:B; intros [= <-]; auto. intros c k H K. rewrite setNth_other; auto. intros <-. congruence.
Qed.
Lemma incs_static l : forall m m', incs m l = Ok m' -> forall c k, nth_error m c = Some k -> bcnt k = None -> nth_error m' c = Some k.
Proof.
  induction l as [|b l IH]; intros m m'; cbn [incs]. { now intros [= <-]. }
  destruct (inc1 m b) eqn:E; cbn [bind]; try discriminate. intros H c k N K. exact (IH _ _ H _ _ (inc1_static _ _ _ E _ _ N K) K).
Qed.
Lemma decs_static fuel : forall m l m', decs fuel m l = Ok m' -> forall c k, nth_error m c = Some k -> bcnt k = None -> nth_error m' c = Some k.
Proof.
  induction fuel as [|fuel IH]; intros m [|b l] m'; cbn [decs]; try discriminate; try (now intros [= <-]).
  destruct (getBlock m b) as [k0| |] eqn:G; cbn [bind]; try discriminate. destruct (getBlock_nth _ _ _ G) as [N L].
  destruct (bcnt k0) eqn:B; [|now apply IH]. destruct (z =? 1); intros H c k Nc K; refine (IH _ _ _ H _ _ _ K); (rewrite setNth_other; [exact Nc|intros <-; congruence]).
Qed.

Section Tidy.
Variable stat : nat -> bool.
Notation tidy := (tidy stat).
Notation vok := (vok stat).

Lemma tidy_set m b k k' : tidy m -> nth_error m b = Some k -> (bcnt k' = None <-> bcnt k = None) -> Forall vok (bcells k') -> tidy (setNth m b k').
Proof.
  intros T N C F c k0 H. apply setNth_eq in H. destruct H as [[<- ->]|[_ H]]; [|exact (T _ _ H)]. split; [|exact F].
  rewrite (proj1 (T _ _ N)). tauto.
Qed.
Lemma tidy_inc1 m b m' : tidy m -> inc1 m b = Ok m' -> tidy m'.
Proof.
  intros T. unfold inc1. destruct (getBlock m b) as [k| |] eqn:G; cbn [bind]; try discriminate. destruct (getBlock_nth _ _ _ G) as [N L].
  destruct (bcnt k) eqn:B; intros [= <-]; [|exact T]. apply (tidy_set _ _ _ _ T N); cbn. { rewrite B. split; discriminate. } exact (proj2 (T _ _ N)).
Qed.
Lemma tidy_incs l : forall m m', tidy m -> incs m l = Ok m' -> tidy m'.
Proof.
  induction l as [|b l IH]; intros m m' T; cbn [incs]. { now intros [= <-]. }
  destruct (inc1 m b) eqn:E; cbn [bind]; try discriminate. apply IH, (tidy_inc1 _ _ _ T E).
Qed.
Lemma tidy_decs fuel : forall m l m', tidy m -> decs fuel m l = Ok m' -> tidy m'.
Proof.
  induction fuel as [|fuel IH]; intros m [|b l] m' T; cbn [decs]; try discriminate; try (now intros [= <-]).
  destruct (getBlock m b) as [k| |] eqn:G; cbn [bind]; try discriminate. destruct (getBlock_nth _ _ _ G) as [N L].
  destruct (bcnt k) eqn:B; [|now apply IH].
  destruct (z =? 1); apply IH; (apply (tidy_set _ _ _ _ T N); cbn; [rewrite B; split; discriminate|exact (proj2 (T _ _ N))]).
Qed.
Lemma Forall_firstn' {A} (P : A -> Prop) n l : Forall P l -> Forall P (firstn n l).
Proof. revert n. induction l; intros [|n] H; cbn; auto. inversion H; subst. constructor; auto. Qed.
Lemma Forall_skipn' {A} (P : A -> Prop) n l : Forall P l -> Forall P (skipn n l).
Proof. revert n. induction l; intros [|n] H; cbn; auto. inversion H; subst. auto. Qed.
Lemma tidy_store m a vs m' : tidy m -> Forall vok vs -> store m a vs = Ok m' -> tidy m'.
Proof.
  intros T F. unfold store. destruct (getBlock m (fst a)) as [k| |] eqn:G; cbn [bind]; try discriminate. destruct (getBlock_nth _ _ _ G) as [N L].
  destruct (Nat.leb _ _); intros [= <-]. apply (tidy_set _ _ _ _ T N); cbn; [tauto|]. pose proof (proj2 (T _ _ N)) as Fk.
  apply Forall_app; split; [now apply Forall_firstn'|]. apply Forall_app; split; [exact F|now apply Forall_skipn'].
Qed.
Lemma store_other m a vs m' b : store m a vs = Ok m' -> b <> fst a -> nth_error m' b = nth_error m b.
Proof.
  unfold store. destruct (getBlock m (fst a)) as [k| |]; cbn [bind]; try discriminate. destruct (Nat.leb _ _); intros [= <-] D. apply setNth_other. congruence.
Qed.
Lemma load_vok m a n vs : tidy m -> load m a n = Ok vs -> Forall vok vs.
Proof.
  intros T. unfold load. destruct (getBlock m (fst a)) as [k| |] eqn:G; cbn [bind]; try discriminate. destruct (getBlock_nth _ _ _ G) as [N L].
  destruct (Nat.leb _ _); intros [= <-]. apply Forall_firstn', Forall_skipn', (T _ _ N).
Qed.
Lemma load_length m a n vs : load m a n = Ok vs -> length vs = n.
Proof.
  unfold load. destruct (getBlock m (fst a)) as [k| |]; cbn [bind]; try discriminate. destruct (Nat.leb_spec (snd a + n) (length (bcells k))); intros [= <-].
  rewrite firstn_length, skipn_length. lia.
Qed.
End Tidy.

Section Sim.
Variable binop : nat -> Z -> Z -> outcome Z.
Variable fenv : nat -> mem -> Z -> outcome (mem * Z).
Variable fuel : nat.
Notation exec := (exec binop fenv fuel).
Notation semDes := (semDes binop fenv).
Notation semExpr := (semExpr binop fenv).

Lemma exec_app a : forall b s, exec (a ++ b) s = let* s := exec a s in exec b s.
Proof. induction a as [|i a IH]; intros b s; cbn [app EvalModel.exec bind]; [reflexivity|]. destruct (step binop fenv fuel i s); cbn [bind]; auto. Qed.

Definition PD (d : des) : Prop := forall m, goodD d = true ->
  match semDes m d with
  | Ok (m1, p) => forall k st r, exec (compDes d ++ k) (Mach m st r) = exec k (Mach m1 (p :: st) r)
  | Err e => strictD d = true -> forall k st r, exec (compDes d ++ k) (Mach m st r) = Err e
  | UB => True
  end.
Definition PE (e : expr) : Prop := forall m, goodE e = true ->
  match semExpr m e with
  | Ok (m1, vs) => exists sl, cellsOf m1 sl (ety e) = Ok vs
      /\ (forall d t, e = ERead d t -> structured t = true -> semDes m d = Ok (m1, sl))
      /\ forall k st r, exec (compExpr e ++ k) (Mach m st r) = exec k (Mach m1 (sl :: st) r)
  | Err er => strictE e = true -> forall k st r, exec (compExpr e ++ k) (Mach m st r) = Err er
  | UB => True
  end.

Lemma sem_idx m d e : semDes m (DIdx d e) =
  let* (m, p) := semDes m d in let* (m, vs) := semExpr m e in let* i := intOf vs in
  let* hs := read m p 1 in let* h := one hs in let* r := asRef h in
  match r with
  | None => Err ENull
  | Some b => let* k := getBlock m b in if (0 <=? i) && (i <? Z.of_nat (length (bcells k))) then Ok (m, SA (b, Z.to_nat i)) else Err EIndex
  end.
Proof. reflexivity. Qed.
Lemma sem_fld m d k : semDes m (DFld d k) = let* (m, p) := semDes m d in let* a := asAddr p in Ok (m, SA (fst a, snd a + k)%nat).
Proof. reflexivity. Qed.
Lemma sem_deref m d : semDes m (DDeref d) = let* (m, p) := semDes m d in let* vs := read m p 1 in let* v := one vs in Ok (m, SV v).
Proof. reflexivity. Qed.
Lemma sem_read m d t : semExpr m (ERead d t) = let* (m, p) := semDes m d in let* vs := read m p (size t) in Ok (m, vs).
Proof. reflexivity. Qed.
Lemma sem_bin m op a b : semExpr m (EBin op a b) =
  let* (m, xs) := semExpr m a in let* (m, ys) := semExpr m b in let* x := intOf xs in let* y := intOf ys in let* z := binop op x y in Ok (m, [VI z]).
Proof. reflexivity. Qed.
Lemma sem_eq m a b : semExpr m (EEq a b) =
  let* (m, xs) := semExpr m a in let* (m, ys) := semExpr m b in Ok (m, [VI (if list_eq_dec val_eq_dec xs ys then 1 else 0)]).
Proof. reflexivity. Qed.
Lemma sem_call m f a : semExpr m (ECall f a) = let* (m, xs) := semExpr m a in let* x := intOf xs in let* (m, z) := fenv f m x in Ok (m, [VI z]).
Proof. reflexivity. Qed.
Ltac semstep := first [rewrite sem_idx | rewrite sem_fld | rewrite sem_deref | rewrite sem_read | rewrite sem_bin | rewrite sem_eq | rewrite sem_call].

Lemma pure_mem : (forall d, pureD d = true -> forall m m1 p, semDes m d = Ok (m1, p) -> m1 = m)
  /\ (forall e, pureE e = true -> forall m m1 vs, semExpr m e = Ok (m1, vs) -> m1 = m).
Proof.
  apply de_ind; cbn [pureD pureE].
  - intros x _ m m1 p [= <- _]. reflexivity.
  - intros d IH k P m m1 p. semstep. destruct (semDes m d) as [[m2 q]|er|] eqn:E; cbn [bind]; try discriminate.
    destruct (asAddr q); cbn [bind]; try discriminate. intros [= <- _]. exact (IH P _ _ _ E).
  - intros d IHd e IHe P m m1 p. semstep. apply andb_prop in P as [Pd Pe]. destruct (semDes m d) as [[m2 q]|er|] eqn:E; cbn [bind]; try discriminate.
    destruct (semExpr m2 e) as [[m3 vs]|er|] eqn:E2; cbn [bind]; try discriminate. apply IHe in E2; [|exact Pe]. apply IHd in E; [|exact Pd]. subst m3 m2. clear.
    destruct (intOf vs); cbn [bind]; try discriminate. destruct (read _ q 1); cbn [bind]; try discriminate. destruct (one _); cbn [bind]; try discriminate.
    destruct (asRef _) as [[b|]| |]; cbn [bind]; try discriminate. destruct (getBlock _ b); cbn [bind]; try discriminate. destruct (_ && _); try discriminate. now intros [= <- _].
  - intros d IH P m m1 p. semstep. destruct (semDes m d) as [[m2 q]|er|] eqn:E; cbn [bind]; try discriminate.
    destruct (read _ q 1); cbn [bind]; try discriminate. destruct (one _); cbn [bind]; try discriminate. intros [= <- _]. exact (IH P _ _ _ E).
  - intros z _ m m1 p [= <- _]. reflexivity.
  - intros d IH t P m m1 p. semstep. destruct (semDes m d) as [[m2 q]|er|] eqn:E; cbn [bind]; try discriminate.
    destruct (read _ q _); cbn [bind]; try discriminate. intros [= <- _]. exact (IH P _ _ _ E).
  - intros op a IHa b IHb P m m1 p. semstep. apply andb_prop in P as [Pa Pb]. destruct (semExpr m a) as [[m2 q]|er|] eqn:E; cbn [bind]; try discriminate.
    destruct (semExpr m2 b) as [[m3 vs]|er|] eqn:E2; cbn [bind]; try discriminate. apply IHb in E2; [|exact Pb]. apply IHa in E; [|exact Pa]. subst m3 m2. clear.
    destruct (intOf q); cbn [bind]; try discriminate. destruct (intOf vs); cbn [bind]; try discriminate. destruct (binop _ _ _); cbn [bind]; try discriminate. now intros [= <- _].
  - intros a IHa b IHb P m m1 p. semstep. apply andb_prop in P as [Pa Pb]. destruct (semExpr m a) as [[m2 q]|er|] eqn:E; cbn [bind]; try discriminate.
    destruct (semExpr m2 b) as [[m3 vs]|er|] eqn:E2; cbn [bind]; try discriminate. apply IHb in E2; [|exact Pb]. apply IHa in E; [|exact Pa]. subst m3 m2. now intros [= <- _].
  - discriminate.
Qed.

Lemma direct_place d : direct d = true -> forall m, exists x k, semDes m d = Ok (m, SA (x, k)) /\ usesD x d = true.
Proof.
  induction d as [x|d IH k|d IH e|d IH]; cbn [direct]; intros D m; try discriminate.
  - exists x, O. cbn. now rewrite Nat.eqb_refl.
  - destruct (IH D m) as (x & j & E & U). exists x, (j + k)%nat. rewrite sem_fld, E. cbn [usesD]. auto.
Qed.
Lemma scalar_slot m sl t vs : structured t = false -> cellsOf m sl t = Ok vs -> exists v, sl = SV v /\ vs = [v].
Proof. unfold cellsOf. intros ->. destruct sl as [v|a]; cbn [asVal bind]; intros [= <-]. eauto. Qed.
Lemma read_1 m p : read m p 1 = let* a := asAddr p in let* l := load m a 1 in Ok l.
Proof. unfold read. destruct (asAddr p) as [a| |]; cbn [bind]; auto. destruct (load m a 1); reflexivity. Qed.
Lemma cells_scalar m m' v t : structured t = false -> cellsOf m (SV v) t = cellsOf m' (SV v) t.
Proof. unfold cellsOf. now intros ->. Qed.
Lemma load_err m a n e : load m a n <> Err e.
Proof. unfold load, getBlock. destruct (nth_error m (fst a)); cbn [bind]; [|discriminate]. destruct (blive b); cbn [bind]; [|discriminate]. destruct (Nat.leb _ _); discriminate. Qed.

Ltac seq IH m := let H := fresh in pose proof (IH m) as H.

Lemma sim_de : (forall d, PD d) /\ (forall e, PE e).
Proof.
  apply de_ind; unfold PD, PE; cbn [goodD goodE strictD strictE compDes compExpr ety].
  - intros x m _ k st r. reflexivity.
  - intros d IH n m G. semstep. specialize (IH m G). destruct (semDes m d) as [[m1 p]|er|]; cbn [bind]; auto.
    + destruct (asAddr p) as [a|er|] eqn:A; cbn [bind]; auto.
      * intros k st r. rewrite <- app_assoc, IH. cbn [app EvalModel.exec step mstk mmem mreg]. now rewrite A.
      * intros _ k st r. rewrite <- app_assoc, IH. cbn [app EvalModel.exec step mstk mmem mreg]. now rewrite A.
    + intros S k st r. rewrite <- app_assoc. apply IH, S.
  - intros d IHd e IHe m G. semstep. apply andb_prop in G as [G Ge']. apply andb_prop in G as [Gd Ge]. specialize (IHd m Gd).
    destruct (semDes m d) as [[m1 p]|er|]; cbn [bind]; auto.
    2: { intros S k st r. apply andb_prop in S as [S _]. rewrite <- app_assoc. apply IHd, S. }
    specialize (IHe m1 Ge). destruct (semExpr m1 e) as [[m2 vs]|er|]; cbn [bind]; auto.
    2: { intros S k st r. apply andb_prop in S as [_ S]. rewrite <- !app_assoc, IHd. apply IHe, S. }
    destruct IHe as (sl & C & _ & X). unfold scalar in Ge'. apply negb_true_iff in Ge'. destruct (scalar_slot _ _ _ _ Ge' C) as (v & -> & ->).
    unfold intOf. cbn [one bind]. 
    assert (Y : forall k st r, exec ((compDes d ++ compExpr e ++ [IDynPtr]) ++ k) (Mach m st r) = let* s := step binop fenv fuel IDynPtr (Mach m2 (SV v :: p :: st) r) in exec k s).
    { intros k st r. rewrite <- !app_assoc, IHd, X. reflexivity. }
    cbn [step mstk mmem mreg asVal bind] in Y. destruct (asInt v) as [i| |]; cbn [bind] in *; auto. rewrite read_1.
    destruct (asAddr p) as [a| |]; cbn [bind] in *; auto. destruct (load m2 a 1) as [l| |]; cbn [bind] in *; auto.
    destruct l as [|h [|? ?]]; cbn [one bind] in *; auto. destruct (asRef h) as [[b|]| |]; cbn [bind] in *; auto.
    destruct (getBlock m2 b) as [bl| |]; cbn [bind] in *; auto.
    replace ((0 <=? i) && (i <? Z.of_nat (length (bcells bl)))) with (negb ((i <? 0) || (Z.of_nat (length (bcells bl)) <=? i))) by lia.
    destruct (_ || _); cbn [negb bind] in *; auto.
  - intros d IH m G. semstep. specialize (IH m G). destruct (semDes m d) as [[m1 p]|er|]; cbn [bind]; auto.
    2: { intros S k st r. rewrite <- app_assoc. apply IH, S. }
    assert (Y : forall k st r, exec ((compDes d ++ [IDeref TPtr]) ++ k) (Mach m st r) = let* s := step binop fenv fuel (IDeref TPtr) (Mach m1 (p :: st) r) in exec k s).
    { intros k st r. rewrite <- !app_assoc, IH. reflexivity. }
    rewrite read_1. cbn [step mstk mmem mreg] in Y. unfold deref in Y. cbn [structured] in Y.
    destruct (asAddr p) as [a| |]; cbn [bind] in *; auto. destruct (load m1 a 1) as [l| |]; cbn [bind] in *; auto.
    destruct l as [|h [|? ?]]; cbn [one bind] in *; auto.
  - intros z m _. exists (SV (VI z)). repeat split; try discriminate.
  - intros d IH t m G. semstep. specialize (IH m G). destruct (semDes m d) as [[m1 p]|er|] eqn:ED; cbn [bind]; auto.
    2: { intros S k st r. apply andb_prop in S as [S _]. rewrite <- app_assoc. apply IH, S. }
    destruct (structured t) eqn:ST.
    + destruct (read m1 p (size t)) as [vs|er|] eqn:R; cbn [bind]; auto.
      * exists p. split; [unfold cellsOf; rewrite ST; exact R|]. split; [|intros; rewrite app_nil_r; apply IH]. intros ? ? [= <- <-] _. exact ED.
      * intros S. apply andb_prop in S as [_ S]. cbn in S. destruct (direct_place d S m) as (x & j & E & _). rewrite ED in E. injection E as -> ->.
        unfold read in R. cbn [asAddr bind] in R. now apply load_err in R.
    + replace (size t) with 1%nat by (destruct t; try discriminate; reflexivity).
      assert (Y : forall k st r, exec ((compDes d ++ [IDeref t]) ++ k) (Mach m st r) = let* s := step binop fenv fuel (IDeref t) (Mach m1 (p :: st) r) in exec k s).
      { intros k st r. rewrite <- !app_assoc, IH. reflexivity. }
      rewrite read_1. cbn [step mstk mmem mreg] in Y. unfold deref in Y. rewrite ST in Y.
      destruct (asAddr p) as [a| |]; cbn [bind] in *; auto. destruct (load m1 a 1) as [l| |] eqn:L; cbn [bind] in *; auto.
      pose proof (load_length _ _ _ _ L) as Ll. destruct l as [|h [|? ?]]; try discriminate Ll. cbn [bind] in Y.
      exists (SV h). split; [unfold cellsOf; rewrite ST; reflexivity|]. split; [|exact Y]. intros ? ? [= <- <-]. congruence.
  - intros op a IHa b IHb m G. semstep. apply andb_prop in G as [G Sb]. apply andb_prop in G as [G Sa]. apply andb_prop in G as [Ga Gb].
    specialize (IHa m Ga). destruct (semExpr m a) as [[m1 xs]|er|]; cbn [bind]; auto.
    2: { intros S k st r. apply andb_prop in S as [S _]. rewrite <- app_assoc. apply IHa, S. }
    specialize (IHb m1 Gb). destruct IHa as (sa & Ca & _ & Xa). destruct (semExpr m1 b) as [[m2 ys]|er|]; cbn [bind]; auto.
    2: { intros S k st r. apply andb_prop in S as [_ S]. rewrite <- !app_assoc, Xa. apply IHb, S. }
    destruct IHb as (sb & Cb & _ & Xb). unfold scalar in *. apply negb_true_iff in Sa, Sb.
    destruct (scalar_slot _ _ _ _ Sa Ca) as (va & -> & ->). destruct (scalar_slot _ _ _ _ Sb Cb) as (vb & -> & ->). unfold intOf. cbn [one bind].
    assert (Y : forall k st r, exec ((compExpr a ++ compExpr b ++ [IBinary op]) ++ k) (Mach m st r) = let* s := step binop fenv fuel (IBinary op) (Mach m2 (SV vb :: SV va :: st) r) in exec k s).
    { intros k st r. rewrite <- !app_assoc, Xa, Xb. reflexivity. }
    cbn [step mstk mmem mreg asVal bind] in Y. destruct va as [x|], vb as [y|]; cbn [asInt bind] in *; auto.
    destruct (binop op x y) as [z|er|]; cbn [bind] in *; auto. exists (SV (VI z)). split; [reflexivity|]. split; [discriminate|exact Y].
  - intros a IHa b IHb m G. semstep. apply andb_prop in G as [G Sab]. apply andb_prop in G as [Ga Gb].
    specialize (IHa m Ga). destruct (semExpr m a) as [[m1 xs]|er|]; cbn [bind]; auto.
    2: { intros S k st r. apply andb_prop in S as [S _]. rewrite <- app_assoc. apply IHa, S. }
    specialize (IHb m1 Gb). destruct IHa as (sa & Ca & _ & Xa). destruct (semExpr m1 b) as [[m2 ys]|er|] eqn:Eb; cbn [bind]; auto.
    2: { intros S k st r. apply andb_prop in S as [_ S]. rewrite <- !app_assoc, Xa. apply IHb, S. }
    destruct IHb as (sb & Cb & _ & Xb).
    assert (Ca' : cellsOf m2 sa (ety a) = Ok xs /\ cellsOf m2 sb (ety a) = Ok ys).
    { unfold scalar in Sab. destruct (structured (ety a)) eqn:Ta, (structured (ety b)) eqn:Tb; cbn in Sab; try discriminate; try (rewrite andb_false_r in Sab; discriminate).
      - apply andb_prop in Sab as [Sz P]. apply andb_prop in Sz as [Sz _]. apply Nat.eqb_eq in Sz. rewrite (proj2 pure_mem _ P _ _ _ Eb) in *. split; [exact Ca|].
        unfold cellsOf in *. rewrite Ta. rewrite Tb in Cb. now rewrite Sz.
      - destruct (scalar_slot _ _ _ _ Ta Ca) as (va & -> & ->). destruct (scalar_slot _ _ _ _ Tb Cb) as (vb & -> & ->). unfold cellsOf. rewrite Ta. auto. }
    destruct Ca' as [C1 C2]. exists (SV (VI (if list_eq_dec val_eq_dec xs ys then 1 else 0))). split; [reflexivity|]. split; [discriminate|]. intros k st r. rewrite <- !app_assoc, Xa, Xb. cbn [app EvalModel.exec step mstk mmem mreg].
    rewrite C1, C2. reflexivity.
  - intros f a IHa m G. semstep. apply andb_prop in G as [Ga Sa]. specialize (IHa m Ga). destruct (semExpr m a) as [[m1 xs]|er|]; cbn [bind]; auto.
    2: { intros S k st r. rewrite <- app_assoc. apply IHa, S. }
    destruct IHa as (sa & Ca & _ & Xa). unfold scalar in Sa. apply negb_true_iff in Sa. destruct (scalar_slot _ _ _ _ Sa Ca) as (va & -> & ->). unfold intOf. cbn [one bind].
    assert (Y : forall k st r, exec ((compExpr a ++ [ICall f]) ++ k) (Mach m st r) = let* s := step binop fenv fuel (ICall f) (Mach m1 (SV va :: st) r) in exec k s).
    { intros k st r. rewrite <- !app_assoc, Xa. reflexivity. }
    cbn [step mstk mmem mreg asVal bind] in Y. destruct va as [x|]; cbn [asInt bind] in *; auto.
    destruct (fenv f m1 x) as [[m2 z]|er|]; cbn [bind fst snd] in *; auto. exists (SV (VI z)). split; [reflexivity|]. split; [discriminate|exact Y].
Qed.
End Sim.
