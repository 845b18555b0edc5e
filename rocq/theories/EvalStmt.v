(** Statements. *)
From Coq Require Import ZArith Lia Bool List.
From Verif Require Import Base EvalModel EvalSpec EvalProofs.
Import ListNotations.
Local Open Scope Z_scope.

Section Stmt.
Variable binop : nat -> Z -> Z -> outcome Z.
Variable fenv : nat -> mem -> Z -> outcome (mem * Z).
Variable fuel : nat.
Variable stat : nat -> bool.
Hypothesis CALLS : tidyCalls stat fenv.
Notation exec := (exec binop fenv fuel).
Notation semDes := (semDes binop fenv).
Notation semExpr := (semExpr binop fenv).
Notation semDess := (semDess binop fenv).
Notation semExprs := (semExprs binop fenv).
Notation tidy := (tidy stat).
Notation vok := (vok stat).
Notation assign := (assign fuel).
Notation assigns := (assigns fuel).

(** A place does not lie in block [t]. *)
Definition away (t : nat) (p : slot) : Prop := match p with SA a => fst a <> t | SV (VR (Some b)) => b <> t | SV _ => True end.
Lemma away_addr t p a : away t p -> asAddr p = Ok a -> fst a <> t.
Proof. destruct p as [[z|[b|]]|a']; cbn; intros A [= <-]; exact A. Qed.

Ltac semstep := first [rewrite sem_idx | rewrite sem_fld | rewrite sem_deref | rewrite sem_read | rewrite sem_bin | rewrite sem_eq | rewrite sem_call].
Lemma read_vok m p n vs : tidy m -> read m p n = Ok vs -> Forall vok vs.
Proof. unfold read. intros T. destruct (asAddr p); cbn [bind]; try discriminate. apply load_vok, T. Qed.
Lemma away_val t v : stat t = true -> vok v -> away t (SV v).
Proof. destruct v as [|[b|]]; cbn; auto. intros S B <-. congruence. Qed.

Lemma tidy_de :
  (forall d m m1 p, tidy m -> semDes m d = Ok (m1, p) -> tidy m1 /\ forall t, stat t = true -> usesD t d = false -> away t p) /\
  (forall e m m1 vs, tidy m -> semExpr m e = Ok (m1, vs) -> tidy m1 /\ Forall vok vs).
Proof.
  apply de_ind.
  - intros x m m1 p T [= <- <-]. split; [exact T|]. cbn. intros t _ U ->. now rewrite Nat.eqb_refl in U.
  - intros d IH k m m1 p T. semstep. destruct (semDes m d) as [[m2 q]|er|] eqn:E; cbn [bind]; try discriminate.
    destruct (asAddr q) as [a| |] eqn:A; cbn [bind]; try discriminate. intros [= <- <-]. destruct (IH _ _ _ T E) as [T2 W]. split; [exact T2|].
    intros t St U. cbn. exact (away_addr _ _ _ (W t St U) A).
  - intros d IHd e IHe m m1 p T. semstep. destruct (semDes m d) as [[m2 q]|er|] eqn:E; cbn [bind]; try discriminate.
    destruct (semExpr m2 e) as [[m3 vs]|er|] eqn:E2; cbn [bind]; try discriminate. destruct (IHd _ _ _ T E) as [T2 _]. destruct (IHe _ _ _ T2 E2) as [T3 _].
    destruct (intOf vs); cbn [bind]; try discriminate. destruct (read m3 q 1) as [hs| |] eqn:R; cbn [bind]; try discriminate. pose proof (read_vok _ _ _ _ T3 R) as V.
    destruct hs as [|h [|? ?]]; cbn [one bind]; try discriminate. apply Forall_inv in V.
    destruct h as [|[b|]]; cbn [asRef bind]; try discriminate. destruct (getBlock _ b); cbn [bind]; try discriminate. destruct (_ && _); try discriminate. intros [= <- <-].
    split; [exact T3|]. intros t St _. cbn in *. intros <-. congruence.
  - intros d IH m m1 p T. semstep. destruct (semDes m d) as [[m2 q]|er|] eqn:E; cbn [bind]; try discriminate. destruct (IH _ _ _ T E) as [T2 _].
    destruct (read m2 q 1) as [hs| |] eqn:R; cbn [bind]; try discriminate. pose proof (read_vok _ _ _ _ T2 R) as V.
    destruct hs as [|h [|? ?]]; cbn [one bind]; try discriminate. apply Forall_inv in V. intros [= <- <-]. split; [exact T2|]. intros t St _. now apply away_val.
  - intros z m m1 vs T [= <- <-]. split; [exact T|]. repeat constructor.
  - intros d IH t m m1 p T. semstep. destruct (semDes m d) as [[m2 q]|er|] eqn:E; cbn [bind]; try discriminate. destruct (IH _ _ _ T E) as [T2 _].
    destruct (read m2 q _) as [hs| |] eqn:R; cbn [bind]; try discriminate. intros [= <- <-]. split; [exact T2|exact (read_vok _ _ _ _ T2 R)].
  - intros op a IHa b IHb m m1 p T. semstep. destruct (semExpr m a) as [[m2 q]|er|] eqn:E; cbn [bind]; try discriminate. destruct (IHa _ _ _ T E) as [T2 _].
    destruct (semExpr m2 b) as [[m3 vs]|er|] eqn:E2; cbn [bind]; try discriminate. destruct (IHb _ _ _ T2 E2) as [T3 _].
    destruct (intOf q); cbn [bind]; try discriminate. destruct (intOf vs); cbn [bind]; try discriminate. destruct (binop _ _ _); cbn [bind]; try discriminate. intros [= <- <-].
    split; [exact T3|]. repeat constructor.
  - intros a IHa b IHb m m1 p T. semstep. destruct (semExpr m a) as [[m2 q]|er|] eqn:E; cbn [bind]; try discriminate. destruct (IHa _ _ _ T E) as [T2 _].
    destruct (semExpr m2 b) as [[m3 vs]|er|] eqn:E2; cbn [bind]; try discriminate. destruct (IHb _ _ _ T2 E2) as [T3 _]. intros [= <- <-].
    split; [exact T3|]. repeat constructor.
  - intros f a IHa m m1 p T. semstep. destruct (semExpr m a) as [[m2 q]|er|] eqn:E; cbn [bind]; try discriminate. destruct (IHa _ _ _ T E) as [T2 _].
    destruct (intOf q) as [x| |]; cbn [bind]; try discriminate. destruct (fenv f m2 x) as [[m3 z]|er|] eqn:F; cbn [bind]; try discriminate. intros [= <- <-].
    split; [exact (CALLS _ _ _ _ _ T2 F)|]. repeat constructor.
Qed.

(** The right operand of an assignment, seen in memory before, can still be read when it is copied. *)
Definition lasting (m : mem) (sl : slot) (t : ty) : Prop := structured t = false \/ gc t = false \/ exists x k, sl = SA (x, k) /\ stat x = true.

Lemma asg_eq m p sl t vs : tidy m -> cellsOf m sl t = Ok vs -> lasting m sl t -> refCntAssign fuel m p sl t = assign m p t vs.
Proof.
  intros T C L. unfold refCntAssign, EvalSpec.assign. rewrite C. cbn [bind]. destruct (incs m (trefs t vs)) as [m1| |] eqn:I; cbn [bind]; auto.
  unfold read. destruct (asAddr p) as [a| |]; cbn [bind]; auto. destruct (load m1 a (size t)) as [old| |]; cbn [bind]; auto.
  destruct (decs fuel m1 (trefs t old)) as [m2| |] eqn:D; cbn [bind]; auto.
  assert (C2 : cellsOf m2 sl t = Ok vs). 2: { now rewrite C2. }
  destruct L as [L | [L | (x & k & -> & Sx)]].
  - unfold cellsOf in *. now rewrite L in *.
  - unfold trefs in D. rewrite L in D. assert (m2 = m1) as -> by (destruct fuel; cbn in D; congruence). now rewrite (incs_cells _ _ _ I).
  - rewrite <- C. pose proof (incs_cells _ _ _ I (SA (x, k)) t) as <-. unfold cellsOf. destruct (structured t); [|reflexivity]. cbn [asAddr bind]. apply load_same. cbn [fst]. apply view_nth.
    destruct (nth_error m1 x) as [kb|] eqn:N.
    + apply (decs_static _ _ _ _ D _ _ N). apply (tidy_incs stat _ _ _ T I _ _ N), Sx.
    + unfold cellsOf in C. destruct (structured t) eqn:St.
      * cbn [asAddr bind] in C. rewrite <- (incs_load _ _ _ I) in C. unfold load, getBlock in C. cbn [fst] in C. rewrite N in C. discriminate.
      * cbn in C. discriminate.
Qed.

Lemma bind_assoc {A B C} (x : outcome A) (f : A -> outcome B) (g : B -> outcome C) : bind (bind x f) g = bind x (fun a => bind (f a) g).
Proof. destruct x; reflexivity. Qed.

(** * Single statements *)
Definition end_ (o : outcome mem) (st : list slot) (r : slot) : outcome mach := let* m := o in Ok (Mach m st r).
Definition agrees (s : stmt) : Prop := forall m st r, tidy m ->
  match sem binop fenv fuel m s with
  | Ok m' => exists r', exec (comp s) (Mach m st r) = Ok (Mach m' st r')
  | Err e => strict s = true -> exec (comp s) (Mach m st r) = Err e
  | UB => True
  end.

Lemma asg_agrees d e : good (SAsg d e) = true -> (forall x, uses x (SAsg d e) = true -> stat x = true) -> agrees (SAsg d e).
Proof.
  intros G U m st r T. cbn [good] in G. apply andb_prop in G as [G Sf]. apply andb_prop in G as [Gd Ge]. cbn [sem comp strict].
  pose proof (proj1 (sim_de binop fenv fuel) d m Gd) as HD. destruct (semDes m d) as [[m1 p]|er|] eqn:ED; cbn [bind]; auto.
  2: { intros S. apply andb_prop in S as [S _]. apply HD, S. }
  destruct (proj1 tidy_de _ _ _ _ T ED) as [T1 _].
  pose proof (proj2 (sim_de binop fenv fuel) e m1 Ge) as HE. destruct (semExpr m1 e) as [[m2 vs]|er|] eqn:EE; cbn [bind]; auto.
  2: { intros S. apply andb_prop in S as [_ S]. rewrite HD. apply HE, S. }
  destruct (proj2 tidy_de _ _ _ _ T1 EE) as [T2 _]. destruct HE as (sl & C & W & X).
  assert (L : lasting m2 sl (ety e)).
  { unfold lasting. destruct e as [z|d' t|op a b|a b|f a]; cbn [ety]; auto. destruct (structured t) eqn:St; [|auto]. destruct (gc t) eqn:Gc; [|auto]. right; right.
    cbn [safeRhs] in Sf. rewrite St, Gc in Sf. cbn in Sf. destruct (direct_place binop fenv d' Sf m1) as (x & k & E & Ux). rewrite (W _ _ eq_refl St) in E. injection E as -> ->.
    exists x, k. split; [reflexivity|]. apply U. cbn. now rewrite Ux, orb_true_r. }
  assert (Y : exec (compDes d ++ compExpr e ++ [IRefCntAssign (ety e)]) (Mach m st r) = end_ (assign m2 p (ety e) vs) st r).
  { rewrite HD, X. cbn [EvalModel.exec step mstk mmem mreg]. rewrite (asg_eq _ _ _ _ _ T2 C L). unfold end_. destruct (assign m2 p (ety e) vs); reflexivity. }
  rewrite Y. unfold end_. destruct (assign m2 p (ety e) vs); cbn [bind]; eauto.
Qed.

Lemma short_agrees d op e : good (SShort d op e) = true -> agrees (SShort d op e).
Proof.
  intros G m st r T. cbn [good] in G. apply andb_prop in G as [G Sf]. apply andb_prop in G as [Gd Ge]. cbn [sem comp strict].
  pose proof (proj1 (sim_de binop fenv fuel) d m Gd) as HD. destruct (semDes m d) as [[m1 p]|er|] eqn:ED; cbn [bind]; auto.
  2: { intros S. apply andb_prop in S as [S _]. apply HD, S. }
  destruct (proj1 tidy_de _ _ _ _ T ED) as [T1 _].
  assert (Y : exec (compDes d ++ [IDup; IDeref TInt] ++ compExpr e ++ [IBinary op; IRefCntAssign TInt]) (Mach m st r)
    = let* s := step binop fenv fuel (IDeref TInt) (Mach m1 (p :: p :: st) r) in exec (compExpr e ++ [IBinary op; IRefCntAssign TInt]) s).
  { rewrite HD. reflexivity. }
  cbn [step mstk mmem mreg] in Y. unfold deref in Y. cbn [structured] in Y. unfold read.
  destruct (asAddr p) as [a| |] eqn:A; cbn [bind] in *; auto. destruct (load m1 a 1) as [l| |] eqn:L; cbn [bind] in *; auto.
  pose proof (load_length _ _ _ _ L) as Ll. destruct l as [|h [|? ?]]; try discriminate Ll. cbn [bind] in Y.
  pose proof (proj2 (sim_de binop fenv fuel) e m1 Ge) as HE. destruct (semExpr m1 e) as [[m2 vs]|er|] eqn:EE; cbn [bind]; auto.
  2: { intros S. apply andb_prop in S as [_ S]. rewrite Y. apply HE, S. }
  destruct HE as (sl & C & W & X). rewrite X in Y. unfold scalar in Sf. apply negb_true_iff in Sf. destruct (scalar_slot _ _ _ _ Sf C) as (v & -> & ->).
  unfold intOf. cbn [one bind]. cbn [EvalModel.exec step mstk mmem mreg asVal bind] in Y. destruct h as [x|], v as [y|]; cbn [asInt bind] in *; auto.
  destruct (binop op x y) as [z| |]; cbn [bind] in *; auto. cbn [mstk mmem mreg] in Y.
  destruct (proj2 tidy_de _ _ _ _ T1 EE) as [T2 _].
  rewrite (asg_eq m2 p (SV (VI z)) TInt [VI z] T2 eq_refl (or_introl eq_refl)) in Y. destruct (assign m2 p TInt [VI z]); cbn [bind] in *; eauto.
Qed.

Lemma decl_agrees x e : good (SDecl x e) = true -> agrees (SDecl x e).
Proof.
  intros G m st r T. cbn [good] in G. cbn [sem comp strict].
  pose proof (proj2 (sim_de binop fenv fuel) e m G) as HE. destruct (semExpr m e) as [[m2 vs]|er|] eqn:EE; cbn [bind]; auto.
  destruct HE as (sl & C & W & X). rewrite X. cbn [EvalModel.exec step mstk mmem mreg]. rewrite C. cbn [bind].
  destruct (incs m2 (trefs (ety e) vs)) as [m3| |] eqn:I; cbn [bind mstk mmem mreg asAddr]; auto. rewrite (incs_cells _ _ _ I), C. cbn [bind].
  destruct (store m3 (x, O) vs); cbn [bind]; eauto.
Qed.

(** * Lists *)
Definition fits (m : mem) (t : nat) (e : expr) (sl : slot) (vs : list val) : Prop :=
  cellsOf m sl (ety e) = Ok vs /\ (structured (ety e) = true -> away t sl) /\ length vs = size (ety e) /\ Forall vok vs.
Inductive fitsAll (m : mem) (t : nat) : list expr -> list slot -> list (list val) -> Prop :=
| fitsNil : fitsAll m t [] [] []
| fitsCons e sl vs es sls vss : fits m t e sl vs -> fitsAll m t es sls vss -> fitsAll m t (e :: es) (sl :: sls) (vs :: vss).

Lemma cells_length m sl t vs : cellsOf m sl t = Ok vs -> length vs = size t.
Proof.
  unfold cellsOf. destruct (structured t) eqn:S.
  - destruct (asAddr sl); cbn [bind]; try discriminate. apply load_length.
  - destruct (asVal sl); cbn [bind]; intros [= <-]. destruct t; try discriminate; reflexivity.
Qed.
Lemma cells_view m m' sl t w : structured w = false \/ away t sl -> (forall b, b <> t -> view m' b = view m b) -> cellsOf m' sl w = cellsOf m sl w.
Proof.
  intros A V. unfold cellsOf. destruct (structured w) eqn:S; [|reflexivity]. destruct A as [A|A]; [discriminate|].
  destruct (asAddr sl) as [a| |] eqn:E; cbn [bind]; auto. apply load_same, V, (away_addr _ _ _ A E).
Qed.
Lemma fits_view m m' t es sls vss : (forall b, b <> t -> view m' b = view m b) -> fitsAll m t es sls vss -> fitsAll m' t es sls vss.
Proof.
  intros V H. induction H as [|e sl vs es sls vss (C & A & L & F) _ IH]; constructor; auto. split; [|auto]. rewrite <- C. eapply cells_view; eauto.
  destruct (structured (ety e)); auto.
Qed.

Lemma dess_sim ds : forall m, forallb goodD ds = true ->
  match semDess m ds with
  | Ok (m1, ps) => length ps = length ds /\ forall k st r, exec (concat (map compDes ds) ++ k) (Mach m st r) = exec k (Mach m1 (rev ps ++ st) r)
  | Err e => forallb strictD ds = true -> forall k st r, exec (concat (map compDes ds) ++ k) (Mach m st r) = Err e
  | UB => True
  end.
Proof.
  induction ds as [|d ds IH]; intros m G; cbn [EvalSpec.semDess]. { split; auto. }
  cbn [forallb] in *. apply andb_prop in G as [Gd G]. pose proof (proj1 (sim_de binop fenv fuel) d m Gd) as HD.
  destruct (semDes m d) as [[m1 p]|er|]; cbn [bind]; auto.
  2: { intros S k st r. apply andb_prop in S as [S _]. cbn [map concat]. rewrite <- app_assoc. apply HD, S. }
  specialize (IH m1 G). destruct (semDess m1 ds) as [[m2 ps]|er|]; cbn [bind]; auto.
  - destruct IH as [L IH]. split; [cbn; lia|]. intros k st r. cbn [map concat]. rewrite <- app_assoc, HD, IH. cbn [rev]. now rewrite <- app_assoc.
  - intros S k st r. apply andb_prop in S as [_ S]. cbn [map concat]. rewrite <- app_assoc, HD. apply IH, S.
Qed.
Lemma dess_tidy ds : forall m m1 ps, tidy m -> semDess m ds = Ok (m1, ps) ->
  tidy m1 /\ forall t, stat t = true -> forallb (fun d => negb (usesD t d)) ds = true -> Forall (away t) ps.
Proof.
  induction ds as [|d ds IH]; intros m m1 ps T; cbn [EvalSpec.semDess]. { intros [= <- <-]. split; auto. }
  destruct (semDes m d) as [[m2 p]|er|] eqn:ED; cbn [bind]; try discriminate. destruct (proj1 tidy_de _ _ _ _ T ED) as [T2 A].
  destruct (semDess m2 ds) as [[m3 qs]|er|] eqn:E; cbn [bind]; try discriminate. intros [= <- <-]. destruct (IH _ _ _ T2 E) as [T3 B]. split; [exact T3|].
  intros t St U. cbn [forallb] in U. apply andb_prop in U as [U1 U2]. constructor; [|exact (B t St U2)]. apply (A t St). now apply negb_true_iff.
Qed.
Lemma pure_all l : forallb pureE l = true -> forall m m1 vss, semExprs m l = Ok (m1, vss) -> m1 = m.
Proof.
  induction l as [|e l IH]; cbn [forallb EvalSpec.semExprs]; intros P m m1 vss. { now intros [= <- _]. }
  apply andb_prop in P as [P1 P2]. destruct (semExpr m e) as [[m2 vs]|er|] eqn:E; cbn [bind]; try discriminate.
  destruct (semExprs m2 l) as [[m3 ws]|er|] eqn:E2; cbn [bind]; try discriminate. intros [= <- _].
  rewrite (IH P2 _ _ _ E2). exact (proj2 (pure_mem binop fenv) _ P1 _ _ _ E).
Qed.
Lemma exprs_sim t es : stat t = true -> forall m, tidy m -> goodList es = true -> forallb (fun e => negb (usesE t e)) es = true ->
  match semExprs m es with
  | Ok (m1, vss) => tidy m1 /\ exists sls, fitsAll m1 t es sls vss /\ forall k st r, exec (concat (map compExpr es) ++ k) (Mach m st r) = exec k (Mach m1 (rev sls ++ st) r)
  | Err e => forallb strictE es = true -> forall k st r, exec (concat (map compExpr es) ++ k) (Mach m st r) = Err e
  | UB => True
  end.
Proof.
  intros St. induction es as [|e es IH]; intros m T G U; cbn [EvalSpec.semExprs]. { split; [exact T|]. exists []. split; [constructor|reflexivity]. }
  cbn [forallb goodList] in *. apply andb_prop in G as [G Gl]. apply andb_prop in G as [Ge Gs]. apply andb_prop in U as [Ue Ul].
  pose proof (proj2 (sim_de binop fenv fuel) e m Ge) as HE. destruct (semExpr m e) as [[m1 vs]|er|] eqn:EE; cbn [bind]; auto.
  2: { intros S k st r. apply andb_prop in S as [S _]. cbn [map concat]. rewrite <- app_assoc. apply HE, S. }
  destruct (proj2 tidy_de _ _ _ _ T EE) as [T1 V]. destruct HE as (sl & C & W & X). specialize (IH m1 T1 Gl Ul).
  destruct (semExprs m1 es) as [[m2 vss]|er|] eqn:EL; cbn [bind]; auto.
  - destruct IH as (T2 & sls & F & Y). split; [exact T2|]. exists (sl :: sls). split.
    + constructor; [|exact F].
      assert (A : structured (ety e) = true -> away t sl).
      { intros S. destruct e as [z|d w|op a b|a b|f a]; cbn in S; try discriminate. pose proof (W _ _ eq_refl S) as ED. apply negb_true_iff in Ue.
        exact (proj2 (proj1 tidy_de _ _ _ _ T ED) t St Ue). }
      split; [|split; [exact A|split; [exact (cells_length _ _ _ _ C)|exact V]]].
      unfold scalar in Gs. destruct (structured (ety e)) eqn:S; cbn [negb orb] in Gs.
      * now rewrite (pure_all _ Gs _ _ _ EL).
      * destruct (scalar_slot _ _ _ _ S C) as (v & -> & ->). unfold cellsOf. now rewrite S.
    + intros k st r. cbn [map concat]. rewrite <- app_assoc, X, Y. cbn [rev]. now rewrite <- app_assoc.
  - intros S k st r. apply andb_prop in S as [_ S]. cbn [map concat]. rewrite <- app_assoc, X. apply IH, S.
Qed.

(** ** The hidden variable *)
Lemma store_view m b pre old post vs m' : view m b = Ok (pre ++ old ++ post) -> length old = length vs -> store m (b, length pre) vs = Ok m' ->
  view m' b = Ok (pre ++ vs ++ post) /\ forall c, c <> b -> view m' c = view m c.
Proof.
  intros V L. unfold store. cbn [fst snd]. unfold view in V. destruct (getBlock m b) as [k| |] eqn:G; cbn [bind] in *; try discriminate. injection V as V.
  destruct (getBlock_nth _ _ _ G) as [N Lv]. destruct (Nat.leb _ _); intros [= <-]. split.
  - unfold view, getBlock. rewrite (setNth_same _ _ _ _ N). cbn [blive]. rewrite Lv. cbn [bind bcells]. do 2 f_equal.
    + rewrite V, firstn_app, Nat.sub_diag, firstn_all, firstn_O, app_nil_r. reflexivity.
    + f_equal. rewrite V, <- L, <- app_length, app_assoc, skipn_app, skipn_all, Nat.sub_diag. reflexivity.
  - intros c D. apply view_nth, setNth_other. congruence.
Qed.
Lemma load_part m b pre old post n : view m b = Ok (pre ++ old ++ post) -> length old = n -> load m (b, length pre) n = Ok old.
Proof.
  intros V <-. rewrite load_view. cbn [fst snd]. rewrite V. cbn [bind]. rewrite !app_length.
  replace (Nat.leb _ _) with true by (symmetry; apply Nat.leb_le; lia). f_equal.
  rewrite skipn_app, skipn_all, Nat.sub_diag. cbn [app skipn]. now rewrite firstn_app, Nat.sub_diag, firstn_all, firstn_O, app_nil_r.
Qed.
Lemma refs_zero n : refs (repeat (VI 0) n) = [].
Proof. induction n; auto. Qed.
Lemma decs_nil m : decs fuel m [] = Ok m.
Proof. destruct fuel; reflexivity. Qed.

(** Assigning into the zeroed hidden variable. *)
Lemma hold_one m t pre n post sl w vs : view m t = Ok (pre ++ repeat (VI 0) n ++ post) -> n = size w -> length vs = n -> (structured w = true -> away t sl) -> cellsOf m sl w = Ok vs ->
  refCntAssign fuel m (SA (t, length pre)) sl w = assign m (SA (t, length pre)) w vs
  /\ forall m', assign m (SA (t, length pre)) w vs = Ok m' -> view m' t = Ok (pre ++ vs ++ post) /\ (forall c, c <> t -> view m' c = view m c)
     /\ (tidy m -> Forall vok vs -> tidy m').
Proof.
  intros V -> L A C. unfold refCntAssign, EvalSpec.assign. rewrite C. cbn [bind]. destruct (incs m (trefs w vs)) as [m1| |] eqn:I; cbn [bind asAddr]; try (split; [reflexivity|discriminate]).
  assert (V1 : view m1 t = Ok (pre ++ repeat (VI 0) (size w) ++ post)) by now rewrite (incs_view _ _ _ I).
  unfold read. cbn [asAddr bind]. rewrite (load_part _ _ _ _ _ _ V1 (repeat_length _ _)). cbn [bind].
  assert (E : trefs w (repeat (VI 0) (size w)) = []) by (unfold trefs; rewrite refs_zero; now destruct (gc w)). rewrite E, decs_nil. cbn [bind].
  rewrite (incs_cells _ _ _ I), C. cbn [bind]. split; [reflexivity|]. intros m' S. destruct (store_view _ _ _ _ _ _ _ V1 (eq_trans (repeat_length _ _) (eq_sym L)) S) as [V2 O].
  split; [exact V2|]. split; [intros c D; rewrite (O c D); apply (incs_view _ _ _ I)|]. intros T F. exact (tidy_store _ _ _ _ _ (tidy_incs _ _ _ _ T I) F S).
Qed.

Definition holdCode (t o : nat) (es : list expr) : list instr :=
  concat (rev (map (fun p => [IPtr (t, fst p); ISwapRefCntAssign (ety (snd p))]) (combine (offsets o es) es))).
Lemma hold_all t es : forall m o pre post sls vss, tidy m -> length pre = o -> fitsAll m t es sls vss -> view m t = Ok (pre ++ repeat (VI 0) (total es) ++ post) ->
  let a := assigns m (zip3 (parts t o (map ety es)) (map ety es) vss) in
  (forall k st r, exec (holdCode t o es ++ k) (Mach m (rev sls ++ st) r) = let* m' := a in exec k (Mach m' st r))
  /\ forall m', a = Ok m' -> tidy m' /\ view m' t = Ok (pre ++ concat vss ++ post) /\ forall c, c <> t -> view m' c = view m c.
Proof.
  induction es as [|e es IH]; intros m o pre post sls vss T Lp F V; inversion F as [|e' sl vs es' sls' vss' Fe Fs]; subst; cbn zeta.
  { split; [reflexivity|]. intros m' [= <-]. auto. }
  destruct Fe as (C & A & L & Vk). cbn [map parts zip3 EvalSpec.assigns].
  cbn [total] in V. rewrite repeat_app, <- app_assoc, (app_assoc pre) in V.
  assert (Lp : length (pre ++ repeat (VI 0) (size (ety e))) = (length pre + size (ety e))%nat) by now rewrite app_length, repeat_length.
  destruct (IH m _ _ post sls' vss' T Lp Fs V) as [X Y]. set (a := assigns m _) in *.
  assert (H1 : forall m1, a = Ok m1 ->
    let b := assign m1 (SA (t, length pre)) (ety e) vs in
    refCntAssign fuel m1 (SA (t, length pre)) sl (ety e) = b
    /\ forall m', b = Ok m' -> tidy m' /\ view m' t = Ok (pre ++ concat (vs :: vss') ++ post) /\ forall c, c <> t -> view m' c = view m c).
  { intros m1 Ea b. destruct (Y _ Ea) as (T1 & V1 & O1). rewrite <- app_assoc in V1.
    assert (C1 : cellsOf m1 sl (ety e) = Ok vs). { rewrite <- C. eapply cells_view; [|exact O1]. destruct (structured (ety e)); auto. }
    destruct (hold_one _ _ _ _ _ _ _ _ V1 eq_refl L A C1) as [Z1 Z2]. split; [exact Z1|]. intros m' B. destruct (Z2 _ B) as (V2 & O2 & T2).
    split; [auto|]. split; [rewrite V2; cbn [concat]; now rewrite <- app_assoc|]. intros c D. now rewrite (O2 c D), (O1 c D). }
  split.
  - intros k st r. unfold holdCode. cbn [offsets combine map rev]. rewrite concat_app, <- app_assoc. cbn [rev concat]. rewrite app_nil_r, <- app_assoc.
    unfold holdCode in X. rewrite X. destruct a as [m1| |] eqn:Ea; cbn [bind]; auto. cbn [fst snd app EvalModel.exec step mstk mmem mreg bind].
    rewrite (proj1 (H1 _ eq_refl)). destruct (assign m1 _ _ vs); reflexivity.
  - intros m'. destruct a as [m1| |] eqn:Ea; cbn [bind]; try discriminate. intros B. exact (proj2 (H1 _ eq_refl) _ B).
Qed.

(** ** The assignments *)
Lemma assign_away m t p w vs m' : tidy m -> stat t = true -> away t p -> Forall vok vs -> assign m p w vs = Ok m' -> tidy m' /\ nth_error m' t = nth_error m t \/ nth_error m t = None.
Proof.
  intros T St A F. unfold EvalSpec.assign. destruct (incs m (trefs w vs)) as [m1| |] eqn:I; cbn [bind]; try discriminate.
  destruct (read m1 p (size w)) as [old| |]; cbn [bind]; try discriminate. destruct (decs fuel m1 (trefs w old)) as [m2| |] eqn:D; cbn [bind]; try discriminate.
  destruct (asAddr p) as [a| |] eqn:E; cbn [bind]; try discriminate. intros S. destruct (nth_error m t) as [k|] eqn:N; [left|auto].
  pose proof (tidy_incs _ _ _ _ T I) as T1. pose proof (tidy_decs _ _ _ _ _ T1 D) as T2.
  split; [exact (tidy_store _ _ _ _ _ T2 F S)|]. pose proof (away_addr _ _ _ A E) as At. rewrite (store_other _ _ _ _ t S) by congruence.
  pose proof (proj1 (proj1 (T _ _ N)) St) as B. apply (decs_static _ _ _ _ D); [|exact B]. exact (incs_static _ _ _ I _ _ N B).
Qed.

Definition asgCode (o : nat) (es : list expr) : list instr :=
  concat (rev (map (fun p => [IDup; IPopReg; IField (fst p)] ++ [IDeref (ety (snd p))] ++ [IRefCntAssign (ety (snd p)); IPushReg]) (combine (offsets o es) es))).
Lemma asg_all t es : stat t = true -> forall m o pre post ps vss st r, tidy m -> length pre = o -> length ps = length es ->
  Forall2 (fun e vs => length vs = size (ety e) /\ Forall vok vs) es vss -> Forall (away t) ps -> view m t = Ok (pre ++ concat vss ++ post) ->
  let a := assigns m (zip3 ps (map ety es) vss) in
  (exists r', forall k, exec (asgCode o es ++ k) (Mach m (SA (t, O) :: rev ps ++ st) r) = let* m' := a in exec k (Mach m' (SA (t, O) :: st) r'))
  /\ forall m', a = Ok m' -> tidy m' /\ view m' t = view m t.
Proof.
  intros St. induction es as [|e es IH]; intros m o pre post ps vss st r T Lp Ll F2 A V; inversion F2 as [|e' vs es' vss' [L Vk] F2']; subst; destruct ps as [|p ps]; try discriminate Ll; cbn zeta.
  { split; [exists r; reflexivity|]. intros m' [= <-]. auto. }
  injection Ll as Ll. inversion A as [|p' ps' Ap Aps]; subst. cbn [map zip3 EvalSpec.assigns].
  assert (V' : view m t = Ok ((pre ++ vs) ++ concat vss' ++ post)) by (rewrite V; cbn [concat]; now rewrite <- !app_assoc).
  assert (Lp : length (pre ++ vs) = (length pre + size (ety e))%nat) by (rewrite app_length; lia).
  destruct (IH m _ (pre ++ vs) post ps vss' (p :: st) r T Lp Ll F2' Aps V') as [[r1 X] Y]. set (a := assigns m _) in *.
  assert (H1 : forall m1, a = Ok m1 ->
    let b := assign m1 p (ety e) vs in
    (exists x, deref m1 (SA (t, 0 + length pre)%nat) (ety e) = Ok x /\ refCntAssign fuel m1 p x (ety e) = b)
    /\ forall m', b = Ok m' -> tidy m' /\ view m' t = view m t).
  { intros m1 Ea b. destruct (Y _ Ea) as (T1 & V1). rewrite V' in V1. rewrite <- app_assoc in V1. cbn [Nat.add].
    pose proof (load_part _ _ _ _ _ _ V1 L) as Ld. split.
    - unfold deref. cbn [asAddr bind]. destruct (structured (ety e)) eqn:S.
      + eexists. split; [reflexivity|]. apply asg_eq; [exact T1| |right; right; eauto]. unfold cellsOf. rewrite S. exact Ld.
      + replace (size (ety e)) with 1%nat in * by (destruct (ety e); try discriminate; reflexivity). rewrite Ld. cbn [bind].
        destruct vs as [|v [|? ?]]; try discriminate L. eexists. split; [reflexivity|]. apply asg_eq; [exact T1| |now left]. unfold cellsOf. rewrite S. reflexivity.
    - intros m' B. destruct (assign_away _ _ _ _ _ _ T1 St Ap Vk B) as [[T2 N]|N].
      + split; [exact T2|]. rewrite (view_nth _ _ _ N). now rewrite V1, V', <- app_assoc.
      + exfalso. unfold view, getBlock in V1. rewrite N in V1. discriminate. }
  split.
  - exists (SA (t, O)). intros k. replace (rev (p :: ps) ++ st) with (rev ps ++ p :: st) by (cbn [rev]; now rewrite <- app_assoc).
    unfold asgCode. cbn [offsets combine map rev]. rewrite concat_app, <- app_assoc. cbn [concat]. rewrite app_nil_r.
    unfold asgCode in X. rewrite X. destruct a as [m1| |] eqn:Ea; cbn [bind]; auto.
    destruct (H1 _ eq_refl) as [(x & Dx & Rx) _]. cbn [fst snd app EvalModel.exec step mstk mmem mreg bind asAddr]. rewrite Dx. cbn [bind mstk mmem mreg].
    rewrite Rx. destruct (assign m1 p (ety e) vs); reflexivity.
  - intros m'. destruct a as [m1| |] eqn:Ea; cbn [bind]; try discriminate. intros B. exact (proj2 (H1 _ eq_refl) _ B).
Qed.

Lemma fits2 m t es sls vss : fitsAll m t es sls vss -> Forall2 (fun e vs => length vs = size (ety e) /\ Forall vok vs) es vss.
Proof. induction 1 as [|e sl vs es sls vss (_ & _ & L & V)]; constructor; auto. Qed.
Lemma zero_hold m t n m1 : store m (t, O) (repeat (VI 0) n) = Ok m1 ->
  exists post, view m1 t = Ok ([] ++ repeat (VI 0) n ++ post) /\ forall c, c <> t -> view m1 c = view m c.
Proof.
  unfold store. cbn [fst snd]. destruct (getBlock m t) as [k| |] eqn:G; cbn [bind]; try discriminate. destruct (getBlock_nth _ _ _ G) as [N Lv].
  destruct (Nat.leb _ _); intros [= <-]. cbn [firstn app]. eexists. split.
  - unfold view, getBlock. rewrite (setNth_same _ _ _ _ N). cbn [blive]. rewrite Lv. reflexivity.
  - intros c D. apply view_nth, setNth_other. congruence.
Qed.

Lemma list_agrees t l : good (SList t l) = true -> stat t = true -> agrees (SList t l).
Proof.
  intros G St m st r T. cbn [good] in G. apply andb_prop in G as [G Ue]. apply andb_prop in G as [G Ud]. apply andb_prop in G as [Gd Ge]. cbn [sem comp strict].
  set (ds := map fst l) in *. set (es := map snd l) in *.
  replace (map (fun p : des * expr => compDes (fst p)) l) with (map compDes ds) by (unfold ds; now rewrite map_map).
  pose proof (dess_sim ds m Gd) as HD. destruct (semDess m ds) as [[m1 ps]|er|] eqn:ED; cbn [bind]; auto.
  2: { intros S. apply andb_prop in S as [S _]. apply HD, S. }
  destruct HD as [Lps HD]. rewrite HD. destruct (dess_tidy _ _ _ _ T ED) as [T1 A]. specialize (A t St Ud).
  pose proof (exprs_sim t es St m1 T1 Ge Ue) as HE. destruct (semExprs m1 es) as [[m2 vss]|er|] eqn:EE; cbn [bind]; auto.
  2: { intros S. apply andb_prop in S as [_ S]. unfold compList. rewrite <- app_assoc. apply HE, S. }
  destruct HE as (T2 & sls & F & X). unfold compList. rewrite <- app_assoc, X. cbn [app EvalModel.exec step mstk mmem mreg bind asAddr].
  destruct (store m2 (t, O) (repeat (VI 0) (total es))) as [m3| |] eqn:Z; cbn [bind]; auto. destruct (zero_hold _ _ _ _ Z) as (post & V3 & O3).
  assert (T3 : tidy m3). { refine (tidy_store _ _ _ _ _ T2 _ Z). clear. induction (total es); cbn; constructor; cbn; auto. }
  destruct (hold_all t es m3 O [] post sls vss T3 eq_refl (fits_view _ _ _ _ _ _ O3 F) V3) as [H1 H2]. cbn zeta in H1, H2.
  fold (holdCode t 0 es). rewrite <- app_assoc, H1. destruct (assigns m3 (zip3 (parts t 0 (map ety es)) (map ety es) vss)) as [m4| |]; cbn [bind]; auto.
  destruct (H2 _ eq_refl) as (T4 & V4 & _). cbn [app EvalModel.exec step mstk mmem mreg bind].
  assert (Ll : length ps = length es) by (rewrite Lps; unfold ds, es; now rewrite !map_length).
  destruct (asg_all t es St m4 O [] post ps vss st r T4 eq_refl Ll (fits2 _ _ _ _ _ F) A V4) as [[r' H3] _]. cbn zeta in H3.
  unfold compListAsg. fold (asgCode 0 es). rewrite H3. destruct (assigns m4 (zip3 ps (map ety es) vss)) as [m5| |]; cbn [bind]; auto.
  exists r'. reflexivity.
Qed.

Lemma all_agree s : good s = true -> (forall x, uses x s = true -> stat x = true) -> agrees s.
Proof.
  destruct s as [d e|t l|d op e|x e]; intros G U.
  - now apply asg_agrees.
  - apply list_agrees; [exact G|]. apply U. cbn [uses]. now rewrite Nat.eqb_refl.
  - now apply short_agrees.
  - now apply decl_agrees.
Qed.
End Stmt.
