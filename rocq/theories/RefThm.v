(** Reference counting: programs. *)
From Coq Require Import ZArith Lia Bool List ZifyBool Permutation.
From Verif Require Import Base RefModel RefSpec RefProofs RefLoop RefDec RefWrite RefOps RefAssign RefItems.
Import ListNotations.
Local Open Scope Z_scope.

Section Thm.
Variable env : nat -> ty.

(** ** More iterations *)
Lemma loop_more : forall n k inc m cs, loop env n inc m cs <> Err EFuel -> loop env (n + k) inc m cs = loop env n inc m cs.
Proof.
  induction n as [|n IH]; intros k inc m cs H.
  - destruct cs; [destruct k; reflexivity|destruct (H eq_refl)].
  - destruct cs as [|c r]; [reflexivity|]. cbn [loop Nat.add] in *. destruct (step env inc m c) as [[m1 new]|e|]; cbn [bind] in *; [|reflexivity|reflexivity]. apply IH. exact H.
Qed.
Lemma refCnt_more : forall n n' inc m p t m', (n <= n')%nat -> refCnt env n inc m p t = Ok m' -> refCnt env n' inc m p t = Ok m'.
Proof. intros n n' inc m p t m' L E. unfold refCnt in *. replace n' with (n + (n' - n))%nat by lia. rewrite loop_more; [exact E|rewrite E; discriminate]. Qed.
Lemma newItems_more : forall n n' m vs z it len g s', (n <= n')%nat -> newItems env n m vs z it len g = Ok s' -> newItems env n' m vs z it len g = Ok s'.
Proof.
  intros n n' m vs z it len g s' L E. unfold newItems in *. destruct ((len <? 0) || (INT_MAX <? len)); [discriminate E|]. destruct (alloc m _ _) as [m1 b].
  destruct (refCnt env n true m1 _ _) as [m2| |] eqn:E2; cbn [bind] in E; try discriminate E. rewrite (refCnt_more _ _ _ _ _ _ _ L E2). exact E.
Qed.
Ltac more n RM E := match type of E with context [refCnt env n ?i ?m ?p ?t] => let m2 := fresh "m2" in let E2 := fresh "E2" in destruct (refCnt env n i m p t) as [m2| |] eqn:E2; cbn [bind] in E; try discriminate E; rewrite (RM _ _ _ _ _ E2); cbn [bind] end.
Lemma exec_more : forall n n' s o s', (n <= n')%nat -> exec env n s o = Ok s' -> exec env n' s o = Ok s'.
Proof.
  intros n n' [m vs] o s' L E. pose proof (fun inc m p t m' => refCnt_more n n' inc m p t m' L) as RM. destruct o; cbn [exec fst snd] in *; try exact E.
  - destruct (refCntAssign env n false m a _ t) as [m1| |] eqn:E1; cbn [bind] in E; try discriminate E. unfold refCntAssign in *. destruct (refCnt env n true m _ t) as [m2| |] eqn:E2; cbn [bind] in E1; try discriminate E1. rewrite (RM _ _ _ _ _ E2). cbn [bind].
    destruct (refCnt env n false m2 _ t) as [m3| |] eqn:E3; cbn [bind] in E1; try discriminate E1. rewrite (RM _ _ _ _ _ E3). cbn [bind]. rewrite E1. exact E.
  - destruct (refCnt env n true m _ t) as [m2| |] eqn:E2; cbn [bind] in E; try discriminate E. rewrite (RM _ _ _ _ _ E2). exact E.
  - destruct vs as [|[z t] r]; [discriminate E|]. destruct (refCntAssign env n true m a _ t) as [m1| |] eqn:E1; cbn [bind] in E; try discriminate E. unfold refCntAssign in *. cbn [bind] in *.
    destruct (refCnt env n false m _ t) as [m3| |] eqn:E3; cbn [bind] in E1; try discriminate E1. rewrite (RM _ _ _ _ _ E3). cbn [bind]. rewrite E1. exact E.
  - destruct (refCnt env n true m _ _) as [m2| |] eqn:E2; cbn [bind] in E; try discriminate E. rewrite (RM _ _ _ _ _ E2). exact E.
  - destruct (refCnt env n true m _ _) as [m2| |] eqn:E2; cbn [bind] in E; try discriminate E. rewrite (RM _ _ _ _ _ E2). exact E.
  - exact (newItems_more _ _ _ _ _ _ _ _ _ L E).
  - destruct (Z.of_nat n0 <? dynLen m b); [discriminate E|]. destruct (dataOf m b) as [[| |]| |]; try (more n RM E); exact E.
  - destruct (dataOf m b) as [[| |]| |]; try exact E; exact (newItems_more _ _ _ _ _ _ _ _ _ L E).
  - destruct (_ || _ || _); [discriminate E|]. exact (newItems_more _ _ _ _ _ _ _ _ _ L E).
  - destruct (_ <=? _); [|exact (newItems_more _ _ _ _ _ _ _ _ _ L E)]. more n RM E. destruct (dataOf m b) as [|[|]|]; try (more n RM E); exact E.
  - destruct (_ || _); [discriminate E|]. destruct (_ <=? _); [|exact (newItems_more _ _ _ _ _ _ _ _ _ L E)]. more n RM E. destruct (dataOf m b) as [|[|]|]; try (more n RM E); exact E.
  - destruct (dataOf m b) as [[| |]|[|]|]; try discriminate E; (destruct (_ || _); [discriminate E|]); more n RM E; try (more n RM E); exact E.
  - destruct vs as [|[z t] r]; [discriminate E|]. destruct (refCnt env n false m _ t) as [m2| |] eqn:E2; cbn [bind] in E; try discriminate E. rewrite (RM _ _ _ _ _ E2). exact E.
Qed.

(** ** Operations *)
Definition fine (s : state) (x : outcome state) : Prop := (exists s', x = Ok s' /\ good env s') \/ (x = Err EOther /\ busy (fst s)).
Lemma fine_ok : forall s s', good env s' -> fine s (Ok s'). Proof. intros. left. eauto. Qed.
(** A value with zeros holds no references. *)
Lemma zero_slots : forall m m' a t, (forall o s, In (o, s) (slots t) -> read m' (plus a o) = WInt 0) -> refsAt m' a (slots t) = [] /\ slotsOk env m a [] .
Proof. intros m m' a t H. split; [|constructor]. unfold refsAt. apply flat_map_nil. intros [o s] I. cbn [fst]. rewrite (H o s I). reflexivity. Qed.
Lemma zero_ok : forall m a t, (forall o s, In (o, s) (slots t) -> read m (plus a o) = WInt 0) -> slotsOk env m a (slots t) /\ refsAt m a (slots t) = [].
Proof.
  intros m a t H. split; [|apply (zero_slots m m a t H)]. unfold slotsOk. apply Forall_forall. intros [o s] I. pose proof (H o s I) as E. pose proof (noStack _ _ _ I) as NS. unfold slotOk. cbn [fst snd]. rewrite E. destruct s; try exact Logic.I; [left; reflexivity|congruence].
Qed.
Lemma newvar_read : forall m z t g d, 0 <= d < sizeOf t -> read (write m (AVar z) (sizeOf t) g) (AVar (z + d)) = g d.
Proof. intros m z t g d L. rewrite write_read by exact Logic.I. cbn [hits offs]. destruct (Z.leb_spec z (z + d)); [|lia]. destruct (Z.ltb_spec (z + d) (z + sizeOf t)); [|lia]. cbn [andb]. f_equal. lia. Qed.
Lemma plus_var : forall z d, plus (AVar z) d = AVar (z + d). Proof. reflexivity. Qed.

Lemma op_decl : forall m vs z t, good env (m, vs) -> fresh (m, vs) z t -> good env (declare (m, vs) z t zeros).
Proof.
  intros m vs z t G F. unfold declare. cbn [fst snd]. destruct (zero_ok (write m (AVar z) (sizeOf t) zeros) (AVar z) t) as [A B].
  - intros o s I. pose proof (slots_inside t (proj1 F)) as In. unfold inside in In. rewrite Forall_forall in In. specialize (In _ I). cbn [fst snd] in In. rewrite plus_var, newvar_read; [reflexivity|]. destruct s; cbn [width] in In; lia.
  - apply (decl_ok env m vs z t m zeros G F (same_refl m)); auto. intros b. rewrite B, cnt_nil. lia.
Qed.
Lemma op_assign : forall m vs a b t, good env (m, vs) -> target env (m, vs) a t -> source env (m, vs) b t -> exists F, forall n, (F <= n)%nat -> fine (m, vs) (exec env n (m, vs) (OAssign a b t)).
Proof.
  intros m vs a b t G Ta So. destruct (g_place env m vs G _ b t So (fun _ H => H)) as (Wt & Ob & Lb & _). exists (wt t + assignFuel env m a t)%nat. intros n F. cbn [exec fst snd]. unfold refCntAssign.
  destruct (inc_ok env n m (deref m t (WPtr b)) t) as (m1 & E1 & S1 & C1 & L1); [lia|apply candOk_deref; exact Ob|rewrite cand_deref; exact Lb|]. rewrite E1. cbn [bind]. rewrite cand_deref in C1.
  destruct (core env m vs vs a t b G (incl_refl vs) (proj1 G) Ta Ob n m1 S1 L1) as [(m2 & E2 & S2 & G2)|[E2 B]]; [|lia| |].
  - intros x L. rewrite C1, (g_cnt _ _ _ G x L). reflexivity.
  - rewrite E2. cbn [bind]. rewrite (assign_eq m m2 a t b S2). cbn [bind]. apply fine_ok. exact G2.
  - rewrite E2. right. split; [reflexivity|exact B].
Qed.
Lemma op_move : forall m a z t r, good env (m, (z, t) :: r) -> target env (m, r) a t -> exists F, forall n, (F <= n)%nat -> fine (m, (z, t) :: r) (exec env n (m, (z, t) :: r) (OMove a)).
Proof.
  intros m a z t r G Ta. destruct (g_var env m _ G (z, t) (or_introl eq_refl)) as [Wt Ob]. cbn [fst snd] in *. exists (assignFuel env m a t)%nat. intros n F. cbn [exec fst snd]. unfold refCntAssign. cbn [bind].
  destruct (core env m r ((z, t) :: r) a t (AVar z) G (fun x I => or_intror I) (typed_tail _ _ _ _ (proj1 G)) Ta Ob n m (same_refl m) (fun _ => eq_refl)) as [(m2 & E2 & S2 & G2)|[E2 B]]; [|lia| |].
  - intros x L. rewrite (g_cnt _ _ _ G x L). cbn [varRefs flat_map fst snd]. rewrite cnt_app. fold (varRefs m r). lia.
  - rewrite E2. cbn [bind]. rewrite (assign_eq m m2 a t (AVar z) S2). cbn [bind]. apply fine_ok. exact G2.
  - rewrite E2. right. split; [reflexivity|exact B].
Qed.
(** A new variable whose slots are copies of slots elsewhere. *)
Lemma op_copy : forall m vs z b t, good env (m, vs) -> fresh (m, vs) z t -> source env (m, vs) b t -> exists F, forall n, (F <= n)%nat -> fine (m, vs) (exec env n (m, vs) (OCopy z b t)).
Proof.
  intros m vs z b t G Fr So. destruct (g_place env m vs G _ b t So (fun _ H => H)) as (Wt & Ob & Lb & _). exists (wt t). intros n F. cbn [exec fst snd].
  destruct (inc_ok env n m (deref m t (WPtr b)) t) as (m1 & E1 & S1 & C1 & L1); [lia|apply candOk_deref; exact Ob|rewrite cand_deref; exact Lb|]. rewrite E1. cbn [bind]. rewrite cand_deref in C1.
  rewrite (assign_eq m m1 (AVar z) t b S1). cbn [bind]. apply fine_ok.
  pose proof (new_agrees m1 (AVar z) t 0 t b (cellsOf m1 t b) Logic.I Wt (SubHere t) (cellsOf_ok m1 t b)) as AG. rewrite plus_0 in AG.
  pose proof (mF_objs m1 (AVar z) 0 t (cellsOf m1 t b) Logic.I) as SO. rewrite plus_0 in SO.
  apply (decl_ok env m vs z t m1 _ G Fr S1 L1).
  - eapply agrees_ok; [exact SO|exact AG|]. apply (slotsOk_same env m m1 S1). exact Ob.
  - intros x. rewrite C1. rewrite (agrees_refs _ _ _ _ _ AG), (refs_same m m1 S1). reflexivity.
Qed.
Lemma sub_scalar : forall T o t, Sub T o t -> composite T = false -> o = 0 /\ t = T. Proof. intros T o t S C. destruct S; [auto|discriminate C|discriminate C]. Qed.
Lemma op_addr : forall m vs z b base, good env (m, vs) -> fresh (m, vs) z (TPtr base) -> source env (m, vs) b (env base) -> exists F, forall n, (F <= n)%nat -> fine (m, vs) (exec env n (m, vs) (OAddr z b base)).
Proof.
  intros m vs z b base G Fr So. exists 1%nat. intros n F. cbn [exec fst snd].
  assert (ptrOk env m base (WPtr b)) as PO.
  { destruct b as [x|c x]; [exact Logic.I|]. unfold source in So. cbn [placeIn fst snd] in So. destruct So as (L & _ & y & T & o & C & S & ->). split; [exact L|]. unfold content in C. destruct (c_obj (chunkAt m c)) as [u|it| | |]; try discriminate C; [|exact Logic.I]. injection C as <- <-.
    destruct (composite u) eqn:E; [left; reflexivity|]. right. left. apply (sub_scalar _ _ _ S E). }
  assert (forall x, In x (candRefs m (Cand (WPtr b) (TPtr base))) -> live m x = true) as LV.
  { intros x I. cbn [candRefs isPtrKind tgt] in I. destruct b as [y|c y]; [destruct I|]. destruct I as [<-|[]]. unfold source in So. cbn [placeIn fst snd] in So. apply So. }
  destruct (inc_ok env n m (WPtr b) (TPtr base)) as (m1 & E1 & S1 & C1 & L1); [cbn; lia|exact PO|exact LV|]. rewrite E1. cbn [bind]. unfold assign. cbn [isPtrKind bind]. apply fine_ok.
  apply (decl_ok env m vs z (TPtr base) m1 _ G Fr S1 L1).
  - constructor; [|constructor]. unfold slotOk. cbn [fst snd]. rewrite plus_var, newvar_read by (cbn; lia). exact (ptrOk_same env m m1 S1 _ _ PO).
  - intros x. rewrite C1. cbn [candRefs isPtrKind slots]. rewrite refs1, plus_var, newvar_read by (cbn; lia). reflexivity.
Qed.
Lemma op_iface : forall m vs z b base sz, good env (m, vs) -> fresh (m, vs) z (TIface sz) -> source env (m, vs) b (TPtr base) -> exists F, forall n, (F <= n)%nat -> fine (m, vs) (exec env n (m, vs) (OIface z b base sz)).
Proof.
  intros m vs z b base sz G Fr So. destruct (g_place env m vs G _ b _ So (fun _ H => H)) as (_ & Ob & Lb & _). exists 1%nat. intros n F. cbn [exec fst snd].
  assert (ptrOk env m base (read m b)) as PO. { inversion Ob as [|x l A B]; subst. unfold slotOk in A. cbn [fst snd] in A. rewrite plus_0 in A. exact A. }
  cbn [slots] in Lb. rewrite refs1, plus_0 in Lb.
  destruct (inc_ok env n m (read m b) (TPtr base)) as (m1 & E1 & S1 & C1 & L1); [cbn; lia|exact PO|exact Lb|]. rewrite E1. cbn [bind]. unfold declare. cbn [fst snd]. apply fine_ok.
  assert (16 <= sz) as Sz by apply Fr.
  apply (decl_ok env m vs z (TIface sz) m1 _ G Fr S1 L1).
  - constructor; [|constructor]. unfold slotOk. cbn [fst snd]. right. exists base. rewrite !plus_var, !newvar_read by (cbn; lia). split; [reflexivity|]. exact (ptrOk_same env m m1 S1 _ _ PO).
  - intros x. rewrite C1. cbn [candRefs isPtrKind slots]. rewrite refs1, plus_var, newvar_read by (cbn; lia). reflexivity.
Qed.

(** ** Allocation *)
Lemma cnt1 : forall N b, cnt b [N] = if (Nat.leb N b && Nat.ltb b (N + 1))%nat then 1 else 0.
Proof. intros N b. rewrite cnt_cons, cnt_nil. destruct (Nat.eqb_spec N b); destruct (Nat.leb_spec N b); destruct (Nat.ltb_spec b (N + 1)); cbn [andb]; lia. Qed.
Lemma alloc1 : forall m vs z t o d g, good env (m, vs) -> fresh (m, vs) z t ->
  let N := length (heap m) in let m1 := MkMem (vars m) (heap m ++ [MkChunk 1 o d]) in let mF := write m1 (AVar z) (sizeOf t) g in
  slotsOk env mF (AVar z) (slots t) -> refsAt mF (AVar z) (slots t) = [N] -> slotsOk env mF (AHeap N 0) (objSlots env mF N) -> objRefs env mF N = [] ->
  match content env mF N with Some (_, T) => wfT T | None => True end -> good env (mF, (z, t) :: vs).
Proof.
  intros m vs z t o d g G F N m1 mF O R B BR W. apply (new_ok env m vs z t [MkChunk 1 o d] g G F); cbn [length].
  - constructor; [reflexivity|constructor].
  - exact O.
  - intros b L. assert (b = N) as -> by (unfold N; lia). split; [exact B|exact W].
  - intros b. cbn [seq flat_map]. fold m1 mF N. rewrite R, BR. cbn [app]. apply cnt1.
Qed.
Lemma chunk_new : forall m o d z n g, chunkAt (write (MkMem (vars m) (heap m ++ [MkChunk 1 o d])) (AVar z) n g) (length (heap m)) = MkChunk 1 o d.
Proof. intros. unfold chunkAt. cbn [write heap]. rewrite app_nth2 by lia. rewrite Nat.sub_diag. reflexivity. Qed.
Lemma len_new : forall m o d z n g, length (heap (write (MkMem (vars m) (heap m ++ [MkChunk 1 o d])) (AVar z) n g)) = S (length (heap m)).
Proof. intros. cbn. rewrite app_length. cbn. lia. Qed.
Lemma op_new : forall m vs z base, good env (m, vs) -> fresh (m, vs) z (TPtr base) -> wfT (env base) -> forall n, fine (m, vs) (exec env n (m, vs) (ONew z base)).
Proof.
  intros m vs z base G Fr W n. cbn [exec fst snd alloc]. unfold declare. cbn [fst snd]. apply fine_ok. set (mF := write _ _ _ _).
  assert (slotsOk env mF (AHeap (length (heap m)) 0) (slots (env base)) /\ refsAt mF (AHeap (length (heap m)) 0) (slots (env base)) = []) as [Z1 Z2].
  { apply zero_ok. intros o s _. cbn [plus read]. unfold mF. rewrite chunk_new. reflexivity. }
  apply alloc1; fold mF; auto.
  - constructor; [|constructor]. unfold slotOk. cbn [fst snd]. unfold mF. rewrite plus_var, newvar_read by (cbn; lia). cbn [oneCell Z.eqb ptrOk]. rewrite chunk_new, len_new. cbn [c_obj]. split; [lia|]. right. left. auto.
  - cbn [slots]. rewrite refs1. unfold mF. rewrite plus_var, newvar_read by (cbn; lia). reflexivity.
  - unfold objSlots. unfold mF at 2. rewrite chunk_new. exact Z1.
  - unfold objRefs, objSlots. unfold mF at 2. rewrite chunk_new. exact Z2.
  - unfold content, mF. rewrite chunk_new. exact W.
Qed.
Lemma op_makeMap : forall m vs z nd, good env (m, vs) -> fresh (m, vs) z (TMap nd) -> wfT (env nd) -> forall n, fine (m, vs) (exec env n (m, vs) (OMakeMap z nd)).
Proof.
  intros m vs z base G Fr W n. cbn [exec fst snd alloc]. unfold declare. cbn [fst snd]. apply fine_ok. set (mF := write _ _ _ _).
  assert (slotsOk env mF (AHeap (length (heap m)) 0) (slots (env base)) /\ refsAt mF (AHeap (length (heap m)) 0) (slots (env base)) = []) as [Z1 Z2].
  { apply zero_ok. intros o s _. cbn [plus read]. unfold mF. rewrite chunk_new. reflexivity. }
  apply alloc1; fold mF; auto.
  - constructor; [|constructor]. unfold slotOk. cbn [fst snd]. unfold mF. rewrite plus_var, newvar_read by (cbn; lia). cbn [oneCell Z.eqb ptrOk]. unfold oneCell. cbn [Z.eqb Pos.eqb ptrOk]. rewrite chunk_new, len_new. cbn [c_obj]. split; [lia|]. right. left. auto.
  - cbn [slots]. rewrite refs1. unfold mF. rewrite plus_var, newvar_read by (cbn; lia). reflexivity.
  - unfold objSlots. unfold mF at 2. rewrite chunk_new. exact Z1.
  - unfold objRefs, objSlots. unfold mF at 2. rewrite chunk_new. exact Z2.
  - unfold content, mF. rewrite chunk_new. exact W.
Qed.
Lemma op_make : forall m vs z it len, good env (m, vs) -> fresh (m, vs) z (TDyn it) -> wfT (env it) -> 0 <= len <= INT_MAX -> forall n, fine (m, vs) (exec env n (m, vs) (OMake z it len)).
Proof.
  intros m vs z it len G Fr W L n. cbn [exec fst snd alloc]. replace ((len <? 0) || (INT_MAX <? len)) with false by lia. unfold declare. cbn [fst snd]. apply fine_ok. set (mF := write _ _ _ _).
  assert (forall k, slotsOk env mF (AHeap (length (heap m)) 16) (slots (TArray (env it) k)) /\ refsAt mF (AHeap (length (heap m)) 16) (slots (TArray (env it) k)) = []) as Z12.
  { intros k. apply zero_ok. intros o s I. cbn [plus read]. unfold mF. rewrite chunk_new. cbn [c_data]. unfold oneCell. pose proof (slots_inside (TArray (env it) k) W) as In. unfold inside in In. rewrite Forall_forall in In. specialize (In _ I). cbn [fst snd] in In.
    destruct (Z.eqb_spec (16 + o) 0); [lia|]. destruct (Z.eqb_spec (16 + o) 8); [lia|reflexivity]. }
  apply alloc1; fold mF; auto.
  - constructor; [|constructor]. unfold slotOk. cbn [fst snd]. unfold mF. rewrite plus_var, newvar_read by (cbn; lia). unfold oneCell. cbn [Z.eqb Pos.eqb]. rewrite chunk_new, len_new. cbn [c_obj]. split; [lia|]. auto.
  - cbn [slots]. rewrite refs1. unfold mF. rewrite plus_var, newvar_read by (cbn; lia). reflexivity.
  - unfold objSlots. unfold mF at 2. rewrite chunk_new. cbn [c_obj]. apply (slotsOk_shift env mF (AHeap (length (heap m)) 0) 16). apply Z12.
  - unfold objRefs, objSlots. unfold mF at 2. rewrite chunk_new. cbn [c_obj]. rewrite refs_shift. apply Z12.
  - unfold content, mF. rewrite chunk_new. exact W.
Qed.
Lemma op_makeStr : forall m vs z, good env (m, vs) -> fresh (m, vs) z TStr -> forall n, fine (m, vs) (exec env n (m, vs) (OMakeStr z)).
Proof.
  intros m vs z G Fr n. cbn [exec fst snd alloc]. unfold declare. cbn [fst snd]. apply fine_ok. set (mF := write _ _ _ _). apply alloc1; fold mF; auto.
  - constructor; [|constructor]. unfold slotOk. cbn [fst snd]. unfold mF. rewrite plus_var, newvar_read by (cbn; lia). unfold oneCell. cbn [Z.eqb Pos.eqb Z.add]. rewrite chunk_new, len_new. cbn [c_obj]. split; [lia|]. auto.
  - cbn [slots]. rewrite refs1. unfold mF. rewrite plus_var, newvar_read by (cbn; lia). reflexivity.
  - unfold objSlots. unfold mF at 2. rewrite chunk_new. constructor.
  - unfold objRefs, objSlots. unfold mF at 2. rewrite chunk_new. reflexivity.
  - unfold content, mF. rewrite chunk_new. exact Logic.I.
Qed.
Lemma op_makeFiber : forall m vs z, good env (m, vs) -> fresh (m, vs) z TFiber -> forall n, fine (m, vs) (exec env n (m, vs) (OMakeFiber z)).
Proof.
  intros m vs z G Fr n. cbn [exec fst snd alloc]. unfold declare. cbn [fst snd vars heap]. apply fine_ok. rewrite <- app_assoc. cbn [app]. set (N := length (heap m)).
  set (d := fun i : Z => if i =? FIBER_STACK then WPtr (AHeap (S N) 0) else if i =? FIBER_ALIVE then WInt 1 else WInt 0). set (cs := [MkChunk 1 OFiber d; MkChunk 1 OStack zeros]). set (mF := write _ _ _ _).
  assert (chunkAt mF N = MkChunk 1 OFiber d) as C0. { unfold chunkAt. cbn [mF write heap]. rewrite app_nth2 by (unfold N; lia). unfold N. rewrite Nat.sub_diag. reflexivity. }
  assert (chunkAt mF (S N) = MkChunk 1 OStack zeros) as C1. { unfold chunkAt. cbn [mF write heap]. rewrite app_nth2 by (unfold N; lia). replace (S N - length (heap m))%nat with 1%nat by (unfold N; lia). reflexivity. }
  assert (length (heap mF) = S (S N)) as LF. { cbn [mF write heap]. rewrite app_length. cbn. unfold N. lia. }
  assert (read mF (AHeap N FIBER_STACK) = WPtr (AHeap (S N) 0)) as RS. { cbn [read]. rewrite C0. reflexivity. }
  apply (new_ok env m vs z TFiber cs _ G Fr); fold mF N.
  - repeat constructor.
  - constructor; [|constructor]. unfold slotOk. cbn [fst snd]. rewrite plus_var. unfold mF at 1. rewrite newvar_read by (cbn; lia). cbn [oneCell Z.eqb]. unfold oneCell. cbn [Z.eqb]. rewrite C0, LF. cbn [c_obj]. split; [lia|auto].
  - intros b L. cbn [cs length] in L. assert (b = N \/ b = S N) as [-> | ->] by lia.
    + unfold objSlots, content. rewrite C0. cbn [c_obj]. split; [|exact Logic.I]. constructor; [|constructor]. unfold slotOk. cbn [fst snd plus]. replace (0 + FIBER_STACK) with FIBER_STACK by reflexivity. exists (S N), 0. rewrite RS, C1, LF. split; [reflexivity|]. split; [lia|reflexivity].
    + unfold objSlots, content. rewrite C1. cbn [c_obj]. split; [constructor|exact Logic.I].
  - intros b. cbn [cs length seq flat_map]. cbn [slots]. rewrite refs1, plus_var. unfold mF at 1. rewrite newvar_read by (cbn; lia). cbn [oneCell Z.eqb]. unfold oneCell. cbn [Z.eqb tgt].
    assert (objRefs env mF N = [S N]) as ->. { unfold objRefs, objSlots. rewrite C0. cbn [c_obj]. rewrite refs1. cbn [plus]. replace (0 + FIBER_STACK) with FIBER_STACK by reflexivity. rewrite RS. reflexivity. }
    assert (objRefs env mF (S N) = []) as ->. { unfold objRefs, objSlots. rewrite C1. reflexivity. }
    cbn [app]. rewrite !cnt_cons, cnt_nil. destruct (Nat.eqb_spec N b); destruct (Nat.eqb_spec (S N) b); destruct (Nat.leb_spec N b); destruct (Nat.ltb_spec b (N + 2)); cbn [andb]; lia.
Qed.
Lemma op_finish : forall m vs b, good env (m, vs) -> live m b = true -> c_obj (chunkAt m b) = OFiber -> good env (write m (AHeap b FIBER_ALIVE) 8 zeros, vs).
Proof.
  intros m vs b G L O. set (a := AHeap b FIBER_ALIVE). assert (match a with AHeap b _ => (b < length (heap m))%nat | _ => True end) as La by (apply live_lt; exact L). set (mF := write m a 8 zeros).
  assert (sameObjs m mF) as SO. { split; [unfold mF; rewrite write_len; apply le_n|]. intros c _. apply write_obj. exact La. }
  assert (forall v, agrees m (AVar (fst v)) mF (AVar (fst v)) (slots (snd v))) as AV. { intros v. unfold agrees. apply Forall_forall. intros p _ d _. unfold mF. rewrite write_read by exact La. reflexivity. }
  assert (forall c, objSlots env mF c = objSlots env m c /\ content env mF c = content env m c) as OS.
  { intros c. unfold objSlots, content. unfold mF at 1 3. rewrite !write_obj by exact La. destruct (c_obj (chunkAt m c)) eqn:E; auto. assert (read mF (AHeap c 0) = read m (AHeap c 0)) as ->; [|auto]. unfold mF. rewrite write_read by exact La. unfold a. cbn [hits].
    destruct (Nat.eqb_spec b c); [congruence|reflexivity]. }
  assert (forall c, agrees m (AHeap c 0) mF (AHeap c 0) (objSlots env m c)) as AC.
  { intros c. unfold agrees. apply Forall_forall. intros p I d D. unfold mF. rewrite write_read by exact La. unfold a. cbn [plus hits]. destruct (Nat.eqb_spec b c) as [->|]; [|reflexivity]. unfold objSlots in I. rewrite O in I. destruct I as [<-|[]]. cbn [snd cells] in D. destruct D as [<-|[]]. reflexivity. }
  assert (forall c, objRefs env mF c = objRefs env m c) as OR. { intros c. unfold objRefs. rewrite (proj1 (OS c)). apply agrees_refs. apply AC. }
  split; [split; [|split]|]; cbn [fst snd].
  - apply Forall_forall. intros v I. destruct (g_var _ _ _ G v I) as [A B]. split; [exact A|]. eapply agrees_ok; [exact SO|apply AV|exact B].
  - apply G.
  - intros c Lc. unfold mF in Lc. rewrite write_live in Lc by exact La. destruct (OS c) as [E1 E2]. rewrite E1, E2. split; [eapply agrees_ok; [exact SO|apply AC|apply (g_obj _ _ _ G c Lc)]|]. destruct (content env m c) as [[x T]|] eqn:E; [|exact Logic.I]. eapply g_wf; eassumption.
  - intros c Lc. cbn [fst snd] in *. unfold mF in Lc. rewrite write_len in Lc. unfold mF at 1. rewrite write_ref by exact La. rewrite (g_cnt _ _ _ G c Lc), cnt_app. change (varRefs mF vs) with (varRefs m vs). apply Z.add_cancel_l.
    rewrite !heapRefs_tot. assert (length (heap mF) = length (heap m)) as -> by apply write_len. unfold tot. apply sum_ext. intros x _. unfold mF at 1. rewrite write_live by exact La. rewrite OR. reflexivity.
Qed.
Lemma fineN_fine : forall m vs f, fineN env m vs f -> exists F, forall n, (F <= n)%nat -> fine (m, vs) (f n).
Proof. intros m vs f (F & H). exists F. intros n L. destruct (H n L) as (s' & -> & G). apply fine_ok. exact G. Qed.
Theorem exec_good : forall s o, good env s -> allowed env s o -> exists F, forall n, (F <= n)%nat -> fine s (exec env n s o).
Proof.
  intros [m vs] o G A. destruct o; cbn [allowed fst snd] in A.
  - exists 0%nat. intros n _. apply fine_ok. apply op_decl; assumption.
  - apply op_assign; [exact G|apply A|apply A].
  - apply op_copy; [exact G|apply A|apply A].
  - destruct vs as [|[z t] r]; [destruct A|]. apply op_move; assumption.
  - apply op_addr; [exact G|apply A|apply A].
  - apply op_iface; [exact G|apply A|apply A].
  - exists 0%nat. intros n _. apply op_new; [exact G|apply A|apply A].
  - exists 0%nat. intros n _. apply op_make; [exact G|apply A|apply A|apply A].
  - exists 0%nat. intros n _. apply op_makeMap; [exact G|apply A|apply A].
  - exists 0%nat. intros n _. apply op_makeStr; [exact G|apply A].
  - exists 0%nat. intros n _. apply op_makeFiber; [exact G|apply A].
  - exists 0%nat. intros n _. apply fine_ok. apply op_finish; [exact G|apply A|apply A].
  - apply fineN_fine. apply op_fromArr; [exact G|apply A|apply A|apply A].
  - apply fineN_fine. apply op_toArr; assumption.
  - apply fineN_fine. apply op_copyArr; assumption.
  - apply fineN_fine. apply op_slice; assumption.
  - apply fineN_fine. apply op_append; assumption.
  - apply fineN_fine. apply op_insert; assumption.
  - destruct (op_delete env m vs z b i item G A) as (F & H). exists F. intros n L. destruct (H n L) as [(s' & E & G2)|[E B]]; [left; eauto|right; auto].
  - destruct vs as [|[z t] r]; [destruct (A eq_refl)|]. destruct (end_ok env m z t r G) as (F & H). exists F. intros n L. cbn [exec fst snd]. destruct (H n L) as [(m2 & E & G2)|[E B]]; rewrite E; cbn [bind]; [apply fine_ok; exact G2|right; auto].
Qed.
Theorem exec_keeps : forall n s o s', good env s -> allowed env s o -> exec env n s o = Ok s' -> good env s'.
Proof.
  intros n s o s' G A E. destruct (exec_good s o G A) as (F & H). destruct (H (n + F)%nat ltac:(lia)) as [(s2 & E2 & G2)|[E2 _]]; rewrite (exec_more n (n + F) s o s' ltac:(lia) E) in E2; [|discriminate E2]. injection E2 as <-. exact G2.
Qed.

(** ** Programs *)
Lemma start_good : good env start.
Proof. split; [split; [constructor|split; [constructor|]]|]; cbn. - intros b L. apply live_lt in L. cbn in L. lia. - intros b L. cbn in L. lia. Qed.
Lemma run_good : forall s os s', Run env s os s' -> good env s -> good env s'.
Proof. intros s os s' H. induction H as [s|s o n s1 os s2 A E R IH]; intros G; [exact G|]. apply IH. eapply exec_keeps; eassumption. Qed.
Lemma live_reachable : forall m vs, good env (m, vs) -> acyclic env m -> forall b, live m b = true -> reachable env m vs b.
Proof.
  intros m vs G (rank & H). set (top := list_max (map rank (seq 0 (length (heap m))))).
  assert (forall b, live m b = true -> (rank b <= top)%nat) as Top. { intros b L. apply live_lt in L. unfold top. pose proof (proj1 (list_max_le (map rank (seq 0 (length (heap m)))) top) (le_n _)) as F. rewrite Forall_forall in F. apply F. apply in_map. apply in_seq. lia. }
  enough (forall k b, live m b = true -> (top - rank b <= k)%nat -> reachable env m vs b) as Q by (intros b L; apply (Q (top - rank b)%nat b L); lia).
  induction k as [|k IH]; intros b L K.
  - pose proof (Top b L). pose proof (live_lt m b L) as Lb. pose proof (g_cnt _ _ _ G b Lb) as C. unfold live in L. destruct (Z.eq_dec (cnt b (varRefs m vs)) 0) as [E|E].
    + assert (In b (heapRefs env m)) as I by (apply cnt_In; lia). unfold heapRefs in I. apply in_flat_map in I. destruct I as (c & _ & I). destruct (live m c) eqn:Lc; [|destruct I]. pose proof (H c b Lc I). pose proof (Top c Lc). lia.
    + apply ReachVar. apply cnt_In. pose proof (cnt_nonneg b (varRefs m vs)). lia.
  - pose proof (live_lt m b L) as Lb. pose proof (g_cnt _ _ _ G b Lb) as C. unfold live in L. destruct (Z.eq_dec (cnt b (varRefs m vs)) 0) as [E|E].
    + assert (In b (heapRefs env m)) as I by (apply cnt_In; lia). unfold heapRefs in I. apply in_flat_map in I. destruct I as (c & _ & I). destruct (live m c) eqn:Lc; [|destruct I]. apply (ReachObj _ _ _ c); [|exact I]. apply IH; [exact Lc|]. pose proof (H c b Lc I). pose proof (Top c Lc). lia.
    + apply ReachVar. apply cnt_In. pose proof (cnt_nonneg b (varRefs m vs)). lia.
Qed.

(** For examples: a run from a computation and a condition for every operation. *)
Definition stateAfter (n : nat) (s : state) (os : list op) : state := match execs env n s os with Ok x => x | _ => s end.
Lemma run_by : forall n os s, (match execs env n s os with Ok _ => true | _ => false end) = true ->
  (forall k o, nth_error os k = Some o -> allowed env (stateAfter n s (firstn k os)) o) -> Run env s os (stateAfter n s os).
Proof.
  induction os as [|o os IH]; intros s E H; [constructor|]. unfold stateAfter. cbn [execs] in *. destruct (exec env n s o) as [s1| |] eqn:E1; cbn [bind] in *; try discriminate E.
  apply (RunCons _ _ _ n s1); [exact (H 0%nat o eq_refl)|exact E1|]. specialize (IH s1 E). unfold stateAfter in IH. destruct (execs env n s1 os) as [s2| |] eqn:E2; try discriminate E. apply IH. intros k o' Q. specialize (H (Datatypes.S k) o' Q). unfold stateAfter in H. cbn [firstn execs] in H. rewrite E1 in H. cbn [bind] in H.
  assert (forall l l' s0 x, execs env n s0 (l ++ l') = Ok x -> exists y, execs env n s0 l = Ok y) as P. { clear. induction l as [|a l IHl]; intros l' s0 x Q; [eexists; reflexivity|]. cbn [app execs] in *. destruct (exec env n s0 a) as [s1| |]; cbn [bind] in *; try discriminate Q. eapply IHl. exact Q. }
  destruct (P (firstn k os) (skipn k os) s1 s2) as (y & Ey); [rewrite firstn_skipn; exact E2|]. rewrite Ey in *. exact H.
Qed.
Lemma allow_move : forall s a z t r, snd s = (z, t) :: r -> target env (fst s, r) a t -> allowed env s (OMove a). Proof. intros s a z t r E H. cbn [allowed]. rewrite E. exact H. Qed.
End Thm.
