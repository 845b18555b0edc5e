(** The machine with stacks in memory follows the machine with ideal stacks, and never leaves its stacks. *)
From Coq Require Import ZArith Lia Bool List ZifyBool.
From Verif Require Import Base CallModel CallSpec CallProofs.
Import ListNotations.
Local Open Scope Z_scope.

Notation cvm := (vm cstk).
Notation avm := (vm astk).
(** The free slots: at least [k] for the loop's fiber and 1016 for any other one. *)
Definition bound (k : Z) (a : avm) : Prop :=
  forall g x, nth_error (fibs _ a) g = Some (Some x) -> (if Nat.eqb g (loopf _ a) then k else 1016) <= a_top (f_stk _ x).
Definition Rv (k : Z) (c : cvm) (a : avm) : Prop := reprV c a /\ bound k a.

Lemma nth_error_upd : forall A (l : list A) n m x, nth_error (upd l n x) m = if Nat.eqb n m then (if Nat.ltb m (length l) then Some x else None) else nth_error l m.
Proof.
  intros A l. induction l as [|a l IH]; intros n m x; cbn [upd].
  - destruct m; cbn; destruct (Nat.eqb _ _); reflexivity.
  - destruct n as [|n], m as [|m]; cbn [upd nth_error Nat.eqb length]; try reflexivity. rewrite IH. reflexivity.
Qed.
Lemma Forall2_nth : forall A B (R : A -> B -> Prop) l k, Forall2 R l k -> forall n,
  match nth_error l n, nth_error k n with Some x, Some y => R x y | None, None => True | _, _ => False end.
Proof. induction 1; intros [|n]; cbn; auto. apply IHForall2. Qed.
Lemma Forall2_upd : forall A B (R : A -> B -> Prop) l k, Forall2 R l k -> forall n x y, R x y -> Forall2 R (upd l n x) (upd k n y).
Proof. induction 1; intros [|n] u v Q; cbn; constructor; auto. Qed.
Lemma Forall2_len : forall A B (R : A -> B -> Prop) l k, Forall2 R l k -> length l = length k.
Proof. induction 1; cbn; auto. Qed.

Lemma sim_getF : forall c a f, reprV c a -> sim reprF (getF _ c f) (getF _ a f).
Proof.
  intros c a f (F & _). pose proof (Forall2_nth _ _ _ _ _ F f) as N. unfold getF.
  destruct (nth_error (fibs _ c) f) as [[x|]|], (nth_error (fibs _ a) f) as [[y|]|]; cbn in *; try contradiction; try exact Logic.I.
  eauto.
Qed.
Lemma getF_nth : forall (S : Type) (a : vm S) f x, getF _ a f = Ok x -> nth_error (fibs _ a) f = Some (Some x).
Proof. intros S a f x H. unfold getF in H. destruct (nth_error (fibs _ a) f) as [[y|]|]; congruence. Qed.
Lemma repr_set : forall c a f x y, reprV c a -> reprO x y -> reprV (setF _ c f x) (setF _ a f y).
Proof. intros c a f x y (F & A & B & C & D) O. unfold reprV. cbn. split; [apply Forall2_upd; assumption|auto]. Qed.
Lemma bound_set : forall k k' a f y, bound k a -> (f = loopf _ a \/ k' <= k) ->
  match y with Some z => (if Nat.eqb f (loopf _ a) then k' else 1016) <= a_top (f_stk _ z) | None => True end -> bound k' (setF _ a f y).
Proof.
  intros k k' a f y B D T g x N. cbn [setF fibs loopf] in *. rewrite nth_error_upd in N.
  destruct (Nat.eqb_spec f g) as [->|NE].
  - destruct (Nat.ltb g _); [|discriminate]. injection N as ->. exact T.
  - specialize (B g x N). destruct (Nat.eqb_spec g (loopf _ a)) as [->|]; [|exact B]. destruct D as [->|D]; [congruence|lia].
Qed.
Lemma bound_le : forall k k' a, bound k a -> k' <= k -> bound k' a.
Proof. intros k k' a B L g x N. specialize (B g x N). destruct (Nat.eqb _ _); lia. Qed.
Lemma bound_get : forall k a x, bound k a -> getF _ a (loopf _ a) = Ok x -> k <= a_top (f_stk _ x).
Proof. intros k a x B G. apply getF_nth in G. specialize (B _ _ G). rewrite Nat.eqb_refl in B. exact B. Qed.
Lemma bound_any : forall k a f x, bound k a -> getF _ a f = Ok x -> (if Nat.eqb f (loopf _ a) then k else 1016) <= a_top (f_stk _ x).
Proof. intros k a f x B G. apply getF_nth in G. exact (B _ _ G). Qed.
Lemma Rv_le : forall k k' c a, Rv k c a -> k' <= k -> Rv k' c a.
Proof. intros k k' c a (R & B) L. split; [exact R|]. eapply bound_le; eassumption. Qed.

Lemma write_top : forall a i w a', a_write a i w = Ok a' -> a_top a' = a_top a.
Proof.
  intros a i w a' H. unfold a_write in H. destruct (writeS (a_size a) (a_stk a) i w) as [s|e|] eqn:E; cbn [bind] in H; try discriminate.
  injection H as <-. unfold a_top. cbn [a_size a_stk].
  assert (slen s = slen (a_stk a)) as L; [|lia]. revert i w s E. generalize (a_size a) as size. generalize (a_stk a) as t.
  induction t as [o g|o loc l n r ps u IH]; intros size i w s E; cbn [writeS] in E; [discriminate|].
  destruct (_ <=? _); [destruct (writeS size u i w) eqn:Q; cbn [bind] in E; try discriminate; injection E as <-; cbn [slen]; rewrite (IH _ _ _ _ Q); reflexivity|].
  destruct (_ <=? _); [injection E as <-; cbn [slen]; rewrite len_upd; reflexivity|].
  destruct (_ && _); [|discriminate]. injection E as <-. cbn [slen]. rewrite len_upd. reflexivity.
Qed.
Lemma refS_slen : forall size s i d s', refS size s i d = Ok s' -> slen s' = slen s.
Proof.
  intros size s. induction s as [o g|o loc l n r ps u IH]; intros i d s' E; cbn [refS] in E; [discriminate|].
  destruct (_ <? _); [injection E as <-; reflexivity|]. destruct (_ || _); [discriminate|].
  destruct (refS size u i d) eqn:Q; cbn [bind] in E; try discriminate. injection E as <-. cbn [slen]. rewrite (IH _ _ _ Q). reflexivity.
Qed.
Lemma ref_top : forall a i d a', a_ref a i d = Ok a' -> a_top a' = a_top a.
Proof.
  intros a i d a' H. unfold a_ref in H. destruct (_ && _); [|injection H as <-; reflexivity].
  destruct a as [size s]. cbn [a_size a_stk] in *. destruct s as [o g|o loc l n r ps u]; [injection H as <-; reflexivity|].
  destruct (refS _ _ _ _) eqn:Q; cbn [bind] in H; try discriminate. injection H as <-. unfold a_top. cbn [a_size a_stk]. rewrite (refS_slen _ _ _ _ _ Q). reflexivity.
Qed.
Lemma pop_top : forall a n ws a', a_pop a n = Ok (ws, a') -> a_top a' = a_top a + Z.of_nat n /\ length ws = n.
Proof.
  intros a n ws a' H. unfold a_pop in H. destruct (Nat.leb_spec n (length (sops_of (a_stk a)))) as [L|]; [|discriminate]. injection H as <- <-.
  unfold a_top. cbn [a_size a_stk]. rewrite slen_set. unfold len. rewrite skipn_length, firstn_length. lia.
Qed.
Lemma push_top : forall a ws a', a_push a ws = Ok a' -> a_top a' = a_top a - len ws.
Proof. intros a ws a' H. injection H as <-. unfold a_top. cbn [a_size a_stk]. rewrite slen_set, len_app. lia. Qed.

(** ** The parts of an instruction *)
Lemma sim_load : forall k c a p i, Rv k c a -> sim eq (load _ cops c p i) (load _ aops a p i).
Proof.
  intros k c a p i (R & B). destruct p as [z|f j| | |]; cbn [load]; try exact Logic.I.
  - destruct (z =? 0); [reflexivity|]. destruct R as (_ & _ & _ & _ & ->). apply sim_ok. reflexivity.
  - eapply sim_bind; [apply sim_getF; exact R|]. intros x y _ (S & _). apply sim_read. exact S.
Qed.
Lemma sim_loads : forall n k c a p i, Rv k c a -> sim eq (loads _ cops c p i n) (loads _ aops a p i n).
Proof.
  induction n as [|n IH]; intros k c a p i R; cbn [loads]; [apply sim_ok; reflexivity|].
  eapply sim_bind; [eapply sim_load; exact R|]. intros x y _ <-. eapply sim_bind; [eapply IH; exact R|]. intros u v _ <-. apply sim_ok. reflexivity.
Qed.
Lemma loads_len : forall (S : Type) (o : sops S) n v p i l, loads _ o v p i n = Ok l -> length l = n.
Proof.
  intros S o. induction n as [|n IH]; intros v p i l H; cbn [loads] in H; [injection H as <-; reflexivity|].
  destruct (load _ o v p i); cbn [bind] in H; try discriminate. destruct (loads _ o v p (i + 1) n) eqn:E; cbn [bind] in H; try discriminate.
  injection H as <-. cbn. f_equal. eapply IH. exact E.
Qed.
Lemma sim_store : forall k c a p i w, Rv k c a -> sim (Rv k) (store _ cops c p i w) (store _ aops a p i w).
Proof.
  intros k c a p i w (R & B). destruct p as [z|f j| | |]; cbn [store]; try exact Logic.I.
  - destruct (z =? 0); [reflexivity|]. apply sim_ok. split; [|exact B]. destruct R as (F & A1 & A2 & A3 & ->). unfold reprV. cbn. auto.
  - eapply sim_bind; [apply sim_getF; exact R|]. intros x y G (S & Q). eapply sim_bind; [apply sim_write; exact S|]. intros s t E ST.
    apply sim_ok. split.
    + apply repr_set; [exact R|]. cbn. split; [exact ST|exact Q].
    + eapply bound_set; [exact B|right; lia|]. cbn [withStk f_stk]. cbn [o_write aops] in E. rewrite (write_top _ _ _ _ E). eapply bound_any; eassumption.
Qed.
Lemma sim_stores : forall ws k c a p i, Rv k c a -> sim (Rv k) (stores _ cops c p i ws) (stores _ aops a p i ws).
Proof.
  induction ws as [|w ws IH]; intros k c a p i R; cbn [stores]; [apply sim_ok; exact R|].
  eapply sim_bind; [apply sim_store; exact R|]. intros x y _ Q. apply IH. exact Q.
Qed.
Lemma Rv_loop : forall k c a, Rv k c a -> loopf _ c = loopf _ a.
Proof. intros k c a ((_ & L & _) & _). exact L. Qed.
Lemma Rv_vmf : forall k c a, Rv k c a -> vmf _ c = vmf _ a.
Proof. intros k c a ((_ & _ & L & _) & _). exact L. Qed.
Lemma Rv_hosts : forall k c a, Rv k c a -> hosts _ c = hosts _ a.
Proof. intros k c a ((_ & _ & _ & L & _) & _). exact L. Qed.
Lemma Rv_len : forall k c a, Rv k c a -> length (fibs _ c) = length (fibs _ a).
Proof. intros k c a ((F & _) & _). eapply Forall2_len. exact F. Qed.
Lemma Rv_set : forall k k' c a x y, Rv k c a -> reprF x y -> k' <= a_top (f_stk _ y) ->
  Rv k' (setF _ c (loopf _ a) (Some x)) (setF _ a (loopf _ a) (Some y)).
Proof.
  intros k k' c a x y (R & B) F T. split; [apply repr_set; [exact R|exact F]|].
  eapply bound_set; [exact B|left; reflexivity|]. rewrite Nat.eqb_refl. exact T.
Qed.
Lemma sim_pushes : forall k c a ws, Rv k c a -> len ws <= k -> sim (Rv (k - len ws)) (pushes _ cops c ws) (pushes _ aops a ws).
Proof.
  intros k c a ws R L. unfold pushes, onStk. rewrite (Rv_loop _ _ _ R). pose proof R as (R0 & B).
  eapply sim_bind; [apply sim_getF; exact R0|]. intros x y G (S & Q). pose proof (bound_get _ _ _ B G) as T.
  eapply sim_bind; [apply sim_push; [exact S|lia]|]. intros s t E ST. apply sim_ok. eapply Rv_set; [exact R|split; [exact ST|exact Q]|].
  cbn [withStk f_stk]. rewrite (push_top _ _ _ E). lia.
Qed.
Definition RP {A} (k : Z) (x : A * cvm) (y : A * avm) : Prop := fst x = fst y /\ Rv k (snd x) (snd y).
Lemma sim_pops : forall k c a n, Rv k c a -> sim (fun x y => RP (k + Z.of_nat n) x y /\ length (fst y) = n) (pops _ cops c n) (pops _ aops a n).
Proof.
  intros k c a n R. unfold pops. rewrite (Rv_loop _ _ _ R). pose proof R as (R0 & B).
  eapply sim_bind; [apply sim_getF; exact R0|]. intros x y G (S & Q). pose proof (bound_get _ _ _ B G) as T.
  eapply sim_bind; [apply sim_pop; exact S|]. intros [ws s] [ws2 t] E (E1 & E2). cbn [fst snd] in *. subst ws2.
  destruct (pop_top _ _ _ _ E) as (T2 & L). apply sim_ok. split; [|exact L]. split; [reflexivity|]. cbn [snd].
  eapply Rv_set; [exact R|split; [exact E2|exact Q]|]. cbn [withStk f_stk]. lia.
Qed.
Lemma sim_pop1 : forall k c a, Rv k c a -> sim (RP (k + 1)) (pop1 _ cops c) (pop1 _ aops a).
Proof.
  intros k c a R. unfold pop1. eapply sim_bind; [apply (sim_pops k c a 1 R)|]. intros [ws x] [ws2 y] _ ((E & Q) & L). cbn [fst snd] in *. subst ws2.
  destruct ws as [|w [|]]; try exact Logic.I. apply sim_ok. split; [reflexivity|exact Q].
Qed.
Lemma sim_pop2 : forall k c a, Rv k c a -> sim (RP (k + 2)) (pop2 _ cops c) (pop2 _ aops a).
Proof.
  intros k c a R. unfold pop2. eapply sim_bind; [apply (sim_pops k c a 2 R)|]. intros [ws x] [ws2 y] _ ((E & Q) & L). cbn [fst snd] in *. subst ws2.
  destruct ws as [|w [|w2 [|]]]; try exact Logic.I. apply sim_ok. split; [reflexivity|exact Q].
Qed.
Lemma sim_goto : forall k c a ip, Rv k c a -> sim (Rv k) (goto _ c ip) (goto _ a ip).
Proof.
  intros k c a ip R. unfold goto. rewrite (Rv_loop _ _ _ R). pose proof R as (R0 & B).
  eapply sim_bind; [apply sim_getF; exact R0|]. intros x y G (S & Q). pose proof (bound_get _ _ _ B G) as T.
  apply sim_ok. eapply Rv_set; [exact R| |exact T]. destruct Q as (Q1 & Q2). split; [exact S|]. cbn. auto.
Qed.
Lemma sim_next : forall k c a, Rv k c a -> sim (Rv k) (next _ c) (next _ a).
Proof.
  intros k c a R. unfold next. rewrite (Rv_loop _ _ _ R). pose proof R as (R0 & B).
  eapply sim_bind; [apply sim_getF; exact R0|]. intros x y G (S & Q). pose proof (bound_get _ _ _ B G) as T.
  apply sim_ok. eapply Rv_set; [exact R| |exact T]. destruct Q as (Q1 & Q2). split; [exact S|]. cbn. rewrite Q1. auto.
Qed.
Lemma sim_refChain : forall n k c a g f i d, Rv k c a -> sim (Rv k) (refChain _ cops n c g f i d) (refChain _ aops n a g f i d).
Proof.
  induction n as [|n IH]; intros k c a g f i d R; cbn [refChain]; [reflexivity|]. pose proof R as (R0 & B).
  eapply sim_bind; [apply sim_getF; exact R0|]. intros x y G (S & Q).
  eapply (sim_bind _ _ _ _ (Rv k)).
  - destruct (Nat.eqb g f); [|apply sim_ok; exact R]. eapply sim_bind; [apply sim_ref; exact S|]. intros s t E ST. apply sim_ok. split.
    + apply repr_set; [exact R0|]. split; [exact ST|exact Q].
    + eapply bound_set; [exact B|right; lia|]. cbn [withStk f_stk]. rewrite (ref_top _ _ _ _ E). eapply bound_any; eassumption.
  - intros c1 a1 _ R1. destruct Q as (_ & _ & -> & _). destruct (f_parent _ y); [apply IH; exact R1|apply sim_ok; exact R1].
Qed.

(** ** Calls from outside, fibers *)
Definition Rr (x : sres cstk) (y : sres astk) : Prop :=
  match x, y with Go _ c, Go _ a => Rv 0 c a | Stop _ c, Stop _ a => Rv 1016 c a | _, _ => False end.
Lemma sim_go : forall k x y, sim (Rv k) x y -> 0 <= k -> sim Rr (go _ x) (go _ y).
Proof. intros k x y H K. unfold go. eapply sim_bind; [exact H|]. intros c a _ R. apply sim_ok. cbn. eapply Rv_le; [exact R|lia]. Qed.
(** Another fiber becomes the loop's one. *)
Lemma Rv_move : forall k c a f g, Rv k c a -> 1016 <= k -> 
  Rv 1016 (MkVm _ (fibs _ c) f g (hosts _ c) (gm _ c)) (MkVm _ (fibs _ a) f g (hosts _ a) (gm _ a)).
Proof.
  intros k c a f g ((F & L & V & H & M) & B) K. split; [unfold reprV; cbn; auto|].
  intros j x N. cbn [fibs loopf] in *. specialize (B j x N). destruct (Nat.eqb j (loopf _ a)), (Nat.eqb j f); lia.
Qed.
Lemma Rv_hst : forall k c a h, Rv k c a -> Rv k (setHosts _ c h) (setHosts _ a h).
Proof. intros k c a h ((F & L & V & H & M) & B). split; [unfold reprV; cbn; auto|exact B]. Qed.
Lemma sim_enterCall : forall k c a h e ps, Rv k c a -> 1016 <= k -> len ps <= 1000 -> sim (Rv 0) (enterCall _ cops c h e ps) (enterCall _ aops a h e ps).
Proof.
  intros k c a h e ps R K L. unfold enterCall. rewrite (Rv_vmf _ _ _ R). pose proof R as (R0 & B).
  eapply sim_bind; [apply sim_getF; exact R0|]. intros x y G (S & Q1 & Q2 & Q3 & Q4). rewrite Q4.
  destruct (negb (f_alive _ y)); [reflexivity|]. destruct (e <=? 0); [reflexivity|].
  pose proof (bound_any _ _ _ _ B G) as T.
  assert (1016 <= a_top (f_stk _ y)) as T2 by (destruct (Nat.eqb _ _); lia).
  eapply sim_bind; [apply sim_push; [exact S|rewrite len_cons; lia]|]. intros s t E ST. apply sim_ok.
  pose proof (push_top _ _ _ E) as T3. rewrite len_cons in T3.
  split.
  - destruct R0 as (F & _ & _ & _ & M). unfold reprV. cbn. split; [apply Forall2_upd; [exact F|]; cbn; unfold reprF; cbn; auto|]. rewrite (Rv_vmf _ _ _ R). auto.
  - intros g z N. cbn in N. cbn [loopf setLoop]. rewrite nth_error_upd in N. destruct (Nat.eqb_spec (vmf _ a) g) as [->|NE].
    + rewrite Nat.eqb_refl. destruct (Nat.ltb _ _); [|discriminate]. injection N as <-. cbn. pose proof (len_nonneg _ ps). lia.
    + destruct (Nat.eqb_spec g (vmf _ a)); [congruence|]. specialize (B _ _ N). destruct (Nat.eqb _ _); lia.
Qed.
Lemma sim_runHost : forall k c a f ip h p, Rv k c a -> 1016 <= k -> frugalH p -> sim Rr (runHost _ cops c f ip h p) (runHost _ aops a f ip h p).
Proof.
  intros k c a f ip h p R K FH. destruct p as [w|e ps kk]; cbn [runHost].
  - pose proof R as (R0 & B). eapply sim_bind; [apply sim_getF; exact R0|]. intros x y G (S & Q1 & Q2 & Q3 & Q4). apply sim_ok. cbn [Rr].
    eapply Rv_le with (k := 1016); [|lia]. pose proof (bound_any _ _ _ _ B G) as T.
    assert (Rv 1016 (setF _ c f (Some (withIp _ (withReg _ x REG_RESULT w) (ip + 1)))) (setF _ a f (Some (withIp _ (withReg _ y REG_RESULT w) (ip + 1))))) as R1.
    { split; [apply repr_set; [exact R0|]; cbn; unfold reprF; cbn; rewrite Q2; auto|].
      eapply bound_set; [exact B|right; lia|]. cbn. destruct (Nat.eqb _ _); lia. }
    pose proof (Rv_move 1016 _ _ f (vmf _ a) R1 ltac:(lia)) as R2. apply (Rv_hst _ _ _ h) in R2.
    unfold setLoop, setHosts in *. cbn in *. rewrite (Rv_vmf _ _ _ R). exact R2.
  - inversion FH; subst. eapply sim_go; [eapply sim_enterCall; [exact R|exact K|assumption]|lia].
Qed.
Definition frugalHosts {S} (v : vm S) : Prop := Forall (fun h => forall w, frugalH (snd h w)) (hosts _ v).
Lemma sim_endLoop : forall k c a, Rv k c a -> 1016 <= k -> frugalHosts a -> sim Rr (endLoop _ cops c) (endLoop _ aops a).
Proof.
  intros k c a R K FH. unfold endLoop. rewrite (Rv_hosts _ _ _ R). unfold frugalHosts in FH.
  destruct (hosts _ a) as [|[[f ip] kk] h] eqn:EH; [apply sim_ok; cbn; eapply Rv_le; [exact R|exact K]|].
  rewrite (Rv_vmf _ _ _ R). eapply sim_bind; [apply sim_getF; destruct R as (R0 & _); exact R0|].
  intros x y G (S & Q1 & Q2 & Q3 & Q4). rewrite Q2. eapply sim_runHost; [exact R|exact K|]. inversion FH; subst. auto.
Qed.
Lemma sim_makeFiber : forall k c a, Rv k c a -> 1024 <= k -> sim (Rv k) (makeFiber _ cops c) (makeFiber _ aops a).
Proof.
  intros k c a R K. unfold makeFiber. eapply sim_bind; [apply sim_pop2; exact R|]. intros [[t cl] c1] [[t2 cl2] a1] _ (E & R1). cbn [fst snd] in *.
  injection E as <- <-. eapply sim_bind; [eapply sim_loads; exact R1|]. intros l l2 _ <-.
  destruct l as [|[e| | | |] [|u1 [|u2 [|]]]]; try exact Logic.I. destruct (e <=? 0); [reflexivity|].
  rewrite (Rv_loop _ _ _ R1). pose proof R1 as (R0 & B). eapply sim_bind; [apply sim_getF; exact R0|]. intros x y G (S & Q1 & Q2 & Q3 & Q4).
  pose proof (bound_get _ _ _ B G) as T. pose proof (slen_pos (a_stk (f_stk _ y))) as SP. pose proof (len_nonneg _ (sops_of (a_stk (f_stk _ y)))) as SN.
  eapply sim_bind; [apply sim_new; exact S|]. intros s s2 E2 S2. injection E2 as <-. unfold a_top in T.
  eapply sim_bind; [apply sim_push; [exact S2|]|].
  { unfold a_top. cbn [a_size a_stk slen]. rewrite !len_cons, len_nil. change (len (@nil val)) with 0. lia. }
  intros s3 s4 E4 S4. pose proof (push_top _ _ _ E4) as T4. unfold a_top at 2 in T4. cbn [a_size a_stk slen] in T4. rewrite !len_cons, len_nil in T4.
  assert (Rv (k + 2) (MkVm _ (fibs _ c1 ++ [Some (MkFib _ s3 e (f_regs _ x) (Some (loopf _ a1)) (f_alive _ x))]) (loopf _ a1) (vmf _ c1) (hosts _ c1) (gm _ c1))
             (MkVm _ (fibs _ a1 ++ [Some (MkFib _ s4 e (f_regs _ y) (Some (loopf _ a1)) (f_alive _ y))]) (loopf _ a1) (vmf _ a1) (hosts _ a1) (gm _ a1))) as R2.
  { destruct R0 as (F & L & V & H & M). split.
    - unfold reprV. cbn. split; [|auto]. apply Forall2_app; [exact F|]. constructor; [|constructor]. unfold reprO, reprF. cbn. rewrite Q2, Q4. auto.
    - intros g z N. cbn [fibs loopf] in *. assert ((g < length (fibs _ a1))%nat \/ (length (fibs _ a1) <= g)%nat) as [C|C] by lia.
      + rewrite nth_error_app1 in N by exact C. exact (B g z N).
      + rewrite nth_error_app2 in N by exact C. assert (loopf _ a1 < length (fibs _ a1))%nat as LL.
        { apply getF_nth in G. apply nth_error_Some. congruence. }
        destruct (g - length (fibs _ a1))%nat as [|m]; cbn in N; [|destruct m; discriminate]. injection N as <-. cbn [f_stk].
        destruct (Nat.eqb_spec g (loopf _ a1)); lia. }
  rewrite (Rv_len _ _ _ R1).
  eapply sim_bind; [apply sim_pushes; [exact R2|rewrite len_cons, len_nil; lia]|]. intros c3 a3 _ R3. rewrite len_cons, len_nil in R3.
  apply sim_next. eapply Rv_le; [exact R3|lia].
Qed.
Lemma sim_resume : forall k c a, Rv k c a -> 1024 <= k -> frugalHosts a -> sim Rr (resume _ cops c) (resume _ aops a).
Proof.
  intros k c a R K FH. unfold resume. eapply sim_bind; [apply sim_pop1; exact R|]. intros [w c1] [w2 a1] E1 (E & R1). cbn [fst snd] in *. subst w2.
  eapply sim_bind; [apply sim_next; exact R1|]. intros c2 a2 E2 R2. rewrite (Rv_loop _ _ _ R2).
  assert (frugalHosts a2) as FH2.
  { unfold frugalHosts in *. unfold next in E2. destruct (getF _ a1 (loopf _ a1)); cbn [bind] in E2; try discriminate. injection E2 as <-. cbn.
    unfold pop1, pops in E1. destruct (getF _ a (loopf _ a)); cbn [bind] in E1; try discriminate. destruct (o_pop aops _ 1) as [[? ?]| |]; cbn [bind] in E1; try discriminate.
    destruct l as [|? [|]]; try discriminate. injection E1 as <- <-. exact FH. }
  pose proof R2 as (R0 & B). eapply sim_bind; [apply sim_getF; exact R0|]. intros x y G (S & Q1 & Q2 & Q3 & Q4).
  eapply (sim_bind _ _ _ _ eq).
  - destruct w as [z| | | |f]; try exact Logic.I.
    + destruct z; try exact Logic.I. rewrite Q3. apply sim_ok. reflexivity.
    + eapply sim_bind; [apply sim_getF; exact R0|]. intros u v _ (_ & _ & _ & _ & A). rewrite A. apply sim_ok. reflexivity.
  - intros t t2 _ <-. rewrite Q4. destruct (negb (f_alive _ y)); [eapply sim_endLoop; [exact R2|lia|exact FH2]|].
    apply sim_ok. cbn [Rr]. eapply Rv_le; [|instantiate (1 := 1016); lia]. eapply (Rv_move (k + 1)); [exact R2|lia].
Qed.
Lemma pops_hosts : forall (S : Type) (o : sops S) (v : vm S) n ws v1, pops _ o v n = Ok (ws, v1) -> hosts _ v1 = hosts _ v.
Proof.
  intros S o v n ws v1 H. unfold pops in H. destruct (getF _ v (loopf _ v)); cbn [bind] in H; try discriminate.
  destruct (o_pop o _ n) as [[? ?]| |]; cbn [bind] in H; try discriminate. injection H as <- <-. reflexivity.
Qed.
Lemma pop1_hosts : forall (S : Type) (o : sops S) (v : vm S) w v1, pop1 _ o v = Ok (w, v1) -> hosts _ v1 = hosts _ v.
Proof.
  intros S o v w v1 H. unfold pop1 in H. destruct (pops _ o v 1) as [[ws v2]| |] eqn:E; cbn [bind] in H; try discriminate.
  destruct ws as [|? [|]]; try discriminate. injection H as <- <-. eapply pops_hosts. exact E.
Qed.
Lemma goto_hosts : forall (S : Type) (v : vm S) ip v1, goto _ v ip = Ok v1 -> hosts _ v1 = hosts _ v.
Proof. intros S v ip v1 H. unfold goto in H. destruct (getF _ v (loopf _ v)); cbn [bind] in H; try discriminate. injection H as <-. reflexivity. Qed.
Lemma next_hosts : forall (S : Type) (v : vm S) v1, next _ v = Ok v1 -> hosts _ v1 = hosts _ v.
Proof. intros S v v1 H. unfold next in H. destruct (getF _ v (loopf _ v)); cbn [bind] in H; try discriminate. injection H as <-. reflexivity. Qed.
Lemma sim_ret : forall k c a n, Rv k c a -> 1024 <= k -> frugalHosts a -> sim Rr (ret _ cops c n) (ret _ aops a n).
Proof.
  intros k c a n R K FH. unfold ret. eapply sim_bind; [apply sim_pop1; exact R|]. intros [w c1] [w2 a1] E1 (E & R1). cbn [fst snd] in *. subst w2.
  destruct w as [r| | | |]; try exact Logic.I.
  eapply (sim_bind _ _ _ _ (fun c2 a2 => Rv 1016 c2 a2 /\ frugalHosts a2)).
  - destruct (r =? RETURN_FROM_FIBER).
    + rewrite (Rv_loop _ _ _ R1). pose proof R1 as (R0 & B). eapply sim_bind; [apply sim_getF; exact R0|]. intros x y G (S & Q1 & Q2 & Q3 & Q4).
      pose proof (bound_get _ _ _ B G) as T.
      assert (Rv 1016 (setF _ c1 (loopf _ a1) (Some (die _ x))) (setF _ a1 (loopf _ a1) (Some (die _ y)))) as R2.
      { eapply Rv_set; [exact R1| |cbn; lia]. unfold reprF. cbn. auto. }
      rewrite Q3. apply sim_ok. split.
      * destruct (f_parent _ y); [|exact R2]. apply (Rv_move 1016 _ _ n0 n0 R2). lia.
      * unfold frugalHosts in *. destruct (f_parent _ y); cbn; rewrite (pop1_hosts _ _ _ _ _ E1); exact FH.
    + eapply sim_bind; [apply sim_pops; exact R1|]. intros [ws c2] [ws2 a2] E2 ((_ & R2) & _). cbn [snd] in *.
      eapply sim_imp; [|intros x y Q; exact Q].
      destruct (goto _ a2 r) as [a3|e|] eqn:EG; cbn [sim].
      * pose proof (sim_goto _ _ _ r R2) as SG. rewrite EG in SG. cbn [sim] in SG. destruct SG as (c3 & EC & R3). exists c3. split; [exact EC|].
        split; [eapply Rv_le; [exact R3|lia]|]. unfold frugalHosts in *. rewrite (goto_hosts _ _ _ _ EG), (pops_hosts _ _ _ _ _ _ E2), (pop1_hosts _ _ _ _ _ E1). exact FH.
      * pose proof (sim_goto _ _ _ r R2) as SG. rewrite EG in SG. exact SG.
      * exact Logic.I.
  - intros c2 a2 _ (R2 & F2). rewrite (Rv_loop _ _ _ R2). pose proof R2 as (R0 & B). eapply sim_bind; [apply sim_getF; exact R0|]. intros x y G (S & Q1 & Q2 & Q3 & Q4).
    rewrite Q1, Q4. destruct (_ || _); [eapply sim_endLoop; [exact R2|lia|exact F2]|]. apply sim_ok. cbn. eapply Rv_le; [exact R2|lia].
Qed.
Lemma sim_topOf : forall k c a, Rv k c a -> sim (fun x y => x = y /\ k <= y) (topOf _ cops c) (topOf _ aops a).
Proof.
  intros k c a R. unfold topOf. rewrite (Rv_loop _ _ _ R). pose proof R as (R0 & B). eapply sim_bind; [apply sim_getF; exact R0|].
  intros x y G (S & _). pose proof (bound_get _ _ _ B G). apply sim_ok. split; [exact (repr_top _ _ S)|assumption].
Qed.
Lemma sim_onEnter : forall k c a l, Rv k c a -> l_locals l + 3 <= k -> 3 <= k -> sim (Rv 0) (onStk _ c (fun s => o_enter cops s l)) (onStk _ a (fun s => o_enter aops s l)).
Proof.
  intros k c a l R L K. unfold onStk. rewrite (Rv_loop _ _ _ R). pose proof R as (R0 & B). eapply sim_bind; [apply sim_getF; exact R0|].
  intros x y G (S & Q). pose proof (bound_get _ _ _ B G) as T. eapply sim_bind; [apply sim_enter; [exact S|lia]|]. intros s t E ST. apply sim_ok.
  eapply Rv_set; [exact R|split; [exact ST|exact Q]|]. cbn. destruct ST as (_ & T0 & _). exact T0.
Qed.
Lemma sim_onLeave : forall k c a, Rv k c a -> sim (Rv 0) (onStk _ c (o_leave cops)) (onStk _ a (o_leave aops)).
Proof.
  intros k c a R. unfold onStk. rewrite (Rv_loop _ _ _ R). pose proof R as (R0 & B). eapply sim_bind; [apply sim_getF; exact R0|].
  intros x y G (S & Q). eapply sim_bind; [apply sim_leave; exact S|]. intros s t E ST. apply sim_ok.
  eapply Rv_set; [exact R|split; [exact ST|exact Q]|]. cbn. destruct ST as (_ & T0 & _). exact T0.
Qed.

(** ** The waiting external functions *)
Ltac inv_bind H :=
  repeat match type of H with
  | bind ?x _ = _ => let E := fresh "E" in destruct x eqn:E; cbn [bind] in H; [|discriminate H|discriminate H]
  | (match ?p with pair _ _ => _ end) = _ => destruct p
  end.
Ltac dm X := match type of X with (match ?w with _ => _ end) = _ => destruct w eqn:?; try discriminate X end.
Lemma store_hosts : forall (S : Type) (o : sops S) v p i w v1, store _ o v p i w = Ok v1 -> hosts _ v1 = hosts _ v.
Proof.
  intros S o v p i w v1 H. destruct p; cbn [store] in H; try discriminate; [destruct (z =? 0); [discriminate|]|]; inv_bind H; injection H as <-; reflexivity.
Qed.
Lemma stores_hosts : forall (S : Type) (o : sops S) ws v p i v1, stores _ o v p i ws = Ok v1 -> hosts _ v1 = hosts _ v.
Proof.
  intros S o. induction ws as [|w ws IH]; intros v p i v1 H; cbn [stores] in H; [injection H as <-; reflexivity|]. inv_bind H.
  rewrite (IH _ _ _ _ H). eapply store_hosts. exact E.
Qed.
Lemma onStk_hosts : forall (S : Type) (v : vm S) f v1, onStk _ v f = Ok v1 -> hosts _ v1 = hosts _ v.
Proof. intros S v f v1 H. unfold onStk in H. inv_bind H. injection H as <-. reflexivity. Qed.
Lemma pop2_hosts : forall (S : Type) (o : sops S) (v : vm S) w v1, pop2 _ o v = Ok (w, v1) -> hosts _ v1 = hosts _ v.
Proof.
  intros S o v w v1 H. unfold pop2 in H. inv_bind H. destruct l as [|? [|? [|]]]; try discriminate. injection H as <- <-. eapply pops_hosts. exact E.
Qed.
Lemma refChain_hosts : forall (S : Type) (o : sops S) n v g f i d v1, refChain _ o n v g f i d = Ok v1 -> hosts _ v1 = hosts _ v.
Proof.
  intros S o. induction n as [|n IH]; intros v g f i d v1 H; cbn [refChain] in H; [discriminate|]. inv_bind H.
  assert (hosts _ a0 = hosts _ v) as HV.
  { destruct (Nat.eqb g f); [|injection E0 as <-; reflexivity]. inv_bind E0. injection E0 as <-. reflexivity. }
  destruct (f_parent _ a); [rewrite (IH _ _ _ _ _ _ H); exact HV|injection H as <-; exact HV].
Qed.
Lemma makeFiber_hosts : forall (S : Type) (o : sops S) v v1, makeFiber _ o v = Ok v1 -> hosts _ v1 = hosts _ v.
Proof.
  intros S o v v1 H. unfold makeFiber in H. inv_bind H. do 6 dm H. inv_bind H. rewrite (next_hosts _ _ _ H), (onStk_hosts _ _ _ _ E4). cbn. eapply pop2_hosts. exact E.
Qed.
Definition goHosts {S} (r : sres S) : Prop := match r with Go _ v => frugalHosts v | Stop _ _ => True end.
Section Hosts.
Variable St : Type.
Variable o : sops St.
Variable ext : nat -> list val -> hostprog.
Hypothesis FX : forall x ps, frugalH (ext x ps).
Lemma runHost_fr : forall (v : vm St) c ip h p r, runHost _ o v c ip h p = Ok r -> frugalH p -> Forall (fun h => forall w, frugalH (snd h w)) h -> goHosts r.
Proof.
  intros v c ip h p r H F FH. destruct p as [w|e ps k]; cbn [runHost] in H.
  - inv_bind H. injection H as <-. exact FH.
  - unfold go in H. inv_bind H. injection H as <-. unfold enterCall in E. inv_bind E. destruct (negb _); [discriminate|]. destruct (e <=? 0); [discriminate|].
    inv_bind E. injection E as <-. cbn. inversion F; subst. constructor; assumption.
Qed.
Lemma endLoop_fr : forall (v : vm St) r, endLoop _ o v = Ok r -> frugalHosts v -> goHosts r.
Proof.
  intros v r H F. unfold endLoop in H. unfold frugalHosts in F. destruct (hosts _ v) as [|[[c ip] k] h]; [injection H as <-; exact Logic.I|].
  inv_bind H. inversion F; subst. eapply runHost_fr; [exact H| |assumption]. auto.
Qed.
Lemma go_fr : forall (v : vm St) x (r : sres St), go _ x = Ok r -> (forall v1, x = Ok v1 -> hosts _ v1 = hosts _ v) -> frugalHosts v -> goHosts r.
Proof. intros v x r H G F. unfold go in H. inv_bind H. injection H as <-. cbn. unfold frugalHosts. rewrite (G _ eq_refl). exact F. Qed.
Ltac hosts_of :=
  repeat match goal with
  | H : next _ _ = Ok _ |- _ => apply next_hosts in H
  | H : goto _ _ _ = Ok _ |- _ => apply goto_hosts in H
  | H : pushes _ _ _ _ = Ok _ |- _ => apply onStk_hosts in H
  | H : onStk _ _ _ = Ok _ |- _ => apply onStk_hosts in H
  | H : pops _ _ _ _ = Ok (_, _) |- _ => apply pops_hosts in H
  | H : pop1 _ _ _ = Ok (_, _) |- _ => apply pop1_hosts in H
  | H : pop2 _ _ _ = Ok (_, _) |- _ => apply pop2_hosts in H
  | H : stores _ _ _ _ _ _ = Ok _ |- _ => apply stores_hosts in H
  | H : refChain _ _ _ _ _ _ _ _ = Ok _ |- _ => apply refChain_hosts in H
  | H : makeFiber _ _ _ = Ok _ |- _ => apply makeFiber_hosts in H
  end.
Lemma exec_fr : forall i (v : vm St) r, exec _ o ext v i = Ok r -> frugalHosts v -> goHosts r.
Proof.
  intros i v r H F. unfold exec in H. inv_bind H.
  destruct i; try (eapply go_fr; [exact H| |exact F]; intros v1 X; cbv beta in X; inv_bind X; hosts_of; congruence).
  - inv_bind H. destruct (_ <? _); [discriminate|]. eapply go_fr; [exact H| |exact F]; intros v1 X; inv_bind X; hosts_of; congruence.
  - eapply go_fr; [exact H| |exact F]; intros v1 X; inv_bind X; hosts_of. cbn in X. congruence.
  - destruct n as [n|]; [inv_bind H; destruct (_ <? _); [discriminate|]|]; (eapply go_fr; [exact H| |exact F]; intros v1 X; inv_bind X; hosts_of; congruence).
  - eapply go_fr; [exact H| |exact F]; intros v1 X; inv_bind X. match goal with E : (match ?w with _ => _ end) = Ok _ |- _ => destruct w; try (injection E as <-); hosts_of; congruence end.
  - eapply go_fr; [exact H| |exact F]; intros v1 X; inv_bind X. dm X. dm X; hosts_of; congruence.
  - eapply go_fr; [exact H| |exact F]; intros v1 X; inv_bind X. dm X. dm X; hosts_of; congruence.
  - eapply go_fr; [exact H| |exact F]; intros v1 X; inv_bind X. destruct (nth _ _ _); try discriminate. destruct (_ =? _); [discriminate|]. inv_bind X. hosts_of; congruence.
  - inv_bind H. eapply runHost_fr; [exact H|apply FX|exact F].
  - unfold resume in H. inv_bind H. match type of H with (if _ then endLoop _ _ ?w else _) = _ => assert (frugalHosts w) as F1 end; [hosts_of; unfold frugalHosts in *; congruence|].
    destruct (negb _); [eapply endLoop_fr; eassumption|]. injection H as <-. exact F1.
  - eapply go_fr; [exact H| |exact F]; intros v1 X; inv_bind X. dm X. inv_bind X. dm X. hosts_of. cbn in X. congruence.
  - unfold ret in H. inv_bind H. dm H. inv_bind H. match type of H with (if _ then endLoop _ _ ?w else _) = _ => assert (frugalHosts w) as F1 end.
    { clear H. destruct (_ =? _); inv_bind E1.
      - injection E1 as <-. hosts_of. unfold frugalHosts in *. destruct (f_parent _ _); cbn; congruence.
      - hosts_of. unfold frugalHosts in *. congruence. }
    destruct (_ || _); [eapply endLoop_fr; eassumption|]. injection H as <-. exact F1.
  - inv_bind H. destruct (_ <? _); [discriminate|]. eapply go_fr; [exact H| |exact F]; intros v1 X; inv_bind X; hosts_of; congruence.
  - inv_bind H. eapply endLoop_fr; [exact H|]. exact F.
Qed.
End Hosts.

(** ** One instruction *)
Section Exec.
Variable code : Z -> option instr.
Variable ext : nat -> list val -> hostprog.
Hypothesis FC : forall ip i, code ip = Some i -> frugal i.
Hypothesis FX : forall x ps, frugalH (ext x ps).
Notation B1 := (sim_bind _ _ _ _).
Ltac go0 k := apply (sim_go k); [|lia].
Ltac sb l := eapply sim_bind; [l|].
Ltac nx := eapply sim_next.
Ltac pu R := eapply sim_bind; [eapply sim_pushes; [exact R|rewrite ?len_cons, ?len_nil, ?len_repeat; lia]|].
Lemma sim_exec : forall i c a, frugal i -> Rv 1024 c a -> frugalHosts a -> sim Rr (exec _ cops ext c i) (exec _ aops ext a i).
Proof.
  intros i c a FI R FH. unfold exec. rewrite (Rv_loop _ _ _ R). pose proof R as (R0 & B).
  sb ltac:(apply sim_getF; exact R0). intros x y G (S & Q1 & Q2 & Q3 & Q4).
  destruct i; cbn [frugal] in FI.
  - (* Push *) go0 1023. pu R. intros c1 a1 _ R1. nx. exact R1.
  - (* PushZero *)
    sb ltac:(eapply sim_topOf; exact R). intros t t2 ET (<- & T). destruct (Z.ltb_spec (t - Z.of_nat n) MIN_FREE) as [A|A]; [reflexivity|]. unfold MIN_FREE in A.
    assert (Rv t c a) as Rt.
    { split; [exact R0|]. intros g z N. specialize (B g z N). destruct (Nat.eqb_spec g (loopf _ a)) as [->|]; [|exact B].
      unfold topOf in ET. apply getF_nth in G. unfold getF in ET. rewrite N in ET. cbn [bind] in ET. injection ET as ET. cbn in ET. lia. }
    go0 (t - Z.of_nat n). pu Rt. intros c1 a1 _ R1. nx. rewrite len_repeat in R1. exact R1.
  - (* PushLocalPtr *) go0 1023. sb ltac:(apply sim_local; exact S). intros p p2 _ <-. pu R. intros c1 a1 _ R1. nx. exact R1.
  - (* PushLocal *)
    go0 1023. sb ltac:(apply sim_local; exact S). intros p p2 _ <-. sb ltac:(eapply sim_load; exact R). intros w w2 _ <-.
    pu R. intros c1 a1 _ R1. nx. exact R1.
  - (* PushReg *) rewrite Q2. go0 1023. pu R. intros c1 a1 _ R1. nx. exact R1.
  - (* Pop *) go0 1024. sb ltac:(eapply sim_pops; exact R). intros [ws c1] [ws2 a1] _ ((_ & R1) & _). cbn [snd] in *. nx. eapply Rv_le; [exact R1|lia].
  - (* PopReg *)
    go0 1024. sb ltac:(eapply sim_pop1; exact R). intros [w c1] [w2 a1] _ (E & R1). cbn [fst snd] in *. subst w2. rewrite (Rv_loop _ _ _ R1).
    pose proof R1 as (R10 & B1). sb ltac:(apply sim_getF; exact R10). intros u v G2 (S2 & P1 & P2 & P3 & P4). nx.
    eapply Rv_set; [exact R1| |cbn; pose proof (bound_get _ _ _ B1 G2); lia]. unfold reprF. cbn. rewrite P2. auto.
  - (* Dup *) go0 1023. sb ltac:(eapply sim_pop1; exact R). intros [w c1] [w2 a1] _ (E & R1). cbn [fst snd] in *. subst w2. pu R1. intros c2 a2 _ R2. nx. exact R2.
  - (* Swap *)
    go0 1024. sb ltac:(eapply sim_pop2; exact R). intros [[w u] c1] [[w2 u2] a1] _ (E & R1). cbn [fst snd] in *. injection E as <- <-. pu R1. intros c2 a2 _ R2. nx. exact R2.
  - (* Zero *)
    go0 1025. sb ltac:(eapply sim_pop1; exact R). intros [w c1] [w2 a1] _ (E & R1). cbn [fst snd] in *. subst w2. sb ltac:(eapply sim_stores; exact R1). intros c2 a2 _ R2. nx. exact R2.
  - (* Deref *)
    go0 1024. sb ltac:(eapply sim_pop1; exact R). intros [w c1] [w2 a1] _ (E & R1). cbn [fst snd] in *. subst w2. sb ltac:(eapply sim_load; exact R1). intros u u2 _ <-.
    pu R1. intros c2 a2 _ R2. nx. exact R2.
  - (* Assign *)
    go0 1026. sb ltac:(eapply sim_pop2; exact R). intros [[w u] c1] [[w2 u2] a1] _ (E & R1). cbn [fst snd] in *. injection E as <- <-.
    eapply (sim_bind _ _ _ _ eq).
    { destruct n; [eapply sim_loads; exact R1|apply sim_ok; reflexivity]. }
    intros ws ws2 _ <-. sb ltac:(eapply sim_stores; exact R1). intros c2 a2 _ R2. nx. exact R2.
  - (* AssignParam *)
    destruct n as [n|]; [|go0 1024; nx; exact R].
    sb ltac:(eapply sim_topOf; exact R). intros t t2 ET (<- & T). destruct (Z.ltb_spec (t - (Z.of_nat n - 1)) MIN_FREE) as [A|A]; [reflexivity|]. unfold MIN_FREE in A.
    assert (Rv t c a) as Rt.
    { split; [exact R0|]. intros g z N. specialize (B g z N). destruct (Nat.eqb_spec g (loopf _ a)) as [->|]; [|exact B].
      unfold topOf in ET. apply getF_nth in G. unfold getF in ET. rewrite N in ET. cbn [bind] in ET. injection ET as ET. cbn in ET. lia. }
    go0 (t + 1 - Z.of_nat n). sb ltac:(eapply sim_pop1; exact Rt). intros [w c1] [w2 a1] _ (E & R1). cbn [fst snd] in *. subst w2.
    sb ltac:(eapply sim_loads; exact R). intros ws ws2 EL <-. assert (len ws = Z.of_nat n) as LW by (unfold len; rewrite (loads_len _ _ _ _ _ _ _ EL); reflexivity).
    sb ltac:(eapply sim_pushes; [exact R1|lia]). intros c2 a2 _ R2. nx. rewrite LW in R2. exact R2.
  - (* Ref *)
    go0 1024. sb ltac:(eapply sim_pop1; exact R). intros [w c1] [w2 a1] _ (E & R1). cbn [fst snd] in *. subst w2. rewrite (Rv_len _ _ _ R), (Rv_vmf _ _ _ R).
    eapply (sim_bind _ _ _ _ (Rv 1024)).
    { destruct w; try (apply sim_ok; exact R). apply sim_refChain. exact R. }
    intros c2 a2 _ R2. nx. exact R2.
  - (* Op *)
    go0 24. sb ltac:(eapply sim_pops; exact R). intros [ws c1] [ws2 a1] _ ((E & R1) & _). cbn [fst snd] in *. subst ws2.
    destruct (f ws) as [rs|e|] eqn:EF; cbn [bind]; [|reflexivity|exact Logic.I]. specialize (FI _ _ EF).
    sb ltac:(eapply sim_pushes; [exact R1|lia]). intros c2 a2 _ R2. nx. eapply Rv_le; [exact R2|lia].
  - (* Sort *)
    go0 27. sb ltac:(eapply sim_pops; exact R). intros [ws c1] [ws2 a1] _ ((_ & R1) & _). cbn [snd] in *.
    sb ltac:(eapply sim_pushes; [exact R1|rewrite len_repeat; lia]). intros c2 a2 _ R2. rewrite len_repeat in R2.
    sb ltac:(eapply sim_pops; exact R2). intros [ws3 c3] [ws4 a3] _ ((_ & R3) & _). cbn [snd] in *. nx. eapply Rv_le; [exact R3|lia].
  - (* Goto *) go0 1024. apply sim_goto. exact R.
  - (* GotoIf *)
    go0 1025. sb ltac:(eapply sim_pop1; exact R). intros [w c1] [w2 a1] _ (E & R1). cbn [fst snd] in *. subst w2. destruct w; try exact Logic.I.
    destruct (_ =? _); [nx|apply sim_goto]; exact R1.
  - (* GotoIfNot *)
    go0 1025. sb ltac:(eapply sim_pop1; exact R). intros [w c1] [w2 a1] _ (E & R1). cbn [fst snd] in *. subst w2. destruct w; try exact Logic.I.
    destruct (_ =? _); [apply sim_goto|nx]; exact R1.
  - (* Call *) rewrite Q1. go0 1023. pu R. intros c1 a1 _ R1. apply sim_goto. exact R1.
  - (* CallInd *)
    go0 1023. sb ltac:(eapply sim_pops; exact R). intros [ws c1] [ws2 a1] _ ((E & R1) & _). cbn [fst snd] in *. subst ws2.
    destruct (nth n ws (VZ 0)); try exact Logic.I. destruct (_ =? _); [reflexivity|]. rewrite Q1. pu R. intros c2 a2 _ R2. apply sim_goto. exact R2.
  - (* CallExtern *)
    sb ltac:(apply sim_params; exact S). intros ps ps2 _ <-. rewrite (Rv_hosts _ _ _ R), Q1. eapply sim_runHost; [exact R|lia|apply FX].
  - (* MakeFiber *) go0 1024. apply sim_makeFiber; [exact R|lia].
  - (* Resume *) eapply sim_resume; [exact R|lia|exact FH].
  - (* Valid *)
    go0 1024. sb ltac:(eapply sim_pop1; exact R). intros [w c1] [w2 a1] _ (E & R1). cbn [fst snd] in *. subst w2. pose proof R1 as (R10 & B1).
    eapply (sim_bind _ _ _ _ eq).
    { destruct w as [z| | | |f]; try exact Logic.I; [destruct z; try exact Logic.I; apply sim_ok; reflexivity|].
      sb ltac:(apply sim_getF; exact R10). intros u v G2 (S2 & P1 & P2 & P3 & P4). rewrite P4. apply sim_ok. reflexivity. }
    intros b b2 _ <-. pu R1. intros c2 a2 _ R2. nx. exact R2.
  - (* Free *)
    go0 1025. sb ltac:(eapply sim_pop1; exact R). intros [w c1] [w2 a1] _ (E & R1). cbn [fst snd] in *. subst w2. destruct w as [| | | |f]; try exact Logic.I.
    pose proof R1 as (R10 & B1). sb ltac:(apply sim_getF; exact R10). intros u v G2 (S2 & P1 & P2 & P3 & P4). rewrite P4. destruct (f_alive _ v); [reflexivity|].
    nx. split; [apply repr_set; [exact R10|exact Logic.I]|]. eapply bound_set; [exact B1|right; lia|exact Logic.I].
  - (* Return *) eapply sim_ret; [exact R|lia|exact FH].
  - (* Enter *)
    sb ltac:(eapply sim_topOf; exact R). intros t t2 ET (<- & T). destruct (Z.ltb_spec (t - l_locals l) MIN_FREE) as [A|A]; [reflexivity|]. unfold MIN_FREE in A.
    assert (Rv t c a) as Rt.
    { split; [exact R0|]. intros g z N. specialize (B g z N). destruct (Nat.eqb_spec g (loopf _ a)) as [->|]; [|exact B].
      unfold topOf in ET. apply getF_nth in G. unfold getF in ET. rewrite N in ET. cbn [bind] in ET. injection ET as ET. cbn in ET. lia. }
    go0 0. sb ltac:(eapply sim_onEnter; [exact Rt|lia|lia]). intros c1 a1 _ R1. nx. exact R1.
  - (* Leave *) go0 0. sb ltac:(eapply sim_onLeave; exact R). intros c1 a1 _ R1. nx. exact R1.
  - (* Halt *)
    rewrite (Rv_vmf _ _ _ R). sb ltac:(apply sim_getF; exact R0). intros u v G2 (S2 & P1 & P2 & P3 & P4). eapply (sim_endLoop 1016); [|lia|exact FH].
    pose proof (bound_any _ _ _ _ B G2) as T. split; [apply repr_set; [exact R0|]; cbn; unfold reprF; cbn; auto|].
    eapply bound_set; [exact B|right; lia|]. cbn. destruct (Nat.eqb _ _); lia.
Qed.
Lemma sim_step : forall c a, Rv 0 c a -> frugalHosts a -> sim Rr (step _ cops code ext c) (step _ aops code ext a).
Proof.
  intros c a R FH. unfold step. sb ltac:(eapply sim_topOf; exact R). intros t t2 ET (<- & T).
  destruct (Z.ltb_spec t MIN_FREE) as [A|A]; [reflexivity|]. unfold MIN_FREE in A. pose proof R as (R0 & B).
  assert (Rv 1024 c a) as Rt.
  { split; [exact R0|]. intros g z N. specialize (B g z N). destruct (Nat.eqb_spec g (loopf _ a)) as [->|]; [|exact B].
    unfold topOf in ET. unfold getF in ET. rewrite N in ET. cbn [bind] in ET. injection ET as ET. cbn in ET. lia. }
  rewrite (Rv_loop _ _ _ R). sb ltac:(apply sim_getF; exact R0). intros x y G (S & Q1 & _). rewrite Q1.
  destruct (code (f_ip _ y)) as [i|] eqn:EC; [|exact Logic.I]. apply sim_exec; [eapply FC; exact EC|exact Rt|exact FH].
Qed.
Lemma step_fr : forall (St : Type) (o : sops St) v r, step _ o code ext v = Ok r -> frugalHosts v -> goHosts r.
Proof.
  intros St o v r H F. unfold step in H. inv_bind H. destruct (_ <? _); [discriminate|]. inv_bind H. destruct (code _); [|discriminate].
  eapply exec_fr; eassumption.
Qed.
Lemma sim_run : forall n c a, Rv 0 c a -> frugalHosts a -> sim Rr (run _ cops code ext n c) (run _ aops code ext n a).
Proof.
  induction n as [|n IH]; intros c a R FH; cbn [run]; [apply sim_ok; exact R|].
  sb ltac:(apply sim_step; [exact R|exact FH]). intros x y E Q. pose proof (step_fr _ _ _ _ E FH) as F2.
  destruct x as [c1|c1], y as [a1|a1]; cbn in Q; try contradiction; [apply IH; [exact Q|exact F2]|apply sim_ok; exact Q].
Qed.
Lemma sim_session : forall calls c a, Forall (fun e => len (snd (fst e)) <= 1000) calls -> Rv 1016 c a ->
  sim Rr (session cops code ext calls c) (session aops code ext calls a).
Proof.
  induction calls as [|[[e ps] n] calls IH]; intros c a FP R; cbn [session]; [apply sim_ok; exact R|]. inversion FP; subst. cbn [fst snd] in *.
  sb ltac:(eapply sim_enterCall; [exact R|lia|assumption]). intros c1 a1 E1 R1.
  assert (frugalHosts a1) as F1.
  { unfold enterCall in E1. inv_bind E1. dm E1. dm E1. inv_bind E1. injection E1 as <-. constructor. }
  sb ltac:(apply sim_run; [exact R1|exact F1]). intros x y _ Q. destruct x as [c2|c2], y as [a2|a2]; cbn in Q; try contradiction; [apply sim_ok; exact Q|].
  apply IH; [assumption|exact Q].
Qed.
End Exec.
Lemma init_rel : forall size m, (1017 <= size)%nat -> Rv 1016 (init (c_init size) m) (init (MkA (Z.of_nat size) (Bot [] (VZ 0))) m).
Proof.
  intros size m L. split.
  - unfold reprV. cbn. split; [|auto]. constructor; [|constructor]. cbn. unfold reprF. cbn. split; [|auto]. apply repr_iff. unfold a_top. cbn.
    exists (repeat (VZ 0) (Nat.pred size)). rewrite len_repeat.
    split; [|split; [lia|]; split; [lia|]; split; [lia|exact Logic.I]].
    replace size with (Nat.pred size + 1)%nat at 1 by lia. rewrite repeat_app. reflexivity.
  - intros g x N. destruct g as [|g]; cbn in N; [|destruct g; discriminate]. injection N as <-. cbn. unfold a_top. cbn. lia.
Qed.
Lemma Rr_repr : forall x y, Rr x y -> reprR x y.
Proof. intros [c|c] [a|a] H; cbn in *; try contradiction; apply H. Qed.
