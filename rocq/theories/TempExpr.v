(** Temporaries: expressions and calls. *)
From Coq Require Import ZArith Lia Bool List.
From Verif Require Import Base TempModel TempSpec TempBase TempScope.
Import ListNotations.
Local Open Scope Z_scope.

Lemma live_tmp : forall D c c' t, tmpOK c c' t -> wfc c' -> dOK D c -> live D c' = Id None t true true :: live (t :: D) c'.
Proof.
  intros D c c' t T W H. destruct (tmp_facts _ _ _ T W) as (_ & B & _). destruct T as (b & A & P & _). unfold live.
  assert (X : idents c' = Id None t true true :: b ++ concat (tl (cblks c))) by (unfold idents; rewrite A; reflexivity). rewrite X.
  destruct W as (_ & N & _). rewrite X in N. cbn [map] in N. inversion N; subst. cbn [filter iused]. replace (inD D _) with false.
  - cbn. rewrite Nat.eqb_refl. cbn. f_equal. apply filter_ext_in. intros i Hi. f_equal. unfold inD. cbn. destruct (Nat.eqb_spec (islot i) t); auto.
    exfalso. apply H2. cbn. rewrite <- e. apply in_map. exact Hi.
  - symmetry. unfold inD. cbn. destruct (existsb _ D) eqn:Q; auto. apply existsb_exists in Q as (d & Hd & Q). apply Nat.eqb_eq in Q. destruct (H d Hd). lia.
Qed.
Lemma live_in_lt : forall D c i, wfc c -> In i (live D c) -> (islot i < cnext c)%nat.
Proof. intros D c i (_ & _ & W) H. apply filter_In in H as (H & _). apply W in H. lia. Qed.
Lemma live_ext_in : forall D a c i, ext a c -> In i (live D a) -> In i (live D c).
Proof. intros D a c i E H. apply filter_In in H as (H & G). apply filter_In. split; auto. eapply ext_old; eauto. Qed.

Lemma live_notin : forall D t c, ~ In t (map islot (live (t :: D) c)).
Proof. intros D t c H. apply in_map_iff in H as (i & S & H). apply filter_In in H as (_ & H). unfold inD in H. cbn in H. rewrite S, Nat.eqb_refl in H. cbn in H. rewrite andb_false_r in H. discriminate. Qed.
Section Exprs.
Variable gty : list bool.
Variable prog : list fn.
Variable funs : list (nat * (code * code)).
Variable K : bool.
Hypothesis FUNS : forall f F, nth_error prog f = Some F -> exists body ending, nth_error funs f = Some (length (fparams F), (body, ending)).
Notation sigs := (map sigOf prog).
Notation tri := (tri funs K).
Notation inv := (inv gty).

(** After a call, with [R] held outside. *)
Record after (F : fn) (R : nat -> Z) (s : st) : Prop := {
  aglob : kinds gty (globs s);
  afresh : forall o, (onext s <= o)%nat -> cnt s o = 0;
  acnt : forall o, cnt s o = R o + occ o (globs s) + match fresult F with Some _ => occ o [res s] | None => 0 end;
  ares : forall gc, fresult F = Some gc -> isRef (res s) = gc }.
Definition fnOK (m : nat) : Prop := forall f F k body ending, nth_error prog f = Some F -> nth_error funs f = Some (k, (body, ending)) ->
  forall s R al, (forall o, 0 <= R o) -> stk s = [] -> (forall i, slots s i = nth i al (VInt 0)) -> kinds (fparams F) al ->
  kinds gty (globs s) -> (forall o, (onext s <= o)%nat -> cnt s o = 0) -> (forall o, cnt s o = R o + occ o (globs s) + occ o al) ->
  tri m body s (fun s1 g => (g = Next \/ g = Ret) /\ tri m ending s1 (nx (fun s2 => stk s2 = [] /\ after F R s2))).
Variable n : nat.
Hypothesis FN : forall m, (m < n)%nat -> fnOK m.

Definition rest (L : list ident) (s : st) (R : nat -> Z) (W : list value) : nat -> Z := fun o => R o + occ o (held L s) + occ o W.
Lemma tri_call : forall f F L s R W al B, nth_error prog f = Some F -> (forall o, 0 <= R o) -> stk s = rev al ++ B -> kinds (fparams F) al -> inv L s R (al ++ W) ->
  tri n [ICall f] s (nx (fun s' => stk s' = B /\ slots s' = slots s /\ (forall gc, fresult F = Some gc -> isRef (res s') = gc) /\
    inv L s' R (match fresult F with Some _ => res s' :: W | None => W end))).
Proof.
  intros f F L s R W al B E P S Ka I. destruct (FUNS f F E) as (body & ending & Ef).
  assert (Len : length (fparams F) = length al). { clear -Ka. induction Ka; cbn; auto. }
  unfold tri, TempBase.tri. revert FN. destruct n as [|m]; [constructor|]. intros FN'. specialize (FN' m (Nat.lt_succ_diag_r m)).
  cbn [exec]. rewrite Ef. replace (Nat.ltb (length (stk s)) (length (fparams F))) with false by (symmetry; apply Nat.ltb_ge; rewrite S, app_length, rev_length; lia).
  assert (Fi : firstn (length al) (stk s) = rev al). { rewrite S. rewrite <- (rev_length al) at 1. rewrite firstn_app, Nat.sub_diag, firstn_all. cbn. apply app_nil_r. }
  assert (Sk : skipn (length al) (stk s) = B). { rewrite S. rewrite <- (rev_length al) at 1. rewrite skipn_app, Nat.sub_diag, skipn_all. reflexivity. }
  rewrite Len, Fi, Sk, rev_involutive.
  set (s0 := St [] _ _ _ _ _ _). assert (T := FN' f F _ body ending E Ef s0 (rest L s R W) al). unfold s0 in T. cbn in T. specialize (T).
  assert (T' : TempBase.tri funs K m body s0 (fun s1 g => (g = Next \/ g = Ret) /\ TempBase.tri funs K m ending s1 (nx (fun s2 => stk s2 = [] /\ after F (rest L s R W) s2)))).
  { apply T; auto; destruct I as [Ig If Ic Ik]; auto.
    - intros o. unfold rest. pose proof (occ_ge o (held L s)). pose proof (occ_ge o W). specialize (P o). lia.
    - intros o. rewrite Ic, occ_app. unfold rest. lia. }
  clear T. unfold TempBase.tri in T'. destruct (exec funs m body s0) as [[s1 g1]| | ] eqn:E1; cbn [bind]; auto.
  destruct T' as (G1 & T'). destruct (exec funs m ending s1) as [[s2 g2]| | ] eqn:E2.
  2,3: destruct G1 as [-> | ->]; cbn [bind]; auto.
  destruct T' as (-> & Z1 & [Aa Ab Ac Ad]).
  set (sf := St B (slots s) (globs s2) (cnt s2) (ostr s2) (onext s2) (res s2)).
  assert (X : nx (fun s' => stk s' = B /\ slots s' = slots s /\ (forall gc, fresult F = Some gc -> isRef (res s') = gc) /\ inv L s' R (match fresult F with Some _ => res s' :: W | None => W end)) sf Next).
  { split; auto. unfold sf. cbn. repeat split; auto.
    - intros o. cbn. rewrite Ac. unfold rest. change (held L sf) with (held L s). destruct (fresult F); [rewrite (occ_cons o (res s2) W)|]; fold (held L s); unfold held; cbn; lia.
    - intros i Hi. cbn. apply (ikind _ _ _ _ _ I). exact Hi. }
  destruct G1 as [-> | ->]; cbn [bind]; rewrite Z1; (destruct m; [constructor|exact X]).
Qed.
Lemma tri_if : forall a b s z l T, stk s = VInt z :: l -> tri n (if z =? 0 then b else a) (withStk s l) (nx T) -> tri n [IIf a b] s (nx T).
Proof.
  intros a b s z l T S H. revert H. destruct n as [|m]; [constructor|]. intros H. apply tri_S in H. unfold TempBase.tri in *. cbn [exec]. rewrite S.
  destruct (exec funs m _ _) as [[s1 g]| | ]; cbn [bind]; auto. destruct H as (-> & H). destruct m; cbn; auto. split; auto.
Qed.
Lemma tri_short : forall op c s z l (T : st -> Prop), stk s = VInt z :: l -> T s -> tri n c (withStk s l) (nx T) -> tri n [IShort op c] s (nx T).
Proof.
  intros op c s z l T S H0 H. revert H. destruct n as [|m]; [constructor|]. intros H. apply tri_S in H. unfold TempBase.tri in *. cbn [exec]. rewrite S.
  destruct (eqb _ _). { destruct m; cbn; auto. split; auto. }
  destruct (exec funs m _ _) as [[s1 g]| | ]; cbn [bind]; auto. destruct H as (-> & H). destruct m; cbn; auto. split; auto.
Qed.
Lemma tri_end : forall p s (T T' : st -> Prop), tri n p s (nx T) -> (forall s', T s' -> T' s') -> tri n p s (nx T').
Proof. intros. eapply tri_imp; [exact H|]. intros s' g (-> & G). split; auto. Qed.
Lemma tri_seq : forall p q s (T T' : st -> Prop), tri n p s (nx T) -> (forall s', T s' -> tri n q s' (nx T')) -> tri n (p ++ q) s (nx T').
Proof. intros. eapply tri_next; eauto. Qed.
Lemma tri_done : forall s (T : st -> Prop), T s -> tri n [] s (nx T).
Proof. intros. apply tri_nil. split; auto. Qed.
Lemma tri_one : forall i s s' (T : st -> Prop), (forall k, exec funs (S k) [i] s = let* s1 := step i s in exec funs k [] s1) -> step i s = Ok s' -> T s' -> tri n [i] s (nx T).
Proof. intros. eapply tri_step; eauto. apply tri_done. auto. Qed.

(** The object of a value on the stack is held by something else. *)
Definition backed (glob : bool) (L : list ident) (s : st) (v : value) : Prop :=
  isRef v = true -> v = VRef None \/ (exists i, In i L /\ slots s (islot i) = v) \/ (glob = true /\ In v (globs s)).
Lemma backed_alive : forall g L s R W v, inv L s R W -> (forall o, 0 <= R o) -> backed g L s v -> forall o, v = VRef (Some o) -> 0 < cnt s o.
Proof.
  intros g L s R W v I P H o ->. destruct (H eq_refl) as [X|[(i & A & B)|(_ & A)]]; [discriminate| |]; (eapply inv_alive; [exact I|exact P|]).
  - right. left. apply in_map_iff. exists i. auto.
  - left. exact A.
Qed.
Definition frame (m : nat) (s s' : st) : Prop := forall k, (k < m)%nat -> slots s' k = slots s k.
Lemma frame_trans : forall m m' a b c, (m <= m')%nat -> frame m a b -> frame m' b c -> frame m a c.
Proof. intros m m' a b c L A B k H. rewrite B, A; auto. lia. Qed.
Definition Kpost (e : expr) (D : list nat) (c c' : cst) (gc : bool) (s : st) (R : nat -> Z) (W : list value) (s' : st) : Prop :=
  exists v, stk s' = v :: stk s /\ isRef v = gc /\ frame (cnext c) s s' /\ (noCall e = true -> globs s' = globs s) /\ inv (live D c') s' R W /\ backed (isGlobal e) (live D c') s' v.
Definition Opost (e : expr) (D : list nat) (c c' : cst) (gc : bool) (s : st) (R : nat -> Z) (W : list value) (s' : st) : Prop :=
  exists v, stk s' = v :: stk s /\ isRef v = gc /\ frame (cnext c) s s' /\ (noCall e = true -> globs s' = globs s) /\ inv (live D c') s' R (v :: W).
Definition Epost (e : expr) (D : list nat) (c c' : cst) (r : eres) (s : st) (R : nat -> Z) (W : list value) (s' : st) : Prop :=
  match etmp r with Some t => Opost e (t :: D) c c' (egc r) s R W s' | None => Kpost e D c c' (egc r) s R W s' end.
Definition Eok (e : expr) : Prop := forall D c r c', cexpr gty sigs e c = Ok (r, c') -> wfc c -> dOK D c -> (K = true -> careful e = true) ->
  forall s R W, (forall o, 0 <= R o) -> inv (live D c) s R W -> tri n (epre r) s (nx (Epost e D c c' r s R W)).
Definition Aok (a : args) : Prop := forall D ps c p c', cargs gty sigs a ps c = Ok (p, c') -> wfc c -> dOK D c -> (K = true -> carefulArgs a = true) ->
  forall s R W, (forall o, 0 <= R o) -> inv (live D c) s R W ->
  tri n p s (nx (fun s' => exists al, stk s' = rev al ++ stk s /\ kinds ps al /\ frame (cnext c) s s' /\ inv (live D c') s' R (al ++ W))).

(** Storing a value into a slot that is not live. *)
Lemma inv_store : forall L s R W v m gc x u, inv L s R (v :: W) -> ~ In m (map islot L) -> isRef v = gc -> inv (Id x m gc u :: L) (setSlot s m v) R W.
Proof.
  intros L s R W v m gc x u [Ig If Ic Ik] N V. constructor; auto.
  - intros o. change (cnt (setSlot s m v) o) with (cnt s o). rewrite Ic. unfold held at 2. cbn [map]. fold (held L (setSlot s m v)). rewrite held_set by auto. cbn [islot]. cbn [slots setSlot globs].
    rewrite Nat.eqb_refl, (occ_cons o v (held L s)), (occ_cons o v W). lia.
  - intros i [<- |Hi]; cbn; [rewrite Nat.eqb_refl; auto|]. destruct (Nat.eqb_spec (islot i) m); [|auto]. subst. destruct N. apply in_map. exact Hi.
Qed.
Lemma inv_dead : forall L s R W v m, inv L s R W -> ~ In m (map islot L) -> inv L (setSlot s m v) R W.
Proof.
  intros L s R W v m [Ig If Ic Ik] N. constructor; auto.
  - intros o. rewrite held_set by auto. apply Ic.
  - intros i Hi. cbn. destruct (Nat.eqb_spec (islot i) m); [|auto]. subst. destruct N. apply in_map. exact Hi.
Qed.
Lemma tri_keep : forall e D c r c', Eok e -> cexpr gty sigs e c = Ok (r, c') -> wfc c -> dOK D c -> (K = true -> careful e = true) ->
  forall s R W, (forall o, 0 <= R o) -> inv (live D c) s R W -> tri n (keep r) s (nx (Kpost e D c c' (egc r) s R W)).
Proof.
  intros e D c r c' He E Wf Hd Hc s R W P I. specialize (He D c r c' E Wf Hd Hc s R W P I). unfold keep. destruct (exprFacts _ _ _ _ _ _ E Wf) as (W' & Ex & T).
  eapply tri_seq; [exact He|]. unfold Epost. destruct (etmp r) as [t|]; [|intros; apply tri_done; auto].
  intros s1 (v & S1 & V1 & F1 & G1 & I1). destruct (T t eq_refl) as (Egc & Tm).
  eapply tri_step; [reflexivity|cbn [step]; rewrite S1; reflexivity|]. eapply tri_one; [reflexivity|cbn [step withStk stk]; reflexivity|].
  exists v. split; [reflexivity|]. split; auto. split; [|split; [exact G1|]].
  - intros k Hk. cbn. destruct Tm as (b & _ & Lt & _). destruct (Nat.eqb_spec k t); [lia|]. apply F1. exact Hk.
  - assert (Z : inv (live D c') (setSlot (withStk (withStk s1 (v :: v :: stk s)) (v :: stk s)) t v) R W).
    { rewrite (live_tmp _ _ _ _ Tm W' Hd). apply inv_store; [|apply live_notin|congruence]. apply inv_stk, inv_stk. exact I1. }
    split; [exact Z|]. intros _. right. left. exists (Id None t true true). split; [rewrite (live_tmp _ _ _ _ Tm W' Hd); left; reflexivity|]. cbn. rewrite Nat.eqb_refl. reflexivity.
Qed.
Lemma tri_own : forall e D c r c', Eok e -> cexpr gty sigs e c = Ok (r, c') -> wfc c -> dOK D c -> (K = true -> careful e = true) ->
  forall s R W, (forall o, 0 <= R o) -> inv (live D c) s R W -> tri n (fst (own r c')) s (nx (Opost e D c (snd (own r c')) (egc r) s R W)).
Proof.
  intros e D c r c' He E Wf Hd Hc s R W P I. specialize (He D c r c' E Wf Hd Hc s R W P I). unfold own. destruct (exprFacts _ _ _ _ _ _ E Wf) as (W' & Ex & T).
  unfold Epost in He. destruct (etmp r) as [t|]; cbn [fst snd].
  - destruct (T t eq_refl) as (Egc & Tm). destruct (tmp_facts _ _ _ Tm W') as (At & _). unfold Opost in *. rewrite (unuse_live D t c' W' At). exact He.
  - eapply tri_seq; [exact He|]. intros s1 (v & S1 & V1 & F1 & G1 & I1 & B1). destruct (egc r) eqn:Eg.
    + destruct (incRef_ok v s1 V1) as (s2 & E2 & X1 & X2 & X3 & X4 & X5 & X6 & _); [eapply backed_alive; eauto|].
      eapply tri_one; [reflexivity|cbn [step]; rewrite S1; exact E2|]. exists v. rewrite X1, X3. split; auto. split; auto. split; [intros k Hk; rewrite X2; auto|]. split; auto.
      destruct I1 as [Ig If Ic Ik]. constructor; rewrite ?X2, ?X3, ?X4; auto.
      * intros o Ho. rewrite X6, If by auto. pose proof (Ic o). rewrite If in H by auto. destruct v as [z|[q|]]; try discriminate V1; [|rewrite occ_null; reflexivity].
        rewrite occ_self. destruct (Nat.eqb_spec o q); auto. subst q. exfalso. pose proof (backed_alive _ _ s1 R W (VRef (Some o)) (Build_inv _ _ _ _ _ Ig If Ic Ik) P B1 o eq_refl). rewrite If in H0 by auto. lia.
      * intros o. rewrite X6, Ic, (occ_cons o v W). unfold held. rewrite X2. lia.
    + apply tri_done. exists v. split; auto. split; auto. split; auto. split; auto. eapply inv_perm; [exact I1| |].
      * intros o. rewrite (occ_cons o v W), (occ_noref o v) by auto. lia.
      * apply (ikind _ _ _ _ _ I1).
Qed.
(** The result of one branch of the conditional operator. *)
Lemma tri_branch : forall T L s R W v B m, (forall o, 0 <= R o) -> stk s = v :: B -> isRef v = true -> (forall o, v = VRef (Some o) -> 0 < cnt s o) ->
  inv (filter iused T ++ L) s R W -> ~ In m (map islot (filter iused T ++ L)) ->
  tri n ([IDup; IInc; IStore m] ++ release T) s (nx (fun s' => stk s' = v :: B /\ slots s' m = v /\ (forall k, k <> m -> slots s' k = slots s k) /\ globs s' = globs s /\ inv L s' R (v :: W))).
Proof.
  intros T L s R W v B m P S V A I N. cbn [app]. eapply tri_step; [reflexivity|cbn [step]; rewrite S; reflexivity|].
  destruct (incRef_ok v (withStk s (v :: v :: B)) V) as (s2 & E2 & X1 & X2 & X3 & X4 & X5 & X6 & _); [exact A|].
  eapply tri_step; [reflexivity|cbn [step withStk stk]; exact E2|]. eapply tri_step; [reflexivity|cbn [step]; rewrite X1; reflexivity|].
  cbn in X1, X2, X3, X4, X5, X6.
  assert (J : inv (filter iused T ++ L) s2 R (v :: W)).
  { destruct I as [Ig If Ic Ik]. constructor; rewrite ?X2, ?X3, ?X4; auto.
      * intros o Ho. rewrite X6, If by auto. destruct v as [z|[q|]]; try discriminate V; [|rewrite occ_null; reflexivity].
        rewrite occ_self. destruct (Nat.eqb_spec o q); auto. subst q. exfalso. specialize (A o eq_refl). rewrite If in A by auto. lia.
      * intros o. rewrite X6, Ic, (occ_cons o v W). unfold held. rewrite X2. lia. }
  eapply tri_end; [apply (tri_release funs K gty n T L _ R (v :: W) P)|].
  - apply inv_dead; [apply inv_stk; exact J|exact N].
  - cbn. intros s' (Z1 & Z2 & Z3 & Z4 & Z5). rewrite Z2, Z3, Z4. split; auto. split; [rewrite Nat.eqb_refl; auto|]. split; [|split; auto].
    intros k Hk. destruct (Nat.eqb_spec k m); [contradiction|]. rewrite X2. reflexivity.
Qed.
Ltac inv1 H := match type of H with bind ?x _ = _ => let E := fresh "E" in destruct x as [[? ?]| | ] eqn:E; cbn [bind] in H; try discriminate H end.
Lemma frame_refl : forall m s, frame m s s. Proof. intros m s k H. reflexivity. Qed.
Lemma backed_int : forall g L s v, isRef v = false -> backed g L s v. Proof. intros g L s v H X. congruence. Qed.
Lemma backed_later : forall g L L' s s' v m, backed g L s v -> (forall i, In i L -> In i L' /\ (islot i < m)%nat) -> frame m s s' -> (g = true -> globs s' = globs s) -> backed g L' s' v.
Proof.
  intros g L L' s s' v m H A F G V. destruct (H V) as [X|[(i & X & Y)|(X & Y)]]; auto.
  - right. left. destruct (A i X). exists i. rewrite F; auto.
  - right. right. rewrite G; auto.
Qed.
Lemma sig_nth : forall f ps rs, nth_error sigs f = Some (ps, rs) -> exists F, nth_error prog f = Some F /\ fparams F = ps /\ fresult F = rs.
Proof. intros f ps rs H. rewrite nth_error_map in H. destruct (nth_error prog f) as [F|]; [|discriminate]. injection H as <- <-. exists F. auto. Qed.
(** Two operands, then an instruction. *)
Lemma tri_two : forall a b D c ra c1 rb c2, Eok a -> Eok b -> cexpr gty sigs a c = Ok (ra, c1) -> cexpr gty sigs b c1 = Ok (rb, c2) -> wfc c -> dOK D c ->
  (K = true -> careful a = true) -> (K = true -> careful b = true) -> forall s R W, (forall o, 0 <= R o) -> inv (live D c) s R W ->
  tri n (keep ra ++ keep rb) s (nx (fun s' => exists v w, stk s' = w :: v :: stk s /\ isRef v = egc ra /\ isRef w = egc rb /\ frame (cnext c) s s' /\
    (noCall a = true -> noCall b = true -> globs s' = globs s) /\ inv (live D c2) s' R W /\ backed (isGlobal b) (live D c2) s' w /\ (isGlobal a = false \/ noCall b = true -> backed (isGlobal a) (live D c2) s' v))).
Proof.
  intros a b D c ra c1 rb c2 Ha Hb Ea Eb Wf Hd Ka Kb s R W P I. destruct (exprFacts _ _ _ _ _ _ Ea Wf) as (W1 & X1 & _). destruct (exprFacts _ _ _ _ _ _ Eb W1) as (W2 & X2 & _).
  eapply tri_seq; [eapply (tri_keep a D c ra c1); eauto|]. intros s1 (v & A1 & A2 & A3 & A4 & A5 & A6).
  eapply tri_end; [eapply (tri_keep b D c1 rb c2); eauto; eapply dOK_ext; eauto|]. intros s2 (w & B1 & B2 & B3 & B4 & B5 & B6).
  exists v, w. rewrite B1, A1. split; auto. split; auto. split; auto. split; [eapply frame_trans; [apply ext_next; exact X1|exact A3|exact B3]|].
  split; [intros Na Nb; rewrite B4, A4; auto|]. split; auto. split; auto.
  intros H. eapply backed_later; [exact A6| |exact B3|].
  - intros i Hi. split; [eapply live_ext_in; eauto|eapply live_in_lt; eauto].
  - intros G. destruct H as [H|H]; [congruence|auto].
Qed.
Lemma newObj_stk : forall s z l, withStk (newObj s z) l = newObj (withStk s l) z. Proof. reflexivity. Qed.
Lemma alloc_inv : forall c D n0 c', allocVar None true c = Ok (n0, c') -> wfc c -> live (n0 :: D) c' = live D c. Proof. intros. eapply live_alloc_dead; eauto. Qed.
Definition shortExpr (op : bool) (a b : expr) : expr := if op then EAnd a b else EOr a b.
Lemma short_ok : forall a b op, Eok a -> Eok b -> Eok (shortExpr op a b).
Proof.
  intros a b op IHa IHb D c r c' H Wf Hd Hc s R W P I.
  assert (H' : (let* (ra, c) := cexpr gty sigs a c in let* (rb, c) := cexpr gty sigs b (enter c) in
      if egc ra || egc rb then Err EOther else Ok (Res (keep ra ++ [IShort op (keep rb ++ release (top c))]) None false, leave c)) = Ok (r, c')) by (destruct op; exact H).
  assert (Ca : K = true -> careful a = true /\ careful b = true) by (intros Kt; specialize (Hc Kt); destruct op; cbn [shortExpr careful] in Hc; apply andb_true_iff; exact Hc).
  assert (Nc : noCall (shortExpr op a b) = noCall a && noCall b) by (destruct op; reflexivity).
  assert (Ig : isGlobal (shortExpr op a b) = false) by (destruct op; reflexivity).
  clear H Hc. rename H' into H. inv1 H. inv1 H. destruct (egc e) eqn:Ga; [discriminate|]. destruct (egc e0) eqn:Gb; [discriminate|]. cbn [orb] in H. injection H as <- <-. cbn [epre].
  destruct (exprFacts _ _ _ _ _ _ E Wf) as (W1 & X1 & _). destruct (exprFacts _ _ _ _ _ _ E0 (wfc_enter _ W1)) as (W2 & X2 & _).
  pose proof (dOK_ext _ _ _ Hd X1) as Hd1.
  eapply tri_seq; [eapply (tri_keep a D); eauto; intros Kt; apply Ca; exact Kt|]. intros s1 (v & A1 & A2 & A3 & A4 & A5 & A6). rewrite Ga in A2. destruct v as [z|]; [|discriminate].
  eapply tri_short; [exact A1| |].
  - exists (VInt z). split; auto. split; auto. split; auto. split; [rewrite Nc; intros N; apply andb_true_iff in N as []; auto|]. rewrite (live_leave_old D _ _ X2). split; auto. apply backed_int. reflexivity.
  - eapply tri_seq; [eapply (tri_keep b D); eauto; [apply wfc_enter; auto|intros Kt; apply Ca; exact Kt|apply inv_stk; exact A5]|].
    intros s2 (w & B1 & B2 & B3 & B4 & B5 & B6). rewrite Gb in B2. eapply tri_end; [apply tri_release with (gty := gty); [exact P|rewrite (live_leave _ _ _ X2 Hd1) in B5; exact B5]|].
    cbn. intros s3 (C1 & C2 & C3 & C4 & C5). exists w. rewrite C2, B1. split; auto. split; auto. split; [|split; [|split]].
    + intros k Hk. rewrite C3, B3; [apply A3; exact Hk|]. cbn. apply ext_next in X1. lia.
    + rewrite Nc. intros N. apply andb_true_iff in N as [Na Nb]. rewrite C4, B4 by auto. cbn. auto.
    + rewrite (live_leave_old D _ _ X2). exact C1.
    + apply backed_int. auto.
Qed.
Lemma cond_ok : forall q a b, Eok q -> Eok a -> Eok b -> Eok (ECond q a b).
Proof.
  intros q a b IHq IHa IHb D c r c' H Wf Hd Hc s R W P I. cbn [cexpr] in H. cbn [careful] in Hc.
  assert (Ca : K = true -> careful q = true /\ careful a = true /\ careful b = true) by (intros Kt; specialize (Hc Kt); rewrite !andb_true_iff in Hc; tauto). clear Hc.
  inv1 H. destruct (egc e) eqn:Gq; [discriminate|]. inv1 H. destruct (exprFacts _ _ _ _ _ _ E Wf) as (W1 & X1 & _). destruct (exprFacts _ _ _ _ _ _ E0 (wfc_enter _ W1)) as (W2 & X2 & _).
  destruct (wfc_leave _ _ X2 W1 W2) as (W2' & X2' & Id2). pose proof (dOK_ext _ _ _ Hd X1) as Hd1.
  assert (Hq : tri n (keep e) s (nx (Kpost q D c c0 (egc e) s R W))) by (eapply (tri_keep q D); eauto; intros Kt; apply Ca; exact Kt).
  assert (Ha : forall s1, inv (live D c0) s1 R W -> tri n (keep e0) s1 (nx (Kpost a D (enter c0) c1 (egc e0) s1 R W))).
  { intros s1 I1. eapply (tri_keep a D); eauto; [apply wfc_enter; auto|intros Kt; apply Ca; exact Kt]. }
  assert (Nx1 : (cnext c <= cnext c0)%nat) by (apply ext_next; exact X1). assert (Nx2 : (cnext c0 <= cnext c1)%nat) by (apply ext_next in X2; exact X2).
  destruct (egc e0) eqn:Ga.
  - inv1 H. inv1 H. destruct (egc e1) eqn:Gb; [|discriminate]. injection H as <- <-. cbn [epre]. destruct (alloc_facts _ _ _ _ _ E1 W2') as (En & Nx & _ & W3 & X3 & Id3). cbn in En.
    destruct (exprFacts _ _ _ _ _ _ E2 (wfc_enter _ W3)) as (W4 & X4 & _). destruct (wfc_leave _ _ X4 W3 W4) as (W5 & X5 & Id5).
    assert (Hd3 : dOK (n0 :: D) c2).
    { intros d [<- |Hi]; [split; [lia|]|exact (dOK_ext _ _ _ (dOK_ext _ _ _ Hd1 X2') X3 d Hi)]. intros i Hi Si. rewrite Id3 in Hi. destruct Hi as [<- |Hi]; auto. destruct W2' as (_ & _ & Q). apply Q in Hi. cbn in Hi. lia. }
    assert (Lv : live D (leave c3) = Id None n0 true true :: live D c0).
    { rewrite (live_leave_old D _ _ X4). rewrite (live_alloc D _ _ _ _ _ E1 W2' (dOK_ext _ _ _ Hd1 X2')). f_equal. apply live_leave_old. exact X2. }
    assert (Lv2 : live (n0 :: D) c2 = live D c0). { rewrite (live_alloc_dead D _ _ _ _ _ E1 W2'). apply live_leave_old. exact X2. }
    assert (Fin : forall s1 s' v B, stk s1 = B -> frame (cnext c) s s1 -> isRef v = true -> stk s' = v :: B -> slots s' n0 = v -> frame (cnext c0) s1 s' -> inv (live D c0) s' R (v :: W) -> B = stk s ->
        (noCall (ECond q a b) = true -> globs s' = globs s) -> Kpost (ECond q a b) D c (leave c3) true s R W s').
    { intros s1 s' v B S1 F1 V S2 Sl F2 I2 EB G. exists v. rewrite S2, EB. split; auto. split; auto. split; [eapply frame_trans; eauto|]. split; auto. rewrite Lv. split.
      - eapply inv_perm; [exact I2| |].
        + intros o. unfold held. cbn [map]. rewrite (occ_cons o v W), (occ_cons o (slots s' _)). cbn [islot]. rewrite Sl. lia.
        + intros i [<- |Hi]; [cbn; rewrite Sl; auto|]. apply (ikind _ _ _ _ _ I2). exact Hi.
      - intros _. right. left. eexists. split; [left; reflexivity|]. cbn. exact Sl. }
    eapply tri_seq; [exact Hq|]. intros s1 (v & A1 & A2 & A3 & A4 & A5 & A6). rewrite Gq in A2. destruct v as [z|]; [|discriminate].
    eapply tri_if; [exact A1|]. assert (I1 : inv (live D c0) (withStk s1 (stk s)) R W) by (apply inv_stk; exact A5).
    unfold Epost. cbn [etmp egc]. destruct (z =? 0).
    + eapply tri_seq; [eapply (tri_keep b (n0 :: D)); eauto; [apply wfc_enter; auto|intros Kt; apply Ca; exact Kt|rewrite enter_live, Lv2; exact I1]|].
      intros s2 (w & B1 & B2 & B3 & B4 & B5 & B6). rewrite Gb in B2. cbn in B1. pose proof (backed_alive _ _ _ _ _ _ B5 P B6) as Al. rewrite (live_leave _ _ _ X4 Hd3), Lv2 in B5.
      eapply tri_end; [eapply (tri_branch (top c3) (live D c0)); eauto|].
      * rewrite <- Lv2, <- (live_leave _ _ _ X4 Hd3). apply live_notin.
      * intros s3 (C1 & C2 & C3 & C4 & C5). eapply (Fin (withStk s1 (stk s)) s3 w (stk s)); auto.
        -- intros k Hk. rewrite C3 by lia. apply B3. cbn. lia.
        -- cbn [noCall]. intros N. rewrite !andb_true_iff in N. rewrite C4, B4 by tauto. cbn. apply A4. tauto.
    + eapply tri_seq; [apply Ha; exact I1|]. intros s2 (w & B1 & B2 & B3 & B4 & B5 & B6). cbn in B1. pose proof (backed_alive _ _ _ _ _ _ B5 P B6) as Al.
      rewrite (live_leave _ _ _ X2 Hd1) in B5.
      eapply tri_end; [eapply (tri_branch (top c1) (live D c0)); eauto|].
      * rewrite <- (live_leave _ _ _ X2 Hd1). apply live_lt; auto. lia.
      * intros s3 (C1 & C2 & C3 & C4 & C5). eapply (Fin (withStk s1 (stk s)) s3 w (stk s)); auto.
        -- intros k Hk. rewrite C3 by lia. apply B3. cbn. lia.
        -- cbn [noCall]. intros N. rewrite !andb_true_iff in N. rewrite C4, B4 by tauto. cbn. apply A4. tauto.
  - inv1 H. destruct (egc e1) eqn:Gb; [discriminate|]. injection H as <- <-. cbn [epre].
    destruct (exprFacts _ _ _ _ _ _ E1 (wfc_enter _ W2')) as (W4 & X4 & _). pose proof (dOK_ext _ _ _ Hd1 X2') as Hd2.
    assert (Lv : live D (leave c2) = live D c0). { rewrite (live_leave_old D _ _ X4). apply live_leave_old. exact X2. }
    eapply tri_seq; [exact Hq|]. intros s1 (v & A1 & A2 & A3 & A4 & A5 & A6). rewrite Gq in A2. destruct v as [z|]; [|discriminate].
    eapply tri_if; [exact A1|]. assert (I1 : inv (live D c0) (withStk s1 (stk s)) R W) by (apply inv_stk; exact A5).
    unfold Epost. cbn [etmp egc]. destruct (z =? 0).
    + eapply tri_seq; [eapply (tri_keep b D); eauto; [apply wfc_enter; auto|intros Kt; apply Ca; exact Kt|rewrite enter_live, (live_leave_old D _ _ X2); exact I1]|].
      intros s2 (w & B1 & B2 & B3 & B4 & B5 & B6). rewrite Gb in B2. rewrite (live_leave _ _ _ X4 Hd2), (live_leave_old D _ _ X2) in B5.
      eapply tri_end; [apply tri_release with (gty := gty); [exact P|exact B5]|]. cbn. intros s3 (C1 & C2 & C3 & C4 & C5).
      exists w. rewrite C2, B1. split; auto. split; auto. split; [|split; [|split; [rewrite Lv; exact C1|apply backed_int; auto]]].
      * intros k Hk. rewrite C3, B3; [apply A3; exact Hk|]. cbn. lia.
      * cbn [noCall]. intros N. rewrite !andb_true_iff in N. rewrite C4, B4 by tauto. cbn. apply A4. tauto.
    + eapply tri_seq; [apply Ha; exact I1|]. intros s2 (w & B1 & B2 & B3 & B4 & B5 & B6). rewrite (live_leave _ _ _ X2 Hd1) in B5.
      eapply tri_end; [apply tri_release with (gty := gty); [exact P|exact B5]|]. cbn. intros s3 (C1 & C2 & C3 & C4 & C5).
      exists w. rewrite C2, B1. split; auto. split; auto. split; [|split; [|split; [rewrite Lv; exact C1|apply backed_int; auto]]].
      * intros k Hk. rewrite C3, B3; [apply A3; exact Hk|]. cbn. lia.
      * cbn [noCall]. intros N. rewrite !andb_true_iff in N. rewrite C4, B4 by tauto. cbn. apply A4. tauto.
Qed.
Ltac kp I := split; [reflexivity|split; [auto|split; [intros k Hk; reflexivity|split; [reflexivity|split; [apply inv_stk; exact I|]]]]].
Lemma exprs_ok : (forall e, Eok e) /\ (forall a, Aok a).
Proof.
  apply expr_args_ind; unfold Eok, Aok; cbn [cexpr cargs].
  - intros z D c r c' H Wf Hd Hc s R W P I. injection H as <- <-. eapply tri_one; [reflexivity|reflexivity|]. exists (VInt z). kp I. apply backed_int. reflexivity.
  - intros D c r c' H Wf Hd Hc s R W P I. injection H as <- <-. eapply tri_one; [reflexivity|reflexivity|]. exists (VRef None). kp I. intros _. auto.
  - intros x D c r c' H Wf Hd Hc s R W P I. destruct (lookup _ _) as [i|] eqn:L; [|discriminate]. injection H as <- <-. pose proof (lookup_live D _ _ _ L Wf Hd) as Li.
    eapply tri_one; [reflexivity|reflexivity|]. exists (slots s (islot i)). kp I. { apply (ikind _ _ _ _ _ I). exact Li. } intros _. right. left. exists i. auto.
  - intros g D c r c' H Wf Hd Hc s R W P I. destruct (nth_error gty g) as [gc|] eqn:Eg; [|discriminate]. injection H as <- <-.
    destruct (kinds_nth _ _ _ _ (iglob _ _ _ _ _ I) Eg) as (v & Ev & Kv). eapply tri_one; [reflexivity|cbn [step]; rewrite Ev; reflexivity|].
    exists v. kp I. intros _. right. right. split; auto. eapply nth_error_In; eauto.
  - intros f a IH D c r c' H Wf Hd Hc s R W P I. destruct (nth_error sigs f) as [[ps [gc|]]|] eqn:Sg; try discriminate. inv1 H. destruct (sig_nth _ _ _ Sg) as (F & F1 & F2 & F3).
    destruct (argsFacts _ _ _ _ _ _ _ E Wf) as (W1 & X1).
    assert (Z : tri n (l ++ [ICall f; IPushRes]) s (nx (fun s' => exists v, stk s' = v :: stk s /\ isRef v = gc /\ frame (cnext c) s s' /\ inv (live D c0) s' R (v :: W)))).
    { eapply tri_seq; [eapply IH; eauto|]. intros s1 (al & A1 & A2 & A3 & A4). change [ICall f; IPushRes] with ([ICall f] ++ [IPushRes]).
      eapply tri_seq; [eapply tri_call; eauto; rewrite F2; exact A2|]. intros s2 (B1 & B2 & B3 & B4). rewrite F3 in B4.
      eapply tri_one; [reflexivity|reflexivity|]. exists (res s2). cbn. rewrite B1. split; auto. split; [apply B3; exact F3|]. split; [intros k Hk; cbn; rewrite B2; auto|]. apply inv_stk. exact B4. }
    destruct gc.
    + inv1 H. injection H as <- <-. eapply tri_end; [exact Z|]. intros s' (v & A & B & C & G). exists v. split; auto. split; auto. split; auto. split; [discriminate|].
      rewrite (alloc_inv _ _ _ _ E0 W1). exact G.
    + injection H as <- <-. eapply tri_end; [exact Z|]. intros s' (v & A & B & C & G). exists v. split; auto. split; auto. split; auto. split; [discriminate|]. split; [|apply backed_int; auto].
      eapply inv_perm; [exact G| |apply (ikind _ _ _ _ _ G)]. intros o. rewrite (occ_cons o v W), (occ_noref o v) by auto. lia.
  - intros z D c r c' H Wf Hd Hc s R W P I. inv1 H. injection H as <- <-. eapply tri_one; [reflexivity|reflexivity|].
    exists (VRef (Some (onext s))). split; auto. split; auto. split; [intros k Hk; reflexivity|]. split; auto. rewrite (alloc_inv _ _ _ _ E Wf). rewrite newObj_stk. apply (inv_new gty _ (withStk s _)); auto. apply inv_stk. exact I.
  - intros e IH D c r c' H Wf Hd Hc s R W P I. inv1 H. destruct (egc e0) eqn:G; [|discriminate]. injection H as <- <-. cbn [epre].
    eapply tri_seq; [eapply (tri_keep e D); eauto|]. intros s1 (v & A1 & A2 & A3 & A4 & A5 & A6). rewrite G in A2.
    destruct (textOf_ok v s1 A2) as (z & Ez); [eapply backed_alive; eauto|]. eapply tri_one; [reflexivity|cbn [step]; rewrite A1, Ez; reflexivity|].
    exists (VInt (Z.of_nat (length z))). split; auto. split; auto. split; [exact A3|]. split; [exact A4|]. split; [apply inv_stk; exact A5|apply backed_int; auto].
  - intros a IHa b IHb D c r c' H Wf Hd Hc s R W P I. inv1 H. inv1 H. destruct (egc e) eqn:Ga; [|discriminate]. destruct (egc e0) eqn:Gb; [|discriminate]. cbn [andb] in H. inv1 H. injection H as <- <-.
    cbn [careful] in Hc. destruct (exprFacts _ _ _ _ _ _ E Wf) as (W1 & X1 & _). destruct (exprFacts _ _ _ _ _ _ E0 W1) as (W2 & X2 & _). cbn [epre]. rewrite app_assoc.
    eapply tri_seq; [eapply (tri_two a b D); eauto; intros Kt; specialize (Hc Kt); rewrite !andb_true_iff in Hc; tauto|].
    intros s1 (v & w & A1 & A2 & A3 & A4 & A5 & A6 & A7 & A8). rewrite Ga in A2. rewrite Gb in A3. destruct (textOf_ok w s1 A3) as (y & Ey); [eapply backed_alive; eauto|].
    assert (Q : forall x, textOf v s1 = Ok x -> tri n [ICat] s1 (nx (Epost (ECat a b) D c c2 (Res (keep e ++ keep e0 ++ [ICat]) (Some n0) true) s R W))).
    { intros x Ex. eapply tri_one; [reflexivity|cbn [step]; rewrite A1, Ex; cbn [bind]; rewrite Ey; reflexivity|].
      exists (VRef (Some (onext s1))). split; auto. split; auto. split; [exact A4|]. split; [cbn [noCall]; intros N; apply andb_true_iff in N as []; cbn; auto|].
      rewrite (alloc_inv _ _ _ _ E1 W2). rewrite newObj_stk. apply (inv_new gty _ (withStk s1 _)); auto. apply inv_stk. exact A6. }
    destruct (isGlobal a && negb (noCall b)) eqn:Care.
    + destruct (textOf v s1) as [x| | ] eqn:Ev; [eapply Q; reflexivity| |]; (eapply tri_ub; [reflexivity|]); cbn [step]; rewrite A1, Ev; cbn [bind]; auto.
      destruct K; auto. specialize (Hc eq_refl). apply andb_true_iff in Care as (C1 & C2). rewrite C1 in Hc. destruct (noCall b); [discriminate|]. rewrite andb_false_r in Hc. discriminate.
    + destruct (textOf_ok v s1 A2) as (x & Ex); [|eapply Q; exact Ex]. eapply (backed_alive (isGlobal a)); [exact A6|exact P|]. apply A8. destruct (isGlobal a); auto. destruct (noCall b); auto.
  - intros a IHa b IHb D c r c' H Wf Hd Hc s R W P I. inv1 H. inv1 H. destruct (egc e) eqn:Ga; [discriminate|]. destruct (egc e0) eqn:Gb; [discriminate|]. cbn [orb] in H. injection H as <- <-.
    cbn [careful] in Hc. cbn [epre]. rewrite app_assoc.
    eapply tri_seq; [eapply (tri_two a b D); eauto; intros Kt; specialize (Hc Kt); rewrite !andb_true_iff in Hc; tauto|].
    intros s1 (v & w & A1 & A2 & A3 & A4 & A5 & A6 & A7 & A8). rewrite Ga in A2. rewrite Gb in A3. destruct v as [x|]; [|discriminate]. destruct w as [y|]; [|discriminate].
    eapply tri_one; [reflexivity|cbn [step]; rewrite A1; reflexivity|]. eexists. split; [reflexivity|]. split; auto. split; [exact A4|]. split; [cbn [noCall]; intros N; apply andb_true_iff in N as []; cbn; auto|].
    split; [apply inv_stk; exact A6|apply backed_int; auto].
  - intros a IHa b IHb. exact (short_ok a b true IHa IHb).
  - intros a IHa b IHb. exact (short_ok a b false IHa IHb).
  - intros q IHq a IHa b IHb. exact (cond_ok q a b IHq IHa IHb).
  - intros D [|p ps] c q c' H Wf Hd Hc s R W P I; [|discriminate]. injection H as <- <-. apply tri_done. exists []. repeat split; auto; try apply I. constructor.
  - intros e IHe a IHa D [|p ps] c q c' H Wf Hd Hc s R W P I; [discriminate|]. inv1 H. destruct (eqb _ _) eqn:Ep; [|discriminate]. apply eqb_prop in Ep. destruct (exprFacts _ _ _ _ _ _ E Wf) as (A1 & A2 & A3).
    destruct (own e0 c0) as [k c1] eqn:O. inv1 H. injection H as <- <-. destruct (own_facts c c0 e0 Wf A1 A2 A3) as (B1 & B2).
    cbn [carefulArgs] in Hc. pose proof (tri_own e D c e0 c0 IHe E Wf Hd) as T. rewrite O in *. cbn [fst snd] in *.
    eapply tri_seq; [apply T; eauto; intros Kt; specialize (Hc Kt); apply andb_true_iff in Hc; tauto|]. intros s1 (v & D1 & D2 & D3 & D4 & D5).
    eapply tri_end; [eapply IHa; eauto; [eapply dOK_ext; eauto|intros Kt; specialize (Hc Kt); apply andb_true_iff in Hc; tauto]|].
    intros s2 (al & F1 & F2 & F3 & F4). exists (v :: al). cbn [rev]. rewrite <- app_assoc. cbn [app]. rewrite F1, D1. split; auto. split; [constructor; auto; congruence|].
    split; [eapply frame_trans; [apply ext_next; exact B2|exact D3|exact F3]|]. eapply inv_perm; [exact F4| |apply (ikind _ _ _ _ _ F4)].
    intros o. rewrite !occ_app, (occ_cons o v W). cbn [app]. rewrite (occ_cons o v (al ++ W)), occ_app. lia.
Qed.
End Exprs.
