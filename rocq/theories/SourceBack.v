(** Source semantics: whatever the machine comes to is what the source says. Expressions and calls. *)
From Coq Require Import ZArith Lia Bool List.
From Verif Require Import Base TempModel TempSpec TempBase TempScope TempExpr SourceSpec SourceBase.
Import ListNotations.
Local Open Scope Z_scope.

(** How a call of [F] must have ended. *)
Definition callEnd (F : fn) (o : ending) (s : st) : Prop :=
  match fresult F with Some _ => exists x, o = OReturn (Some x) /\ denotes s (res s) x | None => o = ONext \/ o = OReturn None end.

Section Back.
Variable gty : list bool.
Variable prog : list fn.
Variable funs : list (nat * (code * code)).
Hypothesis FUNS : forall f F, nth_error prog f = Some F -> exists body ending, nth_error funs f = Some (length (fparams F), (body, ending)).
Notation sigs := (map sigOf prog).
Notation tri := (tri funs false).
Notation ev := (ev prog).
Notation evs := (evs prog).
Notation ex := (ex prog).
Definition fnB (m : nat) : Prop := forall f F k body ending, nth_error prog f = Some F -> nth_error funs f = Some (k, (body, ending)) ->
  forall s al xs G, stk s = [] -> (forall i, slots s i = nth i al (VInt 0)) -> length al = k -> Forall2 (denotes s) al xs -> grel s G ->
  tri m body s (fun s1 g => g = Next \/ g = Ret -> tri m ending s1 (nx (fun s2 => exists e' G' o, ex (bindFrom 0 xs) G (fbody F) e' G' o /\ callEnd F o s2 /\ mono s s2 /\ grel s2 G'))).
Variable n : nat.
Hypothesis FN : forall m, (m < n)%nat -> fnB m.

Lemma one : forall i s (T : st -> Prop), (forall k, exec funs (S k) [i] s = let* s1 := step i s in exec funs k [] s1) -> (forall s', step i s = Ok s' -> T s') -> tri n [i] s (nx T).
Proof. intros i s T E H. eapply tri_ub; [intros k; apply E|]. destruct (step i s); auto. apply tri_nil. split; auto. Qed.
Lemma seqs : forall p q s (T T' : st -> Prop), tri n p s (nx T) -> (forall s', T s' -> tri n q s' (nx T')) -> tri n (p ++ q) s (nx T').
Proof. intros. eapply tri_next; eauto. Qed.
Lemma fin : forall p s (T T' : st -> Prop), tri n p s (nx T) -> (forall s', T s' -> T' s') -> tri n p s (nx T').
Proof. intros. eapply tri_imp; [exact H|]. intros s' g (-> & G). split; auto. Qed.
Lemma cond : forall a b s (T : st -> Prop), (forall z l, stk s = VInt z :: l -> tri n (if z =? 0 then b else a) (withStk s l) (nx T)) -> tri n [IIf a b] s (nx T).
Proof.
  intros a b s T H. destruct n as [|m] eqn:En; [constructor|]. unfold TempBase.tri. cbn [exec]. destruct (stk s) as [|[z|] l]; auto. specialize (H z l eq_refl). apply tri_S in H. unfold TempBase.tri in H.
  destruct (exec funs m _ _) as [[s1 g]| | ]; cbn [bind]; auto. destruct H as (-> & H). destruct m; cbn; auto. split; auto.
Qed.
Lemma short : forall op c s (T : st -> Prop), (forall z l, stk s = VInt z :: l -> eqb (z =? 0) op = true -> T s) ->
  (forall z l, stk s = VInt z :: l -> eqb (z =? 0) op = false -> tri n c (withStk s l) (nx T)) -> tri n [IShort op c] s (nx T).
Proof.
  intros op c s T H0 H. destruct n as [|m] eqn:En; [constructor|]. unfold TempBase.tri. cbn [exec]. destruct (stk s) as [|[z|] l]; auto. destruct (eqb _ _) eqn:Q.
  - destruct m; cbn; auto. split; eauto.
  - specialize (H z l eq_refl Q). apply tri_S in H. unfold TempBase.tri in H. destruct (exec funs m _ _) as [[s1 g]| | ]; cbn [bind]; auto. destruct H as (-> & H). destruct m; cbn; auto. split; auto.
Qed.
Lemma releases : forall l s, tri n (release l) s (nx (same s)).
Proof.
  induction l as [|i l]; intros s; [apply tri_nil; split; auto; apply same_refl|]. unfold release. cbn [flat_map]. fold (release l). destruct (_ && _); [|apply IHl].
  eapply seqs; [apply (one (IRel _) s (same s)); [reflexivity|]|].
  - cbn [step]. intros s' H. eapply decRef_same; eauto.
  - intros s1 S1. eapply fin; [apply IHl|]. intros s2 S2. eapply same_trans; eauto.
Qed.
Ltac inv1 H := match type of H with bind ?x _ = _ => let E := fresh "E" in destruct x as [[? ?]| | ] eqn:E; cbn [bind] in H; try discriminate H end.
Lemma callB : forall f F s al xs G B, nth_error prog f = Some F -> stk s = rev al ++ B -> length al = length (fparams F) -> Forall2 (denotes s) al xs -> grel s G ->
  tri n [ICall f] s (nx (fun s' => stk s' = B /\ slots s' = slots s /\ mono s s' /\ exists e' G' o, ex (bindFrom 0 xs) G (fbody F) e' G' o /\ callEnd F o s' /\ grel s' G')).
Proof.
  intros f F s al xs G B E S Len Da Gr. destruct (FUNS f F E) as (body & ending & Ef). revert FN. destruct n as [|m]; [constructor|]. intros FN'. specialize (FN' m (Nat.lt_succ_diag_r m)).
  unfold TempBase.tri. cbn [exec]. rewrite Ef. destruct (Nat.ltb _ _); auto.
  assert (Fi : firstn (length al) (stk s) = rev al). { rewrite S. rewrite <- (rev_length al) at 1. rewrite firstn_app, Nat.sub_diag, firstn_all. cbn. apply app_nil_r. }
  assert (Sk : skipn (length al) (stk s) = B). { rewrite S. rewrite <- (rev_length al) at 1. rewrite skipn_app, Nat.sub_diag, skipn_all. reflexivity. }
  rewrite <- Len, Fi, Sk, rev_involutive. set (s0 := St [] _ _ _ _ _ _).
  assert (T := FN' f F _ body ending E Ef s0 al xs G eq_refl (fun i => eq_refl) Len).
  assert (T' : TempBase.tri funs false m body s0 (fun s1 g => g = Next \/ g = Ret -> TempBase.tri funs false m ending s1 (nx (fun s2 => exists e' G' o, ex (bindFrom 0 xs) G (fbody F) e' G' o /\ callEnd F o s2 /\ mono s0 s2 /\ grel s2 G')))).
  { apply T; [|exact Gr]. clear -Da. induction Da; constructor; auto. }
  clear T. unfold TempBase.tri in T'. destruct (exec funs m body s0) as [[s1 g1]| | ] eqn:E1; cbn [bind]; auto.
  destruct g1; auto; (assert (U : match exec funs m ending s1 with Ok (s', g) => nx (fun s2 => exists e' G' o, ex (bindFrom 0 xs) G (fbody F) e' G' o /\ callEnd F o s2 /\ mono s0 s2 /\ grel s2 G') s' g | Err _ => True | UB => false = false end) by (apply T'; auto));
  (destruct (exec funs m ending s1) as [[s2 g2]| | ]; cbn [bind]; auto; destruct U as (-> & e' & G' & o & U1 & U2 & U3 & U4); destruct (stk s2); auto; destruct m; cbn; auto; split; auto;
   split; auto; split; auto; split; auto; exists e', G', o; auto).
Qed.

Definition Xpost (e : expr) (c : cst) (en : env) (G : list sval) (s s' : st) : Prop :=
  exists v x G', stk s' = v :: stk s /\ frame (cnext c) s s' /\ mono s s' /\ denotes s' v x /\ grel s' G' /\ ev en G e x G'.
Definition EB (e : expr) : Prop := forall c r c', cexpr gty sigs e c = Ok (r, c') -> wfc c -> forall s en G, erel (names c) s en -> grel s G -> tri n (epre r) s (nx (Xpost e c en G s)).
Definition Apost (a : args) (ps : list bool) (c : cst) (en : env) (G : list sval) (s s' : st) : Prop :=
  exists al xs G', stk s' = rev al ++ stk s /\ length al = length ps /\ frame (cnext c) s s' /\ mono s s' /\ Forall2 (denotes s') al xs /\ grel s' G' /\ evs en G a xs G'.
Definition AB (a : args) : Prop := forall ps c p c', cargs gty sigs a ps c = Ok (p, c') -> wfc c -> forall s en G, erel (names c) s en -> grel s G -> tri n p s (nx (Apost a ps c en G s)).

Lemma keepB : forall e c r c', EB e -> cexpr gty sigs e c = Ok (r, c') -> wfc c -> forall s en G, erel (names c) s en -> grel s G -> tri n (keep r) s (nx (Xpost e c en G s)).
Proof.
  intros e c r c' He H Wf s en G Er Gr. unfold keep. eapply seqs; [eapply He; eauto|]. destruct (exprFacts _ _ _ _ _ _ H Wf) as (_ & _ & T). destruct (etmp r) as [t|]; [|intros; apply tri_nil; split; auto].
  destruct (T t eq_refl) as (_ & b & _ & Tn & _). clear T. intros s1 (v & x & G' & A1 & A2 & A3 & A4 & A5 & A6).
  eapply (seqs [IDup] [IStore t]); [apply one; [reflexivity|intros s' E; exact E]|]. intros s2 E2. cbn [step] in E2. rewrite A1 in E2. injection E2 as <-.
  apply one; [reflexivity|]. cbn [step stk withStk]. intros s3 E3. injection E3 as <-. exists v, x, G'. cbn. split; auto. split; [|split; [|split; [|split]]]; auto.
  intros k Hk. cbn. destruct (Nat.eqb_spec k t); [lia|]. apply A2. exact Hk.
Qed.
Lemma ownB : forall e c r c', EB e -> cexpr gty sigs e c = Ok (r, c') -> wfc c -> forall s en G, erel (names c) s en -> grel s G -> tri n (fst (own r c')) s (nx (Xpost e c en G s)).
Proof.
  intros e c r c' He H Wf s en G Er Gr. unfold own. destruct (etmp r) as [t|]; cbn [fst]; [eapply He; eauto|].
  eapply seqs; [eapply He; eauto|]. destruct (egc r); [|intros; apply tri_nil; split; auto]. intros s1 (v & x & G' & A1 & A2 & A3 & A4 & A5 & A6).
  apply one; [reflexivity|]. cbn [step]. rewrite A1. intros s' E. apply incRef_same in E. exists v, x, G'. destruct E as (E1 & E2 & E3 & E4 & E5 & E6). rewrite E1. split; auto.
  assert (S1 : same s1 s') by (repeat split; auto).
  split; [intros k Hk; rewrite E2; auto|]. split; [eapply mono_trans; [eauto|apply same_mono; auto]|]. split; [eapply denotes_mono; [apply same_mono; eauto|auto]|]. split; [eapply grel_same; eauto|auto].
Qed.
Lemma Xerel : forall e c en G s s', wfc c -> erel (names c) s en -> Xpost e c en G s s' -> erel (names c) s' en.
Proof. intros e c en G s s' W E (v & x & G' & A1 & A2 & A3 & _). eapply erel_frame; eauto. Qed.
(** Two operands. *)
Lemma twoB : forall a b c ra c1 rb c2, EB a -> EB b -> cexpr gty sigs a c = Ok (ra, c1) -> cexpr gty sigs b c1 = Ok (rb, c2) -> wfc c -> forall s en G, erel (names c) s en -> grel s G ->
  tri n (keep ra ++ keep rb) s (nx (fun s' => exists v w x y G1 G2, stk s' = w :: v :: stk s /\ frame (cnext c) s s' /\ mono s s' /\ denotes s' v x /\ denotes s' w y /\ grel s' G2 /\ ev en G a x G1 /\ ev en G1 b y G2)).
Proof.
  intros a b c ra c1 rb c2 Ha Hb Ea Eb Wf s en G Er Gr. destruct (exprFacts _ _ _ _ _ _ Ea Wf) as (W1 & X1 & _). eapply seqs; [eapply (keepB a); eauto|]. intros s1 P.
  pose proof (Xerel _ _ _ _ _ _ Wf Er P) as Er1. rewrite <- (proj1 (names_expr _ _) _ _ _ _ Ea Wf) in Er1. destruct P as (v & x & G1 & A1 & A2 & A3 & A4 & A5 & A6).
  eapply fin; [eapply (keepB b); eauto|]. intros s2 (w & y & G2 & B1 & B2 & B3 & B4 & B5 & B6). exists v, w, x, y, G1, G2. rewrite B1, A1. split; auto.
  split; [eapply frame_trans; [apply ext_next; exact X1|exact A2|exact B2]|]. split; [eapply mono_trans; eauto|]. split; [eapply denotes_mono; eauto|]. auto.
Qed.
(** Code in a block of its own: an operand and the release of its temporaries, after state [s1]. *)
Lemma blockB : forall b c r c' l, EB b -> cexpr gty sigs b (enter c) = Ok (r, c') -> wfc c -> forall s en G, erel (names c) s en -> grel s G -> tri n (keep r ++ release l) s (nx (Xpost b c en G s)).
Proof.
  intros b c r c' l Hb Eb Wf s en G Er Gr. eapply seqs; [eapply (keepB b); eauto; apply wfc_enter; auto|]. intros s1 (v & x & G' & A1 & A2 & A3 & A4 & A5 & A6).
  eapply fin; [apply releases|]. intros s2 S2. exists v, x, G'. pose proof (same_mono _ _ S2) as M2. destruct S2 as (E1 & E2 & E3 & E4 & E5 & E6). rewrite E1. split; auto.
  split; [intros k Hk; rewrite E2; apply A2; exact Hk|]. split; [eapply mono_trans; eauto|]. split; [eapply denotes_mono; eauto|]. split; [eapply grel_mono; eauto|auto].
Qed.
Lemma branchB : forall b c0 c r c' t l, EB b -> cexpr gty sigs b (enter c) = Ok (r, c') -> wfc c -> (cnext c0 <= t)%nat -> (cnext c0 <= cnext c)%nat -> forall s en G, erel (names c) s en -> grel s G ->
  tri n (keep r ++ [IDup; IInc; IStore t] ++ release l) s (nx (Xpost b c0 en G s)).
Proof.
  intros b c0 c r c' t l Hb Eb Wf Ht Hc s en G Er Gr. eapply seqs; [eapply (keepB b); eauto; apply wfc_enter; auto|]. intros s1 (v & x & G' & A1 & A2 & A3 & A4 & A5 & A6).
  eapply (seqs [IDup]); [apply one; [reflexivity|intros s' E; exact E]|]. intros s2 E2. cbn [step] in E2. rewrite A1 in E2. injection E2 as <-.
  eapply (seqs [IInc]); [apply one; [reflexivity|intros s' E; cbn [step stk withStk] in E; apply incRef_same in E; exact E]|]. intros s3 S3.
  pose proof (same_mono _ _ S3) as M3. destruct S3 as (E1 & E2 & E3 & E4 & E5 & E6). cbn in E1, E2, E3, E4, E5.
  eapply (seqs [IStore t]); [apply (one (IStore t) s3 (fun s' => s' = setSlot (withStk s3 (v :: stk s)) t v)); [reflexivity|intros s' E; cbn [step] in E; rewrite E1 in E; congruence]|]. intros s4 ->.
  eapply fin; [apply releases|]. intros s5 S5. pose proof (same_mono _ _ S5) as M5. destruct S5 as (F1 & F2 & F3 & F4 & F5 & F6). cbn in F1, F2, F3.
  assert (M : mono s1 s5). { eapply mono_trans; [|exact M5]. split; cbn; rewrite ?E5, ?E4; auto. }
  exists v, x, G'. rewrite F1. split; auto. split; [|split; [eapply mono_trans; eauto|split; [eapply denotes_mono; eauto|split; [eapply grel_mono; [exact M|congruence|exact A5]|exact A6]]]].
  intros k Hk. rewrite F2. destruct (Nat.eqb_spec k t); [lia|]. rewrite E2. apply A2. cbn. lia.
Qed.
Lemma shortB : forall a b op, EB a -> EB b -> EB (shortExpr op a b).
Proof.
  intros a b op IHa IHb c r c' H Wf s en G Er Gr.
  assert (H' : (let* (ra, c) := cexpr gty sigs a c in let* (rb, c) := cexpr gty sigs b (enter c) in
      if egc ra || egc rb then Err EOther else Ok (Res (keep ra ++ [IShort op (keep rb ++ release (top c))]) None false, leave c)) = Ok (r, c')) by (destruct op; exact H).
  clear H. rename H' into H. inv1 H. inv1 H. destruct (egc e || egc e0); [discriminate|]. injection H as <- <-. cbn [epre].
  destruct (exprFacts _ _ _ _ _ _ E Wf) as (W1 & X1 & _).
  eapply seqs; [eapply (keepB a); eauto|]. intros s1 P. pose proof (Xerel _ _ _ _ _ _ Wf Er P) as Er1. rewrite <- (proj1 (names_expr _ _) _ _ _ _ E Wf) in Er1.
  destruct P as (v & x & G1 & A1 & A2 & A3 & A4 & A5 & A6). apply short.
  - intros z l Q Ez. rewrite A1 in Q. injection Q as -> <-. exists (VInt z), x, G1. split; auto. split; auto. split; auto. split; auto. split; auto.
    destruct x as [y|]; [|contradiction]. cbn in A4. subst y. destruct op; cbn in Ez; destruct (Z.eqb_spec z 0); try discriminate.
    + subst. apply ev_and0. exact A6.
    + apply ev_or1; auto.
  - intros z l Q Ez. rewrite A1 in Q. injection Q as -> <-. eapply fin; [eapply (blockB b c0); eauto|].
    intros s2 (w & y & G2 & B1 & B2 & B3 & B4 & B5 & B6). exists w, y, G2. rewrite B1. split; auto. split; [eapply frame_trans; [apply ext_next; exact X1|exact A2|exact B2]|].
    split; [eapply mono_trans; eauto|]. split; auto. split; auto. destruct x as [z'|]; [|contradiction]. cbn in A4. subst z'.
    destruct op; cbn in Ez; destruct (Z.eqb_spec z 0); try discriminate.
    + eapply ev_and1; eauto.
    + subst. eapply ev_or0; eauto.
Qed.
Lemma condB : forall q a b, EB q -> EB a -> EB b -> EB (ECond q a b).
Proof.
  intros q a b IHq IHa IHb c r c' H Wf s en G Er Gr. cbn [cexpr] in H. inv1 H. destruct (egc e) eqn:Gq; [discriminate|]. inv1 H.
  destruct (exprFacts _ _ _ _ _ _ E Wf) as (W1 & X1 & _). destruct (exprFacts _ _ _ _ _ _ E0 (wfc_enter _ W1)) as (W2 & X2 & _).
  destruct (wfc_leave _ _ X2 W1 W2) as (W2' & X2' & Id2).
  assert (Nx1 : (cnext c <= cnext c0)%nat) by (apply ext_next; exact X1). assert (Nx2 : (cnext c0 <= cnext c1)%nat) by (apply ext_next in X2; exact X2).
  assert (Start : forall pa pb, (forall s1, erel (names c0) s1 en -> forall G1, grel s1 G1 -> tri n pa s1 (nx (Xpost a c0 en G1 s1))) ->
    (forall s1, erel (names c0) s1 en -> forall G1, grel s1 G1 -> tri n pb s1 (nx (Xpost b c0 en G1 s1))) -> tri n (keep e ++ [IIf pa pb]) s (nx (Xpost (ECond q a b) c en G s))).
  { intros pa pb Ha Hb. eapply seqs; [eapply (keepB q); eauto|]. intros s1 P. pose proof (Xerel _ _ _ _ _ _ Wf Er P) as Er1. rewrite <- (proj1 (names_expr _ _) _ _ _ _ E Wf) in Er1.
    destruct P as (v & x & G1 & A1 & A2 & A3 & A4 & A5 & A6). apply cond. intros z l Q. rewrite A1 in Q. injection Q as -> <-. destruct x as [z'|]; [|contradiction]. cbn in A4. subst z'.
    destruct (Z.eqb_spec z 0).
    - subst. eapply fin; [apply (Hb (withStk s1 (stk s)) Er1 G1 A5)|]. intros s2 (w & y & G2 & B1 & B2 & B3 & B4 & B5 & B6). exists w, y, G2. rewrite B1. split; auto.
      split; [eapply frame_trans; [exact Nx1|exact A2|exact B2]|]. split; [eapply mono_trans; eauto|]. split; auto. split; auto. eapply ev_cond0; eauto.
    - eapply fin; [apply (Ha (withStk s1 (stk s)) Er1 G1 A5)|]. intros s2 (w & y & G2 & B1 & B2 & B3 & B4 & B5 & B6). exists w, y, G2. rewrite B1. split; auto.
      split; [eapply frame_trans; [exact Nx1|exact A2|exact B2]|]. split; [eapply mono_trans; eauto|]. split; auto. split; auto. eapply ev_cond1; eauto. }
  assert (Weak : forall p c2 s1 G1, names c2 = names c0 -> (cnext c0 <= cnext c2)%nat -> tri n p s1 (nx (Xpost b c2 en G1 s1)) -> tri n p s1 (nx (Xpost b c0 en G1 s1))).
  { intros p c2 s1 G1 _ L T. eapply fin; [exact T|]. intros s2 (w & y & G2 & B1 & B2 & B3). exists w, y, G2. split; auto. split; auto. intros k Hk. apply B2. lia. }
  assert (Nl : names (leave c1) = names c0) by (apply names_leave; exact X2).
  destruct (egc e0) eqn:Ga.
  - inv1 H. inv1 H. destruct (egc e1) eqn:Gb; [|discriminate]. injection H as <- <-. cbn [epre]. destruct (alloc_facts _ _ _ _ _ E1 W2') as (En & Nx & _ & W3 & X3 & Id3). cbn in En.
    assert (N2 : names c2 = names c0) by (rewrite (names_alloc _ _ _ _ _ E1 W2'); exact Nl). apply Start; intros s1 Er1 G1 Gr1.
    + eapply (branchB a c0 c0); eauto; lia.
    + eapply (branchB b c0 c2); eauto; [lia|lia|rewrite N2; auto].
  - inv1 H. destruct (egc e1) eqn:Gb; [discriminate|]. injection H as <- <-. cbn [epre]. apply Start; intros s1 Er1 G1 Gr1.
    + eapply (blockB a c0); eauto.
    + apply (Weak _ (leave c1)); auto. eapply (blockB b (leave c1)); eauto. rewrite Nl. exact Er1.
Qed.
Ltac leaf en v x G := exists v, x, G; split; [reflexivity|split; [intros k Hk; reflexivity|split; [split; cbn; auto|]]].
Lemma exprsB : (forall e, EB e) /\ (forall a, AB a).
Proof.
  apply expr_args_ind; unfold EB, AB; cbn [cexpr cargs].
  - intros z c r c' H Wf s en G Er Gr. injection H as <- <-. apply one; [reflexivity|]. intros s' E. injection E as <-. leaf en (VInt z) (SI z) G. split; [reflexivity|]. split; [exact Gr|constructor].
  - intros c r c' H Wf s en G Er Gr. injection H as <- <-. apply one; [reflexivity|]. intros s' E. injection E as <-. leaf en (VRef None) (SS []) G. split; [reflexivity|]. split; [exact Gr|constructor].
  - intros x c r c' H Wf s en G Er Gr. destruct (lookup _ _) as [i|] eqn:L; [|discriminate]. injection H as <- <-. apply one; [reflexivity|]. intros s' E. injection E as <-.
    destruct (lookup_names _ _ _ L) as (a & b & A & B). unfold names, idents in Er. rewrite A in Er. destruct (erel_get _ _ _ _ _ _ Er B) as (v & C & D).
    leaf en (slots s (islot i)) v G. split; [exact D|]. split; [exact Gr|]. constructor. exact C.
  - intros g c r c' H Wf s en G Er Gr. destruct (nth_error gty g) as [gc|] eqn:Eg; [|discriminate]. injection H as <- <-. apply one; [reflexivity|]. intros s' E. cbn [step] in E.
    destruct (nth_error (globs s) g) as [v|] eqn:Ev; [|discriminate]. injection E as <-. destruct (grel_nth _ _ _ _ Gr Ev) as (x & A & B). leaf en v x G. split; [exact B|]. split; [exact Gr|]. constructor. exact A.
  - intros f a IH c r c' H Wf s en G Er Gr. destruct (nth_error sigs f) as [[ps [gc|]]|] eqn:Sg; try discriminate. inv1 H. destruct (sig_nth _ _ _ _ Sg) as (F & F1 & F2 & F3).
    assert (Z : tri n (l ++ [ICall f; IPushRes]) s (nx (Xpost (ECall f a) c en G s))).
    { eapply seqs; [eapply IH; eauto|]. intros s1 (al & xs & G1 & A1 & A2 & A3 & A4 & A5 & A6 & A7). eapply (seqs [ICall f] [IPushRes]); [eapply callB; eauto; congruence|].
      intros s2 (B1 & B2 & B3 & e' & G2 & o & B4 & B5 & B6). apply one; [reflexivity|]. intros s3 E3. injection E3 as <-. unfold callEnd in B5. rewrite F3 in B5. destruct B5 as (x & -> & B5).
      exists (res s2), x, G2. cbn. rewrite B1. split; auto. split; [intros k Hk; cbn; rewrite B2; auto|]. split; [exact (mono_trans _ _ _ A4 B3)|]. split; [exact B5|]. split; [exact B6|]. eapply ev_call; eauto. }
    destruct gc; [inv1 H|]; injection H as <- <-; exact Z.
  - intros t c r c' H Wf s en G Er Gr. inv1 H. injection H as <- <-. apply one; [reflexivity|]. intros s' E'. injection E' as <-.
    exists (VRef (Some (onext s))), (SS t), G. split; [reflexivity|]. split; [intros k Hk; reflexivity|]. split; [apply (mono_new s t)|]. split; [cbn; rewrite Nat.eqb_refl; auto|].
    split; [|constructor]. exact (grel_mono s _ G (mono_new s t) eq_refl Gr).
  - intros e IH c r c' H Wf s en G Er Gr. inv1 H. destruct (egc e0) eqn:Ge; [|discriminate]. injection H as <- <-. cbn [epre]. eapply seqs; [eapply (keepB e); eauto|].
    intros s1 (v & x & G1 & A1 & A2 & A3 & A4 & A5 & A6). apply one; [reflexivity|]. intros s' E'. cbn [step] in E'. rewrite A1 in E'. destruct (textOf v s1) as [t| | ] eqn:Et; try discriminate.
    injection E' as <-. rewrite (textOf_denotes _ _ _ _ Et A4) in A6. exists (VInt (Z.of_nat (length t))), (SI (Z.of_nat (length t))), G1. split; [reflexivity|]. split; [exact A2|]. split; [exact A3|].
    split; [reflexivity|]. split; [exact A5|]. constructor. exact A6.
  - intros a IHa b IHb c r c' H Wf s en G Er Gr. inv1 H. inv1 H. destruct (egc _ && egc _); [|discriminate]. inv1 H. injection H as <- <-. cbn [epre]. rewrite app_assoc. eapply seqs; [eapply (twoB a b); eauto|].
    intros s1 (v & w & x & y & G1 & G2 & A1 & A2 & A3 & A4 & A5 & A6 & A7 & A8). apply one; [reflexivity|]. intros s' E'. cbn [step] in E'. rewrite A1 in E'.
    destruct (textOf v s1) as [t| | ] eqn:Et; try discriminate. destruct (textOf w s1) as [u| | ] eqn:Eu; try discriminate. injection E' as <-.
    rewrite (textOf_denotes _ _ _ _ Et A4) in A7. rewrite (textOf_denotes _ _ _ _ Eu A5) in A8.
    exists (VRef (Some (onext s1))), (SS (t ++ u)), G2. split; [reflexivity|]. split; [exact A2|]. split; [eapply mono_trans; [exact A3|apply (mono_new s1 (t ++ u))]|]. split; [cbn; rewrite Nat.eqb_refl; auto|].
    split; [exact (grel_mono s1 _ G2 (mono_new s1 (t ++ u)) eq_refl A6)|]. eapply ev_cat; eauto.
  - intros a IHa b IHb c r c' H Wf s en G Er Gr. inv1 H. inv1 H. destruct (egc _ || egc _); [discriminate|]. injection H as <- <-. cbn [epre]. rewrite app_assoc. eapply seqs; [eapply (twoB a b); eauto|].
    intros s1 (v & w & x & y & G1 & G2 & A1 & A2 & A3 & A4 & A5 & A6 & A7 & A8). apply one; [reflexivity|]. intros s' E'. cbn [step] in E'. rewrite A1 in E'.
    destruct w as [w|]; [|discriminate]. destruct v as [v|]; [|discriminate]. injection E' as <-. destruct x as [x|]; [|contradiction]. destruct y as [y|]; [|contradiction]. cbn in A4, A5. subst x y.
    exists (VInt (if v <? w then 1 else 0)), (SI (if v <? w then 1 else 0)), G2. split; [reflexivity|]. split; [exact A2|]. split; [exact A3|]. split; [reflexivity|]. split; [exact A6|]. eapply ev_less; eauto.
  - intros a IHa b IHb. apply (shortB a b true); auto.
  - intros a IHa b IHb. apply (shortB a b false); auto.
  - intros q IHq a IHa b IHb. apply (condB q a b); auto.
  - intros [|p ps] c q c' H Wf s en G Er Gr; [|discriminate]. injection H as <- <-. apply tri_nil. split; auto. exists [], [], G. split; [reflexivity|]. split; auto. split; [intros k Hk; reflexivity|]. split; [apply mono_refl|].
    split; auto. split; auto. constructor.
  - intros e IHe a IHa [|p ps] c q c' H Wf s en G Er Gr; [discriminate|]. inv1 H. destruct (eqb _ _); [|discriminate]. destruct (exprFacts _ _ _ _ _ _ E Wf) as (W1 & X1 & T1).
    destruct (own_facts c c0 e0 Wf W1 X1 T1) as (W2 & X2). pose proof (ownB e c e0 c0 IHe E Wf s en G Er Gr) as O. pose proof (names_own e0 c0) as No. rewrite (proj1 (names_expr _ _) _ _ _ _ E Wf) in No.
    destruct (own e0 c0) as [k c1]. cbn [fst snd] in *. inv1 H. injection H as <- <-. eapply seqs; [exact O|]. intros s1 P. pose proof (Xerel _ _ _ _ _ _ Wf Er P) as Er1. rewrite <- No in Er1.
    destruct P as (v & x & G1 & A1 & A2 & A3 & A4 & A5 & A6). eapply fin; [eapply IHa; eauto|]. intros s2 (al & xs & G2 & B1 & B2 & B3 & B4 & B5 & B6 & B7).
    exists (v :: al), (x :: xs), G2. rewrite B1, A1. cbn [rev]. rewrite <- app_assoc. split; [reflexivity|]. split; [cbn; congruence|]. split; [eapply frame_trans; [apply ext_next; exact X2|exact A2|exact B3]|].
    split; [eapply mono_trans; eauto|]. split; [constructor; auto; eapply denotes_mono; eauto|]. split; auto. econstructor; eauto.
Qed.
End Back.
