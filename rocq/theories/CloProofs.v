(** Compiled programs with closures do what CloSpec.v says. *)
From Coq Require Import ZArith Lia Bool List.
From Verif Require Import Base CloModel CloSpec CloMem CloRep CloVars.
Import ListNotations.
Local Open Scope Z_scope.

Scheme expr_mut := Induction for expr Sort Prop with args_mut := Induction for args Sort Prop with stmt_mut := Induction for stmt Sort Prop.
Combined Scheme prog_ind from expr_mut, args_mut, stmt_mut.

(** Open up the compilation of a part. *)
Tactic Notation "opene" hyp(H) constr(x) ident(p) ident(t) ident(c) ident(E) := destruct x as [[[p t] c]| |] eqn:E; cbn [bind fst snd alloc] in H; try discriminate H.
Tactic Notation "opena" hyp(H) constr(x) ident(p) ident(c) ident(E) := destruct x as [[p c]| |] eqn:E; cbn [bind fst snd alloc] in H; try discriminate H.

Section Mono.
Variable genv : env.
Definition grow (c c' : cst) : Prop := (cnext c <= cnext c')%nat /\ prefix (ctab c) (ctab c').
Lemma grow_refl c : grow c c.
Proof. split; [lia|apply prefix_refl]. Qed.
Lemma grow_trans a b c : grow a b -> grow b c -> grow a c.
Proof. intros [H1 H2] [H3 H4]. split; [lia|eapply prefix_trans; eauto]. Qed.
Lemma grow_alloc k c : grow c (Cst (cnext c + k) (ctab c)).
Proof. split; cbn; [lia|apply prefix_refl]. Qed.
Definition ext (lo : nat) (c c' : cst) (EL EL' : env) : Prop :=
  (exists D, EL' = D ++ EL) /\ ((lo <= cnext c)%nat -> wf true lo (cnext c) EL -> wf true lo (cnext c') EL').
Lemma ext_id lo c c' EL : grow c c' -> ext lo c c' EL EL.
Proof. intros [G _]. split; [exists []; auto|]. intros _. apply wf_up. exact G. Qed.
Lemma ext_trans lo c1 c2 c3 E1 E2 E3 : (cnext c1 <= cnext c2)%nat -> ext lo c1 c2 E1 E2 -> ext lo c2 c3 E2 E3 -> ext lo c1 c3 E1 E3.
Proof. intros L [[D1 ->] H1] [[D2 ->] H2]. split; [exists (D2 ++ D1); apply app_assoc|]. intros Hl W. apply H2; [lia|]. apply H1; auto. Qed.
Lemma ext_cons lo c x t EL : ext lo c (Cst (cnext c + size t) (ctab c)) EL ((x, (PLoc (cnext c), t)) :: EL).
Proof. split; [exists [(x, (PLoc (cnext c), t))]; auto|]. intros Hl W. cbn. apply (wf_cons true lo (cnext c) x (PLoc (cnext c)) t EL); auto. Qed.
Lemma compile_mono :
  (forall e EL c p t c', cexpr genv EL e c = Ok (p, t, c') -> grow c c') /\
  (forall a EL ts c q c', cargs genv EL a ts c = Ok (q, c') -> grow c c') /\
  (forall s res EL c p EL' c', cstmt genv res EL s c = Ok (p, EL', c') -> grow c c' /\ forall lo, ext lo c c' EL EL').
Proof.
  apply prog_ind.
  - intros z EL c p t c' H. cbn in H. injection H as <- <- <-. apply grow_refl.
  - intros x EL c p t c' H. cbn in H. destruct (find x (EL ++ genv)) as [[q u]|]; [|discriminate]. injection H as <- <- <-. apply grow_refl.
  - intros a IHa b IHb EL c p t c' H. cbn [cexpr] in H; fold (cexpr genv) (cargs genv) (cstmt genv) in H. opene H (cexpr genv EL a c) p1 t1 c1 E1. opene H (cexpr genv EL b c1) p2 t2 c2 E2. destruct t1, t2; try discriminate. injection H as <- <- <-. eapply grow_trans; eauto.
  - intros a IHa b IHb EL c p t c' H. cbn [cexpr] in H; fold (cexpr genv) (cargs genv) (cstmt genv) in H. opene H (cexpr genv EL a c) p1 t1 c1 E1. opene H (cexpr genv EL b c1) p2 t2 c2 E2. destruct t1, t2; try discriminate. injection H as <- <- <-. eapply grow_trans; eauto.
  - intros f IHf a IHa EL c p t c' H. cbn [cexpr] in H; fold (cexpr genv) (cargs genv) (cstmt genv) in H. opene H (cexpr genv EL f c) p1 t1 c1 E1. destruct t1 as [|ts r]; [discriminate|]. opena H (cargs genv EL a ts c1) p2 c2 E2. injection H as <- <- <-.
    eapply grow_trans; [eauto|]. eapply grow_trans; [eauto|apply grow_alloc].
  - intros caps ps r b IHb EL c p t c' H. cbn [cexpr] in H; fold (cexpr genv) (cargs genv) (cstmt genv) in H; cbn [alloc] in H. destruct (mapM (fun x => find x (EL ++ genv)) caps) as [l|]; [|discriminate]. cbn [cnext ctab] in H.
    opena H (cstmt genv r (fnEnv (combine caps (map snd l)) ps r) b (Cst (fnStart (combine caps (map snd l)) ps r) (ctab c))) pb cb Eb. injection H as <- <- <-. destruct pb as [pb EL']. destruct (IHb _ _ _ _ _ _ Eb) as [[_ G] _].
    cbn in G. split; cbn; [lia|]. eapply prefix_trans; [exact G|apply prefix_app].
  - intros EL [|t ts] c q c' H; cbn in H; [|discriminate]. injection H as <- <-. apply grow_refl.
  - intros e IHe a IHa EL [|t ts] c q c' H; cbn [cargs] in H; fold (cexpr genv) (cargs genv) (cstmt genv) in H; [discriminate|]. opene H (cexpr genv EL e c) p1 t1 c1 E1. destruct (ty_eqb t1 t); [|discriminate]. opena H (cargs genv EL a ts c1) p2 c2 E2. injection H as <- <-. eapply grow_trans; eauto.
  - intros res EL c p EL' c' H. cbn in H. injection H as <- <- <-. split; [apply grow_refl|]. intros. apply ext_id. apply grow_refl.
  - intros a IHa b IHb res EL c p EL' c' H. cbn [cstmt] in H; fold (cexpr genv) (cargs genv) (cstmt genv) in H. opene H (cstmt genv res EL a c) p1 el1 c1 E1. opene H (cstmt genv res el1 b c1) p2 el2 c2 E2. injection H as <- <- <-.
    destruct (IHa _ _ _ _ _ _ E1) as [G1 X1]. destruct (IHb _ _ _ _ _ _ E2) as [G2 X2]. split; [eapply grow_trans; eauto|]. intros lo. exact (ext_trans _ _ _ _ _ _ _ (proj1 G1) (X1 lo) (X2 lo)).
  - intros x t res EL c p EL' c' H. cbn [cstmt alloc] in H. injection H as <- <- <-. split; [apply grow_alloc|]. intros. apply ext_cons.
  - intros x e IHe res EL c p EL' c' H. cbn [cstmt] in H; fold (cexpr genv) (cargs genv) (cstmt genv) in H. opene H (cexpr genv EL e c) p1 t1 c1 E1. injection H as <- <- <-. pose proof (IHe _ _ _ _ _ E1) as G. split; [eapply grow_trans; [eauto|apply grow_alloc]|].
    intros lo. eapply ext_trans; [apply G|apply ext_id; exact G|]. apply ext_cons.
  - intros x e IHe res EL c p EL' c' H. cbn [cstmt] in H; fold (cexpr genv) (cargs genv) (cstmt genv) in H. destruct (find x (EL ++ genv)) as [[q u]|]; [|discriminate]. opene H (cexpr genv EL e c) p1 t1 c1 E1. destruct (ty_eqb t1 u); [|discriminate]. injection H as <- <- <-. pose proof (IHe _ _ _ _ _ E1) as G. split; [exact G|]. intros. apply ext_id. exact G.
  - intros e IHe res EL c p EL' c' H. cbn [cstmt] in H; fold (cexpr genv) (cargs genv) (cstmt genv) in H. opene H (cexpr genv EL e c) p1 t1 c1 E1. injection H as <- <- <-. pose proof (IHe _ _ _ _ _ E1) as G. split; [exact G|]. intros. apply ext_id. exact G.
  - intros s IHs res EL c p EL' c' H. cbn [cstmt] in H; fold (cexpr genv) (cargs genv) (cstmt genv) in H. opene H (cstmt genv res EL s c) p1 el1 c1 E1. injection H as <- <- <-. destruct (IHs _ _ _ _ _ _ E1) as [G X]. split; [exact G|]. intros. apply ext_id. exact G.
  - intros q IHq a IHa b IHb res EL c p EL' c' H. cbn [cstmt] in H; fold (cexpr genv) (cargs genv) (cstmt genv) in H. opene H (cexpr genv EL q c) p1 t1 c1 E1. destruct t1; [|discriminate]. opene H (cstmt genv res EL a c1) p2 el2 c2 E2. opene H (cstmt genv res EL b c2) p3 el3 c3 E3.
    injection H as <- <- <-. assert (G : grow c c3). { eapply grow_trans; [eauto|]. eapply grow_trans; [apply (IHa _ _ _ _ _ _ E2)|apply (IHb _ _ _ _ _ _ E3)]. } split; [exact G|]. intros. apply ext_id. exact G.
  - intros q IHq b IHb res EL c p EL' c' H. cbn [cstmt] in H; fold (cexpr genv) (cargs genv) (cstmt genv) in H. opene H (cexpr genv EL q c) p1 t1 c1 E1. destruct t1; [|discriminate]. opene H (cstmt genv res EL b c1) p2 el2 c2 E2.
    injection H as <- <- <-. assert (G : grow c c2). { eapply grow_trans; [eauto|]. apply (IHb _ _ _ _ _ _ E2). } split; [exact G|]. intros. apply ext_id. exact G.
  - intros e IHe res EL c p EL' c' H. cbn [cstmt] in H; fold (cexpr genv) (cargs genv) (cstmt genv) in H. opene H (cexpr genv EL e c) p1 t1 c1 E1. destruct (ty_eqb t1 res); [|discriminate]. injection H as <- <- <-. pose proof (IHe _ _ _ _ _ E1) as G. split; [exact G|]. intros. apply ext_id. exact G.
Qed.
End Mono.

Section Sim.
Variable genv : env.
Variable tab : list fcode.
Notation isat := (isat genv tab).
Notation rep := (rep genv tab).
Notation repl := (repl genv tab).
Notation wrep := (wrep genv tab).
Notation clo := (clo genv tab).
Notation holds := (holds genv tab).
Notation inv := (inv genv tab).

Fixpoint reps (M : list block) (vs : list sval) (ts : list ty) (asl : list (list val)) : Prop :=
  match vs, ts, asl with
  | [], [], [] => True
  | v :: vs, t :: ts, sl :: asl => rep M v t sl /\ reps M vs ts asl
  | _, _, _ => False
  end.
Lemma reps_heaps M M' : heaps M M' -> forall vs ts asl, reps M vs ts asl -> reps M' vs ts asl.
Proof. intros H. induction vs as [|v vs IH]; intros [|t ts] [|sl asl] R; try contradiction; [exact I|]. destruct R as [R1 R2]. split; [eapply rep_heaps; eauto|auto]. Qed.
Lemma reps_len M vs ts asl : reps M vs ts asl -> length vs = length ts /\ length (concat (rev asl)) = sizes ts.
Proof.
  revert ts asl. induction vs as [|v vs IH]; intros [|t ts] [|sl asl] R; try contradiction; [auto|]. destruct R as [R1 R2]. destruct (IH _ _ R2) as [E1 E2].
  cbn [rev length]. rewrite concat_app, app_length, E2. cbn [concat]. rewrite app_nil_r, (rep_len _ _ _ _ _ _ R1). cbn [sizes fold_right]. fold (sizes ts). lia.
Qed.

(** Where the result of a function goes, if it is a closure. *)
Notation target := (option (nat * nat)).
Definition resl (RT : target) : list val := match RT with Some (rb, ro) => [VPtr rb ro] | None => [] end.
Definition rt (M : list block) (r : ty) (RT : target) : Prop :=
  match RT with Some (rb, ro) => structured r = true /\ rb <> 0%nat /\ exists n, frame M rb n /\ (ro + 3 <= n)%nat | None => structured r = false end.
Definition rslot (M : list block) (b : nat) (RT : target) : Prop := match RT with Some (rb, ro) => read M b 0 = Ok (VPtr rb ro) /\ rb <> b | None => True end.
Definition tgt (RT : target) (w : val) : Prop := match RT with Some (rb, ro) => w = VPtr rb ro | None => True end.
Definition Pr (RT : target) (k i : nat) : Prop := match RT with Some (rb, ro) => span rb ro 3 k i | None => False end.
Definition Pc (RT : target) (k i : nat) : Prop := k = 0%nat \/ Pr RT k i.
Definition Ps (b lo : nat) (RT : target) (k i : nat) : Prop := k = 0%nat \/ (k = b /\ (lo <= i)%nat) \/ Pr RT k i.
Lemma rt_chg P M M' r RT : chg P M M' -> rt M r RT -> rt M' r RT.
Proof. intros C. destruct RT as [[rb ro]|]; [|auto]. intros (H1 & H2 & n & F & L). repeat (split; auto). exists n. split; [eapply frame_chg; eauto|exact L]. Qed.
Lemma rslot_chg M M' b r RT : chg (Ps b (resSlots r) RT) M M' -> b <> 0%nat -> rt M r RT -> rslot M b RT -> rslot M' b RT.
Proof.
  intros C B. destruct RT as [[rb ro]|]; [|auto]. intros (H1 & H2 & _) [R N]. split; [|exact N]. eapply read_chg; [exact C| |exact R].
  unfold Ps, Pr, span, resSlots. rewrite H1. lia.
Qed.

Definition failure (e : err) : Prop := e = EFuel \/ e = EIllegalFn.
(** A call at level [n]. *)
Definition call_ok (n : nat) : Prop := forall caps ps b r fc u1 u2 M vs asl G rest rg f gn RT,
  clo M caps ps b r fc u1 u2 -> reps M vs (map snd ps) asl -> frame M 0 gn -> wf false 0 gn genv -> holds M 0 genv G -> rt M r RT ->
  match callV n (SClo caps ps b) vs G with
  | Ok (v, G') => exists M' rg', callN tab n fc (St M (resl RT ++ concat (rev asl) ++ u1 :: u2 :: rest) rg f) = Ok (St M' rest rg' f) /\ chg (Pc RT) M M' /\ holds M' 0 genv G' /\ wrep M' v r rg'
  | Err e => failure e /\ callN tab n fc (St M (resl RT ++ concat (rev asl) ++ u1 :: u2 :: rest) rg f) = Err e
  | UB => True
  end.

Section Level.
Variable n : nat.
Hypothesis CALL : call_ok n.
Notation X := (exec tab (callN tab n) n).

Definition expr_ok (e : expr) : Prop := forall EL c p t c' gn N lo M b L G stk rg,
  cexpr genv EL e c = Ok (p, t, c') -> prefix (ctab c') tab -> (cnext c' <= N)%nat -> inv gn N lo (cnext c) EL M b L G ->
  match ev (callV n) L e G with
  | Ok (v, G') => exists M' rg' w, (forall k, X (p ++ k) (St M stk rg b) = X k (St M' (w :: stk) rg' b)) /\ chg (Pe b (cnext c)) M M' /\ holds M' 0 genv G' /\ wrep M' v t w
  | Err e => failure e /\ forall k, X (p ++ k) (St M stk rg b) = Err e
  | UB => True
  end.
Definition args_ok (a : args) : Prop := forall EL ts c q c' gn N lo M b L G stk rg,
  cargs genv EL a ts c = Ok (q, c') -> prefix (ctab c') tab -> (cnext c' <= N)%nat -> inv gn N lo (cnext c) EL M b L G ->
  match evs (callV n) L a G with
  | Ok (vs, G') => exists M' rg' asl, (forall k, X (q ++ k) (St M stk rg b) = X k (St M' (concat (rev asl) ++ stk) rg' b)) /\ chg (Pe b (cnext c)) M M' /\ holds M' 0 genv G' /\ reps M' vs ts asl
  | Err e => failure e /\ forall k, X (q ++ k) (St M stk rg b) = Err e
  | UB => True
  end.
Definition stmt_ok (s : stmt) : Prop := forall EL c p EL' c' res gn N M b L G stk rg RT,
  cstmt genv res EL s c = Ok (p, EL', c') -> prefix (ctab c') tab -> (cnext c' <= N)%nat -> inv gn N (resSlots res) (cnext c) EL M b L G -> rt M res RT -> rslot M b RT ->
  match ex (callV n) n s L G with
  | Ok (L', G', None) => exists M' rg', (forall k, X (p ++ k) (St M stk rg b) = X k (St M' stk rg' b)) /\ chg (Ps b (resSlots res) RT) M M' /\ inv gn N (resSlots res) (cnext c') EL' M' b L' G'
  | Ok (_, G', Some v) => exists M' rg' stk', (forall k, X (p ++ k) (St M stk rg b) = Ok (St M' stk' rg' b, true)) /\ chg (Ps b (resSlots res) RT) M M' /\ holds M' 0 genv G' /\ wrep M' v res rg' /\ tgt RT rg'
  | Err e => failure e /\ forall k, X (p ++ k) (St M stk rg b) = Err e
  | UB => True
  end.

Lemma grow_e e EL c p t c' : cexpr genv EL e c = Ok (p, t, c') -> grow c c'.
Proof. apply compile_mono. Qed.
Lemma grow_a a EL ts c q c' : cargs genv EL a ts c = Ok (q, c') -> grow c c'.
Proof. apply compile_mono. Qed.
Lemma grow_s s res EL c p EL' c' : cstmt genv res EL s c = Ok (p, EL', c') -> grow c c'.
Proof. intros H. apply (proj2 (proj2 (compile_mono genv))) in H. apply H. Qed.

Lemma chgPe_up b m m' M M' : (m <= m')%nat -> chg (Pe b m') M M' -> chg (Pe b m) M M'.
Proof. intros H. apply chg_mono. unfold Pe. intros; lia. Qed.

Lemma add_step x y k M l rg f : X (IAdd :: k) (St M (VZ y :: VZ x :: l) rg f) = let* z := chk64 (x + y) in X k (St M (VZ z :: l) rg f).
Proof. cbn [exec xi mem stk reg fr]. unfold chk64. destruct (in_s64b (x + y)); reflexivity. Qed.
(** Two integer operands. *)
Lemma binary_ok (a b : expr) (i : instr) (f : Z -> Z -> outcome Z) : expr_ok a -> expr_ok b ->
  (forall x y k M l rg f', X (i :: k) (St M (VZ y :: VZ x :: l) rg f') = let* z := f x y in X k (St M (VZ z :: l) rg f')) -> (forall x y e, f x y <> Err e) ->
  forall EL c pa pb c1 c2 gn N lo M fr L G stk rg,
  cexpr genv EL a c = Ok (pa, TInt, c1) -> cexpr genv EL b c1 = Ok (pb, TInt, c2) -> prefix (ctab c2) tab -> (cnext c2 <= N)%nat -> inv gn N lo (cnext c) EL M fr L G ->
  match (let* (v, G) := ev (callV n) L a G in let* (w, G) := ev (callV n) L b G in
         match v, w with SInt x, SInt y => let* z := f x y in Ok (SInt z, G) | _, _ => Err EOther end) with
  | Ok (v, G') => exists M' rg' w, (forall k, X ((pa ++ pb ++ [i]) ++ k) (St M stk rg fr) = X k (St M' (w :: stk) rg' fr)) /\ chg (Pe fr (cnext c)) M M' /\ holds M' 0 genv G' /\ wrep M' v TInt w
  | Err e => failure e /\ forall k, X ((pa ++ pb ++ [i]) ++ k) (St M stk rg fr) = Err e
  | UB => True
  end.
Proof.
  intros IHa IHb Hi Hf EL c pa pb c1 c2 gn N lo M fr L G stk rg E1 E2 T HN IV.
  pose proof (grow_e _ _ _ _ _ _ E1) as [G1 T1]. pose proof (grow_e _ _ _ _ _ _ E2) as [G2 T2].
  specialize (IHa _ _ _ _ _ gn N lo M fr L G stk rg E1 (prefix_trans _ _ _ _ T2 T) ltac:(lia) IV).
  destruct (ev (callV n) L a G) as [[v Ga]|e|]; cbn [bind]; [|destruct IHa as [F IHa]; split; [exact F|]; intros k; rewrite <- !app_assoc; apply IHa|exact I].
  destruct IHa as (M1 & rg1 & w1 & X1 & C1 & H1 & W1).
  assert (IV1 : inv gn N lo (cnext c1) EL M1 fr L Ga) by (eapply inv_expr; eauto; lia).
  specialize (IHb _ _ _ _ _ gn N lo M1 fr L Ga (w1 :: stk) rg1 E2 T HN IV1).
  destruct (ev (callV n) L b Ga) as [[w Gb]|e|]; cbn [bind]; [|destruct IHb as [F IHb]; split; [exact F|]; intros k; rewrite <- !app_assoc, X1; apply IHb|exact I].
  destruct IHb as (M2 & rg2 & w2 & X2 & C2 & H2 & W2).
  unfold CloRep.wrep in W1, W2. cbn [structured] in W1, W2. apply rep_int in W1. apply rep_int in W2. destruct W1 as (x & -> & Ew1). destruct W2 as (y & -> & Ew2). injection Ew1 as ->. injection Ew2 as ->.
  destruct (f x y) as [z|e|] eqn:Fz; cbn [bind]; [|exfalso; eapply Hf; eauto|exact I].
  exists M2, rg2, (VZ z). split; [|split; [|split; [exact H2|unfold CloRep.wrep; cbn; auto]]].
  - intros k. rewrite <- !app_assoc, X1, X2. cbn [app]. rewrite Hi, Fz. reflexivity.
  - eapply chg_trans; [exact C1|]. eapply chgPe_up; [|exact C2]. lia.
Qed.

Lemma mapM_ok gn N lo hi EL M b L G l : inv gn N lo hi EL M b L G -> forall caps, mapM (fun x => find x (EL ++ genv)) caps = Some l -> exists vs, mapM (fun x => find x (L ++ G)) caps = Some vs.
Proof.
  intros IV caps. revert l. induction caps as [|x caps IH]; cbn; intros l H; [eauto|].
  destruct (find x (EL ++ genv)) as [[p t]|] eqn:E; [|discriminate]. destruct (inv_find _ _ _ _ _ _ _ _ _ _ _ _ _ _ IV E) as ((v & -> & _) & _).
  destruct (mapM (fun x => find x (EL ++ genv)) caps); [|discriminate]. destruct (IH _ eq_refl) as (vs & ->). eauto.
Qed.

Lemma chgPs_e b m lo RT M M' : (lo <= m)%nat -> chg (Pe b m) M M' -> chg (Ps b lo RT) M M'.
Proof. intros H. apply chg_mono. unfold Pe, Ps. intros; lia. Qed.
Lemma holds_drop M b D EL L : holds M b (D ++ EL) L -> holds M b EL (skipn (length L - length EL) L).
Proof.
  intros H. pose proof (holds_len _ _ _ _ _ _ H) as E. rewrite app_length in E. replace (length L - length EL)%nat with (length D) by lia. clear E.
  revert L H. induction D as [|d D IH]; intros L H; [exact H|]. inversion H; subst. cbn. apply IH. assumption.
Qed.
Lemma inv_block gn N lo hi hi' D EL M M' b L L' G G' : inv gn N lo hi EL M b L G -> inv gn N lo hi' (D ++ EL) M' b L' G' -> (hi <= hi')%nat ->
  inv gn N lo hi' EL M' b (skipn (length L' - length L) L') G'.
Proof.
  intros (_ & _ & _ & _ & _ & W & _ & H & _) (F & HN & HL & B0 & F0 & _ & WG & H' & HG) Hh. unfold CloVars.inv. repeat (split; [solve [auto]|]). split; [eapply wf_up; eauto|]. split; [exact WG|]. split; [|exact HG].
  rewrite <- (holds_len _ _ _ _ _ _ H). eapply holds_drop. exact H'.
Qed.
Lemma inv_up gn N lo hi hi' EL M b L G : inv gn N lo hi EL M b L G -> (hi <= hi' <= N)%nat -> inv gn N lo hi' EL M b L G.
Proof.
  intros (F & HN & HL & B0 & F0 & W & WG & H & HG) Hh. unfold CloVars.inv. split; [exact F|]. split; [lia|]. split; [lia|]. repeat (split; [solve [auto]|]). split; [|auto]. eapply wf_up; [|exact W]. lia.
Qed.
Lemma inv_declare gn N lo hi EL M M' b L G x t v : inv gn N lo hi EL M b L G -> (hi + size t <= N)%nat -> chg (span b hi (size t)) M M' -> isat M' b hi t v ->
  inv gn N lo (hi + size t) ((x, (PLoc hi, t)) :: EL) M' b ((x, v) :: L) G.
Proof.
  intros IV HN C A. destruct (inv_temp genv tab gn N lo hi hi EL M M' b L G hi (size t) IV ltac:(destruct IV as (_ & ? & _); lia) C ltac:(lia)) as (F & HN' & HL & B0 & F0 & W & WG & H & HG).
  unfold CloVars.inv. split; [exact F|]. split; [lia|]. split; [lia|]. split; [exact B0|]. split; [exact F0|]. split; [apply (wf_cons true lo hi x (PLoc hi) t EL); cbn; auto|]. split; [exact WG|]. split; [|exact HG].
  constructor; [|exact H]. split; [reflexivity|exact A].
Qed.
Lemma inv_set gn N lo hi EL M b L G x p t v w : inv gn N lo hi EL M b L G -> find x (EL ++ genv) = Some (p, t) -> wrep M v t w ->
  exists M', store M (VPtr (pblk b p) (poff p)) w (arg t) = Ok M' /\ (forall RT, chg (Ps b lo RT) M M') /\
    exists L' G', match update x v L with Some L1 => L' = L1 /\ G' = G | None => L' = L /\ update x v G = Some G' end /\ inv gn N lo hi EL M' b L' G'.
Proof.
  intros (F & HN & HL & B0 & F0 & W & WG & H & HG) E Wv. rewrite find_app in E. destruct (find x EL) as [[q u]|] eqn:E1.
  - injection E as -> ->. destruct (holds_find _ _ _ _ _ _ _ _ _ _ _ _ H W E1) as (K & A & B & _). destruct p as [o|]; [|discriminate]. cbn [pblk poff] in *.
    destruct (store_ok genv tab M b N o t v w F ltac:(lia) Wv) as (M' & S & C & At). exists M'. split; [exact S|]. split; [intros; eapply chg_mono; [|exact C]; unfold span, Ps; intros; lia|].
    destruct (holds_update _ _ M M' b EL L x (PLoc o) t v H (proj2 W) E1 C At) as (L' & -> & H'). exists L', G. split; [auto|]. unfold CloVars.inv.
    split; [eapply frame_chg; eauto|]. split; [exact HN|]. split; [exact HL|]. split; [exact B0|]. split; [eapply frame_chg; eauto|]. split; [exact W|]. split; [exact WG|]. split; [exact H'|].
    eapply holds_chg; [exact C|exact WG| |exact HG]. unfold span. intros; lia.
  - destruct (holds_find _ _ _ _ _ _ _ _ _ _ _ _ HG WG E) as (K & A & B & _). destruct p as [|o]; [discriminate|]. cbn [pblk poff] in *.
    destruct (store_ok genv tab M 0 gn o t v w F0 ltac:(lia) Wv) as (M' & S & C & At). exists M'. split; [exact S|]. split; [intros; eapply chg_mono; [|exact C]; unfold span, Ps; intros; lia|].
    rewrite (update_none L x v (holds_none _ _ _ _ _ _ _ H E1)).
    destruct (holds_update _ _ M M' 0 genv G x (PGlob o) t v HG (proj2 WG) E C At) as (G' & E' & H'). exists L, G'. split; [auto|]. unfold CloVars.inv.
    split; [eapply frame_chg; eauto|]. split; [exact HN|]. split; [exact HL|]. split; [exact B0|]. split; [eapply frame_chg; eauto|]. split; [exact W|]. split; [exact WG|]. split; [|exact H'].
    eapply holds_chg; [exact C|exact W| |exact H]. unfold span. intros; lia.
Qed.

(** The loop of SWhile. *)
Section LoopS.
Variables (c : expr) (body : stmt).
Fixpoint loopS (m : nat) (L G : vars) : outcome (vars * vars * option sval) :=
  match m with
  | O => Err EFuel
  | S m =>
      let* (v, G) := ev (callV n) L c G in
      match v with
      | SInt z =>
          if z =? 0 then Ok (L, G, None)
          else let* (r, o) := ex (callV n) n body L G in
               let L := skipn (length (fst r) - length L) (fst r) in
               match o with Some _ => Ok (L, snd r, o) | None => loopS m L (snd r) end
      | _ => Err EOther
      end
  end.
Lemma ex_while L G : ex (callV n) n (SWhile c body) L G = loopS n L G.
Proof. reflexivity. Qed.
End LoopS.

Lemma sim_all : (forall e, expr_ok e) /\ (forall a, args_ok a) /\ (forall s, stmt_ok s).
Proof.
  apply prog_ind.
  - intros z EL c p t c' gn N lo M b L G stk rg H T HN IV. cbn in H. injection H as <- <- <-. cbn. exists M, rg, (VZ z). split; [reflexivity|]. split; [apply chg_refl|]. split; [apply IV|]. split; reflexivity.
  - intros x EL c p t c' gn N lo M b L G stk rg H T HN IV. cbn [cexpr] in H; fold (cexpr genv) (cargs genv) (cstmt genv) in H. destruct (find x (EL ++ genv)) as [[q u]|] eqn:E; [|discriminate]. injection H as <- <- <-. cbn [ev]; fold (ev (callV n)) (evs (callV n)).
    destruct (inv_find _ _ _ _ _ _ _ _ _ _ _ _ _ _ IV E) as ((v & -> & A) & _). destruct (load_ok genv tab (callN tab n) n M b q u v A) as (w & Hw & W). exists M, rg, w. split; [intros; apply Hw|]. split; [apply chg_refl|]. split; [apply IV|exact W].
  - intros a IHa b IHb EL c p t c' gn N lo M fr L G stk rg H T HN IV. cbn [cexpr] in H; fold (cexpr genv) (cargs genv) (cstmt genv) in H. opene H (cexpr genv EL a c) p1 t1 c1 E1. opene H (cexpr genv EL b c1) p2 t2 c2 E2. destruct t1, t2; try discriminate. injection H as <- <- <-.
    assert (Q := binary_ok a b IAdd (fun x y => chk64 (x + y)) IHa IHb). specialize (Q add_step ltac:(intros x y e; unfold chk64; destruct (in_s64b (x + y)); discriminate)).
    specialize (Q _ _ _ _ _ _ _ _ _ M fr L G stk rg E1 E2 T HN IV). cbn [ev]; fold (ev (callV n)) (evs (callV n)). destruct (ev (callV n) L a G) as [[v Ga]|e|]; cbn [bind] in *; try exact Q. destruct (ev (callV n) L b Ga) as [[w Gb]|e|]; cbn [bind] in *; try exact Q.
    destruct v, w; try exact Q. unfold chk64 in Q. destruct (in_s64b (z + z0)); exact Q.
  - intros a IHa b IHb EL c p t c' gn N lo M fr L G stk rg H T HN IV. cbn [cexpr] in H; fold (cexpr genv) (cargs genv) (cstmt genv) in H. opene H (cexpr genv EL a c) p1 t1 c1 E1. opene H (cexpr genv EL b c1) p2 t2 c2 E2. destruct t1, t2; try discriminate. injection H as <- <- <-.
    assert (Q := binary_ok a b ILess (fun x y => Ok (b2z (x <? y))) IHa IHb). specialize (Q ltac:(reflexivity) ltac:(discriminate)).
    exact (Q _ _ _ _ _ _ _ _ _ M fr L G stk rg E1 E2 T HN IV).
  - (* call *)
    intros f IHf a IHa EL c p t c' gn N lo M b L G stk rg H T HN IV. cbn [cexpr] in H; fold (cexpr genv) (cargs genv) (cstmt genv) in H. opene H (cexpr genv EL f c) p1 t1 c1 E1. destruct t1 as [|ts r]; [discriminate|]. opena H (cargs genv EL a ts c1) p2 c2 E2. injection H as <- <- <-.
    cbn [cnext ctab] in *. pose proof (grow_e _ _ _ _ _ _ E1) as [G1 T1]. pose proof (grow_a _ _ _ _ _ _ E2) as [G2 T2].
    specialize (IHf _ _ _ _ _ gn N lo M b L G stk rg E1 (prefix_trans _ _ _ _ T2 T) ltac:(lia) IV). cbn [ev]; fold (ev (callV n)) (evs (callV n)).
    destruct (ev (callV n) L f G) as [[v Ga]|e|]; cbn [bind]; [|destruct IHf as [F IHf]; split; [exact F|]; intros k; rewrite <- !app_assoc; apply IHf|exact I].
    destruct IHf as (M1 & rg1 & w1 & X1 & C1 & H1 & bf & off & sl & -> & R1 & Q1).
    assert (IV1 : inv gn N lo (cnext c1) EL M1 b L Ga) by (eapply inv_expr; eauto; lia).
    assert (SL : exists e u1 u2, sl = [e; u1; u2]). { pose proof (rep_len _ _ _ _ _ _ Q1) as Ls. destruct sl as [|e [|u1 [|u2 [|? ?]]]]; try discriminate. eauto. }
    destruct SL as (e & u1 & u2 & ->).
    assert (X2 : forall k, X (IUpvalue :: IParam 2 :: k) (St M1 (VPtr bf off :: stk) rg1 b) = X k (St M1 (u1 :: u2 :: e :: stk) rg1 b)).
    { intros k. destruct (reads_split M1 bf 1 2 off _ R1) as (l1 & l2 & El & Ra & Rb). pose proof (reads_len _ _ _ _ _ Ra) as La. destruct l1 as [|y [|? ?]]; try discriminate. cbn in El. injection El as <- <-.
      cbn [reads] in Ra. destruct (read M1 bf off) as [e'| |] eqn:Re; try discriminate. cbn [bind] in Ra. injection Ra as ->. rewrite (x_upvalue _ _ _ _ _ _ _ _ _ _ _ Re). rewrite Nat.add_1_r in Rb. exact (x_param _ _ _ _ _ _ _ _ _ _ _ _ Rb). }
    specialize (IHa _ _ _ _ _ gn N lo M1 b L Ga (u1 :: u2 :: e :: stk) rg1 E2 T ltac:(lia) IV1).
    destruct (evs (callV n) L a Ga) as [[vs Gb]|er|]; cbn [bind]; [|destruct IHa as [F IHa]; split; [exact F|]; intros k; rewrite <- !app_assoc, X1; cbn [app]; rewrite X2, <- app_assoc; apply IHa|exact I].
    destruct IHa as (M2 & rg2 & asl & X3 & C2 & H2 & RS).
    assert (IV2 : inv gn N lo (cnext c2) EL M2 b L Gb) by (eapply inv_expr; eauto; lia).
    destruct (reps_len _ _ _ _ RS) as [Lvs Lasl].
    set (RT := if structured r then Some (b, cnext c2) else None).
    assert (XR : exists M3, (forall k, X (resultCode (cnext c2) r ++ k) (St M2 (concat (rev asl) ++ u1 :: u2 :: e :: stk) rg2 b) = X k (St M3 (resl RT ++ concat (rev asl) ++ u1 :: u2 :: e :: stk) rg2 b)) /\
       chg (Pr RT) M2 M3 /\ rt M3 r RT /\ inv gn N lo (cnext c2) EL M3 b L Gb).
    { unfold resultCode, RT, rt. destruct (structured r) eqn:Sr.
      - pose proof IV2 as (F & _ & _ & B0 & _). destruct (zeroVar_ok tab (callN tab n) n M2 b N (cnext c2) 3 F ltac:(lia)) as (M3 & Z & C3 & _). exists M3. split; [|split; [|split]].
        + intros k. rewrite <- app_assoc, Z. reflexivity.
        + exact C3.
        + split; [reflexivity|]. split; [exact B0|]. exists N. split; [eapply frame_chg; eauto|lia].
        + eapply inv_temp; eauto; lia.
      - exists M2. split; [reflexivity|]. split; [apply chg_refl|]. split; [reflexivity|exact IV2]. }
    destruct XR as (M3 & X4 & C3 & RTok & IV3). pose proof IV3 as (F3 & _ & _ & B0 & F03 & _ & WG3 & _ & HG3).
    assert (Len : length (resl RT ++ concat (rev asl) ++ [u1; u2]) = (resSlots r + sizes ts + 2)%nat). { rewrite !app_length, Lasl. unfold RT, resSlots. destruct (structured r); cbn; lia. }
    assert (Nth : nth_error (resl RT ++ concat (rev asl) ++ u1 :: u2 :: e :: stk) (resSlots r + sizes ts + 2) = Some e).
    { replace (resl RT ++ concat (rev asl) ++ u1 :: u2 :: e :: stk) with ((resl RT ++ concat (rev asl) ++ [u1; u2]) ++ e :: stk) by (rewrite <- !app_assoc; reflexivity).
      rewrite nth_error_app2 by lia. rewrite Len, Nat.sub_diag. reflexivity. }
    pose proof (heaps_trans _ _ _ (chg_heaps _ _ _ C2) (chg_heaps _ _ _ C3)) as Hh.
    destruct v as [z| |caps ps body].
    + destruct Q1 as [Q1 _]. discriminate.
    + destruct Q1 as [_ Q1]. injection Q1 as -> -> ->. replace (callV n SNull vs Gb) with (@Err (sval * vars) EIllegalFn) by (destruct n; reflexivity).
      split; [right; reflexivity|]. intros k. rewrite <- !app_assoc, X1. cbn [app]. rewrite X2, <- !app_assoc, X3, X4. cbn [app]. apply x_call0. exact Nth.
    + apply rep_clo in Q1. destruct Q1 as (r' & ei & fc & u1' & u2' & Et & Es & Tn & Cl). injection Et as -> <-. injection Es as -> <- <-.
      assert (Cl3 : clo M3 caps ps body r fc u1 u2) by (eapply clo_heaps; eauto).
      assert (RS3 : reps M3 vs (map snd ps) asl) by (eapply reps_heaps; [eapply chg_heaps; exact C3|exact RS]).
      pose proof (CALL _ _ _ _ _ _ _ M3 vs asl Gb (VZ (Z.of_nat ei + 1) :: stk) rg2 b gn RT Cl3 RS3 F03 WG3 HG3 RTok) as Q.
      destruct (callV n (SClo caps ps body) vs Gb) as [[v' G']|er|]; [| |exact I].
      * destruct Q as (M4 & rg4 & E4 & C4 & H4 & W4). exists M4, rg4, rg4. split; [|split; [|split; assumption]].
        -- intros k. rewrite <- !app_assoc, X1. cbn [app]. rewrite X2, <- !app_assoc, X3, X4. cbn [app]. rewrite (x_call _ _ _ _ _ _ _ _ _ _ _ Nth Tn), E4. cbn [bind]. rewrite x_pop, x_pushres. reflexivity.
        -- eapply chg_trans; [exact C1|]. eapply chg_trans; [eapply chgPe_up; [|exact C2]; lia|].
           eapply chg_trans; [eapply chg_mono; [|exact C3]|eapply chg_mono; [|exact C4]]; unfold Pc, Pr, Pe, RT, span; destruct (structured r); intros; lia.
      * destruct Q as [F E4]. split; [exact F|]. intros k. rewrite <- !app_assoc, X1. cbn [app]. rewrite X2, <- !app_assoc, X3, X4. cbn [app]. rewrite (x_call _ _ _ _ _ _ _ _ _ _ _ Nth Tn), E4. reflexivity.
  - (* closure literal *)
    intros caps ps r body IHb EL c p t c' gn N lo M b L G stk rg H T HN IV. clear IHb. cbn [cexpr] in H; fold (cexpr genv) (cargs genv) (cstmt genv) in H; cbn [alloc] in H. destruct (mapM (fun x => find x (EL ++ genv)) caps) as [l|] eqn:Hl; [|discriminate]. cbn [cnext ctab] in H.
    opena H (cstmt genv r (fnEnv (combine caps (map snd l)) ps r) body (Cst (fnStart (combine caps (map snd l)) ps r) (ctab c))) pb cb Eb. injection H as <- <- <-. cbn [ctab cnext] in *.
    cbn [ev]; fold (ev (callV n)) (evs (callV n)). destruct (mapM_ok _ _ _ _ _ _ _ _ _ _ IV _ Hl) as (vs & Hv). rewrite Hv.
    destruct (closure_ok genv tab (callN tab n) n gn N lo (cnext c) EL M b L G caps l vs ps r body (ctab c) pb cb stk rg IV ltac:(lia) Hl Hv Eb T) as (M' & E & C & HG & W).
    exists M', rg, (VPtr b (cnext c)). split; [exact E|]. split; [exact C|]. split; assumption.
  - intros EL [|t ts] c q c' gn N lo M b L G stk rg H T HN IV; cbn in H; [|discriminate]. injection H as <- <-. cbn. exists M, rg, []. split; [reflexivity|]. split; [apply chg_refl|]. split; [apply IV|exact I].
  - intros e IHe a IHa EL [|t ts] c q c' gn N lo M b L G stk rg H T HN IV; cbn [cargs] in H; fold (cexpr genv) (cargs genv) (cstmt genv) in H; [discriminate|]. opene H (cexpr genv EL e c) p1 t1 c1 E1. destruct (ty_eqb t1 t) eqn:Et; [|discriminate]. apply ty_eqb_eq in Et. subst t1.
    opena H (cargs genv EL a ts c1) p2 c2 E2. injection H as <- <-. pose proof (grow_e _ _ _ _ _ _ E1) as [G1 T1]. pose proof (grow_a _ _ _ _ _ _ E2) as [G2 T2].
    specialize (IHe _ _ _ _ _ gn N lo M b L G stk rg E1 (prefix_trans _ _ _ _ T2 T) ltac:(lia) IV). cbn [evs]; fold (ev (callV n)) (evs (callV n)).
    destruct (ev (callV n) L e G) as [[v Ga]|er|]; cbn [bind]; [|destruct IHe as [F IHe]; split; [exact F|]; intros k; rewrite <- !app_assoc; apply IHe|exact I].
    destruct IHe as (M1 & rg1 & w1 & X1 & C1 & H1 & W1).
    assert (IV1 : inv gn N lo (cnext c1) EL M1 b L Ga) by (eapply inv_expr; eauto; lia).
    assert (PP : exists sl, (forall k, X ((if structured t then [IParam (size t)] else []) ++ k) (St M1 (w1 :: stk) rg1 b) = X k (St M1 (sl ++ stk) rg1 b)) /\ rep M1 v t sl).
    { unfold CloRep.wrep in W1. destruct (structured t).
      - destruct W1 as (b1 & o1 & sl & -> & R & Q). exists sl. split; [|exact Q]. intros k. cbn [app]. exact (x_param _ _ _ _ _ _ _ _ _ _ _ _ R).
      - exists [w1]. split; [reflexivity|exact W1]. }
    destruct PP as (sl & X2 & Q1).
    specialize (IHa _ _ _ _ _ gn N lo M1 b L Ga (sl ++ stk) rg1 E2 T HN IV1).
    destruct (evs (callV n) L a Ga) as [[vs Gb]|er|]; cbn [bind]; [|destruct IHa as [F IHa]; split; [exact F|]; intros k; rewrite <- !app_assoc, X1, X2; apply IHa|exact I].
    destruct IHa as (M2 & rg2 & asl & X3 & C2 & H2 & RS). exists M2, rg2, (sl :: asl). split; [|split; [|split; [exact H2|]]].
    + intros k. rewrite <- !app_assoc, X1, X2, X3. cbn [rev]. rewrite concat_app. cbn [concat]. rewrite app_nil_r, <- app_assoc. reflexivity.
    + eapply chg_trans; [exact C1|]. eapply chgPe_up; [|exact C2]. lia.
    + split; [|exact RS]. eapply rep_heaps; [eapply chg_heaps; exact C2|exact Q1].
  - (* skip *) intros EL c p EL' c' res gn N M b L G stk rg RT H T HN IV R1 R2. cbn in H. injection H as <- <- <-. cbn. exists M, rg. split; [reflexivity|]. split; [apply chg_refl|exact IV].
  - (* sequence *) intros a IHa s2 IHb EL c p EL' c' res gn N M b L G stk rg RT H T HN IV R1 R2. cbn [cstmt] in H; fold (cexpr genv) (cargs genv) (cstmt genv) in H. opene H (cstmt genv res EL a c) p1 el1 c1 E1. opene H (cstmt genv res el1 s2 c1) p2 el2 c2 E2. injection H as <- <- <-.
    pose proof (grow_s _ _ _ _ _ _ _ E1) as [G1 T1]. pose proof (grow_s _ _ _ _ _ _ _ E2) as [G2 T2].
    specialize (IHa _ _ _ _ _ _ gn N M b L G stk rg RT E1 (prefix_trans _ _ _ _ T2 T) ltac:(lia) IV R1 R2). cbn [ex].
    destruct (ex (callV n) n a L G) as [[[L1 Ga] [v|]]|e|]; cbn [bind fst snd]; [| |destruct IHa as [F IHa]; split; [exact F|]; intros k; rewrite <- !app_assoc; apply IHa|exact I].
    + destruct IHa as (M1 & rg1 & stk1 & X1 & C1 & H1 & W1). exists M1, rg1, stk1. split; [|auto]. intros k. rewrite <- app_assoc. apply X1.
    + destruct IHa as (M1 & rg1 & X1 & C1 & IV1). pose proof IV as (_ & _ & _ & B0 & _).
      specialize (IHb _ _ _ _ _ _ gn N M1 b L1 Ga stk rg1 RT E2 T HN IV1 (rt_chg _ _ _ _ _ C1 R1) (rslot_chg _ _ _ _ _ C1 B0 R1 R2)).
      destruct (ex (callV n) n s2 L1 Ga) as [[[L2 Gb] [v|]]|e|]; [| |destruct IHb as [F IHb]; split; [exact F|]; intros k; rewrite <- !app_assoc, X1; apply IHb|exact I].
      * destruct IHb as (M2 & rg2 & stk2 & X2 & C2 & H2 & W2). exists M2, rg2, stk2. split; [|split; [eapply chg_trans; eauto|auto]]. intros k. rewrite <- app_assoc, X1. apply X2.
      * destruct IHb as (M2 & rg2 & X2 & C2 & IV2). exists M2, rg2. split; [|split; [eapply chg_trans; eauto|auto]]. intros k. rewrite <- app_assoc, X1. apply X2.
  - (* var *) intros x t EL c p EL' c' res gn N M b L G stk rg RT H T HN IV R1 R2. cbn [cstmt alloc] in H. injection H as <- <- <-. cbn [ex cnext ctab] in *.
    pose proof IV as (F & _ & HL & _). destruct (zeroVar_ok tab (callN tab n) n M b N (cnext c) (size t) F ltac:(lia)) as (M1 & Z & C1 & Rd). exists M1, rg. split; [intros; apply Z|]. split.
    + eapply chg_mono; [|exact C1]. unfold span, Ps. intros; lia.
    + eapply inv_declare; eauto. exists (repeat (VZ 0) (size t)). split; [exact Rd|apply rep_zero].
  - (* declaration *) intros x e IHe EL c p EL' c' res gn N M b L G stk rg RT H T HN IV R1 R2. cbn [cstmt] in H; fold (cexpr genv) (cargs genv) (cstmt genv) in H. opene H (cexpr genv EL e c) p1 t1 c1 E1. injection H as <- <- <-. cbn [cnext ctab] in *.
    pose proof (grow_e _ _ _ _ _ _ E1) as [G1 T1]. pose proof IV as (_ & _ & HL & _).
    specialize (IHe _ _ _ _ _ gn N (resSlots res) M b L G stk rg E1 T ltac:(lia) IV). cbn [ex].
    destruct (ev (callV n) L e G) as [[v Ga]|er|]; cbn [bind]; [|destruct IHe as [F IHe]; split; [exact F|]; intros k; rewrite <- !app_assoc; apply IHe|exact I].
    destruct IHe as (M1 & rg1 & w1 & X1 & C1 & H1 & W1).
    assert (IV1 : inv gn N (resSlots res) (cnext c1) EL M1 b L Ga) by (eapply inv_expr; eauto; lia). pose proof IV1 as (F1 & _).
    destruct (store_ok genv tab M1 b N (cnext c1) t1 v w1 F1 ltac:(lia) W1) as (M2 & S2 & C2 & A2). exists M2, rg1. split; [|split].
    + intros k. rewrite <- app_assoc, X1. cbn [app]. rewrite x_local. apply x_assign. exact S2.
    + eapply chg_trans; [eapply chgPs_e; [|exact C1]; lia|]. eapply chg_mono; [|exact C2]. unfold span, Ps. intros; lia.
    + eapply inv_declare; eauto.
  - (* assignment *) intros x e IHe EL c p EL' c' res gn N M b L G stk rg RT H T HN IV R1 R2. cbn [cstmt] in H; fold (cexpr genv) (cargs genv) (cstmt genv) in H. destruct (find x (EL ++ genv)) as [[q u]|] eqn:Ex; [|discriminate].
    opene H (cexpr genv EL e c) p1 t1 c1 E1. destruct (ty_eqb t1 u) eqn:Et; [|discriminate]. apply ty_eqb_eq in Et. subst u. injection H as <- <- <-.
    pose proof (grow_e _ _ _ _ _ _ E1) as [G1 T1]. pose proof IV as (_ & _ & HL & _).
    specialize (IHe _ _ _ _ _ gn N (resSlots res) M b L G (VPtr (pblk b q) (poff q) :: stk) rg E1 T ltac:(lia) IV). cbn [ex].
    destruct (ev (callV n) L e G) as [[v Ga]|er|]; cbn [bind]; [|destruct IHe as [F IHe]; split; [exact F|]; intros k; rewrite <- !app_assoc, ptr_ok; apply IHe|exact I].
    destruct IHe as (M1 & rg1 & w1 & X1 & C1 & H1 & W1).
    assert (IV1 : inv gn N (resSlots res) (cnext c1) EL M1 b L Ga) by (eapply inv_expr; eauto; lia).
    destruct (inv_set _ _ _ _ _ _ _ _ _ _ _ _ _ _ IV1 Ex W1) as (M2 & S2 & C2 & L' & G' & U & IV2).
    assert (XX : forall k, X ((ptr q ++ p1 ++ [IAssign false (arg t1)]) ++ k) (St M stk rg b) = X k (St M2 stk rg1 b)).
    { intros k. rewrite <- !app_assoc, ptr_ok, X1. cbn [app]. apply x_assign. exact S2. }
    assert (CC : chg (Ps b (resSlots res) RT) M M2). { eapply chg_trans; [eapply chgPs_e; [|exact C1]; lia|]. apply C2. }
    destruct (update x v L) as [L1|].
    + destruct U as [-> ->]. exists M2, rg1. auto.
    + destruct U as [-> ->]. exists M2, rg1. auto.
  - (* expression *) intros e IHe EL c p EL' c' res gn N M b L G stk rg RT H T HN IV R1 R2. cbn [cstmt] in H; fold (cexpr genv) (cargs genv) (cstmt genv) in H. opene H (cexpr genv EL e c) p1 t1 c1 E1. injection H as <- <- <-.
    pose proof (grow_e _ _ _ _ _ _ E1) as [G1 T1]. pose proof IV as (_ & _ & HL & _).
    specialize (IHe _ _ _ _ _ gn N (resSlots res) M b L G stk rg E1 T ltac:(lia) IV). cbn [ex].
    destruct (ev (callV n) L e G) as [[v Ga]|er|]; cbn [bind]; [|destruct IHe as [F IHe]; split; [exact F|]; intros k; rewrite <- !app_assoc; apply IHe|exact I].
    destruct IHe as (M1 & rg1 & w1 & X1 & C1 & H1 & W1). exists M1, rg1. split; [|split].
    + intros k. rewrite <- app_assoc, X1. apply x_pop.
    + eapply chgPs_e; [|exact C1]. lia.
    + eapply inv_expr; eauto; lia.
  - (* block *) intros s IHs EL c p EL' c' res gn N M b L G stk rg RT H T HN IV R1 R2. cbn [cstmt] in H; fold (cexpr genv) (cargs genv) (cstmt genv) in H. opene H (cstmt genv res EL s c) p1 el1 c1 E1. injection H as <- <- <-.
    specialize (IHs _ _ _ _ _ _ gn N M b L G stk rg RT E1 T HN IV R1 R2). cbn [ex].
    destruct (proj2 (proj2 (compile_mono genv)) _ _ _ _ _ _ _ E1) as [[G1 _] Xt]. destruct (Xt 0%nat) as [[D ->] _].
    destruct (ex (callV n) n s L G) as [[[L1 Ga] [v|]]|e|]; cbn [bind fst snd]; [exact IHs| |exact IHs|exact I].
    destruct IHs as (M1 & rg1 & X1 & C1 & IV1). exists M1, rg1. split; [exact X1|]. split; [exact C1|]. eapply inv_block; eauto.
  - (* if *) intros q IHq a IHa s2 IHb EL c p EL' c' res gn N M b L G stk rg RT H T HN IV R1 R2. cbn [cstmt] in H; fold (cexpr genv) (cargs genv) (cstmt genv) in H. opene H (cexpr genv EL q c) p1 t1 c1 E1. destruct t1; [|discriminate].
    opene H (cstmt genv res EL a c1) p2 el2 c2 E2. opene H (cstmt genv res EL s2 c2) p3 el3 c3 E3. injection H as <- <- <-.
    pose proof (grow_e _ _ _ _ _ _ E1) as [G1 T1]. destruct (proj2 (proj2 (compile_mono genv)) _ _ _ _ _ _ _ E2) as [[G2 T2] Xt2]. destruct (proj2 (proj2 (compile_mono genv)) _ _ _ _ _ _ _ E3) as [[G3 T3] Xt3].
    pose proof IV as (_ & _ & HL & B0 & _).
    specialize (IHq _ _ _ _ _ gn N (resSlots res) M b L G stk rg E1 (prefix_trans _ _ _ _ T2 (prefix_trans _ _ _ _ T3 T)) ltac:(lia) IV). cbn [ex].
    destruct (ev (callV n) L q G) as [[v Ga]|er|]; cbn [bind]; [|destruct IHq as [F IHq]; split; [exact F|]; intros k; rewrite <- !app_assoc; apply IHq|exact I].
    destruct IHq as (M1 & rg1 & w1 & X1 & C1 & H1 & W1). apply rep_int in W1. destruct W1 as (z & -> & Ew). injection Ew as ->.
    assert (C1' : chg (Ps b (resSlots res) RT) M M1) by (eapply chgPs_e; [|exact C1]; lia).
    pose proof (rt_chg _ _ _ _ _ C1' R1) as R1'. pose proof (rslot_chg _ _ _ _ _ C1' B0 R1 R2) as R2'.
    assert (Z : exists sb pb elb cb cb', (if z =? 0 then ex (callV n) n s2 L Ga else ex (callV n) n a L Ga) = ex (callV n) n sb L Ga /\ stmt_ok sb /\ cstmt genv res EL sb cb = Ok (pb, elb, cb') /\
       prefix (ctab cb') tab /\ (cnext c <= cnext cb)%nat /\ (cnext cb <= cnext cb')%nat /\ (cnext cb' <= cnext c3)%nat /\ (exists D, elb = D ++ EL) /\
       forall k, X ([IIf p2 p3] ++ k) (St M1 (VZ z :: stk) rg1 b) = let* (s, r) := X pb (St M1 stk rg1 b) in if r then Ok (s, true) else X k s).
    { destruct (z =? 0) eqn:Ez.
      - exists s2, p3, el3, c2, c3. repeat (split; [solve [auto|lia|apply (proj1 (Xt3 0%nat))]|]). intros k. cbn [app exec]. rewrite xi_if, Ez. reflexivity.
      - exists a, p2, el2, c1, c2. split; [auto|]. split; [auto|]. split; [auto|]. split; [eapply prefix_trans; eauto|]. repeat (split; [solve [auto|lia|apply (proj1 (Xt2 0%nat))]|]). intros k. cbn [app exec]. rewrite xi_if, Ez. reflexivity. }
    destruct Z as (sb & pb & elb & cb & cb' & -> & IHs & Eb & Tb & Hb1 & Hb2 & Hb3 & [D ->] & XI).
    assert (IV1 : inv gn N (resSlots res) (cnext cb) EL M1 b L Ga) by (eapply inv_expr; eauto; lia).
    specialize (IHs _ _ _ _ _ _ gn N M1 b L Ga stk rg1 RT Eb Tb ltac:(lia) IV1 R1' R2').
    destruct (ex (callV n) n sb L Ga) as [[[L1 Gb] [v|]]|e|]; cbn [bind fst snd]; [| | |exact I].
    + destruct IHs as (M2 & rg2 & stk2 & X2 & C2 & H2 & W2). exists M2, rg2, stk2. split; [|split; [eapply chg_trans; eauto|auto]]. intros k. rewrite <- app_assoc, X1, XI. specialize (X2 []). rewrite app_nil_r in X2. rewrite X2. reflexivity.
    + destruct IHs as (M2 & rg2 & X2 & C2 & IV2). exists M2, rg2. split; [|split; [eapply chg_trans; eauto|]].
      * intros k. rewrite <- app_assoc, X1, XI. specialize (X2 []). rewrite app_nil_r in X2. rewrite X2. reflexivity.
      * eapply inv_block; [exact IV1| |lia]. eapply inv_up; [exact IV2|lia].
    + destruct IHs as [F IHs]. split; [exact F|]. intros k. rewrite <- app_assoc, X1, XI. specialize (IHs []). rewrite app_nil_r in IHs. rewrite IHs. reflexivity.
  - (* while *) intros q IHq body IHb EL c p EL' c' res gn N M b L G stk rg RT H T HN IV R1 R2. cbn [cstmt] in H; fold (cexpr genv) (cargs genv) (cstmt genv) in H. opene H (cexpr genv EL q c) p1 t1 c1 E1. destruct t1; [|discriminate].
    opene H (cstmt genv res EL body c1) p2 el2 c2 E2. injection H as <- <- <-. rewrite ex_while.
    pose proof (grow_e _ _ _ _ _ _ E1) as [G1 T1]. destruct (proj2 (proj2 (compile_mono genv)) _ _ _ _ _ _ _ E2) as [[G2 T2] Xt2]. destruct (Xt2 0%nat) as [[D ->] _]. pose proof IV as (_ & _ & HL & B0 & _).
    assert (LP : forall m M L G rg, inv gn N (resSlots res) (cnext c) EL M b L G -> rt M res RT -> rslot M b RT ->
      match loopS q body m L G with
      | Ok (L', G', None) => exists M' rg', loopM tab (callN tab n) n p1 p2 m (St M stk rg b) = Ok (St M' stk rg' b, false) /\ chg (Ps b (resSlots res) RT) M M' /\ inv gn N (resSlots res) (cnext c) EL M' b L' G'
      | Ok (_, G', Some v) => exists M' rg' stk', loopM tab (callN tab n) n p1 p2 m (St M stk rg b) = Ok (St M' stk' rg' b, true) /\ chg (Ps b (resSlots res) RT) M M' /\ holds M' 0 genv G' /\ wrep M' v res rg' /\ tgt RT rg'
      | Err e => failure e /\ loopM tab (callN tab n) n p1 p2 m (St M stk rg b) = Err e
      | UB => True
      end).
    { clear M L G rg IV R1 R2. induction m as [|m IHm]; intros M L G rg IV R1 R2; [split; [left; reflexivity|reflexivity]|]. cbn [loopS loopM].
      pose proof (IHq _ _ _ _ _ gn N (resSlots res) M b L G stk rg E1 (prefix_trans _ _ _ _ T2 T) ltac:(lia) IV) as Q.
      destruct (ev (callV n) L q G) as [[v Ga]|er|]; cbn [bind]; [|destruct Q as [F Q]; split; [exact F|]; specialize (Q []); rewrite app_nil_r in Q; rewrite Q; reflexivity|exact I].
      destruct Q as (M1 & rg1 & w1 & X1 & C1 & H1 & W1). apply rep_int in W1. destruct W1 as (z & -> & Ew). injection Ew as ->.
      specialize (X1 []). rewrite app_nil_r in X1. rewrite X1. cbn [exec bind CloModel.stk mem reg fr].
      assert (C1' : chg (Ps b (resSlots res) RT) M M1) by (eapply chgPs_e; [|exact C1]; lia).
      pose proof (rt_chg _ _ _ _ _ C1' R1) as R1'. pose proof (rslot_chg _ _ _ _ _ C1' B0 R1 R2) as R2'.
      destruct (z =? 0).
      { exists M1, rg1. split; [reflexivity|]. split; [exact C1'|]. eapply inv_expr; eauto; lia. }
      assert (IV1 : inv gn N (resSlots res) (cnext c1) EL M1 b L Ga) by (eapply inv_expr; eauto; lia).
      pose proof (IHb _ _ _ _ _ _ gn N M1 b L Ga stk rg1 RT E2 T HN IV1 R1' R2') as Q.
      destruct (ex (callV n) n body L Ga) as [[[L1 Gb] [v|]]|e|]; cbn [bind fst snd]; [| | |exact I].
      - destruct Q as (M2 & rg2 & stk2 & X2 & C2 & H2 & W2). specialize (X2 []). rewrite app_nil_r in X2. rewrite X2. cbn [bind]. exists M2, rg2, stk2. split; [reflexivity|]. split; [eapply chg_trans; eauto|auto].
      - destruct Q as (M2 & rg2 & X2 & C2 & IV2). specialize (X2 []). rewrite app_nil_r in X2. rewrite X2. cbn [exec bind].
        assert (IV3 : inv gn N (resSlots res) (cnext c) EL M2 b (skipn (length L1 - length L) L1) Gb).
        { pose proof (inv_block _ _ _ _ _ _ _ _ _ _ _ _ _ _ IV1 IV2 ltac:(lia)) as (A1 & A2 & A3 & A4 & A5 & A6 & A7 & A8 & A9). destruct IV as (_ & B2 & B3 & _ & _ & B6 & _). unfold CloVars.inv. auto 15. }
        pose proof (IHm M2 _ Gb rg2 IV3 (rt_chg _ _ _ _ _ C2 R1') (rslot_chg _ _ _ _ _ C2 B0 R1' R2')) as Q.
        destruct (loopS q body m (skipn (length L1 - length L) L1) Gb) as [[[L3 Gc] [v|]]|e|]; [| |exact Q|exact I].
        + destruct Q as (M3 & rg3 & stk3 & X3 & C3 & H3 & W3). exists M3, rg3, stk3. split; [exact X3|]. split; [|auto]. eapply chg_trans; [exact C1'|]. eapply chg_trans; eauto.
        + destruct Q as (M3 & rg3 & X3 & C3 & IV4). exists M3, rg3. split; [exact X3|]. split; [|auto]. eapply chg_trans; [exact C1'|]. eapply chg_trans; eauto.
      - destruct Q as [F Q]. split; [exact F|]. specialize (Q []). rewrite app_nil_r in Q. rewrite Q. reflexivity. }
    specialize (LP n M L G rg IV R1 R2).
    destruct (loopS q body n L G) as [[[L1 Gb] [v|]]|e|]; [| | |exact I].
    + destruct LP as (M2 & rg2 & stk2 & X2 & C2 & H2 & W2). exists M2, rg2, stk2. split; [|auto]. intros k. cbn [app exec]. rewrite xi_loop, X2. reflexivity.
    + destruct LP as (M2 & rg2 & X2 & C2 & IV2). exists M2, rg2. split; [|split; [exact C2|]]. { intros k. cbn [app exec]. rewrite xi_loop, X2. reflexivity. } eapply inv_up; [exact IV2|lia].
    + destruct LP as [F X2]. split; [exact F|]. intros k. cbn [app exec]. rewrite xi_loop, X2. reflexivity.
  - (* return *) intros e IHe EL c p EL' c' res gn N M b L G stk rg RT H T HN IV R1 R2. cbn [cstmt] in H; fold (cexpr genv) (cargs genv) (cstmt genv) in H. opene H (cexpr genv EL e c) p1 t1 c1 E1. destruct (ty_eqb t1 res) eqn:Et; [|discriminate]. apply ty_eqb_eq in Et. subst t1. injection H as <- <- <-.
    pose proof (grow_e _ _ _ _ _ _ E1) as [G1 T1]. pose proof IV as (_ & _ & HL & B0 & _).
    specialize (IHe _ _ _ _ _ gn N (resSlots res) M b L G stk rg E1 T ltac:(lia) IV). cbn [ex].
    destruct (ev (callV n) L e G) as [[v Ga]|er|]; cbn [bind]; [|destruct IHe as [F IHe]; split; [exact F|]; intros k; rewrite <- !app_assoc; apply IHe|exact I].
    destruct IHe as (M1 & rg1 & w1 & X1 & C1 & H1 & W1).
    assert (C1' : chg (Ps b (resSlots res) RT) M M1) by (eapply chgPs_e; [|exact C1]; lia).
    pose proof (rt_chg _ _ _ _ _ C1' R1) as R1'. pose proof (rslot_chg _ _ _ _ _ C1' B0 R1 R2) as R2'.
    unfold returnCode. destruct RT as [[rb ro]|].
    + destruct R1' as (Sr & Rb0 & RN & FR & LR). destruct R2' as [Rd Nb]. rewrite Sr.
      destruct (store_ok genv tab M1 rb RN ro res v w1 FR) as (M2 & S2 & C2 & A2); [destruct res; [discriminate|cbn; lia]|exact W1|].
      assert (Sz : size res = 3%nat) by (destruct res; [discriminate|reflexivity]). unfold arg in S2. rewrite Sr in S2. rewrite Sz in S2, C2.
      assert (Rd2 : read M2 b 0 = Ok (VPtr rb ro)). { eapply read_chg; [exact C2| |exact Rd]. unfold span. intros [? _]. congruence. }
      exists M2, (VPtr rb ro), stk. split; [|split; [|split]].
      * intros k. rewrite <- !app_assoc, X1. cbn [app]. rewrite x_local, (x_deref _ _ _ _ _ _ _ _ _ _ _ Rd). rewrite (x_assign _ _ _ true (Some 3%nat) _ M1 M2) by exact S2. rewrite x_local, (x_deref _ _ _ _ _ _ _ _ _ _ _ Rd2), x_popres. reflexivity.
      * eapply chg_trans; [exact C1'|]. eapply chg_mono; [|exact C2]. unfold Ps, Pr. intros; auto.
      * destruct IV as (_ & _ & _ & _ & _ & _ & WG & _). eapply holds_chg; [exact C2|exact WG| |exact H1]. unfold span. intros; lia.
      * split; [|reflexivity]. unfold CloRep.wrep. rewrite Sr. destruct A2 as (sl & A2 & A3). exists rb, ro, sl. auto.
    + cbn [rt] in R1'. rewrite R1'. exists M1, w1, stk. split; [|cbn [tgt]; auto]. intros k. rewrite <- !app_assoc, X1. cbn [app]. rewrite x_popres. reflexivity.
Qed.
End Level.

Lemma params_ok M b d post : nth_error M b = Some (Blk false d) -> forall ps vs asl pre p, reps M vs (map snd ps) asl -> d = pre ++ concat (rev asl) ++ p ++ post -> holds M b (paramEnv (length pre) ps) (combine (map fst ps) vs).
Proof.
  intros E ps. induction ps as [|[x t] ps IH]; intros [|v vs] [|sl asl] pre p R D; try contradiction; [constructor|]. destruct R as [R1 R2]. cbn [map fst snd] in *. destruct (reps_len _ _ _ _ R2) as [_ Ls].
  cbn [rev] in D. rewrite concat_app in D. cbn [concat] in D. rewrite app_nil_r in D. cbn [paramEnv combine]. constructor.
  - split; [reflexivity|]. cbn. exists sl. split; [|exact R1]. rewrite <- Ls, <- app_length, <- (rep_len _ _ _ _ _ _ R1). eapply reads_block; [exact E|]. rewrite D, <- !app_assoc. reflexivity.
  - apply (IH vs asl pre (sl ++ p) R2). rewrite D, <- !app_assoc. reflexivity.
Qed.
Lemma holds_rev M b E V : holds M b E V -> holds M b (rev E) (rev V).
Proof. induction 1 as [|e x E V H F IH]; [constructor|]. cbn. apply Forall2_app; [exact IH|]. constructor; [exact H|constructor]. Qed.
Lemma reads_setn M b B k n : b <> k -> forall o, reads (setn M b B) k o n = reads M k o n.
Proof. intros N. induction n as [|n IH]; intros o; [reflexivity|]. cbn [reads]. rewrite IH. unfold read. rewrite setn_other by exact N. reflexivity. Qed.
Lemma heaps_setn M b d B : nth_error M b = Some (Blk false d) -> heaps M (setn M b B).
Proof. intros E k K H1 H2. destruct (Nat.eq_dec b k) as [<-|N]; [rewrite E in H1; injection H1 as <-; discriminate|]. rewrite setn_other; auto. Qed.
Lemma holds_setn M b d B k E V : nth_error M b = Some (Blk false d) -> b <> k -> holds M k E V -> holds (setn M b B) k E V.
Proof.
  intros Hb N. induction 1 as [|e x E V [H1 (sl & H2 & H3)] F IH]; constructor; [|exact IH]. split; [exact H1|]. exists sl. rewrite reads_setn by exact N. split; [exact H2|]. eapply rep_heaps; [eapply heaps_setn; exact Hb|exact H3].
Qed.

Lemma call_all : forall n, call_ok n.
Proof.
  induction n as [|n IH]; intros caps ps body r fc u1 u2 M vs asl G rest rg f gn RT CL RS F0 WG HG RTok; destruct (reps_len _ _ _ _ RS) as [Lvs Lasl]; rewrite map_length in Lvs; cbn [callV callN]; rewrite (proj2 (Nat.eqb_eq _ _) Lvs).
  - split; [left; reflexivity|reflexivity].
  - destruct CL as (cts & t0 & [pb elb] & cb & Lc & Eb & -> & Tb & Hu). cbn [fst] in *. set (cs := combine (map fst caps) cts) in *.
    assert (Ec : map snd cs = cts) by (unfold cs; apply combine_snd; rewrite map_length; auto).
    pose proof (grow_s _ _ _ _ _ _ _ Eb) as [Gb _]. cbn [cnext] in Gb.
    assert (Lr : length (resl RT) = resSlots r). { unfold resl, resSlots. destruct RT as [[rb ro]|]; cbn in RTok; [destruct RTok as [-> _]|rewrite RTok]; reflexivity. }
    set (Dp := resl RT ++ concat (rev asl) ++ [u1; u2]).
    assert (LD : length Dp = paramSlots ps r). { unfold Dp, paramSlots, upSlot. rewrite !app_length, Lasl, Lr. cbn. lia. }
    assert (ES : resl RT ++ concat (rev asl) ++ u1 :: u2 :: rest = Dp ++ rest) by (unfold Dp; rewrite <- !app_assoc; reflexivity).
    cbn [mem stk reg CloModel.fr f_params f_locals f_code fnCode]. rewrite ES.
    assert (Ef : firstn (paramSlots ps r) (Dp ++ rest) = Dp). { rewrite <- LD, firstn_app, Nat.sub_diag, firstn_all. cbn. apply app_nil_r. }
    assert (Es : skipn (paramSlots ps r) (Dp ++ rest) = rest). { rewrite <- LD, skipn_app, Nat.sub_diag, skipn_all. reflexivity. }
    rewrite Ef, Es. clear Ef Es. set (b := length M). set (d := Dp ++ repeat (VZ 0) (cnext cb - paramSlots ps r)). set (M1 := M ++ [Blk false d]).
    assert (Pf : (paramSlots ps r <= fnStart cs ps r)%nat) by (unfold fnStart; lia).
    assert (E1 : nth_error M1 b = Some (Blk false d)). { unfold M1, b. rewrite nth_error_app2 by lia. rewrite Nat.sub_diag. reflexivity. }
    assert (F1 : frame M1 b (cnext cb)). { exists d. split; [exact E1|]. unfold d. rewrite app_length, repeat_length, LD. lia. }
    assert (Cs : forall P, chg P M M1) by (intros P; apply chg_snoc).
    pose proof (chg_heaps _ _ _ (Cs (fun _ _ => True))) as Hh.
    pose proof (frame_lt _ _ _ F0) as B0. assert (Bn : b <> 0%nat) by (unfold b; lia).
    assert (R2 : reads M1 b (upSlot ps r) 2 = Ok [u1; u2]).
    { change 2%nat with (length [u1; u2]). replace (upSlot ps r) with (length (resl RT ++ concat (rev asl))) by (rewrite app_length, Lr, Lasl; reflexivity).
      eapply reads_block; [exact E1|]. unfold d, Dp. rewrite <- !app_assoc. reflexivity. }
    destruct (prologue_ok genv tab (callN tab n) n caps cts ps r M1 b (cnext cb) u1 u2 Lc F1 Gb R2) as (M2 & XP & CP & HP).
    { destruct caps as [|x caps]; [exact I|]. destruct Hu as (Hu & h & dd & Eu & Hd & Hr). split; [exact Hu|]. exists h, dd. split; [exact Eu|]. split; [apply Hh; auto|eapply repl_heaps; eauto]. }
    fold cs in XP, HP.
    assert (HPm : holds M1 b (paramEnv (resSlots r) ps) (combine (map fst ps) vs)).
    { rewrite <- Lr. eapply (params_ok M1 b d (repeat (VZ 0) (cnext cb - paramSlots ps r)) E1 ps vs asl (resl RT) [u1; u2]); [eapply reps_heaps; eauto|]. unfold d, Dp. rewrite <- !app_assoc. reflexivity. }
    assert (IV : inv gn (cnext cb) (resSlots r) (fnStart cs ps r) (fnEnv cs ps r) M2 b (rev caps ++ rev (combine (map fst ps) vs)) G).
    { unfold CloVars.inv. split; [eapply frame_chg; eauto|]. split; [exact Gb|]. split; [unfold fnStart, paramSlots, upSlot; lia|]. split; [exact Bn|]. split; [eapply frame_chg; [exact CP|]; eapply frame_chg; [apply (Cs (fun _ _ => True))|exact F0]|].
      split; [apply fnEnv_wf|]. split; [exact WG|]. split.
      - unfold fnEnv. apply Forall2_app; apply holds_rev; [exact HP|]. eapply holds_chg; [exact CP|apply paramEnv_wf| |exact HPm]. unfold span, paramSlots, upSlot. intros; lia.
      - eapply holds_chg; [exact CP|exact WG| |]; [unfold span; intros; lia|]. eapply holds_chg; [apply (Cs (fun _ _ => False))|exact WG| |exact HG]. auto. }
    assert (RT2 : rt M2 r RT) by (eapply rt_chg; [exact CP|]; eapply rt_chg; [apply (Cs (fun _ _ => True))|exact RTok]).
    assert (RS2 : rslot M2 b RT).
    { destruct RT as [[rb ro]|]; [|exact I]. destruct RTok as (_ & _ & RN & FR & _). split; [|pose proof (frame_lt _ _ _ FR); unfold b; lia].
      eapply read_chg; [exact CP| |]. { unfold span. intros [_ ?]. unfold paramSlots in *. lia. } unfold read. rewrite E1. reflexivity. }
    pose proof (proj2 (proj2 (sim_all n IH)) body _ _ _ _ _ _ gn (cnext cb) M2 b _ G [] rg RT Eb Tb (le_n _) IV RT2 RS2) as Q.
    destruct (ex (callV n) n body (rev caps ++ rev (combine (map fst ps) vs)) G) as [[[L' G'] [v|]]|e|]; cbn [bind snd]; [|exact I| |exact I].
    + destruct Q as (M3 & rg3 & stk3 & X3 & C3 & H3 & W3 & TG). specialize (X3 []). rewrite app_nil_r in X3. rewrite XP, X3. cbn [bind mem reg].
      pose proof (frame_chg _ _ _ _ _ C3 (frame_chg _ _ _ _ _ CP F1)) as (d3 & E3 & _).
      exists (setn M3 b (Blk false [])), rg3. split; [reflexivity|]. split; [|split].
      * set (PP := fun k i => Ps b (resSlots r) RT k i \/ k = b).
        assert (CP' : chg PP M1 M2) by (eapply chg_mono; [|exact CP]; unfold PP, span; intros ? ? ? [-> _]; auto).
        assert (C3' : chg PP M2 M3) by (eapply chg_mono; [|exact C3]; unfold PP; auto).
        destruct (chg_trans _ _ _ _ (Cs PP) (chg_trans _ _ _ _ CP' C3')) as [CL CC].
        split; [rewrite setn_len; exact CL|]. intros k B K. assert (k <> b) by (assert (k < length M)%nat by (apply nth_error_Some; congruence); unfold b; lia).
        destruct (CC _ _ K) as (B' & K' & Y). exists B'. rewrite setn_other by auto. split; [exact K'|]. destruct Y as (Y1 & Y2 & Y3 & Y4). repeat (split; [assumption|]). intros o No. apply Y4. unfold PP, Ps, Pc in *. intros Z. apply No. intuition congruence.
      * eapply holds_setn; eauto.
      * unfold CloRep.wrep in *. destruct (structured r) eqn:Sr.
        -- destruct RT as [[rb ro]|]; [|cbn in RTok; congruence]. destruct W3 as (b3 & o3 & sl & Ew & R3 & Q3). cbn [tgt] in TG. rewrite TG in Ew. injection Ew as <- <-. exists rb, ro, sl. split; [exact TG|].
           destruct RTok as (_ & _ & RN & FR & _). pose proof (frame_lt _ _ _ FR). rewrite reads_setn by (unfold b; lia). split; [exact R3|]. eapply rep_heaps; [eapply heaps_setn; exact E3|exact Q3].
        -- eapply rep_heaps; [eapply heaps_setn; exact E3|exact W3].
    + destruct Q as [Fe X3]. split; [exact Fe|]. specialize (X3 []). rewrite app_nil_r in X3. rewrite XP, X3. reflexivity.
Qed.
End Sim.

(** The whole program. *)
Theorem program_ok gs b f tab n : compile gs b = Ok (f, tab) ->
  match meaning gs b n with
  | Ok (v, G) => exists z d, v = SInt z /\ runMain gs b n = Ok (VZ z, d) /\
      forall x p, find x (globalEnv 0 gs) = Some (p, TInt) -> exists y, find x G = Some (SInt y) /\ nth_error d (poff p) = Some (VZ y)
  | Err e => failure e /\ runMain gs b n = Err e
  | UB => True
  end.
Proof.
  intros H. unfold runMain. rewrite H. cbn [bind]. unfold compile in H. set (genv := globalEnv 0 gs) in *.
  destruct (cstmt genv TInt [] b (Cst (fnStart [] [] TInt) [])) as [[pb cb]| |] eqn:E; try discriminate. cbn [bind] in H. injection H as <- <-.
  assert (F0 : frame (mem (start gs)) 0 (sizes (map snd gs))). { exists (repeat (VZ 0) (sizes (map snd gs))). split; [reflexivity|apply repeat_length]. }
  assert (WG : wf false 0 (sizes (map snd gs)) genv) by (apply (globalEnv_wf gs 0)).
  assert (HG : holds genv (ctab cb) (mem (start gs)) 0 genv (map (fun g => (fst g, zero (snd g))) gs)).
  { unfold genv at 2. cbn [mem start].
    assert (Q : forall l pre, repeat (VZ 0) (sizes (map snd gs)) = repeat (VZ 0) pre ++ repeat (VZ 0) (sizes (map snd l)) ->
      holds genv (ctab cb) [Blk false (repeat (VZ 0) (sizes (map snd gs)))] 0 (globalEnv pre l) (map (fun g => (fst g, zero (snd g))) l)).
    { induction l as [|[x t] l IH]; intros pre D; [constructor|]. cbn [map snd fst globalEnv sizes fold_right] in *. fold (sizes (map snd l)) in D. rewrite repeat_app in D. constructor.
      - split; [reflexivity|]. cbn. exists (repeat (VZ 0) (size t)). split; [|apply rep_zero].
        pose proof (reads_block [Blk false (repeat (VZ 0) (sizes (map snd gs)))] 0 false _ eq_refl (repeat (VZ 0) pre) (repeat (VZ 0) (size t)) _ D) as Q. rewrite !repeat_length in Q. exact Q.
      - apply IH. rewrite D, repeat_app, <- app_assoc. reflexivity. }
    apply Q. reflexivity. }
  assert (CL : clo genv (ctab cb) (mem (start gs)) [] [] b TInt (fnCode [] [] TInt (fst pb) (cnext cb)) (VZ 0) (VZ 0)).
  { exists [], [], pb, cb. split; [reflexivity|]. split; [exact E|]. split; [reflexivity|]. split; [apply prefix_refl|exact I]. }
  pose proof (call_all genv (ctab cb) n [] [] b TInt _ (VZ 0) (VZ 0) (mem (start gs)) [] [] (map (fun g => (fst g, zero (snd g))) gs) [] (VZ 0) 0%nat (sizes (map snd gs)) None CL I F0 WG HG eq_refl) as Q.
  unfold meaning. cbn [resl rev concat app] in Q. change (St (mem (start gs)) [VZ 0; VZ 0] (VZ 0) 0) with (start gs) in Q.
  destruct (callV n (SClo [] [] b) [] (map (fun g => (fst g, zero (snd g))) gs)) as [[v G]|e|]; [| |exact I].
  - destruct Q as (M' & rg' & E' & C' & H' & W'). apply rep_int in W'. destruct W' as (z & -> & Ew). injection Ew as ->. rewrite E'. cbn [bind mem reg].
    pose proof (frame_chg _ _ _ _ _ C' F0) as (d & Ed & _). destruct M' as [|B M']; [discriminate|]. cbn in Ed. injection Ed as ->. exists z, d. split; [reflexivity|]. split; [reflexivity|].
    intros x p Ep. destruct (holds_find _ _ _ _ _ _ _ _ _ _ _ _ H' WG Ep) as (_ & _ & _ & v & Ev & sl & Rd & Rp). apply rep_int in Rp. destruct Rp as (y & -> & ->). exists y. split; [exact Ev|].
    cbn [size reads] in Rd. unfold read in Rd. cbn [nth_error bdata] in Rd. destruct (nth_error d (poff p)); [|discriminate]. cbn in Rd. injection Rd as ->. reflexivity.
  - destruct Q as [F Q]. split; [exact F|]. rewrite Q. reflexivity.
Qed.
