From Coq Require Import ZArith Lia Bool List ZifyBool.
From Verif Require Import Base NumModel CmpModel LayModel LaySpec.
Import ListNotations.
Local Open Scope Z_scope.
Ltac Zify.zify_post_hook ::= Z.div_mod_to_equations.

Definition al_ok (a : Z) : Prop := a = 1 \/ a = 2 \/ a = 4 \/ a = 8.
Lemma up_spec x a : 0 < a -> x <= up x a < x + a /\ up x a mod a = 0.
Proof.
  intro H. unfold up. rewrite Z.mod_mul by lia. split; [|reflexivity]. pose proof (Z.div_mod (x + a - 1) a ltac:(lia)). pose proof (Z.mod_pos_bound (x + a - 1) a H). lia.
Qed.
Lemma up_least x a z : 0 < a -> x <= z -> z mod a = 0 -> up x a <= z.
Proof. intros H Hz Hm. destruct (up_spec x a H) as [H1 H2]. apply Z.mod_divide in Hm as [q Hq]; [|lia]. apply Z.mod_divide in H2 as [r Hr]; [|lia]. assert (q < r \/ r <= q) as [C|C] by lia; [|nia]. assert (q * a <= r * a - a) by nia. lia. Qed.
Lemma calign_ok x a : 0 <= x <= two32 -> al_ok a -> calign x a = Ok (up x a).
Proof.
  intros H Ha. unfold calign. replace (a =? 0) with false by (unfold al_ok in Ha; lia). unfold chk64. replace (in_s64b (x + (a - 1))) with true by (unfold in_s64b, INT64_MIN, INT64_MAX, two63, two32, al_ok in *; lia).
  cbn [bind]. unfold up. rewrite Z.quot_div_nonneg by (unfold al_ok in Ha; lia). do 3 f_equal. lia.
Qed.
Lemma to_int_id z : INT_MIN <= z <= INT_MAX -> to_int z = z.
Proof. intro H. unfold to_int, s32, wraps, INT_MIN, INT_MAX, two31, two32 in *. lia. Qed.
Lemma to_int_over z : INT_MAX < z <= INT_MAX + 8 -> to_int z = z - two32.
Proof. intro H. unfold to_int, s32, wraps, INT_MIN, INT_MAX, two31, two32 in *. lia. Qed.
Lemma chk32_ok z : INT_MIN <= z <= INT_MAX -> chk32 z = Ok z.
Proof. intro H. unfold chk32. replace (_ && _) with true by lia. reflexivity. Qed.
Lemma chk32_inv z r : chk32 z = Ok r -> r = z /\ INT_MIN <= z <= INT_MAX.
Proof. unfold chk32. destruct ((INT_MIN <=? z) && (z <=? INT_MAX)) eqn:E; [|discriminate]. intro H. injection H as <-. split; [reflexivity|lia]. Qed.

(** * Types *)
Definition wf (t : type) : Prop := al_ok (t_align t) /\ 0 <= t_size t <= INT_MAX /\ t_size t mod t_align t = 0.
Inductive laid : list (Z * type) -> Z -> Prop :=
| laid_nil : laid [] 0
| laid_snoc fs en t : laid fs en -> wf t -> up en (t_align t) + t_size t <= INT_MAX -> laid (fs ++ [(up en (t_align t), t)]) (up en (t_align t) + t_size t).
Lemma laid_nn fs en : laid fs en -> 0 <= en <= INT_MAX.
Proof. induction 1 as [|fs en t H IH Hw Hle]; [unfold INT_MAX, two31; lia|]. destruct Hw as (Ha & Hs & _). pose proof (up_spec en (t_align t) ltac:(unfold al_ok in Ha; lia)). lia. Qed.
Lemma lastField_snoc fs f : lastField (fs ++ [f]) = Some f.
Proof. induction fs as [|x fs IH]; [reflexivity|]. cbn [app]. destruct (fs ++ [f]) eqn:E; [destruct fs; discriminate|]. exact IH. Qed.
Lemma laid_last fs en : laid fs en -> match lastField fs with None => en = 0 | Some (off, t) => en = off + t_size t end.
Proof. intro H. destruct H as [|fs en t H Hw Hle]; [reflexivity|]. rewrite lastField_snoc. reflexivity. Qed.
Definition good (st : type) (en : Z) : Prop :=
  laid (t_fields st) en /\ al_ok (t_align st) /\ Forall (fun f => t_align (snd f) <= t_align st) (t_fields st) /\ t_size st = to_int (up en (t_align st)).
Definition broken (st : type) : Prop := t_size st < 0 /\ exists off t, lastField (t_fields st) = Some (off, t) /\ off + t_size t < 0.
Lemma good_init k : match k with KStruct | KInterface | KClosure => True | _ => False end -> good (typeAdd k) 0.
Proof. intro H. destruct k; try contradiction; (split; [constructor|split; [left; reflexivity|split; [constructor|reflexivity]]]). Qed.
Lemma max_al a b : al_ok a -> al_ok b -> al_ok (if a <? b then b else a) /\ a <= (if a <? b then b else a) /\ b <= (if a <? b then b else a) /\ (if a <? b then b else a) = Z.max a b.
Proof. unfold al_ok. destruct (a <? b) eqn:E; lia. Qed.
Lemma add_good st en ft st' : good st en -> (0 <= t_size ft -> t_kind ft <> KVoid -> wf ft) -> typeAddField st ft = Ok st' ->
  wf ft /\ t_fields st' = t_fields st ++ [(to_int (up en (t_align ft)), ft)] /\ t_align st' = Z.max (t_align st) (t_align ft) /\ (good st' (up en (t_align ft) + t_size ft) \/ broken st').
Proof.
  intros (L & Ha & Hm & Hs) Hw H. unfold typeAddField in H. destruct (match t_kind ft with KForward | KVoid => true | _ => false end) eqn:EK; [discriminate|].
  pose proof (laid_last _ _ L) as HL. pose proof (laid_nn _ _ L) as Hen.
  destruct (match lastField (t_fields st) with None => Ok 0 | Some (off, t) => chk32 (off + t_size t) end) as [mn| |] eqn:E1; cbn [bind] in H; try discriminate.
  assert (mn = en) as ->. { destruct (lastField (t_fields st)) as [(off & t)|]; [apply chk32_inv in E1 as [-> _]; symmetry; exact HL|congruence]. }
  unfold typeSize in H. destruct (t_size ft <? 0) eqn:E2; cbn [bind] in H; [discriminate|]. rewrite chk32_ok in H by (clear -Hen; unfold INT_MIN, INT_MAX, two31 in *; lia). cbn [bind] in H.
  destruct (INT_MAX - en <? t_size ft) eqn:E3; [discriminate|]. assert (HW : wf ft) by (apply Hw; [lia|destruct (t_kind ft); discriminate]). pose proof HW as (Fa & Fs & Fm).
  unfold typeAlignment in H. destruct (t_align ft <=? 0) eqn:E4; [discriminate|]. cbn [bind] in H. rewrite calign_ok in H by (try exact Fa; unfold INT_MAX, two31, two32 in *; lia). cbn [bind] in H.
  destruct (max_al _ _ Ha Fa) as (M1 & M2 & M3 & M4). destruct (chk32 (to_int (up en (t_align ft)) + t_size ft)) as [e| |] eqn:E5; cbn [bind] in H; try discriminate. apply chk32_inv in E5 as [-> E5].
  destruct (up_spec en (t_align ft) ltac:(unfold al_ok in Fa; lia)) as [U1 U2].
  assert (Hb : up en (t_align ft) <= INT_MAX \/ (INT_MAX < up en (t_align ft) <= INT_MAX + 8 /\ t_size ft = 0)).
  { destruct (Z.eq_dec (t_size ft) 0) as [Z0|NZ]; [unfold al_ok in Fa; lia|]. left. assert (t_align ft <= t_size ft); [|lia]. apply Z.mod_divide in Fm as [q Hq]; [|unfold al_ok in Fa; lia]. assert (0 < t_align ft) by (unfold al_ok in Fa; lia). assert (0 < q) by (apply (Z.mul_pos_cancel_r q (t_align ft)); lia). clear -Hq H0 H1. nia. }
  destruct Hb as [Hb|[Hb Hz]].
  - rewrite to_int_id in * by (unfold INT_MIN, INT_MAX, two31 in *; lia). rewrite calign_ok in H by (try exact M1; unfold INT_MAX, two31, two32 in *; lia). cbn [bind] in H.
    injection H as <-. cbn [t_fields t_align]. split; [exact HW|]. split; [reflexivity|]. split; [exact M4|]. left. split; [apply laid_snoc; [exact L|exact HW|lia]|]. split; [exact M1|]. split; [|reflexivity]. apply Forall_app. split; [|repeat constructor; exact M3].
    eapply Forall_impl; [|exact Hm]. cbn. intros f Hf. lia.
  - destruct (calign _ _) as [sz| |] eqn:E6 in H; cbn [bind] in H; try discriminate. injection H as <-. cbn [t_fields t_align]. split; [exact HW|]. split; [reflexivity|]. split; [exact M4|]. right. split.
    + cbn [t_size]. rewrite to_int_over in E6 by exact Hb. rewrite Hz, Z.add_0_r in E6. unfold calign in E6. replace (_ =? 0) with false in E6 by (unfold al_ok in M1; lia). destruct (chk64 _) as [z| |] eqn:E7 in E6; cbn [bind] in E6; try discriminate.
      injection E6 as <-. unfold chk64 in E7. destruct (in_s64b _); [|discriminate]. injection E7 as <-. set (a := if t_align st <? t_align ft then _ else _) in *. assert (HA : 0 < a <= 8) by (unfold al_ok in M1; lia).
      assert (R : - two31 <= up en (t_align ft) - two32 <= - two31 + 8) by (unfold INT_MAX, two31, two32 in *; lia).
      assert (Q : - two31 <= Z.quot (up en (t_align ft) - two32 + (a - 1)) a * a < 0).
      { set (n := up en (t_align ft) - two32) in *. clearbody n. pose proof (Z.quot_rem (n + (a - 1)) a ltac:(lia)). assert (n + (a - 1) <= 0) by (unfold two31 in R; lia). assert (- a < Z.rem (n + (a - 1)) a <= 0) by (pose proof (Z.rem_bound_abs (n + (a-1)) a ltac:(lia)); pose proof (Z.rem_nonpos (n + (a-1)) a ltac:(lia) ltac:(lia)); lia).
        clearbody a. generalize dependent (Z.quot (n + (a - 1)) a). intros q Hq. generalize dependent (Z.rem (n + (a - 1)) a). intros r Hq Hr. clear -Hq Hr R HA. rewrite (Z.mul_comm q a). generalize dependent (a * q). intros w Hw. unfold two31 in *. lia. }
      rewrite to_int_id by (unfold INT_MIN, INT_MAX, two31 in *; lia). lia.
    + exists (to_int (up en (t_align ft))), ft. split; [apply lastField_snoc|]. rewrite to_int_over by exact Hb. unfold INT_MAX, two31, two32 in *. lia.
Qed.
Lemma add_broken st ft st' : broken st -> typeAddField st ft = Ok st' -> False.
Proof.
  intros (_ & off & t & HL & Hn) H. unfold typeAddField in H. destruct (match t_kind ft with KForward | KVoid => true | _ => false end); [discriminate|]. rewrite HL in H.
  destruct (chk32 (off + t_size t)) as [mn| |] eqn:E1; cbn [bind] in H; try discriminate. apply chk32_inv in E1 as [-> E1]. destruct (typeSize ft) as [s| |]; cbn [bind] in H; try discriminate.
  destruct (chk32 (INT_MAX - (off + t_size t))) as [r| |] eqn:E2; cbn [bind] in H; try discriminate. apply chk32_inv in E2 as [_ E2]. lia.
Qed.

Fixpoint goFields (st : type) (l : list texpr) : outcome type :=
  match l with [] => Ok st | t :: r => let* f := build t in let* st := typeAddField st f in goFields st r end.
Lemma build_fields l : build (EFields l) = goFields (typeAdd KStruct) l.
Proof. reflexivity. Qed.
Section Ind.
Variable P : texpr -> Prop.
Hypothesis H1 : forall k, P (EBase k).
Hypothesis H2 : forall n t, P t -> P (EArray n t).
Hypothesis H3 : forall l, Forall P l -> P (EFields l).
Fixpoint texpr_ind2 (e : texpr) : P e :=
  match e with
  | EBase k => H1 k
  | EArray n t => H2 n t (texpr_ind2 t)
  | EFields l => H3 l ((fix go l := match l return Forall P l with [] => Forall_nil P | t :: r => Forall_cons t (texpr_ind2 t) (go r) end) l)
  end.
End Ind.
Lemma goFields_ok l : Forall (fun e => forall t, build e = Ok t -> 0 <= t_size t -> wf t) l -> forall st en st', good st en -> goFields st l = Ok st' ->
  (exists en', good st' en') \/ broken st'.
Proof.
  induction 1 as [|e l He Hl IH]; intros st en st' G H; cbn [goFields] in H; [injection H as <-; left; eauto|]. destruct (build e) as [f| |] eqn:Ef; cbn [bind] in H; try discriminate.
  destruct (typeAddField st f) as [st1| |] eqn:E1; cbn [bind] in H; try discriminate. destruct (add_good _ _ _ _ G (fun Hs _ => He f eq_refl Hs) E1) as (_ & _ & _ & [G1|B]).
  - eapply IH; [exact G1|exact H].
  - destruct l as [|e2 l]; cbn [goFields] in H; [injection H as <-; right; exact B|]. destruct (build e2) as [f2| |]; cbn [bind] in H; try discriminate. destruct (typeAddField st1 f2) as [st2| |] eqn:E2; cbn [bind] in H; try discriminate. destruct (add_broken _ _ _ B E2).
Qed.
Lemma good_wf st en : good st en -> 0 <= t_size st -> wf st /\ t_size st = up en (t_align st) /\ up en (t_align st) <= INT_MAX.
Proof.
  intros (L & Ha & Hm & Hs) Hn. pose proof (laid_nn _ _ L) as Hen. destruct (up_spec en (t_align st) ltac:(unfold al_ok in Ha; lia)) as [U1 U2]. destruct (Z_le_gt_dec (up en (t_align st)) INT_MAX) as [Hle|Hgt].
  - rewrite to_int_id in Hs by (unfold INT_MIN, INT_MAX, two31 in *; lia). split; [|split; [exact Hs|exact Hle]]. split; [exact Ha|]. split; [lia|]. rewrite Hs. exact U2.
  - exfalso. rewrite to_int_over in Hs by (unfold al_ok in Ha; lia). unfold INT_MAX, two31, two32 in *. unfold al_ok in Ha. lia.
Qed.
Lemma build_wf : forall e t, build e = Ok t -> 0 <= t_size t -> wf t.
Proof.
  induction e as [k|n b IH|l IH] using texpr_ind2; intros t H Hn.
  - injection H as <-. destruct k; cbn in Hn; try lia; (split; [unfold al_ok; cbn; lia|split; [cbn; unfold INT_MAX, two31; lia|reflexivity]]).
  - cbn [build] in H. destruct (build b) as [bt| |]; cbn [bind] in H; try discriminate. unfold makeArray in H. destruct ((n <? 0) || (INT_MAX <? n)) eqn:E0; [discriminate|]. unfold typeSize in H. destruct (t_size bt <? 0) eqn:E1; cbn [bind] in H; [discriminate|].
    destruct (IH bt eq_refl ltac:(lia)) as (Ba & Bs & Bm). destruct ((0 <? n) && _); [discriminate|]. destruct (chk32 (n * t_size bt)) as [s| |] eqn:E2; cbn [bind] in H; try discriminate. apply chk32_inv in E2 as [-> E2]. injection H as <-.
    split; [exact Ba|]. cbn [t_size t_align] in *. split; [lia|]. rewrite <- Zmult_mod_idemp_r, Bm, Z.mul_0_r. apply Z.mod_0_l. unfold al_ok in Ba. lia.
  - rewrite build_fields in H. destruct (goFields_ok l IH _ _ _ (good_init KStruct I) H) as [(en & G)|(B & _)]; [|lia]. eapply good_wf; eassumption.
Qed.
(** Facts about laid-out fields. *)
Lemma laid_nth fs en : laid fs en -> forall i off t, nth_error fs i = Some (off, t) -> wf t /\ 0 <= off /\ off mod t_align t = 0 /\ off + t_size t <= en.
Proof.
  induction 1 as [|fs en t H IH Hw Hle]; intros i off f Hi; [destruct i; discriminate|]. destruct (up_spec en (t_align t) ltac:(destruct Hw as (Ha & _); unfold al_ok in Ha; lia)) as [U1 U2]. pose proof (laid_nn _ _ H) as Hen. pose proof Hw as (Ha & Hs & _).
  destruct (Nat.lt_ge_cases i (length fs)) as [Hl|Hg].
  - rewrite nth_error_app1 in Hi by exact Hl. destruct (IH _ _ _ Hi) as (Q1 & Q2 & Q3 & Q4). repeat (split; [assumption|]). lia.
  - rewrite nth_error_app2 in Hi by exact Hg. destruct (i - length fs)%nat; [|destruct n; discriminate]. injection Hi as <- <-. split; [exact Hw|]. split; [lia|]. split; [exact U2|lia].
Qed.
Lemma laid_order fs en : laid fs en -> forall i j o1 t1 o2 t2, (i < j)%nat -> nth_error fs i = Some (o1, t1) -> nth_error fs j = Some (o2, t2) -> o1 + t_size t1 <= o2.
Proof.
  induction 1 as [|fs en t H IH Hw Hle]; intros i j o1 t1 o2 t2 Hij Hi Hj; [destruct i; discriminate|]. assert (Hjl : (j < length (fs ++ [(up en (t_align t), t)]))%nat) by (apply nth_error_Some; congruence). rewrite app_length in Hjl. cbn in Hjl.
  rewrite nth_error_app1 in Hi by lia. destruct (Nat.lt_ge_cases j (length fs)) as [Hl|Hg].
  - rewrite nth_error_app1 in Hj by exact Hl. eapply (IH i j); eassumption.
  - rewrite nth_error_app2 in Hj by exact Hg. destruct (j - length fs)%nat; [|destruct n; discriminate]. injection Hj as <- <-. destruct (laid_nth _ _ H _ _ _ Hi) as (_ & _ & _ & Q). pose proof (up_spec en (t_align t) ltac:(destruct Hw as (Ha & _); unfold al_ok in Ha; lia)). lia.
Qed.
Lemma laid_tight fs en : laid fs en -> forall i o t, nth_error fs i = Some (o, t) ->
  match i with O => o = 0 | S k => forall o' t', nth_error fs k = Some (o', t') -> o < o' + t_size t' + t_align t end.
Proof.
  induction 1 as [|fs en t H IH Hw Hle]; intros i o f Hi; [destruct i; discriminate|]. destruct (up_spec en (t_align t) ltac:(destruct Hw as (Ha & _); unfold al_ok in Ha; lia)) as [U1 U2].
  destruct (Nat.lt_ge_cases i (length fs)) as [Hl|Hg].
  - rewrite nth_error_app1 in Hi by exact Hl. specialize (IH _ _ _ Hi). destruct i as [|k]; [exact IH|]. intros o' t' Hk. rewrite nth_error_app1 in Hk by lia. eapply IH; eassumption.
  - rewrite nth_error_app2 in Hi by exact Hg. destruct (i - length fs)%nat eqn:Ei; [|destruct n; discriminate]. injection Hi as <- <-. assert (i = length fs) by lia. subst i. destruct fs as [|x fs'] eqn:Efs.
    + inversion H; [|match goal with Y : _ ++ _ = [] |- _ => destruct (app_cons_not_nil _ _ _ (eq_sym Y)) end]. cbn [length]. unfold up. destruct Hw as ([-> |[-> |[-> | ->]]] & _); reflexivity.
    + cbn [length]. intros o' t' Hk. rewrite <- Efs in *. rewrite nth_error_app1 in Hk by (rewrite Efs; cbn; lia). pose proof (laid_last _ _ H) as HLst.
      assert (Hlast : lastField fs = Some (o', t')). { clear -Hk Efs. assert (length fs = S (length fs')) by (subst; reflexivity). clear Efs. revert fs' H Hk. induction fs as [|a fs IHf]; intros fs' Hl Hk; [destruct (length fs'); discriminate|]. destruct fs as [|b fs2].
        - cbn in Hl. assert (length fs' = 0%nat) by lia. rewrite H in Hk. cbn in *. exact Hk.
        - destruct fs' as [|z fs3]; [cbn in Hl; lia|]. cbn [length nth_error] in Hk. apply (IHf fs3); [cbn in *; lia|exact Hk]. }
      rewrite Hlast in HLst. lia.
Qed.
Lemma goFields_types l : forall st st', goFields st l = Ok st' -> exists new, t_fields st' = t_fields st ++ new /\ Forall2 (fun e f => build e = Ok (snd f)) l new.
Proof.
  induction l as [|e l IH]; intros st st' H; cbn [goFields] in H; [injection H as <-; exists []; rewrite app_nil_r; split; [reflexivity|constructor]|]. destruct (build e) as [f| |] eqn:Ef; cbn [bind] in H; try discriminate.
  destruct (typeAddField st f) as [st1| |] eqn:E1; cbn [bind] in H; try discriminate. destruct (IH _ _ H) as (new & E & F2). assert (exists o, t_fields st1 = t_fields st ++ [(o, f)]) as (o & Eo).
  { unfold typeAddField in E1. destruct (match t_kind f with KForward | KVoid => true | _ => false end); [discriminate|]. repeat (match type of E1 with (bind ?x _) = _ => destruct x; cbn [bind] in E1; try discriminate | (if ?c then _ else _) = _ => destruct c; try discriminate end).
    injection E1 as <-. cbn [t_fields]. eauto. }
  exists ((o, f) :: new). rewrite E, Eo, <- app_assoc. split; [reflexivity|]. constructor; assumption.
Qed.
Lemma fields_thm l st : build (EFields l) = Ok st -> 0 <= t_size st ->
  Forall2 (fun e f => build e = Ok (snd f)) l (t_fields st) /\
  (forall i off ft, nth_error (t_fields st) i = Some (off, ft) -> 0 <= off /\ 0 <= t_size ft /\ 0 < t_align ft /\ off mod t_align ft = 0 /\ t_size ft mod t_align ft = 0 /\ t_size st mod t_align ft = 0 /\ off + t_size ft <= t_size st) /\
  (forall i j o1 t1 o2 t2, (i < j)%nat -> nth_error (t_fields st) i = Some (o1, t1) -> nth_error (t_fields st) j = Some (o2, t2) -> o1 + t_size t1 <= o2) /\
  (forall i o t, nth_error (t_fields st) i = Some (o, t) -> match i with O => o = 0 | S k => forall o' t', nth_error (t_fields st) k = Some (o', t') -> o < o' + t_size t' + t_align t end) /\
  0 < t_align st /\ t_size st mod t_align st = 0.
Proof.
  intros H Hn. rewrite build_fields in H. destruct (goFields_types _ _ _ H) as (new & E & F2). cbn [t_fields typeAdd app] in E. subst new.
  destruct (goFields_ok l ltac:(apply Forall_forall; intros e _; apply build_wf) _ _ _ (good_init KStruct I) H) as [(en & G)|(B & _)]; [|lia].
  destruct (good_wf _ _ G Hn) as ((Wa & Ws & Wm) & Es & Hle). destruct G as (L & Ha & Hm & _). split; [exact F2|]. split.
  { intros i off ft Hi. destruct (laid_nth _ _ L _ _ _ Hi) as ((Fa & Fs & Fm) & Q1 & Q2 & Q3). pose proof (up_spec en (t_align st) ltac:(unfold al_ok in Wa; lia)). split; [exact Q1|]. split; [lia|]. split; [unfold al_ok in Fa; lia|]. split; [exact Q2|]. split; [exact Fm|]. split; [|lia].
    rewrite Forall_forall in Hm. specialize (Hm _ (nth_error_In _ _ Hi)). cbn [snd] in Hm. clear -Wa Wm Fa Hm. unfold al_ok in *.
    destruct Wa as [E1|[E1|[E1|E1]]], Fa as [E2|[E2|[E2|E2]]]; rewrite E1, E2 in *; lia. }
  split; [apply (laid_order _ _ L)|]. split; [apply (laid_tight _ _ L)|]. split; [unfold al_ok in Wa; lia|exact Wm].
Qed.

(** Agreement with the C layout. *)
Fixpoint c_go (en al : Z) (l : list texpr) : option (Z * Z) :=
  match l with
  | [] => cap_size (up en al, al)
  | t :: r => match c_layout t with Some (s, a) => if up en a + s <=? INT_MAX - 7 then c_go (up en a + s) (Z.max al a) r else None | None => None end
  end.
Lemma c_fields l : c_layout (EFields l) = c_go 0 1 l.
Proof. reflexivity. Qed.
Definition agrees (t : type) (s a : Z) : Prop := t_size t = s /\ t_align t = a /\ t_kind t <> KVoid /\ t_kind t <> KForward.
Lemma c_go_ok l : Forall (fun e => forall s a, c_layout e = Some (s, a) -> exists t, build e = Ok t /\ agrees t s a /\ 0 <= s /\ al_ok a /\ s <= INT_MAX - 7) l ->
  forall st en s a, good st en -> en <= INT_MAX - 7 -> t_kind st = KStruct -> c_go en (t_align st) l = Some (s, a) -> exists t, goFields st l = Ok t /\ agrees t s a /\ 0 <= s /\ al_ok a /\ s <= INT_MAX - 7.
Proof.
  induction 1 as [|e l He Hl IH]; intros st en s a G Hen HK H; cbn [c_go] in H.
  - exists st. pose proof G as (L & Ha & Hm & Hs). pose proof (laid_nn _ _ L). pose proof (up_spec en (t_align st) ltac:(unfold al_ok in Ha; lia)). unfold cap_size in H. cbn [fst] in H. destruct (up en (t_align st) <=? INT_MAX - 7) eqn:E; [|discriminate]. injection H as <- <-.
    rewrite to_int_id in Hs by (unfold INT_MIN, INT_MAX, two31 in *; lia). split; [reflexivity|]. split; [unfold agrees; rewrite HK; repeat split; [exact Hs|discriminate|discriminate]|]. split; [lia|]. split; [exact Ha|lia].
  - destruct (c_layout e) as [(s1 & a1)|] eqn:Ee; [|discriminate]. destruct (up en a1 + s1 <=? INT_MAX - 7) eqn:E1; [|discriminate]. destruct (He _ _ eq_refl) as (f & Hf & (A1 & A2 & A3 & A4) & P1 & P2 & P3). cbn [goFields]. rewrite Hf. cbn [bind].
    pose proof G as (L & Ha & Hm & Hs). pose proof (laid_nn _ _ L). pose proof (up_spec en a1 ltac:(unfold al_ok in P2; lia)). destruct (max_al (t_align st) a1 Ha P2) as (M1 & M2 & M3 & M4).
    assert (EA : exists st1, typeAddField st f = Ok st1 /\ t_kind st1 = KStruct /\ 0 <= t_size st1).
    { unfold typeAddField. replace (match t_kind f with KForward | KVoid => true | _ => false end) with false by (destruct (t_kind f); congruence). pose proof (laid_last _ _ L) as HL.
      replace (match lastField (t_fields st) with None => Ok 0 | Some (off, t) => chk32 (off + t_size t) end) with (@Ok Z en) by (destruct (lastField (t_fields st)) as [(off & t)|]; [rewrite <- HL, chk32_ok; [reflexivity|unfold INT_MIN, INT_MAX, two31 in *; lia]|congruence]).
      cbn [bind]. unfold typeSize. replace (t_size f <? 0) with false by lia. cbn [bind]. rewrite chk32_ok by (unfold INT_MIN, INT_MAX, two31 in *; lia). cbn [bind]. replace (INT_MAX - en <? t_size f) with false by lia. unfold typeAlignment. replace (t_align f <=? 0) with false by (unfold al_ok in P2; lia). cbn [bind].
      rewrite A2, calign_ok by (try exact P2; unfold INT_MAX, two31, two32 in *; lia). cbn [bind]. rewrite to_int_id by (unfold INT_MIN, INT_MAX, two31 in *; lia). rewrite A1, chk32_ok by (unfold INT_MIN, INT_MAX, two31 in *; lia). cbn [bind].
      rewrite calign_ok by (try exact M1; unfold INT_MAX, two31, two32 in *; lia). cbn [bind]. eexists. split; [reflexivity|]. cbn [t_kind t_size]. split; [exact HK|].
      pose proof (up_spec (up en a1 + s1) (if t_align st <? a1 then a1 else t_align st) ltac:(unfold al_ok in M1; lia)). rewrite to_int_id; [lia|]. unfold al_ok in M1. unfold INT_MIN, INT_MAX, two31 in *. lia. }
    destruct EA as (st1 & EA & K1 & N1). rewrite EA. cbn [bind]. destruct (add_good st en f st1 G) as (_ & _ & AL & [G1|[B _]]); [intros Hz _; eapply build_wf; eassumption|exact EA| |lia].
    rewrite A1, A2 in *. eapply IH; [exact G1|lia|exact K1|]. rewrite AL. exact H.
Qed.
Lemma c_layout_thm : forall e s a, c_layout e = Some (s, a) -> exists t, build e = Ok t /\ agrees t s a /\ 0 <= s /\ al_ok a /\ s <= INT_MAX - 7.
Proof.
  induction e as [k|n b IH|l IH] using texpr_ind2; intros s a H.
  - cbn [build]. exists (typeAdd k). split; [reflexivity|]. destruct k; try discriminate; injection H as <- <-; (split; [repeat split; discriminate|]; split; [lia|]; split; [unfold al_ok; lia|unfold INT_MAX, two31; lia]).
  - cbn [c_layout] in H. destruct (c_layout b) as [(s1 & a1)|]; [|discriminate]. destruct ((0 <=? n) && (n <=? INT_MAX)) eqn:E0; [|discriminate]. unfold cap_size in H. cbn [fst] in H. destruct (n * s1 <=? INT_MAX - 7) eqn:E1; [|discriminate]. injection H as <- <-.
    destruct (IH _ _ eq_refl) as (t & Ht & (A1 & A2 & A3 & A4) & P1 & P2 & P3). cbn [build]. rewrite Ht. cbn [bind]. unfold makeArray. replace ((n <? 0) || (INT_MAX <? n)) with false by lia. unfold typeSize. replace (t_size t <? 0) with false by lia. cbn [bind].
    assert (Hq : (0 <? n) && (INT_MAX / n <? t_size t) = false). { destruct (0 <? n) eqn:E; [|reflexivity]. cbn [andb]. apply Z.ltb_ge. apply Z.div_le_lower_bound; [lia|]. rewrite A1. lia. } rewrite Hq.
    rewrite A1, chk32_ok by (unfold INT_MIN, INT_MAX, two31 in *; nia). cbn [bind]. eexists. split; [reflexivity|]. split; [repeat split; [exact A2|discriminate|discriminate]|]. split; [nia|]. split; [exact P2|lia].
  - rewrite c_fields in H. rewrite build_fields. eapply c_go_ok; [exact IH|exact (good_init KStruct I)|unfold INT_MAX, two31; lia|reflexivity|exact H].
Qed.

(** * Parameters *)
Lemma slots_nn x : 0 <= x -> 0 <= slots x /\ x <= 8 * slots x < x + 8 /\ up x 8 = 8 * slots x.
Proof. intro H. unfold slots, up. replace (x + 8 - 1) with (x + 7) by lia. lia. Qed.
Lemma total_nn l : Forall (fun z => 0 <= z) l -> 0 <= total_slots l.
Proof. induction 1 as [|x l H Hl IH]; cbn [total_slots]; [lia|]. pose proof (slots_nn x H). lia. Qed.
Lemma total_app l r : total_slots (l ++ r) = total_slots l + total_slots r.
Proof. induction l as [|x l IH]; cbn [app total_slots]; lia. Qed.
Lemma total_firstn l n : Forall (fun z => 0 <= z) l -> 0 <= total_slots (firstn n l) <= total_slots l.
Proof.
  intro H. pose proof (total_app (firstn n l) (skipn n l)) as E. rewrite firstn_skipn in E. rewrite <- (firstn_skipn n l) in H. apply Forall_app in H as [H1 H2]. pose proof (total_nn _ H1). pose proof (total_nn _ H2). lia.
Qed.
Lemma sumSizes_ok : forall n l s, Forall (fun z => 0 <= z) l -> (n <= length l)%nat -> 0 <= s -> s + 8 * total_slots l <= INT_MAX -> sumSizes n l s = Ok (s + 8 * total_slots (firstn n l)).
Proof.
  induction n as [|n IH]; intros l s Hl Hn Hs Hb; [cbn; f_equal; lia|]. destruct l as [|x l]; [cbn in Hn; lia|]. inversion Hl as [|? ? Hx Hr]; subst. cbn [total_slots] in Hb. pose proof (slots_nn x Hx) as (P1 & P2 & P3). pose proof (total_nn _ Hr).
  cbn [sumSizes]. rewrite calign_ok by (try (unfold al_ok; lia); unfold INT_MAX, two31, two32 in *; lia). cbn [bind]. unfold chk64. replace (in_s64b _) with true by (unfold in_s64b, INT64_MIN, INT64_MAX, two63, INT_MAX, two31 in *; lia). cbn [bind].
  rewrite to_int_id by (unfold INT_MIN, INT_MAX, two31 in *; lia). rewrite IH by (try assumption; cbn in Hn; lia). cbn [firstn total_slots]. f_equal. lia.
Qed.
Lemma upTo_ok g i : fits (g_sizes g) -> (i < length (g_sizes g))%nat -> typeParamSizeUpTo g (Z.of_nat i) = Ok (8 * total_slots (firstn (S i) (g_sizes g))).
Proof. intros (F1 & F2) Hi. unfold typeParamSizeUpTo. replace (Z.to_nat (Z.of_nat i + 1)) with (S i) by lia. rewrite sumSizes_ok; [f_equal; lia|exact F1|lia|lia|lia]. Qed.
Lemma total_ok g : fits (g_sizes g) -> typeParamSizeTotal g = Ok (8 * total_slots (g_sizes g)).
Proof. intros (F1 & F2). unfold typeParamSizeTotal, typeParamSizeUpTo, numParams. replace (Z.to_nat _) with (length (g_sizes g)) by lia. rewrite sumSizes_ok; [rewrite firstn_all; f_equal; lia|exact F1|lia|lia|lia]. Qed.
Definition slot_of (l : list Z) (i : nat) : Z := total_slots l - total_slots (firstn (S i) l).
Lemma slot_of_bounds l i x : Forall (fun z => 0 <= z) l -> nth_error l i = Some x -> 0 <= slot_of l i /\ slot_of l i + slots x <= total_slots l /\ slot_of l i + slots x = total_slots l - total_slots (firstn i l).
Proof.
  intros H Hi. unfold slot_of. pose proof (total_firstn l (S i) H). pose proof (total_firstn l i H). assert (total_slots (firstn (S i) l) = total_slots (firstn i l) + slots x); [|lia].
  clear -Hi. revert l Hi. induction i as [|i IH]; intros [|y l] Hi; try discriminate; [injection Hi as ->; cbn; lia|]. cbn [nth_error] in Hi. specialize (IH _ Hi). cbn [firstn total_slots] in *. lia.
Qed.
Lemma offset_ok g i : fits (g_sizes g) -> (i < length (g_sizes g))%nat -> typeParamOffset g (Z.of_nat i) = Ok (8 * slot_of (g_sizes g) i + 16).
Proof.
  intros F Hi. unfold typeParamOffset. rewrite upTo_ok by assumption. cbn [bind]. rewrite total_ok by exact F. cbn [bind]. destruct F as (F1 & F2). pose proof (total_firstn (g_sizes g) (S i) F1). unfold slot_of.
  rewrite chk32_ok by (unfold INT_MIN, INT_MAX, two31 in *; lia). cbn [bind]. unfold u64, wrapu, two64. rewrite (Z.mod_small (8 * _ - _)) by (unfold INT_MIN, INT_MAX, two31 in *; lia). rewrite Z.mod_small by (unfold INT_MIN, INT_MAX, two31 in *; lia).
  rewrite to_int_id by (unfold INT_MIN, INT_MAX, two31 in *; lia). f_equal. lia.
Qed.
Lemma mapO_indices {B} (f : Z -> outcome B) (h : nat -> B) : forall n i, (forall k, (i <= k < i + n)%nat -> f (Z.of_nat k) = Ok (h k)) -> mapO f (indices n (Z.of_nat i)) = Ok (map h (seq i n)).
Proof.
  induction n as [|n IH]; intros i H; [reflexivity|]. cbn [indices mapO seq map]. rewrite H by lia. cbn [bind]. replace (Z.of_nat i + 1) with (Z.of_nat (S i)) by lia. rewrite IH by (intros k Hk; apply H; lia). reflexivity.
Qed.
Lemma layout_ok g lv : fits (g_sizes g) -> typeMakeStackFrameLayout g lv = Ok (MkLayout (numParams g) (if g_structured g then 1 else 0) (total_slots (g_sizes g)) (map (slot_of (g_sizes g)) (seq 0 (length (g_sizes g)))) lv).
Proof.
  intro F. unfold typeMakeStackFrameLayout. rewrite total_ok by exact F. cbn [bind]. change 0 with (Z.of_nat 0). rewrite (mapO_indices _ (slot_of (g_sizes g))).
  - cbn [bind]. destruct F as (F1 & F2). pose proof (total_nn _ F1). do 2 f_equal. unfold u64, wrapu, two64. rewrite Z.mod_small by (unfold INT_MAX, two31 in *; lia). lia.
  - intros k Hk. rewrite offset_ok by (assumption || lia). cbn [bind]. destruct F as (F1 & F2). pose proof (total_firstn (g_sizes g) (S k) F1). f_equal. unfold slot_of. unfold u64, s64, wrapu, wraps, two64, INT_MAX, two31 in *. set (v := total_slots (g_sizes g) - _).
    assert (0 <= v <= 2 ^ 28) by lia. rewrite (Z.mod_small (8 * v + 16)) by lia. replace ((8 * v + 16) / 8 - 2) with v by lia. rewrite (Z.mod_small v) by lia. lia.
Qed.
Lemma push_ok : forall sizes top, Forall (fun z => 0 <= z) sizes -> 8 * total_slots sizes <= INT_MAX -> pushParams top sizes = Ok (map (fun i => top - total_slots (firstn (S i) sizes)) (seq 0 (length sizes)), top - total_slots sizes).
Proof.
  induction sizes as [|x l IH]; intros top H Hb; [cbn; do 2 f_equal; lia|]. inversion H as [|? ? Hx Hr]; subst. pose proof (slots_nn x Hx) as (P1 & P2 & P3). pose proof (total_nn _ Hr). cbn [total_slots] in Hb. cbn [pushParams].
  rewrite calign_ok by (try (unfold al_ok; lia); unfold INT_MAX, two31, two32 in *; lia). cbn [bind]. rewrite P3. replace (Z.quot (8 * slots x) 8) with (slots x) by (rewrite Z.quot_div_nonneg by lia; lia).
  replace (if slots x =? 1 then top - 1 else top - 1 - (slots x - 1)) with (top - slots x) by (destruct (slots x =? 1) eqn:E; lia). rewrite IH by (assumption || lia). cbn [bind length seq map firstn total_slots]. do 2 f_equal; [|lia]. f_equal; [lia|].
  rewrite <- seq_shift, map_map. apply map_ext. intro i. cbn [firstn total_slots]. lia.
Qed.
Lemma nth_map_seq {B} (h : nat -> B) n i : (i < n)%nat -> nth_error (map h (seq 0 n)) i = Some (h i).
Proof. intro H. rewrite nth_error_map. assert (E : nth_error (seq 0 n) i = Some i); [|rewrite E; reflexivity]. rewrite (nth_error_nth' (seq 0 n) 0%nat) by (rewrite seq_length; exact H). rewrite seq_nth by exact H. reflexivity. Qed.

Lemma params_thm g lv top : fits (g_sizes g) -> exists y addrs t,
  typeMakeStackFrameLayout g lv = Ok y /\ pushParams top (g_sizes g) = Ok (addrs, t) /\ length addrs = length (g_sizes g) /\ t = top - total_slots (g_sizes g) /\
  (forall i a s, nth_error addrs i = Some a -> nth_error (g_sizes g) i = Some s ->
     nth_error (y_first y) i = Some (a - stackGetFrameParams (frameBase t)) /\
     typeParamOffset g (Z.of_nat i) = Ok (8 * (a - frameBase t)) /\
     t <= a /\ 8 * a + s <= 8 * top) /\
  (forall i j a b s, (i < j)%nat -> nth_error addrs i = Some a -> nth_error addrs j = Some b -> nth_error (g_sizes g) j = Some s -> 8 * b + s <= 8 * a) /\
  indirectEntrySlot g t = Ok top /\ topAfterReturn y (t - 1) = top.
Proof.
  intro F. pose proof F as (F1 & F2). rewrite layout_ok by exact F. rewrite push_ok by (try exact F1; lia). do 3 eexists. split; [reflexivity|]. split; [reflexivity|]. rewrite map_length, seq_length. split; [reflexivity|]. split; [reflexivity|].
  cbn [y_first y_numParamSlots]. split; [|split; [|split]].
  - intros i a s Ha Hs. assert (Hi : (i < length (g_sizes g))%nat) by (apply nth_error_Some; congruence). rewrite nth_map_seq in Ha by exact Hi. assert (Ea : a = top - total_slots (firstn (S i) (g_sizes g))) by congruence. subst a. clear Ha. rewrite nth_map_seq by exact Hi. rewrite offset_ok by assumption.
    destruct (slot_of_bounds _ _ _ F1 Hs) as (B1 & B2 & B3). pose proof (total_firstn (g_sizes g) i F1). rewrite Forall_forall in F1. pose proof (slots_nn s (F1 _ (nth_error_In _ _ Hs))) as (P1 & P2 & _). unfold slot_of, stackGetFrameParams, frameBase in *. split; [apply f_equal; lia|]. split; [apply f_equal; lia|]. clear -B1 B2 B3 P1 P2 H. split; lia.
  - intros i j a b s Hij Ha Hb Hs. assert (Hj : (j < length (g_sizes g))%nat) by (apply nth_error_Some; congruence). rewrite nth_map_seq in Ha by lia. rewrite nth_map_seq in Hb by lia. assert (Ea : a = top - total_slots (firstn (S i) (g_sizes g))) by congruence. assert (Eb : b = top - total_slots (firstn (S j) (g_sizes g))) by congruence. subst a b. clear Ha Hb. destruct (slot_of_bounds _ _ _ F1 Hs) as (B1 & B2 & B3). unfold slot_of in *.
    pose proof (total_firstn (firstn j (g_sizes g)) (S i)) as TT. rewrite firstn_firstn in TT. replace (Nat.min (S i) j) with (S i) in TT by lia. assert (Fj : Forall (fun z => 0 <= z) (firstn j (g_sizes g))) by (rewrite <- (firstn_skipn j (g_sizes g)) in F1; apply Forall_app in F1 as [F1 _]; exact F1).
    specialize (TT Fj). rewrite Forall_forall in F1. pose proof (slots_nn s (F1 _ (nth_error_In _ _ Hs))) as (P1 & P2 & _). lia.
  - unfold indirectEntrySlot. rewrite total_ok by exact F. cbn [bind]. f_equal. pose proof (total_nn _ F1). rewrite Z.quot_div_nonneg by lia. lia.
  - unfold topAfterReturn. cbn [y_numParamSlots]. lia.
Qed.
(** The C API. *)
Lemma api_thm g lv top y addrs t : fits (g_sizes g) -> typeMakeStackFrameLayout g lv = Ok y -> pushParams top (g_sizes g) = Ok (addrs, t) ->
  (1 + (if g_structured g then 1 else 0) <= length (g_sizes g))%nat ->
  let params := stackGetFrameParams (frameBase t) in
  let nargs := Z.of_nat (length (g_sizes g)) - 1 - (if g_structured g then 1 else 0) in
  (forall index, umkaGetParam y params index = Ok (if (0 <=? index) && (index <? nargs) then nth_error addrs (S (Z.to_nat index)) else None)) /\
  (forall index, 0 <= index < nargs -> nth_error addrs (S (Z.to_nat index)) <> None) /\
  (exists a, nth_error addrs 0 = Some a /\ umkaGetUpvalue y params = Ok a) /\
  umkaGetResult y params = Ok (if g_structured g then nth_error addrs (length (g_sizes g) - 1) else None) /\
  (g_structured g = true -> nth_error addrs (length (g_sizes g) - 1) <> None).
Proof.
  intros F HY HP Hlen params nargs. pose proof F as (F1 & F2). rewrite layout_ok in HY by exact F. injection HY as <-. rewrite push_ok in HP by (try exact F1; lia). injection HP as <- <-.
  set (n := length (g_sizes g)) in *. assert (R : forall i, (i < n)%nat -> params + slot_of (g_sizes g) i = top - total_slots (firstn (S i) (g_sizes g))). { intros i Hi. subst params. unfold stackGetFrameParams, frameBase, slot_of. lia. }
  assert (NTH : forall i, (i < n)%nat -> nth_z (map (slot_of (g_sizes g)) (seq 0 n)) (Z.of_nat i) = Ok (slot_of (g_sizes g) i)). { intros i Hi. unfold nth_z. replace (Z.of_nat i <? 0) with false by lia. rewrite Nat2Z.id, nth_map_seq by exact Hi. reflexivity. }
  split; [|split; [|split; [|split]]].
  - intro index. unfold umkaGetParam. cbn [y_numParams y_numResultParams y_first]. unfold numParams. fold n. subst nargs. destruct ((0 <=? index) && _) eqn:E.
    + replace ((index <? 0) || _) with false by (destruct (g_structured g); lia). replace (index + 1) with (Z.of_nat (S (Z.to_nat index))) by lia. rewrite NTH by (destruct (g_structured g); lia). cbn [bind]. rewrite nth_map_seq by (destruct (g_structured g); lia). rewrite R by (destruct (g_structured g); lia). reflexivity.
    + replace ((index <? 0) || _) with true by (destruct (g_structured g); lia). reflexivity.
  - intros index Hi. rewrite nth_map_seq by (subst nargs; destruct (g_structured g); lia). discriminate.
  - exists (top - total_slots (firstn 1 (g_sizes g))). rewrite nth_map_seq by (destruct (g_structured g); lia). split; [reflexivity|]. unfold umkaGetUpvalue. cbn [y_first]. change 0 with (Z.of_nat 0). rewrite NTH by (destruct (g_structured g); lia). cbn [bind]. f_equal. apply R. destruct (g_structured g); lia.
  - unfold umkaGetResult. cbn [y_numResultParams y_numParams y_first]. unfold numParams. fold n. destruct (g_structured g); [|reflexivity]. cbn [Z.eqb Pos.eqb]. replace (Z.of_nat n - 1) with (Z.of_nat (n - 1)) by lia. rewrite NTH by lia. cbn [bind]. rewrite nth_map_seq by lia. rewrite R by lia. reflexivity.
  - intros _. rewrite nth_map_seq by lia. discriminate.
Qed.

(** * Local variables *)
Definition okvar (next : nat) (v : var) : Prop := (v_fn v < next)%nat /\ 0 < v_align v /\ v_off v mod v_align v = 0 /\ 0 <= v_size v /\ v_off v + v_size v <= -16.
Fixpoint apart (l : list var) : Prop := match l with [] => True | v :: r => Forall (fun w => v_fn w = v_fn v -> v_off v + v_size v <= v_off w) r /\ apart r end.
Definition pairok (vars : list var) (next : nat) (k : blk) (g : option nat) : Prop :=
  match g with None => k_fn k = false | Some n => k_fn k = true /\ (n < next)%nat /\ k_local k = frame_bytes (vars_of n vars) /\ Forall (fun v => v_fn v = n -> -16 - k_local k <= v_off v) vars end.
Definition stok (k : blk) (g : option nat) : Prop := match g with None => k_fn k = false | Some _ => k_fn k = true end.
Definition fns (g : tags) : list nat := flat_map (fun x => match x with Some n => [n] | None => [] end) g.
Definition Inv (b : blocks) (s : trace) : Prop :=
  Forall2 (pairok (tr_vars s) (tr_next s)) (live b) (tr_live s) /\ Forall2 stok (stale b) (tr_stale s) /\ NoDup (fns (tr_live s)) /\ Forall (okvar (tr_next s)) (tr_vars s) /\ apart (tr_vars s) /\ small s.
Lemma frame_nn n l next : Forall (okvar next) l -> 0 <= frame_bytes (vars_of n l).
Proof.
  induction 1 as [|v l Hv Hl IH]; [cbn; lia|]. unfold vars_of in *. cbn [filter]. destruct (Nat.eqb (v_fn v) n); [|exact IH]. cbn [frame_bytes]. destruct Hv as (_ & Ha & _ & Hs & _). pose proof (up_spec (frame_bytes (filter (fun v => Nat.eqb (v_fn v) n) l) + v_size v) (v_align v) Ha). lia.
Qed.
Lemma fns_bound vars next ks gs : Forall2 (pairok vars next) ks gs -> Forall (fun n => (n < next)%nat) (fns gs).
Proof. induction 1 as [|k g ks gs H HF IH]; [constructor|]. destruct g as [n|]; cbn; [constructor; [apply H|exact IH]|exact IH]. Qed.
Lemma okvar_mono a b v : (a <= b)%nat -> okvar a v -> okvar b v.
Proof. intros H (H1 & H2). split; [lia|exact H2]. Qed.
Lemma pairok_mono vars a b k g : (a <= b)%nat -> pairok vars a k g -> pairok vars b k g.
Proof. intros H. destruct g as [n|]; [|exact (fun x => x)]. intros (H1 & H2 & H3). split; [exact H1|]. split; [lia|exact H3]. Qed.
Lemma pairok_stok vars next k g : pairok vars next k g -> stok k g.
Proof. destruct g; cbn; [intros (H & _); exact H|exact (fun x => x)]. Qed.
Lemma vars_of_fresh n l next : Forall (okvar next) l -> (next <= n)%nat -> vars_of n l = [].
Proof. induction 1 as [|v l Hv Hl IH]; intro H; [reflexivity|]. unfold vars_of in *. cbn [filter]. destruct Hv as (Hv & _). replace (Nat.eqb (v_fn v) n) with false by (symmetry; apply Nat.eqb_neq; lia). apply IH, H. Qed.
Lemma alloc_ok t : wf t -> forall ks gs vars next, Forall2 (pairok vars next) ks gs -> NoDup (fns gs) -> Forall (okvar next) vars ->
  forall ks' off, allocIn ks t = Ok (ks', off) -> exists n, current_fn gs = Some n /\
    (frame_bytes (vars_of n (MkVar n off (t_size t) (t_align t) :: vars)) <= two31 - 16 ->
      Forall2 (pairok (MkVar n off (t_size t) (t_align t) :: vars) next) ks' gs /\ okvar next (MkVar n off (t_size t) (t_align t)) /\
      Forall (fun w => v_fn w = n -> off + t_size t <= v_off w) vars).
Proof.
  intros (Wa & Ws & Wm). induction ks as [|(fn & local) ks IH]; intros gs vars next HF ND HV ks' off H; [discriminate|]. inversion HF as [|? g ? gs' HP HF']; subst. cbn [allocIn] in H.
  destruct ks as [|k2 ks2]; [discriminate|]. destruct fn.
  - destruct g as [n|]; [|discriminate HP]. destruct HP as (_ & Hn & Hl & HB). cbn [k_local] in *. exists n. split; [reflexivity|]. unfold typeSize in H. replace (t_size t <? 0) with false in H by lia. cbn [bind] in H.
    pose proof (frame_nn n vars next HV) as Hnn. rewrite <- Hl in Hnn. destruct (chk32 (INT_MAX - local)) as [room| |] eqn:E1; cbn [bind] in H; try discriminate. apply chk32_inv in E1 as [-> E1]. destruct (INT_MAX - local <? t_size t) eqn:E2; [discriminate|].
    unfold typeAlignment in H. replace (t_align t <=? 0) with false in H by (unfold al_ok in Wa; lia). cbn [bind] in H. rewrite chk32_ok in H by (unfold INT_MIN, INT_MAX, two31 in *; lia). cbn [bind] in H. rewrite calign_ok in H by (try exact Wa; unfold INT_MAX, two31, two32 in *; lia). cbn [bind] in H.
    intro Hsm. unfold vars_of in Hsm. cbn [filter v_fn] in Hsm. rewrite Nat.eqb_refl in Hsm. cbn [frame_bytes v_size v_align] in Hsm. fold (vars_of n vars) in Hsm. rewrite <- Hl in Hsm.
    destruct (up_spec (local + t_size t) (t_align t) ltac:(unfold al_ok in Wa; lia)) as [U1 U2]. set (u := up (local + t_size t) (t_align t)) in *. rewrite to_int_id in H by (unfold INT_MIN, INT_MAX, two31 in *; lia).
    assert (Eo : to_int (u64 (-16 - u)) = -16 - u). { unfold to_int, s32, wraps, u64, wrapu, two64, two32, two31 in *. clearbody u. clear -Hsm U1 Hnn Ws. lia. } rewrite Eo in H. assert (E' : ks' = MkBlk true u :: k2 :: ks2 /\ off = -16 - u) by (split; congruence). destruct E' as [-> ->]. clear H.
    assert (Hsh : v_fn (MkVar n (-16 - u) (t_size t) (t_align t)) = n) by reflexivity. split; [|split].
    + constructor.
      * split; [reflexivity|]. split; [exact Hn|]. cbn [k_local]. split; [unfold vars_of; cbn [filter v_fn]; rewrite Nat.eqb_refl; cbn [frame_bytes v_size v_align]; fold (vars_of n vars); rewrite <- Hl; reflexivity|]. constructor; [cbn; lia|]. eapply Forall_impl; [|exact HB]. cbv beta. intros w Hw Hfn. specialize (Hw Hfn). lia.
      * assert (Hni : ~ In n (fns gs')) by (cbn in ND; apply NoDup_cons_iff in ND as [N1 _]; exact N1). clear -HF' Hni. induction HF' as [|k g ks gs HP HF IHF]; [constructor|]. constructor; [|apply IHF; cbn in Hni; rewrite in_app_iff in Hni; tauto].
        destruct g as [m|]; [|exact HP]. destruct HP as (P1 & P2 & P3 & P4). assert (n <> m) by (intros ->; apply Hni; left; reflexivity). split; [exact P1|]. split; [exact P2|]. split; [unfold vars_of; cbn [filter v_fn]; replace (Nat.eqb n m) with false by (symmetry; apply Nat.eqb_neq; assumption); exact P3|]. constructor; [cbn; congruence|exact P4].
    + split; [exact Hn|]. cbn [v_align v_off v_size]. split; [unfold al_ok in Wa; lia|]. split; [|clearbody u; clear -U1 Hnn Ws; split; lia]. clearbody u. clear -Wa U2. unfold al_ok in Wa. destruct Wa as [E|[E|[E|E]]]; rewrite E in *; lia.
    + eapply Forall_impl; [|exact HB]. cbv beta. intros w Hw Hfn. specialize (Hw Hfn). lia.
  - destruct g as [n|]; [destruct HP as (HP & _); discriminate HP|]. destruct (allocIn (k2 :: ks2) t) as [(r & o)| |] eqn:E1; cbn [bind] in H; try discriminate. injection H as <- <-. destruct (IH gs' vars next HF' ND HV _ _ eq_refl) as (n & C & R). exists n. split; [exact C|].
    intro Hsm. destruct (R Hsm) as (R1 & R2 & R3). split; [|split; assumption]. constructor; [exact HP|exact R1].
Qed.
Lemma Forall2_imp {A B} (P Q : A -> B -> Prop) l r : (forall x y, P x y -> Q x y) -> Forall2 P l r -> Forall2 Q l r.
Proof. intros H. induction 1; constructor; auto. Qed.
Lemma inv_thm b s : bhistory b s -> Inv b s.
Proof.
  induction 1 as [|b s o b' x HB (I1 & I2 & I3 & I4 & I5 & I6) HL HS HSm].
  - split; [repeat constructor|]. split; [constructor|]. split; [constructor|]. split; [constructor|]. split; [exact I|]. intro n. cbn. unfold two31. lia.
  - destruct o as [fn| | |t]; cbn [bstep] in HS.
    + unfold blocksEnterFn in HS. destruct (MAX_BLOCK_NESTING <=? _); [discriminate|]. cbn [bind] in HS. injection HS as <- <-.
      assert (S2 : Forall2 stok (tl (stale b)) (tl (tr_stale s))) by (destruct I2; [constructor|assumption]). destruct fn; cbn [trace_step].
      * split; [|split; [exact S2|split; [|split; [|split; [exact I5|exact HSm]]]]]; cbn [tr_live tr_vars tr_next live].
        -- constructor; [|eapply Forall2_imp; [|exact I1]; intros k g; apply pairok_mono; lia]. split; [reflexivity|]. split; [lia|]. rewrite (vars_of_fresh _ _ _ I4 (Nat.le_refl _)). split; [reflexivity|]. eapply Forall_impl; [|exact I4]. intros v (Hv & _) E. lia.
        -- cbn. constructor; [|exact I3]. intro Hin. pose proof (fns_bound _ _ _ _ I1) as FB. rewrite Forall_forall in FB. specialize (FB _ Hin). lia.
        -- eapply Forall_impl; [|exact I4]. intro v. apply okvar_mono. lia.
      * split; [|split; [exact S2|split; [exact I3|split; [exact I4|split; [exact I5|exact HSm]]]]]. cbn. constructor; [reflexivity|exact I1].
    + unfold blocksLeave in HS. destruct (live b) as [|k1 [|k2 ks]] eqn:El; try discriminate. cbn [bind] in HS. injection HS as <- <-. inversion I1 as [|? g ? gs HP HF E1 E2]. cbn [trace_step] in *. rewrite <- E2 in *.
      split; [exact HF|]. split; [constructor; [eapply pairok_stok; exact HP|exact I2]|]. split; [cbn; cbn in I3; destruct g; [apply NoDup_cons_iff in I3 as [_ I3]|]; exact I3|]. split; [exact I4|]. split; [exact I5|exact HSm].
    + unfold blocksReenter in HS. destruct (stale b) as [|k1 ks] eqn:El; [discriminate|]. cbn [bind] in HS. injection HS as <- <-. inversion I2 as [|? g ? gs HP HF E1 E2]. cbn [blegal trace_step] in *. rewrite <- E2 in *. destruct g; [contradiction|].
      split; [constructor; [exact HP|exact I1]|]. split; [exact HF|]. split; [exact I3|]. split; [exact I4|]. split; [exact I5|exact HSm].
    + unfold identAllocStack in HS. destruct (allocIn (live b) t) as [(l & off)| |] eqn:EA; cbn [bind] in HS; try discriminate. injection HS as <- <-. destruct HL as (e & He).
      assert (Hsz : 0 <= t_size t). { clear -EA. revert l off EA. induction (live b) as [|(fn & lo) ks IH]; intros l off EA; [discriminate|]. cbn [allocIn] in EA. destruct ks as [|k2 ks]; [discriminate|]. destruct fn.
        - unfold typeSize in EA. destruct (t_size t <? 0) eqn:E; [discriminate|lia].
        - destruct (allocIn (k2 :: ks) t) as [(r & o)| |]; try discriminate. eapply IH; reflexivity. }
      pose proof (build_wf _ _ He Hsz) as HW. destruct (alloc_ok t HW _ _ _ _ I1 I3 I4 _ _ EA) as (n & C & R). cbn [trace_step] in *. rewrite C in *. specialize (HSm n) as Hn. cbn [tr_vars] in Hn. destruct (R Hn) as (R1 & R2 & R3).
      split; [exact R1|]. split; [exact I2|]. split; [exact I3|]. split; [constructor; [exact R2|exact I4]|]. split; [split; [exact R3|exact I5]|exact HSm].
Qed.
Lemma apart_nth l : apart l -> forall i j v w, (i < j)%nat -> nth_error l i = Some v -> nth_error l j = Some w -> v_fn w = v_fn v -> v_off v + v_size v <= v_off w.
Proof.
  induction l as [|x l IH]; intros H i j v w Hij Hi Hj E; [destruct i; discriminate|]. destruct H as [H1 H2]. destruct j as [|j]; [lia|]. destruct i as [|i]; cbn [nth_error] in Hi, Hj.
  - injection Hi as ->. rewrite Forall_forall in H1. apply H1; [exact (nth_error_In _ _ Hj)|exact E].
  - eapply (IH H2 i j); try eassumption. lia.
Qed.
Lemma locals_thm b s : bhistory b s ->
  (forall v, In v (tr_vars s) -> v_off v mod v_align v = 0 /\ v_off v + v_size v <= -16) /\
  (forall i j v w, (i < j)%nat -> nth_error (tr_vars s) i = Some v -> nth_error (tr_vars s) j = Some w -> v_fn w = v_fn v -> v_off v + v_size v <= v_off w) /\
  (forall i k n, nth_error (live b) i = Some k -> nth_error (tr_live s) i = Some (Some n) ->
     exists m, localVarSlots (k_local k) = Ok m /\ forall v, In v (tr_vars s) -> v_fn v = n -> -16 - 8 * m <= v_off v).
Proof.
  intro H. destruct (inv_thm _ _ H) as (I1 & I2 & I3 & I4 & I5 & I6). split; [|split].
  - intros v Hv. rewrite Forall_forall in I4. destruct (I4 _ Hv) as (_ & _ & A & _ & B). split; assumption.
  - apply apart_nth. exact I5.
  - intros i k n Hk Hg. assert (HP : pairok (tr_vars s) (tr_next s) k (Some n)). { clear -I1 Hk Hg. revert i Hk Hg. induction I1 as [|a g ks gs HP HF IH]; intros i Hk Hg; [destruct i; discriminate|]. destruct i as [|i]; cbn in Hk, Hg; [injection Hk as ->; injection Hg as ->; exact HP|eapply IH; eassumption]. }
    destruct HP as (_ & _ & Hl & HB). specialize (I6 n). rewrite <- Hl in I6. pose proof (frame_nn n _ _ I4) as Hnn. rewrite <- Hl in Hnn. destruct (up_spec (k_local k) 8 ltac:(lia)) as [U1 U2]. unfold localVarSlots. rewrite calign_ok by (try (unfold al_ok; lia); unfold two31, two32 in *; lia). cbn [bind].
    eexists. split; [reflexivity|]. intros v Hv E. rewrite Forall_forall in HB. specialize (HB _ Hv E). rewrite Z.quot_div_nonneg by lia. lia.
Qed.
