(** The code asked for and the optimised code consist of segments that correspond; jumps go to the same segment boundaries. *)
From Coq Require Import ZArith Bool List Lia ZifyBool.
From Verif Require Import Base NumModel MemModel BlkModel GenModel GenVm GenSpec GenProofs GenEmit.
Import ListNotations.
Local Open Scope nat_scope.

Lemma setnth_length {A} (l : list A) n x : length (setnth l n x) = length l.
Proof. revert n. induction l as [|a l IH]; intros [|n]; cbn; congruence. Qed.
Lemma setnth_app_l {A} (l r : list A) n x : n < length l -> setnth (l ++ r) n x = setnth l n x ++ r.
Proof. revert n. induction l as [|a l IH]; intros [|n] L; cbn in *; try lia; [reflexivity|]. rewrite IH by lia. reflexivity. Qed.
Lemma setnth_app_r {A} (l r : list A) n x : length l <= n -> setnth (l ++ r) n x = l ++ setnth r (n - length l) x.
Proof. revert n. induction l as [|a l IH]; intros n L; cbn in *; [rewrite Nat.sub_0_r; reflexivity|]. destruct n; [lia|]. cbn. rewrite IH by lia. reflexivity. Qed.
Lemma setnth_rev {A} (l : list A) p x : p < length l -> rev (setnth l (length l - 1 - p) x) = setnth (rev l) p x.
Proof.
  induction l as [|a l IH]; intro L; [cbn in L; lia|]. cbn [length] in *. cbn [rev].
  destruct (Nat.eq_dec p (length l)) as [->|N].
  - replace (S (length l) - 1 - length l) with 0 by lia. cbn [setnth rev]. rewrite setnth_app_r by (rewrite rev_length; lia).
    rewrite rev_length, Nat.sub_diag. reflexivity.
  - replace (S (length l) - 1 - p) with (S (length l - 1 - p)) by lia. cbn [setnth rev]. rewrite IH by lia.
    rewrite setnth_app_l by (rewrite rev_length; lia). reflexivity.
Qed.
Lemma nth_setnth_eq {A} (l : list A) n x : n < length l -> nth_error (setnth l n x) n = Some x.
Proof. revert n. induction l as [|a l IH]; intros [|n] L; cbn in *; try lia; [reflexivity|apply IH; lia]. Qed.
Lemma nth_setnth_neq {A} (l : list A) n m x : n <> m -> nth_error (setnth l n x) m = nth_error l m.
Proof. revert n m. induction l as [|a l IH]; intros [|n] [|m] N; cbn; try congruence. apply IH. congruence. Qed.

Inductive seg : Type := SStr (lp lo : list instr) | SNop | SHalt | SJmp (j : jump) (t : nat).
Definition slen (sel : bool) (s : seg) : nat := match s with SStr lp lo => length (if sel then lp else lo) | _ => 1 end.
Fixpoint pos (sel : bool) (sg : list seg) (j : nat) : nat :=
  match j, sg with S j, s :: r => slen sel s + pos sel r j | _, _ => 0 end.
Definition conc (sel : bool) (sg : list seg) (s : seg) : list instr :=
  match s with
  | SStr lp lo => if sel then lp else lo
  | SNop => [INop]
  | SHalt => [IHalt]
  | SJmp j t => [IJump j (pos sel sg t)]
  end.
Definition code_of (sel : bool) (sg : list seg) : list instr := flat_map (conc sel sg) sg.
Definition isSingle (s : seg) : bool := match s with SNop | SJmp _ _ => true | _ => false end.
Definition single (sg : list seg) (j : nat) : Prop := exists s, nth_error sg j = Some s /\ isSingle s = true.

Lemma conc_len sel sg s : length (conc sel sg s) = slen sel s.
Proof. destruct s; reflexivity. Qed.
Lemma flat_len sel sg0 sg : length (flat_map (conc sel sg0) sg) = pos sel sg (length sg).
Proof. induction sg as [|s r IH]; [reflexivity|]. cbn [flat_map length pos]. rewrite app_length, conc_len, IH. reflexivity. Qed.
Lemma pos_all sel sg : length (code_of sel sg) = pos sel sg (length sg).
Proof. apply flat_len. Qed.
Lemma pos_app sel a b j : j <= length a -> pos sel (a ++ b) j = pos sel a j.
Proof. revert j. induction a as [|s a IH]; intros [|j] L; cbn in *; try lia; [destruct b; reflexivity|]. rewrite IH by lia. reflexivity. Qed.
Lemma pos_app2 sel a b j : pos sel (a ++ b) (length a + j) = pos sel a (length a) + pos sel b j.
Proof. induction a as [|s a IH]; [reflexivity|]. cbn [length plus pos app]. rewrite IH. lia. Qed.
Lemma pos_mono sel sg i j : i <= j -> pos sel sg i <= pos sel sg j.
Proof. revert i j. induction sg as [|s r IH]; intros [|i] [|j] L; cbn; try lia. specialize (IH i j). lia. Qed.
Lemma slen_single sel s : isSingle s = true -> slen sel s = 1. Proof. destruct s; intro Q; [discriminate Q|reflexivity..]. Qed.
Lemma pos_setnth sel sg n s j : single sg n -> isSingle s = true -> pos sel (setnth sg n s) j = pos sel sg j.
Proof.
  intros (t & T & TS) S. revert n j T. induction sg as [|a r IH]; intros [|n] [|j] T; cbn in *; try discriminate; try reflexivity.
  - assert (a = t) as -> by congruence. rewrite !slen_single by assumption. reflexivity.
  - rewrite IH by exact T. reflexivity.
Qed.
Lemma conc_ext sel sg sg' s n : (forall j, j <= n -> pos sel sg j = pos sel sg' j) -> (match s with SJmp _ t => t <= n | _ => True end) ->
  conc sel sg s = conc sel sg' s.
Proof. intros P T. destruct s; try reflexivity. cbn. rewrite P by exact T. reflexivity. Qed.

Definition target_ok (n : nat) (s : seg) : Prop := match s with SJmp _ t => t <= n | _ => True end.
Lemma flat_ext sel sg sg' l n : (forall j, j <= n -> pos sel sg j = pos sel sg' j) -> Forall (target_ok n) l ->
  flat_map (conc sel sg) l = flat_map (conc sel sg') l.
Proof. intros P F. induction F as [|s l S F IH]; [reflexivity|]. cbn. rewrite IH. f_equal. eapply conc_ext; eassumption. Qed.
Lemma code_app sel sg b : Forall (target_ok (length sg)) sg ->
  code_of sel (sg ++ b) = code_of sel sg ++ flat_map (conc sel (sg ++ b)) b.
Proof.
  intro F. unfold code_of. rewrite flat_map_app. f_equal. apply (flat_ext sel _ _ sg (length sg)); [|exact F].
  intros j L. apply pos_app. exact L.
Qed.
Lemma flat_setnth sel sg0 sg n s : single sg n -> isSingle s = true ->
  flat_map (conc sel sg0) (setnth sg n s) = setnth (flat_map (conc sel sg0) sg) (pos sel sg n) (hd INop (conc sel sg0 s)).
Proof.
  intros (t & T & TS) S. revert n T. induction sg as [|a r IH]; intros n T; [destruct n; discriminate|]. destruct n as [|n].
  - cbn in T. assert (a = t) as -> by congruence. cbn [setnth flat_map pos]. destruct t; try discriminate TS; destruct s; try discriminate S; reflexivity.
  - cbn [setnth flat_map pos]. rewrite IH by exact T. rewrite setnth_app_r by (rewrite conc_len; lia). rewrite conc_len.
    replace (slen sel a + pos sel r n - slen sel a) with (pos sel r n) by lia. reflexivity.
Qed.
Lemma Forall_setnth {A} (P : A -> Prop) l n x : Forall P l -> P x -> Forall P (setnth l n x).
Proof. intros F X. revert n. induction F as [|a l Q F IH]; intros [|n]; cbn; constructor; auto. Qed.
Lemma code_setnth sel sg n s : single sg n -> isSingle s = true ->
  code_of sel (setnth sg n s) = setnth (code_of sel sg) (pos sel sg n) (hd INop (conc sel sg s)).
Proof.
  intros S1 S2. unfold code_of. rewrite <- (flat_setnth sel sg sg n s S1 S2).
  generalize (setnth sg n s) at 2 3 as l. intro l. induction l as [|a l IH]; [reflexivity|]. cbn. rewrite IH. f_equal.
  destruct a; try reflexivity. cbn. rewrite pos_setnth by assumption. reflexivity.
Qed.
Lemma single_lt sg j : single sg j -> j < length sg.
Proof. intros (s & S & _). apply nth_error_Some. congruence. Qed.
Lemma single_pos sel sg j : single sg j -> pos sel sg (S j) = S (pos sel sg j).
Proof.
  intros (s & N & Q). revert j N. induction sg as [|a r IH]; intros [|j] N; cbn in *; try discriminate.
  - assert (a = s) as -> by congruence. rewrite slen_single by exact Q. destruct r; reflexivity.
  - specialize (IH j N). cbn [pos] in IH |- *. destruct r; lia.
Qed.

(** Growth of the list of segments. *)
Definition ext (a b : list seg) : Prop :=
  length a <= length b /\ (forall sel j, j <= length a -> pos sel b j = pos sel a j) /\ (forall j, single a j -> single b j).
Lemma ext_refl a : ext a a. Proof. repeat split; auto. Qed.
Lemma ext_trans a b c : ext a b -> ext b c -> ext a c.
Proof. intros (L1 & P1 & S1) (L2 & P2 & S2). repeat split; [lia| |auto]. intros sel j L. rewrite P2 by lia. apply P1. exact L. Qed.
Lemma ext_app a b : ext a (a ++ b).
Proof.
  repeat split; [rewrite app_length; lia|intros; apply pos_app; assumption|].
  intros j S. pose proof (single_lt _ _ S). destruct S as (s & N & Q). exists s. split; [|exact Q]. rewrite nth_error_app1; assumption.
Qed.
Lemma ext_setnth a n s : single a n -> isSingle s = true -> ext a (setnth a n s).
Proof.
  intros S1 S2. repeat split; [rewrite setnth_length; lia|intros; apply pos_setnth; assumption|].
  intros j (t & T & Q). destruct (Nat.eq_dec n j) as [<-|N].
  - exists s. split; [apply nth_setnth_eq; apply nth_error_Some; congruence|exact S2].
  - exists t. split; [rewrite nth_setnth_neq; assumption|exact Q].
Qed.

Section Inv.
Variable H : Type.
Variable E : env H.
Hypothesis EOK : refcnt_ok E.
Notation ref := (refines H E).
Definition nobar (l : list instr) : Prop := forallb (fun i => negb (isbar i)) l = true.
Definition seg_ok (n : nat) (s : seg) : Prop :=
  match s with SStr lp lo => ref lp lo /\ nobar lp /\ nobar lo | SJmp _ t => t <= n | _ => True end.
Definition guard (lj : nat) (b : list instr) : Prop := lj <= length b /\ (lj = length b \/ exists b' i, b = b' ++ [i] /\ isbar i = true).
Definition K (rcp rco : list instr) (lj : nat) (sg : list seg) (lp lo : list instr) : Prop :=
  rev rcp = code_of true sg ++ lp /\ rev rco = code_of false sg ++ lo /\ Forall (seg_ok (length sg)) sg /\
  ref lp lo /\ nobar lp /\ nobar lo /\ guard lj (code_of false sg).

Lemma seg_target n l : Forall (seg_ok n) l -> Forall (target_ok n) l.
Proof. apply Forall_impl. intros []; cbn; tauto. Qed.
Lemma seg_ok_mono n m l : n <= m -> Forall (seg_ok n) l -> Forall (seg_ok m) l.
Proof. intro L. apply Forall_impl. intros []; cbn; try tauto. lia. Qed.
Lemma ref_nil : ref [] []. Proof. apply refines_refl. Qed.

(** Saving a position. *)
Lemma K_close rcp rco lj sg lp lo : K rcp rco lj sg lp lo -> K rcp rco (length rco) (sg ++ [SStr lp lo]) [] [].
Proof.
  intros (P & O & F & R & NP & NO & G). pose proof (seg_target _ _ F) as T.
  repeat split; try exact eq_refl; try apply ref_nil.
  - rewrite code_app by exact T. cbn. rewrite !app_nil_r. exact P.
  - rewrite code_app by exact T. cbn. rewrite !app_nil_r. exact O.
  - apply Forall_app. split; [eapply seg_ok_mono; [|exact F]; rewrite app_length; lia|]. constructor; [|constructor]. cbn. auto.
  - rewrite code_app by exact T. cbn. rewrite !app_nil_r. rewrite <- O, rev_length. lia.
  - left. rewrite code_app by exact T. cbn. rewrite !app_nil_r. rewrite <- O, rev_length. reflexivity.
Qed.
Definition concS (sel : bool) (sg : list seg) (s : seg) : instr := hd INop (conc sel sg s).
(** Adding an instruction that ends a segment. *)
Lemma K_single rcp rco lj sg lp lo s : K rcp rco lj sg lp lo -> (isSingle s = true \/ s = SHalt) -> target_ok (2 + length sg) s ->
  let sg' := sg ++ [SStr lp lo; s] in
  K (concS true sg' s :: rcp) (concS false sg' s :: rco) lj sg' [] [].
Proof.
  intros (P & O & F & R & NP & NO & (G & _)) S TS sg'. pose proof (seg_target _ _ F) as T.
  assert (forall sel, code_of sel sg' = code_of sel sg ++ (if sel then lp else lo) ++ [concS sel sg' s]) as C.
  { intro sel. unfold sg'. rewrite code_app by exact T. cbn [flat_map]. f_equal. cbn [conc]. f_equal. rewrite app_nil_r.
    unfold concS. destruct S as [S| ->]; [destruct s; try discriminate S; reflexivity|reflexivity]. }
  assert (isbar (concS false sg' s) = true) as B by (destruct S as [S| ->]; [destruct s; try discriminate S; reflexivity|reflexivity]).
  repeat split; try exact eq_refl; try apply ref_nil.
  - cbn [rev]. rewrite C, P, <- !app_assoc. rewrite app_nil_r. reflexivity.
  - cbn [rev]. rewrite C, O, <- !app_assoc. rewrite app_nil_r. reflexivity.
  - unfold sg'. apply Forall_app. split; [eapply seg_ok_mono; [|exact F]; rewrite app_length; lia|].
    constructor; [cbn; auto|]. constructor; [|constructor]. rewrite app_length. cbn [length].
    destruct S as [S| ->]; [|exact I]. destruct s; try discriminate S; cbn in *; [exact I|lia].
  - rewrite C, !app_length. lia.
  - right. rewrite C. exists (code_of false sg ++ lo), (concS false sg' s). split; [rewrite <- app_assoc; reflexivity|exact B].
Qed.
Lemma guard_up lj lj' b : guard lj b -> lj <= lj' -> lj' <= length b -> guard lj' b.
Proof. intros (A & [B|B]) L1 L2; split; auto. left. lia. Qed.
Lemma guard_setnth lj b p x : guard lj b -> isbar x = true -> p < length b -> guard lj (setnth b p x).
Proof.
  intros (A & B) X L. split; [rewrite setnth_length; exact A|]. rewrite setnth_length. destruct B as [B|(b' & i & Q & I)]; [left; exact B|]. right.
  subst b. rewrite app_length in L. cbn in L. destruct (Nat.eq_dec p (length b')) as [->|N].
  - rewrite setnth_app_r by lia. rewrite Nat.sub_diag. cbn. exists b', x. auto.
  - rewrite setnth_app_l by lia. eauto.
Qed.
(** Overwriting a stub. *)
Lemma K_patch rcp rco lj lj' sg n j t : K rcp rco lj sg [] [] -> single sg n -> t <= length sg -> lj <= lj' <= length rco ->
  let sg' := setnth sg n (SJmp j t) in
  K (setnth rcp (length rcp - 1 - pos true sg n) (IJump j (pos true sg t)))
    (setnth rco (length rco - 1 - pos false sg n) (IJump j (pos false sg t))) lj' sg' [] [].
Proof.
  intros (P & O & F & R & NP & NO & G) S TL L sg'. rewrite app_nil_r in P, O.
  assert (forall sel, pos sel sg n < length (code_of sel sg)) as PL.
  { intro sel. rewrite pos_all. pose proof (single_pos sel _ _ S). pose proof (pos_mono sel sg (Datatypes.S n) (length sg) ltac:(pose proof (single_lt _ _ S); lia)). lia. }
  pose proof (PL true) as PLp. pose proof (PL false) as PLo. rewrite <- P, rev_length in PLp. rewrite <- O, rev_length in PLo.
  repeat split; try exact eq_refl; try apply ref_nil.
  - rewrite app_nil_r. rewrite setnth_rev by exact PLp. unfold sg'. rewrite code_setnth by (auto; reflexivity). rewrite P. reflexivity.
  - rewrite app_nil_r. rewrite setnth_rev by exact PLo. unfold sg'. rewrite code_setnth by (auto; reflexivity). rewrite O. reflexivity.
  - unfold sg'. rewrite setnth_length. apply Forall_setnth; [exact F|exact TL].
  - unfold sg'. rewrite code_setnth by (auto; reflexivity). rewrite setnth_length, <- O, rev_length. lia.
  - destruct (guard_up lj lj' _ G ltac:(lia) ltac:(rewrite <- O, rev_length; lia)) as (A & B).
    unfold sg'. rewrite code_setnth by (auto; reflexivity).
    apply guard_setnth; [split; assumption|reflexivity|apply PL].
Qed.
Lemma K_len_p rcp rco lj sg lp lo : K rcp rco lj sg lp lo -> length rcp = pos true sg (length sg) + length lp.
Proof. intros (P & _). rewrite <- (rev_length rcp), P, app_length, pos_all. reflexivity. Qed.
Lemma K_len_o rcp rco lj sg lp lo : K rcp rco lj sg lp lo -> length rco = pos false sg (length sg) + length lo.
Proof. intros (_ & P & _). rewrite <- (rev_length rco), P, app_length, pos_all. reflexivity. Qed.
Lemma K_lj rcp rco lj sg lp lo : K rcp rco lj sg lp lo -> lj <= length rco.
Proof. intros (_ & P & _ & _ & _ & _ & (G & _)). rewrite <- (rev_length rco), P, app_length. lia. Qed.
Lemma K_up rcp rco lj lj' sg : K rcp rco lj sg [] [] -> lj <= lj' <= length rco -> K rcp rco lj' sg [] [].
Proof.
  intros (P & O & F & R & NP & NO & G) L. repeat split; try assumption.
  - rewrite app_nil_r in O. rewrite <- O, rev_length. lia.
  - apply (guard_up lj); [exact G|lia|]. rewrite app_nil_r in O. rewrite <- O, rev_length. lia.
Qed.
End Inv.
