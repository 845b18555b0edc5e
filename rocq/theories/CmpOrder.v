From Coq Require Import ZArith Lia Bool List.
From Coq Require Import ZifyBool.
From Coq.Floats Require Import SpecFloat.
From Verif Require Import Base NumModel NumSpec NumProofs RealProofs MemModel MemProofs CmpModel CmpSpec CmpProofs.
Import ListNotations.
Local Open Scope Z_scope.
Ltac Zify.zify_post_hook ::= Z.div_mod_to_equations.

Lemma cval_nested_ind (P : cval -> Prop) :
  (forall z, P (VInt z)) -> (forall z, P (VUInt z)) -> (forall x, P (VReal x)) -> (forall s, P (VStr s)) ->
  (forall l, Forall P l -> P (VSeq l)) -> (forall l, Forall P l -> P (VDyn l)) -> forall v, P v.
Proof.
  intros HI HU HR HS HQ HD. fix IH 1. intros [z|z|x|s|l|l].
  - apply HI.
  - apply HU.
  - apply HR.
  - apply HS.
  - apply HQ. induction l as [|a l IHl]; constructor; [apply IH|exact IHl].
  - apply HD. induction l as [|a l IHl]; constructor; [apply IH|exact IHl].
Qed.

Definition zc (x y : Z) : option comparison := Some (x ?= y).

(** Antisymmetry. *)
Lemma lex_antisym {A} (c : A -> A -> option comparison) l : forall l',
  Forall (fun x => forall y, c y x = option_map CompOpp (c x y)) l ->
  lexcmp c l' l = option_map CompOpp (lexcmp c l l').
Proof.
  induction l as [|x r IH]; destruct l' as [|y s]; intro F; try reflexivity.
  inversion F; subst. cbn [lexcmp]. rewrite H1. destruct (c x y) as [[]|]; cbn; auto.
Qed.

Lemma zc_antisym x y : zc y x = option_map CompOpp (zc x y).
Proof. unfold zc. cbn. f_equal. apply Z.compare_antisym. Qed.

(** SFcompare is the lexicographic order of a key. *)
Definition rkey (x : spec_float) : list Z :=
  match x with
  | S754_nan => []
  | S754_infinity true => [-2; 0; 0]
  | S754_finite true m e => [-1; - e; - Zpos m]
  | S754_zero _ => [0; 0; 0]
  | S754_finite false m e => [1; e; Zpos m]
  | S754_infinity false => [2; 0; 0]
  end.

Lemma sfcompare_key x y : x <> S754_nan -> y <> S754_nan -> SFcompare x y = lexcmp zc (rkey x) (rkey y).
Proof.
  intros Nx Ny. destruct x as [s|[]| |[] m e], y as [s'|[]| |[] m' e']; try congruence; try reflexivity;
  cbn [SFcompare rkey lexcmp zc Z.compare].
  - unfold zc. replace (- e ?= - e') with (CompOpp (e ?= e')).
    + destruct (e ?= e'); cbn; try reflexivity. f_equal. destruct (Pos.compare_cont Eq m m') eqn:E; unfold Pos.compare; rewrite E; reflexivity.
    + rewrite Z.compare_opp. symmetry. apply Z.compare_antisym.
  - unfold zc. destruct (e ?= e'); cbn; try reflexivity. f_equal. unfold Pos.compare. destruct (Pos.compare_cont Eq m m'); reflexivity.
Qed.

Lemma sfcompare_some x y c : SFcompare x y = Some c -> x <> S754_nan /\ y <> S754_nan.
Proof. destruct x, y; cbn; try discriminate; split; congruence. Qed.
Lemma sfcompare_none x y : SFcompare x y = None -> x = S754_nan \/ y = S754_nan.
Proof. destruct x as [s|[]| |[] m e], y as [s'|[]| |[] m' e']; cbn; try discriminate; auto. Qed.

Lemma sfcompare_antisym x y : SFcompare y x = option_map CompOpp (SFcompare x y).
Proof.
  assert (D : x = S754_nan \/ x <> S754_nan) by (destruct x; auto; right; discriminate).
  assert (D' : y = S754_nan \/ y <> S754_nan) by (destruct y; auto; right; discriminate).
  destruct D as [->|Nx]; [destruct y as [|[]| |[]]; reflexivity|].
  destruct D' as [->|Ny]; [destruct x as [|[]| |[]]; reflexivity|].
  rewrite !sfcompare_key by assumption. apply lex_antisym. apply Forall_forall. intros. apply zc_antisym.
Qed.

Lemma vcmp_antisym a : forall b, vcmp b a = option_map CompOpp (vcmp a b).
Proof.
  induction a as [z|z|x|s|l IH|l IH] using cval_nested_ind; intros [z'|z'|x'|s'|l'|l']; try reflexivity.
  - apply zc_antisym.
  - apply zc_antisym.
  - apply sfcompare_antisym.
  - cbn [vcmp]. apply (lex_antisym zc). apply Forall_forall. intros. apply zc_antisym.
  - rewrite !vcmp_seq. apply lex_antisym. exact IH.
  - rewrite !vcmp_dyn. apply lex_antisym. exact IH.
Qed.

(** Transitivity, with equivalence as a congruence. *)
Definition tr3 (ab bc ac : option comparison) : Prop :=
  match ab, bc with
  | Some Eq, c => ac = c
  | c, Some Eq => ac = c
  | Some Lt, Some Lt => ac = Some Lt
  | Some Gt, Some Gt => ac = Some Gt
  | _, _ => True
  end.

Lemma lex_trans {A} (c : A -> A -> option comparison) l1 : forall l2 l3,
  Forall (fun x => forall y z, tr3 (c x y) (c y z) (c x z)) l1 ->
  tr3 (lexcmp c l1 l2) (lexcmp c l2 l3) (lexcmp c l1 l3).
Proof.
  induction l1 as [|x r IH]; destruct l2 as [|y s]; destruct l3 as [|z t]; intro F; try (cbn; auto; fail).
  - cbn [lexcmp]. destruct (c y z) as [[]|]; cbn; auto. destruct (lexcmp c s t) as [[]|]; cbn; auto.
  - cbn [lexcmp tr3]. destruct (c x y) as [[]|]; cbn; auto. destruct (lexcmp c r s) as [[]|]; cbn; auto.
  - inversion F; subst. specialize (H1 y z). cbn [lexcmp].
    specialize (IH s t H2).
    destruct (c x y) as [[]|]; destruct (c y z) as [[]|]; cbn in H1; try rewrite H1; try exact IH; cbn; auto;
    destruct (lexcmp c r s) as [[]|]; cbn; auto; destruct (lexcmp c s t) as [[]|]; cbn; auto.
Qed.

Lemma zc_trans x y z : tr3 (zc x y) (zc y z) (zc x z).
Proof.
  unfold zc. destruct (x ?= y) eqn:E, (y ?= z) eqn:F; cbn; auto; f_equal;
  rewrite ?Z.compare_eq_iff, ?Z.compare_lt_iff, ?Z.compare_gt_iff in *; lia.
Qed.

Lemma sfcompare_trans x y z : tr3 (SFcompare x y) (SFcompare y z) (SFcompare x z).
Proof.
  assert (D : x = S754_nan \/ x <> S754_nan) by (destruct x; auto; right; discriminate).
  assert (D' : y = S754_nan \/ y <> S754_nan) by (destruct y; auto; right; discriminate).
  assert (D2 : z = S754_nan \/ z <> S754_nan) by (destruct z; auto; right; discriminate).
  destruct D as [->|Nx]; [destruct y as [|[]| |[]], z as [|[]| |[]]; cbn; auto;
     try (destruct (e ?= e0); cbn; auto; destruct (Pos.compare_cont Eq m m0); cbn; auto)|].
  destruct D' as [->|Ny]; [destruct x as [|[]| |[]]; destruct z as [|[]| |[]]; cbn; auto|].
  destruct D2 as [->|Nz]; [destruct x as [|[]| |[]]; destruct y as [|[]| |[]]; cbn; auto;
     try (destruct (e ?= e0); cbn; auto; destruct (Pos.compare_cont Eq m m0); cbn; auto)|].
  rewrite !sfcompare_key by assumption. apply lex_trans. apply Forall_forall. intros. apply zc_trans.
Qed.

Lemma vcmp_trans a : forall b c, tr3 (vcmp a b) (vcmp b c) (vcmp a c).
Proof.
  induction a as [z|z|x|s|l IH|l IH] using cval_nested_ind; intros [z'|z'|x'|s'|l'|l'] [z2|z2|x2|s2|l2|l2];
  rewrite ?vcmp_seq, ?vcmp_dyn; cbn [vcmp];
  try (cbn [tr3]; auto; fail).
  all: try apply zc_trans.
  all: try apply sfcompare_trans.
  all: try (apply lex_trans; exact IH).
  all: try (apply (lex_trans zc); apply Forall_forall; intros; apply zc_trans).
  all: try (match goal with |- tr3 ?u None None => destruct u as [[]|]; cbn; auto end).
  all: try (match goal with |- tr3 None ?u None => destruct u as [[]|]; cbn; auto end).
  all: try (match goal with |- tr3 None (Some ?u) None => destruct u; cbn; auto end).
  all: try (match goal with |- tr3 (Some ?u) None None => destruct u; cbn; auto end).
Qed.

(** Equivalence. *)
Lemma lex_eq {A} (c : A -> A -> option comparison) (R : A -> A -> Prop) l : forall l',
  Forall (fun x => forall y, c x y = Some Eq <-> R x y) l ->
  (lexcmp c l l' = Some Eq <-> Forall2 R l l').
Proof.
  induction l as [|x r IH]; destruct l' as [|y s]; intro F; cbn [lexcmp].
  - split; auto.
  - split; [discriminate|]. intro H. inversion H.
  - split; [discriminate|]. intro H. inversion H.
  - inversion F; subst. specialize (IH s H2). specialize (H1 y).
    destruct (c x y) as [[]|].
    + split.
      * intro E. constructor; [apply H1; reflexivity|apply IH; exact E].
      * intro E. inversion E; subst. apply IH. assumption.
    + split; [discriminate|]. intro E. inversion E; subst. apply H1 in H4. discriminate.
    + split; [discriminate|]. intro E. inversion E; subst. apply H1 in H4. discriminate.
    + split; [discriminate|]. intro E. inversion E; subst. apply H1 in H4. discriminate.
Qed.

Lemma Forall2_eq_list (l l' : list Z) : Forall2 eq l l' <-> l = l'.
Proof.
  split.
  - induction 1; congruence.
  - intros ->. induction l'; constructor; auto.
Qed.

Fixpoint valid_cval (a : cval) : Prop :=
  match a with
  | VReal x => valid x = true
  | VSeq l => (fix all (l : list cval) : Prop := match l with [] => True | x :: r => valid_cval x /\ all r end) l
  | VDyn l => (fix all (l : list cval) : Prop := match l with [] => True | x :: r => valid_cval x /\ all r end) l
  | _ => True
  end.
Lemma valid_seq l : valid_cval (VSeq l) <-> Forall valid_cval l.
Proof.
  induction l as [|x r IH]; cbn; [split; auto|]. split.
  - intros [A B]. constructor; auto. apply IH. exact B.
  - intro H. inversion H; subst. split; auto. apply IH. assumption.
Qed.
Lemma valid_dyn l : valid_cval (VDyn l) <-> Forall valid_cval l.
Proof.
  induction l as [|x r IH]; cbn; [split; auto|]. split.
  - intros [A B]. constructor; auto. apply IH. exact B.
  - intro H. inversion H; subst. split; auto. apply IH. assumption.
Qed.

Lemma same_seq_inv l l' : same (VSeq l) (VSeq l') -> Forall2 same l l'.
Proof. intro H. inversion H; subst; assumption. Qed.
Lemma same_dyn_inv l l' : same (VDyn l) (VDyn l') -> Forall2 same l l'.
Proof. intro H. inversion H; subst; assumption. Qed.

Lemma lex_same l : Forall (fun a => forall b, valid_cval a -> valid_cval b -> (vcmp a b = Some Eq <-> same a b)) l ->
  forall l', Forall valid_cval l -> Forall valid_cval l' -> (lexcmp vcmp l l' = Some Eq <-> Forall2 same l l').
Proof.
  induction l as [|x r IHr]; intros IH l' Va Vb.
  - destruct l'; cbn; split; auto; try discriminate. intro E. inversion E.
  - destruct l' as [|y t].
    + cbn. split; [discriminate|]. intro E. inversion E.
    + inversion IH; subst. inversion Va; subst. inversion Vb; subst. cbn [lexcmp].
      specialize (H1 y H3 H5). specialize (IHr H2 t H4 H6).
      destruct (vcmp x y) as [[]|].
      * split.
        -- intro E. constructor; [apply H1; reflexivity|apply IHr; exact E].
        -- intro E. inversion E; subst. apply IHr. assumption.
      * split; [discriminate|]. intro E. inversion E; subst. match goal with X : same x y |- _ => apply H1 in X; discriminate end.
      * split; [discriminate|]. intro E. inversion E; subst. match goal with X : same x y |- _ => apply H1 in X; discriminate end.
      * split; [discriminate|]. intro E. inversion E; subst. match goal with X : same x y |- _ => apply H1 in X; discriminate end.
Qed.

Lemma vcmp_eq a : forall b, valid_cval a -> valid_cval b -> (vcmp a b = Some Eq <-> same a b).
Proof.
  induction a as [z|z|x|s|l IH|l IH] using cval_nested_ind; intros [z'|z'|x'|s'|l'|l'] Va Vb;
  try (cbn [vcmp]; split; [discriminate|intro H; inversion H; fail]).
  - cbn [vcmp]. split.
    + intro E. injection E as E. apply Z.compare_eq in E. subst. constructor.
    + intro E. inversion E; subst. rewrite Z.compare_refl. reflexivity.
  - cbn [vcmp]. split.
    + intro E. injection E as E. apply Z.compare_eq in E. subst. constructor.
    + intro E. inversion E; subst. rewrite Z.compare_refl. reflexivity.
  - cbn [vcmp]. pose proof (SFeqb_spec x x' Va Vb) as S. unfold SFeqb in S. split.
    + intro E. constructor. apply S. rewrite E. reflexivity.
    + intro E. inversion E; subst. apply S in H1. destruct (SFcompare x x') as [[]|]; try discriminate. reflexivity.
  - cbn [vcmp]. rewrite (lex_eq (fun x y : Z => Some (x ?= y)) eq).
    + rewrite Forall2_eq_list. split; [intros ->; constructor|]. intro E. inversion E; auto.
    + apply Forall_forall. intros x _ y. split.
      * intro E. injection E as E. apply Z.compare_eq. exact E.
      * intros ->. rewrite Z.compare_refl. reflexivity.
  - rewrite vcmp_seq. apply valid_seq in Va. apply valid_seq in Vb. rewrite (lex_same l IH l' Va Vb).
    split; [intro; constructor; assumption|apply same_seq_inv].
  - rewrite vcmp_dyn. apply valid_dyn in Va. apply valid_dyn in Vb. rewrite (lex_same l IH l' Va Vb).
    split; [intro; constructor; assumption|apply same_dyn_inv].
Qed.

Lemma reads_valid tt m :
  (forall ty a va, reads tt m ty a va -> valid_cval va) /\
  (forall items p l, reads_items tt m items p l -> Forall valid_cval l).
Proof.
  apply reads_mut; intros; cbn [valid_cval]; auto.
  - apply realVal_valid.
  - apply valid_seq. assumption.
  - apply valid_dyn. assumption.
Qed.

Lemma moderate_seq l : moderate (VSeq l) -> Forall moderate l.
Proof. induction l as [|x r IH]; [constructor|]. intros [A B]. constructor; [exact A|apply IH; exact B]. Qed.
Lemma moderate_dyn l : moderate (VDyn l) -> Forall moderate l.
Proof. induction l as [|x r IH]; [constructor|]. intros [A B]. constructor; [exact A|apply IH; exact B]. Qed.

Lemma close_seq_r l l' : all_close l l' -> close (VSeq l) (VSeq l').
Proof. revert l'. induction l as [|x r IH]; destruct l' as [|y s]; cbn; try exact (fun _ => I). intros [A B]. split; [exact A|]. apply IH. exact B. Qed.
Lemma close_dyn_r l l' : all_close l l' -> close (VDyn l) (VDyn l').
Proof. revert l'. induction l as [|x r IH]; destruct l' as [|y s]; cbn; try exact (fun _ => I). intros [A B]. split; [exact A|]. apply IH. exact B. Qed.

Lemma moderate_close a : forall b, moderate a -> moderate b -> close a b.
Proof.
  induction a as [z|z|x|s|l IH|l IH] using cval_nested_ind; intros [z'|z'|x'|s'|l'|l'] Ma Mb; try exact I.
  - cbn [close moderate] in *. unfold in_s64, INT64_MIN, INT64_MAX, two63.
    change (2 ^ 62) with 4611686018427387904 in *. lia.
  - cbn [close moderate] in *. destruct x, x'; try contradiction; repeat split; congruence.
  - apply close_seq_r. apply moderate_seq in Ma. apply moderate_seq in Mb.
    revert l' Mb. induction l as [|x r IHr]; destruct l' as [|y t]; intro Mb; cbn; auto.
    inversion IH; subst. inversion Ma; subst. inversion Mb; subst. split; auto.
  - apply close_dyn_r. apply moderate_dyn in Ma. apply moderate_dyn in Mb.
    revert l' Mb. induction l as [|x r IHr]; destruct l' as [|y t]; intro Mb; cbn; auto.
    inversion IH; subst. inversion Ma; subst. inversion Mb; subst. split; auto.
Qed.

(** ** Statements used by the property file *)
Lemma compare_order tt m ty a b va vb :
  reads tt m ty a va -> reads tt m ty b vb -> close va vb ->
  exists n d c, vcmp va vb = Some c /\ sign_is d c /\
    forall fuel w, (n <= fuel)%nat ->
      doCompare fuel w tt m a b ty = Ok d /\ constCompare fuel w tt m a b ty = Ok d.
Proof. intros A B C. exact (proj1 (compare_exact tt m) ty a va A b vb B C). Qed.

Lemma order_laws :
  (forall a b, vcmp b a = option_map CompOpp (vcmp a b)) /\
  (forall a b c, vcmp a b = Some Lt -> vcmp b c = Some Lt -> vcmp a c = Some Lt) /\
  (forall a b c, vcmp a b = Some Eq -> vcmp a c = vcmp b c) /\
  (forall tt m ty a b va vb, reads tt m ty a va -> reads tt m ty b vb -> (vcmp va vb = Some Eq <-> same va vb)).
Proof.
  repeat split.
  - intros. apply vcmp_antisym.
  - intros a b c H1 H2. pose proof (vcmp_trans a b c) as T. rewrite H1, H2 in T. exact T.
  - intros a b c H1. pose proof (vcmp_trans a b c) as T. rewrite H1 in T. exact T.
  - apply vcmp_eq; eapply (proj1 (reads_valid tt m)); eassumption.
  - apply vcmp_eq; eapply (proj1 (reads_valid tt m)); eassumption.
Qed.

Definition rel_cmp (o : op) (c : comparison) : option bool :=
  match o with
  | OpEqEq => Some (match c with Eq => true | _ => false end)
  | OpNotEq => Some (match c with Eq => false | _ => true end)
  | OpLess => Some (match c with Lt => true | _ => false end)
  | OpGreater => Some (match c with Gt => true | _ => false end)
  | OpLessEq => Some (match c with Gt => false | _ => true end)
  | OpGreaterEq => Some (match c with Lt => false | _ => true end)
  | _ => None
  end.

Lemma relational_order tt m ty a b va vb o r c :
  match t_kind (tt ty) with KStr | KArray | KDynArray | KStruct => True | _ => False end ->
  reads tt m ty a va -> reads tt m ty b vb -> close va vb ->
  vcmp va vb = Some c -> rel_cmp o c = Some r ->
  exists n, forall fuel w, (n <= fuel)%nat -> doRelational fuel w tt m o ty a b = Ok (b2z r).
Proof.
  intros K A B C V R.
  destruct (compare_order tt m ty a b va vb A B C) as (n & d & c' & V' & Sg & F).
  rewrite V in V'. injection V' as <-.
  exists (S n). intros [|fuel] w Hf; [lia|].
  assert (E : match t_kind (tt ty) with KStr => strcmp_null (S fuel) m a b | _ => doCompare (S fuel) w tt m a b ty end = Ok d).
  { destruct (F (S fuel) w ltac:(lia)) as [F1 _].
    destruct (t_kind (tt ty)) eqn:T; try contradiction; auto.
    cbn [doCompare] in F1. rewrite T in F1. exact F1. }
  unfold doRelational.
  assert (G : match o with
    | OpEqEq => Ok (b2z (d =? 0))
    | OpNotEq => Ok (b2z (negb (d =? 0)))
    | OpGreater => Ok (b2z (0 <? d))
    | OpLess => Ok (b2z (d <? 0))
    | OpGreaterEq => Ok (b2z (0 <=? d))
    | OpLessEq => Ok (b2z (d <=? 0))
    | _ => Err EIllegalOp
    end = Ok (b2z r)).
  { unfold sign_is in Sg. destruct c; [rewrite Z.compare_eq_iff in Sg|rewrite Z.compare_lt_iff in Sg|rewrite Z.compare_gt_iff in Sg];
    destruct o; cbn in R; try discriminate; injection R as <-; do 2 f_equal; lia. }
  destruct (t_kind (tt ty)); try contradiction; rewrite E; exact G.
Qed.

(** ** Witnesses against the unrestricted claim *)
(** type 1: int; type 2: struct {int}; type 3: real; type 4: struct {real}; type 5: weak pointer; type 6: struct {weak};
    type 7: struct {children: []7}; type 8: []7. *)
Definition wtt : tytab := fun t =>
  let mk k sz n b f := {| t_kind := k; t_size := sz; t_numItems := n; t_base := b; t_fields := f |} in
  if t =? 1 then mk KInt 8 0 0 []
  else if t =? 2 then mk KStruct 8 1 0 [(0, 1)]
  else if t =? 3 then mk KReal 8 0 0 []
  else if t =? 4 then mk KStruct 8 1 0 [(0, 3)]
  else if t =? 5 then mk KWeakPtr 8 0 0 []
  else if t =? 6 then mk KStruct 8 1 0 [(0, 5)]
  else if t =? 7 then mk KStruct 24 1 0 [(0, 8)]
  else mk KDynArray 24 0 7 [].

Definition wmem (l : list (Z * Z)) : mem := fold_left (fun m '(a, v) => store 8 m a v) l (fun _ => 0).

Lemma int_overflow_witness :
  let m := wmem [(100, INT64_MIN); (200, 1)] in
  doCompare 3 Strict wtt m 100 200 2 = UB /\
  (exists d, doCompare 3 Wrapping wtt m 100 200 2 = Ok d /\ d > 0) /\
  reads wtt m 2 100 (VSeq [VInt INT64_MIN]) /\ reads wtt m 2 200 (VSeq [VInt 1]).
Proof.
  cbv zeta. split; [vm_compute; reflexivity|]. split; [eexists; split; [vm_compute; reflexivity|lia]|].
  split; (apply R_agg; [right; reflexivity|lia|]; change (agg_items wtt (wtt 2)) with [(0, 1)];
  eapply RI_cons; [unfold INT_MAX, two31; lia|vm_compute; reflexivity| |constructor]);
  apply R_ord; try reflexivity; try discriminate; vm_compute; repeat split; discriminate.
Qed.

Lemma nan_witness :
  let m := wmem [(100, realSlot S754_nan); (200, 0)] in
  forall w, doCompare 3 w wtt m 100 200 4 = Ok (-1) /\ doCompare 3 w wtt m 200 100 4 = Ok (-1) /\
            doCompare 3 w wtt m 100 100 4 = Ok (-1).
Proof. cbv zeta. intro w. repeat split; vm_compute; reflexivity. Qed.

(** A null weak pointer, a weak pointer to a global at 0x555555550000 and a weak pointer to page 1, offset 64. *)
Lemma weak_cycle_witness :
  let m := wmem [(100, 0); (200, 93824992215040); (300, s64 (two63 + two32 + 64))] in
  forall w,
    (exists d, doCompare 3 w wtt m 100 200 6 = Ok d /\ d < 0) /\
    (exists d, doCompare 3 w wtt m 200 300 6 = Ok d /\ d < 0) /\
    (exists d, doCompare 3 w wtt m 300 100 6 = Ok d /\ d < 0).
Proof.
  cbv zeta. intro w. repeat split; eexists; (split; [destruct w; vm_compute; reflexivity|lia]).
Qed.

(** A structure whose dynamic array has one item, the structure itself: the array data at 300 holds a copy of the
    structure stored at 100. *)
Definition cyc : mem := wmem [(116, 300); (284, 1); (292, 4); (316, 300)].

Lemma cyclic_witness w : forall fuel, doCompare fuel w wtt cyc 100 300 7 = Err EFuel.
Proof.
  assert (H : forall n f p q, (f < n)%nat -> (p = 100 \/ p = 300) -> (q = 100 \/ q = 300) -> doCompare f w wtt cyc p q 7 = Err EFuel).
  { induction n as [|n IH]; intros f p q Hf Hp Hq; [lia|].
    destruct f as [|f]; [reflexivity|].
    cbn [doCompare]. change (t_kind (wtt 7)) with KStruct. cbn iota.
    change (agg_items wtt (wtt 7)) with [(0, 8)]. cbn [cmp_items].
    change (chk32 0) with (@Ok Z 0). cbn [bind]. change (t_kind (wtt 8)) with KDynArray.
    unfold doDeref. replace (p + 0 =? 0) with false by lia. replace (q + 0 =? 0) with false by lia. cbn [bind].
    destruct f as [|f]; [reflexivity|]. cbn [doCompare]. change (t_kind (wtt 8)) with KDynArray. cbn iota.
    replace (p + 0 =? 0) with false by lia. replace (q + 0 =? 0) with false by lia.
    rewrite !Z.add_0_r.
    assert (Dp : dyn_len cyc p = 1 /\ dyn_data cyc p = 300) by (destruct Hp as [-> | ->]; vm_compute; split; reflexivity).
    assert (Dq : dyn_len cyc q = 1 /\ dyn_data cyc q = 300) by (destruct Hq as [-> | ->]; vm_compute; split; reflexivity).
    destruct Dp as [-> ->]. destruct Dq as [-> ->].
    change (S (Z.to_nat (Z.min 1 1))) with 2%nat. cbn [cmp_dyn].
    change ((0 =? 1) && (0 =? 1)) with false. change (0 =? 1) with false. cbn iota.
    change (t_base (wtt 8)) with 7. change (chk32 (0 * t_size (wtt 7))) with (@Ok Z 0). cbn [bind].
    change (t_kind (wtt 7)) with KStruct. cbn [bind].
    change (300 + 0 =? 0) with false. cbn iota. cbn [bind].
    change (doDeref cyc KStruct (300 + 0)) with (@Ok Z 300). cbn [bind].
    rewrite IH by (lia || auto). reflexivity. }
  intro fuel. apply (H (S fuel)); auto.
Qed.

Lemma cmp_example :
  let m := wmem [(100, 5); (200, 7)] in
  reads wtt m 2 100 (VSeq [VInt 5]) /\ reads wtt m 2 200 (VSeq [VInt 7]) /\
  moderate (VSeq [VInt 5]) /\ doCompare 2 Strict wtt m 100 200 2 = Ok (-2).
Proof.
  cbv zeta. split; [|split; [|split; [vm_compute; repeat split; discriminate|vm_compute; reflexivity]]];
  (apply R_agg; [right; reflexivity|lia|]; change (agg_items wtt (wtt 2)) with [(0, 1)];
  eapply RI_cons; [unfold INT_MAX, two31; lia|vm_compute; reflexivity| |constructor]);
  apply R_ord; try reflexivity; try discriminate; vm_compute; repeat split; discriminate.
Qed.
