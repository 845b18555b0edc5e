(** Trees of map nodes, their layout in the heap, and separation by counting addresses. *)
From Coq Require Import ZArith Lia Bool List Sorted.
From Verif Require Import Base MapModel MapSpec.
Import ListNotations.
Local Open Scope Z_scope.

Section Tree.
Variables K V : Type.
Notation heap := (heap K V).
Notation mnode := (mnode K V).

Inductive tree : Type := E | T (a pr : Z) (k : K) (v : V) (l r : tree).
Inductive frame_t : Type := FL (a pr : Z) (k : K) (v : V) (r : tree) | FR (a pr : Z) (k : K) (v : V) (l : tree).
Definition ctx : Type := list frame_t.

Definition raddr (t : tree) : Z := match t with E => 0 | T a _ _ _ _ _ => a end.
Fixpoint plug (c : ctx) (t : tree) : tree :=
  match c with
  | [] => t
  | FL a pr k v r :: c => plug c (T a pr k v t r)
  | FR a pr k v l :: c => plug c (T a pr k v l t)
  end.

Definition entry : Type := (Z * (K * V))%type.
Definition ekey (e : entry) : K := fst (snd e).
Fixpoint inorder (t : tree) : list entry :=
  match t with E => [] | T a _ k v l r => inorder l ++ (a, (k, v)) :: inorder r end.
Fixpoint cl (c : ctx) : list entry :=
  match c with
  | [] => []
  | FL _ _ _ _ _ :: c => cl c
  | FR a _ k v l :: c => cl c ++ inorder l ++ [(a, (k, v))]
  end.
Fixpoint cr (c : ctx) : list entry :=
  match c with
  | [] => []
  | FL a _ k v r :: c => (a, (k, v)) :: inorder r ++ cr c
  | FR _ _ _ _ _ :: c => cr c
  end.

Lemma inorder_plug : forall c t, inorder (plug c t) = cl c ++ inorder t ++ cr c.
Proof.
  induction c as [|[a pr k v r|a pr k v l] c IH]; intro t; cbn.
  - now rewrite app_nil_r.
  - rewrite IH. cbn. rewrite <- !app_assoc. reflexivity.
  - rewrite IH. cbn. rewrite <- !app_assoc. reflexivity.
Qed.

Definition mk (pr : Z) (k : K) (v : V) (lp rp : Z) : mnode := MkNode 0 pr (Some k) (Some v) lp rp.
Fixpoint tcells (t : tree) : list (Z * mnode) :=
  match t with E => [] | T a pr k v l r => (a, mk pr k v (raddr l) (raddr r)) :: tcells l ++ tcells r end.
Definition sent (len p : Z) : mnode := MkNode len 0 None None 0 p.

Section Root.
Variables root len : Z.
Fixpoint ccells (c : ctx) (hole : Z) : list (Z * mnode) :=
  match c with
  | [] => [(root, sent len hole)]
  | FL a pr k v r :: c => (a, mk pr k v hole (raddr r)) :: tcells r ++ ccells c a
  | FR a pr k v l :: c => (a, mk pr k v (raddr l) hole) :: tcells l ++ ccells c a
  end.
Definition loc_of (c : ctx) : loc :=
  match c with [] => LRight root | FL a _ _ _ _ :: _ => LLeft a | FR a _ _ _ _ :: _ => LRight a end.
End Root.

(** ** Counting addresses *)
Definition one (a x : Z) : nat := if x =? a then 1%nat else 0%nat.
Fixpoint cnt (x : Z) (l : list (Z * mnode)) : nat :=
  match l with [] => O | (a, _) :: r => (one a x + cnt x r)%nat end.
Lemma cnt_app : forall x l1 l2, cnt x (l1 ++ l2) = (cnt x l1 + cnt x l2)%nat.
Proof. induction l1 as [|[a n] l1 IH]; intro; cbn; [reflexivity | rewrite IH; lia]. Qed.
Lemma one_same : forall a, one a a = 1%nat. Proof. intro; unfold one; now rewrite Z.eqb_refl. Qed.
Lemma one_other : forall a x, x <> a -> one a x = O.
Proof. intros; unfold one; destruct (Z.eqb_spec x a); [contradiction | reflexivity]. Qed.

Definition okc (h : heap) (x : Z * mnode) : Prop :=
  fst x <> 0 /\ fst x < next h /\ cells h (fst x) = Some (snd x).
Definition holds (h : heap) (L : list (Z * mnode)) : Prop :=
  (forall x, (cnt x L <= 1)%nat) /\ Forall (okc h) L.
(** Cells in use that are not in L are as before. *)
Definition framed (L : list (Z * mnode)) (h h' : heap) : Prop :=
  next h <= next h' /\ forall a, a < next h -> cnt a L = O -> cells h' a = cells h a.

Lemma holds_perm : forall h L L', holds h L -> (forall x, (cnt x L' <= cnt x L)%nat) ->
  (Forall (okc h) L -> Forall (okc h) L') -> holds h L'.
Proof. intros h L L' [H1 H2] HC HF. split; auto. intro x. specialize (H1 x); specialize (HC x); lia. Qed.

Lemma get_holds : forall h a n L, holds h ((a, n) :: L) -> get h a = Ok n.
Proof. intros h a n L [_ H]. inversion H as [|? ? [_ [_ Hc]]]; subst. unfold get. cbn in Hc. now rewrite Hc. Qed.
Lemma addr_holds : forall h a n L, holds h ((a, n) :: L) -> a <> 0.
Proof. intros h a n L [_ H]. inversion H as [|? ? [Hc _]]; subst. exact Hc. Qed.
Lemma addr_lt : forall h a n L, holds h ((a, n) :: L) -> a < next h.
Proof. intros h a n L [_ H]. inversion H as [|? ? [_ [Hc _]]]; subst. exact Hc. Qed.

Lemma cnt_in : forall x n L, In (x, n) L -> (1 <= cnt x L)%nat.
Proof.
  induction L as [|[a m] L IH]; intros []; cbn.
  - injection H as -> ->. rewrite one_same. lia.
  - specialize (IH H). lia.
Qed.

Lemma framed_refl : forall L h, framed L h h.
Proof. split; [lia | auto]. Qed.
Lemma framed_trans : forall L L' h1 h2 h3, framed L h1 h2 -> framed L' h2 h3 ->
  (forall x, (cnt x L' <= cnt x L)%nat) -> framed L h1 h3.
Proof.
  intros L L' h1 h2 h3 [N1 F1] [N2 F2] C. split; [lia|].
  intros a Ha HC. rewrite F2; [now apply F1 | lia | specialize (C a); lia].
Qed.
Lemma framed_sub : forall L L' h h', framed L h h' -> (forall x, (cnt x L <= cnt x L')%nat) -> framed L' h h'.
Proof. intros L L' h h' [N F] C. split; auto. intros a Ha HC. apply F; auto. specialize (C a); lia. Qed.

Lemma holds_framed : forall L L' h h', framed L h h' -> holds h L' ->
  (forall x, (cnt x L' >= 1)%nat -> cnt x L = O) -> holds h' L'.
Proof.
  intros L L' h h' [N F] [C H] D. split; auto.
  rewrite Forall_forall in *. intros [x n] Hx. destruct (H _ Hx) as (A & B & R). cbn in *.
  repeat split; cbn; auto; [lia|]. rewrite F; auto. apply D. apply cnt_in in Hx. lia.
Qed.

Lemma put_holds : forall h a n n' L, holds h ((a, n) :: L) ->
  holds (put h a n') ((a, n') :: L) /\ framed ((a, n) :: L) h (put h a n').
Proof.
  intros h a n n' L [C H]. split.
  - split; [exact C|]. inversion H as [|? ? (A & B & R) HL]; subst. constructor.
    + repeat split; cbn; auto. now rewrite Z.eqb_refl.
    + rewrite Forall_forall in *. intros [x m] Hx. destruct (HL _ Hx) as (A' & B' & R'). cbn in *.
      repeat split; cbn; auto. destruct (Z.eqb_spec x a); [|exact R'].
      subst. apply cnt_in in Hx. specialize (C a). cbn in C. rewrite one_same in C. lia.
  - split; [cbn; lia|]. intros b Hb HC. cbn in HC. cbn. destruct (Z.eqb_spec b a); [|reflexivity].
    subst. rewrite one_same in HC. lia.
Qed.

Lemma put_next : forall (h : heap) a n, next (put h a n) = next h. Proof. reflexivity. Qed.

Lemma modify_holds : forall h a n L f, holds h ((a, n) :: L) ->
  exists h', modify h a f = Ok h' /\ holds h' ((a, f n) :: L) /\ framed ((a, n) :: L) h h'.
Proof.
  intros h a n L f H. unfold modify. rewrite (get_holds _ _ _ _ H). cbn [bind].
  exists (put h a (f n)). split; [reflexivity|]. now apply put_holds.
Qed.

Lemma alloc_holds : forall h L, holds h L -> 0 < next h ->
  exists h', alloc h = (h', next h) /\ holds h' ((next h, zero_node) :: L) /\ framed [] h h' /\ next h' = next h + 1.
Proof.
  intros h L [C H] N. eexists. split; [reflexivity|]. split; [|split].
  - split.
    + intro x. cbn. specialize (C x). unfold one. destruct (Z.eqb_spec x (next h)); [|lia].
      subst. destruct (cnt (next h) L) eqn:E0; [lia|]. exfalso.
      assert (exists n, In (next h, n) L) as [n0 Hn].
      { clear -E0. revert n E0. induction L as [|[a m] L IH]; intros n E0; cbn in E0; [discriminate|].
        unfold one in E0. destruct (Z.eqb_spec (next h) a).
        - subst. exists m. now left.
        - destruct (IH _ E0) as [m' Hm]. exists m'. now right. }
      rewrite Forall_forall in H. destruct (H _ Hn) as (_ & B & _). cbn in B. lia.
    + constructor.
      * repeat split; cbn; try lia. now rewrite Z.eqb_refl.
      * rewrite Forall_forall in *. intros [x m] Hx. destruct (H _ Hx) as (A & B & R). cbn in *.
        repeat split; cbn; auto; [lia|]. destruct (Z.eqb_spec x (next h)); [lia | exact R].
  - split; [cbn; lia|]. intros a Ha _. cbn. destruct (Z.eqb_spec a (next h)); [lia | reflexivity].
  - reflexivity.
Qed.

Lemma holds_app : forall h L1 L2, holds h (L1 ++ L2) -> holds h L1 /\ holds h L2.
Proof.
  intros h L1 L2 [C H]. apply Forall_app in H. destruct H.
  split; split; auto; intro x; specialize (C x); rewrite cnt_app in C; lia.
Qed.

End Tree.

Arguments E {K V}. Arguments T {K V}. Arguments FL {K V}. Arguments FR {K V}. Arguments raddr {K V}. Arguments plug {K V}.
Arguments inorder {K V}. Arguments cl {K V}. Arguments cr {K V}. Arguments ekey {K V}. Arguments mk {K V}. Arguments sent {K V}.
Arguments tcells {K V}. Arguments ccells {K V}. Arguments loc_of {K V}. Arguments cnt {K V}. Arguments holds {K V}.
Arguments okc {K V}. Arguments framed {K V}.

Ltac cnts := repeat (rewrite ?cnt_app in *; cbn [cnt tcells ccells raddr] in *).
Ltac fors := repeat (rewrite ?Forall_app, ?Forall_cons_iff in *; cbn [tcells ccells raddr] in *).
Ltac hperm H := eapply holds_perm; [exact H | intro; cnts; lia | intro; match goal with |- Forall ?P _ => pose proof (Forall_nil P) end; fors; tauto].
