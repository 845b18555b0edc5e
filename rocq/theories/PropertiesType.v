(** Properties C25 and C49: tests on types. *)
From Coq Require Import ZArith Lia Bool List.
From Verif Require Import Base TypeModel TypeSpec TypeProofs TypeMore.
Import ListNotations.

(** A program's types for the examples: int; a linked list, and the same written out one step further; named and nameless structures;
    an interface with one method, and a method. *)
Definition nosig : sig := mksig [] 0 false false 0%nat.
Definition prim (k : tkind) : tnode := mkt k 0 0 false None 0%nat [] nosig.
Definition ptr (b : ty) : tnode := mkt KPtr 0 0 false None b [] nosig.
Definition str_ (i : option Z) (f : list (Z * ty)) : tnode := mkt KStruct 0 (length f) false i 0%nat f nosig.
Definition exg : list tnode :=
  [ prim KInt; str_ None [(1%Z, 0%nat); (2%Z, 2%nat)]; ptr 1; str_ None [(1%Z, 0%nat); (2%Z, 4%nat)]; ptr 5; str_ None [(1%Z, 0%nat); (2%Z, 2%nat)];
    str_ (Some 10%Z) [(1%Z, 0%nat)]; str_ (Some 11%Z) [(1%Z, 0%nat)]; str_ None [(1%Z, 0%nat)];
    ptr 10; prim KVoid; mkt KInterface 0 3 false None 0%nat [(3%Z, 9%nat); (4%Z, 9%nat); (5%Z, 12%nat)] nosig;
    mkt KFn 0 0 false None 0%nat [] (mksig [(9%nat, 0%Z)] 0 true true 10%nat); mkt KFn 0 0 false None 0%nat [] (mksig [(2%nat, 0%Z)] 0 true false 10%nat);
    mkt KDynArray 0 0 false None 14%nat [] nosig ].
Definition exd (t : ty) (x y : Z) : bool := (x =? y)%Z.
Ltac cases t H := repeat (destruct t as [|t]; [cbn in H; injection H as <-|]); try (destruct t; discriminate H).
Lemma ex_im t : imethod exg t <-> t = 12%nat.
Proof. split; [|intros ->; eexists; split; [reflexivity|auto]]. intros (n & A & K & I). unfold at_ in A. cases t A; try discriminate; reflexivity. Qed.
Lemma ex_wf : wf_types exg.
Proof.
  assert (PT : forall t, (t < 15)%nat -> t <> 12%nat -> plain_type exg t) by (intros t H1 H2; split; [exact H1|rewrite ex_im; exact H2]).
  intros t n A. unfold at_ in A. cases t A; cbn; try exact I; try (apply PT; [lia|discriminate]); repeat split; repeat (apply Forall_cons; [cbn; apply PT; [lia|discriminate]|]); try apply Forall_nil; try lia; try (rewrite ex_im; discriminate); try discriminate.
  all: try (cbn; lia).
  all: try rewrite ex_im; destruct i as [|[|[|i]]]; cbn in H; try (injection H as <-; cbn; lia); try (injection H as <-; cbn; intro; lia); destruct i; discriminate.
Qed.
Lemma ex_sym : deq_sym exg exd.
Proof. intros t u x y _. unfold exd. rewrite !Z.eqb_eq. auto. Qed.
Lemma ex_trans : deq_trans exg exd.
Proof. intros t u x y z _. unfold exd. rewrite !Z.eqb_eq. congruence. Qed.

(** C25. The test ends, on every graph of types, cyclic or not, and says whether the types can be told apart by any sequence of
    observations. (Both types are interface methods, or none is.) *)
Theorem C25_decides :
  forall g deq fuel l r, wf_types g -> (l < length g)%nat -> (r < length g)%nat -> (imethod g l <-> imethod g r) -> (length g * length g < fuel)%nat ->
  exists b, typeEquivalent g deq fuel l r = Ok b /\ (b = true <-> same_type g deq l r).
Proof. intros g deq fuel l r WF HL HR HI HF. apply decides_thm; [exact WF|split; [exact HL|split; [exact HR|exact HI]]|exact HF]. Qed.
Print Assumptions C25_decides.
Example C25_decides_case :
  wf_types exg /\ (imethod exg 1 <-> imethod exg 3) /\ typeEquivalent exg exd 226 1 3 = Ok true /\ typeEquivalent exg exd 226 1 8 = Ok false /\ typeEquivalent exg exd 226 6 7 = Ok false /\ typeEquivalent exg exd 226 14 14 = Ok true.
Proof. split; [exact ex_wf|]. split; [rewrite !ex_im; split; discriminate|]. repeat split; vm_compute; reflexivity. Qed.

Theorem C25_reflexive : forall g deq fuel t, (0 < fuel)%nat -> typeEquivalent g deq fuel t t = Ok true.
Proof. exact refl_thm. Qed.
Print Assumptions C25_reflexive.

Theorem C25_symmetric :
  forall g deq fuel l r, wf_types g -> deq_sym g deq -> (l < length g)%nat -> (r < length g)%nat -> (imethod g l <-> imethod g r) -> (length g * length g < fuel)%nat ->
  typeEquivalent g deq fuel l r = typeEquivalent g deq fuel r l.
Proof. intros g deq fuel l r WF DS HL HR HI HF. apply sym_thm; [exact WF|exact DS|split; [exact HL|split; [exact HR|exact HI]]|exact HF]. Qed.
Print Assumptions C25_symmetric.
Example C25_symmetric_case : wf_types exg /\ deq_sym exg exd /\ (imethod exg 3 <-> imethod exg 1) /\ typeEquivalent exg exd 226 3 1 = Ok true.
Proof. split; [exact ex_wf|]. split; [exact ex_sym|]. split; [rewrite !ex_im; split; discriminate|]. vm_compute. reflexivity. Qed.

(** Transitive if one end has no named type in it. Missing: see the refutation. *)
Theorem C25_transitive_partial :
  forall g deq fuel a b c (P : ty -> Prop), wf_types g -> deq_sym g deq -> deq_trans g deq -> named_once g -> nameless g P -> P a \/ P c ->
  (a < length g)%nat -> (b < length g)%nat -> (c < length g)%nat -> (imethod g a <-> imethod g b) -> (imethod g b <-> imethod g c) -> (length g * length g < fuel)%nat ->
  typeEquivalent g deq fuel a b = Ok true -> typeEquivalent g deq fuel b c = Ok true -> typeEquivalent g deq fuel a c = Ok true.
Proof.
  intros g deq fuel a b c P WF DS DT NO NL HP HA HB HC I1 I2 HF. apply (trans_thm g deq WF P); try assumption; (split; [assumption|split; assumption]).
Qed.
Print Assumptions C25_transitive_partial.
Example C25_transitive_case :
  named_once exg /\ nameless exg (fun t => (t < 6)%nat) /\ typeEquivalent exg exd 226 1 3 = Ok true /\ typeEquivalent exg exd 226 3 5 = Ok true.
Proof.
  split; [|split; [|split; vm_compute; reflexivity]].
  - intros t u m n A B NM EI EB. unfold at_ in *. unfold named in NM. cases t A; cbn in NM; try congruence; cases u B; cbn in EI; try discriminate; reflexivity.
  - intros t n p HT A. unfold at_ in A. cases t A; try lia; (split; [intro H; apply H; reflexivity|]); intro H; inversion H; cbn; try (exfalso; cbn in *; intuition discriminate); repeat constructor.
Qed.
(** Two named types are each equivalent to a nameless one, but not to each other; the receiver of an interface method is skipped only if
    the interface method is on the left. *)
Theorem C25_refuted :
  wf_types exg /\ named_once exg /\ typeEquivalent exg exd 226 6 8 = Ok true /\ typeEquivalent exg exd 226 8 7 = Ok true /\ typeEquivalent exg exd 226 6 7 = Ok false /\
  typeEquivalent exg exd 226 12 13 = Ok true /\ typeEquivalent exg exd 226 13 12 = Ok false.
Proof. split; [exact ex_wf|]. split; [apply C25_transitive_case|]. repeat split; vm_compute; reflexivity. Qed.
Print Assumptions C25_refuted.

(** C49. A type can be compared exactly if no function, map, interface or fiber is reached through items and fields; the test ends. *)
Theorem C49_comparable :
  forall g fuel t, wf_types g -> (t < length g)%nat -> (length g < fuel)%nat ->
  exists b, typeComparable g fuel t = Ok b /\ (b = true <-> forall u n, inside g t u -> at_ g u n -> comparable_kind (kind n)).
Proof. intros g fuel t WF HT HF. apply comparable_thm; assumption. Qed.
Print Assumptions C49_comparable.
Example C49_comparable_case : wf_types exg /\ typeComparable exg 16 14 = Ok true /\ typeComparable exg 16 3 = Ok true /\ typeComparable exg 16 11 = Ok false.
Proof. split; [exact ex_wf|]. repeat split; vm_compute; reflexivity. Qed.

(** A type is scanned for references exactly if a value of it contains one. *)
Theorem C49_pointers :
  forall g rank weak fuel t, wf_types g -> finite_size g rank -> (t < length g)%nat -> (rank t < fuel)%nat ->
  exists b, typeHasPtr g fuel t weak = Ok b /\ (b = true <-> exists u n, within g t u /\ at_ g u n /\ pointer_kind weak (kind n)).
Proof. intros g rank weak fuel t WF FS. apply hasptr_thm; assumption. Qed.
Print Assumptions C49_pointers.
Example C49_pointers_case : wf_types exg /\ finite_size exg (fun t => if existsb (Nat.eqb t) [1; 3; 5; 6; 7; 8] then 1 else 0)%nat /\ typeHasPtr exg 3 1 false = Ok true /\ typeHasPtr exg 3 8 true = Ok false.
Proof.
  split; [exact ex_wf|]. split; [|split; vm_compute; reflexivity]. intros t n A. unfold at_ in A. cases t A; cbn; (split; [try discriminate|]); intros K f HF; try discriminate; repeat (destruct HF as [<-|HF]; [cbn; lia|]); destruct HF.
Qed.
