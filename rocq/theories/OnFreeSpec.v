(** What releasing a reference should do. *)
From Coq Require Import ZArith List.
From Verif Require Import OnFreeModel.
Import ListNotations.
Local Open Scope Z_scope.

Definition one (p q : Z) : Z := if p =? q then 1 else 0.
Definition times (q : Z) (l : list Z) : Z := fold_right (fun p n => one p q + n) 0 l.
(** The references to [q] in the blocks. *)
Definition held (children : Z -> list Z) (q : Z) (blocks : list Z) : Z := fold_right (fun f n => times q (children f) + n) 0 blocks.

(** Some blocks die, each once: those whose count gets zero. The counts are less by the reference released and by those in the
    blocks that died. Callbacks are called for just these blocks. *)
Definition released (children : Z -> list Z) (onFree : Z -> option (list cmd)) (p : Z) (rc rc' : Z -> Z) (calls : list Z) : Prop :=
  exists died, NoDup died /\
    (forall q, rc' q = rc q - one p q - held children q died) /\
    (forall q, In q died <-> 0 < rc q /\ rc' q = 0) /\
    (NoDup calls /\ forall q, In q calls <-> In q died /\ onFree q <> None).

Definition calls_of (t : list event) : list Z := flat_map (fun e => match e with ECall p => [p] | _ => [] end) t.
(** Callbacks that only look. *)
Definition passive (onFree : Z -> option (list cmd)) : Prop := forall p l, onFree p = Some l -> Forall (fun c => c = CRead) l.

(** Every count is the number of references to the block: [roots] from outside, the others in the blocks. *)
Definition counted (children : Z -> list Z) (blocks : list Z) (roots rc : Z -> Z) : Prop :=
  NoDup blocks /\ (forall q, 0 <= roots q) /\ (forall q, rc q = roots q + held children q blocks) /\ (forall q, 0 < rc q -> In q blocks).
