(** Specification of the storage: a collection of blocks, each with its bytes, latest first. *)
From Coq Require Import ZArith Lia Bool List.
From Verif Require Import Base StorModel.
Import ListNotations.
Local Open Scope Z_scope.

Definition blocks : Type := list (Z * list Z).

Fixpoint get (p : Z) (l : blocks) : option (list Z) :=
  match l with [] => None | (q, d) :: r => if p =? q then Some d else get p r end.
Definition del (p : Z) (l : blocks) : blocks := filter (fun x => negb (fst x =? p)) l.
Definition set (p : Z) (d : list Z) (l : blocks) : blocks := map (fun x => if fst x =? p then (p, d) else x) l.

(** The caller's side: a new block gets an address of its own, different from 0; only blocks held may be named; a block is
    only reallocated to a size not smaller; bytes are written inside. *)
Definition fresh (l : blocks) (a : Z) : Prop := a <> 0 /\ get (a + CHUNK_HEADER) l = None.
Definition legal (l : blocks) (o : sop) : Prop :=
  match o with
  | SAdd a n => fresh l a
  | SRemove p => get p l <> None
  | SRealloc p a n => fresh l a /\ exists d, get p l = Some d /\ Z.of_nat (length d) <= n
  | SWrite p i b => exists d, get p l = Some d /\ 0 <= i < Z.of_nat (length d)
  | SFreeAll => True
  end.

(** Effect on the blocks, result, and blocks released by the operation. *)
Definition tooBig (n : Z) : bool := (n <? 0) || (2147483647 <? 24 + n).
Definition aop (l : blocks) (o : sop) : outcome (blocks * Z * list Z) :=
  match o with
  | SAdd a n => if tooBig n then Err EOutOfMemory else Ok ((a + CHUNK_HEADER, repeat 0 (Z.to_nat n)) :: l, a + CHUNK_HEADER, [])
  | SRemove p => Ok (del p l, 0, [p])
  | SRealloc p a n =>
      if tooBig n then Err EOutOfMemory else
      match get p l with
      | Some d => Ok ((a + CHUNK_HEADER, d ++ repeat 0 (Z.to_nat n - length d)) :: del p l, a + CHUNK_HEADER, [p])
      | None => UB
      end
  | SWrite p i b =>
      match get p l with
      | Some d => Ok (set p (firstn (Z.to_nat i) d ++ b :: skipn (S (Z.to_nat i)) d) l, 0, [])
      | None => UB
      end
  | SFreeAll => Ok ([], 0, map fst l)
  end.

(** A run: final blocks, results, and all releases in order. *)
Fixpoint arun (l : blocks) (os : list sop) : outcome (blocks * list Z * list Z) :=
  match os with
  | [] => Ok (l, [], [])
  | o :: r =>
      match aop l o with
      | Ok (l1, x, f) =>
          match arun l1 r with
          | Ok (l2, xs, fs) => Ok (l2, x :: xs, f ++ fs)
          | Err e => Err e
          | UB => UB
          end
      | Err e => Err e
      | UB => UB
      end
  end.

(** Every operation of the run is legal when it is reached. *)
Fixpoint legalRun (l : blocks) (os : list sop) : Prop :=
  match os with
  | [] => True
  | o :: r => legal l o /\ match aop l o with Ok (l1, _, _) => legalRun l1 r | _ => True end
  end.

(** The blocks found by following the list from its first chunk; the blocks live in the C heap. *)
Fixpoint walk (fuel : nat) (h : cheap) (a : Z) : option (list (Z * list Z)) :=
  if a =? 0 then Some [] else
  match fuel with
  | O => None
  | S f => match live h a with
           | Some c => option_map (cons (a + CHUNK_HEADER, cdata c)) (walk f h (cnext c))
           | None => None
           end
  end.
