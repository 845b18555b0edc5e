(** What programs and hosts may expect of layouts. *)
From Coq Require Import ZArith Bool List.
From Verif Require Import Base NumModel LayModel.
Import ListNotations.
Local Open Scope Z_scope.

(** ** Types, as a C compiler would lay them out, with unbounded integers. *)
(** The least multiple of a that is not below x. *)
Definition up (x a : Z) : Z := (x + a - 1) / a * a.
Definition c_base (k : kind) : option (Z * Z) :=
  match k with
  | KInt8 | KUInt8 | KBool | KChar => Some (1, 1)
  | KInt16 | KUInt16 => Some (2, 2)
  | KInt32 | KUInt32 | KReal32 => Some (4, 4)
  | KInt | KUInt | KReal | KPtr | KWeakPtr | KStr | KFiber | KFn => Some (8, 8)
  | KDynArray => Some (24, 8)
  | KMap => Some (16, 8)
  | _ => None
  end.
(** Size and alignment; None if some size exceeds 2^31 - 8. *)
Definition cap_size (r : Z * Z) : option (Z * Z) := if fst r <=? INT_MAX - 7 then Some r else None.
Fixpoint c_layout (e : texpr) : option (Z * Z) :=
  match e with
  | EBase k => c_base k
  | EArray n t =>
      match c_layout t with
      | Some (s, a) => if (0 <=? n) && (n <=? INT_MAX) then cap_size (n * s, a) else None
      | None => None
      end
  | EFields l =>
      (fix go (en al : Z) (l : list texpr) : option (Z * Z) :=
         match l with
         | [] => cap_size (up en al, al)
         | t :: r => match c_layout t with
                     | Some (s, a) => if up en a + s <=? INT_MAX - 7 then go (up en a + s) (Z.max al a) r else None
                     | None => None
                     end
         end) 0 1 l
  end.

(** ** Parameters *)
(** Slots a value of the given size needs. *)
Definition slots (size : Z) : Z := (size + 7) / 8.
Fixpoint total_slots (l : list Z) : Z := match l with [] => 0 | x :: r => slots x + total_slots r end.
(** The parameters take less than 2 GB. *)
Definition fits (sizes : list Z) : Prop := Forall (fun z => 0 <= z) sizes /\ 8 * total_slots sizes <= INT_MAX - 16.

(** ** Local variables *)
Record var : Type := MkVar { v_fn : nat; v_off : Z; v_size : Z; v_align : Z }.
(** One tag per block: the number of the function for function blocks. *)
Definition tags : Type := list (option nat).
Fixpoint current_fn (g : tags) : option nat := match g with [] => None | Some n :: _ => Some n | None :: r => current_fn r end.
Record trace : Type := MkTrace { tr_live : tags; tr_stale : tags; tr_next : nat; tr_vars : list var }.
Definition trace_init : trace := MkTrace [None] [] 0 [].
Definition trace_step (s : trace) (o : bop) (x : option Z) : trace :=
  match o with
  | BEnter true => MkTrace (Some (tr_next s) :: tr_live s) (tl (tr_stale s)) (S (tr_next s)) (tr_vars s)
  | BEnter false => MkTrace (None :: tr_live s) (tl (tr_stale s)) (tr_next s) (tr_vars s)
  | BLeave => match tr_live s with t :: r => MkTrace r (t :: tr_stale s) (tr_next s) (tr_vars s) | [] => s end
  | BReenter => match tr_stale s with t :: r => MkTrace (t :: tr_live s) r (tr_next s) (tr_vars s) | [] => s end
  | BAlloc t =>
      match x, current_fn (tr_live s) with
      | Some off, Some n => MkTrace (tr_live s) (tr_stale s) (tr_next s) (MkVar n off (t_size t) (t_align t) :: tr_vars s)
      | _, _ => s
      end
  end.
(** A block is re-entered only if it is not a function; allocated types are types a program can write. *)
Definition blegal (s : trace) (o : bop) : Prop :=
  match o with
  | BReenter => match tr_stale s with None :: _ => True | _ => False end
  | BAlloc t => exists e, build e = Ok t
  | _ => True
  end.
(** The bytes that the variables of a frame take, newest first: each one is put below the previous ones and aligned. *)
Fixpoint frame_bytes (l : list var) : Z := match l with [] => 0 | v :: r => up (frame_bytes r + v_size v) (v_align v) end.
Definition vars_of (n : nat) (l : list var) : list var := filter (fun v => Nat.eqb (v_fn v) n) l.
(** Frames stay below 2^31 - 16 bytes. *)
Definition small (s : trace) : Prop := forall n, frame_bytes (vars_of n (tr_vars s)) <= two31 - 16.
Inductive bhistory : blocks -> trace -> Prop :=
| bh_init : bhistory blocksInit trace_init
| bh_step b s o b' x : bhistory b s -> blegal s o -> bstep b o = Ok (b', x) -> small (trace_step s o x) -> bhistory b' (trace_step s o x).
