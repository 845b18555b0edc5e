(** How lists of names are written. *)
From Coq Require Import Arith List.
From Verif Require Import Base NamesModel.
Import ListNotations.

Definition written (x : name * bool) : list tok := KId (fst x) :: if snd x then [KStar] else [].
(** Names with their export marks, commas between them. *)
Fixpoint listing (l : list (name * bool)) : list tok :=
  match l with [] => [] | [x] => written x | x :: r => written x ++ KComma :: listing r end.
(** What follows a list is not part of it; after an export mark another star is not. *)
Definition endsAfter (l : list (name * bool)) (r : list tok) : Prop :=
  match r with KComma :: _ => False | KStar :: _ => snd (last l ([], false)) = true | _ => True end.
(** The lexer makes no longer names. *)
Definition fine (l : list tok) : Prop := forall n, In (KId n) l -> length n <= 255.
(** Items of a declaration with their types. *)
Definition itemText (x : list (name * bool) * nat) : list tok := listing (fst x) ++ [KColon; KTy (snd x)].
Definition groupText (g : list (list (name * bool) * nat)) : list tok := concat (map (fun x => itemText x ++ [KSemi]) g).
Definition goodItem (x : list (name * bool) * nat) : Prop := fst x <> [] /\ length (fst x) <= 16.
