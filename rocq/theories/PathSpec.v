(** What a path means to a file system. *)
From Coq Require Import ZArith Bool List String.
From Verif Require Import Base LexSpec.
Import ListNotations.
Local Open Scope Z_scope.
Local Open Scope list_scope.

(** A component of a path that names a file or folder: not empty, no separator, no NUL, not ending with a dot and no dot before
    a blank. *)
Definition blank (c : Z) : Prop := c = 32 \/ c = 9.
Definition proper (n : list Z) : Prop :=
  n <> [] /\ Forall (fun c => c <> 47 /\ c <> 92 /\ c <> 0) n /\ (forall p, n <> p ++ [46]) /\ (forall p q c, blank c -> n <> p ++ 46 :: c :: q).
Inductive comp : Type := Here | Up | Name (n : list Z).
Definition ctext (c : comp) : list Z := match c with Here => [46] | Up => [46; 46] | Name n => n end.
Definition cproper (c : comp) : Prop := match c with Name n => proper n | _ => True end.
(** An absolute path: each folder is ended by a slash or backslash. *)
Fixpoint ptext (l : list (comp * bool)) : list Z :=
  match l with [] => [] | (c, back) :: r => ctext c ++ (if back then 92 else 47) :: ptext r end.
(** The folder reached. *)
Fixpoint resolve (l : list (comp * bool)) (at_ : list (list Z)) : option (list (list Z)) :=
  match l with
  | [] => Some at_
  | (Here, _) :: r => resolve r at_
  | (Up, _) :: r => match at_ with [] => None | _ :: u => resolve r u end
  | (Name n, _) :: r => resolve r (n :: at_)
  end.
Definition folder_text (at_ : list (list Z)) : list Z := 47 :: flat_map (fun n => n ++ [47]) (rev at_).
(** An absolute path starts with a slash, possibly after blanks. Other paths are relative to the current folder. *)
Definition absolute (p : list Z) : Prop := exists w r, p = w ++ 47 :: r /\ Forall blank w.
Definition joined (path folder whole : list Z) : Prop := (absolute path /\ whole = path) \/ (~ absolute path /\ whole = folder ++ path).
(** A file name: no separator in it. *)
Definition plain (n : list Z) : Prop := Forall (fun c => c <> 47 /\ c <> 92) n.
Definition is_folder (d : list Z) : Prop := d = [] \/ exists p c, d = p ++ [c] /\ (c = 47 \/ c = 92).
