(** * Modules that can be compiled *)
From Coq Require Import ZArith List Bool String Ascii.
From Verif Require Import Base ImportModel.
Import ListNotations.

(** No blank and no tab. *)
Definition noBlank (s : string) : Prop :=
  forall c, In c (list_ascii_of_string s) -> c <> " "%char /\ c <> "009"%char.

Section S.
  Variable w : world.
  Variables (main : string) (mainText : list item).

  (** The text of a module: that of the main module, a text that was added, or a file. *)
  Definition textOf (p : string) : option (list item) :=
    if String.eqb p main then Some mainText
    else match source w p with Some ts => Some ts | None => file w p end.

  (** The module that a path in an import in module [m] stands for. *)
  Definition target (m t : string) : option string :=
    match regCur w t with
    | Some p => if source w p then Some p else regIn w m t
    | None => regIn w m t
    end.

  (** [m] imports [k]. *)
  Definition imports (m k : string) : Prop :=
    exists ts it, textOf m = Some ts /\ In it ts /\ target m (text it) = Some k.

  Inductive reach : string -> Prop :=
  | reach_main : reach main
  | reach_step m k : reach m -> imports m k -> reach k.

  Inductive chain : string -> string -> Prop :=
  | chain_one m k : imports m k -> chain m k
  | chain_step m k l : chain m k -> imports k l -> chain m l.

  (** The name by which an import is known in the module. *)
  Definition knownAs (m : string) (it : item) : option string :=
    match given it with
    | Some a => Some a
    | None => match target m (text it) with Some k => nameOf w k | None => None end
    end.

  (** A module by itself: it has a text and a name without blanks; what it imports has a path and a
      name; no module is imported twice; no two imports have one name, nor the name of the module. *)
  Definition wellFormed (m : string) : Prop :=
    exists ts name, textOf m = Some ts /\ nameOf w m = Some name /\ noBlank name /\
      (forall it, In it ts -> exists k, target m (text it) = Some k) /\
      NoDup (map (fun it => target m (text it)) ts) /\
      NoDup (Some name :: map (knownAs m) ts).

  (** The program: all modules are well-formed, none imports itself through others, and there are
      fewer than the greatest number. *)
  Definition legal : Prop :=
    (forall m, reach m -> wellFormed m) /\
    (forall m, reach m -> ~ chain m m) /\
    (forall l, NoDup l -> (forall m, In m l -> reach m) -> List.length l < MAX_MODULES).

  (** A text added for a path is found by every import of this path, and no path is the one used for
      the predeclared identifiers. *)
  Definition consistent : Prop :=
    (forall m t k, reach m -> target m t = Some k -> source w k <> None -> k <> main -> regCur w t = Some k) /\
    ~ reach "#universe".
End S.
