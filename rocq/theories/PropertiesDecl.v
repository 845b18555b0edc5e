(** Properties C41 (automatic values) and C44 (expression lists). *)
From Coq Require Import ZArith Lia Bool List String.
From Verif Require Import Base NumModel NumSpec DeclModel DeclSpec DeclProofs.
Import ListNotations.
Local Open Scope Z_scope.

(** C41, enumerations: an accepted enumeration has exactly the specified constants (automatic values are one more than
    their predecessors, all values are in range, names and values are unique, some constant is 0), and a rejected one could
    not have had them. The remaining case, an automatic value of 2^63, is undefined behaviour.
    Partial: explicit values of type uint, or in an enumeration based on uint, must be from 0 to 2^63 - 1. *)
Theorem C41_enum_partial : forall base its,
  kindIntegerOrEnum base = true -> Forall (explOk base) its ->
  match parseEnumType base its with
  | Ok cs => enumOk base its cs
  | Err _ => forall cs, ~ enumOk base its cs
  | UB => enumEdge base its
  end.
Proof. exact enum_thm. Qed.
Print Assumptions C41_enum_partial.

Example C41_enum_ex :
  Forall (explOk KUInt8) [("a"%string, None); ("b"%string, Some (KInt, 254)); ("c"%string, None)] /\
  parseEnumType KUInt8 [("a"%string, None); ("b"%string, Some (KInt, 254)); ("c"%string, None)] =
    Ok [("a"%string, 0); ("b"%string, 254); ("c"%string, 255)] /\
  parseEnumType KUInt8 [("a"%string, Some (KInt, 255)); ("b"%string, None)] = Err EOverflow /\
  parseEnumType KInt [("a"%string, Some (KInt, 5))] = Ok [("a"%string, 5); ("zero"%string, 0)] /\
  parseEnumType KInt [("zero"%string, Some (KInt, 5))] = Err EDuplicate.
Proof.
  split; [|repeat split; reflexivity].
  repeat constructor; cbn; try lia; try discriminate.
Qed.

(** C41, constant groups. Partial: values of type uint must be below 2^63. *)
Theorem C41_const_partial : forall es,
  Forall cexplOk es ->
  match parseConstDecl None es with
  | Ok cs => constVals None es cs
  | Err _ => forall cs, ~ constVals None es cs
  | UB => constEdge es
  end.
Proof.
  intros es F. pose proof (const_loop es None F Logic.I) as H. exact H.
Qed.
Print Assumptions C41_const_partial.

Example C41_const_ex :
  let i8 := {| ckind := KInt8; cenum := false |} in
  let st := {| ckind := KStr; cenum := false |} in
  Forall cexplOk [Some (i8, 126); None; Some (st, 0)] /\
  parseConstDecl None [Some (i8, 126); None; Some (st, 0)] = Ok [(i8, 126); (i8, 127); (st, 0)] /\
  parseConstDecl None [Some (i8, 126); None; None] = Err EOverflow /\
  parseConstDecl None [Some (st, 0); None] = Err ESyntax.
Proof.
  cbv zeta. split; [|repeat split; reflexivity]. repeat constructor; cbn; try lia; try discriminate.
Qed.

(** C41 is false for uint: after 2^64 - 1 comes 0, and after 2^63 - 1 undefined behaviour; an enumeration accepts explicit
    values outside its base type; an int enumeration has undefined behaviour after 2^63 - 1. *)
Theorem C41_refuted :
  (let u := {| ckind := KUInt; cenum := false |} in
   parseConstDecl None [Some (u, -1); None] = Ok [(u, -1); (u, 0)] /\ denote KUInt (-1) = 18446744073709551615) /\
  (let u := {| ckind := KUInt; cenum := false |} in
   parseConstDecl None [Some (u, 9223372036854775807); None] = UB) /\
  parseEnumType KUInt [("a"%string, Some (KUInt, -1)); ("b"%string, None)] = Ok [("a"%string, -1); ("b"%string, 0)] /\
  parseEnumType KInt [("a"%string, Some (KUInt, -1))] = Ok [("a"%string, -1); ("zero"%string, 0)] /\
  parseEnumType KUInt [("a"%string, Some (KInt, -1))] = Ok [("a"%string, -1); ("zero"%string, 0)] /\
  parseEnumType KInt [("a"%string, Some (KInt, 9223372036854775807)); ("b"%string, None)] = UB.
Proof. repeat split; reflexivity. Qed.
Print Assumptions C41_refuted.

(** C44: a list of expressions gives its values, converted, in order, whether it is evaluated at compile time or by generated
    code; anything else, in particular more than 16 expressions, is an error. The only exception is a constant list of more
    than 16 expressions. *)
Theorem C44_list_partial : forall (T V : Type) (isList : T -> bool) (conv : nat -> T -> V -> outcome (T * V)) (vdef : V),
  (forall i t v, conv i t v <> UB) ->
  forall isConst e es, Forall (fun x => x <> UB) (e :: es) ->
  match parseExprList isList conv vdef isConst e es with
  | Ok fs => listOk isList conv (e :: es) fs
  | Err _ => forall fs, ~ listOk isList conv (e :: es) fs
  | UB => isConst = true /\ (16 < List.length (e :: es))%nat
  end.
Proof. intros T V isList conv vdef D isConst e es F. exact (list_thm isList conv vdef D isConst e es F). Qed.
Print Assumptions C44_list_partial.

(** C44 is false for a constant list of 17 expressions, e.g. in a global "var a, b: int = 1, 2, ..., 17": the 17th
    value is written past the end of the buffer before the list is found to be too long. *)
Definition idconv (i : nat) (t : unit) (v : Z) : outcome (unit * Z) := Ok (t, v).
Theorem C44_refuted :
  parseExprList (fun _ => false) idconv 0 true (Ok (tt, 1)) (repeat (Ok (tt, 2)) 16) = UB /\
  parseExprList (fun _ => false) idconv 0 false (Ok (tt, 1)) (repeat (Ok (tt, 2)) 16) = Err ETooMany.
Proof. split; reflexivity. Qed.
Print Assumptions C44_refuted.

Example C44_ex : (forall i t v, idconv i t v <> UB) /\
  parseExprList (fun _ => false) idconv 0 true (Ok (tt, 1)) [Ok (tt, 5); Ok (tt, 7)] = Ok [(tt, 1); (tt, 5); (tt, 7)] /\
  parseExprList (fun _ => false) idconv 0 true (Ok (tt, 1)) (repeat (Ok (tt, 2)) 15) = Ok ((tt, 1) :: repeat (tt, 2) 15).
Proof. split; [discriminate|split; reflexivity]. Qed.
