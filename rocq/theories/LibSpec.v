(** What the library functions of LibModel.v should do, written without their helpers. *)
From Coq Require Import ZArith Lia Bool List Sorted Znumtheory.
From Verif Require Import Base.
Import ListNotations.
Local Open Scope Z_scope.

(** UTF-8 as in RFC 3629: the bytes of a code point, by division. *)
Definition utf8 (r : Z) : list Z :=
  if r <? 128 then [r]
  else if r <? 2048 then [192 + r / 64; 128 + r mod 64]
  else if r <? 65536 then [224 + r / 4096; 128 + r / 64 mod 64; 128 + r mod 64]
  else [240 + r / 262144; 128 + r / 4096 mod 64; 128 + r / 64 mod 64; 128 + r mod 64].
Definition is_rune (r : Z) : Prop := 1 <= r <= 1114111.
Definition is_byte (b : Z) : Prop := 0 <= b <= 255.
Definition cont (b : Z) : bool := (128 <=? b) && (b <? 192).

(** The code point of a header byte followed by enough continuation bytes. Overlong forms, surrogates and values up to 0x1FFFFF are not excluded. *)
Definition lenient (l : list Z) : option Z :=
  match l with
  | b0 :: l =>
      if b0 <? 128 then Some b0
      else if b0 <? 192 then None
      else if b0 <? 224 then match l with b1 :: _ => if cont b1 then Some ((b0 - 192) * 64 + (b1 - 128)) else None | _ => None end
      else if b0 <? 240 then
        match l with b1 :: b2 :: _ => if cont b1 && cont b2 then Some ((b0 - 224) * 4096 + (b1 - 128) * 64 + (b2 - 128)) else None | _ => None end
      else if b0 <? 248 then
        match l with
        | b1 :: b2 :: b3 :: _ =>
            if cont b1 && cont b2 && cont b3 then Some ((b0 - 240) * 262144 + (b1 - 128) * 4096 + (b2 - 128) * 64 + (b3 - 128)) else None
        | _ => None
        end
      else None
  | [] => None
  end.
(** No part of the string looks like a code point above 0x10FFFF. *)
Definition in_unicode (s : list Z) : Prop := forall pre post v, s = pre ++ post -> lenient post = Some v -> v <= 1114111.

(** Removal of leading and trailing blanks. *)
Definition blank (c : Z) : Prop := c <= 32.
Definition trimmed_left (s t : list Z) : Prop := exists a, s = a ++ t /\ Forall blank a /\ (t = [] \/ exists c r, t = c :: r /\ ~ blank c).
Definition trimmed_right (s t : list Z) : Prop := exists b, s = t ++ b /\ Forall blank b /\ (t = [] \/ exists r c, t = r ++ [c] /\ ~ blank c).
Definition trimmed (s t : list Z) : Prop :=
  exists a b, s = a ++ t ++ b /\ Forall blank a /\ Forall blank b /\ (t = [] \/ (exists c r, t = c :: r /\ ~ blank c) /\ (exists r c, t = r ++ [c] /\ ~ blank c)).

(** Effects of a callback applied to the items of a list in order. *)
Fixpoint map_in_order {S A B : Type} (f : A -> S -> outcome (B * S)) (l : list A) (s : S) : outcome (list B * S) :=
  match l with
  | [] => Ok ([], s)
  | x :: l => let* p := f x s in let* q := map_in_order f l (snd p) in Ok (fst p :: fst q, snd q)
  end.
Fixpoint keep {A : Type} (l : list A) (bs : list bool) : list A :=
  match l, bs with x :: l, b :: bs => if b then x :: keep l bs else keep l bs | _, _ => [] end.
Fixpoint fold_in_order {S A : Type} (f : A -> A -> S -> outcome (A * S)) (l : list A) (acc : A) (s : S) : outcome (A * S) :=
  match l with [] => Ok (acc, s) | x :: l => let* p := f acc x s in fold_in_order f l (fst p) (snd p) end.
