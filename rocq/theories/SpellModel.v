(** Model of the spelling of types in messages.

    Modelled: typeSpelling and typeSpellingRecursive (umka_types.c:14-43, 876-970),
    with the library functions snprintf and strncat on buffers of 256 bytes.

    Simplifications, stated once:
    - a type is a node of a list, a pointer to a type its position;
    - of other types (predeclared ones, structures, interfaces, fibers) only the word
      is kept, and whether they are void or structured;
    - every automatic buffer has the same contents at first, [junk];
    - forming a pointer behind the end of a buffer that is not used is no error;
    - the stack of the C program has no end: instead a call that never ends has no
      result for any fuel. *)
Require Import Arith List Bool Ascii String DecimalString.
Require Import Verif.Base.
Import ListNotations.
Local Open Scope nat_scope.

Definition text := list ascii.

Definition lit (s : string) : text := list_ascii_of_string s.

(** DEFAULT_STR_LEN + 1 (umka_common.h:15). *)
Definition SIZE : nat := 256.

(** Kinds of types that have an item type. *)
Inductive refk := RPtr | RWeak | RDyn.

(** spelling (umka_types.c:14-43). *)
Definition refWord (r : refk) : text :=
  match r with RPtr => lit "^" | RWeak => lit "weak ^" | RDyn => lit "[]" end.

(** Type (umka_types.h:140-175). The parameters of a function begin with #self or
    #upvalues, and end with #result if the result is structured. *)
Inductive kind :=
| KWord (w : text) (isVoid isStructured : bool)
| KEnum (w : text)
| KRef (r : refk) (j : nat)
| KArr (n : nat) (j : nat)
| KMap (k j : nat)
| KExprList (fs : list nat)
| KFn (isMethod : bool) (ps : list nat) (r : nat)
| KClosure (f : nat).

(** The name of a type of the outermost block, and its kind. *)
Record node := mkNode {
  gname : option text;
  nk : kind
}.

(** typeStructured (umka_types.h:300). *)
Definition structured (k : kind) : bool :=
  match k with
  | KWord _ _ s => s
  | KRef RDyn _ | KArr _ _ | KMap _ _ | KExprList _ | KClosure _ => true
  | _ => false
  end.

Definition isVoid (k : kind) : bool :=
  match k with KWord _ v _ => v | _ => false end.

(** "%d". *)
Definition dec (n : nat) : text := lit (NilZero.string_of_uint (Nat.to_uint n)).

(** * Buffers *)

Definition NUL : ascii := zero.

(** Bytes are written at an offset. *)
Definition poke (b : text) (off : nat) (s : text) : outcome text :=
  if off + List.length s <=? List.length b
  then Ok (firstn off b ++ s ++ skipn (off + List.length s) b)
  else UB.

(** The string in a buffer. *)
Fixpoint cstr (b : text) : outcome text :=
  match b with
  | [] => UB
  | c :: b => if Ascii.eqb c NUL then Ok [] else let* s := cstr b in Ok (c :: s)
  end.

(** len += snprintf(buf + len, nonneg(size - len), "%s", s). *)
Definition put (bl : text * nat) (s : text) : outcome (text * nat) :=
  let (b, len) := bl in
  let n := SIZE - len in
  let* b := match n with
            | 0 => Ok b
            | S n => poke b len (firstn n s ++ [NUL])
            end in
  Ok (b, len + List.length s).

(** strncat(buf, s, n). *)
Definition strncat (b : text) (s : text) (n : nat) : outcome text :=
  let* t := cstr b in
  poke b (List.length t) (firstn n s ++ [NUL]).

Section Spell.
Variable junk : text.
Variable h : list node.

(** for (int i = 0; i < type->numItems; i++), umka_types.c:906-910: [sp] spells a
    type into a fresh buffer. *)
Fixpoint fieldsTo (sp : nat -> outcome text) (fs : list nat) (bl : text * nat)
  : outcome (text * nat) :=
  match fs with
  | [] => Ok bl
  | f :: fs =>
      let* t := sp f in
      let* bl := put bl (t ++ lit " ") in
      fieldsTo sp fs bl
  end.

(** for (int i = numPreHiddenParams; ...), umka_types.c:931-938. *)
Fixpoint paramsTo (sp : nat -> outcome text) (first : bool) (ps : list nat)
  (bl : text * nat) : outcome (text * nat) :=
  match ps with
  | [] => Ok bl
  | p :: ps =>
      let* bl := if first then Ok bl else put bl (lit ", ") in
      let* t := sp p in
      let* bl := put bl t in
      paramsTo sp false ps bl
  end.

(** The branch for functions, umka_types.c:919-947. *)
Definition fnTo (sp : nat -> outcome text) (f : nat) (b : text)
  : outcome (text * nat) :=
  match nth_error h f with
  | Some (mkNode _ (KFn isMethod ps r)) =>
      match nth_error h r with
      | None => UB
      | Some rn =>
          let* bl := put (b, 0) (lit "fn (") in
          let* bl := if isMethod then
                       match ps with
                       | [] => UB
                       | p :: _ => let* t := sp p in put bl (t ++ lit ") (")
                       end
                     else Ok bl in
          let post := if structured (nk rn) then 1 else 0 in
          let* bl := paramsTo sp true (firstn (List.length ps - post - 1) (tl ps)) bl in
          let* bl := put bl (lit ")") in
          if isVoid (nk rn) then Ok bl
          else let* t := sp r in put bl (lit ": " ++ t)
      end
  | _ => UB
  end.

(** typeSpellingRecursive. *)
Fixpoint spell (fuel : nat) (d : nat) (i : nat) (buf : text) : outcome text :=
  match fuel with
  | 0 => Err EFuel
  | S fuel =>
      let sub j := let* b := spell fuel (Nat.pred d) j junk in cstr b in
      let item bl j :=
        let '(b, len) := (bl : text * nat) in
        let* t := if Nat.ltb 0 d then sub j else Ok (lit "...") in
        strncat b t (SIZE - len - 1) in
      match nth_error h i with
      | None => UB
      | Some n =>
          match gname n with
          | Some nm => let* bl := put (buf, 0) nm in Ok (fst bl)
          | None =>
              match nk n with
              | KArr m j =>
                  let* bl := put (buf, 0) (lit "[" ++ dec m ++ lit "]") in item bl j
              | KEnum w =>
                  let* bl := put (buf, 0) (lit "enum(" ++ w ++ lit ")") in Ok (fst bl)
              | KMap k j =>
                  let* t := sub k in
                  let* bl := put (buf, 0) (lit "map[" ++ t ++ lit "]") in item bl j
              | KExprList fs =>
                  match fs with
                  | [] => let* bl := put (buf, 0) (lit "struct") in Ok (fst bl)
                  | _ =>
                      let* bl := put (buf, 0) (lit "{ ") in
                      let* bl := fieldsTo sub fs bl in
                      let* bl := put bl (lit "}") in Ok (fst bl)
                  end
              | KFn _ _ _ => let* bl := fnTo sub i buf in Ok (fst bl)
              | KClosure f =>
                  let* bl := fnTo sub f buf in
                  let* bl := put bl (lit " |...|") in Ok (fst bl)
              | KWord w _ _ => let* bl := put (buf, 0) w in Ok (fst bl)
              | KRef r j =>
                  (* the length of the word is not added to len *)
                  let* bl := put (buf, 0) (refWord r) in item (fst bl, 0) j
              end
          end
      end
  end.

(** typeSpelling: the text that the caller sees. *)
Definition typeSpelling (fuel : nat) (i : nat) : outcome text :=
  let* b := spell fuel 10 i junk in cstr b.
End Spell.
