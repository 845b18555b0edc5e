(** Parts of the standard library written in Umka: utf8.um, the string and random number functions of std.um, fnc.um.
    The sources are in /repo/runtime; /repo/src/umka_runtime_src.h holds the same text as C strings.

    Umka's int is a 64-bit integer; none of the int operations below can overflow, since strings are shorter than 2^31. Strings and arrays of
    characters are lists of bytes; a string holds no zero byte (see C15). Integer operators are those of NumModel.v, written as the operations of
    [Z] they are equal to (C05). *)
From Coq Require Import ZArith Lia Bool List.
From Verif Require Import Base.
Import ListNotations.
Local Open Scope Z_scope.

(** The conversion char(x) of an integer: doAssertRange, /repo/src/umka_vm.c:3734-3741. *)
Definition toChar (x : Z) : outcome Z := if (0 <=? x) && (x <=? 255) then Ok x else Err EOverflow.
(** a[i] for a dynamic array: doGetDynArrayPtr, /repo/src/umka_vm.c:3644-3667. *)
Definition at_ (a : list Z) (i : Z) : outcome Z := if (i <? 0) || (Z.of_nat (length a) <=? i) then Err EIndex else Ok (nth (Z.to_nat i) a 0).
(** str(a) for a dynamic array of characters: up to the first zero. doBuiltinMakeStr, /repo/src/umka_vm.c:2322-2358. *)
Fixpoint toStr (a : list Z) : list Z := match a with [] => [] | c :: r => if c =? 0 then [] else c :: toStr r end.

(** ** utf8.um *)
(** /repo/runtime/utf8.um:5-8. Rune is int32. *)
Definition errRune : Z := 65533.
Definition errStr : list Z := [239; 191; 189].
(** /repo/runtime/utf8.um:10. *)
Definition headerOnes (i : Z) : outcome Z := at_ [0; 0; 192; 224; 240; 248] i.
(** size: /repo/runtime/utf8.um:12-18. *)
Definition runeSize (r : Z) : Z := if r <=? 127 then 1 else if r <=? 2047 then 2 else if r <=? 65535 then 3 else if r <=? 1114111 then 4 else -1.
(** encode of a rune: /repo/runtime/utf8.um:20-37. The loop writes chars[1], chars[2], ... in this order; chars has one more item, which is zero. *)
Fixpoint encodeTail (n : nat) (r shift : Z) : outcome (list Z) :=
  match n with
  | O => Ok [0]
  | S n =>
      let shift := shift - 6 in
      let* c := toChar (Z.lor (Z.land (Z.shiftr r shift) 63) 128) in
      let* l := encodeTail n r shift in Ok (c :: l)
  end.
Definition encodeRune (r : Z) : outcome (list Z) :=
  let size := runeSize r in
  if size <=? 0 then Ok errStr
  else if size =? 1 then let* c := toChar r in Ok (toStr [c])
  else
    let shift := (size - 1) * 6 in
    let* h := headerOnes size in
    let* c := toChar (Z.land (Z.lor (Z.land (Z.shiftr r shift) 255) h) 255) in
    let* l := encodeTail (Z.to_nat (size - 1)) r shift in Ok (toStr (c :: l)).
(** encode of an array: /repo/runtime/utf8.um:39-45. *)
Fixpoint encode (rs : list Z) (s : list Z) : outcome (list Z) :=
  match rs with [] => Ok s | r :: rest => let* e := encodeRune r in encode rest (s ++ e) end.
(** decodeRune: /repo/runtime/utf8.um:47-88. The loop over continuation bytes from [i] on. *)
Fixpoint decodeTail (n : nat) (chars : list Z) (pos i shift rune : Z) : outcome Z :=
  match n with
  | O => Ok rune
  | S n =>
      if Z.of_nat (length chars) <=? pos + i then Ok errRune
      else
        let* byte := at_ chars (pos + i) in
        if negb (Z.land byte 192 =? 128) then Ok errRune
        else
          let shift := shift - 6 in
          decodeTail n chars pos (i + 1) shift (Z.lor rune (Z.shiftl (Z.land byte 63) shift))
  end.
Definition decodeRune (chars : list Z) (pos : Z) : outcome Z :=
  let* header := at_ chars pos in
  if Z.land header 128 =? 0 then Ok header
  else
    let* h2 := headerOnes 2 in let* h3 := headerOnes 3 in let* h4 := headerOnes 4 in let* h5 := headerOnes 5 in
    let size := if Z.land header h3 =? h2 then 2 else if Z.land header h4 =? h3 then 3 else if Z.land header h5 =? h4 then 4 else 0 in
    if size =? 0 then Ok errRune
    else
      let shift := (size - 1) * 6 in
      let* h := headerOnes (size + 1) in
      let rune := Z.shiftl (Z.land header (Z.lnot h)) shift in
      decodeTail (Z.to_nat (size - 1)) chars pos 1 shift rune.
(** decode: /repo/runtime/utf8.um:90-104. [fuel] bounds the number of iterations. *)
Fixpoint decodeLoop (fuel : nat) (chars : list Z) (pos : Z) (runes : list Z) : outcome (list Z) :=
  match fuel with
  | O => Err EFuel
  | S fuel =>
      if pos <? Z.of_nat (length chars) then
        let* rune := decodeRune chars pos in
        if rune =? errRune then Ok runes
        else decodeLoop fuel chars (pos + runeSize rune) (runes ++ [rune])
      else Ok runes
  end.
Definition decode (fuel : nat) (s : list Z) : outcome (list Z) := decodeLoop fuel s 0 [].
(** runeCount: /repo/runtime/utf8.um:106-120. *)
Fixpoint countLoop (fuel : nat) (chars : list Z) (pos count : Z) : outcome Z :=
  match fuel with
  | O => Err EFuel
  | S fuel =>
      if pos <? Z.of_nat (length chars) then
        let* rune := decodeRune chars pos in
        if rune =? errRune then Ok count
        else countLoop fuel chars (pos + runeSize rune) (count + 1)
      else Ok count
  end.
Definition runeCount (fuel : nat) (s : list Z) : outcome Z := countLoop fuel s 0 0.

(** ** std.um: strings *)
(** slice(s, i, j) of a string with 0 <= i <= j <= len(s): C15. *)
Definition sliceStr (s : list Z) (i j : Z) : list Z := firstn (Z.to_nat (j - i)) (skipn (Z.to_nat i) s).
(** The loops of ltrim and rtrim, /repo/runtime/std.um:279-284 and 292-297. s[i] is always within the string. *)
Fixpoint firstBig (s : list Z) (i : Z) : Z := match s with [] => -1 | c :: r => if 32 <? c then i else firstBig r (i + 1) end.
Fixpoint lastBig (s : list Z) (n : nat) : Z := match n with O => -1 | S k => if 32 <? nth k s 0 then Z.of_nat k else lastBig s k end.
(** ltrim, rtrim, trim: /repo/runtime/std.um:276-304. *)
Definition ltrim (s : list Z) : list Z :=
  let start := firstBig s 0 in
  if start =? -1 then [] else sliceStr s start (Z.of_nat (length s)).
Definition rtrim (s : list Z) : list Z :=
  let stop := lastBig s (length s) in
  if stop =? -1 then [] else sliceStr s 0 (stop + 1).
Definition trim (s : list Z) : list Z := ltrim (rtrim s).

(** ** std.um: random numbers *)
(** rand: /repo/runtime/std.um:337-347. randSeed is an uint: << wraps at 2^64 (C05). *)
Definition U64 : N := 2 ^ 64.
Definition randStep (s : N) : N :=
  let s := N.lxor s (N.modulo (N.shiftl s 13) U64) in
  let s := N.lxor s (N.shiftr s 7) in
  N.lxor s (N.modulo (N.shiftl s 17) U64).
Definition randMax : N := 2147483647.
Definition rand (s : N) : N * N := let s := randStep s in (s, N.land s randMax).
(** srand: /repo/runtime/std.um:353-358. The result of rand() is dropped. *)
Definition srand (seed : Z) (s : N) : N := if 0 <? seed then fst (rand (Z.to_N seed)) else s.

(** ** fnc.um *)
(** The callback may change the state and fail. The array is read again in every step, since the callback may have changed it. *)
Section Fnc.
Variables (S A B : Type).
Variable arr : S -> list A.
(** a[i]. *)
Definition item (s : S) (i : nat) : outcome A := match nth_error (arr s) i with Some x => Ok x | None => Err EIndex end.
(** transform: /repo/runtime/fnc.um:5-11. [res] has a fixed length; [zero] is the zero value. The index of res[i] is checked before f is called. *)
Fixpoint transformLoop (fuel : nat) (f : A -> S -> outcome (B * S)) (i : nat) (res : list B) (s : S) : outcome (list B * S) :=
  match fuel with
  | O => Err EFuel
  | Datatypes.S fuel =>
      if Nat.ltb i (length (arr s)) then
        if Nat.ltb i (length res) then
          let* x := item s i in
          let* p := f x s in
          transformLoop fuel f (i + 1) (firstn i res ++ fst p :: skipn (i + 1) res) (snd p)
        else Err EIndex
      else Ok (res, s)
  end.
Definition transform (fuel : nat) (zero : B) (f : A -> S -> outcome (B * S)) (s : S) : outcome (list B * S) := transformLoop fuel f 0 (repeat zero (length (arr s))) s.
(** filter: /repo/runtime/fnc.um:13-21. The item is read again after the call. *)
Fixpoint filterLoop (fuel : nat) (f : A -> S -> outcome (bool * S)) (i : nat) (res : list A) (s : S) : outcome (list A * S) :=
  match fuel with
  | O => Err EFuel
  | Datatypes.S fuel =>
      if Nat.ltb i (length (arr s)) then
        let* x := item s i in
        let* p := f x s in
        if fst p then let* y := item (snd p) i in filterLoop fuel f (i + 1) (res ++ [y]) (snd p)
        else filterLoop fuel f (i + 1) res (snd p)
      else Ok (res, s)
  end.
Definition filter_ (fuel : nat) (f : A -> S -> outcome (bool * S)) (s : S) : outcome (list A * S) := filterLoop fuel f 0 [] s.
(** reduce: /repo/runtime/fnc.um:23-29. *)
Fixpoint reduceLoop (fuel : nat) (f : A -> A -> S -> outcome (A * S)) (i : nat) (res : A) (s : S) : outcome (A * S) :=
  match fuel with
  | O => Err EFuel
  | Datatypes.S fuel =>
      if Nat.ltb i (length (arr s)) then
        let* x := item s i in
        let* p := f res x s in
        reduceLoop fuel f (i + 1) (fst p) (snd p)
      else Ok (res, s)
  end.
Definition reduce (fuel : nat) (f : A -> A -> S -> outcome (A * S)) (s : S) : outcome (A * S) := let* x := item s 0 in reduceLoop fuel f 1 x s.
End Fnc.
