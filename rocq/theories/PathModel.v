(** Module paths, src/umka_common.c. *)
From Coq Require Import ZArith Bool List.
From Verif Require Import Base.
Import ListNotations.
Local Open Scope Z_scope.

(** C strings are lists of characters without the terminating NUL. *)
Definition cstr : Type := list Z.

(** src/umka_common.c:411-424, modulePathIsAbsolute (not Windows). *)
Fixpoint modulePathIsAbsolute (path : cstr) : bool :=
  match path with
  | [] => false
  | c :: r => if (c =? 32) || (c =? 9) then modulePathIsAbsolute r else c =? 47
  end.

(** The local variables of moduleRegularizePath: the text before writeCh, the array of separators (as offsets, the first
    numSeparators of them), numDots. *)
Record ps : Type := mkps { out : cstr; seps : list Z; dots : Z }.
(** *(writeCh++) = c, in a buffer of [size] characters. *)
Definition wr (size : Z) (p : ps) (c : Z) : outcome ps :=
  if Z.of_nat (length (out p)) <? size then Ok (mkps (out p ++ [c]) (seps p) (dots p)) else UB.
(** separators[numSeparators++] = writeCh; the array has [size] entries. *)
Definition pushSep (size : Z) (p : ps) : outcome ps :=
  if Z.of_nat (length (seps p)) <? size then Ok (mkps (out p) (seps p ++ [Z.of_nat (length (out p))]) (dots p)) else UB.
(** src/umka_common.c:485-489, the loop that writes the dots. *)
Fixpoint wrDots (n : nat) (size : Z) (p : ps) : outcome ps :=
  match n with
  | O => Ok p
  | S n => let* p := wr size p 46 in wrDots n size (mkps (out p) (seps p) (dots p - 1))
  end.
(** src/umka_common.c:440-497, one turn of the loop. None is return false. *)
Definition pathStep (size : Z) (p : ps) (c : Z) : outcome (option ps) :=
  if (c =? 47) || (c =? 92) then
    if dots p =? 1 then Ok (Some (mkps (out p) (seps p) 0))
    else if dots p =? 2 then
      let n := Z.of_nat (length (seps p)) in
      if n <? 2 then Ok None else
      let s := firstn (length (seps p) - 1) (seps p) in
      match nth_error s (length s - 1) with
      | Some w => Ok (Some (mkps (firstn (Z.to_nat (w + 1)) (out p)) s 0))
      | None => UB
      end
    else
      let* p := pushSep size p in
      let* p := wr size p 47 in
      Ok (Some (mkps (out p) (seps p) 0))
  else if c =? 46 then Ok (Some (mkps (out p) (seps p) (dots p + 1)))
  else
    let p := if (c =? 32) || (c =? 9) then mkps (out p) (seps p) 0 else p in
    let* p := wrDots (Z.to_nat (dots p)) size p in
    let* p := wr size p c in
    Ok (Some p).
Fixpoint pathLoop (size : Z) (l : cstr) (p : ps) : outcome (option ps) :=
  match l with
  | [] => Ok (Some p)
  | c :: r => let* q := pathStep size p c in match q with Some p => pathLoop size r p | None => Ok None end
  end.
(** src/umka_common.c:427-505, moduleRegularizePath. snprintf cuts the text to size - 1 characters. numDots does not overflow an
    int, as a path has less than 2^31 characters. None means false was returned. *)
Definition moduleRegularizePath (path curFolder : cstr) (size : Z) : outcome (option cstr) :=
  let absolutePath := firstn (Z.to_nat (size - 1)) ((if modulePathIsAbsolute path then [] else curFolder) ++ path) in
  let* q := pathLoop size absolutePath (mkps [] [] 0) in
  match q with
  | None => Ok None
  | Some p => if 0 <? dots p then Ok None else let* p' := wr size p 0 in Ok (Some (out p))
  end.

(** src/umka_common.c:242-262, moduleNameFromPath. strrchr. The results fit, as a path is shorter than the buffers. *)
Fixpoint strrchrB (s : cstr) (c : Z) (i : Z) (last : option Z) : option Z :=
  match s with [] => last | x :: r => strrchrB r c (i + 1) (if x =? c then Some i else last) end.
Definition strrchr (s : cstr) (c : Z) : option Z := strrchrB s c 0 None.
Definition moduleNameFromPath (path : cstr) : outcome (cstr * cstr) :=
  let slash := strrchr path 47 in
  let backslash := strrchr path 92 in
  let slash := match backslash, slash with Some b, None => Some b | Some b, Some a => if a <? b then Some b else slash | None, _ => slash end in
  let start := match slash with Some i => i + 1 | None => 0 end in
  let stop := match strrchr path 46 with Some i => i | None => Z.of_nat (length path) end in
  if stop <=? start then Err ESyntax
  else Ok (firstn (Z.to_nat start) path, firstn (Z.to_nat (stop - start)) (skipn (Z.to_nat start) path)).
