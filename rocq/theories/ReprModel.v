(** The textual representation of values by %v and the building of a string by sprintf (src/umka_vm.c:1658-1909, 2024-2091).
    A buffer is the list of its bytes; writing past its end is undefined. *)
From Coq Require Import ZArith Bool List.
From Verif Require Import Base.
Import ListNotations.
Local Open Scope Z_scope.

(** Where a value is: its address and type. *)
Definition ref : Type := Z.

(** What doFillReprBuf sees of a value: its kind, its contents, where its parts are. Names and type spellings are texts.
    - [NPtr p t]: [t] is nothing for a null pointer and for a pointer to void.
    - [NDyn], [NMap]: nothing for arrays and maps without data; the entries of a map are its keys in the order of doGetMapKeys
      with their items.
    - [NStruct skip fields]: also closures; [skip]: typeExprListStruct.
    - [NIface]: nothing for null. *)
Inductive node : Type :=
| NVoid | NInt (v : Z) | NUInt (v : Z) | NBool (v : Z) | NChar (v : Z) | NReal (v : Z)
| NPtr (p : Z) (t : option ref) | NWeak (p : Z) | NStr (s : list Z)
| NArr (items : list ref) | NDyn (items : option (list ref)) | NMap (entries : option (list (ref * ref)))
| NStruct (skip : bool) (fields : list (list Z * ref)) | NIface (self : option (list Z * ref))
| NFiber (p : Z) | NFn (v : Z) | NOther.

(** The texts the C library makes of numbers: %lld, %llu, %lg, %p, %llx, 0x%02X. They are the same at every call. *)
Record lib : Type := { tInt : Z -> list Z; tUInt : Z -> list Z; tReal : Z -> list Z; tPtr : Z -> list Z; tHex : Z -> list Z; tHex2 : Z -> list Z }.

(** A buffer, or NULL. *)
Definition obuf : Type := option (list Z).

(** snprintf(nonnull(buf, off), maxLen, text): the length of the text and the buffer with its beginning, as far as it fits, and a
    zero. A text that long that its length is no int is taken as undefined. *)
Definition sn (text : list Z) (maxLen off : Z) (b : obuf) : outcome (Z * obuf) :=
  if INT_MAX <? Z.of_nat (length text) then UB else
  match b with
  | None => Ok (Z.of_nat (length text), None)
  | Some l =>
      if maxLen <=? 0 then Ok (Z.of_nat (length text), Some l) else
      let t := firstn (Z.to_nat (maxLen - 1)) text ++ [0] in
      if (off <? 0) || (Z.of_nat (length l) <? off + Z.of_nat (length t)) then UB
      else Ok (Z.of_nat (length text), Some (firstn (Z.to_nat off) l ++ t ++ skipn (Z.to_nat off + length t) l))
  end.

(** A printing function: of maxLen, the offset and the buffer. *)
Definition printer : Type := Z -> Z -> obuf -> outcome (Z * obuf).
(** len += f(nonnull(buf, len), maxLen, ...), in sequence. *)
Definition nothing : printer := fun _ _ b => Ok (0, b).
Definition andThen (f g : printer) : printer := fun maxLen off b =>
  let* x := f maxLen off b in
  let* y := g maxLen (off + fst x) (snd x) in
  if INT_MAX <? fst x + fst y then UB else Ok (fst x + fst y, snd y).

Definition spaces (n : nat) : list Z := repeat 32 n.
(** "\n%*c" with the width [w] > 0 and a blank. *)
Definition newLine (w : nat) : list Z := 10 :: spaces w.

(** src/umka_vm.c:1658-1704, doPrintIndented, by the character: opening, closing, blank. *)
Definition openInd (c : Z) (depth : nat) (pretty : bool) : printer :=
  andThen (sn [c]) (if pretty then sn (newLine (4 * (depth + 1))) else nothing).
Definition closeInd (c : Z) (depth : nat) (pretty : bool) : printer :=
  andThen (if pretty then if (0 <? depth)%nat then sn (newLine (4 * depth)) else sn [10] else nothing) (sn [c]).
Definition sepInd (depth : nat) (pretty : bool) : printer :=
  if pretty then sn (newLine (4 * (depth + 1))) else sn [32].

(** The loops over items (lines 1769-1779, 1793-1803, 1825-1845, 1862-1872): a separator after each but the last. *)
Fixpoint loop (A : Type) (one : A -> printer) (sep : printer) (l : list A) : printer :=
  match l with
  | [] => nothing
  | [x] => one x
  | x :: r => andThen (andThen (one x) sep) (loop A one sep r)
  end.

(** src/umka_vm.c:1713, MAX_DEPTH. *)
Definition MAX_DEPTH : nat := 20.

Definition tVoid : list Z := [118; 111; 105; 100].
Definition tTrue : list Z := [116; 114; 117; 101].
Definition tFalse : list Z := [102; 97; 108; 115; 101].
Definition tNull : list Z := [110; 117; 108; 108].
Definition tFiber : list Z := [102; 105; 98; 101; 114; 32; 64; 32].
Definition tFn : list Z := [102; 110; 32; 64; 32].

Section Repr.
Variable C : lib.
(** What is in memory, or the error of reading it (doDerefImpl, doCheckStr, doGetMapNode). *)
Variable look : ref -> outcome node.

(** src/umka_vm.c:1707-1909, doFillReprBuf. [todo]: MAX_DEPTH - depth. The reading of the parts before printing them is part of
    the reading of the value here: an error comes earlier, with the same text of the error. *)
Fixpoint fill (pretty deref : bool) (todo : nat) (r : ref) {struct todo} : printer := fun maxLen off b =>
  let depth := (MAX_DEPTH - todo)%nat in
  match todo with
  | O => sn [46; 46; 46] maxLen off b
  | S todo1 =>
      let* n := look r in
      let go := fill pretty deref todo1 in
      (match n with
       | NVoid => sn tVoid
       | NInt v => sn (tInt C v)
       | NUInt v => sn (tUInt C v)
       | NBool v => sn (if v =? 0 then tFalse else tTrue)
       | NChar v => let c := v mod 256 in sn (if 32 <=? c then [39; c; 39] else tHex2 C c)
       | NReal v => sn (tReal C v)
       | NPtr p t =>
           andThen (sn (tPtr C p))
             match t with
             | Some r1 => if deref then andThen (andThen (andThen (sn [32; 45; 62; 32]) (openInd 40 depth pretty)) (go r1)) (closeInd 41 depth pretty) else nothing
             | None => nothing
             end
       | NWeak p => sn (tHex C p)
       | NStr s => sn (34 :: s ++ [34])
       | NArr items => andThen (andThen (openInd 91 depth pretty) (loop ref go (sepInd depth pretty) items)) (closeInd 93 depth pretty)
       | NDyn items =>
           andThen (andThen (openInd 91 depth pretty) match items with Some l => loop ref go (sepInd depth pretty) l | None => nothing end) (closeInd 93 depth pretty)
       | NMap entries =>
           andThen (andThen (openInd 123 depth pretty)
             match entries with
             | Some l => loop (ref * ref) (fun e => andThen (andThen (go (fst e)) (sn [58; 32])) (go (snd e))) (sepInd depth pretty) l
             | None => nothing
             end) (closeInd 125 depth pretty)
       | NStruct skip fields =>
           andThen (andThen (openInd 123 depth pretty)
             (loop (list Z * ref) (fun f => if skip then go (snd f) else andThen (sn (fst f ++ [58; 32])) (go (snd f))) (sepInd depth pretty) fields)) (closeInd 125 depth pretty)
       | NIface (Some (name, r1)) =>
           if pretty then andThen (andThen (andThen (sn name) (openInd 40 depth pretty)) (go r1)) (closeInd 41 depth pretty) else go r1
       | NIface None => sn tNull
       | NFiber p => sn (tFiber ++ tPtr C p)
       | NFn v => sn (tFn ++ tInt C v)
       | NOther => nothing
       end) maxLen off b
  end.

(** src/umka_vm.c:2025-2064: the prediction, the buffer (of 256 bytes, or of the needed size from the storage, whose contents
    are arbitrary: [junk]), the filling. *)
Definition doRepr (pretty deref : bool) (r : ref) (junk : list Z) : outcome (Z * list Z) :=
  let* x := fill pretty deref MAX_DEPTH r 0 0 None in
  let reprLen := fst x in
  if INT_MAX <? reprLen + 1 then UB else
  let size := if 256 <? reprLen + 1 then reprLen + 1 else 256 in
  let repr := firstn (Z.to_nat size) (junk ++ repeat 0 (Z.to_nat size)) in
  let repr := firstn (Z.to_nat reprLen) repr ++ 0 :: skipn (Z.to_nat reprLen + 1) repr in
  let* y := fill pretty deref MAX_DEPTH r (reprLen + 1) 0 (Some repr) in
  match snd y with
  | Some l => Ok (reprLen, l)
  | None => UB
  end.
End Repr.

(** ** sprintf *)

(** A string: its length and its buffer of [capacity] bytes. *)
Record rstr : Type := { rlen : Z; rbuf : list Z }.
Definition rcap (s : rstr) : Z := Z.of_nat (length (rbuf s)).

(** src/umka_vm.c:1425-1438, doGetEmptyStr. *)
Definition emptyStr : rstr := {| rlen := 0; rbuf := [0] |}.

(** src/umka_vm.c:1406-1422, doAllocStr. [junk]: the former contents of the memory. *)
Definition allocStr (len : Z) (junk : list Z) : outcome rstr :=
  let cap := 2 * (len + 1) in
  let cap := if INT_MAX - 1024 <? cap then INT_MAX - 1024 else cap in
  let cap := if cap <? len then len else cap in
  let b := firstn (Z.to_nat cap) (junk ++ repeat 0 (Z.to_nat cap)) in
  if (len <? 0) || (cap <=? len) then UB
  else Ok {| rlen := len; rbuf := firstn (Z.to_nat len) b ++ 0 :: skipn (Z.to_nat len + 1) b |}.

(** src/umka_vm.c:2066-2091: one step, [text] being what the library prints for the piece and the value, and [prevLen] the number
    of characters printed before. *)
Definition sprintfStep (s : rstr) (prevLen : Z) (text : list Z) (junk : list Z) : outcome (rstr * Z) :=
  let* x := sn text 0 0 (Some (rbuf s)) in
  let len := fst x in
  if INT_MAX <? prevLen + len + 1 then UB else
  let* s1 :=
    if prevLen + len + 1 <=? rcap s then Ok {| rlen := prevLen + len; rbuf := rbuf s |}
    else
      let* n := allocStr (prevLen + len) junk in
      if (rcap s <? prevLen) || (rcap n <=? prevLen) then UB
      else Ok {| rlen := rlen n; rbuf := firstn (Z.to_nat prevLen) (rbuf s) ++ 0 :: skipn (Z.to_nat prevLen + 1) (rbuf n) |} in
  let* y := sn text (len + 1) prevLen (Some (rbuf s1)) in
  match snd y with
  | Some l => Ok ({| rlen := rlen s1; rbuf := l |}, prevLen + fst y)
  | None => UB
  end.
(** src/umka_expr.c:828-922 for sprintf: a null string, a step for each value and one for the rest. *)
Fixpoint sprintfAll (s : rstr) (count : Z) (texts : list (list Z)) (junk : list Z) : outcome (rstr * Z) :=
  match texts with
  | [] => Ok (s, count)
  | t :: r => let* x := sprintfStep s count t junk in sprintfAll (fst x) (snd x) r junk
  end.
