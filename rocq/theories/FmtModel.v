(** Format strings (src/umka_types.c:977-1103, src/umka_types.h:326-352, src/umka_expr.c:828-918, src/umka_vm.c:1912-2206).
    A format is the list of its characters up to the terminating zero. *)
From Coq Require Import ZArith Bool List.
From Verif Require Import Base NumModel.
Import ListNotations.
Local Open Scope Z_scope.

(** src/umka_types.h, enum FormatStringTypeSize. *)
Inductive fsize : Type := SzHH | SzH | SzN | SzL | SzLL.

(** The results of typeFormatStringValid. *)
Record fres : Type := { flen : nat; fletter : nat; fkind : kind; fsz : fsize }.

Definition isFlag (c : Z) : bool := (c =? 43) || (c =? 45) || (c =? 32) || (c =? 48) || (c =? 39) || (c =? 35).
Definition isDigit (c : Z) : bool := (48 <=? c) && (c <=? 57).

(** while (p(format[i])) i++: the characters skipped and the rest. *)
Fixpoint span (p : Z -> bool) (l : list Z) : list Z * list Z :=
  match l with
  | [] => ([], [])
  | c :: r => if p c then let x := span p r in (c :: fst x, snd x) else ([], l)
  end.

(** src/umka_types.c:1008-1015: [.precision]. *)
Definition skipPrec (l : list Z) : list Z :=
  match l with
  | 46 :: r => snd (span isDigit r)
  | _ => l
  end.
(** src/umka_types.c:1017-1039: [length]. *)
Definition skipLen (l : list Z) : fsize * list Z :=
  match l with
  | 104 :: 104 :: r => (SzHH, r)
  | 104 :: r => (SzH, r)
  | 108 :: 108 :: r => (SzLL, r)
  | 108 :: r => (SzL, r)
  | _ => (SzN, l)
  end.
(** src/umka_types.c:1042-1097: the type letter, except '%'. Nothing: false is returned. *)
Definition letterKind (c : Z) (sz : fsize) : option kind :=
  if (c =? 100) || (c =? 105) then Some match sz with SzHH => KInt8 | SzH => KInt16 | SzN | SzL => KInt32 | SzLL => KInt end
  else if (c =? 117) || (c =? 120) || (c =? 88) then Some match sz with SzHH => KUInt8 | SzH => KUInt16 | SzN | SzL => KUInt32 | SzLL => KUInt end
  else if (c =? 102) || (c =? 70) || (c =? 101) || (c =? 69) || (c =? 103) || (c =? 71) then
    match sz with SzN => Some KReal32 | SzL => Some KReal | _ => None end
  else if (c =? 115) || (c =? 99) then
    match sz with SzN => Some (if c =? 115 then KStr else KChar) | _ => None end
  else if c =? 118 then Some KInterface
  else None.

(** src/umka_types.c:977-1103, typeFormatStringValid: the outer loop at format[i], [rest] being the characters from there on.
    The result Ok None is false. [n]: bound on the number of "%%", more than enough if above the length. *)
Fixpoint scan (n : nat) (i : nat) (rest : list Z) (letter : nat) (sz : fsize) : outcome (option fres) :=
  match n with
  | O => Err EFuel
  | S n1 =>
      match rest with
      | [] => Ok (Some {| flen := i; fletter := letter; fkind := KVoid; fsz := sz |})
      | _ =>
          let x := span (fun c => negb (c =? 37)) rest in
          let i1 := (i + length (fst x))%nat in
          match snd x with
          | [] => Ok (Some {| flen := i1; fletter := letter; fkind := KVoid; fsz := SzN |})
          | _ :: r2 =>
              let r3 := snd (span isFlag r2) in
              let r4 := snd (span isDigit r3) in
              let y := skipLen (skipPrec r4) in
              let i5 := (i1 + 1 + (length r2 - length (snd y)))%nat in
              match snd y with
              | [] => Ok None
              | c :: r6 =>
                  if c =? 37 then scan n1 (i5 + 1) r6 i5 (fst y)
                  else match letterKind c (fst y) with
                       | None => Ok None
                       | Some k => Ok (Some {| flen := i5 + 1; fletter := i5; fkind := k; fsz := fst y |})
                       end
              end
          end
      end
  end.
Definition typeFormatStringValid (f : list Z) : outcome (option fres) := scan (S (length f)) 0 f 0 SzN.

Definition kind_eqb (a b : kind) : bool :=
  match a, b with
  | KNone, KNone | KForward, KForward | KVoid, KVoid | KNull, KNull | KInt8, KInt8 | KInt16, KInt16 | KInt32, KInt32 | KInt, KInt
  | KUInt8, KUInt8 | KUInt16, KUInt16 | KUInt32, KUInt32 | KUInt, KUInt | KBool, KBool | KChar, KChar | KReal32, KReal32 | KReal, KReal
  | KPtr, KPtr | KWeakPtr, KWeakPtr | KArray, KArray | KDynArray, KDynArray | KStr, KStr | KMap, KMap | KStruct, KStruct
  | KInterface, KInterface | KClosure, KClosure | KFiber, KFiber | KFn, KFn => true
  | _, _ => false
  end.

(** src/umka_types.h:326-339, typeCompatiblePrintf. *)
Definition compatPrintf (expected k : kind) (allowVoid : bool) : bool :=
  if kind_eqb k KVoid && negb allowVoid then false
  else if kind_eqb expected KNone then true
  else kind_eqb k expected || (kindIntegerOrEnum k && kindIntegerOrEnum expected) || (kindReal k && kindReal expected) ||
       (negb (kind_eqb k KVoid) && kind_eqb expected KInterface).
(** src/umka_types.h:342-352, typeCompatibleScanf. *)
Definition compatScanf (expected k : kind) (allowVoid : bool) : bool :=
  if negb (kindOrdinal k || kindReal k || kind_eqb k KStr || (kind_eqb k KVoid && allowVoid)) then false
  else if kind_eqb expected KNone then true
  else kind_eqb k expected.

(** src/umka_expr.c:860-902: the compile-time check of a format literal against the types of the values (for scanf, of what
    the pointers point to), the last step being the rest of the format. *)
Fixpoint staticCheck (compat : kind -> kind -> bool -> bool) (f : list Z) (ks : list kind) : outcome unit :=
  match ks with
  | [] =>
      let* r := typeFormatStringValid f in
      match r with
      | None => Err ESyntax
      | Some r => if compat (fkind r) KVoid true then Ok tt else Err EIllegalType
      end
  | k :: ks1 =>
      let* r := typeFormatStringValid f in
      match r with
      | None => Err ESyntax
      | Some r => if compat (fkind r) k false then staticCheck compat (skipn (flen r) f) ks1 else Err EIllegalType
      end
  end.

(** An argument as passed to vfprintf or vsnprintf: an integer of some width, a double, or a string (whose text is not
    modelled). *)
Inductive parg : Type := PInt (bits : Z) (signed : bool) (v : Z) | PReal (v : Z) | PStr.

(** src/umka_vm.c:1912-1941, doPrintSlot. [v]: the slot as a signed integer. Types shorter than int are promoted to int. *)
Definition printSlot (k : kind) (v : Z) : outcome (option parg) :=
  match k with
  | KVoid => Ok None
  | KInt8 => Ok (Some (PInt 32 true (wraps (2 ^ 8) v)))
  | KInt16 => Ok (Some (PInt 32 true (wraps (2 ^ 16) v)))
  | KInt32 => Ok (Some (PInt 32 true (wraps (2 ^ 32) v)))
  | KInt => Ok (Some (PInt 64 true v))
  | KUInt8 => Ok (Some (PInt 32 true (wrapu (2 ^ 8) v)))
  | KUInt16 => Ok (Some (PInt 32 true (wrapu (2 ^ 16) v)))
  | KUInt32 => Ok (Some (PInt 32 false (wrapu (2 ^ 32) v)))
  | KUInt => Ok (Some (PInt 64 false (wrapu (2 ^ 64) v)))
  | KBool => Ok (Some (PInt 32 true (if v =? 0 then 0 else 1)))
  | KChar => Ok (Some (PInt 32 true (wrapu (2 ^ 8) v)))
  | KReal32 | KReal => Ok (Some (PReal v))
  | KStr => Ok (Some PStr)
  | _ => Err EIllegalType
  end.

Fixpoint setNth (l : list Z) (n : nat) (x : Z) : list Z :=
  match l, n with
  | [], _ => []
  | _ :: r, O => x :: r
  | y :: r, S m => y :: setNth r m x
  end.

(** A call of the C library: the format given to it, the part of the original format it stands for, the argument. *)
Record call : Type := { cfmt : list Z; cpiece : list Z; carg : option parg }.

(** src/umka_vm.c:2028-2041: the edits of the format for %v. *)
Definition editAny (fmt : list Z) (r : fres) : list Z :=
  let p := fletter r in
  let f1 := setNth fmt p 115 in
  let f2 := match fsz r with SzN => f1 | _ => if (1 <=? p)%nat then setNth f1 (p - 1) 32 else f1 end in
  match fsz r with SzHH | SzLL => if (2 <=? p)%nat then setNth f2 (p - 2) 32 else f2 | _ => f2 end.

(** src/umka_vm.c:1953-2109, doBuiltinPrintf: one step. The destination is not null. *)
Definition printfStep (f : list Z) (k : kind) (v : Z) : outcome (call * list Z) :=
  let* r := typeFormatStringValid f in
  match r with
  | None => Err ESyntax
  | Some r =>
      if negb (compatPrintf (fkind r) k true) then Err EIllegalType else
      if negb (kind_eqb (fkind r) KVoid) && typeConvOverflow (fkind r) k v then Err EOverflow else
      let piece := firstn (flen r) f in
      let isAny := kind_eqb (fkind r) KInterface && (fletter r <? flen r)%nat in
      let* a := printSlot (if isAny then KStr else k) v in
      Ok ({| cfmt := if isAny then editAny piece r else piece; cpiece := piece; carg := a |}, skipn (flen r) f)
  end.

(** src/umka_expr.c:867-903: a step for each value and one for the rest. *)
Fixpoint printfAll (f : list Z) (args : list (kind * Z)) : outcome (list call) :=
  match args with
  | [] => let* x := printfStep f KVoid 0 in Ok [fst x]
  | (k, v) :: r =>
      let* x := printfStep f k v in
      let* y := printfAll (snd x) r in
      Ok (fst x :: y)
  end.

(** A call of vfscanf or vsscanf, or the reading of a word for a string (src/umka_vm.c:2180-2192). "%n" is appended to the format. *)
Record scall : Type := { sfmt : list Z; spiece : list Z; sdest : kind }.

(** src/umka_vm.c:2112-2206, doBuiltinScanf: one step. The source and the destination are not null. *)
Definition scanfStep (f : list Z) (k : kind) : outcome (scall * list Z) :=
  let* r := typeFormatStringValid f in
  match r with
  | None => Err ESyntax
  | Some r =>
      if negb (compatScanf (fkind r) k true) then Err EIllegalType else
      let piece := firstn (flen r) f in
      Ok ({| sfmt := piece ++ [37; 110]; spiece := piece; sdest := k |}, skipn (flen r) f)
  end.
Fixpoint scanfAll (f : list Z) (ks : list kind) : outcome (list scall) :=
  match ks with
  | [] => let* x := scanfStep f KVoid in Ok [fst x]
  | k :: r =>
      let* x := scanfStep f k in
      let* y := scanfAll (snd x) r in
      Ok (fst x :: y)
  end.

(** ctype.h, isspace in the C locale. *)
Definition isSpace (c : Z) : bool := (c =? 32) || ((9 <=? c) && (c <=? 13)).

(** src/umka_vm.c:816-843, fsscanfString, for a string source. [rest]: what is left of the source with its terminating zero,
    reading past it being undefined. [buf]: the [writtenLen] characters in the buffer of [cap] bytes. The byte 255 is read as
    EOF, since the characters of a string are signed (fsgetc, lines 784-789). The result: the word, *len and what is left. *)
Definition isEnd (ch : Z) : bool := (ch =? 0) || (ch =? 255) || isSpace ch.
Fixpoint skipSpaces (rest : list Z) (len : Z) : outcome (Z * list Z * Z) :=
  match rest with
  | [] => UB
  | c :: r => if isSpace c then skipSpaces r (len + 1) else Ok (c, r, len + 1)
  end.
Fixpoint readWord (ch : Z) (rest : list Z) (len : Z) (buf : list Z) (cap : Z) : outcome (list Z * Z * list Z) :=
  if isEnd ch then if cap <=? Z.of_nat (length buf) then UB else Ok (buf, len, rest)
  else
    if cap <=? Z.of_nat (length buf) then UB else
    let buf1 := buf ++ [ch] in
    let cap1 := if Z.of_nat (length buf1) =? cap - 1 then cap * 2 else cap in
    if INT_MAX <? cap1 then UB else
    match rest with
    | [] => UB
    | c :: r => readWord c r (len + 1) buf1 cap1
    end.
Definition fsscanfString (src : list Z) : outcome (list Z * Z * list Z) :=
  let* x := skipSpaces (src ++ [0]) 0 in
  readWord (fst (fst x)) (snd (fst x)) (snd x) [] 8.
