(** The file functions of the standard library: src/umka_runtime_src.h (std.um) over src/umka_runtime.c, with and without
    the sandbox, and fprintf/printf of src/umka_vm.c.

    The C library underneath is not part of the repository. It is modelled by [cfopen] ... [cremove] below, after ISO C
    7.21 and POSIX, without buffering: a byte written is in the file at once. Undefined behaviour of the C library (a closed
    stream, a null name, reading right after writing) is the outcome [UB]. What the environment decides (whether a file may
    be opened or removed, how many bytes the device takes, whether closing succeeds) is an argument of the operation. *)
From Coq Require Import ZArith Lia Bool List.
Import ListNotations.
From Verif Require Import Base BlkModel DynModel.
Local Open Scope Z_scope.

(** ** The C library *)

(** What was last done with a stream (ISO C 7.21.5.3p7). *)
Inductive lastop := LNone | LRead | LWrite.

(** A FILE: the file it is connected to, its position, what its mode allows. *)
Record stream := MkS { sino : nat; spos : Z; srd : bool; swr : bool; sapp : bool; sseek : bool; seof : bool; slast : lastop; sopen : bool }.

(** Names of files, contents of files, environment variables, and the streams opened so far; a FILE * is an index. *)
Record world := MkW { dirs : list (list Z * nat); inodes : nat -> list Z; inext : nat; env : list (list Z * list Z); streams : list stream }.

Definition eqs (a b : list Z) : bool := if list_eq_dec Z.eq_dec a b then true else false.
Fixpoint assoc {A} (x : list Z) (l : list (list Z * A)) : option A :=
  match l with [] => None | (y, a) :: r => if eqs x y then Some a else assoc x r end.
Fixpoint setn {A} (n : nat) (a : A) (l : list A) : list A :=
  match l, n with
  | [], _ => []
  | _ :: r, O => a :: r
  | b :: r, S n => b :: setn n a r
  end.
Definition setStream (w : world) (k : nat) (s : stream) : world := MkW (dirs w) (inodes w) (inext w) (env w) (setn k s (streams w)).
Definition setInode (w : world) (i : nat) (l : list Z) : world :=
  MkW (dirs w) (fun j => if Nat.eqb j i then l else inodes w j) (inext w) (env w) (streams w).

(** A stream that may be used. *)
Definition getStream (w : world) (k : nat) : outcome stream :=
  match nth_error (streams w) k with Some s => if sopen s then Ok s else UB | None => UB end.

Definition hasPlus (mode : list Z) : bool := existsb (Z.eqb 43) mode.

(** fopen; [ok] is false when the system refuses. The mode starts with r, w or a. *)
Definition cfopen (w : world) (name : option (list Z)) (mode : list Z) (ok : bool) : outcome (world * option nat) :=
  match name with
  | None => UB
  | Some nm =>
    let p := hasPlus mode in
    let opened w i rd wr app := Ok (MkW (dirs w) (inodes w) (inext w) (env w) (streams w ++ [MkS i 0 rd wr app true false LNone true]), Some (length (streams w))) in
    let created := MkW ((nm, inext w) :: dirs w) (fun j => if Nat.eqb j (inext w) then [] else inodes w j) (S (inext w)) (env w) (streams w) in
    match mode with
    | c :: _ =>
      if negb ok then (if (c =? 114) || (c =? 119) || (c =? 97) then Ok (w, None) else UB) else
      if c =? 114 then match assoc nm (dirs w) with Some i => opened w i true p false | None => Ok (w, None) end else
      if c =? 119 then match assoc nm (dirs w) with Some i => opened (setInode w i []) i p true false | None => opened created (inext w) p true false end else
      if c =? 97 then match assoc nm (dirs w) with Some i => opened w i p true true | None => opened created (inext w) p true true end else
      UB
    | [] => UB
    end
  end.

(** fclose; the stream is gone even if the last bytes could not be written. *)
Definition cfclose (w : world) (k : nat) (ok : bool) : outcome (world * Z) :=
  let* s := getStream w k in
  Ok (setStream w k (MkS (sino s) (spos s) (srd s) (swr s) (sapp s) (sseek s) (seof s) (slast s) false), if ok then 0 else -1).

(** size_t from int. *)
Definition toSize (n : Z) : Z := if n <? 0 then n + two64 else n.

(** fread(buf, 1, cnt, stream) into a buffer holding [buf]; [lim] is what the device delivers. The bytes read are put into
    the buffer, which must have room for them. Result: the buffer, the number of bytes. *)
Definition cfread (w : world) (k : nat) (buf : list Z) (cnt lim : Z) : outcome (world * (list Z * Z)) :=
  let* s := getStream w k in
  if negb (srd s) then Ok (w, (buf, 0)) else
  match slast s with LWrite => UB | _ =>
    let rest := skipn (Z.to_nat (spos s)) (inodes w (sino s)) in
    let got := firstn (Z.to_nat (Z.min (Z.min (toSize cnt) lim) (Z.of_nat (length rest)))) rest in
    let n := Z.of_nat (length got) in
    if Z.of_nat (length buf) <? n then UB else
    Ok (setStream w k (MkS (sino s) (spos s + n) (srd s) (swr s) (sapp s) (sseek s) (seof s || (n <? toSize cnt)) LRead true),
        (got ++ skipn (length got) buf, n))
  end.

(** Writing [d] at [pos]; a gap after the end of the file is filled with zeros. *)
Definition writeAt (l : list Z) (pos : nat) (d : list Z) : list Z :=
  firstn pos (l ++ repeat 0 (pos - length l)) ++ d ++ skipn (pos + length d) l.

(** fwrite(buf, 1, cnt, stream); [lim] is what the device takes. *)
Definition cfwrite (w : world) (k : nat) (buf : list Z) (cnt lim : Z) : outcome (world * Z) :=
  let* s := getStream w k in
  if Z.of_nat (length buf) <? toSize cnt then UB else
  if negb (swr s) then Ok (w, 0) else
  match slast s, seof s with LRead, false => UB | _, _ =>
    let d := firstn (Z.to_nat (Z.min (toSize cnt) lim)) buf in
    let pos := if sapp s then Z.of_nat (length (inodes w (sino s))) else spos s in
    Ok (setStream (setInode w (sino s) (writeAt (inodes w (sino s)) (Z.to_nat pos) d)) k
          (MkS (sino s) (pos + Z.of_nat (length d)) (srd s) (swr s) (sapp s) (sseek s) (seof s) LWrite true),
        Z.of_nat (length d))
  end.

(** fseek; SEEK_SET, SEEK_CUR, SEEK_END are 0, 1, 2. *)
Definition cfseek (w : world) (k : nat) (offset originC : Z) : outcome (world * Z) :=
  let* s := getStream w k in
  let pos := (if originC =? 0 then 0 else if originC =? 1 then spos s else Z.of_nat (length (inodes w (sino s)))) + offset in
  if negb (sseek s) || (pos <? 0) then Ok (w, -1) else
  Ok (setStream w k (MkS (sino s) pos (srd s) (swr s) (sapp s) (sseek s) false LNone true), 0).

Definition cftell (w : world) (k : nat) : outcome Z :=
  let* s := getStream w k in Ok (if sseek s then spos s else -1).

Definition cfeof (w : world) (k : nat) : outcome Z :=
  let* s := getStream w k in Ok (if seof s then 1 else 0).

(** fflush; defined for input streams too by POSIX (and by the Microsoft library), and then it is not a change of direction. *)
Definition cfflush (w : world) (k : nat) : outcome (world * Z) :=
  let* s := getStream w k in
  Ok (setStream w k (MkS (sino s) (spos s) (srd s) (swr s) (sapp s) (sseek s) (seof s) (match slast s with LWrite => LNone | l => l end) true), 0).

Definition cremove (w : world) (name : option (list Z)) (ok : bool) : outcome (world * Z) :=
  match name with
  | None => UB
  | Some nm =>
    match assoc nm (dirs w) with
    | Some _ => if ok then Ok (MkW (filter (fun e => negb (eqs nm (fst e))) (dirs w)) (inodes w) (inext w) (env w) (streams w), 0) else Ok (w, -1)
    | None => Ok (w, -1)
    end
  end.

(** ** The state of a script *)

(** A File object: its stream field, or nothing once the last reference is gone. Objects 0, 1, 2 are the static variables
    of rtlstdin, rtlstdout, rtlstderr (src/umka_runtime.c:60-81). A File value of a script is null or an object. *)
Inductive obj := Live (stream : option nat) | Gone.
Record st := MkSt { wd : world; objs : list obj }.

(** The stream field of an object; [Err] stands for a value no script can hold. *)
Definition getObj (s : st) (h : nat) : outcome (option nat) :=
  match nth_error (objs s) h with Some (Live x) => Ok x | _ => Err EOther end.

(** Error codes, src/umka_runtime_src.h:30-37. *)
Definition OK : Z := 0.
Definition BUFFER : Z := 2.
Definition PTR : Z := 3.
Definition NULLF : Z := 4.
Definition EOF : Z := 5.

(** ** src/umka_runtime.c, and the choice of src/umka_compiler.c:149-171: [en] is fileSystemEnabled *)

(** src/umka_runtime.c:60-81, rtlstdin, rtlstdout, rtlstderr. *)
Definition rtlstd (s : st) (n : nat) : st * option nat := (MkSt (wd s) (setn n (Live (Some n)) (objs s)), Some n).

(** src/umka_runtime.c:84-103, rtlfopen, rtlfopenSandbox. *)
Definition rtlfopen (en : bool) (s : st) (name : option (list Z)) (mode : list Z) (ok : bool) : outcome (st * option nat) :=
  if en then
    let* (w, k) := cfopen (wd s) name mode ok in
    match k with
    | Some k => Ok (MkSt w (objs s ++ [Live (Some k)]), Some (length (objs s)))
    | None => Ok (MkSt w (objs s), None)
    end
  else Ok (s, None).

(** src/umka_runtime.c:106-123, rtlfclose, rtlfcloseSandbox. *)
Definition rtlfclose (en : bool) (s : st) (h : nat) (ok : bool) : outcome (st * Z) :=
  if en then
    let* x := getObj s h in
    match x with
    | Some k => let* (w, res) := cfclose (wd s) k ok in Ok (MkSt w (setn h (Live None) (objs s)), res)
    | None => Ok (s, -1)
    end
  else let* _ := getObj s h in Ok (s, -1).

(** src/umka_runtime.c:126-144, rtlfread, rtlfreadSandbox; const int cnt. *)
Definition rtlfread (en : bool) (s : st) (buf : list Z) (cnt : Z) (h : nat) (lim : Z) : outcome (st * (list Z * Z)) :=
  if en then
    let* x := getObj s h in
    match x with
    | Some k => let* (w, r) := cfread (wd s) k buf (s32 cnt) lim in Ok (MkSt w (objs s), r)
    | None => Ok (s, (buf, 0))
    end
  else let* _ := getObj s h in Ok (s, (buf, 0)).

(** src/umka_runtime.c:147-165, rtlfwrite, rtlfwriteSandbox; const int cnt. *)
Definition rtlfwrite (en : bool) (s : st) (buf : list Z) (cnt : Z) (h : nat) (lim : Z) : outcome (st * Z) :=
  if en then
    let* x := getObj s h in
    match x with
    | Some k => let* (w, r) := cfwrite (wd s) k buf (s32 cnt) lim in Ok (MkSt w (objs s), r)
    | None => Ok (s, 0)
    end
  else let* _ := getObj s h in Ok (s, 0).

(** src/umka_runtime.c:168-190, rtlfseek, rtlfseekSandbox; const int offset, const int origin. *)
Definition rtlfseek (en : bool) (s : st) (h : nat) (offset origin : Z) : outcome (st * Z) :=
  if en then
    let o := s32 origin in
    let originC := if o =? 0 then 0 else if o =? 1 then 1 else if o =? 2 then 2 else 0 in
    let* x := getObj s h in
    match x with
    | Some k => let* (w, r) := cfseek (wd s) k (s32 offset) originC in Ok (MkSt w (objs s), r)
    | None => Ok (s, -1)
    end
  else let* _ := getObj s h in Ok (s, -1).

(** src/umka_runtime.c:193-208, rtlftell, rtlftellSandbox. *)
Definition rtlftell (en : bool) (s : st) (h : nat) : outcome Z :=
  let* x := getObj s h in
  match en, x with true, Some k => cftell (wd s) k | _, _ => Ok (-1) end.

(** src/umka_runtime.c:211-221, rtlremove, rtlremoveSandbox. *)
Definition rtlremove (en : bool) (s : st) (name : option (list Z)) (ok : bool) : outcome (st * Z) :=
  if en then let* (w, r) := cremove (wd s) name ok in Ok (MkSt w (objs s), r) else Ok (s, -1).

(** src/umka_runtime.c:224-239, rtlfeof, rtlfeofSandbox. *)
Definition rtlfeof (en : bool) (s : st) (h : nat) : outcome Z :=
  let* x := getObj s h in
  match en, x with true, Some k => cfeof (wd s) k | _, _ => Ok (-1) end.

(** src/umka_runtime.c:242-251, rtlfflush; it has no sandbox variant. *)
Definition rtlfflush (s : st) (h : nat) : outcome (st * Z) :=
  let* x := getObj s h in
  match x with
  | Some k => let* (w, r) := cfflush (wd s) k in Ok (MkSt w (objs s), r)
  | None => Ok (s, -1)
  end.

(** src/umka_runtime.c:304-317, rtlgetenv, rtlgetenvSandbox. *)
Definition rtlgetenv (en : bool) (s : st) (name : option (list Z)) : outcome (option (list Z)) :=
  if en then match name with None => UB | Some nm => Ok (assoc nm (env (wd s))) end else Ok None.

(** src/umka_runtime.c:11-19, rtlOnFreeFile, called when the last reference to an object is released. The static objects
    are not in the heap and are left alone. *)
Definition dropFile (s : st) (h : nat) (ok : bool) : outcome st :=
  if Nat.ltb h 3 then Ok s else
  let* x := getObj s h in
  match x with
  | Some k => let* (w, _) := cfclose (wd s) k ok in Ok (MkSt w (setn h Gone (objs s)))
  | None => Ok (MkSt (wd s) (setn h Gone (objs s)))
  end.

(** ** std.um, src/umka_runtime_src.h *)

(** :141-146, fopenModes. *)
Definition modes : list (list Z) :=
  [[114]; [119]; [97]; [114; 98]; [119; 98]; [97; 98]; [114; 43]; [119; 43]; [97; 43];
   [114; 43; 98]; [114; 98; 43]; [119; 43; 98]; [119; 98; 43]; [97; 43; 98]; [97; 98; 43]].

(** :150-158, fopen. *)
Definition fopen (en : bool) (s : st) (name : option (list Z)) (mode : list Z) (ok : bool) : outcome (st * (option nat * Z)) :=
  if existsb (eqs mode) modes then
    let* (s, f) := rtlfopen en s name mode ok in
    Ok (s, (f, match f with Some _ => OK | None => NULLF end))
  else Ok (s, (None, NULLF)).

(** :162-167, fclose. *)
Definition fclose (en : bool) (s : st) (f : option nat) (ok : bool) : outcome (st * Z) :=
  match f with
  | None => Ok (s, NULLF)
  | Some h => let* (s, r) := rtlfclose en s h ok in Ok (s, if r =? 0 then OK else EOF)
  end.

(** :171-176, fseek. *)
Definition fseek (en : bool) (s : st) (f : option nat) (offset origin : Z) : outcome (st * Z) :=
  match f with
  | None => Ok (s, NULLF)
  | Some h => let* (s, r) := rtlfseek en s h offset origin in Ok (s, if r =? 0 then OK else EOF)
  end.

(** :180-186, ftell. *)
Definition ftell (en : bool) (s : st) (f : option nat) : outcome (Z * Z) :=
  match f with
  | None => Ok (0, NULLF)
  | Some h => let* pos := rtlftell en s h in Ok (pos, if 0 <=? pos then OK else EOF)
  end.

(** :190-192, remove. *)
Definition remove (en : bool) (s : st) (name : option (list Z)) (ok : bool) : outcome (st * Z) :=
  let* (s, r) := rtlremove en s name ok in Ok (s, if r =? 0 then OK else EOF).

(** :196-201, feof. *)
Definition feof (en : bool) (s : st) (f : option nat) : outcome bool :=
  match f with
  | None => Ok true
  | Some h => let* r := rtlfeof en s h in Ok (negb (r =? 0))
  end.

(** :205-210, fflush. *)
Definition fflush (s : st) (f : option nat) : outcome (st * Z) :=
  match f with
  | None => Ok (s, NULLF)
  | Some h => let* (s, r) := rtlfflush s h in Ok (s, if r =? 0 then OK else EOF)
  end.

(** The argument of fread/fwrite: a null interface, a pointer to an array of int8, uint8 or char, or any other value seen
    as the bytes behind selfptr(), with the answer of selfhasptr() (src/umka_vm.c:2902-2938). *)
Inductive buffer := BNull | BBytes (l : list Z) | BValue (hasPtr : bool) (l : list Z).

(** :219-230, data and length as freadwrite takes them from the argument. *)
Definition dataOf (b : buffer) : list Z + Z :=
  match b with
  | BNull => inl []
  | BBytes l => inl l
  | BValue p l => if p then inr PTR else inl l
  end.

(** :215-241, freadwrite with reading set, fread. Result: the bytes behind the argument, the number read, the code. *)
Definition fread (en : bool) (s : st) (f : option nat) (b : buffer) (lim : Z) : outcome (st * (list Z * Z * Z)) :=
  match f with
  | None => Ok (s, ([], 0, NULLF))
  | Some h =>
    match dataOf b with
    | inr c => Ok (s, ([], 0, c))
    | inl l =>
      let n := Z.of_nat (length l) in
      if n =? 0 then Ok (s, (l, 0, OK)) else
      let* (s, (l', size)) := rtlfread en s l n h lim in
      Ok (s, (l', size, if size =? n then OK else EOF))
    end
  end.

(** :215-237, :267-269, freadwrite with reading clear, fwrite. *)
Definition fwrite (en : bool) (s : st) (f : option nat) (b : buffer) (lim : Z) : outcome (st * (Z * Z)) :=
  match f with
  | None => Ok (s, (0, NULLF))
  | Some h =>
    match dataOf b with
    | inr c => Ok (s, (0, c))
    | inl l =>
      let n := Z.of_nat (length l) in
      if n =? 0 then Ok (s, (0, OK)) else
      let* (s, size) := rtlfwrite en s l n h lim in
      Ok (s, (size, if size =? n then OK else EOF))
    end
  end.

(** make([]char, size), src/umka_vm.c:1439-1459 over src/umka_vm.c:705-712: only the refusals are kept. *)
Definition makeChars (n : Z) : outcome (list Z) :=
  if (n <? 0) || (INT_MAX <? n) then Err EIllegalLen else
  let* cap := newCap 1 n in
  if INT_MAX <? chunkSizeFor (16 + cap) then Err EOutOfMemory else Ok (repeat 0 (Z.to_nat n)).

(** :243-265, freadall. *)
Definition freadall (en : bool) (s : st) (f : option nat) (lim : Z) : outcome (st * (list Z * Z)) :=
  let* (s, e) := fseek en s f 0 2 in
  if negb (e =? OK) then Ok (s, ([], e)) else
  let* (size, e) := ftell en s f in
  if negb (e =? OK) then Ok (s, ([], e)) else
  if 2147483392 <? size then Ok (s, ([], EOF)) else
  let* (s, e) := fseek en s f 0 0 in
  if negb (e =? OK) then Ok (s, ([], e)) else
  let* data := makeChars size in
  let* (s, (data, _, e)) := fread en s f (BBytes data) lim in
  if negb (e =? OK) then Ok (s, (data, e)) else Ok (s, (data, OK)).

(** src/umka_vm.c:1953-1976 with doPrintSlot, fprintf(f, "%s", text) (the formatting itself is C40). Result: the number of
    characters, -1 if the stream cannot be written. *)
Definition fprint (en : bool) (s : st) (f : option nat) (text : list Z) (lim : Z) : outcome (st * Z) :=
  let* x := (match f with Some h => getObj s h | None => Ok None end) in
  match en, x with
  | true, Some k =>
    let* t := getStream (wd s) k in
    if swr t then let* (w, r) := cfwrite (wd s) k text (Z.of_nat (length text)) lim in Ok (MkSt w (objs s), r) else Ok (s, -1)
  | _, _ => Err ENull
  end.

(** src/umka_vm.c:1963-1966, printf("%s", text): stdout, whatever [en] is. *)
Definition print (s : st) (text : list Z) (lim : Z) : outcome (st * Z) :=
  let* (w, r) := cfwrite (wd s) 1 text (Z.of_nat (length text)) lim in Ok (MkSt w (objs s), r).

(** ** Scripts as sequences of operations *)
Inductive op :=
| OStd (n : nat)                                              (* stdin(), stdout(), stderr() *)
| OOpen (name : option (list Z)) (mode : list Z) (ok : bool)
| OClose (f : option nat) (ok : bool)
| OSeek (f : option nat) (offset origin : Z)
| OTell (f : option nat)
| ORemove (name : option (list Z)) (ok : bool)
| OEof (f : option nat)
| OFlush (f : option nat)
| ORead (f : option nat) (b : buffer) (lim : Z)
| OReadAll (f : option nat) (lim : Z)
| OWrite (f : option nat) (b : buffer) (lim : Z)
| OFprint (f : option nat) (text : list Z) (lim : Z)
| OPrint (text : list Z) (lim : Z)
| OGetenv (name : option (list Z))
| ODrop (h : nat) (ok : bool).                                (* the last reference to a File is released *)

(** What the script sees. *)
Inductive out :=
| RFile (f : option nat) (code : Z) | RCode (code : Z) | RPos (pos code : Z) | RBool (b : bool)
| RRead (data : list Z) (n code : Z) | RAll (data : list Z) (code : Z) | RCount (n : Z) (code : Z) | RStr (s : option (list Z)) | RNone.

Definition step (en : bool) (s : st) (o : op) : outcome (st * out) :=
  match o with
  | OStd n => if Nat.ltb n 3 then let (s, f) := rtlstd s n in Ok (s, RFile f OK) else Err EOther
  | OOpen name mode ok => let* (s, (f, e)) := fopen en s name mode ok in Ok (s, RFile f e)
  | OClose f ok => let* (s, e) := fclose en s f ok in Ok (s, RCode e)
  | OSeek f offset origin => let* (s, e) := fseek en s f offset origin in Ok (s, RCode e)
  | OTell f => let* (pos, e) := ftell en s f in Ok (s, RPos pos e)
  | ORemove name ok => let* (s, e) := remove en s name ok in Ok (s, RCode e)
  | OEof f => let* b := feof en s f in Ok (s, RBool b)
  | OFlush f => let* (s, e) := fflush s f in Ok (s, RCode e)
  | ORead f b lim => let* (s, (l, n, e)) := fread en s f b lim in Ok (s, RRead l n e)
  | OReadAll f lim => let* (s, (l, e)) := freadall en s f lim in Ok (s, RAll l e)
  | OWrite f b lim => let* (s, (n, e)) := fwrite en s f b lim in Ok (s, RCount n e)
  | OFprint f text lim => let* (s, n) := fprint en s f text lim in Ok (s, RCount n OK)
  | OPrint text lim => let* (s, n) := print s text lim in Ok (s, RCount n OK)
  | OGetenv name => let* v := rtlgetenv en s name in Ok (s, RStr v)
  | ODrop h ok => let* s := dropFile s h ok in Ok (s, RNone)
  end.

Fixpoint run (en : bool) (s : st) (ops : list op) : outcome (st * list out) :=
  match ops with
  | [] => Ok (s, [])
  | o :: r => let* (s, x) := step en s o in let* (s, xs) := run en s r in Ok (s, x :: xs)
  end.

(** The state in which a script starts: the three standard streams are open (connected to the files 0, 1, 2), the static
    File variables are zero. *)
Definition stdStream (i : nat) (rd : bool) : stream := MkS i 0 rd (negb rd) false false false LNone true.
Definition init (d : list (list Z * nat)) (files : nat -> list Z) (n : nat) (e : list (list Z * list Z)) : st :=
  MkSt (MkW d files n e [stdStream 0 true; stdStream 1 false; stdStream 2 false]) [Live None; Live None; Live None].
