(** Model of the assembly listing.

    Modelled: compilerAsm (umka_compiler.c:290-300), genAsm (umka_gen.c:1204-1243), vmAsm
    (umka_vm.c:4222-4316) and identSpellingByPtr (umka_ident.c:422-433), with snprintf, nonneg
    and nonnull (umka_common.h:262-272).

    Simplifications, stated once:
    - the words of tokens, types and kinds of types, and the formats %d, %lld, %lg, %p
      are given as texts (types: C72);
    - the operand of a jump is not cut to an int, but must be a place of the table;
    - bytes behind the end of a buffer, or pointers formed there, places behind the end
      of the code or of the tables, and int overflow are undefined behaviour. *)
From Coq Require Import ZArith Bool List Ascii String.
From Verif Require Import Base.
Import ListNotations.
Local Open Scope Z_scope.

Definition text := list ascii.
Definition lit (s : string) : text := list_ascii_of_string s.
Definition NUL : ascii := zero.
Definition len (s : text) : Z := Z.of_nat (List.length s).
Definition NL : text := [ascii_of_nat 10].

(** Opcode (umka_vm.h:51-101). *)
Inductive opcode :=
  | P_NOP | P_PUSH | P_PUSH_GLOBAL | P_PUSH_ZERO | P_PUSH_LOCAL_PTR | P_PUSH_LOCAL_PTR_ZERO
  | P_PUSH_LOCAL | P_PUSH_REG | P_PUSH_UPVALUE | P_POP | P_POP_REG | P_DUP | P_SWAP
  | P_ZERO | P_DEREF | P_ASSIGN | P_SWAP_ASSIGN | P_ASSIGN_PARAM | P_REF_CNT
  | P_REF_CNT_GLOBAL | P_REF_CNT_LOCAL | P_REF_CNT_ASSIGN | P_SWAP_REF_CNT_ASSIGN | P_UNARY
  | P_BINARY | P_GET_ARRAY_PTR | P_GET_ARRAY | P_GET_DYNARRAY_PTR | P_GET_DYNARRAY
  | P_GET_MAP_PTR | P_GET_MAP | P_GET_FIELD_PTR | P_GET_FIELD | P_ASSERT_TYPE
  | P_ASSERT_RANGE | P_WEAKEN_PTR | P_STRENGTHEN_PTR | P_GOTO | P_GOTO_IF | P_GOTO_IF_NOT
  | P_CALL | P_CALL_INDIRECT | P_CALL_EXTERN | P_CALL_BUILTIN | P_RETURN | P_ENTER_FRAME
  | P_LEAVE_FRAME | P_HALT.

Definition opIndex (o : opcode) : nat :=
  match o with
  | P_NOP => 0 | P_PUSH => 1 | P_PUSH_GLOBAL => 2 | P_PUSH_ZERO => 3
  | P_PUSH_LOCAL_PTR => 4 | P_PUSH_LOCAL_PTR_ZERO => 5 | P_PUSH_LOCAL => 6
  | P_PUSH_REG => 7 | P_PUSH_UPVALUE => 8 | P_POP => 9 | P_POP_REG => 10 | P_DUP => 11
  | P_SWAP => 12 | P_ZERO => 13 | P_DEREF => 14 | P_ASSIGN => 15 | P_SWAP_ASSIGN => 16
  | P_ASSIGN_PARAM => 17 | P_REF_CNT => 18 | P_REF_CNT_GLOBAL => 19 | P_REF_CNT_LOCAL => 20
  | P_REF_CNT_ASSIGN => 21 | P_SWAP_REF_CNT_ASSIGN => 22 | P_UNARY => 23 | P_BINARY => 24
  | P_GET_ARRAY_PTR => 25 | P_GET_ARRAY => 26 | P_GET_DYNARRAY_PTR => 27
  | P_GET_DYNARRAY => 28 | P_GET_MAP_PTR => 29 | P_GET_MAP => 30 | P_GET_FIELD_PTR => 31
  | P_GET_FIELD => 32 | P_ASSERT_TYPE => 33 | P_ASSERT_RANGE => 34 | P_WEAKEN_PTR => 35
  | P_STRENGTHEN_PTR => 36 | P_GOTO => 37 | P_GOTO_IF => 38 | P_GOTO_IF_NOT => 39
  | P_CALL => 40 | P_CALL_INDIRECT => 41 | P_CALL_EXTERN => 42 | P_CALL_BUILTIN => 43
  | P_RETURN => 44 | P_ENTER_FRAME => 45 | P_LEAVE_FRAME => 46 | P_HALT => 47
  end%nat.

(** opcodeSpelling (umka_vm.c:64-115). *)
Definition opcodeSpelling : list string :=
  ["NOP"; "PUSH"; "PUSH_GLOBAL"; "PUSH_ZERO"; "PUSH_LOCAL_PTR"; "PUSH_LOCAL_PTR_ZERO";
   "PUSH_LOCAL"; "PUSH_REG"; "PUSH_UPVALUE"; "POP"; "POP_REG"; "DUP"; "SWAP"; "ZERO";
   "DEREF"; "ASSIGN"; "SWAP_ASSIGN"; "ASSIGN_PARAM"; "REF_CNT"; "REF_CNT_GLOBAL";
   "REF_CNT_LOCAL"; "REF_CNT_ASSIGN"; "SWAP_REF_CNT_ASSIGN"; "UNARY"; "BINARY";
   "GET_ARRAY_PTR"; "GET_ARRAY"; "GET_DYNARRAY_PTR"; "GET_DYNARRAY"; "GET_MAP_PTR";
   "GET_MAP"; "GET_FIELD_PTR"; "GET_FIELD"; "ASSERT_TYPE"; "ASSERT_RANGE"; "WEAKEN_PTR";
   "STRENGTHEN_PTR"; "GOTO"; "GOTO_IF"; "GOTO_IF_NOT"; "CALL"; "CALL_INDIRECT";
   "CALL_EXTERN"; "CALL_BUILTIN"; "RETURN"; "ENTER_FRAME"; "LEAVE_FRAME"; "HALT"]%string.

(** builtinSpelling (umka_vm.c:118-169). *)
Definition builtinSpelling : list string :=
  ["printf"; "fprintf"; "sprintf"; "scanf"; "fscanf"; "sscanf"; "makereal"; "makerealleft";
   "round"; "trunc"; "ceil"; "floor"; "abs"; "fabs"; "sqrt"; "sin"; "cos"; "atan"; "atan2";
   "exp"; "log"; "new"; "make"; "makefromarr"; "makefromstr"; "makearr"; "makestr"; "copy";
   "append"; "insert"; "delete"; "slice"; "sort"; "sortfast"; "len"; "cap"; "sizeof";
   "sizeofself"; "selfptr"; "selfhasptr"; "selftypeeq"; "typeptr"; "valid"; "validkey";
   "keys"; "resume"; "memusage"; "leaksan"; "exit"]%string.

(** regSpelling (umka_vm.c:172-179). *)
Definition regSpelling : list string :=
  ["RESULT"; "SELF"; "HEAP_COPY"; "SWITCH_EXPR"; "EXPR_LIST"]%string.

(** The type kinds vmAsm tells apart. *)
Inductive tkind := TKPtr | TKReal | TKOther.

(** Instruction (umka_vm.h:104-124): the words of the token, the type and the kind are
    missing for TOK_NONE, NULL, TYPE_NONE; the operand as an integer (intVal, ptrVal, the
    bits of realVal), its two halves (int32Val), as an index. *)
Record instr := mkInstr {
  op : opcode;
  tokWord : option text;
  typeWord : option text;
  kindWord : option (tkind * text);
  intVal : Z;
  half0 : Z; half1 : Z
}.

(** DebugInfo (umka_common.h:71-76): the address and the text of the file name. *)
Record debug := mkDebug { fileAddr : nat; fileName : text; fnName : text; line : Z }.

(** Ident: what identSpellingByPtr looks at. *)
Record ident := mkIdent { isGlobal : bool; addr : Z; iname : text }.

(** * Writing *)

(** INT_MAX. *)
Definition INT_MAX : Z := 2147483647.

Definition poke (b : text) (off : Z) (s : text) : outcome text :=
  if off + len s <=? len b
  then Ok (firstn (Z.to_nat off) b ++ s ++ skipn (Z.to_nat (off + len s)) b)
  else UB.

(** nonneg (umka_common.h:262-265). *)
Definition nonneg (n : Z) : Z := if n >? 0 then n else 0.

(** nonnull: a buffer is an offset into the memory, or NULL. *)
Definition nonnull (mem : text) (p : option Z) (off : Z) : outcome (option Z) :=
  match p with
  | Some a => if a + off <=? len mem then Ok (Some (a + off)) else UB
  | None => Ok None
  end.

(** snprintf(p, size, s). *)
Definition snprintf (mem : text) (p : option Z) (size : Z) (s : text) : outcome text :=
  if size =? 0 then Ok mem else
  match p with
  | Some a => poke mem a (firstn (Z.to_nat (size - 1)) s ++ [NUL])
  | None => UB
  end.

(** chars += snprintf(nonnull(buf, chars), nonneg(size - chars), s). *)
Definition emit (buf : option Z) (size : Z) (st : text * Z) (s : text) : outcome (text * Z) :=
  let (mem, chars) := st in
  let* p := nonnull mem buf chars in
  let* mem := snprintf mem p (nonneg (size - chars)) s in
  if chars + len s <=? INT_MAX then Ok (mem, chars + len s) else UB.

(** %<w>s, %0<w>d. *)
Definition padLeft (c : ascii) (w : nat) (s : text) : text := repeat c (w - List.length s) ++ s.
Definition space : ascii := ascii_of_nat 32.
Definition zeroChar : ascii := ascii_of_nat 48.

Section Asm.
(** %d and %lld, %lg, %p. *)
Variables fmtInt fmtReal fmtPtr : Z -> text.
Variable idents : list ident.
Variable code : list instr.
Variable dbg : list debug.

(** identSpellingByPtr: names are cut to 255 characters (DEFAULT_STR_LEN). *)
Fixpoint spellByPtr (l : list ident) (p : Z) : text :=
  match l with
  | [] => firstn 255 (fmtPtr p)
  | i :: l => if isGlobal i && (p =? addr i) then firstn 255 (iname i) else spellByPtr l p
  end.

(** table[i]. *)
Definition entry (t : list string) (i : Z) : outcome text :=
  if i <? 0 then UB else
  match nth_error t (Z.to_nat i) with Some s => Ok (lit s) | None => UB end.

(** The switch of vmAsm, the text that follows. *)
Definition operandText (i : instr) : outcome text :=
  let sp (s : text) := Ok (lit " " ++ s) in
  match op i with
  | P_PUSH =>
      match kindWord i with
      | Some (TKPtr, _) => sp (spellByPtr idents (intVal i))
      | Some (TKReal, _) => sp (fmtReal (intVal i))
      | _ => sp (fmtInt (intVal i))
      end
  | P_PUSH_REG | P_POP_REG => let* s := entry regSpelling (intVal i) in sp s
  | P_PUSH_ZERO | P_PUSH_LOCAL_PTR | P_PUSH_LOCAL | P_POP | P_ZERO | P_ASSIGN | P_SWAP_ASSIGN
  | P_ASSIGN_PARAM | P_REF_CNT_LOCAL | P_GET_FIELD_PTR | P_GET_FIELD | P_GOTO | P_GOTO_IF
  | P_GOTO_IF_NOT | P_CALL_INDIRECT | P_RETURN => sp (fmtInt (intVal i))
  | P_CALL =>
      if intVal i <? 0 then UB else
      match nth_error dbg (Z.to_nat (intVal i)) with
      | Some d => Ok (lit " " ++ fnName d ++ lit " (" ++ fmtInt (intVal i) ++ lit ")")
      | None => UB
      end
  | P_PUSH_LOCAL_PTR_ZERO | P_GET_ARRAY_PTR | P_GET_ARRAY =>
      Ok (lit " " ++ fmtInt (half0 i) ++ lit " " ++ fmtInt (half1 i))
  | P_PUSH_GLOBAL | P_REF_CNT_GLOBAL => sp (spellByPtr idents (intVal i))
  | P_ENTER_FRAME | P_CALL_EXTERN => sp (fmtPtr (intVal i))
  | P_CALL_BUILTIN => let* s := entry builtinSpelling (intVal i) in sp s
  | _ => Ok []
  end.

(** Opcodes with a case of their own. *)
Definition hasOperand (o : opcode) : bool :=
  match o with
  | P_PUSH | P_PUSH_REG | P_POP_REG | P_PUSH_ZERO | P_PUSH_LOCAL_PTR | P_PUSH_LOCAL | P_POP | P_ZERO
  | P_ASSIGN | P_SWAP_ASSIGN | P_ASSIGN_PARAM | P_REF_CNT_LOCAL | P_GET_FIELD_PTR | P_GET_FIELD
  | P_GOTO | P_GOTO_IF | P_GOTO_IF_NOT | P_CALL_INDIRECT | P_RETURN | P_CALL
  | P_PUSH_LOCAL_PTR_ZERO | P_GET_ARRAY_PTR | P_GET_ARRAY | P_PUSH_GLOBAL | P_REF_CNT_GLOBAL
  | P_ENTER_FRAME | P_CALL_EXTERN | P_CALL_BUILTIN => true
  | _ => false
  end.

Definition keepsKind (o : opcode) : bool :=
  match o with P_ASSERT_RANGE | P_GET_MAP => true | _ => false end.

(** vmAsm (umka_vm.c:4222-4316). *)
Definition vmAsm (ip : nat) (i : instr) (d : debug) (mem : text) (buf : option Z) (size : Z)
  : outcome (text * Z) :=
  let* name := entry opcodeSpelling (Z.of_nat (opIndex (op i))) in
  let first := padLeft zeroChar 9 (fmtInt (Z.of_nat ip)) ++ lit " " ++
               padLeft space 6 (fmtInt (line d)) ++ lit " " ++ padLeft space 28 (firstn 255 name) in
  let* mem := snprintf mem buf size first in
  let* st := if len first <=? INT_MAX then Ok (mem, len first) else UB in
  let* st := match tokWord i with
             | Some w => emit buf size st (lit " " ++ w) | None => Ok st end in
  let* st := match typeWord i with
             | Some w => emit buf size st (lit " " ++ w) | None => Ok st end in
  let* st := match kindWord i with
             | Some (_, w) =>
                 if match typeWord i with None => true | Some _ => keepsKind (op i) end
                 then emit buf size st (lit " " ++ w) else Ok st
             | None => Ok st end in
  if hasOperand (op i) then let* s := operandText i in emit buf size st s else Ok st.

Variable capacity : nat.

Fixpoint setAt (l : list bool) (n : nat) : list bool :=
  match l, n with
  | [], _ => []
  | _ :: l, O => true :: l
  | b :: l, S n => b :: setAt l n
  end.

Definition isJump (o : opcode) : bool :=
  match o with P_GOTO | P_GOTO_IF | P_GOTO_IF_NOT => true | _ => false end.
Definition isHalt (o : opcode) : bool := match o with P_HALT => true | _ => false end.

(** The first loop of genAsm. *)
Fixpoint marks (c : list instr) (ip : nat) (from to : list bool) : outcome (list bool * list bool) :=
  match c with
  | [] => UB
  | i :: c =>
      let* ft :=
        if isJump (op i) then
          if (intVal i <? 0) || (Z.of_nat capacity <? intVal i) then UB
          else Ok (setAt from ip, setAt to (Z.to_nat (intVal i)))
        else Ok (from, to) in
      if isHalt (op i) then Ok ft else marks c (S ip) (fst ft) (snd ft)
  end.

(** The second loop of genAsm; [prev] is the address of the file name before. *)
Fixpoint lines (c : list instr) (ds : list debug) (ip : nat) (prev : option nat) (from to : list bool)
    (buf : option Z) (size : Z) (st : text * Z) : outcome (text * Z) :=
  match c, ds with
  | i :: c, d :: ds =>
      let* st :=
        if match prev with Some a => negb (Nat.eqb (fileAddr d) a) | None => true end
        then emit buf size st (NL ++ lit "Module: " ++ fileName d ++ NL ++ NL) else Ok st in
      let* st :=
        match op i with
        | P_ENTER_FRAME => emit buf size st (NL ++ lit "Function: " ++ fnName d ++ NL ++ NL)
        | _ => Ok st
        end in
      let* p := nonnull (fst st) buf (snd st) in
      let* mc := vmAsm ip i d (fst st) p (nonneg (size - snd st)) in
      let* st := if snd st + snd mc <=? INT_MAX then Ok (fst mc, snd st + snd mc) else UB in
      let* st := emit buf size st NL in
      let* st :=
        match nth_error from ip, nth_error to (S ip) with
        | Some f, Some t =>
            if match op i with P_RETURN => true | _ => false end || f || t
            then emit buf size st NL else Ok st
        | _, _ => UB
        end in
      if isHalt (op i) then Ok st
      else lines c ds (S ip) (Some (fileAddr d)) from to buf size st
  | _, _ => UB
  end.

(** genAsm (umka_gen.c:1206-1243). *)
Definition genAsm (mem : text) (buf : option Z) (size : Z) : outcome (text * Z) :=
  let* ft := marks code 0 (repeat false (capacity + 1)) (repeat false (capacity + 1)) in
  lines code dbg 0 None (fst ft) (snd ft) buf size (mem, 0).

(** sizeof(StorageChunk). *)
Definition CHUNK : Z := 24.

(** The string in a buffer. *)
Fixpoint cstr (b : text) : outcome text :=
  match b with
  | [] => UB
  | c :: b => if Ascii.eqb c NUL then Ok [] else let* s := cstr b in Ok (c :: s)
  end.

(** compilerAsm (umka_compiler.c:290-300): the string it returns. *)
Definition compilerAsm : outcome text :=
  let* r := genAsm [] None 0 in
  let chars := snd r in
  if chars + 1 >? INT_MAX then UB else
  if CHUNK + (chars + 1) >? INT_MAX then Err EOther else
  let mem := repeat NUL (Z.to_nat (chars + 1)) in        (* storageAdd *)
  let* r := genAsm mem (Some 0) chars in
  let* mem := poke (fst r) chars [NUL] in
  cstr mem.
End Asm.
