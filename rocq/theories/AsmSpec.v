(** Specification of the assembly listing. *)
From Coq Require Import ZArith Bool List Ascii String.
From Verif Require Import Base AsmModel.
Import ListNotations.
Local Open Scope Z_scope.

(** The name of an opcode. *)
Definition opName (o : opcode) : string :=
  match o with
  | P_NOP => "NOP" | P_PUSH => "PUSH" | P_PUSH_GLOBAL => "PUSH_GLOBAL"
  | P_PUSH_ZERO => "PUSH_ZERO" | P_PUSH_LOCAL_PTR => "PUSH_LOCAL_PTR"
  | P_PUSH_LOCAL_PTR_ZERO => "PUSH_LOCAL_PTR_ZERO" | P_PUSH_LOCAL => "PUSH_LOCAL"
  | P_PUSH_REG => "PUSH_REG" | P_PUSH_UPVALUE => "PUSH_UPVALUE" | P_POP => "POP"
  | P_POP_REG => "POP_REG" | P_DUP => "DUP" | P_SWAP => "SWAP" | P_ZERO => "ZERO"
  | P_DEREF => "DEREF" | P_ASSIGN => "ASSIGN" | P_SWAP_ASSIGN => "SWAP_ASSIGN"
  | P_ASSIGN_PARAM => "ASSIGN_PARAM" | P_REF_CNT => "REF_CNT"
  | P_REF_CNT_GLOBAL => "REF_CNT_GLOBAL" | P_REF_CNT_LOCAL => "REF_CNT_LOCAL"
  | P_REF_CNT_ASSIGN => "REF_CNT_ASSIGN" | P_SWAP_REF_CNT_ASSIGN => "SWAP_REF_CNT_ASSIGN"
  | P_UNARY => "UNARY" | P_BINARY => "BINARY" | P_GET_ARRAY_PTR => "GET_ARRAY_PTR"
  | P_GET_ARRAY => "GET_ARRAY" | P_GET_DYNARRAY_PTR => "GET_DYNARRAY_PTR"
  | P_GET_DYNARRAY => "GET_DYNARRAY" | P_GET_MAP_PTR => "GET_MAP_PTR"
  | P_GET_MAP => "GET_MAP" | P_GET_FIELD_PTR => "GET_FIELD_PTR"
  | P_GET_FIELD => "GET_FIELD" | P_ASSERT_TYPE => "ASSERT_TYPE"
  | P_ASSERT_RANGE => "ASSERT_RANGE" | P_WEAKEN_PTR => "WEAKEN_PTR"
  | P_STRENGTHEN_PTR => "STRENGTHEN_PTR" | P_GOTO => "GOTO" | P_GOTO_IF => "GOTO_IF"
  | P_GOTO_IF_NOT => "GOTO_IF_NOT" | P_CALL => "CALL" | P_CALL_INDIRECT => "CALL_INDIRECT"
  | P_CALL_EXTERN => "CALL_EXTERN" | P_CALL_BUILTIN => "CALL_BUILTIN"
  | P_RETURN => "RETURN" | P_ENTER_FRAME => "ENTER_FRAME" | P_LEAVE_FRAME => "LEAVE_FRAME"
  | P_HALT => "HALT"
  end%string.

(** The builtin functions. *)
Definition builtinNames : list string :=
  ["printf"; "fprintf"; "sprintf"; "scanf"; "fscanf"; "sscanf"; "makereal"; "makerealleft";
   "round"; "trunc"; "ceil"; "floor"; "abs"; "fabs"; "sqrt"; "sin"; "cos"; "atan"; "atan2";
   "exp"; "log"; "new"; "make"; "makefromarr"; "makefromstr"; "makearr"; "makestr"; "copy";
   "append"; "insert"; "delete"; "slice"; "sort"; "sortfast"; "len"; "cap"; "sizeof";
   "sizeofself"; "selfptr"; "selfhasptr"; "selftypeeq"; "typeptr"; "valid"; "validkey";
   "keys"; "resume"; "memusage"; "leaksan"; "exit"]%string.

Definition when (P : Prop) (s t : text) : Prop := (P /\ t = s) \/ (~ P /\ t = []).

(** [s] to the right of [w] places. *)
Definition rightIn (w : nat) (c : ascii) (s t : text) : Prop :=
  exists pad, t = pad ++ s /\ Forall (eq c) pad /\
    List.length t = Nat.max w (List.length s).

Section Spec.
Variables fmtInt fmtReal fmtPtr : Z -> text.
Variable idents : list ident.
Variable code : list instr.
Variable dbg : list debug.

(** The name of the first global variable at an address, or the address. *)
Inductive atAddress (p : Z) : list ident -> text -> Prop :=
| aa_none : atAddress p [] (firstn 255 (fmtPtr p))
| aa_here i l : isGlobal i = true -> addr i = p -> atAddress p (i :: l) (firstn 255 (iname i))
| aa_next i l s : isGlobal i = false \/ addr i <> p -> atAddress p l s -> atAddress p (i :: l) s.

(** Opcodes by their operands. *)
Definition withNumber : list opcode :=
  [P_PUSH_ZERO; P_PUSH_LOCAL_PTR; P_PUSH_LOCAL; P_POP; P_ZERO; P_ASSIGN; P_SWAP_ASSIGN;
   P_ASSIGN_PARAM; P_REF_CNT_LOCAL; P_GET_FIELD_PTR; P_GET_FIELD; P_GOTO; P_GOTO_IF;
   P_GOTO_IF_NOT; P_CALL_INDIRECT; P_RETURN].
Definition withTwo : list opcode := [P_PUSH_LOCAL_PTR_ZERO; P_GET_ARRAY_PTR; P_GET_ARRAY].
Definition withGlobal : list opcode := [P_PUSH_GLOBAL; P_REF_CNT_GLOBAL].
Definition withRegister : list opcode := [P_PUSH_REG; P_POP_REG].
Definition withPointer : list opcode := [P_ENTER_FRAME; P_CALL_EXTERN].

Inductive operand (i : instr) : text -> Prop :=
| op_number : In (op i) withNumber -> operand i (lit " " ++ fmtInt (intVal i))
| op_two : In (op i) withTwo ->
    operand i (lit " " ++ fmtInt (half0 i) ++ lit " " ++ fmtInt (half1 i))
| op_global s : In (op i) withGlobal -> atAddress (intVal i) idents s -> operand i (lit " " ++ s)
| op_register n s : In (op i) withRegister -> intVal i = Z.of_nat n ->
    nth_error ["RESULT"; "SELF"; "HEAP_COPY"; "SWITCH_EXPR"; "EXPR_LIST"]%string n = Some s ->
    operand i (lit " " ++ lit s)
| op_pointer : In (op i) withPointer -> operand i (lit " " ++ fmtPtr (intVal i))
| op_builtin n s : op i = P_CALL_BUILTIN -> intVal i = Z.of_nat n ->
    nth_error builtinNames n = Some s -> operand i (lit " " ++ lit s)
| op_call n d : op i = P_CALL -> intVal i = Z.of_nat n -> nth_error dbg n = Some d ->
    operand i (lit " " ++ fnName d ++ lit " (" ++ fmtInt (intVal i) ++ lit ")")
| op_push_ptr w s : op i = P_PUSH -> kindWord i = Some (TKPtr, w) ->
    atAddress (intVal i) idents s -> operand i (lit " " ++ s)
| op_push_real w : op i = P_PUSH -> kindWord i = Some (TKReal, w) ->
    operand i (lit " " ++ fmtReal (intVal i))
| op_push : op i = P_PUSH -> (forall k w, kindWord i = Some (k, w) -> k = TKOther) ->
    operand i (lit " " ++ fmtInt (intVal i))
| op_none : ~ In (op i) (withNumber ++ withTwo ++ withGlobal ++ withRegister ++ withPointer ++
      [P_CALL_BUILTIN; P_CALL; P_PUSH]) -> operand i [].

Definition word (o : option text) : text := match o with Some w => lit " " ++ w | None => [] end.

(** One instruction. *)
Inductive lineOf (ip : nat) (i : instr) (d : debug) : text -> Prop :=
| line_of a b c k s :
    rightIn 9 zeroChar (fmtInt (Z.of_nat ip)) a ->
    rightIn 6 space (fmtInt (line d)) b ->
    rightIn 28 space (lit (opName (op i))) c ->
    when (typeWord i = None \/ op i = P_ASSERT_RANGE \/ op i = P_GET_MAP)
         (word (option_map snd (kindWord i))) k ->
    operand i s ->
    lineOf ip i d (a ++ lit " " ++ b ++ lit " " ++ c ++ word (tokWord i) ++ word (typeWord i) ++ k ++ s).

(** Instructions up to the first halt. *)
Definition live (j : nat) : Prop :=
  forall k i, (k < j)%nat -> nth_error code k = Some i -> op i <> P_HALT.

Definition jump (i : instr) : Prop := In (op i) [P_GOTO; P_GOTO_IF; P_GOTO_IF_NOT].

(** An empty line follows. *)
Definition separated (ip : nat) (i : instr) : Prop :=
  op i = P_RETURN \/ jump i \/
  exists j i', nth_error code j = Some i' /\ live j /\ jump i' /\ intVal i' = Z.of_nat (S ip).

Inductive block (ip : nat) (prev : option nat) (i : instr) (d : debug) : text -> Prop :=
| block_of m f l e :
    when (prev <> Some (fileAddr d)) (NL ++ lit "Module: " ++ fileName d ++ NL ++ NL) m ->
    when (op i = P_ENTER_FRAME) (NL ++ lit "Function: " ++ fnName d ++ NL ++ NL) f ->
    lineOf ip i d l ->
    when (separated ip i) NL e ->
    block ip prev i d (m ++ f ++ l ++ NL ++ e).

(** The listing from an instruction on. *)
Inductive listing : nat -> option nat -> list instr -> list debug -> text -> Prop :=
| li_halt ip prev i c d ds s : op i = P_HALT -> block ip prev i d s ->
    listing ip prev (i :: c) (d :: ds) s
| li_more ip prev i c d ds s t : op i <> P_HALT -> block ip prev i d s ->
    listing (S ip) (Some (fileAddr d)) c ds t ->
    listing ip prev (i :: c) (d :: ds) (s ++ t).

(** Programs: they end with a halt, jumps lead into the code, calls to functions, and
    numbers of registers and builtins are legal. *)
Record wellFormed (capacity : nat) : Prop := {
  wf_halt : exists i, In i code /\ op i = P_HALT;
  wf_debug : (List.length code <= List.length dbg)%nat;
  wf_capacity : (List.length code <= capacity)%nat;
  wf_jump : forall i, In i code -> jump i -> 0 <= intVal i <= Z.of_nat capacity;
  wf_call : forall i, In i code -> op i = P_CALL -> 0 <= intVal i < Z.of_nat (List.length dbg);
  wf_register : forall i, In i code -> In (op i) withRegister -> 0 <= intVal i < 5;
  wf_builtin : forall i, In i code -> op i = P_CALL_BUILTIN -> 0 <= intVal i < 49
}.

(** No text has a zero byte. *)
Definition clean (s : text) : Prop := ~ In NUL s.
Record cleanTexts : Prop := {
  ct_int : forall z, clean (fmtInt z);
  ct_real : forall z, clean (fmtReal z);
  ct_ptr : forall z, clean (fmtPtr z);
  ct_ident : forall i, In i idents -> clean (iname i);
  ct_debug : forall d, In d dbg -> clean (fileName d) /\ clean (fnName d);
  ct_instr : forall i, In i code ->
    (forall w, tokWord i = Some w -> clean w) /\ (forall w, typeWord i = Some w -> clean w) /\
    (forall k w, kindWord i = Some (k, w) -> clean w)
}.
End Spec.
