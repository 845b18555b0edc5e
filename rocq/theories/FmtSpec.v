(** What a format string means, after C11 7.21.6.1 and 7.21.6.2, for a 64-bit long. *)
From Coq Require Import ZArith Bool List.
From Verif Require Import Base NumModel NumSpec FmtModel.
Import ListNotations.
Local Open Scope Z_scope.

(** A conversion: % flags width .precision length letter. "%%" is the one with letter '%'. *)
Inductive clength : Type := Lhh | Lh | Lno | Ll | Lll.
Record conv : Type := { vflags : list Z; vwidth : list Z; vprec : option (list Z); vlen : clength; vlet : Z }.
Definition spellLen (l : clength) : list Z :=
  match l with Lhh => [104; 104] | Lh => [104] | Lno => [] | Ll => [108] | Lll => [108; 108] end.
Definition spell (c : conv) : list Z :=
  37 :: vflags c ++ vwidth c ++ (match vprec c with Some d => 46 :: d | None => [] end) ++ spellLen (vlen c) ++ [vlet c].

Inductive item : Type := Text (l : list Z) | Conv (c : conv).
Definition spellItem (i : item) : list Z := match i with Text l => l | Conv c => spell c end.
Definition spellAll (l : list item) : list Z := concat (map spellItem l).

Definition flagChar (c : Z) : Prop := In c [43; 45; 32; 48; 39; 35].   (* + - space 0 ' # *)
Definition digitChar (c : Z) : Prop := 48 <= c <= 57.

Inductive family : Type := FSigned | FUnsigned | FReal | FString | FChar | FAny | FPercent.
Definition familyOf (c : Z) : option family :=
  match c with
  | 100 | 105 => Some FSigned               (* d i *)
  | 117 | 120 | 88 => Some FUnsigned        (* u x X *)
  | 102 | 70 | 101 | 69 | 103 | 71 => Some FReal   (* f F e E g G *)
  | 115 => Some FString                     (* s *)
  | 99 => Some FChar                        (* c *)
  | 118 => Some FAny                        (* v, not in C *)
  | 37 => Some FPercent
  | _ => None
  end.

(** Letters with the lengths they may have. *)
Definition lenOk (f : family) (l : clength) : Prop :=
  match f, l with
  | FReal, (Lno | Ll) => True
  | FReal, _ => False
  | (FString | FChar), Lno => True
  | (FString | FChar), _ => False
  | _, _ => True
  end.
Record wfConv (c : conv) : Prop := {
  wf_flags : Forall flagChar (vflags c);
  wf_width : Forall digitChar (vwidth c) /\ (forall d r, vwidth c = d :: r -> d <> 48);
  wf_prec : forall d, vprec c = Some d -> Forall digitChar d;
  wf_let : exists f, familyOf (vlet c) = Some f /\ lenOk f (vlen c)
}.
Definition wfItem (i : item) : Prop :=
  match i with Text l => ~ In 37 l | Conv c => wfConv c end.

(** The conversions that take an argument. *)
Fixpoint argConvs (l : list item) : list conv :=
  match l with
  | [] => []
  | Text _ :: r => argConvs r
  | Conv c :: r => match familyOf (vlet c) with Some FPercent => argConvs r | _ => c :: argConvs r end
  end.

(** The values printf accepts for a conversion: integers in the range of the C type of the given length, where the length l is
    taken for 32 bits; reals up to the largest float without the length l, finite or NaN with it. *)
Definition bitsOf (l : clength) : Z := match l with Lhh => 8 | Lh => 16 | Lno | Ll => 32 | Lll => 64 end.
Definition fitsInt (signed : bool) (bits : Z) (n : Z) : Prop :=
  if signed then - 2 ^ (bits - 1) <= n < 2 ^ (bits - 1) else 0 <= n < 2 ^ bits.
Definition isInt (k : kind) : Prop := In k [KInt8; KInt16; KInt32; KInt; KUInt8; KUInt16; KUInt32; KUInt].
Definition accepts (c : conv) (x : kind * Z) : Prop :=
  let (k, v) := x in
  match familyOf (vlet c) with
  | Some FSigned => isInt k /\ fitsInt true (bitsOf (vlen c)) (denote k v)
  | Some FUnsigned => isInt k /\ fitsInt false (bitsOf (vlen c)) (denote k v)
  | Some FReal => (k = KReal32 \/ k = KReal) /\
                  match vlen c with
                  | Lno => ~ rlt (realVal v) (SpecFloat.SFopp FLT_MAX) /\ ~ rlt FLT_MAX (realVal v)
                  | _ => forall s, realVal v <> SpecFloat.S754_infinity s
                  end
  | Some FString => k = KStr
  | Some FChar => k = KChar
  | Some FAny => k <> KVoid
  | _ => False
  end.

(** [formatFor f args]: f is a sequence of texts and conversions, and those that take an argument accept [args] in order. *)
Definition formatFor {A} (acc : conv -> A -> Prop) (f : list Z) (args : list A) : Prop :=
  exists items, f = spellAll items /\ Forall wfItem items /\ Forall2 acc (argConvs items) args.

(** *** What the C library does with a call *)

(** The width of the integer printf takes for a conversion. *)
Definition readBits (l : clength) : Z := match l with Lhh | Lh | Lno => 32 | Ll | Lll => 64 end.
(** The integer printed: as much of the argument as is read, converted to the type of the length modifier. Undefined if the
    argument is narrower than what is read; taking the low part of a wider argument is what the usual calling conventions
    give (it is undefined in C). *)
Definition printed (c : conv) (a : parg) : option Z :=
  match a, familyOf (vlet c) with
  | PInt bits _ v, Some FSigned => if bits <? readBits (vlen c) then None else
      Some (wraps (2 ^ match vlen c with Lhh => 8 | Lh => 16 | l => readBits l end) v)
  | PInt bits _ v, Some FUnsigned => if bits <? readBits (vlen c) then None else
      Some (wrapu (2 ^ match vlen c with Lhh => 8 | Lh => 16 | l => readBits l end) v)
  | PInt bits _ v, Some FChar => Some (wrapu (2 ^ 8) v)
  | _, _ => None
  end.
Definition argClass (c : conv) (a : parg) : Prop :=
  match familyOf (vlet c), a with
  | Some (FSigned | FUnsigned | FChar), PInt _ _ _ => True
  | Some FReal, PReal _ => True
  | Some FString, PStr => True
  | _, _ => False
  end.

(** %v becomes a string conversion, blanks standing for the length. *)
Definition asString (c : conv) : conv :=
  {| vflags := vflags c ++ repeat 32 (length (spellLen (vlen c))); vwidth := vwidth c; vprec := vprec c; vlen := Lno; vlet := 115 |}.

(** [cl] is the right call for value [x] and a piece that ends with conversion [c]. *)
Definition passes (c : conv) (x : kind * Z) (pre : list Z) (cl : call) : Prop :=
  let (k, v) := x in
  cpiece cl = pre ++ spell c /\
  match familyOf (vlet c) with
  | Some FAny => carg cl = Some PStr /\ (vlen c = Lno \/ (vwidth c = [] /\ vprec c = None) -> cfmt cl = pre ++ spell (asString c))
  | Some (FSigned | FUnsigned) => cfmt cl = cpiece cl /\ exists a, carg cl = Some a /\ argClass c a /\
      (readBits (vlen c) = 32 \/ k = KInt \/ k = KUInt -> printed c a = Some (denote k v))
  | Some FChar => cfmt cl = cpiece cl /\ exists a, carg cl = Some a /\ argClass c a /\ printed c a = Some v
  | Some FReal => cfmt cl = cpiece cl /\ carg cl = Some (PReal v)
  | Some FString => cfmt cl = cpiece cl /\ carg cl = Some PStr
  | _ => False
  end.

(** The calls split the items: each value goes with the texts before its conversion, the rest comes last. *)
Inductive callsFor : list item -> list (kind * Z) -> list call -> Prop :=
| CEnd : forall its cl, argConvs its = [] -> cpiece cl = spellAll its -> cfmt cl = spellAll its -> carg cl = None -> callsFor its [] [cl]
| CArg : forall its c rest x args cl cs, argConvs its = [] -> passes c x (spellAll its) cl -> callsFor rest args cs ->
    callsFor (its ++ Conv c :: rest) (x :: args) (cl :: cs).

(** Values: not void; ordinals within their types. *)
Definition argOk (x : kind * Z) : Prop := fst x <> KVoid /\ (kindOrdinal (fst x) = true -> holds (fst x) (snd x)).

(** The types scanf accepts for a conversion, and the number of bytes the library writes: those of the C type; for c, the
    width, or 1. Strings are read without the library. *)
Definition scanAccepts (c : conv) (k : kind) : Prop :=
  match familyOf (vlet c) with
  | Some FSigned => k = match vlen c with Lhh => KInt8 | Lh => KInt16 | Lno | Ll => KInt32 | Lll => KInt end
  | Some FUnsigned => k = match vlen c with Lhh => KUInt8 | Lh => KUInt16 | Lno | Ll => KUInt32 | Lll => KUInt end
  | Some FReal => k = match vlen c with Lno => KReal32 | _ => KReal end
  | Some FString => k = KStr
  | Some FChar => k = KChar
  | _ => False
  end.
Definition sizeOf (k : kind) : Z :=
  match k with
  | KInt8 | KUInt8 | KChar | KBool => 1 | KInt16 | KUInt16 => 2 | KInt32 | KUInt32 | KReal32 => 4 | KInt | KUInt | KReal => 8 | _ => 0
  end.
Fixpoint decimal (acc : Z) (l : list Z) : Z := match l with [] => acc | d :: r => decimal (acc * 10 + (d - 48)) r end.
Definition written (c : conv) : Z :=
  match familyOf (vlet c) with
  | Some (FSigned | FUnsigned) => match vlen c with Lhh => 1 | Lh => 2 | Lno => 4 | Ll | Lll => 8 end
  | Some FReal => match vlen c with Lno => 4 | _ => 8 end
  | Some FChar => match vwidth c with [] => 1 | w => decimal 0 w end
  | _ => 0
  end.

(** What scanf does with each piece. *)
Inductive scallsFor : list item -> list kind -> list scall -> Prop :=
| SEnd : forall its cl, argConvs its = [] -> spiece cl = spellAll its -> sfmt cl = spellAll its ++ [37; 110] -> sdest cl = KVoid -> scallsFor its [] [cl]
| SArg : forall its c rest k ks cl cs, argConvs its = [] -> spiece cl = spellAll its ++ spell c -> sfmt cl = spellAll its ++ spell c ++ [37; 110] ->
    sdest cl = k -> (vlen c <> Ll \/ familyOf (vlet c) = Some FReal) -> vwidth c = [] \/ familyOf (vlet c) <> Some FChar -> written c = sizeOf k ->
    scallsFor rest ks cs -> scallsFor (its ++ Conv c :: rest) (k :: ks) (cl :: cs)
| SOdd : forall its c rest k ks cl cs, argConvs its = [] -> spiece cl = spellAll its ++ spell c -> sfmt cl = spellAll its ++ spell c ++ [37; 110] ->
    sdest cl = k -> (vlen c = Ll /\ familyOf (vlet c) <> Some FReal) \/ (vwidth c <> [] /\ familyOf (vlet c) = Some FChar) ->
    scallsFor rest ks cs -> scallsFor (its ++ Conv c :: rest) (k :: ks) (cl :: cs).

(** The types of the values printf accepts for a conversion. *)
Definition acceptsKind (c : conv) (k : kind) : Prop :=
  match familyOf (vlet c) with
  | Some (FSigned | FUnsigned) => isInt k
  | Some FReal => k = KReal32 \/ k = KReal
  | Some FString => k = KStr
  | Some FChar => k = KChar
  | Some FAny => k <> KVoid
  | _ => False
  end.
