(** What the representation of a value is, as a text. *)
From Coq Require Import ZArith Bool List.
From Verif Require Import Base ReprModel.
Import ListNotations.
Local Open Scope Z_scope.

(** Concatenation of texts that may be errors, and lists with separators. *)
Definition cat (a b : outcome (list Z)) : outcome (list Z) := let* x := a in let* y := b in Ok (x ++ y).
Fixpoint separated (sep : list Z) (l : list (outcome (list Z))) : outcome (list Z) :=
  match l with
  | [] => Ok []
  | [x] => x
  | x :: r => cat x (cat (Ok sep) (separated sep r))
  end.
(** A list in brackets: on one line, or each item on a line of its own, indented by four blanks for each level. *)
Definition margin (depth : nat) : list Z := 10 :: repeat 32 (4 * depth).
Definition bracketed (o c : Z) (depth : nat) (pretty : bool) (inner : outcome (list Z)) : outcome (list Z) :=
  if pretty then cat (Ok (o :: margin (S depth))) (cat inner (Ok (margin depth ++ [c]))) else cat (Ok [o]) (cat inner (Ok [c])).
Definition between (depth : nat) (pretty : bool) : list Z := if pretty then margin (S depth) else [32].

Section Text.
Variable C : lib.
Variable look : ref -> outcome node.
Fixpoint text (pretty deref : bool) (todo : nat) (r : ref) {struct todo} : outcome (list Z) :=
  let depth := (MAX_DEPTH - todo)%nat in
  match todo with
  | O => Ok [46; 46; 46]
  | S todo1 =>
      let* n := look r in
      let go := text pretty deref todo1 in
      match n with
      | NVoid => Ok tVoid
      | NInt v => Ok (tInt C v)
      | NUInt v => Ok (tUInt C v)
      | NBool v => Ok (if v =? 0 then tFalse else tTrue)
      | NChar v => Ok (if 32 <=? v mod 256 then [39; v mod 256; 39] else tHex2 C (v mod 256))
      | NReal v => Ok (tReal C v)
      | NPtr p (Some r1) => if deref then cat (Ok (tPtr C p ++ [32; 45; 62; 32])) (bracketed 40 41 depth pretty (go r1)) else Ok (tPtr C p)
      | NPtr p None => Ok (tPtr C p)
      | NWeak p => Ok (tHex C p)
      | NStr s => Ok (34 :: s ++ [34])
      | NArr items | NDyn (Some items) => bracketed 91 93 depth pretty (separated (between depth pretty) (map go items))
      | NDyn None => bracketed 91 93 depth pretty (Ok [])
      | NMap (Some l) => bracketed 123 125 depth pretty (separated (between depth pretty) (map (fun e => cat (go (fst e)) (cat (Ok [58; 32]) (go (snd e)))) l))
      | NMap None => bracketed 123 125 depth pretty (Ok [])
      | NStruct skip l => bracketed 123 125 depth pretty (separated (between depth pretty) (map (fun f => if skip then go (snd f) else cat (Ok (fst f ++ [58; 32])) (go (snd f))) l))
      | NIface (Some (name, r1)) => if pretty then cat (Ok name) (bracketed 40 41 depth pretty (go r1)) else go r1
      | NIface None => Ok tNull
      | NFiber p => Ok (tFiber ++ tPtr C p)
      | NFn v => Ok (tFn ++ tInt C v)
      | NOther => Ok []
      end
  end.
End Text.

(** A C string: the characters before the first zero. *)
Fixpoint cstring (b : list Z) : list Z := match b with [] => [] | c :: r => if c =? 0 then [] else c :: cstring r end.

(** Texts without zeros. *)
Definition clean (t : list Z) : Prop := Forall (fun c => c <> 0) t.
Record libOk (C : lib) : Prop := {
  lo_int : forall v, clean (tInt C v); lo_uint : forall v, clean (tUInt C v); lo_real : forall v, clean (tReal C v);
  lo_ptr : forall v, clean (tPtr C v); lo_hex : forall v, clean (tHex C v); lo_hex2 : forall v, clean (tHex2 C v) }.
Definition nodeOk (n : node) : Prop :=
  match n with
  | NStr s => clean s
  | NStruct _ l => Forall (fun f => clean (fst f)) l
  | NIface (Some (name, _)) => clean name
  | _ => True
  end.
