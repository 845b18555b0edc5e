(** What programs of the language of TempModel mean: a big-step semantics by values, without slots, counts, temporaries, instructions or compiler state. *)
From Coq Require Import ZArith Bool List.
From Verif Require Import Base TempModel.
Import ListNotations.
Local Open Scope Z_scope.

(** A string is its contents. *)
Inductive sval := SI (z : Z) | SS (l : list Z).
(** The variables in scope, latest first. *)
Notation env := (list (nat * sval)).
Fixpoint get (x : nat) (e : env) : option sval := match e with [] => None | (y, v) :: e => if Nat.eqb x y then Some v else get x e end.
Fixpoint put (x : nat) (v : sval) (e : env) : env := match e with [] => [] | (y, w) :: e => if Nat.eqb x y then (y, v) :: e else (y, w) :: put x v e end.
Fixpoint putNth (l : list sval) (g : nat) (v : sval) : list sval := match l, g with [], _ => [] | _ :: l, O => v :: l | w :: l, S g => w :: putNth l g v end.
(** At the end of a block the variables declared in it go out of scope. *)
Definition back (e e' : env) : env := skipn (length e' - length e) e'.
(** Parameter [k] has the name [k]. *)
Fixpoint bindFrom (k : nat) (l : list sval) : env := match l with [] => [] | v :: l => (k, v) :: bindFrom (S k) l end.
Definition zero (gc : bool) : sval := if gc then SS [] else SI 0.

(** How a statement ends. *)
Inductive ending := ONext | OBreak | OContinue | OReturn (v : option sval).

Section Source.
Variable prog : list fn.
(** [ev e G x v G']: in variables [e] and globals [G], [x] has the value [v] and leaves the globals [G']. *)
Inductive ev : env -> list sval -> expr -> sval -> list sval -> Prop :=
  | ev_num : forall e G z, ev e G (ENum z) (SI z) G
  | ev_empty : forall e G, ev e G EEmpty (SS []) G
  | ev_local : forall e G x v, get x e = Some v -> ev e G (ELocal x) v G
  | ev_global : forall e G g v, nth_error G g = Some v -> ev e G (EGlobal g) v G
  | ev_call : forall e G f a F l G1 e' v G2, nth_error prog f = Some F -> evs e G a l G1 -> ex (bindFrom 0 l) G1 (fbody F) e' G2 (OReturn (Some v)) -> ev e G (ECall f a) v G2
  | ev_new : forall e G l, ev e G (ENew l) (SS l) G
  | ev_len : forall e G x l G1, ev e G x (SS l) G1 -> ev e G (ELen x) (SI (Z.of_nat (length l))) G1
  | ev_cat : forall e G x y l m G1 G2, ev e G x (SS l) G1 -> ev e G1 y (SS m) G2 -> ev e G (ECat x y) (SS (l ++ m)) G2
  | ev_less : forall e G x y a b G1 G2, ev e G x (SI a) G1 -> ev e G1 y (SI b) G2 -> ev e G (ELess x y) (SI (if a <? b then 1 else 0)) G2
  | ev_and0 : forall e G x y G1, ev e G x (SI 0) G1 -> ev e G (EAnd x y) (SI 0) G1
  | ev_and1 : forall e G x y a v G1 G2, ev e G x (SI a) G1 -> a <> 0 -> ev e G1 y v G2 -> ev e G (EAnd x y) v G2
  | ev_or1 : forall e G x y a G1, ev e G x (SI a) G1 -> a <> 0 -> ev e G (EOr x y) (SI a) G1
  | ev_or0 : forall e G x y v G1 G2, ev e G x (SI 0) G1 -> ev e G1 y v G2 -> ev e G (EOr x y) v G2
  | ev_cond1 : forall e G q x y a v G1 G2, ev e G q (SI a) G1 -> a <> 0 -> ev e G1 x v G2 -> ev e G (ECond q x y) v G2
  | ev_cond0 : forall e G q x y v G1 G2, ev e G q (SI 0) G1 -> ev e G1 y v G2 -> ev e G (ECond q x y) v G2
(** Arguments, from left to right. *)
with evs : env -> list sval -> args -> list sval -> list sval -> Prop :=
  | evs_nil : forall e G, evs e G ANil [] G
  | evs_cons : forall e G x a v l G1 G2, ev e G x v G1 -> evs e G1 a l G2 -> evs e G (ACons x a) (v :: l) G2
(** [ex e G s e' G' o]: the statement [s] leaves the variables [e'] and the globals [G'] and ends in the way [o]. *)
with ex : env -> list sval -> stmt -> env -> list sval -> ending -> Prop :=
  | ex_skip : forall e G, ex e G SSkip e G ONext
  | ex_seq : forall e G a b e1 G1 e2 G2 o, ex e G a e1 G1 ONext -> ex e1 G1 b e2 G2 o -> ex e G (SSeq a b) e2 G2 o
  | ex_stop : forall e G a b e1 G1 o, ex e G a e1 G1 o -> o <> ONext -> ex e G (SSeq a b) e1 G1 o
  | ex_decl : forall e G x y v G1, ev e G y v G1 -> ex e G (SDecl x y) ((x, v) :: e) G1 ONext
  | ex_set : forall e G x y v w G1, ev e G y v G1 -> get x e = Some w -> ex e G (SSet x y) (put x v e) G1 ONext
  | ex_setGlobal : forall e G g y v G1, ev e G y v G1 -> (g < length G1)%nat -> ex e G (SSetGlobal g y) e (putNth G1 g v) ONext
  | ex_call : forall e G f a F l G1 e' G2 o, nth_error prog f = Some F -> evs e G a l G1 -> ex (bindFrom 0 l) G1 (fbody F) e' G2 o ->
      (match o with OReturn r => (r = None <-> fresult F = None) | ONext => fresult F = None | _ => False end) -> ex e G (SCall f a) e G2 ONext
  | ex_block : forall e G s e1 G1 o, ex e G s e1 G1 o -> ex e G (SBlock s) (back e e1) G1 o
  | ex_if : forall e G i q a b e1 G1 z G2 e2 G3 o, ex e G i e1 G1 ONext -> ev e1 G1 q (SI z) G2 -> ex e1 G2 (if z =? 0 then b else a) e2 G3 o -> ex e G (SIf i q a b) (back e e2) G3 o
  | ex_for : forall e G i q p b e1 G1 e2 G2 o, ex e G i e1 G1 ONext -> lp e1 G1 q p b e2 G2 o -> ex e G (SFor i q p b) (back e e2) G2 o
  | ex_break : forall e G, ex e G SBreak e G OBreak
  | ex_continue : forall e G, ex e G SContinue e G OContinue
  | ex_return : forall e G, ex e G (SReturn None) e G (OReturn None)
  | ex_returnV : forall e G y v G1, ev e G y v G1 -> ex e G (SReturn (Some y)) e G1 (OReturn (Some v))
(** A loop, after its declaration. *)
with lp : env -> list sval -> expr -> stmt -> stmt -> env -> list sval -> ending -> Prop :=
  | lp_end : forall e G q p b G1, ev e G q (SI 0) G1 -> lp e G q p b e G1 ONext
  | lp_again : forall e G q p b z G1 e2 G2 o2 e3 G3 e4 G4 o, ev e G q (SI z) G1 -> z <> 0 -> ex e G1 b e2 G2 o2 -> o2 = ONext \/ o2 = OContinue ->
      ex (back e e2) G2 p e3 G3 ONext -> lp (back e e3) G3 q p b e4 G4 o -> lp e G q p b e4 G4 o
  | lp_break : forall e G q p b z G1 e2 G2, ev e G q (SI z) G1 -> z <> 0 -> ex e G1 b e2 G2 OBreak -> lp e G q p b (back e e2) G2 ONext
  | lp_return : forall e G q p b z G1 e2 G2 v, ev e G q (SI z) G1 -> z <> 0 -> ex e G1 b e2 G2 (OReturn v) -> lp e G q p b (back e e2) G2 (OReturn v).
(** A program runs its function 0 and ends with the globals [G]. *)
Definition ends (gty : list bool) (G : list sval) : Prop := exists F e o, nth_error prog 0 = Some F /\ ex [] (map zero gty) (fbody F) e G o /\ (o = ONext \/ o = OReturn None).
End Source.

(** The value of a machine value. *)
Definition denotes (s : st) (v : value) (x : sval) : Prop :=
  match v, x with VInt z, SI y => z = y | VRef None, SS l => l = [] | VRef (Some o), SS l => (o < onext s)%nat /\ ostr s o = l | _, _ => False end.
