(** Formal and actual parameters. Source: /repo/src/umka_decl.c, /repo/src/umka_expr.c, /repo/src/umka_types.c.

    Simplified: token handling is left out, so a signature comes as its groups of parameters and a call as its list of actual expressions; types,
    expressions and default values are abstract, and so are the tests whether an expression can be passed. Every compile error is [Err EOther]. *)
From Coq Require Import ZArith Lia Bool List.
From Verif Require Import Base.
Import ListNotations.
Local Open Scope Z_scope.

Section Args.
Variables T A D : Type.
(** typeComparable(t) or any: /repo/src/umka_decl.c:174. *)
Variable canDefault : T -> bool.
(** doImplicitTypeConv and typeAssertCompatibleParam succeed: /repo/src/umka_expr.c:1844-1845. *)
Variable fits : T -> A -> bool.
(** The expression is an array compatible with the variadic list: /repo/src/umka_expr.c:1732; it can be an item of it: 1735. *)
Variables fitsList fitsItem : T -> A -> bool.

(** A parameter: /repo/src/umka_types.h (Param). [pdef] is the default value; a parameter without one has a zero constant. *)
Record param := Par { pname : nat; pty : T; pvar : bool; pdef : option D }.
(** Hidden parameters are #upvalues or the receiver (first) and #result (last). *)
Inductive sparam := Hidden | Formal (p : param).
Record sig := Sig { sparams : list sparam; sdefaults : Z; sresult : bool }.

(** identList ":" [".."] type ["=" expr]. *)
Record group := Grp { gnames : list nat; gty : T; gvar : bool; gdef : option D }.

Definition MAX_PARAMS : Z := 16.
(** typeAddParam: /repo/src/umka_types.c:805-823. The hidden names differ from all others. *)
Definition sameName (n : nat) (s : sparam) : bool := match s with Formal p => Nat.eqb (pname p) n | Hidden => false end.
Definition addParam (ps : list sparam) (s : sparam) : outcome (list sparam) :=
  if match s with Formal p => existsb (sameName (pname p)) ps | Hidden => false end then Err EOther
  else if MAX_PARAMS <=? Z.of_nat (length ps) then Err EOther else Ok (ps ++ [s]).
Fixpoint addNames (ps : list sparam) (g : group) (l : list nat) : outcome (list sparam) :=
  match l with [] => Ok ps | n :: l => let* ps := addParam ps (Formal (Par n (gty g) (gvar g) (gdef g))) in addNames ps g l end.
(** parseTypedParamList and parseSignature: /repo/src/umka_decl.c:83-106, 136-201. A group has at least one name. *)
Fixpoint parseGroups (ps : list sparam) (ndef : Z) (found : bool) (l : list group) : outcome (list sparam * Z) :=
  match l with
  | [] => Ok (ps, ndef)
  | g :: l =>
      if found then Err EOther
      else if gvar g && negb (Nat.eqb (length (gnames g)) 1) then Err EOther
      else
        let* ndef' := match gdef g with
                      | Some _ => if negb (Nat.eqb (length (gnames g)) 1) then Err EOther else if gvar g then Err EOther
                                  else if negb (canDefault (gty g)) then Err EOther else Ok (ndef + 1)
                      | None => if negb (ndef =? 0) then Err EOther else Ok ndef
                      end in
        let* ps := addNames ps g (gnames g) in
        parseGroups ps ndef' (gvar g) l
  end.
(** parseSignature: /repo/src/umka_decl.c:136-245. [res]: the result is structured. *)
Definition parseSignature (l : list group) (res : bool) : outcome sig :=
  let* ps := addParam [] Hidden in
  let* (ps, ndef) := parseGroups ps 0 false l in
  let* ps := if res then addParam ps Hidden else Ok ps in
  Ok (Sig ps ndef res).

(** What is pushed for a call: the hidden first parameter, the value of an expression, a new array of the values of some expressions, an array
    passed on, a default constant, an empty array, and the pointer to the result. *)
Inductive push := PHidden | PExpr (a : A) | PList (l : list A) | PPass (a : A) | PDefault (d : option D) | PEmpty | PResult.

Definition post (s : sig) : Z := if sresult s then 1 else 0.
Definition numParams (s : sig) : Z := Z.of_nat (length (sparams s)).

(** parseActualParamsAndCall, explicit parameters: /repo/src/umka_expr.c:1822-1858, with parseVariadicParamList: 1717-1769.
    [i] is the index of the next formal parameter, [ne] the number of explicit parameters so far. *)
Fixpoint explicit (s : sig) (i : nat) (ne : Z) (acts : list A) : outcome (nat * Z * list push) :=
  match acts with
  | [] => Ok (i, ne, [])
  | a :: rest =>
      if numParams s - 1 <? 1 + ne + post s then Err EOther
      else
        match nth_error (sparams s) i with
        | None | Some Hidden => UB
        | Some (Formal p) =>
            if pvar p then
              if fitsList (pty p) a then let* (r, l) := explicit s (i + 1) (ne + 1) rest in Ok (r, PPass a :: l)
              else if forallb (fitsItem (pty p)) (a :: rest) then Ok ((i + 1)%nat, ne + 1, [PList (a :: rest)]) else Err EOther
            else if fits (pty p) a then let* (r, l) := explicit s (i + 1) (ne + 1) rest in Ok (r, PExpr a :: l)
            else Err EOther
        end
  end.
(** Number of parameters that may be missing: /repo/src/umka_expr.c:1864-1869. *)
Definition numOptional (s : sig) : outcome Z :=
  if 0 <? sdefaults s then Ok (sdefaults s)
  else if 0 <? numParams s then
    match nth_error (sparams s) (Z.to_nat (numParams s - 1)) with
    | None => UB
    | Some (Formal p) => Ok (if pvar p then 1 else 0)
    | Some Hidden => Ok 0
    end
  else Ok 0.
(** Parameters not given: /repo/src/umka_expr.c:1878-1891, for [n] parameters from [i]. *)
Fixpoint missing (s : sig) (i n : nat) : outcome (list push) :=
  match n with
  | O => Ok []
  | S n =>
      match nth_error (sparams s) i with
      | None => UB
      | Some p =>
          let* l := missing s (i + 1) n in
          Ok ((if 0 <? sdefaults s then PDefault (match p with Formal p => pdef p | Hidden => None end) else PEmpty) :: l)
      end
  end.
(** parseActualParamsAndCall: /repo/src/umka_expr.c:1773-1904. *)
Definition parseCall (s : sig) (acts : list A) : outcome (list push) :=
  let* (r, l) := explicit s 1 0 acts in
  let* opt := numOptional s in
  if 1 + snd r + post s <? numParams s - opt then Err EOther
  else
    let* d := missing s (fst r) (Z.to_nat (numParams s - post s - Z.of_nat (fst r))) in
    Ok (PHidden :: l ++ d ++ (if sresult s then [PResult] else [])).
End Args.
