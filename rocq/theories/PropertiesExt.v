(** C76: external functions. *)
From Coq Require Import ZArith Bool List String.
From Verif Require Import ExtModel ExtSpec ExtProofs ExtMore.
Import ListNotations.
Local Open Scope string_scope.

(** The host adds a function and a module that uses it; std.um is imported, then the module, then the main program, which
    uses a function of its library. *)
Definition exRt : list (string * string * text) :=
  [("std.um", "/d/std.um", ["rtlfopen"; "rtltime"]); ("utf8.um", "/d/utf8.um", [])].
Definition exLib (n : string) : option Z := if String.eqb n "g" then Some 9%Z else None.
Definition exHistory : list op :=
  [OAddFunc "f" (Some 5%Z) (Some 6%Z); OAddFunc "f" (Some 7%Z) None; OAddFunc "rtlfopen" (Some 8%Z) None; OAddModule "/d/m.um" ["f"];
   OAddModule "/d/std.um" ["rtlsystem"]; OImport (Some "/d/std.um") "/d/std.um" None exLib;
   OImport (Some "/d/m.um") "/d/m.um" None exLib].
Definition exState : umka := run (init false true exRt) exHistory.
Example C76_example : u_failed exState = false /\ u_stubs exState =
  [MkStub "/d/std.um" "rtlfopen" (FSandbox "rtlfopen") None true; MkStub "/d/std.um" "rtltime" (FRtl "rtltime") None true;
   MkStub "/d/m.um" "f" (FHost 5) (Some 6%Z) true].
Proof. vm_compute. auto. Qed.
Example C76_example_short : short exHistory.
Proof. intros n f up [E|[E|[E|[E|[E|[E|[E|[]]]]]]]]; try discriminate; injection E as <- _ _; cbn; repeat constructor. Qed.
Example C76_example_main :
  snd (step exState (OMain "/d/a.um" (Some ["g"]) None exLib)) = RModule None /\
  snd (step exState (OMain "/d/a.um" (Some ["g"; "f"]) None exLib)) = RModule (Some (EAlready "f")) /\
  snd (step exState (OMain "/d/a.um" (Some ["rtlsystem"]) None exLib)) = RModule (Some (ECannot "rtlsystem")) /\
  snd (step exState (OMain "/d/a.um" (Some ["k"]) None exLib)) = RModule (Some (EUnresolved "k")).
Proof. vm_compute. auto. Qed.

(** umkaAddFunc and umkaAddClosure succeed exactly for new names, and otherwise change nothing. *)
Theorem C76_add : forall fs libs rt h n f up, short h ->
  exists u' b, step (run (init fs libs rt) h) (OAddFunc n f up) = (u', RBool b) /\
    (b = true <-> ~ reserved n /\ Forall (fun o => ~ registers n o) h) /\
    (b = false -> u' = run (init fs libs rt) h).
Proof. exact add_ok. Qed.
Print Assumptions C76_add.
Example C76_add_example : map (fun n => snd (step exState (OAddFunc n None None))) ["f"; "k"; "rtltrace"] = [RBool false; RBool true; RBool false].
Proof. vm_compute. reflexivity. Qed.

(** How the prototypes of the main program are resolved: for each name in turn, what the specification says. *)
Theorem C76_main : forall fs libs rt h path t lib, short h -> let u := run (init fs libs rt) h in
  u_failed u = false -> ~ In path (u_loaded u) ->
  exists u' bs e, step u (OMain path (Some t) None lib) = (u', RModule e) /\ u_stubs u' = (u_stubs u ++ bs)%list /\
    resolves fs h path true false (fun n => if libs then option_map FLib (lib n) else None) (usedNames (u_stubs u)) t bs e.
Proof. exact main_ok. Qed.
Print Assumptions C76_main.

(** The same for a module given as a string, with its text. *)
Theorem C76_import : forall fs libs rt h p rel file t tr lib, short h -> let u := run (init fs libs rt) h in
  u_failed u = false -> ~ In p (u_loaded u) -> given rt h p (Some (t, tr)) ->
  exists u' bs e, step u (OImport (Some p) rel file lib) = (u', RModule e) /\ u_stubs u' = (u_stubs u ++ bs)%list /\
    resolves fs h p true tr (fun n => if libs then option_map FLib (lib n) else None) (usedNames (u_stubs u)) t bs e.
Proof. exact import_ok. Qed.
Print Assumptions C76_import.
Example C76_import_example : given exRt exHistory "/d/std.um" (Some (["rtlfopen"; "rtltime"], true)) /\
  given exRt exHistory "/d/m.um" (Some (["f"], false)).
Proof. split; [exact (source_ok false true exRt exHistory "/d/std.um")|exact (source_ok false true exRt exHistory "/d/m.um")]. Qed.

(** And for a module read from a file: it gets nothing from the host. *)
Theorem C76_file : forall fs libs rt h cur p t lib, short h -> let u := run (init fs libs rt) h in
  u_failed u = false -> ~ In p (u_loaded u) -> (forall q, cur = Some q -> given rt h q None) ->
  exists u' bs e, step u (OImport cur p (Some t) lib) = (u', RModule e) /\ u_stubs u' = (u_stubs u ++ bs)%list /\
    resolves fs h p false false (fun n => if libs then option_map FLib (lib n) else None) (usedNames (u_stubs u)) t bs e /\
    Forall (fun b => b_external b = false /\ means fs h (b_name b) None) bs.
Proof.
  intros fs libs rt h cur p t lib S u NF NL G. destruct (file_ok fs libs rt h cur p t lib S NF NL G) as (u' & bs & e & A & B & R).
  exists u', bs, e. split; [exact A|]. split; [exact B|]. split; [exact R|]. eapply resolves_file. exact R.
Qed.
Print Assumptions C76_file.
Example C76_file_example :
  snd (step exState (OImport (Some "/d/x.um") "/e/x.um" (Some ["g"]) exLib)) = RModule None /\
  snd (step exState (OImport (Some "/d/x.um") "/e/x.um" (Some ["f"]) (fun _ => Some 1%Z))) = RModule (Some (EAlready "f")) /\
  snd (step (run (init true true exRt) [OAddFunc "f" None None]) (OImport None "/e/x.um" (Some ["f"]) (fun _ => Some 1%Z)))
    = RModule (Some (ECannot "f")).
Proof. vm_compute. auto. Qed.

(** The same for a main program read from a file. *)
Theorem C76_main_file : forall fs libs rt h p t lib, short h -> let u := run (init fs libs rt) h in
  u_failed u = false -> ~ In p (u_loaded u) ->
  exists u' bs e, step u (OMain p None (Some t) lib) = (u', RModule e) /\ u_stubs u' = (u_stubs u ++ bs)%list /\
    resolves fs h p false false (fun n => if libs then option_map FLib (lib n) else None) (usedNames (u_stubs u)) t bs e.
Proof. exact main_file_ok. Qed.
Print Assumptions C76_main_file.

(** After an error nothing is compiled any more. *)
Theorem C76_error : forall u o u' e, step u o = (u', RModule (Some e)) -> forall h, u_stubs (run u' h) = u_stubs u'.
Proof.
  intros u o u' e S h. apply step_failed in S. apply failed_stays. apply S. discriminate.
Qed.
Print Assumptions C76_error.
Example C76_error_example : exists u' e, step exState (OMain "/d/a.um" None (Some ["g"; "f"]) exLib) = (u', RModule (Some e)).
Proof. eexists _, _. vm_compute. reflexivity. Qed.

(** The specification has one outcome, and one in which all prototypes have functions if there is no error. *)
Theorem C76_resolution : forall fs h path src tr lib used ns bs e, resolves fs h path src tr lib used ns bs e ->
  (e = None -> map b_name bs = ns) /\
  forall bs' e', resolves fs h path src tr lib used ns bs' e' -> bs = bs' /\ e = e'.
Proof.
  intros fs h path src tr lib used ns bs e R. split; [intros ->; eapply resolves_all; exact R|]. eapply resolves_fun. exact R.
Qed.
Print Assumptions C76_resolution.

(** A prototype calls the function first registered under its name, with its upvalue. *)
Theorem C76_bound : forall fs libs rt h b, short h -> In b (u_stubs (run (init fs libs rt) h)) -> b_external b = true ->
  exists tr, means fs h (b_name b) (Some (Some (b_fn b), b_upvalue b, tr)).
Proof. exact bound_ok. Qed.
Print Assumptions C76_bound.

(** A registered function has at most one prototype in the whole program. *)
Theorem C76_once : forall fs libs rt h, short h -> NoDup (usedNames (u_stubs (run (init fs libs rt) h))).
Proof. exact once_ok. Qed.
Print Assumptions C76_once.

(** Whatever the host and the modules do, the runtime library is called by std.um only, its functions that reach out
    only if the file system is enabled, and libraries only if they are enabled. *)
Theorem C76_sandbox : forall fs libs rt h b, In b (u_stubs (run (init fs libs rt) h)) -> allowed fs libs rt h b.
Proof. exact allowed_ok. Qed.
Print Assumptions C76_sandbox.

(** Long names: the same name is added twice, the second hides the first, and a different name gets it. *)
Definition longName : string := let fix r n := match n with O => "" | S m => append "a" (r m) end in r 256.
Theorem C76_long_refuted : exists n n' h, n <> n' /\
  h = [OAddFunc n (Some 1%Z) None; OAddFunc n (Some 2%Z) None] /\
  (let u := run (init true true []) (firstn 1 h) in snd (step u (OAddFunc n (Some 2%Z) None)) = RBool true) /\
  u_stubs (run (init true true []) (h ++ [OMain "/m.um" (Some [n']) None (fun _ => None)])) = [MkStub "/m.um" n' (FHost 2) None true].
Proof.
  exists longName, (substring 0 255 longName), [OAddFunc longName (Some 1%Z) None; OAddFunc longName (Some 2%Z) None].
  split; [intro E; apply (f_equal String.length) in E; vm_compute in E; discriminate|].
  split; [reflexivity|]. split; vm_compute; reflexivity.
Qed.
Print Assumptions C76_long_refuted.
