(** What registering external functions is to mean, in terms of what the host has called.

    Nothing here mentions the list of externals or its flags. *)
From Coq Require Import ZArith Bool List String.
From Verif Require Import ExtModel.
Import ListNotations.
Local Open Scope string_scope.

(** The functions of the runtime library that reach outside of the program: files, environment, commands. *)
Definition reachesOut (n : string) : Prop :=
  In n ["rtlfopen"; "rtlfclose"; "rtlfread"; "rtlfwrite"; "rtlfseek"; "rtlftell"; "rtlremove"; "rtlfeof"; "rtlgetenv"; "rtlsystem"].
(** The names taken from the start. *)
Definition reserved (n : string) : Prop :=
  reachesOut n \/
  In n ["rtlmemcpy"; "rtlstdin"; "rtlstdout"; "rtlstderr"; "rtlfflush"; "rtltime"; "rtlclock"; "rtllocaltime"; "rtlgmtime";
        "rtlmktime"; "rtltrace"].

(** The host registers [n] in [h]. *)
Definition registers (n : string) (o : op) : Prop := exists f up, o = OAddFunc n f up.
(** The first function the host registered under the name. *)
Definition hostFn (h : list op) (n : string) (f up : option Z) : Prop :=
  exists h1 h2, h = (h1 ++ OAddFunc n f up :: h2)%list /\ Forall (fun o => ~ registers n o) h1.
(** No registered name is longer than a C buffer. *)
Definition short (h : list op) : Prop :=
  forall n f up, In (OAddFunc n f up) h -> String.length n <= 255.

(** What a name stands for after [h]. *)
Inductive means (fs : bool) (h : list op) (n : string) : option (option cfun * option Z * bool) -> Prop :=
| means_rtl_out : reachesOut n -> means fs h n (Some (Some (if fs then FRtl n else FSandbox n), None, true))
| means_rtl : reserved n -> ~ reachesOut n -> means fs h n (Some (Some (FRtl n), None, true))
| means_host : forall f up, ~ reserved n -> hostFn h n f up -> means fs h n (Some (option_map FHost f, up, false))
| means_nothing : ~ reserved n -> Forall (fun o => ~ registers n o) h -> means fs h n None.

(** How the prototypes of a module are resolved, given the names [used] before. *)
Inductive resolves (fs : bool) (h : list op) (path : string) (src trusted : bool) (lib : string -> option cfun)
    : list string -> list string -> list stub -> option xerr -> Prop :=
| rs_done : forall used, resolves fs h path src trusted lib used [] [] None
| rs_external : forall used n ns f up tr bs e,
    means fs h n (Some (Some f, up, tr)) -> ~ In n used -> src = true -> (tr = true -> trusted = true) ->
    resolves fs h path src trusted lib (n :: used) ns bs e ->
    resolves fs h path src trusted lib used (n :: ns) (MkStub path n f up true :: bs) e
| rs_lib : forall used n ns f bs e,
    means fs h n None -> lib n = Some f ->
    resolves fs h path src trusted lib used ns bs e ->
    resolves fs h path src trusted lib used (n :: ns) (MkStub path n f None false :: bs) e
| rs_again : forall used n ns x,
    means fs h n (Some x) -> In n used ->
    resolves fs h path src trusted lib used (n :: ns) [] (Some (EAlready n))
| rs_cannot : forall used n ns f up tr,
    means fs h n (Some (f, up, tr)) -> ~ In n used -> src = false \/ (tr = true /\ trusted = false) ->
    resolves fs h path src trusted lib used (n :: ns) [] (Some (ECannot n))
| rs_null : forall used n ns up,
    means fs h n (Some (None, up, false)) -> ~ In n used -> src = true ->
    resolves fs h path src trusted lib used (n :: ns) [] (Some (EUnresolved n))
| rs_unknown : forall used n ns,
    means fs h n None -> lib n = None ->
    resolves fs h path src trusted lib used (n :: ns) [] (Some (EUnresolved n)).

(** The names whose functions have been given away. *)
Definition usedNames (bs : list stub) : list string := map b_name (filter b_external bs).

(** The text of a module given as a string: that of an embedded module, or else the first one the host gave. *)
Inductive given (rt : list (string * string * text)) (h : list op) (p : string) : option (text * bool) -> Prop :=
| given_rt : forall r1 n t r2, rt = (r1 ++ (n, p, t) :: r2)%list -> (forall n' t', ~ In (n', p, t') r1) ->
    given rt h p (Some (t, String.eqb n "std.um"))
| given_host : forall h1 t h2, (forall n' t', ~ In (n', p, t') rt) -> h = (h1 ++ OAddModule p t :: h2)%list ->
    (forall t', ~ In (OAddModule p t') h1) -> given rt h p (Some (t, false))
| given_none : (forall n' t', ~ In (n', p, t') rt) -> (forall t', ~ In (OAddModule p t') h) -> given rt h p None.

(** The prototype is one of the embedded module std.um. *)
Definition inStd (rt : list (string * string * text)) (path n : string) : Prop :=
  exists t, In ("std.um", path, t) rt /\ In n t.
(** What a stub may call: the runtime library, from std.um only, and what reaches out only if the file system is enabled;
    what the host has passed; and libraries if they are enabled. *)
Inductive allowed (fs libs : bool) (rt : list (string * string * text)) (h : list op) : stub -> Prop :=
| allowed_rtl : forall path n up x, inStd rt path n -> reserved n -> (reachesOut n -> fs = true) -> allowed fs libs rt h (MkStub path n (FRtl n) up x)
| allowed_sandbox : forall path n up x, inStd rt path n -> reachesOut n -> fs = false -> allowed fs libs rt h (MkStub path n (FSandbox n) up x)
| allowed_host : forall path n f up, (exists n', In (OAddFunc n' (Some f) up) h) -> allowed fs libs rt h (MkStub path n (FHost f) up true)
| allowed_lib : forall path n f, libs = true -> allowed fs libs rt h (MkStub path n (FLib f) None false).
