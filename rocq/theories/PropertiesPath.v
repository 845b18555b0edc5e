(** Properties C30 and C48: module paths. *)
From Coq Require Import ZArith Lia Bool List String.
From Verif Require Import Base LexSpec PathModel PathSpec PathProofs.
Import ListNotations.
Local Open Scope list_scope.
Local Open Scope Z_scope.

(** C30. A path that is absolute, or becomes so after the current folder, is resolved as a file system does, if it fits the buffer
    and each component is . or .. or a proper name. Missing: other components, for which the claim is refuted below. *)
Theorem C30_resolve_partial :
  forall path folder whole size l f, joined path folder whole -> whole = 47 :: ptext l ++ f -> Forall (fun c => cproper (fst c)) l -> (f = [] \/ proper f) ->
  Z.of_nat (List.length whole) < size ->
  moduleRegularizePath path folder size = Ok (match resolve l [] with Some at_ => Some (folder_text at_ ++ f) | None => None end).
Proof.
  intros path folder whole size l f HJ HW HF HP HL. apply joined_full in HJ. subst whole. apply resolve_thm; try assumption; lia.
Qed.
Print Assumptions C30_resolve_partial.
Lemma proper_b n : n <> [] -> forallb (fun c => negb (c =? 47) && negb (c =? 92) && negb (c =? 0) && negb (c =? 46)) n = true -> proper n.
Proof.
  intros H0 H. assert (F : Forall (fun c => c <> 47 /\ c <> 92 /\ c <> 0 /\ c <> 46) n). { apply Forall_forall. intros x Hx. rewrite forallb_forall in H. specialize (H x Hx). lia. }
  split; [exact H0|]. split; [eapply Forall_impl; [|exact F]; cbn; lia|]. split.
  - intros p E. subst n. apply Forall_app in F as [_ F]. inversion F; subst. lia.
  - intros p q c _ E. subst n. apply Forall_app in F as [_ F]. inversion F; subst. lia.
Qed.
Example C30_resolve_case :
  let l := [(Name (txt "home"), false); (Here, true); (Name (txt "my lib"), false); (Up, false); (Name (txt "x"), true)] in
  joined (txt "my lib/../x\m") (txt "/home/.\") (txt "/home/.\my lib/../x\m") /\ txt "/home/.\my lib/../x\m" = 47 :: ptext l ++ txt "m" /\ Forall (fun c => cproper (fst c)) l /\ proper (txt "m") /\
  moduleRegularizePath (txt "my lib/../x\m") (txt "/home/.\") 256 = Ok (Some (txt "/home/x/m")) /\ moduleRegularizePath (txt "/a/../../b") [] 256 = Ok None.
Proof.
  cbv zeta. split; [right; split; [|reflexivity]|]. { rewrite <- abs_iff. vm_compute. discriminate. }
  split; [reflexivity|]. split; [repeat (apply Forall_cons; [cbn [fst cproper]; first [exact I|apply proper_b; [discriminate|reflexivity]]|]); apply Forall_nil|]. split; [apply proper_b; [discriminate|reflexivity]|]. split; vm_compute; reflexivity.
Qed.

(** Whatever the path, the buffers are not overrun and the result with its NUL fits. *)
Theorem C30_within :
  forall path folder size, 0 < size -> (exists r, moduleRegularizePath path folder size = Ok (Some r) /\ Z.of_nat (List.length r) < size) \/ moduleRegularizePath path folder size = Ok None.
Proof. exact within_thm. Qed.
Print Assumptions C30_within.
Example C30_within_case : moduleRegularizePath (txt "/a/b/c/d") [] 5 = Ok (Some (txt "/a/b")) /\ moduleRegularizePath (txt "////////") [] 4 = Ok (Some (txt "///")) /\ moduleRegularizePath (txt "/a....") [] 8 = Ok None.
Proof. repeat split; vm_compute; reflexivity. Qed.

(** An absolute path stays below its root. *)
Theorem C30_root :
  forall path folder whole size r w a, joined path folder whole -> 0 < size -> firstn (Z.to_nat (size - 1)) whole = w ++ 47 :: a -> Forall blank w ->
  moduleRegularizePath path folder size = Ok (Some r) -> exists b, r = w ++ 47 :: b.
Proof.
  intros path folder whole size r w a HJ HS HW HB H. apply joined_full in HJ. subst whole. fold (cut size (full path folder)) in HW. assert (HA : modulePathIsAbsolute (cut size (full path folder)) = true) by (apply abs_iff; exists w, a; auto).
  destruct (root_thm _ _ _ _ HS HA H) as (w' & a' & b & F & E & ->). exists b. replace w' with w; [reflexivity|]. rewrite HW in E. clear - E HB F. revert w' E F. induction HB as [|c w HC HB IH]; intros w' E F.
  - destruct w' as [|c' w']; [reflexivity|]. exfalso. inversion F; subst. cbn in E. assert (c' = 47) by congruence. subst. discriminate.
  - destruct w' as [|c' w']; [exfalso; cbn in E; assert (c = 47) by congruence; subst; destruct HC; discriminate|]. inversion F; subst. cbn [app] in E. assert (E1 : c = c') by congruence. assert (E2 : w ++ 47 :: a = w' ++ 47 :: a') by congruence. rewrite E1. f_equal. apply IH; assumption.
Qed.
Print Assumptions C30_root.
Example C30_root_case : firstn 255 (txt " /a//../b") = txt " " ++ 47 :: txt "a//../b" /\ moduleRegularizePath (txt " /a//../b") [] 256 = Ok (Some (txt " /a/b")).
Proof. split; vm_compute; reflexivity. Qed.

(** Regularising again changes nothing, whatever the current folder then. *)
Theorem C30_idempotent :
  forall path folder whole size r, joined path folder whole -> 0 < size -> absolute (firstn (Z.to_nat (size - 1)) whole) -> moduleRegularizePath path folder size = Ok (Some r) ->
  forall folder', moduleRegularizePath r folder' size = Ok (Some r).
Proof.
  intros path folder whole size r HJ HS HA H. apply joined_full in HJ. subst whole. apply abs_iff in HA. apply (idem_thm path folder size r HS HA H).
Qed.
Print Assumptions C30_idempotent.
Example C30_idempotent_case : absolute (firstn 255 (txt "/w/./a...x//../b. c")) /\ moduleRegularizePath (txt "./a...x//../b. c") (txt "/w/") 256 = Ok (Some (txt "/w/a...x/b c")).
Proof. split; [apply abs_iff|]; vm_compute; reflexivity. Qed.

(** Components with dots at the end, empty components and dots before blanks are not resolved as a file system does, and long paths are cut. *)
Theorem C30_refuted :
  moduleRegularizePath (txt "/foo./bar") [] 256 = Ok (Some (txt "/foobar")) /\ moduleRegularizePath (txt "/w/foo../bar") [] 256 = Ok (Some (txt "/bar")) /\
  moduleRegularizePath (txt "/a.../b") [] 256 = Ok (Some (txt "/a/b")) /\ moduleRegularizePath (txt "/a//../b") [] 256 = Ok (Some (txt "/a/b")) /\
  moduleRegularizePath (txt "/a//b") [] 256 = Ok (Some (txt "/a//b")) /\ moduleRegularizePath (txt "/a. b") [] 256 = Ok (Some (txt "/a b")) /\
  (exists a b r, a <> b /\ proper a /\ proper b /\ moduleRegularizePath (47 :: a) [] 256 = Ok (Some r) /\ moduleRegularizePath (47 :: b) [] 256 = Ok (Some r)).
Proof.
  repeat match goal with |- _ /\ _ => split; [vm_compute; reflexivity|] end. exists (repeat 97 255), (repeat 97 256), (47 :: repeat 97 254).
  split; [intro H; apply (f_equal (@List.length Z)) in H; vm_compute in H; discriminate|]. split; [apply proper_b; [discriminate|reflexivity]|]. split; [apply proper_b; [discriminate|reflexivity]|]. split; vm_compute; reflexivity.
Qed.
Print Assumptions C30_refuted.

(** C48. The module name is the file name without its folder and its extension. *)
Theorem C48_extension :
  forall d n e, is_folder d -> plain n -> plain e -> ~ In 46 e -> n <> [] -> moduleNameFromPath (d ++ n ++ 46 :: e) = Ok (d, n).
Proof. exact name_ext. Qed.
Print Assumptions C48_extension.
Theorem C48_no_extension :
  forall d n, is_folder d -> plain n -> ~ In 46 (d ++ n) -> n <> [] -> moduleNameFromPath (d ++ n) = Ok (d, n).
Proof. exact name_noext. Qed.
Print Assumptions C48_no_extension.
(** Whatever the path, what is returned is its folder, a nonempty name and an extension that is left out. *)
Theorem C48_split :
  forall path d n, moduleNameFromPath path = Ok (d, n) -> exists e, path = d ++ n ++ e /\ n <> [] /\ is_folder d /\ (e = [] \/ exists r, e = 46 :: r /\ ~ In 46 r).
Proof. exact name_split. Qed.
Print Assumptions C48_split.
Example C48_case : is_folder (txt "/v1.0/") /\ plain (txt "m.x") /\ moduleNameFromPath (txt "/v1.0/m.x.um") = Ok (txt "/v1.0/", txt "m.x") /\ moduleNameFromPath (txt "a\m") = Ok (txt "a\", txt "m").
Proof. split; [right; exists (txt "/v1.0"), 47; auto|]. split; [repeat constructor; discriminate|]. split; vm_compute; reflexivity. Qed.
(** A file without extension in a folder with a dot is rejected. *)
Theorem C48_refuted : is_folder (txt "/v1.0/") /\ plain (txt "m") /\ moduleNameFromPath (txt "/v1.0/m") = Err ESyntax.
Proof. split; [right; exists (txt "/v1.0"), 47; auto|]. split; [repeat constructor; discriminate|]. vm_compute; reflexivity. Qed.
Print Assumptions C48_refuted.
