(** Maps: the binary search tree of MapNode records and the operations on it.

    The heap holds MapNode records (src/umka_common.h:53-59) at non-zero addresses. A key or data chunk is modelled by the value
    it holds ([K], [V]); [None] is a NULL key or data pointer. Reference counting, the type field of Map and running out of
    memory are not modelled here. chunkAlloc (src/umka_vm.c:705-744) returns a zeroed record at an address not used so far. *)
From Coq Require Import ZArith Lia Bool List.
From Verif Require Import Base.
Import ListNotations.
Local Open Scope Z_scope.

Section Map.
Variables K V : Type.
(** The item a new entry holds: itemType->size zero bytes. *)
Variable v0 : V.
(** doDerefImpl of the node key followed by doCompare(key, nodeKey, keyType): see CmpModel. *)
Variable cmp : K -> K -> outcome Z.

(** src/umka_common.h:53-59, struct MapNode. *)
Record mnode : Type := MkNode {
  n_len : Z; n_prio : Z; n_key : option K; n_data : option V; n_left : Z; n_right : Z }.

Record heap : Type := MkHeap { cells : Z -> option mnode; next : Z }.

Definition zero_node : mnode := MkNode 0 0 None None 0 0.

Definition set_left (n : mnode) (p : Z) : mnode := MkNode (n_len n) (n_prio n) (n_key n) (n_data n) p (n_right n).
Definition set_right (n : mnode) (p : Z) : mnode := MkNode (n_len n) (n_prio n) (n_key n) (n_data n) (n_left n) p.
Definition set_len (n : mnode) (l : Z) : mnode := MkNode l (n_prio n) (n_key n) (n_data n) (n_left n) (n_right n).
Definition set_entry (n : mnode) (pr : Z) (k : K) (v : V) : mnode :=
  MkNode (n_len n) pr (Some k) (Some v) (n_left n) (n_right n).
Definition set_data (n : mnode) (v : V) : mnode := MkNode (n_len n) (n_prio n) (n_key n) (Some v) (n_left n) (n_right n).

Definition put (h : heap) (a : Z) (n : mnode) : heap :=
  MkHeap (fun b => if b =? a then Some n else cells h b) (next h).
(** p->field for reading and writing; a null or wild pointer is undefined. *)
Definition get (h : heap) (a : Z) : outcome mnode := match cells h a with Some n => Ok n | None => UB end.
Definition modify (h : heap) (a : Z) (f : mnode -> mnode) : outcome heap := let* n := get h a in Ok (put h a (f n)).

(** chunkAlloc of one MapNode. *)
Definition alloc (h : heap) : heap * Z :=
  (MkHeap (fun b => if b =? next h then Some zero_node else cells h b) (next h + 1), next h).

(** A MapNode ** : the address of map->root, or of the left or right field of a node. *)
Inductive loc : Type := LRoot | LLeft (a : Z) | LRight (a : Z).

(** State of a loop over one map: the heap and the value of map->root. *)
Definition rd (h : heap) (root : Z) (l : loc) : outcome Z :=
  match l with
  | LRoot => Ok root
  | LLeft a => let* n := get h a in Ok (n_left n)
  | LRight a => let* n := get h a in Ok (n_right n)
  end.
Definition wr (h : heap) (root : Z) (l : loc) (p : Z) : outcome (heap * Z) :=
  match l with
  | LRoot => Ok (h, p)
  | LLeft a => let* h := modify h a (fun n => set_left n p) in Ok (h, root)
  | LRight a => let* h := modify h a (fun n => set_right n p) in Ok (h, root)
  end.

(** src/umka_vm.c:1471-1476, doAllocMap: new value of map->root. *)
Definition doAllocMap (h : heap) : heap * Z := alloc h.

(** src/umka_vm.c:1479-1496, doRebalanceMapNodes. *)
Definition doRebalanceMapNodes (h : heap) (root : Z) (parent : loc) (child : Z) : outcome (heap * Z) :=
  let* p := rd h root parent in
  let* n := get h p in
  if child =? n_right n then
    let* c := get h child in
    let* h := modify h p (fun n => set_right n (n_left c)) in
    let* h := modify h child (fun c => set_left c p) in
    wr h root parent child
  else if child =? n_left n then
    let* c := get h child in
    let* h := modify h p (fun n => set_left n (n_right c)) in
    let* h := modify h child (fun c => set_right c p) in
    wr h root parent child
  else Ok (h, root).

(** The test whether the child's priority exceeds the node's, made only if the child is not null (src/umka_vm.c:1527). *)
Definition child_above (h : heap) (c prio : Z) : outcome bool :=
  if c =? 0 then Ok false else let* n := get h c in Ok (prio <? n_prio n).

(** src/umka_vm.c:1504-1531, the loop of doGetMapNode. *)
Fixpoint findLoop (fuel : nat) (h : heap) (root : Z) (node : loc) (key : K) : outcome (heap * Z * loc) :=
  match fuel with
  | O => Err EFuel
  | S f =>
    let* p := rd h root node in
    if p =? 0 then Ok (h, root, node) else
    let* n := get h p in
    let* keyDiff := match n_key n with Some k => cmp key k | None => Ok 1 end in
    if keyDiff =? 0 then Ok (h, root, node) else
    let child := if 0 <? keyDiff then LRight p else LLeft p in
    let* c := rd h root child in
    let* up := (if 0 <? n_prio n then child_above h c (n_prio n) else Ok false) in
    if up : bool
    then let* (h, root) := doRebalanceMapNodes h root node c in findLoop f h root node key
    else findLoop f h root child key
  end.

(** src/umka_vm.c:1499-1540, doGetMapNode. *)
Definition doGetMapNode (fuel : nat) (h : heap) (root : Z) (key : K) (create : bool) : outcome (heap * Z * loc) :=
  if root =? 0 then Err ENull else
  let* (h, root, node) := findLoop fuel h root LRoot key in
  let* p := rd h root node in
  if create && (p =? 0) then
    let (h, a) := alloc h in
    let* (h, root) := wr h root node a in Ok (h, root, node)
  else Ok (h, root, node).

(** src/umka_vm.c:3667-3705, doGetMapPtr without the final dereference: new heap, map->root, and the node whose data chunk
    is returned. [r] is the value of rand(). *)
Definition doGetMapPtr (fuel : nat) (h : heap) (root : Z) (key : K) (r : Z) : outcome (heap * Z * Z) :=
  let (h, root) := if root =? 0 then doAllocMap h else (h, root) in
  let* (h, root, node) := doGetMapNode fuel h root key true in
  let* p := rd h root node in
  let* n := get h p in
  match n_data n with
  | Some _ => Ok (h, root, p)
  | None =>
    let* h := modify h p (fun n => set_entry n (r + 1) key v0) in
    let* h := modify h root (fun n => set_len n (n_len n + 1)) in
    Ok (h, root, p)
  end.

(** Reading an item through the pointer returned by doGetMapPtr (the final doDerefImpl, src/umka_vm.c:3701-3702). *)
Definition loadItem (h : heap) (p : Z) : outcome V :=
  let* n := get h p in match n_data n with Some v => Ok v | None => UB end.
(** Assigning through that pointer (doAssignImpl). *)
Definition storeItem (h : heap) (p : Z) (v : V) : outcome heap :=
  let* n := get h p in match n_data n with Some _ => Ok (put h p (set_data n v)) | None => UB end.

(** src/umka_vm.c:2603-2605, search for the successor of a node. *)
Fixpoint succLoop (fuel : nat) (h : heap) (root : Z) (l : loc) : outcome loc :=
  match fuel with
  | O => Err EFuel
  | S f =>
    let* p := rd h root l in
    let* n := get h p in
    if n_left n =? 0 then Ok l else succLoop f h root (LLeft p)
  end.

(** src/umka_vm.c:2597-2617, unlinking a node from the tree. *)
Definition unlink (fuel : nat) (h : heap) (root : Z) (inParent : loc) (node : Z) : outcome (heap * Z) :=
  let* n := get h node in
  if negb (n_left n =? 0) && (n_right n =? 0) then wr h root inParent (n_left n)
  else if (n_left n =? 0) && negb (n_right n =? 0) then wr h root inParent (n_right n)
  else if negb (n_left n =? 0) && negb (n_right n =? 0) then
    let* sl := succLoop fuel h root (LRight node) in
    let* s := rd h root sl in
    let* sn := get h s in
    let* (h, root) := wr h root sl (n_right sn) in
    let* n := get h node in
    let* h := modify h s (fun x => set_left x (n_left n)) in
    let* n := get h node in
    let* h := modify h s (fun x => set_right x (n_right n)) in
    wr h root inParent s
  else wr h root inParent 0.

(** src/umka_vm.c:2581-2631, doBuiltinDeleteMap. The deleted node's chunk is left where it is (not part of the map any more). *)
Definition doBuiltinDeleteMap (fuel : nat) (h : heap) (root : Z) (key : K) : outcome (heap * Z) :=
  if root =? 0 then Err ENull else
  let* (h, root, inParent) := doGetMapNode fuel h root key false in
  let* node := rd h root inParent in
  if node =? 0 then Ok (h, root) else
  let* (h, root) := unlink fuel h root inParent node in
  let* h := modify h node (fun n => set_right (set_left n 0) 0) in
  let* rn := get h root in
  let h := put h root (set_len rn (n_len rn - 1)) in
  if n_len rn - 1 <? 0 then Err EOther else Ok (h, root).

(** src/umka_vm.c:3007-3025, doBuiltinValidKey (and vmGetMapNodeData, 4351-4358, which makes the same test). *)
Definition doBuiltinValidKey (fuel : nat) (h : heap) (root : Z) (key : K) : outcome (heap * Z * bool) :=
  if root =? 0 then Ok (h, root, false) else
  let* (h, root, node) := doGetMapNode fuel h root key false in
  let* p := rd h root node in
  if p =? 0 then Ok (h, root, false) else
  let* n := get h p in
  Ok (h, root, match n_data n with Some _ => true | None => false end).

(** src/umka_vm.c:2861-2869, len() of a map. *)
Definition mapLen (h : heap) (root : Z) : outcome Z :=
  if root =? 0 then Ok 0 else let* n := get h root in Ok (n_len n).

(** src/umka_vm.c:1596-1613, doGetMapKeysRecursively; the list holds the keys stored so far. *)
Fixpoint getKeys (fuel : nat) (h : heap) (node : Z) (keys : list K) : outcome (list K) :=
  match fuel with
  | O => Err EFuel
  | S f =>
    let* n := get h node in
    let* keys := (if n_left n =? 0 then Ok keys else getKeys f h (n_left n) keys) in
    let keys := match n_key n with Some k => keys ++ [k] | None => keys end in
    if n_right n =? 0 then Ok keys else getKeys f h (n_right n) keys
  end.

(** src/umka_vm.c:1616-1624 and 3028-3050, doGetMapKeys and doBuiltinKeys. Simplified: the result array is the list of keys;
    writing more keys than root->len (beyond the allocated array) is undefined, fewer is an error. *)
Definition doBuiltinKeys (fuel : nat) (h : heap) (root : Z) : outcome (list K) :=
  if root =? 0 then Ok [] else
  let* keys := getKeys fuel h root [] in
  let* rn := get h root in
  if n_len rn <? Z.of_nat (length keys) then UB
  else if Z.of_nat (length keys) =? n_len rn then Ok keys else Err EOther.

(** src/umka_vm.c:1543-1593, doCopyMapNode for a non-null node. *)
Fixpoint copyNode (fuel : nat) (h : heap) (node : Z) : outcome (heap * Z) :=
  match fuel with
  | O => Err EFuel
  | S f =>
    let* n := get h node in
    let (h, a) := alloc h in
    let h := put h a (MkNode (n_len n) (n_prio n) (n_key n) (n_data n) 0 0) in
    let* h := (if n_left n =? 0 then Ok h
               else let* (h, l) := copyNode f h (n_left n) in modify h a (fun x => set_left x l)) in
    let* h := (if n_right n =? 0 then Ok h
               else let* (h, r) := copyNode f h (n_right n) in modify h a (fun x => set_right x r)) in
    Ok (h, a)
  end.

(** src/umka_vm.c:2405-2422, doBuiltinCopyMap: the new map's root. *)
Definition doBuiltinCopyMap (fuel : nat) (h : heap) (root : Z) : outcome (heap * Z) :=
  if root =? 0 then Ok (h, root) else copyNode fuel h root.

(** The user-visible operations on one map variable. *)
Inductive op : Type :=
| OGet (k : K) (r : Z)           (* x = m[k]; [r] is what rand() returns if it is called *)
| OSet (k : K) (v : V) (r : Z)   (* m[k] = v *)
| ODelete (k : K)
| OValidKey (k : K)
| OLen
| OKeys
| OMake.                         (* m = make(map[K]V) *)

Inductive out : Type := RUnit | RVal (v : V) | RBool (b : bool) | RInt (z : Z) | RKeys (l : list K).

Definition step (fuel : nat) (h : heap) (root : Z) (o : op) : outcome (heap * Z * out) :=
  match o with
  | OGet k r => let* (h, root, p) := doGetMapPtr fuel h root k r in
                let* v := loadItem h p in Ok (h, root, RVal v)
  | OSet k v r => let* (h, root, p) := doGetMapPtr fuel h root k r in
                  let* h := storeItem h p v in Ok (h, root, RUnit)
  | ODelete k => let* (h, root) := doBuiltinDeleteMap fuel h root k in Ok (h, root, RUnit)
  | OValidKey k => let* (h, root, b) := doBuiltinValidKey fuel h root k in Ok (h, root, RBool b)
  | OLen => let* n := mapLen h root in Ok (h, root, RInt n)
  | OKeys => let* l := doBuiltinKeys fuel h root in Ok (h, root, RKeys l)
  | OMake => let (h, root) := doAllocMap h in Ok (h, root, RUnit)
  end.

Fixpoint run (fuel : nat) (h : heap) (root : Z) (ops : list op) : outcome (heap * Z * list out) :=
  match ops with
  | [] => Ok (h, root, [])
  | o :: r => let* (h, root, x) := step fuel h root o in
              let* (h, root, xs) := run fuel h root r in Ok (h, root, x :: xs)
  end.
End Map.

Arguments n_len {K V}. Arguments n_prio {K V}. Arguments n_key {K V}. Arguments n_data {K V}.
Arguments n_left {K V}. Arguments n_right {K V}. Arguments MkNode {K V}. Arguments MkHeap {K V}.
Arguments cells {K V}. Arguments next {K V}. Arguments zero_node {K V}. Arguments set_left {K V}. Arguments set_right {K V}.
Arguments set_len {K V}. Arguments set_entry {K V}. Arguments set_data {K V}. Arguments put {K V}. Arguments get {K V}.
Arguments modify {K V}. Arguments alloc {K V}. Arguments rd {K V}. Arguments wr {K V}. Arguments doAllocMap {K V}.
Arguments doRebalanceMapNodes {K V}. Arguments child_above {K V}. Arguments findLoop {K V}. Arguments doGetMapNode {K V}.
Arguments doGetMapPtr {K V}. Arguments loadItem {K V}. Arguments storeItem {K V}. Arguments succLoop {K V}.
Arguments unlink {K V}. Arguments doBuiltinDeleteMap {K V}. Arguments doBuiltinValidKey {K V}. Arguments mapLen {K V}.
Arguments getKeys {K V}. Arguments doBuiltinKeys {K V}. Arguments copyNode {K V}. Arguments doBuiltinCopyMap {K V}.
Arguments step {K V}. Arguments run {K V}. Arguments OGet {K V}. Arguments OSet {K V}. Arguments ODelete {K V}.
Arguments OValidKey {K V}. Arguments OLen {K V}. Arguments OKeys {K V}. Arguments OMake {K V}.
Arguments RUnit {K V}. Arguments RVal {K V}. Arguments RBool {K V}. Arguments RInt {K V}. Arguments RKeys {K V}.

(** Two map variables used in turn in one heap: [true] selects the second one. *)
Section Two.
Variables K V : Type.
Variable v0 : V.
Variable cmp : K -> K -> outcome Z.
Fixpoint run2 (fuel : nat) (h : heap K V) (r1 r2 : Z) (ops : list (bool * op K V)) : outcome (list (out K V)) :=
  match ops with
  | [] => Ok []
  | (false, o) :: r => let* (h, r1, x) := step v0 cmp fuel h r1 o in let* xs := run2 fuel h r1 r2 r in Ok (x :: xs)
  | (true, o) :: r => let* (h, r2, x) := step v0 cmp fuel h r2 o in let* xs := run2 fuel h r1 r2 r in Ok (x :: xs)
  end.
End Two.
Arguments run2 {K V}.
