(** The data tree: /repo/src/tree/v7400.rs, /repo/src/tree/v7400/node.rs, node/handle.rs,
    node/data.rs and node/name.rs of the same directory, over the two crates it is built on:

    - [indextree] 4 (arena of nodes with parent, sibling and child links).  Its source is not
      part of /repo; the links are modelled after its [relations.rs] and [id.rs].  The crate
      recycles removed nodes, but fbxcel never removes a node, so a node ID is an index.
    - [string-interner] 0.14: a list of distinct strings; a symbol is an index.  That the
      number of distinct strings fits a [u32] is not modelled (it would panic).

    Functions that can panic return an [option]: [None] is the panic. *)
Require Import Coq.Lists.List Coq.Arith.PeanoNat Coq.NArith.NArith Coq.Bool.Bool.
Require Import Coq.Init.Byte.
Require Import Verif.Base Verif.Types Verif.Values.
Import ListNotations.

(** ** Arena *)

(** [indextree::Node<NodeData>] with [NodeData], node/data.rs lines 10-15. *)
Record slot := mkSlot {
  sl_parent : option nat;
  sl_prev : option nat;
  sl_next : option nat;
  sl_first : option nat;
  sl_last : option nat;
  sl_name : nat;
  sl_attrs : list aval
}.

Definition set_parent (v : option nat) (s : slot) := mkSlot v (sl_prev s) (sl_next s) (sl_first s) (sl_last s) (sl_name s) (sl_attrs s).
Definition set_prev (v : option nat) (s : slot) := mkSlot (sl_parent s) v (sl_next s) (sl_first s) (sl_last s) (sl_name s) (sl_attrs s).
Definition set_next (v : option nat) (s : slot) := mkSlot (sl_parent s) (sl_prev s) v (sl_first s) (sl_last s) (sl_name s) (sl_attrs s).
Definition set_ends (f l : option nat) (s : slot) := mkSlot (sl_parent s) (sl_prev s) (sl_next s) f l (sl_name s) (sl_attrs s).
Definition set_sattrs (v : list aval) (s : slot) := mkSlot (sl_parent s) (sl_prev s) (sl_next s) (sl_first s) (sl_last s) (sl_name s) v.

Definition arena := list slot.

(** Change an element (mutable indexing). *)
Fixpoint upd {A} (i : nat) (f : A -> A) (l : list A) : list A :=
  match l, i with
  | [], _ => []
  | x :: t, O => f x :: t
  | x :: t, S j => x :: upd j f t
  end.

(** A link of a node; [None] also for an index outside the arena. *)
Definition lk (f : slot -> option nat) (a : arena) (i : nat) : option nat :=
  match nth_error a i with Some s => f s | None => None end.

Definition or_else {A} (a b : option A) : option A := match a with Some _ => a | None => b end.

(** indextree [relations.rs]: [connect_neighbors]. *)
Definition connect_neighbors (parent prev next : option nat) (a : arena) : arena :=
  let pf := match parent with Some p => lk sl_first a p | None => None end in
  let pl := match parent with Some p => lk sl_last a p | None => None end in
  let a1 := match prev with Some q => upd q (set_next next) a | None => a end in
  let pf1 := match prev with Some q => or_else pf (Some q) | None => next end in
  let a2 := match next with Some q => upd q (set_prev prev) a1 | None => a1 end in
  let pl1 := match next with Some q => or_else pl (Some q) | None => prev end in
  match parent with Some p => upd p (set_ends pf1 pl1) a2 | None => a2 end.

(** indextree [NodeId::detach]: [detach_from_siblings] and [rewrite_parents(None)]. *)
Definition a_detach (x : nat) (a : arena) : option arena :=
  match nth_error a x with
  | None => None
  | Some s =>
      let a1 := upd x (fun s => set_prev None (set_next None s)) a in
      let a2 := connect_neighbors (sl_parent s) (sl_prev s) (sl_next s) a1 in
      Some (upd x (set_parent None) a2)
  end.

Definition onat_eqb (a b : option nat) : bool :=
  match a, b with Some x, Some y => Nat.eqb x y | None, None => true | _, _ => false end.

(** indextree [relations.rs]: [insert_with_neighbors]; the errors become panics in the
    callers. *)
Definition insert_with_neighbors (x : nat) (parent prev next : option nat) (a : arena) : option arena :=
  if onat_eqb prev (Some x) || onat_eqb next (Some x) then None
  else if onat_eqb parent (Some x) then None
  else
    let a1 := upd x (set_parent parent) a in
    let a2 := connect_neighbors parent prev (Some x) a1 in
    Some (connect_neighbors parent (Some x) next a2).

Definition used (a : arena) (i : nat) : bool := Nat.ltb i (length a).

(** indextree [NodeId::ancestors] (the node itself, its parent, and so on): do those of [p]
    include [x]?  [None]: the search does not end (it stops at the
    first hit, so a cycle that contains [x] is no obstacle). *)
Fixpoint anc_mem (fuel : nat) (a : arena) (x p : nat) : option bool :=
  match fuel with
  | O => None
  | S fuel' =>
      if Nat.eqb p x then Some true
      else match lk sl_parent a p with
           | None => Some false
           | Some q => anc_mem fuel' a x q
           end
  end.

(** indextree [NodeId::append] and [prepend] ([expect] on [checked_append],
    [checked_prepend]): they refuse the node itself and its ancestors. *)
Definition a_append (p x : nat) (a : arena) : option arena :=
  if negb (used a p && used a x) then None
  else if Nat.eqb x p then None
  else match anc_mem (S (length a)) a x p with
       | Some false =>
           match a_detach x a with
           | Some a1 => insert_with_neighbors x (Some p) (lk sl_last a1 p) None a1
           | None => None
           end
       | _ => None
       end.
Definition a_prepend (p x : nat) (a : arena) : option arena :=
  if negb (used a p && used a x) then None
  else if Nat.eqb x p then None
  else match anc_mem (S (length a)) a x p with
       | Some false =>
           match a_detach x a with
           | Some a1 => insert_with_neighbors x (Some p) None (lk sl_first a1 p) a1
           | None => None
           end
       | _ => None
       end.

(** indextree [NodeId::insert_after] and [insert_before]: they refuse the node itself only
    (and, through [insert_with_neighbors], a node that is the parent of the base node). *)
Definition a_insert_after (y x : nat) (a : arena) : option arena :=
  if negb (used a y && used a x) then None
  else if Nat.eqb x y then None
  else match a_detach x a with
       | Some a1 => insert_with_neighbors x (lk sl_parent a1 y) (Some y) (lk sl_next a1 y) a1
       | None => None
       end.
Definition a_insert_before (y x : nat) (a : arena) : option arena :=
  if negb (used a y && used a x) then None
  else if Nat.eqb x y then None
  else match a_detach x a with
       | Some a1 => insert_with_neighbors x (lk sl_parent a1 y) (lk sl_prev a1 y) (Some y) a1
       | None => None
       end.

(** ** Interner *)

(** [StringInterner::get]. *)
Fixpoint sym_of (names : list (list byte)) (s : list byte) : option nat :=
  match names with
  | [] => None
  | n :: t => if bytes_eqb n s then Some O else option_map S (sym_of t s)
  end.
(** [StringInterner::get_or_intern]. *)
Definition intern (names : list (list byte)) (s : list byte) : nat * list (list byte) :=
  match sym_of names s with
  | Some y => (y, names)
  | None => (length names, names ++ [s])
  end.

(** ** [Tree] *)

(** v7400.rs lines 50-58. *)
Record tree := mkTree { tr_arena : arena; tr_names : list (list byte); tr_root : nat }.

Definition with_arena (t : tree) (a : arena) : tree := mkTree a (tr_names t) (tr_root t).
Definition lift_arena (t : tree) (o : option arena) : option tree := option_map (with_arena t) o.

Definition fresh_slot (sym : nat) (ats : list aval) : slot := mkSlot None None None None None sym ats.

(** [Tree::default], v7400.rs lines 331-345. *)
Definition tree_default : tree := mkTree [fresh_slot 0 []] [[]] 0.

(** [create_node], v7400.rs lines 126-131. *)
Definition create_node (name : list byte) (t : tree) : nat * tree :=
  let '(sym, names) := intern (tr_names t) name in
  (length (tr_arena t), mkTree (tr_arena t ++ [fresh_slot sym []]) names (tr_root t)).

(** [append], [prepend], [insert_after], [insert_before]: v7400.rs lines 142-144, 155-157,
    167-171, 181-185.  The last one calls indextree's [insert_after]. *)
Definition append (x p : nat) (t : tree) : option tree := lift_arena t (a_append p x (tr_arena t)).
Definition prepend (x p : nat) (t : tree) : option tree := lift_arena t (a_prepend p x (tr_arena t)).
Definition insert_after (x y : nat) (t : tree) : option tree := lift_arena t (a_insert_after y x (tr_arena t)).
Definition insert_before (x y : nat) (t : tree) : option tree := lift_arena t (a_insert_after y x (tr_arena t)).

(** [append_new], [prepend_new], [insert_new_after], [insert_new_before]: v7400.rs lines
    192-198, 205-211, 218-225, 232-239. *)
Definition append_new (p : nat) (name : list byte) (t : tree) : option (nat * tree) :=
  let '(x, t1) := create_node name t in
  option_map (pair x) (lift_arena t1 (a_append p x (tr_arena t1))).
Definition prepend_new (p : nat) (name : list byte) (t : tree) : option (nat * tree) :=
  let '(x, t1) := create_node name t in
  option_map (pair x) (lift_arena t1 (a_prepend p x (tr_arena t1))).
Definition insert_new_after (y : nat) (name : list byte) (t : tree) : option (nat * tree) :=
  if Nat.eqb y (tr_root t) then None
  else
    let '(x, t1) := create_node name t in
    option_map (pair x) (lift_arena t1 (a_insert_after y x (tr_arena t1))).
Definition insert_new_before (y : nat) (name : list byte) (t : tree) : option (nat * tree) :=
  if Nat.eqb y (tr_root t) then None
  else
    let '(x, t1) := create_node name t in
    option_map (pair x) (lift_arena t1 (a_insert_before y x (tr_arena t1))).

(** [detach], v7400.rs lines 247-249. *)
Definition detach (x : nat) (t : tree) : option tree := lift_arena t (a_detach x (tr_arena t)).

(** [append_attribute_impl], v7400.rs lines 265-269; data.rs lines 34-36. *)
Definition append_attribute (i : nat) (v : aval) (t : tree) : option tree :=
  if Nat.eqb i (tr_root t) then None
  else if used (tr_arena t) i
       then Some (with_arena t (upd i (fun s => set_sattrs (sl_attrs s ++ [v]) s) (tr_arena t)))
       else None.

(** The attributes of a node ([NodeHandle::attributes], handle.rs lines 79-81); [None] when
    the ID is not used. *)
Definition attributes (t : tree) (i : nat) : option (list aval) :=
  option_map sl_attrs (nth_error (tr_arena t) i).

(** [get_attribute_mut], v7400.rs lines 277-280, followed by an assignment through the
    reference, if there is one.  The old value is the first result. *)
Definition assign_attribute (i k : nat) (v : aval) (t : tree) : option (option aval * tree) :=
  match nth_error (tr_arena t) i with
  | None => None
  | Some s =>
      Some (nth_error (sl_attrs s) k,
            with_arena t (upd i (fun s => set_sattrs (upd k (fun _ => v) (sl_attrs s)) s) (tr_arena t)))
  end.

(** [take_attributes_vec], v7400.rs lines 289-292, and [set_attributes_vec], lines 301-305. *)
Definition take_attributes (i : nat) (t : tree) : option (list aval * tree) :=
  match nth_error (tr_arena t) i with
  | None => None
  | Some s => Some (sl_attrs s, with_arena t (upd i (set_sattrs []) (tr_arena t)))
  end.
Definition set_attributes (i : nat) (l : list aval) (t : tree) : option tree :=
  if used (tr_arena t) i then Some (with_arena t (upd i (set_sattrs l) (tr_arena t))) else None.

(** ** [NodeHandle], handle.rs

    Handles exist for used IDs only: [NodeHandle::new] panics otherwise (lines 31-39). *)
Definition to_handle (t : tree) (i : nat) : option nat := if used (tr_arena t) i then Some i else None.

(** [parent], [first_child], [last_child], [previous_sibling], [next_sibling], lines 126-161. *)
Definition parent (t : tree) (i : nat) : option nat := lk sl_parent (tr_arena t) i.
Definition first_child (t : tree) (i : nat) : option nat := lk sl_first (tr_arena t) i.
Definition last_child (t : tree) (i : nat) : option nat := lk sl_last (tr_arena t) i.
Definition previous_sibling (t : tree) (i : nat) : option nat := lk sl_prev (tr_arena t) i.
Definition next_sibling (t : tree) (i : nat) : option nat := lk sl_next (tr_arena t) i.

(** [name_sym] and [name], lines 65-74. *)
Definition name_sym (t : tree) (i : nat) : option nat := option_map sl_name (nth_error (tr_arena t) i).
Definition name (t : tree) (i : nat) : option (list byte) :=
  match name_sym t i with Some y => nth_error (tr_names t) y | None => None end.

(** Following [next_sibling] from a node.  Simplification: the walk stops after as many
    steps as the arena has nodes (the list has no repetition, so this is never reached: see
    [TreeFacts]). *)
Fixpoint walk (fuel : nat) (t : tree) (o : option nat) : list nat :=
  match fuel, o with
  | S fuel', Some i => i :: walk fuel' t (next_sibling t i)
  | _, _ => []
  end.
(** [children], handle.rs lines 86-91 and 209-216: everything the iterator yields. *)
Definition children (t : tree) (i : nat) : list nat := walk (length (tr_arena t)) t (first_child t i).

(** [children_by_name] and [first_child_by_name], lines 96-108 and 236-244. *)
Definition children_by_name (t : tree) (i : nat) (s : list byte) : list nat :=
  match sym_of (tr_names t) s with
  | None => []
  | Some y => filter (fun c => onat_eqb (name_sym t c) (Some y)) (children t i)
  end.
Definition first_child_by_name (t : tree) (i : nat) (s : list byte) : option nat :=
  hd_error (children_by_name t i s).

(** [nodes_strict_eq], lines 165-198.  [None]: a panic, or the recursion does not end within
    [fuel] levels. *)
Definition obytes_eqb (a b : option (list byte)) : option bool :=
  match a, b with Some x, Some y => Some (bytes_eqb x y) | _, _ => None end.
Fixpoint nodes_strict_eq (fuel : nat) (t u : tree) (i j : nat) : option bool :=
  match fuel with
  | O => None
  | S fuel' =>
      match obytes_eqb (name t i) (name u j), attributes t i, attributes u j with
      | Some same_name, Some ai, Some bj =>
          if negb same_name then Some false
          else if negb (Nat.eqb (length ai) (length bj)) then Some false
          else if negb (forallb (fun p => aval_strict_eq (fst p) (snd p)) (combine ai bj)) then Some false
          else
            (fix all (l r : list nat) : option bool :=
               match l, r with
               | [], [] => Some true
               | c :: l', d :: r' =>
                   match nodes_strict_eq fuel' t u c d with
                   | Some true => all l' r'
                   | x => x
                   end
               | _, _ => Some false
               end) (children t i) (children u j)
      | _, _, _ => None
      end
  end.
(** [NodeHandle::strict_eq], lines 120-122, and [Tree::strict_eq], v7400.rs lines 317-319. *)
Definition node_strict_eq (t u : tree) (i j : nat) : option bool :=
  nodes_strict_eq (S (length (tr_arena t))) t u i j.
Definition tree_strict_eq (t u : tree) : option bool := node_strict_eq t u (tr_root t) (tr_root u).

(** ** Depth-first traversal, v7400.rs lines 395-628 *)

(** [DepthFirstTraversed]. *)
Inductive dft := DOpen (i : nat) | DClose (i : nat).
Definition dft_eqb (a b : dft) : bool :=
  match a, b with
  | DOpen i, DOpen j => Nat.eqb i j
  | DClose i, DClose j => Nat.eqb i j
  | _, _ => false
  end.

(** [DepthFirstTraversed::next], lines 454-474, and [prev], lines 482-503. *)
Definition dft_next (t : tree) (e : dft) : option dft :=
  match e with
  | DOpen c => match first_child t c with Some k => Some (DOpen k) | None => Some (DClose c) end
  | DClose c => match next_sibling t c with
                | Some s => Some (DOpen s)
                | None => option_map DClose (parent t c)
                end
  end.
Definition dft_prev (t : tree) (e : dft) : option dft :=
  match e with
  | DClose c => match last_child t c with Some k => Some (DClose k) | None => Some (DOpen c) end
  | DOpen c => match previous_sibling t c with
               | Some s => Some (DClose s)
               | None => option_map DOpen (parent t c)
               end
  end.

(** [DepthFirstTraverseSubtree], lines 517-533. *)
Definition cursors := option (dft * dft).
Definition traverse (i : nat) : cursors := Some (DOpen i, DClose i).

(** [next_forward], lines 537-548, and [next_backward], lines 552-563.  The result is [None]
    on a panic. *)
Definition next_forward (t : tree) (c : cursors) : option (option dft * cursors) :=
  match c with
  | None => Some (None, None)
  | Some (f, b) =>
      if dft_eqb f b then Some (Some f, None)
      else match dft_next t f with
           | Some n => Some (Some f, Some (n, b))
           | None => None
           end
  end.
Definition next_backward (t : tree) (c : cursors) : option (option dft * cursors) :=
  match c with
  | None => Some (None, None)
  | Some (f, b) =>
      if dft_eqb f b then Some (Some b, None)
      else match dft_prev t b with
           | Some n => Some (Some b, Some (f, n))
           | None => None
           end
  end.

(** [peek_forward], [peek_backward], lines 568-577. *)
Definition peek_forward (c : cursors) : option dft := option_map fst c.
Definition peek_backward (c : cursors) : option dft := option_map snd c.

(** [next_open_forward], [next_close_forward], [next_open_backward], [next_close_backward],
    lines 582-627: loop until an event of the wanted kind or the end.  [None]: panic, or not
    ended within the fuel (twice the number of nodes, and one). *)
Definition is_open (e : dft) : bool := match e with DOpen _ => true | DClose _ => false end.
Definition dft_id (e : dft) : nat := match e with DOpen i | DClose i => i end.
Fixpoint seek_kind (fuel : nat) (step : cursors -> option (option dft * cursors)) (open : bool) (c : cursors)
  : option (option nat * cursors) :=
  match fuel with
  | O => None
  | S fuel' =>
      match step c with
      | None => None
      | Some (None, c') => Some (None, c')
      | Some (Some e, c') =>
          if Bool.eqb (is_open e) open then Some (Some (dft_id e), c') else seek_kind fuel' step open c'
      end
  end.
Definition dft_fuel (t : tree) : nat := S (length (tr_arena t) + length (tr_arena t)).
Definition next_open_forward (t : tree) := seek_kind (dft_fuel t) (next_forward t) true.
Definition next_close_forward (t : tree) := seek_kind (dft_fuel t) (next_forward t) false.
Definition next_open_backward (t : tree) := seek_kind (dft_fuel t) (next_backward t) true.
Definition next_close_backward (t : tree) := seek_kind (dft_fuel t) (next_backward t) false.
