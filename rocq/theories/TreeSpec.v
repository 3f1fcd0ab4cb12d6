(** Specification of the tree API: histories of operations, sibling lists, the abstract
    document a node stands for, depth-first event sequences.  Uses the observers of [Tree]
    only ([parent], [children], [next_sibling], [name], ...). *)
Require Import Coq.Lists.List Coq.Arith.PeanoNat Coq.Relations.Relation_Operators.
Require Import Coq.Init.Byte.
Require Import Verif.Base Verif.Types Verif.Tree.
Import ListNotations.

(** The node IDs a client can hold: the nodes created so far. *)
Definition node_of (t : tree) (i : nat) : Prop := i < length (tr_arena t).

(** ** Histories *)

Inductive top :=
| OpCreate (name : list byte)
| OpAppend (x p : nat) | OpPrepend (x p : nat)
| OpInsertAfter (x y : nat) | OpInsertBefore (x y : nat)
| OpAppendNew (p : nat) (name : list byte) | OpPrependNew (p : nat) (name : list byte)
| OpInsertNewAfter (y : nat) (name : list byte) | OpInsertNewBefore (y : nat) (name : list byte)
| OpDetach (x : nat)
| OpAppendAttribute (i : nat) (v : aval)
| OpAssignAttribute (i k : nat) (v : aval)
| OpTakeAttributes (i : nat)
| OpSetAttributes (i : nat) (l : list aval).

(** The tree after an operation that does not panic. *)
Definition run_top (o : top) (t : tree) : option tree :=
  match o with
  | OpCreate s => Some (snd (create_node s t))
  | OpAppend x p => append x p t
  | OpPrepend x p => prepend x p t
  | OpInsertAfter x y => insert_after x y t
  | OpInsertBefore x y => insert_before x y t
  | OpAppendNew p s => option_map snd (append_new p s t)
  | OpPrependNew p s => option_map snd (prepend_new p s t)
  | OpInsertNewAfter y s => option_map snd (insert_new_after y s t)
  | OpInsertNewBefore y s => option_map snd (insert_new_before y s t)
  | OpDetach x => detach x t
  | OpAppendAttribute i v => append_attribute i v t
  | OpAssignAttribute i k v => option_map snd (assign_attribute i k v t)
  | OpTakeAttributes i => option_map snd (take_attributes i t)
  | OpSetAttributes i l => set_attributes i l t
  end.

(** [x] is [p] or an ancestor of it. *)
Inductive above (t : tree) (x : nat) : nat -> Prop :=
| above_self : above t x x
| above_step : forall i p, parent t i = Some p -> above t x p -> above t x i.

(** Trees built from the empty tree by any history of operations without panics. *)
Inductive built : tree -> Prop :=
| built_default : built tree_default
| built_op : forall t o t', built t -> run_top o t = Some t' -> built t'.

(** The same, but no node is inserted beside one of its own descendants. *)
Definition sane (o : top) (t : tree) : Prop :=
  match o with
  | OpInsertAfter x y | OpInsertBefore x y => ~ above t x y
  | _ => True
  end.
Inductive grown : tree -> Prop :=
| grown_default : grown tree_default
| grown_op : forall t o t', grown t -> sane o t -> run_top o t = Some t' -> grown t'.

(** ** Sibling lists *)

(** Following [previous_sibling]. *)
Fixpoint walk_back (fuel : nat) (t : tree) (o : option nat) : list nat :=
  match fuel, o with
  | S fuel', Some i => i :: walk_back fuel' t (previous_sibling t i)
  | _, _ => []
  end.
(** All siblings of a node, the node included, in order. *)
Definition siblings (t : tree) (i : nat) : list nat :=
  rev (walk_back (length (tr_arena t)) t (previous_sibling t i)) ++
  i :: walk (length (tr_arena t)) t (next_sibling t i).

(** Insert [x] after (before) [y] in a list that contains [y]; leave other lists alone. *)
Fixpoint put_after (y x : nat) (l : list nat) : list nat :=
  match l with
  | [] => []
  | z :: k => if Nat.eqb z y then z :: x :: k else z :: put_after y x k
  end.
Fixpoint put_before (y x : nat) (l : list nat) : list nat :=
  match l with
  | [] => []
  | z :: k => if Nat.eqb z y then x :: z :: k else z :: put_before y x k
  end.
Definition without (x : nat) (l : list nat) : list nat := remove Nat.eq_dec x l.

(** Everything of a tree except its links. *)
Definition same_contents (t t' : tree) : Prop :=
  tr_root t' = tr_root t /\
  forall i, node_of t i -> name t' i = name t i /\ attributes t' i = attributes t i.
Definition same_nodes (t t' : tree) : Prop := forall i, node_of t' i <-> node_of t i.

(** ** What a node stands for *)

(** The tree of IDs under a node. *)
Inductive rose := Rose (i : nat) (kids : list rose).
Definition rose_id (r : rose) : nat := match r with Rose i _ => i end.
Inductive rose_at (t : tree) : rose -> Prop :=
| rose_at_i : forall i ks, node_of t i -> children t i = map rose_id ks -> Forall (rose_at t) ks ->
    rose_at t (Rose i ks).

(** The document under a node. *)
Inductive dnode := DNode (name : list byte) (ats : list aval) (kids : list dnode).
Inductive doc_at (t : tree) : nat -> dnode -> Prop :=
| doc_at_i : forall i nm ats ks, name t i = Some nm -> attributes t i = Some ats ->
    Forall2 (doc_at t) (children t i) ks -> doc_at t i (DNode nm ats ks).

(** ** Depth-first events *)
Fixpoint dfs (r : rose) : list dft :=
  match r with Rose i ks => DOpen i :: flat_map dfs ks ++ [DClose i] end.

(** Calls on a traversal, and the double-ended queue of events it should be.  The calls that
    look for an event of one kind return the ID only; here the event is put together again. *)
Inductive tcall :=
| Forward | Backward
| OpenForward | CloseForward | OpenBackward | CloseBackward.
Definition run_tcall (t : tree) (k : tcall) (c : cursors) : option (option dft * cursors) :=
  match k with
  | Forward => next_forward t c
  | Backward => next_backward t c
  | OpenForward => option_map (fun r => (option_map DOpen (fst r), snd r)) (next_open_forward t c)
  | CloseForward => option_map (fun r => (option_map DClose (fst r), snd r)) (next_close_forward t c)
  | OpenBackward => option_map (fun r => (option_map DOpen (fst r), snd r)) (next_open_backward t c)
  | CloseBackward => option_map (fun r => (option_map DClose (fst r), snd r)) (next_close_backward t c)
  end.
Fixpoint run_traverse (t : tree) (l : list tcall) (c : cursors) : option (list (option dft) * cursors) :=
  match l with
  | [] => Some ([], c)
  | k :: l' =>
      match run_tcall t k c with
      | None => None
      | Some (r, c') => match run_traverse t l' c' with
                        | None => None
                        | Some (rs, c'') => Some (r :: rs, c'')
                        end
      end
  end.

Definition pop_front {A} (q : list A) : option A * list A :=
  match q with [] => (None, []) | x :: q' => (Some x, q') end.
Definition pop_back {A} (q : list A) : option A * list A :=
  let '(r, q') := pop_front (rev q) in (r, rev q').
(** Remove elements from the front until one that satisfies [f] is removed. *)
Fixpoint seek_front {A} (f : A -> bool) (q : list A) : option A * list A :=
  match q with
  | [] => (None, [])
  | x :: q' => if f x then (Some x, q') else seek_front f q'
  end.
Definition seek_back {A} (f : A -> bool) (q : list A) : option A * list A :=
  let '(r, q') := seek_front f (rev q) in (r, rev q').

Definition is_close (e : dft) : bool := negb (is_open e).
Definition deque_call (k : tcall) (q : list dft) : option dft * list dft :=
  match k with
  | Forward => pop_front q
  | Backward => pop_back q
  | OpenForward => seek_front is_open q
  | CloseForward => seek_front is_close q
  | OpenBackward => seek_back is_open q
  | CloseBackward => seek_back is_close q
  end.
Fixpoint run_deque (l : list tcall) (q : list dft) : list (option dft) * list dft :=
  match l with
  | [] => ([], q)
  | k :: l' =>
      let '(r, q') := deque_call k q in
      let '(rs, q'') := run_deque l' q' in (r :: rs, q'')
  end.
