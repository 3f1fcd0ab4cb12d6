(** The iterators over the children of a node, step by step: /repo/src/tree/v7400/node/handle.rs
    lines 86-108 and 200-246. *)
Require Import Coq.Lists.List Coq.Arith.PeanoNat.
Require Import Coq.Init.Byte.
Require Import Verif.Base Verif.Types Verif.Tree.
Import ListNotations.

(** [Children], lines 202-207: the node to come.  indextree's [Children] follows [next_sibling]
    from the first child; that it can also be walked from the back is not used by the crate. *)
Definition ch_iter := option nat.
(** [NodeHandle::children], lines 86-91. *)
Definition ch_start (t : tree) (i : nat) : ch_iter := first_child t i.
(** [Children::next], lines 212-215.  [None]: a panic ([to_handle] on an ID that is not used). *)
Definition ch_next (t : tree) (it : ch_iter) : option (option nat * ch_iter) :=
  match it with
  | None => Some (None, None)
  | Some c => match to_handle t c with Some h => Some (Some h, next_sibling t c) | None => None end
  end.

(** [ChildrenByName], lines 228-234. *)
Record chn_iter := mkChn { chn_sym : option nat; chn_iter_of : ch_iter }.
(** [NodeHandle::children_by_name], lines 96-101. *)
Definition chn_start (t : tree) (i : nat) (s : list byte) : chn_iter := mkChn (sym_of (tr_names t) s) (ch_start t i).
(** [Iterator::find] over [Children] for a child with the symbol.  [None]: a panic, or it does not
    end within [fuel] steps. *)
Fixpoint chn_find (fuel : nat) (t : tree) (y : nat) (it : ch_iter) : option (option nat * ch_iter) :=
  match fuel with
  | O => None
  | S fuel' =>
      match ch_next t it with
      | Some (Some c, it') => if onat_eqb (name_sym t c) (Some y) then Some (Some c, it') else chn_find fuel' t y it'
      | x => x
      end
  end.
(** [ChildrenByName::next], lines 239-243. *)
Definition chn_next (t : tree) (it : chn_iter) : option (option nat * chn_iter) :=
  match chn_sym it with
  | None => Some (None, it)
  | Some y =>
      match chn_find (S (length (tr_arena t))) t y (chn_iter_of it) with
      | Some (o, it') => Some (o, mkChn (Some y) it')
      | None => None
      end
  end.
(** [n] calls of [next]; [None] as soon as one panics. *)
Fixpoint iterate {S} (next : S -> option (option nat * S)) (n : nat) (it : S) : option (list (option nat) * S) :=
  match n with
  | O => Some ([], it)
  | S n => match next it with
           | Some (o, it') => match iterate next n it' with Some (l, it'') => Some (o :: l, it'') | None => None end
           | None => None
           end
  end.
