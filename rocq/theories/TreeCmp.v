(** [==] on trees: the derived [PartialEq] of [Tree], /repo/src/tree/v7400.rs lines 50-58.

    [indextree]'s [Arena] and [Node] derive it as well (their source is not part of /repo):
    nodes are compared one by one in the order they were created, with all links.  A
    [StringInterner] compares its strings in the order they were interned.  The stamps and the
    list of free nodes of the arena are left out: fbxcel removes no node, so they never
    change. *)
Require Import Coq.Lists.List Coq.Arith.PeanoNat Coq.Bool.Bool.
Require Import Coq.Init.Byte.
Require Import Verif.Base Verif.Types Verif.Values Verif.Tree Verif.PropsValue.
Import ListNotations.

(** [indextree::Node<NodeData>]: the links; [NodeData], node/data.rs lines 9-15 (derived):
    the symbol of the name, node/name.rs lines 8-9, and the attributes. *)
Definition slot_eqb (a b : slot) : bool :=
  onat_eqb (sl_parent a) (sl_parent b) && onat_eqb (sl_prev a) (sl_prev b) && onat_eqb (sl_next a) (sl_next b) &&
  onat_eqb (sl_first a) (sl_first b) && onat_eqb (sl_last a) (sl_last b) &&
  Nat.eqb (sl_name a) (sl_name b) && list_eqb aval_eqb (sl_attrs a) (sl_attrs b).

(** [Tree::eq], v7400.rs line 50: the fields in their order. *)
Definition tree_eqb (t u : tree) : bool :=
  list_eqb slot_eqb (tr_arena t) (tr_arena u) && list_eqb bytes_eqb (tr_names t) (tr_names u) && Nat.eqb (tr_root t) (tr_root u).
