(** Model of [Tree::debug_tree]: /repo/src/tree/v7400.rs lines 321-329 and 347-393.

    What the standard library's [Formatter] makes of the calls is left open: a formatter is
    given by what it makes of a structure, a list, a string and an attribute value. *)
Require Import Coq.Lists.List Coq.NArith.NArith.
Require Import Coq.Init.Byte.
Require Import Verif.Base Verif.Types Verif.Values Verif.Tree.
Import ListNotations.

(** [Formatter::debug_struct], [debug_list], and [Debug] of [str] and of [AttributeValue]
    (derived, /repo/src/low/v7400/attribute/value.rs line 17).  Failures of the underlying
    writer are not modelled. *)
Record formatter (T : Type) := mkFormatter {
  f_struct : list byte -> list (list byte * T) -> T;
  f_list : list T -> T;
  f_str : list byte -> T;
  f_val : aval -> T
}.
Arguments f_struct {T}. Arguments f_list {T}. Arguments f_str {T}. Arguments f_val {T}.

Definition s_Node : list byte := map Nb [78; 111; 100; 101]%N.
Definition s_name : list byte := map Nb [110; 97; 109; 101]%N.
Definition s_attributes : list byte := map Nb [97; 116; 116; 114; 105; 98; 117; 116; 101; 115]%N.
Definition s_children : list byte := map Nb [99; 104; 105; 108; 100; 114; 101; 110]%N.

(** [Debug for DebugNodeHandle], v7400.rs lines 368-376, and for [DebugNodeHandleChildren],
    lines 384-393.  [None]: a panic, or the recursion does not end within [fuel] levels. *)
Fixpoint debug_node {T} (F : formatter T) (fuel : nat) (t : tree) (i : nat) : option T :=
  match fuel with
  | O => None
  | S fuel' =>
      match name t i, attributes t i with
      | Some nm, Some ats =>
          match (fix all (l : list nat) : option (list T) :=
                   match l with
                   | [] => Some []
                   | c :: l' =>
                       match debug_node F fuel' t c with
                       | Some x => match all l' with Some xs => Some (x :: xs) | None => None end
                       | None => None
                       end
                   end) (children t i) with
          | Some xs =>
              Some (f_struct F s_Node
                      [(s_name, f_str F nm); (s_attributes, f_list F (map (f_val F) ats)); (s_children, f_list F xs)])
          | None => None
          end
      | _, _ => None
      end
  end.

(** [Debug for DebugTree], v7400.rs lines 352-360, and [Tree::debug_tree], lines 324-329. *)
Definition debug_tree {T} (F : formatter T) (t : tree) : option T :=
  debug_node F (S (length (tr_arena t))) t (tr_root t).
