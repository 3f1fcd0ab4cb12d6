(** What it means to write and to read a whole tree, in terms of calls on a writer and on a
    parser. *)
Require Import Coq.Lists.List Coq.NArith.NArith.
Require Import Coq.Init.Byte.
Require Import Verif.Base Verif.Utf8 Verif.Types Verif.Io Verif.Parser Verif.Loaders Verif.Spec Verif.Writer Verif.Tree Verif.TreeSpec.
Import ListNotations.
Open Scope list_scope.

(** ** Writing *)

(** The node of a file that a node of a tree becomes: arrays are not compressed. *)
Fixpoint plain_node (d : dnode) : node :=
  match d with DNode nm ats ks => Node nm (map (fun v => mkAttr v false) ats) (map plain_node ks) end.

Section WithEnv.
Context {env : Env}.

(** Make calls one after the other, up to the first that does not succeed. *)
Section Write.
Local Open Scope writer_scope.
Fixpoint try_acalls (l : list acall) : WM unit :=
  match l with [] => wret tt | c :: l' => run_acall c ;> try_acalls l' end.
Definition try_wcall (c : wcall) : WM unit :=
  match c with
  | CNode nm attrs => new_node nm ;> try_acalls attrs
  | CClose => close_node
  end.
Fixpoint try_wcalls (l : list wcall) : WM unit :=
  match l with [] => wret tt | c :: l' => try_wcall c ;> try_wcalls l' end.
End Write.

(** What the Rust types guarantee about the contents of a tree: strings are Unicode, numbers
    are in the range of their types. *)
Definition tree_typed (t : tree) : Prop :=
  (forall i nm, name t i = Some nm -> utf8_valid nm = true) /\
  (forall i ats v, attributes t i = Some ats -> In v ats -> val_ok v).

(** ** Reading *)

(** What a client that reads everything sees: a node starts, with all its attributes; a node
    ends. *)
Inductive item := IStart (name : list byte) (ats : list aval) | IEnd.

(** The items of a document. *)
Fixpoint dnode_items (d : dnode) : list item :=
  match d with DNode nm ats ks => IStart nm ats :: flat_map dnode_items ks ++ [IEnd] end.
Definition forest_items (l : list dnode) : list item := flat_map dnode_items l.

(** The client loads attributes until there is none left. *)
Inductive loads : pstate -> list aval -> res perr unit -> pstate -> Prop :=
| loads_none : forall s s', run_op (OLoad direct_loader) s = (Ok (BAttr None), s') -> loads s [] (Ok tt) s'
| loads_some : forall s v s1 vs r s', run_op (OLoad direct_loader) s = (Ok (BAttr (Some v)), s1) ->
    loads s1 vs r s' -> loads s (v :: vs) r s'
| loads_error : forall s e s', run_op (OLoad direct_loader) s = (Err e, s') -> loads s [] (Err e) s'
| loads_panic : forall s s', run_op (OLoad direct_loader) s = (Panic, s') -> loads s [] Panic s'.

(** The client asks for events until the end of the document, and for all attributes of every
    node that starts.  The outcome is the footer, or the first error. *)
Inductive reads : pstate -> list item -> res perr (perr + footer) -> pstate -> Prop :=
| reads_fbx : forall s f s', run_op (@ONext aval) s = (Ok (BEvent (EvEndFbx f)), s') -> reads s [] (Ok f) s'
| reads_start : forall s nm s1 ats s2 l o s', run_op (@ONext aval) s = (Ok (BEvent (EvStart nm)), s1) ->
    loads s1 ats (Ok tt) s2 -> reads s2 l o s' -> reads s (IStart nm ats :: l) o s'
| reads_end : forall s s1 l o s', run_op (@ONext aval) s = (Ok (BEvent EvEnd), s1) ->
    reads s1 l o s' -> reads s (IEnd :: l) o s'
| reads_error : forall s e s', run_op (@ONext aval) s = (Err e, s') -> reads s [] (Err e) s'
| reads_panic : forall s s', run_op (@ONext aval) s = (Panic, s') -> reads s [] Panic s'
| reads_attr_error : forall s nm s1 ats e s', run_op (@ONext aval) s = (Ok (BEvent (EvStart nm)), s1) ->
    loads s1 ats (Err e) s' -> reads s [] (Err e) s'
| reads_attr_panic : forall s nm s1 ats s', run_op (@ONext aval) s = (Ok (BEvent (EvStart nm)), s1) ->
    loads s1 ats Panic s' -> reads s [] Panic s'.
End WithEnv.
