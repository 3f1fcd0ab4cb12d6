(** Trees in files: [Writer::write_tree] (/repo/src/writer/v7400/binary.rs), the tree loader
    (/repo/src/tree/v7400/loader.rs), [AnyTree] (/repo/src/tree/any.rs) and the macros
    [tree_v7400!] and [write_v7400_binary!]. *)
Require Import Coq.Lists.List Coq.Arith.PeanoNat Coq.NArith.NArith Coq.Bool.Bool.
Require Import Coq.Init.Byte.
Require Import Verif.Base Verif.Utf8 Verif.Types Verif.Io Verif.Parser Verif.Loaders Verif.Writer Verif.Tree.
Import ListNotations.
Open Scope list_scope.

Section WithEnv.
Context {env : Env}.

(** ** Writing *)
Section Write.
Local Open Scope writer_scope.

(** The call made for an attribute, binary.rs lines 318-346; macros.rs of the writer, lines
    100-117, makes the same calls. *)
Definition call_of_value (v : aval) : acall :=
  match v with
  | VBool b => ASingle (SBool b)
  | VI16 z => ASingle (SI16 z)
  | VI32 z => ASingle (SI32 z)
  | VI64 z => ASingle (SI64 z)
  | VF32 n => ASingle (SF32 n)
  | VF64 n => ASingle (SF64 n)
  | VArrBool l => AArray None (LBool l) false
  | VArrI32 l => AArray None (LI32 l) false
  | VArrI64 l => AArray None (LI64 l) false
  | VArrF32 l => AArray None (LF32 l) false
  | VArrF64 l => AArray None (LF64 l) false
  | VBinary bs => ADirect false bs
  | VString bs => ADirect true bs
  end.

Fixpoint write_attributes (l : list aval) : WM unit :=
  match l with
  | [] => wret tt
  | v :: l' => run_acall (call_of_value v) ;> write_attributes l'
  end.

(** The loop ['next], binary.rs lines 349-366: closes nodes on the way up; the result is the
    next node to visit, [None] for [break 'all].  [parent().expect(..)] panics on a node
    without parent.  Simplification: more iterations than [fuel] are a [Panic] (a chain of
    parents has no repetition unless the tree has a cycle: see [PropsTreeIo]). *)
Fixpoint next_node (fuel : nat) (t : tree) (visit_child : bool) (current : nat) : WM (option nat) :=
  match fuel with
  | O => wpanic
  | S fuel' =>
      match (if visit_child then first_child t current else None) with
      | Some child => wret (Some child)
      | None =>
          close_node ;>
          match next_sibling t current with
          | Some sib => wret (Some sib)
          | None =>
              match parent t current with
              | None => wpanic
              | Some p => if Nat.eqb p (tr_root t) then wret None else next_node fuel' t false p
              end
          end
      end
  end.

(** The loop ['all], binary.rs lines 314-367; the fuel as above. *)
Fixpoint write_loop (fuel : nat) (t : tree) (current : nat) : WM unit :=
  match fuel with
  | O => wpanic
  | S fuel' =>
      match name t current, attributes t current with
      | Some nm, Some ats =>
          new_node nm ;>
          write_attributes ats ;>
          (let! n := next_node (S (length (tr_arena t))) t true current in
           match n with
           | Some c => write_loop fuel' t c
           | None => wret tt
           end)
      | _, _ => wpanic
      end
  end.

(** [Writer::write_tree], binary.rs lines 304-370. *)
Definition write_tree (t : tree) : WM unit :=
  match first_child t (tr_root t) with
  | None => wret tt
  | Some c => write_loop (S (length (tr_arena t))) t c
  end.

(** [write_v7400_binary!], /repo/src/writer/v7400/binary/macros.rs lines 40-118, on the tree
    given in the macro: names, attribute values, subtrees.  A node without an attribute list
    (lines 59-69) makes the same calls as one with an empty list. *)
Inductive mnode := MNode (name : list byte) (ats : list aval) (kids : list mnode).
Fixpoint write_mnode (n : mnode) : WM unit :=
  match n with
  | MNode nm ats kids =>
      new_node nm ;>
      write_attributes ats ;>
      (fix all (l : list mnode) : WM unit :=
         match l with [] => wret tt | k :: l' => write_mnode k ;> all l' end) kids ;>
      close_node
  end.
Fixpoint write_macro (l : list mnode) : WM unit :=
  match l with [] => wret tt | k :: l' => write_mnode k ;> write_macro l' end.

(** [tree_v7400!], /repo/src/tree/v7400/macros.rs lines 36-92.  [None]: a panic. *)
Fixpoint add_attributes (i : nat) (l : list aval) (t : tree) : option tree :=
  match l with
  | [] => Some t
  | v :: l' => match append_attribute i v t with Some t' => add_attributes i l' t' | None => None end
  end.
Fixpoint add_mnode (p : nat) (n : mnode) (t : tree) : option tree :=
  match n with
  | MNode nm ats kids =>
      match append_new p nm t with
      | None => None
      | Some (x, t1) =>
          match add_attributes x ats t1 with
          | None => None
          | Some t2 =>
              (fix all (l : list mnode) (t : tree) : option tree :=
                 match l with
                 | [] => Some t
                 | k :: l' => match add_mnode x k t with Some t' => all l' t' | None => None end
                 end) kids t2
          end
      end
  end.
Fixpoint add_mnodes (p : nat) (l : list mnode) (t : tree) : option tree :=
  match l with
  | [] => Some t
  | k :: l' => match add_mnode p k t with Some t' => add_mnodes p l' t' | None => None end
  end.
Definition tree_macro (l : list mnode) : option tree := add_mnodes (tr_root tree_default) l tree_default.
End Write.

(** ** Loading *)
Section Load.
Context {usize : Target}.
Local Open Scope monad_scope.

(** [LoadError], /repo/src/tree/v7400/error.rs lines 10-17. *)
Inductive load_error := BadParser | LoadParser (e : perr).

(** [attributes.into_iter(repeat(DirectLoader)).collect::<Result<Vec<_>, _>>()?], loader.rs
    lines 117-120.  Every attribute that is loaded lowers the count of attributes left, so
    one iteration more than that is enough; running out of them would be a [Panic]. *)
Definition collect_attr (acc : list aval) : M (list aval + list aval) :=
  let* r := iter_next (Some direct_loader) in
  match r with
  | None => ret (inr (rev acc))
  | Some (inl e) => throw e
  | Some (inr v) => ret (inl (v :: acc))
  end.
Definition collect_attrs : M (list aval) :=
  let* a := get_attrs in
  let* r := mloop (N.succ_pos (a_rest a)) collect_attr [] in
  match r with
  | inr l => ret l
  | inl _ => panic
  end.

(** [Loader::add_node], loader.rs lines 102-134, on the arena and names collected so far. *)
Definition loader_add_node (p : nat) (nm : list byte) (t : tree) : M (nat * tree) :=
  let '(sym, names) := intern (tr_names t) nm in
  let* ats := collect_attrs in
  let x := length (tr_arena t) in
  match append x p (mkTree (tr_arena t ++ [fresh_slot sym ats]) names (tr_root t)) with
  | Some t' => ret (x, t')
  | None => panic
  end.

(** The body of the loop, loader.rs lines 59-89, and the assertion after it, lines 90-93.
    [open]: the stack of open nodes, innermost first.  [ONext] is [next_event] (see
    [run_op]: it makes the [Attributes] of a started node available). *)
Definition load_step (x : tree * list nat) : M ((tree * list nat) + (tree * (perr + footer))) :=
  let '(t, open) := x in
  match open with
  | [] => panic
  | cur :: rest =>
      let* b := run_op (@ONext aval) in
      match b with
      | BEvent (EvStart nm) =>
          let* r := loader_add_node cur nm t in
          let '(x, t') := r in
          ret (inl (t', x :: cur :: rest))
      | BEvent EvEnd => ret (inl (t, rest))
      | BEvent (EvEndFbx f) => match rest with [] => ret (inr (t, f)) | _ => panic end
      | _ => panic
      end
  end.

(** [Loader::load], loader.rs lines 47-99, starting from [Loader::default], lines 137-152.
    Every node header has at least 13 bytes, so two events for every byte left and two more
    are enough; running out of them would be a [Panic]. *)
Definition load_body : M (tree * (perr + footer)) :=
  let* s := gets (fun s => s) in
  let* r := mloop (N.succ_pos (2 * lenN (s_rem (r_stream (p_rd s))) + 1)) load_step (tree_default, [tr_root tree_default]) in
  match r with
  | inr x => ret x
  | inl _ => panic
  end.
Definition load_tree (s : pstate) : res load_error (tree * (perr + footer)) * pstate :=
  if is_used s then (Err BadParser, s)
  else match load_body s with
       | (Ok x, s') => (Ok x, s')
       | (Err e, s') => (Err (LoadParser e), s')
       | (Panic, s') => (Panic, s')
       end.

(** [AnyTree::from_reader] and [from_seekable_reader], /repo/src/tree/any.rs lines 33-62: the
    version, the tree and the footer ([fbx_version], lines 67-71, is the first of them).  The
    warning handler accepts every warning. *)
Inductive any_tree_error := TreeParserCreation (e : any_error) | TreeLoad (e : load_error).
Definition any_tree (s : stream) (seekable : bool) : res any_tree_error (N * tree * (perr + footer)) :=
  match any_parser s seekable with
  | Err e => Err (TreeParserCreation e)
  | Panic => Panic
  | Ok p =>
      match load_tree (set_handler (Some (fun _ => None)) p) with
      | (Ok (t, f), _) => Ok (p_ver p, t, f)
      | (Err e, _) => Err (TreeLoad e)
      | (Panic, _) => Panic
      end
  end.
End Load.
End WithEnv.
