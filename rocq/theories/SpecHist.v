(** Specification vocabulary: histories of client calls and their results.

    Nothing here mentions the internals of the parser: a history is the list of calls a
    client made together with what each of them returned. *)
Require Import Coq.Lists.List Coq.NArith.NArith Coq.ZArith.ZArith Coq.Bool.Bool.
Require Import Verif.Base Verif.Types Verif.Io Verif.Parser.
Import ListNotations.

(** A call and its result. *)
Definition call (O : Type) : Type := (op O * res perr (obs O))%type.

Definition is_next {O} (o : op O) : bool := match o with ONext => true | _ => false end.
Definition is_load {O} (o : op O) : bool := match o with OLoad _ | OLoadBuf _ => true | _ => false end.
Definition is_skip {O} (o : op O) : bool := match o with OSkip => true | _ => false end.

(** A [next_event] that failed. *)
Definition failed_next {O} (c : call O) : bool :=
  match c with (ONext, Err _) => true | _ => false end.

(** A [next_event] that succeeded. *)
Definition ok_next {O} (c : call O) : bool :=
  match c with (ONext, Ok _) => true | _ => false end.

(** ** Node tracking: what a client can work out from the events alone *)

(** An open node: its index among its siblings, its name, the number of children seen. *)
Record frame := mkFrame { fr_index : N; fr_name : list byte; fr_children : N }.

(** Open nodes, innermost first, and the number of top-level nodes seen so far. *)
Record tracker := mkTracker { tk_open : list frame; tk_top : N }.

Definition tk_init : tracker := mkTracker [] 0.

(** [StartNode]: the new node is numbered by the children its parent already has. *)
Definition tk_start (name : list byte) (t : tracker) : tracker :=
  match tk_open t with
  | [] => mkTracker [mkFrame (tk_top t) name 0] (tk_top t + 1)%N
  | f :: fs =>
      mkTracker (mkFrame (fr_children f) name 0
                 :: mkFrame (fr_index f) (fr_name f) (fr_children f + 1)%N :: fs) (tk_top t)
  end.

(** One call: [None] if the event is impossible at this point (an [EndNode] with no open
    node, an [EndFbx] with open nodes).  Skipping a node closes it, whether or not the skip
    itself reports an I/O error. *)
Definition tk_step {O} (t : tracker) (c : call O) : option tracker :=
  match c with
  | (ONext, Ok (BEvent (EvStart name))) => Some (tk_start name t)
  | (ONext, Ok (BEvent EvEnd)) =>
      match tk_open t with [] => None | _ :: fs => Some (mkTracker fs (tk_top t)) end
  | (ONext, Ok (BEvent (EvEndFbx _))) =>
      match tk_open t with [] => Some t | _ => None end
  | (ONext, _) => None
  | (OSkip, Ok BSkipped) | (OSkip, Err _) =>
      match tk_open t with [] => None | _ :: fs => Some (mkTracker fs (tk_top t)) end
  | (OSkip, _) => None
  | (OLoad _, Ok (BAttr _)) | (OLoad _, Ok BIgnored) | (OLoad _, Err _)
  | (OLoadBuf _, Ok (BAttr _)) | (OLoadBuf _, Ok BIgnored) | (OLoadBuf _, Err _) => Some t
  | (OLoad _, _) | (OLoadBuf _, _) => None
  end.

Fixpoint tk_run {O} (t : tracker) (h : list (call O)) : option tracker :=
  match h with
  | [] => Some t
  | c :: h' => match tk_step t c with Some t' => tk_run t' h' | None => None end
  end.

(** The path of the innermost open node, outermost first. *)
Definition tk_path (t : tracker) : list (N * list byte) :=
  map (fun f => (fr_index f, fr_name f)) (rev (tk_open t)).

(** The document end has been reported. *)
Definition is_fbx_end {O} (c : call O) : bool :=
  match c with (ONext, Ok (BEvent (EvEndFbx _))) => true | _ => false end.
