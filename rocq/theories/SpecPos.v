(** Specification vocabulary: positions a client can work out from its calls.

    Nothing here mentions the internals of the parser. *)
Require Import Coq.Lists.List Coq.NArith.NArith Coq.Sorting.Sorted.
Require Import Verif.Base Verif.Types Verif.Io Verif.Parser Verif.SpecHist.
Import ListNotations.

(** The byte offset a warning was raised with. *)
Definition warning_offset (w : warning * synpos) : N := byte_pos (snd w).

(** Offsets never decrease along a list of warnings (oldest first). *)
Definition in_order (ws : list (warning * synpos)) : Prop :=
  Sorted N.le (map warning_offset ws).

(** The number of attributes the client has taken from the current node: the loads that
    returned a value since the last call of [next_event]. *)
Fixpoint attributes_taken {O} (k : N) (h : list (call O)) : N :=
  match h with
  | [] => k
  | (ONext, _) :: h' => attributes_taken 0 h'
  | (OLoad _, Ok (BAttr (Some _))) :: h' | (OLoadBuf _, Ok (BAttr (Some _))) :: h' =>
      attributes_taken (k + 1) h'
  | _ :: h' => attributes_taken k h'
  end.

(** The size of a node header up to the name: three offset fields and the name length. *)
Definition header_size (ver : N) : N := if (ver <? 7500)%N then 13%N else 25%N.

(** Where the open nodes begin, innermost first.  The history gives every call with the byte
    position the parser reported after it; a [StartNode] is reported right after the name of
    the node, so the node begins the size of its header and of its name earlier. *)
Fixpoint node_starts {O} (ver : N) (st : list N) (h : list (call O * N)) : list N :=
  match h with
  | [] => st
  | ((ONext, Ok (BEvent (EvStart name))), at_) :: h' =>
      node_starts ver ((at_ - (header_size ver + lenN name))%N :: st) h'
  | ((ONext, Ok (BEvent EvEnd)), _) :: h' => node_starts ver (tl st) h'
  | ((OSkip, _), _) :: h' => node_starts ver (tl st) h'
  | _ :: h' => node_starts ver st h'
  end.

(** The part of a path above its last node. *)
Definition parent_path (p : list (N * list byte)) : list (N * list byte) := removelast p.

(** The warnings [next_event] may raise, with the place each is raised at, when the open nodes
    are those of [t] and begin at [st]; and the event or error it then returns.  (An
    [ExtraNodeEndMarker] is placed at the parent of the node it is about, a
    [MissingNodeEndMarker] at the node itself.) *)
Definition event_warning {O} (ver : N) (t : tracker) (st : list N) (r : res perr (obs O))
                         (w : warning * synpos) : Prop :=
  let place := snd w in
  attribute_index place = None /\
  match fst w with
  | EmptyNodeName =>
      node_path place = tk_path (tk_start [] t) /\
      byte_pos place = (component_byte_pos place + header_size ver)%N /\
      match r with Ok (BEvent (EvStart name)) => name = [] | Err _ => True | _ => False end
  | MissingNodeEndMarker =>
      node_path place = tk_path t /\ component_byte_pos place = hd 0%N st /\
      match r with Ok (BEvent EvEnd) | Err _ => tk_open t <> [] | _ => False end
  | ExtraNodeEndMarker =>
      node_path place = parent_path (tk_path t) /\ component_byte_pos place = hd 0%N (tl st) /\
      match r with Ok (BEvent EvEnd) | Err _ => tk_open t <> [] | _ => False end
  | UnexpectedFooterFieldValue =>
      node_path place = [] /\ byte_pos place = component_byte_pos place /\
      match r with Ok (BEvent (EvEndFbx _)) => tk_open t = [] | _ => False end
  | InvalidFooterPaddingLength _ _ =>
      node_path place = [] /\ byte_pos place = (component_byte_pos place + 16)%N /\
      match r with Ok (BEvent (EvEndFbx _)) => tk_open t = [] | _ => False end
  | IncorrectBooleanRepresentation => False
  end.

(** The warnings loading attribute [k] of the innermost open node may raise. *)
Definition load_warning (t : tracker) (k : N) (w : warning * synpos) : Prop :=
  fst w = IncorrectBooleanRepresentation /\
  attribute_index (snd w) = Some k /\ node_path (snd w) = tk_path t.

Section WithEnv.
Context {env : Env}.

(** The byte positions the parser reports after each of the calls. *)
Fixpoint positions_after {O} (l : list (op O)) (s : pstate) : list N :=
  match l with
  | [] => []
  | o :: l' =>
      let '(_, s1) := run_op o s in
      match position_of s1 with Some p => byte_pos p | None => 0%N end :: positions_after l' s1
  end.

End WithEnv.
