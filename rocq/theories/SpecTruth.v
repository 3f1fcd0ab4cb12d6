(** Specification: what the outcome of one call of [next_event] says about the bytes of the
    file. Nothing here mentions the internals of the parser. *)
Require Import Coq.Lists.List Coq.NArith.NArith.
Require Import Verif.Base Verif.Utf8 Verif.Types Verif.Io Verif.Parser Verif.Spec Verif.SpecLayout.
Import ListNotations.

(** The file has these bytes at this offset. *)
Definition at_offset (data : list byte) (off : N) (bs : list byte) : Prop :=
  exists pre post, data = pre ++ bs ++ post /\ lenN pre = off.

(** The file has the header of a node at this offset. *)
Definition header_at (data : list byte) (ver off ends count claimed : N) (name : list byte) : Prop :=
  at_offset data off (lay_header ver ends count claimed name) /\
  u_ok (width ver) ends /\ u_ok (width ver) count /\ u_ok (width ver) claimed /\ (lenN name < 256)%N.

(** Where [next_event] goes on when the parser is at position [before], and the offset at which
    the innermost open node ends: behind the region the header claims for attributes, unless the
    client has read beyond it. *)
Inductive resumes (data : list byte) (ver : N) (before : synpos) : N -> option N -> Prop :=
| At_top : node_path before = [] -> resumes data ver before (byte_pos before) None
| In_node : forall path i name ends count claimed,
    node_path before = path ++ [(i, name)] ->
    header_at data ver (component_byte_pos before) ends count claimed name ->
    resumes data ver before
      (N.max (byte_pos before) ((component_byte_pos before + header_size ver + lenN name + claimed) mod 2 ^ 64))
      (Some ends).

(** The header of a node or an end marker is read only before the end of the innermost node. *)
Definition before_end (off : N) (inside : option N) : Prop :=
  forall ends, inside = Some ends -> (off < ends)%N.

(** The bytes of the file do not contain a whole header and name at this offset. *)
Definition cut_header (data : list byte) (ver off : N) : Prop :=
  (lenN data < off + header_size ver)%N \/
  exists ends count claimed len, at_offset data off (le_enc (width ver) ends ++ le_enc (width ver) count ++ le_enc (width ver) claimed ++ [Nb len]) /\
    (len < 256)%N /\ (lenN data < off + header_size ver + len)%N.

(** What an event says, for a parser that was at [before] and is at [after] now. *)
Definition event_true (data : list byte) (ver : N) (before after : synpos) (e : event) : Prop :=
  exists off inside, resumes data ver before off inside /\
  match e with
  | EvStart name => before_end off inside /\
      exists i ends count claimed, header_at data ver off ends count claimed name /\
        lay_header ver ends count claimed name <> end_marker ver /\ utf8_valid name = true /\
        byte_pos after = (off + header_size ver + lenN name)%N /\ component_byte_pos after = off /\
        node_path after = node_path before ++ [(i, name)]
  | EvEnd =>
      inside = Some (byte_pos after) /\
      (byte_pos after = off \/ (byte_pos after = off + header_size ver)%N /\ at_offset data off (end_marker ver)) /\
      node_path after = removelast (node_path before)
  | EvEndFbx _ => inside = None /\ at_offset data off (end_marker ver) /\ (off + header_size ver <= byte_pos after)%N
  end.

(** What an error says. *)
Definition error_true (data : list byte) (ver : N) (before after : synpos) (e : econtainer) : Prop :=
  exists off inside, resumes data ver before off inside /\
  match e with
  | EData (NodeLengthMismatch ends None) => inside = Some ends /\ (ends < off)%N /\ byte_pos after = off
  | EData (NodeLengthMismatch ends (Some got)) =>
      inside = Some ends /\ (off < ends)%N /\ got = (off + header_size ver)%N /\ got <> ends /\
      at_offset data off (end_marker ver) /\ byte_pos after = got
  | EData (InvalidNodeNameEncoding name) => before_end off inside /\
      exists ends count claimed, header_at data ver off ends count claimed name /\
        lay_header ver ends count claimed name <> end_marker ver /\ utf8_valid name = false /\
        byte_pos after = (off + header_size ver + lenN name)%N
  | EIo IoEof => before_end off inside /\ cut_header data ver off
  | EIo (IoOther _) => True
  | _ => False
  end.
