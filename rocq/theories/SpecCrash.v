(** Specification: what an interrupted writer leaves behind, and what a reader must have seen
    before it reports the end of a document. *)
Require Import Coq.Lists.List Coq.NArith.NArith.
Require Import Coq.Init.Byte.
Require Import Verif.Base Verif.Utf8 Verif.Types Verif.Io Verif.Parser Verif.Writer Verif.Spec Verif.SpecLayout Verif.SpecTruth Verif.WriterSpec.
Import ListNotations.

(** The offsets at which the headers say that a top-level node starts, or that the top-level nodes
    end: the one behind the file header, and every end offset in the header of a top-level node
    that is not before the end of its name. *)
Inductive top_level (data : list byte) (ver : N) : N -> Prop :=
| Top_first : top_level data ver 27
| Top_next : forall off ends count claimed name, top_level data ver off ->
    header_at data ver off ends count claimed name -> lay_header ver ends count claimed name <> end_marker ver ->
    (off + header_size ver + lenN name <= ends)%N -> top_level data ver ends.

(** In a history: no call of [skip_current_node] returned an error. *)
Fixpoint skips_fine {O} (l : list (op O)) (rs : list (res perr (obs O))) : Prop :=
  match l, rs with
  | OSkip :: l', r :: rs' => (forall e, r <> Err e) /\ skips_fine l' rs'
  | _ :: l', _ :: rs' => skips_fine l' rs'
  | _, _ => True
  end.

(** The outermost open node, if there is one, has a name. *)
Definition outer_named (d : odoc) : Prop := forall t f, od_frames d = t ++ [f] -> of_name f <> [].

(** The sink takes each [write] as a whole or not at all. *)
Definition untorn (k : sink) : Prop := Forall (fun a => match a with WChunk _ => False | _ => True end) (k_writes k).
