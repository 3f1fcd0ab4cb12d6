(** What writer calls mean, independently of how the writer works: the document they build,
    and the bytes of an unfinished document. *)
Require Import Coq.Lists.List Coq.NArith.NArith Coq.ZArith.ZArith Coq.Bool.Bool.
Require Import Coq.Init.Byte.
Require Import Verif.Base Verif.Utf8 Verif.Types Verif.Io Verif.Parser Verif.Writer Verif.Spec Verif.FooterFacts.
Import ListNotations.

(** ** The document built by calls *)

(** A node that is still open: its name, its attributes, the children that are closed. *)
Record oframe := mkOF { of_name : list byte; of_atts : list attr; of_kids : list node }.
(** A document under construction: the closed top-level nodes, the open nodes (innermost
    first). *)
Record odoc := mkOD { od_nodes : list node; od_frames : list oframe }.

Definition odoc_start : odoc := mkOD [] [].

(** Add a closed node to the innermost open one. *)
Definition add_node (n : node) (d : odoc) : odoc :=
  match od_frames d with
  | [] => mkOD (od_nodes d ++ [n]) []
  | f :: t => mkOD (od_nodes d) (mkOF (of_name f) (of_atts f) (of_kids f ++ [n]) :: t)
  end.

Definition open_node (name : list byte) (d : odoc) : odoc :=
  mkOD (od_nodes d) (mkOF name [] [] :: od_frames d).

Definition add_attr (a : attr) (d : odoc) : odoc :=
  match od_frames d with
  | [] => d
  | f :: t => mkOD (od_nodes d) (mkOF (of_name f) (of_atts f ++ [a]) (of_kids f) :: t)
  end.

Definition frame_node (f : oframe) : node := Node (of_name f) (of_atts f) (of_kids f).

(** Closing a node; without an open node nothing happens. *)
Definition close_open (d : odoc) : odoc :=
  match od_frames d with
  | [] => d
  | f :: t => add_node (frame_node f) (mkOD (od_nodes d) t)
  end.

(** ** The attribute that a call appends ([None]: the source of its data fails). *)
Definition single_val (v : single) : aval :=
  match v with
  | SBool b => VBool b | SI16 z => VI16 z | SI32 z => VI32 z | SI64 z => VI64 z
  | SF32 n => VF32 n | SF64 n => VF64 n
  end.
Definition elems_val (v : elems) : aval :=
  match v with
  | LBool l => VArrBool l | LI32 l => VArrI32 l | LI64 l => VArrI64 l
  | LF32 l => VArrF32 l | LF64 l => VArrF64 l
  end.
(** The bytes a reader delivers up to its end. *)
Fixpoint read_all (l : list rdres) : option (list byte) :=
  match l with
  | [] => Some []
  | RIntr :: l' => read_all l'
  | RFail _ :: _ => None
  | RData [] :: _ => Some []
  | RData bs :: l' => option_map (app bs) (read_all l')
  end.
Definition is_zip (enc : option aenc) : bool := match enc with Some EncZlib => true | _ => false end.

Definition attr_of (c : acall) : option attr :=
  match c with
  | ASingle v => Some (mkAttr (single_val v) false)
  | AArray enc v false => Some (mkAttr (elems_val v) (is_zip enc))
  | ADirect true bs => Some (mkAttr (VString bs) false)
  | ADirect false bs => Some (mkAttr (VBinary bs) false)
  | ABinReader l => option_map (fun bs => mkAttr (VBinary bs) false) (read_all l)
  | ABinIter l false => Some (mkAttr (VBinary l) false)
  | AStrIter cs false => Some (mkAttr (VString (encode_chars cs)) false)
  | AArray _ _ true | ABinIter _ true | AStrIter _ true => None
  end.

Fixpoint add_attrs (l : list acall) (d : odoc) : odoc :=
  match l with
  | [] => d
  | c :: l' => add_attrs l' (match attr_of c with Some a => add_attr a d | None => d end)
  end.

Definition doc_call (c : wcall) (d : odoc) : odoc :=
  match c with
  | CNode name attrs => add_attrs attrs (open_node name d)
  | CClose => close_open d
  end.
Definition doc_calls (l : list wcall) (d : odoc) : odoc := fold_left (fun d c => doc_call c d) l d.

(** ** What the Rust types guarantee about the arguments: [&str] and [char] are Unicode, the
    numbers are in the range of their types. *)
Definition acall_typed (c : acall) : Prop :=
  match c with
  | ASingle v => val_ok (single_val v)
  | AArray _ v _ => val_ok (elems_val v)
  | ADirect true bs => utf8_valid bs = true
  | AStrIter cs _ => Forall (fun c => is_scalar c = true) cs
  | ADirect false _ | ABinReader _ | ABinIter _ _ => True
  end.
Definition wcall_typed (c : wcall) : Prop :=
  match c with
  | CNode name attrs => utf8_valid name = true /\ Forall acall_typed attrs
  | CClose => True
  end.

(** The two methods that take an iterator of [char]s are not used with characters shorter than
    four bytes (see C30 for what happens then). *)
Definition faithful (c : acall) : Prop :=
  match c with AStrIter cs _ => Forall (fun c => (65536 <= c)%N) cs | _ => True end.
Definition wfaithful (c : wcall) : Prop :=
  match c with CNode _ attrs => Forall faithful attrs | CClose => True end.

(** What they write for characters of any length: for each character a block of four bytes, its
    encoding followed by what the block before it had there (zeros at first). *)
Fixpoint char_blocks (before : list byte) (cs : list N) : list (list byte) :=
  match cs with
  | [] => []
  | c :: cs' => let block := encode_char c ++ skipn (length (encode_char c)) before in block :: char_blocks block cs'
  end.

(** ** The bytes of an unfinished document *)
Section WithEnv.
Context {env : Env}.

(** The header of an open node holds only the length of its name. *)
Definition placeholder (ver : N) (name : list byte) : list byte := zeros (3 * width ver) ++ [Nb (lenN name)].

(** An open node whose first byte is at offset [off]. *)
Definition enc_frame (ver off : N) (f : oframe) : list byte :=
  placeholder ver (of_name f) ++ of_name f ++ enc_attrs (of_atts f) ++
  enc_nodes ver (off + header_size ver + lenN (of_name f) + lenN (enc_attrs (of_atts f))) (of_kids f).

(** The file up to the open nodes [l] (innermost first). *)
Fixpoint enc_frames (ver : N) (ns : list node) (l : list oframe) : list byte :=
  match l with
  | [] => spec_magic ++ le_enc 4 ver ++ enc_nodes ver 27 ns
  | f :: t => let b := enc_frames ver ns t in b ++ enc_frame ver (lenN b) f
  end.

Definition enc_open (ver : N) (d : odoc) : list byte := enc_frames ver (od_nodes d) (od_frames d).

(** The footer as the writer is told to write it, when the padding starts at [pos]. *)
Definition footer_field (o : option (list byte)) (default : list byte) : list byte :=
  match o with Some l => l | None => default end.
Definition spec_default1 : list byte :=
  [xf0; xb1; xa2; x03; xd4; xc5; xd6; x67; xb8; x79; xfa; x8b; x1c; xfd; x2e; x7f].
Definition footer_pad (f : wfooter) (pos : N) : N :=
  match wf_padding f with PadDefault => spec_pad pos | PadForced n => bN n end.
Definition enc_wfooter (ver start : N) (f : wfooter) : list byte :=
  footer_field (wf_unknown1 f) spec_default1 ++
  zeros (N.to_nat (footer_pad f (start + lenN (footer_field (wf_unknown1 f) spec_default1)))) ++
  footer_field (wf_unknown2 f) (zeros 4) ++ le_enc 4 ver ++ zeros 120 ++ footer_field (wf_unknown3 f) spec_trailer.

Definition enc_finished (ver : N) (ns : list node) (f : wfooter) : list byte :=
  spec_magic ++ le_enc 4 ver ++ enc_nodes ver 27 ns ++ end_marker ver ++
  enc_wfooter ver (27 + nodes_size ver ns + header_size ver) f.

(** The fixed-size fields have their size. *)
Definition wfooter_typed (f : wfooter) : Prop :=
  match wf_unknown1 f with Some l => length l = 16%nat | None => True end /\
  match wf_unknown2 f with Some l => length l = 4%nat | None => True end /\
  match wf_unknown3 f with Some l => length l = 16%nat | None => True end.

End WithEnv.
