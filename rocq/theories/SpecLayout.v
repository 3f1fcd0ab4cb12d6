(** Specification: what the bytes of a document look like to a client that reads events only.

    Attributes are not interpreted here: a node has a region of bytes for them. Nothing here
    mentions the parser. *)
Require Import Coq.Lists.List Coq.NArith.NArith Coq.Bool.Bool.
Require Import Coq.Init.Byte.
Require Import Verif.Base Verif.Utf8 Verif.Types Verif.Io Verif.Parser Verif.Spec.
Import ListNotations.

(** A node: its name, the number of attributes its header claims, the length of the region of
    attributes its header claims, the bytes of that region, its children, and whether it is
    closed by an end marker. *)
Inductive skel := Skel (name : list byte) (count claimed : N) (region : list byte)
                       (kids : list skel) (marked : bool).

(** Its size in bytes. *)
Fixpoint skel_size (ver : N) (k : skel) : N :=
  match k with
  | Skel name _ _ region kids marked =>
      header_size ver + lenN name + lenN region +
      (fix go l := match l with [] => 0 | k :: l' => skel_size ver k + go l' end) kids +
      (if marked then header_size ver else 0)
  end%N.
Definition skels_size (ver : N) (l : list skel) : N :=
  fold_right (fun k acc => skel_size ver k + acc)%N 0%N l.

(** The bytes of a header: where the node ends, the number of its attributes, the length of
    their region, the length of the name; and the name. *)
Definition lay_header (ver ends count claimed : N) (name : list byte) : list byte :=
  le_enc (width ver) ends ++ le_enc (width ver) count ++ le_enc (width ver) claimed ++
  [Nb (lenN name)] ++ name.

(** The bytes of a node whose first byte is at offset [off]. *)
Fixpoint lay_skel (ver off : N) (k : skel) {struct k} : list byte :=
  match k with
  | Skel name count claimed region kids marked =>
      lay_header ver (off + skel_size ver k) count claimed name ++
      region ++
      (fix go o l := match l with
                     | [] => []
                     | k :: l' => lay_skel ver o k ++ go (o + skel_size ver k)%N l'
                     end) (off + header_size ver + lenN name + lenN region)%N kids ++
      (if marked then end_marker ver else [])
  end.
Fixpoint lay_skels (ver off : N) (l : list skel) : list byte :=
  match l with
  | [] => []
  | k :: l' => lay_skel ver off k ++ lay_skels ver (off + skel_size ver k)%N l'
  end.

(** The region has the length the header claims. (A build without overflow checks has one more
    case: if adding the claimed length to the offset of the region exceeds a [u64], the sum wraps
    to an offset before the region, and the region is empty.) *)
Definition region_ok (wraps : bool) (start claimed : N) (region : list byte) : Prop :=
  claimed = lenN region \/
  (wraps = true /\ region = [] /\ 2 ^ 64 <= start + claimed)%N.

(** A node at offset [off] that can be laid out: the name is UTF-8 and its length fits in a
    byte, the other fields of the header fit in theirs. *)
Fixpoint skel_ok (wraps : bool) (ver off : N) (k : skel) {struct k} : Prop :=
  match k with
  | Skel name count claimed region kids marked =>
      utf8_valid name = true /\ (lenN name < 256)%N /\
      u_ok (width ver) (off + skel_size ver k)%N /\ u_ok (width ver) count /\ u_ok (width ver) claimed /\
      region_ok wraps (off + header_size ver + lenN name)%N claimed region /\
      (fix go o l := match l with
                     | [] => True
                     | k :: l' => skel_ok wraps ver o k /\ go (o + skel_size ver k)%N l'
                     end) (off + header_size ver + lenN name + lenN region)%N kids
  end.
Fixpoint skels_ok (wraps : bool) (ver off : N) (l : list skel) : Prop :=
  match l with
  | [] => True
  | k :: l' => skel_ok wraps ver off k /\ skels_ok wraps ver (off + skel_size ver k)%N l'
  end.

(** The events of a node. *)
Fixpoint skel_events (k : skel) : list event :=
  match k with
  | Skel name _ _ _ kids _ =>
      EvStart name :: (fix go l := match l with [] => [] | k :: l' => skel_events k ++ go l' end) kids ++ [EvEnd]
  end.

(** The warnings that reading a node raises: an empty name; at its end, a marker that is
    missing (there are children, or no attributes) or superfluous (there are attributes and no
    children). *)
Definition start_warnings (name : list byte) : list warning :=
  match name with [] => [EmptyNodeName] | _ => [] end.
Definition end_warnings (count : N) (kids : list skel) (marked : bool) : list warning :=
  let needed := match kids with [] => (count =? 0)%N | _ => true end in
  if marked then (if needed then [] else [ExtraNodeEndMarker])
  else (if needed then [MissingNodeEndMarker] else []).
Fixpoint skel_warnings (k : skel) : list warning :=
  match k with
  | Skel name count _ _ kids marked =>
      start_warnings name ++
      (fix go l := match l with [] => [] | k :: l' => skel_warnings k ++ go l' end) kids ++
      end_warnings count kids marked
  end.

(** A whole document up to its footer, for a version [ver]: header, nodes, end marker. *)
Definition lay_doc (ver : N) (l : list skel) : list byte :=
  spec_magic ++ le_enc 4 ver ++ lay_skels ver 27 l ++ end_marker ver.

(** The warnings the footer can raise. *)
Definition from_footer (w : warning) : Prop :=
  match w with UnexpectedFooterFieldValue | InvalidFooterPaddingLength _ _ => True | _ => False end.
