(** Specification of the binary format, independent of the parser and the writer: a document
    is a list of nodes, and [enc_doc] is its byte representation. *)
Require Import Coq.Lists.List Coq.NArith.NArith Coq.ZArith.ZArith Coq.Bool.Bool.
Require Import Coq.Strings.String.
Require Import Coq.Init.Byte.
Require Import Verif.Base Verif.Utf8 Verif.Types Verif.Io Verif.Parser.
Import ListNotations.

(** ** Documents *)

(** A stored attribute: its value, and for arrays whether it is stored compressed. *)
Record attr := mkAttr { at_val : aval; at_zip : bool }.

Inductive node := Node (name : list byte) (ats : list attr) (kids : list node).

Definition nd_name (n : node) := match n with Node a _ _ => a end.
Definition nd_attrs (n : node) := match n with Node _ b _ => b end.
Definition nd_kids (n : node) := match n with Node _ _ c => c end.

(** Footer contents that vary. *)
Record foot := mkFoot { ft_unknown1 : list byte; ft_pad : nat }.

(** ** Bytes *)

(** "Kaydara FBX Binary  \0\x1a\0" *)
Definition spec_magic : list byte :=
  list_byte_of_string "Kaydara FBX Binary  " ++ [x00; x1a; x00].

Definition spec_bool (b : bool) : byte := if b then x59 else x54.  (* 'Y', 'T' *)

(** The letter that introduces an attribute of each type. *)
Definition spec_code (t : atype) : byte :=
  match t with
  | TBool => x43 | TI16 => x59 | TI32 => x49 | TI64 => x4c | TF32 => x46 | TF64 => x44
  | TArrBool => x62 | TArrI32 => x69 | TArrI64 => x6c | TArrF32 => x66 | TArrF64 => x64
  | TBinary => x52 | TString => x53
  end.

(** The raw bytes of each element of an array value ([None]: not an array). *)
Definition array_raw (v : aval) : option (list (list byte)) :=
  match v with
  | VArrBool l => Some (map (fun b => [spec_bool b]) l)
  | VArrI32 l => Some (map (i_enc 4) l)
  | VArrI64 l => Some (map (i_enc 8) l)
  | VArrF32 l => Some (map (le_enc 4) l)
  | VArrF64 l => Some (map (le_enc 8) l)
  | _ => None
  end.

Section WithEnv.
Context {env : Env}.

(** The payload of an array attribute. *)
Definition array_payload (zip : bool) (raw : list (list byte)) : list byte :=
  if zip then z_enc raw else List.concat raw.

Definition enc_attr (a : attr) : list byte :=
  spec_code (aval_type (at_val a)) ::
  match at_val a with
  | VBool b => [spec_bool b]
  | VI16 z => i_enc 2 z
  | VI32 z => i_enc 4 z
  | VI64 z => i_enc 8 z
  | VF32 n => le_enc 4 n
  | VF64 n => le_enc 8 n
  | VString s | VBinary s => le_enc 4 (lenN s) ++ s
  | v => match array_raw v with
         | Some raw =>
             let payload := array_payload (at_zip a) raw in
             le_enc 4 (lenN raw) ++ le_enc 4 (if at_zip a then 1 else 0) ++
             le_enc 4 (lenN payload) ++ payload
         | None => []
         end
  end.

Definition enc_attrs (l : list attr) : list byte := flat_map enc_attr l.

(** Offsets, counts and lengths of a node header take 4 bytes before version 7500, 8 from
    then on. *)
Definition width (ver : N) : nat := if (ver <? 7500)%N then 4%nat else 8%nat.
Definition header_size (ver : N) : N := (3 * N.of_nat (width ver) + 1)%N.
Definition end_marker (ver : N) : list byte := zeros (3 * width ver + 1).

(** A node is closed by an end marker if it has children or has no attributes. *)
Definition needs_marker {A B} (ats : list A) (kids : list B) : bool :=
  match ats, kids with
  | _, _ :: _ => true
  | [], [] => true
  | _ :: _, [] => false
  end.

Fixpoint node_size (ver : N) (n : node) : N :=
  match n with
  | Node name ats kids =>
      header_size ver + lenN name + lenN (enc_attrs ats) +
      (fix go l := match l with [] => 0 | k :: l' => node_size ver k + go l' end) kids +
      (if needs_marker ats kids then header_size ver else 0)
  end%N.

Definition nodes_size (ver : N) (l : list node) : N :=
  fold_right (fun n acc => node_size ver n + acc)%N 0%N l.

(** The bytes of a node whose first byte is at offset [off]. *)
Fixpoint enc_node (ver off : N) (n : node) {struct n} : list byte :=
  match n with
  | Node name ats kids =>
      let astart := (off + header_size ver + lenN name)%N in
      let kstart := (astart + lenN (enc_attrs ats))%N in
      le_enc (width ver) (off + node_size ver n) ++
      le_enc (width ver) (lenN ats) ++
      le_enc (width ver) (lenN (enc_attrs ats)) ++
      [Nb (lenN name)] ++
      name ++
      enc_attrs ats ++
      (fix go o l := match l with
                     | [] => []
                     | k :: l' => enc_node ver o k ++ go (o + node_size ver k)%N l'
                     end) kstart kids ++
      (if needs_marker ats kids then end_marker ver else [])
  end.

Fixpoint enc_nodes (ver off : N) (l : list node) : list byte :=
  match l with
  | [] => []
  | n :: l' => enc_node ver off n ++ enc_nodes ver (off + node_size ver n)%N l'
  end.

Definition spec_trailer : list byte :=
  [xf8; x5a; x8c; x6a; xde; xf5; xd9; x7e; xec; xe9; x0c; xe3; x75; x8f; x29; x0b].

(** The footer: 16 bytes, zero padding, 4 zero bytes, the version, 120 zero bytes, the fixed
    trailer. *)
Definition enc_footer (ver : N) (f : foot) : list byte :=
  ft_unknown1 f ++ zeros (ft_pad f) ++ zeros 4 ++ le_enc 4 ver ++ zeros 120 ++ spec_trailer.

Definition enc_doc (ver : N) (ns : list node) (f : foot) : list byte :=
  spec_magic ++ le_enc 4 ver ++ enc_nodes ver 27 ns ++ end_marker ver ++ enc_footer ver f.

(** ** Values and documents that the format can hold *)
Definition val_ok (v : aval) : Prop :=
  match v with
  | VBool _ => True
  | VI16 z => i_ok 2 z
  | VI32 z => i_ok 4 z
  | VI64 z => i_ok 8 z
  | VF32 n => u_ok 4 n
  | VF64 n => u_ok 8 n
  | VArrBool l => True
  | VArrI32 l => Forall (i_ok 4) l
  | VArrI64 l => Forall (i_ok 8) l
  | VArrF32 l => Forall (u_ok 4) l
  | VArrF64 l => Forall (u_ok 8) l
  | VString s => utf8_valid s = true
  | VBinary _ => True
  end.

(** The 32-bit length fields of an attribute do not overflow. *)
Definition attr_fits (a : attr) : Prop :=
  match at_val a with
  | VString s | VBinary s => u_ok 4 (lenN s)
  | v => match array_raw v with
         | Some raw => u_ok 4 (lenN raw) /\ u_ok 4 (lenN (array_payload (at_zip a) raw))
         | None => True
         end
  end.

Definition attr_ok (a : attr) : Prop := val_ok (at_val a) /\ attr_fits a.

(** Names are UTF-8 and at most 255 bytes long. *)
Fixpoint node_ok (n : node) : Prop :=
  match n with
  | Node name ats kids =>
      utf8_valid name = true /\ (lenN name < 256)%N /\ Forall attr_ok ats /\
      (fix go l := match l with [] => True | k :: l' => node_ok k /\ go l' end) kids
  end.

(** Attribute counts and lengths fit the header fields of the version. *)
Fixpoint counts_ok (ver : N) (n : node) : Prop :=
  match n with
  | Node name ats kids =>
      u_ok (width ver) (lenN ats) /\ u_ok (width ver) (lenN (enc_attrs ats)) /\
      (fix go l := match l with [] => True | k :: l' => counts_ok ver k /\ go l' end) kids
  end.

(** A document the format of version [ver] can hold: its values are representable and its
    last offset fits the header fields. *)
Definition doc_ok (ver : N) (ns : list node) : Prop :=
  (7000 <= ver <= 7999)%N /\ Forall node_ok ns /\ Forall (counts_ok ver) ns /\
  u_ok (width ver) (27 + nodes_size ver ns) /\
  (27 + nodes_size ver ns < pow2_63)%N.

Definition foot_ok (f : foot) : Prop := List.length (ft_unknown1 f) = 16%nat /\ (ft_pad f < 16)%nat.

End WithEnv.
