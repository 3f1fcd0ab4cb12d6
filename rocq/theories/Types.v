(** Plain data types of the crate. *)
Require Import Coq.Lists.List Coq.NArith.NArith Coq.ZArith.ZArith Coq.Bool.Bool.
Require Import Verif.Base.
Import ListNotations.

(** [AttributeType], /repo/src/low/v7400/attribute/type_.rs lines 9-36. *)
Inductive atype :=
| TBool | TI16 | TI32 | TI64 | TF32 | TF64
| TArrBool | TArrI32 | TArrI64 | TArrF32 | TArrF64
| TBinary | TString.

(** [AttributeType::from_type_code], /repo/src/low/v7400/attribute/type_.rs lines 41-58.
    Byte literals are written as their ASCII codes. *)
Definition type_of_code (b : byte) : option atype :=
  match bN b with
  | 67 => Some TBool      (* C *)
  | 89 => Some TI16       (* Y *)
  | 73 => Some TI32       (* I *)
  | 76 => Some TI64       (* L *)
  | 70 => Some TF32       (* F *)
  | 68 => Some TF64       (* D *)
  | 98 => Some TArrBool   (* b *)
  | 105 => Some TArrI32   (* i *)
  | 108 => Some TArrI64   (* l *)
  | 102 => Some TArrF32   (* f *)
  | 100 => Some TArrF64   (* d *)
  | 82 => Some TBinary    (* R *)
  | 83 => Some TString    (* S *)
  | _ => None
  end%N.

(** [AttributeType::type_code], /repo/src/low/v7400/attribute/type_.rs lines 64-80. *)
Definition type_code (t : atype) : byte :=
  Nb match t with
     | TBool => 67 | TI16 => 89 | TI32 => 73 | TI64 => 76 | TF32 => 70 | TF64 => 68
     | TArrBool => 98 | TArrI32 => 105 | TArrI64 => 108 | TArrF32 => 102 | TArrF64 => 100
     | TBinary => 82 | TString => 83
     end%N.

(** [ArrayAttributeEncoding], /repo/src/low/v7400/array_attribute.rs lines 12-20. *)
Inductive aenc := EncDirect | EncZlib.

(** [ArrayAttributeEncoding::from_u32], /repo/src/low/v7400/array_attribute.rs lines 26-32. *)
Definition enc_of_u32 (v : N) : option aenc :=
  match v with 0 => Some EncDirect | 1 => Some EncZlib | _ => None end%N.

(** [ArrayAttributeEncoding::to_u32], /repo/src/low/v7400/array_attribute.rs lines 39-44. *)
Definition enc_to_u32 (e : aenc) : N :=
  match e with EncDirect => 0 | EncZlib => 1 end%N.

(** [AttributeValue], /repo/src/low/v7400/attribute/value.rs lines 17-45. Floats are bit
    patterns; strings are their UTF-8 bytes. *)
Inductive aval :=
| VBool (b : bool)
| VI16 (z : Z) | VI32 (z : Z) | VI64 (z : Z)
| VF32 (n : N) | VF64 (n : N)
| VArrBool (l : list bool)
| VArrI32 (l : list Z) | VArrI64 (l : list Z)
| VArrF32 (l : list N) | VArrF64 (l : list N)
| VString (s : list byte)
| VBinary (s : list byte).

(** [AttributeValue::type_], /repo/src/low/v7400/attribute/value.rs lines 96-112. *)
Definition aval_type (v : aval) : atype :=
  match v with
  | VBool _ => TBool | VI16 _ => TI16 | VI32 _ => TI32 | VI64 _ => TI64
  | VF32 _ => TF32 | VF64 _ => TF64
  | VArrBool _ => TArrBool | VArrI32 _ => TArrI32 | VArrI64 _ => TArrI64
  | VArrF32 _ => TArrF32 | VArrF64 _ => TArrF64
  | VString _ => TString | VBinary _ => TBinary
  end.

(** [io::Error], by what distinguishes them here: end of stream during [read_exact],
    invalid UTF-8 in [read_to_string], a zlib error, [write] returning 0, an interrupted call
    (only visible through a bare [read]), any other failure of the underlying stream. *)
Inductive ioerr := IoEof | IoUtf8 | IoZlib | IoWriteZero | IoIntr | IoOther (code : N).

(** [DataError], /repo/src/pull_parser/error/data.rs lines 10-47.
    [BrokenCompression] carries the error of the decoder (the format is always zlib);
    [InvalidNodeNameEncoding] the bytes that are not UTF-8, as [FromUtf8Error] does; the two
    strings of [UnexpectedAttribute] are byte strings. *)
Inductive dataerr :=
| BrokenCompression (e : ioerr)
| BrokenFbxFooter
| InvalidArrayAttributeEncoding (v : N)
| InvalidAttributeTypeCode (b : byte)
| InvalidNodeNameEncoding (bytes : list byte)
| NodeAttributeError
| NodeLengthMismatch (expected : N) (got : option N)
| UnexpectedAttribute (expecting got : list byte).

(** [OperationError], /repo/src/pull_parser/error/operation.rs lines 10-17. *)
Inductive operr :=
| AlreadyAborted
| AlreadyFinished
| UnsupportedFbxVersion (v : N).

(** [Warning], /repo/src/pull_parser/error/warning.rs lines 8-27. *)
Inductive warning :=
| EmptyNodeName
| ExtraNodeEndMarker
| IncorrectBooleanRepresentation
| InvalidFooterPaddingLength (expected got : N)
| MissingNodeEndMarker
| UnexpectedFooterFieldValue.

(** [ErrorContainer], /repo/src/pull_parser/error.rs lines 164-174. *)
Inductive econtainer :=
| EData (e : dataerr)
| EIo (e : ioerr)
| EOperation (e : operr)
| EWarning (w : warning).

(** [SyntacticPosition], /repo/src/pull_parser/position.rs lines 10-23. *)
Record synpos := mkPos {
  byte_pos : N;
  component_byte_pos : N;
  node_path : list (N * list byte);
  attribute_index : option N
}.

(** [Error], /repo/src/pull_parser/error.rs lines 24-27 and 103-109. *)
Record perr := mkErr { e_error : econtainer; e_position : option synpos }.

(** [Error::from], /repo/src/pull_parser/error.rs lines 90-100. *)
Definition err_from (c : econtainer) : perr := mkErr c None.
(** [Error::with_position], /repo/src/pull_parser/error.rs lines 61-65. *)
Definition err_with_position (c : econtainer) (p : synpos) : perr := mkErr c (Some p).
(** [Error::and_position], /repo/src/pull_parser/error.rs lines 70-73. *)
Definition and_position (e : perr) (p : synpos) : perr := mkErr (e_error e) (Some p).

(** [FbxFooter] (read side), /repo/src/low/v7400/fbx_footer.rs lines 21-50. *)
Record footer := mkFooter {
  f_unknown1 : list byte;
  f_padding_len : N;
  f_unknown2 : list byte;
  f_version : N;
  f_unknown3 : list byte
}.

(** [FbxVersion::major]/[minor], /repo/src/low/version.rs lines 35-46. *)
Definition ver_major (v : N) : N := (v / 1000)%N.
Definition ver_minor (v : N) : N := ((v mod 1000) / 100)%N.

(** [ParserVersion::from_fbx_version] returns [Some(V7400)],
    /repo/src/pull_parser/version.rs lines 21-34. *)
Definition ver_supported (v : N) : bool := ((7000 <=? v) && (v <=? 7999))%N.
