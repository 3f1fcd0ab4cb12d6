(** What the errors and warnings of the crate print: their [Display] implementations. *)
Require Import Coq.Lists.List Coq.NArith.NArith Coq.Strings.String.
Require Import Coq.Numbers.DecimalString Coq.Numbers.DecimalN.
Require Import Coq.Init.Byte.
Require Import Verif.Base Verif.Types Verif.Io Verif.Parser Verif.Writer Verif.TreeIo Verif.Loaders Verif.ErrView.
Import ListNotations.

(** What errors that are not the crate's print, as [{}] and as [{:?}]: [io::Error],
    [FromUtf8Error], and the error a user handed to the writer. *)
Class Texts := {
  io_display : ioerr -> list byte;
  io_debug : ioerr -> list byte;
  utf8_display : list byte -> list byte;
  utf8_debug : list byte -> list byte;
  user_display : list byte
}.

(** An unsigned integer, as [{}] and as [{:?}]: decimal, without leading zeros. *)
Definition dec (n : N) : list byte := str (NilEmpty.string_of_uint (N.to_uint n)).
(** [Option<u64>] as [{:?}] (derived). *)
Definition opt_debug (o : option N) : list byte :=
  match o with Some n => str "Some(" ++ dec n ++ str ")" | None => str "None" end.
(** [FbxVersion] as [{:?}] (derived), /repo/src/low/version.rs lines 4-5. *)
Definition version_debug (v : N) : list byte := str "FbxVersion(" ++ dec v ++ str ")".

Section WithTexts.
Context {texts : Texts}.

(** [DataError], /repo/src/pull_parser/error/data.rs lines 59-100; the codec is always
    [Compression::Zlib], printed with the derived [{:?}] (lines 103-107). *)
Definition data_display (e : dataerr) : list byte :=
  match e with
  | BrokenFbxFooter => str "FBX footer is broken"
  | BrokenCompression e => str "Data with broken compression (codec=Zlib): " ++ io_debug e
  | InvalidArrayAttributeEncoding v => str "Unknown array attribute encoding: got " ++ dec v
  | InvalidAttributeTypeCode b => str "Invalid node attribute type code: " ++ dec (Byte.to_N b)
  | InvalidNodeNameEncoding b => str "Invalid node name encoding: " ++ utf8_debug b
  | NodeAttributeError => str "Some error occured while reading node attributes"
  | NodeLengthMismatch expected got =>
      str "Node ends with unexpected position: expected " ++ dec expected ++ str ", got " ++ opt_debug got
  | UnexpectedAttribute expected got =>
      str "Unexpected attribute value or type: expected " ++ expected ++ str ", got " ++ got
  end.

(** [OperationError], /repo/src/pull_parser/error/operation.rs lines 21-40; the parser version
    is always [ParserVersion::V7400] (version.rs lines 11-16). *)
Definition operation_display (e : operr) : list byte :=
  match e with
  | AlreadyAborted => str "Attempt to parse more data while the parsing is aborted"
  | AlreadyFinished => str "Attempt to parse more data while the parsing is successfully finished"
  | UnsupportedFbxVersion v => str "Unsupported FBX version: parser=V7400, fbx=" ++ version_debug v
  end.

(** [Warning], /repo/src/pull_parser/error/warning.rs lines 31-48. *)
Definition warning_display (w : warning) : list byte :=
  match w with
  | EmptyNodeName => str "Node name is empty"
  | ExtraNodeEndMarker => str "Extra (unexpected) node end marker found"
  | IncorrectBooleanRepresentation => str "Incorrect boolean representation"
  | InvalidFooterPaddingLength expected got =>
      str "Invalid footer padding length: expected " ++ dec expected ++ str " bytes, got " ++ dec got ++ str " bytes"
  | MissingNodeEndMarker => str "Missing node end marker"
  | UnexpectedFooterFieldValue => str "Unexpected footer field value"
  end.

(** [ErrorContainer], /repo/src/pull_parser/error.rs lines 208-217. *)
Definition container_display (e : econtainer) : list byte :=
  match e with
  | EData e => str "Data error: " ++ data_display e
  | EIo e => str "I/O error: " ++ io_display e
  | EOperation e => str "Invalid operation: " ++ operation_display e
  | EWarning w => str "Warning considered critical: " ++ warning_display w
  end.

(** [pull_parser::Error], error.rs lines 76-81: the container only. *)
Definition pull_display (e : perr) : list byte := container_display (e_error e).

(** [HeaderError], /repo/src/low/fbx_header.rs lines 26-33. *)
Definition header_display (e : header_error) : list byte :=
  match e with
  | HeaderIo e => io_display e
  | MagicNotDetected => str "FBX magic binary is not detected"
  end.

(** [pull_parser::any::Error], /repo/src/pull_parser/any/error.rs lines 30-37. *)
Definition any_display (e : any_error) : list byte :=
  match e with
  | AnyHeader e => str "FBX header error: " ++ header_display e
  | AnyUnsupportedVersion v => str "Unsupported FBX version: " ++ version_debug v
  end.

(** [LoadError], /repo/src/tree/v7400/error.rs lines 19-26. *)
Definition load_display (e : load_error) : list byte :=
  match e with
  | BadParser => str "Attempt to use a bad parser"
  | LoadParser e => str "Parser error: " ++ pull_display e
  end.

(** [tree::any::Error], /repo/src/tree/any/error.rs lines 32-40; the variant [Parser] is not made
    by the crate. *)
Definition tree_display (e : any_tree_error) : list byte :=
  match e with
  | TreeParserCreation e => str "Failed to create a parser: " ++ any_display e
  | TreeLoad e => str "Tree load error: " ++ load_display e
  end.

(** [CompressionError], /repo/src/writer/v7400/binary/error.rs lines 100-107. *)
Definition compression_display (e : ioerr) : list byte := str "Zlib compression error: " ++ io_display e.

(** The writer's [Error], error.rs lines 48-70. *)
Definition write_display (e : werr) : list byte :=
  match e with
  | AttributeTooLong v => str "Node attribute is too long: " ++ dec v ++ str " bytes"
  | Compression e => str "Compression error: " ++ compression_display e
  | FileTooLarge v => str "File is too large: " ++ dec v ++ str " bytes"
  | WIo e => str "I/O error: " ++ io_display e
  | NoNodesToClose => str "There are no nodes to close"
  | NodeNameTooLong v => str "Node name is too long: " ++ dec v ++ str " bytes"
  | TooManyArrayAttributeElements v => str "Too many array elements for a single node attribute: count=" ++ dec v
  | TooManyAttributes v => str "Too many attributes: count=" ++ dec v
  | UnclosedNode v => str "There remains unclosed nodes: depth=" ++ dec v
  | WUnsupportedFbxVersion v => str "Unsupported FBX version: " ++ version_debug v
  | UserDefined => str "User-defined error: " ++ user_display
  end.

(** [Display] of any of these. *)
Definition display (d : dynerr) : list byte :=
  match d with
  | DIo e => io_display e
  | DUtf8 b => utf8_display b
  | DData e => data_display e
  | DOperation e => operation_display e
  | DWarning w => warning_display w
  | DContainer e => container_display e
  | DPull e => pull_display e
  | DHeader e => header_display e
  | DAny e => any_display e
  | DLoad e => load_display e
  | DTree e => tree_display e
  | DCompression e => compression_display e
  | DWrite e => write_display e
  | DUser => user_display
  end.
End WithTexts.
