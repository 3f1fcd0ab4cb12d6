(** Looking into the errors of the crate: [kind], [get_ref], [downcast_ref], and the [source]
    of every error type. *)
Require Import Coq.Lists.List Coq.NArith.NArith Coq.Bool.Bool.
Require Import Coq.Init.Byte.
Require Import Verif.Base Verif.Types Verif.Io Verif.Parser Verif.Writer Verif.TreeIo.
Import ListNotations.

(** A value behind a [&dyn std::error::Error]: the error types of the crate, [io::Error],
    [FromUtf8Error] and a user's own error. *)
Inductive dynerr :=
| DIo (e : ioerr)
| DUtf8 (bytes : list byte)
| DData (e : dataerr)
| DOperation (e : operr)
| DWarning (w : warning)
| DContainer (e : econtainer)
| DPull (e : perr)
| DHeader (e : header_error)
| DAny (e : any_error)
| DLoad (e : load_error)
| DTree (e : any_tree_error)
| DCompression (e : ioerr)
| DWrite (e : werr)
| DUser.

(** The type of such a value, as [downcast_ref] compares it. *)
Inductive errtype := TyIo | TyUtf8 | TyData | TyOperation | TyWarning | TyContainer | TyPull | TyHeader | TyAny | TyLoad | TyTree | TyCompression | TyWrite | TyUser.
Definition errtype_eq_dec : forall a b : errtype, {a = b} + {a <> b}. Proof. decide equality. Defined.
Definition type_of (d : dynerr) : errtype :=
  match d with
  | DIo _ => TyIo | DUtf8 _ => TyUtf8 | DData _ => TyData | DOperation _ => TyOperation | DWarning _ => TyWarning
  | DContainer _ => TyContainer | DPull _ => TyPull | DHeader _ => TyHeader | DAny _ => TyAny | DLoad _ => TyLoad
  | DTree _ => TyTree | DCompression _ => TyCompression | DWrite _ => TyWrite | DUser => TyUser
  end.

(** [ErrorKind], /repo/src/pull_parser/error.rs lines 131-160. *)
Inductive errkind := KData | KIo | KOperation | KWarning.

(** [ErrorContainer::kind], error.rs lines 178-185. *)
Definition container_kind (e : econtainer) : errkind :=
  match e with EData _ => KData | EIo _ => KIo | EOperation _ => KOperation | EWarning _ => KWarning end.
(** [ErrorContainer::as_error], error.rs lines 189-196. *)
Definition as_error (e : econtainer) : dynerr :=
  match e with EData e => DData e | EIo e => DIo e | EOperation e => DOperation e | EWarning w => DWarning w end.

(** [Error::kind], [get_ref], [position], error.rs lines 33-56. *)
Definition err_kind (e : perr) : errkind := container_kind (e_error e).
Definition err_get_ref (e : perr) : econtainer := e_error e.
Definition err_pos (e : perr) : option synpos := e_position e.
(** [<dyn Error>::downcast_ref::<T>()] and [Error::downcast_ref], error.rs lines 47-49. *)
Definition downcast (t : errtype) (d : dynerr) : option dynerr :=
  if errtype_eq_dec t (type_of d) then Some d else None.
Definition err_downcast_ref (t : errtype) (e : perr) : option dynerr := downcast t (as_error (e_error e)).

(** The [source] of [DataError], /repo/src/pull_parser/error/data.rs lines 49-57. *)
Definition data_source (e : dataerr) : option dynerr :=
  match e with
  | BrokenCompression e => Some (DIo e)
  | InvalidNodeNameEncoding b => Some (DUtf8 b)
  | _ => None
  end.
(** Of [ErrorContainer], error.rs lines 200-206, and of [Error], lines 83-88. *)
Definition container_source (e : econtainer) : option dynerr := Some (as_error e).
Definition pull_source (e : perr) : option dynerr := container_source (e_error e).
(** Of [HeaderError], /repo/src/low/fbx_header.rs line 24: the default, none. *)
Definition header_source (e : header_error) : option dynerr := None.
(** Of [pull_parser::any::Error], /repo/src/pull_parser/any/error.rs lines 20-28. *)
Definition any_source (e : any_error) : option dynerr :=
  match e with AnyHeader e => Some (DHeader e) | AnyUnsupportedVersion _ => None end.
(** Of [LoadError], /repo/src/tree/v7400/error.rs lines 28-36. *)
Definition load_source (e : load_error) : option dynerr :=
  match e with LoadParser e => Some (DPull e) | BadParser => None end.
(** Of [tree::any::Error], /repo/src/tree/any/error.rs lines 22-30; its variant [Parser] is
    not made by the crate, its variant [Tree] holds a [LoadError] (lines 56-61). *)
Definition tree_source (e : any_tree_error) : option dynerr :=
  match e with TreeParserCreation e => Some (DAny e) | TreeLoad e => Some (DLoad e) end.
(** Of [CompressionError] and the writer's [Error],
    /repo/src/writer/v7400/binary/error.rs lines 91-98 and 37-46. *)
Definition compression_source (e : ioerr) : option dynerr := Some (DIo e).
Definition write_source (e : werr) : option dynerr :=
  match e with
  | Compression e => Some (DCompression e)
  | WIo e => Some (DIo e)
  | UserDefined => Some DUser
  | _ => None
  end.

(** [Error::source] of any of these. What lies behind an [io::Error] or a user's error is not
    the crate's, and is not followed; [FromUtf8Error], [OperationError] and [Warning] have no
    source (/repo/src/pull_parser/error/operation.rs line 19, warning.rs line 29). *)
Definition source_of (d : dynerr) : option dynerr :=
  match d with
  | DIo _ | DUtf8 _ | DOperation _ | DWarning _ | DUser => None
  | DData e => data_source e
  | DContainer e => container_source e
  | DPull e => pull_source e
  | DHeader e => header_source e
  | DAny e => any_source e
  | DLoad e => load_source e
  | DTree e => tree_source e
  | DCompression e => compression_source e
  | DWrite e => write_source e
  end.
