(** Specification: the reader that serves the same calls without failing. *)
Require Import Coq.Lists.List Coq.NArith.NArith Coq.Bool.Bool.
Require Import Verif.Base Verif.Types Verif.Io Verif.Parser Verif.SpecErr.
Import ListNotations.

(** The reads that remain when those that fail are left out. *)
Definition sound_reads (l : list ioact) : list ioact :=
  filter (fun a => match a with AFail _ => false | _ => true end) l.

(** A result that may be the report of a failed read or seek: an I/O error of the reader's own,
    or broken compressed data (as which a failure in the header of such data is reported). The
    error may be in the place of the footer. *)
Definition io_report (e : perr) : Prop :=
  match e_error e with
  | EIo (IoOther _) => True
  | EData (BrokenCompression (IoOther _)) => True
  | _ => False
  end.
Definition reports_failure {O} (r : res perr (obs O)) : Prop :=
  match error_of r with Some e => io_report e | None => False end.

(** The calls whose failures are reported: those of the parser, and loading with a loader that
    hands errors on as those of the crate do. *)
Definition op_fine {O} (o : op O) : Prop :=
  match o with OLoad ld | OLoadBuf ld => loader_fine ld | _ => True end.
