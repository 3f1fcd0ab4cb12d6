(** Specification: failures of a reader, and what a call may report about them. *)
Require Import Coq.Lists.List Coq.NArith.NArith Coq.Bool.Bool.
Require Import Verif.Base Verif.Utf8 Verif.Types Verif.Io Verif.Parser Verif.Loaders.
Import ListNotations.

(** The failures among some [read] calls and among some [seek] calls. *)
Definition read_codes (l : list ioact) : list N :=
  flat_map (fun a => match a with AFail c => [c] | _ => [] end) l.
Definition seek_codes (l : list (option N)) : list N :=
  flat_map (fun a => match a with Some c => [c] | None => [] end) l.

(** Between two moments, the calls made on the stream failed with these codes. *)
Definition happened (before after : stream) (codes : list N) : Prop :=
  exists reads seeks, s_sched before = reads ++ s_sched after /\ s_seeks before = seeks ++ s_seeks after /\
    codes = read_codes reads ++ seek_codes seeks.

(** The stream of a parser. *)
Definition source (s : pstate) : stream := r_stream (p_rd s).

(** The error is the one with which the warning handler refused the latest warning. *)
Definition refused (e : perr) (s : pstate) : Prop :=
  exists h e0, p_handler s = Some h /\ p_log s <> [] /\ h (p_log s) = Some e0 /\ e_error e = e_error e0.

(** The errors [next_event] and [skip_current_node] can find themselves. An unexpected end of
    file means that the data has been used up. *)
Definition next_own (e : econtainer) (s : pstate) : Prop :=
  match e with
  | EIo IoEof => s_rem (source s) = []
  | EData (NodeLengthMismatch _ _) | EData (InvalidNodeNameEncoding _) | EData BrokenFbxFooter => True
  | EOperation AlreadyFinished => p_health s = Finished
  | EOperation AlreadyAborted => exists p, p_health s = Aborted p
  | _ => False
  end.

(** The errors a load can find itself. *)
Definition own_io (e : ioerr) : Prop := match e with IoEof | IoUtf8 | IoZlib => True | _ => False end.
Definition load_own (e : econtainer) (s : pstate) : Prop :=
  match e with
  | EIo e => own_io e
  | EData (BrokenCompression e) => own_io e
  | EData (NodeLengthMismatch _ _) | EData (InvalidNodeNameEncoding _) | EData BrokenFbxFooter | EData NodeAttributeError => False
  | EData _ => True
  | EOperation AlreadyFinished => p_health s = Finished
  | EOperation AlreadyAborted => exists p, p_health s = Aborted p
  | EOperation _ | EWarning _ => False
  end.

(** What a result says about the failures during the call. Without failure, a result that is
    an error has another cause; with one, the result is that failure. *)
Definition cause (as_compression : bool) (own : econtainer -> pstate -> Prop) (codes : list N) (e : perr) (s : pstate) : Prop :=
  (exists c, codes = [c] /\ (e_error e = EIo (IoOther c) \/ as_compression = true /\ e_error e = EData (BrokenCompression (IoOther c)))) \/
  (codes = [] /\ (refused e s \/ own (e_error e) s)).

(** The error in a result: that of the call, or that of the footer. *)
Definition error_of {O} (r : res perr (obs O)) : option perr :=
  match r with
  | Err e => Some e
  | Ok (BEvent (EvEndFbx (inl e))) => Some e
  | _ => None
  end.

(** ** Code that hands failures on *)
(** A decoder: after a failure of the stream, it stops and reports it. Its other errors are not
    failures of the stream. *)
Fixpoint hands_on {A} (says : ioerr -> A -> Prop) (fine : A -> Prop) (p : zprog A) : Prop :=
  match p with
  | ZRet a => fine a
  | ZExact _ k => (forall e, exists a, k (inl e) = ZRet a /\ says e a) /\ forall bs, hands_on says fine (k (inr bs))
  | ZTake _ k => (forall e bs, exists a, k (Some e, bs) = ZRet a /\ says e a) /\ forall bs, hands_on says fine (k (None, bs))
  end.
Definition zlib_hands_on (env : Env) : Prop :=
  hands_on (fun e o => o = inl e) (fun o => match o with inl e => own_io e | inr _ => True end) z_open /\
  forall st n, hands_on (fun e x => fst x = inl e)
                        (fun x => match fst x with inl e => own_io e | inr _ => True end) (z_read st n).

(** A loader whose programs are those of the loaders of the crate. *)
Definition value_fine {O} (r : perr + O) : Prop :=
  match r with inl e => exists a b, e_error e = EData (UnexpectedAttribute a b) | inr _ => True end.
Definition seq_fine {A O} (p : seqprog A O) : Prop :=
  (exists r, p = SRet r /\ value_fine r) \/ exists f, p = collect_as f.
Definition rd_fine {O} (p : rdprog O) : Prop :=
  (exists r, p = RRet r /\ value_fine r) \/ (exists f, p = read_all f) \/ exists f, p = read_all_str f.
Record loader_fine {O} (l : loader O) : Prop := mkLoaderFine {
  lf_bool : forall v, value_fine (ld_bool l v);
  lf_i16 : forall v, value_fine (ld_i16 l v);
  lf_i32 : forall v, value_fine (ld_i32 l v);
  lf_i64 : forall v, value_fine (ld_i64 l v);
  lf_f32 : forall v, value_fine (ld_f32 l v);
  lf_f64 : forall v, value_fine (ld_f64 l v);
  lf_abool : forall n, seq_fine (ld_abool l n);
  lf_ai32 : forall n, seq_fine (ld_ai32 l n);
  lf_ai64 : forall n, seq_fine (ld_ai64 l n);
  lf_af32 : forall n, seq_fine (ld_af32 l n);
  lf_af64 : forall n, seq_fine (ld_af64 l n);
  lf_bin : forall n, rd_fine (ld_bin l n);
  lf_str : forall n, rd_fine (ld_str l n);
  lf_bin_buf : forall n, rd_fine (ld_bin_buf l n);
  lf_str_buf : forall n, rd_fine (ld_str_buf l n)
}.
