(** Readers.

    Models [std::io::Read] over an arbitrary stream and the wrapper
    /repo/src/pull_parser/reader.rs.  A stream is the list of bytes that remain to be read,
    the number of bytes that precede them, and two schedules that say how the successive
    [read] and [seek] calls behave. *)
Require Import Coq.Lists.List Coq.NArith.NArith Coq.Bool.Bool.
Require Import Verif.Base Verif.Types.
Import ListNotations.

(** How one [read] call on the underlying stream behaves: it returns at most [k] bytes, it
    is interrupted ([ErrorKind::Interrupted]), or it fails.  An exhausted schedule means
    that calls return as much as is asked for and available. *)
Inductive ioact := AChunk (k : positive) | AIntr | AFail (code : N).

Record stream := mkStream {
  s_rem : list byte;        (** bytes not yet read *)
  s_off : N;                (** true offset of the next byte *)
  s_sched : list ioact;     (** behaviour of the next [read] calls *)
  s_seeks : list (option N) (** behaviour of the next [seek] calls: [Some code] fails *)
}.

(** [Read::read_exact]: the default loop of the standard library over [read].  Interrupted
    reads are retried; a read returning 0 bytes is an unexpected end of file.  Returns the
    error, if any, the bytes read, the remaining content and the remaining schedule. *)
Fixpoint rx (sc : list ioact) (rem : list byte) (n : nat) {struct sc}
  : option ioerr * list byte * list byte * list ioact :=
  match n with
  | O => (None, [], rem, sc)
  | _ =>
    match sc with
    | [] =>
        if Nat.leb n (length rem) then (None, firstn n rem, skipn n rem, [])
        else (Some IoEof, rem, [], [])
    | AChunk k :: sc' =>
        let m := Nat.min n (Nat.min (Pos.to_nat k) (length rem)) in
        match m with
        | O => (Some IoEof, [], rem, sc')
        | _ =>
          let '(e, got, rem', sc'') := rx sc' (skipn m rem) (n - m) in
          (e, firstn m rem ++ got, rem', sc'')
        end
    | AIntr :: sc' => rx sc' rem n
    | AFail c :: sc' => (Some (IoOther c), [], rem, sc')
    end
  end.

(** Clip a (possibly huge) byte count to the number of available bytes. *)
Definition clip (n : N) (rem : list byte) : nat := N.to_nat (N.min n (lenN rem)).

(** [Read::read_to_end] on [Read::take(limit)] (and [io::copy] of such a reader to a sink):
    reads until the limit is reached or the stream ends.  [Take::read] does not touch the
    inner reader once the limit is reached. *)
Fixpoint rte (sc : list ioact) (rem : list byte) (limit : N) {struct sc}
  : option ioerr * list byte * list byte * list ioact :=
  if (limit =? 0)%N then (None, [], rem, sc)
  else
    match sc with
    | [] => let m := clip limit rem in (None, firstn m rem, skipn m rem, [])
    | AChunk k :: sc' =>
        let m := clip (N.min limit (Npos k)) rem in
        match m with
        | O => (None, [], rem, sc')
        | _ =>
          let '(e, got, rem', sc'') := rte sc' (skipn m rem) (limit - N.of_nat m) in
          (e, firstn m rem ++ got, rem', sc'')
        end
    | AIntr :: sc' => rte sc' rem limit
    | AFail c :: sc' => (Some (IoOther c), [], rem, sc')
    end.

(** A single [Read::read] call with a buffer of [n] bytes. *)
Definition r1 (sc : list ioact) (rem : list byte) (n : nat)
  : (ioerr + list byte) * list byte * list ioact :=
  match n with
  | O => (inr [], rem, sc)
  | _ =>
    match sc with
    | [] => (inr (firstn n rem), skipn n rem, [])
    | AChunk k :: sc' =>
        let m := Nat.min n (Pos.to_nat k) in (inr (firstn m rem), skipn m rem, sc')
    | AIntr :: sc' => (inl IoIntr, rem, sc')
    | AFail c :: sc' => (inl (IoOther c), rem, sc')
    end
  end.

(** [FbxHeader::load]: magic and version, /repo/src/low/fbx_header.rs lines 10-13, 53-72. *)
Inductive header_error := HeaderIo (e : ioerr) | MagicNotDetected.

Definition magic : list byte :=
  map Nb [75; 97; 121; 100; 97; 114; 97; 32; 70; 66; 88; 32;
          66; 105; 110; 97; 114; 121; 32; 32; 0; 26; 0]%N.

(** [read_exact] on the bare stream (used for the header only). *)
Definition st_read_exact (n : nat) (s : stream) : (ioerr + list byte) * stream :=
  let '(e, got, rem', sc') := rx (s_sched s) (s_rem s) n in
  (match e with Some e => inl e | None => inr got end,
   mkStream rem' (s_off s + lenN got) sc' (s_seeks s)).

Definition header_load (s : stream) : res header_error N * stream :=
  match st_read_exact 23 s with
  | (inl e, s1) => (Err (HeaderIo e), s1)
  | (inr m, s1) =>
      if bytes_eqb m magic then
        match st_read_exact 4 s1 with
        | (inl e, s2) => (Err (HeaderIo e), s2)
        | (inr v, s2) => (Ok (le_dec v), s2)
        end
      else (Err MagicNotDetected, s1)
  end.

(** [FbxHeader::len], /repo/src/low/fbx_header.rs lines 93-98. *)
Definition header_len : N := 27.

(** [Reader], /repo/src/pull_parser/reader.rs lines 67-74.  The function table is the
    [seekable] flag. *)
Record reader := mkReader {
  r_stream : stream;
  r_pos : N;               (** cached position *)
  r_seekable : bool
}.

Section OnTarget.
Context {usize : Target}.

(** [Reader::advance], reader.rs lines 146-148: [None] is the panic on overflow of [usize]. *)
Definition advance (pos n : N) : option N :=
  if (pos + n <? usize)%N then Some (pos + n)%N else None.

Definition with_stream (r : reader) (s : stream) (pos : N) : reader :=
  mkReader s pos (r_seekable r).

(** [read_exact] on a [Reader] (reader.rs lines 151-158 under std's loop).  [None]: panic.
    The overflow check of each partial [advance] is done once on the total. *)
Definition rd_exact (n : nat) (r : reader) : option (ioerr + list byte) * reader :=
  let s := r_stream r in
  let '(e, got, rem', sc') := rx (s_sched s) (s_rem s) n in
  let s' := mkStream rem' (s_off s + lenN got) sc' (s_seeks s) in
  match advance (r_pos r) (lenN got) with
  | None => (None, with_stream r s' (r_pos r))
  | Some p => (Some (match e with Some e => inl e | None => inr got end), with_stream r s' p)
  end.

(** [read_to_end] on [take(limit)] of a [Reader]. *)
Definition rd_to_end (limit : N) (r : reader)
  : option (option ioerr * list byte) * reader :=
  let s := r_stream r in
  let '(e, got, rem', sc') := rte (s_sched s) (s_rem s) limit in
  let s' := mkStream rem' (s_off s + lenN got) sc' (s_seeks s) in
  match advance (r_pos r) (lenN got) with
  | None => (None, with_stream r s' (r_pos r))
  | Some p => (Some (e, got), with_stream r s' p)
  end.

(** One [read] call on a [Reader], reader.rs lines 153-157. *)
Definition rd_once (n : nat) (r : reader) : option (ioerr + list byte) * reader :=
  let s := r_stream r in
  let '(res, rem', sc') := r1 (s_sched s) (s_rem s) n in
  let len := match res with inl _ => 0%N | inr got => lenN got end in
  let s' := mkStream rem' (s_off s + len) sc' (s_seeks s) in
  match advance (r_pos r) len with
  | None => (None, with_stream r s' (r_pos r))
  | Some p => (Some res, with_stream r s' p)
  end.

(** [fill_buf] followed by [consume(min(amt, len))], reader.rs lines 160-171: the bytes are
    peeked, [amt] of them consumed.  Simplification: the unconsumed part of a chunk is not
    remembered as buffered, the next call follows the schedule. *)
Definition rd_peek (n : nat) (r : reader) : (ioerr + list byte) * reader :=
  let s := r_stream r in
  let '(res, _, sc') := r1 (s_sched s) (s_rem s) n in
  (res, with_stream r (mkStream (s_rem s) (s_off s) sc' (s_seeks s)) (r_pos r)).

(** How much a [fill_buf] through [Read::take(limit)] may show: up to the limit; the inner
    reader is called (for at least one byte) unless the limit is reached. *)
Definition peek_len (limit : N) (rem : list byte) : nat :=
  if (limit =? 0)%N then O else Nat.max 1 (clip limit rem).

(** Consume [n] bytes (at most what remains) of the stream, advancing the cached position. *)
Definition rd_drop (n : N) (r : reader) : option unit * reader :=
  let s := r_stream r in
  let k := clip n (s_rem s) in
  let s' := mkStream (skipn k (s_rem s)) (s_off s + N.of_nat k) (s_sched s) (s_seeks s) in
  match advance (r_pos r) (N.of_nat k) with
  | None => (None, with_stream r s' (r_pos r))
  | Some p => (Some tt, with_stream r s' p)
  end.

(** [skip_distance_plain], reader.rs lines 43-48: copies [distance] bytes of the *inner*
    stream to a sink; the cached position is not advanced. *)
Definition skip_distance_plain (d : N) (r : reader) : option (option ioerr) * reader :=
  let s := r_stream r in
  let '(e, got, rem', sc') := rte (s_sched s) (s_rem s) d in
  (Some e, with_stream r (mkStream rem' (s_off s + lenN got) sc' (s_seeks s)) (r_pos r)).

(** [n as usize] of a [u64]. *)
Definition to_usize (n : N) : N := if (n <? usize)%N then n else (n mod usize)%N.

(** The position after [seek(SeekFrom::Current(part as i64))] and [advance(part as usize)], reader.rs
    lines 57-58. A [part] of 2^63 or more would be cast to a negative offset and move the stream
    backwards, which this model of a stream cannot do: [None], like a panic. *)
Definition seek_move (pos part : N) : option N :=
  if (part <? 9223372036854775808)%N then advance pos (to_usize part) else None.

(** One [seek(SeekFrom::Current(part as i64))] and [advance(part)], reader.rs lines 57-58.
    Seeking beyond the end is allowed. *)
Definition seek_part (part : N) (r : reader) : option (option ioerr) * reader :=
  let s := r_stream r in
  match s_seeks s with
  | Some c :: sk => (Some (Some (IoOther c)), with_stream r (mkStream (s_rem s) (s_off s) (s_sched s) sk) (r_pos r))
  | sk =>
    let s' := mkStream (dropN part (s_rem s)) (s_off s + part) (s_sched s) (tl sk) in
    match seek_move (r_pos r) part with
    | None => (None, with_stream r s' (r_pos r))
    | Some p => (Some None, with_stream r s' p)
    end
  end.

(** The parts of the loop of [skip_distance_seekable], reader.rs lines 55-60: a [u64]
    distance is covered by at most three steps of [i64::MAX]. *)
Definition i64_max : N := 9223372036854775807.
Definition seek_parts (d : N) : list N :=
  if (d =? 0)%N then []
  else if (d <=? i64_max)%N then [d]
  else if (d - i64_max <=? i64_max)%N then [i64_max; (d - i64_max)%N]
  else [i64_max; i64_max; (d - i64_max - i64_max)%N].

Fixpoint seek_all (parts : list N) (r : reader) : option (option ioerr) * reader :=
  match parts with
  | [] => (Some None, r)
  | p :: ps =>
    match seek_part p r with
    | (Some None, r') => seek_all ps r'
    | x => x
    end
  end.

(** [skip_distance_seekable], reader.rs lines 51-62. *)
Definition skip_distance_seekable (d : N) (r : reader) : option (option ioerr) * reader :=
  seek_all (seek_parts d) r.

(** [Reader::skip_distance], reader.rs lines 124-126. *)
Definition skip_distance (d : N) (r : reader) : option (option ioerr) * reader :=
  if r_seekable r then skip_distance_seekable d r else skip_distance_plain d r.

(** [Reader::skip_to], reader.rs lines 137-142: [None] is the panic "Attempt to skip
    backward". *)
Definition skip_to (pos : N) (r : reader) : option (option ioerr) * reader :=
  if (pos <? r_pos r)%N then (None, r)
  else skip_distance (pos - r_pos r) r.

End OnTarget.
