(** The binary writer: /repo/src/writer/v7400/binary.rs, attributes.rs, attributes/array.rs and
    footer.rs of the same directory. *)
Require Import Coq.Lists.List Coq.NArith.NArith Coq.ZArith.ZArith Coq.Bool.Bool.
Require Import Coq.Init.Byte.
Require Import Verif.Base Verif.Utf8 Verif.Types Verif.Io Verif.Parser.
Import ListNotations.

(** ** Sinks *)

(** How one [write] call on the sink behaves: it accepts at most [k] bytes, is interrupted,
    accepts nothing ([Ok(0)]), or fails.  An exhausted schedule accepts everything. *)
Inductive wact := WChunk (k : positive) | WIntr | WZero | WFail (code : N).

(** A [Write + Seek] sink that behaves like a file: content, position, and the behaviour of
    the next [write], [seek] ([Some code] fails) and [flush] calls. *)
Record sink := mkSink {
  k_data : list byte;
  k_pos : N;
  k_writes : list wact;
  k_seeks : list (option N);
  k_flush : option N
}.

(** Overwrite the content at a position (zeros fill a gap). *)
Definition put (pos : N) (bs data : list byte) : list byte :=
  takeN pos data ++ zeros (N.to_nat (pos - lenN data)) ++ bs ++ dropN (pos + lenN bs) data.

(** The error of a write that would take the position beyond [i64::MAX] (no file and no
    [Vec] can be that long). *)
Definition too_big : ioerr := IoOther 27.

(** [Write::write_all]: the default loop of the standard library over [write].  Returns the
    error, if any, the new content, position and schedule. *)
Fixpoint wr (sc : list wact) (bs data : list byte) (pos : N) {struct sc}
  : option ioerr * list byte * N * list wact :=
  match bs with
  | [] => (None, data, pos, sc)
  | _ =>
    match sc with
    | [] =>
        if (pos + lenN bs <? pow2_63)%N then (None, put pos bs data, (pos + lenN bs)%N, [])
        else (Some too_big, data, pos, [])
    | WChunk k :: sc' =>
        let a := firstn (Pos.to_nat k) bs in
        if (pos + lenN a <? pow2_63)%N
        then wr sc' (skipn (Pos.to_nat k) bs) (put pos a data) (pos + lenN a)%N
        else (Some too_big, data, pos, sc')
    | WIntr :: sc' => wr sc' bs data pos
    | WZero :: sc' => (Some IoWriteZero, data, pos, sc')
    | WFail c :: sc' => (Some (IoOther c), data, pos, sc')
    end
  end.

(** [Seek::seek]: to an absolute position, or ([None]) [stream_position]. *)
Definition k_seek (target : option N) (k : sink) : option ioerr * sink :=
  match k_seeks k with
  | Some c :: sk => (Some (IoOther c), mkSink (k_data k) (k_pos k) (k_writes k) sk (k_flush k))
  | sk => (None, mkSink (k_data k) (match target with Some p => p | None => k_pos k end) (k_writes k) (tl sk) (k_flush k))
  end.

(** ** Errors and state *)

(** [Error], /repo/src/writer/v7400/binary/error.rs lines 12-35.  The payload of
    [UserDefined] is dropped. *)
Inductive werr :=
| AttributeTooLong (n : N)
| Compression (e : ioerr)
| FileTooLarge (n : N)
| WIo (e : ioerr)
| NoNodesToClose
| NodeNameTooLong (n : N)
| TooManyArrayAttributeElements (n : N)
| TooManyAttributes (n : N)
| UnclosedNode (n : N)
| WUnsupportedFbxVersion (v : N)
| UserDefined.

(** [OpenNode], binary.rs lines 424-435. *)
Record onode := mkON {
  on_header_pos : N;
  on_body_pos : N;
  on_header : node_header;
  on_has_child : bool;
  on_finalized : bool
}.

(** [Writer], binary.rs lines 117-124; the open nodes are innermost first. *)
Record wstate := mkW { w_sink : sink; w_ver : N; w_open : list onode }.

Definition set_sink (k : sink) (s : wstate) := mkW k (w_ver s) (w_open s).
Definition set_open (l : list onode) (s : wstate) := mkW (w_sink s) (w_ver s) l.

(** ** State and error monad *)
Definition WM (A : Type) := wstate -> res werr A * wstate.
Definition wret {A} (a : A) : WM A := fun s => (Ok a, s).
Definition wthrow {A} (e : werr) : WM A := fun s => (Err e, s).
Definition wpanic {A} : WM A := fun s => (Panic, s).
Definition wbind {A B} (m : WM A) (k : A -> WM B) : WM B := fun s =>
  match m s with
  | (Ok a, s') => k a s'
  | (Err e, s') => (Err e, s')
  | (Panic, s') => (Panic, s')
  end.
Definition wgets {A} (f : wstate -> A) : WM A := fun s => (Ok (f s), s).
Definition wmodify (f : wstate -> wstate) : WM unit := fun s => (Ok tt, f s).

Declare Scope writer_scope.
Notation "'let!' x := m 'in' k" := (wbind m (fun x => k)) (at level 200, x pattern, right associativity) : writer_scope.
Notation "m ;> k" := (wbind m (fun _ => k)) (at level 199, right associativity) : writer_scope.
Open Scope writer_scope.

Definition wwhen (b : bool) (m : WM unit) : WM unit := if b then m else wret tt.

(** [sink.write_all(bs)?]; the error becomes [wrap e] ([Error::Io] unless said otherwise). *)
Definition write_as (wrap : ioerr -> werr) (bs : list byte) : WM unit := fun s =>
  let k := w_sink s in
  let '(e, data, pos, sc) := wr (k_writes k) bs (k_data k) (k_pos k) in
  (match e with None => Ok tt | Some e => Err (wrap e) end,
   set_sink (mkSink data pos sc (k_seeks k) (k_flush k)) s).
Definition write (bs : list byte) : WM unit := write_as WIo bs.

(** [sink.stream_position()?] and [sink.seek(SeekFrom::Start(p))?]. *)
Definition tell : WM N := fun s =>
  match k_seek None (w_sink s) with
  | (None, k) => (Ok (k_pos k), set_sink k s)
  | (Some e, k) => (Err (WIo e), set_sink k s)
  end.
Definition seek (p : N) : WM unit := fun s =>
  match k_seek (Some p) (w_sink s) with
  | (None, k) => (Ok tt, set_sink k s)
  | (Some e, k) => (Err (WIo e), set_sink k s)
  end.

(** Write each byte string with its own [write_all]. *)
Fixpoint write_each_as (wrap : ioerr -> werr) (l : list (list byte)) : WM unit :=
  match l with
  | [] => wret tt
  | b :: l' => write_as wrap b ;> write_each_as wrap l'
  end.
Definition write_each (l : list (list byte)) : WM unit := write_each_as WIo l.

Section WithEnv.
Context {env : Env}.

(** [a - b] on [u64]: panics on underflow with overflow checks, wraps otherwise. *)
Definition sub_u64 (a b : N) : WM N :=
  if (b <=? a)%N then wret (a - b)%N
  else if ovf_checks then wpanic else wret ((a + pow2_64 - b) mod pow2_64)%N.

(** ** [Writer] *)

(** [Writer::new], binary.rs lines 128-146. *)
Definition new_writer (k : sink) (ver : N) : res werr wstate :=
  if negb (ver_major ver =? 7)%N then Err (WUnsupportedFbxVersion ver)
  else
    match (seek 0 ;> write magic ;> write (le_enc 4 ver)) (mkW k ver []) with
    | (Ok _, s) => Ok s
    | (Err e, _) => Err e
    | (Panic, _) => Panic
    end.

(** A [u32] field, with the error for values that do not fit ([u32::try_from]). *)
Definition write_u32 (n : N) (e : werr) : WM unit :=
  if (n <? pow2_32)%N then write (le_enc 4 n) else wthrow e.

(** [Writer::write_node_header], binary.rs lines 169-195. *)
Definition write_node_header (h : node_header) : WM unit :=
  let! ver := wgets w_ver in
  (if (ver <? 7500)%N then
     write_u32 (nh_end h) (FileTooLarge (nh_end h)) ;>
     write_u32 (nh_attrs h) (TooManyAttributes (nh_attrs h)) ;>
     write_u32 (nh_alen h) (AttributeTooLong (nh_alen h))
   else
     write (le_enc 8 (nh_end h)) ;>
     write (le_enc 8 (nh_attrs h)) ;>
     write (le_enc 8 (nh_alen h))) ;>
  write [nh_nlen h].

(** [NodeHeader::node_end], /repo/src/low/v7400/node_header.rs lines 38-45. *)
Definition node_end : node_header := mkNH 0 0 0 x00.

(** [Writer::finalize_attributes], binary.rs lines 205-227. *)
Definition finalize_attributes : WM unit :=
  let! l := wgets w_open in
  match l with
  | [] => wret tt
  | n :: t =>
      if on_finalized n then wret tt
      else
        let! pos := tell in
        let! len := sub_u64 pos (on_body_pos n) in
        let h := on_header n in
        wmodify (set_open (mkON (on_header_pos n) (on_body_pos n)
                                (mkNH (nh_end h) (nh_attrs h) len (nh_nlen h))
                                (on_has_child n) true :: t))
  end.

(** Setting [has_child] of the current node, binary.rs lines 238-240. *)
Definition set_has_child (s : wstate) : wstate :=
  match w_open s with
  | [] => s
  | n :: t => set_open (mkON (on_header_pos n) (on_body_pos n) (on_header n) true (on_finalized n) :: t) s
  end.

(** [Writer::new_node], binary.rs lines 230-272. *)
Definition new_node (name : list byte) : WM unit :=
  finalize_attributes ;>
  wmodify set_has_child ;>
  if negb (lenN name <? 256)%N then wthrow (NodeNameTooLong (lenN name))
  else
    let! header_pos := tell in
    let header := mkNH 0 0 0 (Nb (lenN name)) in
    write_node_header header ;>
    write name ;>
    let! body_pos := tell in
    wmodify (fun s => set_open (mkON header_pos body_pos header false false :: w_open s) s).

(** [Writer::close_node], binary.rs lines 275-302. *)
Definition close_node : WM unit :=
  finalize_attributes ;>
  let! l := wgets w_open in
  match l with
  | [] => wthrow NoNodesToClose
  | n :: t =>
      wmodify (set_open t) ;>
      wwhen (on_has_child n || (nh_attrs (on_header n) =? 0)%N) (write_node_header node_end) ;>
      let! node_end_pos := tell in
      seek (on_header_pos n) ;>
      if Bool.eqb (nh_attrs (on_header n) =? 0)%N (nh_alen (on_header n) =? 0)%N then
        write_node_header (mkNH node_end_pos (nh_attrs (on_header n)) (nh_alen (on_header n)) (nh_nlen (on_header n))) ;>
        seek node_end_pos
      else wpanic
  end.

(** [FbxFooterPaddingLength] and [FbxFooter],
    /repo/src/writer/v7400/binary/footer.rs lines 5-47. *)
Inductive padlen := PadDefault | PadForced (n : byte).
Record wfooter := mkWF {
  wf_unknown1 : option (list byte);
  wf_padding : padlen;
  wf_unknown2 : option (list byte);
  wf_unknown3 : option (list byte)
}.

(** The accessors, footer.rs lines 48-81. *)
Definition wf_default1 : list byte :=
  map Nb [240; 177; 162; 3; 212; 197; 214; 103; 184; 121; 250; 139; 28; 253; 46; 127]%N.
Definition wf_default3 : list byte :=
  map Nb [248; 90; 140; 106; 222; 245; 217; 126; 236; 233; 12; 227; 117; 143; 41; 11]%N.
Definition or_default (o : option (list byte)) (d : list byte) : list byte :=
  match o with Some l => l | None => d end.
Definition wf_field1 (f : wfooter) : list byte := or_default (wf_unknown1 f) wf_default1.
Definition wf_field2 (f : wfooter) : list byte := or_default (wf_unknown2 f) (zeros 4).
Definition wf_field3 (f : wfooter) : list byte := or_default (wf_unknown3 f) wf_default3.

(** [Writer::finalize_impl], binary.rs lines 389-419.  [io::copy] of [repeat(0).take(len)] is
    one [write_all], because [len] is smaller than the buffer of [io::copy]. *)
Definition finalize_impl (f : wfooter) : WM unit :=
  let! l := wgets w_open in
  match l with
  | _ :: _ => wthrow (UnclosedNode (lenN l))
  | [] =>
      write_node_header node_end ;>
      write (wf_field1 f) ;>
      let! len := match wf_padding f with
                  | PadDefault =>
                      let! cur := tell in
                      wret (N.land ((pow2_64 - cur) mod pow2_64) 15)
                  | PadForced n => wret (bN n)
                  end in
      write (zeros (N.to_nat len)) ;>
      write (wf_field2 f) ;>
      (let! ver := wgets w_ver in write (le_enc 4 ver)) ;>
      write (zeros 120) ;>
      write (wf_field3 f)
  end.

(** [Writer::finalize], binary.rs lines 374-378, and [finalize_and_flush], lines 381-386.
    The writer is consumed; the sink is returned. *)
Definition flush : WM unit := fun s =>
  match k_flush (w_sink s) with Some c => (Err (WIo (IoOther c)), s) | None => (Ok tt, s) end.
Definition finalize (and_flush : bool) (f : wfooter) (s : wstate) : res werr sink * wstate :=
  match (finalize_impl f ;> wwhen and_flush flush) s with
  | (Ok _, s') => (Ok (w_sink s'), s')
  | (Err e, s') => (Err e, s')
  | (Panic, s') => (Panic, s')
  end.

(** ** [AttributesWriter] *)

(** [AttributesWriter::update_node_header], attributes.rs lines 167-181. *)
Definition update_node_header : WM unit :=
  let! l := wgets w_open in
  match l with
  | [] => wpanic
  | n :: t =>
      let h := on_header n in
      if (nh_attrs h + 1 <? pow2_64)%N then
        wmodify (set_open (mkON (on_header_pos n) (on_body_pos n)
                                (mkNH (nh_end h) (nh_attrs h + 1)%N (nh_alen h) (nh_nlen h))
                                (on_has_child n) (on_finalized n) :: t))
      else wthrow (TooManyAttributes (nh_attrs h))
  end.

(** [write_type_code], attributes.rs lines 159-164. *)
Definition write_type_code (t : atype) : WM unit := write [type_code t].

(** [IntoBytes for bool], attributes.rs lines 30-36. *)
Definition bool_byte (b : bool) : byte := if b then x59 else x54.

(** Values of the [append_*] methods for single values, attributes.rs lines 183-196. *)
Inductive single := SBool (b : bool) | SI16 (z : Z) | SI32 (z : Z) | SI64 (z : Z) | SF32 (n : N) | SF64 (n : N).
Definition single_type (v : single) : atype :=
  match v with SBool _ => TBool | SI16 _ => TI16 | SI32 _ => TI32 | SI64 _ => TI64 | SF32 _ => TF32 | SF64 _ => TF64 end.
(** [IntoBytes], attributes.rs lines 30-72. *)
Definition single_bytes (v : single) : list byte :=
  match v with
  | SBool b => [bool_byte b]
  | SI16 z => i_enc 2 z | SI32 z => i_enc 4 z | SI64 z => i_enc 8 z
  | SF32 n => le_enc 4 n | SF64 n => le_enc 8 n
  end.

(** The bodies generated by [impl_single_attr_append], attributes.rs lines 89-95. *)
Definition append_single (v : single) : WM unit :=
  update_node_header ;>
  write_type_code (single_type v) ;>
  write (single_bytes v).

(** The elements of an array, by type. *)
Inductive elems := LBool (l : list bool) | LI32 (l : list Z) | LI64 (l : list Z) | LF32 (l : list N) | LF64 (l : list N).
Definition elems_type (v : elems) : atype :=
  match v with LBool _ => TArrBool | LI32 _ => TArrI32 | LI64 _ => TArrI64 | LF32 _ => TArrF32 | LF64 _ => TArrF64 end.
Definition elems_bytes (v : elems) : list (list byte) :=
  match v with
  | LBool l => map (fun b => [bool_byte b]) l
  | LI32 l => map (i_enc 4) l | LI64 l => map (i_enc 8) l
  | LF32 l => map (le_enc 4) l | LF64 l => map (le_enc 8) l
  end.

(** [array::write_array_header], attributes/array.rs lines 58-67. *)
Definition write_array_header (count : N) (enc : aenc) (bytelen : N) : WM unit :=
  write (le_enc 4 count) ;>
  write (le_enc 4 (enc_to_u32 enc)) ;>
  write (le_enc 4 bytelen).

(** [initialize_array], attributes.rs lines 205-225. *)
Definition initialize_array (t : atype) (enc : aenc) : WM N :=
  update_node_header ;>
  write_type_code t ;>
  let! header_pos := tell in
  write_array_header 0 enc 0 ;>
  wret header_pos.

(** [finalize_array], attributes.rs lines 230-238. *)
Definition finalize_array (header_pos count : N) (enc : aenc) (bytelen : N) : WM unit :=
  let! end_pos := tell in
  seek header_pos ;>
  write_array_header count enc bytelen ;>
  seek end_pos.

(** [write_elements_result_iter], array.rs lines 39-55: the number of elements, if the
    iterator did not fail and it fits a [u32]. *)
Definition count_elements (count : N) : WM N :=
  if (count <? pow2_32)%N then wret count else wthrow (TooManyArrayAttributeElements (count + 1)%N).
(** To the sink itself. *)
Definition write_elements (l : list (list byte)) (fails : bool) : WM N :=
  write_each l ;>
  if fails then wthrow UserDefined else count_elements (lenN l).

(** Through a zlib encoder, array.rs lines 85-92.  [z_feed l] are the pieces the encoder writes to
    the sink while it is created and fed [l], [z_fin l] those it writes when it is finished
    then. *)
Definition write_zlib (l : list (list byte)) (fails : bool) : WM N :=
  write_each (z_feed l) ;>
  if fails then wthrow UserDefined
  else
    let! count := count_elements (lenN l) in
    write_each_as Compression (z_fin l) ;>
    wret count.

(** [write_array_attr_result_iter], array.rs lines 70-110.  The iterator yields the elements
    [v] and then ends, or ([fails]) yields an error. *)
Definition append_array (enc : option aenc) (v : elems) (fails : bool) : WM unit :=
  let encoding := match enc with Some e => e | None => EncDirect end in
  let! header_pos := initialize_array (elems_type v) encoding in
  let! start_pos := tell in
  let! count := match encoding with
                | EncDirect => write_elements (elems_bytes v) fails
                | EncZlib => write_zlib (elems_bytes v) fails
                end in
  let! end_pos := tell in
  let! bytelen := sub_u64 end_pos start_pos in
  if (bytelen <? pow2_32)%N then finalize_array header_pos count encoding bytelen
  else wthrow (AttributeTooLong bytelen).

(** [initialize_special], attributes.rs lines 273-284. *)
Definition initialize_special (t : atype) : WM N :=
  update_node_header ;>
  write_type_code t ;>
  let! header_pos := tell in
  write (le_enc 4 0) ;>
  wret header_pos.

(** [finalize_special], attributes.rs lines 289-300. *)
Definition finalize_special (header_pos bytelen : N) : WM unit :=
  if (bytelen <? pow2_32)%N then
    let! end_pos := tell in
    seek header_pos ;>
    write (le_enc 4 bytelen) ;>
    seek end_pos
  else wthrow (AttributeTooLong bytelen).

(** [append_binary_direct] and [append_string_direct], attributes.rs lines 303-322. *)
Definition append_direct (t : atype) (bs : list byte) : WM unit :=
  let! header_pos := initialize_special t in
  write bs ;>
  finalize_special header_pos (lenN bs).

(** The successive results of [read] on the reader given to [append_binary_from_reader]; an
    empty read or the end of the list is the end of the stream. *)
Inductive rdres := RData (bs : list byte) | RIntr | RFail (code : N).

(** [io::copy(&mut reader, sink)]: reads and writes alternately, retries interrupted reads,
    and returns the number of bytes copied. *)
Fixpoint io_copy (l : list rdres) (n : N) : WM N :=
  match l with
  | [] => wret n
  | RIntr :: l' => io_copy l' n
  | RFail c :: _ => wthrow (WIo (IoOther c))
  | RData [] :: _ => wret n
  | RData bs :: l' => write bs ;> io_copy l' (n + lenN bs)%N
  end.

(** [append_binary_from_reader], attributes.rs lines 325-334. *)
Definition append_binary_reader (l : list rdres) : WM unit :=
  let! header_pos := initialize_special TBinary in
  let! len := io_copy l 0 in
  finalize_special header_pos len.

(** The same on a target whose [usize] has [usize] values: [written_len as usize], line 331,
    drops the high bits.  [append_binary_reader] is this on a 64-bit target, where a [u64] count
    fits; see [C71_writer]. *)
Definition append_binary_reader_on {usize : Target} (l : list rdres) : WM unit :=
  let! header_pos := initialize_special TBinary in
  let! len := io_copy l 0 in
  finalize_special header_pos (to_usize len).

(** [append_binary_from_iter] and [append_binary_from_result_iter], attributes.rs lines
    337-379. *)
Definition append_binary_iter (l : list byte) (fails : bool) : WM unit :=
  let! header_pos := initialize_special TBinary in
  write_each (map (fun b => [b]) l) ;>
  if fails then wthrow UserDefined else finalize_special header_pos (lenN l).

(** The loop of [append_string_from_iter]: [encode_utf8] overwrites the beginning of the
    4-byte buffer, and the whole buffer is written; lines 385-395 and 414-425. *)
Fixpoint write_chars (buf : list byte) (cs : list N) (len : N) : WM N :=
  match cs with
  | [] => wret len
  | c :: cs' =>
      let e := encode_char c in
      let buf' := e ++ skipn (length e) buf in
      write buf' ;> write_chars buf' cs' (len + lenN e)%N
  end.

(** [append_string_from_iter] and [append_string_from_result_iter], attributes.rs lines
    382-429. *)
Definition append_string_iter (cs : list N) (fails : bool) : WM unit :=
  let! header_pos := initialize_special TString in
  let! len := write_chars (zeros 4) cs 0 in
  if fails then wthrow UserDefined else finalize_special header_pos len.

(** ** Clients *)

(** The calls on an [AttributesWriter]. *)
Inductive acall :=
| ASingle (v : single)
| AArray (enc : option aenc) (v : elems) (fails : bool)
| ADirect (is_string : bool) (bs : list byte)
| ABinReader (l : list rdres)
| ABinIter (l : list byte) (fails : bool)
| AStrIter (cs : list N) (fails : bool).

Definition run_acall (c : acall) : WM unit :=
  match c with
  | ASingle v => append_single v
  | AArray enc v fails => append_array enc v fails
  | ADirect b bs => append_direct (if b then TString else TBinary) bs
  | ABinReader l => append_binary_reader l
  | ABinIter l fails => append_binary_iter l fails
  | AStrIter cs fails => append_string_iter cs fails
  end.

(** The calls on a [Writer].  The [AttributesWriter] returned by [new_node] borrows the writer,
    so attribute calls can only directly follow a successful [new_node]; a client may go on
    after a failed one. *)
Inductive wcall := CNode (name : list byte) (attrs : list acall) | CClose.

Fixpoint run_acalls (l : list acall) (s : wstate) : list (res werr unit) * wstate :=
  match l with
  | [] => ([], s)
  | c :: l' =>
      match run_acall c s with
      | (Panic, s') => ([Panic], s')
      | (r, s') => let '(rs, s'') := run_acalls l' s' in (r :: rs, s'')
      end
  end.

Definition run_wcall (c : wcall) (s : wstate) : list (res werr unit) * wstate :=
  match c with
  | CClose => let '(r, s') := close_node s in ([r], s')
  | CNode name attrs =>
      match new_node name s with
      | (Ok tt, s') => let '(rs, s'') := run_acalls attrs s' in (Ok tt :: rs, s'')
      | (r, s') => ([r], s')
      end
  end.

(** A history of calls; it ends at a panic. *)
Fixpoint run_wcalls (l : list wcall) (s : wstate) : list (res werr unit) * wstate :=
  match l with
  | [] => ([], s)
  | c :: l' =>
      let '(rs, s') := run_wcall c s in
      if existsb is_panic rs then (rs, s')
      else let '(rs', s'') := run_wcalls l' s' in (rs ++ rs', s'')
  end.

End WithEnv.
