(** The pull parser: /repo/src/pull_parser/v7400/ and the readers of
    /repo/src/low/v7400/ that run on it. *)
Require Import Coq.Lists.List Coq.NArith.NArith Coq.ZArith.ZArith Coq.Bool.Bool.
Require Import Coq.Init.Byte.
Require Import Verif.Base Verif.Utf8 Verif.Types Verif.Io.
Import ListNotations.

(** ** Environment: what the crate does not define itself *)

(** A program over an [io::Read], the way [libflate]'s decoder reads its input: [read_exact] of
    some bytes, or [take(n).read_to_end] (stored blocks).  Simplification: no bare [read]. *)
Inductive zprog (A : Type) :=
| ZRet (a : A)
| ZExact (n : nat) (k : ioerr + list byte -> zprog A)
| ZTake (n : N) (k : option ioerr * list byte -> zprog A).
Arguments ZRet {A}. Arguments ZExact {A}. Arguments ZTake {A}.

(** The zlib implementation (crate [libflate]) and the build profile.

    - [zst]: the state of a decoder.
    - [z_open]: [zlib::Decoder::new], or its error.
    - [z_read st n]: [read_exact] of [n] decompressed bytes on a decoder in state [st].
    - [z_feed l]: the pieces an encoder ([zlib::Encoder]) hands to its sink, each with a
      [write_all], from its creation until it has been fed the strings [l], one after the other.
    - [z_fin l]: the pieces it hands to its sink if it is finished then.
    - [ovf_checks]: whether the crate is built with arithmetic overflow checks. *)
Class Env := {
  zst : Type;
  z_open : zprog (ioerr + zst);
  z_read : zst -> nat -> zprog ((ioerr + list byte) * zst);
  z_feed : list (list byte) -> list (list byte);
  z_fin : list (list byte) -> list (list byte);
  ovf_checks : bool
}.

(** The compressed form of [l]: all an encoder emits. *)
Definition z_enc {env : Env} (l : list (list byte)) : list byte := concat (z_feed l) ++ concat (z_fin l).

(** ** Parser state *)

(** [EventKind], /repo/src/pull_parser/v7400/parser.rs lines 627-634. *)
Inductive ekind := KStart | KEnd | KEndFbx.

Definition ekind_eqb (a b : ekind) : bool :=
  match a, b with
  | KStart, KStart | KEnd, KEnd | KEndFbx, KEndFbx => true
  | _, _ => false
  end.

(** [StartedNode], parser.rs lines 638-655. *)
Record started := mkStarted {
  sn_start : N;
  sn_end : N;
  sn_attrs : N;
  sn_attrs_end : N;
  sn_name : list byte;
  sn_kids : N
}.

(** [Health], parser.rs lines 558-565. *)
Inductive health := Running | Finished | Aborted (p : synpos).

(** A warning handler (parser.rs line 20) is a closure with state: it is modelled as a
    function of the whole history of warnings, latest first.  [None] is [Ok(())]. *)
Definition handler := list (warning * synpos) -> option perr.

(** [Attributes], /repo/src/pull_parser/v7400/attribute.rs lines 24-36. *)
Record attrs := mkAttrs { a_total : N; a_rest : N; a_next : N }.

(** [Parser] and [State], parser.rs lines 23-30 and 572-587.  The stack is innermost first.
    [p_log] records every warning raised (latest first), delivered or not.
    [p_attrs] is the [Attributes] object currently borrowing the parser, if any. *)
Record pstate := mkP {
  p_ver : N;
  p_health : health;
  p_stack : list started;
  p_last : option ekind;
  p_top : N;
  p_rd : reader;
  p_handler : option handler;
  p_log : list (warning * synpos);
  p_attrs : option attrs
}.

Definition set_health h s := mkP (p_ver s) h (p_stack s) (p_last s) (p_top s) (p_rd s) (p_handler s) (p_log s) (p_attrs s).
Definition set_stack k s := mkP (p_ver s) (p_health s) k (p_last s) (p_top s) (p_rd s) (p_handler s) (p_log s) (p_attrs s).
Definition set_last l s := mkP (p_ver s) (p_health s) (p_stack s) l (p_top s) (p_rd s) (p_handler s) (p_log s) (p_attrs s).
Definition set_top t s := mkP (p_ver s) (p_health s) (p_stack s) (p_last s) t (p_rd s) (p_handler s) (p_log s) (p_attrs s).
Definition set_rd r s := mkP (p_ver s) (p_health s) (p_stack s) (p_last s) (p_top s) r (p_handler s) (p_log s) (p_attrs s).
Definition set_log l s := mkP (p_ver s) (p_health s) (p_stack s) (p_last s) (p_top s) (p_rd s) (p_handler s) l (p_attrs s).
Definition set_attrs a s := mkP (p_ver s) (p_health s) (p_stack s) (p_last s) (p_top s) (p_rd s) (p_handler s) (p_log s) a.
Definition set_handler h s := mkP (p_ver s) (p_health s) (p_stack s) (p_last s) (p_top s) (p_rd s) h (p_log s) (p_attrs s).

(** ** The monad: state, errors, panics *)

Definition M (A : Type) := pstate -> res perr A * pstate.

Definition ret {A} (a : A) : M A := fun s => (Ok a, s).
Definition bind {A B} (m : M A) (f : A -> M B) : M B := fun s =>
  match m s with
  | (Ok a, s') => f a s'
  | (Err e, s') => (Err e, s')
  | (Panic, s') => (Panic, s')
  end.
Definition throw {A} (e : perr) : M A := fun s => (Err e, s).
Definition panic {A} : M A := fun s => (Panic, s).
Definition gets {A} (f : pstate -> A) : M A := fun s => (Ok (f s), s).
Definition modify (f : pstate -> pstate) : M unit := fun s => (Ok tt, f s).
(** Run [m] and hand its [Result] over as a value (a Rust [match] on a [Result]). *)
Definition try_ {A} (m : M A) : M (perr + A) := fun s =>
  match m s with
  | (Ok a, s') => (Ok (inr a), s')
  | (Err e, s') => (Ok (inl e), s')
  | (Panic, s') => (Panic, s')
  end.

Declare Scope monad_scope.
Notation "'let*' x := m 'in' k" := (bind m (fun x => k)) (at level 200, x pattern, right associativity) : monad_scope.
Notation "m ;; k" := (bind m (fun _ => k)) (at level 199, right associativity) : monad_scope.
Open Scope monad_scope.

Definition when (b : bool) (m : M unit) : M unit := if b then m else ret tt.
(** [assert!] *)
Definition assert_ (b : bool) : M unit := if b then ret tt else panic.

(** Lift a reader operation; [None] is a panic. *)
Definition rdop {A} (f : reader -> option A * reader) : M A := fun s =>
  match f (p_rd s) with
  | (Some a, r) => (Ok a, set_rd r s)
  | (None, r) => (Panic, set_rd r s)
  end.

Section OnTarget.
Context {usize : Target}.

(** [reader().read_exact(..)], as a value and with [?]. *)
Definition try_read (n : nat) : M (ioerr + list byte) := rdop (rd_exact n).
Definition read_exact (n : nat) : M (list byte) :=
  let* r := try_read n in
  match r with
  | inl e => throw (err_from (EIo e))
  | inr bs => ret bs
  end.

(** [reader().position()], reader.rs line 114. *)
Definition reader_pos : M N := gets (fun s => r_pos (p_rd s)).

(** [reader().skip_to(pos)?] *)
Definition m_skip_to (pos : N) : M unit :=
  let* r := rdop (skip_to pos) in
  match r with
  | Some e => throw (err_from (EIo e))
  | None => ret tt
  end.

(** [FromReader] for integers and floats, /repo/src/pull_parser/v7400/read.rs lines 13-43. *)
Definition parse_u8 : M byte := let* l := read_exact 1 in ret (hd x00 l).
Definition parse_uint (k : nat) : M N := let* l := read_exact k in ret (le_dec l).
Definition parse_sint (k : nat) : M Z := let* l := read_exact k in ret (i_dec k l).

Section WithEnv.
Context {env : Env}.

(** ** Parser *)

(** [State::current_node], parser.rs lines 613-615. *)
Definition current_node (s : pstate) : option started := hd_error (p_stack s).

(** [Parser::current_depth], parser.rs lines 156-158. *)
Definition depth (s : pstate) : N := lenN (p_stack s).

(** [Parser::current_node_name], parser.rs lines 133-139. *)
Definition current_node_name : M (list byte) :=
  let* n := gets current_node in
  match n with Some n => ret (sn_name n) | None => panic end.

(** [Parser::is_used], parser.rs lines 538-540. *)
Definition is_used (s : pstate) : bool := match p_last s with Some _ => true | None => false end.

(** Indices of [node_path], parser.rs lines 482-500: the outermost node gets the top-level
    index, every other node the (saturating) last child index of its parent.  The stack is
    given outermost first. *)
Fixpoint path_from (idx : N) (outer_first : list started) : list (N * list byte) :=
  match outer_first with
  | [] => []
  | n :: t => (idx, sn_name n) :: path_from (sn_kids n - 1) t
  end.

(** [Parser::position], parser.rs lines 470-508.  [None] is the panic of the [expect]. *)
Definition position_of (s : pstate) : option synpos :=
  match p_stack s with
  | [] => Some (mkPos (r_pos (p_rd s)) 0 [] None)
  | n :: _ =>
      if (p_top s =? 0)%N then None
      else Some (mkPos (r_pos (p_rd s)) (sn_start n) (path_from (p_top s - 1) (rev (p_stack s))) None)
  end.

Definition position : M synpos := fun s =>
  match position_of s with Some p => (Ok p, s) | None => (Panic, s) end.

(** [Parser::ensure_continuable], parser.rs lines 161-170. *)
Definition ensure_continuable : M unit := fun s =>
  match p_health s with
  | Running => (Ok tt, s)
  | Finished => (Err (err_from (EOperation AlreadyFinished)), s)
  | Aborted p => (Err (err_with_position (EOperation AlreadyAborted) p), s)
  end.

(** [Parser::warn], parser.rs lines 179-187. *)
Definition warn (w : warning) (p : synpos) : M unit := fun s =>
  let log := (w, p) :: p_log s in
  let s' := set_log log s in
  match p_handler s with
  | None => (Ok tt, s')
  | Some h => match h log with
              | None => (Ok tt, s')
              | Some e => (Err (and_position e p), s')
              end
  end.

(** [Parser::skip_unread_attributes], parser.rs lines 382-393. *)
Definition skip_unread_attributes : M unit :=
  let* cur := gets current_node in
  match cur with
  | None => ret tt
  | Some n =>
      let* pos := reader_pos in
      when (pos <? sn_attrs_end n)%N (m_skip_to (sn_attrs_end n))
  end.

(** [NodeHeader], /repo/src/low/v7400/node_header.rs lines 12-21. *)
Record node_header := mkNH { nh_end : N; nh_attrs : N; nh_alen : N; nh_nlen : byte }.

(** [NodeHeader::is_node_end], node_header.rs lines 27-32. *)
Definition is_node_end (h : node_header) : bool :=
  ((nh_end h =? 0) && (nh_attrs h =? 0) && (nh_alen h =? 0) && (bN (nh_nlen h) =? 0))%N.

(** Width of the offset fields of a node header for a version. *)
Definition hdr_width (ver : N) : nat := if (ver <? 7500)%N then 4%nat else 8%nat.

(** [NodeHeader::read_from_parser], node_header.rs lines 50-74. *)
Definition read_node_header : M node_header :=
  let* ver := gets p_ver in
  let* eo := parse_uint (hdr_width ver) in
  let* na := parse_uint (hdr_width ver) in
  let* ba := parse_uint (hdr_width ver) in
  let* nl := parse_u8 in
  ret (mkNH eo na ba nl).

(** [a + b] on [u64]: panics on overflow with overflow checks, wraps otherwise. *)
Definition add_u64 (a b : N) : M N :=
  if (a + b <? pow2_64)%N then ret (a + b)%N
  else if ovf_checks then panic else ret ((a + b) mod pow2_64)%N.

(** Counting a started child, parser.rs lines 371-374. *)
Definition count_child (s : pstate) : pstate :=
  match p_stack s with
  | [] => set_top (p_top s + 1)%N s
  | n :: t =>
      set_stack (mkStarted (sn_start n) (sn_end n) (sn_attrs n) (sn_attrs_end n) (sn_name n)
                           (sn_kids n + 1)%N :: t) s
  end.

(** Popping the innermost node, parser.rs lines 304 and 317. *)
Definition pop (s : pstate) : pstate := set_stack (tl (p_stack s)) s.
Definition push (n : started) (s : pstate) : pstate := set_stack (n :: p_stack s) s.

(** Reading a node after its (non-zero) header, parser.rs lines 337-376. *)
Definition start_node (start : N) (h : node_header) : M ekind :=
  when (bN (nh_nlen h) =? 0)%N (
    let* pos := position in
    let* bp := reader_pos in
    let* idx := gets (fun s => match p_stack s with [] => p_top s | n :: _ => sn_kids n end) in
    warn EmptyNodeName
         (mkPos bp start (node_path pos ++ [(idx, [])]) (attribute_index pos))) ;;
  let* name := read_exact (N.to_nat (bN (nh_nlen h))) in
  if utf8_valid name then
    let* cur := reader_pos in
    let* aend := add_u64 cur (nh_alen h) in
    modify count_child ;;
    modify (push (mkStarted start (nh_end h) (nh_attrs h) aend name 0)) ;;
    ret KStart
  else throw (err_from (EData (InvalidNodeNameEncoding name))).

(** [Parser::next_event_impl], parser.rs lines 266-377. *)
Definition next_event_impl : M ekind :=
  let* hl := gets p_health in
  assert_ (match hl with Running => true | _ => false end) ;;
  let* l := gets p_last in
  assert_ (match l with Some KEndFbx => false | _ => true end) ;;
  skip_unread_attributes ;;
  let* start := reader_pos in
  let* cur := gets current_node in
  let after_header :=
    let* h := read_node_header in
    let* hend := reader_pos in
    if is_node_end h then
      let* top := gets current_node in
      modify pop ;;
      match top with
      | Some c =>
          if negb (sn_end c =? hend)%N
          then throw (err_from (EData (NodeLengthMismatch (sn_end c) (Some hend))))
          else
            when (negb (sn_attrs c =? 0)%N && (sn_kids c =? 0)%N)
                 (let* p := position in warn ExtraNodeEndMarker p) ;;
            ret KEnd
      | None => ret KEndFbx
      end
    else start_node start h in
  match cur with
  | Some n =>
      if (sn_end n <? start)%N
      then throw (err_from (EData (NodeLengthMismatch (sn_end n) None)))
      else if (sn_end n =? start)%N
      then
        let* last := gets p_last in
        when (match last with Some KEnd => true | _ => false end || (sn_attrs n =? 0)%N)
             (let* p := position in warn MissingNodeEndMarker p) ;;
        modify pop ;;
        ret KEnd
      else after_header
  | None => after_header
  end.

(** Expected high nibbles of the first footer field,
    /repo/src/low/v7400/fbx_footer.rs lines 62-65. *)
Definition unknown1_expected : list N :=
  [240; 176; 160; 0; 208; 192; 208; 96; 176; 112; 240; 128; 16; 240; 32; 112]%N.

(** The last footer field, fbx_footer.rs lines 154-157. *)
Definition unknown3_expected : list byte :=
  map Nb [248; 90; 140; 106; 222; 245; 217; 126; 236; 233; 12; 227; 117; 143; 41; 11]%N.

(** Some byte has a high nibble other than the expected one, fbx_footer.rs lines 69-70. *)
Fixpoint nibbles_differ (l : list byte) (e : list N) : bool :=
  match l, e with
  | b :: l', x :: e' => negb (N.land (bN b) 240 =? x)%N || nibbles_differ l' e'
  | _, _ => false
  end.

(** [iter().position(|&v| v != 0)], fbx_footer.rs lines 109-112. *)
Fixpoint first_nonzero (l : list byte) : option nat :=
  match l with
  | [] => None
  | b :: t => if (bN b =? 0)%N then option_map S (first_nonzero t) else Some O
  end.

Definition all_zero (l : list byte) : bool := forallb (fun b => (bN b =? 0)%N) l.

(** [&l[a..b]] *)
Definition slice {A} (a b : nat) (l : list A) : list A := firstn (b - a) (skipn a l).

(** [(pos.wrapping_neg() & 0x0f)], fbx_footer.rs line 91. *)
Definition pad16 (pos : N) : N := N.land ((pow2_64 - pos) mod pow2_64) 15.

Definition broken {A} : M A := throw (err_from (EData BrokenFbxFooter)).

(** [FbxFooter::read_from_parser], fbx_footer.rs lines 53-194. *)
Definition read_footer : M footer :=
  let* start := reader_pos in
  let* u1 := read_exact 16 in
  let* after1 := reader_pos in
  when (nibbles_differ u1 unknown1_expected)
       (warn UnexpectedFooterFieldValue (mkPos (after1 - 16) start [] None)) ;;
  let* buf_start := reader_pos in
  let expected := pad16 buf_start in
  let* buf := read_exact 144 in
  match first_nonzero (skipn 128 buf) with
  | None => broken
  | Some k =>
      let u3pos := (128 + k)%nat in
      let pad := N.to_nat (N.land (N.of_nat u3pos) 15) in
      assert_ (Nat.ltb pad 16) ;;
      assert_ (Nat.eqb u3pos (pad + 128)) ;;
      let padding := slice 0 pad buf in
      let u2 := slice pad (pad + 4) buf in
      let version := le_dec (slice (pad + 4) (pad + 8) buf) in
      let zeroes := slice (pad + 8) (pad + 128) buf in
      let u3part := skipn (pad + 128) buf in
      if negb (all_zero padding) then broken
      else if negb (bytes_eqb u2 (zeros 4)) then broken
      else
        let* ver := gets p_ver in
        if negb (version =? ver)%N then broken
        else if negb (all_zero zeroes) then broken
        else
          let* rest := read_exact (16 - length u3part) in
          let u3 := u3part ++ rest in
          if negb (bytes_eqb u3 unknown3_expected) then broken
          else
            when (negb (N.of_nat pad =? expected)%N)
                 (warn (InvalidFooterPaddingLength expected (N.of_nat pad))
                       (mkPos buf_start start [] None)) ;;
            ret (mkFooter u1 (N.of_nat pad) u2 version u3)
  end.

(** [Event], /repo/src/pull_parser/v7400/event.rs lines 15-25.  [StartNode] is represented
    by the name of the node ([StartNode::name]); [EndFbx] carries the footer or its error. *)
Inductive event := EvStart (name : list byte) | EvEnd | EvEndFbx (f : perr + footer).

(** [usize::wrapping_sub] *)
Definition wrapping_sub (a b : N) : N := ((a + (pow2_64 - b mod pow2_64)) mod pow2_64)%N.

(** [Parser::next_event], parser.rs lines 195-262. *)
Definition next_event : M event :=
  let* prev := gets depth in
  ensure_continuable ;;
  let* r := try_ next_event_impl in
  match r with
  | inl e =>
      let* p := position in
      modify (set_health (Aborted p)) ;;
      throw (and_position e p)
  | inr k =>
      when (ekind_eqb k KEndFbx) (modify (set_health Finished)) ;;
      modify (set_last (Some k)) ;;
      let* cur := gets depth in
      assert_ (match k with
               | KStart => (wrapping_sub cur prev =? 1)%N
               | KEnd => (wrapping_sub prev cur =? 1)%N
               | KEndFbx => (prev =? 0)%N && (cur =? 0)%N
               end) ;;
      let* last := gets p_last in
      assert_ (match last with Some k' => ekind_eqb k k' | None => false end) ;;
      match k with
      | KStart =>
          (* [StartNode::name]: the name of the current node, parser.rs lines 133-139. *)
          let* n := gets current_node in
          match n with
          | Some n => ret (EvStart (sn_name n))
          | None => panic
          end
      | KEnd => ret EvEnd
      | KEndFbx => let* f := try_ read_footer in ret (EvEndFbx f)
      end
  end.

(** [Parser::skip_current_node], parser.rs lines 454-465. *)
Definition skip_current_node : M unit :=
  let* n := gets current_node in
  match n with
  | None => panic
  | Some n =>
      modify pop ;;
      modify (set_last (Some KEnd)) ;;
      m_skip_to (sn_end n)
  end.

(** ** Attributes *)

(** *** Loaders: user code *)

(** A loader for an array attribute: a program over the iterator it receives
    ([load_seq_*], /repo/src/pull_parser/v7400/attribute/loader.rs lines 59-101).
    [SNext] calls [next]; [SCollect] is [collect::<Result<Vec<_>>>()]. *)
Inductive seqprog (A O : Type) :=
| SRet (r : perr + O)
| SNext (k : option (perr + A) -> seqprog A O)
| SCollect (k : perr + list A -> seqprog A O).
Arguments SRet {A O}. Arguments SNext {A O}. Arguments SCollect {A O}.

(** A loader for binary or string data: a program over the reader it receives
    ([load_binary], [load_string] and their buffered variants, loader.rs lines 106-131).
    [RRead n] is one [read] with a buffer of [n] bytes, [RExact n] is [read_exact],
    [RToEnd] is [read_to_end], [RBuf amt] is [fill_buf] followed by [consume(amt)]. *)
Inductive rdprog (O : Type) :=
| RRet (r : perr + O)
| RRead (n : nat) (k : ioerr + list byte -> rdprog O)
| RExact (n : nat) (k : ioerr + list byte -> rdprog O)
| RToEnd (k : option ioerr * list byte -> rdprog O)
| RBuf (amt : ioerr + list byte -> nat) (k : ioerr + list byte -> rdprog O).
Arguments RRet {O}. Arguments RRead {O}. Arguments RExact {O}. Arguments RToEnd {O}. Arguments RBuf {O}.

(** A loader ([LoadAttribute], loader.rs lines 21-132). *)
Record loader (O : Type) := mkLoader {
  ld_bool : bool -> perr + O;
  ld_i16 : Z -> perr + O;
  ld_i32 : Z -> perr + O;
  ld_i64 : Z -> perr + O;
  ld_f32 : N -> perr + O;
  ld_f64 : N -> perr + O;
  ld_abool : N -> seqprog bool O;
  ld_ai32 : N -> seqprog Z O;
  ld_ai64 : N -> seqprog Z O;
  ld_af32 : N -> seqprog N O;
  ld_af64 : N -> seqprog N O;
  ld_bin : N -> rdprog O;
  ld_str : N -> rdprog O;
  ld_bin_buf : N -> rdprog O;
  ld_str_buf : N -> rdprog O
}.
Arguments mkLoader {O}.
Arguments ld_bool {O}. Arguments ld_i16 {O}. Arguments ld_i32 {O}. Arguments ld_i64 {O}.
Arguments ld_f32 {O}. Arguments ld_f64 {O}. Arguments ld_abool {O}. Arguments ld_ai32 {O}.
Arguments ld_ai64 {O}. Arguments ld_af32 {O}. Arguments ld_af64 {O}. Arguments ld_bin {O}.
Arguments ld_str {O}. Arguments ld_bin_buf {O}. Arguments ld_str_buf {O}.

(** A user function returning [Result]. *)
Definition lift {A} (r : perr + A) : M A :=
  match r with inl e => throw e | inr a => ret a end.

(** *** Array iterators, /repo/src/pull_parser/v7400/attribute/array.rs *)

(** Running a decoder's program on the parser's reader. *)
Fixpoint run_z {A} (p : zprog A) : M A :=
  match p with
  | ZRet a => ret a
  | ZExact n k => let* r := try_read n in run_z (k r)
  | ZTake n k => let* r := rdop (rd_to_end n) in run_z (k r)
  end.

(** [AttributeStreamDecoder], array.rs lines 15-20. *)
Inductive decoder := DDirect | DZlib (st : zst).

(** [AttributeStreamDecoder::create], array.rs lines 24-32. *)
Definition mk_decoder (e : aenc) : M decoder :=
  match e with
  | EncDirect => ret DDirect
  | EncZlib =>
      let* o := run_z z_open in
      match o with
      | inl e => throw (err_from (EData (BrokenCompression e)))
      | inr st => ret (DZlib st)
      end
  end.

(** [read_exact] on the decoder, array.rs lines 35-42. *)
Definition dec_read (d : decoder) (n : nat) : M (decoder * (ioerr + list byte)) :=
  match d with
  | DDirect => let* r := try_read n in ret (DDirect, r)
  | DZlib st =>
      let* x := run_z (z_read st n) in
      let '(r, st') := x in
      ret (DZlib st', match r with inl e => inl e
                      | inr bs => if Nat.eqb (length bs) n then inr bs else inl IoZlib end)
  end.

(** [ArrayAttributeValues] and [BooleanArrayAttributeValues], array.rs lines 46-58, 129-141
    ([it_bad] is [has_incorrect_boolean_value]). *)
Record iterst := mkIter { it_dec : decoder; it_rest : N; it_err : bool; it_bad : bool }.

(** An element type: size, [from_le_bytes], and whether a raw value is incorrect
    (booleans only). *)
Record elem (A : Type) := mkElem {
  el_size : nat; el_dec : list byte -> A; el_bad : list byte -> bool }.
Arguments mkElem {A}. Arguments el_size {A}. Arguments el_dec {A}. Arguments el_bad {A}.

(** [raw & 1 != 0] and [raw != b'T' && raw != b'Y'], array.rs lines 187-190. *)
Definition bool_of_raw (b : byte) : bool := N.odd (bN b).
Definition bool_raw_bad (b : byte) : bool := negb (bN b =? 84)%N && negb (bN b =? 89)%N.

Definition el_bool : elem bool :=
  mkElem 1 (fun l => bool_of_raw (hd x00 l)) (fun l => bool_raw_bad (hd x00 l)).
Definition el_i32 : elem Z := mkElem 4 (i_dec 4) (fun _ => false).
Definition el_i64 : elem Z := mkElem 8 (i_dec 8) (fun _ => false).
Definition el_f32 : elem N := mkElem 4 le_dec (fun _ => false).
Definition el_f64 : elem N := mkElem 8 le_dec (fun _ => false).

(** [Iterator::next], array.rs lines 91-110 and 176-198.  The result of the [read_exact] is
    a value: an error sets [has_error] and is yielded, without counting the element. *)
Definition it_next {A} (el : elem A) (it : iterst) : M (iterst * option (perr + A)) :=
  if (it_rest it =? 0)%N then ret (it, None)
  else
    let* dr := dec_read (it_dec it) (el_size el) in
    let '(d, r) := dr in
    match r with
    | inr bs => ret (mkIter d (it_rest it - 1)%N (it_err it) (it_bad it || el_bad el bs),
                     Some (inr (el_dec el bs)))
    | inl e => ret (mkIter d (it_rest it) true (it_bad it), Some (inl (err_from (EIo e))))
    end.

(** [Iterator::size_hint], array.rs lines 112-115 and 200-203. *)
Definition it_size_hint (it : iterst) : N * option N := (0%N, Some (it_rest it)).

(** Loop [p] times or until [f] returns [inr]. *)
Fixpoint mloop {S R} (p : positive) (f : S -> M (S + R)) (x : S) : M (S + R) :=
  let cont q r := match r with inl x' => mloop q f x' | inr v => ret (inr v) end in
  match p with
  | xH => f x
  | xO q => let* r := mloop q f x in cont q r
  | xI q =>
      let* r := f x in
      match r with
      | inl x' => let* r' := mloop q f x' in cont q r'
      | inr v => ret (inr v)
      end
  end.

(** [iter.collect::<Result<Vec<_>>>()]: pulls until [None] or an error.  Every iteration
    that does not stop yields an element, so [rest + 1] iterations are enough; running out of
    them is a [Panic] (proved unreachable). *)
Definition collect_step {A} (el : elem A) (x : iterst * list A)
  : M ((iterst * list A) + (iterst * (perr + list A))) :=
  let '(it, acc) := x in
  let* nx := it_next el it in
  let '(it', o) := nx in
  match o with
  | None => ret (inr (it', inr (rev acc)))
  | Some (inl e) => ret (inr (it', inl e))
  | Some (inr v) => ret (inl (it', v :: acc))
  end.

Definition it_collect {A} (el : elem A) (it : iterst) : M (iterst * (perr + list A)) :=
  let* r := mloop (N.succ_pos (it_rest it)) (collect_step el) (it, []) in
  match r with
  | inr x => ret x
  | inl _ => panic
  end.

(** Running a user loader over an array iterator. *)
Fixpoint run_seq {A O} (el : elem A) (p : seqprog A O) (it : iterst) : M (iterst * (perr + O)) :=
  match p with
  | SRet r => ret (it, r)
  | SNext k => let* x := it_next el it in let '(it', o) := x in run_seq el (k o) it'
  | SCollect k => let* x := it_collect el it in let '(it', o) := x in run_seq el (k o) it'
  end.

(** Running a user loader over the limited reader [take(reader, limit)]. *)
Fixpoint run_rd {O} (p : rdprog O) (limit : N) : M (perr + O) :=
  match p with
  | RRet r => ret r
  | RRead n k =>
      let* r := rdop (rd_once (N.to_nat (N.min limit (N.of_nat n)))) in
      run_rd (k r) (limit - match r with inr bs => lenN bs | inl _ => 0 end)%N
  | RExact n k =>
      if (N.of_nat n <=? limit)%N then
        let* p0 := reader_pos in
        let* r := rdop (rd_exact n) in
        let* p1 := reader_pos in
        run_rd (k r) (limit - (p1 - p0))%N
      else
        (* reads what the limit allows, then hits the end of the limited reader *)
        let* p0 := reader_pos in
        let* r := rdop (rd_to_end limit) in
        let* p1 := reader_pos in
        run_rd (k (inl (match fst r with Some e => e | None => IoEof end))) (limit - (p1 - p0))%N
  | RToEnd k =>
      let* p0 := reader_pos in
      let* r := rdop (rd_to_end limit) in
      let* p1 := reader_pos in
      run_rd (k r) (limit - (p1 - p0))%N
  | RBuf amt k =>
      let* r := rdop (fun r0 =>
        let '(x, r1) := rd_peek (peek_len limit (s_rem (r_stream r0))) r0 in (Some x, r1)) in
      let used := N.min (N.of_nat (amt r)) (match r with inr bs => lenN bs | inl _ => 0 end)%N in
      rdop (rd_drop used) ;;
      run_rd (k r) (limit - used)%N
  end.

(** *** Attributes, /repo/src/pull_parser/v7400/attribute.rs *)

Definition get_attrs : M attrs :=
  let* a := gets p_attrs in
  match a with Some a => ret a | None => panic end.

(** [Attributes::from_parser], attribute.rs lines 41-50. *)
Definition from_parser : M unit :=
  let* n := gets current_node in
  match n with
  | None => panic
  | Some n =>
      let* pos := reader_pos in
      modify (set_attrs (Some (mkAttrs (sn_attrs n) (sn_attrs n) pos)))
  end.

(** [Attributes::update_next_attr_start_offset], attribute.rs lines 68-75. *)
Definition update_next_attr_start_offset (size : N) : M unit :=
  let* pos := reader_pos in
  let* a := get_attrs in
  if (pos + size <? pow2_64)%N
  then modify (set_attrs (Some (mkAttrs (a_total a) (a_rest a) (pos + size)%N)))
  else panic.

(** [Attributes::position], attribute.rs lines 329-335. *)
Definition attr_position (start idx : N) : M synpos :=
  let* p := position in
  ret (mkPos (byte_pos p) start (node_path p) (Some idx)).

(** [Attributes::do_with_health_check], attribute.rs lines 78-95. *)
Definition do_with_health_check {A} (f : N -> N -> M A) : M A :=
  ensure_continuable ;;
  let* a := get_attrs in
  let start := a_next a in
  let idx := (a_total a - a_rest a)%N in
  let* r := try_ (f start idx) in
  match r with
  | inr v => ret v
  | inl e =>
      let* p := attr_position start idx in
      modify (set_health (Aborted p)) ;;
      throw (and_position e p)
  end.

(** [AttributeType::from_reader], /repo/src/low/v7400/attribute/type_.rs lines 84-89. *)
Definition read_attr_type : M atype :=
  let* b := parse_u8 in
  match type_of_code b with
  | Some t => ret t
  | None => throw (err_from (EData (InvalidAttributeTypeCode b)))
  end.

(** [Attributes::read_next_attr_type], attribute.rs lines 98-116. *)
Definition read_next_attr_type : M (option atype) :=
  let* a := get_attrs in
  if (a_rest a =? 0)%N then ret None
  else
    let* pos := reader_pos in
    when (pos <? a_next a)%N (m_skip_to (a_next a)) ;;
    let* t := read_attr_type in
    modify (set_attrs (Some (mkAttrs (a_total a) (a_rest a - 1)%N (a_next a)))) ;;
    ret (Some t).

(** [ArrayAttributeHeader::from_reader], /repo/src/low/v7400/array_attribute.rs lines 60-67,
    81-91. *)
Definition read_array_header : M (N * aenc * N) :=
  let* count := parse_uint 4 in
  let* e := parse_uint 4 in
  match enc_of_u32 e with
  | None => throw (err_from (EData (InvalidArrayAttributeEncoding e)))
  | Some enc => let* len := parse_uint 4 in ret (count, enc, len)
  end.

Definition warn_bool (start idx : N) : M unit :=
  let* p := attr_position start idx in
  warn IncorrectBooleanRepresentation p.

(** The array branches of [Attributes::load_next_impl], attribute.rs lines 201-269.
    [el_bad] is always false for non-boolean elements, so the boolean branch (lines 201-221)
    covers all of them. *)
Definition load_array {A O} (el : elem A) (ld : N -> seqprog A O) (start idx : N) : M O :=
  let* h := read_array_header in
  let '(count, enc, len) := h in
  update_next_attr_start_offset len ;;
  let* d := mk_decoder enc in
  let* x := run_seq el (ld count) (mkIter d count false false) in
  let '(it, r) := x in
  let* v := lift r in
  when (it_bad it) (warn_bool start idx) ;;
  if it_err it then throw (err_from (EData NodeAttributeError)) else ret v.

(** The binary and string branches, attribute.rs lines 270-287 and 304-321;
    [SpecialAttributeHeader], /repo/src/low/v7400/special_attribute.rs lines 14-19. *)
Definition load_special {O} (ld : N -> rdprog O) : M O :=
  let* len := parse_uint 4 in
  update_next_attr_start_offset len ;;
  let* r := run_rd (ld len) len in
  lift r.

(** [Attributes::load_next_impl] and [load_next_buffered_impl] (flag [buffered]),
    attribute.rs lines 153-324. *)
Definition load_next_impl {O} (buffered : bool) (t : atype) (ld : loader O) (start idx : N) : M O :=
  match t with
  | TBool =>
      let* raw := parse_u8 in
      update_next_attr_start_offset 0 ;;
      when (bool_raw_bad raw) (warn_bool start idx) ;;
      lift (ld_bool ld (bool_of_raw raw))
  | TI16 => let* v := parse_sint 2 in update_next_attr_start_offset 0 ;; lift (ld_i16 ld v)
  | TI32 => let* v := parse_sint 4 in update_next_attr_start_offset 0 ;; lift (ld_i32 ld v)
  | TI64 => let* v := parse_sint 8 in update_next_attr_start_offset 0 ;; lift (ld_i64 ld v)
  | TF32 => let* v := parse_uint 4 in update_next_attr_start_offset 0 ;; lift (ld_f32 ld v)
  | TF64 => let* v := parse_uint 8 in update_next_attr_start_offset 0 ;; lift (ld_f64 ld v)
  | TArrBool => load_array el_bool (ld_abool ld) start idx
  | TArrI32 => load_array el_i32 (ld_ai32 ld) start idx
  | TArrI64 => load_array el_i64 (ld_ai64 ld) start idx
  | TArrF32 => load_array el_f32 (ld_af32 ld) start idx
  | TArrF64 => load_array el_f64 (ld_af64 ld) start idx
  | TBinary => load_special (if buffered then ld_bin_buf ld else ld_bin ld)
  | TString => load_special (if buffered then ld_str_buf ld else ld_str ld)
  end.

(** [Attributes::load_next] and [load_next_buffered], attribute.rs lines 119-150. *)
Definition load_next_gen {O} (buffered : bool) (ld : loader O) : M (option O) :=
  do_with_health_check (fun start idx =>
    let* t := read_next_attr_type in
    match t with
    | None => ret None
    | Some t => let* v := load_next_impl buffered t ld start idx in ret (Some v)
    end).
Definition load_next {O} (ld : loader O) : M (option O) := load_next_gen false ld.
Definition load_next_buffered {O} (ld : loader O) : M (option O) := load_next_gen true ld.

(** *** Attribute iterators, /repo/src/pull_parser/v7400/attribute/iter.rs *)

(** [Iterator::next] of [BorrowedIter]/[OwnedIter], iter.rs lines 31-41, 92-94: [None] when
    the loaders are exhausted or no attribute remains. *)
Definition iter_next {O} (ld : option (loader O)) : M (option (perr + O)) :=
  match ld with
  | None => ret None
  | Some ld =>
      let* r := try_ (load_next ld) in
      match r with
      | inl e => ret (Some (inl e))
      | inr None => ret None
      | inr (Some v) => ret (Some (inr v))
      end
  end.

(** [Iterator::next] of the buffered iterators, iter.rs lines 45-55, 145-147: the source
    calls [attributes.load_next]. *)
Definition iter_next_buffered {O} (ld : option (loader O)) : M (option (perr + O)) :=
  match ld with
  | None => ret None
  | Some ld =>
      let* r := try_ (load_next ld) in
      match r with
      | inl e => ret (Some (inl e))
      | inr None => ret None
      | inr (Some v) => ret (Some (inr v))
      end
  end.

(** [make_size_hint_for_attrs], iter.rs lines 13-27; [rest] is [attributes.rest_count() as usize]. *)
Definition size_hint (rest loaders_min : N) (loaders_max : option N) : N * N :=
  (N.min rest loaders_min,
   match loaders_max with None => usize - 1 | Some m => N.min rest m end)%N.

(** ** Creating a parser *)

(** [Parser::create], parser.rs lines 61-73, with [Reader::new]/[with_seekable]. *)
Definition parser_create (ver : N) (s : stream) (pos : N) (seekable : bool) : res perr pstate :=
  if ver_supported ver
  then Ok (mkP ver Running [] None 0 (mkReader s pos seekable) None [] None)
  else Err (err_from (EOperation (UnsupportedFbxVersion ver))).

(** [any::Error], /repo/src/pull_parser/any/error.rs lines 11-18. *)
Inductive any_error := AnyHeader (e : header_error) | AnyUnsupportedVersion (v : N).

(** [AnyParser::from_reader] and [from_seekable_reader],
    /repo/src/pull_parser/any.rs lines 27-63, 85-89. *)
Definition any_parser (s : stream) (seekable : bool) : res any_error pstate :=
  match header_load s with
  | (Ok ver, s') =>
      if ver_supported ver then
        match parser_create ver s' header_len seekable with
        | Ok p => Ok p
        | _ => Panic
        end
      else Err (AnyUnsupportedVersion ver)
  | (Err e, _) => Err (AnyHeader e)
  | (Panic, _) => Panic
  end.

(** ** Clients *)

(** One call of a client.  [ONext] is [next_event]; when it yields [StartNode] the client
    gets hold of the [Attributes] (which has no side effect).  [OLoad]/[OLoadBuf] is
    [load_next]/[load_next_buffered] on them (the borrow checker only allows it between a
    [StartNode] and the next call on the parser; elsewhere it is ignored).  [OSkip] is
    [skip_current_node]. *)
Inductive op (O : Type) := ONext | OLoad (l : loader O) | OLoadBuf (l : loader O) | OSkip.
Arguments ONext {O}. Arguments OLoad {O}. Arguments OLoadBuf {O}. Arguments OSkip {O}.

(** What a client sees from a call. *)
Inductive obs (O : Type) :=
| BEvent (e : event)
| BAttr (v : option O)
| BSkipped
| BIgnored.
Arguments BEvent {O}. Arguments BAttr {O}. Arguments BSkipped {O}. Arguments BIgnored {O}.

Definition run_op {O} (o : op O) : M (obs O) :=
  match o with
  | ONext =>
      modify (set_attrs None) ;;
      let* e := next_event in
      match e with
      | EvStart _ => from_parser ;; ret (BEvent e)
      | _ => ret (BEvent e)
      end
  | OLoad l =>
      let* a := gets p_attrs in
      match a with
      | Some _ => let* v := load_next l in ret (BAttr v)
      | None => ret BIgnored
      end
  | OLoadBuf l =>
      let* a := gets p_attrs in
      match a with
      | Some _ => let* v := load_next_buffered l in ret (BAttr v)
      | None => ret BIgnored
      end
  | OSkip =>
      modify (set_attrs None) ;;
      skip_current_node ;; ret BSkipped
  end.

(** Run a list of calls; errors do not stop the client (it may go on calling), a panic does.
    Returns the result of each call, in order, and the final state. *)
Fixpoint run_ops {O} (l : list (op O)) (s : pstate) : list (res perr (obs O)) * pstate :=
  match l with
  | [] => ([], s)
  | o :: t =>
      let '(r, s') := run_op o s in
      match r with
      | Panic => ([Panic], s')
      | _ => let '(rs, s'') := run_ops t s' in (r :: rs, s'')
      end
  end.

End WithEnv.
End OnTarget.

Arguments SRet {A O}. Arguments SNext {A O}. Arguments SCollect {A O}.
Arguments RRet {O}. Arguments RRead {O}. Arguments RExact {O}. Arguments RToEnd {O}. Arguments RBuf {O}.
Arguments mkLoader {O}.
Arguments ld_bool {O}. Arguments ld_i16 {O}. Arguments ld_i32 {O}. Arguments ld_i64 {O}.
Arguments ld_f32 {O}. Arguments ld_f64 {O}. Arguments ld_abool {O}. Arguments ld_ai32 {O}.
Arguments ld_ai64 {O}. Arguments ld_af32 {O}. Arguments ld_af64 {O}. Arguments ld_bin {O}.
Arguments ld_str {O}. Arguments ld_bin_buf {O}. Arguments ld_str_buf {O}.
Arguments mkElem {A}. Arguments el_size {A}. Arguments el_dec {A}. Arguments el_bad {A}.
Arguments ONext {O}. Arguments OLoad {O}. Arguments OLoadBuf {O}. Arguments OSkip {O}.
Arguments BEvent {O}. Arguments BAttr {O}. Arguments BSkipped {O}. Arguments BIgnored {O}.
