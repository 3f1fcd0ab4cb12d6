(** Concrete documents and runs used in the examples beside the theorems. *)
Require Import Coq.Lists.List Coq.NArith.NArith Coq.ZArith.ZArith Coq.Bool.Bool.
Require Import Coq.Strings.String.
Require Import Coq.Init.Byte.
Require Import Verif.Base Verif.Utf8 Verif.Types Verif.Io Verif.Parser Verif.Loaders Verif.Spec Verif.Zlib.
Import ListNotations.

#[export] Existing Instance stored_env.

Definition release : Env := stored_env false.
Definition checked : Env := stored_env true.

Definition s_a : list byte := list_byte_of_string "A".
Definition s_b : list byte := list_byte_of_string "B".
Definition s_c : list byte := list_byte_of_string "C".
Definition s_hi : list byte := list_byte_of_string "hi".

(** Two top-level nodes, nesting, an empty name, several attribute types, a compressed
    array. *)
Definition sample_nodes : list node :=
  [ Node s_a [mkAttr (VI32 (-5)) false; mkAttr (VString s_hi) false]
      [ Node s_b [] [];
        Node [] [mkAttr (VBool true) false] [] ];
    Node s_c [mkAttr (VArrI32 [1; -2; 3]%Z) true; mkAttr (VArrBool [true; false]) false;
              mkAttr (VBinary [x01; xff]) false] [] ].

Definition good_unknown1 : list byte :=
  [xf0; xb1; xa2; x03; xd4; xc5; xd6; x67; xb8; x79; xfa; x8b; x1c; xfd; x2e; x7f].

(** Padding that aligns position [pos] to 16. *)
Definition align_pad (pos : N) : nat := N.to_nat (N.modulo (16 - N.modulo pos 16) 16).

Definition sample_foot (ver : N) : foot :=
  mkFoot good_unknown1
    (align_pad (27 + nodes_size (env:=release) ver sample_nodes + header_size ver + 16)).

Definition sample_doc (ver : N) : list byte := enc_doc (env:=release) ver sample_nodes (sample_foot ver).

(** Start a parser on some bytes. *)
Definition open_bytes (data : list byte) (sched : list ioact) (seekable : bool) : res any_error pstate :=
  any_parser (mkStream data 0 sched []) seekable.

(** Run calls from the start; [None] if the parser cannot be created. *)
Definition run_from {O} (env : Env) (data : list byte) (sched : list ioact) (seekable : bool) (ops : list (op O))
  : option (list (res perr (obs O)) * pstate) :=
  match open_bytes data sched seekable with
  | Ok p => Some (run_ops (env:=env) ops p)
  | _ => None
  end.

(** A client that reads every attribute of every node of [sample_nodes]. *)
Definition ld : op aval := OLoad direct_loader.
Definition sample_ops : list (op aval) :=
  [ONext; ld; ld; ld; ONext; ONext; ONext; ld; ONext; ONext; ONext; ld; ld; ld; ONext; ONext; ONext].
