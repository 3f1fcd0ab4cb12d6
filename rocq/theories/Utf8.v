(** UTF-8 validity and encoding.

    Models the parts of Rust's [core::str] the crate relies on:
    [String::from_utf8] (/repo/src/pull_parser/v7400/parser.rs line 358),
    [Read::read_to_string] (/repo/src/pull_parser/v7400/attribute/loaders/direct.rs line 107)
    and [char::encode_utf8] / [char::len_utf8]
    (/repo/src/writer/v7400/binary/attributes.rs lines 382-428). *)
Require Import Coq.Lists.List Coq.NArith.NArith Coq.Bool.Bool.
Require Import Verif.Base.
Import ListNotations.
Open Scope N_scope.

Definition in_range (lo hi : N) (b : byte) : bool := (lo <=? bN b) && (bN b <=? hi).
Definition is_cont (b : byte) : bool := in_range 128 191 b.

(** Well-formed UTF-8 byte sequences (Unicode table 3-7), as checked by
    [core::str::from_utf8]. *)
Fixpoint utf8_valid (l : list byte) : bool :=
  match l with
  | [] => true
  | a :: t =>
      if bN a <? 128 then utf8_valid t
      else if in_range 194 223 a then
        match t with
        | b :: t1 => is_cont b && utf8_valid t1
        | _ => false
        end
      else if in_range 224 239 a then
        match t with
        | b :: c :: t2 =>
            (if bN a =? 224 then in_range 160 191 b
             else if bN a =? 237 then in_range 128 159 b
             else is_cont b) && is_cont c && utf8_valid t2
        | _ => false
        end
      else if in_range 240 244 a then
        match t with
        | b :: c :: d :: t3 =>
            (if bN a =? 240 then in_range 144 191 b
             else if bN a =? 244 then in_range 128 143 b
             else is_cont b) && is_cont c && is_cont d && utf8_valid t3
        | _ => false
        end
      else false
  end.

(** A Rust [char] is a Unicode scalar value. *)
Definition is_scalar (c : N) : bool :=
  (c <? 55296) || ((57344 <=? c) && (c <=? 1114111)).

(** [char::encode_utf8]. *)
Definition encode_char (c : N) : list byte :=
  if c <? 128 then [Nb c]
  else if c <? 2048 then [Nb (192 + c / 64); Nb (128 + c mod 64)]
  else if c <? 65536 then [Nb (224 + c / 4096); Nb (128 + (c / 64) mod 64); Nb (128 + c mod 64)]
  else [Nb (240 + c / 262144); Nb (128 + (c / 4096) mod 64); Nb (128 + (c / 64) mod 64);
        Nb (128 + c mod 64)].

(** [iter.collect::<String>()] on chars: the concatenated encodings. *)
Definition encode_chars (cs : list N) : list byte := concat (map encode_char cs).
