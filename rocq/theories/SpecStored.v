(** Specification: what the value, or the error, of loading an attribute says about the bytes of
    the file. Nothing here mentions the internals of the parser. *)
Require Import Coq.Lists.List Coq.NArith.NArith Coq.ZArith.ZArith.
Require Import Coq.Init.Byte.
Require Import Verif.Base Verif.Utf8 Verif.Types Verif.Io Verif.Parser Verif.Spec Verif.SpecTruth.
Import ListNotations.

(** The stored elements of an array value. A boolean is stored as one byte, its value is the
    lowest bit. *)
Definition array_items (v : aval) (raw : list (list byte)) : Prop :=
  match v with
  | VArrBool l => exists bs, raw = map (fun x => [x]) bs /\ l = map (fun x => N.odd (bN x)) bs
  | VArrI32 l => raw = map (i_enc 4) l /\ Forall (i_ok 4) l
  | VArrI64 l => raw = map (i_enc 8) l /\ Forall (i_ok 8) l
  | VArrF32 l => raw = map (le_enc 4) l /\ Forall (u_ok 4) l
  | VArrF64 l => raw = map (le_enc 8) l /\ Forall (u_ok 8) l
  | _ => False
  end.

(** The header of an array attribute: number of elements, encoding, length of what follows. *)
Definition array_head (t : atype) (count enc len : N) : list byte :=
  spec_code t :: le_enc 4 count ++ le_enc 4 enc ++ le_enc 4 len.
Definition array_head_at (data : list byte) (off : N) (t : atype) (count enc len : N) : Prop :=
  at_offset data off (array_head t count enc len) /\ u_ok 4 count /\ u_ok 4 enc /\ u_ok 4 len.

(** The attribute at offset [off] has the value [v]. Reading it ends at [fin], and it claims to
    end at [next]. Strings and binary data end with the file at the latest. Of compressed arrays
    only the header is described here. *)
Inductive stored (data : list byte) (off : N) : aval -> N -> N -> Prop :=
| St_bool : forall x, at_offset data off [spec_code TBool; x] -> stored data off (VBool (N.odd (bN x))) (off + 2) (off + 2)
| St_i16 : forall z, at_offset data off (spec_code TI16 :: i_enc 2 z) -> i_ok 2 z -> stored data off (VI16 z) (off + 3) (off + 3)
| St_i32 : forall z, at_offset data off (spec_code TI32 :: i_enc 4 z) -> i_ok 4 z -> stored data off (VI32 z) (off + 5) (off + 5)
| St_i64 : forall z, at_offset data off (spec_code TI64 :: i_enc 8 z) -> i_ok 8 z -> stored data off (VI64 z) (off + 9) (off + 9)
| St_f32 : forall n, at_offset data off (spec_code TF32 :: le_enc 4 n) -> u_ok 4 n -> stored data off (VF32 n) (off + 5) (off + 5)
| St_f64 : forall n, at_offset data off (spec_code TF64 :: le_enc 8 n) -> u_ok 8 n -> stored data off (VF64 n) (off + 9) (off + 9)
| St_binary : forall n s, at_offset data off (spec_code TBinary :: le_enc 4 n) -> u_ok 4 n -> s = takeN n (dropN (off + 5) data) ->
    stored data off (VBinary s) (off + 5 + lenN s) (off + 5 + n)
| St_string : forall n s, at_offset data off (spec_code TString :: le_enc 4 n) -> u_ok 4 n -> s = takeN n (dropN (off + 5) data) ->
    utf8_valid s = true -> stored data off (VString s) (off + 5 + lenN s) (off + 5 + n)
| St_array : forall v raw len, array_items v raw -> array_head_at data off (aval_type v) (lenN raw) 0 len ->
    at_offset data off (array_head (aval_type v) (lenN raw) 0 len ++ concat raw) ->
    stored data off v (off + 13 + lenN (concat raw)) (off + 13 + len)
| St_zip : forall v raw len fin, array_items v raw -> array_head_at data off (aval_type v) (lenN raw) 1 len -> (off + 13 <= fin)%N ->
    stored data off v fin (off + 13 + len).

(** Attributes one after the other: each begins where the previous one claims to end, or where
    reading it ended if that is later. *)
Inductive stored_seq (data : list byte) : N -> N -> list aval -> N -> N -> Prop :=
| Ss_nil : forall pos next, stored_seq data pos next [] pos next
| Ss_cons : forall pos next v fin nx vs pos' next',
    stored data (N.max pos next) v fin nx -> stored_seq data fin nx vs pos' next' ->
    stored_seq data pos next (v :: vs) pos' next'.

(** The size of the value, and of an element. *)
Definition value_size (t : atype) : N :=
  match t with TBool => 1 | TI16 => 2 | TI32 | TF32 => 4 | TI64 | TF64 => 8 | _ => 0 end.
Definition item_size (t : atype) : option N :=
  match t with TArrBool => Some 1 | TArrI32 | TArrF32 => Some 4 | TArrI64 | TArrF64 => Some 8 | _ => None end%N.
Definition is_array (t : atype) : Prop := item_size t <> None.

Definition compressed_at (data : list byte) (off : N) : Prop :=
  exists t count len, is_array t /\ array_head_at data off t count 1 len.

(** The file ends within the attribute at this offset. *)
Definition cut_attribute (data : list byte) (off : N) : Prop :=
  (lenN data <= off)%N \/
  exists t, at_offset data off [spec_code t] /\
    match item_size t with
    | Some k => (lenN data < off + 13)%N \/
                exists count len, array_head_at data off t count 0 len /\ (lenN data < off + 13 + count * k)%N
    | None => match t with
              | TBinary | TString => (lenN data < off + 5)%N
              | _ => (lenN data < off + 1 + value_size t)%N
              end
    end.

(** What an error says of the attribute at [off]. *)
Definition load_error_true (data : list byte) (off fin : N) (e : econtainer) : Prop :=
  match e with
  | EData (InvalidAttributeTypeCode b) => at_offset data off [b] /\ (forall t, spec_code t <> b) /\ fin = (off + 1)%N
  | EData (InvalidArrayAttributeEncoding v) =>
      exists t count, is_array t /\ at_offset data off (spec_code t :: le_enc 4 count ++ le_enc 4 v) /\
        u_ok 4 v /\ (1 < v)%N /\ fin = (off + 9)%N
  | EData (BrokenCompression _) => compressed_at data off
  | EIo IoUtf8 => compressed_at data off \/
      exists n, at_offset data off (spec_code TString :: le_enc 4 n) /\ u_ok 4 n /\ utf8_valid (takeN n (dropN (off + 5) data)) = false
  | EIo IoEof => compressed_at data off \/ cut_attribute data off
  | EIo (IoOther _) => True
  | EIo _ => compressed_at data off
  | _ => False
  end.
