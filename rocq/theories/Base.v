(** Base definitions: bytes, little-endian codecs, results.

    This file models Rust core/std facilities used all over the crate:
    [uN::from_le_bytes] / [to_le_bytes] (used in /repo/src/pull_parser/v7400/read.rs
    lines 11-58 and /repo/src/writer/v7400/binary/attributes.rs lines 18-67),
    [Result] and panics. *)
Require Import Coq.Lists.List Coq.NArith.NArith Coq.ZArith.ZArith Coq.Bool.Bool.
Require Import Coq.Init.Byte.
Require Coq.Strings.Byte.
Import ListNotations.

Notation byte := Coq.Init.Byte.byte.

(** Value of a byte, 0..255. *)
Definition bN (b : byte) : N := Coq.Strings.Byte.to_N b.

(** [x as u8]: the low 8 bits of a number. *)
Definition Nb (n : N) : byte :=
  match Coq.Strings.Byte.of_N (n mod 256) with Some b => b | None => x00 end.

(** Decidable equality of bytes. *)
Definition beqb (a b : byte) : bool := N.eqb (bN a) (bN b).

(** Equality of byte strings. *)
Fixpoint bytes_eqb (a b : list byte) : bool :=
  match a, b with
  | [], [] => true
  | x :: a', y :: b' => beqb x y && bytes_eqb a' b'
  | _, _ => false
  end.

(** Length of a list as an [N]. *)
Definition lenN {A} (l : list A) : N := N.of_nat (length l).

(** [dropN n l]: drop [n] elements; recursion on the list so huge [n] are fine. *)
Fixpoint dropN {A} (n : N) (l : list A) : list A :=
  match l with
  | [] => []
  | x :: t => if N.eqb n 0 then l else dropN (N.pred n) t
  end.

(** [takeN n l]: first [n] elements. *)
Fixpoint takeN {A} (n : N) (l : list A) : list A :=
  match l with
  | [] => []
  | x :: t => if N.eqb n 0 then [] else x :: takeN (N.pred n) t
  end.

(** [repeat] with an [N] count is only used for small counts. *)
Definition zeros (n : nat) : list byte := repeat x00 n.

(** Little-endian encoding of the low [8*k] bits of [n] ([to_le_bytes]). *)
Fixpoint le_enc (k : nat) (n : N) : list byte :=
  match k with
  | O => []
  | S k' => Nb n :: le_enc k' (n / 256)
  end.

(** Little-endian decoding ([from_le_bytes] of an unsigned type). *)
Fixpoint le_dec (l : list byte) : N :=
  match l with
  | [] => 0
  | b :: t => bN b + 256 * le_dec t
  end%N.

Definition pow2_32 : N := 4294967296.
Definition pow2_63 : N := 9223372036854775808.

(** The pointer width of the target: the number of values of [usize].  Where none is given, it is
    64 bits. *)
Definition Target := N.
Existing Class Target.
Definition pow2_64 : Target := 18446744073709551616%N.
#[global] Existing Instance pow2_64.

(** Two's complement of a [8*k]-bit signed integer: the unsigned image. *)
Definition z2n (k : nat) (z : Z) : N := Z.to_N (z mod 2 ^ (8 * Z.of_nat k)).

(** Signed value of an unsigned [8*k]-bit integer. *)
Definition n2z (k : nat) (n : N) : Z :=
  if (Z.of_N n <? 2 ^ (8 * Z.of_nat k - 1))%Z then Z.of_N n
  else (Z.of_N n - 2 ^ (8 * Z.of_nat k))%Z.

(** [iN::to_le_bytes] and [iN::from_le_bytes]. *)
Definition i_enc (k : nat) (z : Z) : list byte := le_enc k (z2n k z).
Definition i_dec (k : nat) (l : list byte) : Z := n2z k (le_dec l).

(** Range of a [8*k]-bit signed integer. *)
Definition i_ok (k : nat) (z : Z) : Prop :=
  (- 2 ^ (8 * Z.of_nat k - 1) <= z < 2 ^ (8 * Z.of_nat k - 1))%Z.
Definition i_okb (k : nat) (z : Z) : bool :=
  ((- 2 ^ (8 * Z.of_nat k - 1) <=? z) && (z <? 2 ^ (8 * Z.of_nat k - 1)))%Z.

(** Range of an [8*k]-bit unsigned integer. *)
Definition u_ok (k : nat) (n : N) : Prop := (n < 2 ^ (8 * N.of_nat k))%N.
Definition u_okb (k : nat) (n : N) : bool := (n <? 2 ^ (8 * N.of_nat k))%N.

(** Result of a Rust computation that may return [Err] or panic. *)
Inductive res (E A : Type) : Type :=
| Ok (a : A)
| Err (e : E)
| Panic.
Arguments Ok {E A} a.
Arguments Err {E A} e.
Arguments Panic {E A}.

Definition is_ok {E A} (r : res E A) : bool :=
  match r with Ok _ => true | _ => false end.
Definition is_panic {E A} (r : res E A) : bool :=
  match r with Panic => true | _ => false end.
