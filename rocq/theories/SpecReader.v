(** What a loader may rely on: the reader it receives for a binary or string attribute and the
    iterator it receives for an array, described without reference to the parser. *)
Require Import Coq.Lists.List Coq.NArith.NArith Coq.Bool.Bool Coq.Init.Byte.
Require Import Verif.Base Verif.Types Verif.Io Verif.Parser.
Import ListNotations.

(** ** Readers

    [serves fails bs p r left]: run on a reader over the bytes [bs], the loader [p] can end with
    the result [r], with the bytes [left] not yet taken.  The reader is a well-behaved one: it
    hands out the bytes in order, nothing else and no byte twice; it reports the end exactly
    when no bytes are left; single reads may be short and may be interrupted.  Other errors
    occur only if [fails]; nothing is lost by them except what an interrupted [read_exact]
    has taken. *)
Inductive serves {O} (fails : bool) : list byte -> rdprog O -> perr + O -> list byte -> Prop :=
| sv_ret : forall bs r, serves fails bs (RRet r) r bs
(* [read] *)
| sv_read : forall n k got bs r left, length got <= n -> (got = [] -> n = 0 \/ bs = []) ->
    serves fails bs (k (inr got)) r left -> serves fails (got ++ bs) (RRead n k) r left
| sv_read_interrupted : forall n k bs r left, n <> 0 ->
    serves fails bs (k (inl IoIntr)) r left -> serves fails bs (RRead n k) r left
| sv_read_fails : forall n k c bs r left, fails = true -> n <> 0 ->
    serves fails bs (k (inl (IoOther c))) r left -> serves fails bs (RRead n k) r left
(* [read_exact] *)
| sv_exact : forall k got bs r left,
    serves fails bs (k (inr got)) r left -> serves fails (got ++ bs) (RExact (length got) k) r left
| sv_exact_eof : forall n k bs r left, length bs < n ->
    serves fails [] (k (inl IoEof)) r left -> serves fails bs (RExact n k) r left
| sv_exact_fails : forall n k c lost bs r left, fails = true -> length lost < n ->
    serves fails bs (k (inl (IoOther c))) r left -> serves fails (lost ++ bs) (RExact n k) r left
(* [read_to_end] *)
| sv_end : forall k bs r left,
    serves fails [] (k (None, bs)) r left -> serves fails bs (RToEnd k) r left
| sv_end_fails : forall k c got bs r left, fails = true ->
    serves fails bs (k (Some (IoOther c), got)) r left -> serves fails (got ++ bs) (RToEnd k) r left
(* [fill_buf], then [consume] of [amt] of the bytes seen *)
| sv_buf : forall amt k seen more r left, (seen = [] -> more = []) ->
    serves fails (skipn (Nat.min (amt (inr seen)) (length seen)) (seen ++ more)) (k (inr seen)) r left ->
    serves fails (seen ++ more) (RBuf amt k) r left
| sv_buf_interrupted : forall amt k bs r left,
    serves fails bs (k (inl IoIntr)) r left -> serves fails bs (RBuf amt k) r left
| sv_buf_fails : forall amt k c bs r left, fails = true ->
    serves fails bs (k (inl (IoOther c))) r left -> serves fails bs (RBuf amt k) r left.

(** ** Iterators

    [yields fails size dec n bs x n' left]: an iterator with [n] elements of [size] bytes to
    come, standing before the bytes [bs], yields [x]; then [n'] elements are to come and the
    bytes [left] follow.  It yields [None] exactly when no element is to come.  Otherwise it
    takes [size] bytes and yields their value, or an error if there are not so many (or, if
    [fails], for any other reason); an error does not count as an element. *)
Inductive yields {A} (fails : bool) (size : nat) (dec : list byte -> A) : N -> list byte -> option (perr + A) -> N -> list byte -> Prop :=
| yd_none : forall bs, yields fails size dec 0 bs None 0 bs
| yd_some : forall n raw bs, n <> 0%N -> length raw = size -> yields fails size dec n (raw ++ bs) (Some (inr (dec raw))) (n - 1) bs
| yd_eof : forall n bs, n <> 0%N -> length bs < size -> yields fails size dec n bs (Some (inl (err_from (EIo IoEof)))) n []
| yd_fails : forall n lost bs c, n <> 0%N -> fails = true -> length lost < size ->
    yields fails size dec n (lost ++ bs) (Some (inl (err_from (EIo (IoOther c))))) n bs.

(** [collect::<Result<Vec<_>, _>>()]: all elements, or the first error. *)
Inductive collects {A} (fails : bool) (size : nat) (dec : list byte -> A) : N -> list byte -> perr + list A -> N -> list byte -> Prop :=
| cl_none : forall n bs n' left, yields fails size dec n bs None n' left -> collects fails size dec n bs (inr []) n' left
| cl_error : forall n bs e n' left, yields fails size dec n bs (Some (inl e)) n' left -> collects fails size dec n bs (inl e) n' left
| cl_some : forall n bs v n1 bs1 l n' left, yields fails size dec n bs (Some (inr v)) n1 bs1 ->
    collects fails size dec n1 bs1 l n' left -> collects fails size dec n bs (match l with inl e => inl e | inr vs => inr (v :: vs) end) n' left.

(** [gives fails size dec n bs p r left err]: run on such an iterator the loader [p] can end
    with the result [r], the bytes [left] not yet taken; [err] tells whether the iterator
    ever yielded an error. *)
Definition failed {B} (x : perr + B) : bool := match x with inl _ => true | inr _ => false end.
Inductive gives {A O} (fails : bool) (size : nat) (dec : list byte -> A) : N -> list byte -> seqprog A O -> perr + O -> list byte -> bool -> Prop :=
| gv_ret : forall n bs r, gives fails size dec n bs (SRet r) r bs false
| gv_next : forall n bs k x n1 bs1 r left err, yields fails size dec n bs x n1 bs1 ->
    gives fails size dec n1 bs1 (k x) r left err ->
    gives fails size dec n bs (SNext k) r left (match x with Some y => failed y | None => false end || err)
| gv_collect : forall n bs k x n1 bs1 r left err, collects fails size dec n bs x n1 bs1 ->
    gives fails size dec n1 bs1 (k x) r left err ->
    gives fails size dec n bs (SCollect k) r left (failed x || err).

(** What the loader [ld] makes of an array attribute of type [t] with [n] elements whose bytes
    begin with [bs].  Numbers are little endian, the truth value is the low bit. *)
Definition array_gives {O} (fails : bool) (t : atype) (ld : loader O) (n : N) (bs : list byte) (r : perr + O) (left : list byte) (err : bool) : Prop :=
  match t with
  | TArrBool => gives fails 1 (fun raw => N.odd (le_dec raw)) n bs (ld_abool ld n) r left err
  | TArrI32 => gives fails 4 (i_dec 4) n bs (ld_ai32 ld n) r left err
  | TArrI64 => gives fails 8 (i_dec 8) n bs (ld_ai64 ld n) r left err
  | TArrF32 => gives fails 4 le_dec n bs (ld_af32 ld n) r left err
  | TArrF64 => gives fails 8 le_dec n bs (ld_af64 ld n) r left err
  | _ => False
  end.
