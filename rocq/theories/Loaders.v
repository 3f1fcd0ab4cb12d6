(** The loaders the crate ships: /repo/src/pull_parser/v7400/attribute/loader.rs and
    /repo/src/pull_parser/v7400/attribute/loaders/. *)
Require Import Coq.Lists.List Coq.NArith.NArith Coq.ZArith.ZArith Coq.Bool.Bool.
Require Import Coq.Strings.String.
Require Import Verif.Base Verif.Utf8 Verif.Types Verif.Io Verif.Parser.
Import ListNotations.

Definition str (s : string) : list byte := list_byte_of_string s.

(** The default methods of [LoadAttribute], loader.rs lines 29-131: every [load_*] returns
    [UnexpectedAttribute(expecting, ..)]; the buffered methods call the plain ones. *)
Definition unexpected {O} (expecting got : string) : perr + O :=
  inl (err_from (EData (UnexpectedAttribute (str expecting) (str got)))).

Definition default_loader (O : Type) (ex : string) : loader O :=
  mkLoader
    (fun _ => unexpected ex "boolean") (fun _ => unexpected ex "i16")
    (fun _ => unexpected ex "i32") (fun _ => unexpected ex "i64")
    (fun _ => unexpected ex "f32") (fun _ => unexpected ex "f64")
    (fun _ => SRet (unexpected ex "boolean array")) (fun _ => SRet (unexpected ex "i32 array"))
    (fun _ => SRet (unexpected ex "i64 array")) (fun _ => SRet (unexpected ex "f32 array"))
    (fun _ => SRet (unexpected ex "f64 array"))
    (fun _ => RRet (unexpected ex "binary data")) (fun _ => RRet (unexpected ex "string data"))
    (fun _ => RRet (unexpected ex "binary data")) (fun _ => RRet (unexpected ex "string data")).

(** [iter.collect::<Result<_>>()?] followed by wrapping the vector. *)
Definition collect_as {A O} (f : list A -> O) : seqprog A O :=
  SCollect (fun r => SRet match r with inl e => inl e | inr l => inr (f l) end).

(** [reader.read_to_end(&mut buf)?]. *)
Definition read_all {O} (f : list byte -> O) : rdprog O :=
  RToEnd (fun r => RRet match r with
                        | (Some e, _) => inl (err_from (EIo e))
                        | (None, bs) => inr (f bs)
                        end).

(** [reader.read_to_string(&mut buf)?]: the I/O error of the reading goes first, then the
    UTF-8 check. *)
Definition read_all_str {O} (f : list byte -> O) : rdprog O :=
  RToEnd (fun r => RRet match r with
                        | (Some e, _) => inl (err_from (EIo e))
                        | (None, bs) => if utf8_valid bs then inr (f bs)
                                        else inl (err_from (EIo IoUtf8))
                        end).

(** [DirectLoader], loaders/direct.rs lines 11-108. *)
Definition direct_loader : loader aval :=
  mkLoader
    (fun v => inr (VBool v)) (fun v => inr (VI16 v)) (fun v => inr (VI32 v))
    (fun v => inr (VI64 v)) (fun v => inr (VF32 v)) (fun v => inr (VF64 v))
    (fun _ => collect_as VArrBool) (fun _ => collect_as VArrI32) (fun _ => collect_as VArrI64)
    (fun _ => collect_as VArrF32) (fun _ => collect_as VArrF64)
    (fun _ => read_all VBinary) (fun _ => read_all_str VString)
    (fun _ => read_all VBinary) (fun _ => read_all_str VString).

(** [TypeLoader], loaders/type_.rs lines 14-105: the value itself is not read. *)
Definition type_loader : loader atype :=
  mkLoader
    (fun _ => inr TBool) (fun _ => inr TI16) (fun _ => inr TI32)
    (fun _ => inr TI64) (fun _ => inr TF32) (fun _ => inr TF64)
    (fun _ => SRet (inr TArrBool)) (fun _ => SRet (inr TArrI32)) (fun _ => SRet (inr TArrI64))
    (fun _ => SRet (inr TArrF32)) (fun _ => SRet (inr TArrF64))
    (fun _ => RRet (inr TBinary)) (fun _ => RRet (inr TString))
    (fun _ => RRet (inr TBinary)) (fun _ => RRet (inr TString)).

Section Set1.
Context {O : Type} (l : loader O).
Definition set_ld_bool f := mkLoader f (ld_i16 l) (ld_i32 l) (ld_i64 l) (ld_f32 l) (ld_f64 l) (ld_abool l) (ld_ai32 l) (ld_ai64 l) (ld_af32 l) (ld_af64 l) (ld_bin l) (ld_str l) (ld_bin_buf l) (ld_str_buf l).
Definition set_ld_i16 f := mkLoader (ld_bool l) f (ld_i32 l) (ld_i64 l) (ld_f32 l) (ld_f64 l) (ld_abool l) (ld_ai32 l) (ld_ai64 l) (ld_af32 l) (ld_af64 l) (ld_bin l) (ld_str l) (ld_bin_buf l) (ld_str_buf l).
Definition set_ld_i32 f := mkLoader (ld_bool l) (ld_i16 l) f (ld_i64 l) (ld_f32 l) (ld_f64 l) (ld_abool l) (ld_ai32 l) (ld_ai64 l) (ld_af32 l) (ld_af64 l) (ld_bin l) (ld_str l) (ld_bin_buf l) (ld_str_buf l).
Definition set_ld_i64 f := mkLoader (ld_bool l) (ld_i16 l) (ld_i32 l) f (ld_f32 l) (ld_f64 l) (ld_abool l) (ld_ai32 l) (ld_ai64 l) (ld_af32 l) (ld_af64 l) (ld_bin l) (ld_str l) (ld_bin_buf l) (ld_str_buf l).
Definition set_ld_f32 f := mkLoader (ld_bool l) (ld_i16 l) (ld_i32 l) (ld_i64 l) f (ld_f64 l) (ld_abool l) (ld_ai32 l) (ld_ai64 l) (ld_af32 l) (ld_af64 l) (ld_bin l) (ld_str l) (ld_bin_buf l) (ld_str_buf l).
Definition set_ld_f64 f := mkLoader (ld_bool l) (ld_i16 l) (ld_i32 l) (ld_i64 l) (ld_f32 l) f (ld_abool l) (ld_ai32 l) (ld_ai64 l) (ld_af32 l) (ld_af64 l) (ld_bin l) (ld_str l) (ld_bin_buf l) (ld_str_buf l).
Definition set_ld_abool f := mkLoader (ld_bool l) (ld_i16 l) (ld_i32 l) (ld_i64 l) (ld_f32 l) (ld_f64 l) f (ld_ai32 l) (ld_ai64 l) (ld_af32 l) (ld_af64 l) (ld_bin l) (ld_str l) (ld_bin_buf l) (ld_str_buf l).
Definition set_ld_ai32 f := mkLoader (ld_bool l) (ld_i16 l) (ld_i32 l) (ld_i64 l) (ld_f32 l) (ld_f64 l) (ld_abool l) f (ld_ai64 l) (ld_af32 l) (ld_af64 l) (ld_bin l) (ld_str l) (ld_bin_buf l) (ld_str_buf l).
Definition set_ld_ai64 f := mkLoader (ld_bool l) (ld_i16 l) (ld_i32 l) (ld_i64 l) (ld_f32 l) (ld_f64 l) (ld_abool l) (ld_ai32 l) f (ld_af32 l) (ld_af64 l) (ld_bin l) (ld_str l) (ld_bin_buf l) (ld_str_buf l).
Definition set_ld_af32 f := mkLoader (ld_bool l) (ld_i16 l) (ld_i32 l) (ld_i64 l) (ld_f32 l) (ld_f64 l) (ld_abool l) (ld_ai32 l) (ld_ai64 l) f (ld_af64 l) (ld_bin l) (ld_str l) (ld_bin_buf l) (ld_str_buf l).
Definition set_ld_af64 f := mkLoader (ld_bool l) (ld_i16 l) (ld_i32 l) (ld_i64 l) (ld_f32 l) (ld_f64 l) (ld_abool l) (ld_ai32 l) (ld_ai64 l) (ld_af32 l) f (ld_bin l) (ld_str l) (ld_bin_buf l) (ld_str_buf l).
(** Overriding [load_binary]/[load_string] also changes the default buffered variant. *)
Definition set_ld_bin f := mkLoader (ld_bool l) (ld_i16 l) (ld_i32 l) (ld_i64 l) (ld_f32 l) (ld_f64 l) (ld_abool l) (ld_ai32 l) (ld_ai64 l) (ld_af32 l) (ld_af64 l) f (ld_str l) f (ld_str_buf l).
Definition set_ld_str f := mkLoader (ld_bool l) (ld_i16 l) (ld_i32 l) (ld_i64 l) (ld_f32 l) (ld_f64 l) (ld_abool l) (ld_ai32 l) (ld_ai64 l) (ld_af32 l) (ld_af64 l) (ld_bin l) f (ld_bin_buf l) f.
End Set1.

(** [PrimitiveLoader<T>], loaders/single.rs lines 11-36. *)
Definition prim_bool : loader bool := set_ld_bool (default_loader bool "single boolean") (fun v => inr v).
Definition prim_i16 : loader Z := set_ld_i16 (default_loader Z "single i16") (fun v => inr v).
Definition prim_i32 : loader Z := set_ld_i32 (default_loader Z "single i32") (fun v => inr v).
Definition prim_i64 : loader Z := set_ld_i64 (default_loader Z "single i64") (fun v => inr v).
Definition prim_f32 : loader N := set_ld_f32 (default_loader N "single f32") (fun v => inr v).
Definition prim_f64 : loader N := set_ld_f64 (default_loader N "single f64") (fun v => inr v).

(** [ArrayLoader<Vec<T>>], loaders/single.rs lines 38-71. *)
Definition arr_bool : loader (list bool) := set_ld_abool (default_loader (list bool) "boolean array") (fun _ => collect_as (fun l => l)).
Definition arr_i32 : loader (list Z) := set_ld_ai32 (default_loader (list Z) "i32 array") (fun _ => collect_as (fun l => l)).
Definition arr_i64 : loader (list Z) := set_ld_ai64 (default_loader (list Z) "i64 array") (fun _ => collect_as (fun l => l)).
Definition arr_f32 : loader (list N) := set_ld_af32 (default_loader (list N) "f32 array") (fun _ => collect_as (fun l => l)).
Definition arr_f64 : loader (list N) := set_ld_af64 (default_loader (list N) "f64 array") (fun _ => collect_as (fun l => l)).

(** [BinaryLoader] and [StringLoader], loaders/single.rs lines 72-108. *)
Definition binary_loader : loader (list byte) := set_ld_bin (default_loader (list byte) "binary") (fun _ => read_all (fun l => l)).
Definition string_loader : loader (list byte) := set_ld_str (default_loader (list byte) "string") (fun _ => read_all_str (fun l => l)).
