(** Operations on attribute values: /repo/src/low/v7400/attribute/value.rs. *)
Require Import Coq.Lists.List Coq.NArith.NArith Coq.ZArith.ZArith Coq.Bool.Bool.
Require Import Verif.Base Verif.Types.
Import ListNotations.

(** ** Getters: the macro expansions of value.rs lines 47-93 at lines 114-229.
    [get_*] is [Option]; [get_*_or_type] is [Result<_, AttributeType>] ([inl] is [Err]). *)
Definition get_bool (v : aval) : option bool := match v with VBool x => Some x | _ => None end.
Definition get_bool_or_type (v : aval) : atype + bool := match v with VBool x => inr x | _ => inl (aval_type v) end.
Definition get_i16 (v : aval) : option Z := match v with VI16 x => Some x | _ => None end.
Definition get_i16_or_type (v : aval) : atype + Z := match v with VI16 x => inr x | _ => inl (aval_type v) end.
Definition get_i32 (v : aval) : option Z := match v with VI32 x => Some x | _ => None end.
Definition get_i32_or_type (v : aval) : atype + Z := match v with VI32 x => inr x | _ => inl (aval_type v) end.
Definition get_i64 (v : aval) : option Z := match v with VI64 x => Some x | _ => None end.
Definition get_i64_or_type (v : aval) : atype + Z := match v with VI64 x => inr x | _ => inl (aval_type v) end.
Definition get_f32 (v : aval) : option N := match v with VF32 x => Some x | _ => None end.
Definition get_f32_or_type (v : aval) : atype + N := match v with VF32 x => inr x | _ => inl (aval_type v) end.
Definition get_f64 (v : aval) : option N := match v with VF64 x => Some x | _ => None end.
Definition get_f64_or_type (v : aval) : atype + N := match v with VF64 x => inr x | _ => inl (aval_type v) end.
Definition get_arr_bool (v : aval) : option (list bool) := match v with VArrBool x => Some x | _ => None end.
Definition get_arr_bool_or_type (v : aval) : atype + list bool := match v with VArrBool x => inr x | _ => inl (aval_type v) end.
Definition get_arr_i32 (v : aval) : option (list Z) := match v with VArrI32 x => Some x | _ => None end.
Definition get_arr_i32_or_type (v : aval) : atype + list Z := match v with VArrI32 x => inr x | _ => inl (aval_type v) end.
Definition get_arr_i64 (v : aval) : option (list Z) := match v with VArrI64 x => Some x | _ => None end.
Definition get_arr_i64_or_type (v : aval) : atype + list Z := match v with VArrI64 x => inr x | _ => inl (aval_type v) end.
Definition get_arr_f32 (v : aval) : option (list N) := match v with VArrF32 x => Some x | _ => None end.
Definition get_arr_f32_or_type (v : aval) : atype + list N := match v with VArrF32 x => inr x | _ => inl (aval_type v) end.
Definition get_arr_f64 (v : aval) : option (list N) := match v with VArrF64 x => Some x | _ => None end.
Definition get_arr_f64_or_type (v : aval) : atype + list N := match v with VArrF64 x => inr x | _ => inl (aval_type v) end.
Definition get_string (v : aval) : option (list byte) := match v with VString x => Some x | _ => None end.
Definition get_string_or_type (v : aval) : atype + list byte := match v with VString x => inr x | _ => inl (aval_type v) end.
Definition get_binary (v : aval) : option (list byte) := match v with VBinary x => Some x | _ => None end.
Definition get_binary_or_type (v : aval) : atype + list byte := match v with VBinary x => inr x | _ => inl (aval_type v) end.

(** Element-wise comparison of slices ([==] on slices and [Iterator::eq]). *)
Fixpoint list_eqb {A} (eqb : A -> A -> bool) (a b : list A) : bool :=
  match a, b with
  | [], [] => true
  | x :: a', y :: b' => eqb x y && list_eqb eqb a' b'
  | _, _ => false
  end.

(** [AttributeValue::strict_eq], value.rs lines 231-261.  Floats are bit patterns. *)
Definition aval_strict_eq (a b : aval) : bool :=
  match a, b with
  | VBool l, VBool r => Bool.eqb l r
  | VI16 l, VI16 r => Z.eqb l r
  | VI32 l, VI32 r => Z.eqb l r
  | VI64 l, VI64 r => Z.eqb l r
  | VF32 l, VF32 r => N.eqb l r
  | VF64 l, VF64 r => N.eqb l r
  | VArrBool l, VArrBool r => list_eqb Bool.eqb l r
  | VArrI32 l, VArrI32 r => list_eqb Z.eqb l r
  | VArrI64 l, VArrI64 r => list_eqb Z.eqb l r
  | VArrF32 l, VArrF32 r => list_eqb N.eqb l r
  | VArrF64 l, VArrF64 r => list_eqb N.eqb l r
  | VBinary l, VBinary r => bytes_eqb l r
  | VString l, VString r => bytes_eqb l r
  | _, _ => false
  end.
