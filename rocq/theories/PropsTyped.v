(** C46: the loaders for a single type. *)
Require Import Coq.Lists.List Coq.NArith.NArith Coq.ZArith.ZArith Coq.Bool.Bool Coq.Strings.String.
Require Import Verif.Base Verif.BaseFacts Verif.Utf8 Verif.Types Verif.Io Verif.IoFacts Verif.Parser Verif.MonadFacts Verif.ParserSteps Verif.ParserHist Verif.ParserPos Verif.ParserRel Verif.Zlib Verif.Loaders Verif.Spec Verif.Samples Verif.PropsEvents.
Import ListNotations.

(** ** Specification *)

(** The name the crate uses for the type of a value in error messages. *)
Definition kind_name (v : aval) : string :=
  match v with
  | VBool _ => "boolean" | VI16 _ => "i16" | VI32 _ => "i32" | VI64 _ => "i64" | VF32 _ => "f32" | VF64 _ => "f64"
  | VArrBool _ => "boolean array" | VArrI32 _ => "i32 array" | VArrI64 _ => "i64 array"
  | VArrF32 _ => "f32 array" | VArrF64 _ => "f64 array"
  | VBinary _ => "binary data" | VString _ => "string data"
  end%string.

Section WithEnv.
Context {env : Env}.

(** A parser in which positions can be asked for: every parser a client can have. *)
Definition reachable_at (s : pstate) : Prop :=
  exists O data sched seeks seekable h p (l : list (op O)) rs,
    opened data sched seeks seekable h p /\ run_ops l p = (rs, s) /\ no_panic rs.

(** [T] loads exactly the attributes whose value is [wrap x] for some [x], and gives that [x];
    the reference is the loader that accepts every type. *)
Record loads_only {O} (T : loader O) (wrap : O -> aval) (ex : string) : Prop := mkLoadsOnly {
  lo_value : forall b s x t, load_next_gen b T s = (Ok (Some x), t) <-> load_next_gen b direct_loader s = (Ok (Some (wrap x)), t);
  lo_none : forall b s t, load_next_gen b T s = (Ok None, t) <-> load_next_gen b direct_loader s = (Ok None, t);
  lo_other : forall b s v t, reachable_at s -> load_next_gen b direct_loader s = (Ok (Some v), t) -> (forall x, v <> wrap x) ->
    exists pos u, load_next_gen b T s = (Err (mkErr (EData (UnexpectedAttribute (str ex) (str (kind_name v)))) (Some pos)), u)
}.

(** ** Proof *)
Definition mapr {A B} (f : A -> B) (x : res perr A * pstate) : res perr B * pstate :=
  match x with (Ok a, t) => (Ok (f a), t) | (Err e, t) => (Err e, t) | (Panic, t) => (Panic, t) end.
Lemma mapr_bind : forall A B C (w : B -> C) (m : M A) (f : A -> M B) (g : A -> M C),
  (forall a s, g a s = mapr w (f a s)) -> forall s, bind m g s = mapr w (bind m f s).
Proof. intros A B C w m f g H s. unfold bind. destruct (m s) as [[a|e|] t]; auto. Qed.
Lemma mapr_lift : forall A B (w : A -> B) (r : perr + A) s,
  lift (match r with inl e => inl e | inr a => inr (w a) end) s = mapr w (lift r s).
Proof. intros A B w [e|a] s; reflexivity. Qed.

Lemma array_map : forall A O (el : elem A) (w : list A -> O) st ix s,
  load_array el (fun _ => collect_as w) st ix s = mapr w (load_array el (fun _ => collect_as (fun l => l)) st ix s).
Proof.
  intros A O el w st ix. unfold load_array. apply mapr_bind. intros [[n e] len].
  apply mapr_bind. intros _. apply mapr_bind. intros d s. cbn [collect_as run_seq]. unfold bind.
  destruct (it_collect el (mkIter d n false false) s) as [[[it o]|e1|] t]; cbn [ret]; [|reflexivity|reflexivity].
  destruct o as [e1|l]; cbn [lift throw ret]; [reflexivity|].
  destruct (when (it_bad it) (warn_bool st ix) t) as [[[]|e1|] t2]; [|reflexivity|reflexivity].
  destruct (it_err it); reflexivity.
Qed.
Lemma special_map : forall O O' (w : O -> O') (p : rdprog O) (q : rdprog O'),
  (forall n s, run_rd q n s = mapr (fun r => match r with inl e => inl e | inr a => inr (w a) end) (run_rd p n s)) ->
  forall s, load_special (fun _ => q) s = mapr w (load_special (fun _ => p) s).
Proof.
  intros O O' w p q H s. unfold load_special. revert s. apply mapr_bind. intros len. apply mapr_bind. intros _ s. unfold bind. rewrite H.
  destruct (run_rd p len s) as [[[e|a]|e|] t]; reflexivity.
Qed.
Lemma read_all_map : forall O (w : list byte -> O) n s,
  run_rd (read_all w) n s = mapr (fun r => match r with inl e => inl e | inr a => inr (w a) end) (run_rd (read_all (fun l => l)) n s).
Proof.
  intros O w n. unfold read_all. cbn [run_rd]. apply mapr_bind. intros p0. apply mapr_bind. intros [[e|] bs]; apply mapr_bind; reflexivity.
Qed.
Lemma read_all_str_map : forall O (w : list byte -> O) n s,
  run_rd (read_all_str w) n s = mapr (fun r => match r with inl e => inl e | inr a => inr (w a) end) (run_rd (read_all_str (fun l => l)) n s).
Proof.
  intros O w n. unfold read_all_str. cbn [run_rd]. apply mapr_bind. intros p0. apply mapr_bind.
  intros [[e|] bs]; apply mapr_bind; intros p1 s; cbn [run_rd]; [reflexivity|]. destruct (utf8_valid bs); reflexivity.
Qed.

(** What a loader does with an attribute of type [t] it does not want. *)
Definition type_name (t : atype) : string :=
  match t with
  | TBool => "boolean" | TI16 => "i16" | TI32 => "i32" | TI64 => "i64" | TF32 => "f32" | TF64 => "f64"
  | TArrBool => "boolean array" | TArrI32 => "i32 array" | TArrI64 => "i64 array"
  | TArrF32 => "f32 array" | TArrF64 => "f64 array"
  | TBinary => "binary data" | TString => "string data"
  end%string.
Definition refuses {O} (T : loader O) (ex : string) (t : atype) : Prop :=
  match t with
  | TBool => forall v, ld_bool T v = unexpected ex (type_name t)
  | TI16 => forall v, ld_i16 T v = unexpected ex (type_name t)
  | TI32 => forall v, ld_i32 T v = unexpected ex (type_name t)
  | TI64 => forall v, ld_i64 T v = unexpected ex (type_name t)
  | TF32 => forall v, ld_f32 T v = unexpected ex (type_name t)
  | TF64 => forall v, ld_f64 T v = unexpected ex (type_name t)
  | TArrBool => forall n, ld_abool T n = SRet (unexpected ex (type_name t))
  | TArrI32 => forall n, ld_ai32 T n = SRet (unexpected ex (type_name t))
  | TArrI64 => forall n, ld_ai64 T n = SRet (unexpected ex (type_name t))
  | TArrF32 => forall n, ld_af32 T n = SRet (unexpected ex (type_name t))
  | TArrF64 => forall n, ld_af64 T n = SRet (unexpected ex (type_name t))
  | TBinary => forall n, ld_bin T n = RRet (unexpected ex (type_name t)) /\ ld_bin_buf T n = RRet (unexpected ex (type_name t))
  | TString => forall n, ld_str T n = RRet (unexpected ex (type_name t)) /\ ld_str_buf T n = RRet (unexpected ex (type_name t))
  end.
Definition the_error (ex : string) (t : atype) : perr := err_from (EData (UnexpectedAttribute (str ex) (str (type_name t)))).

Definition fails_for {A B} (e : perr) (m : M A) (n : M B) : Prop :=
  (forall s a t, n s <> (Ok a, t)) /\ (forall s a t, m s = (Ok a, t) -> exists u, n s = (Err e, u)).
Lemma fails_bind : forall A B C e (m : M A) (f : A -> M B) (g : A -> M C), (forall a, fails_for e (f a) (g a)) -> fails_for e (bind m f) (bind m g).
Proof.
  intros A B C e m f g H. split.
  - intros s a t X. mstep X as b u Y; [|discriminate|discriminate]. apply (proj1 (H b) _ _ _ X).
  - intros s a t X. mstep X as b u Y; [|discriminate|discriminate]. destruct (proj2 (H b) _ _ _ X) as (w & Z).
    exists w. rewrite (bind_ok _ _ _ _ _ _ _ Y). exact Z.
Qed.
Lemma fails_throw : forall A B e (m : M A), fails_for e m (@throw B e).
Proof. intros. split; [discriminate|]. intros s a t _. exists s. reflexivity. Qed.
Lemma fails_array : forall A O O' (el : elem A) (ld : N -> seqprog A O) (ld' : N -> seqprog A O') e st ix,
  (forall n, ld' n = SRet (inl e)) -> fails_for e (load_array el ld st ix) (load_array el ld' st ix).
Proof.
  intros A O O' el ld ld' e st ix H. unfold load_array. apply fails_bind. intros [[n en] len]. apply fails_bind. intros _. apply fails_bind. intros d.
  rewrite H. cbn [run_seq]. split; [discriminate|]. intros s a t _. exists s. reflexivity.
Qed.
Lemma fails_special : forall O O' (ld : N -> rdprog O) (ld' : N -> rdprog O') e,
  (forall n, ld' n = RRet (inl e)) -> fails_for e (load_special ld) (load_special ld').
Proof.
  intros O O' ld ld' e H. unfold load_special. apply fails_bind. intros len. apply fails_bind. intros _. rewrite H. cbn [run_rd].
  split; [discriminate|]. intros s a t _. exists s. reflexivity.
Qed.
Lemma refuse : forall O O' (T : loader O) (D : loader O') ex ty b st ix, refuses T ex ty ->
  fails_for (the_error ex ty) (load_next_impl b ty D st ix) (load_next_impl b ty T st ix).
Proof.
  intros O O' T D ex ty b st ix H. destruct ty; cbn [load_next_impl refuses] in *.
  1: { do 3 (apply fails_bind; intros ?). rewrite H. apply fails_throw. }
  1-5: do 2 (apply fails_bind; intros ?); rewrite H; apply fails_throw.
  1-5: apply fails_array; exact H.
  all: apply fails_special; intros n; destruct b; apply H.
Qed.

Lemma same_attr_position : forall s u, quietl s u -> forall st ix,
  match position_of s with Some _ => exists p, attr_position st ix u = (Ok p, u) | None => True end.
Proof.
  intros s u ((_ & _ & A & _ & B & _) & _) st ix. unfold attr_position, bind, position, position_of. rewrite A, B.
  destruct (p_stack s); [|destruct (p_top s =? 0)%N; [exact I|]]; eexists; reflexivity.
Qed.

Lemma gen_cases : forall O b (T : loader O) s,
  load_next_gen b T s =
  match ensure_continuable s with
  | (Ok _, _) =>
      match p_attrs s with
      | Some a =>
          match read_next_attr_type s with
          | (Ok None, t) => (Ok None, t)
          | (Ok (Some ty), t) =>
              match load_next_impl b ty T (a_next a) (a_total a - a_rest a)%N t with
              | (Ok v, u) => (Ok (Some v), u)
              | (Err e, u) => bind (attr_position (a_next a) (a_total a - a_rest a)%N) (fun p => bind (modify (set_health (Aborted p))) (fun _ => throw (and_position e p))) u
              | (Panic, u) => (Panic, u)
              end
          | (Err e, u) => bind (attr_position (a_next a) (a_total a - a_rest a)%N) (fun p => bind (modify (set_health (Aborted p))) (fun _ => throw (and_position e p))) u
          | (Panic, u) => (Panic, u)
          end
      | None => (Panic, s)
      end
  | (Err e, u) => (Err e, u)
  | (Panic, u) => (Panic, u)
  end.
Proof.
  intros O b T s. unfold load_next_gen, do_with_health_check, get_attrs. unfold bind at 1.
  destruct (ensure_continuable s) as [[[]|e|] s0] eqn:E0; [|reflexivity|reflexivity].
  assert (s0 = s) as -> by (unfold ensure_continuable in E0; destruct (p_health s); congruence).
  unfold bind at 1 2. unfold gets at 1. destruct (p_attrs s) as [a|] eqn:Ea; [|reflexivity]. cbn [ret].
  unfold bind at 1. unfold try_. unfold bind at 1. unfold bind at 2.
  destruct (read_next_attr_type s) as [[[ty|]|e|] t]; [|reflexivity| |reflexivity]; [|reflexivity].
  unfold bind at 1. unfold bind at 2.
  destruct (load_next_impl b ty T (a_next a) (a_total a - a_rest a)%N t) as [[v|e|] u]; reflexivity.
Qed.

Section Typed.
Context {O : Type} (T : loader O) (wrap : O -> aval) (ex : string) (ty : atype).
Context (wrap_inj : forall x y, wrap x = wrap y -> x = y).
Context (wrap_type : forall v, aval_type v = ty <-> exists x, v = wrap x).
Context (Hm : forall b st ix s, load_next_impl b ty direct_loader st ix s = mapr wrap (load_next_impl b ty T st ix s)).
Context (Hr : forall t, t <> ty -> refuses T ex t).

Lemma direct_type : forall b t st ix s v u, load_next_impl b t direct_loader st ix s = (Ok v, u) -> aval_type v = t.
Proof.
  intros b t st ix s v u H.
  assert (L : forall A (m : M A) (f : A -> M aval), (forall a s v u, f a s = (Ok v, u) -> aval_type v = t) -> forall s v u, bind m f s = (Ok v, u) -> aval_type v = t).
  { intros A m f K s1 v1 u1 X. mstep X as a w Y; [|discriminate|discriminate]. apply (K _ _ _ _ X). }
  assert (AR : forall A (el : elem A) (w : list A -> aval), (forall l, aval_type (w l) = t) -> forall s v u, load_array el (fun _ => collect_as w) st ix s = (Ok v, u) -> aval_type v = t).
  { intros A el w K s1 v1 u1 X. rewrite array_map in X. destruct (load_array el _ st ix s1) as [[l|e|] t1]; cbn in X; [|discriminate|discriminate].
    injection X as <- _. apply K. }
  assert (SP : forall (p : rdprog (list byte)) (q : rdprog aval) w, (forall l, aval_type (w l) = t) ->
    (forall n s, run_rd q n s = mapr (fun r => match r with inl e => inl e | inr a => inr (w a) end) (run_rd p n s)) ->
    forall s v u, load_special (fun _ => q) s = (Ok v, u) -> aval_type v = t).
  { intros p q w K1 K2 s1 v1 u1 X. rewrite (special_map _ _ _ _ _ K2) in X. destruct (load_special _ s1) as [[l|e|] t1]; cbn in X; [|discriminate|discriminate].
    injection X as <- _. apply K1. }
  destruct t; cbn [load_next_impl direct_loader ld_bool ld_i16 ld_i32 ld_i64 ld_f32 ld_f64 ld_abool ld_ai32 ld_ai64 ld_af32 ld_af64 ld_bin ld_str ld_bin_buf ld_str_buf] in H.
  1: { revert s v u H. do 3 (apply L; intros ?). intros s v u H. injection H as <- _. reflexivity. }
  1-5: revert s v u H; do 2 (apply L; intros ?); intros s v u H; injection H as <- _; reflexivity.
  1-5: revert H; apply AR; reflexivity.
  - destruct b; revert H; apply (SP (read_all (fun l => l)) _ VBinary); (reflexivity || apply read_all_map).
  - destruct b; revert H; apply (SP (read_all_str (fun l => l)) _ VString); (reflexivity || apply read_all_str_map).
Qed.

Lemma no_value : forall A (m : M synpos) e u (x : A) t, bind m (fun p => bind (modify (set_health (Aborted p))) (fun _ => @throw A (and_position e p))) u <> (Ok x, t).
Proof. intros A m e u x t H. mstep H as p w Y; [|discriminate|discriminate]. discriminate. Qed.

Lemma type_name_kind : forall v, type_name (aval_type v) = kind_name v.
Proof. intros []; reflexivity. Qed.

Lemma typed_loads_only : loads_only T wrap ex.
Proof.
  split.
  - intros b s x t. rewrite !gen_cases. destruct (ensure_continuable s) as [[[]|e|] s0]; [|split; discriminate|split; discriminate].
    destruct (p_attrs s) as [a|]; [|split; discriminate].
    destruct (read_next_attr_type s) as [[[ty'|]|e|] t1]; [|split; discriminate| |split; discriminate];
      [|split; intros X; destruct (no_value _ _ _ _ _ _ X)].
    destruct (Bool.bool_dec (match ty', ty with TBool, TBool | TI16, TI16 | TI32, TI32 | TI64, TI64 | TF32, TF32 | TF64, TF64
      | TArrBool, TArrBool | TArrI32, TArrI32 | TArrI64, TArrI64 | TArrF32, TArrF32 | TArrF64, TArrF64 | TBinary, TBinary | TString, TString => true | _, _ => false end) true) as [D|D].
    + assert (ty' = ty) as -> by (destruct ty', ty; try discriminate; reflexivity). rewrite Hm.
      destruct (load_next_impl b ty T _ _ t1) as [[v|e|] u]; cbn [mapr]; [|split; intros X; destruct (no_value _ _ _ _ _ _ X)|split; discriminate].
      split; intros X; injection X; intros; subst; [reflexivity|]. f_equal. f_equal. f_equal. apply wrap_inj. congruence.
    + assert (NE : ty' <> ty) by (intros ->; apply D; destruct ty; reflexivity).
      split; intros X.
      * destruct (load_next_impl b ty' T _ _ t1) as [[v|e|] u] eqn:E; [|destruct (no_value _ _ _ _ _ _ X)|discriminate].
        destruct (proj1 (refuse _ _ T direct_loader ex ty' b _ _ (Hr _ NE)) _ _ _ E).
      * destruct (load_next_impl b ty' direct_loader _ _ t1) as [[v|e|] u] eqn:E; [|destruct (no_value _ _ _ _ _ _ X)|discriminate].
        injection X as -> _. apply direct_type in E. destruct NE. rewrite <- E. apply wrap_type. eauto.
  - intros b s t. rewrite !gen_cases. destruct (ensure_continuable s) as [[[]|e|] s0]; [|split; discriminate|split; discriminate].
    destruct (p_attrs s) as [a|]; [|split; discriminate].
    destruct (read_next_attr_type s) as [[[ty'|]|e|] t1]; [|split; intros X; injection X as ->; reflexivity| |split; discriminate];
      [|split; intros X; destruct (no_value _ _ _ _ _ _ X)].
    split; intros X.
    + destruct (load_next_impl b ty' T _ _ t1) as [[v|e|] u]; [discriminate|destruct (no_value _ _ _ _ _ _ X)|discriminate].
    + destruct (load_next_impl b ty' direct_loader _ _ t1) as [[v|e|] u]; [discriminate|destruct (no_value _ _ _ _ _ _ X)|discriminate].
  - intros b s v t (O0 & data & sched & seeks & sk & h & p & l & rs & Ho & Hl & Hn) X Hv. rewrite !gen_cases in *.
    destruct (topok_position s) as (pp & EP & _). { eapply run_ops_keeps; eauto. eapply opened_topok; eauto. }
    destruct (ensure_continuable s) as [[[]|e|] s0]; [|discriminate|discriminate].
    destruct (p_attrs s) as [a|]; [|discriminate].
    destruct (read_next_attr_type s) as [[[ty'|]|e|] t1] eqn:E1; [|discriminate| |discriminate]; [|destruct (no_value _ _ _ _ _ _ X)].
    destruct (load_next_impl b ty' direct_loader _ _ t1) as [[v1|e|] u] eqn:E; [|destruct (no_value _ _ _ _ _ _ X)|discriminate].
    injection X as -> ->. pose proof (direct_type _ _ _ _ _ _ _ E) as Et.
    assert (NE : ty' <> ty) by (intros ->; apply wrap_type in Et; destruct Et as [x Et]; apply (Hv x Et)).
    destruct (proj2 (refuse _ _ T direct_loader ex ty' b _ _ (Hr _ NE)) _ _ _ E) as (w & Ew). rewrite Ew.
    pose proof (steps_elim _ _ _ _ _ _ (load_next_impl_quiet O b ty' T _ _) Ew ltac:(discriminate)) as Q2.
    pose proof (steps_elim _ _ _ _ _ _ read_next_attr_type_quiet E1 ltac:(discriminate)) as Q1.
    pose proof (same_attr_position s w (proj2 quietl_pre _ _ _ Q1 Q2) (a_next a) (a_total a - a_rest a)%N) as K. rewrite EP in K. destruct K as (q & Eq).
    rewrite (bind_ok _ _ _ _ _ _ _ Eq), bind_modify. exists q. eexists. unfold throw, the_error, and_position. cbn. rewrite <- Et, type_name_kind. reflexivity.
Qed.
End Typed.

Theorem C46_single_type_loaders :
  loads_only prim_bool VBool "single boolean" /\ loads_only prim_i16 VI16 "single i16" /\
  loads_only prim_i32 VI32 "single i32" /\ loads_only prim_i64 VI64 "single i64" /\
  loads_only prim_f32 VF32 "single f32" /\ loads_only prim_f64 VF64 "single f64" /\
  loads_only arr_bool VArrBool "boolean array" /\ loads_only arr_i32 VArrI32 "i32 array" /\
  loads_only arr_i64 VArrI64 "i64 array" /\ loads_only arr_f32 VArrF32 "f32 array" /\ loads_only arr_f64 VArrF64 "f64 array" /\
  loads_only binary_loader VBinary "binary" /\ loads_only string_loader VString "string".
Proof.
  assert (P : forall O (T : loader O) w ex ty,
    (forall x y, w x = w y -> x = y) -> (forall v, aval_type v = ty -> exists x, v = w x) -> (forall x, aval_type (w x) = ty) ->
    (forall b st ix s, load_next_impl b ty direct_loader st ix s = mapr w (load_next_impl b ty T st ix s)) ->
    (forall t, t <> ty -> refuses T ex t) -> loads_only T w ex).
  { intros O T w ex ty A B C D E. apply (typed_loads_only T w ex ty); auto. intros v. split; [apply B|]. intros [x ->]. apply C. }
  Local Ltac inj := intros x y X; injection X as ->; reflexivity.
  Local Ltac ty := let v := fresh in intros v; destruct v; intros X; try discriminate; eexists; reflexivity.
  Local Ltac rf := let t := fresh in let N := fresh in intros t N; destruct t; try (exfalso; apply N; reflexivity); cbn; intros; try split; reflexivity.
  split; [(apply (P _ _ _ _ TBool); [inj|ty|reflexivity|intros b st ix; cbn; do 3 (apply mapr_bind; intros ?); reflexivity|rf])|].
  split; [(apply (P _ _ _ _ TI16); [inj|ty|reflexivity|intros b st ix; cbn; do 2 (apply mapr_bind; intros ?); reflexivity|rf])|].
  split; [(apply (P _ _ _ _ TI32); [inj|ty|reflexivity|intros b st ix; cbn; do 2 (apply mapr_bind; intros ?); reflexivity|rf])|].
  split; [(apply (P _ _ _ _ TI64); [inj|ty|reflexivity|intros b st ix; cbn; do 2 (apply mapr_bind; intros ?); reflexivity|rf])|].
  split; [(apply (P _ _ _ _ TF32); [inj|ty|reflexivity|intros b st ix; cbn; do 2 (apply mapr_bind; intros ?); reflexivity|rf])|].
  split; [(apply (P _ _ _ _ TF64); [inj|ty|reflexivity|intros b st ix; cbn; do 2 (apply mapr_bind; intros ?); reflexivity|rf])|].
  split; [(apply (P _ _ _ _ TArrBool); [inj|ty|reflexivity|intros b st ix s; apply array_map|rf])|].
  split; [(apply (P _ _ _ _ TArrI32); [inj|ty|reflexivity|intros b st ix s; apply array_map|rf])|].
  split; [(apply (P _ _ _ _ TArrI64); [inj|ty|reflexivity|intros b st ix s; apply array_map|rf])|].
  split; [(apply (P _ _ _ _ TArrF32); [inj|ty|reflexivity|intros b st ix s; apply array_map|rf])|].
  split; [(apply (P _ _ _ _ TArrF64); [inj|ty|reflexivity|intros b st ix s; apply array_map|rf])|].
  split; [(apply (P _ _ _ _ TBinary); [inj|ty|reflexivity|intros b st ix s; destruct b; exact (special_map _ _ VBinary (read_all (fun l => l)) (read_all VBinary) (read_all_map _ VBinary) s)|rf])|].
  (apply (P _ _ _ _ TString); [inj|ty|reflexivity|intros b st ix s; destruct b; exact (special_map _ _ VString (read_all_str (fun l => l)) (read_all_str VString) (read_all_str_map _ VString) s)|rf]).
Qed.

(** The type loader gives the type of the value the direct loader reads. *)
Theorem C46_type_loader : forall b s v t, load_next_gen b direct_loader s = (Ok (Some v), t) ->
  exists u, load_next_gen b type_loader s = (Ok (Some (aval_type v)), u).
Proof.
  intros b s v t H. rewrite !gen_cases in *.
  destruct (ensure_continuable s) as [[[]|e|] s0]; [|discriminate|discriminate].
  destruct (p_attrs s) as [a|]; [|discriminate].
  destruct (read_next_attr_type s) as [[[ty|]|e|] t1] eqn:E1; [|discriminate| |discriminate]; [|destruct (no_value _ _ _ _ _ _ H)].
  destruct (load_next_impl b ty direct_loader _ _ t1) as [[v1|e|] u] eqn:E; [|destruct (no_value _ _ _ _ _ _ H)|discriminate].
  injection H as -> ->. pose proof (direct_type _ _ _ _ _ _ _ E) as Et.
  assert (K : exists u, load_next_impl b ty type_loader (a_next a) (a_total a - a_rest a)%N t1 = (Ok ty, u)).
  { clear Et E1. revert v t E. 
    assert (B : forall A (m : M A) (f : A -> M aval) (g : A -> M atype),
      (forall a s v t, f a s = (Ok v, t) -> exists u, g a s = (Ok ty, u)) ->
      forall s v t, bind m f s = (Ok v, t) -> exists u, bind m g s = (Ok ty, u)).
    { intros A m f g K s1 v t X. mstep X as c w Y; [|discriminate|discriminate]. rewrite (bind_ok _ _ _ _ _ _ _ Y). apply (K _ _ _ _ X). }
    generalize t1. destruct ty; cbn [load_next_impl].
    1: { do 3 (apply B; intros ?). intros. eexists. reflexivity. }
    1-5: do 2 (apply B; intros ?); intros; eexists; reflexivity.
    1-5: unfold load_array; apply B; intros [[n en] len]; do 2 (apply B; intros ?); intros; cbn; eexists; reflexivity.
    all: destruct b; unfold load_special; do 2 (apply B; intros ?); intros; cbn; eexists; reflexivity. }
  destruct K as (w & ->). rewrite Et. eexists. reflexivity.
Qed.
End WithEnv.

(** ** Examples: the attributes of the first node of the sample document, a 32-bit integer and a
    string.  The i32 loader takes the first, and refuses the second. *)
Definition load_names (T : loader Z) : list (op Z) := [ONext; OLoad T; OLoad T].
Definition typed_run (T : loader Z) : option (list (res perr (obs Z))) :=
  match run_from release (sample_doc 7400) [] true (load_names T) with Some (rs, _) => Some rs | None => None end.
Definition typed_summary (T : loader Z) : option (list (option Z * option econtainer)) :=
  match typed_run T with
  | Some rs => Some (map (fun r => match r with Ok (BAttr (Some z)) => (Some z, None) | Err e => (None, Some (e_error e)) | _ => (None, None) end) rs)
  | None => None
  end.
Example typed_example :
  typed_summary prim_i32 = Some [(None, None); (Some (-5)%Z, None); (None, Some (EData (UnexpectedAttribute (str "single i32") (str "string data"))))] /\
  typed_summary prim_i64 = Some [(None, None); (None, Some (EData (UnexpectedAttribute (str "single i64") (str "i32")))); (None, Some (EOperation AlreadyAborted))].
Proof. split; vm_compute; reflexivity. Qed.

Print Assumptions C46_single_type_loaders.
Print Assumptions C46_type_loader.
