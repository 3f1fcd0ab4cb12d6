(** * C45: a loader cannot hide that decoding an array failed

    An array loader receives an iterator over the elements.  The iterator may yield errors,
    and the loader is free to ignore them.  [load_next] must not return a value then.

    The specification instruments the loader: [watching ld] does what [ld] does and, when
    it succeeds, also says whether the iterator ever yielded an error. *)

From Coq Require Import List ZArith NArith Bool Lia.
From Coq Require Import String Init.Byte.
From Verif Require Import Base Types Io Parser Loaders Spec Zlib Samples.
Import ListNotations.
Open Scope list_scope.
Open Scope monad_scope.

(** ** Specification *)

Fixpoint watch {A O} (seen : bool) (p : seqprog A O) : seqprog A (bool * O) :=
  match p with
  | SRet (inl e) => SRet (inl e)
  | SRet (inr v) => SRet (inr (seen, v))
  | SNext k => SNext (fun o => watch (match o with Some (inl _) => true | _ => seen end) (k o))
  | SCollect k => SCollect (fun o => watch (match o with inl _ => true | _ => seen end) (k o))
  end.

Definition unseen {O} (r : perr + O) : perr + (bool * O) :=
  match r with inl e => inl e | inr v => inr (false, v) end.

Fixpoint unseen_rd {O} (p : rdprog O) : rdprog (bool * O) :=
  match p with
  | RRet r => RRet (unseen r)
  | RRead n k => RRead n (fun x => unseen_rd (k x))
  | RExact n k => RExact n (fun x => unseen_rd (k x))
  | RToEnd k => RToEnd (fun x => unseen_rd (k x))
  | RBuf amt k => RBuf amt (fun x => unseen_rd (k x))
  end.

Definition watching {O} (ld : loader O) : loader (bool * O) :=
  mkLoader
    (fun b => unseen (ld_bool ld b)) (fun v => unseen (ld_i16 ld v)) (fun v => unseen (ld_i32 ld v))
    (fun v => unseen (ld_i64 ld v)) (fun v => unseen (ld_f32 ld v)) (fun v => unseen (ld_f64 ld v))
    (fun n => watch false (ld_abool ld n)) (fun n => watch false (ld_ai32 ld n))
    (fun n => watch false (ld_ai64 ld n)) (fun n => watch false (ld_af32 ld n))
    (fun n => watch false (ld_af64 ld n))
    (fun n => unseen_rd (ld_bin ld n)) (fun n => unseen_rd (ld_str ld n))
    (fun n => unseen_rd (ld_bin_buf ld n)) (fun n => unseen_rd (ld_str_buf ld n)).

(** ** Proofs *)

Section WithEnv.
Context {env : Env}.

Lemma it_next_err : forall A (el : elem A) it s it' o s',
  it_next el it s = (Ok (it', o), s') ->
  it_err it' = match o with Some (inl _) => true | _ => it_err it end.
Proof.
  intros A el it s it' o s' H. unfold it_next in H.
  destruct (it_rest it =? 0)%N. { injection H as <- <- <-. reflexivity. }
  unfold bind in H. destruct (dec_read (it_dec it) (el_size el) s) as [[[d r]| |] s1]; try discriminate.
  destruct r as [e|bs]; injection H as <- <- <-; reflexivity.
Qed.

Lemma mloop_inv : forall S R (f : S -> M (S + R)) (I : S -> Prop) (J : R -> Prop),
  (forall x s y s', I x -> f x s = (Ok y, s') -> match y with inl x' => I x' | inr r => J r end) ->
  forall p x s y s', I x -> mloop p f x s = (Ok y, s') ->
  match y with inl x' => I x' | inr r => J r end.
Proof.
  intros S R f I J HF. induction p as [q IH|q IH|]; intros x s y s' HI H; cbn [mloop] in H.
  - unfold bind in H. destruct (f x s) as [[r| |] s1] eqn:E; try discriminate.
    pose proof (HF _ _ _ _ HI E) as HI1. destruct r as [x1|v].
    + destruct (mloop q f x1 s1) as [[r| |] s2] eqn:E2; try discriminate.
      pose proof (IH _ _ _ _ HI1 E2) as HI2. destruct r as [x2|v].
      * exact (IH _ _ _ _ HI2 H).
      * injection H as <- <-. exact HI2.
    + injection H as <- <-. exact HI1.
  - unfold bind in H. destruct (mloop q f x s) as [[r| |] s1] eqn:E; try discriminate.
    pose proof (IH _ _ _ _ HI E) as HI1. destruct r as [x1|v].
    + exact (IH _ _ _ _ HI1 H).
    + injection H as <- <-. exact HI1.
  - exact (HF _ _ _ _ HI H).
Qed.

Lemma it_collect_err : forall A (el : elem A) it s it' o s',
  it_collect el it s = (Ok (it', o), s') ->
  it_err it' = match o with inl _ => true | _ => it_err it end.
Proof.
  intros A el it s it' o s' H. unfold it_collect, bind in H.
  destruct (mloop _ _ _ s) as [[y| |] s1] eqn:E; try discriminate.
  pose proof (mloop_inv _ _ (collect_step el)
    (fun x => it_err (fst x) = it_err it)
    (fun r => it_err (fst r) = match snd r with inl _ => true | _ => it_err it end)) as L.
  assert (L' := fun HF => L HF _ _ _ _ _ (eq_refl : it_err (fst (it, @nil A)) = it_err it) E). clear L.
  destruct y as [x|[it2 r]]; try discriminate. injection H as <- <- <-. apply L'.
  clear. intros [it0 acc] s y s' HI H. cbn [fst] in HI. unfold collect_step, bind in H.
  destruct (it_next el it0 s) as [[[it1 o]| |] s1] eqn:E; try discriminate.
  apply it_next_err in E. destruct o as [[e|v]|]; injection H as <- <-; cbn [fst snd];
    rewrite E; auto.
Qed.

(** The instrumented program runs alongside the original. *)
Lemma run_watch : forall A O (el : elem A) (p : seqprog A O) seen it s,
  it_err it = seen ->
  match run_seq el p it s with
  | (Ok (it', r), s') =>
      run_seq el (watch seen p) it s =
        (Ok (it', match r with inl e => inl e | inr v => inr (it_err it', v) end), s')
  | (Err e, s') => run_seq el (watch seen p) it s = (Err e, s')
  | (Panic, s') => run_seq el (watch seen p) it s = (Panic, s')
  end.
Proof.
  intros A O el. induction p as [r|k IH|k IH]; intros seen it s HS; cbn [run_seq].
  - destruct r as [e|v]; cbn [watch run_seq]; unfold ret; [|rewrite HS]; reflexivity.
  - cbn [watch run_seq]. unfold bind. destruct (it_next el it s) as [[[it1 o]| |] s1] eqn:E; try reflexivity.
    apply it_next_err in E. apply IH. rewrite E. destruct o as [[e|v]|]; [reflexivity|exact HS|exact HS].
  - cbn [watch run_seq]. unfold bind. destruct (it_collect el it s) as [[[it1 o]| |] s1] eqn:E; try reflexivity.
    apply it_collect_err in E. apply IH. rewrite E. destruct o as [e|v]; [reflexivity|exact HS].
Qed.

Definition same_run {O} (m : M O) (m' : M (bool * O)) :=
  forall s, m' s = (match fst (m s) with Ok v => Ok (false, v) | Err e => Err e | Panic => Panic end, snd (m s)).

Lemma same_bind : forall A O (x : M A) (k : A -> M O) (k' : A -> M (bool * O)),
  (forall a, same_run (k a) (k' a)) -> same_run (bind x k) (bind x k').
Proof.
  intros A O x k k' H s. unfold bind. destruct (x s) as [[a| |] s1]; try reflexivity. apply H.
Qed.

Lemma same_lift : forall O (r : perr + O), same_run (lift r) (lift (unseen r)).
Proof. intros O [e|v] s; reflexivity. Qed.

Lemma watch_array : forall A O (el : elem A) (ld : N -> seqprog A O) start idx,
  same_run (load_array el ld start idx) (load_array el (fun n => watch false (ld n)) start idx).
Proof.
  intros A O el ld start idx. unfold load_array.
  apply same_bind. intros [[count enc] len].
  apply same_bind. intros _. apply same_bind. intros d.
  intros s. unfold bind.
  pose proof (run_watch A O el (ld count) false (mkIter d count false false) s eq_refl) as R.
  destruct (run_seq el (ld count) _ s) as [[[it r]| |] s1]; rewrite R; try reflexivity.
  destruct r as [e|v]; [reflexivity|]. cbn [lift]. unfold ret.
  destruct (when (it_bad it) (warn_bool start idx) s1) as [[u| |] s2]; try reflexivity.
  destruct (it_err it); reflexivity.
Qed.

Lemma unseen_run : forall O (p : rdprog O) limit s,
  run_rd (unseen_rd p) limit s =
  (match fst (run_rd p limit s) with Ok r => Ok (unseen r) | Err e => Err e | Panic => Panic end,
   snd (run_rd p limit s)).
Proof.
  intros O p. induction p as [r|n k IH|n k IH|k IH|amt k IH]; intros limit s; cbn [unseen_rd run_rd].
  - reflexivity.
  - unfold bind. destruct (rdop _ s) as [[r| |] s1]; try reflexivity. apply IH.
  - destruct (N.of_nat n <=? limit)%N; unfold bind;
      (destruct (reader_pos s) as [[p0| |] s1]; try reflexivity);
      (destruct (rdop _ s1) as [[r| |] s2]; try reflexivity);
      (destruct (reader_pos s2) as [[p1| |] s3]; try reflexivity); apply IH.
  - unfold bind.
      (destruct (reader_pos s) as [[p0| |] s1]; try reflexivity);
      (destruct (rdop _ s1) as [[r| |] s2]; try reflexivity);
      (destruct (reader_pos s2) as [[p1| |] s3]; try reflexivity); apply IH.
  - unfold bind.
      (destruct (rdop _ s) as [[r| |] s1]; try reflexivity);
      (destruct (rdop _ s1) as [[r'| |] s2]; try reflexivity); apply IH.
Qed.

Lemma watch_special : forall O (ld : N -> rdprog O),
  same_run (load_special ld) (load_special (fun n => unseen_rd (ld n))).
Proof.
  intros O ld. unfold load_special. apply same_bind. intros len. apply same_bind. intros _ s.
  unfold bind. rewrite unseen_run. destruct (run_rd (ld len) len s) as [[r| |] s1]; try reflexivity.
  cbn [fst snd]. apply same_lift.
Qed.

Lemma watch_impl : forall O buffered t (ld : loader O) start idx,
  same_run (load_next_impl buffered t ld start idx) (load_next_impl buffered t (watching ld) start idx).
Proof.
  intros O buffered t ld start idx. destruct t; cbn [load_next_impl watching ld_bool ld_i16 ld_i32 ld_i64
    ld_f32 ld_f64 ld_abool ld_ai32 ld_ai64 ld_af32 ld_af64 ld_bin ld_str ld_bin_buf ld_str_buf];
    try apply watch_array;
    try (destruct buffered; apply watch_special);
    repeat (apply same_bind; intros); apply same_lift.
Qed.

Lemma watch_next : forall O buffered (ld : loader O) s,
  load_next_gen buffered (watching ld) s =
  (match fst (load_next_gen buffered ld s) with
   | Ok (Some v) => Ok (Some (false, v))
   | Ok None => Ok None
   | Err e => Err e
   | Panic => Panic
   end, snd (load_next_gen buffered ld s)).
Proof.
  intros O buffered ld s. unfold load_next_gen, do_with_health_check. unfold bind, try_, ret.
  destruct (ensure_continuable s) as [[u| |] s1]; try reflexivity.
  destruct (get_attrs s1) as [[a| |] s2]; try reflexivity. cbv zeta.
  destruct (read_next_attr_type s2) as [[[t|]| |] s3]; try reflexivity.
  - rewrite (watch_impl O buffered t ld (a_next a) (a_total a - a_rest a)%N s3).
    destruct (load_next_impl buffered t ld (a_next a) (a_total a - a_rest a)%N s3) as [[v| |] s4]; cbn [fst snd]; try reflexivity.
    destruct (attr_position (a_next a) (a_total a - a_rest a)%N s4) as [[p| |] s5]; reflexivity.
  - destruct (attr_position (a_next a) (a_total a - a_rest a)%N s3) as [[p| |] s5]; reflexivity.
Qed.

(** C45: whatever a loader does with the elements it is offered, when [load_next] returns a
    value the iterator had yielded no error: the same loader, asked to report whether it saw
    one, returns the same value with the report "none", and leaves the parser in the same
    state.  In particular it never reports one. *)
Theorem C45_array_errors_not_hidden : forall O buffered (ld : loader O) s,
  (forall v s', load_next_gen buffered ld s = (Ok (Some v), s') ->
                load_next_gen buffered (watching ld) s = (Ok (Some (false, v)), s')) /\
  (forall v s', load_next_gen buffered (watching ld) s <> (Ok (Some (true, v)), s')).
Proof.
  intros O buffered ld s. rewrite watch_next.
  destruct (load_next_gen buffered ld s) as [[[v|]| |] s1]; cbn [fst snd]; split;
    intros; try discriminate.
  match goal with H : _ = _ |- _ => injection H as <- <- end. reflexivity.
Qed.

End WithEnv.

(** ** A concrete case

    A loader that asks for two elements and ignores what it gets, on an array of two elements
    of which the second is cut off, and on a complete one. *)

Definition careless : loader nat :=
  set_ld_ai32 (default_loader nat "i32 array"%string)
    (fun _ => SNext (fun _ => SNext (fun _ => SRet (inr 7%nat)))).

Definition two_ints : list byte :=
  enc_doc (env:=release) 7400 [Node s_a [mkAttr (VArrI32 [1; 2]%Z) false] []] (sample_foot 7400).
(** The header, the node header with its name, the type code and the array header take
    27 + 14 + 1 + 12 bytes; then come 8 bytes of elements. *)
Definition cut_ints : list byte := firstn 60 two_ints.

Example C45_ex :
  match run_from release two_ints [] false [ONext; OLoad (watching careless)] with
  | Some ([_; Ok r], _) => r = BAttr (Some (false, 7%nat))
  | _ => False
  end /\
  match run_from release cut_ints [] false [ONext; OLoad (watching careless)] with
  | Some ([_; Err e], _) => e_error e = EData NodeAttributeError
  | _ => False
  end.
Proof. vm_compute. split; reflexivity. Qed.

(** A read that fails in the middle of compressed data. *)
Definition zip_ints : list byte :=
  enc_doc (env:=release) 7400 [Node s_a [mkAttr (VArrI32 [1; 2]%Z) true] []] (sample_foot 7400).
Example careless_failing_read :
  match any_parser (mkStream zip_ints 0 (repeat (AChunk 1) 66 ++ [AIntr; AFail 5]) []) true with
  | Ok p =>
      match fst (run_ops (env:=release) [ONext; OLoad careless; ONext] p) with
      | [Ok (BEvent (EvStart _)); Err e; Err e'] =>
          e_error e = EData NodeAttributeError /\ e_error e' = EOperation AlreadyAborted
      | _ => False
      end
  | _ => False
  end.
Proof. vm_compute. auto. Qed.

Print Assumptions C45_array_errors_not_hidden.
