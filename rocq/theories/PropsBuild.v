(** Builds with and without arithmetic overflow checks behave alike. *)
Require Import Coq.Lists.List Coq.NArith.NArith Coq.ZArith.ZArith Coq.Bool.Bool Coq.micromega.Lia.
Require Import ZifyBool ZifyNat ZifyN.
Require Import Coq.Init.Byte.
Require Import Verif.Base Verif.BaseFacts Verif.Types Verif.Io Verif.Parser Verif.MonadFacts Verif.SpecHist Verif.ParserHist Verif.Spec Verif.Zlib Verif.Samples Verif.Loaders Verif.ParserPos Verif.ParserSafe Verif.Writer Verif.WriterNodes Verif.Tree Verif.TreeIo Verif.PropsSink Verif.PropsTreeIo Verif.PropsSafety.
Import ListNotations.
Ltac Zify.zify_post_hook ::= Z.div_mod_to_equations.

(** The same program, built with ([true]) or without ([false]) overflow checks. *)
Definition with_checks (e : Env) (checks : bool) : Env :=
  {| zst := @zst e; z_open := @z_open e; z_read := @z_read e; z_feed := @z_feed e; z_fin := @z_fin e; ovf_checks := checks |}.

(** ** The parser *)

Definition rmap {A B} (f : A -> B) (x : res perr A * pstate) : res perr B * pstate :=
  match x with (Ok a, s) => (Ok (f a), s) | (Err e, s) => (Err e, s) | (Panic, s) => (Panic, s) end.
Lemma rmap_bind : forall A B A' B' (f : A -> A') (g : B -> B') (m1 : M A) (m2 : M A') k1 k2 s,
  m2 s = rmap f (m1 s) -> (forall a s, k2 (f a) s = rmap g (k1 a s)) -> bind m2 k2 s = rmap g (bind m1 k1 s).
Proof. intros * H K. unfold bind. rewrite H. destruct (m1 s) as [[a|e|] s1]; cbn [rmap]; auto. Qed.
Lemma rmap_id : forall A (x : res perr A * pstate), rmap (fun a => a) x = x.
Proof. intros A [[a|e|] s]; reflexivity. Qed.

Section Loads.
Context (e : Env) (a b : bool).
Let E1 := with_checks e a.
Let E2 := with_checks e b.

Definition dm (d : @decoder E1) : @decoder E2 := match d with DDirect => @DDirect E2 | DZlib st => @DZlib E2 st end.
Definition im (it : @iterst E1) : @iterst E2 := @mkIter E2 (dm (@it_dec E1 it)) (@it_rest E1 it) (@it_err E1 it) (@it_bad E1 it).
Definition on1 {X} (p : @iterst E1 * X) : @iterst E2 * X := (im (fst p), snd p).

Lemma mk_decoder_sim : forall c s, @mk_decoder pow2_64 E2 c s = rmap dm (@mk_decoder pow2_64 E1 c s).
Proof.
  intros c s. destruct c; [reflexivity|]. unfold mk_decoder. apply rmap_bind with (f := fun x => x); [rewrite rmap_id; reflexivity|].
  intros [st|] s1; reflexivity.
Qed.
Lemma dec_read_sim : forall d n s, @dec_read pow2_64 E2 (dm d) n s = rmap (fun p => (dm (fst p), snd p)) (@dec_read pow2_64 E1 d n s).
Proof.
  intros [|st] n s; unfold dec_read, dm.
  - apply rmap_bind with (f := fun x => x); [rewrite rmap_id; reflexivity|]. reflexivity.
  - apply rmap_bind with (f := fun x => x); [rewrite rmap_id; reflexivity|]. intros [r st'] s1. reflexivity.
Qed.
Lemma it_next_sim : forall A (el : elem A) it s, @it_next pow2_64 E2 A el (im it) s = rmap on1 (@it_next pow2_64 E1 A el it s).
Proof.
  intros A el it s. unfold it_next. change (@it_rest E2 (im it)) with (@it_rest E1 it). destruct (_ =? 0)%N; [reflexivity|].
  eapply rmap_bind; [apply dec_read_sim|]. intros [d [x|bs]] s1; reflexivity.
Qed.
Lemma mloop_sim : forall S1 S2 R1 R2 (fs : S1 -> S2) (fr : R1 -> R2) (f1 : S1 -> M (S1 + R1)) (f2 : S2 -> M (S2 + R2)),
  let m (x : S1 + R1) := match x with inl y => inl (fs y) | inr y => inr (fr y) end in
  (forall x s, f2 (fs x) s = rmap m (f1 x s)) -> forall p x s, mloop p f2 (fs x) s = rmap m (mloop p f1 x s).
Proof.
  intros S1 S2 R1 R2 fs fr f1 f2 m H. induction p as [q IH|q IH|]; intros x s; cbn [mloop].
  - eapply rmap_bind; [apply H|]. intros [x'|v] s1; cbn [m]; [|reflexivity]. eapply rmap_bind; [apply IH|]. intros [x2|v] s2; cbn [m]; [apply IH|reflexivity].
  - eapply rmap_bind; [apply IH|]. intros [x2|v] s2; cbn [m]; [apply IH|reflexivity].
  - apply H.
Qed.
Lemma it_collect_sim : forall A (el : elem A) it s, @it_collect pow2_64 E2 A el (im it) s = rmap on1 (@it_collect pow2_64 E1 A el it s).
Proof.
  intros A el it s. unfold it_collect. change (@it_rest E2 (im it)) with (@it_rest E1 it).
  eapply rmap_bind.
  - change (im it, @nil A) with (on1 (it, @nil A)). eapply (mloop_sim _ _ _ _ (@on1 (list A)) (@on1 (perr + list A))). intros [it' acc] s1. unfold collect_step, on1 at 1. cbn [fst snd].
    eapply rmap_bind; [apply it_next_sim|]. intros [it2 [[x|v]|]] s2; reflexivity.
  - intros [x|x] s1; reflexivity.
Qed.
Lemma run_seq_sim : forall A O (el : elem A) (p : seqprog A O) it s, @run_seq pow2_64 E2 A O el p (im it) s = rmap on1 (@run_seq pow2_64 E1 A O el p it s).
Proof.
  intros A O el p. induction p as [r|k IH|k IH]; intros it s; cbn [run_seq]; [reflexivity| |].
  - eapply rmap_bind; [apply it_next_sim|]. intros [it' o] s1. apply IH.
  - eapply rmap_bind; [apply it_collect_sim|]. intros [it' o] s1. apply IH.
Qed.
Lemma bind_same : forall A B (m1 m2 : M A) (k1 k2 : A -> M B) s, m2 s = m1 s -> (forall a s, k2 a s = k1 a s) -> bind m2 k2 s = bind m1 k1 s.
Proof. intros * H K. unfold bind. rewrite H. destruct (m1 s) as [[x|x|] s1]; auto. Qed.
Lemma load_array_same : forall A O (el : elem A) (ld : N -> seqprog A O) start idx s, @load_array pow2_64 E2 A O el ld start idx s = @load_array pow2_64 E1 A O el ld start idx s.
Proof.
  intros. unfold load_array. apply bind_same; [reflexivity|]. intros [[count enc] len] s1. apply bind_same; [reflexivity|]. intros [] s2.
  rewrite <- (rmap_id _ (bind (@mk_decoder pow2_64 E1 enc) _ s2)). eapply rmap_bind; [apply mk_decoder_sim|]. intros d s3.
  eapply rmap_bind; [apply (run_seq_sim _ _ el (ld count) (@mkIter E1 d count false false))|]. intros [it r] s4. rewrite rmap_id. reflexivity.
Qed.
Lemma load_impl_same : forall O buf t (ld : loader O) start idx s, @load_next_impl pow2_64 E2 O buf t ld start idx s = @load_next_impl pow2_64 E1 O buf t ld start idx s.
Proof. intros. destruct t; try reflexivity; apply load_array_same. Qed.
Lemma try_same : forall A (m1 m2 : M A) s, m2 s = m1 s -> try_ m2 s = try_ m1 s.
Proof. intros A m1 m2 s H. unfold try_. rewrite H. reflexivity. Qed.
Lemma load_gen_same : forall O buf (ld : loader O) s, @load_next_gen pow2_64 E2 O buf ld s = @load_next_gen pow2_64 E1 O buf ld s.
Proof.
  intros. unfold load_next_gen, do_with_health_check. apply bind_same; [reflexivity|]. intros [] s1. apply bind_same; [reflexivity|]. intros x s2. cbv zeta.
  apply bind_same; [|reflexivity]. apply try_same. apply bind_same; [reflexivity|]. intros [t|] s3; [|reflexivity]. apply bind_same; [apply load_impl_same|reflexivity].
Qed.
End Loads.

Section Events.
Context (e : Env).
Let C := with_checks e true.
Let R := with_checks e false.

(** The build with checks panics, or both do the same. *)
Definition agree {A} (m1 m2 : M A) : Prop := forall s, fst (m1 s) = Panic \/ m2 s = m1 s.
Lemma agree_refl : forall A (m : M A), agree m m.
Proof. right. reflexivity. Qed.
Lemma agree_same : forall A (m1 m2 : M A), (forall s, m2 s = m1 s) -> agree m1 m2.
Proof. right. auto. Qed.
Lemma agree_bind : forall A B (m1 m2 : M A) (k1 k2 : A -> M B), agree m1 m2 -> (forall a, agree (k1 a) (k2 a)) -> agree (bind m1 k1) (bind m2 k2).
Proof.
  intros A B m1 m2 k1 k2 H K s. unfold bind. destruct (H s) as [P| ->].
  - destruct (m1 s) as [[a|x|] s1]; try discriminate. left. reflexivity.
  - destruct (m1 s) as [[a|x|] s1]; auto. apply K.
Qed.
Lemma agree_try : forall A (m1 m2 : M A), agree m1 m2 -> agree (try_ m1) (try_ m2).
Proof. intros A m1 m2 H s. unfold try_. destruct (H s) as [P| ->]; [|auto]. destruct (m1 s) as [[a|x|] s1]; try discriminate. left. reflexivity. Qed.

Lemma agree_start : forall start h, agree (@start_node pow2_64 C start h) (@start_node pow2_64 R start h).
Proof.
  intros start h. unfold start_node. apply agree_bind; [apply agree_refl|]. intros _. apply agree_bind; [apply agree_refl|]. intros name.
  destruct (Utf8.utf8_valid name); [|apply agree_refl]. apply agree_bind; [apply agree_refl|]. intros cur. apply agree_bind; [|intros; apply agree_refl].
  intros s. unfold add_u64. destruct (_ <? _)%N; [right; reflexivity|]. left. reflexivity.
Qed.
Lemma agree_impl : agree (@next_event_impl pow2_64 C) (@next_event_impl pow2_64 R).
Proof.
  unfold next_event_impl. do 5 (apply agree_bind; [apply agree_refl|]; intros ?). apply agree_bind; [apply agree_refl|]. intros start. apply agree_bind; [apply agree_refl|]. intros cur. cbv zeta.
  match goal with |- agree (match _ with Some _ => if _ then _ else if _ then _ else ?h1 | None => _ end) (match _ with Some _ => if _ then _ else if _ then _ else ?h2 | None => _ end) =>
    assert (K : agree h1 h2) end.
  { apply agree_bind; [apply agree_refl|]. intros h. apply agree_bind; [apply agree_refl|]. intros hend. destruct (is_node_end h); [apply agree_refl|apply agree_start]. }
  destruct cur as [n|]; [|exact K]. destruct (_ <? _)%N; [apply agree_refl|]. destruct (_ =? _)%N; [apply agree_refl|exact K].
Qed.
Lemma agree_next : agree (@next_event pow2_64 C) (@next_event pow2_64 R).
Proof.
  unfold next_event. apply agree_bind; [apply agree_refl|]. intros prev. apply agree_bind; [apply agree_refl|]. intros _.
  apply agree_bind; [apply agree_try, agree_impl|]. intros r. apply agree_refl.
Qed.
Lemma agree_op : forall O (o : op O), agree (@run_op pow2_64 C O o) (@run_op pow2_64 R O o).
Proof.
  intros O o. destruct o as [|l|l|]; cbn [run_op].
  - apply agree_bind; [apply agree_refl|]. intros _. apply agree_bind; [apply agree_next|]. intros ev. apply agree_refl.
  - apply agree_bind; [apply agree_refl|]. intros [a|]; [|apply agree_refl]. apply agree_bind; [|intros; apply agree_refl]. apply agree_same. intros s. apply load_gen_same.
  - apply agree_bind; [apply agree_refl|]. intros [a|]; [|apply agree_refl]. apply agree_bind; [|intros; apply agree_refl]. apply agree_same. intros s. apply load_gen_same.
  - apply agree_refl.
Qed.

Lemma agree_ops : forall O (l : list (op O)) s,
  run_ops (env := R) l s = run_ops (env := C) l s \/
  exists rs more, fst (run_ops (env := C) l s) = rs ++ [Panic] /\ no_panic rs /\ fst (run_ops (env := R) l s) = rs ++ more.
Proof.
  intros O. induction l as [|o l IH]; intros s; [left; reflexivity|]. cbn [run_ops]. destruct (agree_op O o s) as [P|Q].
  - destruct (run_op (env := C) o s) as [[v|x|] s1]; try discriminate. right. exists [], (fst (run_ops (env := R) (o :: l) s)). repeat split.
  - rewrite Q. destruct (run_op (env := C) o s) as [[v|x|] s1]; [| |left; reflexivity].
    + destruct (IH s1) as [K|(rs & more & K1 & K2 & K3)]; [left; rewrite K; reflexivity|]. right. exists (Ok v :: rs), more.
      destruct (run_ops (env := C) l s1), (run_ops (env := R) l s1). cbn [fst] in *. subst. repeat split; auto.
    + destruct (IH s1) as [K|(rs & more & K1 & K2 & K3)]; [left; rewrite K; reflexivity|]. right. exists (Err x :: rs), more.
      destruct (run_ops (env := C) l s1), (run_ops (env := R) l s1). cbn [fst] in *. subst. repeat split; auto.
Qed.

(** Reading, any history of calls: both builds give the same results (and are left in the same
    state), or the build with overflow checks panics and both gave the same results until
    then. *)
Theorem C63_reading : forall O data sched seeks seekable h p (l : list (op O)),
  opened data sched seeks seekable h p ->
  run_ops (env := with_checks e false) l p = run_ops (env := with_checks e true) l p \/
  exists same more, fst (run_ops (env := with_checks e true) l p) = same ++ [Panic] /\ no_panic same /\
    fst (run_ops (env := with_checks e false) l p) = same ++ more.
Proof. intros O data sched seeks seekable h p l _. apply agree_ops. Qed.

(** Before version 7.5 there is no difference at all. *)
Lemma same_ops : forall O (l : list (op O)) s, inv s -> (p_ver s < 7500)%N ->
  run_ops (env := R) l s = run_ops (env := C) l s.
Proof.
  intros O. induction l as [|o l IH]; intros s I V; [reflexivity|]. cbn [run_ops].
  assert (Q : run_op (env := R) o s = run_op (env := C) o s).
  { destruct (is_skip o) eqn:K; [destruct o; try discriminate; reflexivity|]. destruct (agree_op O o s) as [P|Q]; [|exact Q]. exfalso.
    pose proof (run_op_safe (env := C) O o (p_ver s) K s (conj I eq_refl)) as X. rewrite P in X. cbn in X. destruct X as (_ & _ & X). lia. }
  rewrite Q. pose proof (run_op_inv (env := C) O o s I) as N. pose proof (run_op_fwd (env := C) O o s) as F.
  destruct (run_op (env := C) o s) as [r s1]. cbn [fst snd] in *. destruct r as [v|x|]; [| |reflexivity].
  - rewrite IH; [reflexivity|apply N; discriminate|]. destruct F as [-> _]; [discriminate|exact V].
  - rewrite IH; [reflexivity|apply N; discriminate|]. destruct F as [-> _]; [discriminate|exact V].
Qed.
Theorem C63_reading_old : forall O data sched seeks seekable h p (l : list (op O)),
  opened data sched seeks seekable h p -> (lenN data <= 2 ^ 63)%N -> (p_ver p < 7500)%N ->
  run_ops (env := with_checks e false) l p = run_ops (env := with_checks e true) l p.
Proof. intros. apply same_ops; [|assumption]. eapply opened_inv; eauto. Qed.
End Events.

Section TreesIn.
Context (e : Env).
Let C := with_checks e true.
Let R := with_checks e false.

Lemma agree_mloop : forall S T (f1 f2 : S -> M (S + T)), (forall x, agree (f1 x) (f2 x)) -> forall p x, agree (mloop p f1 x) (mloop p f2 x).
Proof.
  intros S T f1 f2 H. induction p as [q IH|q IH|]; intros x; cbn [mloop].
  - apply agree_bind; [apply H|]. intros [x'|v]; [|apply agree_refl]. apply agree_bind; [apply IH|]. intros [x2|v]; [apply IH|apply agree_refl].
  - apply agree_bind; [apply IH|]. intros [x2|v]; [apply IH|apply agree_refl].
  - apply H.
Qed.
Lemma agree_collect : agree (@collect_attrs C pow2_64) (@collect_attrs R pow2_64).
Proof.
  unfold collect_attrs. apply agree_bind; [apply agree_refl|]. intros a. apply agree_bind; [|intros; apply agree_refl]. apply agree_mloop. intros acc.
  unfold collect_attr. apply agree_bind; [|intros; apply agree_refl]. unfold iter_next. apply agree_bind; [|intros; apply agree_refl].
  apply agree_try, agree_same. intros s. apply load_gen_same.
Qed.
Lemma agree_step : forall x, agree (@load_step C pow2_64 x) (@load_step R pow2_64 x).
Proof.
  intros [t open]. unfold load_step. destruct open as [|cur rest]; [apply agree_refl|]. apply agree_bind; [apply agree_op|]. intros [[nm| |f]|v| |]; try apply agree_refl.
  apply agree_bind; [|intros; apply agree_refl]. unfold loader_add_node. destruct (intern (tr_names t) nm) as [sym names]. apply agree_bind; [apply agree_collect|intros; apply agree_refl].
Qed.
Lemma agree_load : forall s, fst (@load_tree C pow2_64 s) = Panic \/ @load_tree R pow2_64 s = @load_tree C pow2_64 s.
Proof.
  intros s. unfold load_tree. destruct (is_used s); [auto|].
  assert (K : agree (@load_body C pow2_64) (@load_body R pow2_64)). { unfold load_body. apply agree_bind; [apply agree_refl|]. intros s0. apply agree_bind; [|intros; apply agree_refl]. apply agree_mloop, agree_step. }
  destruct (K s) as [P|Q].
  - destruct (load_body (env := C) s) as [[v|x|] s1]; try discriminate. left. reflexivity.
  - rewrite Q. right. reflexivity.
Qed.

(** Loading a tree: both builds give the same result, or the build with overflow checks
    panics, which happens from version 7.5 on only. *)
Theorem C63_loading : forall data sched seeks seekable h p, opened data sched seeks seekable h p -> (lenN data <= 2 ^ 63)%N ->
  load_tree (env := with_checks e false) p = load_tree (env := with_checks e true) p \/
  (7500 <= p_ver p)%N /\ fst (load_tree (env := with_checks e true) p) = Panic.
Proof.
  intros data sched seeks seekable h p Ho Hl. destruct (agree_load p) as [P|Q]; [|auto]. destruct (N.lt_ge_cases (p_ver p) 7500) as [V|V]; [|auto].
  exfalso. exact (C33_no_panic (env := C) _ _ _ _ _ _ Ho Hl (or_intror V) P).
Qed.
End TreesIn.

(** ** The writer *)
Section Writing.
Context (e : Env) (a b : bool).
Let E1 := with_checks e a.
Let E2 := with_checks e b.
Local Open Scope writer_scope.

(** The attributes of a node in progress have not ended before they began, and only those of
    the innermost node can be in progress. *)
Definition all_done (l : list onode) : Prop := Forall (fun n => on_finalized n = true) l.
Definition grounded (s : wstate) : Prop :=
  match w_open s with [] => True | n :: t => (on_finalized n = true \/ on_body_pos n <= k_pos (w_sink s))%N /\ all_done t end.
Lemma done_grounded : forall s, all_done (w_open s) -> grounded s.
Proof. intros s H. unfold grounded. destruct (w_open s); [exact I|]. inversion H; subst. auto. Qed.

Definition wsame {A} (m1 m2 : WM A) : Prop := forall s, grounded s -> m2 s = m1 s /\ (fst (m1 s) <> Panic -> grounded (snd (m1 s))).
Lemma wsame_bind : forall A B (m1 m2 : WM A) (k1 k2 : A -> WM B), wsame m1 m2 -> (forall x, wsame (k1 x) (k2 x)) -> wsame (wbind m1 k1) (wbind m2 k2).
Proof.
  intros A B m1 m2 k1 k2 H K s G. destruct (H s G) as [Q P]. unfold wbind. rewrite Q. destruct (m1 s) as [[x|x|] s1]; cbn [fst snd] in *;
    [|split; [reflexivity|intros _; apply P; discriminate]|split; [reflexivity|congruence]].
  apply K. apply P. discriminate.
Qed.
Lemma wsame_ret : forall A (x : A), wsame (wret x) (wret x).
Proof. intros A x s G. auto. Qed.
Lemma wsame_panic : forall A, wsame (@wpanic A) wpanic.
Proof. intros A s G. auto. Qed.

Lemma finalize_same : forall s, grounded s -> @finalize_attributes E2 s = @finalize_attributes E1 s /\ grounded (snd (@finalize_attributes E1 s)) /\
  (fst (@finalize_attributes E1 s) <> Panic) /\ (fst (@finalize_attributes E1 s) = Ok tt -> all_done (w_open (snd (@finalize_attributes E1 s)))).
Proof.
  intros s G. unfold finalize_attributes, wbind, wgets. unfold grounded in G. destruct (w_open s) as [|n t] eqn:EO.
  { unfold wret, grounded. cbn [fst snd]. rewrite EO. repeat split; auto; try discriminate. constructor. }
  destruct G as [G1 G2]. destruct (on_finalized n) eqn:EF.
  { unfold wret, grounded. cbn [fst snd]. rewrite EO. repeat split; auto; try discriminate. constructor; auto. }
  destruct G1 as [G1|G1]; [discriminate|]. destruct (k_pos_tell s) as (P & O & T). destruct (tell s) as [[p|x|] s1]; cbn [fst snd] in *; [| |contradiction].
  - unfold sub_u64. rewrite T. replace (on_body_pos n <=? k_pos (w_sink s))%N with true by lia. unfold wret, wmodify. cbn [fst snd w_open set_open]. repeat split; try discriminate.
    + left; reflexivity.
    + exact G2.
    + intros _. constructor; [reflexivity|exact G2].
  - repeat split; try discriminate. unfold grounded. rewrite O, EO, P. auto.
Qed.

Lemma header_stays : forall h s, stays 0 (write_node_header h) s (fun _ _ => True).
Proof.
  intros h s0. unfold write_node_header. eapply stays_bind with (P := fun _ _ => True); [intros L; cbn; auto|]. intros v s4 _ _. unfold write_u32.
  eapply stays_bind with (P := fun _ _ => True); [|intros _ s5 _ _; apply stays_write].
  destruct (v <? 7500)%N; (eapply stays_bind with (P := fun _ _ => True); [|intros _ s5 _ _; eapply stays_bind with (P := fun _ _ => True); [|intros _ s6 _ _]]);
    repeat match goal with |- stays _ (if ?b then _ else _) _ _ => destruct b end; first [apply stays_write|apply stays_throw].
Qed.
Lemma stays_opens : forall A (m : WM A) s Q, stays 0 m s Q -> w_open (snd (m s)) = w_open s.
Proof. intros A m s Q K. destruct (K ltac:(lia)) as (_ & O & _). exact O. Qed.

Lemma after_finalize : forall A (k : WM A), (forall s, all_done (w_open s) -> fst (k s) <> Panic -> grounded (snd (k s))) ->
  wsame (@finalize_attributes E1 ;> k) (@finalize_attributes E2 ;> k).
Proof.
  intros A k K s G. destruct (finalize_same s G) as (Q & GS & NP & D). unfold wbind. rewrite Q.
  destruct (finalize_attributes (env := E1) s) as [[[]|x|] s1]; cbn [fst snd] in *; [|split; [reflexivity|intros _; exact GS]|congruence].
  split; [reflexivity|]. apply K. apply D. reflexivity.
Qed.

Lemma new_node_same : forall name, wsame (@new_node E1 name) (@new_node E2 name).
Proof.
  intros name. unfold new_node. apply after_finalize. intros s1 D _. unfold wbind at 1, wmodify at 1. cbn [fst snd]. set (s2 := set_has_child s1).
  assert (D2 : all_done (w_open s2)). { unfold s2, set_has_child. destruct (w_open s1) as [|n t] eqn:EO; [rewrite EO; exact D|]. cbn [w_open set_open]. inversion D; subst. constructor; assumption. }
  destruct (negb _); [apply done_grounded; exact D2|].
  pose proof (stays_opens _ tell s2 _ (stays_tell 0 s2)) as O3. unfold wbind at 1. destruct (tell s2) as [[hp|x|] s3]; cbn [fst snd] in *; [|apply done_grounded; rewrite O3; exact D2|apply done_grounded; rewrite O3; exact D2].
  match goal with |- context [write_node_header ?h] => pose proof (stays_opens _ _ s3 _ (header_stays h s3)) as O4; unfold wbind at 1; destruct (write_node_header h s3) as [[u|x|] s4] end;
    cbn [fst snd] in *; [|apply done_grounded; rewrite O4, O3; exact D2|apply done_grounded; rewrite O4, O3; exact D2].
  pose proof (stays_opens _ _ s4 _ (stays_write 0 WIo name s4)) as O5. unfold wbind at 1, write. destruct (write_as WIo name s4) as [[u5|x|] s5]; cbn [fst snd] in *; [|apply done_grounded; rewrite O5, O4, O3; exact D2|apply done_grounded; rewrite O5, O4, O3; exact D2].
  destruct (k_pos_tell s5) as (P6 & O6 & R6). unfold wbind. destruct (tell s5) as [[bp|x|] s6]; cbn [fst snd] in *; [| |contradiction].
  - unfold wmodify. cbn [fst snd]. unfold grounded. cbn [w_open set_open on_finalized on_body_pos w_sink]. split; [right; lia|]. rewrite O6, O5, O4, O3. exact D2.
  - apply done_grounded. rewrite O6, O5, O4, O3. exact D2.
Qed.

Lemma close_same : wsame (@close_node E1) (@close_node E2).
Proof.
  unfold close_node. apply after_finalize. intros s1 D _. unfold wbind at 1, wgets. cbn [fst snd]. destruct (w_open s1) as [|n t] eqn:EO; [unfold wthrow; cbn [snd]; unfold grounded; rewrite EO; exact I|].
  inversion D; subst. unfold wbind at 1, wmodify. match goal with |- grounded (snd (?m ?s2)) => assert (K : w_open (snd (m s2)) = t) end; [|apply done_grounded; rewrite K; assumption].
  set (s2 := set_open t s1). transitivity (w_open s2); [|reflexivity]. clearbody s2. unfold wbind at 1.
  assert (O3 : w_open (snd (wwhen (on_has_child n || (nh_attrs (on_header n) =? 0)%N) (write_node_header node_end) s2)) = w_open s2)
    by (destruct (_ || _); [apply (stays_opens _ _ _ _ (header_stays _ _))|reflexivity]).
  destruct (wwhen _ _ s2) as [[u|x|] s3]; cbn [fst snd] in *; [|exact O3|exact O3].
  pose proof (stays_opens _ tell s3 _ (stays_tell 0 s3)) as O4. unfold wbind at 1. destruct (tell s3) as [[ep|x|] s4]; cbn [fst snd] in *; [|congruence|congruence].
  assert (SK : forall p s0, w_open (snd (seek p s0)) = w_open s0) by (intros p s0; apply (stays_opens _ _ _ _ (stays_seek 0 p s0 ltac:(lia)))).
  unfold wbind at 1. specialize (SK (on_header_pos n) s4) as O5. destruct (seek (on_header_pos n) s4) as [[u5|x|] s5]; cbn [fst snd] in *; [|congruence|congruence].
  destruct (Bool.eqb _ _); [|cbn [wpanic snd]; unfold wpanic; cbn [snd]; congruence].
  match goal with |- context [write_node_header ?h] => pose proof (stays_opens _ _ s5 _ (header_stays h s5)) as O6; unfold wbind at 1; destruct (write_node_header h s5) as [[u6|x|] s6] end;
    cbn [fst snd] in *; [|congruence|congruence].
  rewrite SK. congruence.
Qed.

Lemma wbind_at : forall A B (m1 m2 : WM A) (k1 k2 : A -> WM B) s, m2 s = m1 s -> (forall x s', m1 s = (Ok x, s') -> k2 x s' = k1 x s') -> wbind m2 k2 s = wbind m1 k1 s.
Proof. intros * H K. unfold wbind. rewrite H. destruct (m1 s) as [[x|x|] s1]; auto. Qed.
Lemma acall_equal : forall c s, @run_acall E2 c s = @run_acall E1 c s.
Proof.
  intros c s. destruct c; try reflexivity. cbn [run_acall]. unfold append_array. cbv zeta. set (en := match enc with Some x => x | None => EncDirect end).
  apply wbind_at; [reflexivity|]. intros hp s1 _. apply wbind_at; [reflexivity|]. intros st s2 T2. apply wbind_at; [reflexivity|]. intros n s3 P3.
  apply wbind_at; [reflexivity|]. intros q s4 T4. apply wbind_at; [|reflexivity].
  pose proof (k_pos_tell s1) as K2. rewrite T2 in K2. cbn [fst snd] in K2. destruct K2 as (A1 & _ & A2).
  pose proof (k_pos_tell s3) as K4. rewrite T4 in K4. cbn [fst snd] in K4. destruct K4 as (B1 & _ & B2).
  pose proof (stays_payload (env := E1) (k_pos (w_sink s2)) en (elems_bytes v) fails s2 ltac:(lia)) as (L & _ & _). rewrite P3 in L. cbn [snd] in L.
  unfold sub_u64. replace (st <=? q)%N with true by lia. reflexivity.
Qed.
Lemma acall_same : forall c, wsame (@run_acall E1 c) (@run_acall E2 c).
Proof.
  intros c s G. split; [apply acall_equal|]. pose proof (acall_split (env := E1) c s) as Q. unfold wbind at 1 in Q. unfold update_node_header, wbind at 1, wgets in Q. unfold grounded in G.
  destruct (w_open s) as [|n t] eqn:EO; [rewrite Q; cbn; congruence|]. destruct (_ <? _)%N; [|intros _; rewrite Q; unfold wthrow; cbn [snd]; unfold grounded; rewrite EO; exact G].
  unfold wmodify in Q. set (n' := mkON _ _ _ _ _) in Q. set (s1 := set_open (n' :: t) s) in Q. intros _. rewrite Q. clear Q.
  set (lo := if on_finalized n then 0%N else on_body_pos n).
  assert (L0 : (lo <= k_pos (w_sink s1))%N) by (unfold lo; cbn [w_sink s1 set_open]; destruct (on_finalized n); [lia|]; destruct G as [[G|G] _]; [discriminate|exact G]).
  match goal with |- grounded (snd (?m s1)) => assert (K : stays lo m s1 (fun _ _ => True)) end.
  { eapply stays_bind; [apply stays_write|]. intros _ s2 _ _. apply after_code_stays. }
  destruct (K L0) as (L & O & _). unfold grounded. rewrite O. cbn [w_open s1 set_open n' on_finalized on_body_pos]. split; [|apply G].
  unfold lo in L. destruct (on_finalized n); [left; reflexivity|right; exact L].
Qed.

Lemma acalls_same : forall l s, grounded s -> @run_acalls E2 l s = @run_acalls E1 l s /\ (existsb is_panic (fst (@run_acalls E1 l s)) = false -> grounded (snd (@run_acalls E1 l s))).
Proof.
  induction l as [|c l IH]; intros s G; [auto|]. cbn [run_acalls]. destruct (acall_same c s G) as [Q P]. rewrite Q.
  destruct (run_acall (env := E1) c s) as [[u|x|] s1]; cbn [fst snd] in *; [| |split; [reflexivity|discriminate]].
  - destruct (IH s1) as [I1 I2]; [apply P; discriminate|]. rewrite I1. destruct (run_acalls (env := E1) l s1) as [rs s2]. auto.
  - destruct (IH s1) as [I1 I2]; [apply P; discriminate|]. rewrite I1. destruct (run_acalls (env := E1) l s1) as [rs s2]. auto.
Qed.
Lemma wcall_same : forall c s, grounded s -> @run_wcall E2 c s = @run_wcall E1 c s /\ (existsb is_panic (fst (@run_wcall E1 c s)) = false -> grounded (snd (@run_wcall E1 c s))).
Proof.
  intros [name attrs|] s G; cbn [run_wcall].
  - destruct (new_node_same name s G) as [Q P]. rewrite Q. destruct (new_node (env := E1) name s) as [[[]|x|] s1]; cbn [fst snd] in *; [| |split; [reflexivity|discriminate]].
    + destruct (acalls_same attrs s1) as [I1 I2]; [apply P; discriminate|]. rewrite I1. destruct (run_acalls (env := E1) attrs s1) as [rs s2]. auto.
    + split; [reflexivity|]. intros _. apply P. discriminate.
  - destruct (close_same s G) as [Q P]. rewrite Q. destruct (close_node (env := E1) s) as [[[]|x|] s1]; cbn [fst snd] in *; (split; [reflexivity|]); intros X; try discriminate X; apply P; discriminate.
Qed.
Lemma wcalls_same : forall l s, grounded s -> @run_wcalls E2 l s = @run_wcalls E1 l s.
Proof.
  induction l as [|c l IH]; intros s G; [reflexivity|]. cbn [run_wcalls]. destruct (wcall_same c s G) as [Q P]. rewrite Q.
  destruct (run_wcall (env := E1) c s) as [rs s1]. cbn [fst snd] in *. destruct (existsb is_panic rs); [reflexivity|]. rewrite IH; auto.
Qed.
Lemma new_writer_grounded : forall k ver s, new_writer k ver = Ok s -> grounded s.
Proof.
  intros k ver s H. unfold new_writer in H. destruct (negb _); [discriminate|]. destruct ((seek 0;> write magic;> write (le_enc 4 ver)) (mkW k ver [])) as [[u|x|] s0] eqn:E0; try discriminate. injection H as ->.
  assert (K : stays 0 (seek 0;> write magic;> write (le_enc 4 ver)) (mkW k ver []) (fun _ _ => True)).
  { eapply stays_bind; [apply stays_seek; lia|]. intros _ s1 _ _. eapply stays_bind; [apply stays_write|]. intros _ s2 _ _. apply stays_write. }
  destruct (K ltac:(lia)) as (_ & O & _). rewrite E0 in O. cbn [snd w_open] in O. unfold grounded. rewrite O. exact I.
Qed.

(** Trees and the macro. *)
Lemma wattrs_same : forall l, wsame (@write_attributes E1 l) (@write_attributes E2 l).
Proof. induction l as [|v l IH]; cbn [write_attributes]; [apply wsame_ret|]. apply wsame_bind; [apply acall_same|]. intros _. exact IH. Qed.
Lemma wnext_same : forall f t v c, wsame (@next_node E1 f t v c) (@next_node E2 f t v c).
Proof.
  induction f as [|f IH]; intros t v c; cbn [next_node]; [apply wsame_panic|]. destruct (if v then first_child t c else None); [apply wsame_ret|].
  apply wsame_bind; [apply close_same|]. intros _. destruct (next_sibling t c); [apply wsame_ret|]. destruct (parent t c); [|apply wsame_panic]. destruct (Nat.eqb _ _); [apply wsame_ret|apply IH].
Qed.
Lemma wloop_same : forall f t c, wsame (@write_loop E1 f t c) (@write_loop E2 f t c).
Proof.
  induction f as [|f IH]; intros t c; cbn [write_loop]; [apply wsame_panic|]. destruct (name t c); [|apply wsame_panic]. destruct (attributes t c); [|apply wsame_panic].
  apply wsame_bind; [apply new_node_same|]. intros _. apply wsame_bind; [apply wattrs_same|]. intros _. apply wsame_bind; [apply wnext_same|]. intros [x|]; [apply IH|apply wsame_ret].
Qed.
Lemma wtree_same : forall t, wsame (@write_tree E1 t) (@write_tree E2 t).
Proof. intros t. unfold write_tree. destruct (first_child t (tr_root t)); [apply wloop_same|apply wsame_ret]. Qed.

(** Writing: whatever is called, in whatever order, and whatever the sink does, both builds
    give the same results and leave the same bytes in the sink. *)
Theorem C63_writing : forall k ver s l, new_writer k ver = Ok s ->
  run_wcalls (env := with_checks e a) l s = run_wcalls (env := with_checks e b) l s.
Proof. intros k ver s l H. symmetry. apply wcalls_same. eapply new_writer_grounded; eauto. Qed.

(** So does writing a tree, after any other calls. *)
Theorem C63_writing_tree : forall k ver s l rs s' t, new_writer k ver = Ok s ->
  run_wcalls (env := with_checks e a) l s = (rs, s') -> existsb is_panic rs = false ->
  write_tree (env := with_checks e a) t s' = write_tree (env := with_checks e b) t s'.
Proof.
  intros k ver s l rs s' t H E N. symmetry. apply wtree_same.
  apply new_writer_grounded in H. revert s rs E N H. induction l as [|c l IH]; intros s rs E N G; [injection E as <- <-; exact G|].
  cbn [run_wcalls] in E. destruct (wcall_same c s G) as [_ P]. fold E1 in E. destruct (run_wcall (env := E1) c s) as [r1 s1]. cbn [fst snd] in P.
  destruct (existsb is_panic r1) eqn:X; [injection E as <- <-; congruence|]. destruct (run_wcalls (env := E1) l s1) as [r2 s2] eqn:E2'. injection E as <- <-.
  rewrite existsb_app, X in N. eapply IH; eauto.
Qed.
End Writing.

(** ** Concrete cases *)
Module BuildCases.
Import SinkCases.

(** A 7.5 document: a good node, then one which claims 2^64-1 bytes of attributes.  Both
    builds read the first node; then only the one without checks goes on. *)
Definition good_then_huge : list byte :=
  magic ++ le_enc 4 7500 ++ le_enc 8 78 ++ le_enc 8 0 ++ le_enc 8 0 ++ [x01] ++ s_a ++ zeros 25 ++
  le_enc 8 1000 ++ le_enc 8 1 ++ le_enc 8 (2 ^ 64 - 1) ++ [x01] ++ s_b ++ zeros 30.
Example C63_reading_ex : exists p, opened good_then_huge [AChunk 3] [] true None p /\
  fst (run_ops (env := with_checks release true) [@ONext aval; ONext; ONext; ld] p) = [Ok (BEvent (EvStart s_a)); Ok (BEvent EvEnd); Panic] /\
  firstn 3 (fst (run_ops (env := with_checks release false) [@ONext aval; ONext; ONext; ld] p)) = [Ok (BEvent (EvStart s_a)); Ok (BEvent EvEnd); Ok (BEvent (EvStart s_b))] /\
  fst (load_tree (env := with_checks release true) p) = Panic /\ fst (load_tree (env := with_checks release false) p) <> Panic.
Proof.
  eexists. split; [eexists; split; [vm_compute; reflexivity|reflexivity]|]. split; [vm_compute; reflexivity|]. split; [vm_compute; reflexivity|].
  split; [vm_compute; reflexivity|vm_compute; discriminate].
Qed.
(** Reading a 7.4 document with attribute loads, a skip and calls after the end. *)
Definition mixed_ops : list (op aval) := [ONext; ld; ld; ld; ONext; OSkip; ONext; ONext; ONext; ONext; ONext].
Example C63_reading_old_ex : exists p, opened (sample_doc 7400) [AChunk 3; AIntr] [] true None p /\
  (lenN (sample_doc 7400) <= 2 ^ 63)%N /\ (p_ver p < 7500)%N /\
  existsb is_ok (fst (run_ops (env := with_checks release true) mixed_ops p)) = true.
Proof.
  eexists. split; [eexists; split; [vm_compute; reflexivity|reflexivity]|]. split; [vm_compute; discriminate|]. split; vm_compute; reflexivity.
Qed.
(** The histories of [PropsSink]: errors after which the client goes on, and the panic of
    [C31_refuted], which comes in both builds. *)
Example C63_writing_ex : exists s rs s', new_writer kfail 7400 = Ok s /\ run_wcalls (env := with_checks release true) hist s = (rs, s') /\
  existsb is_panic rs = false /\ In (Err (WIo (IoOther 9))) rs /\ In (Err (WIo (IoOther 4))) rs.
Proof.
  do 3 eexists. split; [vm_compute; reflexivity|]. split; [vm_compute; reflexivity|]. split; [reflexivity|]. cbn [In]. split; tauto.
Qed.
Example C63_writing_panic_ex : exists s, new_writer kbad 7400 = Ok s /\
  In Panic (fst (run_wcalls (env := with_checks release true) [CNode s_a [ASingle (SI32 7)]; CClose] s)) /\
  In Panic (fst (run_wcalls (env := with_checks release false) [CNode s_a [ASingle (SI32 7)]; CClose] s)).
Proof. eexists. split; [vm_compute; reflexivity|]. vm_compute. tauto. Qed.
End BuildCases.
