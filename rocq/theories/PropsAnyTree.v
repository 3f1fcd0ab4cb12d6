(** C48: loading a whole file in one call ([AnyTree]) does what its parts do. *)
Require Import Coq.Lists.List Coq.Arith.PeanoNat Coq.NArith.NArith Coq.ZArith.ZArith Coq.Bool.Bool Lia.
Require Import Coq.Init.Byte.
Require Import ZifyBool ZifyNat ZifyN.
Require Import Verif.Base Verif.BaseFacts Verif.Types Verif.Io Verif.IoFacts Verif.Parser Verif.MonadFacts Verif.Zlib Verif.ParserHist Verif.ParserPos Verif.ParserRel Verif.Loaders Verif.Spec Verif.PropsHeader Verif.PropsRel Verif.PropsSafety Verif.PropsEvents Verif.PropsSafety Verif.CutRel Verif.CutParser Verif.CutLoad Verif.PropsTrunc Verif.Tree Verif.TreeSpec Verif.PropsTreeEq Verif.TreeIo Verif.TreeIoSpec Verif.TreeLoad Verif.PropsTreeIo Verif.Samples.
Import ListNotations.
Local Open Scope nat_scope.
Local Open Scope list_scope.
Ltac Zify.zify_post_hook ::= Z.div_mod_to_equations.

Section WithEnv.
Context {env : Env}.

(** ** The loaded tree is a function of the items *)

Fixpoint build (items : list item) (t : tree) (open : list nat) : option tree :=
  match items, open with
  | [], _ => Some t
  | IStart nm ats :: l, p :: _ =>
      let '(sym, names) := intern (tr_names t) nm in
      match append (length (tr_arena t)) p (mkTree (tr_arena t ++ [fresh_slot sym ats]) names (tr_root t)) with
      | Some t' => build l t' (length (tr_arena t) :: open)
      | None => None
      end
  | IEnd :: l, _ :: rest => build l t rest
  | _, [] => None
  end.

Lemma load_loop_build : forall n s t st t' f s', nloop n load_step (t, st) s = (Ok (inr (t', f)), s') ->
  exists items, reads s items (Ok f) s' /\ build items t st = Some t'.
Proof.
  induction n as [|n IH]; intros s t st t' f s' H; [discriminate|].
  destruct st as [|p st]; [discriminate|].
  cbn [nloop] in H. unfold bind at 1 in H. cbn [load_step] in H. unfold bind at 1 in H.
  destruct (run_op (@ONext aval) s) as [[b|e|] s1] eqn:E; [|discriminate|discriminate].
  destruct b as [[nm| |ft]| | |]; try discriminate.
  - destruct (C16_start_counts aval s nm s1 E) as (nd & a & _ & Ha & Hh & _ & _ & _).
    unfold loader_add_node in H. destruct (intern (tr_names t) nm) as [sym names] eqn:EI.
    unfold bind in H. destruct (collect_attrs s1) as [q s2] eqn:EC.
    apply (collect_attrs_loads s1 a q s2 Ha Hh) in EC. destruct q as [ats|e|]; [|discriminate|discriminate].
    destruct (append (length (tr_arena t)) p _) as [t2|] eqn:AP; [|discriminate]. cbn [ret] in H.
    destruct (IH _ _ _ _ _ _ H) as (items & R & B). exists (IStart nm ats :: items). split; [eapply reads_start; eauto|].
    cbn [build]. rewrite EI, AP. exact B.
  - unfold ret in H at 1. cbn beta iota in H. destruct (IH _ _ _ _ _ _ H) as (items & R & B).
    exists (IEnd :: items). split; [eapply reads_end; eauto|exact B].
  - destruct st; [|discriminate]. injection H as <- <- <-. exists []. split; [constructor; exact E|reflexivity].
Qed.

(** What [load] returns is determined by what a client sees that reads everything. *)
Lemma load_same : forall p1 p2 items o s1 s2, p_last p1 = None -> p_last p2 = None ->
  (forall r s', load_tree p1 = (r, s') -> exists i x, reads p1 i x s' /\ load_matches i x r) ->
  (forall r s', load_tree p2 = (r, s') -> exists i x, reads p2 i x s' /\ load_matches i x r) ->
  reads p1 items o s1 -> reads p2 items o s2 -> fst (load_tree p1) = fst (load_tree p2).
Proof.
  intros p1 p2 items o s1 s2 L1 L2 H1 H2 R1 R2.
  destruct (load_tree p1) as [r1 u1] eqn:E1, (load_tree p2) as [r2 u2] eqn:E2.
  destruct (H1 _ _ eq_refl) as (i1 & x1 & K1 & M1). destruct (H2 _ _ eq_refl) as (i2 & x2 & K2 & M2).
  destruct (reads_det _ _ _ _ R1 _ _ _ K1) as (-> & -> & ->). destruct (reads_det _ _ _ _ R2 _ _ _ K2) as (-> & -> & ->).
  cbn [fst]. destruct o as [f|e|]; cbn [load_matches] in M1, M2; [|congruence|congruence].
  destruct M1 as (t1 & ds1 & -> & _), M2 as (t2 & ds2 & -> & _).
  assert (B : forall p t u, p_last p = None -> load_tree p = (Ok (t, f), u) ->
    exists items', reads p items' (Ok f) u /\ build items' tree_default [tr_root tree_default] = Some t).
  { intros p t u L E. unfold load_tree, is_used in E. rewrite L in E. unfold load_body in E. rewrite bind_gets in E. unfold bind in E. rewrite mloop_nloop in E.
    destruct (nloop _ load_step _ p) as [[[y|[t' f']]|e|] s'] eqn:N; try discriminate. cbn in E. injection E as -> -> ->.
    apply load_loop_build in N. exact N. }
  destruct (B _ _ _ L1 E1) as (j1 & J1 & B1). destruct (B _ _ _ L2 E2) as (j2 & J2 & B2).
  destruct (reads_det _ _ _ _ R1 _ _ _ J1) as (-> & _ & _). destruct (reads_det _ _ _ _ R2 _ _ _ J2) as (-> & _ & _).
  rewrite B1 in B2. injection B2 as ->. reflexivity.
Qed.

Lemma opened_same : forall d1 sc1 sk1 b1 h1 p1 d2 sc2 sk2 b2 h2 p2 items o s1 s2,
  opened d1 sc1 sk1 b1 h1 p1 -> opened d2 sc2 sk2 b2 h2 p2 ->
  reads p1 items o s1 -> reads p2 items o s2 -> fst (load_tree p1) = fst (load_tree p2).
Proof.
  intros d1 sc1 sk1 b1 h1 p1 d2 sc2 sk2 b2 h2 p2 items o s1 s2 O1 O2 R1 R2.
  apply (load_same p1 p2 items o s1 s2); auto.
  - apply opened_init in O1. apply O1.
  - apply opened_init in O2. apply O2.
  - exact (C33_load_reads _ _ _ _ _ _ O1).
  - exact (C33_load_reads _ _ _ _ _ _ O2).
Qed.

(** ** Reading everything, as a list of calls *)

Definition plain_op (o : op aval) : Prop := o = ONext \/ o = OLoad direct_loader.

Lemma run_cons : forall (o : op aval) l rs s s', run_ops (o :: l) s = (rs, s') ->
  match run_op o s with
  | (Panic, s1) => rs = [Panic] /\ s' = s1
  | (r, s1) => exists rs1, rs = r :: rs1 /\ run_ops l s1 = (rs1, s')
  end.
Proof.
  intros o l rs s s' H. cbn [run_ops] in H. destruct (run_op o s) as [[b|e|] s1]; [| |injection H as <- <-; auto];
    destruct (run_ops l s1) as [rs1 s2] eqn:E; injection H as <- <-; eauto.
Qed.

Lemma loads_ops : forall s vs r s', loads s vs r s' ->
  exists l rs, run_ops l s = (rs, s') /\ Forall plain_op l /\
    (forall u u', run_ops l u = (rs, u') -> loads u vs r u') /\
    (r <> Panic -> forall l2 u rs2 u2, run_ops (l ++ l2) u = (rs ++ rs2, u2) -> exists u1, run_ops l u = (rs, u1) /\ run_ops l2 u1 = (rs2, u2)) /\
    (r <> Panic -> forall l2 rs2 s2, run_ops l2 s' = (rs2, s2) -> run_ops (l ++ l2) s = (rs ++ rs2, s2)).
Proof.
  assert (S1 : forall (o : op aval) r s s', run_op o s = (r, s') ->
    run_ops [o] s = ([r], s') /\ (forall u u', run_ops [o] u = ([r], u') -> run_op o u = (r, u'))).
  { intros o r s s' H. split; [cbn [run_ops]; rewrite H; destruct r; reflexivity|].
    intros u u' X. apply run_cons in X. destruct (run_op o u) as [[b|e|] s1]; [| |destruct X as [[= ->] ->]; reflexivity];
      destruct X as (rs1 & [= -> <-] & X); injection X as <-; reflexivity. }
  assert (S2 : forall (o : op aval) r, r <> Panic -> forall l2 u rs2 u2, run_ops ([o] ++ l2) u = ([r] ++ rs2, u2) ->
    exists u1, run_ops [o] u = ([r], u1) /\ run_ops l2 u1 = (rs2, u2)).
  { intros o r Hr l2 u rs2 u2 H. cbn [app] in H. apply run_cons in H. cbn [run_ops].
    destruct (run_op o u) as [[b|e|] s1]; [| |destruct H as [[= -> _] _]; congruence];
      destruct H as (rs1 & [= -> <-] & H); eauto. }
  assert (S3 : forall (o : op aval) r s s', run_op o s = (r, s') -> r <> Panic -> forall l2 rs2 s2, run_ops l2 s' = (rs2, s2) ->
    run_ops ([o] ++ l2) s = ([r] ++ rs2, s2)).
  { intros o r s s' H Hr l2 rs2 s2 H2. cbn [app run_ops]. rewrite H, H2. destruct r; congruence. }
  induction 1 as [s s' H|s v s1 vs r s' H K IH|s e s' H|s s' H].
  - exists [OLoad direct_loader], [Ok (BAttr None)]. destruct (S1 _ _ _ _ H) as [A B].
    split; [exact A|]. split; [repeat constructor; right; reflexivity|]. split; [intros u u' X; apply loads_none; auto|].
    split; intros _; [apply S2; discriminate|apply (S3 _ _ _ _ H); discriminate].
  - destruct IH as (l & rs & A & F & B & C & D). exists (OLoad direct_loader :: l), (Ok (BAttr (Some v)) :: rs).
    split; [cbn [run_ops]; rewrite H, A; reflexivity|]. split; [constructor; [right; reflexivity|exact F]|]. split; [|split].
    + intros u u' X. apply run_cons in X. destruct (run_op (OLoad direct_loader) u) as [[b|e|] u1] eqn:E; [| |destruct X; discriminate];
        destruct X as (rs1 & [= <- <-] & X). eapply loads_some; eauto.
    + intros Hr l2 u rs2 u2 X. cbn [app] in X. apply run_cons in X. cbn [run_ops].
      destruct (run_op (OLoad direct_loader) u) as [[b|e|] u1] eqn:E; [| |destruct X; discriminate];
        destruct X as (rs1 & [= <- <-] & X). destruct (C Hr _ _ _ _ X) as (u3 & X1 & X2). exists u3. rewrite X1. auto.
    + intros Hr l2 rs2 s2 X. cbn [app run_ops]. rewrite H, (D Hr _ _ _ X). reflexivity.
  - exists [OLoad direct_loader], [Err e]. destruct (S1 _ _ _ _ H) as [A B].
    split; [exact A|]. split; [repeat constructor; right; reflexivity|]. split; [intros u u' X; apply loads_error; auto|].
    split; intros _; [apply S2; discriminate|apply (S3 _ _ _ _ H); discriminate].
  - exists [OLoad direct_loader], [Panic]. destruct (S1 _ _ _ _ H) as [A B].
    split; [exact A|]. split; [repeat constructor; right; reflexivity|]. split; [intros u u' X; apply loads_panic; auto|].
    split; congruence.
Qed.

Lemma reads_ops : forall s items o s', reads s items o s' ->
  exists l rs, run_ops l s = (rs, s') /\ Forall plain_op l /\
    (forall u u', run_ops l u = (rs, u') -> reads u items o u') /\
    (forall f, o = Ok f -> exists rs0, rs = rs0 ++ [Ok (BEvent (EvEndFbx f))]).
Proof.
  assert (ON : plain_op ONext) by (left; reflexivity).
  induction 1 as [s f s' H|s nm s1 ats s2 l o s' H LD R IH|s s1 l o s' H R IH|s e s' H|s s' H|s nm s1 ats e s' H LD|s nm s1 ats s' H LD].
  - exists [ONext], [Ok (BEvent (EvEndFbx f))]. split; [cbn [run_ops]; rewrite H; reflexivity|]. split; [auto|]. split.
    + intros u u' X. apply run_cons in X. destruct (run_op ONext u) as [[b|e|] u1] eqn:E; [| |destruct X; discriminate];
        destruct X as (rs1 & [= <- <-] & X). injection X as <-. constructor. exact E.
    + intros f' [= <-]. exists []. reflexivity.
  - destruct IH as (l2 & rs2 & A2 & F2 & B2 & C2). destruct (loads_ops _ _ _ _ LD) as (l1 & rs1 & A1 & F1 & B1 & C1 & D1).
    exists (ONext :: l1 ++ l2), (Ok (BEvent (EvStart nm)) :: rs1 ++ rs2).
    assert (NP : Ok tt <> Panic :> res perr unit) by discriminate.
    split; [cbn [run_ops]; rewrite H, (D1 NP _ _ _ A2); reflexivity|]. split; [constructor; [auto|apply Forall_app; auto]|]. split.
    + intros u u' X. apply run_cons in X. destruct (run_op ONext u) as [[b|e|] u1] eqn:E; [| |destruct X; discriminate];
        destruct X as (rs3 & [= <- <-] & X). destruct (C1 NP _ _ _ _ X) as (u3 & X1 & X2). eapply reads_start; eauto.
    + intros f Ef. destruct (C2 f Ef) as (rs0 & ->). exists (Ok (BEvent (EvStart nm)) :: rs1 ++ rs0). cbn [app]. rewrite app_assoc. reflexivity.
  - destruct IH as (l2 & rs2 & A2 & F2 & B2 & C2). exists (ONext :: l2), (Ok (BEvent EvEnd) :: rs2).
    split; [cbn [run_ops]; rewrite H, A2; reflexivity|]. split; [auto|]. split.
    + intros u u' X. apply run_cons in X. destruct (run_op ONext u) as [[b|e|] u1] eqn:E; [| |destruct X; discriminate];
        destruct X as (rs3 & [= <- <-] & X). eapply reads_end; eauto.
    + intros f Ef. destruct (C2 f Ef) as (rs0 & ->). exists (Ok (BEvent EvEnd) :: rs0). reflexivity.
  - exists [ONext], [Err e]. split; [cbn [run_ops]; rewrite H; reflexivity|]. split; [auto|]. split; [|discriminate].
    intros u u' X. apply run_cons in X. destruct (run_op ONext u) as [[b|e'|] u1] eqn:E; [| |destruct X; discriminate];
        destruct X as (rs1 & [= <- <-] & X). injection X as <-. apply reads_error. exact E.
  - exists [ONext], [Panic]. split; [cbn [run_ops]; rewrite H; reflexivity|]. split; [auto|]. split; [|discriminate].
    intros u u' X. apply run_cons in X. destruct (run_op ONext u) as [[b|e'|] u1] eqn:E; [destruct X as (? & [=] & _)|destruct X as (? & [=] & _)|].
    destruct X as [_ ->]. apply reads_panic. exact E.
  - destruct (loads_ops _ _ _ _ LD) as (l1 & rs1 & A1 & F1 & B1 & _).
    exists (ONext :: l1), (Ok (BEvent (EvStart nm)) :: rs1). split; [cbn [run_ops]; rewrite H, A1; reflexivity|]. split; [auto|]. split; [|discriminate].
    intros u u' X. apply run_cons in X. destruct (run_op ONext u) as [[b|e'|] u1] eqn:E; [| |destruct X; discriminate];
        destruct X as (rs3 & [= <- <-] & X). eapply reads_attr_error; eauto.
  - destruct (loads_ops _ _ _ _ LD) as (l1 & rs1 & A1 & F1 & B1 & _).
    exists (ONext :: l1), (Ok (BEvent (EvStart nm)) :: rs1). split; [cbn [run_ops]; rewrite H, A1; reflexivity|]. split; [auto|]. split; [|discriminate].
    intros u u' X. apply run_cons in X. destruct (run_op ONext u) as [[b|e'|] u1] eqn:E; [| |destruct X; discriminate];
        destruct X as (rs3 & [= <- <-] & X). eapply reads_attr_panic; eauto.
Qed.

Lemma plain_regular : forall o, plain_op o -> regular o.
Proof. intros o [->| ->]; [exact I|apply C03_direct_loader_regular]. Qed.

(** ** C48 *)

(** The result of loading, in terms of the header and of what a client sees that opens the
    same stream, installs no warning handler and reads everything. *)
Definition any_tree_spec (data : list byte) (sched : list ioact) (seeks : list (option N)) (seekable : bool)
  (r : res any_tree_error (N * tree * (perr + footer))) : Prop :=
  match open_as data sched seeks seekable None with
  | Err e => r = Err (TreeParserCreation e)
  | Panic => False
  | Ok p =>
      exists items o s', reads p items o s' /\
      match o with
      | Ok f => exists t ds, r = Ok (p_ver p, t, f) /\ items = forest_items ds /\ doc_at t (tr_root t) (DNode [] [] ds)
      | Err e => r = Err (TreeLoad (LoadParser e))
      | Panic => r = Panic
      end
  end.

Lemma set_handler_twice : forall h h' p, set_handler h (set_handler h' p) = set_handler h p.
Proof. reflexivity. Qed.

Lemma opened_none : forall data sched seeks seekable p, any_parser (mkStream data 0 sched seeks) seekable = Ok p ->
  forall h, opened data sched seeks seekable h (set_handler h p).
Proof. intros data sched seeks seekable p E h. exists p. auto. Qed.

Lemma reads_accepting : forall data sched seeks seekable p, opened data sched seeks seekable None p ->
  forall items o s', reads (set_handler (Some (fun _ => None)) p) items o s' ->
  exists s1, reads p items o s1 /\ s' = set_handler (Some (fun _ => None)) s1.
Proof.
  intros data sched seeks seekable p Ho items o s' R. destruct (reads_ops _ _ _ _ R) as (l & rs & A & _ & B & _).
  destruct (C10_accepting_handler _ _ _ _ _ (fun _ => None) p l (fun _ => eq_refl) Ho) as [E1 E2].
  rewrite A in E1, E2. cbn [fst snd] in E1, E2. exists (snd (run_ops l p)). split; [|exact E2].
  apply B. rewrite E1. destruct (run_ops l p); reflexivity.
Qed.

(** Loading in one call fails to create a parser exactly when the parser cannot be created,
    and otherwise returns the file's version, the tree described by the events, and the
    footer, or the first error a client would have met; warnings change nothing. *)
Theorem C48_any_tree : forall data sched seeks seekable,
  any_tree_spec data sched seeks seekable (any_tree (mkStream data 0 sched seeks) seekable).
Proof.
  intros data sched seeks seekable. unfold any_tree_spec, open_as, any_tree.
  destruct (any_parser (mkStream data 0 sched seeks) seekable) as [p|e|] eqn:E.
  - pose proof (opened_none _ _ _ _ _ E) as Ho.
    destruct (load_tree (set_handler (Some (fun _ => None)) p)) as [r s'] eqn:L.
    destruct (C33_load_reads _ _ _ _ _ _ (Ho _) _ _ L) as (items & o & R & M).
    rewrite <- (set_handler_twice _ None) in R. destruct (reads_accepting _ _ _ _ _ (Ho None) _ _ _ R) as (s1 & R1 & _).
    exists items, o, s1. split; [exact R1|]. destruct o as [f|e|]; cbn [load_matches] in M.
    + destruct M as (t & ds & -> & I1 & _ & D). exists t, ds. auto.
    + subst r. reflexivity.
    + subst r. reflexivity.
  - reflexivity.
  - pose proof (C02_parser_creation (mkStream data 0 sched seeks) seekable) as K.
    destruct (header_load _) as [[v|e|] s']; [|congruence|contradiction]. destruct (_ && _); [destruct K as (p & K & _); congruence|congruence].
Qed.

(** The result does not depend on how the reader delivers the bytes. *)
Theorem C48_schedule_independence : forall data sc1 sc2 seeks seekable, nofail sc1 = true -> nofail sc2 = true ->
  any_tree (mkStream data 0 sc1 seeks) seekable = any_tree (mkStream data 0 sc2 seeks) seekable.
Proof.
  intros data sc1 sc2 seeks seekable N1 N2. set (h := Some (fun _ : list (warning * synpos) => @None perr)).
  assert (K : forall l, Forall regular l -> _) by (intros l Hl; exact (C03_schedule_independence aval data sc1 sc2 seeks seekable h l N1 N2 Hl)).
  unfold any_tree. unfold open_as in K.
  destruct (any_parser (mkStream data 0 sc1 seeks) seekable) as [p1|e1|] eqn:E1, (any_parser (mkStream data 0 sc2 seeks) seekable) as [p2|e2|] eqn:E2;
    try (destruct (K [] (Forall_nil _)); fail); [|rewrite (K [] (Forall_nil _)); reflexivity].
  change (set_handler (Some (fun _ => None))) with (set_handler h).
  assert (V : p_ver p1 = p_ver p2).
  { pose proof (open_sched data sc1 sc2 seeks seekable None N1 N2) as Q. unfold open_as in Q. rewrite E1, E2 in Q. apply q_agrees in Q. apply (g_ver _ _ Q). }
  pose proof (opened_none _ _ _ _ _ E1 h) as O1. pose proof (opened_none _ _ _ _ _ E2 h) as O2.
  destruct (load_tree (set_handler h p1)) as [r1 s1] eqn:L1.
  destruct (C33_load_reads _ _ _ _ _ _ O1 _ _ L1) as (items & o & R1 & _).
  destruct (reads_ops _ _ _ _ R1) as (l & rs & A & F & B & _).
  assert (Fr : Forall regular l) by (revert F; apply Forall_impl; exact plain_regular).
  specialize (K l Fr). rewrite A in K. destruct (run_ops l (set_handler h p2)) as [rs2 s2] eqn:A2. destruct K as (<- & _).
  pose proof (opened_same _ _ _ _ _ _ _ _ _ _ _ _ _ _ _ _ O1 O2 R1 (B _ _ A2)) as S. rewrite L1 in S.
  destruct (load_tree (set_handler h p2)) as [r2 u2]. cbn [fst] in S. subst r2. rewrite V. reflexivity.
Qed.

(** A file that is loaded to its end has a last byte that matters: bytes after it can be
    changed, added or removed without any effect, and a file cut before it is never loaded
    to its end. *)
Lemma reads_cut : forall data sched seeks seekable h p items f s,
  open_as data sched seeks seekable h = Ok p -> reads p items (Ok (inr f)) s ->
  (27 <= consumed s)%N /\ (consumed s <= lenN data)%N /\
  forall rest, exists p' s', open_as (takeN (consumed s) data ++ rest) sched seeks seekable h = Ok p' /\
    reads p' items (Ok (inr f)) s' /\ consumed s' = consumed s.
Proof.
  intros data sched seeks seekable h p items f s E R. destruct (reads_ops _ _ _ _ R) as (l & rs & A & F & B & C).
  destruct (C _ eq_refl) as (rs0 & ->). assert (K : completes data sched seeks seekable h l (rs0 ++ [Ok (BEvent (EvEndFbx (inr f)))]) f s) by (exists p; eauto).
  destruct (C20_consumed_in_stream _ _ _ _ _ _ _ _ _ _ K) as (C1 & C2 & _). split; [exact C1|]. split; [exact C2|]. intros rest.
  assert (Fc : Forall consuming_op l) by (revert F; apply Forall_impl; intros o Ho; apply regular_consuming, plain_regular, Ho).
  destruct (C20_rest_never_matters _ _ _ _ _ _ _ _ _ _ Fc K rest) as (s' & (p' & E' & A' & _) & EC & _).
  exists p', s'. split; [exact E'|]. split; [apply B; exact A'|exact EC].
Qed.

Lemma open_as_opened : forall data sched seeks seekable h p, open_as data sched seeks seekable h = Ok p -> opened data sched seeks seekable h p.
Proof. intros data sched seeks seekable h p H. unfold open_as in H. destruct (any_parser _ _) as [q|e|] eqn:E; try discriminate. injection H as <-. exists q. auto. Qed.

Lemma any_tree_open : forall data sched seeks seekable v t f, any_tree (mkStream data 0 sched seeks) seekable = Ok (v, t, f) ->
  exists p items s, open_as data sched seeks seekable (Some (fun _ => None)) = Ok p /\ p_ver p = v /\
    fst (load_tree p) = Ok (t, f) /\ reads p items (Ok f) s.
Proof.
  intros data sched seeks seekable v t f H. unfold any_tree in H. unfold open_as.
  destruct (any_parser (mkStream data 0 sched seeks) seekable) as [p|e|] eqn:E; [|discriminate|discriminate].
  destruct (load_tree (set_handler (Some (fun _ => None)) p)) as [[[t' f']|e|] s'] eqn:L; try discriminate. injection H as <- -> ->.
  destruct (C33_load_reads _ _ _ _ _ _ (opened_none _ _ _ _ _ E _) _ _ L) as (items & o & R & M).
  destruct o as [f'|e|]; cbn [load_matches] in M; [|discriminate|discriminate]. destruct M as (t' & ds & [= <- <-] & _).
  exists (set_handler (Some (fun _ => None)) p), items, s'. rewrite L. auto.
Qed.

Lemma open_any_tree : forall data sched seeks seekable p t f, open_as data sched seeks seekable (Some (fun _ => None)) = Ok p ->
  fst (load_tree p) = Ok (t, f) -> any_tree (mkStream data 0 sched seeks) seekable = Ok (p_ver p, t, f).
Proof.
  intros data sched seeks seekable p t f H L. unfold open_as in H. unfold any_tree.
  destruct (any_parser (mkStream data 0 sched seeks) seekable) as [q|e|]; [|discriminate|discriminate]. injection H as <-.
  destruct (load_tree (set_handler (Some (fun _ => None)) q)) as [r s']. cbn [fst] in L. subst r. reflexivity.
Qed.

Lemma open_ver : forall data sched seeks seekable h p, open_as data sched seeks seekable h = Ok p -> p_ver p = le_dec (takeN 4 (dropN 23 data)).
Proof.
  intros data sched seeks seekable h p H. unfold open_as in H.
  pose proof (C02_parser_creation (mkStream data 0 sched seeks) seekable) as K.
  pose proof (fun v s' => C01_header_load_any_schedule data 0 sched seeks v s') as Q.
  destruct (header_load (mkStream data 0 sched seeks)) as [[v|e|] s'] eqn:E; [|rewrite K in H; discriminate|contradiction].
  destruct (_ && _); [|rewrite K in H; discriminate]. destruct K as (q & K & <- & _). rewrite K in H. injection H as <-. cbn [set_handler p_ver].
  destruct (Q _ _ eq_refl) as [S _]. inversion S as [b0 b1 b2 b3 rest HD HV HX| | |]; subst.
  rewrite takeN_firstn, dropN_skipn. change (firstn (N.to_nat 4) (skipn (N.to_nat 23) (spec_magic ++ b0 :: b1 :: b2 :: b3 :: rest))) with [b0; b1; b2; b3].
  cbn [le_dec]. change (bN b0 + 256 * bN b1 + 65536 * bN b2 + 16777216 * bN b3 = bN b0 + 256 * (bN b1 + 256 * (bN b2 + 256 * (bN b3 + 256 * 0))))%N. lia.
Qed.

Theorem C48_end_of_file : forall data sched seeks seekable v t f,
  any_tree (mkStream data 0 sched seeks) seekable = Ok (v, t, inr f) ->
  exists c, (27 <= c)%N /\ (c <= lenN data)%N /\
    (forall rest, any_tree (mkStream (takeN c data ++ rest) 0 sched seeks) seekable = Ok (v, t, inr f)) /\
    (forall n, (n < c)%N -> forall v' t' f', any_tree (mkStream (takeN n data) 0 sched seeks) seekable <> Ok (v', t', inr f')).
Proof.
  intros data sched seeks seekable v t f H.
  destruct (any_tree_open _ _ _ _ _ _ _ H) as (p & items & s & E & EV & L & R).
  destruct (reads_cut _ _ _ _ _ _ _ _ _ E R) as (C1 & C2 & C3).
  exists (consumed s). split; [exact C1|]. split; [exact C2|]. split.
  - intros rest. destruct (C3 rest) as (p' & s' & E' & R' & _).
    assert (EV' : p_ver p' = v).
    { rewrite <- EV, (open_ver _ _ _ _ _ _ E), (open_ver _ _ _ _ _ _ E'). f_equal.
      rewrite !takeN_firstn, !dropN_skipn, skipn_app, firstn_app, !skipn_length.
      assert (Q : length (firstn (N.to_nat (consumed s)) data) = N.to_nat (consumed s)) by (apply firstn_length_le; unfold lenN in C2; lia).
      rewrite Q. replace (N.to_nat 4 - (N.to_nat (consumed s) - N.to_nat 23)) with 0 by lia. cbn [firstn]. rewrite app_nil_r.
      rewrite skipn_firstn_comm, firstn_firstn. f_equal. lia. }
    rewrite <- EV'. apply open_any_tree; [exact E'|].
    rewrite <- (opened_same _ _ _ _ _ _ _ _ _ _ _ _ _ _ _ _ (open_as_opened _ _ _ _ _ _ E) (open_as_opened _ _ _ _ _ _ E') R R'). exact L.
  - intros n Hn v' t' f' H'. destruct (any_tree_open _ _ _ _ _ _ _ H') as (p' & items' & s' & E' & _ & _ & R').
    destruct (reads_cut _ _ _ _ _ _ _ _ _ E' R') as (D1 & D2 & D3). rewrite lenN_takeN in D2.
    destruct (D3 (dropN (consumed s') data)) as (p2 & s2 & E2 & R2 & EC).
    assert (X : takeN (consumed s') (takeN n data) = takeN (consumed s') data).
    { rewrite !takeN_firstn, firstn_firstn. f_equal. lia. }
    rewrite X, takeN_dropN, E in E2. injection E2 as <-. destruct (reads_det _ _ _ _ R _ _ _ R2) as (_ & _ & ->). lia.
Qed.

(** Loading never panics (overflow checks with version 7.5 or later excepted, see C08). *)
Theorem C48_no_panic : forall data sched seeks seekable, (lenN data <= 2 ^ 63)%N ->
  ovf_checks = false \/ (le_dec (takeN 4 (dropN 23 data)) < 7500)%N ->
  any_tree (mkStream data 0 sched seeks) seekable <> Panic.
Proof.
  intros data sched seeks seekable HL HV. pose proof (C48_any_tree data sched seeks seekable) as K. unfold any_tree_spec in K.
  destruct (open_as data sched seeks seekable None) as [p|e|] eqn:E; [|rewrite K; discriminate|contradiction].
  rewrite <- (open_ver _ _ _ _ _ _ E) in HV. pose proof (open_as_opened _ _ _ _ _ _ E) as Ho.
  destruct K as (items & o & s' & R & K). destruct o as [f|e|]; [destruct K as (t & ds & -> & _); discriminate|rewrite K; discriminate|].
  exfalso. destruct (C33_reads_load _ _ _ _ _ _ Ho _ _ _ R) as (r & L & M). cbn [load_matches] in M. subst r.
  apply (C33_no_panic _ _ _ _ _ _ Ho HL HV). rewrite L. reflexivity.
Qed.
End WithEnv.

(** ** Examples: the sample document with bytes after it; cut; with a wrong first byte; with an
    unsupported version. *)
Example any_tree_example :
  nofail choppy = true /\ (lenN longer <= 2 ^ 63)%N /\ ovf_checks (Env := release) = false /\
  match any_tree (env := release) (mkStream longer 0 choppy []) true with
  | Ok (v, t, inr _) => v = 7400%N /\ length (tr_arena t) = 5
  | _ => False
  end /\
  match any_tree (env := release) (mkStream (takeN 100 longer) 0 choppy []) true with
  | Err (TreeLoad (LoadParser e)) => e_error e = EIo IoEof
  | _ => False
  end /\
  any_tree (env := release) (mkStream (x00 :: longer) 0 choppy []) true = Err (TreeParserCreation (AnyHeader MagicNotDetected)) /\
  any_tree (env := release) (mkStream (takeN 23 longer ++ [x39; x30; x00; x00]) 0 choppy []) true = Err (TreeParserCreation (AnyUnsupportedVersion 12345)).
Proof.
  split; [vm_compute; reflexivity|]. split; [vm_compute; discriminate|]. split; [reflexivity|].
  split; [vm_compute; repeat split|]. split; [vm_compute; reflexivity|]. split; vm_compute; reflexivity.
Qed.
