(** C56: the values and the errors of loading attributes with [DirectLoader] are true of the bytes
    of the file. *)
Require Import Coq.Lists.List Coq.NArith.NArith Coq.ZArith.ZArith Coq.Bool.Bool Coq.micromega.Lia.
Require Import Coq.Init.Byte.
Require Import ZifyBool ZifyNat ZifyN.
Require Import Verif.Base Verif.BaseFacts Verif.Utf8 Verif.Types Verif.Io Verif.IoFacts Verif.Parser Verif.MonadFacts Verif.ParserSteps
  Verif.ParserShape Verif.SpecHist Verif.ParserHist Verif.ParserPos Verif.PropsEvents Verif.WarnPos Verif.Loaders
  Verif.Spec Verif.SpecLayout Verif.LayoutIn Verif.SpecErr Verif.SpecTruth Verif.Truth Verif.SpecStored Verif.StoredFacts Verif.PropsTruth
  Verif.Samples Verif.PropsAttr Verif.PropsAttrPos.
Import ListNotations.
Ltac Zify.zify_post_hook ::= Z.div_mod_to_equations.

(** A call of [load_next_buffered] or [load_next] with [DirectLoader]. *)
Definition load_value {env : Env} (buffered : bool) : op aval := if buffered then OLoadBuf direct_loader else OLoad direct_loader.
(** The calls returned these values. *)
Definition returned (vs : list aval) : list (res perr (obs aval)) := map (fun v => Ok (BAttr (Some v))) vs.

Section WithEnv.
Context {env : Env}.

Lemma load_op : forall b s r s' a, p_attrs s = Some a -> run_op (load_value b) s = (r, s') -> r <> Panic ->
  exists r0, load_next_gen b direct_loader s = (r0, s') /\ match r0 with Ok v => r = Ok (BAttr v) | Err e => r = Err e | Panic => False end.
Proof.
  intros b s r s' a A H P. apply run_op_shape in H; [|exact P]. destruct b; cbn [load_value op_shape] in H; rewrite A in H; exact H.
Qed.

Lemma one_load : forall data ver b s r s' a, inv data ver s -> p_health s = Running -> p_attrs s = Some a ->
  run_op (load_value b) s = (r, s') -> r <> Panic ->
  p_stack s' = p_stack s /\
  match r with
  | Ok (BAttr (Some v)) => (0 < a_rest a)%N /\ p_health s' = Running /\ exists a', p_attrs s' = Some a' /\ a_rest a' = (a_rest a - 1)%N /\
      stored data (N.max (rpos s) (a_next a)) v (rpos s') (a_next a')
  | Ok (BAttr None) => a_rest a = 0%N /\ s' = s
  | Err e => (0 < a_rest a)%N /\ (refused e s' \/ load_error_true data (N.max (rpos s) (a_next a)) (rpos s') (e_error e))
  | _ => False
  end.
Proof.
  intros data ver b s r s' a IV R A H P. destruct (load_op _ _ _ _ _ A H P) as (r0 & H0 & E). assert (P0 : r0 <> Panic) by (intros ->; exact E).
  split; [eapply load_next_ctl; eassumption|]. apply load_next_shape in H0; [|exact P0]. rewrite R in H0. destruct H0 as (a1 & A1 & r1 & s1 & B & P1 & X).
  rewrite A in A1. injection A1 as <-. pose proof (load_said _ _ _ _ _ _ _ _ _ IV A B) as L. apply load_body_quietl in B; [|exact P1]. destruct B as [(_ & B & _) _].
  destruct r0 as [[v|]|e|]; [| | |contradiction]; subst r.
  - destruct X as [-> ->]. destruct L as (L1 & a' & L2 & L3 & _ & L4). split; [exact L1|]. split; [congruence|]. exists a'. auto.
  - destruct X as [-> ->]. exact L.
  - destruct X as (e0 & p0 & -> & _ & -> & ->). destruct L as [L1 L2]. split; [exact L1|]. destruct L2 as [L2|L2]; [left|right].
    + destruct L2 as (hd & e1 & Y1 & Y2 & Y3 & Y4). exists hd, e1. rewrite <- Y4. destruct e0 as [x [q|]]; auto.
    + destruct e0 as [x [q|]]; exact L2.
Qed.

Lemma some_loads : forall data ver bs vs s s' a, inv data ver s -> p_health s = Running -> p_attrs s = Some a ->
  run_ops (map load_value bs) s = (returned vs, s') ->
  inv data ver s' /\ p_health s' = Running /\ p_stack s' = p_stack s /\
  exists a', p_attrs s' = Some a' /\ (a_rest a = a_rest a' + lenN vs)%N /\ stored_seq data (rpos s) (a_next a) vs (rpos s') (a_next a').
Proof.
  intros data ver bs. induction bs as [|b bs IH]; intros vs s s' a IV R A H; cbn [map run_ops] in H.
  - injection H as H <-. destruct vs; [|discriminate]. split; [exact IV|]. split; [exact R|]. split; [reflexivity|]. exists a. split; [exact A|]. split; [cbn; lia|constructor].
  - destruct (run_op (load_value b) s) as [r s1] eqn:E. assert (NP : r <> Panic) by (intros ->; injection H as H _; destruct vs; discriminate).
    pose proof (one_load _ _ _ _ _ _ _ IV R A E NP) as (St & L). pose proof (inv_op _ _ _ _ _ _ _ IV E NP) as IV1.
    assert (K : exists v vs1, vs = v :: vs1 /\ r = Ok (BAttr (Some v)) /\ run_ops (map load_value bs) s1 = (returned vs1, s')).
    { destruct r as [x|e|]; [| |contradiction]; destruct (run_ops (map load_value bs) s1) as [rs1 s2]; injection H as H <-; destruct vs as [|v vs1]; try discriminate.
      injection H as H1 H2. exists v, vs1. subst. auto. }
    destruct K as (v & vs1 & -> & -> & K). destruct L as (L1 & L2 & a1 & L3 & L4 & L5).
    destruct (IH _ _ _ _ IV1 L2 L3 K) as (Z1 & Z2 & Z3 & a' & Z4 & Z5 & Z6). split; [exact Z1|]. split; [exact Z2|]. split; [congruence|].
    exists a'. split; [exact Z4|]. split; [unfold lenN in *; cbn [length]; lia|]. eapply Ss_cons; eassumption.
Qed.

(** After any history on a reader that can seek: when a node starts and the first loads return
    [vs], these are the values stored one after the other behind the header of the node. The next
    load returns the next stored value, or [None] exactly after as many values as the header
    counts; an error is the handler's, or says what is wrong with the next attribute. *)
Theorem C56_values_true :
  forall data sched seeks h p (l : list (op aval)) rs p0 name p1 bs vs p2 b r p3,
    opened data sched seeks true h p -> run_ops l p = (rs, p0) -> no_panic rs ->
    run_op (@ONext aval) p0 = (Ok (BEvent (EvStart name)), p1) ->
    run_ops (map load_value bs) p1 = (returned vs, p2) ->
    run_op (load_value b) p2 = (r, p3) -> r <> Panic ->
    exists start here after ends count claimed next,
      position_of p1 = Some start /\ position_of p2 = Some here /\ position_of p3 = Some after /\
      header_at data (p_ver p) (component_byte_pos start) ends count claimed name /\
      stored_seq data (byte_pos start) (byte_pos start) vs (byte_pos here) next /\
      match r with
      | Ok (BAttr (Some v)) => (lenN vs < count)%N /\
          exists next', stored data (N.max (byte_pos here) next) v (byte_pos after) next'
      | Ok (BAttr None) => lenN vs = count /\ after = here
      | Err e => (lenN vs < count)%N /\
          (refused e p3 \/ load_error_true data (N.max (byte_pos here) next) (byte_pos after) (e_error e))
      | _ => False
      end.
Proof.
  intros data sched seeks h p l rs p0 name p1 bs vs p2 b r p3 Ho H N H1 H2 H3 Hp.
  assert (I0 : inv data (p_ver p) p0) by (eapply inv_ops; [eapply inv_opened; [exact Ho|reflexivity]|exact H|exact N]).
  assert (I1 : inv data (p_ver p) p1) by (eapply inv_op; [exact I0|exact H1|discriminate]).
  assert (X : p_health p1 = Running /\ exists n rest, p_stack p1 = n :: rest /\ sn_name n = name /\ p_attrs p1 = Some (mkAttrs (sn_attrs n) (sn_attrs n) (rpos p1))).
  { apply run_op_shape in H1; [|discriminate]. cbn [op_shape] in H1. destruct H1 as (r0 & s1 & E & X). destruct r0 as [ev|e|]; [| |contradiction].
    2: { destruct X as [[=] _]. }
    destruct X as [[= <-] (n & rest & Es & ->)]. apply next_event_shape in E; [|discriminate].
    destruct (p_health (set_attrs None p0)) eqn:Hh; try (destruct E as [_ [=]]).
    destruct E as (_ & r1 & s2 & IP & -> & -> & n' & rest' & Es' & En). cbn in Es. rewrite Es' in Es. injection Es as -> ->.
    apply impl_path_shape in IP. destruct IP as (n2 & s3 & Q & -> & _).
    split; [|exists n, rest; auto]. cbn [set_attrs set_last push set_stack p_health]. unfold count_child. destruct (p_stack s3); cbn [set_top set_stack p_health]; destruct Q as [(_ & Q & _) _]; congruence. }
  destruct X as (R1 & n & rest & Es & En & A1).
  destruct (some_loads _ _ _ _ _ _ _ I1 R1 A1 H2) as (I2 & R2 & S2 & a2 & A2 & C2 & Q2).
  destruct (one_load _ _ _ _ _ _ _ I2 R2 A2 H3 Hp) as (S3 & L).
  assert (I3 : inv data (p_ver p) p3) by (eapply inv_op; [exact I2|exact H3|exact Hp]).
  destruct (topok_position _ (iv_top _ _ _ I1)) as (start & P1 & _). destruct (topok_position _ (iv_top _ _ _ I2)) as (here & P2 & _).
  destruct (topok_position _ (iv_top _ _ _ I3)) as (after & P3 & _).
  pose proof (iv_open _ _ _ I1) as NO. rewrite Es in NO. apply Forall_inv in NO. destruct NO as (claimed & HA & _).
  exists start, here, after, (sn_end n), (sn_attrs n), claimed, (a_next a2). split; [exact P1|]. split; [exact P2|]. split; [exact P3|].
  pose proof (position_of_comp _ _ P1) as C1. unfold cp_of in C1. rewrite Es in C1.
  pose proof (position_of_path _ _ P1) as (B1 & _). pose proof (position_of_path _ _ P2) as (B2 & _). pose proof (position_of_path _ _ P3) as (B3 & _).
  rewrite B1, B2, B3, C1, <- En. cbn [a_rest a_next] in C2, Q2. split; [exact HA|]. split; [exact Q2|].
  destruct r as [[ev|[v|]| |]|e|]; try contradiction.
  - destruct L as (L1 & _ & a' & _ & _ & L). split; [lia|]. eexists. exact L.
  - destruct L as (L1 & ->). split; [lia|congruence].
  - destruct L as (L1 & L). split; [lia|exact L].
Qed.
End WithEnv.

(** ** Examples *)
(** Four of the five values of the sample, the fifth, and then [None]. *)
Example mixed_example : exists p p1 p2 r p3, opened mixed_doc [AChunk 1] [] true None p /\
  run_op (env:=release) (@ONext aval) p = (Ok (BEvent (EvStart s_a)), p1) /\
  run_ops (env:=release) (map (load_value (env:=release)) [true; false; true; false]) p1 = (returned (firstn 4 (map at_val mixed_attrs)), p2) /\
  run_op (env:=release) (load_value (env:=release) true) p2 = (r, p3) /\ r = Ok (BAttr (Some (VF64 9221120237041090561))) /\
  fst (run_op (env:=release) (load_value (env:=release) true) p3) = Ok (BAttr None).
Proof.
  unfold opened. do 5 eexists. split; [eexists; split; [vm_compute; reflexivity|reflexivity]|]. split; [vm_compute; reflexivity|].
  split; [vm_compute; reflexivity|]. split; [vm_compute; reflexivity|]. split; [reflexivity|]. vm_compute. reflexivity.
Qed.
(** An attribute [Y 5 6] (an [i16]), followed by one that is wrong or cut. *)
Definition failing (attrs : list byte) (e : econtainer) : Prop := exists p p1 p2 r p3,
  opened (one_node 2 ([x59; x05; x06] ++ attrs) []) [] [] true None p /\
  run_op (env:=release) (@ONext aval) p = (Ok (BEvent (EvStart s_a)), p1) /\
  run_ops (env:=release) (map (load_value (env:=release)) [true]) p1 = (returned [VI16 1541], p2) /\
  run_op (env:=release) (load_value (env:=release) false) p2 = (r, p3) /\ codes [r] = [Some e].
Ltac failing := unfold failing, opened; do 5 eexists; split; [eexists; split; [vm_compute; reflexivity|reflexivity]|]; split; [vm_compute; reflexivity|];
  split; [vm_compute; reflexivity|]; split; vm_compute; reflexivity.
Example code_example : failing [x51] (EData (InvalidAttributeTypeCode x51)).
Proof. failing. Qed.
Example encoding_example : failing ([x69] ++ le_enc 4 1 ++ le_enc 4 2 ++ le_enc 4 4) (EData (InvalidArrayAttributeEncoding 2)).
Proof. failing. Qed.
Example utf8_example : failing ([x53] ++ le_enc 4 2 ++ [x61; xff]) (EIo IoUtf8).
Proof. failing. Qed.
Example cut_array_example : failing ([x69] ++ le_enc 4 2 ++ le_enc 4 0 ++ le_enc 4 8 ++ [x01; x02; x03; x04; x05]) (EIo IoEof).
Proof. failing. Qed.
Example broken_example : failing ([x69] ++ le_enc 4 2 ++ le_enc 4 1 ++ le_enc 4 8) (EData (BrokenCompression IoEof)).
Proof. failing. Qed.
