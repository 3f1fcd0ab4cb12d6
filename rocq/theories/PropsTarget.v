(** C71: what depends on the pointer width of the target.

    [usize] of the reader's position is [W] (number of values); 64-bit targets have [W = 2^64], 32-bit
    targets (and WebAssembly) [W = 2^32]. *)
Require Import Coq.Lists.List Coq.NArith.NArith Coq.ZArith.ZArith Coq.Bool.Bool Coq.micromega.Lia.
Require Import ZifyBool ZifyNat ZifyN.
Require Import Coq.Init.Byte.
Require Import Verif.Base Verif.BaseFacts Verif.Utf8 Verif.Types Verif.Io Verif.IoFacts Verif.Parser Verif.MonadFacts Verif.ParserHist
  Verif.ParserShape Verif.ParserPos Verif.Loaders Verif.Tree Verif.TreeIo Verif.Narrow Verif.PropsEvents Verif.Zlib Verif.Spec Verif.SpecFacts Verif.AttrLoad Verif.DocCursor Verif.DocTrace Verif.DocRef
  Verif.PropsDoc Verif.Writer Verif.WriterFacts Verif.WriterSpec Verif.WriterSim Verif.WriterTotal Verif.Samples.
Import ListNotations.
Ltac Zify.zify_post_hook ::= Z.div_mod_to_equations.

Section WithEnv.
Context {env : Env}.
Context (W : N).

Lemma run_ops_narrow : forall O (l : list (op O)) s rs s', run_ops l s = (rs, s') -> no_panic rs ->
  rgood (p_rd s) (p_rd s') /\ ((r_pos (p_rd s') < W)%N -> run_ops (usize := W) l s = (rs, s')).
Proof.
  intros O l. induction l as [|o l IH]; intros s rs s' E Hp.
  - injection E as <- <-. split; [apply rgood_refl|auto].
  - apply run_ops_cons_inv in E; [|exact Hp]. destruct E as (r & u & rs' & E1 & Hr & E2 & -> & Hp').
    destruct (n_run_op W O o _ _ _ E1 Hr) as [G1 K1]. destruct (IH _ _ _ E2 Hp') as [G2 K2]. split; [eapply rgood_trans; eassumption|].
    intros L. cbn [run_ops]. rewrite K1 by (destruct G2; lia). rewrite K2 by exact L. destruct r; [reflexivity|reflexivity|congruence].
Qed.

(** Whatever calls are made: if the position reported in the end is one the target's [usize] can
    hold, every call gives on that target what it gives on a 64-bit target. *)
Theorem C71_same_below_limit : forall O data sched seeks seekable h p (l : list (op O)) rs p' pos,
  opened data sched seeks seekable h p -> run_ops l p = (rs, p') -> no_panic rs ->
  position_of p' = Some pos -> (byte_pos pos < W)%N ->
  run_ops (usize := W) l p = (rs, p').
Proof.
  intros O data sched seeks seekable h p l rs p' pos Ho E Hp Epos L.
  apply (proj2 (run_ops_narrow O l p rs p' E Hp)).
  destruct (topok_position p') as (q & E1 & E2). { eapply run_ops_keeps; eauto. eapply opened_topok; eauto. }
  assert (q = pos) by congruence. subst q. unfold rpos in E2. lia.
Qed.

(** A plain reader never gets beyond the file: every file shorter than [W] is read alike. *)
Theorem C71_plain_reader : forall O data sched seeks h p (l : list (op O)) rs p',
  opened data sched seeks false h p -> (lenN data < W)%N ->
  run_ops l p = (rs, p') -> no_panic rs -> run_ops (usize := W) l p = (rs, p').
Proof.
  intros O data sched seeks h p l rs p' Ho L E Hp. destruct (run_ops_narrow O l p rs p' E Hp) as [(G1 & G2 & G3) K]. apply K.
  apply opened_init in Ho. destruct Ho as (_ & _ & _ & _ & _ & _ & _ & R1 & R2 & R3 & R4 & _ & R5).
  specialize (G3 R2). rewrite R1, R4, lenN_dropN in G3. lia.
Qed.

(** The tree loader. *)
Lemma n_collect_attrs : narrow W (collect_attrs (usize := W)) collect_attrs.
Proof.
  unfold collect_attrs. apply n_bind; [apply n_get_attrs|]. intros a. apply n_bind.
  - apply n_mloop. intros acc. unfold collect_attr. apply n_bind; [apply n_iter|]. intros [[e|v]|]; [apply n_throw|apply n_ret|apply n_ret].
  - intros [x|x]; [apply n_panic|apply n_ret].
Qed.
Lemma n_load_step : forall x, narrow W (load_step (usize := W) x) (load_step x).
Proof.
  intros [t open]. unfold load_step. destruct open as [|cur rest]; [apply n_panic|]. apply n_bind; [apply n_run_op|].
  intros [[nm| |f]| | |]; try apply n_panic.
  - apply n_bind.
    + unfold loader_add_node. destruct (intern _ _) as [sym names]. apply n_bind; [apply n_collect_attrs|]. intros ats.
      destruct (append _ _ _); [apply n_ret|apply n_panic].
    + intros [x t']. apply n_ret.
  - apply n_ret.
  - destruct rest; [apply n_ret|apply n_panic].
Qed.
Lemma n_load_body : narrow W (load_body (usize := W)) load_body.
Proof.
  unfold load_body. apply n_bind; [apply n_gets|]. intros s. apply n_bind; [apply n_mloop; intros; apply n_load_step|].
  intros [x|x]; [apply n_panic|apply n_ret].
Qed.

(** Loading a whole file through a plain reader. *)
Theorem C71_load_plain : forall data sched seeks r, (lenN data < W)%N ->
  any_tree (mkStream data 0 sched seeks) false = r -> r <> Panic ->
  any_tree (usize := W) (mkStream data 0 sched seeks) false = r.
Proof.
  intros data sched seeks r L E Hr. unfold any_tree in *. destruct (any_parser _ false) as [p|e|] eqn:Ep; [|exact E|exact E].
  unfold load_tree in *. set (p1 := set_handler (Some (fun _ => None)) p) in *. destruct (is_used p1); [exact E|].
  destruct (load_body p1) as [x s'] eqn:Eb.
  assert (Hx : x <> Panic) by (intros ->; congruence).
  destruct (n_load_body _ _ _ Eb Hx) as [(G1 & G2 & G3) K]. rewrite K; [exact E|].
  assert (Ho : opened data sched seeks false (Some (fun _ => None)) p1) by (exists p; auto).
  apply opened_init in Ho. destruct Ho as (_ & _ & _ & _ & _ & _ & _ & R1 & R2 & R3 & R4 & _ & R5).
  specialize (G3 R2). rewrite R1, R4, lenN_dropN in G3. lia.
Qed.

(** A seekable reader may be sent anywhere by a file (see below), but not by a well-formed one. *)
Lemma run_pos_ok : forall O (l : list (op O)) s rs s', run_pos l s = (rs, s') -> Forall (fun x => fst x <> Panic) rs ->
  run_ops l s = (map fst rs, s') /\ no_panic (map fst rs).
Proof.
  intros O l. induction l as [|o l IH]; intros s rs s' E F.
  - injection E as <- <-. split; reflexivity.
  - cbn [run_pos] in E. destruct (run_op o s) as [r s1] eqn:E1. destruct (run_pos l s1) as [rs1 s2] eqn:E2. injection E as <- <-.
    apply Forall_cons_iff in F. destruct F as [F1 F2]. cbn [fst] in F1. destruct (IH _ _ _ E2 F2) as [K1 K2]. cbn [run_ops map fst]. rewrite E1, K1.
    split; [destruct r; [reflexivity|reflexivity|congruence]|]. unfold no_panic in *. cbn [existsb]. rewrite K2. destruct r; [reflexivity|reflexivity|congruence].
Qed.

Lemma at_cur_pos : forall ver lim tail c s, at_cur ver lim tail c s -> (pos_of s <= lim)%N.
Proof.
  intros ver lim tail c s [Hok _ _ Hw].
  assert (L : (c_pos ver c <= lim)%N).
  { unfold c_pos. destruct Hok as [_ F _ T _]. destruct (c_frames c) as [|f fs].
    - unfold top_pos in *. rewrite nodes_size_app in T. lia.
    - apply Forall_cons_iff in F. destruct F as [(_ & _ & F) _]. rewrite d_end_eq in F. lia. }
  destruct (c_attrs c).
  - destruct Hw as (_ & a & junk & _ & _ & _ & _ & E). lia.
  - destruct Hw as (_ & _ & E & _). lia.
Qed.

(** Every well-formed document shorter than [W] is read alike, by both kinds of reader: the
    results are those the document prescribes (C26), whatever the pointer width. *)
Theorem C71_documents : forall ver ns f ext p, zlib_roundtrip env -> opened_doc ver ns f ext true p ->
  (lenN (enc_doc ver ns f ++ ext) < W)%N ->
  forall l os r', ref_run (footer_warnings ver ns f) (ref_start ver ns f) l os r' ->
  exists rs s', run_pos (map op_of l) p = (rs, s') /\ Forall2 sees rs os /\
    run_ops (usize := W) (map op_of l) p = (map fst rs, s').
Proof.
  intros ver ns f ext p HZ H L l os r' HR. destruct (opened_doc_at _ _ _ _ _ _ H) as (HV & HF & H4 & Hc & Hs & Hl).
  destruct (ref_steps ver _ f ext HV HF H4 HZ _ _ _ _ _ HR p) as (rs & s' & E & F & K).
  - split; [rewrite Hl; reflexivity|]. left. exists (c_init ns). cbn [ref_start rf_trace rf_atts rf_cur]. rewrite ctrace_init. auto 7.
  - exists rs, s'. split; [exact E|]. split; [exact F|].
    assert (FP : Forall (fun x => fst x <> Panic) rs).
    { clear - F. induction F as [|x y a b [Hx _] _ IH]; constructor; [rewrite Hx; discriminate|exact IH]. }
    destruct (run_pos_ok _ _ _ _ _ E FP) as [E' Hp]. apply (proj2 (run_ops_narrow _ _ _ _ _ E' Hp)).
    rewrite enc_doc_eq, !lenN_app, le_enc_lenN, enc_nodes_len' in L. change (lenN spec_magic) with 23%N in L.
    assert (EM : lenN (end_marker ver) = header_size ver) by (apply end_marker_len).
    fold (pos_of s'). destruct K as [_ [(c & Hcur & _)|(_ & _ & _ & _ & _ & B)]].
    + apply at_cur_pos in Hcur. lia.
    + lia.
Qed.
End WithEnv.

(** ** What is different on a 32-bit target *)

(** A file of 57 bytes: one node that claims an attribute list of 2^32 - 1 bytes. *)
Definition claims_4g : list byte :=
  magic ++ le_enc 4 7400 ++ le_enc 4 100 ++ le_enc 4 1 ++ le_enc 4 4294967295 ++ [x01] ++ s_a ++ zeros 16.

(** With a seekable reader, the call after the first event panics on a 32-bit target (the
    position overflows); on a 64-bit target it reports an error.  A file of a few bytes crashes a
    program that would otherwise see an error. *)
Theorem C71_panic_refuted :
  exists p, opened claims_4g [] [] true None p /\ lenN claims_4g = 57%N /\
    map is_panic (fst (run_ops (usize := pow2_32) (env := release) [@ONext aval; ONext] p)) = [false; true] /\
    map is_panic (fst (run_ops (env := release) [@ONext aval; ONext] p)) = [false; false].
Proof.
  unfold opened. eexists. split.
  - eexists. split; [vm_compute; reflexivity|reflexivity].
  - split; [vm_compute; reflexivity|]. split; vm_compute; reflexivity.
Qed.

(** A node that ends at offset 2^32 + 100, as the 64-bit format of version 7.5 allows. *)
Definition ends_past_4g : list byte :=
  magic ++ le_enc 4 7500 ++ le_enc 8 4294967396 ++ le_enc 8 0 ++ le_enc 8 0 ++ [x01] ++ s_a ++ zeros 8.

(** Skipping the node succeeds on both targets and moves the stream to the same place.  On a 32-bit
    target the position reported afterwards is 100. *)
Theorem C71_position_refuted :
  exists p rs q rs32 q32, opened ends_past_4g [] [] true None p /\
    run_ops (env := release) [@ONext aval; OSkip] p = (rs, q) /\
    run_ops (usize := pow2_32) (env := release) [@ONext aval; OSkip] p = (rs32, q32) /\
    rs = rs32 /\ rs = [Ok (BEvent (EvStart s_a)); Ok BSkipped] /\
    s_off (r_stream (p_rd q)) = 4294967396%N /\ s_off (r_stream (p_rd q32)) = 4294967396%N /\
    option_map byte_pos (position_of q) = Some 4294967396%N /\
    option_map byte_pos (position_of q32) = Some 100%N.
Proof.
  unfold opened. do 5 eexists. split; [eexists; split; [vm_compute; reflexivity|reflexivity]|].
  split; [vm_compute; reflexivity|]. split; [vm_compute; reflexivity|]. repeat (split; [vm_compute; reflexivity|]). vm_compute. reflexivity.
Qed.

(** [written_len as usize]: below the limit nothing changes. *)
Lemma io_copy_len : forall l n s m s', io_copy l n s = (Ok m, s') -> exists bs, read_all l = Some bs /\ m = (n + lenN bs)%N.
Proof.
  induction l as [|[[|b bs]| |c] l IH]; intros n s m s' H; cbn [io_copy read_all] in *.
  - injection H as <- <-. exists []. split; [reflexivity|]. rewrite lenN_nil. lia.
  - injection H as <- <-. exists []. split; [reflexivity|]. rewrite lenN_nil. lia.
  - unfold wbind in H. destruct (write (b :: bs) s) as [[u|e|] s1]; [|discriminate|discriminate].
    destruct (IH _ _ _ _ H) as (x & -> & ->). exists ((b :: bs) ++ x). split; [reflexivity|]. rewrite lenN_app. lia.
  - eauto.
  - discriminate.
Qed.

Section Wr.
Context {env : Env}.
Theorem C71_writer : forall W l s, (forall bs, read_all l = Some bs -> (lenN bs < W)%N) ->
  append_binary_reader_on (usize := W) l s = append_binary_reader l s.
Proof.
  intros W l s H. unfold append_binary_reader_on, append_binary_reader, wbind. destruct (initialize_special TBinary s) as [[hp|e|] s1]; try reflexivity.
  destruct (io_copy l 0 s1) as [[m|e|] s2] eqn:E; try reflexivity. destruct (io_copy_len _ _ _ _ _ E) as (bs & R & ->). specialize (H _ R).
  rewrite N.add_0_l. unfold to_usize. replace (lenN bs <? W)%N with true by lia. reflexivity.
Qed.

(** From 2^32 bytes on, the attribute is refused on a 64-bit target; on a 32-bit target it is
    accepted, and its length field holds the length modulo 2^32. *)
Theorem C71_writer_too_long : forall bs s pre old n t, wgood (w_sink s) -> at_ pre old (w_sink s) -> w_open s = n :: t ->
  (nh_attrs (on_header n) + 1 < pow2_64)%N -> (lenN pre + 5 + lenN bs < pow2_63)%N -> (pow2_32 <= lenN bs)%N ->
  fst (append_binary_reader [RData bs] s) = Err (AttributeTooLong (lenN bs)) /\
  exists s', append_binary_reader_on (usize := pow2_32) [RData bs] s = (Ok tt, s') /\
    k_data (w_sink s') = pre ++ [spec_code TBinary] ++ le_enc 4 (lenN bs mod pow2_32) ++ bs ++ dropN (5 + lenN bs) old.
Proof.
  intros bs s pre old n t G A O L R LB. unfold append_binary_reader, append_binary_reader_on.
  destruct (total_init_special TBinary s pre old n t G A O L ltac:(lia)) as (hp & s1 & E1 & G1 & _).
  unfold wbind at 1 3. rewrite E1. destruct (init_special_ok _ _ _ _ _ _ E1 A) as [(V & A1 & X) ->].
  assert (RW : (lenN ((pre ++ [spec_code TBinary] ++ le_enc 4 0) ++ bs) < pow2_63)%N).
  { rewrite !lenN_app, le_enc_lenN. change (lenN [spec_code TBinary]) with 1%N. lia. }
  destruct (total_write WIo bs _ _ _ G1 A1 RW) as ([] & s2 & E2 & G2 & (S2 & A2)).
  assert (EC : io_copy [RData bs] 0 s1 = (Ok (lenN bs), s2)).
  { destruct bs as [|b bs]; [exfalso; rewrite lenN_nil in LB; discriminate LB || (vm_compute in LB; congruence)|]. cbn [io_copy]. unfold wbind, write. rewrite E2. reflexivity. }
  unfold wbind. rewrite EC. split.
  - unfold finalize_special. replace (lenN bs <? pow2_32)%N with false by lia. reflexivity.
  - assert (LM : (to_usize (usize := pow2_32) (lenN bs) = lenN bs mod pow2_32)%N) by (unfold to_usize; replace (lenN bs <? pow2_32)%N with false by lia; reflexivity).
    rewrite LM. assert (LL : (lenN bs mod pow2_32 < pow2_32)%N) by (apply N.mod_lt; discriminate).
    pose proof A2 as A3. replace ((pre ++ [spec_code TBinary] ++ le_enc 4 0) ++ bs) with ((pre ++ [spec_code TBinary]) ++ le_enc 4 0 ++ bs) in A3 by (rewrite <- !app_assoc; reflexivity).
    destruct (total_fin_special (lenN (pre ++ [spec_code TBinary])) _ s2 _ _ _ G2 A3 eq_refl LL) as ([] & s3 & E3 & _).
    exists s3. split; [exact E3|]. destruct (fin_special_ok _ _ _ _ _ _ _ _ E3 A3 eq_refl) as (_ & A4 & _).
    destruct A4 as (D & _). rewrite D. rewrite dropN_dropN. rewrite <- !app_assoc. cbn [app]. do 5 f_equal.
Qed.
End Wr.

(** [attributes.rest_count() as usize] in the size hints: a node of a 7.5 file that declares 2^32
    attributes gets an upper bound of zero, and yet the first load succeeds. *)
Definition claims_many : list byte :=
  magic ++ le_enc 4 7500 ++ le_enc 8 1000 ++ le_enc 8 4294967296 ++ le_enc 8 100 ++ [x01] ++ s_a ++ [x43; x01] ++ zeros 30.
Theorem C71_hint_refuted : exists p rs s a item s', opened claims_many [] [] true None p /\
  run_ops (usize := pow2_32) (env := release) [@ONext aval] p = (rs, s) /\ rs = [Ok (BEvent (EvStart s_a))] /\ p_attrs s = Some a /\
  size_hint (usize := pow2_32) (to_usize (usize := pow2_32) (a_rest a)) 1 (Some 1%N) = (0%N, 0%N) /\
  size_hint (to_usize (a_rest a)) 1 (Some 1%N) = (1%N, 1%N) /\
  iter_next (usize := pow2_32) (env := release) (Some direct_loader) s = (Ok item, s') /\ item = Some (inr (VBool true)).
Proof.
  unfold opened. do 6 eexists. split; [eexists; split; [vm_compute; reflexivity|reflexivity]|]. split; [vm_compute; reflexivity|].
  split; [reflexivity|]. split; [reflexivity|]. split; [vm_compute; reflexivity|]. split; [vm_compute; reflexivity|]. split; [vm_compute; reflexivity|]. reflexivity.
Qed.

(** ** Concrete cases *)
Example C71_same_example : exists p rs p' pos, opened (sample_doc 7400) [AChunk 7; AIntr] [] true None p /\
  run_ops (env := release) sample_ops p = (rs, p') /\ no_panic rs /\ position_of p' = Some pos /\ (byte_pos pos < pow2_32)%N /\ (100 < byte_pos pos)%N.
Proof.
  unfold opened. do 4 eexists. split; [eexists; split; [vm_compute; reflexivity|reflexivity]|]. split; [vm_compute; reflexivity|].
  split; [vm_compute; reflexivity|]. split; [vm_compute; reflexivity|]. split; vm_compute; reflexivity.
Qed.
Example C71_plain_example : exists p rs p', opened (sample_doc 7500) [] [] false None p /\ (lenN (sample_doc 7500) < pow2_32)%N /\
  run_ops (env := release) sample_ops p = (rs, p') /\ no_panic rs.
Proof.
  unfold opened. do 3 eexists. split; [eexists; split; [vm_compute; reflexivity|reflexivity]|]. split; [vm_compute; reflexivity|].
  split; [vm_compute; reflexivity|]. vm_compute; reflexivity.
Qed.
Example C71_load_example : exists x, any_tree (env := release) (mkStream (sample_doc 7500) 0 [] []) false = Ok x /\ (lenN (sample_doc 7500) < pow2_32)%N.
Proof. eexists. split; vm_compute; reflexivity. Qed.
(** The document of [C26_reader_example] is short. *)
Example C71_documents_example : forall ver, ver = 7400%N \/ ver = 7500%N -> (lenN (sample_doc ver) < pow2_32)%N /\
  exists p, opened (sample_doc ver) [] [] true None p /\
    run_ops (usize := pow2_32) (env := release) (map op_of PropsDoc.Cases.sample_calls) p = run_ops (env := release) (map op_of PropsDoc.Cases.sample_calls) p.
Proof.
  intros ver [-> | ->]; (split; [vm_compute; reflexivity|]); (eexists; split; [eexists; split; [vm_compute; reflexivity|reflexivity]|]); vm_compute; reflexivity.
Qed.
(** A writer with an open node, over an empty, healthy sink; 2^32 zero bytes to copy. *)
Definition wr_open : wstate :=
  Eval vm_compute in match new_writer (mkSink [] 0 [] [] None) 7500 with Ok s => snd (new_node (env := release) s_a s) | _ => mkW (mkSink [] 0 [] [] None) 0 [] end.
Example C71_writer_reachable : exists s, new_writer (mkSink [] 0 [] [] None) 7500 = Ok s /\ new_node (env := release) s_a s = (Ok tt, wr_open).
Proof. eexists. split; [vm_compute; reflexivity|]. vm_compute. reflexivity. Qed.
Lemma some_bytes : forall n, exists bs : list byte, lenN bs = n.
Proof. intros n. exists (repeat x00 (N.to_nat n)). unfold lenN. rewrite repeat_length. apply N2Nat.id. Qed.
Theorem C71_writer_refuted : exists bs s', lenN bs = pow2_32 /\
  fst (append_binary_reader [RData bs] wr_open) = Err (AttributeTooLong pow2_32) /\
  append_binary_reader_on (usize := pow2_32) [RData bs] wr_open = (Ok tt, s') /\
  k_data (w_sink s') = k_data (w_sink wr_open) ++ [spec_code TBinary] ++ le_enc 4 0 ++ bs.
Proof.
  destruct (some_bytes pow2_32) as (bs & L). exists bs.
  destruct (C71_writer_too_long bs wr_open (k_data (w_sink wr_open)) [] (hd (mkON 0 0 (mkNH 0 0 0 x00) false false) (w_open wr_open)) [])
    as (E & s' & E' & D).
  - split; reflexivity.
  - split; [rewrite app_nil_r; reflexivity|]. split; vm_compute; reflexivity.
  - reflexivity.
  - vm_compute. reflexivity.
  - rewrite L. vm_compute. reflexivity.
  - rewrite L. vm_compute. discriminate.
  - exists s'. split; [exact L|]. rewrite L in E. split; [exact E|]. split; [exact E'|]. rewrite D, L.
    change (pow2_32 mod pow2_32)%N with 0%N. rewrite (dropN_all byte [] (5 + pow2_32)) by (vm_compute; discriminate). rewrite app_nil_r. reflexivity.
Qed.

Print Assumptions C71_same_below_limit.
Print Assumptions C71_plain_reader.
Print Assumptions C71_load_plain.
Print Assumptions C71_documents.
Print Assumptions C71_panic_refuted.
Print Assumptions C71_position_refuted.
Print Assumptions C71_hint_refuted.
Print Assumptions C71_writer.
Print Assumptions C71_writer_too_long.
Print Assumptions C71_writer_refuted.
