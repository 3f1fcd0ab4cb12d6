(** The writer: C02 (creation), C25, C26 (round trip), C27, C28, C29 (what success implies), C30. *)
Require Import Coq.Lists.List Coq.NArith.NArith Coq.ZArith.ZArith Coq.Bool.Bool Coq.micromega.Lia.
Require Import Coq.Init.Byte.
Require Import ZifyBool ZifyNat ZifyN.
Require Import Verif.Base Verif.BaseFacts Verif.Utf8 Verif.Types Verif.Io Verif.IoFacts Verif.Parser Verif.MonadFacts Verif.ParserSteps Verif.Loaders Verif.Writer Verif.WriterFacts Verif.Zlib Verif.Spec Verif.SpecFacts Verif.FooterFacts Verif.WriterSpec Verif.WriterSim Verif.WriterNodes Verif.PropsHeader Verif.DocTrace Verif.DocRef Verif.PropsDoc Verif.PropsFooter Verif.Samples.
Import ListNotations.
Ltac Zify.zify_post_hook ::= Z.div_mod_to_equations.
Open Scope writer_scope.

(** A client's history: a writer is created on some sink and called; every call succeeded,
    except that closing a node when none is open was refused. *)
Record wrote {env : Env} (k : sink) (ver : N) (l : list wcall) (s : wstate) : Prop := mkWrote {
  wt_typed : Forall wcall_typed l;
  wt_faithful : Forall wfaithful l;
  wt_run : exists s0 rs, new_writer k ver = Ok s0 /\ run_wcalls l s0 = (rs, s) /\
             Forall (fun r => r = Ok tt \/ r = Err NoNodesToClose) rs
}.

Section WithEnv.
Context {env : Env}.

Lemma wrote_rel : forall k ver l s, wrote k ver l s -> wrel ver (k_data k) (doc_calls l odoc_start) s /\ ver_major ver = 7%N.
Proof.
  intros k ver l s [HT HF (s0 & rs & E0 & E1 & HR)]. destruct (new_writer_ok _ _ _ E0) as [R HV]. split; [|exact HV].
  eapply wcalls_ok; eauto.
Qed.

(** ** C02: creation *)
Theorem C02_writer_versions : forall k ver,
  match new_writer k ver with
  | Ok _ => (7000 <= ver <= 7999)%N
  | Err e => ((7000 <= ver <= 7999)%N /\ exists io, e = WIo io) \/ (~ (7000 <= ver <= 7999)%N /\ e = WUnsupportedFbxVersion ver)
  | Panic => False
  end.
Proof.
  intros k ver. unfold new_writer. destruct (ver_major ver =? 7)%N eqn:EM; cbn [negb].
  - assert (V : (7000 <= ver <= 7999)%N) by (unfold ver_major in EM; lia).
    destruct ((seek 0;> write magic;> write (le_enc 4 ver)) (mkW k ver [])) as [[u|e|] s] eqn:E.
    + exact V.
    + left. split; [exact V|].
      assert (K : werrs (fun e => exists io, e = WIo io) (seek 0;> write magic;> write (le_enc 4 ver))) by (repeat werr_step; eauto).
      eapply K; eauto.
    + apply wbind_inv in E. destruct E as [(a & s1 & E1 & E)|[(e & _ & X)|[E _]]]; [|discriminate|unfold seek, k_seek in E; cbn [w_sink] in E; destruct (k_seeks k) as [|[c|] sk]; discriminate].
      apply wbind_inv in E. destruct E as [(a2 & s2 & E2 & E)|[(e & _ & X)|[E _]]]; [|discriminate|];
        unfold write, write_as in E; destruct (wr _ _ _ _) as [[[[x|] ?] ?] ?]; discriminate.
  - right. split; [|reflexivity]. unfold ver_major in EM. lia.
Qed.

(** ** C27: layout *)

(** After every history of successful calls, the sink holds the bytes of the document under
    construction, its position is right after them, and the bytes that the sink held further
    on are still there. *)
Theorem C27_layout : forall k ver l s, wrote k ver l s ->
  let bytes := enc_open ver (doc_calls l odoc_start) in
  k_data (w_sink s) = bytes ++ dropN (lenN bytes) (k_data k) /\ k_pos (w_sink s) = lenN bytes.
Proof.
  intros k ver l s H. destruct (wrote_rel _ _ _ _ H) as [[_ (A1 & A2 & _) _ _ _ _] _]. auto.
Qed.

Lemma default1_spec : wf_default1 = spec_default1. Proof. reflexivity. Qed.
Lemma default3_spec : wf_default3 = spec_trailer. Proof. reflexivity. Qed.

Definition adds (m : WM unit) (ver : N) (bs : list byte) : Prop := forall s a s' pre old,
  m s = (Ok a, s') -> w_ver s = ver -> at_ pre old (w_sink s) -> same s s' /\ at_ (pre ++ bs) (dropN (lenN bs) old) (w_sink s').
Lemma adds_seq : forall m1 m2 ver b1 b2, adds m1 ver b1 -> adds m2 ver b2 -> adds (m1 ;> m2) ver (b1 ++ b2).
Proof.
  intros m1 m2 ver b1 b2 H1 H2 s a s' pre old H V A. apply wbind_ok in H. destruct H as (x & s1 & E1 & E2).
  destruct (H1 _ _ _ _ _ E1 V A) as [S1 A1]. destruct (H2 _ _ _ _ _ E2 (eq_trans (proj1 S1) V) A1) as [S2 A2].
  split; [eapply same_trans; eauto|]. rewrite app_assoc, lenN_app, <- dropN_dropN. exact A2.
Qed.
Lemma adds_write : forall bs ver, adds (write bs) ver bs.
Proof. intros bs ver s a s' pre old H V A. eapply write_ok; eauto. Qed.
Lemma adds_ver : forall ver, adds (let! v := wgets w_ver in write (le_enc 4 v)) ver (le_enc 4 ver).
Proof.
  intros ver s a s' pre old H V A. apply wbind_ok in H. destruct H as (x & s1 & E1 & E2). injection E1 as <- <-. rewrite V in E2.
  eapply write_ok; eauto.
Qed.

Lemma finalize_layout : forall ver old d s fl f k s', wrel ver old d s -> finalize fl f s = (Ok k, s') ->
  od_frames d = [] /\ let bytes := enc_finished ver (od_nodes d) f in
  k_data k = bytes ++ dropN (lenN bytes) old /\ k_pos k = lenN bytes /\ (lenN bytes < pow2_63)%N.
Proof.
  intros ver old d s fl f k s' [RV RA RS RN RF RZ] H. unfold finalize in H.
  destruct ((finalize_impl f;> wwhen fl flush) s) as [[u|e|] s1] eqn:E; try discriminate. injection H as <- <-.
  apply wbind_ok in E. destruct E as (u0 & s0 & E0 & E). assert (ES : s0 = s1).
  { unfold wwhen, flush in E. destruct fl; [|injection E as _ <-; reflexivity]. destruct (k_flush (w_sink s0)); [discriminate|]. injection E as _ <-. reflexivity. }
  subst s0. clear E. unfold finalize_impl in E0. apply wbind_ok in E0. destruct E0 as (op & sa & E & E0). injection E as <- <-.
  destruct (w_open s) as [|n t] eqn:EO; [|discriminate]. destruct (od_frames d) as [|g fs] eqn:ED; [|contradiction]. split; [reflexivity|].
  apply wbind_ok in E0. destruct E0 as (ua & sb & E & E0).
  destruct (wnh_ok _ _ _ _ _ _ E RA) as ((V1 & _) & A1 & _). clear E. rewrite RV, node_end_bytes in *.
  apply wbind_ok in E0. destruct E0 as (ub & sc & E & E0).
  destruct (write_ok _ _ _ _ _ _ _ E A1) as [(V2 & _) A2]. clear E.
  apply wbind_ok in E0. destruct E0 as (len & sd & E & E0).
  set (pre := (enc_open ver d ++ end_marker ver) ++ wf_field1 f) in *.
  set (rest := dropN (lenN (wf_field1 f)) (dropN (lenN (end_marker ver)) (dropN (lenN (enc_open ver d)) old))) in *.
  assert (EP : same sc sd /\ at_ pre rest (w_sink sd) /\ len = footer_pad f (lenN pre)).
  { unfold footer_pad. destruct (wf_padding f).
    - apply wbind_ok in E. destruct E as (cur & se & E1 & E2). injection E2 as <- <-.
      destruct (tell_ok _ _ _ _ _ E1 A2) as (S & A3 & ->). split; [exact S|]. split; [exact A3|].
      apply pad16_spec. destruct A3 as (_ & _ & L). unfold pow2_63, pow2_64 in *. lia.
    - injection E as <- <-. split; [apply same_refl|]. auto. }
  destruct EP as ((V3 & _) & A3 & EL). clear E.
  assert (K : adds (write (zeros (N.to_nat len));> write (wf_field2 f);> (let! ver0 := wgets w_ver in write (le_enc 4 ver0));> write (zeros 120);> write (wf_field3 f)) ver
    (zeros (N.to_nat len) ++ wf_field2 f ++ le_enc 4 ver ++ zeros 120 ++ wf_field3 f)).
  { repeat (apply adds_seq; [first [apply adds_write|apply adds_ver]|]). apply adds_write. }
  destruct (K _ _ _ _ _ E0 ltac:(congruence) A3) as [_ (D & P & L)].
  assert (EB : enc_finished ver (od_nodes d) f = pre ++ zeros (N.to_nat len) ++ wf_field2 f ++ le_enc 4 ver ++ zeros 120 ++ wf_field3 f).
  { assert (LO : lenN (enc_open ver d ++ end_marker ver) = (27 + nodes_size ver (od_nodes d) + header_size ver)%N).
    { unfold enc_open. rewrite ED, lenN_app, enc_base_len, end_marker_len. reflexivity. }
    unfold enc_finished, enc_wfooter. change (footer_field (wf_unknown1 f) spec_default1) with (wf_field1 f).
    change (footer_field (wf_unknown2 f) (zeros 4)) with (wf_field2 f). change (footer_field (wf_unknown3 f) spec_trailer) with (wf_field3 f).
    rewrite EL. assert (EPL : lenN pre = (27 + nodes_size ver (od_nodes d) + header_size ver + lenN (wf_field1 f))%N) by (unfold pre; rewrite lenN_app, LO; reflexivity).
    rewrite EPL. unfold pre, enc_open. rewrite ED. cbn [enc_frames]. rewrite <- !app_assoc. reflexivity. }
  cbv zeta. rewrite EB. split; [|split; [exact P|exact L]]. rewrite D. f_equal.
  unfold rest, pre. rewrite !dropN_dropN. f_equal. rewrite !lenN_app. lia.
Qed.

(** After [finalize], the sink holds the whole file. *)
Theorem C27_finished : forall k ver l s fl f k' s', wrote k ver l s -> finalize fl f s = (Ok k', s') ->
  od_frames (doc_calls l odoc_start) = [] /\
  let bytes := enc_finished ver (od_nodes (doc_calls l odoc_start)) f in
  k_data k' = bytes ++ dropN (lenN bytes) (k_data k) /\ k_pos k' = lenN bytes.
Proof.
  intros k ver l s fl f k' s' H E. destruct (wrote_rel _ _ _ _ H) as [R _].
  destruct (finalize_layout _ _ _ _ _ _ _ _ R E) as (A & B & C & _). auto.
Qed.

(** ** C29: what success implies about sizes *)

(** Whatever was closed successfully fits the fields of the version. *)
Theorem C29_closed_nodes_fit : forall k ver l s, wrote k ver l s ->
  let d := doc_calls l odoc_start in
  Forall node_ok (od_nodes d) /\ Forall (counts_ok ver) (od_nodes d) /\
  u_ok (width ver) (27 + nodes_size ver (od_nodes d)) /\
  Forall (fun f => (lenN (of_name f) < 256)%N /\ Forall attr_ok (of_atts f) /\ Forall node_ok (of_kids f) /\ Forall (counts_ok ver) (of_kids f)) (od_frames d).
Proof.
  intros k ver l s H d. destruct (wrote_rel _ _ _ _ H) as [[_ _ _ RN RF RZ] _]. unfold d.
  split; [eapply Forall_impl; [|exact RN]; intros ? []; auto|]. split; [eapply Forall_impl; [|exact RN]; intros ? []; auto|].
  split; [exact RZ|]. eapply Forall_impl; [|exact RF]. intros f (F1 & F2 & F3 & F4 & F5). split; [exact F2|]. split; [exact F3|].
  split; (eapply Forall_impl; [|exact F5]); intros ? []; auto.
Qed.

Theorem C29_finished_fits : forall k ver l s fl f k' s', wrote k ver l s -> finalize fl f s = (Ok k', s') ->
  doc_ok ver (od_nodes (doc_calls l odoc_start)).
Proof.
  intros k ver l s fl f k' s' H E. destruct (wrote_rel _ _ _ _ H) as [R HV].
  destruct (C29_closed_nodes_fit _ _ _ _ H) as (A & B & C & _).
  destruct (finalize_layout _ _ _ _ _ _ _ _ R E) as (_ & _ & _ & L). split; [unfold ver_major in HV; lia|].
  repeat split; auto. unfold enc_finished in L. rewrite !lenN_app, le_enc_lenN, enc_nodes_len' in L. change (lenN spec_magic) with 23%N in L. lia.
Qed.

(** ** C28: misuse *)
Lemma stack_len : forall ver ns b fs os, stack_rel ver ns b fs os -> lenN os = lenN fs.
Proof.
  intros ver ns b fs. revert b. induction fs as [|f fs IH]; intros b [|o os] H; try contradiction; [reflexivity|].
  rewrite !lenN_cons. destruct H as [_ H]. rewrite (IH _ _ H). reflexivity.
Qed.

Theorem C28_close_without_open : forall k ver l s, wrote k ver l s ->
  od_frames (doc_calls l odoc_start) = [] -> close_node s = (Err NoNodesToClose, s).
Proof.
  intros k ver l s H E. destruct (wrote_rel _ _ _ _ H) as [[_ _ RS _ _ _] _]. rewrite E in RS.
  destruct (w_open s) as [|o t] eqn:EO; [|contradiction].
  unfold close_node, finalize_attributes, wbind, wgets. rewrite EO. cbn [wret]. unfold wret. rewrite EO. reflexivity.
Qed.

Theorem C28_finalize_with_open : forall k ver l s fl f, wrote k ver l s ->
  od_frames (doc_calls l odoc_start) <> [] -> finalize fl f s = (Err (UnclosedNode (lenN (od_frames (doc_calls l odoc_start)))), s).
Proof.
  intros k ver l s fl f H E. destruct (wrote_rel _ _ _ _ H) as [[_ _ RS _ _ _] _].
  pose proof (stack_len _ _ _ _ _ RS) as EL. destruct (w_open s) as [|o t] eqn:EO; [destruct (od_frames _); [contradiction|discriminate]|].
  rewrite <- EL. unfold finalize, finalize_impl, wbind, wgets. rewrite EO. reflexivity.
Qed.

(** Names that are too long: the call is refused (or the sink fails to tell its position) and
    no byte is written; nothing at all changes if no node is open or the innermost open node
    has children. *)
Theorem C28_long_name_partial : forall k ver l s name r s', wrote k ver l s ->
  (256 <= lenN name)%N -> new_node name s = (r, s') ->
  (r = Err (NodeNameTooLong (lenN name)) \/ exists io, r = Err (WIo io)) /\
  k_data (w_sink s') = k_data (w_sink s) /\ k_pos (w_sink s') = k_pos (w_sink s) /\
  match od_frames (doc_calls l odoc_start) with
  | [] => r = Err (NodeNameTooLong (lenN name)) /\ s' = s
  | f :: _ => of_kids f <> [] -> r = Err (NodeNameTooLong (lenN name)) /\ s' = s
  end.
Proof.
  intros k ver l s name r s' H HL E. destruct (wrote_rel _ _ _ _ H) as [[_ RA RS _ _ _] _].
  unfold new_node in E. replace (lenN name <? 256)%N with false in E by lia. cbn [negb] in E.
  destruct (w_open s) as [|o t] eqn:EO.
  - destruct (od_frames (doc_calls l odoc_start)) as [|f fs]; [|contradiction].
    unfold finalize_attributes, wbind, wgets, wret, wmodify, set_has_child, wthrow in E. rewrite EO in E. cbn in E. rewrite EO in E. injection E as <- <-. auto 8.
  - destruct (od_frames (doc_calls l odoc_start)) as [|f fs] eqn:EF; [contradiction|]. cbn [stack_rel] in RS. destruct RS as [RO _].
    destruct RO as (O1 & O2 & _ & _ & _ & O6 & O7). cbn [andb] in O7.
    destruct (on_finalized o) eqn:FO.
    + unfold finalize_attributes, wbind, wgets, wret, wmodify, set_has_child, wthrow in E. rewrite EO, FO, EO in E. injection E as <- <-.
      split; [left; reflexivity|]. split; [reflexivity|]. split; [reflexivity|]. intros HK. split; [reflexivity|].
      assert (HC : on_has_child o = true) by (rewrite O7; unfold no_kids; destruct (of_kids f); [contradiction|reflexivity]).
      destruct o as [o1 o2 o3 o4 o5], s as [k0 v0 op0]. cbn in *. subst o5 op0. rewrite HC. reflexivity.
    + destruct O6 as [_ O6]. apply wbind_inv in E.
      assert (FA : forall r0 s0, finalize_attributes s = (r0, s0) -> (exists io, r0 = Err (WIo io)) /\ k_data (w_sink s0) = k_data (w_sink s) /\ k_pos (w_sink s0) = k_pos (w_sink s) \/
         r0 = Ok tt /\ k_data (w_sink s0) = k_data (w_sink s) /\ k_pos (w_sink s0) = k_pos (w_sink s)).
      { intros r0 s0 EF0. unfold finalize_attributes in EF0. unfold wbind at 1, wgets in EF0. rewrite EO, FO in EF0.
        apply wbind_inv in EF0. destruct EF0 as [(pos & s1 & E1 & E2)|[(e & E1 & ->)|[E1 _]]].
        - destruct (tell_any _ _ _ _ _ E1 RA) as (_ & (D1 & P1 & _) & ->). destruct RA as (D0 & P0 & _).
          unfold sub_u64 in E2. assert (LE : (on_body_pos o <=? lenN (enc_open ver (doc_calls l odoc_start)))%N = true).
          { unfold enc_open. rewrite EF. cbn [enc_frames]. rewrite lenN_app, enc_frame_len. lia. }
          rewrite LE in E2. unfold wbind, wret, wmodify in E2. injection E2 as <- <-. right. split; [reflexivity|]. destruct s1 as [[] ? ?]; cbn in *. split; congruence.
        - destruct (tell_any _ _ _ _ _ E1 RA) as (_ & (D1 & P1 & _) & X). destruct RA as (D0 & P0 & _). destruct e; try contradiction. left. split; [eauto|]. split; congruence.
        - destruct (tell_any _ _ _ _ _ E1 RA) as (_ & _ & []). }
      assert (K : forall P Q : Prop, P -> (of_kids f <> [] -> Q)) by (intros P Q _ X; contradiction).
      destruct E as [([] & s1 & E1 & E2)|[(e & E1 & ->)|[E1 _]]].
      * destruct (FA _ _ E1) as [[(io & X) _]|(_ & D & P)]; [discriminate|].
        unfold wbind, wmodify, wthrow in E2. injection E2 as <- <-. split; [left; reflexivity|].
        assert (SK : w_sink (set_has_child s1) = w_sink s1) by (unfold set_has_child; destruct (w_open s1); reflexivity). rewrite SK.
        split; [exact D|]. split; [exact P|]. apply (K True). exact I.
      * destruct (FA _ _ E1) as [[(io & X) [D P]]|(X & _)]; [|discriminate]. injection X as ->. split; [right; eauto|]. split; [exact D|]. split; [exact P|]. apply (K True). exact I.
      * destruct (FA _ _ E1) as [[(io & X) _]|(X & _)]; discriminate.
Qed.

(** ** C30: strings from characters *)

(** For characters that take four bytes in UTF-8, the file is the one that
    [append_string_direct] gives on the collected string. *)
Theorem C30_string_from_chars_partial : forall k ver l l' name as1 as2 cs s1 s2, Forall (fun c => (65536 <= c)%N) cs ->
  wrote k ver (l ++ CNode name (as1 ++ AStrIter cs false :: as2) :: l') s1 ->
  wrote k ver (l ++ CNode name (as1 ++ ADirect true (encode_chars cs) :: as2) :: l') s2 ->
  k_data (w_sink s1) = k_data (w_sink s2) /\ k_pos (w_sink s1) = k_pos (w_sink s2).
Proof.
  intros k ver l l' name as1 as2 cs s1 s2 _ H1 H2.
  destruct (C27_layout _ _ _ _ H1) as [D1 P1]. destruct (C27_layout _ _ _ _ H2) as [D2 P2].
  assert (E : doc_calls (l ++ CNode name (as1 ++ AStrIter cs false :: as2) :: l') odoc_start = doc_calls (l ++ CNode name (as1 ++ ADirect true (encode_chars cs) :: as2) :: l') odoc_start).
  { clear. unfold doc_calls. rewrite !fold_left_app. cbn [fold_left]. f_equal. cbn [doc_call].
    generalize (open_node name (fold_left (fun d c => doc_call c d) l odoc_start)). induction as1 as [|c as1 IH]; intros d; [reflexivity|]. cbn [app add_attrs]. apply IH. }
  rewrite E in *. split; congruence.
Qed.

Lemma chars_written : forall cs buf n s m s' pre old, write_chars buf cs n s = (Ok m, s') -> at_ pre old (w_sink s) ->
  m = (n + lenN (encode_chars cs))%N /\ same s s' /\
  at_ (pre ++ concat (char_blocks buf cs)) (dropN (lenN (concat (char_blocks buf cs))) old) (w_sink s').
Proof.
  induction cs as [|c cs IH]; intros buf n s m s' pre old H A.
  - injection H as <- <-. cbn [char_blocks concat]. unfold encode_chars. cbn [map concat]. rewrite app_nil_r, lenN_nil, dropN_0, N.add_0_r. repeat split; auto; apply A.
  - cbn [write_chars] in H. cbv zeta in H. wok H. destruct (write_ok _ _ _ _ _ _ _ E A) as [S1 A1].
    destruct (IH _ _ _ _ _ _ _ H A1) as (-> & S2 & A2).
    change (encode_chars (c :: cs)) with (encode_char c ++ encode_chars cs). cbn [char_blocks concat].
    rewrite (lenN_app _ (encode_char c)), (lenN_app _ _ (concat _)), <- dropN_dropN, app_assoc. split; [lia|]. split; [eapply same_trans; eauto|exact A2].
Qed.

(** What is written for characters of any length: the length field counts the UTF-8 bytes, but
    the body has a block of four bytes for each character. *)
Theorem C30_bytes_written : forall k ver l s cs s', wrote k ver l s ->
  run_acall (AStrIter cs false) s = (Ok tt, s') ->
  let before := enc_open ver (doc_calls l odoc_start) in
  let bytes := spec_code TString :: le_enc 4 (lenN (encode_chars cs)) ++ concat (char_blocks (zeros 4) cs) in
  k_data (w_sink s') = before ++ bytes ++ dropN (lenN before + lenN bytes) (k_data k) /\
  k_pos (w_sink s') = (lenN before + lenN bytes)%N.
Proof.
  intros k ver l s cs s' H E before bytes. destruct (wrote_rel _ _ _ _ H) as [[_ A _ _ _ _] _]. fold before in A.
  cbn [run_acall] in E. unfold append_string_iter in E. wok E. wok E.
  destruct (init_special_ok _ _ _ _ _ _ E0 A) as [(_ & A1 & _) _].
  destruct (chars_written _ _ _ _ _ _ _ _ E1 A1) as (-> & S2 & A2). rewrite N.add_0_l in E.
  destruct (special_ok _ _ _ _ _ _ _ _ _ _ _ E0 A S2 A2 E) as [(_ & (D & P & _) & _) _].
  change ([spec_code TString] ++ le_enc 4 (lenN (encode_chars cs)) ++ concat (char_blocks (zeros 4) cs)) with bytes in D, P.
  rewrite D, P, dropN_dropN, lenN_app, <- app_assoc. auto.
Qed.

Lemma char_len : forall c, (1 <= lenN (encode_char c) <= 4)%N /\ (lenN (encode_char c) = 4%N <-> (65536 <= c)%N).
Proof.
  intros c. unfold encode_char. destruct (c <? 128)%N eqn:E1; [cbn; lia|]. destruct (c <? 2048)%N eqn:E2; [cbn; lia|].
  destruct (c <? 65536)%N eqn:E3; cbn; lia.
Qed.
Lemma blocks_len : forall cs buf, length buf = 4%nat -> lenN (concat (char_blocks buf cs)) = (4 * lenN cs)%N.
Proof.
  induction cs as [|c cs IH]; intros buf L; [reflexivity|]. cbn [char_blocks concat]. pose proof (char_len c) as [C _]. unfold lenN in C.
  assert (B : length (encode_char c ++ skipn (length (encode_char c)) buf) = 4%nat) by (rewrite app_length, skipn_length; lia).
  rewrite lenN_app, (IH _ B), lenN_cons. unfold lenN at 1. rewrite B. lia.
Qed.
Lemma chars_len : forall cs, (lenN (encode_chars cs) <= 4 * lenN cs)%N /\
  (lenN (encode_chars cs) = 4 * lenN cs <-> Forall (fun c => 65536 <= c) cs)%N.
Proof.
  induction cs as [|c cs [IH1 IH2]]; [split; [reflexivity|split; [constructor|reflexivity]]|].
  change (encode_chars (c :: cs)) with (encode_char c ++ encode_chars cs). rewrite lenN_app, lenN_cons.
  destruct (char_len c) as [C1 C2]. split; [lia|]. split; intros H.
  - constructor; [apply C2; lia|apply IH2; lia].
  - inversion H; subst. apply C2 in H2. apply IH2 in H3. lia.
Qed.
Lemma blocks_four : forall cs buf, Forall (fun c => (65536 <= c)%N) cs -> length buf = 4%nat -> concat (char_blocks buf cs) = encode_chars cs.
Proof.
  induction cs as [|c cs IH]; intros buf H L; [reflexivity|]. inversion H; subst. destruct (char_len c) as [_ C]. apply C in H2. unfold lenN in H2.
  cbn [char_blocks concat]. change (encode_chars (c :: cs)) with (encode_char c ++ encode_chars cs).
  rewrite (skipn_all2 buf) by lia. rewrite app_nil_r. f_equal. apply IH; [assumption|lia].
Qed.

(** So the call writes what [append_string_direct] writes exactly if all characters take four
    bytes; otherwise the length field is smaller than the body. *)
Theorem C30_same_iff : forall k ver l s cs s1 s2, wrote k ver l s ->
  run_acall (AStrIter cs false) s = (Ok tt, s1) -> run_acall (ADirect true (encode_chars cs)) s = (Ok tt, s2) ->
  (k_data (w_sink s1) = k_data (w_sink s2) /\ k_pos (w_sink s1) = k_pos (w_sink s2) <-> Forall (fun c => (65536 <= c)%N) cs).
Proof.
  intros k ver l s cs s1 s2 H E1 E2. destruct (C30_bytes_written _ _ _ _ _ _ H E1) as [D1 P1]. destruct (wrote_rel _ _ _ _ H) as [[_ A _ _ _ _] _].
  cbn [run_acall] in E2. unfold append_direct in E2. wok E2. wok E2.
  destruct (init_special_ok _ _ _ _ _ _ E A) as [(_ & A1 & _) _]. destruct (write_ok _ _ _ _ _ _ _ E0 A1) as [S2 A2].
  destruct (special_ok _ _ _ _ _ _ _ _ _ _ _ E A S2 A2 E2) as [(_ & (D2 & P2 & _) & _) _].
  rewrite D2, P2, D1, P1. rewrite dropN_dropN, <- app_assoc.
  set (b := enc_open ver (doc_calls l odoc_start)). set (hd := spec_code TString :: le_enc 4 (lenN (encode_chars cs))).
  change (spec_code TString :: le_enc 4 (lenN (encode_chars cs)) ++ concat (char_blocks (zeros 4) cs)) with (hd ++ concat (char_blocks (zeros 4) cs)).
  change ([spec_code TString] ++ le_enc 4 (lenN (encode_chars cs)) ++ encode_chars cs) with (hd ++ encode_chars cs).
  split.
  - intros [_ P]. apply chars_len. rewrite !lenN_app, (blocks_len cs (zeros 4) (zeros_length 4)) in P. lia.
  - intros F. rewrite (blocks_four cs (zeros 4) F (zeros_length 4)), !lenN_app. auto.
Qed.
End WithEnv.

(** ** Concrete cases *)
Module Cases.
Ltac fine_all := repeat (apply Forall_cons; [first [left; reflexivity|right; reflexivity]|]); apply Forall_nil.

(** A sink with stale content, delivering short and interrupted writes. *)
Definition k0 : sink := mkSink (repeat xaa 40) 7 [WChunk 1; WIntr; WChunk 3; WChunk 2] [] None.
Definition calls0 : list wcall :=
  [ CNode s_a [ASingle (SI32 (-5)); ADirect true s_hi];
      CNode s_b []; CClose;
      CNode [] [ASingle (SBool true)]; CClose;
    CClose; CClose;
    CNode s_c [AArray (Some EncZlib) (LI32 [1; -2; 3]%Z) false; AArray None (LBool [true; false]) false;
               ABinReader [RIntr; RData [x01]; RData [xff]; RData []]];
    CClose ].
Definition state0 (ver : N) : res werr (list (res werr unit) * wstate) :=
  match new_writer k0 ver with Ok s => Ok (run_wcalls (env := release) calls0 s) | Err e => Err e | Panic => Panic end.
Definition st0 (ver : N) : wstate := match state0 ver with Ok (_, s) => s | _ => mkW k0 0 [] end.

Lemma typed0 : Forall wcall_typed calls0.
Proof. repeat constructor; vm_compute; try reflexivity; try (split; intro; discriminate). all: discriminate. Qed.
Lemma faithful0 : Forall wfaithful calls0.
Proof. repeat constructor. Qed.
Lemma wrote0 : forall ver, In ver [7000; 7400; 7500; 7999]%N -> wrote (env := release) k0 ver calls0 (st0 ver).
Proof.
  intros ver H. constructor; [exact typed0|exact faithful0|].
  repeat (destruct H as [<-|H]; [eexists; eexists; split; [vm_compute; reflexivity|]; split; [vm_compute; reflexivity|]; fine_all|]); contradiction.
Qed.

(** The calls are those that give the sample document. *)
Example doc0 : doc_calls calls0 odoc_start = mkOD sample_nodes [].
Proof. vm_compute. reflexivity. Qed.

Definition f0 : wfooter := mkWF None PadDefault None None.
Example finalized0 : exists k' s', finalize true f0 (st0 7400) = (Ok k', s') /\ k_data k' = sample_doc 7400.
Proof. eexists. eexists. split; vm_compute; reflexivity. Qed.

Example C02_writer_ex : (exists s, new_writer k0 7400 = Ok s) /\ new_writer k0 6100 = Err (WUnsupportedFbxVersion 6100) /\
  new_writer (mkSink [] 0 [WChunk 5; WFail 3] [] None) 7400 = Err (WIo (IoOther 3)).
Proof. split; [eexists; vm_compute; reflexivity|]. split; vm_compute; reflexivity. Qed.

(** Open nodes. *)
Definition calls1 : list wcall := [CNode s_a [ASingle (SI32 7)]; CNode s_b [ASingle (SI16 1)]].
Definition st1 : wstate := match new_writer k0 7400 with Ok s => snd (run_wcalls (env := release) calls1 s) | _ => mkW k0 0 [] end.
Lemma wrote1 : wrote (env := release) k0 7400 calls1 st1.
Proof.
  constructor; [repeat constructor; vm_compute; try reflexivity; discriminate|repeat constructor|].
  eexists; eexists; split; [vm_compute; reflexivity|]; split; [vm_compute; reflexivity|]; fine_all.
Qed.
Example C28_ex : finalize false f0 st1 = (Err (UnclosedNode 2), st1) /\
  close_node (env := release) (st0 7400) = (Err NoNodesToClose, st0 7400).
Proof. split; [|apply (C28_close_without_open k0 7400 calls0); [apply wrote0; cbn; auto|reflexivity]].
  exact (C28_finalize_with_open k0 7400 calls1 st1 false f0 wrote1 ltac:(discriminate)). Qed.
Example C28_long_ex : fst (new_node (env := release) (repeat x41 256) st1) = Err (NodeNameTooLong 256).
Proof. vm_compute. reflexivity. Qed.

(** C28 fails for names that are too long: after the refused call the node is closed as if it
    had a child. *)
Theorem C28_long_name_refuted : exists (env : Env) k ver name attrs long s1 s2 r1 r2,
  (256 <= lenN long)%N /\ wrote (env := env) k ver [CNode name attrs] s1 /\ new_node long s1 = (Err (NodeNameTooLong (lenN long)), s2) /\
  close_node s1 = (Ok tt, r1) /\ close_node s2 = (Ok tt, r2) /\ k_data (w_sink r1) <> k_data (w_sink r2).
Proof.
  exists release, k0, 7400%N, s_a, [ASingle (SI32 7)], (repeat x41 256). do 4 eexists.
  split; [vm_compute; discriminate|]. split; [constructor; [repeat constructor; vm_compute; try reflexivity; discriminate|repeat constructor|eexists; eexists; split; [vm_compute; reflexivity|]; split; [vm_compute; reflexivity|]; fine_all]|].
  split; [vm_compute; reflexivity|]. split; [vm_compute; reflexivity|]. split; [vm_compute; reflexivity|].
  vm_compute. discriminate.
Qed.

(** C30 fails for shorter characters: one letter already gives another file, and the length
    field does not cover the bytes written. *)
Theorem C30_string_from_chars_refuted : exists (env : Env) k ver cs s0 s1 s2 r1 r2,
  Forall (fun c => is_scalar c = true) cs /\ new_writer k ver = Ok s0 /\
  run_wcalls [CNode s_a [AStrIter cs false]; CClose] s0 = (r1, s1) /\ Forall (eq (Ok tt)) r1 /\
  run_wcalls [CNode s_a [ADirect true (encode_chars cs)]; CClose] s0 = (r2, s2) /\ Forall (eq (Ok tt)) r2 /\
  k_data (w_sink s1) <> k_data (w_sink s2).
Proof.
  exists release, (mkSink [] 0 [] [] None), 7400%N, [97%N]. do 5 eexists.
  split; [repeat constructor|]. split; [vm_compute; reflexivity|]. split; [vm_compute; reflexivity|]. split; [repeat constructor|].
  split; [vm_compute; reflexivity|]. split; [repeat constructor|]. vm_compute. discriminate.
Qed.
Example C30_ex : exists s1 s2, wrote (env := release) k0 7400 ([] ++ CNode s_a ([] ++ AStrIter [128512; 65536]%N false :: []) :: []) s1 /\
  wrote (env := release) k0 7400 ([] ++ CNode s_a ([] ++ ADirect true (encode_chars [128512; 65536]%N) :: []) :: []) s2.
Proof.
  eexists; eexists; split; (constructor; [repeat constructor|repeat constructor; vm_compute; discriminate|
    eexists; eexists; split; [vm_compute; reflexivity|]; split; [vm_compute; reflexivity|]; fine_all]).
Qed.

(** A string of a four-byte, a one-byte and a two-byte character: the length field says 7, the
    body has 12 bytes, and the tail of each character shows in the blocks after it. *)
Definition mixed : list N := [128512; 97; 233]%N.
Example C30_bytes_ex : exists s s1 s2, wrote (env := release) k0 7400 [CNode s_a []] s /\
  run_acall (env := release) (AStrIter mixed false) s = (Ok tt, s1) /\
  run_acall (env := release) (ADirect true (encode_chars mixed)) s = (Ok tt, s2) /\
  lenN (encode_chars mixed) = 7%N /\
  char_blocks (zeros 4) mixed = [[xf0; x9f; x98; x80]; [x61; x9f; x98; x80]; [xc3; xa9; x98; x80]] /\
  k_data (w_sink s1) <> k_data (w_sink s2).
Proof.
  eexists; eexists; eexists. split.
  { constructor; [repeat constructor|repeat constructor|]. eexists; eexists; split; [vm_compute; reflexivity|]; split; [vm_compute; reflexivity|]; fine_all. }
  split; [vm_compute; reflexivity|]. split; [vm_compute; reflexivity|]. split; [vm_compute; reflexivity|]. split; [vm_compute; reflexivity|]. vm_compute. discriminate.
Qed.
End Cases.
