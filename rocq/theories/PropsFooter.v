(** C24: which footers are accepted, and the warnings about them. *)
Require Import Coq.Lists.List Coq.NArith.NArith Coq.ZArith.ZArith Coq.Bool.Bool Coq.micromega.Lia.
Require Import Coq.Init.Byte.
Require Import ZifyBool ZifyNat ZifyN.
Require Import Verif.Base Verif.BaseFacts Verif.Utf8 Verif.Types Verif.Io Verif.IoFacts Verif.Parser Verif.MonadFacts Verif.ParserSteps Verif.ParserShape Verif.Zlib Verif.Moves Verif.Loaders Verif.Spec Verif.SpecFacts Verif.ParserPos Verif.ParserSafe Verif.AttrLoad Verif.DocCursor Verif.FooterFacts Verif.ParserHist Verif.ParserRel Verif.PropsRel Verif.Peer Verif.PropsHeader Verif.PropsEvents Verif.PropsDoc Verif.Samples.
Import ListNotations.
Ltac Zify.zify_post_hook ::= Z.div_mod_to_equations.

Section WithEnv.
Context {env : Env}.

Lemma bind_inv_ok : forall A B (m : M A) (f : A -> M B) s b s', bind m f s = (Ok b, s') ->
  exists a s1, m s = (Ok a, s1) /\ f a s1 = (Ok b, s').
Proof. intros A B m f s b s' H. unfold bind in H. destruct (m s) as [[a|e|] s1]; try discriminate. eauto. Qed.

Lemma read_exact_inv : forall n s bs s', ready s -> read_exact n s = (Ok bs, s') ->
  length bs = n /\ rem_of s = bs ++ rem_of s' /\ moved (N.of_nat n) s s' /\ ready s'.
Proof.
  intros n s bs s' Hr E. destruct (N.le_gt_cases (N.of_nat n) (lenN (rem_of s))) as [L|L].
  - destruct (split_len _ _ _ L) as (a & b & Er & La). destruct (read_exact_mv _ _ _ _ Hr Er La) as (s1 & E1 & M & R & Y).
    rewrite E1 in E. injection E as <- <-. rewrite R. auto.
  - destruct (read_exact_err _ _ _ _ Hr E L) as (e & X). discriminate.
Qed.
Lemma parse_uint_inv : forall n s v s', ready s -> parse_uint n s = (Ok v, s') ->
  rem_of s = le_enc n v ++ rem_of s' /\ moved (N.of_nat n) s s' /\ ready s'.
Proof.
  intros n s v s' Hr E. unfold parse_uint, bind in E. destruct (read_exact n s) as [[bs|e|] s1] eqn:E1; try discriminate. injection E as <- <-.
  destruct (read_exact_inv _ _ _ _ Hr E1) as (L & R & M & Y). split; [|auto]. rewrite <- L, le_enc_dec. exact R.
Qed.
Lemma parse_u8_inv : forall s v s', ready s -> parse_u8 s = (Ok v, s') ->
  rem_of s = [v] ++ rem_of s' /\ moved 1 s s' /\ ready s'.
Proof.
  intros s v s' Hr E. unfold parse_u8, bind in E. destruct (read_exact 1 s) as [[bs|e|] s1] eqn:E1; try discriminate. injection E as <- <-.
  destruct (read_exact_inv _ _ _ _ Hr E1) as (L & R & M & Y). split; [|auto]. destruct bs as [|b [|? ?]]; try discriminate. exact R.
Qed.
Lemma marker_inv : forall s h s', ready s -> read_node_header s = (Ok h, s') -> is_node_end h = true ->
  rem_of s = end_marker (p_ver s) ++ rem_of s' /\ moved (header_size (p_ver s)) s s' /\ ready s'.
Proof.
  intros s h s' Hr E He. unfold read_node_header in E. rewrite bind_gets in E. change (hdr_width (p_ver s)) with (width (p_ver s)) in E.
  apply bind_inv_ok in E. destruct E as (eo & s1 & E1 & E). apply bind_inv_ok in E. destruct E as (na & s2 & E2 & E).
  apply bind_inv_ok in E. destruct E as (ba & s3 & E3 & E). apply bind_inv_ok in E. destruct E as (nl & s4 & E4 & E). injection E as <- <-.
  destruct (parse_uint_inv _ _ _ _ Hr E1) as (R1 & M1 & Y1). destruct (parse_uint_inv _ _ _ _ Y1 E2) as (R2 & M2 & Y2).
  destruct (parse_uint_inv _ _ _ _ Y2 E3) as (R3 & M3 & Y3). destruct (parse_u8_inv _ _ _ Y3 E4) as (R4 & M4 & Y4).
  unfold is_node_end in He. cbn [nh_end nh_attrs nh_alen nh_nlen] in He.
  apply andb_prop in He. destruct He as [He H4]. apply andb_prop in He. destruct He as [He H3]. apply andb_prop in He. destruct He as [H1 H2].
  apply N.eqb_eq in H1, H2, H3, H4. subst eo na ba.
  split; [|split; [|exact Y4]].
  - rewrite (end_marker_eq (p_ver s)), <- !app_assoc, R1, R2, R3, R4. do 4 f_equal. f_equal. clear - H4. destruct nl; try discriminate H4; reflexivity.
  - pose proof (moved_trans _ _ _ _ _ (moved_trans _ _ _ _ _ (moved_trans _ _ _ _ _ M1 M2) M3) M4) as M.
    replace (header_size (p_ver s)) with (N.of_nat (width (p_ver s)) + N.of_nat (width (p_ver s)) + N.of_nat (width (p_ver s)) + 1)%N by (unfold header_size; lia). exact M.
Qed.

(** The call that meets the end of the document. *)
Lemma end_call : forall O s f s', ready s -> accepts s -> (7000 <= p_ver s <= 7999)%N ->
  run_op (@ONext O) s = (Ok (BEvent (EvEndFbx f)), s') ->
  exists rest, rem_of s = end_marker (p_ver s) ++ rest /\
  match f with
  | inr ft => exists f ext, foot_ok f /\ rest = enc_footer (p_ver s) f ++ ext /\ ft = footer_of (p_ver s) f /\
       rem_of s' = ext /\ pos_of s' = (pos_of s + header_size (p_ver s) + lenN (enc_footer (p_ver s) f))%N /\
       p_log s' = pad_warnings (pos_of s + header_size (p_ver s)) (ft_pad f) ++ nib_warnings (pos_of s + header_size (p_ver s)) (ft_unknown1 f) ++ p_log s
  | inl e => (e = err_from (EData BrokenFbxFooter) \/ exists io, e = err_from (EIo io)) /\
       forall f ext, foot_ok f -> rest <> enc_footer (p_ver s) f ++ ext
  end.
Proof.
  intros O s f s' Hr Ha Hv E. unfold run_op in E. rewrite bind_modify in E.
  apply bind_inv_ok in E. destruct E as (e & s1 & E & E').
  assert (e = EvEndFbx f /\ s1 = s') as [-> ->].
  { destruct e; [|injection E' as <- ; auto|injection E' as <- <-; auto]. apply bind_inv_ok in E'. destruct E' as (? & ? & _ & E'). discriminate. }
  clear E'. pose proof (next_event_shape _ _ _ E ltac:(discriminate)) as K. cbn [p_health set_attrs] in K.
  destruct (p_health s); [|destruct K; discriminate|destruct K; discriminate]. destruct K as (_ & r0 & s2 & Hp & -> & EF).
  pose proof (impl_path_shape _ _ _ Hp) as [Hst _]. cbn [p_stack set_attrs] in Hst.
  inversion Hp as [| | | | | | | | s3 h s4 [AH _] RH HE HC HP1 HP2|? ? ? ? ? ? ? ? SN]; subst.
  2:{ exfalso. apply start_node_shape in SN; [|discriminate]. destruct SN as [SN _]. discriminate. }
  unfold skip_unread_attributes in AH. rewrite bind_gets in AH. unfold current_node in AH. cbn [p_stack set_attrs] in AH. rewrite Hst in AH. injection AH as <-.
  assert (Hr' : ready (set_attrs None s)) by exact Hr.
  destruct (marker_inv _ _ _ Hr' RH HE) as (R & M & Y). cbn [p_ver set_attrs] in R, M.
  destruct (moved_fields _ _ _ M) as (F1 & F2 & F3 & F4 & F5 & F6 & (F7 & F8 & F9)). cbn [p_ver p_stack p_log p_handler set_attrs] in F1, F3, F7, F8.
  exists (rem_of s4). split; [exact R|].
  assert (P4 : pos_of s4 = (pos_of s + header_size (p_ver s))%N) by exact (moved_pos _ _ _ M).
  assert (ES : p_stack s4 = []) by congruence. 
  set (s5 := set_last (Some KEndFbx) (set_health Finished (pop s4))) in EF.
  assert (X1 : ready s5) by exact Y. assert (X2 : accepts s5) by (unfold accepts; cbn; rewrite F8; exact Ha).
  assert (X3 : p_ver s5 = p_ver s) by (cbn; congruence).
  destruct (footer_read s5 (p_ver s) X1 X2 X3 (u4_ver _ Hv)) as (r & s6 & E6 & K). rewrite EF in E6. injection E6 as <- <-.
  change (rem_of s5) with (rem_of s4) in K. change (pos_of s5) with (pos_of s4) in K. change (p_log s5) with (p_log s4) in K. rewrite P4, F7 in K.
  destruct f as [e|ft]; [exact K|]. destruct K as (f & ext & K1 & K2 & K3 & K4 & K5 & _ & K6). exists f, ext. auto 8.
Qed.

Lemma end_call_nonempty : forall O s f s', run_op (@ONext O) s = (Ok (BEvent (EvEndFbx f)), s') -> rem_of s <> [].
Proof.
  intros O s f s' E. unfold run_op in E. rewrite bind_modify in E.
  apply bind_inv_ok in E. destruct E as (e & s1 & E & E').
  assert (e = EvEndFbx f /\ s1 = s') as [-> ->].
  { destruct e; [|injection E' as <- ; auto|injection E' as <- <-; auto]. apply bind_inv_ok in E'. destruct E' as (? & ? & _ & E'). discriminate. }
  clear E'. pose proof (next_event_shape _ _ _ E ltac:(discriminate)) as K. cbn [p_health set_attrs] in K.
  destruct (p_health s); [|destruct K; discriminate|destruct K; discriminate]. destruct K as (_ & r0 & s2 & Hp & -> & EF).
  pose proof (impl_path_shape _ _ _ Hp) as [Hst _]. cbn [p_stack set_attrs] in Hst.
  inversion Hp as [| | | | | | | | s3 h s4 [AH _] RH HE HC HP1 HP2|? ? ? ? ? ? ? ? SN]; subst.
  2:{ exfalso. apply start_node_shape in SN; [|discriminate]. destruct SN as [SN _]. discriminate. }
  unfold skip_unread_attributes in AH. rewrite bind_gets in AH. unfold current_node in AH. cbn [p_stack set_attrs] in AH. rewrite Hst in AH. injection AH as <-.
  unfold read_node_header in RH. rewrite bind_gets in RH. apply bind_inv_ok in RH. destruct RH as (v & s5 & RH & _).
  unfold parse_uint in RH. apply bind_inv_ok in RH. destruct RH as (bs & s6 & RH & _). unfold read_exact in RH.
  apply bind_inv_ok in RH. destruct RH as (x & s7 & RH & RH'). destruct x as [x|x]; [discriminate|].
  unfold try_read, rdop in RH. destruct (rd_exact _ (p_rd (set_attrs None s))) as [o r'] eqn:ER. destruct o as [o|]; [|discriminate]. injection RH as -> <-.
  apply rd_exact_spec in ER. destruct ER as (ER & EL & _). change (p_rd (set_attrs None s)) with (p_rd s) in ER. unfold rem_of. rewrite ER.
  intros X. apply app_eq_nil in X. destruct X as [-> _]. unfold hdr_width in EL. destruct (_ <? _)%N in EL; discriminate.
Qed.

(** C24, for every file and every history of calls before: when the parser reports the end of
    the document, the bytes it had not read yet were an end marker followed by some [rest].
    It returns a footer iff [rest] starts with 16 bytes, fewer than 16 zero bytes, 4 zero
    bytes, the version, 120 zero bytes and the fixed trailer, and then the footer it returns
    holds those fields, exactly the footer is consumed, and the warnings raised are about the
    padding iff it does not align to 16 and about the first field iff its high nibbles are
    not the prescribed ones.  Otherwise the error is [BrokenFbxFooter] or an I/O error. *)
Theorem C24_footer : forall data sched seeks seekable h p, nofail sched = true -> noseekfail seeks = true -> accepting h ->
  (lenN data < pow2_64)%N -> opened data sched seeks seekable h p ->
  forall O (l : list (op O)) rs s f s', Forall regular l -> run_ops l p = (rs, s) -> no_panic rs ->
  run_op (@ONext O) s = (Ok (BEvent (EvEndFbx f)), s') ->
  let ver := p_ver p in
  let start := (pos_of s + header_size ver)%N in
  exists rest, s_rem (r_stream (p_rd s)) = end_marker ver ++ rest /\
  match f with
  | inr ft => exists f ext, foot_ok f /\ rest = enc_footer ver f ++ ext /\ ft = footer_of ver f /\
       s_rem (r_stream (p_rd s')) = ext /\ pos_of s' = (start + lenN (enc_footer ver f))%N /\
       p_log s' = pad_warnings start (ft_pad f) ++ nib_warnings start (ft_unknown1 f) ++ p_log s
  | inl e => (e = err_from (EData BrokenFbxFooter) \/ exists io, e = err_from (EIo io)) /\
       forall f ext, foot_ok f -> rest <> enc_footer ver f ++ ext
  end.
Proof.
  intros data sched seeks seekable h p Hs Hk Hh HL Ho O l rs s f s' Hreg E Hn EN ver start.
  destruct (opened_calm _ _ _ _ _ _ Hs Hk Ho) as [Hc _].
  destruct (opened_init _ _ _ _ _ _ Ho) as (I1 & I2 & I3 & I4 & I5 & I6 & I7 & I8 & I9 & I10 & I11 & I12 & I13).
  assert (P0 : peer [] [] p p).
  { constructor; auto; [constructor; reflexivity|unfold accepts; rewrite I5; exact Hh|unfold accepts; rewrite I5; exact Hh|]. exists []. rewrite I6. auto. }
  destruct (peer_runs _ _ O l p p Hreg P0) as [_ P1]. rewrite E in P1. cbn [snd] in P1.
  destruct (run_ops_fwd _ _ _ _ _ E Hn) as (V & _ & _ & d & q & (M1 & M2 & M3 & M4) & L & _).
  assert (RD : ready s).
  { split; [apply (e_calm1 _ _ _ _ P1)|]. pose proof (end_call_nonempty _ _ _ _ EN) as NE. unfold rem_of in NE. unfold room.
    rewrite M1, I11, dropN_dropN in *. rewrite M3, I8. destruct (N.le_gt_cases (lenN data) (27 + d)) as [X|X].
    - exfalso. apply NE. apply lenN_0. rewrite lenN_dropN. lia.
    - rewrite lenN_dropN. lia. }
  unfold start, ver. rewrite <- V in *. apply (end_call O s f s' RD (e_acc1 _ _ _ _ P1) ltac:(lia) EN).
Qed.

(** For seekable readers the bytes not yet read are those of the file from the reported
    position on (C04); the footer thus starts at that position plus the end marker's size. *)
Corollary C24_footer_in_file : forall data sched seeks h p, nofail sched = true -> noseekfail seeks = true -> accepting h ->
  (lenN data < pow2_64)%N -> opened data sched seeks true h p ->
  forall O (l : list (op O)) rs s f s', Forall regular l -> run_ops l p = (rs, s) -> no_panic rs ->
  run_op (@ONext O) s = (Ok (BEvent (EvEndFbx f)), s') ->
  let ver := p_ver p in
  exists pos, position_of s = Some pos /\
  ((exists ft, f = inr ft) <-> exists f ext, foot_ok f /\ dropN (byte_pos pos) data = end_marker ver ++ enc_footer ver f ++ ext).
Proof.
  intros data sched seeks h p Hs Hk Hh HL Ho O l rs s f s' Hreg E Hn EN ver.
  destruct (C04_position_is_offset_seekable _ _ _ _ _ _ _ _ _ Ho E Hn) as (pos & E1 & _ & E3).
  exists pos. split; [exact E1|].
  destruct (C24_footer _ _ _ _ _ _ Hs Hk Hh HL Ho O l rs s f s' Hreg E Hn EN) as (rest & R & K). fold ver in R, K. rewrite E3 in R. split.
  - intros (ft & ->). destruct K as (f & ext & K1 & K2 & _). exists f, ext. split; [exact K1|]. rewrite R, K2. reflexivity.
  - intros (g & ext & G1 & G2). destruct f as [e|ft]; [|eauto]. exfalso. destruct K as [_ K]. rewrite R in G2. apply app_inv_head in G2. eapply K; eauto.
Qed.

End WithEnv.

(** The sample document ends in an accepted footer without warnings; with the padding one byte
    longer there is a warning; with a bad first field another; with a byte of the trailer
    changed the footer is broken. *)
Module FooterCases.
Local Existing Instance release.
Definition foot_run (bytes : list byte) : option (perr + footer) * list warning :=
  match any_parser (mkStream (spec_magic ++ le_enc 4 7400 ++ end_marker 7400 ++ bytes) 0 [] []) true with
  | Ok p => match run_op (@ONext aval) p with
            | (Ok (BEvent (EvEndFbx f)), s) => (Some f, map fst (p_log s))
            | _ => (None, [])
            end
  | _ => (None, [])
  end.
(** The footer starts at offset 40, so the padding starts at 56 and has 8 bytes. *)
Example C24_good : foot_run (enc_footer 7400 (mkFoot good_unknown1 8)) = (Some (inr (footer_of 7400 (mkFoot good_unknown1 8))), []).
Proof. vm_compute. reflexivity. Qed.
Example C24_padding : foot_run (enc_footer 7400 (mkFoot good_unknown1 9)) =
  (Some (inr (footer_of 7400 (mkFoot good_unknown1 9))), [InvalidFooterPaddingLength 8 9]).
Proof. vm_compute. reflexivity. Qed.
Example C24_field : foot_run (enc_footer 7400 (mkFoot (zeros 16) 8)) =
  (Some (inr (footer_of 7400 (mkFoot (zeros 16) 8))), [UnexpectedFooterFieldValue]).
Proof. vm_compute. reflexivity. Qed.
Example C24_broken : foot_run (enc_footer 7500 (mkFoot good_unknown1 8)) = (Some (inl (err_from (EData BrokenFbxFooter))), []).
Proof. vm_compute. reflexivity. Qed.
End FooterCases.

Print Assumptions C24_footer.
Print Assumptions C24_footer_in_file.
