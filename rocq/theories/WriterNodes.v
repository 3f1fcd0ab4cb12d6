(** Nodes: the writer's open nodes against the document under construction. *)
Require Import Coq.Lists.List Coq.NArith.NArith Coq.ZArith.ZArith Coq.Bool.Bool Coq.micromega.Lia.
Require Import Coq.Init.Byte.
Require Import ZifyBool ZifyNat ZifyN.
Require Import Verif.Base Verif.BaseFacts Verif.Utf8 Verif.Types Verif.Io Verif.Parser Verif.Writer Verif.WriterFacts Verif.Zlib Verif.Spec Verif.SpecFacts Verif.FooterFacts Verif.WriterSpec Verif.WriterSim.
Import ListNotations.
Ltac Zify.zify_post_hook ::= Z.div_mod_to_equations.
Open Scope writer_scope.

Section Nodes.
Context {env : Env}.

Definition hdr_bytes (ver : N) (h : node_header) : list byte :=
  le_enc (width ver) (nh_end h) ++ le_enc (width ver) (nh_attrs h) ++ le_enc (width ver) (nh_alen h) ++ [nh_nlen h].

Lemma hdr_len : forall ver h, lenN (hdr_bytes ver h) = header_size ver.
Proof. intros. unfold hdr_bytes. rewrite !lenN_app, !le_enc_lenN. unfold header_size. change (lenN [nh_nlen h]) with 1%N. lia. Qed.

Definition hdr_fits (ver : N) (h : node_header) : Prop :=
  (ver < 7500)%N -> u_ok 4 (nh_end h) /\ u_ok 4 (nh_attrs h) /\ u_ok 4 (nh_alen h).

Lemma u32_ok : forall n e s a s' pre old, write_u32 n e s = (Ok a, s') -> at_ pre old (w_sink s) ->
  same s s' /\ at_ (pre ++ le_enc 4 n) (dropN (lenN (le_enc 4 n)) old) (w_sink s') /\ u_ok 4 n.
Proof.
  intros n e s a s' pre old H A. unfold write_u32 in H. destruct (n <? pow2_32)%N eqn:E; [|discriminate].
  destruct (write_ok _ _ _ _ _ _ _ H A) as [S1 A1]. repeat split; try apply S1; try apply A1.
  unfold u_ok. change (2 ^ (8 * N.of_nat 4))%N with pow2_32. lia.
Qed.

Lemma wnh_ok : forall h s a s' pre old, write_node_header h s = (Ok a, s') -> at_ pre old (w_sink s) ->
  same s s' /\ at_ (pre ++ hdr_bytes (w_ver s) h) (dropN (lenN (hdr_bytes (w_ver s) h)) old) (w_sink s') /\ hdr_fits (w_ver s) h.
Proof.
  intros h s a s' pre old H A. unfold write_node_header in H. wok H. injection E as <- <-. unfold hdr_fits, hdr_bytes, width.
  destruct (w_ver s <? 7500)%N eqn:EV; wok H; wok E; wok E.
  - destruct (u32_ok _ _ _ _ _ _ _ E0 A) as (S1 & A1 & U1). destruct (u32_ok _ _ _ _ _ _ _ E1 A1) as (S2 & A2 & U2).
    destruct (u32_ok _ _ _ _ _ _ _ E A2) as (S3 & A3 & U3). destruct (write_ok _ _ _ _ _ _ _ H A3) as [S4 A4].
    split; [eapply same_trans; [|exact S4]; eapply same_trans; [|exact S3]; eapply same_trans; eauto|].
    split; [|auto]. rewrite !lenN_app, <- !dropN_dropN, !app_assoc. exact A4.
  - destruct (write_ok _ _ _ _ _ _ _ E0 A) as [S1 A1]. destruct (write_ok _ _ _ _ _ _ _ E1 A1) as [S2 A2].
    destruct (write_ok _ _ _ _ _ _ _ E A2) as [S3 A3]. destruct (write_ok _ _ _ _ _ _ _ H A3) as [S4 A4].
    split; [eapply same_trans; [|exact S4]; eapply same_trans; [|exact S3]; eapply same_trans; eauto|].
    split; [|lia]. rewrite !lenN_app, <- !dropN_dropN, !app_assoc. exact A4.
Qed.

Lemma zeros_app : forall a b, zeros (a + b) = zeros a ++ zeros b.
Proof. intros. unfold zeros. apply repeat_app. Qed.
Lemma le_enc_0 : forall k, le_enc k 0 = zeros k.
Proof. induction k as [|k IH]; [reflexivity|]. cbn [le_enc]. rewrite N.div_0_l, IH by discriminate. reflexivity. Qed.

Lemma node_end_bytes : forall ver, hdr_bytes ver node_end = end_marker ver.
Proof.
  intros ver. unfold hdr_bytes, node_end, end_marker. cbn [nh_end nh_attrs nh_alen nh_nlen]. rewrite !le_enc_0.
  replace (3 * width ver + 1)%nat with (width ver + (width ver + (width ver + 1)))%nat by lia. rewrite !zeros_app. reflexivity.
Qed.
Lemma placeholder_bytes : forall ver name, hdr_bytes ver (mkNH 0 0 0 (Nb (lenN name))) = placeholder ver name.
Proof.
  intros ver name. unfold hdr_bytes, placeholder. cbn [nh_end nh_attrs nh_alen nh_nlen]. rewrite !le_enc_0.
  replace (3 * width ver)%nat with (width ver + (width ver + width ver))%nat by lia. rewrite !zeros_app, <- !app_assoc. reflexivity.
Qed.
Lemma placeholder_len : forall ver name, lenN (placeholder ver name) = header_size ver.
Proof. intros. rewrite <- placeholder_bytes. apply hdr_len. Qed.

(** ** The relation *)
Definition no_kids (f : oframe) : bool := match of_kids f with [] => true | _ => false end.

Definition on_rel (ver off : N) (top : bool) (f : oframe) (n : onode) : Prop :=
  on_header_pos n = off /\ on_body_pos n = (off + header_size ver + lenN (of_name f))%N /\
  nh_end (on_header n) = 0%N /\ nh_attrs (on_header n) = lenN (of_atts f) /\ nh_nlen (on_header n) = Nb (lenN (of_name f)) /\
  (if on_finalized n then nh_alen (on_header n) = lenN (enc_attrs (of_atts f)) else top = true /\ of_kids f = []) /\
  on_has_child n = negb (top && no_kids f).

Fixpoint stack_rel (ver : N) (ns : list node) (top : bool) (l : list oframe) (m : list onode) : Prop :=
  match l, m with
  | [], [] => True
  | f :: t, n :: m' => on_rel ver (lenN (enc_frames ver ns t)) top f n /\ stack_rel ver ns false t m'
  | _, _ => False
  end.

Definition closed_ok (ver : N) (n : node) : Prop := node_ok n /\ counts_ok ver n.
Definition frame_ok (ver : N) (f : oframe) : Prop :=
  utf8_valid (of_name f) = true /\ (lenN (of_name f) < 256)%N /\ Forall attr_ok (of_atts f) /\
  (lenN (of_atts f) < pow2_64)%N /\ Forall (closed_ok ver) (of_kids f).

Record wrel (ver : N) (old : list byte) (d : odoc) (s : wstate) : Prop := mkWrel {
  wr_ver : w_ver s = ver;
  wr_at : at_ (enc_open ver d) (dropN (lenN (enc_open ver d)) old) (w_sink s);
  wr_stack : stack_rel ver (od_nodes d) true (od_frames d) (w_open s);
  wr_nodes : Forall (closed_ok ver) (od_nodes d);
  wr_frames : Forall (frame_ok ver) (od_frames d);
  wr_size : u_ok (width ver) (27 + nodes_size ver (od_nodes d))
}.

Lemma enc_frame_len : forall ver off f, lenN (enc_frame ver off f) =
  (header_size ver + lenN (of_name f) + lenN (enc_attrs (of_atts f)) + nodes_size ver (of_kids f))%N.
Proof. intros. unfold enc_frame. rewrite !lenN_app, placeholder_len, enc_nodes_len'. lia. Qed.
Lemma enc_base_len : forall ver ns, lenN (enc_frames ver ns []) = (27 + nodes_size ver ns)%N.
Proof. intros. cbn [enc_frames]. rewrite !lenN_app, le_enc_lenN, enc_nodes_len'. change (lenN spec_magic) with 23%N. lia. Qed.

(** *** Finalizing attributes *)
Definition top_done (s : wstate) : Prop := match w_open s with [] => True | n :: _ => on_finalized n = true end.

Lemma finalize_ok : forall ver old d s a s', finalize_attributes s = (Ok a, s') -> wrel ver old d s ->
  wrel ver old d s' /\ top_done s'.
Proof.
  intros ver old d s a s' H R. unfold finalize_attributes in H. wok H. injection E as <- <-.
  destruct (w_open s) as [|n t] eqn:EO.
  { injection H as <- <-. split; [exact R|]. unfold top_done. rewrite EO. exact I. }
  destruct (on_finalized n) eqn:EF.
  { injection H as <- <-. split; [exact R|]. unfold top_done. rewrite EO. exact EF. }
  destruct R as [RV RA RS RN RF RZ]. wok H. destruct (tell_ok _ _ _ _ _ E RA) as ((V1 & O1) & A1 & ->).
  rewrite EO in RS. destruct (od_frames d) as [|f l] eqn:ED; [contradiction|]. destruct RS as [(P1 & P2 & P3 & P4 & P5 & P6 & P7) RS].
  rewrite EF in P6. destruct P6 as [_ K].
  wok H. unfold sub_u64 in E0. rewrite P2 in E0. unfold enc_open in E0. rewrite ED in E0. cbn [enc_frames] in E0.
  rewrite lenN_app, enc_frame_len, K in E0. change (nodes_size ver []) with 0%N in E0. rewrite N.add_0_r in E0.
  match type of E0 with context [(?a <=? ?b)%N] => assert (EB : (a <=? b)%N = true) by lia; rewrite EB in E0 end.
  injection E0 as <- <-. injection H as <- <-. split; [|reflexivity].
  constructor; cbn [set_open w_ver w_sink w_open]; auto.
  - congruence.
  - rewrite ED. split; [|exact RS]. repeat split; cbn [on_header_pos on_body_pos on_header on_has_child on_finalized nh_end nh_attrs nh_alen nh_nlen]; auto. lia.
  - rewrite ED. exact RF.
Qed.

(** *** Opening a node *)
Lemma new_node_ok : forall ver old d name s a s', utf8_valid name = true -> new_node name s = (Ok a, s') -> wrel ver old d s ->
  wrel ver old (open_node name d) s'.
Proof.
  intros ver old d name s a s' HU H R. unfold new_node in H. wok H. destruct (finalize_ok _ _ _ _ _ _ E R) as [R1 T1]. clear E R.
  wok H. injection E as <- <-. rename s0 into s1.
  destruct (lenN name <? 256)%N eqn:EN; [|discriminate]. cbn [negb] in H.
  wok H. wok H. wok H. wok H. injection H as <- <-.
  destruct R1 as [RV RA RS RN RF RZ].
  assert (W : w_sink (set_has_child s1) = w_sink s1 /\ w_ver (set_has_child s1) = w_ver s1) by (unfold set_has_child; destruct (w_open s1); auto).
  destruct W as [W1 W2]. rewrite <- W1 in RA. destruct (tell_ok _ _ _ _ _ E RA) as ((V2 & O2) & A2 & ->).
  destruct (wnh_ok _ _ _ _ _ _ E0 A2) as ((V3 & O3) & A3 & _). destruct (write_ok _ _ _ _ _ _ _ E1 A3) as [(V4 & O4) A4].
  destruct (tell_ok _ _ _ _ _ E2 A4) as ((V5 & O5) & A5 & ->).
  replace (w_ver s0) with ver in * by congruence. rewrite placeholder_bytes in *.
  assert (EQ : enc_open ver (open_node name d) = (enc_open ver d ++ placeholder ver name) ++ name).
  { unfold enc_open, open_node. cbn [od_nodes od_frames enc_frames]. unfold enc_frame. cbn [of_name of_atts of_kids enc_attrs flat_map enc_nodes].
    rewrite !app_nil_r, <- !app_assoc. reflexivity. }
  constructor; cbn [set_open w_ver w_sink w_open]; auto.
  - congruence.
  - rewrite EQ. rewrite !lenN_app, <- !dropN_dropN. exact A5.
  - cbn [open_node od_nodes od_frames stack_rel]. split.
    + unfold on_rel. cbn [on_header_pos on_body_pos on_header on_has_child on_finalized nh_end nh_attrs nh_alen nh_nlen of_name of_atts of_kids].
      rewrite !lenN_app, placeholder_len. repeat split; auto.
    + rewrite O5, O4, O3, O2. clear - RS T1. unfold top_done in T1. unfold set_has_child. destruct (od_frames d) as [|f t], (w_open s1) as [|n m] eqn:EO; try contradiction; [rewrite EO; exact I|].
      cbn [w_open set_open stack_rel] in *. destruct RS as [(P1 & P2 & P3 & P4 & P5 & P6 & P7) RS]. split; [|exact RS]. rewrite T1 in P6.
      repeat split; cbn [on_header_pos on_body_pos on_header on_has_child on_finalized]; auto. rewrite T1. exact P6.
  - cbn [open_node od_frames]. constructor; [|exact RF]. unfold frame_ok. cbn [of_name of_atts of_kids]. repeat split; auto. lia.
Qed.

(** *** Closing a node *)
Lemma needs_marker_spec : forall f, negb (true && no_kids f) || (lenN (of_atts f) =? 0)%N = needs_marker (of_atts f) (of_kids f).
Proof.
  intros f. unfold no_kids. destruct (of_kids f) as [|k l]; [|destruct (of_atts f); reflexivity].
  destruct (of_atts f) as [|a t]; [reflexivity|]. rewrite lenN_cons. cbn [negb andb orb needs_marker]. lia.
Qed.

Lemma close_frames : forall ver ns f t, let b := enc_frames ver ns t in
  enc_open ver (add_node (frame_node f) (mkOD ns t)) = b ++ enc_node ver (lenN b) (frame_node f).
Proof.
  intros ver ns f t b. destruct t as [|g t].
  - unfold add_node, enc_open. cbn [od_frames od_nodes]. unfold b at 2. rewrite enc_base_len. unfold b. cbn [enc_frames].
    rewrite enc_nodes_app. cbn [enc_nodes]. rewrite app_nil_r, <- !app_assoc. reflexivity.
  - unfold add_node, enc_open. cbn [od_frames od_nodes]. unfold b at 2. cbn [enc_frames]. rewrite lenN_app, enc_frame_len.
    unfold b. cbn [enc_frames]. rewrite <- app_assoc. f_equal. unfold enc_frame. cbn [of_name of_atts of_kids].
    rewrite enc_nodes_app. cbn [enc_nodes]. rewrite app_nil_r, <- !app_assoc, !N.add_assoc. reflexivity.
Qed.

Lemma close_stack : forall ver ns f t m, stack_rel ver ns false t m -> match m with [] => True | n :: _ => on_finalized n = true end ->
  let d := add_node (frame_node f) (mkOD ns t) in stack_rel ver (od_nodes d) true (od_frames d) m.
Proof.
  intros ver ns f t m R T. destruct t as [|g t]; destruct m as [|n m]; try contradiction; [exact I|].
  unfold add_node. cbn [od_nodes od_frames stack_rel] in *. destruct R as [(P1 & P2 & P3 & P4 & P5 & P6 & P7) R]. split; [|exact R].
  rewrite T in P6. repeat split; cbn [of_name of_atts of_kids]; auto.
  - rewrite T. exact P6.
  - rewrite P7. unfold no_kids. cbn [of_kids]. destruct (of_kids g); reflexivity.
Qed.

Lemma stack_under : forall ver ns t m, stack_rel ver ns false t m -> match m with [] => True | n :: _ => on_finalized n = true end.
Proof.
  intros ver ns [|g t] [|n m] R; try exact I; try contradiction. destruct R as [(_ & _ & _ & _ & _ & P6 & _) _].
  destruct (on_finalized n); [reflexivity|]. destruct P6 as [P6 _]. discriminate.
Qed.

Lemma u_ok_width : forall ver n, ((ver < 7500)%N -> u_ok 4 n) -> (n < pow2_64)%N -> u_ok (width ver) n.
Proof.
  intros ver n H L. unfold width. destruct (ver <? 7500)%N eqn:E; [apply H; lia|]. unfold u_ok. change (2 ^ (8 * N.of_nat 8))%N with pow2_64. exact L.
Qed.

(** [close_node] refuses exactly when no node is open. *)
Lemma close_node_refuses : forall s e s', close_node s = (Err e, s') -> w_open s <> [] -> e <> NoNodesToClose.
Proof.
  assert (F : werrs (fun e => e <> NoNodesToClose) finalize_attributes) by (unfold finalize_attributes; repeat werr_step; discriminate).
  assert (HD : forall h, werrs (fun e => e <> NoNodesToClose) (write_node_header h)) by (intros; unfold write_node_header, write_u32; repeat werr_step; discriminate).
  intros s e s' H NE. unfold close_node in H. apply wbind_inv in H. destruct H as [(u & s1 & E & H)|[(e1 & E & X)|[_ X]]]; [|injection X as ->; eapply F; eauto|discriminate].
  assert (NE1 : w_open s1 <> []).
  { unfold finalize_attributes in E. wok E. injection E0 as <- <-. destruct (w_open s) as [|n t] eqn:EO; [contradiction|].
    destruct (on_finalized n); [injection E as _ <-; congruence|]. wok E. wok E. injection E as _ <-. discriminate. }
  unfold wbind at 1 in H. cbn [wgets] in H. destruct (w_open s1) as [|n t]; [contradiction|]. revert H. match goal with |- ?m s1 = _ -> _ => assert (K : werrs (fun e => e <> NoNodesToClose) m) end.
  { repeat werr_step; auto; discriminate. }
  apply K.
Qed.

Lemma close_node_ok : forall ver old d s s', close_node s = (Ok tt, s') -> wrel ver old d s ->
  wrel ver old (close_open d) s' /\ od_frames d <> [] /\ u_ok (width ver) (lenN (enc_open ver (close_open d))).
Proof.
  intros ver old d s s' H R. unfold close_node in H. wok H. destruct (finalize_ok _ _ _ _ _ _ E R) as [R1 T1]. clear E R.
  wok H. injection E as <- <-. rename s0 into s1.
  destruct R1 as [RV RA RS RN RF RZ].
  destruct (w_open s1) as [|n m] eqn:EO; [discriminate|].
  destruct (od_frames d) as [|f t] eqn:ED; [contradiction|]. cut (wrel ver old (close_open d) s' /\ u_ok (width ver) (lenN (enc_open ver (close_open d)))); [intros [X Y]; split; [exact X|]; split; [discriminate|exact Y]|].
  unfold top_done in T1. rewrite EO in T1.
  destruct RS as [(P1 & P2 & P3 & P4 & P5 & P6 & P7) RS]. rewrite T1 in P6.
  unfold wbind at 1 in H. cbn [wmodify] in H. set (s2 := set_open m s1) in *.
  set (b := enc_frames ver (od_nodes d) t) in *.
  set (y := of_name f ++ enc_attrs (of_atts f) ++ enc_nodes ver (lenN b + header_size ver + lenN (of_name f) + lenN (enc_attrs (of_atts f))) (of_kids f)).
  assert (EB : enc_open ver d = b ++ placeholder ver (of_name f) ++ y).
  { unfold enc_open. rewrite ED. cbn [enc_frames]. fold b. unfold enc_frame. reflexivity. }
  change (w_sink s1) with (w_sink s2) in RA. set (mk := marker ver (of_atts f) (of_kids f)).
  (* the end marker *)
  wok H. rewrite P7, P4, needs_marker_spec in E.
  assert (A1 : same s2 s0 /\ at_ (b ++ placeholder ver (of_name f) ++ y ++ mk) (dropN (lenN (b ++ placeholder ver (of_name f) ++ y ++ mk)) old) (w_sink s0)).
  { replace (b ++ placeholder ver (of_name f) ++ y ++ mk) with (enc_open ver d ++ mk) by (rewrite EB, <- !app_assoc; reflexivity).
    unfold mk, marker. destruct (needs_marker (of_atts f) (of_kids f)); cbn [wwhen] in E.
    - destruct (wnh_ok _ _ _ _ _ _ E RA) as (S & A & _). change (w_ver s2) with (w_ver s1) in *. rewrite RV, node_end_bytes in A. rewrite lenN_app, <- dropN_dropN. auto.
    - injection E as _ <-. rewrite app_nil_r. split; [apply same_refl|exact RA]. }
  clear E. destruct A1 as [S1 A1].
  wok H. destruct (tell_ok _ _ _ _ _ E A1) as (S3 & A3 & ->). clear E.
  destruct (Bool.eqb _ _) eqn:EA; [|unfold wbind in H; destruct (seek (on_header_pos n) s3) as [[]]; discriminate].
  rewrite P1, P5, P6, P4 in H. set (h := mkNH _ _ _ _) in H.
  assert (V3 : w_ver s3 = ver) by (destruct S1 as [V1 _], S3 as [V3 _]; change (w_ver s2) with (w_ver s1) in *; congruence).
  assert (FIT : hdr_fits ver h).
  { apply wbind_ok in H; destruct H as (u1 & s4 & H1 & H). apply wbind_ok in H; destruct H as (u2 & s5 & H2 & H). destruct A3 as (D3 & _ & L3). destruct (seek_ok (lenN b) s3 u1 s4 b ((placeholder ver (of_name f) ++ y ++ mk) ++ dropN (lenN (b ++ placeholder ver (of_name f) ++ y ++ mk)) old) H1 ltac:(rewrite D3, <- !app_assoc; reflexivity) eq_refl ltac:(rewrite lenN_app in L3; lia)) as [[V4 _] A4].
    destruct (wnh_ok _ _ _ _ _ _ H2 A4) as (_ & _ & F). rewrite V4, V3 in F. exact F. }
  assert (LH : lenN (hdr_bytes ver h) = lenN (placeholder ver (of_name f))) by (rewrite hdr_len, placeholder_len; reflexivity).
  assert (X : same s3 s' /\ at_ (b ++ hdr_bytes ver h ++ y ++ mk) (dropN (lenN (b ++ placeholder ver (of_name f) ++ y ++ mk)) old) (w_sink s')).
  { (* the version is needed to know which bytes the header takes *)
    apply wbind_ok in H; destruct H as (u1 & s4 & H1 & H). apply wbind_ok in H; destruct H as (u2 & s5 & H2 & H). pose proof A3 as A3'. destruct A3' as (D3 & _ & L3). destruct (seek_ok (lenN b) s3 u1 s4 b ((placeholder ver (of_name f) ++ y ++ mk) ++ dropN (lenN (b ++ placeholder ver (of_name f) ++ y ++ mk)) old) H1 ltac:(rewrite D3, <- !app_assoc; reflexivity) eq_refl ltac:(rewrite lenN_app in L3; lia)) as [S4 A4].
    destruct (wnh_ok _ _ _ _ _ _ H2 A4) as (S5 & A5 & _). destruct S4 as [V4 O4]. rewrite V4, V3 in *. rewrite <- app_assoc, LH, dropN_app_len in A5.
    destruct A5 as (D5 & _ & _).
    destruct (seek_ok (lenN (b ++ placeholder ver (of_name f) ++ y ++ mk)) s5 tt s' (b ++ hdr_bytes ver h ++ y ++ mk) (dropN (lenN (b ++ placeholder ver (of_name f) ++ y ++ mk)) old) H) as [S6 A6].
    - rewrite D5, <- !app_assoc. reflexivity.
    - rewrite !lenN_app, LH. lia.
    - rewrite !lenN_app in *. rewrite LH. exact L3.
    - split; [|exact A6]. destruct S5 as [S5 S5'], S6 as [S6 S6']. split; congruence. }
  clear H. destruct X as [S4 A4].
  assert (ND : od_nodes d = od_nodes (mkOD (od_nodes d) t)) by reflexivity.
  assert (EN : lenN (b ++ placeholder ver (of_name f) ++ y ++ mk) = (lenN b + node_size ver (frame_node f))%N).
  { unfold y, mk, frame_node. rewrite !lenN_app, placeholder_len, enc_nodes_len', marker_len, node_size_eq. lia. }
  assert (EC : enc_open ver (close_open d) = b ++ hdr_bytes ver h ++ y ++ mk).
  { unfold close_open. rewrite ED, close_frames. fold b. f_equal. unfold frame_node at 1. rewrite enc_node_eq. unfold hdr_bytes, h. cbn [nh_end nh_attrs nh_alen nh_nlen].
    rewrite EN. unfold y, mk. rewrite <- !app_assoc. reflexivity. }
  assert (LE : (lenN (b ++ placeholder ver (of_name f) ++ y ++ mk) < pow2_63)%N) by apply A3.
  assert (L64 : (lenN b + node_size ver (frame_node f) < pow2_64)%N) by (rewrite <- EN; change pow2_64 with (pow2_63 * 2)%N; lia).
  apply Forall_cons_iff in RF. destruct RF as [(F1 & F2 & F3 & F4 & F5) RF'].
  assert (CN : closed_ok ver (frame_node f)).
  { split.
    - apply node_ok_eq. repeat split; auto. eapply Forall_impl; [|exact F5]. intros ? []; auto.
    - apply counts_ok_eq. split; [apply u_ok_width; [intros V; apply FIT; exact V|exact F4]|]. split; [|eapply Forall_impl; [|exact F5]; intros ? []; auto].
      apply u_ok_width; [intros V; apply FIT; exact V|]. unfold frame_node in L64. rewrite node_size_eq in L64. lia. }
  assert (W3 : w_open s' = m) by (destruct S4 as [_ S4], S3 as [_ S3], S1 as [_ S1]; change m with (w_open s2); congruence).
  assert (UE : u_ok (width ver) (lenN b + node_size ver (frame_node f))).
  { apply u_ok_width; [|exact L64]. intros V. destruct (FIT V) as [U _]. cbn [nh_end h] in U. rewrite EN in U. exact U. }
  assert (LEC : lenN (enc_open ver (close_open d)) = (lenN b + node_size ver (frame_node f))%N) by (rewrite EC, <- EN, !lenN_app, LH; lia).
  split; [|rewrite LEC; exact UE].
  constructor.
  - destruct S4 as [S4 _]. congruence.
  - rewrite EC. replace (lenN (b ++ hdr_bytes ver h ++ y ++ mk)) with (lenN (b ++ placeholder ver (of_name f) ++ y ++ mk)) by (rewrite !lenN_app, LH; lia). exact A4.
  - unfold close_open. rewrite ED, W3. apply close_stack; [exact RS|]. eapply stack_under; eauto.
  - unfold close_open. rewrite ED. destruct t as [|g t]; [|exact RN]. unfold add_node. cbn [od_frames od_nodes]. apply Forall_app. auto.
  - unfold close_open. rewrite ED. destruct t as [|g t]; [constructor|]. unfold add_node. cbn [od_frames od_nodes].
    apply Forall_cons_iff in RF'; destruct RF' as [(G1 & G2 & G3 & G4 & G5) RF'']. constructor; [|exact RF''].
    repeat split; cbn [of_name of_atts of_kids]; auto. apply Forall_app. auto.
  - unfold close_open. rewrite ED. destruct t as [|g t]; [|exact RZ]. unfold add_node. cbn [od_frames od_nodes].
    rewrite nodes_size_snoc, N.add_assoc, <- enc_base_len. exact UE.
Qed.

(** *** Attributes *)
Lemma acalls_ok : forall ver old l d s rs s', Forall acall_typed l -> Forall faithful l ->
  run_acalls l s = (rs, s') -> Forall (fun r => r = Ok tt) rs ->
  (match od_frames d with [] => False | f :: _ => of_kids f = [] end) -> (match w_open s with [] => False | n :: _ => on_finalized n = false end) ->
  wrel ver old d s -> wrel ver old (add_attrs l d) s' /\ length rs = length l.
Proof.
  intros ver old l. induction l as [|c l IH]; intros d s rs s' HT HF H HR HK HO R.
  - injection H as <- <-. auto.
  - cbn [run_acalls] in H. apply Forall_cons_iff in HT; destruct HT as [T1 T2]; apply Forall_cons_iff in HF; destruct HF as [F1 F2]. destruct (run_acall c s) as [[u|e|] s1] eqn:E.
    2:{ destruct (run_acalls l s1) as [rs' s2]. injection H as <- <-. inversion HR; discriminate. }
    2:{ injection H as <- <-. inversion HR; discriminate. }
    destruct (run_acalls l s1) as [rs' s2] eqn:E2. injection H as <- <-. apply Forall_cons_iff in HR; destruct HR as [_ HR].
    destruct R as [RV RA RS RN RF RZ].
    destruct (acall_ok _ _ _ _ _ _ T1 F1 E RA) as (a & EA & (V1 & A1 & n & t & O1 & O2 & L) & OKA).
    cbn [add_attrs]. rewrite EA.
    rewrite O1 in HO. destruct (od_frames d) as [|f fs] eqn:ED; [contradiction|].
    rewrite O1 in RS. destruct RS as [(P1 & P2 & P3 & P4 & P5 & P6 & P7) RS]. rewrite HO in P6.
    assert (ENC : enc_open ver (add_attr a d) = enc_open ver d ++ enc_attr a).
    { unfold enc_open, add_attr. rewrite ED. cbn [od_nodes od_frames enc_frames]. unfold enc_frame. cbn [of_name of_atts of_kids]. rewrite HK. cbn [enc_nodes].
      unfold enc_attrs. rewrite flat_map_app. cbn [flat_map]. rewrite !app_nil_r, <- !app_assoc. reflexivity. }
    destruct (IH (add_attr a d) s1 rs' s2 T2 F2 E2 HR) as [R2 L2].
    + unfold add_attr. rewrite ED. exact HK.
    + rewrite O2. exact HO.
    + constructor.
      * congruence.
      * rewrite ENC, lenN_app, <- dropN_dropN. exact A1.
      * unfold add_attr. rewrite ED, O2. cbn [od_nodes od_frames stack_rel]. split; [|exact RS].
        unfold on_rel, bump. cbn [on_header_pos on_body_pos on_header on_has_child on_finalized nh_end nh_attrs nh_alen nh_nlen of_name of_atts of_kids].
        rewrite HO. repeat split; auto. rewrite P4, lenN_app. reflexivity.
      * unfold add_attr. rewrite ED. exact RN.
      * unfold add_attr. rewrite ED. cbn [od_frames]. inversion RF as [|? ? (G1 & G2 & G3 & G4 & G5) RF'']; subst. constructor; [|exact RF''].
        repeat split; cbn [of_name of_atts of_kids]; auto; [apply Forall_app; auto|]. rewrite lenN_app, <- P4. exact L.
      * unfold add_attr. rewrite ED. exact RZ.
    + split; [exact R2|]. cbn [length]. rewrite L2. reflexivity.
Qed.

(** ** Histories *)
Definition fine (r : res werr unit) : Prop := r = Ok tt \/ r = Err NoNodesToClose.

Lemma new_node_fresh : forall name s a s', new_node name s = (Ok a, s') -> match w_open s' with [] => False | n :: _ => on_finalized n = false end.
Proof.
  intros name s a s' H. unfold new_node in H. wok H. wok H. injection E0 as <- <-. destruct (negb _); [discriminate|].
  wok H. wok H. wok H. wok H. injection H as _ <-. reflexivity.
Qed.

Definition no_refusal (e : werr) : Prop := e <> NoNodesToClose.
Lemma new_node_errs : forall name, werrs no_refusal (new_node name).
Proof. intros name. unfold new_node, finalize_attributes, write_node_header, write_u32. repeat werr_step; discriminate. Qed.
Lemma io_copy_errs : forall l n, werrs no_refusal (io_copy l n).
Proof. induction l as [|[[|b bs]| |c] l IH]; intros n; cbn [io_copy]; repeat werr_step; auto; discriminate. Qed.
Lemma write_each_errs : forall wrap l, (forall e, no_refusal (wrap e)) -> werrs no_refusal (write_each_as wrap l).
Proof. intros wrap. induction l as [|b l IH]; intros H; cbn [write_each_as]; repeat werr_step; auto. Qed.
Lemma write_chars_errs : forall cs buf n, werrs no_refusal (write_chars buf cs n).
Proof. induction cs as [|b l IH]; intros buf n; cbn [write_chars]; repeat werr_step; auto; discriminate. Qed.
Lemma acall_errs : forall c, werrs no_refusal (run_acall c).
Proof.
  intros c. pose proof io_copy_errs.
  assert (H0 : forall l, werrs no_refusal (write_each l)) by (intros; apply write_each_errs; discriminate).
  assert (H2 : forall l, werrs no_refusal (write_each_as Compression l)) by (intros; apply write_each_errs; discriminate). pose proof write_chars_errs.
  destruct c; cbn [run_acall]; unfold append_single, append_array, append_direct, append_binary_reader, append_binary_iter, append_string_iter, initialize_array, initialize_special,
    finalize_array, finalize_special, write_elements, write_zlib, write_array_header, write_type_code, update_node_header, count_elements; repeat werr_step; auto; discriminate.
Qed.
Lemma acalls_errs : forall l s rs s', run_acalls l s = (rs, s') -> Forall fine rs -> Forall (fun r => r = Ok tt) rs.
Proof.
  induction l as [|c l IH]; intros s rs s' H F; [injection H as <- <-; constructor|]. cbn [run_acalls] in H.
  destruct (run_acall c s) as [[u|e|] s1] eqn:E; [| |injection H as <- <-; inversion F as [|? ? [?|?]]; discriminate];
    destruct (run_acalls l s1) as [rs' s2] eqn:E2; injection H as <- <-; inversion F as [|? ? FX FR]; subst.
  - constructor; [destruct u; reflexivity|eauto].
  - exfalso. destruct FX as [FX|FX]; [discriminate|]. injection FX as ->. exact (acall_errs c _ _ _ E eq_refl).
Qed.

Lemma wcalls_ok : forall ver old l d s rs s', Forall wcall_typed l -> Forall wfaithful l ->
  run_wcalls l s = (rs, s') -> Forall fine rs -> wrel ver old d s -> wrel ver old (doc_calls l d) s'.
Proof.
  intros ver old l. induction l as [|c l IH]; intros d s rs s' HT HF H HR R.
  - injection H as <- <-. exact R.
  - cbn [run_wcalls] in H. inversion HT as [|? ? T1 T2]; inversion HF as [|? ? F1 F2]; subst.
    destruct (run_wcall c s) as [rs1 s1] eqn:E. destruct (existsb is_panic rs1) eqn:EP.
    { exfalso. injection H as <- <-. apply existsb_exists in EP. destruct EP as (x & HX & PX). rewrite Forall_forall in HR. destruct (HR x HX) as [->| ->]; discriminate. }
    destruct (run_wcalls l s1) as [rs2 s2] eqn:E2. injection H as <- <-. apply Forall_app in HR. destruct HR as [HR1 HR2].
    change (doc_calls (c :: l) d) with (doc_calls l (doc_call c d)). eapply IH; eauto. clear IH E2 HR2.
    destruct c as [name attrs|]; cbn [run_wcall doc_call] in *.
    + destruct (new_node name s) as [[u|e|] s3] eqn:EN.
      * destruct u. destruct (run_acalls attrs s3) as [rs3 s4] eqn:EA. injection E as <- <-. inversion HR1 as [|? ? _ HR3]; subst.
        destruct T1 as [T1 T3]. pose proof (new_node_ok _ _ _ _ _ _ _ T1 EN R) as R3.
        destruct (acalls_ok ver old attrs (open_node name d) s3 rs3 s4 T3 F1 EA) as [R4 _]; auto.
        -- eapply acalls_errs; eauto.
        -- reflexivity.
        -- eapply new_node_fresh; eauto.
      * exfalso. injection E as <- <-. inversion HR1 as [|? ? [X|X] _]; [discriminate|]. injection X as ->. exact (new_node_errs _ _ _ _ EN eq_refl).
      * exfalso. injection E as <- <-. inversion HR1 as [|? ? [X|X] _]; discriminate.
    + destruct (close_node s) as [r s3] eqn:EC. injection E as <- <-. inversion HR1 as [|? ? [->|X] _]; subst.
      * eapply close_node_ok; eauto.
      * destruct (w_open s) as [|n t] eqn:EO.
        -- assert (ED : od_frames d = []) by (pose proof (wr_stack _ _ _ _ R) as RS; rewrite EO in RS; destruct (od_frames d); [reflexivity|contradiction]).
           assert (s3 = s) by (unfold close_node, finalize_attributes, wbind in EC; cbn [wgets] in EC; rewrite EO in EC; cbn [wret] in EC; rewrite EO in EC; injection EC as <-; reflexivity).
           subst. unfold close_open. rewrite ED. exact R.
        -- exfalso. eapply close_node_refuses; eauto. congruence.
Qed.

(** Creating a writer. *)
Lemma new_writer_ok : forall k ver s, new_writer k ver = Ok s -> wrel ver (k_data k) odoc_start s /\ ver_major ver = 7%N.
Proof.
  intros k ver s H. unfold new_writer in H. destruct (ver_major ver =? 7)%N eqn:EM; [|discriminate]. cbn [negb] in H.
  destruct ((seek 0;> write magic;> write (le_enc 4 ver)) (mkW k ver [])) as [[u|e|] s0] eqn:E; try discriminate. injection H as <-.
  split; [|lia]. wok E. wok E.
  destruct (seek_ok 0 _ _ _ [] (k_data k) E0 eq_refl eq_refl eq_refl) as [[V0 O0] A0].
  destruct (write_ok _ _ _ _ _ _ _ E1 A0) as [[V1 O1] A1]. destruct (write_ok _ _ _ _ _ _ _ E A1) as [[V2 O2] A2].
  cbn [w_ver w_open] in *.
  constructor; cbn [odoc_start od_nodes od_frames]; auto; try congruence.
  - unfold enc_open, odoc_start. cbn [od_nodes od_frames enc_frames enc_nodes]. rewrite app_nil_r, lenN_app, <- dropN_dropN. exact A2.
  - rewrite O2, O1, O0. exact I.
  - change (nodes_size ver []) with 0%N. unfold width, u_ok. destruct (ver <? 7500)%N; reflexivity.
Qed.

End Nodes.
