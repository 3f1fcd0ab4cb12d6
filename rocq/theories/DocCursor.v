(** Where a parser is inside a well-formed document, and what each call does there. *)
Require Import Coq.Lists.List Coq.NArith.NArith Coq.ZArith.ZArith Coq.Bool.Bool Coq.micromega.Lia.
Require Import Coq.Init.Byte.
Require Import ZifyBool ZifyNat ZifyN.
Require Import Verif.Base Verif.BaseFacts Verif.Utf8 Verif.Types Verif.Io Verif.IoFacts Verif.Parser Verif.MonadFacts Verif.Zlib Verif.Moves Verif.Loaders Verif.Spec Verif.SpecFacts Verif.ReadFacts Verif.ParserSafe Verif.AttrLoad.
Import ListNotations.
Ltac Zify.zify_post_hook ::= Z.div_mod_to_equations.
Open Scope monad_scope.

(** An open node: its offset, name, attributes, the children already started and those to
    come. *)
Record dframe := mkD { d_off : N; d_name : list byte; d_ats : list attr; d_done : list node; d_rest : list node }.
Definition d_node (f : dframe) : node := Node (d_name f) (d_ats f) (d_done f ++ d_rest f).

(** The top-level nodes already started and those to come, the open nodes (innermost first),
    and, right after a [StartNode], the attributes still to be loaded. *)
Record cursor := mkC { c_done : list node; c_rest : list node; c_frames : list dframe; c_attrs : option (list attr) }.

Definition nd_of (n : node) (off : N) : dframe := mkD off (nd_name n) (nd_attrs n) [] (nd_kids n).
Definition d_take (f : dframe) (k : node) (rest : list node) : dframe :=
  mkD (d_off f) (d_name f) (d_ats f) (d_done f ++ [k]) rest.

(** What [next_event] finds. *)
Inductive dstep := DStart (k : node) (c : cursor) | DEnd (c : cursor) | DFbx.

Definition c_load (c : cursor) (ats : list attr) : cursor := mkC (c_done c) (c_rest c) (c_frames c) (Some ats).
Definition c_skip (c : cursor) : cursor := mkC (c_done c) (c_rest c) (tl (c_frames c)) None.

Section Doc.
Context {env : Env} (ver : N).

Definition d_end (f : dframe) : N := (d_off f + node_size ver (d_node f))%N.
Definition d_astart (f : dframe) : N := (d_off f + header_size ver + lenN (d_name f))%N.
Definition d_aend (f : dframe) : N := (d_astart f + lenN (enc_attrs (d_ats f)))%N.
Definition d_pos (f : dframe) : N := (d_aend f + nodes_size ver (d_done f))%N.
Definition top_pos (done : list node) : N := (27 + nodes_size ver done)%N.

Definition c_pos (c : cursor) : N := match c_frames c with [] => top_pos (c_done c) | f :: _ => d_pos f end.

Definition next_of (c : cursor) : dstep :=
  match c_frames c with
  | [] => match c_rest c with
          | [] => DFbx
          | k :: r => DStart k (mkC (c_done c ++ [k]) r [nd_of k (c_pos c)] (Some (nd_attrs k)))
          end
  | f :: fs => match d_rest f with
               | [] => DEnd (mkC (c_done c) (c_rest c) fs None)
               | k :: r => DStart k (mkC (c_done c) (c_rest c) (nd_of k (c_pos c) :: d_take f k r :: fs) (Some (nd_attrs k)))
               end
  end.

Definition started_of (f : dframe) : started :=
  mkStarted (d_off f) (d_end f) (lenN (d_ats f)) (d_aend f) (d_name f) (lenN (d_done f)).

Section Tail.
Context (tail : list byte).
(** The bytes of the document after the current point. *)
Fixpoint after (done rest : list node) (fs : list dframe) : list byte :=
  match fs with
  | [] => enc_nodes ver (top_pos done) rest ++ end_marker ver ++ tail
  | f :: t => enc_nodes ver (d_pos f) (d_rest f) ++ marker ver (d_ats f) (d_done f ++ d_rest f) ++ after done rest t
  end.
Definition c_after (c : cursor) : list byte := after (c_done c) (c_rest c) (c_frames c).
End Tail.

(** ** Cursors that make sense *)
Definition good (n : node) : Prop := node_ok n /\ counts_ok ver n.
Fixpoint linked (done : list node) (fs : list dframe) : Prop :=
  match fs with
  | [] => True
  | f :: t => match t with
              | [] => d_end f = top_pos done /\ done <> []
              | g :: _ => d_end f = d_pos g /\ d_done g <> []
              end /\ linked done t
  end.

Section Lim.
Context (lim : N).
Definition frame_ok (f : dframe) : Prop := Forall good (d_rest f) /\ Forall attr_ok (d_ats f) /\ (d_end f <= lim)%N.
Record cur_ok (c : cursor) : Prop := mkCurOk {
  co_linked : linked (c_done c) (c_frames c);
  co_frames : Forall frame_ok (c_frames c);
  co_rest : Forall good (c_rest c);
  co_lim : (top_pos (c_done c ++ c_rest c) <= lim)%N;
  co_attrs : match c_attrs c with
             | Some ats => exists f fs pre, c_frames c = f :: fs /\ d_done f = [] /\ d_ats f = pre ++ ats
             | None => match c_frames c with f :: _ => d_done f <> [] | [] => True end
             end
}.

Lemma d_end_eq : forall f, d_end f = (d_pos f + nodes_size ver (d_rest f) + marker_size ver (d_ats f) (d_done f ++ d_rest f))%N.
Proof. intros f. unfold d_end, d_node, d_pos, d_aend, d_astart. rewrite node_size_eq, nodes_size_app. lia. Qed.
Lemma d_take_end : forall f k r, d_rest f = k :: r -> d_end (d_take f k r) = d_end f.
Proof. intros f k r H. unfold d_end, d_node, d_take. cbn. rewrite H, <- app_assoc. reflexivity. Qed.
Lemma d_take_pos : forall f k r, d_pos (d_take f k r) = (d_pos f + node_size ver k)%N.
Proof. intros f k r. unfold d_pos, d_take, d_aend, d_astart. cbn [d_off d_name d_ats d_done]. rewrite nodes_size_snoc. lia. Qed.
Lemma nd_of_end : forall k off, d_end (nd_of k off) = (off + node_size ver k)%N.
Proof. intros [name ats kids] off. reflexivity. Qed.
Lemma good_kids : forall n, good n -> Forall good (nd_kids n) /\ Forall attr_ok (nd_attrs n).
Proof.
  intros [name ats kids] [H1 H2]. apply node_ok_eq in H1. apply counts_ok_eq in H2. cbn.
  destruct H1 as (_ & _ & A & K). destruct H2 as (_ & _ & K2). split; [|exact A].
  clear - K K2. induction K; [constructor|]. inversion K2; subst. constructor; [split; assumption|]. apply IHK. assumption.
Qed.
Lemma snoc_nil : forall A (l : list A) x, l ++ [x] <> [].
Proof. intros A l x H. apply app_eq_nil in H. destruct H; discriminate. Qed.

Lemma next_of_ok : forall c, cur_ok c ->
  match next_of c with DStart k c' => good k /\ cur_ok c' | DEnd c' => cur_ok c' | DFbx => True end.
Proof.
  intros c [L F R B A]. unfold next_of, c_pos. destruct (c_frames c) as [|f fs] eqn:Ef.
  - destruct (c_rest c) as [|k r] eqn:Er; [exact I|]. inversion R as [|? ? Hk Hr]; subst. pose proof (good_kids k Hk) as [G1 G2]. split; [exact Hk|]. constructor; cbn [c_done c_rest c_frames c_attrs linked].
    + split; [|exact I]. split; [|apply snoc_nil]. rewrite nd_of_end. unfold top_pos. rewrite nodes_size_snoc. lia.
    + constructor; [|constructor]. split; [exact G1|]. split; [exact G2|]. rewrite nd_of_end. unfold top_pos in *. rewrite nodes_size_app, nodes_size_cons in B. lia.
    + exact Hr.
    + rewrite <- app_assoc. exact B.
    + exists (nd_of k (top_pos (c_done c))), [], []. auto.
  - inversion F as [|? ? Hf Hfs]; subst. destruct Hf as (F1 & F2 & F3). destruct (d_rest f) as [|k r] eqn:Er.
    + destruct L as [L1 L2]. constructor; cbn; auto. destruct fs as [|g gs]; [exact I|]. apply L1.
    + inversion F1 as [|? ? Hk Hr]; subst. pose proof (good_kids k Hk) as [G1 G2]. split; [exact Hk|].
      pose proof (d_end_eq f) as De. rewrite Er, nodes_size_cons in De.
      constructor; cbn [c_done c_rest c_frames c_attrs linked].
      * split; [split; [|apply snoc_nil]|]. { rewrite nd_of_end, d_take_pos. reflexivity. }
        rewrite (d_take_end _ _ _ Er). destruct L as [L1 L2]. split; assumption.
      * constructor.
        { split; [exact G1|]. split; [exact G2|]. rewrite nd_of_end. lia. }
        constructor; [|exact Hfs]. split; [exact Hr|]. split; [exact F2|]. rewrite (d_take_end _ _ _ Er). exact F3.
      * exact R.
      * exact B.
      * exists (nd_of k (d_pos f)), (d_take f k r :: fs), []. auto.
Qed.
End Lim.

(** ** Parser states at a cursor *)
Definition accepts (s : pstate) : Prop := match p_handler s with None => True | Some h => forall log, h log = None end.

Section At.
Context (lim : N) (tail : list byte).

(** The fields that do not depend on the reader. *)
Record shape (c : cursor) (s : pstate) : Prop := mkShape {
  sh_ver : p_ver s = ver;
  sh_health : p_health s = Running;
  sh_acc : accepts s;
  sh_stack : p_stack s = map started_of (c_frames c);
  sh_top : p_top s = lenN (c_done c)
}.

Record at_cur (c : cursor) (s : pstate) : Prop := mkAt {
  ac_ok : cur_ok lim c;
  ac_shape : shape c s;
  ac_ready : ready s;
  ac_where : match c_attrs c with
             | Some ats => p_last s = Some KStart /\ exists a junk, p_attrs s = Some a /\ a_rest a = lenN ats /\
                  a_next a = (pos_of s + lenN junk)%N /\ rem_of s = junk ++ enc_attrs ats ++ c_after tail c /\
                  (pos_of s + lenN junk + lenN (enc_attrs ats) = c_pos c)%N
             | None => p_last s = match c_done c with [] => None | _ => Some KEnd end /\ rem_of s = c_after tail c /\
                  pos_of s = c_pos c /\ p_attrs s = None
             end
}.

(** The reader can get past the unread attributes with its position right. *)
Definition caught_up (c : cursor) (s : pstate) : Prop := skippable s (c_pos c).

Record at_gap (c : cursor) (s : pstate) : Prop := mkGap {
  ag_ok : cur_ok lim c;
  ag_shape : shape c s;
  ag_ready : ready s;
  ag_rem : rem_of s = c_after tail c;
  ag_pos : pos_of s = c_pos c;
  ag_last : p_last s <> Some KEndFbx;
  ag_end : p_last s = Some KEnd -> match c_frames c with f :: _ => d_done f <> [] | [] => True end
}.

Definition kept (s s' : pstate) : Prop := p_log s' = p_log s /\ p_handler s' = p_handler s /\ r_seekable (p_rd s') = r_seekable (p_rd s).
Lemma kept_refl : forall s, kept s s. Proof. repeat split. Qed.
Lemma kept_trans : forall a b c, kept a b -> kept b c -> kept a c.
Proof. intros a b c (A & B & C) (D & E & F). repeat split; congruence. Qed.

Lemma moved_fields : forall d s s', moved d s s' ->
  p_ver s' = p_ver s /\ p_health s' = p_health s /\ p_stack s' = p_stack s /\ p_last s' = p_last s /\ p_top s' = p_top s /\
  p_attrs s' = p_attrs s /\ kept s s'.
Proof.
  intros d s s' (E & (_ & _ & _ & K) & _). rewrite E in *. cbn in *. repeat split; auto.
Qed.
Lemma moved_shape : forall d s s' c, moved d s s' -> shape c s -> shape c s'.
Proof.
  intros d s s' c H [A B C D E]. destruct (moved_fields _ _ _ H) as (F1 & F2 & F3 & F4 & F5 & F6 & (F7 & F8 & F9)).
  constructor; try congruence. unfold accepts. rewrite F8. exact C.
Qed.
Lemma ready_attrs : forall a s, ready (set_attrs a s) <-> ready s. Proof. reflexivity. Qed.

Lemma skip_gap : forall c s, at_cur c s -> caught_up c s ->
  exists s1, skip_unread_attributes (set_attrs None s) = (Ok tt, s1) /\ at_gap c s1 /\ kept s s1 /\ p_attrs s1 = None /\ p_last s1 = p_last s.
Proof.
  intros c s [Hok Hsh Hrd W] Hcu. unfold skip_unread_attributes. rewrite bind_gets. unfold current_node.
  change (p_stack (set_attrs None s)) with (p_stack s). rewrite (sh_stack _ _ Hsh).
  destruct (c_attrs c) as [ats|] eqn:Ea.
  - destruct W as (Wl & a & junk & Wa & Wn & Wx & Wr & Wp).
    pose proof (co_attrs _ _ Hok) as CA. rewrite Ea in CA. destruct CA as (f & fs & pre & Ef & Ed & Eats). rewrite Ef. cbn [map hd_error].
    assert (Epos : c_pos c = sn_attrs_end (started_of f)).
    { unfold c_pos. rewrite Ef. cbn. unfold d_pos. rewrite Ed. cbn. lia. }
    unfold reader_pos. rewrite bind_gets. fold (pos_of (set_attrs None s)).
    destruct (when_skip_mv (sn_attrs_end (started_of f)) (set_attrs None s)) as (s1 & E1 & M1).
    + exact Hrd.
    + rewrite <- Epos. exact Hcu.
    + change (pos_of (set_attrs None s)) with (pos_of s). lia.
    + change (pos_of (set_attrs None s)) with (pos_of s). change (rem_of (set_attrs None s)) with (rem_of s). rewrite Wr, !lenN_app. lia.
    + exists s1. split; [exact E1|].
      destruct (moved_fields _ _ _ M1) as (F1 & F2 & F3 & F4 & F5 & F6 & (F7 & F8 & F9)).
      change (pos_of (set_attrs None s)) with (pos_of s) in M1.
      split; [|split; [repeat split; assumption|split; [exact F6|exact F4]]].
      constructor.
      * exact Hok.
      * eapply moved_shape; [exact M1|]. destruct Hsh. constructor; assumption.
      * eapply moved_ready; [exact M1| |exact Hrd]. change (rem_of (set_attrs None s)) with (rem_of s). rewrite Wr, !lenN_app. lia.
      * eapply moved_app; [exact M1| |]. { change (rem_of (set_attrs None s)) with (rem_of s). rewrite Wr, app_assoc. reflexivity. }
        rewrite lenN_app. lia.
      * rewrite (moved_pos _ _ _ M1). change (pos_of (set_attrs None s)) with (pos_of s). lia.
      * rewrite F4. cbn. rewrite Wl. discriminate.
      * rewrite F4. cbn. rewrite Wl. discriminate.
  - destruct W as (W1 & W3 & W4 & W5). assert (W2 : p_last s <> Some KEndFbx) by (rewrite W1; destruct (c_done c); discriminate).
    assert (G : at_gap c (set_attrs None s)).
    { constructor; auto.
      + destruct Hsh. constructor; assumption.
      + intros _. pose proof (co_attrs _ _ Hok) as CA. rewrite Ea in CA. exact CA. }
    exists (set_attrs None s). split; [|split; [exact G|split; [repeat split|split; reflexivity]]].
    destruct (c_frames c) as [|f fs] eqn:Ef; [reflexivity|]. cbn [map hd_error]. unfold reader_pos. rewrite bind_gets.
    cbn. fold (pos_of s). assert (d_aend f <= pos_of s)%N. { rewrite W4. unfold c_pos. rewrite Ef. unfold d_pos. lia. }
    replace (pos_of s <? d_aend f)%N with false by (symmetry; apply N.ltb_ge; assumption). reflexivity.
Qed.

(** ** Headers *)
Lemma hdr_width_eq : hdr_width ver = width ver. Proof. reflexivity. Qed.
Lemma read_header_mv : forall s e n l b rest, ready s -> p_ver s = ver ->
  rem_of s = le_enc (width ver) e ++ le_enc (width ver) n ++ le_enc (width ver) l ++ [b] ++ rest ->
  u_ok (width ver) e -> u_ok (width ver) n -> u_ok (width ver) l ->
  exists s', read_node_header s = (Ok (mkNH e n l b), s') /\ moved (header_size ver) s s' /\ rem_of s' = rest /\ ready s'.
Proof.
  intros s e n l b rest Hr Hv E Ue Un Ul. unfold read_node_header. rewrite bind_gets, Hv, hdr_width_eq.
  destruct (parse_uint_mv _ _ _ _ Hr E Ue) as (s1 & E1 & M1 & R1 & Y1). rewrite (bind_ok _ _ _ _ _ _ _ E1).
  destruct (parse_uint_mv _ _ _ _ Y1 R1 Un) as (s2 & E2 & M2 & R2 & Y2). rewrite (bind_ok _ _ _ _ _ _ _ E2).
  destruct (parse_uint_mv _ _ _ _ Y2 R2 Ul) as (s3 & E3 & M3 & R3 & Y3). rewrite (bind_ok _ _ _ _ _ _ _ E3).
  destruct (parse_u8_mv _ _ _ Y3 R3) as (s4 & E4 & M4 & R4 & Y4). rewrite (bind_ok _ _ _ _ _ _ _ E4).
  exists s4. split; [reflexivity|]. split; [|split; assumption].
  pose proof (moved_trans _ _ _ _ _ (moved_trans _ _ _ _ _ (moved_trans _ _ _ _ _ M1 M2) M3) M4) as M.
  replace (header_size ver) with (N.of_nat (width ver) + N.of_nat (width ver) + N.of_nat (width ver) + 1)%N by (unfold header_size; lia). exact M.
Qed.
Lemma le_enc_zeros : forall k, le_enc k 0 = zeros k.
Proof. induction k as [|k IH]; [reflexivity|]. cbn [le_enc]. change (0 / 256)%N with 0%N. rewrite IH. reflexivity. Qed.
Lemma zeros_app : forall a b, zeros (a + b) = zeros a ++ zeros b.
Proof. intros. unfold zeros. apply repeat_app. Qed.
Lemma end_marker_eq : end_marker ver = le_enc (width ver) 0 ++ le_enc (width ver) 0 ++ le_enc (width ver) 0 ++ [x00].
Proof.
  rewrite !le_enc_zeros. unfold end_marker. replace (3 * width ver + 1)%nat with (width ver + (width ver + (width ver + 1)))%nat by lia.
  rewrite !zeros_app. reflexivity.
Qed.
Lemma u_ok_0 : forall k, u_ok k 0.
Proof. intros k. unfold u_ok. apply N.neq_0_lt_0. apply N.pow_nonzero. discriminate. Qed.
Lemma read_marker_mv : forall s rest, ready s -> p_ver s = ver -> rem_of s = end_marker ver ++ rest ->
  exists s', read_node_header s = (Ok (mkNH 0 0 0 x00), s') /\ moved (header_size ver) s s' /\ rem_of s' = rest /\ ready s'.
Proof.
  intros s rest Hr Hv E. rewrite end_marker_eq, <- !app_assoc in E. apply (read_header_mv s 0 0 0 x00 rest Hr Hv E); apply u_ok_0.
Qed.


(** ** Entering a node *)
Lemma linked_done : forall done f fs, linked done (f :: fs) -> done <> [].
Proof. intros done f fs. revert f. induction fs as [|g fs IH]; intros f [H L]; [apply H|]. eapply IH. exact L. Qed.
Lemma position_some : forall c s, cur_ok lim c -> shape c s -> exists p, position_of s = Some p.
Proof.
  intros c s Hok Hsh. unfold position_of. rewrite (sh_stack _ _ Hsh), (sh_top _ _ Hsh).
  destruct (c_frames c) as [|f fs] eqn:Ef; [eexists; reflexivity|]. cbn [map].
  pose proof (co_linked _ _ Hok) as L. rewrite Ef in L. apply linked_done in L. destruct (c_done c); [congruence|].
  rewrite lenN_cons. replace (1 + lenN l =? 0)%N with false by (symmetry; apply N.eqb_neq; lia). eexists. reflexivity.
Qed.

Definition entered (k : node) (off : N) : N := (off + header_size ver + lenN (nd_name k))%N.

Lemma c_after_start : forall c k c', next_of c = DStart k c' ->
  c_attrs c' = Some (nd_attrs k) /\ 
  (exists fs, c_frames c' = nd_of k (c_pos c) :: fs) /\ c_pos c' = (entered k (c_pos c) + lenN (enc_attrs (nd_attrs k)))%N /\
  c_after tail c = le_enc (width ver) (c_pos c + node_size ver k) ++ le_enc (width ver) (lenN (nd_attrs k)) ++
    le_enc (width ver) (lenN (enc_attrs (nd_attrs k))) ++ [Nb (lenN (nd_name k))] ++ nd_name k ++ enc_attrs (nd_attrs k) ++ c_after tail c'.
Proof.
  intros c [name ats kids] c' H. unfold next_of in H.
  assert (P : forall off, d_pos (nd_of (Node name ats kids) off) = (entered (Node name ats kids) off + lenN (enc_attrs ats))%N).
  { intros off. unfold d_pos, d_aend, d_astart, entered. cbn [nd_of d_off d_name d_ats d_done nd_name nd_attrs nodes_size fold_right]. lia. }
  destruct (c_frames c) as [|f fs] eqn:Ef.
  - destruct (c_rest c) as [|k r] eqn:Er; [discriminate|]. injection H as -> <-. cbn [c_attrs c_frames]. split; [reflexivity|]. split; [eexists; reflexivity|].
    split; [apply P|]. unfold c_after. cbn [c_done c_rest c_frames after]. rewrite Ef, Er. cbn [after enc_nodes]. rewrite enc_node_eq.
    rewrite P. unfold entered, c_pos. rewrite Ef. cbn [nd_of d_rest d_ats d_done nd_name nd_attrs nd_kids app]. unfold top_pos. rewrite nodes_size_snoc.
    rewrite <- ?app_assoc, N.add_assoc. cbn [app]. rewrite <- ?app_assoc. reflexivity.
  - destruct (d_rest f) as [|k r] eqn:Er; [discriminate|]. injection H as -> <-. cbn [c_attrs c_frames]. split; [reflexivity|]. split; [eexists; reflexivity|].
    split; [apply P|]. unfold c_after. cbn [c_done c_rest c_frames after]. rewrite Ef. cbn [after]. rewrite Er. cbn [enc_nodes]. rewrite enc_node_eq.
    rewrite P, d_take_pos. unfold entered, c_pos. rewrite Ef. cbn [nd_of d_take d_rest d_ats d_done nd_name nd_attrs nd_kids app].
    rewrite <- ?app_assoc. cbn [app]. rewrite <- ?app_assoc. reflexivity.
Qed.

Definition log_start (name : list byte) (s s' : pstate) : Prop :=
  match name with
  | [] => exists p, p_log s' = (EmptyNodeName, p) :: p_log s
  | _ => p_log s' = p_log s
  end.

Lemma warn_accepts : forall w p s, accepts s -> warn w p s = (Ok tt, set_log ((w, p) :: p_log s) s).
Proof. intros w p s H. unfold warn. unfold accepts in H. destruct (p_handler s); [rewrite H|]; reflexivity. Qed.

Context (HV : u_ok (width ver) lim).
Lemma lim_64 : (lim < pow2_64)%N.
Proof.
  unfold u_ok in HV. unfold width in HV. destruct (ver <? 7500)%N.
  - eapply N.lt_trans; [exact HV|]. reflexivity.
  - exact HV.
Qed.

Lemma wh_name : forall (name : list byte), (lenN name < 256)%N -> bN (Nb (lenN name)) = lenN name.
Proof. intros. rewrite bN_Nb. apply N.mod_small. assumption. Qed.

Lemma start_node_mv : forall c k c' s nh, at_gap c s \/ True -> cur_ok lim c -> cur_ok lim c' -> good k -> next_of c = DStart k c' ->
  shape c s -> ready s -> rem_of s = nd_name k ++ enc_attrs (nd_attrs k) ++ c_after tail c' ->
  pos_of s = (c_pos c + header_size ver)%N ->
  nh = mkNH (c_pos c + node_size ver k) (lenN (nd_attrs k)) (lenN (enc_attrs (nd_attrs k))) (Nb (lenN (nd_name k))) ->
  exists s', start_node (c_pos c) nh s = (Ok KStart, s') /\ shape c' s' /\ ready s' /\
    rem_of s' = enc_attrs (nd_attrs k) ++ c_after tail c' /\ pos_of s' = entered k (c_pos c) /\
    p_attrs s' = p_attrs s /\ p_last s' = p_last s /\ p_handler s' = p_handler s /\ r_seekable (p_rd s') = r_seekable (p_rd s) /\
    log_start (nd_name k) s s'.
Proof.
  intros c k c' s nh _ Hok Hok' Hg Hn Hsh Hrd Hrem Hpos ->.
  destruct (c_after_start _ _ _ Hn) as (Ca & (fs' & Cf) & Cp & _).
  destruct k as [name ats kids]. pose proof Hg as [G1 G2]. apply node_ok_eq in G1. destruct G1 as (U1 & U2 & _).
  cbn [nd_name nd_attrs nd_kids] in *.
  unfold start_node. cbn [nh_end nh_attrs nh_alen nh_nlen]. rewrite (wh_name _ U2).
  (* the warning *)
  assert (exists s1, when (lenN name =? 0)%N
     (let* pos := position in let* bp := reader_pos in
      let* idx := gets (fun s0 => match p_stack s0 with [] => p_top s0 | n :: _ => sn_kids n end) in
      warn EmptyNodeName (mkPos bp (c_pos c) (node_path pos ++ [(idx, [])]) (attribute_index pos))) s = (Ok tt, s1) /\
     log_start name s s1 /\ exists l, s1 = set_log l s) as (s1 & E1 & L1 & (l & T1)).
  { destruct name as [|b name].
    - cbn [lenN length N.of_nat N.eqb when]. destruct (position_some c s Hok Hsh) as (p & Ep).
      unfold bind at 1, position. rewrite Ep. unfold reader_pos. rewrite !bind_gets.
      rewrite warn_accepts by apply (sh_acc _ _ Hsh). eexists. split; [reflexivity|]. split; [eexists; reflexivity|]. eexists; reflexivity.
    - rewrite lenN_cons. replace (1 + lenN name =? 0)%N with false by (symmetry; apply N.eqb_neq; lia).
      exists s. split; [reflexivity|]. split; [reflexivity|]. exists (p_log s). destruct s; reflexivity. }
  rewrite (bind_ok _ _ _ _ _ _ _ E1).
  assert (Y1 : ready s1) by (rewrite T1; exact Hrd).
  assert (R1 : rem_of s1 = name ++ enc_attrs ats ++ c_after tail c') by (rewrite T1; exact Hrem).
  destruct (read_exact_mv (N.to_nat (lenN name)) s1 _ _ Y1 R1) as (s2 & E2 & M2 & R2 & Y2). { unfold lenN. lia. }
  rewrite (bind_ok _ _ _ _ _ _ _ E2), U1. unfold reader_pos. rewrite bind_gets. fold (pos_of s2).
  assert (P2 : pos_of s2 = entered (Node name ats kids) (c_pos c)).
  { rewrite (moved_pos _ _ _ M2), T1. change (pos_of (set_log l s)) with (pos_of s). rewrite Hpos. unfold entered. cbn [nd_name]. lia. }
  rewrite P2.
  assert (LE : (entered (Node name ats kids) (c_pos c) + lenN (enc_attrs ats) <= lim)%N).
  { pose proof (co_frames _ _ Hok') as F. rewrite Cf in F. inversion F as [|? ? (_ & _ & Fl) _]; subst.
    unfold entered. cbn [nd_name]. rewrite nd_of_end, node_size_eq in Fl. lia. }
  unfold add_u64. pose proof lim_64 as L64.
  replace (entered (Node name ats kids) (c_pos c) + lenN (enc_attrs ats) <? pow2_64)%N with true by (symmetry; apply N.ltb_lt; lia).
  rewrite bind_ret, !bind_modify.
  destruct (moved_fields _ _ _ M2) as (F1 & F2 & F3 & F4 & F5 & F6 & (F7 & F8 & F9)).
  rewrite T1 in F1, F2, F3, F4, F5, F6, F7, F8, F9. cbn in F1, F2, F3, F4, F5, F6, F7, F8, F9.
  assert (SE : mkStarted (c_pos c) (c_pos c + node_size ver (Node name ats kids)) (lenN ats)
      (entered (Node name ats kids) (c_pos c) + lenN (enc_attrs ats)) name 0 = started_of (nd_of (Node name ats kids) (c_pos c))).
  { unfold started_of. rewrite nd_of_end. unfold d_aend, d_astart, entered. reflexivity. }
  rewrite SE. set (sn := started_of (nd_of (Node name ats kids) (c_pos c))).
  eexists. split; [reflexivity|].
  assert (HC : shape c' (push sn (count_child s2))).
  { unfold next_of in Hn. unfold count_child. rewrite F3, (sh_stack _ _ Hsh).
    destruct (c_frames c) as [|f fs] eqn:Ef; cbn [map].
    - destruct (c_rest c) as [|k r] eqn:Er; [discriminate|]. injection Hn as -> <-.
      constructor; cbn; try congruence.
      + rewrite F1. apply (sh_ver _ _ Hsh).
      + rewrite F2. apply (sh_health _ _ Hsh).
      + unfold accepts in *. cbn. rewrite F8. apply (sh_acc _ _ Hsh).
      + rewrite F3, (sh_stack _ _ Hsh), Ef. reflexivity.
      + rewrite F5, (sh_top _ _ Hsh), lenN_app. reflexivity.
    - destruct (d_rest f) as [|k r] eqn:Er; [discriminate|]. injection Hn as -> <-.
      constructor; cbn [push set_stack set_top p_ver p_health p_handler p_stack p_top c_frames c_done map]; try congruence.
      + rewrite F1. apply (sh_ver _ _ Hsh).
      + rewrite F2. apply (sh_health _ _ Hsh).
      + unfold accepts in *. cbn. rewrite F8. apply (sh_acc _ _ Hsh).
      + f_equal. f_equal. pose proof (d_take_end _ _ _ Er) as DE. unfold started_of in *. rewrite DE. unfold d_aend, d_astart. cbn [d_take d_off d_ats d_name d_done sn_start sn_end sn_attrs sn_attrs_end sn_name sn_kids].
        rewrite lenN_app. reflexivity.
      + rewrite F5. apply (sh_top _ _ Hsh). }
  split; [exact HC|].
  assert (RD : p_rd (push sn (count_child s2)) = p_rd s2) by (unfold push, count_child; destruct (p_stack s2); reflexivity).
  unfold ready, calm, room, rem_of, pos_of in *. rewrite RD. split; [exact Y2|]. split; [exact R2|]. split; [exact P2|].
  assert (OT : p_attrs (push sn (count_child s2)) = p_attrs s2 /\ p_last (push sn (count_child s2)) = p_last s2 /\
     p_handler (push sn (count_child s2)) = p_handler s2 /\ p_log (push sn (count_child s2)) = p_log s2).
  { unfold push, count_child. destruct (p_stack s2); repeat split. }
  destruct OT as (O1 & O2 & O3 & O4). rewrite O1, O2, O3. repeat (split; [congruence|]).
  unfold log_start in *. rewrite O4, F7, T1 in *. exact L1.
Qed.

Lemma d_pos_lt : forall f k r, d_rest f = k :: r -> (d_pos f < d_end f)%N.
Proof. intros f k r H. rewrite d_end_eq, H, nodes_size_cons. pose proof (node_size_pos ver k). lia. Qed.

Lemma impl_start : forall c s k c', at_cur c s -> caught_up c s -> next_of c = DStart k c' ->
  exists s', next_event_impl (set_attrs None s) = (Ok KStart, s') /\ cur_ok lim c' /\ shape c' s' /\ ready s' /\
    rem_of s' = enc_attrs (nd_attrs k) ++ c_after tail c' /\ pos_of s' = entered k (c_pos c) /\
    p_attrs s' = None /\ p_handler s' = p_handler s /\ r_seekable (p_rd s') = r_seekable (p_rd s) /\
    log_start (nd_name k) s s'.
Proof.
  intros c s k c' H Hcu Hn. pose proof (ac_shape _ _ H) as Hsh.
  unfold next_event_impl. rewrite bind_gets. cbn [p_health set_attrs]. rewrite (sh_health _ _ Hsh). cbn [assert_]. rewrite bind_ret, bind_gets.
  assert (HL : p_last s <> Some KEndFbx). { pose proof (ac_where _ _ H) as W. destruct (c_attrs c); destruct W as [-> _]; [|destruct (c_done c)]; discriminate. }
  cbn [p_last set_attrs].
  replace (match p_last s with Some KEndFbx => false | _ => true end) with true by (destruct (p_last s) as [[]|]; congruence).
  cbn [assert_]. rewrite bind_ret.
  destruct (skip_gap c s H Hcu) as (s1 & E1 & G1 & (K1 & K2 & K3) & A1 & L1). rewrite (bind_ok _ _ _ _ _ _ _ E1).
  unfold reader_pos at 1. rewrite bind_gets. fold (pos_of s1). rewrite (ag_pos _ _ G1). rewrite bind_gets.
  pose proof (next_of_ok lim c (ag_ok _ _ G1)) as NO. rewrite Hn in NO. destruct NO as [Hg Hok'].
  destruct (c_after_start _ _ _ Hn) as (Ca & (fs' & Cf) & Cp & Cr).
  assert (FK : frame_ok lim (nd_of k (c_pos c))). { pose proof (co_frames _ _ Hok') as F. rewrite Cf in F. inversion F; assumption. }
  destruct FK as (_ & _ & Fe). rewrite nd_of_end in Fe.
  pose proof Hg as [G2 G3]. 
  assert (UU : forall n, (n <= lim)%N -> u_ok (width ver) n). { intros n Hnl. unfold u_ok in *. lia. }
  assert (UC : u_ok (width ver) (lenN (nd_attrs k)) /\ u_ok (width ver) (lenN (enc_attrs (nd_attrs k)))).
  { destruct k as [name ats kids]. apply counts_ok_eq in G3. cbn. split; apply G3. }
  assert (AH : exists s', (let* h := read_node_header in
    let* hend := reader_pos in
    if is_node_end h then
      let* top := gets current_node in
      modify pop ;;
      match top with
      | Some c =>
          if negb (sn_end c =? hend)%N
          then throw (err_from (EData (NodeLengthMismatch (sn_end c) (Some hend))))
          else
            when (negb (sn_attrs c =? 0)%N && (sn_kids c =? 0)%N)
                 (let* p := position in warn ExtraNodeEndMarker p) ;;
            ret KEnd
      | None => ret KEndFbx
      end
    else start_node (c_pos c) h) s1 = (Ok KStart, s') /\ cur_ok lim c' /\ shape c' s' /\ ready s' /\
    rem_of s' = enc_attrs (nd_attrs k) ++ c_after tail c' /\ pos_of s' = entered k (c_pos c) /\
    p_attrs s' = None /\ p_handler s' = p_handler s /\ r_seekable (p_rd s') = r_seekable (p_rd s) /\
    log_start (nd_name k) s s').
  { pose proof (ag_rem _ _ G1) as R1. rewrite Cr in R1.
    destruct (read_header_mv s1 _ _ _ _ _ (ag_ready _ _ G1) (sh_ver _ _ (ag_shape _ _ G1)) R1 (UU _ Fe) (proj1 UC) (proj2 UC)) as (s2 & E2 & M2 & R2 & Y2).
    rewrite (bind_ok _ _ _ _ _ _ _ E2). unfold reader_pos. rewrite bind_gets.
    unfold is_node_end. cbn [nh_end nh_attrs nh_alen nh_nlen].
    replace (c_pos c + node_size ver k =? 0)%N with false by (symmetry; apply N.eqb_neq; pose proof (node_size_pos ver k); lia). cbn [andb].
    assert (P2 : pos_of s2 = (c_pos c + header_size ver)%N) by (rewrite (moved_pos _ _ _ M2), (ag_pos _ _ G1); reflexivity).
    destruct (start_node_mv c k c' s2 _ (or_intror I) (ag_ok _ _ G1) Hok' Hg Hn (moved_shape _ _ _ _ M2 (ag_shape _ _ G1)) Y2 R2 P2 eq_refl)
      as (s3 & E3 & S3 & Y3 & R3 & P3 & B1 & B2 & B3 & B4 & B5).
    destruct (moved_fields _ _ _ M2) as (F1 & F2 & F3 & F4 & F5 & F6 & (F7 & F8 & F9)).
    exists s3. split; [exact E3|]. repeat (split; [first [assumption|congruence]|]).
    unfold log_start in *. rewrite F7, K1 in B5. exact B5. }
  unfold current_node. rewrite (sh_stack _ _ (ag_shape _ _ G1)). destruct (c_frames c) as [|f fs] eqn:Ef; cbn [map hd_error]; [exact AH|].
  assert (PL : (c_pos c < d_end f)%N).
  { unfold next_of in Hn. rewrite Ef in Hn. destruct (d_rest f) as [|k0 r] eqn:Er; [discriminate|]. unfold c_pos. rewrite Ef. eapply d_pos_lt; eauto. }
  cbn [sn_end started_of].
  replace (d_end f <? c_pos c)%N with false by (symmetry; apply N.ltb_ge; lia).
  replace (d_end f =? c_pos c)%N with false by (symmetry; apply N.eqb_neq; lia). exact AH.
Qed.


(** ** Leaving a node, reaching the end *)
Lemma impl_end : forall c s c', at_cur c s -> caught_up c s -> next_of c = DEnd c' ->
  exists s', next_event_impl (set_attrs None s) = (Ok KEnd, s') /\ cur_ok lim c' /\ shape c' s' /\ ready s' /\
    rem_of s' = c_after tail c' /\ pos_of s' = c_pos c' /\ p_attrs s' = None /\ kept s s'.
Proof.
  intros c s c' H Hcu Hn. pose proof (ac_shape _ _ H) as Hsh.
  unfold next_event_impl. rewrite bind_gets. cbn [p_health set_attrs]. rewrite (sh_health _ _ Hsh). cbn [assert_]. rewrite bind_ret, bind_gets.
  assert (HL : p_last s <> Some KEndFbx). { pose proof (ac_where _ _ H) as W. destruct (c_attrs c); destruct W as [-> _]; [|destruct (c_done c)]; discriminate. }
  cbn [p_last set_attrs].
  replace (match p_last s with Some KEndFbx => false | _ => true end) with true by (destruct (p_last s) as [[]|]; congruence).
  cbn [assert_]. rewrite bind_ret.
  destruct (skip_gap c s H Hcu) as (s1 & E1 & G1 & K & A1 & L1). rewrite (bind_ok _ _ _ _ _ _ _ E1).
  unfold reader_pos at 1. rewrite bind_gets. fold (pos_of s1). rewrite (ag_pos _ _ G1). rewrite bind_gets.
  pose proof (next_of_ok lim c (ag_ok _ _ G1)) as Hok'. rewrite Hn in Hok'.
  pose proof (ag_shape _ _ G1) as S1. pose proof (ag_rem _ _ G1) as R1. pose proof (ag_pos _ _ G1) as P1. pose proof (ag_end _ _ G1) as EN.
  pose proof (co_linked _ _ (ag_ok _ _ G1)) as LK.
  unfold next_of in Hn. unfold c_after in R1. unfold c_pos in P1 |- *.
  destruct (c_frames c) as [|f fs] eqn:Ef; [destruct (c_rest c); discriminate|].
  destruct (d_rest f) as [|k r] eqn:Er; [|discriminate]. injection Hn as <-.
  unfold current_node at 1. rewrite (sh_stack _ _ S1), Ef. cbn [map hd_error].
  cbn [after] in R1. rewrite Er in R1. cbn [enc_nodes app] in R1. rewrite app_nil_r in R1.
  pose proof (d_end_eq f) as DE. rewrite Er, app_nil_r in DE. cbn [nodes_size fold_right] in DE.
  assert (CP : c_pos (mkC (c_done c) (c_rest c) fs None) = d_end f).
  { unfold c_pos. cbn [c_frames c_done]. destruct LK as [LK _]. destruct fs; symmetry; apply LK. }
  assert (POP : forall s2, shape c s2 -> shape (mkC (c_done c) (c_rest c) fs None) (pop s2)).
  { intros s2 [A B C D E]. constructor; try assumption. cbn. rewrite D, Ef. reflexivity. }
  cbn [sn_end started_of]. unfold marker in R1. unfold marker_size in DE.
  destruct (needs_marker (d_ats f) (d_done f)) eqn:NM.
  - pose proof (header_size_pos ver) as HS.
    replace (d_end f <? d_pos f)%N with false by (symmetry; apply N.ltb_ge; lia).
    replace (d_end f =? d_pos f)%N with false by (symmetry; apply N.eqb_neq; lia).
    destruct (read_marker_mv s1 _ (ag_ready _ _ G1) (sh_ver _ _ S1) R1) as (s2 & E2 & M2 & R2 & Y2).
    rewrite (bind_ok _ _ _ _ _ _ _ E2). unfold reader_pos. rewrite bind_gets. fold (pos_of s2).
    assert (P2 : pos_of s2 = d_end f) by (rewrite (moved_pos _ _ _ M2), P1; lia). rewrite P2.
    cbn [is_node_end nh_end nh_attrs nh_alen nh_nlen andb N.eqb]. change (bN x00) with 0%N. cbn [N.eqb].
    pose proof (moved_shape _ _ _ _ M2 S1) as S2.
    rewrite bind_gets, bind_modify. unfold current_node. rewrite (sh_stack _ _ S2), Ef. cbn [map hd_error sn_end sn_attrs sn_kids started_of].
    rewrite N.eqb_refl. cbn [negb].
    assert (NW : (negb (lenN (d_ats f) =? 0) && (lenN (d_done f) =? 0))%N = false).
    { unfold needs_marker in NM. destruct (d_ats f), (d_done f); try discriminate; reflexivity. }
    rewrite NW. cbn [when]. rewrite bind_ret. eexists. split; [reflexivity|]. split; [exact Hok'|]. split; [apply POP; exact S2|].
    split; [exact Y2|]. split; [exact R2|]. split; [|].
    + etransitivity; [exact P2|symmetry; exact CP].
    + destruct (moved_fields _ _ _ M2) as (F1 & F2 & F3 & F4 & F5 & F6 & F7). split; [cbn; congruence|]. apply (kept_trans _ _ _ K). exact F7.
  - replace (d_end f <? d_pos f)%N with false by (symmetry; apply N.ltb_ge; lia).
    replace (d_end f =? d_pos f)%N with true by (symmetry; apply N.eqb_eq; lia).
    rewrite bind_gets. cbn [sn_attrs started_of].
    assert (ND : d_done f = [] /\ d_ats f <> []). { unfold needs_marker in NM. destruct (d_ats f), (d_done f); try discriminate; split; congruence. }
    destruct ND as [ND NA].
    assert (NW : (match p_last s1 with Some KEnd => true | _ => false end || (lenN (d_ats f) =? 0)%N) = false).
    { apply orb_false_iff. split.
      - destruct (p_last s1) as [[]|] eqn:PL; try reflexivity. exfalso. apply EN; [reflexivity|exact ND].
      - destruct (d_ats f); [congruence|]. rewrite lenN_cons. apply N.eqb_neq. lia. }
    rewrite NW. cbn [when]. rewrite bind_ret, bind_modify. eexists. split; [reflexivity|]. split; [exact Hok'|]. split; [apply POP; exact S1|].
    split; [exact (ag_ready _ _ G1)|]. split; [exact R1|]. split; [|].
    + change (pos_of (pop s1)) with (pos_of s1). etransitivity; [exact P1|]. etransitivity; [|symmetry; exact CP]. lia.
    + split; [exact A1|exact K].
Qed.

Lemma impl_fbx : forall c s, at_cur c s -> caught_up c s -> next_of c = DFbx ->
  exists s', next_event_impl (set_attrs None s) = (Ok KEndFbx, s') /\ c_frames c = [] /\ shape c s' /\ ready s' /\
    rem_of s' = tail /\ pos_of s' = (c_pos c + header_size ver)%N /\ p_attrs s' = None /\ kept s s'.
Proof.
  intros c s H Hcu Hn. pose proof (ac_shape _ _ H) as Hsh.
  unfold next_event_impl. rewrite bind_gets. cbn [p_health set_attrs]. rewrite (sh_health _ _ Hsh). cbn [assert_]. rewrite bind_ret, bind_gets.
  assert (HL : p_last s <> Some KEndFbx). { pose proof (ac_where _ _ H) as W. destruct (c_attrs c); destruct W as [-> _]; [|destruct (c_done c)]; discriminate. }
  cbn [p_last set_attrs].
  replace (match p_last s with Some KEndFbx => false | _ => true end) with true by (destruct (p_last s) as [[]|]; congruence).
  cbn [assert_]. rewrite bind_ret.
  destruct (skip_gap c s H Hcu) as (s1 & E1 & G1 & K & A1 & L1). rewrite (bind_ok _ _ _ _ _ _ _ E1).
  unfold reader_pos at 1. rewrite bind_gets. fold (pos_of s1). rewrite (ag_pos _ _ G1). rewrite bind_gets.
  pose proof (ag_shape _ _ G1) as S1. pose proof (ag_rem _ _ G1) as R1. pose proof (ag_pos _ _ G1) as P1.
  unfold next_of in Hn. unfold c_after in R1.
  destruct (c_frames c) as [|f fs] eqn:Ef; [|destruct (d_rest f); discriminate].
  destruct (c_rest c) as [|k r] eqn:Er; [|discriminate].
  unfold current_node at 1. rewrite (sh_stack _ _ S1), Ef. cbn [map hd_error].
  cbn [after enc_nodes app] in R1.
  destruct (read_marker_mv s1 _ (ag_ready _ _ G1) (sh_ver _ _ S1) R1) as (s2 & E2 & M2 & R2 & Y2).
  rewrite (bind_ok _ _ _ _ _ _ _ E2). unfold reader_pos. rewrite bind_gets. fold (pos_of s2).
  cbn [is_node_end nh_end nh_attrs nh_alen nh_nlen andb N.eqb]. change (bN x00) with 0%N. cbn [N.eqb].
  pose proof (moved_shape _ _ _ _ M2 S1) as S2.
  rewrite bind_gets, bind_modify. unfold current_node. rewrite (sh_stack _ _ S2), Ef. cbn [map hd_error].
  eexists. split; [reflexivity|]. split; [reflexivity|]. split; [|split; [exact Y2|split; [exact R2|split]]].
  - destruct S2 as [A B C D E]. constructor; try assumption. cbn. rewrite D, Ef. reflexivity.
  - change (pos_of (pop s2)) with (pos_of s2). rewrite (moved_pos _ _ _ M2), P1. reflexivity.
  - destruct (moved_fields _ _ _ M2) as (F1 & F2 & F3 & F4 & F5 & F6 & F7). split; [cbn; congruence|]. apply (kept_trans _ _ _ K). exact F7.
Qed.

(** ** The calls *)
Lemma next_wrap : forall s k s1, p_health s = Running -> next_event_impl s = (Ok k, s1) ->
  next_event s = (let* _ := when (ekind_eqb k KEndFbx) (modify (set_health Finished)) in
      modify (set_last (Some k)) ;;
      let* cur := gets depth in
      assert_ (match k with
               | KStart => (wrapping_sub cur (depth s) =? 1)%N
               | KEnd => (wrapping_sub (depth s) cur =? 1)%N
               | KEndFbx => (depth s =? 0)%N && (cur =? 0)%N
               end) ;;
      let* last := gets p_last in
      assert_ (match last with Some k' => ekind_eqb k k' | None => false end) ;;
      match k with
      | KStart =>
          let* n := gets current_node in
          match n with
          | Some n => ret (EvStart (sn_name n))
          | None => panic
          end
      | KEnd => ret EvEnd
      | KEndFbx => let* f := try_ read_footer in ret (EvEndFbx f)
      end) s1.
Proof.
  intros s k s1 Hh E. unfold next_event. rewrite bind_gets. unfold bind at 1, ensure_continuable. rewrite Hh.
  unfold bind at 1, try_. rewrite E. reflexivity.
Qed.

Lemma c_depth : forall c s, shape c s -> depth s = lenN (c_frames c).
Proof. intros c s H. unfold depth. rewrite (sh_stack _ _ H). unfold lenN. rewrite map_length. reflexivity. Qed.
Lemma start_depth : forall c k c', next_of c = DStart k c' -> lenN (c_frames c') = (lenN (c_frames c) + 1)%N.
Proof.
  intros c k c' H. unfold next_of in H. destruct (c_frames c) as [|f fs].
  - destruct (c_rest c); [discriminate|]. injection H as _ <-. reflexivity.
  - destruct (d_rest f); [discriminate|]. injection H as _ <-. cbn [c_frames]. rewrite !lenN_cons. lia.
Qed.
Lemma end_depth : forall c c', next_of c = DEnd c' -> lenN (c_frames c) = (lenN (c_frames c') + 1)%N.
Proof.
  intros c c' H. unfold next_of in H. destruct (c_frames c) as [|f fs].
  - destruct (c_rest c); discriminate.
  - destruct (d_rest f); [|discriminate]. injection H as <-. cbn [c_frames]. rewrite !lenN_cons. lia.
Qed.

(** [next_event] in front of a node. *)
Lemma run_start : forall O c s k c', at_cur c s -> caught_up c s -> next_of c = DStart k c' ->
  exists s', run_op (@ONext O) s = (Ok (BEvent (EvStart (nd_name k))), s') /\ at_cur c' s' /\
    pos_of s' = entered k (c_pos c) /\ p_handler s' = p_handler s /\ r_seekable (p_rd s') = r_seekable (p_rd s) /\
    log_start (nd_name k) s s'.
Proof.
  intros O c s k c' H Hcu Hn. destruct (impl_start _ _ _ _ H Hcu Hn) as (s1 & E & Hok' & S1 & Y1 & R1 & P1 & A1 & H1 & K1 & L1).
  unfold run_op. rewrite bind_modify.
  pose proof (ac_shape _ _ H) as Hsh.
  assert (HN : next_event (set_attrs None s) = (Ok (EvStart (nd_name k)), set_last (Some KStart) s1)).
  { rewrite (next_wrap _ _ _ (sh_health _ _ Hsh : p_health (set_attrs None s) = Running) E). cbn [ekind_eqb when]. rewrite bind_ret, bind_modify, bind_gets.
    change (depth (set_attrs None s)) with (depth s). change (depth (set_last (Some KStart) s1)) with (depth s1).
    rewrite (c_depth _ _ S1), (c_depth _ _ Hsh), (start_depth _ _ _ Hn), wsub_1. cbn [N.eqb Pos.eqb assert_].
    rewrite bind_ret, bind_gets. cbn [p_last set_last ekind_eqb assert_]. rewrite bind_ret, bind_gets.
    unfold current_node. cbn [p_stack set_last]. rewrite (sh_stack _ _ S1).
    destruct (c_after_start _ _ _ Hn) as (_ & (fs & ->) & _). reflexivity. }
  rewrite (bind_ok _ _ _ _ _ _ _ HN). unfold from_parser. rewrite bind_assoc, bind_gets.
  unfold current_node. cbn [p_stack set_last]. rewrite (sh_stack _ _ S1).
  destruct (c_after_start _ _ _ Hn) as (Ca & (fs & Cf) & Cp & _). rewrite Cf. cbn [map hd_error].
  unfold reader_pos. rewrite bind_assoc, bind_gets. rewrite bind_modify. eexists. split; [reflexivity|].
  split; [|repeat split; assumption].
  constructor; [exact Hok'| |exact Y1|].
  - destruct S1. constructor; assumption.
  - rewrite Ca. split; [reflexivity|]. eexists. exists []. split; [reflexivity|]. cbn [a_rest a_next sn_attrs started_of nd_of d_ats].
    split; [reflexivity|]. split; [change (lenN (@nil byte)) with 0%N; rewrite N.add_0_r; reflexivity|]. split; [exact R1|].
    match goal with |- (pos_of ?x + _ + _ = _)%N => change (pos_of x) with (pos_of s1) end. rewrite P1, Cp. change (lenN (@nil byte)) with 0%N. lia.
Qed.

(** [next_event] at the end of a node. *)
Lemma run_end : forall O c s c', at_cur c s -> caught_up c s -> next_of c = DEnd c' ->
  exists s', run_op (@ONext O) s = (Ok (BEvent EvEnd), s') /\ at_cur c' s' /\ kept s s'.
Proof.
  intros O c s c' H Hcu Hn. destruct (impl_end _ _ _ H Hcu Hn) as (s1 & E & Hok' & S1 & Y1 & R1 & P1 & A1 & K1).
  unfold run_op. rewrite bind_modify.
  pose proof (ac_shape _ _ H) as Hsh.
  assert (HN : next_event (set_attrs None s) = (Ok EvEnd, set_last (Some KEnd) s1)).
  { rewrite (next_wrap _ _ _ (sh_health _ _ Hsh : p_health (set_attrs None s) = Running) E). cbn [ekind_eqb when]. rewrite bind_ret, bind_modify, bind_gets.
    change (depth (set_attrs None s)) with (depth s). change (depth (set_last (Some KEnd) s1)) with (depth s1).
    rewrite (c_depth _ _ S1), (c_depth _ _ Hsh), (end_depth _ _ Hn), wsub_1. cbn [N.eqb Pos.eqb assert_].
    rewrite bind_ret, bind_gets. cbn [p_last set_last ekind_eqb assert_]. rewrite bind_ret. reflexivity. }
  rewrite (bind_ok _ _ _ _ _ _ _ HN). eexists. split; [reflexivity|]. split; [|exact K1].
  constructor; [exact Hok'| |exact Y1|].
  - destruct S1. constructor; assumption.
  - assert (CA : c_attrs c' = None).
    { unfold next_of in Hn. destruct (c_frames c) as [|f fs]; [destruct (c_rest c); discriminate|]. destruct (d_rest f); [|discriminate]. injection Hn as <-. reflexivity. }
    assert (CD : c_done c' <> []).
    { pose proof (co_linked _ _ (ac_ok _ _ H)) as LK. unfold next_of in Hn. destruct (c_frames c) as [|f fs]; [destruct (c_rest c); discriminate|].
      destruct (d_rest f); [|discriminate]. injection Hn as <-. cbn [c_done]. eapply linked_done. exact LK. }
    rewrite CA. cbn [p_last set_last]. destruct (c_done c'); [congruence|]. repeat split; assumption.
Qed.

(** [next_event] after the last node: the footer is read from [tail]. *)
Lemma run_fbx : forall O c s, at_cur c s -> caught_up c s -> next_of c = DFbx ->
  exists s1, run_op (@ONext O) s = (let* f := try_ read_footer in ret (BEvent (EvEndFbx f))) s1 /\
    p_health s1 = Finished /\ p_stack s1 = [] /\ p_ver s1 = ver /\ accepts s1 /\ ready s1 /\
    rem_of s1 = tail /\ pos_of s1 = (c_pos c + header_size ver)%N /\ p_attrs s1 = None /\ kept s s1.
Proof.
  intros O c s H Hcu Hn. destruct (impl_fbx _ _ H Hcu Hn) as (s1 & E & Ef & S1 & Y1 & R1 & P1 & A1 & K1).
  unfold run_op. rewrite bind_modify.
  pose proof (ac_shape _ _ H) as Hsh.
  assert (HN : next_event (set_attrs None s) = (let* f := try_ read_footer in ret (EvEndFbx f)) (set_last (Some KEndFbx) (set_health Finished s1))).
  { rewrite (next_wrap _ _ _ (sh_health _ _ Hsh : p_health (set_attrs None s) = Running) E). cbn [ekind_eqb when]. rewrite bind_modify, bind_modify, bind_gets.
    change (depth (set_attrs None s)) with (depth s). change (depth (set_last (Some KEndFbx) (set_health Finished s1))) with (depth s1).
    rewrite (c_depth _ _ S1), (c_depth _ _ Hsh), Ef. cbn [N.eqb Pos.eqb assert_ lenN length N.of_nat andb].
    rewrite bind_ret, bind_gets. cbn [p_last set_last ekind_eqb assert_]. rewrite bind_ret. reflexivity. }
  exists (set_last (Some KEndFbx) (set_health Finished s1)). split.
  - unfold bind at 1. rewrite HN. unfold bind, try_. destruct (read_footer (set_last (Some KEndFbx) (set_health Finished s1))) as [[f|e|] s2]; reflexivity.
  - repeat split; try assumption; try apply K1; try apply Y1.
    + cbn. rewrite (sh_stack _ _ S1), Ef. reflexivity.
    + apply (sh_ver _ _ S1).
    + apply (sh_acc _ _ S1).
Qed.


(** ** Loading attributes *)
Definition load_ready (s : pstate) : Prop :=
  r_seekable (p_rd s) = true \/ match p_attrs s with Some a => a_next a = pos_of s | None => True end.

Lemma attrs_at_cur : forall c s ats, at_cur c s -> c_attrs c = Some ats -> load_ready s ->
  exists a junk, attrs_at ats junk (c_after tail c) a s /\ skippable s (a_next a) /\ (pos_of s + lenN junk + lenN (enc_attrs ats) = c_pos c)%N.
Proof.
  intros c s ats H Ha Hl. pose proof (ac_where _ _ H) as W. rewrite Ha in W. destruct W as (_ & a & junk & W1 & W2 & W3 & W4 & W5).
  exists a, junk. split; [|split; [|exact W5]].
  - repeat split; try assumption; apply (ac_ready _ _ H).
  - destruct Hl as [Hl|Hl]; [left; exact Hl|right]. rewrite W1 in Hl. congruence.
Qed.

Lemma c_load_ok : forall c a ats, cur_ok lim c -> c_attrs c = Some (a :: ats) -> cur_ok lim (c_load c ats).
Proof.
  intros c a ats [L F R B A] E. constructor; auto. rewrite E in A. destruct A as (f & fs & pre & E1 & E2 & E3). cbn [c_load c_attrs c_frames].
  exists f, fs, (pre ++ [a]). rewrite <- app_assoc. auto.
Qed.
Lemma c_attr_ok : forall c a ats, cur_ok lim c -> c_attrs c = Some (a :: ats) -> attr_ok a.
Proof.
  intros c a ats [L F R B A] E. rewrite E in A. destruct A as (f & fs & pre & E1 & E2 & E3). rewrite E1 in F. inversion F as [|? ? (_ & FA & _) _]; subst.
  rewrite E3 in FA. apply Forall_app in FA. destruct FA as [_ FA]. inversion FA; assumption.
Qed.

Lemma amoved_cur : forall c s at0 ats a junk m s', at_cur c s -> c_attrs c = Some (at0 :: ats) ->
  attrs_at (at0 :: ats) junk (c_after tail c) a s -> (pos_of s + lenN junk + lenN (enc_attrs (at0 :: ats)) = c_pos c)%N ->
  (m <= lenN junk + lenN (enc_attr at0))%N -> amoved (after_load a at0) m s s' ->
  at_cur (c_load c ats) s' /\ kept s s' /\ pos_of s' = (pos_of s + m)%N.
Proof.
  intros c s at0 ats a junk m s' H Ha (A1 & A2 & A3 & A4 & A5) HP Hm (s1 & M1 & ->).
  destruct (moved_fields _ _ _ M1) as (F1 & F2 & F3 & F4 & F5 & F6 & F7).
  split; [|split; [exact F7|exact (moved_pos _ _ _ M1)]].
  assert (EE : enc_attrs (at0 :: ats) = enc_attr at0 ++ enc_attrs ats) by reflexivity.
  rewrite EE, lenN_app in HP.
  constructor.
  - eapply c_load_ok; [apply (ac_ok _ _ H)|exact Ha].
  - pose proof (moved_shape _ _ _ _ M1 (ac_shape _ _ H)) as S1. destruct S1. constructor; assumption.
  - eapply moved_ready in M1; [exact M1| |exact A1]. rewrite A4, EE, !lenN_app. lia.
  - cbn [c_load c_attrs]. pose proof (ac_where _ _ H) as W. rewrite Ha in W. destruct W as (W & _).
    split; [cbn [p_last set_attrs]; congruence|]. eexists. exists (dropN m (junk ++ enc_attr at0)). split; [reflexivity|].
    unfold after_load. cbn [a_rest a_next]. rewrite A3, lenN_cons. split; [lia|].
    change (pos_of (set_attrs (Some (mkAttrs (a_total a) (1 + lenN ats - 1) (a_next a + lenN (enc_attr at0)))) s1)) with (pos_of s1).
    rewrite lenN_dropN, lenN_app, (moved_pos _ _ _ M1), A5. split; [lia|]. split.
    + change (rem_of s1 = dropN m (junk ++ enc_attr at0) ++ enc_attrs ats ++ c_after tail c).
      rewrite (moved_rem' _ _ _ M1), A4, EE, <- app_assoc, (app_assoc junk).
      apply dropN_app_le. rewrite lenN_app. exact Hm.
    + change (c_pos (c_load c ats)) with (c_pos c). lia.
Qed.

Definition load_of {O} (b : bool) (ld : loader O) : op O := if b then OLoadBuf ld else OLoad ld.

Context (HZ : zlib_roundtrip env).
Lemma run_load : forall O b (ld : loader O) c s r s', at_cur c s -> load_ready s -> run_op (load_of b ld) s = (Ok r, s') ->
  match c_attrs c with
  | Some (at0 :: ats) => (exists v, r = BAttr (Some v)) /\ at_cur (c_load c ats) s' /\ kept s s'
  | Some [] => r = BAttr None /\ s' = s
  | None => r = BIgnored /\ s' = s
  end.
Proof.
  intros O b ld c s r s' H Hl HR.
  assert (HR' : (let* a := gets p_attrs in match a with Some _ => let* v := load_next_gen b ld in ret (BAttr v) | None => ret BIgnored end) s = (Ok r, s'))
    by (destruct b; exact HR). clear HR. rewrite bind_gets in HR'.
  destruct (c_attrs c) as [ats|] eqn:Ea.
  - destruct (attrs_at_cur _ _ _ H Ea Hl) as (a & junk & HA & HK & HP). pose proof HA as (_ & Pa & _). rewrite Pa in HR'.
    destruct ats as [|at0 ats].
    + unfold bind in HR'. rewrite (load_next_none _ b ld _ _ _ _ (sh_health _ _ (ac_shape _ _ H)) HA) in HR'. injection HR' as <- <-. auto.
    + unfold bind in HR'. destruct (load_next_gen b ld s) as [r0 s0] eqn:E0.
      assert (NP : r0 <> Panic) by (intros ->; discriminate).
      pose proof (load_next_mv HZ O b ld _ _ _ _ _ _ _ _ (sh_health _ _ (ac_shape _ _ H)) HA HK (c_attr_ok _ _ _ (ac_ok _ _ H) Ea) E0 NP) as K.
      destruct r0 as [[v|]|e|]; try contradiction; try discriminate. injection HR' as <- <-.
      destruct K as (m & Hm & AM). split; [eexists; reflexivity|].
      destruct (amoved_cur _ _ _ _ _ _ _ _ H Ea HA HP Hm AM) as (K1 & K2 & _). auto.
  - pose proof (ac_where _ _ H) as W. rewrite Ea in W. destruct W as (_ & _ & _ & W). rewrite W in HR'. injection HR' as <- <-. auto.
Qed.

Lemma run_direct : forall b c s, at_cur c s -> load_ready s ->
  exists s', run_op (load_of b direct_loader) s = (Ok match c_attrs c with
    | Some (at0 :: _) => BAttr (Some (at_val at0)) | Some [] => BAttr None | None => BIgnored end, s') /\
    (match c_attrs c with Some (at0 :: _) => at_zip at0 = false | _ => True end -> load_ready s -> load_ready s').
Proof.
  intros b c s H Hl.
  assert (RE : run_op (load_of b direct_loader) s = (let* a := gets p_attrs in match a with Some _ => let* v := load_next_gen b direct_loader in ret (BAttr v) | None => ret BIgnored end) s)
    by (destruct b; reflexivity). rewrite RE, bind_gets. clear RE.
  destruct (c_attrs c) as [ats|] eqn:Ea.
  - destruct (attrs_at_cur _ _ _ H Ea Hl) as (a & junk & HA & HK & HP). pose proof HA as (_ & Pa & _). rewrite Pa.
    destruct ats as [|at0 ats].
    + unfold bind. rewrite (load_next_none _ b direct_loader _ _ _ _ (sh_health _ _ (ac_shape _ _ H)) HA). eexists. split; [reflexivity|auto].
    + destruct (load_next_direct HZ b _ _ _ _ _ _ (sh_health _ _ (ac_shape _ _ H)) HA HK (c_attr_ok _ _ _ (ac_ok _ _ H) Ea)) as (s' & E & HC).
      unfold bind. rewrite E. eexists. split; [reflexivity|]. intros EZ _. right. destruct (HC EZ) as (a' & -> & EP). exact EP.
  - pose proof (ac_where _ _ H) as W. rewrite Ea in W. destruct W as (_ & _ & _ & W). rewrite W. eexists. split; [reflexivity|auto].
Qed.

(** ** Skipping a node *)
Lemma c_skip_ok : forall c, cur_ok lim c -> cur_ok lim (c_skip c).
Proof.
  intros c [L F R B A]. constructor; cbn [c_skip c_done c_rest c_frames c_attrs]; auto.
  - destruct (c_frames c) as [|f fs]; [exact I|]. apply L.
  - destruct (c_frames c) as [|f fs]; [constructor|]. inversion F; assumption.
  - destruct (c_frames c) as [|f [|g gs]]; cbn [tl]; auto. apply L.
Qed.

Lemma run_skip : forall O c s f fs, at_cur c s -> c_frames c = f :: fs -> r_seekable (p_rd s) = true ->
  exists s', run_op (@OSkip O) s = (Ok BSkipped, s') /\ at_cur (c_skip c) s' /\ kept s s'.
Proof.
  intros O c s f fs H Ef Hs. unfold run_op. rewrite bind_modify. unfold skip_current_node. rewrite bind_assoc, bind_gets.
  pose proof (ac_shape _ _ H) as Hsh. unfold current_node. cbn [p_stack set_attrs]. rewrite (sh_stack _ _ Hsh), Ef. cbn [map hd_error].
  rewrite bind_assoc, bind_modify, bind_assoc, bind_modify. cbn [sn_end started_of].
  set (s0 := set_last (Some KEnd) (pop (set_attrs None s))).
  pose proof (co_linked _ _ (ac_ok _ _ H)) as LK. rewrite Ef in LK. destruct LK as [LK _].
  (* everything up to the end of the node *)
  assert (exists body, rem_of s = body ++ c_after tail (c_skip c) /\ (pos_of s + lenN body = d_end f)%N) as (body & RB & PB).
  { assert (exists b2, c_after tail c = b2 ++ c_after tail (c_skip c) /\ (c_pos c + lenN b2 = d_end f)%N) as (b2 & RB2 & PB2).
    { unfold c_after. rewrite Ef. unfold c_skip. cbn [c_done c_rest c_frames after]. rewrite Ef. cbn [tl].
      eexists. split; [rewrite app_assoc; reflexivity|]. rewrite lenN_app, enc_nodes_len', marker_len. unfold c_pos. rewrite Ef, d_end_eq. lia. }
    pose proof (ac_where _ _ H) as W. destruct (c_attrs c) as [ats|].
    - destruct W as (_ & a & junk & _ & _ & _ & W4 & W5). exists (junk ++ enc_attrs ats ++ b2). rewrite W4, RB2, <- !app_assoc. split; [reflexivity|].
      rewrite !lenN_app. lia.
    - destruct W as (_ & W3 & W4 & _). exists b2. rewrite W3, RB2. split; [reflexivity|]. lia. }
  destruct (skip_mv (d_end f) s0) as (s' & E & M).
  - exact (ac_ready _ _ H).
  - exact Hs.
  - change (pos_of s0) with (pos_of s). lia.
  - change (pos_of s0) with (pos_of s). change (rem_of s0) with (rem_of s). rewrite RB, lenN_app. lia.
  - rewrite (bind_ok _ _ _ _ _ _ _ E). exists s'. split; [reflexivity|].
    destruct (moved_fields _ _ _ M) as (F1 & F2 & F3 & F4 & F5 & F6 & F7).
    change (pos_of s0) with (pos_of s) in M.
    split; [|exact F7]. constructor.
    + apply c_skip_ok. apply (ac_ok _ _ H).
    + eapply moved_shape; [exact M|]. destruct Hsh as [A B C D G]. constructor; auto. cbn. rewrite D, Ef. reflexivity.
    + eapply moved_ready; [exact M| |exact (ac_ready _ _ H)]. change (rem_of s0) with (rem_of s). rewrite RB, lenN_app. lia.
    + cbn [c_skip c_attrs]. rewrite F4, F6. cbn [s0 set_last p_last]. split.
      { pose proof (co_linked _ _ (ac_ok _ _ H)) as LK2. rewrite Ef in LK2. apply linked_done in LK2. change (Some KEnd = match c_done c with [] => None | _ => Some KEnd end). destruct (c_done c); [congruence|reflexivity]. }
      split; [|split; [|reflexivity]].
      * eapply moved_app; [exact M|exact RB|]. lia.
      * rewrite (moved_pos _ _ _ M). change (pos_of s0) with (pos_of s). transitivity (d_end f); [lia|].
        unfold c_pos, c_skip. cbn [c_frames c_done]. rewrite Ef. cbn [tl]. destruct fs; apply LK.
Qed.

(** ** The start of a document *)
Definition c_init (ns : list node) : cursor := mkC [] ns [] None.
Lemma init_at : forall ns s, Forall good ns -> (27 + nodes_size ver ns <= lim)%N -> p_ver s = ver -> p_health s = Running -> accepts s ->
  p_stack s = [] -> p_top s = 0%N -> p_last s = None -> p_attrs s = None -> ready s -> pos_of s = 27%N ->
  rem_of s = enc_nodes ver 27 ns ++ end_marker ver ++ tail -> at_cur (c_init ns) s.
Proof.
  intros ns s HG HB H1 H2 H3 H4 H5 H6 H7 H8 H9 H10. constructor.
  - constructor; cbn; auto.
  - constructor; auto.
  - exact H8.
  - cbn [c_init c_attrs]. rewrite H6. repeat split; try assumption.
Qed.

End At.
End Doc.
