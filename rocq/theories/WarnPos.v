(** Which warnings each operation raises, and where. *)
Require Import Coq.Lists.List Coq.NArith.NArith Coq.ZArith.ZArith Coq.Bool.Bool Coq.micromega.Lia.
Require Import ZifyBool ZifyNat ZifyN.
Require Import Verif.Base Verif.BaseFacts Verif.Utf8 Verif.Types Verif.Io Verif.IoFacts Verif.Parser Verif.MonadFacts Verif.ParserSteps Verif.ParserShape Verif.SpecHist Verif.ParserHist Verif.ParserPos Verif.SpecPos Verif.ReadFacts.
Import ListNotations.
Ltac Zify.zify_post_hook ::= Z.div_mod_to_equations.

Section WithEnv.
Context {env : Env}.

(** Newest-first list of offsets going down from [hi] to [lo]. *)
Fixpoint desc (hi lo : N) (l : list (warning * synpos)) : Prop :=
  match l with
  | [] => (lo <= hi)%N
  | w :: t => (warning_offset w <= hi)%N /\ desc (warning_offset w) lo t
  end.
Lemma desc_le : forall l hi lo, desc hi lo l -> (lo <= hi)%N.
Proof. induction l as [|w t IH]; intros hi lo H; cbn in H; [exact H|]. destruct H as [A B]. apply IH in B. lia. Qed.
Lemma desc_hi : forall l hi hi' lo, desc hi lo l -> (hi <= hi')%N -> desc hi' lo l.
Proof. destruct l; intros hi hi' lo H L; cbn in *; [lia|]. destruct H. split; [lia|auto]. Qed.
Lemma desc_app : forall l2 l1 c b a, desc c b l2 -> desc b a l1 -> desc c a (l2 ++ l1).
Proof.
  induction l2 as [|w t IH]; intros l1 c b a H1 H2; cbn in *.
  - eapply desc_hi; eauto.
  - destruct H1 as [A B]. split; [exact A|]. eapply IH; eauto.
Qed.
Lemma desc_last : forall l w hi lo, desc hi lo (l ++ [w]) -> desc hi (warning_offset w) l /\ (lo <= warning_offset w)%N.
Proof.
  induction l as [|x t IH]; intros w hi lo H; cbn in *.
  - destruct H. split; auto.
  - destruct H as [A B]. apply IH in B. destruct B as [B C]. auto.
Qed.

Definition ord (s s' : pstate) : Prop :=
  exists l, p_log s' = l ++ p_log s /\ desc (rpos s') (rpos s) l.
Lemma ord_pre : preorder ord.
Proof.
  split.
  - intros s. exists []. split; [reflexivity|]. cbn. lia.
  - intros a b c (l1 & A1 & A2) (l2 & B1 & B2). exists (l2 ++ l1). split.
    + rewrite B1, A1, app_assoc. reflexivity.
    + eapply desc_app; eauto.
Qed.

(** A step that raises nothing. *)
Definition silent (s s' : pstate) : Prop := quieta s s' /\ p_log s' = p_log s.
Lemma silent_pre : preorder silent.
Proof.
  split.
  - intros s. split; [apply quieta_pre | reflexivity].
  - intros a b c [A1 A2] [B1 B2]. split; [eapply quieta_pre; eauto | congruence].
Qed.
Lemma rd_fwd_pos : forall r r', rd_fwd r r' -> (r_pos r <= r_pos r')%N.
Proof. intros r r' (d & p & (_ & _ & E & _) & _). lia. Qed.
Lemma quiet_rpos : forall s s', quiet s s' -> (rpos s <= rpos s')%N.
Proof. intros s s' (_ & _ & _ & _ & _ & _ & _ & H). apply rd_fwd_pos in H. exact H. Qed.
Lemma silent_ord : forall s s', silent s s' -> ord s s'.
Proof.
  intros s s' [[Q _] E]. exists []. split; [exact E|]. cbn. apply quiet_rpos. exact Q.
Qed.
Lemma steps_so : forall A (m : M A), steps silent m -> steps ord m.
Proof. intros A m H s Hp. apply silent_ord. apply H. exact Hp. Qed.

Lemma silent_rdop : forall A (f : reader -> option A * reader),
  (forall r a r', f r = (Some a, r') -> rd_fwd r r') -> steps silent (rdop f).
Proof.
  intros A f H. apply st_rdop. intros s a r E. split; [apply quieta_set_rd; eauto | reflexivity].
Qed.

Create HintDb silent.
Ltac q := repeat first [ solve [auto 2 with silent] | steps_step silent_pre ].
Lemma try_read_silent : forall n, steps silent (try_read n).
Proof. intros n. apply silent_rdop. apply rd_exact_fwd. Qed.
Hint Resolve try_read_silent : silent.
Lemma read_exact_silent : forall n, steps silent (read_exact n).
Proof. intros n. unfold read_exact. q. Qed.
Hint Resolve read_exact_silent : silent.
Lemma parse_u8_silent : steps silent parse_u8.
Proof. unfold parse_u8. q. Qed.
Hint Resolve parse_u8_silent : silent.
Lemma parse_uint_silent : forall n, steps silent (parse_uint n).
Proof. intros. unfold parse_uint. q. Qed.
Hint Resolve parse_uint_silent : silent.
Lemma parse_sint_silent : forall n, steps silent (parse_sint n).
Proof. intros. unfold parse_sint. q. Qed.
Hint Resolve parse_sint_silent : silent.
Lemma m_skip_to_silent : forall n, steps silent (m_skip_to n).
Proof. intros. unfold m_skip_to. q; apply silent_rdop; apply skip_to_fwd. Qed.
Hint Resolve m_skip_to_silent : silent.
Lemma reader_pos_silent : steps silent reader_pos.
Proof. unfold reader_pos. q. Qed.
Hint Resolve reader_pos_silent : silent.
Lemma skip_unread_silent : steps silent skip_unread_attributes.
Proof. unfold skip_unread_attributes, reader_pos. q. Qed.
Hint Resolve skip_unread_silent : silent.
Lemma read_node_header_silent : steps silent read_node_header.
Proof. unfold read_node_header. q. Qed.
Hint Resolve read_node_header_silent : silent.
Lemma run_z_silent : forall A (p : zprog A), steps silent (run_z p).
Proof.
  intros A p. induction p as [a|n k IH|n k IH]; cbn [run_z]; q; try apply IH. apply silent_rdop. apply rd_to_end_fwd.
Qed.
Hint Resolve run_z_silent : silent.
Lemma mk_decoder_silent : forall e, steps silent (mk_decoder e).
Proof. intros [|]; unfold mk_decoder; q. Qed.
Hint Resolve mk_decoder_silent : silent.
Lemma dec_read_silent : forall d n, steps silent (dec_read d n).
Proof. intros [|st] n; unfold dec_read; q. Qed.
Hint Resolve dec_read_silent : silent.
Lemma it_next_silent : forall A (el : elem A) it, steps silent (it_next el it).
Proof. intros. unfold it_next. q. Qed.
Hint Resolve it_next_silent : silent.
Lemma it_collect_silent : forall A (el : elem A) it, steps silent (it_collect el it).
Proof.
  intros. unfold it_collect. q. apply (st_mloop _ silent_pre). intros [it' acc].
  unfold collect_step. q.
Qed.
Hint Resolve it_collect_silent : silent.
Lemma run_seq_silent : forall A O (el : elem A) (p : seqprog A O) it, steps silent (run_seq el p it).
Proof.
  intros A O el p. induction p as [r|k IH|k IH]; intros it; cbn [run_seq].
  - q.
  - apply (st_bind _ silent_pre); [apply it_next_silent | intros [it' o]]. apply IH.
  - apply (st_bind _ silent_pre); [apply it_collect_silent | intros [it' o]]. apply IH.
Qed.
Hint Resolve run_seq_silent : silent.
Lemma run_rd_silent : forall O (p : rdprog O) limit, steps silent (run_rd p limit).
Proof.
  intros O p. induction p as [r|n k IH|n k IH|k IH|amt k IH]; intros limit; cbn [run_rd]; unfold reader_pos.
  - q.
  - q; auto. apply silent_rdop. apply rd_once_fwd.
  - q; auto; apply silent_rdop; [apply rd_exact_fwd | apply rd_to_end_fwd].
  - q; auto; apply silent_rdop; apply rd_to_end_fwd.
  - apply (st_bind _ silent_pre).
    + apply silent_rdop. intros r a r' H. destruct (rd_peek _ r) as [x r1] eqn:E.
      injection H as <- <-. eapply rd_peek_fwd; eauto.
    + intros a.
      apply (st_bind _ silent_pre); [apply silent_rdop; apply rd_drop_fwd | intros _; apply IH].
Qed.
Hint Resolve run_rd_silent : silent.
Lemma read_attr_type_silent : steps silent read_attr_type.
Proof. unfold read_attr_type. q. Qed.
Hint Resolve read_attr_type_silent : silent.
Lemma read_array_header_silent : steps silent read_array_header.
Proof. unfold read_array_header. q. Qed.
Hint Resolve read_array_header_silent : silent.
Lemma get_attrs_silent : steps silent get_attrs.
Proof. unfold get_attrs. q. Qed.
Hint Resolve get_attrs_silent : silent.

(** ** Loads *)
(** A load of attribute [idx] starting at [start]: every warning is about a boolean, at the
    path of the parser, with that index and start. *)
Definition path_of (s : pstate) : list (N * list byte) := path_from (p_top s - 1) (rev (p_stack s)).
Definition boolw (start idx : N) (path : list (N * list byte)) (w : warning * synpos) : Prop :=
  fst w = IncorrectBooleanRepresentation /\ component_byte_pos (snd w) = start /\
  attribute_index (snd w) = Some idx /\ node_path (snd w) = path.
Definition lw (start idx : N) (s s' : pstate) : Prop :=
  quiet s s' /\
  exists l, p_log s' = l ++ p_log s /\ desc (rpos s') (rpos s) l /\ Forall (boolw start idx (path_of s)) l.
Lemma quiet_path : forall s s', quiet s s' -> path_of s' = path_of s.
Proof. intros s s' (_ & _ & A & _ & B & _). unfold path_of. rewrite A, B. reflexivity. Qed.
Lemma lw_pre : forall start idx, preorder (lw start idx).
Proof.
  intros start idx. split.
  - intros s. split; [apply quiet_pre|]. exists []. split; [reflexivity|]. split; [cbn; lia | constructor].
  - intros a b c (QA & l1 & A1 & A2 & A3) (QB & l2 & B1 & B2 & B3). split; [eapply quiet_pre; eauto|].
    exists (l2 ++ l1). split; [rewrite B1, A1, app_assoc; reflexivity|]. split; [eapply desc_app; eauto|].
    apply Forall_app. split; [|exact A3]. rewrite (quiet_path _ _ QA) in B3. exact B3.
Qed.
Lemma lw_ord : forall start idx s s', lw start idx s s' -> ord s s'.
Proof. intros start idx s s' (_ & l & A & B & _). exists l. auto. Qed.
Lemma silent_lw : forall start idx s s', silent s s' -> lw start idx s s'.
Proof.
  intros start idx s s' [[Q _] E]. split; [exact Q|]. exists []. split; [exact E|]. split; [|constructor].
  cbn. apply quiet_rpos. exact Q.
Qed.
Lemma steps_lw : forall start idx A (m : M A), steps silent m -> steps (lw start idx) m.
Proof. intros start idx A m H s Hp. apply silent_lw. apply H. exact Hp. Qed.
Lemma set_attrs_lw : forall start idx a s, lw start idx s (set_attrs a s).
Proof.
  intros. split; [apply quiet_set_attrs|]. exists []. split; [reflexivity|]. split; [apply N.le_refl|constructor].
Qed.
Lemma update_next_lw : forall start idx n, steps (lw start idx) (update_next_attr_start_offset n).
Proof.
  intros start idx n. unfold update_next_attr_start_offset.
  apply (st_bind _ (lw_pre _ _)); [apply steps_lw; apply reader_pos_silent|intros pos].
  apply (st_bind _ (lw_pre _ _)); [apply steps_lw; apply get_attrs_silent|intros a].
  destruct (pos + n <? pow2_64)%N; [|apply (st_panic _ (lw_pre _ _))].
  apply st_modify. intros s. apply set_attrs_lw.
Qed.
Lemma warn_log : forall w p s r s', warn w p s = (r, s') -> s' = set_log ((w, p) :: p_log s) s.
Proof.
  intros w p s r s' H. unfold warn in H. destruct (p_handler s) as [h|]; [destruct (h _)|]; injection H as _ <-; reflexivity.
Qed.
Lemma position_of_path : forall s p, position_of s = Some p ->
  byte_pos p = rpos s /\ attribute_index p = None /\ node_path p = path_of s.
Proof.
  intros s p H. unfold position_of in H. unfold path_of. destruct (p_stack s) as [|n st].
  - injection H as <-. auto.
  - destruct (p_top s =? 0)%N; [discriminate|]. injection H as <-. auto.
Qed.
Lemma warn_bool_lw : forall start idx, steps (lw start idx) (warn_bool start idx).
Proof.
  intros start idx s Hp. destruct (warn_bool start idx s) as [r s'] eqn:H. cbn [fst snd] in *.
  unfold warn_bool, attr_position in H. rewrite bind_assoc in H. unfold bind at 1 in H. unfold position in H.
  destruct (position_of s) as [p|] eqn:Ep; [|injection H as <- <-; congruence].
  rewrite bind_ret in H. apply warn_log in H. subst s'. apply position_of_path in Ep. destruct Ep as (E1 & E2 & E3).
  split; [unfold quiet; cbn; repeat split; auto; [eexists [_]; reflexivity | apply rd_fwd_refl]|].
  eexists [_]. split; [reflexivity|]. split.
  - cbn. unfold warning_offset. cbn. rewrite E1. unfold rpos. cbn. lia.
  - constructor; [|constructor]. unfold boolw. cbn. auto.
Qed.
Lemma read_next_attr_type_lw : forall start idx, steps (lw start idx) read_next_attr_type.
Proof.
  intros start idx. unfold read_next_attr_type.
  repeat first [ solve [apply steps_lw; auto 2 with silent]
               | steps_step (lw_pre start idx) ]; try (apply st_modify; intros; apply set_attrs_lw).
Qed.
Hint Resolve steps_lw update_next_lw warn_bool_lw read_next_attr_type_lw : silent.
Lemma load_array_lw : forall A O (el : elem A) (ld : N -> seqprog A O) a b, steps (lw a b) (load_array el ld a b).
Proof.
  intros. unfold load_array.
  repeat first [ solve [auto 3 with silent] | steps_step (lw_pre a b) ].
Qed.
Lemma load_special_lw : forall O (ld : N -> rdprog O) a b, steps (lw a b) (load_special ld).
Proof. intros. unfold load_special. repeat first [ solve [auto 3 with silent] | steps_step (lw_pre a b) ]. Qed.
Hint Resolve load_array_lw load_special_lw : silent.
Lemma load_next_impl_lw : forall O b t (ld : loader O) x y, steps (lw x y) (load_next_impl b t ld x y).
Proof.
  intros. unfold load_next_impl. destruct t; repeat first [ solve [auto 3 with silent] | steps_step (lw_pre x y) ].
Qed.
Lemma load_body_lw : forall O b (ld : loader O) x y, steps (lw x y) (load_body b ld x y).
Proof.
  intros. unfold load_body. repeat first [ apply load_next_impl_lw | solve [auto 3 with silent] | steps_step (lw_pre x y) ].
Qed.

(** ** Events *)
Definition cp_of (s : pstate) : N := hd 0%N (map sn_start (p_stack s)).
Lemma position_of_comp : forall s p, position_of s = Some p -> component_byte_pos p = cp_of s.
Proof.
  intros s p H. unfold position_of in H. unfold cp_of. destruct (p_stack s) as [|n st].
  - injection H as <-. reflexivity.
  - destruct (p_top s =? 0)%N; [discriminate|]. injection H as <-. reflexivity.
Qed.
Definition next_index (s : pstate) : N := match p_stack s with [] => p_top s | n :: _ => sn_kids n end.
Lemma path_from_app : forall l idx n, exists i, path_from idx (l ++ [n]) = path_from idx l ++ [(i, sn_name n)].
Proof.
  induction l as [|m l IH]; intros idx n; cbn.
  - eexists. reflexivity.
  - destruct (IH (sn_kids m - 1)%N n) as (i & E). exists i. rewrite E. reflexivity.
Qed.
Lemma pop_path : forall s, path_of (pop s) = removelast (path_of s).
Proof.
  intros s. unfold path_of, pop. cbn [p_top set_stack p_stack]. destruct (p_stack s) as [|n st]; [reflexivity|]. cbn [tl rev].
  destruct (path_from_app (rev st) (p_top s - 1) n) as (i & E). rewrite E, removelast_last. reflexivity.
Qed.
Lemma path_from_kids : forall l idx m x, path_from idx ((l ++ [m]) ++ [x]) = path_from idx (l ++ [m]) ++ [((sn_kids m - 1)%N, sn_name x)].
Proof.
  induction l as [|a l IH]; intros idx m x; cbn; [reflexivity|]. rewrite IH. reflexivity.
Qed.
Lemma path_from_last : forall l idx m m', sn_name m = sn_name m' -> path_from idx (l ++ [m]) = path_from idx (l ++ [m']).
Proof. induction l as [|a l IH]; intros idx m m' H; cbn; [rewrite H; reflexivity|]. rewrite (IH _ m m' H). reflexivity. Qed.
Lemma push_path : forall s n, path_of (push n (count_child s)) = path_of s ++ [(next_index s, sn_name n)].
Proof.
  intros s n. unfold path_of, next_index, push, count_child. destruct (p_stack s) as [|m st] eqn:Es; cbn [set_stack set_top p_stack p_top].
  - rewrite Es. cbn. do 2 f_equal. lia.
  - cbn [rev]. rewrite path_from_kids. cbn [sn_kids]. f_equal; [|do 2 f_equal; lia].
    apply path_from_last. reflexivity.
Qed.

Lemma warn_here_log : forall w s r s', warn_here w s = (r, s') -> r <> Panic ->
  exists p, position_of s = Some p /\ s' = set_log ((w, p) :: p_log s) s.
Proof.
  intros w s r s' H Hp. unfold warn_here, bind, position in H. destruct (position_of s) as [p|]; [|injection H as <- <-; congruence].
  apply warn_log in H. eauto.
Qed.

(** What one run of [next_event_impl] raises. *)
Definition impl_warning (s : pstate) (r : res perr ekind) (s' : pstate) (w : warning * synpos) : Prop :=
  attribute_index (snd w) = None /\
  match fst w with
  | EmptyNodeName =>
      node_path (snd w) = path_of s ++ [(next_index s, [])] /\
      byte_pos (snd w) = (component_byte_pos (snd w) + header_size (p_ver s))%N /\
      match r with Ok KStart => exists n rest, p_stack s' = n :: rest /\ sn_name n = [] | Err _ => True | _ => False end
  | MissingNodeEndMarker =>
      node_path (snd w) = path_of s /\ component_byte_pos (snd w) = cp_of s /\
      match r with Ok KEnd | Err _ => p_stack s <> [] | _ => False end
  | ExtraNodeEndMarker =>
      node_path (snd w) = removelast (path_of s) /\ component_byte_pos (snd w) = cp_of (pop s) /\
      match r with Ok KEnd | Err _ => p_stack s <> [] | _ => False end
  | _ => False
  end.

Lemma hdr_size : forall ver h, lenN (hdr_bytes ver h) = header_size ver.
Proof. intros. rewrite hdr_bytes_len. unfold header_size, hdr_width. destruct (ver <? 7500)%N; reflexivity. Qed.

Lemma silent_stack : forall s s', silent s s' -> p_stack s' = p_stack s /\ p_top s' = p_top s /\ p_ver s' = p_ver s.
Proof. intros s s' [[(A & _ & B & _ & C & _) _] _]. auto. Qed.

Lemma start_node_warns : forall s s1 h s2 r s3, at_header s s1 -> read_node_header s1 = (Ok h, s2) ->
  start_node (rpos s1) h s2 = (r, s3) -> r <> Panic ->
  exists l, p_log s3 = l ++ p_log s /\ desc (rpos s3) (rpos s) l /\ (length l <= 1)%nat /\
    Forall (impl_warning s r s3) l.
Proof.
  intros s s1 h s2 r s3 [A _] B C Hp.
  assert (S1 : silent s s1) by (eapply steps_elim; [apply skip_unread_silent | exact A | discriminate]).
  assert (S2 : silent s1 s2) by (eapply steps_elim; [apply read_node_header_silent | exact B | discriminate]).
  assert (S12 := proj2 silent_pre _ _ _ S1 S2).
  apply read_node_header_bytes in B. destruct B as (_ & B & _). rewrite hdr_size in B.
  destruct (silent_stack _ _ S1) as (_ & _ & V1). rewrite V1 in B.
  unfold start_node in C.
  set (W := when (bN (nh_nlen h) =? 0)%N _) in C.
  assert (HW : forall rw s4, W s2 = (rw, s4) -> rw <> Panic ->
    (s4 = s2 /\ bN (nh_nlen h) <> 0%N \/
     exists p, s4 = set_log ((EmptyNodeName, p) :: p_log s2) s2 /\ bN (nh_nlen h) = 0%N /\
       attribute_index p = None /\ node_path p = path_of s ++ [(next_index s, [])] /\
       byte_pos p = rpos s2 /\ component_byte_pos p = rpos s1)).
  { intros rw s4 HW Hr. subst W. destruct (bN (nh_nlen h) =? 0)%N eqn:E0; cbn [when] in HW.
    2:{ injection HW as <- <-. left. apply N.eqb_neq in E0. auto. }
    right. apply N.eqb_eq in E0. unfold bind at 1 in HW. unfold position in HW.
    destruct (position_of s2) as [p|] eqn:Ep; [|injection HW as <- <-; congruence].
    unfold reader_pos in HW. rewrite !bind_gets in HW. apply warn_log in HW. apply position_of_path in Ep.
    destruct Ep as (E1 & E2 & E3). destruct (silent_stack _ _ S12) as (X1 & X2 & _).
    eexists. split; [exact HW|]. split; [exact E0|]. cbn. split; [exact E2|]. split; [|auto].
    rewrite E3. unfold path_of, next_index. rewrite X1, X2. reflexivity. }
  assert (Base : ord s s2) by (apply silent_ord; exact S12).
  assert (L2 : p_log s2 = p_log s) by (apply S12).
  assert (R2 : (rpos s <= rpos s2)%N) by (apply quiet_rpos; apply S12).
  mstep C as u s4 E1; try congruence.
  2:{ subst r. destruct (HW _ _ E1 ltac:(discriminate)) as [[-> _]|(p & -> & _ & P1 & P2 & P3 & P4)].
      - exists []. rewrite L2. repeat split; auto; constructor.
      - exists [(EmptyNodeName, p)]. cbn [p_log set_log app length]. rewrite L2. split; [reflexivity|].
        split; [cbn [desc]; unfold warning_offset; cbn [snd]; rewrite P3; unfold rpos in *; cbn [p_rd set_log]; lia|].
        split; [lia|]. constructor; [|constructor]. split; [exact P1|]. cbn [fst snd]. split; [exact P2|].
        split; [rewrite P3, P4; exact B|exact I]. }
  assert (T : silent s4 s3 \/ exists n sx, silent s4 sx /\ r = Ok KStart /\ s3 = push n (count_child sx) /\ length (sn_name n) = N.to_nat (bN (nh_nlen h))).
  { mstep C as name s5 E2; try congruence.
    2:{ left. eapply steps_elim; [apply read_exact_silent | exact E2 | discriminate]. }
    assert (S5 : silent s4 s5) by (eapply steps_elim; [apply read_exact_silent | exact E2 | discriminate]).
    apply read_exact_bytes in E2. destruct E2 as (_ & Ln & _).
    destruct (utf8_valid name); [|injection C as <- <-; left; exact S5].
    unfold reader_pos in C. rewrite bind_gets in C. unfold add_u64 in C.
    destruct (r_pos (p_rd s5) + nh_alen h <? pow2_64)%N.
    - rewrite bind_ret, bind_modify, bind_modify in C. injection C as <- <-. right. do 2 eexists. split; [exact S5|].
      split; [reflexivity|]. split; [reflexivity|]. exact Ln.
    - destruct ovf_checks; [injection C as <- <-; congruence|].
      rewrite bind_ret, bind_modify, bind_modify in C. injection C as <- <-. right. do 2 eexists. split; [exact S5|].
      split; [reflexivity|]. split; [reflexivity|]. exact Ln. }
  assert (T' : p_log s3 = p_log s4 /\ (rpos s4 <= rpos s3)%N /\
     (bN (nh_nlen h) = 0%N -> match r with Ok KStart => exists n rest, p_stack s3 = n :: rest /\ sn_name n = [] | Err _ => True | _ => False end)).
  { destruct T as [T|(n & sx & T & -> & -> & Ln)].
    - split; [apply T|]. split; [apply quiet_rpos; apply T|]. intros Z.
      pose proof (start_node_shape (rpos s1) h s2 r s3) as SH. unfold start_node in SH. fold W in SH.
      assert (C' : bind W (fun _ => let* name := read_exact (N.to_nat (bN (nh_nlen h))) in
        if utf8_valid name then
          let* cur := reader_pos in
          let* aend := add_u64 cur (nh_alen h) in
          modify count_child ;;
          modify (push (mkStarted (rpos s1) (nh_end h) (nh_attrs h) aend name 0)) ;;
          ret KStart
        else throw (err_from (EData (InvalidNodeNameEncoding name)))) s2 = (r, s3)).
      { unfold bind at 1. rewrite E1. exact C. }
      specialize (SH C' Hp). destruct r as [k|e|]; [|exact I|exact SH]. destruct SH as (-> & n & s6 & Q & -> & _ & _ & _ & _ & _ & Ln & _).
      exists n. eexists. split; [reflexivity|]. rewrite Z in Ln. unfold lenN in Ln. destruct (sn_name n); [reflexivity|cbn in Ln; lia].
    - split; [|split].
      + unfold push, count_child. destruct (p_stack sx); cbn; apply T.
      + assert (rpos (push n (count_child sx)) = rpos sx) as -> by (unfold push, count_child; destruct (p_stack sx); reflexivity).
        apply quiet_rpos. apply T.
      + intros Z. exists n. eexists. split; [reflexivity|]. rewrite Z in Ln. destruct (sn_name n); [reflexivity|discriminate]. }
  destruct T' as (TL & TR & TN).
  destruct (HW _ _ E1 ltac:(discriminate)) as [[-> _]|(p & -> & Z & P1 & P2 & P3 & P4)].
  - exists []. rewrite TL, L2. split; [reflexivity|]. split; [cbn; lia|]. split; [cbn; lia|constructor].
  - exists [(EmptyNodeName, p)]. cbn [p_log set_log app length] in *. rewrite TL, L2. split; [reflexivity|].
    assert (rpos (set_log ((EmptyNodeName, p) :: p_log s2) s2) = rpos s2) as X by reflexivity. rewrite X in TR.
    split; [cbn [desc]; unfold warning_offset; cbn [snd]; rewrite P3; lia|].
    split; [lia|]. constructor; [|constructor]. split; [exact P1|]. cbn [fst snd]. split; [exact P2|].
    split; [rewrite P3, P4; exact B|exact (TN Z)].
Qed.

Definition raises (P : warning * synpos -> Prop) (s s' : pstate) : Prop :=
  exists l, p_log s' = l ++ p_log s /\ desc (rpos s') (rpos s) l /\ (length l <= 1)%nat /\ Forall P l.
Lemma raises_none : forall P s s', silent s s' -> raises P s s'.
Proof.
  intros P s s' [[Q _] E]. exists []. split; [exact E|]. split; [cbn; apply quiet_rpos; exact Q|]. split; [cbn; lia|constructor].
Qed.
Lemma raises_after : forall P s s1 s', silent s s1 -> raises P s1 s' -> raises P s s'.
Proof.
  intros P s s1 s' [[Q _] E] (l & A & B & C & D). exists l. split; [congruence|]. split; [|auto].
  rewrite <- (app_nil_r l). eapply desc_app; [exact B|]. cbn. apply quiet_rpos. exact Q.
Qed.
Lemma raises_here : forall (P : warning * synpos -> Prop) b w s r s', when b (warn_here w) s = (r, s') -> r <> Panic ->
  (forall p, position_of s = Some p -> P (w, p)) -> raises P s s'.
Proof.
  intros P b w s r s' H Hr HP. destruct b; cbn [when] in H.
  2:{ injection H as <- <-. apply raises_none. apply silent_pre. }
  apply warn_here_log in H; [|exact Hr]. destruct H as (p & Ep & ->). exists [(w, p)]. split; [reflexivity|].
  split; [|split; [cbn; lia|constructor; [apply HP; exact Ep|constructor]]].
  apply position_of_path in Ep. destruct Ep as (Ep & _). cbn [desc]. unfold warning_offset. cbn [snd]. rewrite Ep.
  unfold rpos. cbn [p_rd set_log]. lia.
Qed.

Lemma impl_warns : forall s r s', impl_path s r s' -> raises (impl_warning s r s') s s'.
Proof.
  intros s r s' H.
  assert (SK : forall r s1, skip_unread_attributes s = (r, s1) -> r <> Panic -> silent s s1).
  { intros. eapply steps_elim; [apply skip_unread_silent | eauto | auto]. }
  assert (HD : forall s1 r s2, at_header s s1 -> read_node_header s1 = (r, s2) -> r <> Panic -> silent s s2).
  { intros s1 r' s2 [A _] E Hp. eapply silent_pre; [eapply SK; [exact A | discriminate]|].
    eapply steps_elim; [apply read_node_header_silent | exact E | exact Hp]. }
  assert (PP : forall a b, silent a b -> silent (pop a) (pop b) -> True) by auto. clear PP.
  assert (MI : forall s1 r0 s2 w, silent s s1 -> p_stack s1 <> [] -> (r0 = Ok KEnd \/ exists e, r0 = Err e) ->
     position_of s1 = Some w -> impl_warning s r0 s2 (MissingNodeEndMarker, w)).
  { intros s1 r0 s2 w S1 N1 R0 E. destruct (silent_stack _ _ S1) as (X1 & X2 & _).
    pose proof (position_of_path _ _ E) as (_ & E2 & E3). apply position_of_comp in E.
    split; [exact E2|]. cbn [fst snd]. split; [rewrite E3; unfold path_of; rewrite X1, X2; reflexivity|].
    split; [rewrite E; unfold cp_of; rewrite X1; reflexivity|].
    rewrite X1 in N1. destruct R0 as [->|(e & ->)]; exact N1. }
  assert (XI : forall s1 r0 s2 w, silent s s1 -> p_stack s1 <> [] -> (r0 = Ok KEnd \/ exists e, r0 = Err e) ->
     position_of (pop s1) = Some w -> impl_warning s r0 s2 (ExtraNodeEndMarker, w)).
  { intros s1 r0 s2 w S1 N1 R0 E. destruct (silent_stack _ _ S1) as (X1 & X2 & _).
    pose proof (position_of_path _ _ E) as (_ & E2 & E3). apply position_of_comp in E.
    split; [exact E2|]. cbn [fst snd]. split.
    - rewrite E3, pop_path. unfold path_of. rewrite X1, X2. reflexivity.
    - split; [rewrite E; unfold cp_of, pop; cbn [p_stack set_stack]; rewrite X1; reflexivity|].
      rewrite X1 in N1. destruct R0 as [->|(e & ->)]; exact N1. }
  assert (CS : forall a n, current_node a = Some n -> p_stack a <> []).
  { intros a n E F. unfold current_node in E. rewrite F in E. discriminate. }
  assert (PQ : forall P a b, raises P a b -> raises P a (pop b)).
  { intros P a b K. exact K. }
  assert (QP : forall P a b, raises P (pop a) b -> raises P a b).
  { intros P a b K. exact K. }
  destruct H as [e s1 E|s1 n E Ec El|s1 n s2 E Ec El Ew|s1 n e s2 E Ec El Ew|s1 e s2 A E|s1 h s2 c A E N1 Ec El|s1 h s2 c e s3 A E N1 Ec El Ew|s1 h s2 c s3 A E N1 Ec El Ew|s1 h s2 A E N1 Ec|s1 h s2 r s3 A E N1 Ew Hp].
  - apply raises_none. eapply SK; eauto. discriminate.
  - apply raises_none. eapply SK; eauto. discriminate.
  - apply PQ. eapply raises_after; [eapply SK; [exact E|discriminate]|]. eapply raises_here; [exact Ew|discriminate|].
    intros p Ep. eapply MI; eauto. eapply SK; [exact E|discriminate].
  - eapply raises_after; [eapply SK; [exact E|discriminate]|]. eapply raises_here; [exact Ew|discriminate|].
    intros p Ep. eapply MI; eauto. eapply SK; [exact E|discriminate].
  - apply raises_none. eapply HD; eauto. discriminate.
  - apply PQ. apply raises_none. eapply HD; eauto. discriminate.
  - eapply raises_after; [eapply HD; [exact A|exact E|discriminate]|]. apply QP. eapply raises_here; [exact Ew|discriminate|].
    intros p Ep. eapply XI; eauto. eapply HD; [exact A|exact E|discriminate].
  - eapply raises_after; [eapply HD; [exact A|exact E|discriminate]|]. apply QP. eapply raises_here; [exact Ew|discriminate|].
    intros p Ep. eapply XI; eauto. eapply HD; [exact A|exact E|discriminate].
  - apply PQ. apply raises_none. eapply HD; eauto. discriminate.
  - eapply start_node_warns; eauto.
Qed.

(** ** The footer *)
Definition footer_warning (w : warning * synpos) : Prop :=
  attribute_index (snd w) = None /\ node_path (snd w) = [] /\
  match fst w with
  | UnexpectedFooterFieldValue => byte_pos (snd w) = component_byte_pos (snd w)
  | InvalidFooterPaddingLength _ _ => byte_pos (snd w) = (component_byte_pos (snd w) + 16)%N
  | _ => False
  end.
Lemma footer_warns : forall s r s', read_footer s = (r, s') -> r <> Panic ->
  exists l, p_log s' = l ++ p_log s /\ desc (rpos s') (rpos s) l /\ Forall footer_warning l.
Proof.
  intros s r s' H Hp. unfold read_footer, reader_pos in H. rewrite bind_gets in H.
  mstep H as u1 s1 E1; try congruence.
  2:{ assert (S : silent s s') by (eapply steps_elim; [apply read_exact_silent|exact E1|discriminate]).
      exists []. split; [apply S|]. split; [cbn; apply quiet_rpos; apply S|constructor]. }
  assert (S1 : silent s s1) by (eapply steps_elim; [apply read_exact_silent|exact E1|discriminate]).
  apply read_exact_bytes in E1. destruct E1 as (_ & _ & P1 & _). change (N.of_nat 16) with 16%N in P1.
  rewrite bind_gets in H.
  assert (Rl : (rpos s <= rpos s1)%N) by (apply quiet_rpos; apply S1).
  assert (L1 : p_log s1 = p_log s) by apply S1.
  mstep H as u s2 E2; try congruence.
  - assert (W1 : s2 = s1 \/ s2 = set_log ((UnexpectedFooterFieldValue, mkPos (rpos s) (rpos s) [] None) :: p_log s1) s1).
    { destruct (nibbles_differ u1 unknown1_expected); cbn [when] in E2.
      - apply warn_log in E2. right. rewrite E2. do 2 f_equal. unfold rpos. do 3 f_equal. lia.
      - injection E2 as _ <-. auto. }
    assert (K : exists l, p_log s2 = l ++ p_log s /\ desc (rpos s2) (rpos s) l /\ Forall footer_warning l /\ rpos s2 = (rpos s + 16)%N).
    { destruct W1 as [->| ->].
      - exists []. split; [exact L1|]. split; [exact Rl|]. split; [constructor|exact P1].
      - eexists [_]. cbn [p_log set_log]. rewrite L1. split; [reflexivity|]. split; [|split; [|exact P1]].
        + cbn [desc]. unfold warning_offset. cbn [snd byte_pos]. unfold rpos in *. cbn [p_rd set_log]. lia.
        + constructor; [|constructor]. unfold footer_warning. cbn. auto. }
    clear W1 E2. destruct K as (l & K1 & K2 & K3 & K4). rewrite bind_gets in H.
    assert (G : forall sx, silent s2 sx -> exists l, p_log sx = l ++ p_log s /\ desc (rpos sx) (rpos s) l /\ Forall footer_warning l).
    { intros sx [[Q _] E]. exists l. split; [congruence|]. split; [|exact K3]. eapply desc_hi; [exact K2|]. apply quiet_rpos. exact Q. }
    mstep H as buf s3 E3; try congruence.
    2:{ apply G. eapply steps_elim; [apply read_exact_silent|exact E3|discriminate]. }
    assert (S3 : silent s2 s3) by (eapply steps_elim; [apply read_exact_silent|exact E3|discriminate]).
    destruct (first_nonzero (skipn 128 buf)) as [k|]; [|injection H as <- <-; apply G; exact S3].
    mstep H as v s4 E4; try congruence.
    2:{ destruct (Nat.ltb _ 16); discriminate E4. }
    assert (s4 = s3) as -> by (destruct (Nat.ltb _ 16); [injection E4 as _ <-; reflexivity|discriminate E4]). clear E4.
    mstep H as v2 s4 E4; try congruence.
    2:{ destruct (Nat.eqb _ _); discriminate E4. }
    assert (s4 = s3) as -> by (destruct (Nat.eqb _ _); [injection E4 as _ <-; reflexivity|discriminate E4]). clear E4.
    destruct (negb (all_zero _)); [injection H as <- <-; apply G; exact S3|].
    destruct (negb (bytes_eqb _ (zeros 4))); [injection H as <- <-; apply G; exact S3|].
    rewrite bind_gets in H.
    destruct (negb (_ =? p_ver s3)%N); [injection H as <- <-; apply G; exact S3|].
    destruct (negb (all_zero _)); [injection H as <- <-; apply G; exact S3|].
    mstep H as rest s4 E4; try congruence.
    2:{ apply G. eapply silent_pre; [exact S3|]. eapply steps_elim; [apply read_exact_silent|exact E4|discriminate]. }
    assert (S4 : silent s2 s4).
    { eapply silent_pre; [exact S3|]. eapply steps_elim; [apply read_exact_silent|exact E4|discriminate]. }
    destruct (negb (bytes_eqb _ unknown3_expected)); [injection H as <- <-; apply G; exact S4|].
    assert (F : forall w u5 s5 a b, warn (InvalidFooterPaddingLength a b) (mkPos (r_pos (p_rd s2)) (r_pos (p_rd s)) [] None) s4 = (u5, s5) ->
       w = s5 -> exists l, p_log w = l ++ p_log s /\ desc (rpos w) (rpos s) l /\ Forall footer_warning l).
    { intros w u5 s5 a b E5 ->. apply warn_log in E5. subst s5. eexists (_ :: l). cbn [p_log set_log].
      assert (L4 : p_log s4 = p_log s2) by apply S4. rewrite L4, K1. split; [reflexivity|]. split.
      - cbn [desc]. unfold warning_offset at 1 2. cbn [snd byte_pos]. split; [|exact K2].
        unfold rpos. cbn [p_rd set_log]. apply (quiet_rpos s2 s4). apply S4.
      - constructor; [|exact K3]. unfold footer_warning. cbn. repeat split; auto. }
    mstep H as u5 s5 E5; try congruence.
    + apply (f_equal snd) in H. unfold ret in H. cbn [snd] in H. subst s5. clear Hp. destruct (negb _); cbn [when] in E5; [eapply F; [exact E5|reflexivity]|apply (f_equal snd) in E5; unfold ret in E5; cbn [snd] in E5; subst s'; apply G; exact S4].
    + destruct (negb _); cbn [when] in E5; [eapply F; [exact E5|reflexivity]|discriminate].
  - assert (W1 : s' = set_log ((UnexpectedFooterFieldValue, mkPos (rpos s) (rpos s) [] None) :: p_log s1) s1).
    { destruct (nibbles_differ u1 unknown1_expected); cbn [when] in E2; [|discriminate].
      apply warn_log in E2. rewrite E2. do 2 f_equal. unfold rpos. do 3 f_equal. lia. }
    subst s'. eexists [_]. cbn [p_log set_log]. rewrite L1. split; [reflexivity|]. split.
    + cbn [desc]. unfold warning_offset. cbn [snd byte_pos]. unfold rpos in *. cbn [p_rd set_log]. lia.
    + constructor; [|constructor]. unfold footer_warning. cbn. auto.
Qed.
End WithEnv.
