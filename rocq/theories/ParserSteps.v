(** What every piece of the parser can do to the state. *)
Require Import Coq.Lists.List Coq.NArith.NArith Coq.ZArith.ZArith Coq.Bool.Bool Coq.micromega.Lia.
Require Import ZifyBool ZifyNat ZifyN.
Require Import Verif.Base Verif.BaseFacts Verif.Utf8 Verif.Types Verif.Io Verif.IoFacts Verif.Parser Verif.MonadFacts.
Import ListNotations.
Ltac Zify.zify_post_hook ::= Z.div_mod_to_equations.

(** The reader only moves forward; for a seekable reader the cached position moves exactly
    like the true offset, for a plain one it may lag behind. *)
Definition rd_fwd (r r' : reader) : Prop :=
  exists d p, rd_moved d p r r' /\ (p <= d)%N /\ (r_seekable r = true -> p = d).

Lemma rd_fwd_refl : forall r, rd_fwd r r.
Proof. intros r. exists 0%N, 0%N. repeat split; try apply rd_moved_0; try lia; auto. Qed.
Lemma rd_fwd_trans : forall a b c, rd_fwd a b -> rd_fwd b c -> rd_fwd a c.
Proof.
  intros a b c (d & p & M1 & L1 & S1) (d' & p' & M2 & L2 & S2).
  exists (d + d')%N, (p + p')%N. split; [eapply rd_moved_trans; eauto|]. split; [lia|].
  intros Hs. rewrite (S1 Hs). rewrite S2; auto. destruct M1 as (_ & _ & _ & E). congruence.
Qed.

(** A quiet step: control state unchanged, reader moved forward, log extended. *)
Definition quiet (s s' : pstate) : Prop :=
  p_ver s' = p_ver s /\ p_health s' = p_health s /\ p_stack s' = p_stack s /\
  p_last s' = p_last s /\ p_top s' = p_top s /\ p_handler s' = p_handler s /\
  (exists l, p_log s' = l ++ p_log s) /\ rd_fwd (p_rd s) (p_rd s').

Lemma quiet_pre : preorder quiet.
Proof.
  split.
  - intros s. unfold quiet. repeat split; auto; [exists []; reflexivity | apply rd_fwd_refl].
  - intros a b c (A1&A2&A3&A4&A5&A6&(la&A7)&A8) (B1&B2&B3&B4&B5&B6&(lb&B7)&B8).
    unfold quiet. rewrite B1, B2, B3, B4, B5, B6. repeat split; auto.
    + exists (lb ++ la). rewrite B7, A7, app_assoc. reflexivity.
    + eapply rd_fwd_trans; eauto.
Qed.

(** A quiet step that also leaves the attributes object alone. *)
Definition quieta (s s' : pstate) : Prop := quiet s s' /\ p_attrs s' = p_attrs s.
Lemma quieta_pre : preorder quieta.
Proof.
  split.
  - intros s. split; [apply quiet_pre | reflexivity].
  - intros a b c [A1 A2] [B1 B2]. split; [eapply quiet_pre; eauto | congruence].
Qed.

Lemma quieta_set_rd : forall s r, rd_fwd (p_rd s) r -> quieta s (set_rd r s).
Proof.
  intros s r H. unfold quieta, quiet. cbn. repeat split; auto. exists []; reflexivity.
Qed.

Lemma quieta_rdop : forall A (f : reader -> option A * reader),
  (forall r a r', f r = (Some a, r') -> rd_fwd r r') -> steps quieta (rdop f).
Proof.
  intros A f H. apply st_rdop. intros s a r E. apply quieta_set_rd. eauto.
Qed.

Lemma rd_moved_fwd : forall d r r', rd_moved d d r r' -> rd_fwd r r'.
Proof. intros d r r' H. exists d, d. repeat split; auto; try lia; apply H. Qed.

Lemma rd_exact_fwd : forall n r a r', rd_exact n r = (Some a, r') -> rd_fwd r r'.
Proof.
  intros n r a r' H. apply rd_exact_spec in H. destruct a as [e|got].
  - destruct H as (d & _ & Hm & _). eapply rd_moved_fwd; eauto.
  - destruct H as (_ & _ & Hm & _). eapply rd_moved_fwd; eauto.
Qed.
Lemma rd_to_end_fwd : forall n r a r', rd_to_end n r = (Some a, r') -> rd_fwd r r'.
Proof.
  intros n r [e got] r' H. apply rd_to_end_spec in H.
  destruct H as (_ & _ & Hm & _). eapply rd_moved_fwd; eauto.
Qed.
Lemma rd_once_fwd : forall n r a r', rd_once n r = (Some a, r') -> rd_fwd r r'.
Proof.
  intros n r a r' H. apply rd_once_spec in H. destruct a as [e|got].
  - destruct H as (Hm & _). eapply rd_moved_fwd; eauto.
  - destruct H as (_ & _ & Hm & _). eapply rd_moved_fwd; eauto.
Qed.
Lemma rd_peek_fwd : forall n r x r', rd_peek n r = (x, r') -> rd_fwd r r'.
Proof. intros n r x r' H. apply rd_peek_spec in H. destruct H as [Hm _]. eapply rd_moved_fwd; eauto. Qed.
Lemma rd_drop_fwd : forall n r a r', rd_drop n r = (Some a, r') -> rd_fwd r r'.
Proof.
  intros n r a r' H. apply rd_drop_spec in H. destruct H as (d & _ & _ & _ & Hm & _).
  eapply rd_moved_fwd; eauto.
Qed.
Lemma skip_to_fwd : forall n r a r', skip_to n r = (Some a, r') -> rd_fwd r r'.
Proof.
  intros n r a r' H. apply skip_to_spec in H. destruct H as [Hle H].
  destruct (r_seekable r) eqn:Es.
  - destruct a as [e|].
    + destruct H as (d & _ & Hm). eapply rd_moved_fwd; eauto.
    + eapply rd_moved_fwd; eauto.
  - destruct H as (d & Hd & Hm). exists d, 0%N. repeat split; auto; try lia; try congruence; apply Hm.
Qed.

Section WithEnv.
Context {env : Env}.

Lemma warn_quiet : forall w p, steps quieta (warn w p).
Proof.
  intros w p s _. unfold warn.
  assert (G : quieta s (set_log ((w, p) :: p_log s) s)).
  { unfold quieta, quiet. cbn. repeat split; auto; [exists [(w, p)]; reflexivity | apply rd_fwd_refl]. }
  destruct (p_handler s) as [h|]; [destruct (h _)|]; exact G.
Qed.

Lemma try_read_quiet : forall n, steps quieta (try_read n).
Proof. intros n. apply quieta_rdop. apply rd_exact_fwd. Qed.

Create HintDb quiet.
Ltac q := repeat first [ solve [auto 2 with quiet] | steps_step quieta_pre ].
Hint Resolve warn_quiet try_read_quiet : quiet.

Lemma read_exact_quiet : forall n, steps quieta (read_exact n).
Proof. intros n. unfold read_exact. q. Qed.
Hint Resolve read_exact_quiet : quiet.
Lemma parse_u8_quiet : steps quieta parse_u8.
Proof. unfold parse_u8. q. Qed.
Hint Resolve parse_u8_quiet : quiet.
Lemma parse_uint_quiet : forall n, steps quieta (parse_uint n).
Proof. intros. unfold parse_uint. q. Qed.
Hint Resolve parse_uint_quiet : quiet.
Lemma parse_sint_quiet : forall n, steps quieta (parse_sint n).
Proof. intros. unfold parse_sint. q. Qed.
Hint Resolve parse_sint_quiet : quiet.
Lemma m_skip_to_quiet : forall n, steps quieta (m_skip_to n).
Proof. intros. unfold m_skip_to. q; apply quieta_rdop; apply skip_to_fwd. Qed.
Hint Resolve m_skip_to_quiet : quiet.
Lemma reader_pos_quiet : steps quieta reader_pos.
Proof. unfold reader_pos. q. Qed.
Hint Resolve reader_pos_quiet : quiet.
Lemma skip_unread_quiet : steps quieta skip_unread_attributes.
Proof. unfold skip_unread_attributes, reader_pos. q. Qed.
Hint Resolve skip_unread_quiet : quiet.
Lemma read_node_header_quiet : steps quieta read_node_header.
Proof. unfold read_node_header. q. Qed.
Hint Resolve read_node_header_quiet : quiet.
Lemma read_footer_quiet : steps quieta read_footer.
Proof. unfold read_footer, reader_pos, broken. q. Qed.
Hint Resolve read_footer_quiet : quiet.
Lemma run_z_quiet : forall A (p : zprog A), steps quieta (run_z p).
Proof.
  intros A p. induction p as [a|n k IH|n k IH]; cbn [run_z]; q; try apply IH. apply quieta_rdop. apply rd_to_end_fwd.
Qed.
Hint Resolve run_z_quiet : quiet.
Lemma mk_decoder_quiet : forall e, steps quieta (mk_decoder e).
Proof. intros [|]; unfold mk_decoder; q. Qed.
Hint Resolve mk_decoder_quiet : quiet.
Lemma dec_read_quiet : forall d n, steps quieta (dec_read d n).
Proof.
  intros [|st] n; unfold dec_read; q.
Qed.
Hint Resolve dec_read_quiet : quiet.
Lemma it_next_quiet : forall A (el : elem A) it, steps quieta (it_next el it).
Proof. intros. unfold it_next. q. Qed.
Hint Resolve it_next_quiet : quiet.
Lemma it_collect_quiet : forall A (el : elem A) it, steps quieta (it_collect el it).
Proof.
  intros. unfold it_collect. q. apply (st_mloop _ quieta_pre). intros [it' acc].
  unfold collect_step. q.
Qed.
Hint Resolve it_collect_quiet : quiet.
Lemma run_seq_quiet : forall A O (el : elem A) (p : seqprog A O) it, steps quieta (run_seq el p it).
Proof.
  intros A O el p. induction p as [r|k IH|k IH]; intros it; cbn [run_seq].
  - q.
  - apply (st_bind _ quieta_pre); [apply it_next_quiet | intros [it' o]]. apply IH.
  - apply (st_bind _ quieta_pre); [apply it_collect_quiet | intros [it' o]]. apply IH.
Qed.
Hint Resolve run_seq_quiet : quiet.
Lemma run_rd_quiet : forall O (p : rdprog O) limit, steps quieta (run_rd p limit).
Proof.
  intros O p. induction p as [r|n k IH|n k IH|k IH|amt k IH]; intros limit; cbn [run_rd]; unfold reader_pos.
  - q.
  - q; auto. apply quieta_rdop. apply rd_once_fwd.
  - q; auto; apply quieta_rdop; [apply rd_exact_fwd | apply rd_to_end_fwd].
  - q; auto; apply quieta_rdop; apply rd_to_end_fwd.
  - apply (st_bind _ quieta_pre).
    + apply quieta_rdop. intros r a r' H. destruct (rd_peek _ r) as [x r1] eqn:E.
      injection H as <- <-. eapply rd_peek_fwd; eauto.
    + intros a.
      apply (st_bind _ quieta_pre); [apply quieta_rdop; apply rd_drop_fwd | intros _; apply IH].
Qed.
Hint Resolve run_rd_quiet : quiet.
Lemma attr_position_quiet : forall a b, steps quieta (attr_position a b).
Proof. intros. unfold attr_position. q. Qed.
Hint Resolve attr_position_quiet : quiet.
Lemma warn_bool_quiet : forall a b, steps quieta (warn_bool a b).
Proof. intros. unfold warn_bool. q. Qed.
Hint Resolve warn_bool_quiet : quiet.
Lemma read_attr_type_quiet : steps quieta read_attr_type.
Proof. unfold read_attr_type. q. Qed.
Hint Resolve read_attr_type_quiet : quiet.
Lemma read_array_header_quiet : steps quieta read_array_header.
Proof. unfold read_array_header. q. Qed.
Hint Resolve read_array_header_quiet : quiet.
Lemma get_attrs_quiet : steps quieta get_attrs.
Proof. unfold get_attrs. q. Qed.
Hint Resolve get_attrs_quiet : quiet.

(** Attribute loading also updates the attributes object: its total never changes, the rest
    decreases by at most one. *)
Definition quietl (s s' : pstate) : Prop :=
  quiet s s' /\
  match p_attrs s, p_attrs s' with
  | Some a, Some a' => a_total a' = a_total a /\ (a_rest a' <= a_rest a)%N
  | None, None => True
  | _, _ => False
  end.
Lemma quietl_pre : preorder quietl.
Proof.
  split.
  - intros s. split; [apply quiet_pre|]. destruct (p_attrs s); auto. split; [auto | lia].
  - intros a b c [A1 A2] [B1 B2]. split; [eapply quiet_pre; eauto|].
    destruct (p_attrs a), (p_attrs b), (p_attrs c); try tauto.
    destruct A2, B2; split; [congruence | lia].
Qed.
Lemma quieta_quietl : forall s s', quieta s s' -> quietl s s'.
Proof.
  intros s s' [H E]. split; auto. rewrite E. destruct (p_attrs s); auto. split; [auto | lia].
Qed.
Lemma steps_al : forall A (m : M A), steps quieta m -> steps quietl m.
Proof. intros A m H s Hp. apply quieta_quietl. apply H. exact Hp. Qed.

Lemma quiet_set_attrs : forall s a, quiet s (set_attrs a s).
Proof.
  intros. unfold quiet. cbn. repeat split; auto; [exists []; reflexivity | apply rd_fwd_refl].
Qed.

Lemma update_next_quiet : forall n, steps quietl (update_next_attr_start_offset n).
Proof.
  intros n s Hp. unfold update_next_attr_start_offset, reader_pos, get_attrs, bind, gets in *.
  destruct (p_attrs s) as [a|] eqn:Ea; [cbn in *|cbn in *; congruence].
  destruct (r_pos (p_rd s) + n <? pow2_64)%N; cbn in *; [|congruence].
  split; [apply quiet_set_attrs|]. rewrite Ea. cbn. split; [auto | lia].
Qed.

Lemma read_next_attr_type_quiet : steps quietl read_next_attr_type.
Proof.
  intros s Hp. destruct (read_next_attr_type s) as [r s'] eqn:H. cbn [fst snd] in *.
  unfold read_next_attr_type, get_attrs, reader_pos in H. rewrite bind_assoc, bind_gets in H.
  destruct (p_attrs s) as [a|] eqn:Ea.
  2:{ injection H as <- <-. congruence. }
  rewrite bind_ret in H. destruct (a_rest a =? 0)%N eqn:E0.
  { injection H as <- <-. apply quietl_pre. }
  rewrite bind_gets in H. mstep H as u s1 E1.
  2:{ apply quieta_quietl. eapply steps_elim; [|exact E1|discriminate]. q. }
  2:{ congruence. }
  assert (Q1 : quieta s s1) by (eapply steps_elim; [|exact E1|discriminate]; q).
  mstep H as t s2 E2.
  2:{ apply quieta_quietl. eapply quieta_pre; [exact Q1|].
      eapply steps_elim; [|exact E2|discriminate]. q. }
  2:{ congruence. }
  assert (Q2 : quieta s1 s2) by (eapply steps_elim; [|exact E2|discriminate]; q).
  rewrite bind_modify in H. injection H as <- <-.
  destruct (proj2 quieta_pre _ _ _ Q1 Q2) as [H1 H2]. split.
  - eapply quiet_pre; [exact H1 | apply quiet_set_attrs].
  - rewrite Ea. cbn. split; [auto | lia].
Qed.

Hint Resolve steps_al update_next_quiet read_next_attr_type_quiet : quiet.
Ltac ql := repeat first [ solve [auto 3 with quiet] | steps_step quietl_pre ].

Lemma load_array_quiet : forall A O (el : elem A) (ld : N -> seqprog A O) a b, steps quietl (load_array el ld a b).
Proof. intros. unfold load_array. ql. Qed.
Hint Resolve load_array_quiet : quiet.
Lemma load_special_quiet : forall O (ld : N -> rdprog O), steps quietl (load_special ld).
Proof. intros. unfold load_special. ql. Qed.
Hint Resolve load_special_quiet : quiet.
Lemma load_next_impl_quiet : forall O b t (ld : loader O) x y, steps quietl (load_next_impl b t ld x y).
Proof.
  intros. unfold load_next_impl. destruct t; ql.
Qed.
Hint Resolve load_next_impl_quiet : quiet.

(** The body of [load_next], and [load_next] itself on a running parser. *)
Definition load_body {O} (buffered : bool) (ld : loader O) (start idx : N) : M (option O) :=
  let* t := read_next_attr_type in
  match t with
  | None => ret None
  | Some t => let* v := load_next_impl buffered t ld start idx in ret (Some v)
  end.
Lemma load_body_quiet : forall O b (ld : loader O) x y, steps quietl (load_body b ld x y).
Proof. intros. unfold load_body. ql. Qed.

End WithEnv.
