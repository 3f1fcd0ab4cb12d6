(** Two runs of the parser on states that agree on everything the parser looks at. *)
Require Import Coq.Lists.List Coq.NArith.NArith Coq.ZArith.ZArith Coq.Bool.Bool Coq.micromega.Lia.
Require Import Verif.Base Verif.BaseFacts Verif.Utf8 Verif.Types Verif.Io Verif.IoFacts Verif.Parser Verif.MonadFacts.
Import ListNotations.

(** Agreement on everything but the handler, the warning log and the I/O schedules. *)
Record agrees (s1 s2 : pstate) : Prop := mkAgrees {
  g_ver : p_ver s1 = p_ver s2;
  g_health : p_health s1 = p_health s2;
  g_stack : p_stack s1 = p_stack s2;
  g_last : p_last s1 = p_last s2;
  g_top : p_top s1 = p_top s2;
  g_attrs : p_attrs s1 = p_attrs s2;
  g_pos : r_pos (p_rd s1) = r_pos (p_rd s2);
  g_rem : s_rem (r_stream (p_rd s1)) = s_rem (r_stream (p_rd s2))
}.

(** Everything a client can give to a load. *)
Definition special_progs {O} (l : loader O) (n : N) : list (rdprog O) :=
  [ld_bin l n; ld_str l n; ld_bin_buf l n; ld_str_buf l n].

Section Rel.
Context {env : Env}.
Context (R : pstate -> pstate -> Prop).
Context (good : forall O, rdprog O -> Prop).
Context (R_agrees : forall s1 s2, R s1 s2 -> agrees s1 s2).
Context (R_health : forall h s1 s2, R s1 s2 -> R (set_health h s1) (set_health h s2)).
Context (R_stack : forall st s1 s2, R s1 s2 -> R (set_stack st s1) (set_stack st s2)).
Context (R_last : forall l s1 s2, R s1 s2 -> R (set_last l s1) (set_last l s2)).
Context (R_top : forall t s1 s2, R s1 s2 -> R (set_top t s1) (set_top t s2)).
Context (R_attrs : forall a s1 s2, R s1 s2 -> R (set_attrs a s1) (set_attrs a s2)).
Context (R_warn : forall w p, rel R (warn w p) (warn w p)).
Context (R_exact : forall n, rel R (rdop (rd_exact n)) (rdop (rd_exact n))).
Context (R_to_end : forall n, rel R (rdop (rd_to_end n)) (rdop (rd_to_end n))).
Context (R_skip : forall n, rel R (rdop (skip_to n)) (rdop (skip_to n))).
Context (R_run : forall O (p : rdprog O) limit, good O p -> rel R (run_rd p limit) (run_rd p limit)).

Definition good_loader {O} (l : loader O) : Prop :=
  forall n p, In p (special_progs l n) -> good O p.
Definition good_op {O} (o : op O) : Prop :=
  match o with OLoad l | OLoadBuf l => good_loader l | _ => True end.

Lemma r_position : rel R position position.
Proof.
  intros s1 s2 H. unfold position, position_of. destruct (R_agrees _ _ H) as [A B C D E F G I].
  rewrite C, E, G. destruct (p_stack s2); [|destruct (p_top s2 =? 0)%N]; cbn; auto.
Qed.
Lemma r_gets : forall A (f : pstate -> A), (forall s1 s2, agrees s1 s2 -> f s1 = f s2) -> rel R (gets f) (gets f).
Proof. intros A f H. apply rl_gets. intros s1 s2 X. apply H. apply R_agrees. exact X. Qed.
Lemma r_reader_pos : rel R reader_pos reader_pos.
Proof. apply r_gets. intros s1 s2 []. auto. Qed.
Lemma r_try_read : forall n, rel R (try_read n) (try_read n).
Proof. intros. unfold try_read. apply R_exact. Qed.
Lemma r_skip_to : forall n, rel R (m_skip_to n) (m_skip_to n).
Proof.
  intros. unfold m_skip_to. apply rl_bind; [apply R_skip|].
  intros [e|]; [apply rl_throw | apply rl_ret].
Qed.
Create HintDb rl.
Hint Resolve r_position r_reader_pos r_try_read r_skip_to R_warn R_to_end : rl.
Ltac rstep :=
  first
    [ simple apply rl_bind; [| intros ?]
    | simple apply rl_ret | simple apply rl_throw | simple apply rl_panic | simple apply rl_try
    | simple apply rl_when | simple apply rl_lift | simple apply rl_assert
    | simple apply r_gets; solve [intros ? ? [? ? Gs ? Gt ? ? ?]; unfold current_node, depth; rewrite ?Gs, ?Gt; congruence]
    | match goal with |- rel _ (let '(_, _) := ?x in _) _ => destruct x end
    | match goal with |- rel _ (match ?x with _ => _ end) _ => destruct x end ].
Ltac r := repeat first [ solve [auto 2 with rl] | rstep ].

Lemma r_read_exact : forall n, rel R (read_exact n) (read_exact n).
Proof. intros. unfold read_exact. r. Qed.
Hint Resolve r_read_exact : rl.
Lemma r_parse_u8 : rel R parse_u8 parse_u8.
Proof. unfold parse_u8. r. Qed.
Lemma r_parse_uint : forall n, rel R (parse_uint n) (parse_uint n).
Proof. intros. unfold parse_uint. r. Qed.
Lemma r_parse_sint : forall n, rel R (parse_sint n) (parse_sint n).
Proof. intros. unfold parse_sint. r. Qed.
Hint Resolve r_parse_u8 r_parse_uint r_parse_sint : rl.
Lemma r_skip_unread : rel R skip_unread_attributes skip_unread_attributes.
Proof. unfold skip_unread_attributes. r. Qed.
Lemma r_node_header : rel R read_node_header read_node_header.
Proof. unfold read_node_header. r. Qed.
Hint Resolve r_skip_unread r_node_header : rl.
Lemma r_footer : rel R read_footer read_footer.
Proof. unfold read_footer, broken. r. Qed.
Hint Resolve r_footer : rl.
Lemma r_mod : forall f, (forall s1 s2, R s1 s2 -> R (f s1) (f s2)) -> rel R (modify f) (modify f).
Proof. intros. apply rl_modify. assumption. Qed.
Lemma r_count_child : rel R (modify count_child) (modify count_child).
Proof.
  apply r_mod. intros s1 s2 H. unfold count_child. destruct (R_agrees _ _ H) as [A B C D E F G I].
  rewrite C, E. destruct (p_stack s2); auto.
Qed.
Lemma r_push : forall n, rel R (modify (push n)) (modify (push n)).
Proof.
  intros. apply r_mod. intros s1 s2 H. unfold push. destruct (R_agrees _ _ H) as [A B C D E F G I]. rewrite C. auto.
Qed.
Lemma r_pop : rel R (modify pop) (modify pop).
Proof.
  apply r_mod. intros s1 s2 H. unfold pop. destruct (R_agrees _ _ H) as [A B C D E F G I]. rewrite C. auto.
Qed.
Lemma r_set_health : forall h, rel R (modify (set_health h)) (modify (set_health h)).
Proof. intros. apply r_mod. auto. Qed.
Lemma r_set_last : forall h, rel R (modify (set_last h)) (modify (set_last h)).
Proof. intros. apply r_mod. auto. Qed.
Lemma r_set_attrs : forall h, rel R (modify (set_attrs h)) (modify (set_attrs h)).
Proof. intros. apply r_mod. auto. Qed.
Hint Resolve r_count_child r_push r_pop r_set_health r_set_last r_set_attrs : rl.
Lemma r_add : forall a b, rel R (add_u64 a b) (add_u64 a b).
Proof. intros. unfold add_u64. r. Qed.
Hint Resolve r_add : rl.
Lemma r_start_node : forall a h, rel R (start_node a h) (start_node a h).
Proof. intros. unfold start_node. r. Qed.
Hint Resolve r_start_node : rl.
Lemma r_next_impl : rel R next_event_impl next_event_impl.
Proof. unfold next_event_impl. r. Qed.
Hint Resolve r_next_impl : rl.
Lemma r_ensure : rel R ensure_continuable ensure_continuable.
Proof.
  intros s1 s2 H. unfold ensure_continuable. destruct (R_agrees _ _ H) as [A B C D E F G I].
  rewrite B. destruct (p_health s2); auto.
Qed.
Hint Resolve r_ensure : rl.
Lemma r_next_event : rel R next_event next_event.
Proof. unfold next_event. r. Qed.
Hint Resolve r_next_event : rl.
Lemma r_skip_node : rel R skip_current_node skip_current_node.
Proof. unfold skip_current_node. r. Qed.
Hint Resolve r_skip_node : rl.
Lemma r_run_z : forall A (p : zprog A), rel R (run_z p) (run_z p).
Proof. intros A p. induction p as [a|n k IH|n k IH]; cbn [run_z]; r; apply IH. Qed.
Hint Resolve r_run_z : rl.
Lemma r_mk_decoder : forall e, rel R (mk_decoder e) (mk_decoder e).
Proof. intros. unfold mk_decoder. r. Qed.
Hint Resolve r_mk_decoder : rl.
Lemma r_dec_read : forall d n, rel R (dec_read d n) (dec_read d n).
Proof. intros [|st] n; unfold dec_read; r. Qed.
Hint Resolve r_dec_read : rl.
Lemma r_it_next : forall A (el : elem A) it, rel R (it_next el it) (it_next el it).
Proof. intros. unfold it_next. r. Qed.
Hint Resolve r_it_next : rl.
Lemma r_it_collect : forall A (el : elem A) it, rel R (it_collect el it) (it_collect el it).
Proof.
  intros. unfold it_collect. apply rl_bind.
  - apply rl_mloop. intros [it' acc]. unfold collect_step. r.
  - intros x. r.
Qed.
Hint Resolve r_it_collect : rl.
Lemma r_run_seq : forall A O (el : elem A) (p : seqprog A O) it, rel R (run_seq el p it) (run_seq el p it).
Proof.
  intros A O el p. induction p as [x|k IH|k IH]; intros it; cbn [run_seq].
  - r.
  - apply rl_bind; [r|]. intros [it' o]. apply IH.
  - apply rl_bind; [r|]. intros [it' o]. apply IH.
Qed.
Hint Resolve r_run_seq : rl.
Lemma r_get_attrs : rel R get_attrs get_attrs.
Proof. unfold get_attrs. r. Qed.
Hint Resolve r_get_attrs : rl.
Lemma r_update : forall n, rel R (update_next_attr_start_offset n) (update_next_attr_start_offset n).
Proof. intros. unfold update_next_attr_start_offset. r. Qed.
Lemma r_attr_position : forall a b, rel R (attr_position a b) (attr_position a b).
Proof. intros. unfold attr_position. r. Qed.
Hint Resolve r_update r_attr_position : rl.
Lemma r_warn_bool : forall a b, rel R (warn_bool a b) (warn_bool a b).
Proof. intros. unfold warn_bool. r. Qed.
Lemma r_array_header : rel R read_array_header read_array_header.
Proof. unfold read_array_header. r. Qed.
Lemma r_attr_type : rel R read_attr_type read_attr_type.
Proof. unfold read_attr_type. r. Qed.
Hint Resolve r_warn_bool r_array_header r_attr_type : rl.
Lemma r_next_attr_type : rel R read_next_attr_type read_next_attr_type.
Proof. unfold read_next_attr_type. r. Qed.
Hint Resolve r_next_attr_type : rl.
Lemma r_load_array : forall A O (el : elem A) (ld : N -> seqprog A O) a b, rel R (load_array el ld a b) (load_array el ld a b).
Proof. intros. unfold load_array. r. Qed.
Hint Resolve r_load_array : rl.
Lemma r_load_special : forall O (ld : N -> rdprog O), (forall n, good O (ld n)) -> rel R (load_special ld) (load_special ld).
Proof.
  intros. unfold load_special. apply rl_bind; [r|]. intros len. apply rl_bind; [r|]. intros _.
  apply rl_bind; [apply R_run; auto|]. intros x. r.
Qed.
Lemma r_load_next_impl : forall O b t (ld : loader O) x y, good_loader ld ->
  rel R (load_next_impl b t ld x y) (load_next_impl b t ld x y).
Proof.
  intros O b t ld x y H. destruct t; cbn [load_next_impl]; try solve [r];
    apply r_load_special; intros n; apply (H n); destruct b; cbn; auto.
Qed.
Lemma r_load_next : forall O b (ld : loader O), good_loader ld -> rel R (load_next_gen b ld) (load_next_gen b ld).
Proof.
  intros O b ld H. unfold load_next_gen, do_with_health_check. pose proof (r_load_next_impl O b) as L. r.
  all: try solve [apply L; exact H].
Qed.
Lemma r_from_parser : rel R from_parser from_parser.
Proof. unfold from_parser. r. Qed.
Hint Resolve r_from_parser : rl.

Lemma r_run_op : forall O (o : op O), good_op o -> rel R (run_op o) (run_op o).
Proof.
  intros O [|l|l|] H; cbn [run_op].
  - r.
  - apply rl_bind; [r|]. intros [a|]; [|r]. apply rl_bind; [apply r_load_next; exact H | intros v; r].
  - apply rl_bind; [r|]. intros [a|]; [|r]. apply rl_bind; [apply r_load_next; exact H | intros v; r].
  - r.
Qed.

Lemma r_run_ops : forall O (l : list (op O)) s1 s2, Forall good_op l -> R s1 s2 ->
  fst (run_ops l s1) = fst (run_ops l s2) /\ R (snd (run_ops l s1)) (snd (run_ops l s2)).
Proof.
  intros O l. induction l as [|o l IH]; intros s1 s2 Hg H; [auto|]. inversion Hg; subst.
  cbn [run_ops]. destruct (r_run_op O o H2 s1 s2 H) as [E HR].
  destruct (run_op o s1) as [r1 t1], (run_op o s2) as [r2 t2]. cbn in E, HR. subst r2.
  destruct r1 as [v|e|]; [| |auto];
    (destruct (IH t1 t2 H3 HR) as [E1 HR1]; destruct (run_ops l t1) as [rs1 u1], (run_ops l t2) as [rs2 u2];
     cbn in *; split; [congruence | exact HR1]).
Qed.
End Rel.
