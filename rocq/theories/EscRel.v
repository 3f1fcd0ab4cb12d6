(** A relation between two runs that may be left once and for all: either the first run has
    escaped, in a way that lasts, or the two runs go on together. *)
Require Import Coq.Lists.List Coq.NArith.NArith Coq.ZArith.ZArith Coq.Bool.Bool Coq.micromega.Lia.
Require Import Verif.Base Verif.BaseFacts Verif.Utf8 Verif.Types Verif.Io Verif.IoFacts Verif.Parser Verif.MonadFacts Verif.ParserSteps Verif.ParserHist Verif.ParserPos Verif.ParserRel.
Import ListNotations.

(** The loaders considered may be restricted to those whose readers for binary and string data
    satisfy [okp]. *)
Definition loader_sat (okp : forall O, rdprog O -> Prop) {O} (ld : loader O) : Prop :=
  forall n, okp O (ld_bin ld n) /\ okp O (ld_str ld n) /\ okp O (ld_bin_buf ld n) /\ okp O (ld_str_buf ld n).
Definition op_sat (okp : forall O, rdprog O -> Prop) {O} (o : op O) : Prop :=
  match o with OLoad ld | OLoadBuf ld => loader_sat okp ld | ONext | OSkip => True end.
Lemma op_sat_all : forall O (o : op O), op_sat (fun _ _ => True) o.
Proof. intros O [|l|l|]; cbn; auto; intros n; auto. Qed.

(** The states agree except perhaps in what the stream holds. *)
Record alike (s1 s2 : pstate) : Prop := mkAlike {
  k_ver : p_ver s1 = p_ver s2;
  k_health : p_health s1 = p_health s2;
  k_stack : p_stack s1 = p_stack s2;
  k_last : p_last s1 = p_last s2;
  k_top : p_top s1 = p_top s2;
  k_attrs : p_attrs s1 = p_attrs s2;
  k_pos : r_pos (p_rd s1) = r_pos (p_rd s2)
}.
Lemma agrees_alike : forall s1 s2, agrees s1 s2 -> alike s1 s2.
Proof. intros s1 s2 [A B C D E F G _]. constructor; assumption. Qed.

Section Rel.
Context {env : Env}.
Context (okp : forall O, rdprog O -> Prop).
Context (R : pstate -> pstate -> Prop) (esc : pstate -> Prop).
(** The way every call moves the state, along which an escape lasts. *)
Context (T : pstate -> pstate -> Prop) (T_pre : preorder T).
Context (T_same : forall s s', p_ver s' = p_ver s -> p_handler s' = p_handler s -> p_log s' = p_log s -> p_rd s' = p_rd s -> T s s').
Context (esc_fwd : forall s s', T s s' -> esc s -> esc s').

Definition erel {A} (m : M A) : Prop :=
  steps T m /\ forall s1 s2 r t1, R s1 s2 -> m s1 = (r, t1) -> r <> Panic ->
    esc t1 \/ exists t2, m s2 = (r, t2) /\ R t1 t2.

Context (R_agrees : forall s1 s2, R s1 s2 -> alike s1 s2).
Context (R_health : forall h s1 s2, R s1 s2 -> R (set_health h s1) (set_health h s2)).
Context (R_stack : forall st s1 s2, R s1 s2 -> R (set_stack st s1) (set_stack st s2)).
Context (R_last : forall l s1 s2, R s1 s2 -> R (set_last l s1) (set_last l s2)).
Context (R_top : forall t s1 s2, R s1 s2 -> R (set_top t s1) (set_top t s2)).
Context (R_attrs : forall a s1 s2, R s1 s2 -> R (set_attrs a s1) (set_attrs a s2)).
Context (R_warn : forall w p, erel (warn w p)).
Context (R_exact : forall n, erel (rdop (rd_exact n))).
Context (R_to_end : forall n, erel (rdop (rd_to_end n))).
Context (R_skip : forall n, erel (rdop (skip_to n))).
Context (R_run : forall O (p : rdprog O) limit, okp O p -> erel (run_rd p limit)).

Lemma e_same : forall A (m : M A), (forall s, snd (m s) = s) -> (forall s1 s2, R s1 s2 -> fst (m s1) = fst (m s2)) -> erel m.
Proof.
  intros A m H1 H2. split.
  - intros s _. rewrite H1. apply T_pre.
  - intros s1 s2 r t1 H E _. right. exists s2. specialize (H1 s1) as X1. specialize (H1 s2) as X2. specialize (H2 _ _ H).
    rewrite E in *. destruct (m s2) as [r2 t2]. cbn in *. subst. auto.
Qed.
Lemma e_ret : forall A (a : A), erel (ret a). Proof. intros. apply e_same; reflexivity. Qed.
Lemma e_throw : forall A e, erel (@throw A e). Proof. intros. apply e_same; reflexivity. Qed.
Lemma e_panic : forall A, erel (@panic A). Proof. intros. apply e_same; reflexivity. Qed.
Lemma e_bind : forall A B (m : M A) (f : A -> M B), erel m -> (forall a, erel (f a)) -> erel (bind m f).
Proof.
  intros A B m f [F G] H. split; [apply (st_bind _ T_pre); [exact F|intros a; apply H]|].
  intros s1 s2 r t1 C E Hp. unfold bind in E. destruct (m s1) as [[a|e|] u] eqn:Em.
  - destruct (G _ _ _ _ C Em ltac:(discriminate)) as [X|(u2 & Y & K)].
    + left. revert X. apply esc_fwd. apply (steps_elim _ _ _ _ _ _ (proj1 (H a)) E Hp).
    + destruct (proj2 (H a) _ _ _ _ K E Hp) as [X|(t2 & Z & K2)]; [left; exact X|]. right. exists t2. split; [|exact K2].
      unfold bind. rewrite Y. exact Z.
  - injection E as <- <-. destruct (G _ _ _ _ C Em ltac:(discriminate)) as [X|(u2 & Y & K)]; [left; exact X|].
    right. exists u2. split; [|exact K]. unfold bind. rewrite Y. reflexivity.
  - injection E as <- <-. congruence.
Qed.
Lemma e_try : forall A (m : M A), erel m -> erel (try_ m).
Proof.
  intros A m [F G]. split; [apply st_try; exact F|]. intros s1 s2 r t1 C E Hp. unfold try_ in *.
  destruct (m s1) as [[a|e|] u] eqn:Em; injection E as <- <-; [| |congruence];
    (destruct (G _ _ _ _ C Em ltac:(discriminate)) as [X|(u2 & Y & K)]; [left; exact X|right; exists u2; rewrite Y; auto]).
Qed.
Lemma e_when : forall b m, erel m -> erel (when b m). Proof. intros [|] m H; [exact H|apply e_ret]. Qed.
Lemma e_assert : forall b, erel (assert_ b). Proof. intros [|]; [apply e_ret|apply e_panic]. Qed.
Lemma e_lift : forall A (r : perr + A), erel (lift r). Proof. intros A [e|a]; [apply e_throw|apply e_ret]. Qed.
Lemma e_modify : forall f, (forall s, T s (f s)) -> (forall s1 s2, R s1 s2 -> R (f s1) (f s2)) -> erel (modify f).
Proof.
  intros f H1 H2. split; [apply st_modify; exact H1|]. intros s1 s2 r t1 C E _. injection E as <- <-. right.
  exists (f s2). auto.
Qed.
Lemma e_mloop : forall S A p (f : S -> M (S + A)), (forall x, erel (f x)) -> forall x, erel (mloop p f x).
Proof.
  intros S A p f H. induction p as [p IH|p IH|]; intros x; cbn [mloop].
  - apply e_bind; [apply H|]. intros [x'|v]; [|apply e_ret].
    apply e_bind; [apply IH|]. intros [x2|v]; [apply IH|apply e_ret].
  - apply e_bind; [apply IH|]. intros [x'|v]; [apply IH|apply e_ret].
  - apply H.
Qed.
Lemma r_position : erel position.
Proof.
  apply e_same.
  - intros s. unfold position. destruct (position_of s); reflexivity.
  - intros s1 s2 H. unfold position, position_of. destruct (R_agrees _ _ H) as [A B C D E F G].
    rewrite C, E, G. destruct (p_stack s2); [|destruct (p_top s2 =? 0)%N]; reflexivity.
Qed.
Lemma r_gets : forall A (f : pstate -> A), (forall s1 s2, alike s1 s2 -> f s1 = f s2) -> erel (gets f).
Proof. intros A f H. apply e_same; [reflexivity|]. intros s1 s2 X. unfold gets. cbn. f_equal. apply H. apply R_agrees. exact X. Qed.
Lemma r_reader_pos : erel reader_pos.
Proof. apply r_gets. intros s1 s2 []. auto. Qed.
Lemma r_try_read : forall n, erel (try_read n).
Proof. intros. unfold try_read. apply R_exact. Qed.
Lemma k_skip_to : forall n, erel (m_skip_to n).
Proof.
  intros. unfold m_skip_to. apply e_bind; [apply R_skip|].
  intros [e|]; [apply e_throw | apply e_ret].
Qed.
Create HintDb rl.
Hint Resolve r_position r_reader_pos r_try_read k_skip_to R_warn R_to_end : rl.
Ltac rstep :=
  first
    [ simple apply e_bind; [| intros ?]
    | simple apply e_ret | simple apply e_throw | simple apply e_panic | simple apply e_try
    | simple apply e_when | simple apply e_lift | simple apply e_assert
    | simple apply r_gets; solve [intros ? ? [? ? Gs ? Gt ? ?]; unfold current_node, depth; rewrite ?Gs, ?Gt; congruence]
    | match goal with |- erel (let '(_, _) := ?x in _) => destruct x end
    | match goal with |- erel (match ?x with _ => _ end) => destruct x end ].
Ltac r := repeat first [ solve [auto 2 with rl] | rstep ].

Lemma r_read_exact : forall n, erel (read_exact n).
Proof. intros. unfold read_exact. r. Qed.
Hint Resolve r_read_exact : rl.
Lemma r_parse_u8 : erel parse_u8.
Proof. unfold parse_u8. r. Qed.
Lemma r_parse_uint : forall n, erel (parse_uint n).
Proof. intros. unfold parse_uint. r. Qed.
Lemma r_parse_sint : forall n, erel (parse_sint n).
Proof. intros. unfold parse_sint. r. Qed.
Hint Resolve r_parse_u8 r_parse_uint r_parse_sint : rl.
Lemma r_skip_unread : erel skip_unread_attributes.
Proof. unfold skip_unread_attributes. r. Qed.
Lemma r_node_header : erel read_node_header.
Proof. unfold read_node_header. r. Qed.
Hint Resolve r_skip_unread r_node_header : rl.
Lemma r_footer : erel read_footer.
Proof. unfold read_footer, broken. r. Qed.
Hint Resolve r_footer : rl.
Lemma r_mod : forall f, (forall s, p_rd (f s) = p_rd s /\ p_log (f s) = p_log s /\ p_ver (f s) = p_ver s /\ p_handler (f s) = p_handler s) ->
  (forall s1 s2, R s1 s2 -> R (f s1) (f s2)) -> erel (modify f).
Proof.
  intros f K H. apply e_modify; [|exact H]. intros s. destruct (K s) as (K1 & K2 & K3 & K4). apply T_same; auto.
Qed.
Ltac same := intros s; unfold count_child, push, pop; try destruct (p_stack s); repeat split; reflexivity.
Lemma r_count_child : erel (modify count_child).
Proof.
  apply r_mod; [same|]. intros s1 s2 H. unfold count_child. destruct (R_agrees _ _ H) as [A B C D E F G].
  rewrite C, E. destruct (p_stack s2); auto.
Qed.
Lemma r_push : forall n, erel (modify (push n)).
Proof.
  intros. apply r_mod; [same|]. intros s1 s2 H. unfold push. destruct (R_agrees _ _ H) as [A B C D E F G]. rewrite C. auto.
Qed.
Lemma r_pop : erel (modify pop).
Proof.
  apply r_mod; [same|]. intros s1 s2 H. unfold pop. destruct (R_agrees _ _ H) as [A B C D E F G]. rewrite C. auto.
Qed.
Lemma r_set_health : forall h, erel (modify (set_health h)).
Proof. intros. apply r_mod; [same|]. auto. Qed.
Lemma r_set_last : forall h, erel (modify (set_last h)).
Proof. intros. apply r_mod; [same|]. auto. Qed.
Lemma r_set_attrs : forall h, erel (modify (set_attrs h)).
Proof. intros. apply r_mod; [same|]. auto. Qed.
Hint Resolve r_count_child r_push r_pop r_set_health r_set_last r_set_attrs : rl.
Lemma r_add : forall a b, erel (add_u64 a b).
Proof. intros. unfold add_u64. r. Qed.
Hint Resolve r_add : rl.
Lemma r_start_node : forall a h, erel (start_node a h).
Proof. intros. unfold start_node. r. Qed.
Hint Resolve r_start_node : rl.
Lemma r_next_impl : erel next_event_impl.
Proof. unfold next_event_impl. r. Qed.
Hint Resolve r_next_impl : rl.
Lemma r_ensure : erel ensure_continuable.
Proof.
  apply e_same.
  - intros s. unfold ensure_continuable. destruct (p_health s); reflexivity.
  - intros s1 s2 H. unfold ensure_continuable. destruct (R_agrees _ _ H) as [A B C D E F G].
    rewrite B. destruct (p_health s2); reflexivity.
Qed.
Hint Resolve r_ensure : rl.
Lemma r_next_event : erel next_event.
Proof. unfold next_event. r. Qed.
Hint Resolve r_next_event : rl.
Lemma r_skip_node : erel skip_current_node.
Proof. unfold skip_current_node. r. Qed.
Hint Resolve r_skip_node : rl.
Lemma r_run_z : forall A (p : zprog A), erel (run_z p).
Proof. intros A p. induction p as [a|n k IH|n k IH]; cbn [run_z]; r; apply IH. Qed.
Hint Resolve r_run_z : rl.
Lemma r_mk_decoder : forall e, erel (mk_decoder e).
Proof. intros. unfold mk_decoder. r. Qed.
Hint Resolve r_mk_decoder : rl.
Lemma r_dec_read : forall d n, erel (dec_read d n).
Proof. intros [|st] n; unfold dec_read; r. Qed.
Hint Resolve r_dec_read : rl.
Lemma r_it_next : forall A (el : elem A) it, erel (it_next el it).
Proof. intros. unfold it_next. r. Qed.
Hint Resolve r_it_next : rl.
Lemma r_it_collect : forall A (el : elem A) it, erel (it_collect el it).
Proof.
  intros. unfold it_collect. apply e_bind.
  - apply e_mloop. intros [it' acc]. unfold collect_step. r.
  - intros x. r.
Qed.
Hint Resolve r_it_collect : rl.
Lemma r_run_seq : forall A O (el : elem A) (p : seqprog A O) it, erel (run_seq el p it).
Proof.
  intros A O el p. induction p as [x|k IH|k IH]; intros it; cbn [run_seq].
  - r.
  - apply e_bind; [r|]. intros [it' o]. apply IH.
  - apply e_bind; [r|]. intros [it' o]. apply IH.
Qed.
Hint Resolve r_run_seq : rl.
Lemma r_get_attrs : erel get_attrs.
Proof. unfold get_attrs. r. Qed.
Hint Resolve r_get_attrs : rl.
Lemma r_update : forall n, erel (update_next_attr_start_offset n).
Proof. intros. unfold update_next_attr_start_offset. r. Qed.
Lemma r_attr_position : forall a b, erel (attr_position a b).
Proof. intros. unfold attr_position. r. Qed.
Hint Resolve r_update r_attr_position : rl.
Lemma r_warn_bool : forall a b, erel (warn_bool a b).
Proof. intros. unfold warn_bool. r. Qed.
Lemma r_array_header : erel read_array_header.
Proof. unfold read_array_header. r. Qed.
Lemma r_attr_type : erel read_attr_type.
Proof. unfold read_attr_type. r. Qed.
Hint Resolve r_warn_bool r_array_header r_attr_type : rl.
Lemma r_next_attr_type : erel read_next_attr_type.
Proof. unfold read_next_attr_type. r. Qed.
Hint Resolve r_next_attr_type : rl.
Lemma r_load_array : forall A O (el : elem A) (ld : N -> seqprog A O) a b, erel (load_array el ld a b).
Proof. intros. unfold load_array. r. Qed.
Hint Resolve r_load_array : rl.
Lemma r_load_special : forall O (ld : N -> rdprog O), (forall n, okp O (ld n)) -> erel (load_special ld).
Proof.
  intros O ld K. unfold load_special. apply e_bind; [r|]. intros len. apply e_bind; [r|]. intros _.
  apply e_bind; [apply R_run, K|]. intros x. r.
Qed.
Lemma r_load_next_impl : forall O b t (ld : loader O) x y, loader_sat okp ld ->
  erel (load_next_impl b t ld x y).
Proof.
  intros O b t ld x y H. destruct t; cbn [load_next_impl]; try solve [r];
    apply r_load_special; intros n; destruct b; apply H.
Qed.
Lemma r_load_next : forall O b (ld : loader O), loader_sat okp ld -> erel (load_next_gen b ld).
Proof.
  intros O b ld H. unfold load_next_gen, do_with_health_check. pose proof (r_load_next_impl O b) as L. r.
  all: try solve [apply L; exact H].
Qed.
Lemma r_from_parser : erel from_parser.
Proof. unfold from_parser. r. Qed.
Hint Resolve r_from_parser : rl.

Lemma e_run_op_sat : forall O (o : op O), op_sat okp o -> erel (run_op o).
Proof.
  intros O [|l|l|] K; cbn [run_op op_sat] in *.
  - r.
  - apply e_bind; [r|]. intros [a|]; [|r]. apply e_bind; [apply r_load_next; exact K | intros v; r].
  - apply e_bind; [r|]. intros [a|]; [|r]. apply e_bind; [apply r_load_next; exact K | intros v; r].
  - r.
Qed.

Lemma e_steps : forall O (l : list (op O)) s rs s', Forall (op_sat okp) l -> run_ops l s = (rs, s') -> no_panic rs -> T s s'.
Proof.
  intros O l. induction l as [|o l IH]; intros s rs s' Hs E Hp.
  - injection E as <- <-. apply T_pre.
  - apply Forall_cons_iff in Hs. destruct Hs as [K1 K2]. apply run_ops_cons_inv in E; [|exact Hp]. destruct E as (r & u & rs' & E1 & Hr & E2 & -> & Hp').
    destruct T_pre as [_ Tr]. apply (Tr _ u); [apply (steps_elim _ _ _ _ _ _ (proj1 (e_run_op_sat O o K1)) E1 Hr)|apply (IH _ _ _ K2 E2 Hp')].
Qed.

Lemma e_run_ops_sat : forall O (l : list (op O)) s1 s2 rs t1, Forall (op_sat okp) l -> R s1 s2 -> run_ops l s1 = (rs, t1) -> no_panic rs ->
  esc t1 \/ exists t2, run_ops l s2 = (rs, t2) /\ R t1 t2.
Proof.
  intros O l. induction l as [|o l IH]; intros s1 s2 rs t1 Hs H E Hp.
  - injection E as <- <-. right. exists s2. auto.
  - apply Forall_cons_iff in Hs. destruct Hs as [K1 K2]. apply run_ops_cons_inv in E; [|exact Hp]. destruct E as (r & u & rs' & E1 & Hr & E2 & -> & Hp').
    destruct (proj2 (e_run_op_sat O o K1) _ _ _ _ H E1 Hr) as [X|(u2 & Y & K)].
    + left. revert X. apply esc_fwd. apply (e_steps _ _ _ _ _ K2 E2 Hp').
    + destruct (IH _ _ _ _ K2 K E2 Hp') as [X|(t2 & Z & K3)]; [left; exact X|]. right. exists t2. split; [|exact K3].
      cbn [run_ops]. rewrite Y, Z. destruct r; [reflexivity|reflexivity|congruence].
Qed.
End Rel.

(** The same for all loaders. *)
Section All.
Context {env : Env}.
Context (R : pstate -> pstate -> Prop) (esc : pstate -> Prop) (T : pstate -> pstate -> Prop) (T_pre : preorder T).
Context (T_same : forall s s', p_ver s' = p_ver s -> p_handler s' = p_handler s -> p_log s' = p_log s -> p_rd s' = p_rd s -> T s s').
Context (esc_fwd : forall s s', T s s' -> esc s -> esc s').
Context (R_agrees : forall s1 s2, R s1 s2 -> agrees s1 s2).
Context (R_health : forall h s1 s2, R s1 s2 -> R (set_health h s1) (set_health h s2)).
Context (R_stack : forall st s1 s2, R s1 s2 -> R (set_stack st s1) (set_stack st s2)).
Context (R_last : forall l s1 s2, R s1 s2 -> R (set_last l s1) (set_last l s2)).
Context (R_top : forall t s1 s2, R s1 s2 -> R (set_top t s1) (set_top t s2)).
Context (R_attrs : forall a s1 s2, R s1 s2 -> R (set_attrs a s1) (set_attrs a s2)).
Context (R_warn : forall w p, erel R esc T (warn w p)).
Context (R_exact : forall n, erel R esc T (rdop (rd_exact n))).
Context (R_to_end : forall n, erel R esc T (rdop (rd_to_end n))).
Context (R_skip : forall n, erel R esc T (rdop (skip_to n))).
Context (R_run : forall O (p : rdprog O) limit, erel R esc T (run_rd p limit)).
Lemma e_run_op : forall O (o : op O), erel R esc T (run_op o).
Proof. intros O o. apply (e_run_op_sat (fun _ _ => True)); auto using agrees_alike. apply op_sat_all. Qed.
Lemma e_run_ops : forall O (l : list (op O)) s1 s2 rs t1, R s1 s2 -> run_ops l s1 = (rs, t1) -> no_panic rs ->
  esc t1 \/ exists t2, run_ops l s2 = (rs, t2) /\ R t1 t2.
Proof.
  intros O l s1 s2 rs t1. apply (e_run_ops_sat (fun _ _ => True) R esc T T_pre T_same); auto using agrees_alike.
  apply Forall_forall. intros o _. apply op_sat_all.
Qed.
End All.
