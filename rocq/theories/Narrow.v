(** A target with a smaller [usize] against the 64-bit target: as long as the position stays within
    the smaller [usize], every call does the same. *)
Require Import Coq.Lists.List Coq.NArith.NArith Coq.ZArith.ZArith Coq.Bool.Bool Coq.micromega.Lia.
Require Import ZifyBool ZifyNat ZifyN.
Require Import Verif.Base Verif.BaseFacts Verif.Utf8 Verif.Types Verif.Io Verif.IoFacts Verif.Parser Verif.MonadFacts.
Import ListNotations.
Ltac Zify.zify_post_hook ::= Z.div_mod_to_equations.

(** How a reader moves: never backwards, and, if it is not seekable, not beyond the bytes there are. *)
Definition rgood (r r' : reader) : Prop :=
  (r_pos r <= r_pos r')%N /\ r_seekable r' = r_seekable r /\
  (r_seekable r = false -> (r_pos r' + lenN (s_rem (r_stream r')) <= r_pos r + lenN (s_rem (r_stream r)))%N).
Lemma rgood_refl : forall r, rgood r r. Proof. intros r. split; [|split]; auto with arith; intros; lia. Qed.
Lemma rgood_trans : forall a b c, rgood a b -> rgood b c -> rgood a c.
Proof. intros a b c (A1 & A2 & A3) (B1 & B2 & B3). split; [lia|]. split; [congruence|]. intros H. specialize (A3 H). rewrite A2 in B3. specialize (B3 H). lia. Qed.
Lemma moved_good : forall d r r', rd_moved d d r r' -> (d <= lenN (s_rem (r_stream r)))%N -> rgood r r'.
Proof. intros d r r' (A & B & C & D) H. split; [lia|]. split; [exact D|]. intros _. rewrite A, C, lenN_dropN. lia. Qed.

Section Narrow.
Context {env : Env}.
Context (W : N).

Definition narrow {A} (mw m : M A) : Prop :=
  forall s r t, m s = (r, t) -> r <> Panic ->
    rgood (p_rd s) (p_rd t) /\ ((r_pos (p_rd t) < W)%N -> mw s = (r, t)).

Lemma n_same : forall A (m : M A), (forall s, p_rd (snd (m s)) = p_rd s) -> narrow m m.
Proof. intros A m H s r t E Hp. specialize (H s). rewrite E in H. cbn in H. rewrite H. split; [apply rgood_refl|auto]. Qed.
Lemma n_ret : forall A (a : A), narrow (ret a) (ret a). Proof. intros. apply n_same. reflexivity. Qed.
Lemma n_throw : forall A e, narrow (@throw A e) (throw e). Proof. intros. apply n_same. reflexivity. Qed.
Lemma n_panic : forall A (m : M A), narrow m panic. Proof. intros A m s r t E Hp. injection E as <- <-. congruence. Qed.
Lemma n_bind : forall A B (mw m : M A) (fw f : A -> M B), narrow mw m -> (forall a, narrow (fw a) (f a)) -> narrow (bind mw fw) (bind m f).
Proof.
  intros A B mw m fw f H K s r t E Hp. unfold bind in E. destruct (m s) as [[a|e|] u] eqn:Em.
  - destruct (H _ _ _ Em ltac:(discriminate)) as [G1 G2]. destruct (K a _ _ _ E Hp) as [K1 K2]. split; [eapply rgood_trans; eassumption|].
    intros L. unfold bind. rewrite G2 by (destruct K1 as (K1 & _); lia). apply K2. exact L.
  - injection E as <- <-. destruct (H _ _ _ Em ltac:(discriminate)) as [G1 G2]. split; [exact G1|]. intros L. unfold bind. rewrite G2 by exact L. reflexivity.
  - injection E as <- <-. congruence.
Qed.
Lemma n_try : forall A (mw m : M A), narrow mw m -> narrow (try_ mw) (try_ m).
Proof.
  intros A mw m H s r t E Hp. unfold try_ in *. destruct (m s) as [[a|e|] u] eqn:Em; injection E as <- <-; [| |congruence];
    (destruct (H _ _ _ Em ltac:(discriminate)) as [G1 G2]; split; [exact G1|]; intros L; rewrite G2 by exact L; reflexivity).
Qed.
Lemma n_when : forall b mw m, narrow mw m -> narrow (when b mw) (when b m). Proof. intros [|] mw m H; [exact H|apply n_ret]. Qed.
Lemma n_assert : forall b, narrow (assert_ b) (assert_ b). Proof. intros [|]; [apply n_ret|apply n_panic]. Qed.
Lemma n_lift : forall A (r : perr + A), narrow (lift r) (lift r). Proof. intros A [e|a]; [apply n_throw|apply n_ret]. Qed.
Lemma n_gets : forall A (f : pstate -> A), narrow (gets f) (gets f). Proof. intros. apply n_same. reflexivity. Qed.
Lemma n_modify : forall f, (forall s, p_rd (f s) = p_rd s) -> narrow (modify f) (modify f). Proof. intros f H. apply n_same. exact H. Qed.
Lemma n_mloop : forall S A p (fw f : S -> M (S + A)), (forall x, narrow (fw x) (f x)) -> forall x, narrow (mloop p fw x) (mloop p f x).
Proof.
  intros S A p fw f H. induction p as [p IH|p IH|]; intros x; cbn [mloop].
  - apply n_bind; [apply H|]. intros [x'|v]; [|apply n_ret]. apply n_bind; [apply IH|]. intros [x2|v]; [apply IH|apply n_ret].
  - apply n_bind; [apply IH|]. intros [x'|v]; [apply IH|apply n_ret].
  - apply H.
Qed.

(** *** The reader *)
Lemma n_rdop : forall A (fw f : reader -> option A * reader),
  (forall r a r', f r = (Some a, r') -> rgood r r' /\ ((r_pos r' < W)%N -> fw r = (Some a, r'))) -> narrow (rdop fw) (rdop f).
Proof.
  intros A fw f H s r t E Hp. unfold rdop in *. destruct (f (p_rd s)) as [[a|] u] eqn:Ef; injection E as <- <-; [|congruence].
  destruct (H _ _ _ Ef) as [G1 G2]. split; [exact G1|]. intros L. rewrite G2 by exact L. reflexivity.
Qed.
Lemma advance_narrow : forall pos n p, advance pos n = Some p -> (p = pos + n)%N /\ ((p < W)%N -> advance (usize := W) pos n = Some p).
Proof.
  intros pos n p H. unfold advance in *. destruct (_ <? pow2_64)%N; [|discriminate]. injection H as <-. split; [reflexivity|].
  intros L. replace (_ <? W)%N with true by lia. reflexivity.
Qed.
Lemma n_exact : forall n, narrow (rdop (rd_exact (usize := W) n)) (rdop (rd_exact n)).
Proof.
  intros n. apply n_rdop. intros r a r' E. unfold rd_exact in *.
  destruct (rx _ _ _) as [[[e got] rem'] sc'] eqn:Er. destruct (advance (r_pos r) (lenN got)) as [p|] eqn:Ea; [|discriminate].
  injection E as <- <-. apply advance_narrow in Ea. destruct Ea as [-> Ea]. apply rx_gen in Er. destruct Er as (Er & _). split.
  - unfold rgood. cbn. split; [lia|]. split; [reflexivity|]. intros _. rewrite Er, lenN_app. lia.
  - cbn. intros L. rewrite Ea by exact L. reflexivity.
Qed.
Lemma n_to_end : forall n, narrow (rdop (rd_to_end (usize := W) n)) (rdop (rd_to_end n)).
Proof.
  intros n. apply n_rdop. intros r a r' E. unfold rd_to_end in *.
  destruct (rte _ _ _) as [[[e got] rem'] sc'] eqn:Er. destruct (advance (r_pos r) (lenN got)) as [p|] eqn:Ea; [|discriminate].
  injection E as <- <-. apply advance_narrow in Ea. destruct Ea as [-> Ea]. apply rte_gen in Er. destruct Er as (Er & _). split.
  - unfold rgood. cbn. split; [lia|]. split; [reflexivity|]. intros _. rewrite Er, lenN_app. lia.
  - cbn. intros L. rewrite Ea by exact L. reflexivity.
Qed.
Lemma n_once : forall n, narrow (rdop (rd_once (usize := W) n)) (rdop (rd_once n)).
Proof.
  intros n. apply n_rdop. intros r a r' E. unfold rd_once in *.
  destruct (r1 _ _ _) as [[res rem'] sc'] eqn:Er. cbn zeta in *. destruct (advance (r_pos r) _) as [p|] eqn:Ea; [|discriminate].
  injection E as <- <-. apply advance_narrow in Ea. destruct Ea as [-> Ea]. apply r1_gen in Er. destruct Er as (Er & _). split.
  - unfold rgood. cbn. split; [lia|]. split; [reflexivity|]. intros _. rewrite Er, lenN_app. destruct res; unfold lenN; cbn [length]; lia.
  - cbn. intros L. rewrite Ea by exact L. reflexivity.
Qed.
Lemma n_drop : forall n, narrow (rdop (rd_drop (usize := W) n)) (rdop (rd_drop n)).
Proof.
  intros n. apply n_rdop. intros r a r' E. unfold rd_drop in *. cbn zeta in *.
  destruct (advance (r_pos r) _) as [p|] eqn:Ea; [|discriminate].
  injection E as <- <-. apply advance_narrow in Ea. destruct Ea as [-> Ea]. split.
  - unfold rgood. cbn. split; [lia|]. split; [reflexivity|]. intros _. unfold lenN. rewrite skipn_length. pose proof (clip_le n (s_rem (r_stream r))). lia.
  - cbn. intros L. rewrite Ea by exact L. reflexivity.
Qed.
Lemma n_peek : forall (n : reader -> nat), narrow (rdop (fun r0 => let '(x, r1) := rd_peek (n r0) r0 in (Some x, r1)))
                                           (rdop (fun r0 => let '(x, r1) := rd_peek (n r0) r0 in (Some x, r1))).
Proof.
  intros n. apply n_rdop. intros r a r' E. split; [|auto]. destruct (rd_peek (n r) r) as [x r1] eqn:Ep. injection E as <- <-.
  apply rd_peek_spec in Ep. destruct Ep as (M & _). apply (moved_good 0); [exact M|lia].
Qed.
Lemma seek_part_narrow : forall p r a r', seek_part p r = (Some a, r') ->
  (r_pos r <= r_pos r')%N /\ r_seekable r' = r_seekable r /\ ((r_pos r' < W)%N -> seek_part (usize := W) p r = (Some a, r')).
Proof.
  intros p r a r' E. unfold seek_part in *.
  assert (G : forall sk, match seek_move (r_pos r) p with
      | None => (None, with_stream r (mkStream (dropN p (s_rem (r_stream r))) (s_off (r_stream r) + p) (s_sched (r_stream r)) sk) (r_pos r))
      | Some q => (Some None, with_stream r (mkStream (dropN p (s_rem (r_stream r))) (s_off (r_stream r) + p) (s_sched (r_stream r)) sk) q)
      end = (Some a, r') -> (r_pos r <= r_pos r')%N /\ r_seekable r' = r_seekable r /\ ((r_pos r' < W)%N ->
      match seek_move (usize := W) (r_pos r) p with
      | None => (None, with_stream r (mkStream (dropN p (s_rem (r_stream r))) (s_off (r_stream r) + p) (s_sched (r_stream r)) sk) (r_pos r))
      | Some q => (Some None, with_stream r (mkStream (dropN p (s_rem (r_stream r))) (s_off (r_stream r) + p) (s_sched (r_stream r)) sk) q)
      end = (Some a, r'))).
  { intros sk G. rewrite seek_move_64 in G. unfold seek_move. destruct (p <? 9223372036854775808)%N; [|discriminate].
    destruct (advance (r_pos r) p) as [q|] eqn:Ea; [|discriminate]. injection G as <- <-.
    apply advance_narrow in Ea. destruct Ea as [-> Ea]. cbn. split; [lia|]. split; [reflexivity|]. intros L.
    unfold to_usize. replace (p <? W)%N with true by lia. rewrite Ea by exact L. reflexivity. }
  destruct (s_seeks (r_stream r)) as [|[c|] sk].
  - apply (G []). exact E.
  - injection E as <- <-. cbn. split; [lia|]. split; reflexivity.
  - apply (G sk). exact E.
Qed.
Lemma seek_all_narrow : forall ps r a r', seek_all ps r = (Some a, r') ->
  (r_pos r <= r_pos r')%N /\ r_seekable r' = r_seekable r /\ ((r_pos r' < W)%N -> seek_all (usize := W) ps r = (Some a, r')).
Proof.
  induction ps as [|p ps IH]; intros r a r' E; cbn [seek_all] in *; [injection E as <- <-; split; [lia|auto]|].
  destruct (seek_part p r) as [[[e|]|] r1] eqn:Ep; [| |discriminate].
  - injection E as <- <-. apply seek_part_narrow in Ep. destruct Ep as (A & B & C). split; [exact A|]. split; [exact B|]. intros L. rewrite C by exact L. reflexivity.
  - apply seek_part_narrow in Ep. destruct Ep as (A & B & C). apply IH in E. destruct E as (A2 & B2 & C2). split; [lia|]. split; [congruence|].
    intros L. rewrite C by lia. apply C2. exact L.
Qed.
Lemma n_skip : forall n, narrow (rdop (skip_to (usize := W) n)) (rdop (skip_to n)).
Proof.
  intros n. apply n_rdop. intros r a r' E. unfold skip_to, skip_distance in *. destruct (n <? r_pos r)%N; [discriminate|].
  destruct (r_seekable r) eqn:Es.
  - apply seek_all_narrow in E. destruct E as (A & B & C). split; [|exact C]. split; [exact A|]. split; [exact B|congruence].
  - split; [|auto]. unfold skip_distance_plain in E. destruct (rte _ _ _) as [[[e got] rem'] sc'] eqn:Er. injection E as <- <-.
    apply rte_gen in Er. destruct Er as (Er & _). unfold rgood. cbn. split; [lia|]. split; [reflexivity|]. intros _. rewrite Er, lenN_app. lia.
Qed.

(** *** The parser *)
Lemma n_position : narrow position position.
Proof. apply n_same. intros s. unfold position. destruct (position_of s); reflexivity. Qed.
Lemma n_warn : forall w p, narrow (warn w p) (warn w p).
Proof. intros w p. apply n_same. intros s. unfold warn. destruct (p_handler s) as [h|]; [destruct (h _)|]; reflexivity. Qed.
Lemma n_continuable : narrow ensure_continuable ensure_continuable.
Proof. apply n_same. intros s. unfold ensure_continuable. destruct (p_health s); reflexivity. Qed.
Lemma n_add : forall a b, narrow (add_u64 a b) (add_u64 a b).
Proof. intros a b. unfold add_u64. destruct (_ <? _)%N; [apply n_ret|]. destruct ovf_checks; [apply n_panic|apply n_ret]. Qed.
Lemma n_pos : narrow reader_pos reader_pos.
Proof. apply n_gets. Qed.
Lemma n_count : narrow (modify count_child) (modify count_child).
Proof. apply n_modify. intros s. unfold count_child. destruct (p_stack s); reflexivity. Qed.
Lemma n_pop : narrow (modify pop) (modify pop). Proof. apply n_modify. reflexivity. Qed.
Lemma n_push : forall n, narrow (modify (push n)) (modify (push n)). Proof. intros. apply n_modify. reflexivity. Qed.
Lemma n_health : forall h, narrow (modify (set_health h)) (modify (set_health h)). Proof. intros. apply n_modify. reflexivity. Qed.
Lemma n_last : forall h, narrow (modify (set_last h)) (modify (set_last h)). Proof. intros. apply n_modify. reflexivity. Qed.
Lemma n_attrs : forall h, narrow (modify (set_attrs h)) (modify (set_attrs h)). Proof. intros. apply n_modify. reflexivity. Qed.
Lemma n_get_attrs : narrow get_attrs get_attrs.
Proof. unfold get_attrs. apply n_bind; [apply n_gets|]. intros [a|]; [apply n_ret|apply n_panic]. Qed.
Lemma n_update : forall n, narrow (update_next_attr_start_offset n) (update_next_attr_start_offset n).
Proof.
  intros n. unfold update_next_attr_start_offset. apply n_bind; [apply n_pos|]. intros p. apply n_bind; [apply n_get_attrs|]. intros a.
  destruct (_ <? _)%N; [apply n_attrs|apply n_panic].
Qed.
Lemma n_attr_position : forall a b, narrow (attr_position a b) (attr_position a b).
Proof. intros. unfold attr_position. apply n_bind; [apply n_position|intros; apply n_ret]. Qed.
Lemma n_warn_bool : forall a b, narrow (warn_bool a b) (warn_bool a b).
Proof. intros. unfold warn_bool. apply n_bind; [apply n_attr_position|intros; apply n_warn]. Qed.
Lemma n_from_parser : narrow from_parser from_parser.
Proof. unfold from_parser. apply n_bind; [apply n_gets|]. intros [n|]; [|apply n_panic]. apply n_bind; [apply n_pos|]. intros. apply n_attrs. Qed.

Create HintDb nr.
Hint Resolve n_exact n_to_end n_once n_drop n_peek n_skip n_position n_warn n_continuable n_add n_pos n_count n_pop n_push n_health n_last n_attrs
  n_get_attrs n_update n_attr_position n_warn_bool n_from_parser : nr.
Ltac nstep :=
  first
    [ simple apply n_bind; [| intros ?]
    | simple apply n_ret | simple apply n_throw | simple apply n_panic | simple apply n_try
    | simple apply n_when | simple apply n_lift | simple apply n_assert | simple apply n_gets
    | match goal with |- narrow _ (let '(_, _) := ?x in _) => destruct x end
    | match goal with |- narrow _ (match ?x with _ => _ end) => destruct x end ].
Ltac n := repeat first [ solve [auto 2 with nr] | nstep ].

Lemma n_try_read : forall k, narrow (try_read (usize := W) k) (try_read k).
Proof. intros. unfold try_read. n. Qed.
Hint Resolve n_try_read : nr.
Lemma n_read_exact : forall k, narrow (read_exact (usize := W) k) (read_exact k).
Proof. intros. unfold read_exact. n. Qed.
Hint Resolve n_read_exact : nr.
Lemma n_skip_to : forall k, narrow (m_skip_to (usize := W) k) (m_skip_to k).
Proof. intros. unfold m_skip_to. n. Qed.
Lemma n_u8 : narrow (parse_u8 (usize := W)) parse_u8.
Proof. unfold parse_u8. n. Qed.
Lemma n_uint : forall k, narrow (parse_uint (usize := W) k) (parse_uint k).
Proof. intros. unfold parse_uint. n. Qed.
Lemma n_sint : forall k, narrow (parse_sint (usize := W) k) (parse_sint k).
Proof. intros. unfold parse_sint. n. Qed.
Hint Resolve n_skip_to n_u8 n_uint n_sint : nr.
Lemma n_skip_unread : narrow (skip_unread_attributes (usize := W)) skip_unread_attributes.
Proof. unfold skip_unread_attributes. n. Qed.
Lemma n_header : narrow (read_node_header (usize := W)) read_node_header.
Proof. unfold read_node_header. n. Qed.
Lemma n_start : forall a h, narrow (start_node (usize := W) a h) (start_node a h).
Proof. intros. unfold start_node. n. Qed.
Hint Resolve n_skip_unread n_header n_start : nr.
Lemma n_impl : narrow (next_event_impl (usize := W)) next_event_impl.
Proof. unfold next_event_impl. n. Qed.
Lemma n_footer : narrow (read_footer (usize := W)) read_footer.
Proof. unfold read_footer, broken. n. Qed.
Hint Resolve n_impl n_footer : nr.
Lemma n_next_event : narrow (next_event (usize := W)) next_event.
Proof. unfold next_event. n. Qed.
Lemma n_skip_node : narrow (skip_current_node (usize := W)) skip_current_node.
Proof. unfold skip_current_node. n. Qed.
Hint Resolve n_next_event n_skip_node : nr.
Lemma n_run_z : forall A (p : zprog A), narrow (run_z (usize := W) p) (run_z p).
Proof. intros A p. induction p as [a|k f IH|k f IH]; cbn [run_z]; n. Qed.
Hint Resolve n_run_z : nr.
Lemma n_mk_decoder : forall e, narrow (mk_decoder (usize := W) e) (mk_decoder e).
Proof. intros. unfold mk_decoder. n. Qed.
Lemma n_dec_read : forall d k, narrow (dec_read (usize := W) d k) (dec_read d k).
Proof. intros. unfold dec_read. n. Qed.
Hint Resolve n_mk_decoder n_dec_read : nr.
Lemma n_it_next : forall A (el : elem A) it, narrow (it_next (usize := W) el it) (it_next el it).
Proof. intros. unfold it_next. n. Qed.
Hint Resolve n_it_next : nr.
Lemma n_collect : forall A (el : elem A) it, narrow (it_collect (usize := W) el it) (it_collect el it).
Proof. intros. unfold it_collect. apply n_bind; [apply n_mloop; intros [it' acc]; unfold collect_step; n|]. intros x. n. Qed.
Hint Resolve n_collect : nr.
Lemma n_run_seq : forall A O (el : elem A) (p : seqprog A O) it, narrow (run_seq (usize := W) el p it) (run_seq el p it).
Proof. intros A O el p. induction p as [x|k IH|k IH]; intros it; cbn [run_seq]; n. Qed.
Lemma n_run_rd : forall O (p : rdprog O) limit, narrow (run_rd (usize := W) p limit) (run_rd p limit).
Proof.
  intros O p. induction p as [x|k f IH|k f IH|f IH|amt f IH]; intros limit; cbn [run_rd].
  - n.
  - n.
  - destruct (_ <=? _)%N; n.
  - n.
  - apply n_bind; [apply (n_peek (fun r0 => peek_len limit (s_rem (r_stream r0))))|]. intros x. n.
Qed.
Hint Resolve n_run_seq n_run_rd : nr.
Lemma n_array_header : narrow (read_array_header (usize := W)) read_array_header.
Proof. unfold read_array_header. n. Qed.
Lemma n_attr_type : narrow (read_attr_type (usize := W)) read_attr_type.
Proof. unfold read_attr_type. n. Qed.
Hint Resolve n_array_header n_attr_type : nr.
Lemma n_next_attr_type : narrow (read_next_attr_type (usize := W)) read_next_attr_type.
Proof. unfold read_next_attr_type. n. Qed.
Lemma n_load_array : forall A O (el : elem A) (ld : N -> seqprog A O) a b, narrow (load_array (usize := W) el ld a b) (load_array el ld a b).
Proof. intros. unfold load_array. n. Qed.
Lemma n_load_special : forall O (ld : N -> rdprog O), narrow (load_special (usize := W) ld) (load_special ld).
Proof. intros. unfold load_special. n. Qed.
Hint Resolve n_next_attr_type n_load_array n_load_special : nr.
Lemma n_load_impl : forall O b t (ld : loader O) x y, narrow (load_next_impl (usize := W) b t ld x y) (load_next_impl b t ld x y).
Proof. intros. destruct t; cbn [load_next_impl]; n. Qed.
Hint Resolve n_load_impl : nr.
Lemma n_load_gen : forall O b (ld : loader O), narrow (load_next_gen (usize := W) b ld) (load_next_gen b ld).
Proof. intros. unfold load_next_gen, do_with_health_check. n. Qed.
Hint Resolve n_load_gen : nr.
Lemma n_iter : forall O (ld : option (loader O)), narrow (iter_next (usize := W) ld) (iter_next ld).
Proof. intros. unfold iter_next, load_next. n. Qed.
Hint Resolve n_iter : nr.
Lemma n_run_op : forall O (o : op O), narrow (run_op (usize := W) o) (run_op o).
Proof. intros O [|l|l|]; cbn [run_op]; unfold load_next, load_next_buffered; n. Qed.
End Narrow.
