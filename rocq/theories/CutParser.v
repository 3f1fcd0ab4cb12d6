(** The parser on two streams that agree up to some offset. *)
Require Import Coq.Lists.List Coq.NArith.NArith Coq.ZArith.ZArith Coq.Bool.Bool Coq.micromega.Lia.
Require Import ZifyBool ZifyNat ZifyN.
Require Import Verif.Base Verif.BaseFacts Verif.Utf8 Verif.Types Verif.Io Verif.IoFacts Verif.Parser Verif.MonadFacts Verif.ParserSteps Verif.ParserShape Verif.ParserHist Verif.ParserPos Verif.ParserRel Verif.Zlib Verif.CutRel.
Import ListNotations.
Ltac Zify.zify_post_hook ::= Z.div_mod_to_equations.
Local Open Scope N_scope.

(** Never yields a value. *)
Definition noval {A} (m : M A) : Prop := forall s a t, m s <> (Ok a, t).
Lemma noval_throw : forall A e, noval (@throw A e).
Proof. intros A e s a t. discriminate. Qed.
Lemma noval_bind : forall A B (m : M A) (f : A -> M B), (forall a, noval (f a)) -> noval (bind m f).
Proof. intros A B m f H s b t X. mstep X as a u Y; [|discriminate|discriminate]. apply (H _ _ _ _ X). Qed.
Lemma noval_bindl : forall A B (m : M A) (f : A -> M B), noval m -> noval (bind m f).
Proof. intros A B m f H s b t X. mstep X as a u Y; [|discriminate|discriminate]. apply (H _ _ _ Y). Qed.

(** What a loader program may consume: a peek at buffered bytes is followed by their
    consumption. *)
Inductive consuming (O : Type) : rdprog O -> Prop :=
| CRet : forall r, consuming O (RRet r)
| CRead : forall n k, (forall x, consuming O (k x)) -> consuming O (RRead n k)
| CExact : forall n k, (forall x, consuming O (k x)) -> consuming O (RExact n k)
| CToEnd : forall k, (forall x, consuming O (k x)) -> consuming O (RToEnd k)
| CBuf : forall amt k, (forall bs, (length bs <= amt (inr bs))%nat) -> (forall x, consuming O (k x)) -> consuming O (RBuf amt k).

Section Cut.
Context {env : Env}.
Context (x1 x2 : list byte) (c : N).
Notation cut := (cut x1 x2 c).
Notation crx := (crx x1 x2 c).
Notation cr := (cr x1 x2 c).
Notation over := (over c).
Notation gone := (gone c).

(** The second part may escape in its own way. *)
Lemma c_bindy : forall A B (E1 : A -> pstate -> Prop) (E : B -> pstate -> Prop) (m : M A) (f : A -> M B),
  crx E1 m -> (forall a, crx E (f a)) -> (forall a u b t, E1 a u -> f a u = (Ok b, t) -> E b t) -> crx E (bind m f).
Proof.
  intros A B E1 E m f [F G] Hf HE. split. { apply (st_bind _ fwd_pre); [exact F | intros a; apply (Hf a)]. }
  intros s1 s2 b t1 C H. mstep H as a u1 X; [|discriminate|discriminate].
  destruct (G _ _ _ _ C X) as [L|(u2 & Y & D)]; [left; eauto|].
  destruct (proj2 (Hf a) _ _ _ _ D H) as [L|(t2 & Z & K)]; [left; exact L|]. right. exists t2. split; [|exact K].
  rewrite (bind_ok _ _ _ _ _ _ _ Y). exact Z.
Qed.
(** A [match] on a [Result] whose error branch yields no value. *)
Lemma c_try : forall A B (E1 : A -> pstate -> Prop) (E : B -> pstate -> Prop) (m : M A) (f : perr + A -> M B),
  crx E1 m -> (forall e, noval (f (inl e))) -> (forall e, steps fwd (f (inl e))) -> (forall a, crx E (f (inr a))) ->
  (forall a u b t, E1 a u -> f (inr a) u = (Ok b, t) -> E b t) -> crx E (bind (try_ m) f).
Proof.
  intros A B E1 E m f [F G] Hn Hs Hf HE. split.
  { apply (st_bind _ fwd_pre); [apply st_try; exact F|]. intros [e|a]; [apply Hs|apply (Hf a)]. }
  intros s1 s2 b t1 C H. mstep H as r u1 X; [|discriminate|discriminate].
  unfold try_ in X. destruct (m s1) as [[a|e|] u] eqn:Em; [|injection X as <- <-; destruct (Hn _ _ _ _ H)|discriminate].
  injection X as <- <-. destruct (G _ _ _ _ C Em) as [L|(u2 & Y & D)]; [left; eauto|].
  destruct (proj2 (Hf a) _ _ _ _ D H) as [L|(t2 & Z & K)]; [left; exact L|]. right. exists t2. split; [|exact K].
  unfold bind, try_. rewrite Y. exact Z.
Qed.
Lemma c_noval : forall A (E : A -> pstate -> Prop) (m : M A), steps fwd m -> noval m -> crx E m.
Proof. intros A E m F N. split; [exact F|]. intros s1 s2 a t1 C H. destruct (N _ _ _ H). Qed.

Section Esc.
Context (esc : pstate -> Prop).
Context (esc_fwd : forall s s', fwd s s' -> esc s -> esc s').
Context (esc_exact : forall n, cr esc (read_exact n)).

Create HintDb ct.
Hint Resolve c_position c_reader_pos c_ensure c_warn esc_exact : ct.
Ltac cget := let C := fresh in intros ? ? C; destruct (cut_get _ _ _ _ _ C) as (G1 & G2 & G3 & G4 & G5 & G6 & G7 & G8 & G9 & G10 & _);
  unfold current_node, depth; rewrite ?G1, ?G2, ?G3, ?G4, ?G5, ?G8, ?G9; reflexivity.
Ltac cstep :=
  first
    [ simple apply (c_bind _ _ _ _ esc_fwd); [| intros ?]
    | simple apply c_ret | apply c_throw | apply c_panic
    | simple apply c_when | simple apply c_lift | simple apply c_assert
    | simple apply c_gets; solve [cget]
    | match goal with |- CutRel.cr _ _ _ _ (let '(_, _) := ?x in _) => destruct x end
    | match goal with |- CutRel.cr _ _ _ _ (match ?x with _ => _ end) => destruct x end ].
Ltac cc := repeat first [ solve [auto 2 with ct] | cstep ].

Lemma c_parse_u8 : cr esc parse_u8.
Proof. unfold parse_u8. cc. Qed.
Lemma c_parse_uint : forall n, cr esc (parse_uint n).
Proof. intros. unfold parse_uint. cc. Qed.
Lemma c_parse_sint : forall n, cr esc (parse_sint n).
Proof. intros. unfold parse_sint. cc. Qed.
Hint Resolve c_parse_u8 c_parse_uint c_parse_sint : ct.
Lemma c_node_header : cr esc read_node_header.
Proof. unfold read_node_header. cc. Qed.
Lemma c_footer : cr esc read_footer.
Proof. unfold read_footer, broken. cc. Qed.
Lemma c_count_child : cr esc (modify count_child).
Proof.
  apply c_modify.
  - intros s. unfold count_child. destruct (p_stack s); apply fwd_same; reflexivity.
  - apply cut_upd; intros s; [intros r|]; unfold count_child; cbn [set_rd p_stack]; destruct (p_stack s); reflexivity.
Qed.
Lemma c_push : forall n, cr esc (modify (push n)).
Proof. intros n. apply c_modify; [intros s; apply fwd_same; reflexivity|]. apply cut_upd; reflexivity. Qed.
Lemma c_pop : cr esc (modify pop).
Proof. apply c_modify; [intros s; apply fwd_same; reflexivity|]. apply cut_upd; reflexivity. Qed.
Lemma c_set_health : forall h, cr esc (modify (set_health h)).
Proof. intros n. apply c_modify; [intros s; apply fwd_same; reflexivity|]. apply cut_upd; reflexivity. Qed.
Lemma c_set_last : forall h, cr esc (modify (set_last h)).
Proof. intros n. apply c_modify; [intros s; apply fwd_same; reflexivity|]. apply cut_upd; reflexivity. Qed.
Lemma c_set_attrs : forall h, cr esc (modify (set_attrs h)).
Proof. intros n. apply c_modify; [intros s; apply fwd_same; reflexivity|]. apply cut_upd; reflexivity. Qed.
Hint Resolve c_node_header c_footer c_count_child c_push c_pop c_set_health c_set_last c_set_attrs : ct.
Lemma c_add : forall a b, cr esc (add_u64 a b).
Proof. intros. unfold add_u64. cc. Qed.
Hint Resolve c_add : ct.
Lemma c_start_node : forall a h, cr esc (start_node a h).
Proof. intros. unfold start_node. cc. Qed.
Hint Resolve c_start_node : ct.
Lemma c_get_attrs : cr esc get_attrs.
Proof. unfold get_attrs. cc. Qed.
Hint Resolve c_get_attrs : ct.
Lemma c_update : forall n, cr esc (update_next_attr_start_offset n).
Proof. intros. unfold update_next_attr_start_offset. cc. Qed.
Lemma c_attr_position : forall a b, cr esc (attr_position a b).
Proof. intros. unfold attr_position. cc. Qed.
Hint Resolve c_update c_attr_position : ct.
Lemma c_warn_bool : forall a b, cr esc (warn_bool a b).
Proof. intros. unfold warn_bool. cc. Qed.
Lemma c_array_header : cr esc read_array_header.
Proof. unfold read_array_header. cc. Qed.
Lemma c_attr_type : cr esc read_attr_type.
Proof. unfold read_attr_type. cc. Qed.
Hint Resolve c_warn_bool c_array_header c_attr_type : ct.
Lemma c_from_parser : cr esc from_parser.
Proof. unfold from_parser. cc. Qed.

(** [next_event_impl] after the skip. *)
Definition after_skip : M ekind :=
  let* start := reader_pos in
  let* cur := gets current_node in
  let after_header :=
    let* h := read_node_header in
    let* hend := reader_pos in
    if is_node_end h then
      let* top := gets current_node in
      modify pop ;;
      match top with
      | Some c =>
          if negb (sn_end c =? hend)%N
          then throw (err_from (EData (NodeLengthMismatch (sn_end c) (Some hend))))
          else
            when (negb (sn_attrs c =? 0)%N && (sn_kids c =? 0)%N)
                 (let* p := position in warn ExtraNodeEndMarker p) ;;
            ret KEnd
      | None => ret KEndFbx
      end
    else start_node start h in
  match cur with
  | Some n =>
      if (sn_end n <? start)%N
      then throw (err_from (EData (NodeLengthMismatch (sn_end n) None)))
      else if (sn_end n =? start)%N
      then
        let* last := gets p_last in
        when (match last with Some KEnd => true | _ => false end || (sn_attrs n =? 0)%N)
             (let* p := position in warn MissingNodeEndMarker p) ;;
        modify pop ;;
        ret KEnd
      else after_header
  | None => after_header
  end.
Lemma c_after_skip : cr esc after_skip.
Proof. unfold after_skip. cc. Qed.
End Esc.

Lemma next_event_impl_split : next_event_impl =
  bind (gets p_health) (fun hl => bind (assert_ (match hl with Running => true | _ => false end)) (fun _ =>
  bind (gets p_last) (fun l => bind (assert_ (match l with Some KEndFbx => false | _ => true end)) (fun _ =>
  bind skip_unread_attributes (fun _ => after_skip))))).
Proof. reflexivity. Qed.

Lemma g_exact : forall n, cr gone (read_exact n).
Proof. intros n. apply cr_over_gone. apply c_read_exact. Qed.
Lemma g_m_skip : forall n, cr gone (m_skip_to n).
Proof.
  intros n. unfold m_skip_to. apply (c_bind _ _ _ _ (gone_fwd c)); [apply c_skip_op|]. intros [e|]; [apply c_throw|apply c_ret].
Qed.
Lemma g_skip_unread : cr gone skip_unread_attributes.
Proof.
  unfold skip_unread_attributes. apply (c_bind _ _ _ _ (gone_fwd c)).
  - apply c_gets. intros s s' C. unfold current_node. destruct (cut_get _ _ _ _ _ C) as (_ & _ & -> & _). reflexivity.
  - intros [n|]; [|apply c_ret]. apply (c_bind _ _ _ _ (gone_fwd c)); [apply c_reader_pos|]. intros p. apply c_when. apply g_m_skip.
Qed.

(** At the end of the stream no header can be read. *)
Lemma dead_exact : forall n s a t, n <> 0%nat -> dead s -> read_exact n s <> (Ok a, t).
Proof.
  intros n s a t Hn D H. unfold read_exact in H. mstep H as r u X; [|discriminate|discriminate].
  unfold try_read, rdop in X. destruct (rd_exact n (p_rd s)) as [o r'] eqn:E. apply rd_exact_spec in E.
  destruct o as [[e|got]|]; [injection X as <- <-; discriminate| |discriminate].
  destruct E as (E & L & _). unfold dead in D. rewrite D in E. destruct got; [cbn in L; lia|discriminate].
Qed.
Lemma dead_header : forall s a t, dead s -> read_node_header s <> (Ok a, t).
Proof.
  intros s a t D H. unfold read_node_header in H. rewrite bind_gets in H. mstep H as e u X; [|discriminate|discriminate].
  unfold parse_uint in X. mstep X as l u' Y; [|discriminate|discriminate].
  revert Y. apply dead_exact; [|exact D]. unfold hdr_width. destruct (_ <? _); discriminate.
Qed.
Lemma dead_after_skip : forall s k t, dead s -> after_skip s = (Ok k, t) -> k = KEnd.
Proof.
  intros s k t D H. unfold after_skip in H. unfold reader_pos in H. rewrite !bind_gets in H.
  assert (G : forall B (f : node_header -> M B) b, bind read_node_header f s <> (Ok b, t)).
  { intros B f b X. mstep X as h u Y; [|discriminate|discriminate]. apply (dead_header _ _ _ D Y). }
  destruct (current_node s) as [n|].
  - destruct (sn_end n <? _); [discriminate|]. destruct (sn_end n =? _).
    + rewrite bind_gets in H. mstep H as v u X; [|discriminate|discriminate].
      rewrite bind_modify in H. injection H as <- _. reflexivity.
    + destruct (G _ _ _ H).
  - destruct (G _ _ _ H).
Qed.

Lemma g_next_impl : cr gone next_event_impl.
Proof.
  rewrite next_event_impl_split.
  apply (c_bind _ _ _ _ (gone_fwd c)); [apply c_gets; intros s s' C; apply (cut_get _ _ _ _ _ C)|intros h].
  apply (c_bind _ _ _ _ (gone_fwd c)); [apply c_assert|intros _].
  apply (c_bind _ _ _ _ (gone_fwd c)); [apply c_gets; intros s s' C; apply (cut_get _ _ _ _ _ C)|intros l].
  apply (c_bind _ _ _ _ (gone_fwd c)); [apply c_assert|intros _].
  apply (c_bind _ _ _ _ (gone_fwd c)); [apply g_skip_unread|intros _].
  apply c_after_skip; [apply gone_fwd | apply g_exact].
Qed.

Definition noesc {A} (_ : A) (_ : pstate) : Prop := False.
Lemma o_next_impl : crx (fun k t => over t \/ k <> KEndFbx) next_event_impl.
Proof.
  rewrite next_event_impl_split.
  assert (W : forall A (m : M A), cr (fun _ => False) m -> crx noesc m) by (intros A m; apply crx_weaken; intros ? ? []).
  apply (c_bindy _ _ noesc); [apply W; apply c_gets; intros s s' C; apply (cut_get _ _ _ _ _ C)| |intros ? ? ? ? []]. intros h.
  apply (c_bindy _ _ noesc); [apply W; apply c_assert| |intros ? ? ? ? []]. intros _.
  apply (c_bindy _ _ noesc); [apply W; apply c_gets; intros s s' C; apply (cut_get _ _ _ _ _ C)| |intros ? ? ? ? []]. intros l.
  apply (c_bindy _ _ noesc); [apply W; apply c_assert| |intros ? ? ? ? []]. intros _.
  apply (c_bindy _ _ (fun _ => gone)); [apply g_skip_unread| |].
  - intros _. eapply crx_weaken; [|apply (c_after_skip over); [apply over_fwd|apply c_read_exact]]. intros k t H. left. exact H.
  - intros _ u k t [G|G] H.
    + left. apply (over_fwd c u); [|exact G]. apply (steps_elim _ _ _ _ _ _ (proj1 (c_after_skip over (over_fwd c) (c_read_exact x1 x2 c))) H). discriminate.
    + right. rewrite (dead_after_skip _ _ _ G H). discriminate.
Qed.

(** ** [next_event] *)
Definition next_k (prev : N) (k : ekind) : M event :=
      when (ekind_eqb k KEndFbx) (modify (set_health Finished)) ;;
      modify (set_last (Some k)) ;;
      let* cur := gets depth in
      assert_ (match k with
               | KStart => (wrapping_sub cur prev =? 1)%N
               | KEnd => (wrapping_sub prev cur =? 1)%N
               | KEndFbx => (prev =? 0)%N && (cur =? 0)%N
               end) ;;
      let* last := gets p_last in
      assert_ (match last with Some k' => ekind_eqb k k' | None => false end) ;;
      match k with
      | KStart =>
          let* n := gets current_node in
          match n with
          | Some n => ret (EvStart (sn_name n))
          | None => panic
          end
      | KEnd => ret EvEnd
      | KEndFbx => let* f := try_ read_footer in ret (EvEndFbx f)
      end.
Lemma next_event_split : next_event =
  bind (gets depth) (fun prev => bind ensure_continuable (fun _ =>
    bind (try_ next_event_impl) (fun r => match r with
      | inl e => bind position (fun p => bind (modify (set_health (Aborted p))) (fun _ => throw (and_position e p)))
      | inr k => next_k prev k end))).
Proof. reflexivity. Qed.

Section Esc2.
Context (esc : pstate -> Prop).
Context (esc_fwd : forall s s', fwd s s' -> esc s -> esc s').
Context (esc_exact : forall n, cr esc (read_exact n)).

(** A footer that could not be read is an escape of its own. *)
Lemma c_next_k : forall prev k, crx (fun e t => esc t \/ exists x, e = EvEndFbx (inl x)) (next_k prev k).
Proof.
  intros prev k. unfold next_k.
  assert (B : forall A (m : M A) (f : A -> M event), cr esc m -> (forall a, crx (fun e t => esc t \/ exists x, e = EvEndFbx (inl x)) (f a)) ->
     crx (fun e t => esc t \/ exists x, e = EvEndFbx (inl x)) (bind m f)).
  { intros A m f Hm Hf. apply (c_bindx _ _ _ esc esc_fwd); auto. }
  assert (R : forall e, crx (fun e t => esc t \/ exists x, e = EvEndFbx (inl x)) (ret e)).
  { intros e. eapply crx_weaken; [|apply (c_ret _ _ _ esc)]. auto. }
  apply B; [apply c_when; apply c_set_health|intros _].
  apply B; [apply c_set_last|intros _].
  apply B; [apply c_gets; intros s s' C; unfold depth; destruct (cut_get _ _ _ _ _ C) as (_ & _ & -> & _); reflexivity|intros cur].
  apply B; [apply c_assert|intros _].
  apply B; [apply c_gets; intros s s' C; apply (cut_get _ _ _ _ _ C)|intros l].
  apply B; [apply c_assert|intros _].
  destruct k.
  - apply B; [apply c_gets; intros s s' C; unfold current_node; destruct (cut_get _ _ _ _ _ C) as (_ & _ & -> & _); reflexivity|].
    intros [n|]; [apply R|apply c_panic].
  - apply R.
  - destruct (c_footer esc esc_fwd esc_exact) as [F G]. split.
    { apply (st_bind _ fwd_pre); [apply st_try; exact F|]. intros a. apply (st_ret _ fwd_pre). }
    intros s1 s2 e t1 C H. mstep H as r u X; [|discriminate|discriminate]. injection H as <- <-.
    unfold try_ in X. destruct (read_footer s1) as [[f|x|] v] eqn:Ef; [| |discriminate]; injection X as <- <-.
    + destruct (G _ _ _ _ C Ef) as [L|(t2 & Y & K)]; [left; left; exact L|]. right. exists t2. split; [|exact K].
      unfold bind, try_. rewrite Y. reflexivity.
    + left. right. eauto.
Qed.
End Esc2.

Lemma next_k_kind : forall prev k s f t, next_k prev k s = (Ok (EvEndFbx f), t) -> k = KEndFbx.
Proof.
  intros prev k s f t H. unfold next_k in H.
  mstep H as a1 u1 X1; [|discriminate|discriminate].
  mstep H as a2 u2 X2; [|discriminate|discriminate].
  mstep H as a3 u3 X3; [|discriminate|discriminate].
  mstep H as a4 u4 X4; [|discriminate|discriminate].
  mstep H as a5 u5 X5; [|discriminate|discriminate].
  mstep H as a6 u6 X6; [|discriminate|discriminate].
  destruct k; [|discriminate|reflexivity]. mstep H as n u7 X7; [|discriminate|discriminate].
  destruct n; discriminate.
Qed.
Lemma aborts_noval : forall e, noval (bind position (fun p => bind (modify (set_health (Aborted p))) (fun _ => @throw event (and_position e p)))).
Proof. intros e. apply noval_bind. intros p. apply noval_bind. intros _. apply noval_throw. Qed.
Lemma aborts_fwd : forall A e, steps fwd (bind position (fun p => bind (modify (set_health (Aborted p))) (fun _ => @throw A (and_position e p)))).
Proof.
  intros A e. apply (st_bind _ fwd_pre); [apply (st_position _ fwd_pre)|]. intros p.
  apply (st_bind _ fwd_pre); [apply st_modify; intros s; apply fwd_same; reflexivity|]. intros _. apply (st_throw _ fwd_pre).
Qed.

Lemma g_next_event : crx (fun e t => gone t \/ exists x, e = EvEndFbx (inl x)) next_event.
Proof.
  rewrite next_event_split.
  apply (c_bindx _ _ _ gone (gone_fwd c)); [auto|apply c_gets; intros s s' C; unfold depth; destruct (cut_get _ _ _ _ _ C) as (_ & _ & -> & _); reflexivity|intros prev].
  apply (c_bindx _ _ _ gone (gone_fwd c)); [auto|apply c_ensure|intros _].
  apply (c_try _ _ (fun _ => gone)).
  - apply g_next_impl.
  - apply aborts_noval.
  - apply aborts_fwd.
  - intros k. apply c_next_k; [apply gone_fwd|apply g_exact].
  - intros k u e t G H. left. apply (gone_fwd c u); [|exact G].
    apply (steps_elim _ _ _ _ _ _ (proj1 (c_next_k gone (gone_fwd c) g_exact prev k)) H). discriminate.
Qed.

Lemma o_next_event : crx (fun e t => over t \/ forall f, e <> EvEndFbx (inr f)) next_event.
Proof.
  rewrite next_event_split.
  apply (c_bindx _ _ _ over (over_fwd c)); [auto|apply c_gets; intros s s' C; unfold depth; destruct (cut_get _ _ _ _ _ C) as (_ & _ & -> & _); reflexivity|intros prev].
  apply (c_bindx _ _ _ over (over_fwd c)); [auto|apply c_ensure|intros _].
  apply (c_try _ _ (fun k t => over t \/ k <> KEndFbx)).
  - apply o_next_impl.
  - apply aborts_noval.
  - apply aborts_fwd.
  - intros k. eapply crx_weaken; [|apply c_next_k; [apply over_fwd|apply c_read_exact]].
    intros e t [H|[x ->]]; [auto|right; discriminate].
  - intros k u e t [G|G] H.
    + left. apply (over_fwd c u); [|exact G].
      apply (steps_elim _ _ _ _ _ _ (proj1 (c_next_k over (over_fwd c) (c_read_exact x1 x2 c) prev k)) H). discriminate.
    + right. intros f ->. apply G. apply (next_k_kind _ _ _ _ _ H).
Qed.

Lemma dead_next_event : forall s f t, dead s -> next_event s <> (Ok (EvEndFbx f), t).
Proof.
  intros s f t D H. rewrite next_event_split in H. rewrite bind_gets in H.
  mstep H as [] u X; [|discriminate|discriminate].
  assert (u = s) as -> by (unfold ensure_continuable in X; destruct (p_health s); congruence).
  mstep H as r u Y; [|discriminate|discriminate]. unfold try_ in Y.
  destruct (next_event_impl s) as [[k|e|] v] eqn:E; [| |discriminate]; injection Y as <- <-.
  - apply next_k_kind in H. subst k. rewrite next_event_impl_split in E. rewrite bind_gets in E.
    mstep E as [] u1 E1; [|discriminate|discriminate]. rewrite bind_gets in E.
    mstep E as [] u2 E2; [|discriminate|discriminate]. mstep E as [] u3 E3; [|discriminate|discriminate].
    assert (u1 = s) as -> by (unfold assert_ in E1; destruct (p_health s); [injection E1 as <-; reflexivity|discriminate|discriminate]).
    assert (u2 = s) as -> by (unfold assert_ in E2; match type of E2 with (if ?b then _ else _) _ = _ => destruct b end; [injection E2 as <-; reflexivity|discriminate]).
    pose proof (steps_elim _ _ _ _ _ _ skip_unread_quiet E3 ltac:(discriminate)) as ((_ & _ & _ & _ & _ & _ & _ & d & p & (M & _) & _) & _).
    assert (D3 : dead u3) by (unfold dead in *; rewrite M, D, dropN_skipn; apply skipn_nil).
    discriminate (dead_after_skip _ _ _ D3 E).
  - destruct (aborts_noval e _ _ _ H).
Qed.
End Cut.
