(** Failures of the reader and the errors of the parser: lemmas. *)
Require Import Coq.Lists.List Coq.NArith.NArith Coq.ZArith.ZArith Coq.Bool.Bool Coq.micromega.Lia.
Require Import Coq.Init.Byte.
Require Import ZifyBool ZifyNat ZifyN.
Require Import Verif.Base Verif.BaseFacts Verif.Utf8 Verif.Types Verif.Io Verif.IoFacts Verif.Parser Verif.MonadFacts Verif.Loaders Verif.SpecErr.
Import ListNotations.
Ltac Zify.zify_post_hook ::= Z.div_mod_to_equations.
Open Scope monad_scope.

(** ** Streams *)
Lemma read_codes_app : forall a b, read_codes (a ++ b) = read_codes a ++ read_codes b.
Proof. intros. apply flat_map_app. Qed.
Lemma seek_codes_app : forall a b, seek_codes (a ++ b) = seek_codes a ++ seek_codes b.
Proof. intros. apply flat_map_app. Qed.

Lemma rx_codes : forall sc rem n e got rem' sc', rx sc rem n = (e, got, rem', sc') ->
  exists pre, sc = pre ++ sc' /\
  match e with
  | None => read_codes pre = []
  | Some IoEof => read_codes pre = [] /\ rem' = []
  | Some (IoOther c) => read_codes pre = [c]
  | Some _ => False
  end.
Proof.
  induction sc as [|a sc IH]; intros rem n e got rem' sc' H.
  - exists []. destruct n; cbn in H.
    + injection H as <- <- <- <-. auto.
    + destruct rem as [|b rem]; [injection H as <- <- <- <-; auto|]. cbn in H. destruct (Nat.leb n (length rem)); injection H as <- <- <- <-; auto.
  - destruct n as [|n]; [cbn in H; injection H as <- <- <- <-; exists []; auto|]. destruct a as [k| |c].
    + cbn [rx] in H. destruct (Nat.min (S n) (Nat.min (Pos.to_nat k) (length rem))) as [|m'] eqn:Em.
      * injection H as <- <- <- <-. exists [AChunk k]. split; [reflexivity|]. split; [reflexivity|]. pose proof (Pos2Nat.is_pos k). destruct rem; [reflexivity|]. cbn [length] in Em. lia.
      * destruct (rx sc (skipn (S m') rem) (S n - S m')) as [[[e1 g1] r1] sc1] eqn:E1. injection H as <- <- <- <-. apply IH in E1. destruct E1 as (pre & -> & P).
        exists (AChunk k :: pre). split; [reflexivity|exact P].
    + cbn [rx] in H. apply IH in H. destruct H as (pre & -> & P). exists (AIntr :: pre). split; [reflexivity|exact P].
    + cbn in H. injection H as <- <- <- <-. exists [AFail c]. split; reflexivity.
Qed.

Lemma rte_codes : forall sc rem n e got rem' sc', rte sc rem n = (e, got, rem', sc') ->
  exists pre, sc = pre ++ sc' /\
  match e with
  | None => read_codes pre = []
  | Some (IoOther c) => read_codes pre = [c]
  | Some _ => False
  end.
Proof.
  induction sc as [|a sc IH]; intros rem n e got rem' sc' H; cbn [rte] in H; destruct (n =? 0)%N; try (injection H as <- <- <- <-; exists []; auto; fail).
  destruct a as [k| |c].
  - destruct (clip (N.min n (Npos k)) rem) as [|m]; [injection H as <- <- <- <-; exists [AChunk k]; split; reflexivity|].
    destruct (rte sc (skipn (S m) rem) _) as [[[e1 g1] r1] sc1] eqn:E1. injection H as <- <- <- <-. apply IH in E1. destruct E1 as (pre & -> & P).
    exists (AChunk k :: pre). split; [reflexivity|exact P].
  - apply IH in H. destruct H as (pre & -> & P). exists (AIntr :: pre). split; [reflexivity|exact P].
  - injection H as <- <- <- <-. exists [AFail c]. split; reflexivity.
Qed.

Lemma happened_refl : forall s, happened s s [].
Proof. intros s. exists [], []. repeat split. Qed.
Lemma happened_trans0 : forall a b c l, happened a b [] -> happened b c l -> happened a c l.
Proof.
  intros a b c l (r1 & k1 & E1 & E2 & E3) (r2 & k2 & F1 & F2 & ->). exists (r1 ++ r2), (k1 ++ k2).
  symmetry in E3. apply app_eq_nil in E3. destruct E3 as [E3 E4].
  split; [rewrite E1, F1, app_assoc; reflexivity|]. split; [rewrite E2, F2, app_assoc; reflexivity|].
  rewrite read_codes_app, seek_codes_app, E3, E4. reflexivity.
Qed.
Lemma happened_reads : forall a b pre codes, s_sched a = pre ++ s_sched b -> s_seeks a = s_seeks b -> read_codes pre = codes -> happened a b codes.
Proof. intros a b pre codes E1 E2 E3. exists pre, []. split; [exact E1|]. split; [exact E2|]. rewrite <- E3. cbn. rewrite app_nil_r. reflexivity. Qed.

(** What an I/O error of one call on the reader says. *)
Definition io_cause (codes : list N) (e : ioerr) (r : reader) : Prop :=
  match e with
  | IoOther c => codes = [c]
  | IoEof => codes = [] /\ s_rem (r_stream r) = []
  | _ => False
  end.

Lemma rd_exact_codes : forall n r x r', rd_exact n r = (Some x, r') ->
  exists codes, happened (r_stream r) (r_stream r') codes /\ match x with inr _ => codes = [] | inl e => io_cause codes e r' end.
Proof.
  intros n r x r' H. unfold rd_exact in H. destruct (rx _ _ n) as [[[e got] rem'] sc'] eqn:E. apply rx_codes in E. destruct E as (pre & E & P).
  destruct (advance _ _); [|discriminate]. injection H as <- <-. exists (read_codes pre). split.
  - eapply happened_reads; [exact E|reflexivity|reflexivity].
  - destruct e as [[]|]; cbn; auto.
Qed.
Lemma rd_to_end_codes : forall n r x r', rd_to_end n r = (Some x, r') ->
  exists codes, happened (r_stream r) (r_stream r') codes /\ match fst x with None => codes = [] | Some e => exists c, e = IoOther c /\ codes = [c] end.
Proof.
  intros n r x r' H. unfold rd_to_end in H. destruct (rte _ _ n) as [[[e got] rem'] sc'] eqn:E. apply rte_codes in E. destruct E as (pre & E & P).
  destruct (advance _ _); [|discriminate]. injection H as <- <-. exists (read_codes pre). split.
  - eapply happened_reads; [exact E|reflexivity|reflexivity].
  - cbn [fst]. destruct e as [[]|]; try contradiction; eauto.
Qed.
Lemma seek_part_codes : forall n r x r', seek_part n r = (Some x, r') ->
  exists codes, happened (r_stream r) (r_stream r') codes /\ match x with None => codes = [] | Some e => exists c, e = IoOther c /\ codes = [c] end.
Proof.
  intros n r x r' H. unfold seek_part in H. destruct (s_seeks (r_stream r)) as [|[c|] sk] eqn:E.
  - destruct (seek_move _ _); [|discriminate]. injection H as <- <-. exists []. split; [|reflexivity]. exists [], []. split; [reflexivity|]. split; [exact E|reflexivity].
  - injection H as <- <-. exists [c]. split; [|eauto]. exists [], [Some c]. split; [reflexivity|]. split; [exact E|reflexivity].
  - destruct (seek_move _ _); [|discriminate]. injection H as <- <-. exists []. split; [|reflexivity]. exists [], [None]. split; [reflexivity|]. split; [exact E|reflexivity].
Qed.
Lemma seek_all_codes : forall parts r x r', seek_all parts r = (Some x, r') ->
  exists codes, happened (r_stream r) (r_stream r') codes /\ match x with None => codes = [] | Some e => exists c, e = IoOther c /\ codes = [c] end.
Proof.
  induction parts as [|p ps IH]; intros r x r' H; cbn [seek_all] in H.
  - injection H as <- <-. exists []. split; [apply happened_refl|reflexivity].
  - destruct (seek_part p r) as [[[e|]|] r1] eqn:E; try discriminate.
    + injection H as <- <-. eapply seek_part_codes in E. exact E.
    + apply seek_part_codes in E. destruct E as (codes & E1 & ->). apply IH in H. destruct H as (codes & H1 & H2). exists codes. split; [eapply happened_trans0; eauto|exact H2].
Qed.
Lemma skip_to_codes : forall n r x r', skip_to n r = (Some x, r') ->
  exists codes, happened (r_stream r) (r_stream r') codes /\ match x with None => codes = [] | Some e => exists c, e = IoOther c /\ codes = [c] end.
Proof.
  intros n r x r' H. unfold skip_to in H. destruct (n <? r_pos r)%N; [discriminate|]. unfold skip_distance in H. destruct (r_seekable r).
  - eapply seek_all_codes; exact H.
  - unfold skip_distance_plain in H. destruct (rte _ _ _) as [[[e got] rem'] sc'] eqn:E. apply rte_codes in E. destruct E as (pre & E & P). injection H as <- <-.
    exists (read_codes pre). split; [eapply happened_reads; [exact E|reflexivity|reflexivity]|]. destruct e as [[]|]; try contradiction; eauto.
Qed.

(** ** Calls that hand failures on *)
Section Honest.
Context (comp : bool) (own : econtainer -> pstate -> Prop).

Definition honest {A} (m : M A) : Prop := forall s r s', m s = (r, s') ->
  match r with
  | Ok _ => happened (source s) (source s') []
  | Err e => exists codes, happened (source s) (source s') codes /\ cause comp own codes e s'
  | Panic => True
  end.

Lemma h_ret : forall A (a : A), honest (ret a).
Proof. intros A a s r s' H. injection H as <- <-. apply happened_refl. Qed.
Lemma h_panic : forall A, honest (@panic A).
Proof. intros A s r s' H. injection H as <- <-. exact I. Qed.
Lemma h_throw : forall A (e : perr), (forall s, own (e_error e) s) -> honest (@throw A e).
Proof. intros A e O s r s' H. injection H as <- <-. exists []. split; [apply happened_refl|]. right. auto. Qed.
Lemma h_bind : forall A B (m : M A) (f : A -> M B), honest m -> (forall a, honest (f a)) -> honest (bind m f).
Proof.
  intros A B m f Hm Hf s r s' H. apply bind_inv in H. destruct H as [(a & s1 & E & H) | [(e & E & ->) | (E & ->)]].
  - apply Hm in E. apply Hf in H. destruct r; [|destruct H as (codes & H1 & H2); exists codes; split; [|exact H2]|exact I]; eapply happened_trans0; eauto.
  - apply Hm in E. exact E.
  - exact I.
Qed.
Lemma h_gets : forall A (f : pstate -> A), honest (gets f).
Proof. intros A f s r s' H. injection H as <- <-. apply happened_refl. Qed.
Lemma h_modify : forall f, (forall s, source (f s) = source s) -> honest (modify f).
Proof. intros f F s r s' H. injection H as <- <-. rewrite F. apply happened_refl. Qed.
Lemma h_when : forall b m, honest m -> honest (when b m).
Proof. intros [] m H; [exact H|apply h_ret]. Qed.
Lemma h_assert : forall b, honest (assert_ b).
Proof. intros []; [apply h_ret|apply h_panic]. Qed.
Lemma h_position : honest position.
Proof. intros s r s' H. unfold position in H. destruct (position_of s); injection H as <- <-; [apply happened_refl|exact I]. Qed.
Lemma h_warn : forall w p, honest (warn w p).
Proof.
  intros w p s r s' H. unfold warn in H. destruct (p_handler s) as [h|] eqn:Eh; [destruct (h _) as [e|] eqn:E|]; injection H as <- <-; try apply happened_refl.
  exists []. split; [apply happened_refl|]. right. split; [reflexivity|]. left. exists h, e. split; [exact Eh|]. split; [discriminate|]. split; [exact E|reflexivity].
Qed.

Context (own_eof : forall s, s_rem (source s) = [] -> own (EIo IoEof) s).

Lemma h_read_exact : forall n, honest (read_exact n).
Proof.
  intros n s r s' H. unfold read_exact, try_read, rdop, bind in H. destruct (rd_exact n (p_rd s)) as [[x|] rd'] eqn:E; [|injection H as <- <-; exact I].
  apply rd_exact_codes in E. destruct E as (codes & E & P). destruct x as [e|bs]; injection H as <- <-.
  - exists codes. split; [exact E|]. destruct e; cbn in P; try contradiction.
    + destruct P as [-> P]. right. split; [reflexivity|]. right. apply own_eof. exact P.
    + left. exists code. auto.
  - subst codes. exact E.
Qed.
Lemma h_skip : forall n, honest (m_skip_to n).
Proof.
  intros n s r s' H. unfold m_skip_to, rdop, bind in H. destruct (skip_to n (p_rd s)) as [[x|] rd'] eqn:E; [|injection H as <- <-; exact I].
  apply skip_to_codes in E. destruct E as (codes & E & P). destruct x as [e|]; injection H as <- <-.
  - destruct P as (c & -> & ->). exists [c]. split; [exact E|]. left. exists c. auto.
  - subst codes. exact E.
Qed.
Lemma h_uint : forall k, honest (parse_uint k).
Proof. intros. apply h_bind; [apply h_read_exact|intros; apply h_ret]. Qed.
Lemma h_sint : forall k, honest (parse_sint k).
Proof. intros. apply h_bind; [apply h_read_exact|intros; apply h_ret]. Qed.
Lemma h_u8 : honest parse_u8.
Proof. intros. apply h_bind; [apply h_read_exact|intros; apply h_ret]. Qed.
End Honest.

Create HintDb honest.
#[export] Hint Resolve h_ret h_panic h_gets h_when h_assert h_position h_warn h_read_exact h_skip h_uint h_sint h_u8 : honest.
Ltac hon :=
  repeat match goal with
  | |- forall _, _ => intro
  | |- honest _ _ (bind _ _) => apply h_bind
  | |- honest _ _ (let _ := _ in _) => cbv zeta
  | |- honest _ _ (modify _) => apply h_modify; intros; reflexivity
  | |- honest _ _ (when _ _) => apply h_when
  | |- honest _ _ (match ?x with _ => _ end) => destruct x
  | _ => solve [eauto with honest]
  end.

(** ** Events *)
Section Next.
Context {env : Env}.

Definition impl_own (e : econtainer) (s : pstate) : Prop :=
  match e with EOperation _ => False | _ => next_own e s end.

Lemma eof_next : forall s, s_rem (source s) = [] -> impl_own (EIo IoEof) s.
Proof. intros s H. exact H. Qed.
Hint Resolve eof_next : honest.

Lemma h_skip_unread : honest false impl_own skip_unread_attributes.
Proof. unfold skip_unread_attributes, reader_pos. hon. Qed.
Lemma h_header : honest false impl_own read_node_header.
Proof. unfold read_node_header. hon. Qed.
Lemma h_add : forall a b, honest false impl_own (add_u64 a b).
Proof. intros. unfold add_u64. hon. Qed.
Lemma source_push : forall n s, source (push n s) = source s.
Proof. reflexivity. Qed.
Lemma source_count : forall s, source (count_child s) = source s.
Proof. intros s. unfold count_child. destruct (p_stack s); reflexivity. Qed.

Lemma h_start : forall p h, honest false impl_own (start_node p h).
Proof.
  intros. unfold start_node, reader_pos. apply h_bind; [hon|intros []]. apply h_bind; [hon|intros name]. destruct (utf8_valid name).
  - apply h_bind; [hon|intro]. apply h_bind; [apply h_add|intro]. apply h_bind; [apply h_modify; apply source_count|intro]. hon.
  - apply h_throw. intros; exact I.
Qed.
Lemma h_impl : honest false impl_own next_event_impl.
Proof.
  unfold next_event_impl, reader_pos. apply h_bind; [hon|intro hl]. apply h_bind; [hon|intros []]. apply h_bind; [hon|intro l]. apply h_bind; [hon|intros []].
  apply h_bind; [apply h_skip_unread|intros []]. apply h_bind; [hon|intro start]. apply h_bind; [hon|intro cur].
  assert (A : forall st, honest false impl_own (
    let* h := read_node_header in
    let* hend := gets (fun s => r_pos (p_rd s)) in
    if is_node_end h then
      let* top := gets current_node in
      modify pop ;;
      match top with
      | Some c =>
          if negb (sn_end c =? hend)%N
          then throw (err_from (EData (NodeLengthMismatch (sn_end c) (Some hend))))
          else
            when (negb (sn_attrs c =? 0)%N && (sn_kids c =? 0)%N)
                 (let* p := position in warn ExtraNodeEndMarker p) ;;
            ret KEnd
      | None => ret KEndFbx
      end
    else start_node st h)).
  { intros st. apply h_bind; [apply h_header|intro h]. apply h_bind; [hon|intro hend]. destruct (is_node_end h); [|apply h_start].
    apply h_bind; [hon|intro top]. apply h_bind; [hon|intros []]. destruct top as [c|]; [|hon]. destruct (negb _); [apply h_throw; intros; exact I|hon]. }
  cbv zeta. destruct cur as [n|]; [|apply A]. destruct (_ <? _)%N; [apply h_throw; intros; exact I|]. destruct (_ =? _)%N; [hon|apply A].
Qed.

Lemma h_footer : honest false impl_own read_footer.
Proof.
  unfold read_footer, reader_pos. apply h_bind; [hon|intro st]. apply h_bind; [hon|intro u1]. apply h_bind; [hon|intro a1]. apply h_bind; [hon|intros []].
  apply h_bind; [hon|intro bs]. cbv zeta. apply h_bind; [hon|intro buf].
  assert (B : forall A, honest false impl_own (@broken A)) by (intros A; apply h_throw; intros; exact I).
  destruct (first_nonzero _) as [k|]; [|apply B]. apply h_bind; [hon|intros []]. apply h_bind; [hon|intros []].
  destruct (negb _); [apply B|]. destruct (negb _); [apply B|]. apply h_bind; [hon|intro v]. destruct (negb _); [apply B|]. destruct (negb _); [apply B|].
  apply h_bind; [hon|intro rest]. destruct (negb _); [apply B|]. hon.
Qed.

Lemma cause_keep : forall comp (own : econtainer -> pstate -> Prop) codes e e' s s', e_error e' = e_error e -> p_handler s' = p_handler s -> p_log s' = p_log s ->
  (own (e_error e) s -> own (e_error e) s') -> cause comp own codes e s -> cause comp own codes e' s'.
Proof.
  intros comp own codes e e' s s' Ee Eh El Eo [C|[C [R|R]]].
  - left. rewrite Ee. exact C.
  - right. split; [exact C|]. left. destruct R as (h & e0 & R1 & R2 & R3 & R4). exists h, e0. rewrite Eh, El, Ee. auto.
  - right. split; [exact C|]. right. rewrite Ee. auto.
Qed.

Lemma impl_next : forall codes e s, cause false impl_own codes e s -> cause false next_own codes e s.
Proof.
  intros codes e s [C|[C [R|R]]]; [left; exact C|right; split; [exact C|left; exact R]|].
  right; split; [exact C|right]. unfold impl_own in R. destruct (e_error e) as [[]|[]|[]|]; first [exact R|contradiction].
Qed.

(** [next_event] as a client sees it. *)
Definition ev_error (r : res perr event) : option perr :=
  match r with Err e => Some e | Ok (EvEndFbx (inl e)) => Some e | _ => None end.

Lemma next_causes : forall s r s', next_event s = (r, s') -> r <> Panic ->
  exists codes, happened (source s) (source s') codes /\
  match ev_error r with None => codes = [] | Some e => cause false next_own codes e s' end.
Proof.
  intros s r s' H Np. unfold next_event in H. rewrite bind_gets in H. unfold ensure_continuable in H. unfold bind at 1 in H. destruct (p_health s) as [| |p0] eqn:Eh.
  2:{ injection H as <- <-. exists []. split; [apply happened_refl|]. right. split; [reflexivity|]. right. exact Eh. }
  2:{ injection H as <- <-. exists []. split; [apply happened_refl|]. right. split; [reflexivity|]. right. exists p0. exact Eh. }
  unfold bind at 1, try_ at 1 in H. destruct (next_event_impl s) as [[k|e|] s1] eqn:E1; [| |injection H as <- <-; contradiction].
  - apply h_impl in E1.
    assert (NP : forall b (f : unit -> M event) sa, bind (assert_ b) f sa = (r, s') -> f tt sa = (r, s')).
    { intros [] f sa E; [exact E|]. injection E as <- <-. contradiction. }
    destruct k; cbn [ekind_eqb when] in H.
    + rewrite bind_ret, bind_modify, bind_gets in H. apply NP in H. rewrite bind_gets in H. apply NP in H. rewrite bind_gets in H.
      destruct (current_node _); [|injection H as <- <-; contradiction]. injection H as <- <-. exists []. split; [exact E1|reflexivity].
    + rewrite bind_ret, bind_modify, bind_gets in H. apply NP in H. rewrite bind_gets in H. apply NP in H. injection H as <- <-. exists []. split; [exact E1|reflexivity].
    + rewrite bind_modify, bind_modify, bind_gets in H. apply NP in H. rewrite bind_gets in H. apply NP in H.
      unfold bind, try_ in H. destruct (read_footer _) as [[ft|e|] s2] eqn:E2; [| |injection H as <- <-; contradiction].
      * apply h_footer in E2. injection H as <- <-. exists []. split; [eapply happened_trans0; [exact E1|exact E2]|reflexivity].
      * apply h_footer in E2. destruct E2 as (codes & C1 & C2). injection H as <- <-. exists codes. split; [eapply happened_trans0; [exact E1|exact C1]|].
        cbn [ev_error]. apply impl_next. exact C2.
  - apply h_impl in E1. destruct E1 as (codes & C1 & C2). unfold bind, position in H. destruct (position_of s1) as [p|]; [|injection H as <- <-; contradiction].
    cbn in H. injection H as <- <-. exists codes. split; [exact C1|]. cbn [ev_error].
    apply impl_next. eapply cause_keep; [| | | |exact C2]; try reflexivity.
    intros X. unfold impl_own in *. destruct (e_error e) as [[]|[]|[]|]; first [exact X|contradiction].
Qed.


Lemma skip_causes : forall s r s', skip_current_node s = (r, s') -> r <> Panic ->
  exists codes, happened (source s) (source s') codes /\
  match r with Err e => cause false next_own codes e s' | _ => codes = [] end.
Proof.
  intros s r s' H Np. assert (E : honest false impl_own skip_current_node).
  { unfold skip_current_node. apply h_bind; [hon|intro n]. destruct n; [|hon]. hon. }
  apply E in H. destruct r as [[]|e|]; [exists []; split; [exact H|reflexivity]| |contradiction].
  destruct H as (codes & C1 & C2). exists codes. split; [exact C1|]. apply impl_next. exact C2.
Qed.
End Next.

(** ** Loads *)
Section Load.
Context {env : Env}.
Definition limpl_own (e : econtainer) (s : pstate) : Prop :=
  match e with EOperation _ => False | _ => load_own e s end.
Lemma eof_load : forall s, s_rem (source s) = [] -> limpl_own (EIo IoEof) s.
Proof. intros s H. exact I. Qed.
Hint Resolve eof_load : honest.

(** A result as a value: the failures during the call, if it is an I/O error. *)
Definition told (codes : list N) (e : ioerr) : Prop := (exists c, codes = [c] /\ e = IoOther c) \/ (codes = [] /\ own_io e).

Lemma run_z_codes : forall A (says : ioerr -> A -> Prop) fine (p : zprog A), hands_on says fine p ->
  forall s r s', run_z p s = (r, s') ->
  match r with
  | Ok a => exists codes, happened (source s) (source s') codes /\ ((codes = [] /\ fine a) \/ exists e, told codes e /\ says e a)
  | Err _ => False
  | Panic => True
  end.
Proof.
  intros A says fine. induction p as [a|n k IH|n k IH]; intros H s r s' E; cbn [run_z] in E.
  - injection E as <- <-. exists []. split; [apply happened_refl|]. left. auto.
  - destruct H as [H1 H2]. unfold try_read, rdop, bind in E. destruct (rd_exact n (p_rd s)) as [[x|] rd'] eqn:Er; [|injection E as <- <-; exact I].
    apply rd_exact_codes in Er. destruct Er as (codes & Er & P). destruct x as [e|bs].
    + destruct (H1 e) as (a & Ea & Sa). rewrite Ea in E. injection E as <- <-. exists codes. split; [exact Er|]. right. exists e. split; [|exact Sa].
      destruct e; cbn in P; try contradiction; [right; split; [apply P|exact I]|left; eauto].
    + subst codes. apply IH in E; [|apply H2]. destruct r; [|exact E|exact I]. destruct E as (codes & E1 & E2). exists codes. split; [eapply happened_trans0; [exact Er|exact E1]|exact E2].
  - destruct H as [H1 H2]. unfold rdop, bind in E. destruct (rd_to_end n (p_rd s)) as [[x|] rd'] eqn:Er; [|injection E as <- <-; exact I].
    apply rd_to_end_codes in Er. destruct Er as (codes & Er & P). destruct x as [[e|] bs]; cbn [fst] in P.
    + destruct P as (c & -> & ->). destruct (H1 (IoOther c) bs) as (a & Ea & Sa). rewrite Ea in E. injection E as <- <-. exists [c]. split; [exact Er|]. right. exists (IoOther c). split; [|exact Sa].
      left. eauto.
    + subst codes. apply IH in E; [|apply H2]. destruct r; [|exact E|exact I]. destruct E as (codes & E1 & E2). exists codes. split; [eapply happened_trans0; [exact Er|exact E1]|exact E2].
Qed.

Context (Z : zlib_hands_on env).

Lemma h_decoder : forall enc, honest true limpl_own (mk_decoder enc).
Proof.
  intros [] s r s' H; unfold mk_decoder in H; [injection H as <- <-; apply happened_refl|].
  unfold bind in H. destruct (run_z z_open s) as [[o|e|] s1] eqn:E; apply (run_z_codes _ _ _ _ (proj1 Z)) in E; [|contradiction|injection H as <- <-; exact I].
  destruct E as (codes & E1 & E2). destruct o as [ze|st]; injection H as <- <-.
  2:{ destruct E2 as [[-> _]|(e & _ & X)]; [exact E1|discriminate]. }
  exists codes. split; [exact E1|]. destruct E2 as [[-> X]|(e & [(c & -> & ->)|[-> X]] & Y)].
  - right. split; [reflexivity|]. right. exact X.
  - left. exists c. injection Y as ->. auto.
  - right. split; [reflexivity|]. right. injection Y as ->. exact X.
Qed.

Lemma dec_read_codes : forall d n s r s', dec_read d n s = (r, s') ->
  match r with
  | Ok (_, inr _) => happened (source s) (source s') []
  | Ok (_, inl e) => exists codes, happened (source s) (source s') codes /\ told codes e
  | Err _ => False
  | Panic => True
  end.
Proof.
  intros d n s r s' H. destruct d as [|st]; unfold dec_read in H.
  - unfold try_read, rdop, bind in H. destruct (rd_exact n (p_rd s)) as [[x|] rd'] eqn:Er; [|injection H as <- <-; exact I].
    apply rd_exact_codes in Er. destruct Er as (codes & Er & P). injection H as <- <-. destruct x as [e|bs].
    + exists codes. split; [exact Er|]. destruct e; cbn in P; try contradiction; [right; split; [apply P|exact I]|left; eauto].
    + subst codes. exact Er.
  - unfold bind in H. destruct (run_z (z_read st n) s) as [[[x st']|e|] s1] eqn:E; apply (run_z_codes _ _ _ _ (proj2 Z st n)) in E; [|contradiction|injection H as <- <-; exact I].
    destruct E as (codes & E1 & E2). injection H as <- <-. cbn [fst] in E2. destruct x as [e|bs].
    + exists codes. split; [exact E1|]. destruct E2 as [[-> O]|(e' & T & X)]; [right; auto|]. injection X as ->. exact T.
    + destruct E2 as [[-> O]|(e' & T & X)]; [|discriminate]. destruct (Nat.eqb _ _); [exact E1|]. exists []. split; [exact E1|]. right. split; [reflexivity|exact I].
Qed.

Lemma it_next_codes : forall A (el : elem A) it s r s', it_next el it s = (r, s') ->
  match r with
  | Ok (it', Some (inl e)) => exists codes ioe, happened (source s) (source s') codes /\ told codes ioe /\ e = err_from (EIo ioe)
  | Ok (it', _) => happened (source s) (source s') [] /\ it_err it' = it_err it
  | Err _ => False
  | Panic => True
  end.
Proof.
  intros A el it s r s' H. unfold it_next in H. destruct (_ =? 0)%N; [injection H as <- <-; split; [apply happened_refl|reflexivity]|].
  unfold bind in H. destruct (dec_read _ _ s) as [[[d x]|e|] s1] eqn:E; apply dec_read_codes in E; [|contradiction|injection H as <- <-; exact I].
  destruct x as [e|bs]; injection H as <- <-.
  - destruct E as (codes & E1 & E2). exists codes, e. auto.
  - split; [exact E|reflexivity].
Qed.

Lemma mloop_rule : forall S R (f : S -> M (S + R)) (I : S -> pstate -> Prop) (J : R -> pstate -> Prop),
  (forall x s r s', I x s -> f x s = (r, s') -> match r with Ok (inl x') => I x' s' | Ok (inr v) => J v s' | Err _ => False | Panic => True end) ->
  forall p x s r s', I x s -> mloop p f x s = (r, s') -> match r with Ok (inl x') => I x' s' | Ok (inr v) => J v s' | Err _ => False | Panic => True end.
Proof.
  intros S R f I J H. induction p as [p IH|p IH|]; intros x s r s' Hi E; cbn [mloop] in E.
  - apply bind_inv in E. destruct E as [(a & s1 & E1 & E) | [(e & E1 & ->) | (E1 & ->)]]; apply (H _ _ _ _ Hi) in E1; [|exact E1|exact Coq.Init.Logic.I].
    destruct a as [x'|v]; [|injection E as <- <-; exact E1].
    apply bind_inv in E. destruct E as [(a & s2 & E2 & E) | [(e & E2 & ->) | (E2 & ->)]]; apply (IH _ _ _ _ E1) in E2; [|exact E2|exact Coq.Init.Logic.I].
    destruct a as [x''|v]; [|injection E as <- <-; exact E2]. apply (IH _ _ _ _ E2) in E. exact E.
  - apply bind_inv in E. destruct E as [(a & s2 & E2 & E) | [(e & E2 & ->) | (E2 & ->)]]; apply (IH _ _ _ _ Hi) in E2; [|exact E2|exact Coq.Init.Logic.I].
    destruct a as [x''|v]; [|injection E as <- <-; exact E2]. apply (IH _ _ _ _ E2) in E. exact E.
  - apply (H _ _ _ _ Hi) in E. exact E.
Qed.

Lemma it_collect_codes : forall A (el : elem A) it s r s', it_collect el it s = (r, s') ->
  match r with
  | Ok (it', inl e) => exists codes ioe, happened (source s) (source s') codes /\ told codes ioe /\ e = err_from (EIo ioe)
  | Ok (it', inr _) => happened (source s) (source s') [] /\ it_err it' = it_err it
  | Err _ => False
  | Panic => True
  end.
Proof.
  intros A el it s r s' H. unfold it_collect in H.
  set (I := fun (x : iterst * list A) s1 => happened (source s) (source s1) [] /\ it_err (fst x) = it_err it).
  set (J := fun (x : iterst * (perr + list A)) s1 => match snd x with
     | inl e => exists codes ioe, happened (source s) (source s1) codes /\ told codes ioe /\ e = err_from (EIo ioe)
     | inr _ => happened (source s) (source s1) [] /\ it_err (fst x) = it_err it end).
  assert (L : forall x s1 r1 s2, I x s1 -> collect_step el x s1 = (r1, s2) -> match r1 with Ok (inl x') => I x' s2 | Ok (inr v) => J v s2 | Err _ => False | Panic => True end).
  { intros [it1 acc] s1 r1 s2 [I1 I2] E. unfold collect_step, bind in E. destruct (it_next el it1 s1) as [[[it2 o]|e|] s3] eqn:E1; apply it_next_codes in E1;
      [|contradiction|injection E as <- <-; exact Coq.Init.Logic.I].
    destruct o as [[e|v]|]; injection E as <- <-.
    - destruct E1 as (codes & ioe & E1 & E2 & E3). exists codes, ioe. split; [eapply happened_trans0; eauto|auto].
    - destruct E1 as [E1 E2]. split; [eapply happened_trans0; eauto|]. cbn in *. congruence.
    - destruct E1 as [E1 E2]. split; [eapply happened_trans0; eauto|]. cbn in *. congruence. }
  unfold bind in H. destruct (mloop _ _ _ s) as [[[x|v]|e|] s1] eqn:E.
  - injection H as <- <-. exact Coq.Init.Logic.I.
  - apply (mloop_rule _ _ _ I J L) in E; [|split; [apply happened_refl|reflexivity]]. injection H as <- <-. destruct v as [it' [e|l]]; exact E.
  - apply (mloop_rule _ _ _ I J L) in E; [|split; [apply happened_refl|reflexivity]]. contradiction.
  - injection H as <- <-. exact Coq.Init.Logic.I.
Qed.

Lemma h_lift : forall O (r : perr + O), value_fine r -> honest true limpl_own (lift r).
Proof.
  intros O [e|v] V; [|apply h_ret]. cbn in V. destruct V as (a & b & V). apply h_throw. intros s. rewrite V. exact I.
Qed.

Lemma told_cause : forall codes ioe s, told codes ioe -> cause true limpl_own codes (err_from (EIo ioe)) s.
Proof.
  intros codes ioe s [(c & -> & ->)|[-> O]].
  - left. exists c. auto.
  - right. split; [reflexivity|]. right. exact O.
Qed.

Lemma h_warn_bool : forall a b, honest true limpl_own (warn_bool a b).
Proof. intros. unfold warn_bool, attr_position. hon. Qed.
Lemma h_update : forall n, honest true limpl_own (update_next_attr_start_offset n).
Proof. intros. unfold update_next_attr_start_offset, reader_pos, get_attrs. hon. Qed.

Lemma h_array : forall A O (el : elem A) (ld : N -> seqprog A O) a b, (forall n, seq_fine (ld n)) -> honest true limpl_own (load_array el ld a b).
Proof.
  intros A O el ld a b F. unfold load_array. apply h_bind.
  { unfold read_array_header. apply h_bind; [hon|intro]. apply h_bind; [hon|intro]. destruct (enc_of_u32 _); [hon|apply h_throw; intros; exact I]. }
  intros [[count enc] len]. apply h_bind; [apply h_update|intros []]. apply h_bind; [apply h_decoder|intro d].
  destruct (F count) as [(r & -> & V)|(f & ->)]; cbn [run_seq].
  - intros s x s' H. rewrite bind_ret in H. revert s x s' H. cbn [it_err it_bad]. apply h_bind; [apply h_lift; exact V|intro v].
    apply h_bind; [apply h_when; apply h_warn_bool|intros _; apply h_ret].
  - unfold collect_as. cbn [run_seq]. intros s x s' H. rewrite bind_assoc in H. unfold bind at 1 in H.
    destruct (it_collect el _ s) as [[[it' o]|e|] s1] eqn:E; apply it_collect_codes in E; [|contradiction|injection H as <- <-; exact I].
    cbn [run_seq] in H. rewrite bind_ret in H. destruct o as [e|l].
    + cbn in H. injection H as <- <-. destruct E as (codes & ioe & E1 & E2 & ->). exists codes. split; [exact E1|apply told_cause; exact E2].
    + destruct E as [E1 E2]. cbn [it_err] in E2. cbn [lift] in H. rewrite bind_ret, E2 in H.
      assert (Hm : honest true limpl_own (when (it_bad it') (warn_bool a b) ;; ret (f l))). { apply h_bind; [apply h_when; apply h_warn_bool|hon]. }
      apply Hm in H. destruct x; [|destruct H as (codes & H1 & H2); exists codes; split; [|exact H2]|exact I]; eapply happened_trans0; eauto.
Qed.

Lemma h_special : forall O (ld : N -> rdprog O), (forall n, rd_fine (ld n)) -> honest true limpl_own (load_special ld).
Proof.
  intros O ld F. unfold load_special. apply h_bind; [hon|intro len]. apply h_bind; [apply h_update|intros []].
  assert (R : forall (k : option ioerr * list byte -> perr + O), (forall e bs, k (Some e, bs) = inl (err_from (EIo e))) ->
     (forall bs, match k (None, bs) with inl e => exists ioe, e = err_from (EIo ioe) /\ own_io ioe | inr _ => True end) ->
     honest true limpl_own (let* r := run_rd (RToEnd (fun r => RRet (k r))) len in lift r)).
  { intros k K1 K2 s x s' H. cbn [run_rd] in H. unfold reader_pos, rdop in H. rewrite bind_assoc, bind_gets, bind_assoc in H. unfold bind at 1 in H.
    destruct (rd_to_end len (p_rd s)) as [[y|] rd'] eqn:E; [|injection H as <- <-; exact I]. apply rd_to_end_codes in E. destruct E as (codes & E & P).
    rewrite bind_assoc, bind_gets, bind_ret in H. destruct y as [[e|] bs]; cbn [fst] in P.
    - destruct P as (c & -> & ->). rewrite K1 in H. injection H as <- <-. exists [c]. split; [exact E|]. left. exists c. auto.
    - subst codes. specialize (K2 bs). destruct (k (None, bs)) as [e|v]; injection H as <- <-; [|exact E]. destruct K2 as (ioe & -> & O1).
      exists []. split; [exact E|]. right. split; [reflexivity|]. right. exact O1. }
  destruct (F len) as [(r & -> & V)|[(f & ->)|(f & ->)]].
  - cbn [run_rd]. intros s x s' H. rewrite bind_ret in H. eapply h_lift; eauto.
  - apply R; intros; cbn; auto.
  - apply R; intros; cbn; auto. destruct (utf8_valid bs); [exact I|]. exists IoUtf8. split; [reflexivity|exact I].
Qed.

Lemma load_causes : forall O b (ld : loader O) s r s', loader_fine ld -> load_next_gen b ld s = (r, s') -> r <> Panic ->
  exists codes, happened (source s) (source s') codes /\
  match r with Err e => cause true load_own codes e s' | _ => codes = [] end.
Proof.
  intros O b ld s r s' F H Np. unfold load_next_gen, do_with_health_check, ensure_continuable in H. unfold bind at 1 in H. destruct (p_health s) as [| |p0] eqn:Eh.
  2:{ injection H as <- <-. exists []. split; [apply happened_refl|]. right. split; [reflexivity|]. right. exact Eh. }
  2:{ injection H as <- <-. exists []. split; [apply happened_refl|]. right. split; [reflexivity|]. right. exists p0. exact Eh. }
  unfold get_attrs in H. rewrite bind_assoc, bind_gets in H. destruct (p_attrs s) as [a|]; [|injection H as <- <-; contradiction]. rewrite bind_ret in H.
  unfold bind at 1, try_ at 1 in H. set (f := (let* t := read_next_attr_type in _) : M (option O)) in H.
  assert (Hf : honest true limpl_own f).
  { unfold f. apply h_bind.
    - unfold read_next_attr_type, get_attrs, reader_pos. apply h_bind; [hon|intro a0]. destruct (_ =? 0)%N; [hon|]. apply h_bind; [hon|intro]. apply h_bind; [hon|intros []].
      apply h_bind; [|hon]. unfold read_attr_type. apply h_bind; [hon|intro c]. destruct (type_of_code c); [hon|apply h_throw; intros; exact I].
    - intros [t|]; [|hon]. apply h_bind; [|hon]. unfold load_next_impl.
      destruct F. destruct t; try solve [apply h_array; auto|apply h_special; destruct b; auto];
        repeat (apply h_bind; [first [apply h_update|apply h_when; apply h_warn_bool|hon]|intro]); apply h_lift; auto. }
  destruct (f s) as [[v|e|] s1] eqn:E; apply Hf in E.
  - injection H as <- <-. exists []. split; [exact E|reflexivity].
  - destruct E as (codes & C1 & C2). unfold attr_position in H. rewrite bind_assoc in H. unfold bind at 1, position in H. destruct (position_of s1) as [p|]; [|injection H as <- <-; contradiction].
    cbn in H. injection H as <- <-. exists codes. split; [exact C1|].
    assert (C3 : cause true limpl_own codes e s1 -> cause true load_own codes e s1).
    { intros [C|[C [R|R]]]; [left; exact C|right; split; [exact C|left; exact R]|]. right; split; [exact C|right]. unfold limpl_own in R. destruct (e_error e) as [[]|[]|[]|]; first [exact R|contradiction]. }
    match goal with |- cause _ _ _ ?e' ?s2 => assert (C4 : cause true limpl_own codes e' s2) end.
    { eapply cause_keep; [| | | |exact C2]; try reflexivity. intros X. unfold limpl_own in *. destruct (e_error e) as [[]|[]|[]|]; first [exact X|contradiction]. }
    destruct C4 as [C|[C [R|R]]]; [left; exact C|right; split; [exact C|left; exact R]|]. right; split; [exact C|right].
    unfold limpl_own in R. destruct (e_error _) as [[]|[]|[]|]; first [exact R|contradiction].
  - injection H as <- <-. contradiction.
Qed.
End Load.
