(** A reference reader for documents, defined on the document itself and not on bytes, and
    the agreement of the parser with it. *)
Require Import Coq.Lists.List Coq.NArith.NArith Coq.ZArith.ZArith Coq.Bool.Bool Coq.micromega.Lia.
Require Import Coq.Init.Byte.
Require Import ZifyBool ZifyNat ZifyN.
Require Import Verif.Base Verif.BaseFacts Verif.Utf8 Verif.Types Verif.Io Verif.IoFacts Verif.Parser Verif.MonadFacts Verif.ParserSteps Verif.Zlib Verif.Moves Verif.Loaders Verif.Spec Verif.SpecFacts Verif.ParserPos Verif.AttrLoad Verif.DocCursor Verif.FooterFacts Verif.PropsHeader Verif.DocTrace.
Import ListNotations.
Ltac Zify.zify_post_hook ::= Z.div_mod_to_equations.

(** ** Specification *)

(** The attribute values of the nodes, in the order in which the nodes start. *)
Fixpoint node_atts (n : node) : list (list aval) :=
  match n with Node _ ats kids => map at_val ats :: flat_map node_atts kids end.
Definition nodes_atts (l : list node) : list (list aval) := flat_map node_atts l.

(** The calls of a client that reads attributes with the direct loader. *)
Inductive call := CNext | CLoad (buffered : bool) | CSkip.
Definition op_of (c : call) : op aval :=
  match c with
  | CNext => ONext
  | CLoad b => if b then OLoadBuf direct_loader else OLoad direct_loader
  | CSkip => OSkip
  end.

(** The reference reader: events to come, attributes of nodes to come, attributes of the node
    just started that are not yet loaded, warnings so far (latest first). *)
Record rstate := mkR { rf_trace : list (event * synpos); rf_atts : list (list aval);
                       rf_cur : option (list aval); rf_warn : list warning }.

(** Drop the events up to the end of the node [d] levels above the innermost open one;
    the position is that of the last event dropped. *)
Fixpoint drop_close (d : nat) (t : list (event * synpos)) (A : list (list aval))
  : option (synpos * list (event * synpos) * list (list aval)) :=
  match t with
  | [] => None
  | (EvStart _, _) :: t' => drop_close (S d) t' (tl A)
  | (EvEnd, p) :: t' => match d with O => Some (p, t', A) | S d' => drop_close d' t' A end
  | (EvEndFbx _, _) :: _ => None
  end.

(** The warnings of an event: an empty name, or oddities of the footer (given). *)
Definition event_warnings (fw : list warning) (e : event) : list warning :=
  match e with EvStart [] => [EmptyNodeName] | EvStart _ => [] | EvEnd => [] | EvEndFbx _ => fw end.

(** One call: what the client sees, the position after it (only for calls that change it as
    a whole), and the new state; [None] if the call is not possible there. *)
Definition ref_call (fw : list warning) (c : call) (r : rstate) : option (obs aval * option synpos * rstate) :=
  match c with
  | CNext =>
      match rf_trace r with
      | [] => None
      | (e, p) :: t =>
          Some (BEvent e, Some p,
                match e with
                | EvStart _ => mkR t (tl (rf_atts r)) (hd_error (rf_atts r)) (event_warnings fw e ++ rf_warn r)
                | _ => mkR t (rf_atts r) None (event_warnings fw e ++ rf_warn r)
                end)
      end
  | CLoad _ =>
      match rf_cur r with
      | None => Some (BIgnored, None, r)
      | Some [] => Some (BAttr None, None, r)
      | Some (v :: vs) => Some (BAttr (Some v), None, mkR (rf_trace r) (rf_atts r) (Some vs) (rf_warn r))
      end
  | CSkip =>
      match drop_close 0 (rf_trace r) (rf_atts r) with
      | None => None
      | Some (p, t, A) => Some (BSkipped, Some p, mkR t A None (rf_warn r))
      end
  end.

(** A sequence of calls. *)
Inductive ref_run (fw : list warning) : rstate -> list call -> list (obs aval * option synpos) -> rstate -> Prop :=
| RefNil : forall r, ref_run fw r [] [] r
| RefCons : forall r c l o p r1 os r2, ref_call fw c r = Some (o, p, r1) -> ref_run fw r1 l os r2 ->
    ref_run fw r (c :: l) ((o, p) :: os) r2.

Definition footer_warnings {env : Env} (ver : N) (ns : list node) (f : foot) : list warning :=
  let pos := (27 + nodes_size ver ns + header_size ver)%N in
  map fst (pad_warnings pos (ft_pad f) ++ nib_warnings pos (ft_unknown1 f)).

Definition ref_start {env : Env} (ver : N) (ns : list node) (f : foot) : rstate :=
  mkR (doc_trace ver ns f) (nodes_atts ns) None [].

(** The result seen matches the expected one. *)
Definition sees (x : res perr (obs aval) * option synpos) (y : obs aval * option synpos) : Prop :=
  fst x = Ok (fst y) /\ match snd y with Some p => snd x = Some p | None => True end.

(** ** Proofs *)
Section Ref.
Context {env : Env} (ver lim : N) (f0 : foot) (ext : list byte).
Context (HV : u_ok (width ver) lim) (HF : foot_ok f0) (H4 : u_ok 4 ver) (HZ : zlib_roundtrip env).
Notation tail := (enc_footer ver f0 ++ ext).
Notation at_cur := (at_cur ver lim tail).
Notation ctrace := (ctrace ver f0).

Fixpoint f_atts (rest : list node) (fs : list dframe) : list (list aval) :=
  match fs with [] => nodes_atts rest | f :: t => nodes_atts (d_rest f) ++ f_atts rest t end.
Definition c_atts (c : cursor) : list (list aval) := f_atts (c_rest c) (c_frames c).

Lemma nodes_atts_cons : forall n l, nodes_atts (n :: l) = map at_val (nd_attrs n) :: nodes_atts (nd_kids n) ++ nodes_atts l.
Proof. intros [name ats kids] l. reflexivity. Qed.

Lemma c_atts_start : forall c k c', next_of ver c = DStart k c' -> c_atts c = map at_val (nd_attrs k) :: c_atts c' /\ c_attrs c' = Some (nd_attrs k).
Proof.
  intros c k c' H. unfold next_of in H. unfold c_atts. destruct (c_frames c) as [|f fs] eqn:Ef.
  - destruct (c_rest c) as [|k0 r]; [discriminate|]. injection H as -> <-. cbn [c_rest c_frames f_atts nd_of d_rest]. split; [apply nodes_atts_cons|reflexivity].
  - destruct (d_rest f) as [|k0 r] eqn:Er; [discriminate|]. injection H as -> <-. cbn [c_rest c_frames f_atts nd_of d_rest d_take]. rewrite Er, nodes_atts_cons.
    cbn [app]. rewrite <- app_assoc. split; reflexivity.
Qed.
Lemma c_atts_end : forall c c', next_of ver c = DEnd c' -> c_atts c = c_atts c' /\ c_attrs c' = None.
Proof.
  intros c c' H. unfold next_of in H. unfold c_atts. destruct (c_frames c) as [|f fs] eqn:Ef.
  - destruct (c_rest c) as [|k0 r]; discriminate.
  - destruct (d_rest f) as [|k0 r] eqn:Er; [|discriminate]. injection H as <-. cbn [c_rest c_frames f_atts]. rewrite Er. split; reflexivity.
Qed.
Lemma c_atts_fbx : forall c, next_of ver c = DFbx -> c_atts c = [].
Proof.
  intros c H. unfold next_of in H. unfold c_atts. destruct (c_frames c) as [|f fs] eqn:Ef.
  - destruct (c_rest c) as [|k0 r]; [reflexivity|discriminate].
  - destruct (d_rest f); discriminate.
Qed.

(** Nested nodes are passed over. *)
Fixpoint drop_node (n : node) : forall parent path i off d t A,
  drop_close d (node_trace ver parent path i off n ++ t) (node_atts n ++ A) = drop_close d t A.
Proof.
  destruct n as [name ats kids]. intros parent path i off d t A. rewrite node_trace_eq. cbn [app drop_close node_atts tl].
  assert (K : forall l, Forall (fun n => forall parent path i off d t A,
      drop_close d (node_trace ver parent path i off n ++ t) (node_atts n ++ A) = drop_close d t A) l ->
      forall parent path i off d t A, drop_close d (nodes_trace ver parent path i off l ++ t) (nodes_atts l ++ A) = drop_close d t A).
  { clear. induction 1 as [|n l Hn Hl IH]; intros parent path i off d t A; [reflexivity|]. cbn [nodes_trace nodes_atts flat_map].
    rewrite <- !app_assoc, Hn. apply IH. }
  rewrite <- app_assoc. change (flat_map node_atts kids) with (nodes_atts kids). rewrite K; [reflexivity|].
  clear - drop_node. induction kids as [|k kids IH]; constructor; [apply drop_node|exact IH].
Qed.
Lemma drop_nodes : forall l parent path i off d t A,
  drop_close d (nodes_trace ver parent path i off l ++ t) (nodes_atts l ++ A) = drop_close d t A.
Proof.
  induction l as [|n l IH]; intros parent path i off d t A; [reflexivity|]. cbn [nodes_trace nodes_atts flat_map].
  rewrite <- !app_assoc, drop_node. apply IH.
Qed.

Lemma drop_skip : forall c f fs, c_frames c = f :: fs -> cur_ok ver lim c ->
  drop_close 0 (ctrace c) (c_atts c) = Some (mkPos (c_pos ver (c_skip c)) (f_off fs) (f_path (c_done c) fs) None, ctrace (c_skip c), c_atts (c_skip c)).
Proof.
  intros c f fs Ef Hok. unfold DocTrace.ctrace, c_atts. rewrite Ef. cbn [rest_trace f_atts c_skip c_done c_rest c_frames tl].
  rewrite drop_nodes. cbn [drop_close]. rewrite Ef. cbn [tl]. do 4 f_equal.
  pose proof (co_linked _ _ _ Hok) as L. rewrite Ef in L. destruct L as [L _]. unfold c_pos. cbn [c_skip c_frames c_done]. rewrite Ef. cbn [tl].
  destruct fs; apply L.
Qed.

Context (W : list warning).
(** The parser is where the reference reader is. [W]: the warnings of the footer. *)
Definition at_ref (r : rstate) (s : pstate) : Prop :=
  map fst (p_log s) = rf_warn r /\
  ((exists c, at_cur c s /\ r_seekable (p_rd s) = true /\ rf_trace r = ctrace c /\ rf_atts r = c_atts c /\ rf_cur r = option_map (map at_val) (c_attrs c) /\
      W = map fst (pad_warnings (top_pos ver (c_done c ++ c_rest c) + header_size ver) (ft_pad f0) ++ nib_warnings (top_pos ver (c_done c ++ c_rest c) + header_size ver) (ft_unknown1 f0))) \/
   (p_health s = Finished /\ p_attrs s = None /\ p_stack s = [] /\ rf_trace r = [] /\ rf_cur r = None /\
    (pos_of s <= lim + header_size ver + lenN (enc_footer ver f0))%N)).

Lemma done_rest : forall c, match next_of ver c with DStart _ c' | DEnd c' => c_done c' ++ c_rest c' = c_done c ++ c_rest c | DFbx => c_rest c = [] /\ c_frames c = [] end.
Proof.
  intros c. unfold next_of. destruct (c_frames c) as [|f fs].
  - destruct (c_rest c) as [|k r]; [auto|]. cbn [c_done c_rest]. rewrite <- app_assoc. reflexivity.
  - destruct (d_rest f); reflexivity.
Qed.

Lemma ref_step : forall c0 r s o p r', at_ref r s -> ref_call W c0 r = Some (o, p, r') ->
  exists s', run_op (op_of c0) s = (Ok o, s') /\ at_ref r' s' /\ match p with Some q => position_of s' = Some q | None => True end.
Proof.
  intros c0 r s o p r' [HW [(c & H & Hs & Et & Ea & Ec & EW)|(H1 & H2 & H3 & Et & Ec & Hlim)]] HR.
  2:{ destruct c0 as [|b|]; cbn [ref_call] in HR.
      - rewrite Et in HR. discriminate.
      - rewrite Ec in HR. injection HR as <- <- <-. exists s. split; [|split; [|exact I]].
        + destruct b; cbn [op_of run_op]; rewrite bind_gets, H2; reflexivity.
        + split; [exact HW|]. right. auto 7.
      - rewrite Et in HR. discriminate. }
  destruct c0 as [|b|]; cbn [ref_call] in HR.
  - pose proof (done_rest c) as DR. destruct (next_of ver c) as [k c'|c'|] eqn:Hn.
    + destruct (run_start ver lim tail HV aval _ _ _ _ H (or_introl Hs) Hn) as (s' & E & Hc & Hp & _ & Hk & Hl).
      destruct (c_atts_start _ _ _ Hn) as [A1 A2].
      rewrite Et, (ctrace_start _ _ _ _ _ Hn), Ea, A1 in HR. cbn [hd_error tl] in HR. injection HR as <- <- <-.
      exists s'. split; [exact E|]. split.
      * split. { cbn [rf_warn]. unfold log_start in Hl. destruct (nd_name k) as [|x y]; [destruct Hl as (q & ->)|rewrite Hl]; cbn [map fst event_warnings app]; congruence. }
        left. exists c'. cbn [rf_trace rf_atts rf_cur]. rewrite DR, A2. repeat split; auto; try apply Hc. congruence.
      * rewrite (cur_position _ _ _ _ (ac_ok _ _ _ _ _ Hc) (ac_shape _ _ _ _ _ Hc)), Hp. reflexivity.
    + destruct (run_end ver lim tail aval _ _ _ H (or_introl Hs) Hn) as (s' & E & Hc & (Hl & _ & Hk)).
      destruct (c_atts_end _ _ Hn) as [A1 A2].
      rewrite Et, (ctrace_end _ _ _ _ _ (ac_ok _ _ _ _ _ H) Hn), Ea, A1 in HR. injection HR as <- <- <-.
      exists s'. split; [exact E|]. split.
      * split. { cbn [rf_warn event_warnings app]. congruence. }
        left. exists c'. cbn [rf_trace rf_atts rf_cur]. rewrite DR, A2. repeat split; auto; try apply Hc. congruence.
      * rewrite (cur_position _ _ _ _ (ac_ok _ _ _ _ _ Hc) (ac_shape _ _ _ _ _ Hc)). do 2 f_equal.
        pose proof (ac_where _ _ _ _ _ Hc) as X. rewrite A2 in X. apply X.
    + destruct (run_footer ver lim f0 ext HF H4 aval _ _ H (or_introl Hs) Hn) as (s' & E & X1 & X2 & X3 & X4 & _ & X5).
      rewrite Et, (ctrace_fbx _ _ _ Hn), Ea in HR. injection HR as <- <- <-.
      exists s'. split; [exact E|]. split.
      * split. { cbn [rf_warn event_warnings]. rewrite X5, app_assoc, map_app, HW, EW. f_equal. destruct DR as [DR1 DR2]. unfold c_pos. rewrite DR2, DR1, app_nil_r. reflexivity. }
        right. repeat split; auto. pose proof (co_lim _ _ _ (ac_ok _ _ _ _ _ H)) as B. destruct DR as [DR1 DR2]. rewrite DR1, app_nil_r in B.
        rewrite X4. unfold c_pos. rewrite DR2. lia.
      * unfold position_of. rewrite X3. fold (pos_of s'). rewrite X4. reflexivity.
  - assert (Hl : load_ready s) by (left; exact Hs).
    destruct (run_direct ver lim tail HZ b c s H Hl) as (s' & E & _).
    pose proof (run_load ver lim tail HZ _ _ _ _ _ _ _ H Hl E) as K. rewrite Ec in HR.
    exists s'. assert (OP : op_of (CLoad b) = load_of b direct_loader) by (destruct b; reflexivity). rewrite OP.
    destruct (c_attrs c) as [[|a ats]|] eqn:Eat; cbn [option_map map] in HR; injection HR as <- <- <-; (split; [exact E|]); (split; [|exact I]).
    + destruct K as [_ ->]. split; [exact HW|]. left. exists c. rewrite Ec, Eat. repeat split; auto; apply H.
    + destruct K as (_ & K & (K1 & _ & K2)). split; [cbn [rf_warn]; congruence|]. left. exists (c_load c ats). cbn [rf_trace rf_atts rf_cur c_load c_attrs c_done c_rest option_map].
      repeat split; auto; try apply K; congruence.
    + destruct K as [_ ->]. split; [exact HW|]. left. exists c. rewrite Ec, Eat. repeat split; auto; apply H.
  - destruct (c_frames c) as [|f fs] eqn:Ef.
    { exfalso. rewrite Et, Ea in HR. unfold DocTrace.ctrace, c_atts in HR. rewrite Ef in HR. cbn [rest_trace f_atts] in HR.
      rewrite <- (app_nil_r (nodes_atts (c_rest c))), drop_nodes in HR. discriminate. }
    rewrite Et, Ea, (drop_skip _ _ _ Ef (ac_ok _ _ _ _ _ H)) in HR. injection HR as <- <- <-.
    destruct (run_skip ver lim tail aval c s f fs H Ef Hs) as (s' & E & Hc & (K1 & _ & K2)).
    exists s'. split; [exact E|]. split.
    + split; [cbn [rf_warn]; congruence|]. left. exists (c_skip c). cbn [rf_trace rf_atts rf_cur]. repeat split; auto; try apply Hc. congruence.
    + rewrite (cur_position _ _ _ _ (ac_ok _ _ _ _ _ Hc) (ac_shape _ _ _ _ _ Hc)). cbn [c_skip c_frames c_done]. rewrite Ef. cbn [tl]. do 2 f_equal.
      pose proof (ac_where _ _ _ _ _ Hc) as X. cbn [c_skip c_attrs] in X. apply X.
Qed.

Lemma ref_steps : forall r l os r', ref_run W r l os r' -> forall s, at_ref r s ->
  exists rs s', run_pos (map op_of l) s = (rs, s') /\ Forall2 sees rs os /\ at_ref r' s'.
Proof.
  induction 1 as [r|r c l o p r1 os r2 Hc Hl IH]; intros s H.
  - exists [], s. cbn. auto.
  - destruct (ref_step _ _ _ _ _ _ H Hc) as (s1 & E1 & H1 & P1). destruct (IH s1 H1) as (rs & s2 & E2 & F2 & H2).
    cbn [map run_pos]. rewrite E1, E2. eexists _, _. split; [reflexivity|]. split; [|exact H2].
    constructor; [|exact F2]. split; [reflexivity|]. cbn [fst snd]. destruct p; auto.
Qed.

(** Calls outside the reference reader's domain. *)
Lemma ref_next_total : forall r s, at_ref r s -> ref_call W CNext r = None -> rf_trace r = [] /\ p_health s = Finished.
Proof.
  intros r s [_ [(c & H & Hs & Et & _)|(H1 & _ & _ & Et & _)]] HR; [|auto].
  exfalso. cbn [ref_call] in HR. rewrite Et in HR.
  destruct (next_cases ver lim f0 ext HV HF H4 aval c s H (or_introl Hs)) as (e & p & t & s' & _ & E & _). rewrite E in HR. discriminate.
Qed.
End Ref.
