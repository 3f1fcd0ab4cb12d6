(** C54: failures of the reader are reported as they are. *)
Require Import Coq.Lists.List Coq.NArith.NArith Coq.ZArith.ZArith Coq.Bool.Bool Coq.micromega.Lia.
Require Import Coq.Init.Byte.
Require Import ZifyBool ZifyNat ZifyN.
Require Import Verif.Base Verif.BaseFacts Verif.Utf8 Verif.Types Verif.Io Verif.IoFacts Verif.Parser Verif.MonadFacts Verif.Loaders Verif.Zlib Verif.ParserPos Verif.SpecErr Verif.ErrFacts Verif.Samples Verif.PropsAttrPos.
Import ListNotations.
Ltac Zify.zify_post_hook ::= Z.div_mod_to_equations.
Open Scope monad_scope.

Section WithEnv.
Context {env : Env}.

(** A call of [next_event] or [skip_current_node], on a parser in any state: if it returns no
    error (in the footer neither), no read or seek failed during it; if it returns an error, then
    either exactly one read or seek failed, and the error is that failure, or none failed, and
    the error is the handler's or one of those the call finds itself. *)
Theorem C54_events : forall O (o : op O) s r s', (o = ONext \/ o = OSkip) -> run_op o s = (r, s') -> r <> Panic ->
  exists codes, happened (source s) (source s') codes /\
  match error_of r with None => codes = [] | Some e => cause false next_own codes e s' end.
Proof.
  intros O o s r s' [-> | ->] H Np; unfold run_op in H; rewrite bind_modify in H.
  - unfold bind in H. destruct (next_event (set_attrs None s)) as [x s1] eqn:E.
    assert (X : x <> Panic) by (intros ->; injection H as <- <-; contradiction).
    destruct (next_causes _ _ _ E X) as (codes & C1 & C2). exists codes. change (source (set_attrs None s)) with (source s) in C1.
    destruct x as [ev|e|]; [|injection H as <- <-; split; [exact C1|exact C2]|contradiction]. destruct ev as [name| |f].
    + unfold from_parser, bind, gets, reader_pos in H. destruct (current_node s1); [|injection H as <- <-; contradiction]. injection H as <- <-. split; [exact C1|exact C2].
    + injection H as <- <-. split; [exact C1|exact C2].
    + injection H as <- <-. split; [exact C1|]. destruct f; exact C2.
  - unfold bind in H. destruct (skip_current_node (set_attrs None s)) as [x s1] eqn:E.
    assert (X : x <> Panic) by (intros ->; injection H as <- <-; contradiction).
    destruct (skip_causes _ _ _ E X) as (codes & C1 & C2). exists codes. change (source (set_attrs None s)) with (source s) in C1.
    destruct x; injection H as <- <-; (split; [exact C1|exact C2]).
Qed.

(** The same of loading an attribute with a loader of the crate, or one that reads like them.
    Only a failure while the header of compressed data is read is reported as
    [BrokenCompression]. The compression library is assumed to hand failures of the reader on. *)
Theorem C54_loads : forall O (ld : loader O) (o : op O) s r s', zlib_hands_on env -> loader_fine ld ->
  (o = OLoad ld \/ o = OLoadBuf ld) -> run_op o s = (r, s') -> r <> Panic ->
  exists codes, happened (source s) (source s') codes /\
  match error_of r with None => codes = [] | Some e => cause true load_own codes e s' end.
Proof.
  intros O ld o s r s' Z F Ho H Np.
  assert (L : forall b, (let* a := gets p_attrs in match a with Some _ => let* v := load_next_gen b ld in ret (BAttr v) | None => ret BIgnored end) s = (r, s') ->
    exists codes, happened (source s) (source s') codes /\ match error_of r with None => codes = [] | Some e => cause true load_own codes e s' end).
  { intros b E. rewrite bind_gets in E. destruct (p_attrs s); [|injection E as <- <-; exists []; split; [apply happened_refl|reflexivity]].
    unfold bind in E. destruct (load_next_gen b ld s) as [x s1] eqn:E1.
    assert (X : x <> Panic) by (intros ->; injection E as <- <-; contradiction).
    destruct (load_causes Z _ _ _ _ _ _ F E1 X) as (codes & C1 & C2). exists codes. destruct x; injection E as <- <-; (split; [exact C1|exact C2]). }
  destruct Ho as [-> | ->]; [apply (L false)|apply (L true)]; exact H.
Qed.
End WithEnv.

(** The loaders of the crate are among these. *)
Theorem C54_shipped_loaders :
  loader_fine direct_loader /\ loader_fine type_loader /\
  loader_fine prim_bool /\ loader_fine prim_i16 /\ loader_fine prim_i32 /\ loader_fine prim_i64 /\
  loader_fine prim_f32 /\ loader_fine prim_f64 /\
  loader_fine arr_bool /\ loader_fine arr_i32 /\ loader_fine arr_i64 /\ loader_fine arr_f32 /\ loader_fine arr_f64 /\
  loader_fine binary_loader /\ loader_fine string_loader.
Proof.
  assert (U : forall O a b, value_fine (@unexpected O a b)) by (intros O a b; cbn; eauto).
  repeat split; intros; cbn; eauto;
    first [ left; eexists; split; [reflexivity|]; first [exact I|apply U]
          | right; left; eexists; reflexivity | right; right; eexists; reflexivity | right; eexists; reflexivity ].
Qed.

(** Creating a parser: an I/O error is a failure of one of the reads, or means that the data
    is shorter than a header. *)
Theorem C54_open : forall data sched seeks seekable e,
  any_parser (mkStream data 0 sched seeks) seekable = Err (AnyHeader (HeaderIo e)) ->
  (exists c pre post, e = IoOther c /\ sched = pre ++ AFail c :: post /\ read_codes pre = []) \/
  (e = IoEof /\ (lenN data < 27)%N).
Proof.
  intros data sched seeks seekable e H. unfold any_parser in H. destruct (header_load _) as [[v|x|] s'] eqn:Eh; [destruct (ver_supported v) eqn:Ev; [unfold parser_create in H; rewrite Ev in H|]; discriminate| |discriminate].
  injection H as ->. unfold header_load, st_read_exact in Eh. cbn [s_sched s_rem s_off s_seeks] in Eh.
  assert (AF : forall pre c, read_codes pre = [c] -> exists a b, pre = a ++ AFail c :: b /\ read_codes a = [] ).
  { induction pre as [|a pre IH]; intros c P; [discriminate|]. destruct a as [k| |c0].
    - apply IH in P. destruct P as (a & b & -> & P). exists (AChunk k :: a), b. auto.
    - apply IH in P. destruct P as (a & b & -> & P). exists (AIntr :: a), b. auto.
    - injection P as -> _. exists [], pre. auto. }
  destruct (rx sched data 23) as [[[e1 g1] r1] sc1] eqn:E1. pose proof (rx_codes _ _ _ _ _ _ _ E1) as (pre & P1 & P2). apply rx_gen in E1. destruct E1 as (D1 & G0 & G1 & _).
  destruct e1 as [e1|].
  - injection Eh as <- _. destruct e1; try contradiction.
    + right. split; [reflexivity|]. destruct P2 as [_ ->]. rewrite app_nil_r in D1. subst g1. unfold lenN. assert (length data <> 23 \/ length data = 23)%nat as [X|X] by lia; lia.
    + left. apply AF in P2. destruct P2 as (a & b & -> & P2). exists code, a, (b ++ sc1). split; [reflexivity|]. split; [rewrite P1, <- app_assoc; reflexivity|exact P2].
  - specialize (G1 eq_refl). destruct (bytes_eqb g1 magic); [|discriminate]. cbn [s_sched s_rem s_off s_seeks] in Eh.
    destruct (rx sc1 r1 4) as [[[e2 g2] r2] sc2] eqn:E2. pose proof (rx_codes _ _ _ _ _ _ _ E2) as (pre2 & Q1 & Q2). apply rx_gen in E2. destruct E2 as (D2 & G2 & _ & G3).
    destruct e2 as [e2|]; [|discriminate]. injection Eh as <- _. destruct e2; try contradiction.
    + right. split; [reflexivity|]. destruct (G3 eq_refl) as [-> G4]. subst data r1. rewrite app_nil_r, lenN_app. unfold lenN. lia.
    + left. apply AF in Q2. destruct Q2 as (a & b & -> & Q2). exists code, (pre ++ a), (b ++ sc2). split; [reflexivity|].
      split; [rewrite P1, Q1, <- !app_assoc; reflexivity|]. rewrite read_codes_app, P2, Q2. reflexivity.
Qed.

(** ** Examples *)
Example stored_hands_on : forall ovf, zlib_hands_on (stored_env ovf).
Proof.
  intros ovf. split.
  - cbn. split; [intros e; eexists; split; reflexivity|]. intros bs. destruct bs as [|a [|b [|c bs]]]; try exact I. cbn. destruct (_ && _)%bool; exact I.
  - intros [] n; cbn.
    + split; [intros e bs; eexists; split; reflexivity|]. intros bs. destruct (Nat.eqb _ _); exact I.
    + split; [intros e; eexists; split; reflexivity|]. intros bs0. split; [intros e bs; eexists; split; reflexivity|]. intros bs. destruct (Nat.eqb _ _); exact I.
Qed.

(** A read that fails within the header of the first node, one within an attribute, and an
    interrupted one that does no harm. *)
Definition outcomes {O} (rs : list (res perr (obs O))) : list (option econtainer) := map (fun r => option_map e_error (error_of r)) rs.
Example failing_read : exists p rs p', opened warning_doc [AChunk 23; AChunk 4; AIntr; AChunk 9; AFail 71] [] true None p /\
  run_ops (env:=release) [@ONext aval] p = (rs, p') /\ outcomes rs = [Some (EIo (IoOther 71))] /\ happened (source p) (source p') [71%N].
Proof.
  unfold opened. do 3 eexists. split; [eexists; split; [vm_compute; reflexivity|reflexivity]|]. split; [vm_compute; reflexivity|].
  split; [reflexivity|]. exists [AIntr; AChunk 9; AFail 71], []. repeat split.
Qed.
Example failing_load : exists p rs p', opened warning_doc [AChunk 23; AChunk 4; AChunk 4; AChunk 4; AChunk 4; AChunk 1; AChunk 1; AChunk 1; AFail 5] [] true None p /\
  run_ops (env:=release) [ONext; ld] p = (rs, p') /\ outcomes rs = [None; Some (EIo (IoOther 5))] /\ happened (source p) (source p') [5%N].
Proof.
  unfold opened. do 3 eexists. split; [eexists; split; [vm_compute; reflexivity|reflexivity]|]. split; [vm_compute; reflexivity|].
  split; [reflexivity|]. exists [AChunk 4; AChunk 4; AChunk 4; AChunk 1; AChunk 1; AChunk 1; AFail 5], []. repeat split.
Qed.
Example failing_seek : exists p rs p', opened warning_doc [] [Some 9%N] true None p /\
  run_ops (env:=release) [@ONext aval; OSkip] p = (rs, p') /\ outcomes rs = [None; Some (EIo (IoOther 9))] /\ happened (source p) (source p') [9%N].
Proof.
  unfold opened. do 3 eexists. split; [eexists; split; [vm_compute; reflexivity|reflexivity]|]. split; [vm_compute; reflexivity|].
  split; [reflexivity|]. exists [], [Some 9%N]. repeat split.
Qed.
Example failing_open : any_parser (mkStream warning_doc 0 [AChunk 23; AFail 3] []) true = Err (AnyHeader (HeaderIo (IoOther 3))).
Proof. reflexivity. Qed.

Print Assumptions C54_events.
Print Assumptions C54_loads.
Print Assumptions C54_shipped_loaders.
Print Assumptions C54_open.
