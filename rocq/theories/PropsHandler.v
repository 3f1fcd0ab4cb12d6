(** C49: the warning handler may be replaced at any time. *)
Require Import Coq.Lists.List Coq.NArith.NArith Coq.ZArith.ZArith Coq.Bool.Bool Coq.Arith.PeanoNat Coq.micromega.Lia.
Require Import Coq.Init.Byte.
Require Import Verif.Base Verif.BaseFacts Verif.Utf8 Verif.Types Verif.Io Verif.IoFacts Verif.Parser Verif.MonadFacts Verif.Zlib Verif.Loaders Verif.Spec Verif.ParserSteps Verif.SpecHist Verif.ParserHist Verif.ParserPos Verif.ParserRel Verif.ParserSafe Verif.EscRel Verif.PropsEvents Verif.PropsSafety Verif.PropsRel Verif.Samples.
Import ListNotations.

(** ** Specification *)

(** What a client may do: a call on the parser or its attributes, or
    [Parser::set_warning_handler] (parser.rs lines 105-110).  The borrow checker ends the life of
    the attributes of the current node at that call; the model lets the client go on using them.
    A handler that looks at state shared with the client changes its mind between two calls: that
    is the same as installing another handler. *)
Inductive hop (O : Type) := HCall (o : op O) | HSet (h : handler).
Arguments HCall {O}. Arguments HSet {O}.

(** The calls without the changes of handler. *)
Fixpoint calls {O} (l : list (hop O)) : list (op O) :=
  match l with [] => [] | HCall o :: t => o :: calls t | HSet _ :: t => calls t end.

(** The handlers installed along the way. *)
Fixpoint handlers {O} (l : list (hop O)) : list handler :=
  match l with [] => [] | HCall _ :: t => handlers t | HSet h :: t => h :: handlers t end.

(** The handler in force after [l]. *)
Definition in_force {O} (h0 : option handler) (l : list (hop O)) : option handler :=
  fold_left (fun cur x => match x with HCall _ => cur | HSet h => Some h end) l h0.

(** What the handler in force says. *)
Definition verdict (h : option handler) (log : list (warning * synpos)) : option perr :=
  match h with None => None | Some f => f log end.

Section WithEnv.
Context {env : Env}.

(** Run a client that may change the handler (see [run_ops]). *)
Fixpoint run_hops {O} (l : list (hop O)) (s : pstate) : list (res perr (obs O)) * pstate :=
  match l with
  | [] => ([], s)
  | HSet h :: t => run_hops t (set_handler (Some h) s)
  | HCall o :: t =>
      let '(r, s') := run_op o s in
      match r with
      | Panic => ([Panic], s')
      | _ => let '(rs, s'') := run_hops t s' in (r :: rs, s'')
      end
  end.

(** ** Two runs with handlers that agree on the warnings raised *)
Section Swap.
Context (H : handler) (a b : nat).

Definition swap (s1 s2 : pstate) : Prop :=
  s2 = set_handler (Some H) s1 /\ (a <= length (p_log s1))%nat /\
  forall log, (a < length log <= b)%nat -> H log = verdict (p_handler s1) log.
Definition past (s : pstate) : Prop := (b < length (p_log s))%nat.

Lemma past_fwd : forall s s', fwd s s' -> past s -> past s'.
Proof. intros s s' (_ & _ & (l & E) & _) P. unfold past in *. rewrite E, app_length. lia. Qed.
Lemma swap_agrees : forall s1 s2, swap s1 s2 -> agrees s1 s2.
Proof. intros s1 s2 (-> & _). constructor; reflexivity. Qed.
Lemma swap_upd : forall f : pstate -> pstate, (forall s, set_handler (Some H) (f s) = f (set_handler (Some H) s)) ->
  (forall s, p_log (f s) = p_log s) -> (forall s, p_handler (f s) = p_handler s) ->
  forall s1 s2, swap s1 s2 -> swap (f s1) (f s2).
Proof. intros f C L P s1 s2 (-> & A & B). split; [symmetry; apply C|]. rewrite L, P. auto. Qed.
Lemma w_rdop : forall A (f : reader -> option A * reader), (forall r x r', f r = (Some x, r') -> rd_fwd r r') -> erel swap past fwd (rdop f).
Proof.
  intros A f F. split.
  - apply st_rdop. intros s x r E. apply F in E. split; [reflexivity|]. split; [reflexivity|]. split; [exists []; reflexivity|exact E].
  - intros s1 s2 r t1 (-> & X & Y) E Hp. right. unfold rdop in *. cbn [p_rd set_handler].
    destruct (f (p_rd s1)) as [[x|] r']; injection E as <- <-; (eexists; split; [reflexivity|]); (split; [reflexivity|]); split; assumption.
Qed.
Lemma w_warn : forall w p, erel swap past fwd (warn w p).
Proof.
  intros w p. split; [apply steps_qf; apply warn_quiet|].
  intros s1 s2 r t1 (-> & X & Y) E _. unfold warn in *. cbn [p_handler set_handler p_log].
  assert (Et : p_log t1 = (w, p) :: p_log s1) by (destruct (p_handler s1) as [h|]; [destruct (h _)|]; injection E as <- <-; reflexivity).
  destruct (Nat.lt_ge_cases b (length (p_log t1))) as [L|L]; [left; exact L|]. right.
  rewrite Y by (cbn; rewrite Et in L; cbn in L; lia). unfold verdict.
  destruct (p_handler s1) as [h|] eqn:Eh; [destruct (h _)|]; injection E as <- <-;
    (eexists; split; [reflexivity|]); (split; [reflexivity|]); (split; [cbn; lia|]); cbn [set_log p_handler]; rewrite Eh; exact Y.
Qed.
Lemma w_reader_pos : erel swap past fwd reader_pos.
Proof. apply (e_same swap past fwd fwd_pre); [reflexivity|]. intros s1 s2 (-> & _). reflexivity. Qed.
Lemma w_peek : forall limit, erel swap past fwd (rdop (fun r0 =>
  let '(x, r1) := rd_peek (peek_len limit (s_rem (r_stream r0))) r0 in (Some x, r1))).
Proof.
  intros limit. apply w_rdop. intros r a0 r' E. destruct (rd_peek _ r) as [x r1] eqn:Ep. injection E as _ <-. apply (rd_peek_fwd _ _ _ _ Ep).
Qed.
Lemma w_run : forall O (p : rdprog O) limit, erel swap past fwd (run_rd p limit).
Proof.
  intros O p. induction p as [r|n k IH|n k IH|k IH|amt k IH]; intros limit; cbn [run_rd].
  - apply (e_ret _ _ _ fwd_pre).
  - apply (e_bind _ _ _ fwd_pre past_fwd); [apply w_rdop, rd_once_fwd|]. intros r. apply IH.
  - destruct (N.of_nat n <=? limit)%N.
    + apply (e_bind _ _ _ fwd_pre past_fwd); [apply w_reader_pos|]. intros p0. apply (e_bind _ _ _ fwd_pre past_fwd); [apply w_rdop, rd_exact_fwd|]. intros r.
      apply (e_bind _ _ _ fwd_pre past_fwd); [apply w_reader_pos|]. intros p1. apply IH.
    + apply (e_bind _ _ _ fwd_pre past_fwd); [apply w_reader_pos|]. intros p0. apply (e_bind _ _ _ fwd_pre past_fwd); [apply w_rdop, rd_to_end_fwd|]. intros r.
      apply (e_bind _ _ _ fwd_pre past_fwd); [apply w_reader_pos|]. intros p1. apply IH.
  - apply (e_bind _ _ _ fwd_pre past_fwd); [apply w_reader_pos|]. intros p0. apply (e_bind _ _ _ fwd_pre past_fwd); [apply w_rdop, rd_to_end_fwd|]. intros r.
    apply (e_bind _ _ _ fwd_pre past_fwd); [apply w_reader_pos|]. intros p1. apply IH.
  - apply (e_bind _ _ _ fwd_pre past_fwd); [apply w_peek|]. intros r. apply (e_bind _ _ _ fwd_pre past_fwd); [apply w_rdop, rd_drop_fwd|]. intros _. apply IH.
Qed.
Lemma swap_op : forall O (o : op O) s1 s2 r t1, swap s1 s2 -> run_op o s1 = (r, t1) -> r <> Panic ->
  past t1 \/ exists t2, run_op o s2 = (r, t2) /\ swap t1 t2.
Proof.
  intros O o. apply (e_run_op swap past fwd fwd_pre fwd_same past_fwd swap_agrees).
  - intros h. apply (swap_upd (set_health h)); reflexivity.
  - intros h. apply (swap_upd (set_stack h)); reflexivity.
  - intros h. apply (swap_upd (set_last h)); reflexivity.
  - intros h. apply (swap_upd (set_top h)); reflexivity.
  - intros h. apply (swap_upd (set_attrs h)); reflexivity.
  - apply w_warn.
  - intros n. apply w_rdop, rd_exact_fwd.
  - intros n. apply w_rdop, rd_to_end_fwd.
  - intros n. apply w_rdop. intros r o0 r' E. apply (skip_to_fwd _ _ _ _ E).
  - apply w_run.
Qed.
End Swap.

Lemma handler_again : forall h h' s, set_handler h (set_handler h' s) = set_handler h s.
Proof. reflexivity. Qed.

Lemma hops_call_inv : forall O (o : op O) l s rs t, run_hops (HCall o :: l) s = (rs, t) -> no_panic rs ->
  exists r u rs', run_op o s = (r, u) /\ r <> Panic /\ run_hops l u = (rs', t) /\ rs = r :: rs' /\ no_panic rs'.
Proof.
  intros O o l s rs t E Hp. cbn [run_hops] in E. destruct (run_op o s) as [r u] eqn:Eo.
  destruct r as [v|e|]; [| |injection E as <- <-; inversion Hp; subst; congruence];
    (destruct (run_hops l u) as [rs' t'] eqn:El; injection E as <- <-; do 3 eexists; split; [reflexivity|]; split; [discriminate|];
     split; [exact El|]; split; [reflexivity|]; inversion Hp; assumption).
Qed.

Lemma hops_log : forall O (l : list (hop O)) s rs t, run_hops l s = (rs, t) -> no_panic rs ->
  (length (p_log s) <= length (p_log t))%nat.
Proof.
  intros O l. induction l as [|[o|h] l IH]; intros s rs t E Hp.
  - injection E as <- <-. lia.
  - apply hops_call_inv in E; [|exact Hp]. destruct E as (r & u & rs' & Eo & Hr & El & -> & Hp').
    pose proof (run_op_fwd O o s) as F. unfold steps in F. rewrite Eo in F. destruct (F Hr) as (_ & _ & (x & X) & _).
    specialize (IH _ _ _ El Hp'). cbn [snd] in X. rewrite X, app_length in IH. lia.
  - apply (IH _ _ _ E Hp).
Qed.

Lemma single : forall O (l : list (hop O)) s rs t, run_hops l s = (rs, t) -> no_panic rs ->
  exists H, (forall log, H log = verdict (p_handler s) log \/ exists h, In h (handlers l) /\ H log = h log) /\
  forall H', (forall log, (length (p_log s) < length log <= length (p_log t))%nat -> H' log = H log) ->
    run_ops (calls l) (set_handler (Some H') s) = (rs, set_handler (Some H') t).
Proof.
  intros O l. induction l as [|[o|h] l IH]; intros s rs t E Hp.
  - injection E as <- <-. exists (verdict (p_handler s)). split; [auto|]. intros H' _. reflexivity.
  - apply hops_call_inv in E; [|exact Hp]. destruct E as (r & u & rs' & Eo & Hr & El & -> & Hp').
    pose proof (hops_log _ _ _ _ _ El Hp') as Lt.
    pose proof (run_op_fwd O o s) as F. unfold steps in F. rewrite Eo in F. destruct (F Hr) as (_ & Fh & (x & X) & _). cbn [snd] in Fh, X.
    assert (Ls : (length (p_log s) <= length (p_log u))%nat) by (rewrite X, app_length; lia).
    destruct (IH _ _ _ El Hp') as (Hu & V & K).
    exists (fun log => if (length log <=? length (p_log u))%nat then verdict (p_handler s) log else Hu log). split.
    + intros log. destruct (length log <=? length (p_log u))%nat; [auto|]. destruct (V log) as [Y|Y]; [rewrite Fh in Y; auto|right; exact Y].
    + intros H' HH. cbn [calls run_ops].
      destruct (swap_op H' (length (p_log s)) (length (p_log u)) O o s (set_handler (Some H') s) r u) as [P|(t2 & Y & (-> & _))].
      * split; [reflexivity|]. split; [lia|]. intros log L. rewrite HH by lia.
        destruct (Nat.leb_spec (length log) (length (p_log u))); [reflexivity|lia].
      * exact Eo.
      * exact Hr.
      * unfold past in P. lia.
      * rewrite Y. rewrite K; [destruct r; [reflexivity|reflexivity|congruence]|].
        intros log L. rewrite HH by lia. destruct (Nat.leb_spec (length log) (length (p_log u))); [lia|reflexivity].
  - cbn [run_hops] in E. destruct (IH _ _ _ E Hp) as (H & V & K). exists H. split.
    + intros log. right. destruct (V log) as [Y|(h' & I & Y)]; [exists h; split; [left; reflexivity|exact Y]|exists h'; split; [right; exact I|exact Y]].
    + intros H' HH. cbn [calls]. apply (K H' HH).
Qed.

(** ** C49 *)

(** Every client that changes handlers sees what a client sees that installs a single handler
    before its first call and makes the same calls.  On each list of warnings the single handler
    answers what one of the client's handlers answers (or nothing, if it had none). *)
Theorem C49_one_handler_suffices : forall O data sched seeks seekable h0 p (l : list (hop O)) rs t,
  opened data sched seeks seekable h0 p -> run_hops l p = (rs, t) -> no_panic rs ->
  exists H p', opened data sched seeks seekable (Some H) p' /\
    run_ops (calls l) p' = (rs, set_handler (Some H) t) /\
    forall log, H log = verdict h0 log \/ exists h, In h (handlers l) /\ H log = h log.
Proof.
  intros O data sched seeks seekable h0 p l rs t Ho E Hp.
  assert (Hh : p_handler p = h0) by (apply opened_init in Ho; apply Ho).
  destruct (single _ _ _ _ _ E Hp) as (H & V & K). exists H, (set_handler (Some H) p). split.
  - destruct Ho as (p0 & E0 & ->). exists p0. auto.
  - split; [apply K; auto|]. rewrite <- Hh. exact V.
Qed.

(** The handler in force is the one installed last, and each warning is put to it: the warnings
    of a call are accepted by it one by one, and the first one refused makes the call fail with
    the handler's error. *)
Theorem C49_last_one_decides : forall O data sched seeks seekable h0 p (l : list (hop O)) rs s,
  opened data sched seeks seekable h0 p -> run_hops l p = (rs, s) -> no_panic rs ->
  p_handler s = in_force h0 l /\
  forall (o : op O) r s' h, in_force h0 l = Some h -> run_op o s = (r, s') -> r <> Panic ->
  exists new, p_log s' = new ++ p_log s /\
  (accepted h (p_log s) new \/
   exists w older e, new = w :: older /\ accepted h (p_log s) older /\ h (w :: older ++ p_log s) = Some e /\
   exists q, r = Err (and_position e q) \/ r = Ok (BEvent (EvEndFbx (inl (and_position e q))))).
Proof.
  intros O data sched seeks seekable h0 p l rs s Ho E Hp.
  assert (Hh : p_handler p = h0) by (apply opened_init in Ho; apply Ho).
  assert (G : p_handler s = in_force h0 l).
  { clear Ho. revert p h0 rs s E Hp Hh. induction l as [|[o|h] l IH]; intros p h0 rs s E Hp Hh.
    - injection E as <- <-. exact Hh.
    - apply hops_call_inv in E; [|exact Hp]. destruct E as (r & u & rs' & Eo & Hr & El & -> & Hp').
      apply (IH _ _ _ _ El Hp'). pose proof (run_op_fwd O o p) as F. unfold steps in F. rewrite Eo in F.
      destruct (F Hr) as (_ & Fh & _). cbn [snd] in Fh. congruence.
    - apply (IH _ _ _ _ E Hp). reflexivity. }
  split; [exact G|]. intros o r s' h Hf Eo Hr. apply (C10_rejecting_handler O o s r s' h Eo Hr). congruence.
Qed.

(** If every handler the client uses accepts every warning, it sees what a client without a
    handler sees. *)
Theorem C49_accepting_handlers : forall O data sched seeks seekable h0 p p0 (l : list (hop O)) rs t,
  opened data sched seeks seekable h0 p -> opened data sched seeks seekable None p0 ->
  (forall log, verdict h0 log = None) -> Forall (fun h : handler => forall log, h log = None) (handlers l) ->
  run_hops l p = (rs, t) -> no_panic rs ->
  fst (run_ops (calls l) p0) = rs /\ p_log (snd (run_ops (calls l) p0)) = p_log t.
Proof.
  intros O data sched seeks seekable h0 p p0 l rs t Ho Ho0 Hv Hl E Hp.
  destruct (C49_one_handler_suffices _ _ _ _ _ _ _ _ _ _ Ho E Hp) as (H & p' & Ho' & Er & V).
  assert (A : forall log, H log = None).
  { intros log. destruct (V log) as [Y|(h & I & Y)]; [rewrite Y; apply Hv|]. rewrite Y. rewrite Forall_forall in Hl. apply (Hl _ I). }
  assert (Ep : p' = set_handler (Some H) p0).
  { destruct Ho' as (q & Q & ->), Ho0 as (q' & Q' & ->). rewrite Q in Q'. injection Q' as <-. reflexivity. }
  destruct (C10_accepting_handler (env:=env) O data sched seeks seekable H p0 (calls l) A Ho0) as [X Y].
  subst p'. split.
  - transitivity (fst (run_ops (calls l) (set_handler (Some H) p0))); [symmetry; exact X|rewrite Er; reflexivity].
  - apply (f_equal p_log) in Y. transitivity (p_log (snd (run_ops (calls l) (set_handler (Some H) p0)))); [symmetry; exact Y|rewrite Er; reflexivity].
Qed.

(** Changing handlers brings no panics. *)
Theorem C49_no_panic : forall O data sched seeks seekable h0 p (l : list (hop O)),
  opened data sched seeks seekable h0 p -> (lenN data <= 2 ^ 63)%N ->
  existsb is_skip (calls l) = false -> ovf_checks = false \/ (p_ver p < 7500)%N ->
  no_panic (fst (run_hops l p)) /\ length (fst (run_hops l p)) = length (calls l).
Proof.
  intros O data sched seeks seekable h0 p l Ho Hl Hs Hc.
  pose proof (opened_inv _ _ _ _ _ _ Ho Hl) as Hi. clear Ho Hl h0.
  revert p Hc Hi. induction l as [|[o|h] l IH]; intros p Hc Hi; [split; reflexivity| |].
  - cbn in Hs. apply orb_false_iff in Hs. destruct Hs as [Hs1 Hs2].
    pose proof (run_op_safe O o (p_ver p) Hs1 p (conj Hi eq_refl)) as K.
    pose proof (run_op_fwd O o p) as F. unfold steps in F. cbn [run_hops].
    destruct (run_op o p) as [r s1] eqn:E. cbn in K, F.
    assert (Hv : r <> Panic -> p_ver s1 = p_ver p) by (intros X; apply (F X)).
    destruct r as [v|e|].
    + specialize (IH Hs2 s1). rewrite Hv in IH by discriminate. specialize (IH Hc K). destruct (run_hops l s1). cbn in *.
      split; [apply (proj1 IH)|f_equal; apply IH].
    + specialize (IH Hs2 s1). rewrite Hv in IH by discriminate. specialize (IH Hc K). destruct (run_hops l s1). cbn in *.
      split; [apply (proj1 IH)|f_equal; apply IH].
    + exfalso. destruct K as [K1 [K2 K3]]. destruct Hc; [congruence|lia].
  - cbn [run_hops calls]. apply (IH Hs (set_handler (Some h) p) Hc). destruct Hi; constructor; assumption.
Qed.
End WithEnv.

(** ** Example: a file with two unnamed nodes; the client first accepts warnings, then refuses
    them, then accepts them again. *)
Definition unnamed2_doc : list byte := enc_doc (env:=release) 7400 [Node [] [] []; Node [] [] []] (mkFoot good_unknown1 0).
Definition changing : list (hop aval) :=
  [HSet (fun _ => None); HCall ONext; HCall ONext; HSet refuse; HCall ONext; HSet (fun _ => None); HCall ONext].
Example changing_example :
  exists p rs t, opened unnamed2_doc [] [] true None p /\ run_hops (env:=release) changing p = (rs, t) /\ no_panic rs /\
    map is_ok rs = [true; true; false; false] /\ length (p_log t) = 2%nat /\
    in_force (O:=aval) None [HSet (fun _ => None); HCall ONext; HCall ONext; HSet refuse] = Some refuse /\
    (lenN unnamed2_doc <= 2 ^ 63)%N /\ existsb is_skip (calls changing) = false /\ ovf_checks (Env:=release) = false.
Proof.
  unfold opened. do 3 eexists. split.
  - eexists. split; [vm_compute; reflexivity|reflexivity].
  - split; [vm_compute; reflexivity|]. split; [repeat constructor; discriminate|]. split; [reflexivity|]. split; [reflexivity|].
    split; [reflexivity|]. split; [vm_compute; discriminate|]. split; reflexivity.
Qed.
Example accepting_example :
  exists p rs t, opened unnamed2_doc [] [] true None p /\
    Forall (fun h : handler => forall log, h log = None) (handlers (O:=aval) [HSet (fun _ => None); HCall ONext; HCall ONext; HSet (fun _ => None); HCall ONext]) /\
    run_hops (env:=release) [HSet (fun _ => None); HCall (@ONext aval); HCall ONext; HSet (fun _ => None); HCall ONext] p = (rs, t) /\
    no_panic rs /\ length (p_log t) = 2%nat.
Proof.
  unfold opened. do 3 eexists. split.
  - eexists. split; [vm_compute; reflexivity|reflexivity].
  - split; [repeat constructor|]. split; [vm_compute; reflexivity|]. split; [repeat constructor; discriminate|]. reflexivity.
Qed.

Print Assumptions C49_one_handler_suffices.
Print Assumptions C49_last_one_decides.
Print Assumptions C49_accepting_handlers.
Print Assumptions C49_no_panic.
