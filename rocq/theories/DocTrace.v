(** The events of a document, specified from its nodes, and the parser's run through it. *)
Require Import Coq.Lists.List Coq.NArith.NArith Coq.ZArith.ZArith Coq.Bool.Bool Coq.micromega.Lia.
Require Import Coq.Init.Byte.
Require Import ZifyBool ZifyNat ZifyN.
Require Import Verif.Base Verif.BaseFacts Verif.Utf8 Verif.Types Verif.Io Verif.IoFacts Verif.Parser Verif.MonadFacts Verif.ParserSteps Verif.Zlib Verif.Moves Verif.Loaders Verif.Spec Verif.SpecFacts Verif.ParserPos Verif.AttrLoad Verif.DocCursor Verif.FooterFacts Verif.PropsHeader.
Import ListNotations.
Ltac Zify.zify_post_hook ::= Z.div_mod_to_equations.

(** ** Specification *)
Section Spec.
Context {env : Env}.

(** The events of a node at offset [off], the [idx]-th child of the node at offset [parent]
    whose path is [path], with the position reported after each event. *)
Fixpoint node_trace (ver parent : N) (path : list (N * list byte)) (idx off : N) (n : node) {struct n} : list (event * synpos) :=
  match n with
  | Node name ats kids =>
      let here := path ++ [(idx, name)] in
      let astart := (off + header_size ver + lenN name)%N in
      (EvStart name, mkPos astart off here None) ::
      (fix go i o l := match l with
                       | [] => []
                       | k :: l' => node_trace ver off here i o k ++ go (i + 1)%N (o + node_size ver k)%N l'
                       end) 0%N (astart + lenN (enc_attrs ats))%N kids ++
      [(EvEnd, mkPos (off + node_size ver n) parent path None)]
  end.

Fixpoint nodes_trace (ver parent : N) (path : list (N * list byte)) (i off : N) (l : list node) : list (event * synpos) :=
  match l with
  | [] => []
  | k :: l' => node_trace ver parent path i off k ++ nodes_trace ver parent path (i + 1) (off + node_size ver k) l'
  end.

(** The events of a whole document. *)
Definition doc_trace (ver : N) (ns : list node) (f : foot) : list (event * synpos) :=
  nodes_trace ver 0 [] 0 27 ns ++
  [(EvEndFbx (inr (footer_of ver f)),
    mkPos (27 + nodes_size ver ns + header_size ver + lenN (enc_footer ver f)) 0 [] None)].

Lemma node_trace_eq : forall ver parent path idx off name ats kids,
  node_trace ver parent path idx off (Node name ats kids) =
  (EvStart name, mkPos (off + header_size ver + lenN name) off (path ++ [(idx, name)]) None) ::
  nodes_trace ver off (path ++ [(idx, name)]) 0 (off + header_size ver + lenN name + lenN (enc_attrs ats)) kids ++
  [(EvEnd, mkPos (off + node_size ver (Node name ats kids)) parent path None)].
Proof.
  intros ver parent path idx off name ats kids. cbn [node_trace]. f_equal. f_equal.
  generalize (off + header_size ver + lenN name + lenN (enc_attrs ats))%N as o. generalize 0%N as i.
  induction kids as [|k kids IH]; intros i o; [reflexivity|]. cbn [nodes_trace]. rewrite IH. reflexivity.
Qed.
End Spec.

(** Run calls, recording the result of each and the position afterwards. *)
Fixpoint run_pos {env : Env} {O} (l : list (op O)) (s : pstate) : list (res perr (obs O) * option synpos) * pstate :=
  match l with
  | [] => ([], s)
  | o :: t =>
      let '(r, s1) := run_op o s in
      let '(rs, s2) := run_pos t s1 in ((r, position_of s1) :: rs, s2)
  end.
(** The events among the results. *)
Fixpoint events_in {O} (rs : list (res perr (obs O) * option synpos)) : list (event * option synpos) :=
  match rs with
  | [] => []
  | (Ok (BEvent e), p) :: t => (e, p) :: events_in t
  | _ :: t => events_in t
  end.
Definition is_ok {A} (r : res perr A) : Prop := match r with Ok _ => True | _ => False end.
Definition is_next {O} (o : op O) : bool := match o with ONext => true | _ => false end.
Definition is_skip {O} (o : op O) : bool := match o with OSkip => true | _ => false end.
Definition count_next {O} (l : list (op O)) : nat := length (filter is_next l).

(** ** The cursor *)
Section Trace.
Context {env : Env} (ver lim : N) (f0 : foot) (ext : list byte).
Context (HV : u_ok (width ver) lim) (HF : foot_ok f0) (H4 : u_ok 4 ver).
Notation tail := (enc_footer ver f0 ++ ext).
Notation at_cur := (at_cur ver lim tail).

Definition f_idx (done : list node) (fs : list dframe) : N :=
  (match fs with [] => lenN done | g :: _ => lenN (d_done g) end - 1)%N.
Fixpoint f_path (done : list node) (fs : list dframe) : list (N * list byte) :=
  match fs with
  | [] => []
  | f :: t => f_path done t ++ [(f_idx done t, d_name f)]
  end.
Definition f_off (fs : list dframe) : N := match fs with [] => 0%N | f :: _ => d_off f end.

Fixpoint rest_trace (done rest : list node) (fs : list dframe) : list (event * synpos) :=
  match fs with
  | [] => nodes_trace ver 0 [] (lenN done) (top_pos ver done) rest ++
          [(EvEndFbx (inr (footer_of ver f0)),
            mkPos (top_pos ver (done ++ rest) + header_size ver + lenN (enc_footer ver f0)) 0 [] None)]
  | f :: t => nodes_trace ver (d_off f) (f_path done fs) (lenN (d_done f)) (d_pos ver f) (d_rest f) ++
          (EvEnd, mkPos (d_end ver f) (f_off t) (f_path done t) None) :: rest_trace done rest t
  end.
Definition ctrace (c : cursor) : list (event * synpos) := rest_trace (c_done c) (c_rest c) (c_frames c).

Lemma rest_take_top : forall done k r, rest_trace done (k :: r) [] =
  node_trace ver 0 [] (lenN done) (top_pos ver done) k ++ rest_trace (done ++ [k]) r [].
Proof.
  intros done k r. cbn [rest_trace nodes_trace]. rewrite <- !app_assoc. f_equal. rewrite lenN_app. f_equal.
  - f_equal. unfold top_pos. rewrite nodes_size_snoc. lia.
Qed.
Lemma snoc_sub : forall A (l : list A) x, (lenN (l ++ [x]) - 1)%N = lenN l.
Proof. intros. rewrite lenN_app. unfold lenN at 2. cbn. lia. Qed.

Lemma ctrace_start : forall c k c', next_of ver c = DStart k c' ->
  ctrace c = (EvStart (nd_name k), mkPos (entered ver k (c_pos ver c)) (f_off (c_frames c')) (f_path (c_done c') (c_frames c')) None) :: ctrace c'.
Proof.
  intros c [name ats kids] c' H. unfold next_of in H. unfold ctrace.
  destruct (c_frames c) as [|f fs] eqn:Ef.
  - destruct (c_rest c) as [|k r] eqn:Er; [discriminate|]. injection H as -> <-. cbn [c_done c_rest c_frames].
    rewrite rest_take_top, node_trace_eq. unfold c_pos. rewrite Ef. cbn [f_off f_path nd_of d_off d_name nd_name app]. unfold f_idx. rewrite snoc_sub.
    cbn [app]. f_equal. unfold nd_of. cbn [rest_trace d_off d_name d_done d_rest nd_kids nd_attrs nd_name f_path app f_off]. unfold f_idx. rewrite snoc_sub, <- app_assoc. f_equal.
    + f_equal. unfold d_pos, d_aend, d_astart. cbn [d_off d_name d_ats d_done nodes_size fold_right]. lia.
  - destruct (d_rest f) as [|k r] eqn:Er; [discriminate|]. injection H as -> <-. cbn [c_done c_rest c_frames].
    unfold c_pos. rewrite Ef. cbn [rest_trace f_off]. rewrite Er. cbn [nodes_trace]. rewrite node_trace_eq.
    unfold nd_of. cbn [d_off d_name d_done d_rest nd_kids nd_attrs nd_name]. cbn [f_path]. 
    cbn [d_take d_name d_off d_rest]. assert (FI : f_idx (c_done c) (d_take f (Node name ats kids) r :: fs) = lenN (d_done f)).
    { unfold f_idx. cbn [d_take d_done]. apply snoc_sub. }
    rewrite FI. cbn [app]. f_equal. rewrite <- !app_assoc. f_equal.
    { f_equal. unfold d_pos, d_aend, d_astart. cbn [d_off d_name d_ats d_done nodes_size fold_right]. lia. }
    cbn [app]. f_equal. rewrite (d_take_end ver _ _ _ Er), d_take_pos. cbn [d_take d_done]. rewrite lenN_app. reflexivity.
Qed.

Lemma ctrace_end : forall c c', cur_ok ver lim c -> next_of ver c = DEnd c' ->
  ctrace c = (EvEnd, mkPos (c_pos ver c') (f_off (c_frames c')) (f_path (c_done c') (c_frames c')) None) :: ctrace c'.
Proof.
  intros c c' Hok H. unfold next_of in H. unfold ctrace. pose proof (co_linked _ _ _ Hok) as L.
  destruct (c_frames c) as [|f fs] eqn:Ef; [destruct (c_rest c); discriminate|].
  destruct (d_rest f) as [|k r] eqn:Er; [|discriminate]. injection H as <-. cbn [c_done c_rest c_frames rest_trace]. rewrite Er. cbn [nodes_trace app].
  unfold c_pos. cbn [c_frames c_done]. destruct L as [L _]. repeat f_equal. destruct fs; apply L.
Qed.
Lemma ctrace_fbx : forall c, next_of ver c = DFbx ->
  ctrace c = [(EvEndFbx (inr (footer_of ver f0)), mkPos (c_pos ver c + header_size ver + lenN (enc_footer ver f0)) 0 [] None)].
Proof.
  intros c H. unfold next_of in H. unfold ctrace, c_pos.
  destruct (c_frames c) as [|f fs] eqn:Ef; [|destruct (d_rest f); discriminate].
  destruct (c_rest c) as [|k r] eqn:Er; [|discriminate]. cbn [rest_trace nodes_trace app]. rewrite app_nil_r. reflexivity.
Qed.

Lemma path_from_snoc : forall l i n, path_from i (l ++ [n]) = path_from i l ++ [(match rev l with [] => i | m :: _ => sn_kids m - 1 end, sn_name n)]%N.
Proof.
  induction l as [|m l IH]; intros i n; [reflexivity|]. cbn [app path_from]. rewrite IH. cbn [app]. do 3 f_equal. f_equal. cbn [rev].
  destruct (rev l) eqn:E; reflexivity.
Qed.
Lemma path_frames : forall done fs, path_from (lenN done - 1) (rev (map (started_of ver) fs)) = f_path done fs.
Proof.
  intros done fs. induction fs as [|f fs IH]; [reflexivity|]. cbn [map rev f_path]. rewrite path_from_snoc, IH, rev_involutive.
  do 2 f_equal. f_equal. unfold f_idx. destruct fs; reflexivity.
Qed.
Lemma cur_position : forall c s, cur_ok ver lim c -> shape ver c s -> position_of s = Some (mkPos (pos_of s) (f_off (c_frames c)) (f_path (c_done c) (c_frames c)) None).
Proof.
  intros c s Hok Hsh. unfold position_of. rewrite (sh_stack _ _ _ Hsh), (sh_top _ _ _ Hsh), path_frames.
  destruct (c_frames c) as [|f fs] eqn:Ef; [reflexivity|]. cbn [map].
  pose proof (co_linked _ _ _ Hok) as L. rewrite Ef in L. apply linked_done in L. destruct (c_done c) as [|k l]; [congruence|].
  replace (lenN (k :: l) =? 0)%N with false by (symmetry; apply N.eqb_neq; rewrite lenN_cons; lia). reflexivity.
Qed.

(** The end of the document. *)
Lemma run_footer : forall O c s, at_cur c s -> caught_up ver c s -> next_of ver c = DFbx ->
  exists s', run_op (@ONext O) s = (Ok (BEvent (EvEndFbx (inr (footer_of ver f0)))), s') /\ p_health s' = Finished /\ p_attrs s' = None /\ p_stack s' = [] /\
    pos_of s' = (c_pos ver c + header_size ver + lenN (enc_footer ver f0))%N /\ rem_of s' = ext /\
    p_log s' = pad_warnings (c_pos ver c + header_size ver) (ft_pad f0) ++ nib_warnings (c_pos ver c + header_size ver) (ft_unknown1 f0) ++ p_log s.
Proof.
  intros O c s H Hcu Hn. destruct (run_fbx ver lim tail O c s H Hcu Hn) as (s1 & E & A1 & A2 & A3 & A4 & A5 & A6 & A7 & A8 & (A9 & _)).
  destruct (footer_read s1 ver A5 A4 A3 H4) as (r & s2 & E2 & K).
  destruct r as [ft|e|]; [| |contradiction].
  2:{ exfalso. destruct K as [_ K]. apply (K f0 ext HF). exact A6. }
  assert (Q : quieta s1 s2) by (eapply steps_elim; [apply read_footer_quiet|exact E2|discriminate]).
  destruct Q as ((_ & Q1 & Q2 & _) & Q3).
  destruct K as (f & ext' & Hf & Er & -> & Er' & Ep & _ & El). rewrite A6 in Er.
  destruct (footer_unique _ _ _ _ _ HF Hf Er) as [-> ->].
  exists s2. rewrite E. unfold bind, try_. rewrite E2. repeat split; try congruence.
Qed.

(** Where the parser is, and the events still to come. *)
Definition in_doc (t : list (event * synpos)) (s : pstate) : Prop :=
  (exists c, at_cur c s /\ r_seekable (p_rd s) = true /\ t = ctrace c) \/
  (p_health s = Finished /\ p_attrs s = None /\ p_stack s = [] /\ t = []).

Lemma next_cases : forall O c s, at_cur c s -> caught_up ver c s ->
  exists e p t s', run_op (@ONext O) s = (Ok (BEvent e), s') /\ ctrace c = (e, p) :: t /\ position_of s' = Some p /\
    r_seekable (p_rd s') = r_seekable (p_rd s) /\
    ((exists c', at_cur c' s' /\ t = ctrace c' /\ (next_of ver c = DEnd c' \/ exists k, next_of ver c = DStart k c')) \/
     (p_health s' = Finished /\ p_attrs s' = None /\ p_stack s' = [] /\ t = [] /\ next_of ver c = DFbx)).
Proof.
  intros O c s H Hcu. destruct (next_of ver c) as [k c'|c'|] eqn:Hn.
  - destruct (run_start ver lim tail HV O _ _ _ _ H Hcu Hn) as (s' & E & Hc & Hp & _ & Hs & _).
    exists (EvStart (nd_name k)). do 2 eexists. exists s'. split; [exact E|]. split; [apply ctrace_start; exact Hn|].
    split; [rewrite (cur_position _ _ (ac_ok _ _ _ _ _ Hc) (ac_shape _ _ _ _ _ Hc)), Hp; reflexivity|]. split; [exact Hs|]. left. exists c'. split; [exact Hc|]. split; [reflexivity|]. right. exists k. reflexivity.
  - destruct (run_end ver lim tail O _ _ _ H Hcu Hn) as (s' & E & Hc & (_ & _ & Hs)).
    exists EvEnd. do 2 eexists. exists s'. split; [exact E|]. split; [apply ctrace_end; [apply H|exact Hn]|].
    split; [|split; [exact Hs|left; exists c'; split; [exact Hc|]; split; [reflexivity|]; left; reflexivity]].
    rewrite (cur_position _ _ (ac_ok _ _ _ _ _ Hc) (ac_shape _ _ _ _ _ Hc)). do 2 f_equal.
    pose proof (ac_where _ _ _ _ _ Hc) as W.
    assert (c_attrs c' = None) as Ca. { unfold next_of in Hn. destruct (c_frames c) as [|f fs]; [destruct (c_rest c); discriminate|]. destruct (d_rest f); [|discriminate]. injection Hn as <-. reflexivity. }
    rewrite Ca in W. apply W.
  - destruct (run_footer O _ _ H Hcu Hn) as (s' & E & H1 & H2 & H3 & H5 & _ ).
    exists (EvEndFbx (inr (footer_of ver f0))). do 2 eexists. exists s'. split; [exact E|]. split; [apply ctrace_fbx; exact Hn|].
    split; [unfold position_of; rewrite H3; fold (pos_of s'); rewrite H5; reflexivity|]. split; [|right; auto].
    assert (Q : r_seekable (p_rd s') = r_seekable (p_rd s)). { 
      destruct (run_fbx ver lim tail O c s H Hcu Hn) as (s1 & E' & _ & _ & _ & _ & _ & _ & _ & _ & (_ & _ & A9)). rewrite E' in E.
      unfold bind, try_ in E. destruct (read_footer s1) as [r s2] eqn:E2. destruct r as [ft|e|]; try discriminate. injection E as _ <-.
      assert (Q : quieta s1 s2) by (eapply steps_elim; [apply read_footer_quiet|exact E2|discriminate]).
      destruct Q as ((_ & _ & _ & _ & _ & _ & _ & Q) & _). destruct Q as (d & d' & (_ & _ & _ & Q) & _). congruence. }
    exact Q.
Qed.

Context (HZ : zlib_roundtrip env).
Lemma op_trace : forall O (o : op O) t s r s', in_doc t s -> is_skip o = false -> run_op o s = (Ok r, s') ->
  exists t', in_doc t' s' /\
    match o with
    | ONext => exists e p, r = BEvent e /\ t = (e, p) :: t' /\ position_of s' = Some p
    | _ => t = t' /\ forall e, r <> BEvent e
    end.
Proof.
  intros O o t s r s' [(c & H & Hs & ->)|(H1 & H2 & H3 & ->)] Ho E.
  - assert (LD : forall b (ld : loader O), run_op (load_of b ld) s = (Ok r, s') -> in_doc (ctrace c) s' /\ forall e, r <> BEvent e).
    { intros b ld E'. assert (load_ready s) as Hl by (left; exact Hs).
      pose proof (run_load ver lim tail HZ O b ld c s r s' H Hl E') as K. destruct (c_attrs c) as [[|a ats]|].
      - destruct K as [-> ->]. split; [left; eauto|discriminate].
      - destruct K as ((v & ->) & K & (_ & _ & K3)). split; [left; exists (c_load c ats); split; [exact K|]; split; [congruence|reflexivity]|discriminate].
      - destruct K as [-> ->]. split; [left; eauto|discriminate]. }
    destruct o as [|l|l|]; [| | |discriminate].
    + destruct (next_cases O c s H (or_introl Hs)) as (e & p & t & s1 & E1 & E2 & E3 & E4 & K). rewrite E1 in E. injection E as <- <-.
      exists t. split; [|exists e, p; auto]. destruct K as [(c' & K1 & K2 & _)|(K1 & K2 & K3 & K4 & _)]; [left|right]; [exists c'|]; repeat split; auto; try congruence.
      all: try apply K1.
    + exists (ctrace c). destruct (LD false l E) as [A B]. auto.
    + exists (ctrace c). destruct (LD true l E) as [A B]. auto.
  - destruct o as [|l|l|]; [| | |discriminate].
    + exfalso. unfold run_op in E. rewrite bind_modify in E. unfold next_event in E.
      unfold bind, gets, ensure_continuable in E. cbn [set_attrs p_health] in E. rewrite H1 in E. discriminate E.
    + unfold run_op in E. rewrite bind_gets, H2 in E. injection E as <- <-. exists []. split; [right; auto|]. split; [reflexivity|discriminate].
    + unfold run_op in E. rewrite bind_gets, H2 in E. injection E as <- <-. exists []. split; [right; auto|]. split; [reflexivity|discriminate].
Qed.

Lemma ops_trace : forall O (l : list (op O)) t s rs s', in_doc t s -> existsb is_skip l = false -> run_pos l s = (rs, s') ->
  Forall (fun r => is_ok (fst r)) rs ->
  events_in rs = map (fun ep => (fst ep, Some (snd ep))) (firstn (count_next l) t) /\ in_doc (skipn (count_next l) t) s' /\ (count_next l <= length t)%nat.
Proof.
  induction l as [|o l IH]; intros t s rs s' H Hk E Hok; cbn [run_pos] in E.
  - injection E as <- <-. cbn. repeat split; auto; lia.
  - cbn [existsb] in Hk. apply orb_false_elim in Hk. destruct Hk as [Ho Hk].
    destruct (run_op o s) as [r s1] eqn:E1. destruct (run_pos l s1) as [rs2 s2] eqn:E2. injection E as <- <-.
    inversion Hok as [|? ? Hr Hrs]; subst. cbn in Hr. destruct r as [r| |]; try contradiction.
    destruct (op_trace O o t s r s1 H Ho E1) as (t' & H' & K).
    destruct (IH _ _ _ _ H' Hk E2 Hrs) as (I1 & I2 & I3).
    destruct o as [|ld|ld|]; try discriminate Ho.
    + destruct K as (e & p & -> & -> & Hp). unfold count_next. cbn [filter is_next length firstn skipn map events_in fst snd].
      rewrite Hp, I1. repeat split; [exact I2|unfold count_next in I3; lia].
    + destruct K as [-> K]. destruct r as [e| | |]; [exfalso; eapply K; reflexivity| | |]; exact (conj I1 (conj I2 I3)).
    + destruct K as [-> K]. destruct r as [e| | |]; [exfalso; eapply K; reflexivity| | |]; exact (conj I1 (conj I2 I3)).
Qed.
End Trace.
