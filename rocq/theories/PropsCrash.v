(** C57: where the end of a document is reported.
    C58: files left behind by an interrupted writer. *)
Require Import Coq.Lists.List Coq.NArith.NArith Coq.ZArith.ZArith Coq.Bool.Bool Coq.micromega.Lia.
Require Import Coq.Init.Byte.
Require Import ZifyBool ZifyNat ZifyN.
Require Import Verif.Base Verif.BaseFacts Verif.Utf8 Verif.Types Verif.Io Verif.Parser Verif.Loaders Verif.Writer Verif.Zlib Verif.SpecHist Verif.ParserPos
  Verif.Spec Verif.SpecLayout Verif.SpecTruth Verif.WriterSpec Verif.WriterNodes Verif.FooterFacts Verif.SpecFacts Verif.PropsWriter Verif.PropsDoc Verif.PropsRound Verif.PropsRel Verif.TreeIo Verif.PropsAnyTree
  Verif.ParserHist Verif.Truth Verif.PropsTruth Verif.Samples Verif.SpecCrash Verif.Ends Verif.CrashFile Verif.CrashWriter.
Import ListNotations.
Ltac Zify.zify_post_hook ::= Z.div_mod_to_equations.

Section WithEnv.
Context {env : Env}.

(** ** C57 *)
Theorem C57_end_through_headers : forall O data sched seeks h p (l : list (op O)) rs p1 f p2,
  opened data sched seeks true h p -> run_ops l p = (rs, p1) -> no_panic rs -> skips_fine l rs ->
  run_op (@ONext O) p1 = (Ok (BEvent (EvEndFbx f)), p2) ->
  let ver := p_ver p in
  exists off, top_level data ver off /\ at_offset data off (end_marker ver) /\
    forall ft, f = inr ft -> exists g ext, foot_ok g /\ dropN (off + header_size ver) data = enc_footer ver g ++ ext /\ ft = footer_of ver g.
Proof.
  intros O data sched seeks h p l rs p1 f p2 Ho H N F H1 ver.
  assert (I : inv data ver p) by (eapply inv_opened; [exact Ho|reflexivity]).
  eapply end_led; [eapply inv_ops; eassumption|eapply led_ops; [exact I|eapply led_opened; exact Ho|exact H|exact N|exact F]|exact H1].
Qed.

(** ** C58 *)

(** The content of a sink that was empty when the writer was created, at a moment before
    [finalize] was called: between two calls, or within a call, at whichever of its writes the
    sink stopped taking bytes. *)
Inductive left_behind (ver : N) : list byte -> Prop :=
| Left_between : forall k l s, k_data k = [] -> wrote k ver l s -> outer_named (doc_calls l odoc_start) -> left_behind ver (k_data (w_sink s))
| Left_within : forall k l s c rs s', k_data k = [] -> wrote k ver l s -> outer_named (doc_calls l odoc_start) ->
    outer_named (doc_calls (l ++ [c]) odoc_start) ->
    (c = CClose -> length (od_frames (doc_calls l odoc_start)) = 1%nat -> untorn (w_sink s)) ->
    run_wcall c s = (rs, s') -> left_behind ver (k_data (w_sink s')).

Lemma major_range : forall ver, ver_major ver = 7%N -> (7000 <= ver <= 7999)%N.
Proof. intros ver H. unfold ver_major in H. lia. Qed.

Lemma starts_ver : forall ver rest sched seeks seekable h p, (7000 <= ver <= 7999)%N -> opened (spec_magic ++ le_enc 4 ver ++ rest) sched seeks seekable h p -> p_ver p = ver.
Proof.
  intros ver rest sched seeks seekable h p HV (p0 & E & ->).
  assert (X : open_as (spec_magic ++ le_enc 4 ver ++ rest) sched seeks seekable h = Ok (set_handler h p0)) by (unfold open_as; rewrite E; reflexivity).
  rewrite (open_ver _ _ _ _ _ _ X). change 23%N with (lenN spec_magic). rewrite dropN_app_len. change 4%N with (N.of_nat 4). rewrite <- (le_enc_lenN 4 ver), takeN_app_len.
  apply le_dec_enc, u4_ver, HV.
Qed.

Lemma wrote_fresh : forall k ver l s, k_data k = [] -> wrote k ver l s -> wrel ver [] (doc_calls l odoc_start) s /\ (7000 <= ver <= 7999)%N.
Proof. intros k ver l s K W. destruct (wrote_rel _ _ _ _ W) as [R M]. rewrite K in R. split; [exact R|apply major_range; exact M]. Qed.

Lemma left_dead : forall ver data, left_behind ver data -> dead data ver /\ (7000 <= ver <= 7999)%N.
Proof.
  intros ver data H. destruct H as [k l s K W N|k l s c rs s' K W N N1 T E]; destruct (wrote_fresh _ _ _ _ K W) as [R V]; (split; [|exact V]).
  - exact (crash_none _ _ _ R N).
  - assert (X : doc_calls (l ++ [c]) odoc_start = doc_call c (doc_calls l odoc_start)) by (unfold doc_calls; rewrite fold_left_app; reflexivity).
    rewrite X in N1. exact (crash_call _ _ _ _ _ _ R N N1 T E).
Qed.

Lemma dead_silent : forall data ver O sched seeks h p (l : list (op O)) rs p1 f p2, dead data ver -> (7000 <= ver <= 7999)%N ->
  opened data sched seeks true h p -> run_ops l p = (rs, p1) -> no_panic rs -> skips_fine l rs ->
  run_op (@ONext O) p1 <> (Ok (BEvent (EvEndFbx f)), p2).
Proof.
  intros data ver O sched seeks h p l rs p1 f p2 [(rest & S) D] V Ho H N F H1.
  assert (EV : p_ver p = ver) by (subst data; eapply starts_ver; eassumption).
  destruct (C57_end_through_headers _ _ _ _ _ _ _ _ _ _ _ Ho H N F H1) as (off & T & M & _). rewrite EV in *. exact (D off T M).
Qed.

Theorem C58_unfinished_partial : forall ver data, left_behind ver data ->
  forall O sched seeks h p (l : list (op O)) rs p1 f p2,
  opened data sched seeks true h p -> run_ops l p = (rs, p1) -> no_panic rs -> skips_fine l rs ->
  run_op (@ONext O) p1 <> (Ok (BEvent (EvEndFbx f)), p2).
Proof. intros ver data L O sched seeks h p l rs p1 f p2. destruct (left_dead _ _ L) as [D V]. intros. eapply dead_silent; eassumption. Qed.

Theorem C58_finalize_partial : forall k ver wl s fl wf r s', k_data k = [] -> wrote k ver wl s -> outer_named (doc_calls wl odoc_start) -> wfooter_typed wf ->
  finalize fl wf s = (r, s') ->
  let ns := nodes_of wl in let data := k_data (w_sink s') in
  forall O sched seeks h p (l : list (op O)) rs p1 ft p2,
  opened data sched seeks true h p -> run_ops l p = (rs, p1) -> no_panic rs -> skips_fine l rs ->
  run_op (@ONext O) p1 = (Ok (BEvent (EvEndFbx (inr ft))), p2) ->
  od_frames (doc_calls wl odoc_start) = [] /\ data = enc_finished ver ns wf /\ ft = footer_of ver (foot_of ver ns wf).
Proof.
  intros k ver wl s fl wf r s' K W N T E ns data O sched seeks h p l rs p1 ft p2 Ho H Np F H1. destruct (wrote_fresh _ _ _ _ K W) as [R V].
  destruct (crash_finalize _ _ _ _ _ _ _ R N E) as [D|[Ef (got & rest & Ed & G)]]; [exfalso; exact (dead_silent _ _ _ _ _ _ _ _ _ _ _ _ D V Ho H Np F H1)|]. split; [exact Ef|].
  change (od_nodes (doc_calls wl odoc_start)) with ns in Ed, G. change (k_data (w_sink s')) with data in Ed.
  assert (EV : p_ver p = ver).
  { destruct (base_starts ver ns (end_marker ver ++ got)) as (x & X). rewrite Ed, X in Ho. eapply starts_ver; [exact V|exact Ho]. }
  destruct (C57_end_through_headers _ _ _ _ _ _ _ _ _ _ _ Ho H Np F H1) as (off & T1 & M & Q). rewrite EV in *. rewrite Ed in T1, M.
  assert (U : u_ok (width ver) (27 + nodes_size ver ns)) by apply R.
  rewrite (end_unique _ _ _ _ U T1 M) in Q. destruct (Q ft eq_refl) as (g & ext & Fg & Eg & ->). clear Q T1 M off.
  assert (X : got = enc_footer ver g ++ ext).
  { rewrite <- Eg, Ed. rewrite <- base_len, <- end_marker_len, <- lenN_app, app_assoc. symmetry. apply dropN_app_len. }
  set (start := (27 + nodes_size ver ns + header_size ver)%N) in *.
  assert (Y : enc_wfooter ver start wf = enc_footer ver g ++ ext ++ rest) by (rewrite <- G, X, <- app_assoc; reflexivity).
  assert (S : standard wf) by (eapply (only_standard ver start wf g []); [exact T|exact V|exact Fg|rewrite app_nil_r; exact Y]).
  pose proof (standard_doc ver ns wf S) as Z. unfold enc_finished, enc_doc in Z. fold start in Z. do 4 apply app_inv_head in Z.
  rewrite Z in Y. rewrite <- (app_nil_r (enc_footer ver (foot_of ver ns wf))) in Y.
  apply footer_unique in Y; [|apply standard_foot; assumption|exact Fg]. destruct Y as [<- Y]. symmetry in Y. apply app_eq_nil in Y. destruct Y as [-> ->].
  split; [|reflexivity]. rewrite Ed. rewrite app_nil_r in G. unfold enc_finished, base. fold start. rewrite <- G, <- !app_assoc. reflexivity.
Qed.
(** ** The tree loader *)
Lemma run_last : forall (l : list (op aval)) s rs0 v s', run_ops l s = (rs0 ++ [Ok v], s') ->
  exists l0 o s1, l = l0 ++ [o] /\ run_ops l0 s = (rs0, s1) /\ no_panic rs0 /\ run_op o s1 = (Ok v, s').
Proof.
  intros l. induction l as [|o l IH]; intros s rs0 v s' H; [destruct rs0; discriminate|].
  pose proof H as H0. apply run_cons in H. destruct (run_op o s) as [r s1] eqn:E.
  destruct rs0 as [|r0 rs0].
  - assert (X : exists rs1, [Ok v] = r :: rs1 /\ run_ops l s1 = (rs1, s')) by (destruct r; [exact H|exact H|destruct H as [H _]; discriminate]).
    destruct X as (rs1 & X & Y). injection X as <- <-. destruct l as [|o' l]; [|cbn [run_ops] in Y; destruct (run_op o' s1) as [[| |] s2]; try destruct (run_ops l s2); discriminate].
    injection Y as <-. exists [], o, s. split; [reflexivity|]. split; [reflexivity|]. split; [reflexivity|exact E].
  - assert (X : r <> Panic /\ exists rs1, r0 :: rs0 ++ [Ok v] = r :: rs1 /\ run_ops l s1 = (rs1, s')).
    { destruct r; [split; [discriminate|exact H]|split; [discriminate|exact H]|destruct H as [H _]; cbn [app] in H; injection H as _ H; destruct rs0; discriminate]. }
    destruct X as [Hr (rs1 & X & Y)]. injection X as <- <-. destruct (IH _ _ _ _ Y) as (l0 & o' & s2 & -> & A & B & C).
    exists (o :: l0), o', s2. split; [reflexivity|]. split; [|split; [|exact C]].
    + cbn [run_ops]. rewrite E. destruct r0; [rewrite A; reflexivity|rewrite A; reflexivity|contradiction].
    + unfold no_panic in *. cbn [existsb]. rewrite B. destruct r0; [reflexivity|reflexivity|contradiction].
Qed.

Lemma plain_fine : forall (l : list (op aval)) rs, Forall plain_op l -> skips_fine l rs.
Proof.
  intros l. induction l as [|o l IH]; intros rs F; [exact I|]. inversion_clear F as [|? ? P F']. destruct rs as [|r rs]; [destruct o; exact I|].
  destruct P as [-> | ->]; cbn [skips_fine]; apply IH; exact F'.
Qed.

(** A tree is loaded by a client that comes to the end of the document. *)
Lemma tree_client : forall data sched seeks v t f, any_tree (mkStream data 0 sched seeks) true = Ok (v, t, f) ->
  exists h p (l : list (op aval)) rs p1 p2, opened data sched seeks true h p /\ p_ver p = v /\ run_ops l p = (rs, p1) /\ no_panic rs /\ skips_fine l rs /\
    run_op (@ONext aval) p1 = (Ok (BEvent (EvEndFbx f)), p2).
Proof.
  intros data sched seeks v t f H. destruct (any_tree_open _ _ _ _ _ _ _ H) as (p & items & s & Ho & V & _ & R).
  destruct (reads_ops _ _ _ _ R) as (l & rs & A & F & _ & C). destruct (C _ eq_refl) as (rs0 & ->).
  destruct (run_last _ _ _ _ _ A) as (l0 & o & s1 & -> & A0 & N & E). apply Forall_app in F. destruct F as [F0 F1]. inversion_clear F1 as [|? ? P _].
  exists (Some (fun _ => None)), p, l0, rs0, s1, s. split; [apply open_as_opened; exact Ho|]. split; [exact V|]. split; [exact A0|]. split; [exact N|]. split; [apply plain_fine; exact F0|].
  destruct P as [-> | ->]; [exact E|]. exfalso. cbn [run_op] in E. unfold bind, gets in E. destruct (p_attrs s1); [|discriminate].
  destruct (load_next direct_loader s1) as [[a0|e|] s2]; discriminate.
Qed.

Theorem C57_tree_end : forall data sched seeks v t f, any_tree (mkStream data 0 sched seeks) true = Ok (v, t, f) ->
  exists off, top_level data v off /\ at_offset data off (end_marker v) /\
    forall ft, f = inr ft -> exists g ext, foot_ok g /\ dropN (off + header_size v) data = enc_footer v g ++ ext /\ ft = footer_of v g.
Proof.
  intros data sched seeks v t f H. destruct (tree_client _ _ _ _ _ _ H) as (h & p & l & rs & p1 & p2 & Ho & <- & A & N & F & E).
  exact (C57_end_through_headers _ _ _ _ _ _ _ _ _ _ _ Ho A N F E).
Qed.

(** No tree is loaded from a file that was left behind. *)
Theorem C58_tree_unfinished_partial : forall ver data, left_behind ver data ->
  forall sched seeks v t f, any_tree (mkStream data 0 sched seeks) true <> Ok (v, t, f).
Proof.
  intros ver data L sched seeks v t f H. destruct (tree_client _ _ _ _ _ _ H) as (h & p & l & rs & p1 & p2 & Ho & _ & A & N & F & E).
  exact (C58_unfinished_partial _ _ L _ _ _ _ _ _ _ _ _ _ Ho A N F E).
Qed.
End WithEnv.

(** ** Concrete cases *)
Module CrashCases.
Import PropsWriter.Cases.

(** An empty sink; it takes [n] writes and fails then. *)
Definition kn (n : nat) : sink := mkSink [] 0 (repeat (WChunk 1000) n ++ [WFail 5]) [] None.
Definition kw : sink := mkSink [] 0 [] [] None.
Definition written (k : sink) (l : list wcall) : wstate :=
  match new_writer k 7400 with Ok s => snd (run_wcalls (env := release) l s) | _ => mkW k 0 [] end.
Definition left (s : wstate) : list byte := k_data (w_sink s).

(** A finished node, an open one with a finished child, an open child with an empty name. *)
Definition half : list wcall :=
  [ CNode s_a [ASingle (SI32 7)]; CClose; CNode s_b [ADirect true s_hi]; CNode s_c []; CClose; CNode [] [ASingle (SBool true)] ].
Lemma half_wrote : wrote (env := release) kw 7400 half (written kw half).
Proof.
  constructor.
  - repeat constructor; vm_compute; try reflexivity; try (split; intro; discriminate). all: discriminate.
  - repeat constructor.
  - eexists. eexists. split; [vm_compute; reflexivity|]. split; [vm_compute; reflexivity|]. fine_all.
Qed.
Ltac named := let t := fresh "t" in let f := fresh "f" in let E := fresh "E" in
  intros t f E; vm_compute in E;
  repeat (destruct t as [|? t]; [try discriminate E; injection E as <-; discriminate|cbn [app] in E; first [injection E; clear E; intros E _|discriminate E]]);
  try (destruct t; discriminate E); try discriminate E.
Lemma half_left : left_behind (env := release) 7400 (left (written kw half)).
Proof. apply (Left_between 7400 kw half); [reflexivity|exact half_wrote|]. named. Qed.

(** What a client got: values, kinds of error. *)
Definition brief (r : res perr (obs aval)) : obs aval + option econtainer := match r with Ok o => inl o | Err e => inr (Some (e_error e)) | Panic => inr None end.
Definition seen (data : list byte) (seeks : list (option N)) (l : list (op aval)) : option (list (obs aval + option econtainer)) :=
  match any_parser (mkStream data 0 [AChunk 3] seeks) true with
  | Ok p => Some (map brief (fst (run_ops (env := release) l p)))
  | _ => None
  end.
Lemma opened_kept : forall data seeks p, any_parser (mkStream data 0 [AChunk 3] seeks) true = Ok p -> opened data [AChunk 3] seeks true (p_handler p) p.
Proof. intros data seeks p H. exists p. split; [exact H|destruct p; reflexivity]. Qed.

(** The client reads the finished node; the open one has no end. *)
Example C58_unfinished_ex : left_behind (env := release) 7400 (left (written kw half)) /\
  seen (left (written kw half)) [] [ONext; ld; ONext; ONext; ONext; ONext] =
  Some [inl (BEvent (EvStart s_a)); inl (BAttr (Some (VI32 7))); inl (BEvent EvEnd); inl (BEvent (EvStart s_b));
        inr (Some (EData (NodeLengthMismatch 0 None))); inr (Some (EOperation AlreadyAborted))].
Proof. split; [exact half_left|vm_compute; reflexivity]. Qed.

(** The sink fails while the second node is created. *)
Definition one : list wcall := [CNode s_a [ASingle (SI32 7)]; CClose].
Ltac wrote_fine := constructor;
  [repeat constructor; vm_compute; try reflexivity; try (split; intro; discriminate); discriminate|repeat constructor|
   eexists; eexists; split; [vm_compute; reflexivity|]; split; [vm_compute; reflexivity|]; fine_all].
Example C58_within_ex : left_behind (env := release) 7400 (left (written (kn 15) (one ++ [CNode s_b []]))) /\
  fst (run_wcall (env := release) (CNode s_b []) (written (kn 15) one)) = [Err (WIo (IoOther 5))] /\
  length (left (written (kn 15) (one ++ [CNode s_b []]))) = 54%nat /\
  seen (left (written (kn 15) (one ++ [CNode s_b []]))) [] [ONext; ONext; ONext] =
  Some [inl (BEvent (EvStart s_a)); inl (BEvent EvEnd); inr (Some (EIo IoEof))].
Proof.
  split; [|repeat split; vm_compute; reflexivity].
  apply (Left_within 7400 (kn 15) one (written (kn 15) one) (CNode s_b []) [Err (WIo (IoOther 5))]); [reflexivity|wrote_fine|named|named|discriminate|vm_compute; reflexivity].
Qed.

(** No tree is loaded from them. *)
Example C58_tree_ex : (exists e, any_tree (env := release) (mkStream (left (written kw half)) 0 [] []) true = Err e) /\
  exists e, any_tree (env := release) (mkStream (left (written (kn 15) (one ++ [CNode s_b []]))) 0 [] []) true = Err e.
Proof. split; eexists; vm_compute; reflexivity. Qed.

(** [finalize] fails in the footer, or only when it flushes. *)
Definition kf (n : nat) : sink := mkSink [] 0 (repeat (WChunk 1000) n ++ [WFail 5]) [] (Some 6%N).
Definition finalized (n : nat) := finalize true f0 (written (kf n) one).
Example C58_finalize_ex : wrote (env := release) (kf 21) 7400 one (written (kf 21) one) /\ wrote (env := release) (kf 50) 7400 one (written (kf 50) one) /\
  fst (finalized 21) = Err (WIo (IoOther 5)) /\ fst (finalized 50) = Err (WIo (IoOther 6)) /\
  left (snd (finalized 50)) = enc_finished (env := release) 7400 (nodes_of one) f0 /\
  (exists e, seen (left (snd (finalized 21))) [] [ONext; ONext; ONext] =
     Some [inl (BEvent (EvStart s_a)); inl (BEvent EvEnd); inl (BEvent (EvEndFbx (inl e)))]) /\
  exists ft, seen (left (snd (finalized 50))) [] [ONext; ONext; ONext] =
     Some [inl (BEvent (EvStart s_a)); inl (BEvent EvEnd); inl (BEvent (EvEndFbx (inr ft)))].
Proof.
  split; [wrote_fine|]. split; [wrote_fine|]. split; [vm_compute; reflexivity|]. split; [vm_compute; reflexivity|]. split; [vm_compute; reflexivity|].
  split; eexists; vm_compute; reflexivity.
Qed.

(** The writer is left while a top-level node with an empty name is open: a reader reports the
    end of the document there. *)
Theorem C58_empty_name_refuted : exists k l s p e p2, k_data k = [] /\ wrote (env := release) k 7400 l s /\ od_frames (doc_calls l odoc_start) <> [] /\
  opened (left s) [AChunk 3] [] true (p_handler p) p /\ run_op (env := release) (@ONext aval) p = (Ok (BEvent (EvEndFbx (inl e))), p2).
Proof.
  exists kw, [CNode [] []], (written kw [CNode [] []]). do 3 eexists. split; [reflexivity|]. split; [wrote_fine|]. split; [discriminate|].
  split; [apply opened_kept; vm_compute; reflexivity|vm_compute; reflexivity].
Qed.

(** The sink takes only the first byte of the end offset while a top-level node is closed: the
    node now ends within its attribute, and the bytes there are taken for the end of the
    document, with a footer. *)
Definition torn_data : list byte := zeros 54 ++ end_marker 7400 ++ enc_footer 7400 (mkFoot good_unknown1 15) ++ zeros 68.
Definition torn_calls : list wcall := [CNode s_a [ADirect false torn_data]].
Definition kt : sink := mkSink [] 0 (repeat (WChunk 1000) 11 ++ [WChunk 1; WFail 5]) [] None.
Theorem C58_torn_offset_refuted : exists k l s s' p rs p1 ft p2, k_data k = [] /\ wrote (env := release) k 7400 l s /\ outer_named (doc_calls l odoc_start) /\
  run_wcall (env := release) CClose s = ([Err (WIo (IoOther 5))], s') /\
  opened (left s') [AChunk 3] [] true (p_handler p) p /\ run_ops (env := release) [@ONext aval; OSkip] p = (rs, p1) /\ no_panic rs /\ skips_fine [@ONext aval; OSkip] rs /\
  run_op (env := release) (@ONext aval) p1 = (Ok (BEvent (EvEndFbx (inr ft))), p2).
Proof.
  exists kt, torn_calls, (written kt torn_calls). do 6 eexists. split; [reflexivity|]. split; [wrote_fine|]. split; [named|].
  split; [vm_compute; reflexivity|]. split; [apply opened_kept; vm_compute; reflexivity|]. split; [vm_compute; reflexivity|]. split; [reflexivity|].
  split; [split; [discriminate|exact I]|vm_compute; reflexivity].
Qed.

(** The sink was not empty: it held an older document, with the nodes A and B. The new writer is
    left after its first node C, which is as long as A was. A reader finds a complete document,
    with the new node and the rest of the old document. *)
Definition two : list wcall := [CNode s_a []; CClose; CNode s_b []; CClose].
Definition old_file : sink := Eval vm_compute in match finalize true f0 (written kw two) with (Ok k, _) => k | _ => kw end.
Theorem C58_overwrite_refuted : exists k l s t ft, finalize true f0 (written kw two) = (Ok k, snd (finalize true f0 (written kw two))) /\
  wrote (env := release) k 7400 l s /\ outer_named (doc_calls l odoc_start) /\
  seen (left s) [] [ONext; ONext; ONext; ONext; ONext] =
    Some [inl (BEvent (EvStart s_c)); inl (BEvent EvEnd); inl (BEvent (EvStart s_b)); inl (BEvent EvEnd); inl (BEvent (EvEndFbx (inr ft)))] /\
  any_tree (env := release) (mkStream (left s) 0 [] []) true = Ok (7400%N, t, inr ft).
Proof.
  exists old_file, [CNode s_c []; CClose], (written old_file [CNode s_c []; CClose]). do 2 eexists.
  split; [vm_compute; reflexivity|]. split; [wrote_fine|]. split; [named|]. split; vm_compute; reflexivity.
Qed.

(** [skip_current_node] fails and the client goes on: the marker at the end of an empty node is
    taken for that of the document. *)
Example C57_failed_skip_ex : left_behind (env := release) 7400 (left (written kw [CNode s_a []; CClose])) /\
  exists e, seen (left (written kw [CNode s_a []; CClose])) [Some 5%N] [ONext; OSkip; ONext] =
  Some [inl (BEvent (EvStart s_a)); inr (Some (EIo (IoOther 5))); inl (BEvent (EvEndFbx (inl e)))].
Proof. split; [|eexists; vm_compute; reflexivity]. apply (Left_between 7400 kw [CNode s_a []; CClose]); [reflexivity|wrote_fine|named]. Qed.

Example C57_tree_ex : exists t ft, any_tree (env := release) (mkStream (sample_doc 7400) 0 [AChunk 3] []) true = Ok (7400%N, t, inr ft).
Proof. do 2 eexists. vm_compute. reflexivity. Qed.

(** The end of the sample document, behind its two top-level nodes. *)
Example C57_ex : exists p rs p1 ft p2, opened (sample_doc 7400) [AChunk 3] [] true (p_handler p) p /\
  run_ops (env := release) [@ONext aval; OSkip; ONext; OSkip] p = (rs, p1) /\ no_panic rs /\ skips_fine [@ONext aval; OSkip; ONext; OSkip] rs /\
  run_op (env := release) (@ONext aval) p1 = (Ok (BEvent (EvEndFbx (inr ft))), p2).
Proof.
  do 5 eexists. split; [apply opened_kept; vm_compute; reflexivity|]. split; [vm_compute; reflexivity|]. split; [reflexivity|].
  split; [repeat split; discriminate|vm_compute; reflexivity].
Qed.
End CrashCases.
