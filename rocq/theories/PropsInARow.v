(** C79: several documents one after another in one stream. *)
Require Import Coq.Lists.List Coq.NArith.NArith Coq.ZArith.ZArith Coq.Bool.Bool Coq.micromega.Lia.
Require Import Coq.Init.Byte.
Require Import ZifyBool ZifyNat ZifyN.
Require Import Verif.Base Verif.BaseFacts Verif.Utf8 Verif.Types Verif.Values Verif.Io Verif.IoFacts Verif.Parser Verif.MonadFacts Verif.ParserSteps Verif.ParserHist Verif.ParserRel.
Require Import Verif.Loaders Verif.Spec Verif.SpecErr Verif.ErrFacts Verif.SpecFail Verif.PropsRel Verif.PropsTrunc Verif.Tree Verif.TreeSpec Verif.TreeIo Verif.TreeIoSpec Verif.PropsTreeIo Verif.PropsAnyTree Verif.PropsFail Verif.PropsEmbed Verif.Zlib Verif.Samples.
Require Import Verif.Writer Verif.WriterSpec Verif.PropsWriter Verif.PropsRound Verif.AttrLoad Verif.FooterFacts Verif.ParserPos Verif.TreeRound Verif.TreeRound Verif.DocTrace Verif.TreeLoad Verif.Spec Verif.PropsHeader Verif.BaseFacts Verif.PropsDoc.
Import ListNotations.
Ltac Zify.zify_post_hook ::= Z.div_mod_to_equations.
Local Open Scope nat_scope.

Section WithEnv.
Context {env : Env}.

(** ** The client *)

(** [AnyTree::from_reader(&mut reader)] and [AnyTree::from_seekable_reader(&mut reader)],
    /repo/src/tree/any.rs lines 33-61: the result, and the reader as it is handed back.
    The same calls as in [any_tree]. If no parser could be created the reader is the one
    [FbxHeader::load] left. *)
Definition tree_from (s : stream) (seekable : bool) : res any_tree_error (N * tree * (perr + footer)) * stream :=
  match any_parser s seekable with
  | Err e => (Err (TreeParserCreation e), snd (header_load s))
  | Panic => (Panic, snd (header_load s))
  | Ok p =>
      match load_tree (set_handler (Some (fun _ => None)) p) with
      | (Ok (t, f), s') => (Ok (p_ver p, t, f), r_stream (p_rd s'))
      | (Err e, s') => (Err (TreeLoad e), r_stream (p_rd s'))
      | (Panic, s') => (Panic, r_stream (p_rd s'))
      end
  end.

(** A client that loads [n] documents from the same reader. *)
Fixpoint trees_from (n : nat) (s : stream) (seekable : bool) : list (res any_tree_error (N * tree * (perr + footer))) * stream :=
  match n with
  | O => ([], s)
  | S n => let '(r, s1) := tree_from s seekable in let '(rs, s2) := trees_from n s1 seekable in (r :: rs, s2)
  end.

(** ** Specification *)

(** The bytes [d] are one complete document: alone they load to the end, footer included, and no
    part cut off at the end of them can be spared. *)
Record one_document (seekable : bool) (d : list byte) (v : N) (t : tree) (f : footer) : Prop := {
  od_loads : any_tree (mkStream d 0 [] []) seekable = Ok (v, t, inr f);
  od_needed : forall n, (n < lenN d)%N -> forall v' t' f', any_tree (mkStream (takeN n d) 0 [] []) seekable <> Ok (v', t', inr f')
}.

(** ** Proofs *)

Lemma tree_from_any_tree : forall s seekable, fst (tree_from s seekable) = any_tree s seekable.
Proof.
  intros s seekable. unfold tree_from, any_tree. destruct (any_parser s seekable) as [p|e|]; [|reflexivity..].
  destruct (load_tree _) as [[[t f]|e|] s']; reflexivity.
Qed.

Lemma mend_calm : forall r, s_seeks (r_stream r) = [] -> nofail (s_sched (r_stream r)) = true -> mend r = r.
Proof.
  intros [[rem o sc sk] pos b] E N. cbn in E, N. subst sk. unfold mend. cbn [r_stream s_rem s_off s_sched s_seeks r_pos r_seekable]. do 2 f_equal.
  clear - N. induction sc as [|[k| |c] sc IH]; cbn in *; [reflexivity| | |discriminate]; fold (sound_reads sc); rewrite IH; auto.
Qed.

Lemma nofail_codes : forall sc, nofail sc = true -> read_codes sc = [].
Proof. induction sc as [|[k| |c] sc IH]; cbn; intros N; [reflexivity|auto|auto|discriminate]. Qed.

(** No seek fails after the calls if none could before. *)
Lemma seeks_stay : forall O (l : list (op O)) s rs t, run_ops l s = (rs, t) -> no_panic rs ->
  s_seeks (source s) = [] -> nofail (s_sched (source s)) = true -> s_seeks (source t) = [].
Proof.
  intros O l s rs t E Hp H1 H2.
  assert (Q : set_rd (mend (p_rd s)) s = s) by (rewrite (mend_calm _ H1 H2); destruct s; reflexivity).
  destruct (sane_ops 0 O l s s rs t) as [X|(t2 & Y & _ & Z)]; [|exact E|exact Hp|unfold hit in X; lia|].
  - split; [|symmetry; exact Q]. unfold fails_left. rewrite H1, (nofail_codes _ H2). reflexivity.
  - rewrite E in Y. injection Y as <-. rewrite Z. reflexivity.
Qed.

(** Where a load that reads to the end leaves the reader. *)
Lemma load_leaves : forall d v t f seekable rest sched, one_document seekable d v t f -> nofail sched = true ->
  exists sched', nofail sched' = true /\
    tree_from (mkStream (d ++ rest) 0 sched []) seekable = (Ok (v, t, inr f), mkStream rest (lenN d) sched' []).
Proof.
  intros d v t f seekable rest sched [HL HN] NF. set (h := Some (fun _ : list (warning * synpos) => @None perr)).
  destruct (any_tree_open _ _ _ _ _ _ _ HL) as (p & items & s & E & EV & L & R). fold h in E.
  destruct (reads_cut _ _ _ _ _ _ _ _ _ E R) as (C1 & C2 & C3).
  assert (CL : consumed s = lenN d).
  { destruct (N.lt_ge_cases (consumed s) (lenN d)) as [Hc|Hc]; [|lia]. exfalso. destruct (C3 []) as (p' & s' & E' & R' & _). rewrite app_nil_r in E'.
    destruct (C33_reads_load _ _ _ _ _ _ (open_as_opened _ _ _ _ _ _ E') _ _ _ R') as (r & E2 & M). cbn [load_matches] in M. destruct M as (t' & ds & -> & _).
    apply (HN _ Hc (p_ver p') t' f). apply (open_any_tree _ _ _ _ _ _ _ E'). rewrite E2. reflexivity. }
  destruct (C3 rest) as (p1 & s1 & E1 & R1 & EC). rewrite CL, takeN_all in E1 by lia. rewrite CL in EC.
  destruct (reads_ops _ _ _ _ R1) as (l & rs & A1 & F & B & C). destruct (C _ eq_refl) as (rs0 & Ers).
  assert (Fr : Forall regular l) by (revert F; apply Forall_impl; exact plain_regular).
  pose proof (open_sched (d ++ rest) [] sched [] seekable h eq_refl NF) as Q. rewrite E1 in Q.
  destruct (open_as (d ++ rest) sched [] seekable h) as [p2|e2|] eqn:E2; [|contradiction..].
  destruct (sched_runs _ l p1 p2 Fr Q) as [K1 K2]. rewrite A1 in K1, K2. destruct (run_ops l p2) as [rs2 s2] eqn:A2. cbn [fst snd] in K1, K2. subst rs2.
  pose proof (B _ _ A2) as R2.
  assert (K : completes (d ++ rest) sched [] seekable h l rs f s2) by (exists p2; eauto).
  destruct (C20_consumed_in_stream _ _ _ _ _ _ _ _ _ _ K) as (_ & _ & RM).
  assert (C22 : consumed s2 = lenN d) by (unfold consumed in *; rewrite <- (q_off _ _ K2); exact EC).
  rewrite C22, dropN_app_len in RM.
  assert (NP : no_panic rs) by (rewrite Ers in A2 |- *; eapply ends_no_panic; exact A2).
  assert (SK : s_seeks (source p2) = []).
  { pose proof (open_sound (d ++ rest) sched [] seekable) as I. unfold open_as in E2. destruct (any_parser _ seekable) as [q|e|]; [|discriminate..]. injection E2 as <-.
    destruct I as (_ & reads & seeks & _ & I & _). symmetry in I. apply app_eq_nil in I. apply I. }
  pose proof (seeks_stay _ _ _ _ _ A2 NP SK (q_nofail2 _ _ Q)) as SK2.
  destruct (C33_reads_load _ _ _ _ _ _ (open_as_opened _ _ _ _ _ _ E2) _ _ _ R2) as (r & L2 & _).
  pose proof (opened_same _ _ _ _ _ _ _ _ _ _ _ _ _ _ _ _ (open_as_opened _ _ _ _ _ _ E) (open_as_opened _ _ _ _ _ _ E2) R R2) as S.
  rewrite L, L2 in S. cbn [fst] in S. subst r.
  assert (V2 : p_ver p2 = v).
  { rewrite <- EV, (open_ver _ _ _ _ _ _ E), (open_ver _ _ _ _ _ _ E2). f_equal.
    rewrite !takeN_firstn, !dropN_skipn, skipn_app, firstn_app, !skipn_length.
    rewrite <- CL in C2. unfold lenN in CL. replace (N.to_nat 4 - (length d - N.to_nat 23)) with 0 by lia. cbn [firstn]. rewrite app_nil_r. reflexivity. }
  exists (s_sched (source s2)). split; [exact (q_nofail2 _ _ K2)|].
  unfold tree_from. unfold open_as in E2. destruct (any_parser _ seekable) as [q|e|]; [|discriminate..]. injection E2 as <-. fold h. rewrite L2. cbn [set_handler p_ver] in V2. rewrite V2.
  f_equal. change (r_stream (p_rd s2)) with (source s2) in RM |- *. unfold consumed in C22. change (r_stream (p_rd s2)) with (source s2) in C22.
  destruct (source s2) as [m o sc sk]. cbn [s_rem s_off s_seeks s_sched] in *. congruence.
Qed.

(** ** C79 *)

(** Loading a document from a reader that stands at its beginning, with anything before it and
    anything behind it: the result is that of the document alone, and the reader is handed back
    standing at the first byte behind the document, no matter how it delivers the bytes. *)
Theorem C79_next_document : forall d v t f seekable rest base sched, one_document seekable d v t f -> nofail sched = true ->
  exists sched', nofail sched' = true /\
    tree_from (mkStream (d ++ rest) base sched []) seekable = (Ok (v, t, inr f), mkStream rest (base + lenN d)%N sched' []).
Proof.
  intros d v t f seekable rest base sched H NF. destruct (load_leaves _ _ _ _ _ rest _ H NF) as (sched' & N' & E). exists sched'. split; [exact N'|].
  change (mkStream (d ++ rest) base sched []) with (moved_stream base (mkStream (d ++ rest) 0 sched [])). unfold tree_from in *. rewrite m_open.
  destruct (any_parser (mkStream (d ++ rest) 0 sched []) seekable) as [p|e|]; [|discriminate..].
  change (set_handler ?h (moved base p)) with (moved base (set_handler h p)). rewrite m_tree.
  destruct (load_tree _) as [[[t' f']|e|] s']; try discriminate. cbn [fst snd]. injection E as EV -> -> E. cbn [moved set_rd p_rd r_stream p_ver]. rewrite EV, E.
  unfold moved_stream. cbn [s_rem s_off s_sched s_seeks]. rewrite N.add_comm. reflexivity.
Qed.

(** Documents in a row: loading as many documents as there are gives every one of them, in
    order, each as if it were alone, and leaves the reader behind the last. *)
Theorem C79_documents_in_a_row : forall seekable docs results rest base sched,
  Forall2 (fun d r => let '(v, t, f) := r in one_document seekable d v t f) docs results -> nofail sched = true ->
  exists sched', nofail sched' = true /\
    trees_from (length docs) (mkStream (concat docs ++ rest) base sched []) seekable =
      (map (fun r => let '(v, t, f) := r in Ok (v, t, inr f)) results, mkStream rest (base + lenN (concat docs))%N sched' []).
Proof.
  intros seekable docs results rest base sched H. revert base sched. induction H as [|d [[v t] f] docs results H HS IH]; intros base sched NF.
  - exists sched. split; [exact NF|]. cbn. rewrite N.add_0_r. reflexivity.
  - cbn [concat length trees_from map]. rewrite <- app_assoc. destruct (C79_next_document _ _ _ _ _ (concat docs ++ rest) base _ H NF) as (sc1 & N1 & ->).
    destruct (IH (base + lenN d)%N _ N1) as (sc2 & N2 & ->). exists sc2. split; [exact N2|]. rewrite lenN_app, N.add_assoc. reflexivity.
Qed.

Lemma header_opens : forall ver rest seekable h, (7000 <= ver <= 7999)%N ->
  exists p, open_as (spec_magic ++ le_enc 4 ver ++ rest) [] [] seekable h = Ok p /\ p_ver p = ver.
Proof.
  intros ver rest seekable h V. set (data := spec_magic ++ le_enc 4 ver ++ rest).
  destruct (header_load_nofail (mkStream data 0 [] []) eq_refl) as (sc' & _ & E). cbn [s_rem s_off s_seeks] in E.
  assert (L : (27 <= length data)%nat) by (unfold data; rewrite !app_length, le_enc_length; change (length spec_magic) with 23%nat; lia).
  replace (Nat.leb 23 (length data)) with true in E by (symmetry; apply Nat.leb_le; lia).
  replace (Nat.leb 27 (length data)) with true in E by (symmetry; apply Nat.leb_le; lia).
  assert (E1 : firstn 23 data = magic) by reflexivity. rewrite E1, (proj2 (bytes_eqb_eq _ _) eq_refl) in E.
  assert (E2 : le_dec (firstn 4 (skipn 23 data)) = ver).
  { unfold data. change (skipn 23 (spec_magic ++ ?x)) with x. rewrite firstn_app, firstn_all2 by (rewrite le_enc_length; auto).
    rewrite le_enc_length. cbn [Nat.sub firstn]. rewrite app_nil_r. apply le_dec_enc. apply u4_ver. exact V. }
  rewrite E2 in E. pose proof (C02_parser_creation (mkStream data 0 [] []) seekable) as K. rewrite E in K.
  replace ((7000 <=? ver) && (ver <=? 7999))%N with true in K by lia. destruct K as (p & K & KV & _).
  exists (set_handler h p). unfold open_as. rewrite K. auto.
Qed.

(** Every finished document is one document in this sense: the bytes of any nodes between the
    header and a footer in the standard form. *)
Theorem C79_finished_is_one_document : forall ver ns g seekable, zlib_roundtrip env -> doc_ok ver ns -> foot_ok g -> (lenN (enc_doc ver ns g) < pow2_64)%N ->
  seekable = true \/ forallb no_zip ns = true ->
  exists t, one_document seekable (enc_doc ver ns g) ver t (footer_of ver g) /\ doc_at t (tr_root t) (DNode [] [] (map doc_of ns)).
Proof.
  intros ver ns g seekable HZ HD HF HL HS. set (h := Some (fun _ : list (warning * synpos) => @None perr)). set (d := enc_doc ver ns g) in *.
  assert (ED : exists rest, d = spec_magic ++ le_enc 4 ver ++ rest) by (pose proof (enc_doc_eq ver ns g []) as X; rewrite app_nil_r in X; eexists; exact X).
  destruct ED as (rest & ED). destruct (header_opens ver rest seekable h (proj1 HD)) as (p & E & V). rewrite <- ED in E.
  assert (OD : opened_doc ver ns g [] seekable p).
  { constructor; [exact HD|exact HF|rewrite app_nil_r; exact HL|]. exists [], [], h. rewrite app_nil_r. repeat (split; [reflexivity|]).
    split; [intros log; reflexivity|]. apply open_as_opened. exact E. }
  destruct (C33_document _ _ _ _ _ _ HZ OD HS) as (t & s & L & RM & _ & D). exists t. split; [|exact D].
  destruct (C33_load_reads _ _ _ _ _ _ (open_as_opened _ _ _ _ _ _ E) _ _ L) as (items & o & R & M).
  destruct o as [f|e|]; cbn [load_matches] in M; [|discriminate|discriminate]. destruct M as (t' & ds & [= <- <-] & _).
  assert (CS : consumed s = lenN d).
  { destruct (reads_ops _ _ _ _ R) as (l & rs & A & F & B & C). destruct (C _ eq_refl) as (rs0 & ->).
    assert (K : completes d [] [] seekable h l (rs0 ++ [Ok (BEvent (EvEndFbx (inr (footer_of ver g))))]) (footer_of ver g) s) by (exists p; eauto).
    destruct (C20_consumed_in_stream _ _ _ _ _ _ _ _ _ _ K) as (_ & C2 & C3). unfold rem_of in RM. rewrite RM in C3.
    apply (f_equal (@lenN _)) in C3. rewrite lenN_dropN in C3. change (lenN (@nil byte)) with 0%N in C3. lia. }
  split.
  - pose proof (open_any_tree _ _ _ _ _ t (inr (footer_of ver g)) E) as X. rewrite L, V in X. apply X. reflexivity.
  - intros n Hn v' t' f' H'. destruct (any_tree_open _ _ _ _ _ _ _ H') as (p' & items' & s' & E' & _ & _ & R').
    destruct (reads_cut _ _ _ _ _ _ _ _ _ E' R') as (D1 & D2 & D3). rewrite lenN_takeN in D2.
    destruct (D3 (dropN (consumed s') d)) as (p2 & s2 & E2 & R2 & EC).
    assert (X : takeN (consumed s') (takeN n d) = takeN (consumed s') d) by (rewrite !takeN_firstn, firstn_firstn; f_equal; lia).
    rewrite X, takeN_dropN in E2. fold h in E2. rewrite E in E2. injection E2 as <-.
    destruct (reads_det _ _ _ _ R _ _ _ R2) as (_ & _ & <-). lia.
Qed.

(** In particular a file written into an empty sink. *)
Theorem C79_written_is_one_document : forall k ver l f k' seekable, zlib_roundtrip env -> k_data k = [] -> finished k ver l f k' -> standard f ->
  seekable = true \/ forallb no_zip (nodes_of l) = true ->
  exists t, one_document seekable (k_data k') ver t (footer_of ver (foot_of ver (nodes_of l) f)) /\
    doc_at t (tr_root t) (DNode [] [] (map doc_of (nodes_of l))).
Proof.
  intros k ver l f k' seekable HZ K HF HST HS. destruct (finished_bytes _ _ _ _ _ HF) as [HD _]. pose proof HF as [HT HL (s & fl & s' & HW & HE)].
  destruct (C27_finished _ _ _ _ _ _ _ _ HW HE) as (_ & D & _). fold (nodes_of l) in D. rewrite K in D.
  assert (DN : forall n, dropN n (@nil byte) = []) by (intros n; rewrite dropN_skipn; apply skipn_nil).
  rewrite DN, app_nil_r, (standard_doc _ _ _ HST) in D. rewrite D in HL |- *.
  apply C79_finished_is_one_document; auto. apply standard_foot; auto.
Qed.

(** When nothing is left, another load says so: the reader is at its end. *)
Theorem C79_end_of_row : forall base sched seekable, nofail sched = true ->
  exists s', tree_from (mkStream [] base sched []) seekable = (Err (TreeParserCreation (AnyHeader (HeaderIo IoEof))), s') /\ s_off s' = base.
Proof.
  intros base sched seekable N. unfold tree_from, any_parser, header_load, st_read_exact. cbn [s_sched s_rem s_off s_seeks].
  destruct (rx_nofail sched [] 23 N) as (sc & _ & E). rewrite E. cbn [length Nat.leb]. eexists. split; [reflexivity|]. cbn. lia.
Qed.
End WithEnv.

(** ** Concrete cases *)
Module RowCases.
Import PropsWriter.Cases.
(** Two documents of different versions are complete documents, whether or not the reader seeks. *)
Example complete_ex : forall ver, ver = 7400%N \/ ver = 7500%N ->
  zlib_roundtrip release /\ exists t, one_document (env := release) true (sample_doc ver) ver t (footer_of ver (sample_foot ver)) /\ length (tr_arena t) = 5.
Proof.
  intros ver Hv. split; [apply stored_roundtrip|].
  destruct (C79_finished_is_one_document (env := release) ver sample_nodes (sample_foot ver) true) as (t & H & D).
  - apply stored_roundtrip.
  - apply PropsDoc.Cases.sample_ok. exact Hv.
  - apply PropsDoc.Cases.sample_foot_ok. exact Hv.
  - destruct Hv as [-> | ->]; vm_compute; reflexivity.
  - left. reflexivity.
  - exists t. split; [exact H|]. pose proof (od_loads _ _ _ _ _ H) as L. clear - L Hv.
    destruct Hv as [-> | ->]; vm_compute in L; injection L as <-; reflexivity.
Qed.
(** One after another from offset 9, over a reader that delivers 7 bytes at a time and is interrupted, with three
    bytes behind: both are loaded, and the reader stands before the three bytes. *)
Definition row : stream := mkStream (sample_doc 7400 ++ sample_doc 7500 ++ [x41; x42; x43]) 9 [AChunk 7; AIntr; AChunk 1] [].
Example row_ex : let '(rs, s') := trees_from (env := release) 2 row true in
  map (fun r => match r with Ok (v, t, inr _) => (v, length (tr_arena t)) | _ => (0%N, 0) end) rs = [(7400%N, 5); (7500%N, 5)] /\
  s_rem s' = [x41; x42; x43] /\ s_off s' = (9 + lenN (sample_doc 7400) + lenN (sample_doc 7500))%N.
Proof. vm_compute. auto. Qed.
(** A written file: a node with an attribute, then a node with a child. *)
Definition kw : sink := mkSink [] 0 [] [] None.
Definition calls : list wcall := [CNode s_a [ASingle (SI32 7)]; CClose; CNode s_b [ADirect true s_hi]; CNode s_c []; CClose; CClose].
Definition mid : wstate := match new_writer kw 7400 with Ok s => snd (run_wcalls (env := release) calls s) | _ => mkW kw 0 [] end.
Definition file : sink := match finalize true default_footer mid with (Ok k, _) => k | _ => kw end.
Example written_ex : k_data kw = [] /\ finished (env := release) kw 7400 calls default_footer file /\ standard default_footer /\
  forallb no_zip (nodes_of calls) = true /\ lenN (k_data file) = 288%N.
Proof.
  split; [reflexivity|]. split; [|split; [exact default_standard|split; vm_compute; reflexivity]]. constructor.
  - repeat constructor.
  - vm_compute. reflexivity.
  - exists mid, true, (snd (finalize true default_footer mid)). split; [|vm_compute; reflexivity]. constructor.
    + repeat constructor; vm_compute; try reflexivity; try (split; intro; discriminate). all: discriminate.
    + repeat constructor.
    + eexists. eexists. split; [vm_compute; reflexivity|]. split; [vm_compute; reflexivity|]. fine_all.
Qed.
End RowCases.

Print Assumptions C79_next_document.
Print Assumptions C79_documents_in_a_row.
Print Assumptions C79_finished_is_one_document.
Print Assumptions C79_written_is_one_document.
Print Assumptions C79_end_of_row.
