(** C75: where in a stream a document begins. *)
Require Import Coq.Lists.List Coq.NArith.NArith Coq.ZArith.ZArith Coq.Bool.Bool Coq.micromega.Lia.
Require Import Coq.Init.Byte.
Require Import Verif.Base Verif.BaseFacts Verif.Types Verif.Io Verif.IoFacts Verif.Parser Verif.MonadFacts Verif.ParserRel Verif.ParserPos Verif.Loaders Verif.Tree Verif.TreeIo.
Require Import Verif.Writer Verif.ParserHist Verif.PropsHeader Verif.PropsRel Verif.PropsEvents Verif.PropsAnyTree Verif.WriterSpec Verif.PropsWriter Verif.Zlib Verif.Samples.
Import ListNotations.
Local Open Scope nat_scope.

(** ** Specification *)
(** The same parser on a reader that stands [base] bytes further into its stream. *)
Definition moved_stream (base : N) (s : stream) : stream := mkStream (s_rem s) (s_off s + base) (s_sched s) (s_seeks s).
Definition moved (base : N) (p : pstate) : pstate :=
  set_rd (mkReader (moved_stream base (r_stream (p_rd p))) (r_pos (p_rd p)) (r_seekable (p_rd p))) p.
(** Opening the document at the place where the reader stands, [base] bytes into the stream. *)
Definition open_at (base : N) (data : list byte) sched seeks seekable h : res any_error pstate :=
  match any_parser (mkStream data base sched seeks) seekable with Ok p => Ok (set_handler h p) | Err e => Err e | Panic => Panic end.

Section WithEnv.
Context {env : Env}.
Context (base : N).
Definition R (s1 s2 : pstate) : Prop := s2 = moved base s1.

Lemma m_rdop : forall A (f : reader -> option A * reader),
  (forall r, f (mkReader (moved_stream base (r_stream r)) (r_pos r) (r_seekable r)) =
     (fst (f r), mkReader (moved_stream base (r_stream (snd (f r)))) (r_pos (snd (f r))) (r_seekable (snd (f r))))) -> rel R (rdop f) (rdop f).
Proof.
  intros A f H. apply rl_rdop. intros s1 s2 ->. unfold moved at 1. cbn [set_rd p_rd]. rewrite H. cbn [fst snd]. split; [reflexivity|].
  unfold R, moved. cbn [set_rd p_rd]. rewrite H. reflexivity.
Qed.
Ltac off := cbn [fst snd with_stream r_stream r_pos r_seekable s_rem s_off s_sched s_seeks];
  repeat match goal with |- context [(?o + base + ?x)%N] => replace (o + base + x)%N with (o + x + base)%N by lia end; reflexivity.
Lemma m_exact : forall n r, rd_exact n (mkReader (moved_stream base (r_stream r)) (r_pos r) (r_seekable r)) =
  (fst (rd_exact n r), mkReader (moved_stream base (r_stream (snd (rd_exact n r)))) (r_pos (snd (rd_exact n r))) (r_seekable (snd (rd_exact n r)))).
Proof.
  intros n [[rem o sc sk] pos b]. unfold rd_exact, moved_stream. cbn [r_stream r_pos r_seekable s_rem s_off s_sched s_seeks].
  destruct (rx sc rem n) as [[[e got] rem'] sc']. destruct (advance pos (lenN got)); off.
Qed.
Lemma m_to_end : forall n r, rd_to_end n (mkReader (moved_stream base (r_stream r)) (r_pos r) (r_seekable r)) =
  (fst (rd_to_end n r), mkReader (moved_stream base (r_stream (snd (rd_to_end n r)))) (r_pos (snd (rd_to_end n r))) (r_seekable (snd (rd_to_end n r)))).
Proof.
  intros n [[rem o sc sk] pos b]. unfold rd_to_end, moved_stream. cbn [r_stream r_pos r_seekable s_rem s_off s_sched s_seeks].
  destruct (rte sc rem n) as [[[e got] rem'] sc']. destruct (advance pos (lenN got)); off.
Qed.
Lemma m_once : forall n r, rd_once n (mkReader (moved_stream base (r_stream r)) (r_pos r) (r_seekable r)) =
  (fst (rd_once n r), mkReader (moved_stream base (r_stream (snd (rd_once n r)))) (r_pos (snd (rd_once n r))) (r_seekable (snd (rd_once n r)))).
Proof.
  intros n [[rem o sc sk] pos b]. unfold rd_once, moved_stream. cbn [r_stream r_pos r_seekable s_rem s_off s_sched s_seeks].
  destruct (r1 sc rem n) as [[e rem'] sc']. destruct (advance pos _); off.
Qed.
Lemma m_drop : forall n r, rd_drop n (mkReader (moved_stream base (r_stream r)) (r_pos r) (r_seekable r)) =
  (fst (rd_drop n r), mkReader (moved_stream base (r_stream (snd (rd_drop n r)))) (r_pos (snd (rd_drop n r))) (r_seekable (snd (rd_drop n r)))).
Proof.
  intros n [[rem o sc sk] pos b]. unfold rd_drop, moved_stream. cbn [r_stream r_pos r_seekable s_rem s_off s_sched s_seeks].
  destruct (advance pos _); off.
Qed.
Lemma m_part : forall n r, seek_part n (mkReader (moved_stream base (r_stream r)) (r_pos r) (r_seekable r)) =
  (fst (seek_part n r), mkReader (moved_stream base (r_stream (snd (seek_part n r)))) (r_pos (snd (seek_part n r))) (r_seekable (snd (seek_part n r)))).
Proof.
  intros n [[rem o sc sk] pos b]. unfold seek_part, moved_stream. cbn [r_stream r_pos r_seekable s_rem s_off s_sched s_seeks].
  destruct sk as [|[c|] sk]; [|reflexivity|]; destruct (seek_move pos n); off.
Qed.
Lemma m_all : forall l r, seek_all l (mkReader (moved_stream base (r_stream r)) (r_pos r) (r_seekable r)) =
  (fst (seek_all l r), mkReader (moved_stream base (r_stream (snd (seek_all l r)))) (r_pos (snd (seek_all l r))) (r_seekable (snd (seek_all l r)))).
Proof.
  induction l as [|n l IH]; intros r; [destruct r; reflexivity|]. cbn [seek_all]. rewrite m_part.
  destruct (seek_part n r) as [[[e|]|] r']; cbn [fst snd]; [reflexivity|apply IH|reflexivity].
Qed.
Lemma m_skip : forall n r, skip_to n (mkReader (moved_stream base (r_stream r)) (r_pos r) (r_seekable r)) =
  (fst (skip_to n r), mkReader (moved_stream base (r_stream (snd (skip_to n r)))) (r_pos (snd (skip_to n r))) (r_seekable (snd (skip_to n r)))).
Proof.
  intros n r. unfold skip_to. cbn [r_pos]. destruct (n <? r_pos r)%N; [reflexivity|]. unfold skip_distance. cbn [r_seekable].
  destruct (r_seekable r) eqn:E; [unfold skip_distance_seekable; rewrite <- E; apply m_all|]. rewrite <- E.
  destruct r as [[rem o sc sk] pos b]. unfold skip_distance_plain, moved_stream. cbn [r_stream r_pos r_seekable s_rem s_off s_sched s_seeks].
  destruct (rte sc rem _) as [[[e got] rem'] sc']. off.
Qed.
Lemma m_agrees : forall s1 s2, R s1 s2 -> agrees s1 s2.
Proof. intros s1 s2 ->. constructor; reflexivity. Qed.
Lemma m_warn : forall w p, rel R (warn w p) (warn w p).
Proof.
  intros w p s1 s2 ->. unfold warn. cbn [moved set_rd p_handler p_log]. destruct (p_handler s1) as [h|]; [destruct (h _)|]; split; reflexivity.
Qed.
Lemma m_run : forall O (p : rdprog O) limit, rel R (run_rd p limit) (run_rd p limit).
Proof.
  assert (P : rel R reader_pos reader_pos) by (apply rl_gets; intros s1 s2 ->; reflexivity).
  intros O p. induction p as [r|n k IH|n k IH|k IH|amt k IH]; intros limit; cbn [run_rd].
  - apply rl_ret.
  - apply rl_bind; [apply m_rdop, m_once|intros x; apply IH].
  - destruct (N.of_nat n <=? limit)%N; repeat (apply rl_bind; [first [exact P|apply m_rdop; first [apply m_exact|apply m_to_end]]|intros ?]); apply IH.
  - repeat (apply rl_bind; [first [exact P|apply m_rdop, m_to_end]|intros ?]); apply IH.
  - apply rl_bind.
    + apply m_rdop. intros [[rem o sc sk] pos b]. unfold rd_peek, moved_stream. cbn [r_stream r_pos r_seekable s_rem s_off s_sched s_seeks].
      destruct (r1 sc rem _) as [[e rem'] sc']. reflexivity.
    + intros x. apply rl_bind; [apply m_rdop, m_drop|intros _; apply IH].
Qed.

Ltac inst := first [exact m_agrees|exact m_warn|intros; apply m_run|intros; apply m_rdop; first [apply m_exact|apply m_to_end|apply m_skip]|intros ? s1 s2 ->; reflexivity|auto].
Lemma m_op : forall O (o : op O), rel R (run_op o) (run_op o).
Proof. intros O o. apply (r_run_op R (fun _ _ => True)); try solve [inst]. destruct o; cbn; auto; intros ? ? ?; exact I. Qed.
Lemma m_load : forall O (l : loader O), rel R (load_next l) (load_next l).
Proof. intros O l. apply (r_load_next R (fun _ _ => True)); try solve [inst]. intros ? ? ?; exact I. Qed.
Lemma m_ops : forall O (l : list (op O)) s, run_ops l (moved base s) = (fst (run_ops l s), moved base (snd (run_ops l s))).
Proof.
  intros O l s. destruct (r_run_ops R (fun _ _ => True)) with (O := O) (l := l) (s1 := s) (s2 := moved base s) as (A & B); try solve [inst]; [|reflexivity|].
  - apply Forall_forall. intros o _. destruct o; cbn; auto; intros ? ? ?; exact I.
  - destruct (run_ops l (moved base s)) as [rs t]. cbn [fst snd] in *. rewrite A. f_equal. exact B.
Qed.
Lemma m_loop : forall n x, rel R (mloop n load_step x) (mloop n load_step x).
Proof.
  intros n.
  apply rl_mloop. intros [t [|cur rest]]; cbn [load_step]; [apply rl_panic|].
  apply rl_bind; [apply m_op|]. intros [[nm| |f]| | |]; try apply rl_panic.
  - apply rl_bind.
    + unfold loader_add_node. destruct (intern (tr_names t) nm) as [sym names]. apply rl_bind.
      * unfold collect_attrs. apply rl_bind; [unfold get_attrs; apply rl_bind; [apply rl_gets; intros ? ? ->; reflexivity|intros [a|]; [apply rl_ret|apply rl_panic]]|].
        intros a. apply rl_bind; [|intros [x|x]; [apply rl_panic|apply rl_ret]]. apply rl_mloop. intros acc. unfold collect_attr, iter_next.
        apply rl_bind; [apply rl_bind; [apply rl_try, m_load|intros [e|[v|]]; apply rl_ret]|]. intros [[e|v]|]; [apply rl_throw|apply rl_ret|apply rl_ret].
      * intros ats. destruct (append _ _ _); [apply rl_ret|apply rl_panic].
    + intros [x t']. apply rl_ret.
  - apply rl_ret.
  - destruct rest; [apply rl_ret|apply rl_panic].
Qed.
Lemma m_body : rel R load_body load_body.
Proof.
  intros s1 s2 ->. unfold load_body, bind, gets. change (s_rem (r_stream (p_rd (moved base s1)))) with (s_rem (r_stream (p_rd s1))).
  destruct (m_loop (N.succ_pos (2 * lenN (s_rem (r_stream (p_rd s1))) + 1)) (tree_default, [tr_root tree_default]) s1 _ eq_refl) as (A & B).
  destruct (mloop _ load_step _ s1) as [r1 t1], (mloop _ load_step _ (moved base s1)) as [r2 t2]. cbn [fst snd] in A, B. subst r2.
  destruct r1 as [[x|x]|e|]; split; auto.
Qed.
Lemma m_tree : forall s, load_tree (moved base s) = (fst (load_tree s), moved base (snd (load_tree s))).
Proof.
  intros s. unfold load_tree. change (is_used (moved base s)) with (is_used s). destruct (is_used s); [reflexivity|].
  destruct (m_body s (moved base s) eq_refl) as (A & B). destruct (load_body s) as [r1 t1], (load_body (moved base s)) as [r2 t2]. cbn [fst snd] in A, B. subst r2.
  unfold R in B. subst t2. destruct r1; reflexivity.
Qed.
Lemma m_exact0 : forall n s, st_read_exact n (moved_stream base s) = (fst (st_read_exact n s), moved_stream base (snd (st_read_exact n s))).
Proof.
  intros n [rem o sc sk]. unfold st_read_exact, moved_stream. cbn [s_rem s_off s_sched s_seeks]. destruct (rx sc rem n) as [[[e got] rem'] sc'].
  off.
Qed.
Lemma m_open : forall s seekable, any_parser (moved_stream base s) seekable =
  match any_parser s seekable with Ok p => Ok (moved base p) | Err e => Err e | Panic => Panic end.
Proof.
  intros s seekable. unfold any_parser, header_load. rewrite m_exact0. destruct (st_read_exact 23 s) as [[e|m] s1]; cbn [fst snd]; [reflexivity|].
  destruct (bytes_eqb m magic); [|reflexivity]. rewrite m_exact0. destruct (st_read_exact 4 s1) as [[e|v] s2]; cbn [fst snd]; [reflexivity|].
  destruct (ver_supported (le_dec v)) eqn:V; [|reflexivity]. unfold parser_create. rewrite V. reflexivity.
Qed.
End WithEnv.

Section WithEnv2.
Context {env : Env}.

(** Opening a document, and any calls on the parser, with any loaders: where the reader stands
    in its stream has no effect on any result, and the reader moves by the same number of bytes.
    All positions are counted from the beginning of the document. *)
Theorem C75_reading : forall O base data sched seeks seekable h (l : list (op O)),
  match open_as data sched seeks seekable h, open_at base data sched seeks seekable h with
  | Ok p, Ok q =>
      let '(rs, s) := run_ops l p in let '(rs', t) := run_ops l q in
      rs' = rs /\ position_of t = position_of s /\ depth t = depth s /\ p_log t = p_log s /\
      s_off (r_stream (p_rd t)) = (base + s_off (r_stream (p_rd s)))%N /\ s_rem (r_stream (p_rd t)) = s_rem (r_stream (p_rd s))
  | Err e, Err e' => e = e'
  | _, _ => False
  end.
Proof.
  intros O base data sched seeks seekable h l. unfold open_as, open_at.
  change (mkStream data base sched seeks) with (moved_stream base (mkStream data 0 sched seeks)). rewrite m_open.
  pose proof (C02_parser_creation (mkStream data 0 sched seeks) seekable) as K.
  destruct (any_parser (mkStream data 0 sched seeks) seekable) as [p|e|] eqn:E; [|reflexivity|].
  - change (set_handler h (moved base p)) with (moved base (set_handler h p)). rewrite m_ops. destruct (run_ops l (set_handler h p)) as [rs s]. cbn [fst snd].
    repeat split; try reflexivity. cbn. lia.
  - destruct (header_load _) as [[v|e|] s']; [|congruence|contradiction]. destruct (_ && _); [destruct K as (p & K & _); congruence|congruence].
Qed.
(** So with a seekable reader the position that is reported is the distance of the reader from the
    beginning of the document (C04 is the case [base = 0]). *)
Theorem C75_position : forall O base data sched seeks h q (l : list (op O)) rs t,
  open_at base data sched seeks true h = Ok q -> run_ops l q = (rs, t) -> no_panic rs ->
  exists pos, position_of t = Some pos /\ s_off (r_stream (p_rd t)) = (base + byte_pos pos)%N /\ s_rem (r_stream (p_rd t)) = dropN (byte_pos pos) data.
Proof.
  intros O base data sched seeks h q l rs t E R N. pose proof (C75_reading O base data sched seeks true h l) as K. rewrite E in K.
  destruct (open_as data sched seeks true h) as [p|e|] eqn:Ep; [|contradiction..]. destruct (run_ops l p) as [rs0 s] eqn:Rp. rewrite R in K.
  destruct K as (-> & P & _ & _ & K1 & K2).
  destruct (C04_position_is_offset_seekable _ _ _ _ _ _ _ _ _ (open_as_opened _ _ _ _ _ _ Ep) Rp N) as (pos & A & B & C).
  exists pos. rewrite P, A, K1, K2, B. rewrite B in C. auto.
Qed.
(** Loading a whole document. *)
Theorem C75_tree : forall base data sched seeks seekable,
  any_tree (mkStream data base sched seeks) seekable = any_tree (mkStream data 0 sched seeks) seekable.
Proof.
  intros base data sched seeks seekable. change (mkStream data base sched seeks) with (moved_stream base (mkStream data 0 sched seeks)).
  unfold any_tree. rewrite m_open. destruct (any_parser (mkStream data 0 sched seeks) seekable) as [p|e|]; [|reflexivity..].
  change (set_handler ?h (moved base p)) with (moved base (set_handler h p)). rewrite m_tree. destruct (load_tree _) as [[[t f]|e|] s]; reflexivity.
Qed.
(** A document inside a larger file: whatever precedes it, if the reader stands at its beginning,
    and whatever follows it, the same tree is loaded as from the document alone. *)
Theorem C75_archive : forall doc sched seeks seekable v t f base after,
  any_tree (mkStream doc 0 sched seeks) seekable = Ok (v, t, inr f) ->
  any_tree (mkStream (doc ++ after) base sched seeks) seekable = Ok (v, t, inr f).
Proof.
  intros doc sched seeks seekable v t f base after H. destruct (C48_end_of_file _ _ _ _ _ _ _ H) as (c & _ & L & K & _).
  rewrite C75_tree. specialize (K (dropN c doc ++ after)). rewrite app_assoc, takeN_dropN in K. exact K.
Qed.

(** Writing, on the other hand, always begins at the beginning of the sink: where the sink stands
    has no effect. *)
Theorem C75_writing : forall data pos1 pos2 writes seeks flush ver,
  new_writer (mkSink data pos1 writes seeks flush) ver = new_writer (mkSink data pos2 writes seeks flush) ver.
Proof.
  intros data pos1 pos2 writes seeks flush ver. unfold new_writer. destruct (negb _); [reflexivity|].
  unfold seek, wbind, k_seek. cbn [w_sink k_seeks k_data k_pos k_writes k_flush]. destruct seeks as [|[c|] seeks]; reflexivity.
Qed.
End WithEnv2.

(** ** Examples *)
Module EmbedCases.
Definition junk (n : nat) : list byte := repeat "x"%byte n.
(** The sample document at offset 1000 of a stream, with other data behind it. *)
Definition q0 : pstate := Eval vm_compute in match open_at  1000 (sample_doc 7400 ++ junk 50) [AChunk 7; AIntr] [] true None with Ok q => q | _ => mkP 0 Running [] None 0 (mkReader (mkStream [] 0 [] []) 0 true) None [] None end.
Example q0_ex : open_at  1000 (sample_doc 7400 ++ junk 50) [AChunk 7; AIntr] [] true None = Ok q0 /\
  let '(rs, t) := run_ops (env:=release) (firstn 9 sample_ops) q0 in no_panic rs /\ length rs = 9 /\
  s_off (r_stream (p_rd t)) = 1095%N /\ option_map byte_pos (position_of t) = Some 95%N.
Proof. split; vm_compute; auto. Qed.
Example tree_ex : exists t f, any_tree (env:=release) (mkStream (sample_doc 7400) 0 [] []) true = Ok (7400%N, t, inr f) /\ length (tr_arena t) = 5.
Proof. do 2 eexists. split; vm_compute; reflexivity. Qed.
(** A sink that stands at its end is overwritten from the beginning. *)
Example writer_ex : exists s, new_writer (mkSink (junk 40) 40 [] [] None) 7500 = Ok s /\
  k_data (w_sink s) = magic ++ le_enc 4 7500 ++ junk 13 /\ k_pos (w_sink s) = 27%N.
Proof. eexists. split; [vm_compute; reflexivity|]. split; reflexivity. Qed.
End EmbedCases.

Print Assumptions C75_reading.
Print Assumptions C75_position.
Print Assumptions C75_tree.
Print Assumptions C75_archive.
Print Assumptions C75_writing.
