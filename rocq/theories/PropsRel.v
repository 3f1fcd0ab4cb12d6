(** Independence of the I/O schedule (C03) and of an accepting warning handler (C10). *)
Require Import Coq.Lists.List Coq.NArith.NArith Coq.ZArith.ZArith Coq.Bool.Bool Coq.micromega.Lia.
Require Import ZifyBool ZifyNat ZifyN.
Require Import Verif.Base Verif.BaseFacts Verif.Utf8 Verif.Types Verif.Io Verif.IoFacts Verif.Parser Verif.MonadFacts Verif.ParserSteps Verif.ParserShape Verif.SpecHist Verif.ParserHist Verif.ParserPos Verif.ParserRel Verif.Loaders Verif.Spec Verif.Zlib Verif.Samples Verif.PropsEvents Verif.PropsSafety.
Import ListNotations.
Ltac Zify.zify_post_hook ::= Z.div_mod_to_equations.

(** A loader program that never looks at the size of a single read: it reads with
    [read_exact] and [read_to_end] only. *)
Inductive whole_reads (O : Type) : rdprog O -> Prop :=
| WRet : forall r, whole_reads O (RRet r)
| WExact : forall n k, (forall x, whole_reads O (k x)) -> whole_reads O (RExact n k)
| WToEnd : forall k, (forall x, whole_reads O (k x)) -> whole_reads O (RToEnd k).

Section WithEnv.
Context {env : Env}.

(** Same state but for the schedule of the reads to come, which never fail. *)
Record sched_eq (s1 s2 : pstate) : Prop := mkSchedEq {
  q_agrees : agrees s1 s2;
  q_handler : p_handler s1 = p_handler s2;
  q_log : p_log s1 = p_log s2;
  q_off : s_off (r_stream (p_rd s1)) = s_off (r_stream (p_rd s2));
  q_seekable : r_seekable (p_rd s1) = r_seekable (p_rd s2);
  q_seeks : s_seeks (r_stream (p_rd s1)) = s_seeks (r_stream (p_rd s2));
  q_nofail1 : nofail (s_sched (r_stream (p_rd s1))) = true;
  q_nofail2 : nofail (s_sched (r_stream (p_rd s2))) = true
}.

Lemma sched_eq_upd : forall f, 
  (forall s1 s2, agrees s1 s2 -> agrees (f s1) (f s2)) ->
  (forall s, p_handler (f s) = p_handler s /\ p_log (f s) = p_log s /\ p_rd (f s) = p_rd s) ->
  forall s1 s2, sched_eq s1 s2 -> sched_eq (f s1) (f s2).
Proof.
  intros f Ha Hf s1 s2 [A B C D E F G H]. destruct (Hf s1) as (X1 & X2 & X3), (Hf s2) as (Y1 & Y2 & Y3).
  constructor; rewrite ?X1, ?X2, ?X3, ?Y1, ?Y2, ?Y3; auto.
Qed.

(** Replacing the readers by readers that agree. *)
Lemma sched_eq_rd : forall s1 s2 r1 r2, sched_eq s1 s2 ->
  r_pos r1 = r_pos r2 -> s_rem (r_stream r1) = s_rem (r_stream r2) -> s_off (r_stream r1) = s_off (r_stream r2) ->
  r_seekable r1 = r_seekable r2 -> s_seeks (r_stream r1) = s_seeks (r_stream r2) ->
  nofail (s_sched (r_stream r1)) = true -> nofail (s_sched (r_stream r2)) = true ->
  sched_eq (set_rd r1 s1) (set_rd r2 s2).
Proof.
  intros s1 s2 r1 r2 [[A1 A2 A3 A4 A5 A6 A7 A8] B C D E F G H] H1 H2 H3 H4 H5 H6 H7.
  constructor; auto. constructor; auto.
Qed.

Lemma sq_exact : forall n, rel sched_eq (rdop (rd_exact n)) (rdop (rd_exact n)).
Proof.
  intros n. apply rl_rdop. intros s1 s2 H. pose proof H as [[A1 A2 A3 A4 A5 A6 A7 A8] B C D E F G1 G2].
  unfold rd_exact.
  destruct (rx_nofail _ (s_rem (r_stream (p_rd s1))) n G1) as (sc1 & N1 & E1). rewrite E1.
  destruct (rx_nofail _ (s_rem (r_stream (p_rd s2))) n G2) as (sc2 & N2 & E2). rewrite E2.
  rewrite A8. destruct (Nat.leb n (length (s_rem (r_stream (p_rd s2))))); rewrite A7;
  (destruct (advance (r_pos (p_rd s2)) _); cbn; (split; [reflexivity|]); apply sched_eq_rd; cbn; auto; congruence).
Qed.
Lemma sq_to_end : forall n, rel sched_eq (rdop (rd_to_end n)) (rdop (rd_to_end n)).
Proof.
  intros n. apply rl_rdop. intros s1 s2 H. pose proof H as [[A1 A2 A3 A4 A5 A6 A7 A8] B C D E F G1 G2].
  unfold rd_to_end.
  destruct (rte_nofail _ (s_rem (r_stream (p_rd s1))) n G1) as (sc1 & N1 & E1). rewrite E1.
  destruct (rte_nofail _ (s_rem (r_stream (p_rd s2))) n G2) as (sc2 & N2 & E2). rewrite E2.
  rewrite A8, A7.
  (destruct (advance (r_pos (p_rd s2)) _); cbn; (split; [reflexivity|]); apply sched_eq_rd; cbn; auto; congruence).
Qed.

Lemma sq_seek_all : forall ps s1 s2, sched_eq s1 s2 ->
  fst (seek_all ps (p_rd s1)) = fst (seek_all ps (p_rd s2)) /\
  sched_eq (set_rd (snd (seek_all ps (p_rd s1))) s1) (set_rd (snd (seek_all ps (p_rd s2))) s2).
Proof.
  induction ps as [|p ps IH]; intros s1 s2 H.
  - cbn. split; [reflexivity|]. destruct H as [[A1 A2 A3 A4 A5 A6 A7 A8] B C D E F G1 G2]. constructor; auto. constructor; auto.
  - cbn [seek_all].
    assert (K : fst (seek_part p (p_rd s1)) = fst (seek_part p (p_rd s2)) /\
                sched_eq (set_rd (snd (seek_part p (p_rd s1))) s1) (set_rd (snd (seek_part p (p_rd s2))) s2)).
    { pose proof H as [[A1 A2 A3 A4 A5 A6 A7 A8] B C D E F G1 G2]. unfold seek_part. rewrite F, A7, A8.
      destruct (s_seeks (r_stream (p_rd s2))) as [|[c|] sk].
      - destruct (seek_move (r_pos (p_rd s2)) p); cbn; (split; [reflexivity|]); apply sched_eq_rd; cbn; auto; congruence.
      - cbn; (split; [reflexivity|]); apply sched_eq_rd; cbn; auto; congruence.
      - destruct (seek_move (r_pos (p_rd s2)) p); cbn; (split; [reflexivity|]); apply sched_eq_rd; cbn; auto; congruence. }
    destruct K as [K1 K2].
    destruct (seek_part p (p_rd s1)) as [o1 r1], (seek_part p (p_rd s2)) as [o2 r2]. cbn in K1, K2. subst o2.
    destruct o1 as [[e|]|]; [cbn; auto| |cbn; auto].
    specialize (IH _ _ K2). cbn in IH. exact IH.
Qed.

Lemma sq_skip : forall n, rel sched_eq (rdop (skip_to n)) (rdop (skip_to n)).
Proof.
  intros n. apply rl_rdop. intros s1 s2 H. pose proof H as [[A1 A2 A3 A4 A5 A6 A7 A8] B C D E F G1 G2].
  unfold skip_to. rewrite A7. destruct (n <? r_pos (p_rd s2))%N.
  - cbn. split; [reflexivity|]. apply sched_eq_rd; auto.
  - unfold skip_distance. rewrite E. destruct (r_seekable (p_rd s2)).
    + unfold skip_distance_seekable. apply sq_seek_all. exact H.
    + unfold skip_distance_plain.
      destruct (rte_nofail _ (s_rem (r_stream (p_rd s1))) (n - r_pos (p_rd s2)) G1) as (sc1 & N1 & E1). rewrite E1.
      destruct (rte_nofail _ (s_rem (r_stream (p_rd s2))) (n - r_pos (p_rd s2)) G2) as (sc2 & N2 & E2). rewrite E2.
      rewrite A8. cbn [fst snd]. split; [reflexivity|]. apply sched_eq_rd; cbn [with_stream r_stream r_pos r_seekable s_rem s_off s_sched s_seeks]; auto; try congruence; apply (q_seekable _ _ H).
Qed.

Lemma sq_warn : forall w p, rel sched_eq (warn w p) (warn w p).
Proof.
  intros w p s1 s2 H. pose proof H as [[A1 A2 A3 A4 A5 A6 A7 A8] B C D E F G1 G2]. unfold warn. rewrite B, C.
  assert (K : sched_eq (set_log ((w, p) :: p_log s2) s1) (set_log ((w, p) :: p_log s2) s2)).
  { constructor; auto. constructor; auto. }
  destruct (p_handler s2) as [h|]; [destruct (h _)|]; cbn; auto.
Qed.

Lemma sq_reader_pos : rel sched_eq reader_pos reader_pos.
Proof. apply rl_gets. intros s1 s2 H. apply (g_pos _ _ (q_agrees _ _ H)). Qed.

Lemma sq_run : forall O (p : rdprog O) limit, whole_reads O p -> rel sched_eq (run_rd p limit) (run_rd p limit).
Proof.
  intros O p limit H. revert limit. induction H as [r|n k Hk IH|k Hk IH]; intros limit; cbn [run_rd].
  - apply rl_ret.
  - destruct (N.of_nat n <=? limit)%N.
    + apply rl_bind; [apply sq_reader_pos|]. intros p0. apply rl_bind; [apply sq_exact|]. intros r.
      apply rl_bind; [apply sq_reader_pos|]. intros p1. apply IH.
    + apply rl_bind; [apply sq_reader_pos|]. intros p0. apply rl_bind; [apply sq_to_end|]. intros r.
      apply rl_bind; [apply sq_reader_pos|]. intros p1. apply IH.
  - apply rl_bind; [apply sq_reader_pos|]. intros p0. apply rl_bind; [apply sq_to_end|]. intros r.
    apply rl_bind; [apply sq_reader_pos|]. intros p1. apply IH.
Qed.

(** A client call whose loaders read whole pieces. *)
Definition regular {O} (o : op O) : Prop := good_op whole_reads o.

Lemma sched_runs : forall O (l : list (op O)) s1 s2, Forall regular l -> sched_eq s1 s2 ->
  fst (run_ops l s1) = fst (run_ops l s2) /\ sched_eq (snd (run_ops l s1)) (snd (run_ops l s2)).
Proof.
  intros O l s1 s2 Hl H. apply (r_run_ops sched_eq whole_reads); auto.
  - intros. apply q_agrees. assumption.
  - intros h. apply (sched_eq_upd (set_health h)); [|auto]. intros ? ? []. constructor; auto.
  - intros h. apply (sched_eq_upd (set_stack h)); [|auto]. intros ? ? []. constructor; auto.
  - intros h. apply (sched_eq_upd (set_last h)); [|auto]. intros ? ? []. constructor; auto.
  - intros h. apply (sched_eq_upd (set_top h)); [|auto]. intros ? ? []. constructor; auto.
  - intros h. apply (sched_eq_upd (set_attrs h)); [|auto]. intros ? ? []. constructor; auto.
  - apply sq_warn.
  - apply sq_exact.
  - apply sq_to_end.
  - apply sq_skip.
  - apply sq_run.
Qed.

(** Opening the same bytes under two schedules that do not fail. *)
Definition open_as (data : list byte) sched seeks seekable h : res any_error pstate :=
  match any_parser (mkStream data 0 sched seeks) seekable with
  | Ok p => Ok (set_handler h p)
  | Err e => Err e
  | Panic => Panic
  end.

Lemma open_sched : forall data sc1 sc2 seeks seekable h, nofail sc1 = true -> nofail sc2 = true ->
  match open_as data sc1 seeks seekable h, open_as data sc2 seeks seekable h with
  | Ok p1, Ok p2 => sched_eq p1 p2
  | Err e1, Err e2 => e1 = e2
  | _, _ => False
  end.
Proof.
  intros data sc1 sc2 seeks seekable h N1 N2. unfold open_as, any_parser, header_load, st_read_exact.
  cbn [s_sched s_rem s_off s_seeks].
  destruct (rx_nofail sc1 data 23 N1) as (sa1 & Na1 & E1). rewrite E1.
  destruct (rx_nofail sc2 data 23 N2) as (sa2 & Na2 & E2). rewrite E2.
  destruct (Nat.leb 23 (length data)); [|reflexivity].
  destruct (bytes_eqb (firstn 23 data) magic); [|reflexivity]. cbn [s_sched s_rem s_off s_seeks].
  destruct (rx_nofail sa1 (skipn 23 data) 4 Na1) as (sb1 & Nb1 & F1). rewrite F1.
  destruct (rx_nofail sa2 (skipn 23 data) 4 Na2) as (sb2 & Nb2 & F2). rewrite F2.
  destruct (Nat.leb 4 (length (skipn 23 data))); [|reflexivity].
  set (v := le_dec (firstn 4 (skipn 23 data))). destruct (ver_supported v) eqn:Ev; [|reflexivity].
  unfold parser_create. rewrite Ev. constructor; auto. constructor; auto.
Qed.

(** C03: same bytes, same calls, any two schedules of short and interrupted reads: opening
    succeeds or fails alike; afterwards every call returns the same result, the same
    warnings have been delivered, and the position, the depth and the path reported are the
    same. *)
Theorem C03_schedule_independence : forall O data sc1 sc2 seeks seekable h (l : list (op O)),
  nofail sc1 = true -> nofail sc2 = true -> Forall regular l ->
  match open_as data sc1 seeks seekable h, open_as data sc2 seeks seekable h with
  | Ok p1, Ok p2 =>
      let '(rs1, s1) := run_ops l p1 in
      let '(rs2, s2) := run_ops l p2 in
      rs1 = rs2 /\ p_log s1 = p_log s2 /\ position_of s1 = position_of s2 /\ depth s1 = depth s2 /\
      s_off (r_stream (p_rd s1)) = s_off (r_stream (p_rd s2))
  | Err e1, Err e2 => e1 = e2
  | _, _ => False
  end.
Proof.
  intros O data sc1 sc2 seeks seekable h l N1 N2 Hl.
  pose proof (open_sched data sc1 sc2 seeks seekable h N1 N2) as K.
  destruct (open_as data sc1 seeks seekable h) as [p1|e1|], (open_as data sc2 seeks seekable h) as [p2|e2|]; auto.
  destruct (sched_runs O l p1 p2 Hl K) as [E H].
  destruct (run_ops l p1) as [rs1 s1], (run_ops l p2) as [rs2 s2]. cbn in E, H.
  destruct H as [[A1 A2 A3 A4 A5 A6 A7 A8] B C D E' F G1 G2].
  repeat split; auto.
  - unfold position_of. rewrite A3, A5, A7. reflexivity.
  - unfold depth. rewrite A3. reflexivity.
Qed.

(** The loaders the crate ships are regular. *)
Theorem C03_direct_loader_regular : regular (OLoad direct_loader) /\ regular (OLoad type_loader).
Proof.
  split; intros n p H; cbn in H; unfold read_all, read_all_str in H;
    repeat (destruct H as [<-|H]; [repeat constructor|]); contradiction.
Qed.

(** ** C10 *)

(** Same state but for the handler. *)
Definition handler_eq (h : handler) (s1 s2 : pstate) : Prop := p_handler s1 = None /\ s2 = set_handler (Some h) s1.

Section Accepting.
Context (h : handler) (accepts : forall l, h l = None).

Lemma he_upd : forall f : pstate -> pstate, (forall s, f (set_handler (Some h) s) = set_handler (Some h) (f s)) ->
  (forall s, p_handler (f s) = p_handler s) ->
  forall s1 s2, handler_eq h s1 s2 -> handler_eq h (f s1) (f s2).
Proof. intros f H1 H2 s1 s2 [A ->]. split; [rewrite H2; exact A | apply H1]. Qed.

Lemma he_rdop : forall A (f : reader -> option A * reader), rel (handler_eq h) (rdop f) (rdop f).
Proof.
  intros A f. apply rl_rdop. intros s1 s2 [H ->]. cbn. destruct (f (p_rd s1)) as [o r]. cbn.
  split; [reflexivity|]. split; [exact H | reflexivity].
Qed.

Lemma he_warn : forall w p, rel (handler_eq h) (warn w p) (warn w p).
Proof.
  intros w p s1 s2 [H ->]. unfold warn. cbn. rewrite H, accepts. cbn. split; [reflexivity|]. split; [exact H | reflexivity].
Qed.

Lemma he_run : forall O (p : rdprog O) limit, True -> rel (handler_eq h) (run_rd p limit) (run_rd p limit).
Proof.
  intros O p limit _. revert limit.
  assert (P : rel (handler_eq h) reader_pos reader_pos) by (apply rl_gets; intros s1 s2 [_ ->]; reflexivity).
  induction p as [r|n k IH|n k IH|k IH|amt k IH]; intros limit; cbn [run_rd].
  - apply rl_ret.
  - apply rl_bind; [apply he_rdop|]. intros; apply IH.
  - destruct (N.of_nat n <=? limit)%N;
      (apply rl_bind; [exact P|]; intros p0; apply rl_bind; [apply he_rdop|]; intros r; apply rl_bind; [exact P|]; intros p1; apply IH).
  - apply rl_bind; [exact P|]; intros p0; apply rl_bind; [apply he_rdop|]; intros r; apply rl_bind; [exact P|]; intros p1; apply IH.
  - apply rl_bind; [apply he_rdop|]. intros r. apply rl_bind; [apply he_rdop|]. intros; apply IH.
Qed.

Lemma handler_runs : forall O (l : list (op O)) s1 s2, handler_eq h s1 s2 ->
  fst (run_ops l s1) = fst (run_ops l s2) /\ handler_eq h (snd (run_ops l s1)) (snd (run_ops l s2)).
Proof.
  intros O l s1 s2 H. apply (r_run_ops (handler_eq h) (fun _ _ => True)); auto.
  - intros s t [_ ->]. constructor; reflexivity.
  - intros x. apply he_upd; reflexivity.
  - intros x. apply he_upd; reflexivity.
  - intros x. apply he_upd; reflexivity.
  - intros x. apply he_upd; reflexivity.
  - intros x. apply he_upd; reflexivity.
  - apply he_warn.
  - intros; apply he_rdop.
  - intros; apply he_rdop.
  - intros; apply he_rdop.
  - apply he_run.
  - apply Forall_forall. intros o _. destruct o; cbn; auto; intros ? ? ?; exact I.
Qed.
End Accepting.

(** C10, first half: a handler that accepts everything changes nothing: the results are the
    same and the final states are the same but for the handler itself; in particular the
    same warnings were delivered. *)
Theorem C10_accepting_handler : forall O data sched seeks seekable h p (l : list (op O)),
  (forall log, h log = None) ->
  opened data sched seeks seekable None p ->
  fst (run_ops l (set_handler (Some h) p)) = fst (run_ops l p) /\
  snd (run_ops l (set_handler (Some h) p)) = set_handler (Some h) (snd (run_ops l p)).
Proof.
  intros O data sched seeks seekable h p l Ha Ho.
  assert (Hn : p_handler p = None) by (apply opened_init in Ho; apply Ho).
  destruct (handler_runs h Ha O l p (set_handler (Some h) p)) as [E [_ F]].
  - split; [exact Hn | reflexivity].
  - split; [symmetry; exact E | exact F].
Qed.


(** *** C10, second half: a rejecting handler *)

(** Every one of the new warnings [l] (latest first), raised on top of [base], was accepted. *)
Fixpoint accepted (h : handler) (base l : list (warning * synpos)) : Prop :=
  match l with
  | [] => True
  | x :: t => h ((x :: t) ++ base) = None /\ accepted h base t
  end.

(** What a piece of a call does to the warnings: it raises some; they are all accepted, or all
    but the latest are, the latest is rejected with an error [e], and the result carries [e]. *)
Definition warns {A} (C : perr -> res perr A -> Prop) (s : pstate) (r : res perr A) (s' : pstate) : Prop :=
  p_handler s' = p_handler s /\
  exists l, p_log s' = l ++ p_log s /\
  forall h, p_handler s = Some h ->
    accepted h (p_log s) l \/
    exists w t e, l = w :: t /\ accepted h (p_log s) t /\ h (p_log s') = Some e /\ C e r.

Definition wok {A} (C : perr -> res perr A -> Prop) (m : M A) : Prop :=
  forall s, fst (m s) <> Panic -> warns C s (fst (m s)) (snd (m s)).

(** The usual way of carrying an error: failing with it at some position. *)
Definition fails {A} (e : perr) (r : res perr A) : Prop := exists q, r = Err (and_position e q).

Definition nolog (s s' : pstate) : Prop := p_handler s' = p_handler s /\ p_log s' = p_log s.
Lemma nolog_pre : preorder nolog.
Proof. split; unfold nolog; [auto|]. intros a b c [H1 H2] [H3 H4]. split; congruence. Qed.

Lemma accepted_app : forall h base l1 l2, accepted h base (l2 ++ l1) <-> accepted h (l1 ++ base) l2 /\ accepted h base l1.
Proof.
  intros h base l1 l2. induction l2 as [|x t IH]; cbn; [tauto|].
  rewrite IH, app_assoc. tauto.
Qed.

Lemma wok_nolog : forall A C (m : M A), steps nolog m -> wok C m.
Proof.
  intros A C m H s Hp. specialize (H s Hp). destruct H as [H1 H2]. split; [exact H1|].
  exists []. split; [exact H2|]. intros h Hh. left. exact I.
Qed.

Lemma wok_bind : forall A B (C : perr -> res perr B -> Prop) (m : M A) (f : A -> M B),
  wok fails m -> (forall a, wok C (f a)) -> (forall e q, C e (Err (and_position e q))) -> wok C (bind m f).
Proof.
  intros A B C m f Hm Hf HC s Hp. unfold bind in *. specialize (Hm s). destruct (m s) as [[a|e|] s1]; cbn in *.
  - destruct Hm as [H1 (l1 & L1 & K1)]; [discriminate|]. specialize (Hf a s1 Hp). destruct (f a s1) as [r s2]. cbn in *.
    destruct Hf as [H2 (l2 & L2 & K2)]. split; [congruence|]. exists (l2 ++ l1). split; [rewrite L2, L1, app_assoc; reflexivity|].
    intros h Hh. specialize (K1 h Hh). rewrite H1 in K2. specialize (K2 h Hh).
    destruct K1 as [K1|(w & t & e & _ & _ & _ & q & X)]; [|discriminate]. rewrite L1 in K2.
    destruct K2 as [K2|(w & t & e & -> & Ht & He & Hc)].
    + left. apply accepted_app. auto.
    + right. exists w, (t ++ l1), e. split; [reflexivity|]. split; [apply accepted_app; auto|]. auto.
  - destruct Hm as [H1 (l1 & L1 & K1)]; [discriminate|]. split; [exact H1|]. exists l1. split; [exact L1|].
    intros h Hh. destruct (K1 h Hh) as [K|(w & t & e0 & -> & Ht & He & q & X)]; [left; exact K|].
    right. exists w, t, e0. injection X as ->. auto.
  - congruence.
Qed.

Lemma wok_bind_nolog : forall A B (C : perr -> res perr A -> Prop) (D : perr -> res perr B -> Prop) (m : M A) (f : A -> M B),
  wok C m -> (forall a, steps nolog (f a)) ->
  (forall e a s, C e (Ok a) -> fst (f a s) <> Panic -> D e (fst (f a s))) ->
  (forall e e', C e (Err e') -> D e (Err e')) -> wok D (bind m f).
Proof.
  intros A B C D m f Hm Hf H1 H2 s Hp. unfold bind in *. specialize (Hm s). destruct (m s) as [[a|e|] s1]; cbn in *.
  - destruct Hm as [G1 (l1 & L1 & K1)]; [discriminate|]. destruct (Hf a s1 Hp) as [N1 N2].
    split; [congruence|]. exists l1. split; [congruence|].
    intros h Hh. destruct (K1 h Hh) as [K|(w & t & e0 & -> & Ht & He & Hc)]; [left; exact K|].
    right. exists w, t, e0. split; [reflexivity|]. split; [exact Ht|]. split; [congruence|]. apply H1; assumption.
  - destruct Hm as [G1 (l1 & L1 & K1)]; [discriminate|]. split; [exact G1|]. exists l1. split; [exact L1|].
    intros h Hh. destruct (K1 h Hh) as [K|(w & t & e0 & -> & Ht & He & Hc)]; [left; exact K|].
    right. exists w, t, e0. auto.
  - congruence.
Qed.

Lemma wok_try_bind : forall A B (C : perr -> res perr B -> Prop) (m : M A) (f : perr + A -> M B),
  wok fails m -> (forall a, wok C (f (inr a))) ->
  (forall e s, fst (f (inl e) s) <> Panic -> nolog s (snd (f (inl e) s))) ->
  (forall e q s, fst (f (inl (and_position e q)) s) <> Panic -> C e (fst (f (inl (and_position e q)) s))) ->
  wok C (bind (try_ m) f).
Proof.
  intros A B C m f Hm Hf He1 He2 s Hp. unfold bind, try_ in *. specialize (Hm s).
  destruct (m s) as [[a|e|] s1]; cbn in *.
  - destruct Hm as [H1 (l1 & L1 & K1)]; [discriminate|]. specialize (Hf a s1 Hp). destruct (f (inr a) s1) as [r s2]. cbn in *.
    destruct Hf as [H2 (l2 & L2 & K2)]. split; [congruence|]. exists (l2 ++ l1). split; [rewrite L2, L1, app_assoc; reflexivity|].
    intros h Hh. specialize (K1 h Hh). rewrite H1 in K2. specialize (K2 h Hh).
    destruct K1 as [K1|(w & t & e & _ & _ & _ & q & X)]; [|discriminate]. rewrite L1 in K2.
    destruct K2 as [K2|(w & t & e & -> & Ht & He & Hc)].
    + left. apply accepted_app. auto.
    + right. exists w, (t ++ l1), e. split; [reflexivity|]. split; [apply accepted_app; auto|]. auto.
  - destruct Hm as [H1 (l1 & L1 & K1)]; [discriminate|]. destruct (He1 e s1 Hp) as [N1 N2].
    split; [congruence|]. exists l1. split; [congruence|].
    intros h Hh. destruct (K1 h Hh) as [K|(w & t & e0 & -> & Ht & He & q & X)]; [left; exact K|].
    right. exists w, t, e0. injection X as ->. split; [reflexivity|]. split; [exact Ht|]. split; [congruence|]. apply He2. exact Hp.
  - congruence.
Qed.

Lemma wok_warn : forall w p, wok fails (warn w p).
Proof.
  intros w p s _. unfold warn. destruct (p_handler s) as [h|] eqn:E.
  - destruct (h ((w, p) :: p_log s)) as [e|] eqn:Eh; cbn; (split; [exact (eq_trans eq_refl eq_refl)|]);
      exists [(w, p)]; (split; [reflexivity|]); intros h' Hh; rewrite E in Hh; injection Hh as <-.
    + right. exists (w, p), [], e. cbn. repeat split; auto. exists p. reflexivity.
    + left. cbn. auto.
  - cbn. split; [reflexivity|]. exists [(w, p)]. split; [reflexivity|]. intros h' Hh. congruence.
Qed.
Lemma fails_err : forall A e q, @fails A e (Err (and_position e q)).
Proof. intros. exists q. reflexivity. Qed.
Lemma wok_when : forall C b m, wok C m -> wok C (when b m).
Proof. intros C [|] m H; [exact H|]. apply wok_nolog. apply (st_ret _ nolog_pre). Qed.

Lemma nolog_rdop : forall A (f : reader -> option A * reader), steps nolog (rdop f).
Proof. intros A f. apply st_rdop. intros s a r _. split; reflexivity. Qed.
Lemma nolog_modify : forall f, (forall s, nolog s (f s)) -> steps nolog (modify f).
Proof. intros. apply st_modify. assumption. Qed.

Ltac nl := repeat first
  [ apply nolog_rdop
  | apply nolog_modify; intros ?; first [split; reflexivity | unfold count_child, pop, push, nolog; match goal with |- context[p_stack ?s] => destruct (p_stack s) end; split; reflexivity]
  | steps_step nolog_pre ].

Lemma nl_read_exact : forall n, steps nolog (read_exact n).
Proof. intros. unfold read_exact, try_read. nl. Qed.
Lemma nl_parse_u8 : steps nolog parse_u8.
Proof. unfold parse_u8, read_exact, try_read. nl. Qed.
Lemma nl_parse_uint : forall n, steps nolog (parse_uint n).
Proof. intros. unfold parse_uint, read_exact, try_read. nl. Qed.
Lemma nl_parse_sint : forall n, steps nolog (parse_sint n).
Proof. intros. unfold parse_sint, read_exact, try_read. nl. Qed.
Lemma nl_reader_pos : steps nolog reader_pos.
Proof. unfold reader_pos. nl. Qed.
Lemma nl_skip_to : forall n, steps nolog (m_skip_to n).
Proof. intros. unfold m_skip_to. nl. Qed.
Lemma nl_skip_unread : steps nolog skip_unread_attributes.
Proof. unfold skip_unread_attributes, reader_pos, m_skip_to. nl. Qed.
Lemma nl_node_header : steps nolog read_node_header.
Proof. unfold read_node_header, parse_uint, parse_u8, read_exact, try_read. nl. Qed.
Lemma nl_add_u64 : forall a b, steps nolog (add_u64 a b).
Proof. intros. unfold add_u64. nl. Qed.
Lemma nl_get_attrs : steps nolog get_attrs.
Proof. unfold get_attrs. nl. Qed.
Lemma nl_update : forall n, steps nolog (update_next_attr_start_offset n).
Proof. intros. unfold update_next_attr_start_offset, get_attrs, reader_pos. nl. Qed.
Lemma nl_read_type : steps nolog read_next_attr_type.
Proof. unfold read_next_attr_type, read_attr_type, get_attrs, reader_pos, m_skip_to, parse_u8, read_exact, try_read. nl. Qed.
Lemma nl_array_header : steps nolog read_array_header.
Proof. unfold read_array_header, parse_uint, read_exact, try_read. nl. Qed.
Lemma nl_attr_position : forall a b, steps nolog (attr_position a b).
Proof. intros. unfold attr_position. nl. Qed.
Lemma nl_run_z : forall A (p : zprog A), steps nolog (run_z p).
Proof. intros A p. induction p as [a|n k IH|n k IH]; cbn [run_z]; unfold try_read; nl; apply IH. Qed.
Lemma nl_mk_decoder : forall e, steps nolog (mk_decoder e).
Proof. intros. unfold mk_decoder. repeat first [apply nl_run_z | nl]. Qed.
Lemma nl_dec_read : forall d n, steps nolog (dec_read d n).
Proof. intros. unfold dec_read, try_read. repeat first [apply nl_run_z | nl]. Qed.
Lemma nl_it_next : forall A (el : elem A) it, steps nolog (it_next el it).
Proof. intros. unfold it_next. repeat first [apply nl_dec_read | steps_step nolog_pre]. Qed.
Lemma nl_it_collect : forall A (el : elem A) it, steps nolog (it_collect el it).
Proof.
  intros. unfold it_collect. apply (st_bind _ nolog_pre).
  - apply (st_mloop _ nolog_pre). intros [it' acc]. unfold collect_step. repeat first [apply nl_it_next | steps_step nolog_pre].
  - intros [x|x]; steps_step nolog_pre.
Qed.
Lemma nl_run_seq : forall A O (el : elem A) (p : seqprog A O) it, steps nolog (run_seq el p it).
Proof.
  intros A O el p. induction p as [r|k IH|k IH]; intros it; cbn [run_seq].
  - steps_step nolog_pre.
  - apply (st_bind _ nolog_pre); [apply nl_it_next | intros [it' o]; apply IH].
  - apply (st_bind _ nolog_pre); [apply nl_it_collect | intros [it' o]; apply IH].
Qed.
Lemma nl_run_rd : forall O (p : rdprog O) limit, steps nolog (run_rd p limit).
Proof.
  intros O p. induction p as [r|n k IH|n k IH|k IH|amt k IH]; intros limit; cbn [run_rd]; unfold reader_pos;
    repeat first [ apply IH | apply nolog_rdop | steps_step nolog_pre ].
Qed.

Create HintDb nolog.
Hint Resolve nl_read_exact nl_parse_u8 nl_parse_uint nl_parse_sint nl_reader_pos nl_skip_to nl_skip_unread nl_node_header
  nl_add_u64 nl_get_attrs nl_update nl_read_type nl_array_header nl_attr_position nl_mk_decoder nl_run_seq nl_run_rd : nolog.
Ltac nq := solve [apply wok_nolog; solve [auto 2 with nolog | nl]].
Ltac wk := repeat first
  [ nq | apply wok_warn | apply wok_when
  | apply wok_bind; [| intros ? | intros; apply fails_err]
  | match goal with |- wok _ (match ?x with _ => _ end) => destruct x end ].

Lemma wok_start_node : forall a b, wok fails (start_node a b).
Proof. intros. unfold start_node. wk. Qed.
Lemma wok_impl : wok fails next_event_impl.
Proof. unfold next_event_impl. wk; try apply wok_start_node. Qed.
Lemma wok_footer : wok fails read_footer.
Proof. unfold read_footer, broken. wk. Qed.
Lemma wok_warn_bool : forall a b, wok fails (warn_bool a b).
Proof. intros. unfold warn_bool. wk. Qed.
Lemma wok_array : forall A O (el : elem A) (ld : N -> seqprog A O) a b, wok fails (load_array el ld a b).
Proof. intros. unfold load_array. wk; apply wok_warn_bool. Qed.
Lemma wok_special : forall O (ld : N -> rdprog O), wok fails (load_special ld).
Proof. intros. unfold load_special. wk. Qed.
Lemma wok_load_impl : forall O b t (ld : loader O) x y, wok fails (load_next_impl b t ld x y).
Proof.
  intros. unfold load_next_impl. destruct t; try apply wok_array; try apply wok_special; wk; apply wok_warn_bool.
Qed.

(** The event for a rejected footer carries the error. *)
Definition ev_fails (e : perr) (r : res perr event) : Prop :=
  fails e r \/ exists q, r = Ok (EvEndFbx (inl (and_position e q))).

Lemma and_position_twice : forall e p q, and_position (and_position e p) q = and_position e q.
Proof. reflexivity. Qed.

Lemma wok_next_event : wok ev_fails next_event.
Proof.
  unfold next_event. apply wok_bind; [nq|intros prev|intros; left; apply fails_err].
  apply wok_bind; [nq|intros u|intros; left; apply fails_err].
  apply wok_try_bind; [apply wok_impl| | |].
  - intros k. do 6 (apply wok_bind; [nq|intros ?|intros; left; apply fails_err]). destruct k.
    + apply wok_nolog; nl.
    + apply wok_nolog; nl.
    + apply wok_try_bind; [apply wok_footer| | |].
      * intros a9. nq.
      * intros e s _. split; reflexivity.
      * intros e q s _. right. exists q. reflexivity.
  - intros e s. apply (st_bind _ nolog_pre); [nl|]. intros p. nl.
  - intros e q s. unfold bind, position. destruct (position_of s) as [p|]; cbn; [|congruence].
    intros _. left. exists p. reflexivity.
Qed.

Lemma wok_load : forall O b (ld : loader O), wok fails (load_next_gen b ld).
Proof.
  intros O b ld. unfold load_next_gen, do_with_health_check.
  apply wok_bind; [nq|intros u|intros; apply fails_err].
  apply wok_bind; [nq|intros a|intros; apply fails_err].
  apply wok_try_bind.
  - apply wok_bind; [nq|intros [t|]|intros; apply fails_err]; [|nq].
    apply wok_bind; [apply wok_load_impl|intros v; nq|intros; apply fails_err].
  - intros v. nq.
  - intros e s. apply (st_bind _ nolog_pre); [auto with nolog|]. intros p. nl.
  - intros e q s Hp. unfold bind at 1. unfold bind at 1 in Hp.
    destruct (attr_position (a_next a) (a_total a - a_rest a) s) as [[p|e1|] s1] eqn:E; cbn in *.
    + exists p. reflexivity.
    + exfalso. unfold attr_position, position, bind in E. destruct (position_of s); discriminate.
    + congruence.
Qed.

(** What the client sees when its handler rejected a warning with [e]. *)
Definition call_fails {O} (e : perr) (r : res perr (obs O)) : Prop :=
  exists q, r = Err (and_position e q) \/ r = Ok (BEvent (EvEndFbx (inl (and_position e q)))).

Lemma wok_run_op : forall O (o : op O), wok call_fails (run_op o).
Proof.
  intros O o. assert (F : forall (e : perr) q, @call_fails O e (Err (and_position e q))) by (intros; exists q; auto).
  destruct o as [|l|l|]; cbn [run_op].
  - apply wok_bind; [nq|intros _|exact F].
    apply (wok_bind_nolog _ _ ev_fails); [apply wok_next_event| | |].
    + intros [n| |f]; try nl. unfold from_parser, reader_pos. nl.
    + intros e a s [[q ?]|[q Hq]] _; [discriminate|]. injection Hq as ->. exists q. right. reflexivity.
    + intros e e' [[q Hq]|[q ?]]; [|discriminate]. injection Hq as ->. apply F.
  - apply wok_bind; [nq|intros [a|]|exact F]; [|nq]. apply wok_bind; [apply wok_load|intros v; nq|exact F].
  - apply wok_bind; [nq|intros [a|]|exact F]; [|nq]. apply wok_bind; [apply wok_load|intros v; nq|exact F].
  - apply wok_nolog. unfold skip_current_node, m_skip_to. nl.
Qed.

(** C10, second half: in any state, a call that does not panic raises some new warnings; when
    a handler is installed, either it accepted all of them, or it accepted all but the last
    one, rejected that one with an error [e], and the call fails with [e], at some syntactic
    position (a rejected warning about the footer shows up as the footer of [EndFbx]). *)
Theorem C10_rejecting_handler : forall O (o : op O) s r s' h,
  run_op o s = (r, s') -> r <> Panic -> p_handler s = Some h ->
  exists new, p_log s' = new ++ p_log s /\
  (accepted h (p_log s) new \/
   exists w older e, new = w :: older /\ accepted h (p_log s) older /\ h (w :: older ++ p_log s) = Some e /\
   exists q, r = Err (and_position e q) \/ r = Ok (BEvent (EvEndFbx (inl (and_position e q))))).
Proof.
  intros O o s r s' h E Hp Hh. pose proof (wok_run_op O o s) as K. rewrite E in K. cbn in K.
  destruct (K Hp) as [_ (l & L & H)]. exists l. split; [exact L|].
  destruct (H h Hh) as [H1|(w & t & e & -> & Ht & He & Hc)]; [left; exact H1|].
  right. exists w, t, e. rewrite L in He. auto.
Qed.
End WithEnv.

(** ** Examples *)

(** C03: one-byte reads with interruptions against whole reads, on the sample document. *)
Definition choppy : list ioact := flat_map (fun _ => [AIntr; AChunk 1; AChunk 3]) (repeat tt 300).
Example sched_example :
  nofail choppy = true /\ nofail [] = true /\ Forall regular sample_ops /\
  exists p1 p2, open_as (sample_doc 7400) choppy [] true None = Ok p1 /\ open_as (sample_doc 7400) [] [] true None = Ok p2 /\
    s_sched (r_stream (p_rd p1)) <> s_sched (r_stream (p_rd p2)) /\
    length (fst (run_ops (env:=release) sample_ops p1)) = 17%nat /\
    map is_ok (fst (run_ops (env:=release) sample_ops p1)) = repeat true 16 ++ [false].
Proof.
  split; [vm_compute; reflexivity|]. split; [reflexivity|]. split.
  - repeat constructor; try exact I; apply C03_direct_loader_regular.
  - do 2 eexists. split; [vm_compute; reflexivity|]. split; [vm_compute; reflexivity|].
    split; [discriminate|]. split; vm_compute; reflexivity.
Qed.

(** C10: a document with an unnamed node: accepting it and rejecting it. *)
Definition unnamed : list node := [Node [] [] []].
Definition unnamed_doc : list byte := enc_doc (env:=release) 7400 unnamed (mkFoot good_unknown1 0).
Definition refuse : handler := fun _ => Some (err_from (EData NodeAttributeError)).
Example handler_example :
  exists p r s rs s2, opened unnamed_doc [] [] true (Some refuse) p /\
    run_op (env:=release) (@ONext aval) p = (r, s) /\ r <> Panic /\ p_handler p = Some refuse /\
    (exists q, r = Err (and_position (err_from (EData NodeAttributeError)) q)) /\ length (p_log s) = 1%nat /\
    run_ops (env:=release) [@ONext aval; ONext; ONext] (set_handler (Some (fun _ => None)) p) = (rs, s2) /\
    length (p_log s2) = 2%nat.
Proof.
  unfold opened. do 5 eexists. split.
  - eexists. split; [vm_compute; reflexivity|reflexivity].
  - split; [vm_compute; reflexivity|]. split; [discriminate|]. split; [reflexivity|].
    split; [eexists; unfold and_position; cbn; reflexivity|]. split; [reflexivity|]. split; [vm_compute; reflexivity|reflexivity].
Qed.

Print Assumptions C03_schedule_independence.
Print Assumptions C03_direct_loader_regular.
Print Assumptions C10_accepting_handler.
Print Assumptions C10_rejecting_handler.
