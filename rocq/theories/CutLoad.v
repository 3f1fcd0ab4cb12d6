(** Attribute loaders, client calls and whole runs on two streams that agree up to some
    offset. *)
Require Import Coq.Lists.List Coq.NArith.NArith Coq.ZArith.ZArith Coq.Bool.Bool Coq.micromega.Lia.
Require Import ZifyBool ZifyNat ZifyN.
Require Import Verif.Base Verif.BaseFacts Verif.Utf8 Verif.Types Verif.Io Verif.IoFacts Verif.Parser Verif.MonadFacts Verif.ParserSteps Verif.ParserShape Verif.ParserHist Verif.ParserPos Verif.ParserRel Verif.Zlib Verif.CutRel Verif.CutParser.
Import ListNotations.
Ltac Zify.zify_post_hook ::= Z.div_mod_to_equations.
Local Open Scope N_scope.

Section Cut.
Context {env : Env}.
Context (x1 x2 : list byte) (c : N).
Notation cut := (cut x1 x2 c).
Notation crx := (crx x1 x2 c).
Notation cr := (cr x1 x2 c).
Notation over := (over c).
Notation gone := (gone c).

(** ** Decoders and iterators *)
Definition dok (d1 d2 : decoder) (s : pstate) : Prop :=
  match d1, d2 with
  | DDirect, DDirect => True
  | DZlib st, DZlib st' => st' = st
  | _, _ => False
  end.
Definition iok (i1 i2 : iterst) (s : pstate) : Prop :=
  dok (it_dec i1) (it_dec i2) s /\ it_rest i2 = it_rest i1 /\ it_err i2 = it_err i1 /\ it_bad i2 = it_bad i1.
(** The first run has left the common part, or its iterator has failed. *)
Definition lost (i : iterst) (s : pstate) : Prop := gone s \/ it_err i = true.

Lemma q_fwd : forall A (m : M A) s a t, steps quieta m -> m s = (Ok a, t) -> fwd s t.
Proof. intros A m s a t H E. apply (steps_elim _ _ _ _ _ _ (steps_qf _ _ H) E). discriminate. Qed.
Lemma cut_off : forall s s', cut s s' -> s_off (r_stream (p_rd s)) <= c.
Proof. intros s s' (r' & (q & _ & E & _) & _). lia. Qed.

Lemma c_run_z : forall A (p : zprog A), cr gone (run_z p).
Proof.
  intros A p. induction p as [a|n k IH|n k IH]; cbn [run_z].
  - apply c_ret.
  - apply c_bind; [apply gone_fwd|apply c_exact|exact IH].
  - apply c_bind; [apply gone_fwd|apply c_to_end|exact IH].
Qed.

Lemma mk_decoder_cut : forall e s1 s2 d1 t1, cut s1 s2 -> mk_decoder e s1 = (Ok d1, t1) ->
  gone t1 \/ exists d2 t2, mk_decoder e s2 = (Ok d2, t2) /\ dok d1 d2 t1 /\ cut t1 t2.
Proof.
  intros [|] s1 s2 d1 t1 C H; unfold mk_decoder in *.
  - injection H as <- <-. right. exists DDirect, s2. split; [reflexivity|]. split; [exact I|exact C].
  - mstep H as o u1 X; [|discriminate|discriminate]. destruct o as [ze|st]; [discriminate|]. injection H as <- <-.
    destruct (proj2 (c_run_z _ z_open) _ _ _ _ C X) as [G|(t2 & Y & K)]; [left; exact G|].
    right. exists (DZlib st), t2. rewrite (bind_ok _ _ _ _ _ _ _ Y). split; [reflexivity|]. split; [reflexivity|exact K].
Qed.

Lemma dec_read_cut : forall d1 d2 n s1 s2 d1' r t1, cut s1 s2 -> dok d1 d2 s1 -> dec_read d1 n s1 = (Ok (d1', r), t1) ->
  gone t1 \/ (exists e, r = inl e) \/ exists d2' t2, dec_read d2 n s2 = (Ok (d2', r), t2) /\ dok d1' d2' t1 /\ cut t1 t2.
Proof.
  intros d1 d2 n s1 s2 d1' r t1 C D H. destruct d1 as [|st], d2 as [|st']; cbn [dok] in D; try contradiction; unfold dec_read in *.
  - mstep H as v u1 X; [|discriminate|discriminate]. injection H as <- <- <-.
    destruct (proj2 (c_exact x1 x2 c n) _ _ _ _ C X) as [G|(t2 & Y & K)]; [left; exact G|].
    right; right. exists DDirect, t2. split; [|split; [exact I|exact K]]. rewrite (bind_ok _ _ _ _ _ _ _ Y). reflexivity.
  - subst st'. mstep H as [v st1] u1 X; [|discriminate|discriminate]. injection H as <- <- <-.
    destruct (proj2 (c_run_z _ _) _ _ _ _ C X) as [G|(t2 & Y & K)]; [left; exact G|].
    right; right. exists (DZlib st1), t2. rewrite (bind_ok _ _ _ _ _ _ _ Y). split; [reflexivity|]. split; [reflexivity|exact K].
Qed.

Lemma it_next_lost : forall A (el : elem A) i s i' o t, it_next el i s = (Ok (i', o), t) -> lost i s -> lost i' t.
Proof.
  intros A el i s i' o t H [L|L].
  - left. apply (gone_fwd c s); [|exact L]. apply (q_fwd _ _ _ _ _ (it_next_quiet _ el i) H).
  - right. unfold it_next in H. destruct (it_rest i =? 0); [injection H as <- _ _; exact L|].
    mstep H as [d r] u X; [|discriminate|discriminate]. destruct r; injection H as <- _ _; [reflexivity|exact L].
Qed.
Lemma it_next_cut : forall A (el : elem A) i1 i2 s1 s2 i1' o t1, cut s1 s2 -> iok i1 i2 s1 -> it_next el i1 s1 = (Ok (i1', o), t1) ->
  lost i1' t1 \/ exists i2' t2, it_next el i2 s2 = (Ok (i2', o), t2) /\ iok i1' i2' t1 /\ cut t1 t2.
Proof.
  intros A el i1 i2 s1 s2 i1' o t1 C (D & E1 & E2 & E3) H. unfold it_next in *. rewrite E1.
  destruct (it_rest i1 =? 0).
  - injection H as <- <- <-. right. exists i2, s2. repeat split; auto.
  - mstep H as [d r] u X; [|discriminate|discriminate].
    destruct (dec_read_cut _ _ _ _ _ _ _ _ C D X) as [G|[[e ->]|(d2 & t2 & Y & Dk & K)]].
    + destruct r; injection H as <- <- <-; left; left; exact G.
    + injection H as <- <- <-. left; right. reflexivity.
    + right. rewrite (bind_ok _ _ _ _ _ _ _ Y).
      destruct r; injection H as <- <- <-; (eexists; exists t2; split; [reflexivity|]; split; [|exact K]);
        (split; [exact Dk|]; cbn; rewrite ?E2, ?E3; auto).
Qed.

Lemma collect_step_inv : forall A (el : elem A) i acc s r t, collect_step el (i, acc) s = (Ok r, t) ->
  exists i' o, it_next el i s = (Ok (i', o), t) /\
    r = match o with None => inr (i', inr (rev acc)) | Some (inl e) => inr (i', inl e) | Some (inr v) => inl (i', v :: acc) end.
Proof.
  intros A el i acc s r t H. unfold collect_step in H. mstep H as [i' o] u X; [|discriminate|discriminate].
  exists i', o. destruct o as [[e|v]|]; injection H as <- <-; auto.
Qed.
Definition it_of {A B} (r : (iterst * A) + (iterst * B)) : iterst := match r with inl (i, _) => i | inr (i, _) => i end.
Lemma loop_lost : forall A (el : elem A) n i acc s r t, nloop n (collect_step el) (i, acc) s = (Ok r, t) -> lost i s -> lost (it_of r) t.
Proof.
  intros A el. induction n as [|n IH]; intros i acc s r t H L; cbn [nloop] in H.
  - injection H as <- <-. exact L.
  - mstep H as x u X; [|discriminate|discriminate]. apply collect_step_inv in X. destruct X as (i' & o & X & ->).
    apply (it_next_lost _ _ _ _ _ _ _ X) in L. destruct o as [[e|v]|]; [injection H as <- <-; exact L| |injection H as <- <-; exact L].
    eapply IH; eauto.
Qed.
Lemma loop_cut : forall A (el : elem A) n i1 i2 acc s1 s2 r t1, cut s1 s2 -> iok i1 i2 s1 ->
  nloop n (collect_step el) (i1, acc) s1 = (Ok r, t1) ->
  lost (it_of r) t1 \/ exists r2 t2, nloop n (collect_step el) (i2, acc) s2 = (Ok r2, t2) /\ cut t1 t2 /\
    match r, r2 with
    | inl (a, l), inl (b, l') => iok a b t1 /\ l' = l
    | inr (a, o), inr (b, o') => iok a b t1 /\ o' = o
    | _, _ => False
    end.
Proof.
  intros A el. induction n as [|n IH]; intros i1 i2 acc s1 s2 r t1 C I H; cbn [nloop] in *.
  - injection H as <- <-. right. exists (inl (i2, acc)), s2. auto.
  - mstep H as x u X; [|discriminate|discriminate]. apply collect_step_inv in X. destruct X as (i' & o & X & ->).
    destruct (it_next_cut _ _ _ _ _ _ _ _ _ C I X) as [L|(i2' & u2 & Y & I' & K)].
    + left. destruct o as [[e|v]|]; [injection H as <- <-; exact L| |injection H as <- <-; exact L].
      eapply loop_lost; eauto.
    + assert (Z : collect_step el (i2, acc) s2 = (Ok (match o with None => inr (i2', inr (rev acc)) | Some (inl e) => inr (i2', inl e) | Some (inr v) => inl (i2', v :: acc) end), u2)).
      { unfold collect_step. rewrite (bind_ok _ _ _ _ _ _ _ Y). destruct o as [[e|v]|]; reflexivity. }
      rewrite (bind_ok _ _ _ _ _ _ _ Z). destruct o as [[e|v]|].
      * injection H as <- <-. right. eexists. exists u2. split; [reflexivity|]. auto.
      * eapply IH; eauto.
      * injection H as <- <-. right. eexists. exists u2. split; [reflexivity|]. auto.
Qed.

Lemma it_collect_lost : forall A (el : elem A) i s i' o t, it_collect el i s = (Ok (i', o), t) -> lost i s -> lost i' t.
Proof.
  intros A el i s i' o t H L. unfold it_collect in H. mstep H as r u X; [|discriminate|discriminate].
  rewrite mloop_nloop in X. apply (loop_lost _ _ _ _ _ _ _ _ X) in L. destruct r as [|[j x]]; [discriminate|]. injection H as <- <- <-. exact L.
Qed.
Lemma it_collect_cut : forall A (el : elem A) i1 i2 s1 s2 i1' o t1, cut s1 s2 -> iok i1 i2 s1 -> it_collect el i1 s1 = (Ok (i1', o), t1) ->
  lost i1' t1 \/ exists i2' t2, it_collect el i2 s2 = (Ok (i2', o), t2) /\ iok i1' i2' t1 /\ cut t1 t2.
Proof.
  intros A el i1 i2 s1 s2 i1' o t1 C I H. unfold it_collect in *. mstep H as r u X; [|discriminate|discriminate].
  rewrite mloop_nloop in X. destruct I as (D & E1 & E2). rewrite E1.
  destruct (loop_cut _ _ _ _ i2 _ _ _ _ _ C (conj D (conj E1 E2)) X) as [L|(r2 & t2 & Y & K & R)].
  - left. destruct r as [|[j x]]; [discriminate|]. injection H as <- <- <-. exact L.
  - right. destruct r as [|[j x]]; [discriminate|]. injection H as <- <- <-.
    destruct r2 as [|[j2 y]]; [contradiction|]. destruct R as [R ->]. exists j2, t2.
    assert (Y' : mloop (N.succ_pos (it_rest i1)) (collect_step el) (i2, []) s2 = (Ok (inr (j2, x)), t2)) by (rewrite mloop_nloop; exact Y).
    rewrite (bind_ok _ _ _ _ _ _ _ Y'). auto.
Qed.

Lemma run_seq_lost : forall A O (el : elem A) (p : seqprog A O) i s i' o t, run_seq el p i s = (Ok (i', o), t) -> lost i s -> lost i' t.
Proof.
  intros A O el p. induction p as [x|k IH|k IH]; intros i s i' o t H L; cbn [run_seq] in H.
  - injection H as <- <- <-. exact L.
  - mstep H as [j v] u X; [|discriminate|discriminate]. apply (it_next_lost _ _ _ _ _ _ _ X) in L. eapply IH; eauto.
  - mstep H as [j v] u X; [|discriminate|discriminate]. apply (it_collect_lost _ _ _ _ _ _ _ X) in L. eapply IH; eauto.
Qed.
Lemma run_seq_cut : forall A O (el : elem A) (p : seqprog A O) i1 i2 s1 s2 i1' o t1, cut s1 s2 -> iok i1 i2 s1 ->
  run_seq el p i1 s1 = (Ok (i1', o), t1) ->
  lost i1' t1 \/ exists i2' t2, run_seq el p i2 s2 = (Ok (i2', o), t2) /\ iok i1' i2' t1 /\ cut t1 t2.
Proof.
  intros A O el p. induction p as [x|k IH|k IH]; intros i1 i2 s1 s2 i1' o t1 C I H; cbn [run_seq] in *.
  - injection H as <- <- <-. right. exists i2, s2. auto.
  - mstep H as [j v] u X; [|discriminate|discriminate].
    destruct (it_next_cut _ _ _ _ _ _ _ _ _ C I X) as [L|(j2 & u2 & Y & I' & K)]; [left; eapply run_seq_lost; eauto|].
    rewrite (bind_ok _ _ _ _ _ _ _ Y). eapply IH; eauto.
  - mstep H as [j v] u X; [|discriminate|discriminate].
    destruct (it_collect_cut _ _ _ _ _ _ _ _ _ C I X) as [L|(j2 & u2 & Y & I' & K)]; [left; eapply run_seq_lost; eauto|].
    rewrite (bind_ok _ _ _ _ _ _ _ Y). eapply IH; eauto.
Qed.

(** ** Loading *)
Let gf := gone_fwd c.
Let ge := g_exact x1 x2 c.

Lemma gone_q : forall A (m : M A) s a t, steps quieta m -> m s = (Ok a, t) -> gone s -> gone t.
Proof. intros A m s a t Q E. apply gf. apply (q_fwd _ _ _ _ _ Q E). Qed.

Definition array_tail {A O} (el : elem A) (ld : N -> seqprog A O) (count : N) (start idx : N) (d : decoder) : M O :=
  let* x := run_seq el (ld count) (mkIter d count false false) in
  let '(it, r) := x in
  let* v := lift r in
  when (it_bad it) (warn_bool start idx) ;;
  if it_err it then throw (err_from (EData NodeAttributeError)) else ret v.
Lemma array_tail_quiet : forall A O (el : elem A) (ld : N -> seqprog A O) count start idx d, steps quieta (array_tail el ld count start idx d).
Proof.
  intros. unfold array_tail. apply (st_bind _ quieta_pre); [apply run_seq_quiet|]. intros [it r].
  apply (st_bind _ quieta_pre); [apply (st_lift _ quieta_pre)|]. intros v.
  apply (st_bind _ quieta_pre); [apply (st_when _ quieta_pre); apply warn_bool_quiet|]. intros _.
  destruct (it_err it); [apply (st_throw _ quieta_pre)|apply (st_ret _ quieta_pre)].
Qed.
Lemma array_tail_cut : forall A O (el : elem A) (ld : N -> seqprog A O) count start idx d1 d2 s1 s2 a t1,
  cut s1 s2 -> dok d1 d2 s1 -> array_tail el ld count start idx d1 s1 = (Ok a, t1) ->
  gone t1 \/ exists t2, array_tail el ld count start idx d2 s2 = (Ok a, t2) /\ cut t1 t2.
Proof.
  intros A O el ld count start idx d1 d2 s1 s2 a t1 C D H. unfold array_tail in H.
  mstep H as [it r] u X; [|discriminate|discriminate].
  assert (I0 : iok (mkIter d1 count false false) (mkIter d2 count false false) s1) by (split; [exact D|auto]).
  destruct (run_seq_cut _ _ _ _ _ _ _ _ _ _ _ C I0 X) as [[G|G]|(i2 & u2 & Y & (_ & _ & I2 & I3) & K)].
  - left. revert G. apply (gone_q _ _ _ _ _ (st_bind _ quieta_pre _ _ _ _ (st_lift _ quieta_pre _ r) (fun v => st_bind _ quieta_pre _ _ _ _ (st_when _ quieta_pre _ _ (warn_bool_quiet start idx)) (fun _ => match it_err it as b return steps quieta (if b then throw (err_from (EData NodeAttributeError)) else ret v) with true => st_throw _ quieta_pre _ _ | false => st_ret _ quieta_pre _ v end))) H).
  - exfalso. rewrite G in H. mstep H as v u' X2; [|discriminate|discriminate]. mstep H as w u2 X3; [|discriminate|discriminate]. discriminate.
  - destruct r as [e|v]; [discriminate|]. cbn [lift] in H. rewrite bind_ret in H.
    unfold array_tail. rewrite (bind_ok _ _ _ _ _ _ _ Y). cbn [lift]. rewrite bind_ret. rewrite I2, I3.
    assert (W : cr gone (when (it_bad it) (warn_bool start idx) ;; if it_err it then throw (err_from (EData NodeAttributeError)) else ret v)).
    { apply (c_bind _ _ _ _ gf); [apply c_when; apply c_warn_bool; exact gf|]. intros _. destruct (it_err it); [apply c_throw|apply c_ret]. }
    apply (proj2 W _ _ _ _ K H).
Qed.

Lemma g_load_array : forall A O (el : elem A) (ld : N -> seqprog A O) start idx, cr gone (load_array el ld start idx).
Proof.
  intros A O el ld start idx. unfold load_array.
  apply (c_bind _ _ _ _ gf); [apply c_array_header; [exact gf|exact ge]|]. intros [[count enc] len].
  apply (c_bind _ _ _ _ gf); [apply c_update; exact gf|]. intros _.
  change (cr gone (bind (mk_decoder enc) (array_tail el ld count start idx))).
  split.
  - apply steps_qf. apply (st_bind _ quieta_pre); [apply mk_decoder_quiet|]. intros d. apply array_tail_quiet.
  - intros s1 s2 a t1 C H. mstep H as d u X; [|discriminate|discriminate].
    destruct (mk_decoder_cut _ _ _ _ _ C X) as [G|(d2 & u2 & Y & D & K)].
    + left. revert G. apply (gone_q _ _ _ _ _ (array_tail_quiet _ _ _ _ _ _ _ _) H).
    + rewrite (bind_ok _ _ _ _ _ _ _ Y). eapply array_tail_cut; eauto.
Qed.

Definition peek (limit : N) : M (ioerr + list byte) := rdop (fun r0 : reader =>
  let '(x, r1) := rd_peek (peek_len limit (s_rem (r_stream r0))) r0 in (Some x, r1)).
Lemma peek_quiet : forall limit, steps quieta (peek limit).
Proof.
  intros limit. apply quieta_rdop. intros r a r' H. destruct (rd_peek _ r) as [x r1] eqn:E.
  injection H as <- <-. eapply rd_peek_fwd; eauto.
Qed.
Lemma r1_pos : forall sc rem n, n <> 0%nat -> Io.r1 sc rem n =
  match sc with
  | [] => (inr (firstn n rem), skipn n rem, [])
  | AChunk k :: sc' => (inr (firstn (Nat.min n (Pos.to_nat k)) rem), skipn (Nat.min n (Pos.to_nat k)) rem, sc')
  | AIntr :: sc' => (inl IoIntr, rem, sc')
  | AFail c :: sc' => (inl (IoOther c), rem, sc')
  end.
Proof. intros sc rem n H. unfold Io.r1. destruct n; [congruence|]. reflexivity. Qed.
Definition seen (r : ioerr + list byte) : N := match r with inr bs => lenN bs | inl _ => 0 end.
(** A peek either shows the same to both runs, or the first one sees more than the common
    part or all that remains. *)
Lemma peek_cut : forall limit s1 s2 r u1, cut s1 s2 -> peek limit s1 = (Ok r, u1) ->
  (s_rem (r_stream (p_rd u1)) = s_rem (r_stream (p_rd s1)) /\ s_off (r_stream (p_rd u1)) = s_off (r_stream (p_rd s1)) /\
   (c < s_off (r_stream (p_rd s1)) + seen r \/ seen r = lenN (s_rem (r_stream (p_rd s1)))) /\ seen r <= lenN (s_rem (r_stream (p_rd s1)))) \/
  exists u2, peek limit s2 = (Ok r, u2) /\ cut u1 u2.
Proof.
  intros limit s1 s2 r u1 C H. pose proof C as (r' & (q & Hq & Ho & Er) & Es).
  assert (Hq2 : s_rem (r_stream (p_rd s2)) = q ++ x2) by (rewrite Es, Er; reflexivity).
  unfold peek, rdop, rd_peek in H. unfold peek, rdop, rd_peek.
  assert (S2 : s_sched (r_stream (p_rd s2)) = s_sched (r_stream (p_rd s1))) by (rewrite Es, Er; reflexivity).
  assert (K : forall sc, cut (set_rd (with_stream (p_rd s1) (mkStream (s_rem (r_stream (p_rd s1))) (s_off (r_stream (p_rd s1))) sc (s_seeks (r_stream (p_rd s1)))) (r_pos (p_rd s1))) s1)
     (set_rd (with_stream (p_rd s2) (mkStream (s_rem (r_stream (p_rd s2))) (s_off (r_stream (p_rd s2))) sc (s_seeks (r_stream (p_rd s2)))) (r_pos (p_rd s2))) s2)).
  { intros sc. rewrite Es, Er. eexists. split; [|reflexivity]. exists q. split; [exact Hq|]. split; [exact Ho|reflexivity]. }
  rewrite Hq, Hq2, S2 in *. clear S2.
  assert (G : forall m1 m2 sc v, r = inr v ->
     (m1 = m2 \/ (length q < m1 \/ length q + length x1 <= m1)%nat) ->
     v = firstn m1 (q ++ x1) ->
     u1 = set_rd (with_stream (p_rd s1) (mkStream (q ++ x1) (s_off (r_stream (p_rd s1))) sc (s_seeks (r_stream (p_rd s1)))) (r_pos (p_rd s1))) s1 ->
     (s_rem (r_stream (p_rd u1)) = q ++ x1 /\ s_off (r_stream (p_rd u1)) = s_off (r_stream (p_rd s1)) /\
      (c < s_off (r_stream (p_rd s1)) + seen r \/ seen r = lenN (q ++ x1)) /\ seen r <= lenN (q ++ x1)) \/
     exists u2, (Ok (E:=perr) (inr (A:=ioerr) (firstn m2 (q ++ x2))), set_rd (with_stream (p_rd s2) (mkStream (q ++ x2) (s_off (r_stream (p_rd s2))) sc (s_seeks (r_stream (p_rd s2)))) (r_pos (p_rd s2))) s2) = (Ok r, u2) /\ cut u1 u2).
  { intros m1 m2 sc v -> Hm -> ->. cbn [seen].
    destruct (Nat.le_gt_cases m1 (length q)) as [L|L].
    - destruct (Nat.le_gt_cases (length q + length x1) m1) as [L'|L'].
      + left. split; [reflexivity|]. split; [reflexivity|]. rewrite firstn_all2 by (rewrite app_length; lia). lia.
      + right. assert (m1 = m2) as <- by lia. rewrite !firstn_app_le by exact L. eexists. split; [reflexivity|]. apply K.
    - left. split; [reflexivity|]. split; [reflexivity|]. unfold lenN in *. rewrite firstn_length, app_length in *. lia. }
  unfold peek_len in *. destruct (N.eqb_spec limit 0) as [Z|Z].
  - cbn [Io.r1] in *. injection H as <- <-. right. eexists. split; [reflexivity|]. apply K.
  - assert (P1 : (Nat.max 1 (clip limit (q ++ x1)) = Nat.max 1 (Nat.min (N.to_nat limit) (length q + length x1)))%nat)
      by (unfold clip, lenN; rewrite app_length; lia).
    assert (P2 : (Nat.max 1 (clip limit (q ++ x2)) = Nat.max 1 (Nat.min (N.to_nat limit) (length q + length x2)))%nat)
      by (unfold clip, lenN; rewrite app_length; lia).
    rewrite P1 in H. rewrite P2. clear P1 P2.
    remember (Nat.max 1 (Nat.min (N.to_nat limit) (length q + length x1))) as n1 eqn:N1.
    remember (Nat.max 1 (Nat.min (N.to_nat limit) (length q + length x2))) as n2 eqn:N2.
    rewrite r1_pos in H by lia. rewrite r1_pos by lia.
    destruct (s_sched (r_stream (p_rd s1))) as [|[k| |cd] sc].
    + injection H as Hr Hu. apply (G n1 n2 [] _ (eq_sym Hr)); [lia|reflexivity|symmetry; exact Hu].
    + injection H as Hr Hu. apply (G (Nat.min n1 (Pos.to_nat k)) (Nat.min n2 (Pos.to_nat k)) sc _ (eq_sym Hr)); [lia|reflexivity|symmetry; exact Hu].
    + injection H as <- <-. right. eexists. split; [reflexivity|]. apply K.
    + injection H as <- <-. right. eexists. split; [reflexivity|]. apply K.
Qed.

Lemma run_rd_fwd : forall O (p : rdprog O) limit, steps fwd (run_rd p limit).
Proof. intros. apply steps_qf. apply run_rd_quiet. Qed.

Lemma g_run_rd : forall O (p : rdprog O), consuming O p -> forall limit, cr gone (run_rd p limit).
Proof.
  intros O p H. induction H as [r|n k _ IH|n k _ IH|k _ IH|amt k Ha _ IH]; intros limit; cbn [run_rd].
  - apply c_ret.
  - apply (c_bind _ _ _ _ gf); [apply c_once|]. intros r. apply IH.
  - destruct (N.of_nat n <=? limit).
    + apply (c_bind _ _ _ _ gf); [apply c_reader_pos|]. intros p0. apply (c_bind _ _ _ _ gf); [apply c_exact|]. intros r.
      apply (c_bind _ _ _ _ gf); [apply c_reader_pos|]. intros p1. apply IH.
    + apply (c_bind _ _ _ _ gf); [apply c_reader_pos|]. intros p0. apply (c_bind _ _ _ _ gf); [apply c_to_end|]. intros r.
      apply (c_bind _ _ _ _ gf); [apply c_reader_pos|]. intros p1. apply IH.
  - apply (c_bind _ _ _ _ gf); [apply c_reader_pos|]. intros p0. apply (c_bind _ _ _ _ gf); [apply c_to_end|]. intros r.
    apply (c_bind _ _ _ _ gf); [apply c_reader_pos|]. intros p1. apply IH.
  - split; [apply (run_rd_fwd _ (RBuf amt k))|]. intros s1 s2 a t1 C X.
    fold (peek limit) in *. mstep X as r u1 X1; [|discriminate|discriminate].
    set (used := N.min (N.of_nat (amt r)) _) in X.
    assert (Hu : used = N.min (N.of_nat (amt r)) (seen r)) by (subst used; destruct r; reflexivity).
    mstep X as [] v1 X2; [|discriminate|discriminate].
    destruct (peek_cut _ _ _ _ _ C X1) as [(Er & Eo & S1 & S2)|(u2 & Y & K)].
    + left. apply (gf v1).
      { apply (steps_elim _ _ _ _ _ _ (run_rd_fwd _ _ _) X). discriminate. }
      assert (U : used = seen r). { rewrite Hu. destruct r as [e|bs]; cbn [seen]; [lia|]. specialize (Ha bs). unfold lenN. lia. }
      rewrite U in X2. unfold rdop in X2. destruct (rd_drop (seen r) (p_rd u1)) as [o r2] eqn:Ed. apply rd_drop_spec in Ed.
      destruct o; [|discriminate]. injection X2 as X2 <-. destruct Ed as (d & Hd & _ & _ & (M1 & M2 & _) & _).
      assert (D : d = seen r) by (rewrite Hd, Er; unfold clip; lia).
      destruct S1 as [S1|S1].
      * left. unfold CutRel.over. cbn. rewrite M2, Eo, D. exact S1.
      * right. unfold dead. cbn. rewrite M1, D, S1, Er. apply dropN_all. lia.
    + destruct (proj2 (c_drop x1 x2 c used) _ _ _ _ K X2) as [G|(v2 & Y2 & K2)].
      * left. apply (gf v1); [|exact G]. apply (steps_elim _ _ _ _ _ _ (run_rd_fwd _ _ _) X). discriminate.
      * rewrite (bind_ok _ _ _ _ _ _ _ Y). fold used. rewrite (bind_ok _ _ _ _ _ _ _ Y2). apply (proj2 (IH r _) _ _ _ _ K2 X).
Qed.

Lemma g_load_special : forall O (ld : N -> rdprog O), (forall n, consuming O (ld n)) -> cr gone (load_special ld).
Proof.
  intros O ld H. unfold load_special.
  apply (c_bind _ _ _ _ gf); [apply c_parse_uint; [exact gf|exact ge]|]. intros len.
  apply (c_bind _ _ _ _ gf); [apply c_update; exact gf|]. intros _.
  apply (c_bind _ _ _ _ gf); [apply g_run_rd; apply H|]. intros r. apply c_lift.
Qed.

(** A client call whose loaders consume what they look at. *)
Definition consuming_op {O} (o : op O) : Prop := good_op consuming o.

Lemma g_load_next_impl : forall O b t (ld : loader O) start idx, good_loader consuming ld ->
  cr gone (load_next_impl b t ld start idx).
Proof.
  intros O b t ld start idx H.
  destruct t; cbn [load_next_impl]; try apply g_load_array;
    try (apply g_load_special; intros n; apply (H n); destruct b; cbn; auto).
  - apply (c_bind _ _ _ _ gf); [apply c_parse_u8; [exact gf|exact ge]|]. intros v.
    apply (c_bind _ _ _ _ gf); [apply c_update; exact gf|]. intros _.
    apply (c_bind _ _ _ _ gf); [apply c_when; apply c_warn_bool; exact gf|]. intros _. apply c_lift.
  - apply (c_bind _ _ _ _ gf); [apply c_parse_sint; [exact gf|exact ge]|]. intros v.
    apply (c_bind _ _ _ _ gf); [apply c_update; exact gf|]. intros _. apply c_lift.
  - apply (c_bind _ _ _ _ gf); [apply c_parse_sint; [exact gf|exact ge]|]. intros v.
    apply (c_bind _ _ _ _ gf); [apply c_update; exact gf|]. intros _. apply c_lift.
  - apply (c_bind _ _ _ _ gf); [apply c_parse_sint; [exact gf|exact ge]|]. intros v.
    apply (c_bind _ _ _ _ gf); [apply c_update; exact gf|]. intros _. apply c_lift.
  - apply (c_bind _ _ _ _ gf); [apply c_parse_uint; [exact gf|exact ge]|]. intros v.
    apply (c_bind _ _ _ _ gf); [apply c_update; exact gf|]. intros _. apply c_lift.
  - apply (c_bind _ _ _ _ gf); [apply c_parse_uint; [exact gf|exact ge]|]. intros v.
    apply (c_bind _ _ _ _ gf); [apply c_update; exact gf|]. intros _. apply c_lift.
Qed.

Lemma g_next_attr_type : cr gone read_next_attr_type.
Proof.
  unfold read_next_attr_type. apply (c_bind _ _ _ _ gf); [apply c_get_attrs; exact gf|]. intros a.
  destruct (a_rest a =? 0); [apply c_ret|]. apply (c_bind _ _ _ _ gf); [apply c_reader_pos|]. intros p.
  apply (c_bind _ _ _ _ gf); [apply c_when; apply g_m_skip|]. intros _.
  apply (c_bind _ _ _ _ gf); [apply c_attr_type; [exact gf|exact ge]|]. intros t.
  apply (c_bind _ _ _ _ gf); [apply c_set_attrs|]. intros _. apply c_ret.
Qed.

Lemma g_load_next : forall O b (ld : loader O), good_loader consuming ld -> cr gone (load_next_gen b ld).
Proof.
  intros O b ld H. unfold load_next_gen, do_with_health_check.
  apply (c_bind _ _ _ _ gf); [apply c_ensure|]. intros _.
  apply (c_bind _ _ _ _ gf); [apply c_get_attrs; exact gf|]. intros a.
  apply (c_try _ _ _ _ _ (fun _ => gone)).
  - apply (c_bind _ _ _ _ gf); [apply g_next_attr_type|]. intros [t|]; [|apply c_ret].
    apply (c_bind _ _ _ _ gf); [apply g_load_next_impl; exact H|]. intros v. apply c_ret.
  - intros e. apply noval_bind. intros p. apply noval_bind. intros _. apply noval_throw.
  - intros e. apply (c_bind x1 x2 c gone gf); [apply c_attr_position; exact gf|]. intros p.
    apply (c_bind _ _ _ _ gf); [apply c_set_health|]. intros _. apply c_throw.
  - intros v. apply c_ret.
  - intros v u b0 t G E. injection E as <- <-. exact G.
Qed.

(** ** Client calls *)

(** After a call the first run has left the common part, or it is over, or the second run
    has done the same. *)
Definition stopped (s : pstate) : Prop := p_health s <> Running.

Lemma op_cut : forall O (o : op O) s1 s2 r t1, consuming_op o -> cut s1 s2 -> run_op o s1 = (r, t1) -> r <> Panic ->
  gone t1 \/ stopped t1 \/ exists t2, run_op o s2 = (r, t2) /\ cut t1 t2.
Proof.
  intros O o s1 s2 r t1 Ho C H Hr.
  assert (Ca : cut (set_attrs None s1) (set_attrs None s2)).
  { revert C. apply cut_upd; reflexivity. }
  assert (LD : forall b (l : loader O), good_loader consuming l ->
    (let* a := gets p_attrs in match a with Some _ => let* v := load_next_gen b l in ret (BAttr v) | None => ret BIgnored end) s1 = (r, t1) ->
    gone t1 \/ stopped t1 \/ exists t2,
    (let* a := gets p_attrs in match a with Some _ => let* v := load_next_gen b l in ret (BAttr v) | None => ret BIgnored end) s2 = (r, t2) /\ cut t1 t2).
  { intros b l Hl X. rewrite bind_gets in X. rewrite bind_gets.
    assert (Ea : p_attrs s2 = p_attrs s1) by apply (cut_get _ _ _ _ _ C). rewrite Ea.
    destruct (p_attrs s1) as [at1|].
    - mstep X as v u Y; [| |congruence].
      + injection X as <- <-. destruct (proj2 (g_load_next _ b l Hl) _ _ _ _ C Y) as [G|(t2 & Z & K)]; [left; exact G|].
        right; right. exists t2. rewrite (bind_ok _ _ _ _ _ _ _ Z). auto.
      + right; left. unfold stopped. apply load_next_shape in Y; [|discriminate]. destruct (p_health s1) eqn:Eh.
        * destruct Y as (at' & _ & r0 & s' & _ & _ & e0 & p0 & _ & _ & E & _). cbn zeta in E. rewrite E. cbn. discriminate.
        * destruct Y as [-> _]. rewrite Eh. discriminate.
        * destruct Y as [-> _]. rewrite Eh. discriminate.
    - injection X as <- <-. right; right. exists s2. auto. }
  destruct o as [|l|l|]; cbn [run_op consuming_op good_op] in *.
  - rewrite bind_modify in H. rewrite bind_modify. mstep H as e u X; [| |congruence].
    + destruct (proj2 (g_next_event x1 x2 c) _ _ _ _ Ca X) as [[G|[x ->]]|(u2 & Y & K)].
      * left. destruct e as [name| |f]; [|injection H as <- <-; exact G|injection H as <- <-; exact G].
        mstep H as [] w Z; [| |congruence].
        { injection H as <- <-. apply (gf u); [|exact G]. apply (steps_elim _ _ _ _ _ _ (proj1 (c_from_parser x1 x2 c gone gf)) Z). discriminate. }
        { apply (gf u); [|exact G]. apply (steps_elim _ _ _ _ _ _ (proj1 (c_from_parser x1 x2 c gone gf)) Z). discriminate. }
      * injection H as <- <-. right; left. apply next_event_shape in X; [|discriminate]. cbn [p_health set_attrs] in X.
        destruct (p_health s1); [|destruct X as [_ X]; discriminate|destruct X as [_ X]; discriminate].
        destruct X as (_ & r0 & s' & _ & _ & F). unfold stopped.
        pose proof (steps_elim _ _ _ _ _ _ read_footer_quiet F ltac:(discriminate)) as ((_ & Q & _) & _). rewrite Q. discriminate.
      * rewrite (bind_ok _ _ _ _ _ _ _ Y).
        destruct e as [name| |f]; [|injection H as <- <-; right; right; exists u2; auto|injection H as <- <-; right; right; exists u2; auto].
        mstep H as [] w Z; [| |congruence].
        { injection H as <- <-. destruct (proj2 (c_from_parser x1 x2 c gone gf) _ _ _ _ K Z) as [G|(w2 & Z2 & K2)]; [left; exact G|].
          right; right. exists w2. rewrite (bind_ok _ _ _ _ _ _ _ Z2). auto. }
        { exfalso. unfold from_parser in Z. rewrite bind_gets in Z. destruct (current_node u); [|discriminate].
          unfold reader_pos in Z. rewrite bind_gets in Z. discriminate. }
    + right; left. unfold stopped. apply next_event_shape in X; [|discriminate]. cbn [p_health set_attrs] in X.
      destruct (p_health s1) eqn:Eh.
      * destruct X as (_ & r0 & s' & _ & e1 & p & _ & _ & -> & _). cbn. discriminate.
      * destruct X as [-> _]. cbn. rewrite Eh. discriminate.
      * destruct X as [-> _]. cbn. rewrite Eh. discriminate.
  - apply LD; assumption.
  - apply LD; assumption.
  - rewrite bind_modify in H. rewrite bind_modify. unfold skip_current_node, m_skip_to in *.
    assert (E : forall s, bind (let* n := gets current_node in match n with Some n => modify pop;; modify (set_last (Some KEnd));;
       (let* r := rdop (skip_to (sn_end n)) in match r with Some e => throw (err_from (EIo e)) | None => ret tt end) | None => panic end) (fun _ => ret (@BSkipped O)) s =
       match current_node s with None => (Panic, s) | Some n =>
         match skip_to (sn_end n) (p_rd s) with
         | (Some (Some e), rd) => (Err (err_from (EIo e)), set_rd rd (set_last (Some KEnd) (pop s)))
         | (Some None, rd) => (Ok BSkipped, set_rd rd (set_last (Some KEnd) (pop s)))
         | (None, rd) => (Panic, set_rd rd (set_last (Some KEnd) (pop s)))
         end end).
    { intros s. unfold bind, gets, modify, rdop. destruct (current_node s) as [n|]; [|reflexivity].
      cbn [p_rd set_last pop set_stack]. destruct (skip_to (sn_end n) (p_rd s)) as [[[e|]|] rd]; reflexivity. }
    rewrite E in H. rewrite E.
    assert (Cn : current_node (set_attrs None s2) = current_node (set_attrs None s1)).
    { unfold current_node. destruct (cut_get _ _ _ _ _ Ca) as (_ & _ & -> & _). reflexivity. }
    rewrite Cn. destruct (current_node (set_attrs None s1)) as [n|]; [|congruence].
    destruct (cut_get _ _ _ _ _ Ca) as (_ & _ & _ & _ & _ & _ & _ & _ & _ & _ & R).
    destruct (skip_to (sn_end n) (p_rd (set_attrs None s1))) as [[a|] rd] eqn:Es; [|congruence].
    assert (T : t1 = set_rd rd (set_last (Some KEnd) (pop (set_attrs None s1)))) by (destruct a; congruence).
    destruct (skip_cut _ _ _ _ _ _ _ _ R Es) as [L|[L|(rd2 & Y & K)]].
    + left; left. rewrite T. exact L.
    + left; right. rewrite T. exact L.
    + right; right. rewrite Y.
      assert (Cp : cut (set_rd rd (set_last (Some KEnd) (pop (set_attrs None s1)))) (set_rd rd2 (set_last (Some KEnd) (pop (set_attrs None s2))))).
      { exists rd2. split; [exact K|]. destruct Ca as (r' & _ & ->). reflexivity. }
      destruct a; injection H as <- <-; eexists; (split; [reflexivity|exact Cp]).
Qed.
End Cut.
