(** What a call of the writer does to the sink, whether it succeeds or not. *)
Require Import Coq.Lists.List Coq.NArith.NArith Coq.ZArith.ZArith Coq.Bool.Bool Coq.micromega.Lia.
Require Import Coq.Init.Byte.
Require Import ZifyBool ZifyNat ZifyN.
Require Import Verif.Base Verif.BaseFacts Verif.Utf8 Verif.Types Verif.Io Verif.Parser Verif.Writer Verif.WriterFacts Verif.Zlib Verif.Spec Verif.SpecFacts
  Verif.FooterFacts Verif.WriterSpec Verif.WriterSim Verif.WriterNodes Verif.WriterTotal Verif.PropsWriter Verif.PropsRound Verif.PropsSink Verif.SpecCrash Verif.CrashFile.
Import ListNotations.
Ltac Zify.zify_post_hook ::= Z.div_mod_to_equations.
Open Scope writer_scope.

(** ** The content before an offset does not change *)
Definition safe (p : N) (k : sink) : Prop := (p <= k_pos k)%N /\ (p <= lenN (k_data k))%N.
Definition keepp {A} (p : N) (m : WM A) (Q : A -> Prop) : Prop := forall s r s', m s = (r, s') -> safe p (w_sink s) ->
  takeN p (k_data (w_sink s')) = takeN p (k_data (w_sink s)) /\ safe p (w_sink s') /\ (forall a, r = Ok a -> Q a).

Lemma takeN_put : forall p pos bs data, (p <= pos)%N -> (p <= lenN data)%N -> takeN p (put pos bs data) = takeN p data /\ (p <= lenN (put pos bs data))%N.
Proof.
  intros p pos bs data H1 H2. unfold put. assert (L : (p <= lenN (takeN pos data))%N) by (rewrite lenN_takeN; lia). split.
  - rewrite takeN_app_le by exact L. rewrite !takeN_firstn, firstn_firstn. f_equal. lia.
  - rewrite lenN_app. lia.
Qed.
Lemma wr_keeps : forall p sc bs data pos e data' pos' sc', wr sc bs data pos = (e, data', pos', sc') -> (p <= pos)%N -> (p <= lenN data)%N ->
  takeN p data' = takeN p data /\ (p <= pos')%N /\ (p <= lenN data')%N.
Proof.
  intros p. induction sc as [|a sc IH]; intros bs data pos e data' pos' sc' H L1 L2; destruct bs as [|b bs]; cbn [wr] in H.
  - injection H as <- <- <- <-. auto.
  - destruct (_ <? _)%N; injection H as <- <- <- <-; [|auto]. destruct (takeN_put p pos (b :: bs) data L1 L2) as [A B]. split; [exact A|]. split; [lia|exact B].
  - injection H as <- <- <- <-. auto.
  - destruct a as [k| | |c]; try (injection H as <- <- <- <-; auto; fail).
    + destruct (_ <? _)%N; [|injection H as <- <- <- <-; auto]. destruct (takeN_put p pos (firstn (Pos.to_nat k) (b :: bs)) data L1 L2) as [A B].
      apply IH in H; [|lia|exact B]. rewrite A in H. exact H.
    + eapply IH; eassumption.
Qed.

Lemma keepp_write : forall p wrap bs, keepp p (write_as wrap bs) (fun _ => True).
Proof.
  intros p wrap bs s r s' H [S1 S2]. unfold write_as in H. destruct (wr _ _ _ _) as [[[e d] q] sc] eqn:E. injection H as <- <-. cbn [w_sink set_sink k_data k_pos].
  destruct (wr_keeps p _ _ _ _ _ _ _ _ E S1 S2) as (A & B & C). split; [exact A|]. split; [split; assumption|]. auto.
Qed.
Lemma keepp_ret : forall p A (a : A) (Q : A -> Prop), Q a -> keepp p (wret a) Q.
Proof. intros p A a Q H s r s' [= <- <-] S. split; [reflexivity|]. split; [exact S|]. intros b [= <-]. exact H. Qed.
Lemma keepp_throw : forall p A e (Q : A -> Prop), keepp p (@wthrow A e) Q.
Proof. intros p A e Q s r s' [= <- <-] S. split; [reflexivity|]. split; [exact S|]. discriminate. Qed.
Lemma keepp_panic : forall p A (Q : A -> Prop), keepp p (@wpanic A) Q.
Proof. intros p A Q s r s' [= <- <-] S. split; [reflexivity|]. split; [exact S|]. discriminate. Qed.
Lemma keepp_gets : forall p A (f : wstate -> A), keepp p (wgets f) (fun _ => True).
Proof. intros p A f s r s' [= <- <-] S. split; [reflexivity|]. split; [exact S|]. auto. Qed.
Lemma keepp_modify : forall p f, (forall s, w_sink (f s) = w_sink s) -> keepp p (wmodify f) (fun _ => True).
Proof. intros p f H s r s' [= <- <-] S. rewrite H. split; [reflexivity|]. split; [exact S|]. auto. Qed.
Lemma keepp_tell : forall p, keepp p tell (fun q => (p <= q)%N).
Proof.
  intros p s r s' H [S1 S2]. unfold tell, k_seek in H. destruct (k_seeks (w_sink s)) as [|[c|] sk]; injection H as <- <-; cbn [w_sink set_sink k_data k_pos];
    (split; [reflexivity|]); (split; [split; assumption|]); try discriminate; intros a [= <-]; exact S1.
Qed.
Lemma keepp_seek : forall p q, (p <= q)%N -> keepp p (seek q) (fun _ => True).
Proof.
  intros p q L s r s' H [S1 S2]. unfold seek, k_seek in H. destruct (k_seeks (w_sink s)) as [|[c|] sk]; injection H as <- <-; cbn [w_sink set_sink k_data k_pos];
    (split; [reflexivity|]); (split; [split; assumption|]); auto.
Qed.
Lemma keepp_bind : forall p A B (m : WM A) (k : A -> WM B) Q R, keepp p m Q -> (forall a, Q a -> keepp p (k a) R) -> keepp p (wbind m k) R.
Proof.
  intros p A B m k Q R Hm Hk s r s' H S. unfold wbind in H. destruct (m s) as [[a|e|] s1] eqn:E; destruct (Hm _ _ _ E S) as (T1 & S1 & Q1).
  - destruct (Hk a (Q1 a eq_refl) _ _ _ H S1) as (T2 & S2 & Q2). split; [congruence|]. auto.
  - injection H as <- <-. split; [exact T1|]. split; [exact S1|]. discriminate.
  - injection H as <- <-. split; [exact T1|]. split; [exact S1|]. discriminate.
Qed.
Lemma keepp_weak : forall p A (m : WM A) (Q : A -> Prop), keepp p m Q -> keepp p m (fun _ => True).
Proof. intros p A m Q H s r s' E S. destruct (H _ _ _ E S) as (A1 & A2 & _). auto. Qed.
Lemma keepp_any : forall p A (m : WM A), keepp p m (fun _ => True) -> forall Q : A -> Prop, (forall a, Q a) -> keepp p m Q.
Proof. intros p A m H Q HQ s r s' E S. destruct (H _ _ _ E S) as (A1 & A2 & _). auto. Qed.

Ltac kp :=
  match goal with
  | |- keepp _ (wbind tell _) _ => eapply keepp_bind; [apply keepp_tell|intros]
  | |- keepp _ (wbind _ _) _ => apply keepp_bind with (Q := fun _ => True); [|intros]
  | |- keepp _ (wret _) _ => apply keepp_ret; auto
  | |- keepp _ (wthrow _) _ => apply keepp_throw
  | |- keepp _ wpanic _ => apply keepp_panic
  | |- keepp _ (wgets _) _ => apply keepp_gets
  | |- keepp _ (wmodify set_has_child) _ => apply keepp_modify; intro; apply has_child_same
  | |- keepp _ (wmodify _) _ => apply keepp_modify; intro; reflexivity
  | |- keepp _ (write _) _ => apply keepp_write
  | |- keepp _ (write_as _ _) _ => apply keepp_write
  | |- keepp _ (seek _) _ => apply keepp_seek; assumption
  | |- keepp _ (if ?b then _ else _) _ => destruct b
  | |- keepp _ (wwhen ?b _) _ => destruct b; cbn [wwhen]
  end.

Section WithEnv.
Context {env : Env}.

Lemma keepp_update : forall p, keepp p update_node_header (fun _ => True).
Proof. intros p. unfold update_node_header. kp; [kp|]. destruct a; repeat kp. Qed.
Lemma keepp_each : forall p wrap l, keepp p (write_each_as wrap l) (fun _ => True).
Proof. intros p wrap l. induction l as [|b l IH]; cbn [write_each_as]; [kp|]. kp; [kp|exact IH]. Qed.
Lemma keepp_copy : forall p l n, keepp p (io_copy l n) (fun _ => True).
Proof. intros p l. induction l as [|[[|b bs]| |c] l IH]; intros n; cbn [io_copy]; try apply IH; repeat kp. apply IH. Qed.
Lemma keepp_chars : forall p cs buf n, keepp p (write_chars buf cs n) (fun _ => True).
Proof. intros p cs. induction cs as [|c cs IH]; intros buf n; cbn [write_chars]; cbv zeta; repeat kp. apply IH. Qed.
Lemma keepp_sub : forall p a b, keepp p (sub_u64 a b) (fun _ => True).
Proof. intros p a b. unfold sub_u64. repeat kp. Qed.
Lemma keepp_header : forall p h, keepp p (write_node_header h) (fun _ => True).
Proof. intros p h. unfold write_node_header, write_u32. repeat kp. Qed.
Lemma keepp_special : forall p t, keepp p (initialize_special t) (fun q => (p <= q)%N).
Proof. intros p t. unfold initialize_special, write_type_code. kp; [apply keepp_update|]. kp; [kp|]. kp. kp; [kp|]. apply keepp_ret. assumption. Qed.
Lemma keepp_fin_special : forall p q n, (p <= q)%N -> keepp p (finalize_special q n) (fun _ => True).
Proof. intros p q n L. unfold finalize_special. repeat kp. Qed.
Lemma keepp_payload : forall p e l fails, keepp p (match e with EncDirect => write_elements l fails | EncZlib => write_zlib l fails end) (fun _ => True).
Proof.
  intros p e l fails. destruct e; unfold write_elements, write_zlib, count_elements.
  - kp; [apply keepp_each|]. repeat kp.
  - kp; [apply keepp_each|]. kp; [kp|]. kp; [kp; kp|]. kp; [apply keepp_each|]. kp.
Qed.
Lemma keepp_acall : forall p c, keepp p (run_acall c) (fun _ => True).
Proof.
  intros p [v|enc v fails|b bs|l|l fails|cs fails]; cbn [run_acall].
  - unfold append_single, write_type_code. kp; [apply keepp_update|]. repeat kp.
  - unfold append_array. cbv zeta. apply keepp_bind with (Q := fun q => (p <= q)%N).
    { unfold initialize_array, write_type_code, write_array_header. kp; [apply keepp_update|]. kp; [kp|]. kp. kp; [repeat kp|]. apply keepp_ret. assumption. }
    intros q Lq. kp. kp; [apply keepp_payload|]. kp. kp; [apply keepp_sub|]. kp; [|kp]. unfold finalize_array, write_array_header. repeat kp.
  - unfold append_direct. eapply keepp_bind; [apply keepp_special|intros q Lq; cbv beta in Lq]. kp; [kp|]. apply keepp_fin_special. exact Lq.
  - unfold append_binary_reader. eapply keepp_bind; [apply keepp_special|intros q Lq; cbv beta in Lq]. kp; [apply keepp_copy|]. apply keepp_fin_special. exact Lq.
  - unfold append_binary_iter. eapply keepp_bind; [apply keepp_special|intros q Lq; cbv beta in Lq]. kp; [apply keepp_each|]. kp; [kp|]. apply keepp_fin_special. exact Lq.
  - unfold append_string_iter. eapply keepp_bind; [apply keepp_special|intros q Lq; cbv beta in Lq]. kp; [apply keepp_chars|]. kp; [kp|]. apply keepp_fin_special. exact Lq.
Qed.
Lemma acalls_keep : forall p l s rs s', run_acalls l s = (rs, s') -> safe p (w_sink s) ->
  takeN p (k_data (w_sink s')) = takeN p (k_data (w_sink s)) /\ safe p (w_sink s').
Proof.
  intros p l. induction l as [|c l IH]; intros s rs s' H S; cbn [run_acalls] in H; [injection H as <- <-; auto|].
  destruct (run_acall c s) as [r s1] eqn:E. destruct (keepp_acall p c _ _ _ E S) as (T1 & S1 & _).
  destruct r as [u|e|]; [destruct (run_acalls l s1) as [rs1 s2] eqn:E1|destruct (run_acalls l s1) as [rs1 s2] eqn:E1|]; injection H as <- <-;
    [destruct (IH _ _ _ E1 S1) as [T2 S2]|destruct (IH _ _ _ E1 S1) as [T2 S2]|]; split; auto; congruence.
Qed.
Lemma keepp_finalize : forall p, keepp p finalize_attributes (fun _ => True).
Proof. intros p. unfold finalize_attributes. kp; [kp|]. destruct a as [|n t]; [kp|]. kp; [kp|]. kp. kp; [apply keepp_sub|]. cbv zeta. kp. Qed.
Lemma keepp_new_node : forall p name, keepp p (new_node name) (fun _ => True).
Proof. intros p name. unfold new_node. kp; [apply keepp_finalize|]. kp; [kp|]. kp; [kp|]. kp. cbv zeta. kp; [apply keepp_header|]. kp; [kp|]. kp. kp. Qed.

(** Closing a node whose header is behind [p]. *)
Lemma finalize_open : forall s r s', finalize_attributes s = (r, s') -> map on_header_pos (w_open s') = map on_header_pos (w_open s).
Proof.
  intros s r s' H. unfold finalize_attributes, wbind, wgets in H. destruct (w_open s) as [|n t] eqn:E; [injection H as <- <-; rewrite E; reflexivity|].
  destruct (on_finalized n); [injection H as <- <-; rewrite E; reflexivity|].
  unfold tell in H. destruct (k_seek None (w_sink s)) as [[e|] k]; [injection H as <- <-; cbn; rewrite E; reflexivity|].
  unfold sub_u64 in H. destruct (_ <=? _)%N; [|destruct ovf_checks]; cbn in H; injection H as <- <-; cbn; rewrite ?E; reflexivity.
Qed.
Lemma close_keeps : forall p s r s', close_node s = (r, s') -> safe p (w_sink s) -> (forall q t, map on_header_pos (w_open s) = q :: t -> (p <= q)%N) ->
  takeN p (k_data (w_sink s')) = takeN p (k_data (w_sink s)) /\ safe p (w_sink s').
Proof.
  intros p s r s' H S L. unfold close_node in H. unfold wbind at 1 in H. destruct (finalize_attributes s) as [r1 s1] eqn:E1.
  destruct (keepp_finalize p _ _ _ E1 S) as (T1 & S1 & _). apply finalize_open in E1. destruct r1 as [u|e|]; [|injection H as <- <-; auto|injection H as <- <-; auto].
  unfold wbind at 1, wgets in H. rewrite <- E1 in L. destruct (w_open s1) as [|n t]; [injection H as <- <-; auto|].
  specialize (L _ _ eq_refl).
  match type of H with ?m s1 = _ => assert (K : keepp p m (fun _ => True)) end.
  { kp; [kp|]. kp; [kp; [apply keepp_header|kp]|]. kp. kp; [kp|]. kp; [|kp]. kp; [apply keepp_header|]. kp. }
  destruct (K _ _ _ H S1) as (T2 & S2 & _). split; [congruence|exact S2].
Qed.

(** ** Appending *)
Definition grows {A} (ver : N) (bs : list byte) (m : WM A) : Prop := forall s r s' pre, m s = (r, s') -> w_ver s = ver -> at_ pre [] (w_sink s) ->
  exists got rest, bs = got ++ rest /\ at_ (pre ++ got) [] (w_sink s') /\ w_ver s' = ver /\ (forall a, r = Ok a -> rest = []).

Lemma grows_write : forall ver bs, grows ver bs (write bs).
Proof.
  intros ver bs s r s' pre H V (A1 & A2 & A3). unfold write, write_as in H. destruct (wr _ _ _ _) as [[[e d] q] sc] eqn:E. injection H as <- <-.
  rewrite A1, A2 in E. apply wr_spec in E; [|exact A3]. destruct E as (got & rest & E1 & E2 & E3 & E4 & E5). exists got, rest.
  split; [exact E1|]. split; [|split; [exact V|]].
  - rewrite dropN_all in E2 by (rewrite lenN_nil; lia). repeat split; cbn [w_sink set_sink k_data k_pos]; assumption.
  - intros a X. destruct e; [discriminate|exact E5].
Qed.
Lemma grows_nil : forall A ver (m : WM A), (forall s r s', m s = (r, s') -> k_data (w_sink s') = k_data (w_sink s) /\ k_pos (w_sink s') = k_pos (w_sink s) /\ w_ver s' = w_ver s) -> grows ver [] m.
Proof.
  intros A ver m Hm s r s' pre H V (A1 & A2 & A3). destruct (Hm _ _ _ H) as (B1 & B2 & B3). exists [], []. split; [reflexivity|]. rewrite app_nil_r.
  split; [repeat split; congruence|]. split; [congruence|]. auto.
Qed.
Lemma grows_bind : forall A B ver a b (m : WM A) (k : A -> WM B), grows ver a m -> (forall x, grows ver b (k x)) -> grows ver (a ++ b) (wbind m k).
Proof.
  intros A B ver a b m k Hm Hk s r s' pre H V At. unfold wbind in H. destruct (m s) as [[x|e|] s1] eqn:E; destruct (Hm _ _ _ _ E V At) as (g1 & r1 & E1 & A1 & V1 & O1).
  - rewrite (O1 x eq_refl), app_nil_r in E1. subst g1. destruct (Hk x _ _ _ _ H V1 A1) as (g2 & r2 & E2 & A2 & V2 & O2).
    exists (a ++ g2), r2. rewrite E2, !app_assoc. rewrite <- app_assoc in A2 |- *. rewrite app_assoc in A2 |- *. auto.
  - injection H as <- <-. exists g1, (r1 ++ b). rewrite E1, app_assoc. split; [reflexivity|]. split; [exact A1|]. split; [exact V1|]. discriminate.
  - injection H as <- <-. exists g1, (r1 ++ b). rewrite E1, app_assoc. split; [reflexivity|]. split; [exact A1|]. split; [exact V1|]. discriminate.
Qed.
Lemma tell_same : forall s r s', tell s = (r, s') -> k_data (w_sink s') = k_data (w_sink s) /\ k_pos (w_sink s') = k_pos (w_sink s) /\ w_ver s' = w_ver s.
Proof. intros s r s' H. unfold tell, k_seek in H. destruct (k_seeks (w_sink s)) as [|[c|] sk]; injection H as <- <-; cbn; auto. Qed.
Lemma grows_throw : forall A ver bs e, grows ver bs (@wthrow A e).
Proof. intros A ver bs e s r s' pre [= <- <-] V At. exists [], bs. rewrite app_nil_r. split; [reflexivity|]. split; [exact At|]. split; [exact V|]. discriminate. Qed.
Lemma grows_panic : forall A ver bs, grows ver bs (@wpanic A).
Proof. intros A ver bs s r s' pre [= <- <-] V At. exists [], bs. rewrite app_nil_r. split; [reflexivity|]. split; [exact At|]. split; [exact V|]. discriminate. Qed.
Lemma grows_u32 : forall ver n e, grows ver (le_enc 4 n) (write_u32 n e).
Proof. intros ver n e. unfold write_u32. destruct (_ <? _)%N; [apply grows_write|apply grows_throw]. Qed.
Lemma grows_header : forall ver h, grows ver (hdr_bytes ver h) (write_node_header h).
Proof.
  intros ver h s r s' pre H V At. unfold write_node_header in H. unfold wbind at 1, wgets in H. rewrite V in H.
  assert (G : grows ver (hdr_bytes ver h) (wbind (if (ver <? 7500)%N then
     write_u32 (nh_end h) (FileTooLarge (nh_end h)) ;> write_u32 (nh_attrs h) (TooManyAttributes (nh_attrs h)) ;> write_u32 (nh_alen h) (AttributeTooLong (nh_alen h))
   else write (le_enc 8 (nh_end h)) ;> write (le_enc 8 (nh_attrs h)) ;> write (le_enc 8 (nh_alen h))) (fun _ => write [nh_nlen h]))).
  { unfold hdr_bytes, width. destruct (_ <? _)%N; rewrite (app_assoc _ (le_enc _ (nh_attrs h))), (app_assoc _ (le_enc _ (nh_alen h))), <- (app_assoc (le_enc _ (nh_end h)));
      (apply grows_bind; [|intros; apply grows_write]); (apply grows_bind; [first [apply grows_u32|apply grows_write]|intros]);
      (apply grows_bind; [first [apply grows_u32|apply grows_write]|intros]); first [apply grows_u32|apply grows_write]. }
  eapply G; eassumption.
Qed.

(** ** The file between calls *)
Lemma outer_bytes : forall ver ns t f, exists rest, enc_frames ver ns (t ++ [f]) = base ver ns ++ placeholder ver (of_name f) ++ rest.
Proof.
  intros ver ns t f. induction t as [|g t (rest & IH)].
  - cbn [app enc_frames]. unfold enc_frame. eexists. unfold base. rewrite <- !app_assoc. reflexivity.
  - cbn [app enc_frames]. rewrite IH. eexists. rewrite <- !app_assoc. reflexivity.
Qed.
Lemma split_last : forall A (l : list A), l = [] \/ exists t f, l = t ++ [f].
Proof. intros A l. induction l as [|x l [->|(t & f & ->)]] using rev_ind; [left; reflexivity|right; exists [], x; reflexivity|right; exists (t ++ [f]), x; reflexivity]. Qed.

Lemma rel_bytes : forall ver d s, wrel ver [] d s -> at_ (enc_open ver d) [] (w_sink s).
Proof. intros ver d s R. pose proof (wr_at _ _ _ _ R) as A. rewrite dropN_all in A by (rewrite lenN_nil; lia). exact A. Qed.
Lemma rel_outer_len : forall ver d s t f, wrel ver [] d s -> od_frames d = t ++ [f] -> (lenN (of_name f) < 256)%N.
Proof.
  intros ver d s t f R E. pose proof (wr_frames _ _ _ _ R) as F. rewrite E in F. apply Forall_app in F. destruct F as [_ F]. inversion_clear F as [|? ? X Y]. apply X.
Qed.

Definition dead_sink (ver : N) (s : wstate) : Prop := dead (k_data (w_sink s)) ver.

Lemma crash_none : forall ver d s, wrel ver [] d s -> outer_named d -> dead_sink ver s.
Proof.
  intros ver d s R N. destruct (rel_bytes _ _ _ R) as (A & _). unfold dead_sink. rewrite A, app_nil_r. unfold enc_open.
  destruct (split_last _ (od_frames d)) as [E|(t & f & E)]; rewrite E.
  - cbn [enc_frames]. change (spec_magic ++ le_enc 4 ver ++ enc_nodes ver 27 (od_nodes d)) with (base ver (od_nodes d)). rewrite <- app_nil_r at 1.
    apply dead_short; [apply R|]. rewrite lenN_nil. pose proof (header_size_pos ver). lia.
  - destruct (outer_bytes ver (od_nodes d) t f) as (rest & ->). apply dead_open; [apply R|eapply N; exact E|eapply rel_outer_len; eassumption].
Qed.

(** Anything that does not touch the outermost header. *)
Lemma takeN_prefix : forall (a b : list byte), (exists r, b = a ++ r) <-> takeN (lenN a) b = a.
Proof.
  intros a b. split; [intros (r & ->); apply takeN_app_len|]. intros H. exists (dropN (lenN a) b). rewrite <- H at 1. symmetry. apply takeN_dropN.
Qed.
Lemma crash_kept : forall ver d s s' t f, wrel ver [] d s -> outer_named d -> od_frames d = t ++ [f] ->
  let p := (27 + nodes_size ver (od_nodes d) + header_size ver)%N in
  safe p (w_sink s) /\ (takeN p (k_data (w_sink s')) = takeN p (k_data (w_sink s)) -> dead_sink ver s').
Proof.
  intros ver d s s' t f R N E p. destruct (rel_bytes _ _ _ R) as (A & B & _). unfold enc_open in *. rewrite E in *.
  destruct (outer_bytes ver (od_nodes d) t f) as (rest & X). rewrite X in *. rewrite app_nil_r in A.
  assert (L : lenN (base ver (od_nodes d) ++ placeholder ver (of_name f)) = p) by (rewrite lenN_app, base_len, placeholder_len; reflexivity).
  rewrite app_assoc in A, B. split.
  - split; [rewrite B|rewrite A]; rewrite lenN_app, L; lia.
  - intros T. rewrite A, <- L, takeN_app_len in T. apply takeN_prefix in T. destruct T as (r & T). unfold dead_sink. rewrite T, <- app_assoc.
    apply dead_open; [apply R|eapply N; exact E|eapply rel_outer_len; eassumption].
Qed.

(** *** Opening the first node *)
Lemma crash_first : forall ver d s name r s', wrel ver [] d s -> od_frames d = [] -> name <> [] -> new_node name s = (r, s') ->
  dead_sink ver s' /\ (r = Ok tt -> exists rest, k_data (w_sink s') = base ver (od_nodes d) ++ placeholder ver name ++ rest /\ (lenN name < 256)%N /\
    safe (27 + nodes_size ver (od_nodes d) + header_size ver) (w_sink s')).
Proof.
  intros ver d s name r s' R E Nn H. pose proof (rel_bytes _ _ _ R) as A. unfold enc_open in A. rewrite E in A. change (enc_frames ver (od_nodes d) []) with (base ver (od_nodes d)) in A.
  unfold new_node in H. unfold wbind at 1 in H. pose proof (wr_stack _ _ _ _ R) as St. rewrite E in St. destruct (w_open s) eqn:Eo; [|contradiction].
  assert (F : finalize_attributes s = (Ok tt, s)) by (unfold finalize_attributes, wbind, wgets; rewrite Eo; reflexivity). rewrite F in H.
  assert (M : wmodify set_has_child s = (Ok tt, s)) by (unfold wmodify, set_has_child; rewrite Eo; reflexivity). unfold wbind at 1 in H. rewrite M in H.
  assert (D0 : dead_sink ver s) by (eapply crash_none; [exact R|]; intros t f Z; rewrite E in Z; destruct t; discriminate).
  destruct (lenN name <? 256)%N eqn:EN; cbn [negb] in H; [|injection H as <- <-; split; [exact D0|discriminate]].
  match type of H with ?m s = _ => assert (G : grows ver ([] ++ hdr_bytes ver (mkNH 0 0 0 (Nb (lenN name))) ++ name ++ [] ++ []) m) end.
  { apply grows_bind; [apply grows_nil; exact tell_same|intros]. cbv zeta. apply grows_bind; [apply grows_header|intros]. apply grows_bind; [apply grows_write|intros].
    apply grows_bind; [apply grows_nil; exact tell_same|intros]. apply grows_nil. intros z q z' [= <- <-]. cbn. auto. }
  destruct (G _ _ _ _ H (wr_ver _ _ _ _ R) A) as (got & rest & E1 & (A1 & A2 & A3) & _ & O). cbn [app] in E1. rewrite placeholder_bytes in E1. rewrite !app_nil_r in *.
  assert (P : (lenN got < header_size ver)%N \/ exists r, got = placeholder ver name ++ r).
  { destruct (N.lt_ge_cases (lenN got) (header_size ver)) as [L|L]; [left; exact L|right]. apply takeN_prefix. rewrite <- (takeN_app_le _ got rest) by (rewrite placeholder_len; exact L).
    rewrite <- E1. apply takeN_app_len. }
  split.
  - unfold dead_sink. rewrite A1. destruct P as [L|(x & ->)]; [apply dead_short; [apply R|exact L]|apply dead_open; [apply R|exact Nn|lia]].
  - intros ->. rewrite (O tt eq_refl), app_nil_r in E1. exists name. rewrite A1, <- E1. split; [reflexivity|]. split; [lia|].
    split; [rewrite A2|rewrite A1]; rewrite <- E1, !lenN_app, base_len, placeholder_len; lia.
Qed.

(** *** Closing the last open node *)
Lemma wr_whole : forall sc bs data pos e data' pos' sc', Forall (fun a => match a with WChunk _ => False | _ => True end) sc ->
  wr sc bs data pos = (e, data', pos', sc') ->
  (e = None /\ (data' = put pos bs data /\ pos' = (pos + lenN bs)%N \/ bs = [] /\ data' = data /\ pos' = pos)) \/ (e <> None /\ data' = data).
Proof.
  induction sc as [|a sc IH]; intros bs data pos e data' pos' sc' F H; destruct bs as [|b bs]; cbn [wr] in H.
  - injection H as <- <- <- <-. left. auto.
  - destruct (_ <? _)%N; injection H as <- <- <- <-; [left; auto|right; split; [discriminate|reflexivity]].
  - injection H as <- <- <- <-. left. auto.
  - inversion_clear F as [|? ? F1 F2]. destruct a as [k| | |c]; [contradiction| | |].
    + eapply IH; eassumption.
    + injection H as <- <- <- <-. right. split; [discriminate|reflexivity].
    + injection H as <- <- <- <-. right. split; [discriminate|reflexivity].
Qed.

(** Writing within the file. *)
Definition inside {A} (n : N) (m : WM A) : Prop := forall s r s', m s = (r, s') -> (k_pos (w_sink s) + n <= lenN (k_data (w_sink s)))%N ->
  lenN (k_data (w_sink s')) = lenN (k_data (w_sink s)) /\ (forall a, r = Ok a -> (k_pos (w_sink s') <= k_pos (w_sink s) + n)%N).
Lemma put_len : forall pos bs data, (pos + lenN bs <= lenN data)%N -> lenN (put pos bs data) = lenN data.
Proof.
  intros pos bs data L. unfold put. rewrite !lenN_app, lenN_takeN, lenN_dropN. replace (pos - lenN data)%N with 0%N by lia.
  change (lenN (zeros (N.to_nat 0))) with 0%N. lia.
Qed.
Lemma wr_inside : forall sc bs data pos e data' pos' sc', wr sc bs data pos = (e, data', pos', sc') -> (pos + lenN bs <= lenN data)%N ->
  lenN data' = lenN data /\ (pos' <= pos + lenN bs)%N.
Proof.
  induction sc as [|a sc IH]; intros bs data pos e data' pos' sc' H L; destruct bs as [|b bs]; cbn [wr] in H.
  - injection H as <- <- <- <-. split; [reflexivity|lia].
  - destruct (_ <? _)%N; injection H as <- <- <- <-; [split; [apply put_len; exact L|lia]|split; [reflexivity|lia]].
  - injection H as <- <- <- <-. split; [reflexivity|lia].
  - destruct a as [k| | |c]; try (injection H as <- <- <- <-; split; [reflexivity|lia]).
    + destruct (_ <? _)%N; [|injection H as <- <- <- <-; split; [reflexivity|lia]].
      assert (Ls : (lenN (firstn (Pos.to_nat k) (b :: bs)) + lenN (skipn (Pos.to_nat k) (b :: bs)) = lenN (b :: bs))%N)
        by (rewrite <- lenN_app, firstn_skipn; reflexivity).
      assert (Lp : lenN (put pos (firstn (Pos.to_nat k) (b :: bs)) data) = lenN data) by (apply put_len; lia).
      apply IH in H; [|lia]. split; [destruct H; congruence|lia].
    + eapply IH; eassumption.
Qed.
Lemma inside_write : forall bs, inside (lenN bs) (write bs).
Proof.
  intros bs s r s' H L. unfold write, write_as in H. destruct (wr _ _ _ _) as [[[e d] q] sc] eqn:E. injection H as <- <-. cbn [w_sink set_sink k_data k_pos].
  destruct (wr_inside _ _ _ _ _ _ _ _ E L) as [A B]. split; [exact A|]. intros a _. exact B.
Qed.
Lemma inside_u32 : forall n e, inside 4 (write_u32 n e).
Proof.
  intros n e. unfold write_u32. destruct (_ <? _)%N; [exact (inside_write (le_enc 4 n))|]. intros s r s' [= <- <-] L. split; [reflexivity|discriminate].
Qed.
Lemma inside_bind : forall A B a b (m : WM A) (k : A -> WM B), inside a m -> (forall x, inside b (k x)) -> inside (a + b) (wbind m k).
Proof.
  intros A B a b m k Hm Hk s r s' H L. unfold wbind in H. destruct (m s) as [[x|e|] s1] eqn:E; destruct (Hm _ _ _ E ltac:(lia)) as (L1 & P1).
  - specialize (P1 x eq_refl). destruct (Hk x _ _ _ H ltac:(lia)) as (L2 & P2). split; [congruence|]. intros y Hy. specialize (P2 y Hy). lia.
  - injection H as <- <-. split; [exact L1|discriminate].
  - injection H as <- <-. split; [exact L1|discriminate].
Qed.

(** The first field of a header, and the others. *)
Definition first_field (ver : N) (h : node_header) : WM unit :=
  if (ver <? 7500)%N then write_u32 (nh_end h) (FileTooLarge (nh_end h)) else write (le_enc 8 (nh_end h)).
Definition other_fields (ver : N) (h : node_header) : WM unit :=
  (if (ver <? 7500)%N then write_u32 (nh_attrs h) (TooManyAttributes (nh_attrs h)) ;> write_u32 (nh_alen h) (AttributeTooLong (nh_alen h))
   else write (le_enc 8 (nh_attrs h)) ;> write (le_enc 8 (nh_alen h))) ;> write [nh_nlen h].
Lemma header_fields : forall h s, write_node_header h s = (first_field (w_ver s) h ;> other_fields (w_ver s) h) s.
Proof.
  intros h s. unfold write_node_header, first_field, other_fields. unfold wbind at 1, wgets. destruct (_ <? _)%N; unfold wbind.
  - destruct (write_u32 (nh_end h) _ s) as [[u|e|] s1]; try reflexivity.
  - destruct (write (le_enc 8 (nh_end h)) s) as [[u|e|] s1]; try reflexivity.
Qed.
Lemma other_inside : forall ver h, inside (2 * N.of_nat (width ver) + 1) (other_fields ver h).
Proof.
  intros ver h. unfold other_fields, width. destruct (_ <? _)%N.
  - exact (inside_bind _ _ 8 1 _ _ (inside_bind _ _ 4 4 _ _ (inside_u32 _ _) (fun _ => inside_u32 _ _)) (fun _ => inside_write [nh_nlen h])).
  - exact (inside_bind _ _ 16 1 _ _ (inside_bind _ _ 8 8 _ _ (inside_write (le_enc 8 _)) (fun _ => inside_write (le_enc 8 _))) (fun _ => inside_write [nh_nlen h])).
Qed.
Lemma other_keeps : forall p ver h, keepp p (other_fields ver h) (fun _ => True).
Proof. intros p ver h. unfold other_fields, write_u32. repeat kp. Qed.


Lemma write_whole : forall bs s r s', bs <> [] -> untorn (w_sink s) -> write bs s = (r, s') ->
  match r with
  | Ok _ => k_data (w_sink s') = put (k_pos (w_sink s)) bs (k_data (w_sink s)) /\ k_pos (w_sink s') = (k_pos (w_sink s) + lenN bs)%N
  | _ => k_data (w_sink s') = k_data (w_sink s)
  end.
Proof.
  intros bs s r s' Hb F H. unfold write, write_as in H. destruct (wr _ _ _ _) as [[[e d] q] sc] eqn:E. injection H as <- <-. cbn [w_sink set_sink k_data k_pos].
  apply wr_whole in E; [|exact F]. destruct E as [(-> & [(-> & ->)|(X & _)])|(X & ->)]; [auto|contradiction|]. destruct e; [reflexivity|contradiction].
Qed.
Lemma first_whole : forall ver h s r s', untorn (w_sink s) -> first_field ver h s = (r, s') -> (nh_end h < pow2_64)%N ->
  match r with
  | Ok _ => u_ok (width ver) (nh_end h) /\ k_data (w_sink s') = put (k_pos (w_sink s)) (le_enc (width ver) (nh_end h)) (k_data (w_sink s)) /\
      k_pos (w_sink s') = (k_pos (w_sink s) + N.of_nat (width ver))%N
  | _ => k_data (w_sink s') = k_data (w_sink s)
  end.
Proof.
  intros ver h s r s' F H L. unfold first_field in H. unfold width, u_ok. destruct (_ <? _)%N.
  - unfold write_u32 in H. destruct (nh_end h <? pow2_32)%N eqn:E; [|injection H as <- <-; reflexivity].
    apply write_whole in H; [|discriminate|exact F]. destruct r; [|exact H|exact H]. rewrite le_enc_lenN in H. split; [|exact H]. change (2 ^ (8 * N.of_nat 4))%N with pow2_32. lia.
  - apply write_whole in H; [|discriminate|exact F]. destruct r; [|exact H|exact H]. rewrite le_enc_lenN in H. split; [|exact H]. exact L.
Qed.

Lemma reports_untorn : forall A (m : WM A) s r s', reports m -> m s = (r, s') -> untorn (w_sink s) -> untorn (w_sink s').
Proof.
  intros A m s r s' Hm H F. specialize (Hm s). rewrite H in Hm. cbn [fst snd] in Hm. destruct Hm as (w & q & E & _). unfold untorn in *. rewrite E in F.
  apply Forall_app in F. apply F.
Qed.
Lemma seek_cases : forall p s r s', seek p s = (r, s') -> w_ver s' = w_ver s /\ k_data (w_sink s') = k_data (w_sink s) /\ (r = Ok tt -> k_pos (w_sink s') = p) /\ r <> Panic.
Proof. intros p s r s' H. unfold seek, k_seek in H. destruct (k_seeks (w_sink s)) as [|[c|] sk]; injection H as <- <-; cbn; repeat split; discriminate || auto. Qed.

Lemma crash_close_last : forall ver d s f r s', wrel ver [] d s -> outer_named d -> od_frames d = [f] -> untorn (w_sink s) -> close_node s = (r, s') -> dead_sink ver s'.
Proof.
  intros ver d s f r s' R N E F H. unfold close_node in H.
  destruct (crash_kept ver d s s' [] f R N E) as [S0 K0]. set (B := (27 + nodes_size ver (od_nodes d))%N) in *.
  (* as long as only bytes behind the header change *)
  apply wbind_inv in H. destruct H as [(u & s1 & E1 & H)|[(e & E1 & _)|[E1 _]]].
  2,3: apply K0; apply (keepp_finalize _ _ _ _ E1 S0).
  destruct (finalize_ok _ _ _ _ _ _ E1 R) as [R1 T1].
  assert (F1 : untorn (w_sink s1)) by (eapply reports_untorn; [|exact E1|exact F]; repeat rep_step). clear K0 S0 E1 F R s u.
  destruct (crash_kept ver d s1 s' [] f R1 N E) as [S1 K1]. fold B in S1, K1.
  unfold wbind at 1, wgets in H. pose proof (wr_stack _ _ _ _ R1) as St. rewrite E in St. destruct (w_open s1) as [|n [|n' m]] eqn:Eo; [contradiction| |destruct St as [_ []]].
  destruct St as [(P1 & _) _]. change (enc_frames ver (od_nodes d) []) with (base ver (od_nodes d)) in P1. rewrite base_len in P1. fold B in P1.
  unfold wbind at 1, wmodify in H. set (s2 := set_open [] s1) in H. assert (V2 : w_ver s2 = ver) by exact (wr_ver _ _ _ _ R1).
  pose proof (rel_bytes _ _ _ R1) as A2. change (w_sink s1) with (w_sink s2) in *. clearbody s2.
  apply wbind_inv in H. destruct H as [(u & s3 & E3 & H)|[(e & E3 & _)|[E3 _]]].
  2,3: apply K1; destruct (_ || _); cbn [wwhen] in E3; [apply (keepp_header _ _ _ _ _ E3 S1)|discriminate].
  assert (G : exists more, at_ (enc_open ver d ++ more) [] (w_sink s3) /\ w_ver s3 = ver /\ untorn (w_sink s3)).
  { destruct (_ || _); cbn [wwhen] in E3.
    - destruct (grows_header ver node_end _ _ _ _ E3 V2 A2) as (got & rest & _ & G1 & G2 & _). exists got. split; [exact G1|]. split; [exact G2|].
      eapply reports_untorn; [apply reports_header|exact E3|exact F1].
    - injection E3 as <- <-. exists []. rewrite app_nil_r. auto. }
  destruct G as (more & A3 & V3 & F3). clear E3 A2 V2 F1.
  unfold enc_open in A3. rewrite E in A3. destruct (outer_bytes ver (od_nodes d) [] f) as (rest & X). cbn [app] in X. rewrite X in A3. rewrite <- !app_assoc in A3.
  set (bs := base ver (od_nodes d) ++ placeholder ver (of_name f) ++ rest ++ more) in A3.
  assert (D : dead bs ver) by (apply dead_open; [apply R1|exact (N [] f E)|exact (rel_outer_len _ _ _ [] f R1 E)]).
  assert (DD : forall z : wstate, k_data (w_sink z) = bs -> dead_sink ver z) by (intros z Z; unfold dead_sink; rewrite Z; exact D).
  destruct A3 as (A3 & B3 & C3). rewrite app_nil_r in A3.
  apply wbind_inv in H. destruct H as [(pos & s4 & E4 & H)|[(e & E4 & _)|[E4 _]]].
  2,3: apply DD; destruct (tell_same _ _ _ E4); congruence.
  destruct (tell_same _ _ _ E4) as (T4 & Q4 & V4). assert (Ep : pos = lenN bs).
  { unfold tell, k_seek in E4. destruct (k_seeks (w_sink s3)) as [|[c|] sk]; try discriminate; injection E4 as <- _; exact B3. }
  assert (F4 : untorn (w_sink s4)) by (eapply reports_untorn; [apply reports_tell|exact E4|exact F3]).
  apply wbind_inv in H. destruct H as [([] & s5 & E5 & H)|[(e & E5 & _)|[E5 _]]].
  2,3: apply DD; destruct (seek_cases _ _ _ _ E5) as (_ & Z & _); congruence.
  destruct (seek_cases _ _ _ _ E5) as (V5 & T5 & Q5 & _). specialize (Q5 eq_refl). rewrite P1 in Q5.
  assert (F5 : untorn (w_sink s5)) by (eapply reports_untorn; [apply reports_seek|exact E5|exact F4]).
  destruct (Bool.eqb _ _); [|injection H as <- <-; apply DD; congruence].
  assert (HW : forall q s6, write_node_header (mkNH pos (nh_attrs (on_header n)) (nh_alen (on_header n)) (nh_nlen (on_header n))) s5 = (q, s6) -> dead_sink ver s6).
  { clear H. intros q s6 H. rewrite header_fields in H. replace (w_ver s5) with ver in H by congruence. set (h := mkNH _ _ _ _) in H.
    assert (Lp : (nh_end h < pow2_64)%N) by (cbn; unfold pow2_63, pow2_64 in *; lia).
    apply wbind_inv in H. destruct H as [(u' & s7 & E7 & H)|[(e & E7 & _)|[E7 _]]].
    2,3: apply DD; apply first_whole in E7; [congruence|exact F5|exact Lp].
    apply first_whole in E7; [|exact F5|exact Lp]. destruct E7 as (U & T7 & Q7). cbn [nh_end h] in U, T7.
    pose proof (header_size_width ver) as HS. assert (LB : lenN bs = (B + header_size ver + lenN rest + lenN more)%N) by (unfold bs; rewrite !lenN_app, base_len, placeholder_len; unfold B; lia).
    assert (L7 : lenN (k_data (w_sink s7)) = lenN bs) by (rewrite T7, put_len; [congruence|rewrite le_enc_lenN, Q5, T5, T4, A3, LB; lia]).
    destruct (other_inside ver h _ _ _ H) as [L6 _]; [rewrite Q7, Q5, L7, LB; lia|].
    assert (S7 : safe (B + N.of_nat (width ver)) (w_sink s7)) by (split; [rewrite Q7, Q5; lia|rewrite L7, LB; lia]).
    destruct (other_keeps (B + N.of_nat (width ver)) ver h _ _ _ H S7) as (T6 & _ & _).
    assert (Pre : takeN (lenN (base ver (od_nodes d) ++ le_enc (width ver) pos)) (k_data (w_sink s6)) = base ver (od_nodes d) ++ le_enc (width ver) pos).
    { rewrite lenN_app, base_len, le_enc_lenN. fold B. rewrite T6, T7, Q5, T5, T4, A3. unfold bs. replace B with (lenN (base ver (od_nodes d))) by apply base_len.
      rewrite put_at, app_assoc. rewrite <- (le_enc_lenN (width ver) pos), <- lenN_app. apply takeN_app_len. }
    apply takeN_prefix in Pre. destruct Pre as (z & Z). unfold dead_sink. rewrite Z, <- app_assoc.
    assert (EP : pos = (27 + nodes_size ver (od_nodes d) + N.of_nat (width ver) + lenN z)%N).
    { rewrite Ep, <- L7, <- L6, Z, !lenN_app, base_len, le_enc_lenN. reflexivity. }
    rewrite EP in *. apply dead_ended; [exact U|apply R1]. }
  apply wbind_inv in H. destruct H as [(u' & s6 & E6 & H)|[(e & E6 & _)|[E6 _]]].
  - apply HW in E6. unfold dead_sink in *. destruct (seek_cases _ _ _ _ H) as (_ & -> & _). exact E6.
  - eapply HW. exact E6.
  - eapply HW. exact E6.
Qed.

(** ** Any call *)
Lemma crash_call : forall ver d s c rs s', wrel ver [] d s -> outer_named d -> outer_named (doc_call c d) ->
  (c = CClose -> length (od_frames d) = 1%nat -> untorn (w_sink s)) -> run_wcall c s = (rs, s') -> dead_sink ver s'.
Proof.
  intros ver d s c rs s' R N N' F H. set (p := (27 + nodes_size ver (od_nodes d) + header_size ver)%N).
  destruct c as [name attrs|]; cbn [run_wcall] in H.
  - destruct (split_last _ (od_frames d)) as [E|(t & f & E)].
    + assert (Nn : name <> []).
      { apply (N' [] (mkOF name (of_atts (hd (mkOF name [] []) (od_frames (doc_call (CNode name attrs) d)))) [])).
        cbn [doc_call]. assert (G : forall l atts, od_frames (add_attrs l (mkOD (od_nodes d) [mkOF name atts []])) = [mkOF name (of_atts (hd (mkOF name [] []) (od_frames (add_attrs l (mkOD (od_nodes d) [mkOF name atts []]))))) []]).
        { induction l as [|x l IH]; intros atts; [reflexivity|]. cbn [add_attrs]. destruct (attr_of x); [|apply IH]. unfold add_attr. cbn [od_frames od_nodes of_name of_atts of_kids]. apply IH. }
        unfold open_node. rewrite E. apply G. }
      destruct (new_node name s) as [r s1] eqn:E1. destruct (crash_first ver d s name r s1 R E Nn E1) as [D O].
      destruct r as [[]|e|]; [|injection H as <- <-; exact D|injection H as <- <-; exact D].
      destruct (O eq_refl) as (rest & A & L & S). destruct (run_acalls attrs s1) as [rs1 s2] eqn:E2. injection H as <- <-.
      destruct (acalls_keep p attrs _ _ _ E2 S) as [T _]. unfold dead_sink. rewrite A, app_assoc in T.
      assert (Lp : p = lenN (base ver (od_nodes d) ++ placeholder ver name)) by (rewrite lenN_app, base_len, placeholder_len; reflexivity).
      rewrite Lp, takeN_app_len in T. apply takeN_prefix in T. destruct T as (x & ->). rewrite <- app_assoc. apply dead_open; [apply R|exact Nn|exact L].
    + destruct (crash_kept ver d s s' t f R N E) as [S K]. fold p in S, K. apply K.
      destruct (new_node name s) as [r s1] eqn:E1. destruct (keepp_new_node p name _ _ _ E1 S) as (T1 & S1 & _).
      destruct r as [[]|e|]; [|injection H as <- <-; exact T1|injection H as <- <-; exact T1].
      destruct (run_acalls attrs s1) as [rs1 s2] eqn:E2. injection H as <- <-. destruct (acalls_keep p attrs _ _ _ E2 S1) as [T2 _]. congruence.
  - destruct (close_node s) as [r s1] eqn:E1. injection H as <- <-.
    pose proof (wr_stack _ _ _ _ R) as St. destruct (od_frames d) as [|f [|g t]] eqn:E.
    + destruct (w_open s) eqn:Eo; [|contradiction].
      assert (X : close_node s = (Err NoNodesToClose, s)) by (unfold close_node, finalize_attributes, wbind, wgets; rewrite Eo; cbn; rewrite Eo; reflexivity).
      rewrite X in E1. injection E1 as <- <-. eapply crash_none; eassumption.
    + eapply crash_close_last; [exact R|exact N|exact E|apply F; reflexivity|exact E1].
    + destruct (split_last _ (g :: t)) as [X|(t' & f' & X)]; [discriminate|].
      destruct (crash_kept ver d s s1 (f :: t') f' R N) as [S K]; [rewrite E, X; reflexivity|]. fold p in S, K. apply K.
      apply (close_keeps p _ _ _ E1 S). intros q m Hq. destruct (w_open s) as [|n [|n' m']]; [contradiction|destruct St as [_ []]|]. destruct St as [(P1 & _) _]. cbn [map] in Hq. injection Hq as Hq _.
      rewrite <- Hq, P1, X. destruct (outer_bytes ver (od_nodes d) t' f') as (rest & ->). rewrite !lenN_app, base_len, placeholder_len. unfold p. lia.
Qed.

(** ** Finishing *)
Lemma crash_finalize : forall ver d s fl f r s', wrel ver [] d s -> outer_named d -> finalize fl f s = (r, s') ->
  dead_sink ver s' \/ od_frames d = [] /\ exists got rest, k_data (w_sink s') = base ver (od_nodes d) ++ end_marker ver ++ got /\
    got ++ rest = enc_wfooter ver (27 + nodes_size ver (od_nodes d) + header_size ver) f.
Proof.
  intros ver d s fl f r s' R N H. unfold finalize in H. destruct ((finalize_impl f;> wwhen fl flush) s) as [r0 s0] eqn:E0.
  assert (Es : s0 = s') by (destruct r0; injection H as _ <-; reflexivity). subst s0. clear H.
  assert (X : exists r1 s1, finalize_impl f s = (r1, s1) /\ k_data (w_sink s1) = k_data (w_sink s')).
  { apply wbind_inv in E0. destruct E0 as [(u & s1 & E1 & E2)|[(e & E1 & _)|[E1 _]]]; [|eauto|eauto].
    exists (Ok u), s1. split; [exact E1|]. unfold wwhen, flush in E2. destruct fl; [|injection E2 as _ <-; reflexivity]. destruct (k_flush (w_sink s1)); injection E2 as _ <-; reflexivity. }
  destruct X as (r1 & s1 & E1 & Ed). unfold dead_sink. rewrite <- Ed. clear E0 Ed. unfold finalize_impl in E1. unfold wbind at 1, wgets in E1.
  destruct (w_open s) as [|n t] eqn:Eo; [|injection E1 as <- <-; left; eapply crash_none; eassumption].
  pose proof (wr_stack _ _ _ _ R) as St. destruct (od_frames d) eqn:E; [|rewrite Eo in St; contradiction].
  pose proof (rel_bytes _ _ _ R) as A. unfold enc_open in A. rewrite E in A. change (enc_frames ver (od_nodes d) []) with (base ver (od_nodes d)) in A.
  set (start := (27 + nodes_size ver (od_nodes d) + header_size ver)%N).
  assert (G : exists got rest, end_marker ver ++ enc_wfooter ver start f = got ++ rest /\ k_data (w_sink s1) = base ver (od_nodes d) ++ got).
  { pose proof (wr_ver _ _ _ _ R) as V.
    apply wbind_inv in E1. destruct E1 as [(u & s2 & E2 & E1)|[(e & E2 & _)|[E2 _]]].
    2,3: destruct (grows_header ver node_end _ _ _ _ E2 V A) as (g & q & G1 & (G2 & _) & _); rewrite node_end_bytes in G1; exists g, (q ++ enc_wfooter ver start f);
      rewrite G1, <- app_assoc, G2, app_nil_r; auto.
    destruct (grows_header ver node_end _ _ _ _ E2 V A) as (g & q & G1 & A2 & V2 & O). rewrite node_end_bytes, (O u eq_refl), app_nil_r in G1. subst g. clear E2 O V A u q.
    set (u1 := footer_field (wf_unknown1 f) spec_default1). assert (EW : exists w, enc_wfooter ver start f = u1 ++ w) by (unfold enc_wfooter; fold u1; eexists; reflexivity). destruct EW as (w & EW).
    apply wbind_inv in E1. destruct E1 as [(u & s3 & E3 & E1)|[(e & E3 & _)|[E3 _]]].
    2,3: destruct (grows_write ver (wf_field1 f) _ _ _ _ E3 V2 A2) as (g & q & G1 & (G2 & _) & _); exists (end_marker ver ++ g), (q ++ w);
      rewrite EW; change u1 with (wf_field1 f); rewrite G1, G2, app_nil_r, <- !app_assoc; auto.
    destruct (grows_write ver (wf_field1 f) _ _ _ _ E3 V2 A2) as (g & q & G1 & A3 & V3 & O). rewrite (O u eq_refl), app_nil_r in G1. subst g. clear E3 O V2 A2 u q.
    assert (Lp : lenN ((base ver (od_nodes d) ++ end_marker ver) ++ wf_field1 f) = (start + lenN u1)%N) by (rewrite !lenN_app, base_len, end_marker_len; reflexivity).
    apply wbind_inv in E1. destruct E1 as [(len & s4 & E4 & E1)|[(e & E4 & _)|[E4 _]]].
    2,3: exists (end_marker ver ++ u1), w; rewrite EW, <- app_assoc; split; [reflexivity|];
      (assert (Z : k_data (w_sink s1) = k_data (w_sink s3)); [|rewrite Z; destruct A3 as (A3 & _); rewrite A3, app_nil_r, <- app_assoc; reflexivity]);
      destruct (wf_padding f); [|discriminate]; apply wbind_inv in E4; destruct E4 as [(c & s5 & E5 & X)|[(e' & E5 & _)|[E5 _]]]; [discriminate| |]; apply (tell_same _ _ _ E5).
    assert (EL : len = footer_pad f (start + lenN u1) /\ at_ ((base ver (od_nodes d) ++ end_marker ver) ++ wf_field1 f) [] (w_sink s4) /\ w_ver s4 = ver).
    { unfold footer_pad. destruct (wf_padding f).
      - apply wbind_ok in E4. destruct E4 as (cur & s5 & E5 & X). injection X as <- <-. destruct (tell_ok _ _ _ _ _ E5 A3) as ((S1 & _) & A4 & ->).
        split; [|split; [exact A4|congruence]]. rewrite Lp. apply pad16_spec. destruct A4 as (_ & _ & L). rewrite Lp in L. unfold pow2_63, pow2_64 in *. lia.
      - injection E4 as <- <-. auto. }
    destruct EL as (EL & A4 & V4). clear E4 A3 V3.
    assert (K : grows ver (zeros (N.to_nat len) ++ wf_field2 f ++ le_enc 4 ver ++ zeros 120 ++ wf_field3 f)
      (write (zeros (N.to_nat len));> write (wf_field2 f);> (let! ver0 := wgets w_ver in write (le_enc 4 ver0));> write (zeros 120);> write (wf_field3 f))).
    { repeat (apply grows_bind; [first [apply grows_write|idtac]|intros]); [|apply grows_write].
      intros z q z' pre Hz Vz Az. unfold wbind, wgets in Hz. rewrite Vz in Hz. eapply grows_write; eassumption. }
    destruct (K _ _ _ _ E1 V4 A4) as (g & q & G1 & (G2 & _) & _). exists ((end_marker ver ++ u1) ++ g), q. rewrite G2, app_nil_r.
    split; [|rewrite <- !app_assoc; reflexivity]. unfold enc_wfooter. fold u1. rewrite <- EL. rewrite <- !app_assoc. do 2 f_equal. exact G1. }
  destruct G as (got & rest & G1 & G2). destruct (N.lt_ge_cases (lenN got) (header_size ver)) as [L|L].
  - left. rewrite G2. apply dead_short; [apply R|exact L].
  - right. assert (P : exists r, got = end_marker ver ++ r).
    { apply takeN_prefix. rewrite <- (takeN_app_le _ got rest) by (rewrite end_marker_len; exact L). rewrite <- G1. apply takeN_app_len. }
    destruct P as (g & ->). split; [reflexivity|]. exists g, rest. split; [exact G2|]. rewrite <- app_assoc in G1. apply app_inv_head in G1. symmetry. exact G1.
Qed.
End WithEnv.
