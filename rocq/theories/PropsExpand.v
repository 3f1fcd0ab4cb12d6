(** C85: what a file expands to is bounded by its size.

    Compressed arrays can be larger than the file.  If the zlib decoder hands out at most [K] bytes
    for each byte it reads ([expands_by]; the ratio of DEFLATE is 1032), then everything that a
    reading client or the tree loader is handed takes at most [K] times the size of the file. *)
Require Import Coq.Lists.List Coq.NArith.NArith Coq.ZArith.ZArith Coq.Bool.Bool Coq.micromega.Lia.
Require Import Coq.Init.Byte.
Require Import ZifyBool ZifyNat ZifyN.
Require Import Verif.Base Verif.BaseFacts Verif.Utf8 Verif.Types Verif.Io Verif.IoFacts Verif.Parser Verif.Loaders Verif.MonadFacts Verif.Spec Verif.SpecTruth Verif.ParserShape Verif.ParserSteps Verif.ParserHist
  Verif.ParserPos Verif.LayoutIn Verif.PropsSafety Verif.Tree Verif.TreeSpec Verif.TreeIo Verif.PropsTreeEq Verif.TreeIoSpec Verif.LoadSize Verif.PropsTreeIo Verif.PropsAnyTree Verif.AttrLoad Verif.Zlib Verif.Writer Verif.WriterSpec Verif.WriterTotal Verif.PropsSink Verif.PropsRound Verif.PropsRewrite Verif.PropsAttr Verif.Samples Verif.Deflate.
Import ListNotations.
Open Scope monad_scope.
Local Open Scope nat_scope.

(** ** Specification *)

(** A decoder's program may end with [a] after it has been given [c] bytes, whatever the stream
    answers: bytes, too few bytes, or errors. *)
Inductive ends {A} : zprog A -> N -> A -> Prop :=
| ends_ret : forall a, ends (ZRet a) 0 a
| ends_exact : forall n k bs c a, length bs = n -> ends (k (inr bs)) c a -> ends (ZExact n k) (lenN bs + c) a
| ends_exact_fails : forall n k e c a, ends (k (inl e)) c a -> ends (ZExact n k) c a
| ends_take : forall n k e bs c a, (lenN bs <= n)%N -> ends (k (e, bs)) c a -> ends (ZTake n k) (lenN bs + c) a.

(** A decoder that has been opened and read from any number of times: it has been given [c] bytes,
    has handed out [d] bytes, and is in the state [st]. *)
Inductive decoded (env : Env) : N -> N -> zst -> Prop :=
| decoded_open : forall c st, ends z_open c (inr st) -> decoded env c 0 st
| decoded_read : forall c d st n c' r st', decoded env c d st -> ends (z_read st n) c' (r, st') ->
    decoded env (c + c') (d + match r with inr l => lenN l | inl _ => 0 end)%N st'.

(** The decoder hands out at most [K] bytes for each byte given to it. *)
Definition expands_by (K : N) (env : Env) : Prop := forall c d st, decoded env c d st -> (d <= K * c)%N.

(** The size of a value as it is stored without compression, of an event with its attributes, and of
    a document: type codes, lengths, elements, the smallest node header, and names. *)
Definition value_bytes (v : aval) : N := (core_bytes v + array_bytes v)%N.
Definition item_bytes (x : item) : N := match x with IStart nm ats => 13 + lenN nm + sumN (map value_bytes ats) | IEnd => 0 end%N.
Fixpoint document_bytes (d : dnode) : N :=
  match d with DNode nm ats ks => 13 + lenN nm + sumN (map value_bytes ats) + sumN (map document_bytes ks) end%N.

(** ** How many bytes a computation has taken from the stream *)
Section WithEnv.
Context {env : Env}.

(** [c] counts bytes: what the stream has lost is at least what was added to [c]. *)
Definition bal {A} (P : N -> Prop) (m : M A) (Q : A -> N -> Prop) : Prop :=
  forall s a s' c, P c -> m s = (Ok a, s') -> exists c', Q a c' /\ (c' + lenN (rem s') <= c + lenN (rem s))%N.

Lemma bal_bind : forall A B (P : N -> Prop) (m : M A) (Q : A -> N -> Prop) (k : A -> M B) R, bal P m Q -> (forall a, bal (Q a) (k a) R) -> bal P (bind m k) R.
Proof.
  intros A B P m Q k R H1 H2 s b s' c HP E. mstep E as a s1 E1; try discriminate.
  destruct (H1 _ _ _ _ HP E1) as (c1 & Q1 & L1). destruct (H2 a _ _ _ _ Q1 E) as (c2 & Q2 & L2). exists c2. split; [exact Q2|lia].
Qed.
Lemma bal_ret : forall A (P : N -> Prop) (a : A) (Q : A -> N -> Prop), (forall c, P c -> Q a c) -> bal P (ret a) Q.
Proof. intros A P a Q H s b s' c HP E. injection E as <- <-. exists c. split; [auto|lia]. Qed.
Lemma bal_throw : forall A (P : N -> Prop) e (Q : A -> N -> Prop), bal P (throw e) Q.
Proof. intros A P e Q s b s' c HP E. discriminate. Qed.
Lemma bal_panic : forall A (P : N -> Prop) (Q : A -> N -> Prop), bal P panic Q.
Proof. intros A P Q s b s' c HP E. discriminate. Qed.
Lemma bal_post : forall A (P : N -> Prop) (m : M A) (Q Q' : A -> N -> Prop), bal P m Q -> (forall a c, Q a c -> Q' a c) -> bal P m Q'.
Proof. intros A P m Q Q' H HQ s a s' c HP E. destruct (H _ _ _ _ HP E) as (c' & X & L). exists c'. auto. Qed.
Lemma bal_pre : forall A (P P' : N -> Prop) (m : M A) (Q : A -> N -> Prop), bal P m Q -> (forall c, P' c -> P c) -> bal P' m Q.
Proof. intros A P P' m Q H HP s a s' c X E. apply (H _ _ _ _ (HP _ X) E). Qed.
Lemma bal_quieta : forall A (P : N -> Prop) (m : M A), steps quieta m -> bal P m (fun _ c => P c).
Proof.
  intros A P m H s a s' c HP E. exists c. split; [exact HP|].
  pose proof (steps_elim _ _ _ _ _ _ H E ltac:(discriminate)) as [(_ & _ & _ & _ & _ & _ & _ & F) _]. apply fwd_len in F. lia.
Qed.
Lemma bal_quietl : forall A (P : N -> Prop) (m : M A), steps quietl m -> bal P m (fun _ c => P c).
Proof.
  intros A P m H s a s' c HP E. exists c. split; [exact HP|].
  pose proof (steps_elim _ _ _ _ _ _ H E ltac:(discriminate)) as [(_ & _ & _ & _ & _ & _ & _ & F) _]. apply fwd_len in F. lia.
Qed.

Lemma bal_try_read : forall (P : N -> Prop) n, bal P (try_read n) (fun r c' =>
  match r with inr bs => length bs = n /\ exists c, P c /\ c' = (c + lenN bs)%N | inl _ => P c' end).
Proof.
  intros P n s r s' c HP E. unfold try_read, rdop in E. destruct (rd_exact n (p_rd s)) as [[x|] r'] eqn:X; [|discriminate].
  injection E as -> <-. apply rd_exact_spec in X. unfold rem. cbn [p_rd set_rd]. destruct r as [e|bs].
  - destruct X as (d & _ & (M & _) & _). exists c. split; [exact HP|]. rewrite M, lenN_dropN. lia.
  - destruct X as (X & L & _). exists (c + lenN bs)%N. split; [split; [exact L|eauto]|]. rewrite X, lenN_app. lia.
Qed.
Lemma bal_to_end : forall (P : N -> Prop) n, bal P (rdop (rd_to_end n)) (fun r c' => (lenN (snd r) <= n)%N /\ exists c, P c /\ c' = (c + lenN (snd r))%N).
Proof.
  intros P n s [e bs] s' c HP E. unfold rdop in E. destruct (rd_to_end n (p_rd s)) as [[x|] r'] eqn:X; [|discriminate].
  injection E as -> <-. apply rd_to_end_spec in X. destruct X as (X & L & _). unfold rem. cbn [p_rd set_rd snd].
  exists (c + lenN bs)%N. split; [split; [exact L|eauto]|]. rewrite X, lenN_app. lia.
Qed.
Lemma bal_uint : forall (P : N -> Prop) n, bal P (parse_uint n) (fun _ c' => exists c, P c /\ c' = (c + N.of_nat n)%N).
Proof.
  intros P n. unfold parse_uint, read_exact. eapply bal_bind.
  - eapply bal_bind; [apply bal_try_read|]. intros [e|bs]; [apply bal_throw|]. apply bal_ret with (Q := fun _ c' => exists c, P c /\ c' = (c + N.of_nat n)%N).
    intros c (L & c0 & HP & ->). exists c0. split; [exact HP|]. unfold lenN. lia.
  - intros bs. apply bal_ret. auto.
Qed.

(** A decoder's program on the stream. *)
Lemma bal_z : forall A (p : zprog A) (P : N -> Prop), bal P (run_z p) (fun a c' => exists c u, P c /\ ends p u a /\ c' = (c + u)%N).
Proof.
  intros A p. induction p as [a|n k IH|n k IH]; intros P; cbn [run_z].
  - apply bal_ret. intros c HP. exists c, 0%N. split; [exact HP|]. split; [constructor|lia].
  - eapply bal_bind; [apply bal_try_read|]. intros r. eapply bal_post; [apply IH|]. intros a c' (c & u & X & E & ->). destruct r as [e|bs].
    + exists c, u. split; [exact X|]. split; [apply ends_exact_fails with (e := e); exact E|reflexivity].
    + destruct X as (L & c0 & HP & ->). exists c0, (lenN bs + u)%N. split; [exact HP|]. split; [apply ends_exact; assumption|lia].
  - eapply bal_bind; [apply bal_to_end|]. intros [e bs]. eapply bal_post; [apply IH|]. intros a c' (c & u & (L & c0 & HP & ->) & E & ->). cbn [snd] in *.
    exists c0, (lenN bs + u)%N. split; [exact HP|]. split; [apply ends_take with (e := e); assumption|lia].
Qed.

(** A decoder that was given [c] bytes has handed out [d]. *)
Definition dinv (d : decoder) (c n : N) : Prop :=
  match d with DDirect => (n <= c)%N | DZlib st => decoded env c n st end.
(** [h] bytes were read before the decoder was made. *)
Definition st_inv (h : N) (d : decoder) (n c : N) : Prop := exists c1, c = (h + c1)%N /\ dinv d c1 n.

Lemma bal_open : forall h e, bal (fun c => c = h) (mk_decoder e) (fun d c => st_inv h d 0 c).
Proof.
  intros h [|]; cbn [mk_decoder].
  - apply bal_ret. intros c ->. exists 0%N. split; [lia|]. cbn. lia.
  - eapply bal_bind; [apply bal_z|]. intros [e|st]; [apply bal_throw|]. apply bal_ret. intros c' (c & u & -> & E & ->). exists u. split; [reflexivity|]. apply decoded_open, E.
Qed.
Lemma bal_read : forall h d n k, bal (st_inv h d k) (dec_read d n) (fun x c => match snd x with inr bs => st_inv h (fst x) (k + N.of_nat n) c | inl _ => exists k', (k <= k')%N /\ st_inv h (fst x) k' c end).
Proof.
  intros h d n k. destruct d as [|st]; cbn [dec_read].
  - eapply bal_bind; [apply bal_try_read|]. intros r. apply bal_ret. cbn [fst snd]. destruct r as [e|bs].
    + intros c H. exists k. split; [lia|exact H].
    + intros c' (L & c & (c1 & -> & D) & ->). exists (c1 + lenN bs)%N. split; [lia|]. cbn in *. unfold lenN. lia.
  - eapply bal_bind; [apply bal_z|]. intros [r st']. apply bal_ret. cbn [fst snd]. intros c' (c & u & (c1 & -> & D) & E & ->). cbn [dinv] in D.
    pose proof (decoded_read _ _ _ _ _ _ _ _ D E) as D'. destruct r as [e|bs].
    + exists (k + 0)%N. split; [lia|]. exists (c1 + u)%N. split; [lia|exact D'].
    + destruct (Nat.eqb_spec (length bs) n) as [L|L].
      * exists (c1 + u)%N. split; [lia|]. cbn [dinv]. replace (N.of_nat n) with (lenN bs) by (unfold lenN; lia). exact D'.
      * exists (k + lenN bs)%N. split; [lia|]. exists (c1 + u)%N. split; [lia|exact D'].
Qed.

(** The iterator: [m] elements were handed out. *)
Definition it_inv {A} (el : elem A) (h : N) (it : iterst) (m : N) (c : N) : Prop := exists k, (N.of_nat (el_size el) * m <= k)%N /\ st_inv h (it_dec it) k c.
Lemma bal_next : forall A (el : elem A) h it m, bal (it_inv el h it m) (it_next el it) (fun x c =>
  it_inv el h (fst x) (m + match snd x with Some (inr _) => 1 | _ => 0 end) c).
Proof.
  intros A el h it m. unfold it_next. destruct (it_rest it =? 0)%N.
  { apply bal_ret. cbn [fst snd]. intros c H. rewrite N.add_0_r. exact H. }
  intros s a s' c (k & L & H) E. revert s a s' c H E. change (bal (st_inv h (it_dec it) k) (let* dr := dec_read (it_dec it) (el_size el) in
    let '(d, r) := dr in match r with inl e => ret (mkIter d (it_rest it) true (it_bad it), Some (inl (err_from (EIo e))))
      | inr bs => ret (mkIter d (it_rest it - 1)%N (it_err it) (it_bad it || el_bad el bs), Some (inr (el_dec el bs))) end)
    (fun x c => it_inv el h (fst x) (m + match snd x with Some (inr _) => 1 | _ => 0 end) c)).
  eapply bal_bind; [apply bal_read|]. intros [d r]. destruct r as [e|bs]; apply bal_ret; cbn [fst snd it_dec]; unfold it_inv; cbn [it_dec].
  - intros c (k' & L' & H). exists k'. split; [lia|exact H].
  - intros c H. eexists. split; [|exact H]. lia.
Qed.
Lemma bal_loop : forall S R (f : S -> M (S + R)) (I : S -> N -> Prop) (J : R -> N -> Prop),
  (forall x, bal (I x) (f x) (fun r c => match r with inl y => I y c | inr v => J v c end)) ->
  forall p x, bal (I x) (mloop p f x) (fun r c => match r with inl y => I y c | inr v => J v c end).
Proof.
  intros S R f I J H. induction p as [p IH|p IH|]; intros x; cbn [mloop].
  - eapply bal_bind; [apply H|]. intros [y|v]; [|apply bal_ret; auto]. eapply bal_bind; [apply IH|]. intros [z|v]; [apply IH|apply bal_ret; auto].
  - eapply bal_bind; [apply IH|]. intros [z|v]; [apply IH|apply bal_ret; auto].
  - apply H.
Qed.
Lemma bal_collect : forall A (el : elem A) h it, bal (it_inv el h it 0) (it_collect el it) (fun x c =>
  match snd x with inr l => it_inv el h (fst x) (lenN l) c | inl _ => True end).
Proof.
  intros A el h it. unfold it_collect. eapply bal_bind.
  - eapply bal_pre; [apply bal_loop with (I := fun x c => it_inv el h (fst x) (lenN (snd x)) c)
      (J := fun v c => match snd v with inr l => it_inv el h (fst v) (lenN l) c | inl _ => True end)|intros c H; exact H].
    intros [it1 acc]. cbn [fst snd]. unfold collect_step. eapply bal_bind; [apply bal_next|]. intros [it2 [[e|v]|]]; apply bal_ret; cbn [fst snd]; intros c H; auto.
    + rewrite lenN_cons. rewrite N.add_comm. exact H.
    + rewrite N.add_0_r in H. replace (lenN (rev acc)) with (lenN acc) by (unfold lenN; rewrite rev_length; reflexivity). exact H.
  - intros [x|x]; [apply bal_panic|]. apply bal_ret. auto.
Qed.

(** Loading an array. *)
Lemma bal_array : forall K A (el : elem A) (f : list A -> aval) st ix, expands_by K env -> (1 <= K)%N ->
  (forall l, array_bytes (f l) = (N.of_nat (el_size el) * lenN l)%N) ->
  bal (fun c => c = 1%N) (load_array el (fun _ => collect_as f) st ix) (fun v c => array_bytes v + 13 <= K * c)%N.
Proof.
  intros K A el f st ix HK K1 SZ. unfold load_array.
  apply bal_bind with (Q := fun _ c => c = 13%N).
  { unfold read_array_header. eapply bal_bind; [apply bal_uint|]. intros count. eapply bal_bind; [apply bal_uint|]. intros e.
    destruct (enc_of_u32 e); [|apply bal_throw]. eapply bal_bind; [apply bal_uint|]. intros len. apply bal_ret. intros c H. cbn [lenN] in H. destruct H as (c1 & (c2 & (c3 & E3 & E2) & E1) & E0). lia. }
  intros [[count e] len]. eapply bal_bind; [apply bal_quietl, update_next_quiet|]. intros ?. cbv beta. eapply bal_bind; [apply bal_open|]. intros d.
  apply bal_bind with (Q := fun x c => match snd x with inr v => (array_bytes v + 13 <= K * c)%N | inl _ => True end).
  { unfold collect_as. cbn [run_seq]. eapply bal_bind.
    - eapply bal_pre; [apply bal_collect with (h := 13%N)|]. intros c H. exists 0%N. split; [lia|exact H].
    - intros [it r]. apply bal_ret. cbn [fst snd]. intros c H. destruct r as [e'|l]; [exact I|]. rewrite SZ.
      destruct H as (k & L & c1 & -> & D). assert (X : (k <= K * c1)%N) by (destruct (it_dec it) as [|zs]; cbn [dinv] in D; [nia|apply (HK _ _ _ D)]). nia. }
  intros [it r]. cbn [snd]. apply bal_bind with (Q := fun v c => (array_bytes v + 13 <= K * c)%N).
  { destruct r as [e'|v]; [apply bal_throw|]. apply bal_ret. auto. }
  intros v. eapply bal_bind.
  { apply bal_quieta. destruct (it_bad it); cbn [when]; [apply warn_bool_quiet|]. intros s _. apply quieta_pre. }
  intros ?. cbv beta. destruct (it_err it); [apply bal_throw|apply bal_ret; auto].
Qed.

Lemma bal_impl : forall K b t st ix, expands_by K env -> (1 <= K)%N ->
  bal (fun c => c = 1%N) (load_next_impl b t direct_loader st ix) (fun v c => array_bytes v + 13 <= K * c \/ array_bytes v = 0)%N.
Proof.
  intros K b t st ix HK K1.
  assert (L0 : forall (P : N -> Prop) v0, array_bytes v0 = 0%N -> bal P (lift (inr v0)) (fun v c => array_bytes v + 13 <= K * c \/ array_bytes v = 0)%N) by (intros P v0 Z; apply bal_ret; auto).
  assert (S0 : forall (pr : rdprog aval) (P : N -> Prop), (forall lim s v s', run_rd pr lim s = (Ok (inr v), s') -> array_bytes v = 0%N) ->
    bal P (load_special (fun _ => pr)) (fun v c => array_bytes v + 13 <= K * c \/ array_bytes v = 0)%N).
  { intros pr P Z s v s' c HP E. exists c. pose proof (steps_elim _ _ _ _ _ _ (load_special_quiet _ _) E ltac:(discriminate)) as [(_ & _ & _ & _ & _ & _ & _ & F) _]. apply fwd_len in F.
    split; [|lia]. right. unfold load_special in E. mstep E as len s1 E1; try discriminate. mstep E as u s2 E2; try discriminate. mstep E as r s3 E3; try discriminate.
    destruct r as [e|w]; [discriminate|]. injection E as <- <-. apply (Z _ _ _ _ E3). }
  assert (RB : forall lim s v s', run_rd (Loaders.read_all VBinary) lim s = (Ok (inr v), s') -> array_bytes v = 0%N).
  { intros lim s v s' E. unfold Loaders.read_all in E. cbn [run_rd] in E. mstep E as a s1 E1; try discriminate. mstep E as x s2 E2; try discriminate. mstep E as y s3 E3; try discriminate.
    destruct x as [[e|] bs]; [discriminate|]. injection E as <- <-. reflexivity. }
  assert (RS : forall lim s v s', run_rd (read_all_str VString) lim s = (Ok (inr v), s') -> array_bytes v = 0%N).
  { intros lim s v s' E. unfold read_all_str in E. cbn [run_rd] in E. mstep E as a s1 E1; try discriminate. mstep E as x s2 E2; try discriminate. mstep E as y s3 E3; try discriminate.
    destruct x as [[e|] bs]; [discriminate|]. cbn in E. destruct (utf8_valid bs); [|discriminate]. injection E as <- <-. reflexivity. }
  destruct t; cbn [load_next_impl].
  1-6: (eapply bal_bind; [apply bal_quieta; first [apply parse_u8_quiet|apply parse_uint_quiet|apply parse_sint_quiet]|]; intros x; eapply bal_bind; [apply bal_quietl, update_next_quiet|]; intros ?; cbv beta).
  1: (eapply bal_bind; [apply bal_quieta; destruct (bool_raw_bad x); cbn [when]; [apply warn_bool_quiet|intros s _; apply quieta_pre]|]; intros ?; cbv beta).
  1-6: apply L0; reflexivity.
  1-5: (eapply bal_post; [apply bal_array; [exact HK|exact K1|]|intros v c H; left; exact H]); intros l; cbn [array_bytes el_size el_bool el_i32 el_i64 el_f32 el_f64]; lia.
  all: destruct b; first [apply (S0 (Loaders.read_all VBinary)), RB|apply (S0 (read_all_str VString)), RS].
Qed.
Lemma bal_u8 : forall (P : N -> Prop), bal P parse_u8 (fun _ c' => exists c, P c /\ c' = (c + 1)%N).
Proof.
  intros P. unfold parse_u8, read_exact. eapply bal_bind.
  - eapply bal_bind; [apply bal_try_read|]. intros [e|bs]; [apply bal_throw|]. apply bal_ret with (Q := fun _ c' => exists c, P c /\ c' = (c + 1)%N).
    intros c (L & c0 & HP & ->). exists c0. split; [exact HP|]. unfold lenN. lia.
  - intros bs. apply bal_ret. auto.
Qed.

Section Bounded.
Context (K : N) (HK : expands_by K env) (K1 : (1 <= K)%N).

(** One attribute. *)
Lemma load_expands : forall s v s', run_op (OLoad direct_loader) s = (Ok (BAttr (Some v)), s') ->
  (value_bytes v + K * lenN (rem s') <= K * lenN (rem s))%N.
Proof.
  intros s v s' H. pose proof (load_costs _ _ _ H) as [C _]. cbn [run_op] in H. rewrite bind_gets in H. destruct (p_attrs s) as [a|] eqn:Ha; [|discriminate].
  mstep H as o s1 E1; try discriminate. injection H as -> <-.
  apply load_next_shape in E1; [|discriminate]. destruct (p_health s); [|destruct E1; discriminate|destruct E1; discriminate].
  destruct E1 as (a' & Ha' & r0 & s2 & E & _ & -> & ->). rewrite Ha in Ha'. injection Ha' as <-.
  unfold ParserSteps.load_body, read_next_attr_type, get_attrs in E. rewrite !bind_assoc, bind_gets, Ha, bind_ret in E.
  destruct (N.eqb_spec (a_rest a) 0) as [Z|Z]. { rewrite bind_ret in E. discriminate. }
  rewrite bind_assoc in E. unfold reader_pos in E. rewrite bind_gets, bind_assoc in E.
  mstep E as u s3 E1; try discriminate.
  assert (F1 : (lenN (rem s3) <= lenN (rem s))%N).
  { destruct (_ <? _)%N; cbn [when] in E1; [|injection E1 as _ <-; lia]. apply m_skip_to_quieta in E1; [|discriminate]. apply fwd_len, E1. }
  unfold read_attr_type in E. rewrite !bind_assoc in E. mstep E as x s4 E2; try discriminate.
  destruct (type_of_code x) as [t|] eqn:T; [|rewrite bind_throw in E; discriminate].
  rewrite bind_ret, bind_assoc, bind_modify, bind_ret in E.
  mstep E as w s5 E3; try discriminate. injection E as -> <-.
  destruct (bal_u8 (fun c => c = 0%N) _ _ _ _ eq_refl E2) as (c1 & (c0 & -> & ->) & B1).
  destruct (bal_impl K _ _ _ _ HK K1 _ _ _ _ eq_refl E3) as (c2 & X & B2).
  match type of B2 with context [rem (set_attrs ?a ?s)] => change (rem (set_attrs a s)) with (rem s) in B2 end.
  unfold value_bytes. assert (Q : (core_bytes v <= 13 \/ array_bytes v = 0)%N) by (destruct v; cbn; lia).
  destruct X as [X|X]; [|rewrite X; nia]. destruct Q as [Q|Q]; [|rewrite Q; nia]. nia.
Qed.

Lemma loads_expand : forall s vs r s', loads s vs r s' -> r = Ok tt -> (sumN (map value_bytes vs) + K * lenN (rem s') <= K * lenN (rem s))%N.
Proof.
  induction 1 as [s s' H|s v s1 vs r s' H H0 IH|s e s' H|s s' H]; intros E; try discriminate.
  - apply op_mono in H; [|discriminate]. cbn. nia.
  - apply load_expands in H. specialize (IH E). cbn [map sumN fold_right] in *. fold (sumN (map value_bytes vs)) in *. lia.
Qed.
Lemma reads_expand : forall s l o s', reads s l o s' -> (sumN (map item_bytes l) <= K * lenN (rem s))%N.
Proof.
  induction 1 as [s f s' H|s nm s1 ats s2 l o s' H L R IH|s s1 l o s' H R IH|s e s' H|s s' H|s nm s1 ats e s' H L|s nm s1 ats s' H L]; try (cbn; lia).
  - apply start_costs in H. apply loads_expand in L; [|reflexivity]. destruct H as [H _].
    cbn [map sumN fold_right item_bytes]. fold (sumN (map item_bytes l)). nia.
  - apply op_mono in H; [|discriminate]. cbn [map sumN fold_right item_bytes]. fold (sumN (map item_bytes l)). nia.
Qed.

(** A value is at most [K] times as large as what was read from the file to load it. *)
Theorem C85_value : forall s v s', run_op (OLoad direct_loader) s = (Ok (BAttr (Some v)), s') ->
  (value_bytes v <= K * (lenN (rem_of s) - lenN (rem_of s')))%N.
Proof.
  intros s v s' H. apply load_expands in H. unfold rem_of. unfold rem in H. rewrite N.mul_sub_distr_l. lia.
Qed.

(** All that a client is handed that reads events and attributes until the end or an error, over
    any reader and any handler of warnings. *)
Theorem C85_events : forall data sched seeks seekable h p items o s, opened data sched seeks seekable h p -> reads p items o s ->
  (sumN (map item_bytes items) <= K * lenN data)%N.
Proof.
  intros data sched seeks seekable h p items o s O R. apply reads_expand in R.
  destruct (opened_init _ _ _ _ _ _ O) as (_ & _ & _ & _ & _ & _ & _ & _ & _ & _ & RM & _ & LD). unfold LayoutIn.rem in R. rewrite RM, lenN_dropN in R. nia.
Qed.

Lemma forest_sum : forall ds, sumN (map item_bytes (forest_items ds)) = sumN (map document_bytes ds).
Proof.
  assert (AP : forall a b, sumN (a ++ b) = (sumN a + sumN b)%N) by (induction a as [|x a IH]; intros b; [reflexivity|]; cbn [app sumN fold_right] in *; fold (sumN (a ++ b)); fold (sumN a); rewrite IH; lia).
  assert (N1 : forall d, sumN (map item_bytes (dnode_items d)) = document_bytes d).
  { induction d as [nm ats ks IH] using dnode_ind'. cbn [dnode_items document_bytes map]. rewrite map_app. cbn [sumN fold_right]. fold (sumN (map item_bytes (flat_map dnode_items ks) ++ map item_bytes [IEnd])).
    rewrite AP. change (sumN (map item_bytes [IEnd])) with 0%N. cbn [item_bytes].
    assert (E : sumN (map item_bytes (flat_map dnode_items ks)) = sumN (map document_bytes ks)); [|rewrite E; lia].
    induction IH as [|k ks Hk _ IHk]; [reflexivity|]. cbn [flat_map map]. rewrite map_app, AP, Hk, IHk. reflexivity. }
  unfold forest_items. induction ds as [|d ds IH]; [reflexivity|]. cbn [flat_map map]. rewrite map_app, AP, N1, IH. reflexivity.
Qed.

(** A tree loaded from any bytes by any reader. *)
Theorem C85_tree : forall data sched seeks seekable v t f ds, any_tree (mkStream data 0 sched seeks) seekable = Ok (v, t, f) ->
  doc_at t (tr_root t) (DNode [] [] ds) -> (sumN (map document_bytes ds) <= K * lenN data)%N.
Proof.
  intros data sched seeks seekable v t f ds H D0. destruct (any_tree_open _ _ _ _ _ _ _ H) as (p & items & s & E & _ & L & R).
  pose proof (open_as_opened _ _ _ _ _ _ E) as Ho.
  destruct (C33_reads_load _ _ _ _ _ _ Ho _ _ _ R) as (r & L' & M). rewrite L' in L. cbn [fst] in L. subst r.
  cbn [load_matches] in M. destruct M as (t' & ds' & [= <-] & I & G & D).
  pose proof (C38_document_unique _ _ _ _ D0 D) as X. injection X as <-. rewrite <- forest_sum, <- I. apply (C85_events _ _ _ _ _ _ _ _ _ Ho R).
Qed.

Lemma arrays_sum : forall ds, (sumN (map array_bytes (flat_map doc_values ds)) <= sumN (map document_bytes ds))%N /\
  Forall (fun a => array_bytes a <= sumN (map document_bytes ds))%N (flat_map doc_values ds).
Proof.
  assert (V : forall ats, (sumN (map array_bytes ats) <= sumN (map value_bytes ats))%N /\ Forall (fun a => array_bytes a <= sumN (map value_bytes ats))%N ats).
  { induction ats as [|v ats [IH1 IH2]]; [split; [cbn; lia|constructor]|]. cbn [map]. rewrite !sumN_cons. unfold value_bytes at 1 3. split; [lia|].
    constructor; [lia|]. eapply Forall_impl; [|exact IH2]. intros a H. cbv beta in H. lia. }
  assert (L : forall ks, Forall (fun d => sumN (map array_bytes (doc_values d)) <= document_bytes d /\ Forall (fun a => array_bytes a <= document_bytes d) (doc_values d))%N ks ->
    (sumN (map array_bytes (flat_map doc_values ks)) <= sumN (map document_bytes ks))%N /\ Forall (fun a => array_bytes a <= sumN (map document_bytes ks))%N (flat_map doc_values ks)).
  { induction 1 as [|k ks [A B] _ [IH1 IH2]]; [split; [cbn; lia|constructor]|]. cbn [map flat_map]. rewrite map_app, sumN_app, sumN_cons. split; [lia|].
    apply Forall_app. split; (eapply Forall_impl; [|eassumption]); intros a H; cbv beta in H; lia. }
  intros ds. apply L. induction ds as [|d ds IHd]; constructor; [|exact IHd]. clear ds IHd.
  induction d as [nm ats ks IH] using dnode_ind'. apply L in IH. destruct IH as [A B], (V ats) as [C D]. cbn [doc_values document_bytes]. rewrite map_app, sumN_app. split; [lia|].
  apply Forall_app. split; (eapply Forall_impl; [|eassumption]); intros a H; cbv beta in H; lia.
Qed.

(** So a file that is small enough can always be loaded and written again, whatever is compressed
    in it: no hypothesis on the contents is needed. *)
Theorem C85_rewritten : forall data sched seeks seekable v t f0 ds k ver f fl,
  any_tree (mkStream data 0 sched seeks) seekable = Ok (v, t, f0) ->
  doc_at t (tr_root t) (DNode [] [] ds) ->
  (7000 <= ver <= 7999)%N ->
  ((K + 2) * lenN data < 2 ^ 32)%N ->
  wgood k -> (fl = true -> k_flush k = None) -> (lenN (k_data k) < pow2_63)%N -> wfooter_typed f ->
  exists s0 s1 k' s2, new_writer k ver = Ok s0 /\ write_tree t s0 = (Ok tt, s1) /\ finalize fl f s1 = (Ok k', s2) /\
    (lenN (k_data k') < pow2_64)%N.
Proof.
  intros data sched seeks seekable v t f0 ds k ver f fl H D V S. pose proof (C85_tree _ _ _ _ _ _ _ _ H D) as T. destruct (arrays_sum ds) as [A B].
  change (2 ^ 32)%N with 4294967296%N in S. apply (C72_can_be_rewritten _ _ _ _ _ _ _ _ k ver f fl H D V); unfold arrays_bytes.
  - eapply Forall_impl; [|exact B]. intros a X. cbv beta in X. change (2 ^ 32)%N with 4294967296%N. lia.
  - intros _. change (2 ^ 32)%N with 4294967296%N. lia.
  - change (2 ^ 62)%N with 4611686018427387904%N. lia.
Qed.
End Bounded.
End WithEnv.

(** ** Decoders that keep such a bound *)

(** DEFLATE: a match of at most 258 bytes takes two bits or more. *)
Inductive bused {A} : bp A -> N -> A -> Prop :=
| bused_ret : forall a, bused (BRet a) 0 a
| bused_bit : forall k b u a, bused (k b) u a -> bused (BBit k) (1 + u) a
| bused_align : forall k u a, bused k u a -> bused (BAlign k) u a.

Lemma bused_bind : forall A B (p : bp A) (f : A -> bp B) u b, bused (bbind p f) u b ->
  exists u1 u2 a, u = (u1 + u2)%N /\ bused p u1 a /\ bused (f a) u2 b.
Proof.
  intros A B. induction p as [a| |k IH|p IH]; intros f u b H; cbn [bbind] in H.
  - exists 0%N, u, a. split; [lia|]. split; [constructor|exact H].
  - inversion H.
  - inversion H as [|k' x u' b' H1|]; subst. destruct (IH _ _ _ _ H1) as (u1 & u2 & a & -> & X & Y). exists (1 + u1)%N, u2, a. split; [lia|]. split; [econstructor; exact X|exact Y].
  - inversion H as [| |k' u' b' H1]; subst. destruct (IH _ _ _ H1) as (u1 & u2 & a & -> & X & Y). exists u1, u2, a. split; [reflexivity|]. split; [constructor; exact X|exact Y].
Qed.
Lemma bused_ret_inv : forall A (a b : A) u, bused (BRet a) u b -> u = 0%N /\ b = a.
Proof. intros A a b u H. inversion H; subst. auto. Qed.
Lemma bits_used : forall n u x, bused (bits n) u x -> u = N.of_nat n /\ (x < 2 ^ N.of_nat n)%N.
Proof.
  induction n as [|n IH]; intros u x H; cbn [bits] in H.
  - apply bused_ret_inv in H. destruct H as [-> ->]. cbn. lia.
  - inversion H as [|k b u' x' H1|]; subst. apply bused_bind in H1. destruct H1 as (u1 & u2 & r & -> & X & Y). apply IH in X. destruct X as [-> X].
    apply bused_ret_inv in Y. destruct Y as [-> ->]. rewrite Nnat.Nat2N.inj_succ, N.pow_succ_r'. split; [lia|]. set (w := (2 ^ N.of_nat n)%N) in *. clearbody w. destruct b, r; cbv iota; lia.
Qed.
Lemma sym_used : forall counts syms code first u s, bused (hsym counts syms code first) u s -> (1 <= u)%N.
Proof. intros [|cnt rest] syms code first u s H; cbn [hsym] in H; [inversion H|]. inversion H; subst. lia. Qed.
Lemma copy_len : forall n d hist l, copy n d hist = Some l -> length l = n.
Proof.
  induction n as [|n IH]; intros d hist l H; cbn [copy] in H; [injection H as <-; reflexivity|].
  destruct (nth_error hist d) as [b|]; [|discriminate]. destruct (copy n d (b :: hist)) as [l'|] eqn:E; [|discriminate]. injection H as <-. cbn [length]. f_equal. apply (IH _ _ _ E).
Qed.
Lemma match_len : forall i base extra x, nth_error len_base i = Some base -> nth_error len_extra i = Some extra -> (x < 2 ^ N.of_nat extra)%N -> base + N.to_nat x <= 258.
Proof.
  intros i base extra x. unfold len_base, len_extra. do 29 (destruct i as [|i]; [cbn [nth_error]; intros [= <-] [= <-] H; cbn in H; lia|]). destruct i; discriminate.
Qed.

(** The bytes that a step adds to the output. *)
Lemma step_used : forall m hist u m' new, bused (dstep m hist) u (m', new) -> (lenN new <= 129 * u)%N.
Proof.
  intros m hist u m' new H. destruct m as [|[|n] last|lit dist last|]; cbn [dstep] in H.
  - apply bused_bind in H. destruct H as (u1 & u2 & a & -> & _ & H). apply bused_ret_inv in H. destruct H as [_ [= _ ->]]. unfold lenN. cbn. lia.
  - apply bused_ret_inv in H. destruct H as [_ [= _ ->]]. unfold lenN. cbn. lia.
  - apply bused_bind in H. destruct H as (u1 & u2 & a & -> & X & H). apply bits_used in X. apply bused_ret_inv in H. destruct H as [_ [= _ ->]]. unfold lenN. cbn [length]. lia.
  - apply bused_bind in H. destruct H as (u1 & u2 & s & -> & X & H). apply sym_used in X. destruct (s <? 256)%N.
    { apply bused_ret_inv in H. destruct H as [_ [= _ ->]]. unfold lenN. cbn [length]. lia. }
    destruct (s =? 256)%N. { apply bused_ret_inv in H. destruct H as [_ [= _ ->]]. unfold lenN. cbn [length]. lia. }
    destruct (nth_error len_base _) as [base|] eqn:E1; [|inversion H]. destruct (nth_error len_extra _) as [extra|] eqn:E2; [|inversion H].
    apply bused_bind in H. destruct H as (u3 & u4 & x & -> & X1 & H). apply bits_used in X1. destruct X1 as [-> X1]. pose proof (match_len _ _ _ _ E1 E2 X1) as L.
    apply bused_bind in H. destruct H as (u5 & u6 & ds & -> & X2 & H). apply sym_used in X2.
    destruct (nth_error dist_base _) as [dbase|]; [|inversion H]. destruct (nth_error dist_extra _) as [dextra|]; [|inversion H].
    apply bused_bind in H. destruct H as (u7 & u8 & y & -> & _ & H).
    destruct (copy _ _ _) as [l|] eqn:C; [|inversion H]. apply copy_len in C. apply bused_ret_inv in H. destruct H as [_ [= _ ->]]. unfold lenN. rewrite C. lia.
  - inversion H.
Qed.

Lemma ends_bind : forall A B (p : zprog A) (f : A -> zprog B) c b, ends (zbind p f) c b ->
  exists c1 c2 a, c = (c1 + c2)%N /\ ends p c1 a /\ ends (f a) c2 b.
Proof.
  intros A B. induction p as [a|n k IH|n k IH]; intros f c b H; cbn [zbind] in H.
  - exists 0%N, c, a. split; [lia|]. split; [constructor|exact H].
  - inversion H as [|n' k' bs c' b' L H1|n' k' e c' b' H1|]; subst.
    + destruct (IH _ _ _ _ H1) as (c1 & c2 & a & -> & X & Y). exists (lenN bs + c1)%N, c2, a. split; [lia|]. split; [constructor; auto|exact Y].
    + destruct (IH _ _ _ _ H1) as (c1 & c2 & a & -> & X & Y). exists c1, c2, a. split; [lia|]. split; [econstructor; exact X|exact Y].
  - inversion H as [| | |n' k' e bs c' b' L H1]; subst.
    destruct (IH _ _ _ _ H1) as (c1 & c2 & a & -> & X & Y). exists (lenN bs + c1)%N, c2, a. split; [lia|]. split; [econstructor; [exact L|exact X]|exact Y].
Qed.
Lemma ends_ret_inv : forall A (a b : A) c, ends (ZRet a) c b -> c = 0%N /\ b = a.
Proof. intros A a b c H. inversion H; subst. auto. Qed.

Lemma bits_ends : forall A (p : bp A) pend c r pend', ends (zbits p pend) c (r, pend') ->
  match r with
  | inr a => exists u, bused p u a /\ (u + lenN pend' <= lenN pend + 8 * c)%N
  | inl _ => (lenN pend' <= lenN pend + 8 * c)%N
  end.
Proof.
  intros A. induction p as [a| |k IH|p IH]; intros pend c r pend' H; cbn [zbits] in H.
  - apply ends_ret_inv in H. destruct H as [-> [= -> ->]]. exists 0%N. split; [constructor|lia].
  - apply ends_ret_inv in H. destruct H as [-> [= -> ->]]. lia.
  - destruct pend as [|b pend].
    + inversion H as [|n' k' bs c' b' L H1|n' k' e c' b' H1|]; subst.
      * destruct bs as [|x [|]]; try discriminate L. destruct (to_bits x) as (b0 & b1 & b2 & b3 & b4 & b5 & b6 & b7).
        apply IH in H1. change (lenN [b1; b2; b3; b4; b5; b6; b7]) with 7%N in H1. change (lenN [x]) with 1%N. change (lenN []) with 0%N. destruct r as [e|a].
        { lia. }
        destruct H1 as (u & U & L1). exists (1 + u)%N. split; [econstructor; exact U|lia].
      * apply ends_ret_inv in H1. destruct H1 as [-> [= -> ->]]. lia.
    + apply IH in H. rewrite lenN_cons. destruct r as [e|a]; [lia|]. destruct H as (u & U & L1). exists (1 + u)%N. split; [econstructor; exact U|lia].
  - apply IH in H. change (lenN []) with 0%N in H. destruct r as [e|a]; [lia|]. destruct H as (u & U & L1). exists u. split; [constructor; exact U|lia].
Qed.

Definition stock (x : dz) : N := (lenN (dz_out x) + 129 * lenN (dz_pend x))%N.
Definition handed (r : ioerr + list byte) : N := match r with inr l => lenN l | inl _ => 0%N end.
Lemma df_step_stock : forall n x c y, ends (df_step n x) c y ->
  match y with inl x' => stock x' <= stock x + 1032 * c | inr (r, x') => stock x' + handed r <= stock x + 1032 * c end%N.
Proof.
  intros n x c y H. unfold df_step in H. destruct (Nat.leb_spec n (length (dz_out x))) as [L|L].
  - apply ends_ret_inv in H. destruct H as [-> ->]. unfold stock, handed, lenN. cbn [dz_out dz_pend]. rewrite skipn_length, firstn_length. lia.
  - apply ends_bind in H. destruct H as (c1 & c2 & [r pend] & -> & X & H). apply bits_ends in X. destruct r as [e|[m new]].
    + apply ends_ret_inv in H. destruct H as [-> ->]. unfold stock, handed. cbn [dz_out dz_pend]. lia.
    + apply ends_ret_inv in H. destruct H as [-> ->]. destruct X as (u & U & L1). apply step_used in U. unfold stock. cbn [dz_out dz_pend]. rewrite lenN_app. lia.
Qed.
Lemma loop_stock : forall n p x c y, ends (zloop p (df_step n) x) c y ->
  match y with inl x' => stock x' <= stock x + 1032 * c | inr (r, x') => stock x' + handed r <= stock x + 1032 * c end%N.
Proof.
  intros n. induction p as [p IH|p IH|]; intros x c y H; cbn [zloop] in H.
  - apply ends_bind in H. destruct H as (c1 & c2 & [x1|v] & -> & X & H); apply df_step_stock in X.
    + apply ends_bind in H. destruct H as (c3 & c4 & [x2|v] & -> & X2 & H); apply IH in X2.
      * apply IH in H. destruct y as [x3|[r x3]]; lia.
      * apply ends_ret_inv in H. destruct H as [-> ->]. destruct v as [r x3]. lia.
    + apply ends_ret_inv in H. destruct H as [-> ->]. destruct v as [r x3]. lia.
  - apply ends_bind in H. destruct H as (c3 & c4 & [x2|v] & -> & X2 & H); apply IH in X2.
    + apply IH in H. destruct y as [x3|[r x3]]; lia.
    + apply ends_ret_inv in H. destruct H as [-> ->]. destruct v as [r x3]. lia.
  - apply (df_step_stock n), H.
Qed.
Lemma read_stock : forall x n c r x', ends (df_read x n) c (r, x') -> (stock x' + handed r <= stock x + 1032 * c)%N.
Proof.
  intros x n c r x' H. unfold df_read in H. apply ends_bind in H. destruct H as (c1 & c2 & [x1|v] & -> & X & H); apply loop_stock in X.
  - apply ends_ret_inv in H. destruct H as [-> [= -> ->]]. cbn [handed]. lia.
  - apply ends_ret_inv in H. destruct H as [-> <-]. lia.
Qed.

(** The decoder for the published format hands out at most 1032 bytes for each byte. *)
Theorem C85_deflate : forall ovf, expands_by 1032 (deflate_env ovf).
Proof.
  assert (G : forall ovf c d st, decoded (deflate_env ovf) c d st -> (d + stock st <= 1032 * c)%N).
  { induction 1 as [c st H|c d st n c' r st' H IH E].
    - change (z_open (Env := deflate_env ovf)) with df_open in H. unfold df_open in H. inversion H as [|n' k' bs c' b' L H1|n' k' e c' b' H1|]; subst.
      + apply ends_ret_inv in H1. destruct H1 as [-> H1]. destruct bs as [|a [|b [|]]]; try discriminate L. destruct (_ && _); [|discriminate]. injection H1 as ->. cbn. lia.
      + apply ends_ret_inv in H1. destruct H1 as [_ H1]. discriminate.
    - apply read_stock in E. change (match r with inr l => lenN l | inl _ => 0%N end) with (handed r). lia. }
  intros ovf c d st H. apply G in H. lia.
Qed.

(** The stored codec hands out no more than it is given. *)
Theorem C85_stored : forall ovf, expands_by 1 (stored_env ovf).
Proof.
  assert (D : forall n c r b, ends (st_data n) c (r, b) -> (handed r <= c)%N).
  { intros n c r b H. unfold st_data in H. inversion H as [| | |n' k' e bs c' b' L H1]; subst. apply ends_ret_inv in H1. destruct H1 as [-> [= -> _]].
    destruct e as [e|]; [cbn; lia|]. destruct (Nat.eqb _ _); cbn [handed]; lia. }
  intros ovf c d st H. induction H as [c st H|c d st n c' r st' H IH E]; [lia|].
  change (match r with inr l => lenN l | inl _ => 0%N end) with (handed r). assert (X : (handed r <= c')%N); [|lia].
  change (z_read (Env := stored_env ovf) st n) with (st_read st n) in E. unfold st_read in E. destruct st; [apply (D _ _ _ _ E)|].
  inversion E as [|n' k' bs c2 b' L H1|n' k' e c2 b' H1|]; subst.
  - apply D in H1. lia.
  - apply ends_ret_inv in H1. destruct H1 as [-> [= -> _]]. cbn. lia.
Qed.

(** ** Concrete cases *)
Module ExpandCases.
(** 3000 booleans, compressed by the reference implementation to 27 bytes. *)
Definition packed : list byte := map Nb [120; 218; 237; 193; 49; 1; 0; 0; 0; 194; 160; 156; 235; 95; 196; 26; 30; 64; 1; 0; 0; 239; 6; 160; 146; 19; 53]%N.
Definition bomb : list byte := one_node 1 ([x62] ++ le_enc 4 3000 ++ le_enc 4 1 ++ le_enc 4 27 ++ packed) (zeros 13 ++ enc_wfooter 7400 94 default_footer).
Definition inflate : Env := deflate_env false.

(** The file is loaded as a document of 3027 bytes: more than the file has, less than 1032 times as
    many. *)
Example bomb_ex :
  match any_tree (env := inflate) (mkStream bomb 0 [AChunk 7; AIntr; AChunk 1000] []) true with
  | Ok (v, t, inr _) =>
      map (name t) (children t (tr_root t)) = [Some s_a] /\
      map (attributes t) (children t (tr_root t)) = [Some [VArrBool (repeat true 3000)]] /\
      map (fun i => children t i) (children t (tr_root t)) = [[]] /\
      (name t (tr_root t), attributes t (tr_root t)) = (Some [], Some [])
  | _ => False
  end /\ document_bytes (DNode s_a [VArrBool (repeat true 3000)] []) = 3027%N /\ lenN bomb = 256%N.
Proof. vm_compute. repeat split. Qed.

(** It can be written again without compression. *)
Example small_enough : ((1032 + 2) * lenN bomb < 2 ^ 32)%N /\ expands_by 1032 inflate.
Proof. split; [vm_compute; reflexivity|apply C85_deflate]. Qed.

(** A run of the decoder: 27 bytes or less give 3000. *)
Lemma zrun_ends : forall A (p : zprog A) c a c', zrun p c = (a, c') -> exists u, ends p u a /\ (u + lenN c' <= lenN c)%N.
Proof.
  intros A. induction p as [a|n k IH|n k IH]; intros c b c' H; cbn [zrun] in H.
  - injection H as <- <-. exists 0%N. split; [constructor|lia].
  - destruct (Nat.leb_spec n (length c)) as [L|L]; apply IH in H; destruct H as (u & U & B).
    + exists (lenN (firstn n c) + u)%N. split; [apply ends_exact; [apply firstn_length_le, L|exact U]|]. unfold lenN in *. rewrite skipn_length in B. rewrite firstn_length. lia.
    + exists u. split; [apply ends_exact_fails with (e := IoEof); exact U|]. change (lenN []) with 0%N in B. lia.
  - apply IH in H. destruct H as (u & U & B). exists (lenN (takeN n c) + u)%N. split; [apply ends_take with (e := None); [rewrite lenN_takeN; lia|exact U]|].
    rewrite lenN_dropN in B. rewrite lenN_takeN. lia.
Qed.
Example decoded_ex : exists c st, decoded inflate c 3000 st /\ (0 < c <= 27)%N.
Proof.
  assert (E : match zrun (z_open (Env := inflate)) packed with
              | (inr st, c') => match zrun (z_read (Env := inflate) st 3000) c' with ((inr l, _), _) => Some (lenN l) | _ => None end
              | _ => None end = Some 3000%N) by (vm_compute; reflexivity).
  destruct (zrun z_open packed) as [[e|st] c1] eqn:E1; [discriminate|]. destruct (zrun (z_read st 3000) c1) as [[[e|l] st2] c2] eqn:E2; [discriminate|]. injection E as E.
  apply zrun_ends in E1. destruct E1 as (u1 & U1 & B1). apply zrun_ends in E2. destruct E2 as (u2 & U2 & B2). change (lenN packed) with 27%N in B1.
  pose proof (decoded_read inflate _ _ _ _ _ _ _ (decoded_open inflate _ _ U1) U2) as D. cbv beta iota in D. rewrite E in D. exists (u1 + u2)%N, st2. split; [exact D|].
  apply (C85_deflate false) in D. lia.
Qed.
End ExpandCases.

Print Assumptions C85_value.
Print Assumptions C85_events.
Print Assumptions C85_tree.
Print Assumptions C85_rewritten.
Print Assumptions C85_deflate.
Print Assumptions C85_stored.
