(** C59: iterators over attributes and over the elements of array attributes end, and stay ended. *)
Require Import Coq.Lists.List Coq.NArith.NArith Coq.ZArith.ZArith Coq.Bool.Bool Coq.micromega.Lia.
Require Import Coq.Init.Byte.
Require Import ZifyBool ZifyNat ZifyN.
Require Import Verif.Base Verif.BaseFacts Verif.Utf8 Verif.Types Verif.Io Verif.Parser Verif.MonadFacts Verif.ParserSteps Verif.ParserShape Verif.ParserPos Verif.Loaders Verif.Spec
  Verif.PropsSafety Verif.PropsAttr Verif.Samples.
Import ListNotations.
Open Scope monad_scope.
Ltac Zify.zify_post_hook ::= Z.div_mod_to_equations.

(** ** Specification *)

(** A loader for an array attribute that calls [next] [n] times and returns what it got. *)
Fixpoint pull {A} (n : nat) (got : list (option (perr + A))) : seqprog A (list (option (perr + A))) :=
  match n with
  | O => SRet (inr (rev got))
  | S n' => SNext (fun x => pull n' (x :: got))
  end.

(** The number of elements among the items. *)
Definition values {A} (items : list (option (perr + A))) : N := lenN (filter (fun x => match x with Some (inr _) => true | _ => false end) items).

(** An attribute iterator is used: [lds] are the answers of the iterator of loaders, one for each call of [next]; the results are those of [next]. *)
Fixpoint iter_calls {env : Env} {O} (lds : list (option (loader O))) : M (list (option (perr + O))) :=
  match lds with
  | [] => ret []
  | ld :: t => (let* x := iter_next ld in let* r := iter_calls t in ret (x :: r))
  end.

(** Once [None], always [None]. *)
Definition fused {A} (l : list (option A)) : Prop := forall i j, (i <= j)%nat -> nth_error l i = Some None -> (j < length l)%nat -> nth_error l j = Some None.

Section WithEnv.
Context {env : Env}.

(** ** Array iterators *)
Lemma values_app : forall A (l m : list (option (perr + A))), values (l ++ m) = (values l + values m)%N.
Proof. intros. unfold values. rewrite filter_app, lenN_app. reflexivity. Qed.

(** The items so far, and the elements that remain. *)
Definition pulled {A} (count : N) (items : list (option (perr + A))) (it : iterst) : Prop :=
  (values items + it_rest it = count)%N /\ forall i x, nth_error items i = Some x -> (x = None <-> values (firstn i items) = count).

Lemma pulled_next : forall A (el : elem A) count items it s it' x s', pulled count items it -> it_next el it s = (Ok (it', x), s') -> pulled count (items ++ [x]) it'.
Proof.
  intros A el count items it s it' x s' [V P] H. unfold it_next in H.
  assert (K : (it_rest it = 0%N <-> x = None) /\ (values [x] + it_rest it' = it_rest it)%N).
  { destruct (N.eqb_spec (it_rest it) 0) as [E|E].
    - injection H as <- <- <-. split; [tauto|]. reflexivity.
    - unfold bind in H. destruct (dec_read (it_dec it) (el_size el) s) as [[[d [e|bs]]|e|] s1]; try discriminate; injection H as <- <- <-.
      + split; [split; [tauto|discriminate]|]. reflexivity.
      + split; [split; [tauto|discriminate]|]. cbn [it_rest]. change (values [Some (inr (el_dec el bs))]) with 1%N. lia. }
  destruct K as [K1 K2]. split; [rewrite values_app; lia|]. intros i y Hi.
  destruct (Nat.lt_ge_cases i (length items)) as [L|L].
  - rewrite nth_error_app1 in Hi by exact L. rewrite firstn_app. replace (i - length items)%nat with 0%nat by lia. rewrite app_nil_r. apply P. exact Hi.
  - rewrite nth_error_app2 in Hi by exact L. destruct (i - length items)%nat as [|j] eqn:Ej; [|destruct j; discriminate]. injection Hi as <-.
    rewrite firstn_app, Ej, app_nil_r, firstn_all2 by exact L. rewrite <- K1. lia.
Qed.

Lemma pull_items : forall A (el : elem A) count n got it s it' r s', pulled count (rev got) it -> run_seq el (pull n got) it s = (Ok (it', r), s') ->
  exists items, r = inr items /\ length items = (n + length got)%nat /\ pulled count items it'.
Proof.
  intros A el count n. induction n as [|n IH]; intros got it s it' r s' P H; cbn [pull run_seq] in H.
  - injection H as <- <- <-. exists (rev got). split; [reflexivity|]. split; [apply rev_length|exact P].
  - unfold bind in H. destruct (it_next el it s) as [[[it1 x]|e|] s1] eqn:E; try discriminate.
    destruct (IH (x :: got) it1 s1 it' r s') as (items & -> & L & Q); [cbn [rev]; eapply pulled_next; eassumption|exact H|].
    exists items. split; [reflexivity|]. split; [rewrite L; cbn [length]; lia|exact Q].
Qed.

(** The iterator that a loader gets for an array of [count] elements: it yields [None] exactly
    when [count] elements were yielded, so never an element more, and always [None] after
    that; its size hint is the number of elements to come.  Errors are not counted: see
    [C59_array_endless_refuted]. *)
Theorem C59_array_items_partial : forall A (el : elem A) d count n s it r s',
  run_seq el (pull n []) (mkIter d count false false) s = (Ok (it, r), s') ->
  exists items, r = inr items /\ length items = n /\ (values items <= count)%N /\ it_size_hint it = (0%N, Some (count - values items)%N) /\
    (forall i x, nth_error items i = Some x -> (x = None <-> values (firstn i items) = count)) /\ fused items.
Proof.
  intros A el d count n s it r s' H.
  assert (P0 : pulled count (rev (@nil (option (perr + A)))) (mkIter d count false false)) by (split; [reflexivity|intros i x Hx; destruct i; discriminate]).
  destruct (pull_items _ _ _ _ _ _ _ _ _ _ P0 H) as (items & -> & L & V & P).
  exists items. split; [reflexivity|]. rewrite L. split; [cbn [length]; lia|]. split; [lia|]. split; [unfold it_size_hint; do 2 f_equal; lia|]. split; [exact P|].
  intros i j Hij Hi Hj. destruct (nth_error items j) as [y|] eqn:Ey; [|apply nth_error_None in Ey; lia]. f_equal. apply (P j y Ey).
  pose proof (proj1 (P i None Hi) eq_refl) as Vi.
  assert (X : firstn j items = firstn i items ++ firstn (j - i) (skipn i items)).
  { replace j with (i + (j - i))%nat at 1 by lia. generalize (j - i)%nat as m. clear. revert items. induction i as [|i IH]; intros items m; [reflexivity|].
    destruct items as [|a items]; [destruct m; reflexivity|]. cbn [Nat.add firstn skipn app]. f_equal. apply IH. }
  assert (Y : (values (firstn j items) <= values items)%N).
  { rewrite <- (firstn_skipn j items) at 2. rewrite values_app. lia. }
  rewrite X, values_app in *. lia.
Qed.

(** ** Attribute iterators *)
Lemma load_ended : forall O (ld : loader O) s s', load_next ld s = (Ok None, s') ->
  s' = s /\ p_health s = Running /\ exists a, p_attrs s = Some a /\ a_rest a = 0%N.
Proof.
  intros O ld s s' H. apply load_next_shape in H; [|discriminate]. destruct (p_health s); [|destruct H; discriminate|destruct H; discriminate].
  destruct H as (a & Ea & r0 & s1 & Eb & _ & -> & ->). apply (load_body_counts _ _ _ _ _ _ _ _ a Ea) in Eb. destruct Eb as [E ->]. split; [reflexivity|]. split; [reflexivity|]. eauto.
Qed.

Lemma ended_load : forall O (ld : loader O) s a r s', p_health s = Running -> p_attrs s = Some a -> a_rest a = 0%N -> load_next ld s = (r, s') -> r = Ok None /\ s' = s.
Proof.
  intros O ld s a r s' Hh Ha Hr H. unfold load_next, load_next_gen, do_with_health_check in H. unfold bind at 1 in H. unfold ensure_continuable in H at 1. rewrite Hh in H.
  unfold get_attrs in H. rewrite bind_assoc, bind_gets, Ha, bind_ret in H. unfold bind at 1, try_ in H.
  assert (X : load_body false ld (a_next a) (a_total a - a_rest a) s = (Ok None, s)).
  { assert (Y : read_next_attr_type s = (Ok None, s)) by (unfold read_next_attr_type, get_attrs; rewrite bind_assoc, bind_gets, Ha, bind_ret, Hr; reflexivity).
    unfold load_body, bind. rewrite Y. reflexivity. }
  unfold load_body in X. rewrite X in H. injection H as <- <-. auto.
Qed.

Lemma calls_ended : forall O (lds : list (option (loader O))) s a items s', p_health s = Running -> p_attrs s = Some a -> a_rest a = 0%N ->
  iter_calls lds s = (Ok items, s') -> s' = s /\ items = repeat None (length lds).
Proof.
  intros O lds. induction lds as [|ld t IH]; intros s a items s' Hh Ha Hr H; cbn [iter_calls] in H; [injection H as <- <-; auto|].
  assert (X : iter_next ld s = (Ok None, s)).
  { destruct ld as [l|]; [|reflexivity]. cbn [iter_next]. unfold bind, try_. destruct (load_next l s) as [r s1] eqn:E.
    destruct (ended_load _ _ _ _ _ _ Hh Ha Hr E) as [-> ->]. reflexivity. }
  unfold bind at 1 in H. rewrite X in H. mstep H as r s1 E1; try discriminate. injection H as <- <-. destruct (IH _ _ _ _ Hh Ha Hr E1) as [-> ->]. auto.
Qed.

Lemma calls_none : forall O (lds : list (option (loader O))) s items s', Forall (eq None) lds -> iter_calls lds s = (Ok items, s') -> items = repeat None (length lds).
Proof.
  intros O lds. induction lds as [|ld t IH]; intros s items s' F H; cbn [iter_calls] in H; [injection H as <- <-; reflexivity|].
  inversion F as [|? ? <- F']; subst. unfold bind at 1 in H. cbn [iter_next] in H. cbn [ret] in H. mstep H as r s1 E1; try discriminate. injection H as <- <-. cbn [length repeat]. f_equal. eapply IH; eassumption.
Qed.

Lemma fused_cons : forall A (x : option A) l, (x = None -> Forall (eq None) l) -> fused l -> fused (x :: l).
Proof.
  intros A x l Hx F i j Hij Hi Hj. destruct i as [|i].
  - injection Hi as ->. destruct j as [|j]; [reflexivity|]. cbn [nth_error length] in *. destruct (nth_error l j) as [y|] eqn:E; [|apply nth_error_None in E; lia].
    apply nth_error_In in E. specialize (Hx eq_refl). rewrite Forall_forall in Hx. rewrite <- (Hx _ E). reflexivity.
  - destruct j as [|j]; [lia|]. cbn [nth_error length] in *. apply (F i j); [lia|exact Hi|lia].
Qed.
Lemma fused_tail : forall A (x : option A) l, fused (x :: l) -> (x = None -> Forall (eq None) l) /\ fused l.
Proof.
  intros A x l F. split.
  - intros ->. apply Forall_forall. intros y Hy. apply In_nth_error in Hy. destruct Hy as (j & Hj). specialize (F 0%nat (S j) ltac:(lia) eq_refl).
    cbn [nth_error length] in F. assert (j < length l)%nat by (apply nth_error_Some; congruence). rewrite F in Hj by lia. congruence.
  - intros i j Hij Hi Hj. apply (F (S i) (S j)); [lia|exact Hi|cbn [length]; lia].
Qed.
Lemma none_all : forall A n, Forall (eq (@None A)) (repeat None n).
Proof. intros. apply Forall_forall. intros x H. apply repeat_spec in H. auto. Qed.
Lemma fused_none : forall A n, fused (@repeat (option A) None n).
Proof. intros A n. induction n as [|n IH]; [intros i j _ H; destruct i; discriminate|]. cbn [repeat]. apply fused_cons; [intros _; apply none_all|exact IH]. Qed.

(** An attribute iterator whose iterator of loaders is fused is fused. *)
Theorem C59_attributes_fused_partial : forall O (lds : list (option (loader O))) s items s', fused lds -> iter_calls lds s = (Ok items, s') -> fused items.
Proof.
  intros O lds. induction lds as [|ld t IH]; intros s items s' F H; cbn [iter_calls] in H; [injection H as <- <-; intros i j _ X; destruct i; discriminate|].
  mstep H as x s1 E1; try discriminate. mstep H as r s2 E2; try discriminate. injection H as <- <-. destruct (fused_tail _ _ _ F) as [F1 F2].
  apply fused_cons; [|eapply IH; eassumption]. intros ->. destruct ld as [l|].
  - cbn [iter_next] in E1. unfold bind, try_ in E1. destruct (load_next l s) as [[[v|]|e|] s3] eqn:El; try discriminate. injection E1 as <-.
    destruct (load_ended _ _ _ _ El) as (-> & Hh & a & Ha & Hr). destruct (calls_ended _ _ _ _ _ _ Hh Ha Hr E2) as [_ ->]. apply none_all.
  - specialize (F1 eq_refl). rewrite (calls_none _ _ _ _ _ F1 E2). apply none_all.
Qed.
End WithEnv.

(** ** Concrete cases *)
Module IterCases.

(** An array of three booleans: five calls of [next]. *)
Definition bools : list byte := [x54; x46; x59].
Definition at_bytes (bs : list byte) : pstate := mkP 7400 Running [] None 0 (mkReader (mkStream bs 0 [AChunk 1] []) 0 true) None [] None.
Example C59_array_items_ex : exists it s', run_seq (env := release) el_bool (pull 5 []) (mkIter DDirect 3 false false) (at_bytes bools) =
  (Ok (it, inr [Some (inr false); Some (inr false); Some (inr true); None; None]), s') /\ it_size_hint it = (0%N, Some 0%N).
Proof. do 2 eexists. split; vm_compute; reflexivity. Qed.

(** A loader that calls [next] [n] times and fails with the number of errors it got. *)
Fixpoint tally {A O} (n : nat) (k : N) : seqprog A O :=
  match n with
  | O => SRet (inl (err_from (EIo (IoOther k))))
  | S n' => SNext (fun x => match x with Some (inl _) => tally n' (k + 1)%N | _ => tally n' k end)
  end.
Definition tally_loader (n : nat) : loader aval :=
  mkLoader (ld_bool direct_loader) (ld_i16 direct_loader) (ld_i32 direct_loader) (ld_i64 direct_loader) (ld_f32 direct_loader) (ld_f64 direct_loader)
    (ld_abool direct_loader) (fun _ => tally n 0) (ld_ai64 direct_loader) (ld_af32 direct_loader) (ld_af64 direct_loader)
    (ld_bin direct_loader) (ld_str direct_loader) (ld_bin_buf direct_loader) (ld_str_buf direct_loader).

(** A file that ends within the only element of an array. *)
Definition cut_array : list byte := one_node 1 ([x69] ++ le_enc 4 1 ++ le_enc 4 0 ++ le_enc 4 4 ++ [x07; x00]) [].
Definition s_start : pstate := Eval vm_compute in match run_from release cut_array [] true [@ONext aval] with Some (_, s) => s | None => at_bytes [] end.
Definition after_type : pstate := Eval vm_compute in snd (read_next_attr_type s_start).
Definition after_hdr : pstate := Eval vm_compute in snd (read_array_header after_type).
Definition after_head : pstate := Eval vm_compute in snd ((read_array_header ;; update_next_attr_start_offset 4) after_type).
Definition after_fail : pstate := Eval vm_compute in snd (it_next (env := release) el_i32 (mkIter DDirect 1 false false) after_head).
Lemma tally_more : forall n k, run_seq (env := release) (O := aval) el_i32 (tally n k) (mkIter DDirect 1 true false) after_fail =
  (Ok (mkIter DDirect 1 true false, inl (err_from (EIo (IoOther (k + N.of_nat n))))), after_fail).
Proof.
  intros n. induction n as [|n IH]; intros k; cbn [tally run_seq]; [rewrite N.add_0_r; reflexivity|].
  unfold bind. assert (E : it_next (env := release) el_i32 (mkIter DDirect 1 true false) after_fail = (Ok (mkIter DDirect 1 true false, Some (inl (err_from (EIo IoEof)))), after_fail)) by (vm_compute; reflexivity).
  rewrite E, IH. replace (k + 1 + N.of_nat n)%N with (k + N.of_nat (S n))%N by lia. reflexivity.
Qed.
Lemma tally_all : forall n, exists it s, run_seq (env := release) (O := aval) el_i32 (tally n 0) (mkIter DDirect 1 false false) after_head =
  (Ok (it, inl (err_from (EIo (IoOther (N.of_nat n))))), s) /\ (s = after_head \/ s = after_fail).
Proof.
  intros [|n]; cbn [tally run_seq]; [do 2 eexists; split; [reflexivity|auto]|]. unfold bind.
  assert (E : it_next (env := release) el_i32 (mkIter DDirect 1 false false) after_head = (Ok (mkIter DDirect 1 true false, Some (inl (err_from (EIo IoEof)))), after_fail)) by (vm_compute; reflexivity).
  rewrite E, tally_more. replace (0 + 1 + N.of_nat n)%N with (N.of_nat (S n)) by lia. do 2 eexists. split; [reflexivity|auto].
Qed.

(** The iterator over the elements need not end: at the end of the file, it yields an error
    at every call. *)
Theorem C59_array_endless_refuted : exists p rs, opened cut_array [] [] true None p /\ run_ops (env := release) [@ONext aval] p = (rs, s_start) /\
  forall n, exists e s', load_next (env := release) (tally_loader n) s_start = (Err e, s') /\ e_error e = EIo (IoOther (N.of_nat n)).
Proof.
  do 2 eexists. split; [eexists; split; vm_compute; reflexivity|]. split; [vm_compute; reflexivity|]. intros n. destruct (tally_all n) as (it & s & E & Es).
  assert (L : load_body (env := release) false (tally_loader n) 41 0 s_start = (Err (err_from (EIo (IoOther (N.of_nat n)))), s)).
  { unfold load_body, bind at 1. assert (E1 : read_next_attr_type s_start = (Ok (Some TArrI32), after_type)) by (vm_compute; reflexivity). rewrite E1.
    unfold load_next_impl, load_array. cbn [ld_ai32 tally_loader]. unfold bind at 1 2.
    assert (E2 : read_array_header after_type = (Ok (1%N, EncDirect, 4%N), after_hdr)) by (vm_compute; reflexivity).
    assert (E3 : update_next_attr_start_offset 4 after_hdr = (Ok tt, after_head)) by (vm_compute; reflexivity).
    rewrite E2. unfold bind at 1. rewrite E3. unfold bind at 1. cbn [mk_decoder ret]. unfold bind at 1. rewrite E. reflexivity. }
  unfold load_next, load_next_gen, do_with_health_check. unfold bind at 1. assert (E1 : ensure_continuable s_start = (Ok tt, s_start)) by (vm_compute; reflexivity). rewrite E1.
  unfold bind at 1. assert (E2 : get_attrs s_start = (Ok (mkAttrs 1 1 41), s_start)) by (vm_compute; reflexivity). rewrite E2. cbn [a_next a_total a_rest].
  change (1 - 1)%N with 0%N. unfold bind at 1, try_. unfold load_body in L. rewrite L. unfold attr_position. destruct Es as [-> | ->]; do 2 eexists; (split; [vm_compute; reflexivity|reflexivity]).
Qed.

Lemma aborted_iter : forall {env : Env} O (l : loader O) n s p, p_health s = Aborted p ->
  iter_all (repeat l n) s = (Ok (repeat (inl (mkErr (EOperation AlreadyAborted) (Some p))) n), s).
Proof.
  intros env0 O l n s p H. induction n as [|n IH]; [reflexivity|]. cbn [repeat iter_all]. unfold bind at 1. cbn [iter_next].
  assert (X : load_next l s = (Err (mkErr (EOperation AlreadyAborted) (Some p)), s)) by (unfold load_next, load_next_gen, do_with_health_check, ensure_continuable, bind; rewrite H; reflexivity).
  unfold bind at 1, try_. rewrite X. cbn [ret]. unfold bind at 1. rewrite IH. reflexivity.
Qed.
Definition s_code : pstate := Eval vm_compute in match run_from release (one_node 1 [x00] (zeros 30)) [] true [@ONext aval] with Some (_, s) => s | None => at_bytes [] end.

(** After a failed load an attribute iterator goes on yielding errors for as long as there are
    loaders. *)
Theorem C59_attributes_endless_refuted : exists p rs, opened (one_node 1 [x00] (zeros 30)) [] [] true None p /\ run_ops (env := release) [@ONext aval] p = (rs, s_code) /\
  forall n, exists items s', iter_all (env := release) (repeat direct_loader n) s_code = (Ok items, s') /\ length items = n /\ Forall (fun x => exists e, x = inl e) items.
Proof.
  do 2 eexists. split; [eexists; split; vm_compute; reflexivity|]. split; [vm_compute; reflexivity|]. intros [|n]; [do 2 eexists; split; [reflexivity|]; split; [reflexivity|constructor]|].
  cbn [repeat iter_all]. unfold bind at 1.
  assert (X : exists e s1 q, iter_next (env := release) (Some direct_loader) s_code = (Ok (Some (inl e)), s1) /\ p_health s1 = Aborted q) by (do 3 eexists; split; vm_compute; reflexivity).
  destruct X as (e & s1 & q & X & Hq). rewrite X. unfold bind at 1. rewrite (aborted_iter _ _ n s1 q Hq). cbn [ret]. do 2 eexists. split; [reflexivity|].
  split; [cbn [length]; f_equal; apply repeat_length|]. constructor; [eauto|]. apply Forall_forall. intros x Hx. apply repeat_spec in Hx. eauto.
Qed.

(** The loaders come from an iterator that is not fused: neither is the attribute iterator. *)
Definition two_attrs : list byte := one_node 2 (enc_attrs (env := release) [mkAttr (VI32 7) false; mkAttr (VBool true) false]) (zeros 30).
Definition s_two : pstate := Eval vm_compute in match run_from release two_attrs [] true [@ONext aval] with Some (_, s) => s | None => at_bytes [] end.
Theorem C59_unfused_refuted : exists p rs s', opened two_attrs [] [] true None p /\ run_ops (env := release) [@ONext aval] p = (rs, s_two) /\
  iter_calls (env := release) [Some direct_loader; None; Some direct_loader] s_two = (Ok [Some (inr (VI32 7)); None; Some (inr (VBool true))], s').
Proof. do 3 eexists. split; [eexists; split; vm_compute; reflexivity|]. split; vm_compute; reflexivity. Qed.

(** Two attributes, four loaders. *)
Example C59_fused_ex : exists s', fused [Some direct_loader; Some direct_loader; Some direct_loader; Some direct_loader; None] /\
  iter_calls (env := release) [Some direct_loader; Some direct_loader; Some direct_loader; Some direct_loader; None] s_two =
    (Ok [Some (inr (VI32 7)); Some (inr (VBool true)); None; None; None], s').
Proof.
  eexists. split; [|vm_compute; reflexivity]. intros i j Hij Hi Hj. cbn [length] in Hj. do 5 (destruct i as [|i]; [first [discriminate Hi|replace j with 4%nat by lia; reflexivity]|]). destruct i; discriminate.
Qed.
End IterCases.
