(** What a reading client is handed is typed: names are UTF-8, numbers are in range (for C68). *)
Require Import Coq.Lists.List Coq.NArith.NArith Coq.ZArith.ZArith Coq.Bool.Bool Coq.micromega.Lia.
Require Import Verif.Base Verif.BaseFacts Verif.Utf8 Verif.Types Verif.Io Verif.IoFacts Verif.Parser Verif.Loaders Verif.Spec Verif.StoredFacts Verif.ReadFacts Verif.ParserShape Verif.Tree Verif.TreeSpec Verif.PropsTreeEq Verif.TreeIoSpec.
Import ListNotations.
Local Open Scope nat_scope.

Section WithEnv.
Context {env : Env}.

(** Whatever a successful run returns satisfies [Q] (with the state it leaves). *)
Definition posts {A} (m : M A) (Q : A -> pstate -> Prop) : Prop := forall s a s', m s = (Ok a, s') -> Q a s'.

Lemma posts_ret : forall A (a : A) (Q : A -> pstate -> Prop), (forall s, Q a s) -> posts (ret a) Q.
Proof. intros A a Q H s b s' [= <- <-]. apply H. Qed.
Lemma posts_bind : forall A B (m : M A) (k : A -> M B) (P : A -> pstate -> Prop) (Q : B -> pstate -> Prop), posts m P -> (forall a, (exists s, P a s) -> posts (k a) Q) -> posts (bind m k) Q.
Proof.
  intros A B m k P Q Hm Hk s b s' H. unfold bind in H. destruct (m s) as [[a|e|] s1] eqn:E; try discriminate.
  apply (Hk a (ex_intro _ s1 (Hm _ _ _ E)) _ _ _ H).
Qed.
Lemma posts_any : forall A (m : M A), posts m (fun _ _ => True).
Proof. intros A m s a s' _. exact I. Qed.
Lemma posts_then : forall A B (m : M A) (k : A -> M B) (Q : B -> pstate -> Prop), (forall a, posts (k a) Q) -> posts (bind m k) Q.
Proof. intros A B m k Q H. eapply posts_bind; [apply posts_any|]. intros a _. apply H. Qed.
Lemma posts_throw : forall A e Q, posts (@throw A e) Q.
Proof. intros A e Q s a s' [=]. Qed.
Lemma posts_panic : forall A Q, posts (@panic A) Q.
Proof. intros A Q s a s' [=]. Qed.
Lemma posts_weak : forall A (m : M A) (P Q : A -> pstate -> Prop), posts m P -> (forall a s, P a s -> Q a s) -> posts m Q.
Proof. intros A m P Q H W s a s' E. apply W. eapply H. exact E. Qed.
Lemma posts_try : forall A (m : M A) (Q : A -> pstate -> Prop), posts m Q -> posts (try_ m) (fun r s => match r with inr a => Q a s | inl _ => True end).
Proof.
  intros A m Q H s r s' E. unfold try_ in E. destruct (m s) as [[a|e|] s1] eqn:F; try discriminate; injection E as <- <-; [eapply H; exact F|exact I].
Qed.
Lemma posts_lift : forall A (r : perr + A) (Q : A -> pstate -> Prop), (forall a, r = inr a -> forall s, Q a s) -> posts (lift r) Q.
Proof. intros A [e|a] Q H; [apply posts_throw|]. apply posts_ret. auto. Qed.

(** ** Numbers *)
Lemma posts_read : forall n, posts (read_exact n) (fun l _ => length l = n).
Proof. intros n s a s' E. apply read_exact_bytes in E. apply E. Qed.
Lemma posts_try_read : forall n, posts (try_read n) (fun r _ => match r with inr l => length l = n | inl _ => True end).
Proof.
  intros n s r s' E. destruct r as [e|l]; [exact I|]. apply (posts_read n s l s'). unfold read_exact, bind. rewrite E. reflexivity.
Qed.
Lemma u_ok_dec : forall k l, length l = k -> u_ok k (le_dec l).
Proof. intros k l L. pose proof (le_dec_bound l) as B. unfold u_ok. unfold lenN in B. rewrite L in B. exact B. Qed.
Lemma posts_uint : forall k, posts (parse_uint k) (fun n _ => u_ok k n).
Proof. intros k. eapply posts_bind; [apply posts_read|]. intros l [_ L]. apply posts_ret. intros _. apply u_ok_dec, L. Qed.
Lemma posts_sint : forall k, 0 < k -> posts (parse_sint k) (fun n _ => i_ok k n).
Proof. intros k Hk. eapply posts_bind; [apply posts_read|]. intros l [_ L]. apply posts_ret. intros _. apply (i_enc_dec k l Hk L). Qed.

(** ** Arrays *)
Lemma posts_dec : forall d n, posts (dec_read d n) (fun r _ => match snd r with inr l => length l = n | inl _ => True end).
Proof.
  intros [|st] n.
  - eapply posts_bind; [apply posts_try_read|]. intros r [_ H]. apply posts_ret. intros _. exact H.
  - apply posts_then. intros [r st']. apply posts_ret. intros _. cbn. destruct r as [e|l]; [exact I|].
    destruct (Nat.eqb (length l) n) eqn:E; [apply Nat.eqb_eq; exact E|exact I].
Qed.
Section Arrays.
Context {A : Type} (el : elem A) (P : A -> Prop).
Hypothesis el_typed : forall l, length l = el_size el -> P (el_dec el l).
Lemma posts_it_next : forall it, posts (it_next el it) (fun r _ => match snd r with Some (inr v) => P v | _ => True end).
Proof.
  intros it. unfold it_next. destruct (it_rest it =? 0)%N; [apply posts_ret; intros; exact I|].
  eapply posts_bind; [apply posts_dec|]. intros [d [e|l]] [_ H]; apply posts_ret; intros _; cbn in *; auto.
Qed.
Lemma posts_mloop : forall S R (f : S -> M (S + R)) (J : S -> Prop) (Q : R -> Prop),
  (forall x, J x -> posts (f x) (fun r _ => match r with inl x' => J x' | inr v => Q v end)) ->
  forall p x, J x -> posts (mloop p f x) (fun r _ => match r with inl x' => J x' | inr v => Q v end).
Proof.
  intros S R f J Q H. induction p as [p IH|p IH|]; intros x Hx; cbn [mloop].
  - eapply posts_bind; [apply H, Hx|]. intros [x1|v] [_ H1]; [|apply posts_ret; intros; exact H1].
    eapply posts_bind; [apply IH, H1|]. intros [x2|v] [_ H2]; [apply IH, H2|apply posts_ret; intros; exact H2].
  - eapply posts_bind; [apply IH, Hx|]. intros [x1|v] [_ H1]; [apply IH, H1|apply posts_ret; intros; exact H1].
  - apply H, Hx.
Qed.
Lemma posts_collect : forall it, posts (it_collect el it) (fun r _ => match snd r with inr l => Forall P l | _ => True end).
Proof.
  intros it. unfold it_collect.
  eapply posts_bind; [apply (posts_mloop _ _ _ (fun x => Forall P (snd x)) (fun r => match snd r with inr l => Forall P l | _ => True end))|].
  - intros [it1 acc] Ha. cbn [snd] in Ha. unfold collect_step. eapply posts_bind; [apply posts_it_next|].
    intros [it2 [[e|v]|]] [_ H]; apply posts_ret; intros _; cbn in *; auto. apply Forall_rev, Ha.
  - constructor.
  - intros [x|x] [_ H]; [apply posts_panic|apply posts_ret; intros _; exact H].
Qed.
Lemma posts_load_array : forall O (f : list A -> O) start idx (Q : O -> Prop), (forall l, Forall P l -> Q (f l)) ->
  posts (load_array el (fun _ => collect_as f) start idx) (fun v _ => Q v).
Proof.
  intros O f start idx Q H. unfold load_array. apply posts_then. intros [[count enc] len]. apply posts_then. intros _. apply posts_then. intros d.
  cbn [collect_as run_seq]. eapply posts_bind with (P := fun r _ => match snd r with inr v => Q v | _ => True end).
  - eapply posts_bind; [apply posts_collect|]. intros [it [e|l]] [_ K]; apply posts_ret; intros _; cbn in *; auto.
  - intros [it [e|v]] [_ K]; cbn in K; (eapply posts_bind; [apply (posts_lift _ _ (fun v _ => Q v)); intros a [= <-]; auto|]);
      intros a [_ Ka]; apply posts_then; intros _; (destruct (it_err it); [apply posts_throw|apply posts_ret; auto]).
Qed.
End Arrays.

(** ** Values *)
Lemma posts_value : forall t start idx, posts (load_next_impl false t direct_loader start idx) (fun v _ => val_ok v).
Proof.
  intros t start idx. destruct t; cbn [load_next_impl direct_loader ld_bool ld_i16 ld_i32 ld_i64 ld_f32 ld_f64 ld_abool ld_ai32 ld_ai64 ld_af32 ld_af64 ld_bin ld_str].
  - do 3 (apply posts_then; intros). apply posts_ret. intros; exact I.
  - eapply posts_bind; [apply posts_sint; lia|]. intros v [_ H]. apply posts_then. intros. apply posts_ret. intros; exact H.
  - eapply posts_bind; [apply posts_sint; lia|]. intros v [_ H]. apply posts_then. intros. apply posts_ret. intros; exact H.
  - eapply posts_bind; [apply posts_sint; lia|]. intros v [_ H]. apply posts_then. intros. apply posts_ret. intros; exact H.
  - eapply posts_bind; [apply posts_uint|]. intros v [_ H]. apply posts_then. intros. apply posts_ret. intros; exact H.
  - eapply posts_bind; [apply posts_uint|]. intros v [_ H]. apply posts_then. intros. apply posts_ret. intros; exact H.
  - apply (posts_load_array el_bool (fun _ => True)); [auto|]. intros; exact I.
  - apply (posts_load_array el_i32 (i_ok 4)); [|auto]. intros l L. apply (i_enc_dec 4 l); [lia|exact L].
  - apply (posts_load_array el_i64 (i_ok 8)); [|auto]. intros l L. apply (i_enc_dec 8 l); [lia|exact L].
  - apply (posts_load_array el_f32 (u_ok 4)); [|auto]. intros l L. apply u_ok_dec, L.
  - apply (posts_load_array el_f64 (u_ok 8)); [|auto]. intros l L. apply u_ok_dec, L.
  - unfold load_special. do 2 (apply posts_then; intros). cbn [read_all run_rd]. eapply posts_bind with (P := fun r _ => match r with inr v => val_ok v | _ => True end).
    + do 3 (apply posts_then; intros). apply posts_ret. intros _. destruct a2 as [[e|] bs]; exact I.
    + intros r [_ H]. apply posts_lift. intros v -> _. exact H.
  - unfold load_special. do 2 (apply posts_then; intros). cbn [read_all_str run_rd]. eapply posts_bind with (P := fun r _ => match r with inr v => val_ok v | _ => True end).
    + do 3 (apply posts_then; intros). apply posts_ret. intros _. destruct a2 as [[e|] bs]; [exact I|]. destruct (utf8_valid bs) eqn:U; [exact U|exact I].
    + intros r [_ H]. apply posts_lift. intros v -> _. exact H.
Qed.

Lemma posts_load : posts (run_op (OLoad direct_loader)) (fun o _ => match o with BAttr (Some v) => val_ok v | _ => True end).
Proof.
  cbn [run_op]. apply posts_then. intros [a|]; [|apply posts_ret; intros; exact I].
  eapply posts_bind with (P := fun o _ => match o with Some v => val_ok v | _ => True end).
  - unfold load_next, load_next_gen, do_with_health_check. do 2 (apply posts_then; intros).
    eapply posts_bind with (P := fun r _ => match r with inr (Some v) => val_ok v | _ => True end).
    + eapply posts_weak; [apply (posts_try _ _ (fun o _ => match o with Some v => val_ok v | _ => True end))|intros [e|[v|]] s; auto].
      apply posts_then. intros [t|]; [|apply posts_ret; intros; exact I]. eapply posts_bind; [apply posts_value|]. intros v [_ H]. apply posts_ret. intros; exact H.
    + intros [e|[v|]] [_ H]; [do 2 (apply posts_then; intros); apply posts_throw|apply posts_ret; intros; exact H|apply posts_ret; intros; exact I].
  - intros o [_ H]. apply posts_ret. intros _. exact H.
Qed.

(** ** Names *)
Definition top_utf8 (k : ekind) (s : pstate) : Prop := k = KStart -> exists n st, p_stack s = n :: st /\ utf8_valid (sn_name n) = true.
Lemma posts_start_node : forall start h, posts (start_node start h) top_utf8.
Proof.
  intros start h. unfold start_node. apply posts_then. intros _. apply posts_then. intros name. destruct (utf8_valid name) eqn:U; [|apply posts_throw].
  do 3 (apply posts_then; intros). intros s k s' H _. unfold bind, modify, ret in H. injection H as _ <-. unfold push. cbn. eauto.
Qed.
Lemma posts_next : posts (run_op (@ONext aval)) (fun o _ => match o with BEvent (EvStart nm) => utf8_valid nm = true | _ => True end).
Proof.
  cbn [run_op]. apply posts_then. intros _.
  eapply posts_bind with (P := fun e _ => match e with EvStart nm => utf8_valid nm = true | _ => True end).
  - intros s e s' H. destruct e as [nm| |f]; [|exact I|exact I]. apply next_event_shape in H; [|discriminate].
    destruct (p_health s); [|destruct H; discriminate|destruct H; discriminate]. destruct H as (_ & r0 & s1 & P & -> & _ & n & rest & ES & <-).
    inversion P as [| | | | | | | | |s0 h s2 r s3 _ _ _ E _]; subst. destruct (posts_start_node _ _ _ _ _ E eq_refl) as (m & st & EM & U). rewrite ES in EM. injection EM as -> _. exact U.
  - intros [nm| |f] [_ H].
    + apply posts_then. intros _. apply posts_ret. intros _. exact H.
    + apply posts_ret. intros; exact I.
    + apply posts_ret. intros; exact I.
Qed.

(** ** Everything a client reads *)
Definition item_typed (x : item) : Prop := match x with IStart nm ats => utf8_valid nm = true /\ Forall val_ok ats | IEnd => True end.
Lemma loads_typed : forall s vs r s', loads s vs r s' -> Forall val_ok vs.
Proof.
  induction 1 as [s s' H|s v s1 vs r s' H H0 IH|s e s' H|s s' H]; try constructor; [|exact IH]. apply (posts_load _ _ _ H).
Qed.
Lemma reads_typed : forall s l o s', reads s l o s' -> Forall item_typed l.
Proof.
  induction 1 as [s f s' H|s nm s1 ats s2 l o s' H L R IH|s s1 l o s' H R IH|s e s' H|s s' H|s nm s1 ats e s' H L|s nm s1 ats s' H L]; try (constructor; fail).
  - constructor; [|exact IH]. split; [apply (posts_next _ _ _ H)|apply (loads_typed _ _ _ _ L)].
  - constructor; [exact I|exact IH].
Qed.

(** A document is typed if its names are UTF-8 and its numbers in range. *)
Inductive doc_typed : dnode -> Prop :=
| doc_typed_intro : forall nm ats ks, utf8_valid nm = true -> Forall val_ok ats -> Forall doc_typed ks -> doc_typed (DNode nm ats ks).
Lemma items_typed : forall ds, Forall item_typed (forest_items ds) -> Forall doc_typed ds.
Proof.
  assert (N : forall d, Forall item_typed (dnode_items d) -> doc_typed d).
  { induction d as [nm ats ks IH] using dnode_ind'. intros H. cbn [dnode_items] in H. apply Forall_cons_iff in H. destruct H as [[H1 H2] H3].
    constructor; [exact H1|exact H2|]. apply (proj1 (List.Forall_app _ _ _)) in H3. destruct H3 as [H3 _]. clear - IH H3.
    induction ks as [|k ks IHk]; [constructor|]. cbn [flat_map] in H3. apply (proj1 (List.Forall_app _ _ _)) in H3. destruct H3. inversion IH; subst. constructor; auto. }
  induction ds as [|d ds IH]; intros H; [constructor|]. unfold forest_items in *. cbn [flat_map] in H. apply (proj1 (List.Forall_app _ _ _)) in H. destruct H. constructor; auto.
Qed.
End WithEnv.
