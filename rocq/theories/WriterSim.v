(** The writer builds the document: every successful call extends the bytes in the sink as the
    specification says. *)
Require Import Coq.Lists.List Coq.NArith.NArith Coq.ZArith.ZArith Coq.Bool.Bool Coq.micromega.Lia.
Require Import Coq.Init.Byte.
Require Import ZifyBool ZifyNat ZifyN.
Require Import Verif.Base Verif.BaseFacts Verif.Utf8 Verif.Utf8Facts Verif.Types Verif.Io Verif.Parser Verif.Writer Verif.WriterFacts Verif.Zlib Verif.Spec Verif.SpecFacts Verif.FooterFacts Verif.WriterSpec.
Import ListNotations.
Ltac Zify.zify_post_hook ::= Z.div_mod_to_equations.
Open Scope writer_scope.

Ltac wok H := let a := fresh "a" in let s := fresh "s" in let E := fresh "E" in
  apply wbind_ok in H; destruct H as (a & s & E & H).

Lemma code_spec : forall t, type_code t = spec_code t.
Proof. intros []; reflexivity. Qed.

(** ** Attributes *)
Section Attr.
Context {env : Env}.

Definition bump (n : onode) : onode :=
  mkON (on_header_pos n) (on_body_pos n)
       (mkNH (nh_end (on_header n)) (nh_attrs (on_header n) + 1)%N (nh_alen (on_header n)) (nh_nlen (on_header n)))
       (on_has_child n) (on_finalized n).

(** An attribute call that succeeded: the bytes [bs] were added and the attribute counted. *)
Definition added (bs pre old : list byte) (s s' : wstate) : Prop :=
  w_ver s' = w_ver s /\ at_ (pre ++ bs) (dropN (lenN bs) old) (w_sink s') /\
  exists n t, w_open s = n :: t /\ w_open s' = bump n :: t /\ (nh_attrs (on_header n) + 1 < pow2_64)%N.

Lemma update_ok : forall s a s', update_node_header s = (Ok a, s') ->
  w_ver s' = w_ver s /\ w_sink s' = w_sink s /\
  exists n t, w_open s = n :: t /\ w_open s' = bump n :: t /\ (nh_attrs (on_header n) + 1 < pow2_64)%N.
Proof.
  intros s a s' H. unfold update_node_header in H. wok H. injection E as <- <-.
  destruct (w_open s) as [|n t] eqn:EO; [discriminate|].
  destruct (nh_attrs (on_header n) + 1 <? pow2_64)%N eqn:EL; [|discriminate].
  injection H as <- <-. cbn [w_ver w_sink w_open set_open]. repeat split. exists n, t. repeat split. lia.
Qed.

Lemma added_more : forall bs bs' pre old s s1 s2, added bs pre old s s1 -> same s1 s2 ->
  at_ ((pre ++ bs) ++ bs') (dropN (lenN bs') (dropN (lenN bs) old)) (w_sink s2) -> added (bs ++ bs') pre old s s2.
Proof.
  intros bs bs' pre old s s1 s2 (V & A & n & t & O1 & O2 & L) [V' O'] A'. split; [congruence|].
  split; [rewrite lenN_app, <- dropN_dropN, app_assoc; exact A'|]. exists n, t. repeat split; auto. congruence.
Qed.

Lemma begin_ok : forall t s a s' pre old, (update_node_header ;> write_type_code t) s = (Ok a, s') -> at_ pre old (w_sink s) ->
  added [spec_code t] pre old s s'.
Proof.
  intros t s a s' pre old H A. wok H. destruct (update_ok _ _ _ E) as (V & K & n & l & O1 & O2 & L).
  rewrite <- K in A. destruct (write_ok _ _ _ _ _ _ _ H A) as [[V' O'] A']. rewrite code_spec in A'.
  split; [congruence|]. split; [exact A'|]. exists n, l. repeat split; auto. congruence.
Qed.

Lemma wbind_assoc : forall A B C (m : WM A) (k : A -> WM B) (h : B -> WM C) s,
  wbind m (fun a => wbind (k a) h) s = wbind (wbind m k) h s.
Proof. intros. unfold wbind. destruct (m s) as [[a|e|] s1]; reflexivity. Qed.

Lemma append_single_ok : forall v s a s' pre old, append_single v s = (Ok a, s') -> at_ pre old (w_sink s) ->
  added (enc_attr (mkAttr (single_val v) false)) pre old s s'.
Proof.
  intros v s a s' pre old H A. unfold append_single in H. rewrite wbind_assoc in H. wok H.
  pose proof (begin_ok _ _ _ _ _ _ E A) as X. destruct X as (X1 & A1 & X2).
  destruct (write_ok _ _ _ _ _ _ _ H A1) as [S2 A2].
  replace (enc_attr (mkAttr (single_val v) false)) with ([spec_code (single_type v)] ++ single_bytes v) by (destruct v; reflexivity).
  eapply added_more; [split; [exact X1|split; [exact A1|exact X2]]|exact S2|exact A2].
Qed.

(** *** Binary and string attributes *)
Lemma init_special_ok : forall t s hp s' pre old, initialize_special t s = (Ok hp, s') -> at_ pre old (w_sink s) ->
  added ([spec_code t] ++ le_enc 4 0) pre old s s' /\ hp = lenN (pre ++ [spec_code t]).
Proof.
  intros t s hp s' pre old H A. unfold initialize_special in H. rewrite wbind_assoc in H. wok H.
  pose proof (begin_ok _ _ _ _ _ _ E A) as (X1 & A1 & X2). wok H.
  destruct (tell_ok _ _ _ _ _ E0 A1) as (S2 & A2 & ->). wok H. injection H as <- <-.
  destruct (write_ok _ _ _ _ _ _ _ E1 A2) as [S3 A3]. split; [|reflexivity].
  eapply added_more; [split; [exact X1|split; [exact A1|exact X2]]|eapply same_trans; eauto|exact A3].
Qed.

Lemma fin_special_ok : forall hp n s a s' x y old, finalize_special hp n s = (Ok a, s') -> at_ (x ++ le_enc 4 0 ++ y) old (w_sink s) ->
  hp = lenN x -> same s s' /\ at_ (x ++ le_enc 4 n ++ y) old (w_sink s') /\ u_ok 4 n.
Proof.
  intros hp n s a s' x y old H A ->. unfold finalize_special in H. destruct (n <? pow2_32)%N eqn:EL; [|discriminate].
  wok H. destruct (tell_ok _ _ _ _ _ E A) as (S1 & A1 & ->).
  destruct (patch_ok _ _ _ _ _ _ x (le_enc 4 0) y old (le_enc 4 n) H) as [S2 A2]; auto.
  { intros. eapply write_ok; eauto. }
  split; [eapply same_trans; eauto|]. split; [exact A2|].
  unfold u_ok. change (2 ^ (8 * N.of_nat 4))%N with pow2_32. lia.
Qed.

(** The body between the two. *)
Lemma special_ok : forall t body n hp s s1 s2 s' a pre old, initialize_special t s = (Ok hp, s1) -> at_ pre old (w_sink s) ->
  same s1 s2 -> at_ ((pre ++ [spec_code t] ++ le_enc 4 0) ++ body) (dropN (lenN body) (dropN (lenN ([spec_code t] ++ le_enc 4 0)) old)) (w_sink s2) ->
  finalize_special hp n s2 = (Ok a, s') ->
  added ([spec_code t] ++ le_enc 4 n ++ body) pre old s s' /\ u_ok 4 n.
Proof.
  intros t body n hp s s1 s2 s' a pre old H A S A2 F. destruct (init_special_ok _ _ _ _ _ _ H A) as [(V & A1 & X) ->].
  replace ((pre ++ [spec_code t] ++ le_enc 4 0) ++ body) with ((pre ++ [spec_code t]) ++ le_enc 4 0 ++ body) in A2 by (rewrite <- !app_assoc; reflexivity).
  destruct (fin_special_ok _ _ _ _ _ _ _ _ F A2 eq_refl) as (S3 & A3 & U). split; [|exact U].
  destruct S as [S0 S1], S3 as [S4 S5]. destruct X as (m & l & O1 & O2 & L).
  split; [congruence|]. split; [|exists m, l; repeat split; auto; congruence].
  rewrite <- !app_assoc in *. cbn [app] in *.
  replace (lenN (spec_code t :: le_enc 4 n ++ body)) with (lenN (spec_code t :: le_enc 4 0) + lenN body)%N
    by (rewrite !lenN_cons, !lenN_app, !le_enc_lenN; lia).
  rewrite <- dropN_dropN. exact A3.
Qed.

Lemma io_copy_ok : forall l n s m s' pre old, io_copy l n s = (Ok m, s') -> at_ pre old (w_sink s) ->
  exists bs, read_all l = Some bs /\ m = (n + lenN bs)%N /\ same s s' /\ at_ (pre ++ bs) (dropN (lenN bs) old) (w_sink s').
Proof.
  induction l as [|[bs| |c] l IH]; intros n s m s' pre old H A.
  - injection H as <- <-. exists []. rewrite app_nil_r, lenN_nil, dropN_0, N.add_0_r. repeat split; auto; apply A.
  - destruct bs as [|b bs].
    + injection H as <- <-. exists []. rewrite app_nil_r, lenN_nil, dropN_0, N.add_0_r. repeat split; auto; apply A.
    + cbn [io_copy] in H. wok H. destruct (write_ok _ _ _ _ _ _ _ E A) as [S1 A1].
      destruct (IH _ _ _ _ _ _ H A1) as (x & R & -> & S2 & A2). exists ((b :: bs) ++ x). cbn [read_all]. rewrite R.
      split; [reflexivity|]. rewrite !lenN_app. split; [lia|]. split; [eapply same_trans; eauto|].
      rewrite <- dropN_dropN, app_assoc. exact A2.
  - cbn [io_copy read_all] in *. eauto.
  - discriminate.
Qed.

(** With four-byte characters the buffer is exactly the character. *)
Lemma write_chars_ok : forall cs buf n s m s' pre old, Forall (fun c => (65536 <= c)%N) cs -> length buf = 4%nat ->
  write_chars buf cs n s = (Ok m, s') -> at_ pre old (w_sink s) ->
  m = (n + lenN (encode_chars cs))%N /\ same s s' /\ at_ (pre ++ encode_chars cs) (dropN (lenN (encode_chars cs)) old) (w_sink s').
Proof.
  induction cs as [|c cs IH]; intros buf n s m s' pre old HF HL H A.
  - injection H as <- <-. unfold encode_chars. cbn [map concat]. rewrite app_nil_r, lenN_nil, dropN_0, N.add_0_r. repeat split; auto; apply A.
  - inversion HF; subst. cbn [write_chars] in H.
    assert (LE : length (encode_char c) = 4%nat).
    { unfold encode_char. destruct (c <? 128)%N eqn:E1; [lia|]. destruct (c <? 2048)%N eqn:E2; [lia|]. destruct (c <? 65536)%N eqn:E3; [lia|]. reflexivity. }
    assert (BE : encode_char c ++ skipn (length (encode_char c)) buf = encode_char c).
    { rewrite LE, skipn_all2 by lia. apply app_nil_r. }
    rewrite BE in H. wok H. destruct (write_ok _ _ _ _ _ _ _ E A) as [S1 A1].
    destruct (IH _ _ _ _ _ _ _ H3 LE H A1) as (-> & S2 & A2).
    change (encode_chars (c :: cs)) with (encode_char c ++ encode_chars cs).
    rewrite lenN_app, <- dropN_dropN, app_assoc. split; [lia|]. split; [eapply same_trans; eauto|exact A2].
Qed.

(** *** Arrays *)
Lemma elems_raw : forall v, array_raw (elems_val v) = Some (elems_bytes v).
Proof. intros []; reflexivity. Qed.
Lemma elems_type_val : forall v, aval_type (elems_val v) = elems_type v.
Proof. intros []; reflexivity. Qed.
Lemma enc_attr_elems : forall v zip, enc_attr (mkAttr (elems_val v) zip) =
  [spec_code (elems_type v)] ++ (le_enc 4 (lenN (elems_bytes v)) ++ le_enc 4 (if zip then 1 else 0) ++ le_enc 4 (lenN (array_payload zip (elems_bytes v)))) ++
  array_payload zip (elems_bytes v).
Proof.
  intros v zip. rewrite <- elems_type_val. rewrite <- !app_assoc. pose proof (elems_raw v) as R. unfold enc_attr. cbn [at_val at_zip].
  destruct v; cbn [elems_val] in *; rewrite R; reflexivity.
Qed.

Lemma arr_header_ok : forall c e b s a s' pre old, write_array_header c e b s = (Ok a, s') -> at_ pre old (w_sink s) ->
  same s s' /\ at_ (pre ++ (le_enc 4 c ++ le_enc 4 (enc_to_u32 e) ++ le_enc 4 b)) (dropN (lenN (le_enc 4 c ++ le_enc 4 (enc_to_u32 e) ++ le_enc 4 b)) old) (w_sink s').
Proof.
  intros c e b s a s' pre old H A. unfold write_array_header in H. wok H. wok H.
  destruct (write_ok _ _ _ _ _ _ _ E A) as [S1 A1]. destruct (write_ok _ _ _ _ _ _ _ E0 A1) as [S2 A2]. destruct (write_ok _ _ _ _ _ _ _ H A2) as [S3 A3].
  split; [eapply same_trans; [exact S1|eapply same_trans; eauto]|].
  rewrite !lenN_app, <- !dropN_dropN, !app_assoc. exact A3.
Qed.

Definition arr_head (c : N) (e : aenc) (b : N) : list byte := le_enc 4 c ++ le_enc 4 (enc_to_u32 e) ++ le_enc 4 b.
Lemma arr_head_len : forall c e b, lenN (arr_head c e b) = 12%N.
Proof. intros. unfold arr_head. rewrite !lenN_app, !le_enc_lenN. reflexivity. Qed.

Lemma init_array_ok : forall t e s hp s' pre old, initialize_array t e s = (Ok hp, s') -> at_ pre old (w_sink s) ->
  added ([spec_code t] ++ arr_head 0 e 0) pre old s s' /\ hp = lenN (pre ++ [spec_code t]).
Proof.
  intros t e s hp s' pre old H A. unfold initialize_array in H. rewrite wbind_assoc in H. wok H.
  pose proof (begin_ok _ _ _ _ _ _ E A) as (X1 & A1 & X2). wok H.
  destruct (tell_ok _ _ _ _ _ E0 A1) as (S2 & A2 & ->). wok H. injection H as <- <-.
  destruct (arr_header_ok _ _ _ _ _ _ _ _ E1 A2) as [S3 A3]. split; [|reflexivity].
  eapply added_more; [split; [exact X1|split; [exact A1|exact X2]]|eapply same_trans; eauto|exact A3].
Qed.

Lemma count_ok : forall n s m s', count_elements n s = (Ok m, s') -> m = n /\ s' = s /\ u_ok 4 n.
Proof.
  intros n s m s' H. unfold count_elements in H. destruct (n <? pow2_32)%N eqn:E; [|discriminate]. injection H as <- <-.
  repeat split. unfold u_ok. change (2 ^ (8 * N.of_nat 4))%N with pow2_32. lia.
Qed.

Lemma payload_ok : forall e l fails s c s' pre old,   match e with EncDirect => write_elements l fails | EncZlib => write_zlib l fails end s = (Ok c, s') -> at_ pre old (w_sink s) ->
  let p := array_payload (match e with EncZlib => true | EncDirect => false end) l in
  fails = false /\ c = lenN l /\ u_ok 4 c /\ same s s' /\ at_ (pre ++ p) (dropN (lenN p) old) (w_sink s').
Proof.
  intros e l fails s c s' pre old H A p. destruct e.
  - unfold write_elements in H. wok H. destruct (write_each_ok _ _ _ _ _ _ _ E A) as [S1 A1].
    destruct fails; [discriminate|]. apply count_ok in H. destruct H as (-> & -> & U). auto.
  - unfold write_zlib in H. wok H. destruct (write_each_ok _ _ _ _ _ _ _ E A) as [S1 A1].
    destruct fails; [discriminate|]. wok H. apply count_ok in E0. destruct E0 as (-> & -> & U).
    wok H. injection H as <- <-. destruct (write_each_ok _ _ _ _ _ _ _ E0 A1) as [S2 A2].
    split; [reflexivity|]. split; [reflexivity|]. split; [exact U|]. split; [eapply same_trans; eauto|].
    cbn [array_payload] in p. unfold p, z_enc.
    rewrite app_assoc, lenN_app, <- dropN_dropN. exact A2.
Qed.

Lemma append_array_ok : forall enc v fails s a s' pre old, append_array enc v fails s = (Ok a, s') -> at_ pre old (w_sink s) ->
  fails = false /\ added (enc_attr (mkAttr (elems_val v) (is_zip enc))) pre old s s' /\ attr_fits (mkAttr (elems_val v) (is_zip enc)).
Proof.
  intros enc v fails s a s' pre old H A. unfold append_array in H.
  set (e := match enc with Some e => e | None => EncDirect end) in *.
  assert (EZ : is_zip enc = match e with EncZlib => true | EncDirect => false end) by (destruct enc as [[]|]; reflexivity).
  clearbody e. rewrite EZ. set (zip := match e with EncZlib => true | EncDirect => false end) in *.
  wok H. destruct (init_array_ok _ _ _ _ _ _ _ E A) as [(V1 & A1 & n & t & O1 & O2 & L) ->].
  wok H. destruct (tell_ok _ _ _ _ _ E0 A1) as (S2 & A2 & ->).
  wok H. destruct (payload_ok _ _ _ _ _ _ _ _ E1 A2) as (-> & -> & U & S3 & A3). fold zip in A3. set (p := array_payload zip (elems_bytes v)) in *.
  wok H. destruct (tell_ok _ _ _ _ _ E2 A3) as (S4 & A4 & ->).
  unfold sub_u64 in H.
  match type of H with context [(?a <=? ?b)%N] => assert (EB : (a <=? b)%N = true) by (rewrite !lenN_app; lia); rewrite EB in H end.
  wok H. injection E3 as <- <-. match type of H with context [(?n <? pow2_32)%N] => replace n with (lenN p) in H by (rewrite !lenN_app; lia) end.
  destruct (lenN p <? pow2_32)%N eqn:EL; [|discriminate]. split; [reflexivity|].
  unfold finalize_array in H. wok H.
  destruct (tell_ok _ _ _ _ _ E3 A4) as (S5 & A5 & ->).
  replace ((pre ++ [spec_code (elems_type v)] ++ arr_head 0 e 0) ++ p) with ((pre ++ [spec_code (elems_type v)]) ++ arr_head 0 e 0 ++ p) in H, A5 by (rewrite <- !app_assoc; reflexivity).
  match type of A5 with at_ _ ?o _ => set (old5 := o) in * end.
  destruct (patch_ok _ _ _ _ _ _ (pre ++ [spec_code (elems_type v)]) (arr_head 0 e 0) p old5 (arr_head (lenN (elems_bytes v)) e (lenN p)) H) as [S6 A6];
    [intros; eapply arr_header_ok; eauto|exact A5|reflexivity|reflexivity|rewrite !arr_head_len; reflexivity|].
  assert (UP : u_ok 4 (lenN p)) by (unfold u_ok; change (2 ^ (8 * N.of_nat 4))%N with pow2_32; lia).
  split.
  - destruct S2 as [S2 S2'], S3 as [S3 S3'], S4 as [S4 S4'], S5 as [S5 S5'], S6 as [S6 S6'].
    split; [congruence|]. split; [|exists n, t; repeat split; auto; congruence].
    rewrite enc_attr_elems. fold p. replace (if zip then 1 else 0)%N with (enc_to_u32 e) by (unfold zip; destruct e; reflexivity).
    fold (arr_head (lenN (elems_bytes v)) e (lenN p)).
    replace (lenN ([spec_code (elems_type v)] ++ arr_head (lenN (elems_bytes v)) e (lenN p) ++ p)) with (lenN ([spec_code (elems_type v)] ++ arr_head 0 e 0) + lenN p)%N
      by (rewrite !lenN_app, !arr_head_len; lia).
    rewrite <- dropN_dropN. rewrite <- !app_assoc in *. exact A6.
  - unfold attr_fits. cbn [at_val at_zip]. pose proof (elems_raw v) as R. destruct v; cbn [elems_val] in *; rewrite R; split; assumption.
Qed.

(** *** Every attribute call *)
Lemma acall_ok : forall c s u s' pre old, acall_typed c -> faithful c ->
  run_acall c s = (Ok u, s') -> at_ pre old (w_sink s) ->
  exists a, attr_of c = Some a /\ added (enc_attr a) pre old s s' /\ attr_ok a.
Proof.
  intros c s u s' pre old HT HF H A. destruct c as [v|enc v fails|b bs|l|l fails|cs fails]; cbn [run_acall] in H.
  - exists (mkAttr (single_val v) false). split; [reflexivity|]. split; [eapply append_single_ok; eauto|].
    split; [exact HT|destruct v; exact I].
  - destruct (append_array_ok _ _ _ _ _ _ _ _ H A) as (-> & X & F). eexists. split; [reflexivity|]. split; [exact X|]. split; [exact HT|exact F].
  - unfold append_direct in H. wok H. wok H.
    destruct (init_special_ok _ _ _ _ _ _ E A) as [(_ & A1 & _) _]. destruct (write_ok _ _ _ _ _ _ _ E0 A1) as [S2 A2].
    destruct (special_ok _ _ _ _ _ _ _ _ _ _ _ E A S2 A2 H) as [X U].
    destruct b; (eexists; split; [reflexivity|]; split; [exact X|]; split; [exact HT|exact U]).
  - unfold append_binary_reader in H. wok H. wok H.
    destruct (init_special_ok _ _ _ _ _ _ E A) as [(_ & A1 & _) _]. destruct (io_copy_ok _ _ _ _ _ _ _ E0 A1) as (bs & R & -> & S2 & A2).
    destruct (special_ok _ _ _ _ _ _ _ _ _ _ _ E A S2 A2 H) as [X U]. rewrite N.add_0_l in *.
    exists (mkAttr (VBinary bs) false). cbn [attr_of]. rewrite R. split; [reflexivity|]. split; [exact X|]. split; [exact I|exact U].
  - unfold append_binary_iter in H. wok H. wok H.
    destruct (init_special_ok _ _ _ _ _ _ E A) as [(_ & A1 & _) _]. destruct (write_each_ok _ _ _ _ _ _ _ E0 A1) as [S2 A2].
    destruct fails; [discriminate|].
    assert (EC : concat (map (fun b => [b]) l) = l) by (clear; induction l; cbn [map concat app]; congruence). rewrite EC in *.
    destruct (special_ok _ _ _ _ _ _ _ _ _ _ _ E A S2 A2 H) as [X U].
    eexists. split; [reflexivity|]. split; [exact X|]. split; [exact I|exact U].
  - unfold append_string_iter in H. wok H. wok H.
    destruct (init_special_ok _ _ _ _ _ _ E A) as [(_ & A1 & _) _].
    destruct (write_chars_ok _ _ _ _ _ _ _ _ HF (zeros_length 4) E0 A1) as (-> & S2 & A2).
    destruct fails; [discriminate|]. rewrite N.add_0_l in *.
    destruct (special_ok _ _ _ _ _ _ _ _ _ _ _ E A S2 A2 H) as [X U].
    eexists. split; [reflexivity|]. split; [exact X|]. split; [|exact U]. apply encode_chars_valid. exact HT.
Qed.
End Attr.
