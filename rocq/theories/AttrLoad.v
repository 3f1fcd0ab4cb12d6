(** Loading a well-formed attribute. *)
Require Import Coq.Lists.List Coq.NArith.NArith Coq.ZArith.ZArith Coq.Bool.Bool Coq.micromega.Lia.
Require Import ZifyBool ZifyNat ZifyN.
Require Import Verif.Base Verif.BaseFacts Verif.Utf8 Verif.Types Verif.Io Verif.IoFacts Verif.Parser Verif.MonadFacts Verif.Zlib Verif.Moves Verif.Loaders Verif.Spec.
Import ListNotations.
Ltac Zify.zify_post_hook ::= Z.div_mod_to_equations.

Definition rem_of (s : pstate) : list byte := s_rem (r_stream (p_rd s)).
Definition pos_of (s : pstate) : N := r_pos (p_rd s).

(** A reader that cannot fail and whose positions do not overflow. *)
Definition ready (s : pstate) : Prop := calm s /\ room s.

Lemma moved_pos : forall d s s', moved d s s' -> pos_of s' = (pos_of s + d)%N.
Proof. intros d s s' (_ & (_ & _ & E & _) & _). exact E. Qed.
Lemma moved_rem' : forall d s s', moved d s s' -> rem_of s' = dropN d (rem_of s).
Proof. intros d s s' H. apply moved_rem. exact H. Qed.
Lemma moved_ready : forall d s s', moved d s s' -> (d <= lenN (rem_of s))%N -> ready s -> ready s'.
Proof. intros d s s' H Hd [H1 H2]. split; [apply H; exact H1 | eapply room_moved; eauto]. Qed.
Lemma moved_app : forall d s s' bs rest, moved d s s' -> rem_of s = bs ++ rest -> lenN bs = d -> rem_of s' = rest.
Proof. intros d s s' bs rest H E <-. rewrite (moved_rem' _ _ _ H), E. apply dropN_app_len. Qed.

Lemma read_exact_mv : forall n s bs rest, ready s -> rem_of s = bs ++ rest -> length bs = n ->
  exists s', read_exact n s = (Ok bs, s') /\ moved (N.of_nat n) s s' /\ rem_of s' = rest /\ ready s'.
Proof.
  intros n s bs rest [Hc Hr] E Hl. destruct (try_read_ok n s bs rest Hc Hr E Hl) as (s' & H & M & R).
  exists s'. unfold read_exact. rewrite (bind_ok _ _ _ _ _ _ _ H). split; [reflexivity|]. split; [exact M|]. split; [exact R|].
  eapply moved_ready; eauto; [|split; assumption]. rewrite E, lenN_app. unfold lenN. lia.
Qed.
Lemma parse_uint_mv : forall k s v rest, ready s -> rem_of s = le_enc k v ++ rest -> u_ok k v ->
  exists s', parse_uint k s = (Ok v, s') /\ moved (N.of_nat k) s s' /\ rem_of s' = rest /\ ready s'.
Proof.
  intros k s v rest Hr E Hv. destruct (read_exact_mv k s _ _ Hr E (le_enc_length k v)) as (s' & H & M & R & Y).
  exists s'. unfold parse_uint. rewrite (bind_ok _ _ _ _ _ _ _ H). unfold ret. rewrite le_dec_enc by exact Hv. auto.
Qed.
Lemma parse_sint_mv : forall k s v rest, ready s -> rem_of s = i_enc k v ++ rest -> (0 < k)%nat -> i_ok k v ->
  exists s', parse_sint k s = (Ok v, s') /\ moved (N.of_nat k) s s' /\ rem_of s' = rest /\ ready s'.
Proof.
  intros k s v rest Hr E Hk Hv. destruct (read_exact_mv k s _ _ Hr E (i_enc_length k v)) as (s' & H & M & R & Y).
  exists s'. unfold parse_sint. rewrite (bind_ok _ _ _ _ _ _ _ H). unfold ret. rewrite i_dec_enc by assumption. auto.
Qed.
Lemma parse_u8_mv : forall s b rest, ready s -> rem_of s = b :: rest ->
  exists s', parse_u8 s = (Ok b, s') /\ moved 1 s s' /\ rem_of s' = rest /\ ready s'.
Proof.
  intros s b rest Hr E. destruct (read_exact_mv 1 s [b] rest Hr E eq_refl) as (s' & H & M & R & Y).
  exists s'. unfold parse_u8. rewrite (bind_ok _ _ _ _ _ _ _ H). auto.
Qed.

(** The reader moved by [m] and the attribute bookkeeping became [a]. *)
Definition amoved (a : attrs) (m : N) (s s' : pstate) : Prop := exists s1, moved m s s1 /\ s' = set_attrs (Some a) s1.

Lemma moved_attrs : forall x m s s', moved m (set_attrs x s) s' -> exists s1, moved m s s1 /\ s' = set_attrs x s1.
Proof.
  intros x m s s' (E & M & C). exists (set_rd (p_rd s') s). split.
  - split; [reflexivity|]. split; [exact M|exact C].
  - rewrite E at 1. reflexivity.
Qed.
Lemma amoved_moved : forall a m s s' m' s'', amoved a m s s' -> moved m' s' s'' -> amoved a (m + m') s s''.
Proof.
  intros a m s s' m' s'' (s1 & M & ->) M'. apply moved_attrs in M'. destruct M' as (s2 & M2 & ->).
  exists s2. split; [apply (moved_trans _ _ _ _ _ M M2)|reflexivity].
Qed.
Lemma moved_p_attrs : forall m s s', moved m s s' -> p_attrs s' = p_attrs s.
Proof. intros m s s' (E & _). rewrite E. reflexivity. Qed.

Section WithEnv.
Context {env : Env} (HZ : zlib_roundtrip env).

Lemma update_mv : forall n s a, ready s -> p_attrs s = Some a -> (n <= lenN (rem_of s))%N ->
  exists s', update_next_attr_start_offset n s = (Ok tt, s') /\ amoved (mkAttrs (a_total a) (a_rest a) (pos_of s + n)) 0 s s' /\
    rem_of s' = rem_of s /\ pos_of s' = pos_of s /\ ready s'.
Proof.
  intros n s a [Hc Hr] Ha Hn. unfold update_next_attr_start_offset, reader_pos, get_attrs.
  rewrite bind_gets. unfold bind at 1. rewrite bind_gets, Ha. cbn [ret].
  unfold room, rem_of in *. assert (E : (r_pos (p_rd s) + n <? pow2_64)%N = true) by (apply N.ltb_lt; lia). rewrite E.
  eexists. split; [reflexivity|]. split; [|split; [reflexivity|split; [reflexivity|split; assumption]]].
  exists s. split; [apply moved_0 | reflexivity].
Qed.

(** Result of a user function. *)
Definition as_res {O} (r : perr + O) : res perr O := match r with inl e => Err e | inr v => Ok v end.
Lemma lift_res : forall O (r : perr + O) s, lift r s = (as_res r, s).
Proof. intros O [e|v] s; reflexivity. Qed.

Lemma load_array_any : forall A O (el : elem A) (ld : N -> seqprog A O) (l : list (list byte)) (zip : option (list (list byte))) payload start idx s a rest,
  ready s -> p_attrs s = Some a ->
  match zip with Some full => payload = z_enc full /\ exists extra, concat full = concat l ++ extra | None => payload = concat l end ->
  rem_of s = le_enc 4 (lenN l) ++ le_enc 4 (if zip then 1 else 0) ++ le_enc 4 (lenN payload) ++ payload ++ rest ->
  u_ok 4 (lenN l) -> u_ok 4 (lenN payload) ->
  Forall (fun b => length b = el_size el) l ->
  exists m s' used, load_array el ld start idx s =
      (let* v := lift (fst (pure_seq (ld (lenN l)) (map (el_dec el) l))) in
       when (existsb (el_bad el) used) (warn_bool start idx) ;; ret v) s' /\
    (m <= 12 + lenN payload)%N /\ amoved (mkAttrs (a_total a) (a_rest a) (pos_of s + 12 + lenN payload)) m s s' /\
    l = used ++ skipn (length used) l /\
    snd (pure_seq (ld (lenN l)) (map (el_dec el) l)) = map (el_dec el) (skipn (length used) l) /\
    (zip = None -> m = 12 + lenN (concat used))%N.
Proof.
  intros A O el ld l zip payload start idx s a rest Hr Ha HP E U1 U2 F1.
  unfold load_array, read_array_header. rewrite bind_assoc.
  destruct (parse_uint_mv 4 s _ _ Hr E U1) as (s1 & E1 & M1 & R1 & Y1). rewrite (bind_ok _ _ _ _ _ _ _ E1). rewrite bind_assoc.
  assert (UZ : u_ok 4 (if zip then 1 else 0)) by (destruct zip; reflexivity).
  destruct (parse_uint_mv 4 s1 _ _ Y1 R1 UZ) as (s2 & E2 & M2 & R2 & Y2). rewrite (bind_ok _ _ _ _ _ _ _ E2).
  assert (EE : enc_of_u32 (if zip then 1 else 0) = Some (if zip then EncZlib else EncDirect)) by (destruct zip; reflexivity).
  rewrite EE, bind_assoc.
  destruct (parse_uint_mv 4 s2 _ _ Y2 R2 U2) as (s3 & E3 & M3 & R3 & Y3). rewrite (bind_ok _ _ _ _ _ _ _ E3), bind_ret.
  assert (M13 : moved 12 s s3) by (apply (moved_trans 4 8 _ _ _ M1); apply (moved_trans 4 4 _ _ _ M2 M3)).
  destruct (update_mv (lenN payload) s3 a Y3) as (s4 & E4 & (t4 & N4 & T4) & R4 & P4 & Y4).
  { rewrite (moved_p_attrs _ _ _ M13). exact Ha. }
  { rewrite R3, lenN_app. lia. }
  rewrite (bind_ok _ _ _ _ _ _ _ E4).
  assert (A4 : amoved (mkAttrs (a_total a) (a_rest a) (pos_of s + 12 + lenN payload)) 12 s s4).
  { exists t4. split; [|rewrite T4, (moved_pos _ _ _ M13); reflexivity]. apply (moved_trans 12 0 _ _ _ M13 N4). }
  rewrite R3 in R4.
  assert (D : exists d k s5, mk_decoder (if zip then EncZlib else EncDirect) s4 = (Ok d, s5) /\ (k <= lenN payload)%N /\
               moved k s4 s5 /\ supplies d (concat l) (lenN payload - k) s5 /\ ready s5 /\ (zip = None -> d = DDirect /\ k = 0%N)).
  { destruct zip as [full|]; cbn [mk_decoder].
    - destruct HP as [-> (extra & HX)]. destruct (HZ full rest) as (st & used & E0 & Lu & _).
      destruct (run_z_calm _ z_open s4) as (k & s5 & E5 & M5 & L5 & _ & D5); [apply Y4|apply Y4|]. fold (rem_of s4) in E5, L5, D5.
      rewrite R4, E0 in E5. rewrite R4, E0 in D5. cbn [fst snd] in E5, D5. rewrite R4, lenN_app in L5.
      assert (Ek : k = used).
      { apply (f_equal (@lenN _)) in D5. rewrite !lenN_dropN, lenN_app in D5. lia. }
      subst k. exists (DZlib st), used, s5. rewrite (bind_ok _ _ _ _ _ _ _ E5).
      assert (R5 : rem_of s5 = dropN used (z_enc full ++ rest)) by (rewrite (moved_rem' _ _ _ M5), R4; reflexivity).
      split; [reflexivity|]. split; [exact Lu|]. split; [exact M5|]. split.
      + cbn [supplies]. exists full, rest, st, (dropN used (z_enc full ++ rest)), [], [], used, extra. fold (rem_of s5). rewrite R5.
        split; [exact E0|]. split; [reflexivity|]. split; [reflexivity|]. split; [lia|]. split; [exact HX|cbn; lia].
      + split; [|discriminate]. eapply moved_ready; eauto. rewrite R4, lenN_app. lia.
    - subst payload. exists DDirect, 0%N, s4. split; [reflexivity|]. split; [lia|]. split; [apply moved_0|]. split; [|auto].
      cbn [supplies]. rewrite N.sub_0_r. split; [reflexivity|]. exists rest. exact R4. }
  destruct D as (d & k & s5 & E5 & Hk & M5 & S5 & Y5 & ZD). rewrite (bind_ok _ _ _ _ _ _ _ E5).
  destruct (run_seq_ok A O el (ld (lenN l)) (mkIter d (lenN l) false false) l (lenN payload - k) s5 HZ) as (it & m & s6 & used & E6 & Hm & M6 & Er & Hu & Hv & Hb & Y6 & Y7 & DD).
  { unfold iter_at. cbn [it_err it_rest it_dec]. destruct Y5. repeat (split; [assumption || reflexivity|]). assumption. }
  rewrite (bind_ok _ _ _ _ _ _ _ E6).
  exists (12 + k + m)%N, s6, used. split; [|split; [lia|split; [|split; [exact Hu|split; [exact Hv|]]]]].
  - rewrite Er. cbn in Hb. rewrite Hb. reflexivity.
  - eapply amoved_moved; [|exact M6]. eapply amoved_moved; [exact A4|exact M5].
  - intros EZ. destruct (ZD EZ) as [ED ->]. rewrite (DD ED). lia.
Qed.

Lemma load_array_gen : forall A O (el : elem A) (ld : N -> seqprog A O) (l : list (list byte)) zip start idx s a rest,
  ready s -> p_attrs s = Some a ->
  let payload := array_payload zip l in
  rem_of s = le_enc 4 (lenN l) ++ le_enc 4 (if zip then 1 else 0) ++ le_enc 4 (lenN payload) ++ payload ++ rest ->
  u_ok 4 (lenN l) -> u_ok 4 (lenN payload) ->
  Forall (fun b => length b = el_size el) l ->
  exists m s' used, load_array el ld start idx s =
      (let* v := lift (fst (pure_seq (ld (lenN l)) (map (el_dec el) l))) in
       when (existsb (el_bad el) used) (warn_bool start idx) ;; ret v) s' /\
    (m <= 12 + lenN payload)%N /\ amoved (mkAttrs (a_total a) (a_rest a) (pos_of s + 12 + lenN payload)) m s s' /\
    l = used ++ skipn (length used) l /\
    snd (pure_seq (ld (lenN l)) (map (el_dec el) l)) = map (el_dec el) (skipn (length used) l) /\
    (zip = false -> m = 12 + lenN (concat used))%N.
Proof.
  intros A O el ld l zip start idx s a rest Hr Ha payload E U1 U2 F1.
  destruct (load_array_any A O el ld l (if zip then Some l else None) payload start idx s a rest Hr Ha) as (m & s' & used & K1 & K2 & K3 & K4 & K5 & K6); auto.
  - unfold payload. destruct zip; [|reflexivity]. split; [reflexivity|]. exists []. rewrite app_nil_r. reflexivity.
  - destruct zip; exact E.
  - exists m, s', used. repeat (split; [assumption|]). intros ->. auto.
Qed.

Lemma load_array_ok : forall A O (el : elem A) (ld : N -> seqprog A O) (l : list (list byte)) zip start idx s a rest,
  ready s -> p_attrs s = Some a ->
  let payload := array_payload zip l in
  rem_of s = le_enc 4 (lenN l) ++ le_enc 4 (if zip then 1 else 0) ++ le_enc 4 (lenN payload) ++ payload ++ rest ->
  u_ok 4 (lenN l) -> u_ok 4 (lenN payload) ->
  Forall (fun b => length b = el_size el) l -> Forall (fun b => el_bad el b = false) l ->
  exists m s', load_array el ld start idx s = (as_res (fst (pure_seq (ld (lenN l)) (map (el_dec el) l))), s') /\
    (m <= 12 + lenN payload)%N /\ amoved (mkAttrs (a_total a) (a_rest a) (pos_of s + 12 + lenN payload)) m s s' /\
    (zip = false -> snd (pure_seq (ld (lenN l)) (map (el_dec el) l)) = [] -> m = 12 + lenN payload)%N.
Proof.
  intros A O el ld l zip start idx s a rest Hr Ha payload E U1 U2 F1 F2.
  destruct (load_array_gen A O el ld l zip start idx s a rest Hr Ha E U1 U2 F1) as (m & s6 & used & E6 & Hm & M6 & Hu & Hv & DD).
  exists m, s6. split; [|split; [exact Hm|split; [exact M6|]]].
  2:{ intros EZ EN. rewrite (DD EZ). rewrite EN in Hv. symmetry in Hv. apply map_eq_nil in Hv. rewrite Hv, app_nil_r in Hu. rewrite <- Hu.
      unfold payload. rewrite EZ. reflexivity. }
  rewrite E6.
  assert (Nb0 : existsb (el_bad el) used = false).
  { rewrite Hu in F2. apply Forall_app in F2. destruct F2 as [F2 _].
    clear - F2. induction F2 as [|b l Hb _ IH]; [reflexivity|]. cbn. rewrite Hb. exact IH. }
  rewrite Nb0. unfold bind at 1. rewrite lift_res. destruct (fst (pure_seq _ _)) as [e|v]; reflexivity.
Qed.

(** A binary or string attribute. *)
Lemma load_special_ok : forall O (ld : N -> rdprog O) bs s a rest r s', 
  ready s -> p_attrs s = Some a -> rem_of s = le_enc 4 (lenN bs) ++ bs ++ rest -> u_ok 4 (lenN bs) ->
  load_special ld s = (r, s') -> r <> Panic ->
  exists m, (m <= 4 + lenN bs)%N /\ amoved (mkAttrs (a_total a) (a_rest a) (pos_of s + 4 + lenN bs)) m s s'.
Proof.
  intros O ld bs s a rest r s' Hr Ha E U H Hp. unfold load_special in H.
  destruct (parse_uint_mv 4 s _ _ Hr E U) as (s1 & E1 & M1 & R1 & Y1). rewrite (bind_ok _ _ _ _ _ _ _ E1) in H.
  destruct (update_mv (lenN bs) s1 a Y1) as (s2 & E2 & (t2 & N2 & T2) & R2 & P2 & Y2).
  { rewrite (moved_p_attrs _ _ _ M1). exact Ha. }
  { rewrite R1, lenN_app. lia. }
  rewrite (bind_ok _ _ _ _ _ _ _ E2) in H.
  assert (A2 : amoved (mkAttrs (a_total a) (a_rest a) (pos_of s + 4 + lenN bs)) 4 s s2).
  { exists t2. split; [|rewrite T2, (moved_pos _ _ _ M1); reflexivity]. apply (moved_trans 4 0 _ _ _ M1 N2). }
  assert (W : within (lenN bs) s2 s').
  { mstep H as x s3 E3; [|subst r|congruence].
    - rewrite lift_res in H. injection H as <- <-. eapply run_rd_mv; eauto. discriminate.
    - eapply run_rd_mv; [exact E3|discriminate]. }
  destruct W as (m & Hm & _ & M). exists (4 + m)%N. split; [lia|]. eapply amoved_moved; eauto.
Qed.

(** The body of an attribute, after its type code. *)
Definition attr_body (a : attr) : list byte := tl (enc_attr a).
Lemma enc_attr_split : forall a, enc_attr a = spec_code (aval_type (at_val a)) :: attr_body a.
Proof. intros a. reflexivity. Qed.

Lemma concat_singles : forall A (l : list A), concat (map (fun x => [x]) l) = l.
Proof. induction l; cbn; congruence. Qed.

(** The element bytes of an array value. *)
Definition elem_bytes (v : aval) : list (list byte) :=
  match v with
  | VArrBool l => map (fun b => [spec_bool b]) l
  | VArrI32 l => map (i_enc 4) l
  | VArrI64 l => map (i_enc 8) l
  | VArrF32 l => map (le_enc 4) l
  | VArrF64 l => map (le_enc 8) l
  | _ => []
  end.
Lemma array_raw_elems : forall v raw, array_raw v = Some raw -> raw = elem_bytes v.
Proof. intros v raw H. destruct v; try discriminate; injection H as <-; reflexivity. Qed.

Lemma forall_map : forall A B (f : A -> B) (P : B -> Prop) l, (forall x, P (f x)) -> Forall P (map f l).
Proof. intros A B f P l H. apply Forall_forall. intros y Hy. apply in_map_iff in Hy. destruct Hy as (x & <- & _). apply H. Qed.

Lemma map_dec_enc : forall A B (P : A -> Prop) (f : A -> B) (g : B -> A) l, (forall x, P x -> g (f x) = x) -> Forall P l -> map g (map f l) = l.
Proof. intros A B P f g l H HF. rewrite map_map. induction HF; cbn; [reflexivity|]. rewrite H by assumption. congruence. Qed.

(** Loading a well-formed attribute, whatever the loader does: it stays within the bytes of
    the attribute and the next attribute is expected right after them. *)
Lemma load_impl_ok : forall O buffered (ld : loader O) (at0 : attr) start idx s a rest r s',
  ready s -> p_attrs s = Some a -> rem_of s = attr_body at0 ++ rest -> attr_ok at0 ->
  load_next_impl buffered (aval_type (at_val at0)) ld start idx s = (r, s') -> r <> Panic ->
  exists m, (m <= lenN (attr_body at0))%N /\
    amoved (mkAttrs (a_total a) (a_rest a) (pos_of s + lenN (attr_body at0))) m s s'.
Proof.
  intros O buffered ld [v zip] start idx s a rest r s' Hr Ha E [Hv Hf] H Hp.
  unfold attr_body, enc_attr in *. cbn [at_val at_zip tl] in *. unfold attr_fits in Hf. cbn [at_val at_zip] in Hf.
  assert (ARR : forall A (el : elem A) (f : N -> seqprog A O), array_raw v <> None ->
     Forall (fun b => length b = el_size el) (elem_bytes v) -> Forall (fun b => el_bad el b = false) (elem_bytes v) ->
     load_array el f start idx s = (r, s') ->
     rem_of s = (match array_raw v with
                 | Some raw => le_enc 4 (lenN raw) ++ le_enc 4 (if zip then 1 else 0) ++ le_enc 4 (lenN (array_payload zip raw)) ++ array_payload zip raw
                 | None => [] end) ++ rest ->
     match array_raw v with Some raw => u_ok 4 (lenN raw) /\ u_ok 4 (lenN (array_payload zip raw)) | None => True end ->
     exists m, (m <= lenN (match array_raw v with
                 | Some raw => le_enc 4 (lenN raw) ++ le_enc 4 (if zip then 1 else 0) ++ le_enc 4 (lenN (array_payload zip raw)) ++ array_payload zip raw
                 | None => [] end))%N /\
       amoved (mkAttrs (a_total a) (a_rest a) (pos_of s + lenN (match array_raw v with
                 | Some raw => le_enc 4 (lenN raw) ++ le_enc 4 (if zip then 1 else 0) ++ le_enc 4 (lenN (array_payload zip raw)) ++ array_payload zip raw
                 | None => [] end))) m s s').
  { intros A el f Hn F1 F2 H1 E1 U1. destruct (array_raw v) as [raw|] eqn:Er; [|congruence].
    apply array_raw_elems in Er. subst raw. rewrite <- !app_assoc in E1.
    destruct (load_array_ok A O el f (elem_bytes v) zip start idx s a rest Hr Ha E1) as (m & s1 & K1 & K2 & K3 & K4); try tauto.
    rewrite H1 in K1. injection K1 as -> ->. exists m.
    assert (L : forall x y z w, lenN (le_enc 4 x ++ le_enc 4 y ++ le_enc 4 z ++ w) = (12 + lenN w)%N).
    { intros. rewrite !lenN_app, !le_enc_lenN. lia. }
    rewrite L. split; [exact K2|]. rewrite N.add_assoc. exact K3. }
  assert (SCAL : forall A (m0 : M A) k (f : A -> perr + O) x s1, m0 s = (Ok x, s1) -> moved k s s1 -> ready s1 ->
     (let* y := m0 in update_next_attr_start_offset 0 ;; lift (f y)) s = (r, s') ->
     exists m, (m <= k)%N /\ amoved (mkAttrs (a_total a) (a_rest a) (pos_of s + k)) m s s').
  { intros A m0 k f x s1 E1 M1 Y1 H1. rewrite (bind_ok _ _ _ _ _ _ _ E1) in H1.
    destruct (update_mv 0 s1 a Y1) as (s2 & E2 & (t2 & N2 & T2) & _); [rewrite (moved_p_attrs _ _ _ M1); exact Ha|lia|].
    rewrite (bind_ok _ _ _ _ _ _ _ E2), lift_res in H1. injection H1 as <- <-. exists k. split; [lia|].
    exists t2. rewrite T2, (moved_pos _ _ _ M1), N.add_0_r. split; [|reflexivity].
    replace k with (k + 0)%N by lia. apply (moved_trans _ _ _ _ _ M1 N2). }
  destruct v as [b|z|z|z|n|n|l|l|l|l|l|l|l]; cbn [load_next_impl aval_type val_ok] in *.
  - cbn [app] in E. destruct (parse_u8_mv s (spec_bool b) rest Hr E) as (s1 & E1 & M1 & R1 & Y1).
    apply (SCAL _ parse_u8 1%N (fun y => ld_bool ld (bool_of_raw y)) (spec_bool b) s1 E1 M1 Y1).
    rewrite (bind_ok _ _ _ _ _ _ _ E1) in H. rewrite (bind_ok _ _ _ _ _ _ _ E1). rewrite <- H. unfold bind.
    destruct (update_next_attr_start_offset 0 s1) as [[u|e|] s2]; try reflexivity. destruct b; reflexivity.
  - destruct (parse_sint_mv 2 s z rest Hr E ltac:(lia) Hv) as (s1 & E1 & M1 & R1 & Y1).
    unfold lenN. rewrite i_enc_length. apply (SCAL _ _ _ _ _ _ E1 M1 Y1 H).
  - destruct (parse_sint_mv 4 s z rest Hr E ltac:(lia) Hv) as (s1 & E1 & M1 & R1 & Y1).
    unfold lenN. rewrite i_enc_length. apply (SCAL _ _ _ _ _ _ E1 M1 Y1 H).
  - destruct (parse_sint_mv 8 s z rest Hr E ltac:(lia) Hv) as (s1 & E1 & M1 & R1 & Y1).
    unfold lenN. rewrite i_enc_length. apply (SCAL _ _ _ _ _ _ E1 M1 Y1 H).
  - destruct (parse_uint_mv 4 s n rest Hr E Hv) as (s1 & E1 & M1 & R1 & Y1).
    rewrite le_enc_lenN. apply (SCAL _ _ _ _ _ _ E1 M1 Y1 H).
  - destruct (parse_uint_mv 8 s n rest Hr E Hv) as (s1 & E1 & M1 & R1 & Y1).
    rewrite le_enc_lenN. apply (SCAL _ _ _ _ _ _ E1 M1 Y1 H).
  - apply (ARR _ el_bool _ ltac:(discriminate) ltac:(cbn [elem_bytes]; apply forall_map; intros; reflexivity) ltac:(cbn [elem_bytes]; apply forall_map; intros []; reflexivity) H E Hf).
  - apply (ARR _ el_i32 _ ltac:(discriminate) ltac:(cbn [elem_bytes]; apply forall_map; intros; apply i_enc_length) ltac:(cbn [elem_bytes]; apply forall_map; intros; reflexivity) H E Hf).
  - apply (ARR _ el_i64 _ ltac:(discriminate) ltac:(cbn [elem_bytes]; apply forall_map; intros; apply i_enc_length) ltac:(cbn [elem_bytes]; apply forall_map; intros; reflexivity) H E Hf).
  - apply (ARR _ el_f32 _ ltac:(discriminate) ltac:(cbn [elem_bytes]; apply forall_map; intros; apply le_enc_length) ltac:(cbn [elem_bytes]; apply forall_map; intros; reflexivity) H E Hf).
  - apply (ARR _ el_f64 _ ltac:(discriminate) ltac:(cbn [elem_bytes]; apply forall_map; intros; apply le_enc_length) ltac:(cbn [elem_bytes]; apply forall_map; intros; reflexivity) H E Hf).
  - rewrite <- app_assoc in E. rewrite lenN_app, le_enc_lenN, N.add_assoc.
    apply (load_special_ok O _ l s a rest r s' Hr Ha E Hf H Hp).
  - rewrite <- app_assoc in E. rewrite lenN_app, le_enc_lenN, N.add_assoc.
    apply (load_special_ok O _ l s a rest r s' Hr Ha E Hf H Hp).
Qed.


(** *** DirectLoader returns the stored value *)

Lemma read_all_run : forall O (f : list byte -> O) bs rest s, ready s -> rem_of s = bs ++ rest ->
  exists s', run_rd (read_all f) (lenN bs) s = (Ok (inr (f bs)), s') /\ pos_of s' = (pos_of s + lenN bs)%N /\ p_attrs s' = p_attrs s.
Proof.
  intros O f bs rest s [[Hc _] Hr] E. unfold read_all. cbn [run_rd]. unfold reader_pos. rewrite bind_gets.
  unfold rdop, rd_to_end. unfold rem_of in E. unfold bind at 1.
  destruct (rte_nofail _ (s_rem (r_stream (p_rd s))) (lenN bs) Hc) as (sc & _ & Ee). rewrite Ee, E, takeN_app_len.
  unfold advance. unfold room in Hr. rewrite E, lenN_app in Hr.
  assert (X : (r_pos (p_rd s) + lenN bs <? pow2_64)%N = true) by (apply N.ltb_lt; lia). rewrite X.
  rewrite bind_gets. eexists. split; [reflexivity|]. split; reflexivity.
Qed.
Lemma read_all_str_run : forall O (f : list byte -> O) bs rest s, ready s -> rem_of s = bs ++ rest -> utf8_valid bs = true ->
  exists s', run_rd (read_all_str f) (lenN bs) s = (Ok (inr (f bs)), s') /\ pos_of s' = (pos_of s + lenN bs)%N /\ p_attrs s' = p_attrs s.
Proof.
  intros O f bs rest s [[Hc _] Hr] E Hu. unfold read_all_str. cbn [run_rd]. unfold reader_pos. rewrite bind_gets.
  unfold rdop, rd_to_end. unfold rem_of in E. unfold bind at 1.
  destruct (rte_nofail _ (s_rem (r_stream (p_rd s))) (lenN bs) Hc) as (sc & _ & Ee). rewrite Ee, E, takeN_app_len.
  unfold advance. unfold room in Hr. rewrite E, lenN_app in Hr.
  assert (X : (r_pos (p_rd s) + lenN bs <? pow2_64)%N = true) by (apply N.ltb_lt; lia). rewrite X.
  rewrite bind_gets, Hu. eexists. split; [reflexivity|]. split; reflexivity.
Qed.

Lemma load_impl_direct : forall buffered (at0 : attr) start idx s a rest,
  ready s -> p_attrs s = Some a -> rem_of s = attr_body at0 ++ rest -> attr_ok at0 ->
  exists s', load_next_impl buffered (aval_type (at_val at0)) direct_loader start idx s = (Ok (at_val at0), s') /\
    (at_zip at0 = false -> exists a', p_attrs s' = Some a' /\ a_next a' = pos_of s').
Proof.
  intros buffered [v zip] start idx s a rest Hr Ha E [Hv Hf].
  unfold attr_body, enc_attr in *. cbn [at_val at_zip tl] in *. unfold attr_fits in Hf. cbn [at_val at_zip] in Hf.
  assert (ARR : forall A (el : elem A) (f : list A -> aval) (vals : list A), array_raw v <> None ->
     Forall (fun b => length b = el_size el) (elem_bytes v) -> Forall (fun b => el_bad el b = false) (elem_bytes v) ->
     map (el_dec el) (elem_bytes v) = vals ->
     exists s', load_array el (fun _ => collect_as f) start idx s = (Ok (f vals), s') /\ (zip = false -> exists a', p_attrs s' = Some a' /\ a_next a' = pos_of s')).
  { intros A el f vals Hn F1 F2 Hvals.
    destruct (array_raw v) as [raw|] eqn:Er; [|congruence]. pose proof Er as Er'.
    apply array_raw_elems in Er. subst raw.
    assert (E1 : rem_of s = (le_enc 4 (lenN (elem_bytes v)) ++ le_enc 4 (if zip then 1 else 0) ++ le_enc 4 (lenN (array_payload zip (elem_bytes v))) ++ array_payload zip (elem_bytes v)) ++ rest)
      by (destruct v; try discriminate Er'; rewrite Er' in E; exact E).
    assert (U1 : u_ok 4 (lenN (elem_bytes v)) /\ u_ok 4 (lenN (array_payload zip (elem_bytes v))))
      by (destruct v; try discriminate Er'; rewrite Er' in Hf; exact Hf).
    rewrite <- !app_assoc in E1.
    destruct (load_array_ok A aval el (fun _ => collect_as f) (elem_bytes v) zip start idx s a rest Hr Ha E1) as (m & s1 & K1 & K2 & K3 & K4); try tauto.
    exists s1. rewrite K1, Hvals. split; [reflexivity|]. intros EZ. specialize (K4 EZ eq_refl). destruct K3 as (t1 & M1 & ->).
    eexists. split; [reflexivity|]. cbn [a_next]. change (pos_of (set_attrs ?x t1)) with (pos_of t1). rewrite (moved_pos _ _ _ M1). lia. }
  assert (SCAL : forall A (m0 : M A) k (f : A -> perr + aval) x s1 w, m0 s = (Ok x, s1) -> moved k s s1 -> ready s1 -> f x = inr w ->
     exists s', (let* y := m0 in update_next_attr_start_offset 0 ;; lift (f y)) s = (Ok w, s') /\ (zip = false -> exists a', p_attrs s' = Some a' /\ a_next a' = pos_of s')).
  { intros A m0 k f x s1 w E1 M1 Y1 H1. rewrite (bind_ok _ _ _ _ _ _ _ E1).
    destruct (update_mv 0 s1 a Y1) as (s2 & E2 & (t2 & N2 & T2) & _ & P2 & _); [rewrite (moved_p_attrs _ _ _ M1); exact Ha|lia|].
    rewrite (bind_ok _ _ _ _ _ _ _ E2), lift_res, H1. eexists. split; [reflexivity|]. intros _. rewrite P2, T2. eexists. split; [reflexivity|]. cbn [a_next]. lia. }
  assert (SPEC : forall bs (f : N -> rdprog aval) w, rem_of s = (le_enc 4 (lenN bs) ++ bs) ++ rest -> u_ok 4 (lenN bs) ->
     (forall t, ready t -> rem_of t = bs ++ rest -> exists t', run_rd (f (lenN bs)) (lenN bs) t = (Ok (inr w), t') /\ pos_of t' = (pos_of t + lenN bs)%N /\ p_attrs t' = p_attrs t) ->
     exists s', load_special f s = (Ok w, s') /\ (zip = false -> exists a', p_attrs s' = Some a' /\ a_next a' = pos_of s')).
  { intros bs f w E0 U H. unfold load_special. rewrite <- app_assoc in E0.
    destruct (parse_uint_mv 4 s _ _ Hr E0 U) as (s1 & E1 & M1 & R1 & Y1). rewrite (bind_ok _ _ _ _ _ _ _ E1).
    destruct (update_mv (lenN bs) s1 a Y1) as (s2 & E2 & (t2 & N2 & T2) & R2 & P2 & Y2).
    { rewrite (moved_p_attrs _ _ _ M1). exact Ha. }
    { rewrite R1, lenN_app. lia. }
    rewrite (bind_ok _ _ _ _ _ _ _ E2). rewrite R1 in R2. destruct (H s2 Y2 R2) as (t' & Et & Pt & At).
    rewrite (bind_ok _ _ _ _ _ _ _ Et). exists t'. split; [reflexivity|]. intros _. rewrite At, Pt, P2, T2. eexists. split; [reflexivity|]. reflexivity. }
  destruct v as [b|z|z|z|n|n|l|l|l|l|l|l|l]; cbn [load_next_impl aval_type val_ok] in *.
  - cbn [app] in E. destruct (parse_u8_mv s (spec_bool b) rest Hr E) as (s1 & E1 & M1 & R1 & Y1).
    destruct (SCAL _ parse_u8 1%N (fun y => inr (VBool (bool_of_raw y))) (spec_bool b) s1 (VBool b) E1 M1 Y1) as (s' & H & HC).
    { destruct b; reflexivity. }
    exists s'. split; [|exact HC]. rewrite (bind_ok _ _ _ _ _ _ _ E1) in H. rewrite (bind_ok _ _ _ _ _ _ _ E1). rewrite <- H.
    unfold bind. destruct (update_next_attr_start_offset 0 s1) as [[u|e|] s2]; try reflexivity. destruct b; reflexivity.
  - destruct (parse_sint_mv 2 s z rest Hr E ltac:(lia) Hv) as (s1 & E1 & M1 & R1 & Y1).
    apply (SCAL _ _ _ _ _ _ _ E1 M1 Y1). reflexivity.
  - destruct (parse_sint_mv 4 s z rest Hr E ltac:(lia) Hv) as (s1 & E1 & M1 & R1 & Y1).
    apply (SCAL _ _ _ _ _ _ _ E1 M1 Y1). reflexivity.
  - destruct (parse_sint_mv 8 s z rest Hr E ltac:(lia) Hv) as (s1 & E1 & M1 & R1 & Y1).
    apply (SCAL _ _ _ _ _ _ _ E1 M1 Y1). reflexivity.
  - destruct (parse_uint_mv 4 s n rest Hr E Hv) as (s1 & E1 & M1 & R1 & Y1).
    apply (SCAL _ _ _ _ _ _ _ E1 M1 Y1). reflexivity.
  - destruct (parse_uint_mv 8 s n rest Hr E Hv) as (s1 & E1 & M1 & R1 & Y1).
    apply (SCAL _ _ _ _ _ _ _ E1 M1 Y1). reflexivity.
  - apply (ARR _ el_bool VArrBool l); [discriminate|cbn [elem_bytes]; apply forall_map; reflexivity|cbn [elem_bytes]; apply forall_map; intros []; reflexivity|].
    cbn [elem_bytes]. rewrite map_map. rewrite <- (map_id l) at 2. apply map_ext. intros []; reflexivity.
  - apply (ARR _ el_i32 VArrI32 l); [discriminate|cbn [elem_bytes]; apply forall_map; intros; apply i_enc_length|cbn [elem_bytes]; apply forall_map; reflexivity|].
    cbn [elem_bytes]. apply (map_dec_enc _ _ (i_ok 4)); [|exact Hv]. intros x Hx. apply i_dec_enc; [lia|exact Hx].
  - apply (ARR _ el_i64 VArrI64 l); [discriminate|cbn [elem_bytes]; apply forall_map; intros; apply i_enc_length|cbn [elem_bytes]; apply forall_map; reflexivity|].
    cbn [elem_bytes]. apply (map_dec_enc _ _ (i_ok 8)); [|exact Hv]. intros x Hx. apply i_dec_enc; [lia|exact Hx].
  - apply (ARR _ el_f32 VArrF32 l); [discriminate|cbn [elem_bytes]; apply forall_map; intros; apply le_enc_length|cbn [elem_bytes]; apply forall_map; reflexivity|].
    cbn [elem_bytes]. apply (map_dec_enc _ _ (u_ok 4)); [|exact Hv]. intros x Hx. apply le_dec_enc. exact Hx.
  - apply (ARR _ el_f64 VArrF64 l); [discriminate|cbn [elem_bytes]; apply forall_map; intros; apply le_enc_length|cbn [elem_bytes]; apply forall_map; reflexivity|].
    cbn [elem_bytes]. apply (map_dec_enc _ _ (u_ok 8)); [|exact Hv]. intros x Hx. apply le_dec_enc. exact Hx.
  - apply (SPEC l); [exact E|exact Hf|]. intros t Yt Rt. destruct buffered; eapply read_all_str_run; eauto.
  - apply (SPEC l); [exact E|exact Hf|]. intros t Yt Rt. destruct buffered; eapply read_all_run; eauto.
Qed.

(** *** A whole [load_next] *)

(** The reader can get to [n] with its position right: it seeks, or it is there already. *)
Definition skippable (s : pstate) (n : N) : Prop := r_seekable (p_rd s) = true \/ pos_of s = n.

Lemma skip_mv : forall n s, ready s -> r_seekable (p_rd s) = true -> (pos_of s <= n)%N -> (n - pos_of s <= lenN (rem_of s))%N ->
  exists s', m_skip_to n s = (Ok tt, s') /\ moved (n - pos_of s) s s'.
Proof.
  intros n s [Hc Hr] Hs H1 H2. unfold m_skip_to, rdop. unfold bind.
  destruct (skip_to n (p_rd s)) as [o r'] eqn:E. pose proof (skip_to_calm _ _ _ _ E Hc) as [K1 K2]. apply skip_to_spec in E.
  unfold room, rem_of, pos_of in *. destruct o as [[e|]|].
  - exfalso. eapply K2. reflexivity.
  - destruct E as [_ E]. rewrite Hs in E. eexists. split; [reflexivity|]. split; [reflexivity|]. split; [exact E|]. intros _. exact K1.
  - exfalso. destruct E as [[_ E]|E]; lia.
Qed.
Lemma when_skip_mv : forall n s, ready s -> skippable s n -> (pos_of s <= n)%N -> (n - pos_of s <= lenN (rem_of s))%N ->
  exists s', when (pos_of s <? n)%N (m_skip_to n) s = (Ok tt, s') /\ moved (n - pos_of s) s s'.
Proof.
  intros n s Hr Hs H1 H2. destruct (pos_of s <? n)%N eqn:E.
  - apply N.ltb_lt in E. destruct Hs as [Hs|Hs]; [|lia]. apply skip_mv; auto.
  - apply N.ltb_ge in E. exists s. split; [reflexivity|]. replace (n - pos_of s)%N with 0%N by lia. apply moved_0.
Qed.

(** The attributes [ats] of the current node are still to be loaded, after [junk] unread
    bytes of the previous ones. *)
Definition attrs_at (ats : list attr) (junk rest : list byte) (a : attrs) (s : pstate) : Prop :=
  ready s /\ p_attrs s = Some a /\ a_rest a = lenN ats /\ rem_of s = junk ++ enc_attrs ats ++ rest /\
  a_next a = (pos_of s + lenN junk)%N.

(** The same without a claim about the bytes after those of the attributes to come: [n] of them
    are left, and the next one begins with [bs]. *)
Definition attrs_n (n : N) (junk bs : list byte) (a : attrs) (s : pstate) : Prop :=
  ready s /\ p_attrs s = Some a /\ a_rest a = n /\ rem_of s = junk ++ bs /\
  a_next a = (pos_of s + lenN junk)%N.

Lemma attrs_at_n : forall ats junk rest a s, attrs_at ats junk rest a s -> attrs_n (lenN ats) junk (enc_attrs ats ++ rest) a s.
Proof. intros ats junk rest a s H. exact H. Qed.

Lemma read_next_type_none : forall junk rest a s, attrs_at [] junk rest a s -> read_next_attr_type s = (Ok None, s).
Proof.
  intros junk rest a s (Hr & Ha & Hn & _). unfold read_next_attr_type, get_attrs. unfold bind at 1. rewrite bind_gets, Ha. cbn [ret].
  rewrite Hn. reflexivity.
Qed.

Lemma type_code_spec : forall t, type_of_code (spec_code t) = Some t.
Proof. intros []; reflexivity. Qed.

Lemma read_next_type_n : forall at0 n junk rest a s, attrs_n n junk (enc_attr at0 ++ rest) a s -> (n <> 0)%N -> skippable s (a_next a) ->
  exists s1 s', read_next_attr_type s = (Ok (Some (aval_type (at_val at0))), s') /\
    moved (lenN junk + 1) s s1 /\ s' = set_attrs (Some (mkAttrs (a_total a) (a_rest a - 1) (a_next a))) s1 /\
    ready s' /\ rem_of s' = attr_body at0 ++ rest.
Proof.
  intros at0 n junk rest a s (Hr & Ha & Hn & E & Hx) Hn0 Hk. unfold read_next_attr_type, get_attrs. unfold bind at 1. rewrite bind_gets, Ha. cbn [ret].
  assert (E0 : (a_rest a =? 0)%N = false) by (rewrite Hn; apply N.eqb_neq; lia). rewrite E0.
  unfold reader_pos. rewrite bind_gets. fold (pos_of s).
  destruct (when_skip_mv (a_next a) s Hr Hk) as (s1 & E1 & M1); [lia|rewrite E, lenN_app; lia|].
  rewrite (bind_ok _ _ _ _ _ _ _ E1). unfold read_attr_type. rewrite bind_assoc.
  assert (EJ : (a_next a - pos_of s)%N = lenN junk) by lia. rewrite EJ in M1.
  assert (R1 : rem_of s1 = enc_attr at0 ++ rest) by (eapply moved_app; eauto).
  assert (Y1 : ready s1) by (eapply moved_ready; eauto; rewrite E, lenN_app; lia).
  rewrite enc_attr_split in R1. cbn [app] in R1.
  destruct (parse_u8_mv s1 _ _ Y1 R1) as (s2 & E2 & M2 & R2 & Y2). rewrite (bind_ok _ _ _ _ _ _ _ E2).
  rewrite type_code_spec, bind_ret, bind_modify. exists s2. eexists. split; [reflexivity|].
  split; [apply (moved_trans _ _ _ _ _ M1 M2)|]. split; [reflexivity|]. split; [exact Y2|].
  unfold rem_of in *. cbn. rewrite R2. reflexivity.
Qed.

Lemma read_next_type_mv : forall at0 ats junk rest a s, attrs_at (at0 :: ats) junk rest a s -> skippable s (a_next a) ->
  exists s1 s', read_next_attr_type s = (Ok (Some (aval_type (at_val at0))), s') /\
    moved (lenN junk + 1) s s1 /\ s' = set_attrs (Some (mkAttrs (a_total a) (a_rest a - 1) (a_next a))) s1 /\
    ready s' /\ rem_of s' = attr_body at0 ++ enc_attrs ats ++ rest.
Proof.
  intros at0 ats junk rest a s H Hk. apply (read_next_type_n at0 (lenN (at0 :: ats)) junk (enc_attrs ats ++ rest)); [|rewrite lenN_cons; lia|exact Hk].
  apply attrs_at_n in H. unfold enc_attrs in *. cbn [flat_map] in H. rewrite <- app_assoc in H. exact H.
Qed.

Lemma load_next_none : forall O b (ld : loader O) junk rest a s, p_health s = Running -> attrs_at [] junk rest a s ->
  load_next_gen b ld s = (Ok None, s).
Proof.
  intros O b ld junk rest a s Hh H. unfold load_next_gen, do_with_health_check, ensure_continuable. unfold bind at 1. rewrite Hh.
  unfold get_attrs. unfold bind at 1. pose proof H as (_ & Ha & _). rewrite bind_gets, Ha. cbn [ret].
  unfold bind at 1. unfold try_. unfold bind at 1. rewrite (read_next_type_none _ _ _ _ H). reflexivity.
Qed.

Definition after_load (a : attrs) (at0 : attr) : attrs :=
  mkAttrs (a_total a) (a_rest a - 1) (a_next a + lenN (enc_attr at0)).

Lemma load_next_n : forall O b (ld : loader O) at0 n junk rest a s r s',
  p_health s = Running -> attrs_n n junk (enc_attr at0 ++ rest) a s -> (n <> 0)%N -> skippable s (a_next a) -> attr_ok at0 ->
  load_next_gen b ld s = (r, s') -> r <> Panic ->
  match r with
  | Ok (Some v) => exists m, (m <= lenN junk + lenN (enc_attr at0))%N /\ amoved (after_load a at0) m s s'
  | Ok None => False
  | Err _ => exists p, p_health s' = Aborted p
  | Panic => False
  end.
Proof.
  intros O b ld at0 n junk rest a s r s' Hh H Hn0 Hk Hok HL Hp. unfold load_next_gen, do_with_health_check, ensure_continuable in HL.
  unfold bind at 1 in HL. rewrite Hh in HL.
  unfold get_attrs in HL. unfold bind at 1 in HL. pose proof H as (Hr & Ha & Hn & E & Hx). rewrite bind_gets, Ha in HL. cbn [ret] in HL.
  unfold bind at 1 in HL. unfold try_ in HL.
  destruct (read_next_type_n _ _ _ _ _ _ H Hn0 Hk) as (s1 & s2 & E2 & M1 & T2 & Y2 & R2).
  rewrite (bind_ok _ _ _ _ _ _ _ E2) in HL. unfold bind at 1 in HL.
  destruct (load_next_impl b (aval_type (at_val at0)) ld (a_next a) (a_total a - a_rest a) s2) as [r3 s3] eqn:E3.
  assert (P2 : p_attrs s2 = Some (mkAttrs (a_total a) (a_rest a - 1) (a_next a))) by (rewrite T2; reflexivity).
  destruct r3 as [v|e|]; cbn [ret] in HL.
  - injection HL as <- <-.
    destruct (load_impl_ok O b ld at0 _ _ s2 _ _ _ s3 Y2 P2 R2 Hok E3 ltac:(discriminate)) as (m & Hm & (t & Mt & Tt)).
    rewrite T2 in Mt. apply moved_attrs in Mt. destruct Mt as (t1 & Mt1 & ->).
    exists (lenN junk + 1 + m)%N. rewrite enc_attr_split, lenN_cons. split; [lia|].
    exists t1. split; [apply (moved_trans _ _ _ _ _ M1 Mt1)|]. rewrite Tt. unfold after_load. cbn [a_total a_rest a_next].
    rewrite enc_attr_split, lenN_cons. rewrite T2. 
    assert (Epos : pos_of (set_attrs (Some (mkAttrs (a_total a) (a_rest a - 1) (a_next a))) s1) = (a_next a + 1)%N).
    { change (pos_of s1 = (a_next a + 1)%N). rewrite (moved_pos _ _ _ M1). lia. }
    rewrite Epos, <- N.add_assoc. reflexivity.
  - unfold attr_position in HL. rewrite bind_assoc in HL. unfold bind at 1 in HL. unfold position in HL.
    destruct (position_of s3) as [p|]; [|injection HL as <- <-; congruence]. cbn in HL. injection HL as <- <-. eexists. reflexivity.
  - injection HL as <- <-. congruence.
Qed.

Lemma load_next_mv : forall O b (ld : loader O) at0 ats junk rest a s r s',
  p_health s = Running -> attrs_at (at0 :: ats) junk rest a s -> skippable s (a_next a) -> attr_ok at0 ->
  load_next_gen b ld s = (r, s') -> r <> Panic ->
  match r with
  | Ok (Some v) => exists m, (m <= lenN junk + lenN (enc_attr at0))%N /\ amoved (after_load a at0) m s s'
  | Ok None => False
  | Err _ => exists p, p_health s' = Aborted p
  | Panic => False
  end.
Proof.
  intros O b ld at0 ats junk rest a s r s' Hh H Hk. apply (load_next_n O b ld at0 (lenN (at0 :: ats)) junk (enc_attrs ats ++ rest)); [exact Hh| |rewrite lenN_cons; lia|exact Hk].
  apply attrs_at_n in H. unfold enc_attrs in *. cbn [flat_map] in H. rewrite <- app_assoc in H. exact H.
Qed.

Lemma load_next_direct : forall b at0 ats junk rest a s,
  p_health s = Running -> attrs_at (at0 :: ats) junk rest a s -> skippable s (a_next a) -> attr_ok at0 ->
  exists s', load_next_gen b direct_loader s = (Ok (Some (at_val at0)), s') /\
    (at_zip at0 = false -> exists a', p_attrs s' = Some a' /\ a_next a' = pos_of s').
Proof.
  intros b at0 ats junk rest a s Hh H Hk Hok. unfold load_next_gen, do_with_health_check, ensure_continuable.
  unfold bind at 1. rewrite Hh.
  unfold get_attrs. unfold bind at 1. pose proof H as (Hr & Ha & Hn & E & Hx). rewrite bind_gets, Ha. cbn [ret].
  unfold bind at 1. unfold try_.
  destruct (read_next_type_mv _ _ _ _ _ _ H Hk) as (s1 & s2 & E2 & M1 & T2 & Y2 & R2).
  rewrite (bind_ok _ _ _ _ _ _ _ E2). unfold bind at 1.
  assert (P2 : p_attrs s2 = Some (mkAttrs (a_total a) (a_rest a - 1) (a_next a))) by (rewrite T2; reflexivity).
  destruct (load_impl_direct b at0 (a_next a) (a_total a - a_rest a) s2 _ _ Y2 P2 R2 Hok) as (s3 & E3 & HC). rewrite E3.
  eexists. split; [reflexivity|exact HC].
Qed.

End WithEnv.
