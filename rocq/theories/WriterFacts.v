(** Facts about the writer's monad and sink. *)
Require Import Coq.Lists.List Coq.NArith.NArith Coq.ZArith.ZArith Coq.Bool.Bool Coq.micromega.Lia.
Require Import Coq.Init.Byte.
Require Import ZifyBool ZifyNat ZifyN.
Require Import Verif.Base Verif.BaseFacts Verif.Utf8 Verif.Types Verif.Io Verif.Parser Verif.Writer.
Import ListNotations.
Ltac Zify.zify_post_hook ::= Z.div_mod_to_equations.
Open Scope writer_scope.

(** ** The monad *)
Lemma wbind_ok : forall A B (m : WM A) (k : A -> WM B) s b s', wbind m k s = (Ok b, s') ->
  exists a s1, m s = (Ok a, s1) /\ k a s1 = (Ok b, s').
Proof. intros A B m k s b s' H. unfold wbind in H. destruct (m s) as [[a|e|] s1]; try discriminate. eauto. Qed.

Lemma wbind_inv : forall A B (m : WM A) (k : A -> WM B) s r s', wbind m k s = (r, s') ->
  (exists a s1, m s = (Ok a, s1) /\ k a s1 = (r, s')) \/
  (exists e, m s = (Err e, s') /\ r = Err e) \/ (m s = (Panic, s') /\ r = Panic).
Proof.
  intros A B m k s r s' H. unfold wbind in H. destruct (m s) as [[a|e|] s1].
  - left. eauto.
  - injection H as <- <-. eauto.
  - injection H as <- <-. auto.
Qed.

Lemma wbind_run : forall A B (m : WM A) (k : A -> WM B) s a s1, m s = (Ok a, s1) -> wbind m k s = k a s1.
Proof. intros A B m k s a s1 H. unfold wbind. rewrite H. reflexivity. Qed.

(** ** Writing at a position *)
Lemma takeN_lenN : forall A (a b : list A), takeN (lenN a) (a ++ b) = a.
Proof. intros. apply takeN_app_len. Qed.

Lemma put_at : forall pre bs old, put (lenN pre) bs (pre ++ old) = pre ++ bs ++ dropN (lenN bs) old.
Proof.
  intros pre bs old. unfold put. rewrite takeN_app_len. rewrite lenN_app.
  replace (lenN pre - (lenN pre + lenN old))%N with 0%N by lia. cbn [N.to_nat zeros repeat app].
  rewrite <- dropN_dropN, dropN_app_len. reflexivity.
Qed.

(** The sink holds [pre] up to its position and [old] after it. *)
Definition at_ (pre old : list byte) (k : sink) : Prop :=
  k_data k = pre ++ old /\ k_pos k = lenN pre /\ (lenN pre < pow2_63)%N.

Lemma firstn_lenN_le : forall A n (l : list A), l <> [] -> (0 < lenN (firstn (Pos.to_nat n) l))%N.
Proof.
  intros A n l H. destruct l as [|x l]; [contradiction|]. pose proof (Pos2Nat.is_pos n).
  destruct (Pos.to_nat n) eqn:E; [lia|]. cbn [firstn]. rewrite lenN_cons. lia.
Qed.

(** What a [write_all] does, whether it fails or not. *)
Lemma wr_spec : forall sc bs pre old e data pos sc', (lenN pre < pow2_63)%N ->
  wr sc bs (pre ++ old) (lenN pre) = (e, data, pos, sc') ->
  exists got rest, bs = got ++ rest /\ data = (pre ++ got) ++ dropN (lenN got) old /\ pos = lenN (pre ++ got) /\
    (lenN (pre ++ got) < pow2_63)%N /\ match e with None => rest = [] | Some _ => rest <> [] end.
Proof.
  induction sc as [|a sc IH]; intros bs pre old e data pos sc' HB H.
  - cbn [wr] in H. destruct bs as [|b bs].
    + injection H as <- <- <- <-. exists [], []. rewrite !app_nil_r, lenN_nil, dropN_0. repeat split; auto.
    + destruct (lenN pre + lenN (b :: bs) <? pow2_63)%N eqn:E; injection H as <- <- <- <-.
      * exists (b :: bs), []. rewrite put_at, app_nil_r, lenN_app, <- app_assoc. repeat split; auto. lia.
      * exists [], (b :: bs). rewrite app_nil_r, lenN_nil, dropN_0. repeat split; auto. discriminate.
  - cbn [wr] in H. destruct bs as [|b bs].
    + injection H as <- <- <- <-. exists [], []. rewrite !app_nil_r, lenN_nil, dropN_0. repeat split; auto.
    + destruct a as [k| | |c].
      * set (a := firstn (Pos.to_nat k) (b :: bs)) in *. set (r := skipn (Pos.to_nat k) (b :: bs)) in *.
        assert (S : b :: bs = a ++ r) by (symmetry; apply firstn_skipn). clearbody a r.
        destruct (lenN pre + lenN a <? pow2_63)%N eqn:E.
        -- rewrite put_at, app_assoc, <- lenN_app in H.
           apply IH in H; [|rewrite lenN_app; lia]. destruct H as (got & rest & E1 & E2 & E3 & E4 & E5).
           exists (a ++ got), rest. rewrite S, E1, E2, E3. rewrite !app_assoc, lenN_app, <- dropN_dropN.
           repeat split; auto.
        -- injection H as <- <- <- <-. exists [], (b :: bs). rewrite app_nil_r, lenN_nil, dropN_0. repeat split; auto. discriminate.
      * apply IH in H; auto.
      * injection H as <- <- <- <-. exists [], (b :: bs). rewrite app_nil_r, lenN_nil, dropN_0. repeat split; auto. discriminate.
      * injection H as <- <- <- <-. exists [], (b :: bs). rewrite app_nil_r, lenN_nil, dropN_0. repeat split; auto. discriminate.
Qed.

(** The parts of the state that sink operations leave alone. *)
Definition same (s s' : wstate) : Prop := w_ver s' = w_ver s /\ w_open s' = w_open s.
Lemma same_refl : forall s, same s s. Proof. split; reflexivity. Qed.
Lemma same_trans : forall a b c, same a b -> same b c -> same a c.
Proof. intros a b c [H1 H2] [H3 H4]. split; congruence. Qed.

Lemma write_any : forall wrap bs s r s' pre old, write_as wrap bs s = (r, s') -> at_ pre old (w_sink s) ->
  same s s' /\ r <> Panic /\ exists got rest, bs = got ++ rest /\ at_ (pre ++ got) (dropN (lenN got) old) (w_sink s') /\
  match r with Ok _ => rest = [] | _ => rest <> [] end.
Proof.
  intros wrap bs s r s' pre old H (D & P & L). unfold write_as in H. rewrite D, P in H.
  destruct (wr _ bs (pre ++ old) (lenN pre)) as [[[e data] pos] sc'] eqn:E. injection H as <- <-.
  destruct (wr_spec _ _ _ _ _ _ _ _ L E) as (got & rest & E1 & E2 & E3 & E4 & E5).
  split; [split; reflexivity|]. split; [destruct e; discriminate|]. exists got, rest. split; [exact E1|].
  split; [split; [exact E2|split; [exact E3|exact E4]]|destruct e; exact E5].
Qed.

Lemma write_ok : forall wrap bs s a s' pre old, write_as wrap bs s = (Ok a, s') -> at_ pre old (w_sink s) ->
  same s s' /\ at_ (pre ++ bs) (dropN (lenN bs) old) (w_sink s').
Proof.
  intros wrap bs s a s' pre old H A. destruct (write_any _ _ _ _ _ _ _ H A) as (S & _ & got & rest & -> & X & ->).
  rewrite app_nil_r. auto.
Qed.

Lemma write_each_ok : forall wrap l s a s' pre old, write_each_as wrap l s = (Ok a, s') -> at_ pre old (w_sink s) ->
  same s s' /\ at_ (pre ++ concat l) (dropN (lenN (concat l)) old) (w_sink s').
Proof.
  intros wrap. induction l as [|b l IH]; intros s a s' pre old H A.
  - injection H as <- <-. cbn [concat]. rewrite app_nil_r, lenN_nil, dropN_0. split; [apply same_refl|exact A].
  - cbn [write_each_as] in H. apply wbind_ok in H. destruct H as (x & s1 & H1 & H2).
    destruct (write_ok _ _ _ _ _ _ _ H1 A) as [S1 A1]. destruct (IH _ _ _ _ _ H2 A1) as [S2 A2].
    split; [eapply same_trans; eauto|]. cbn [concat]. rewrite lenN_app, <- dropN_dropN, app_assoc. exact A2.
Qed.

Lemma tell_any : forall s r s' pre old, tell s = (r, s') -> at_ pre old (w_sink s) ->
  same s s' /\ at_ pre old (w_sink s') /\ match r with Ok p => p = lenN pre | Err (WIo _) => True | _ => False end.
Proof.
  intros s r s' pre old H (D & P & L). unfold tell, k_seek in H.
  destruct (k_seeks (w_sink s)) as [|[c|] sk]; injection H as <- <-; repeat split; auto.
Qed.

Lemma tell_ok : forall s p s' pre old, tell s = (Ok p, s') -> at_ pre old (w_sink s) ->
  same s s' /\ at_ pre old (w_sink s') /\ p = lenN pre.
Proof. intros s p s' pre old H A. destruct (tell_any _ _ _ _ _ H A) as (S & A' & E). auto. Qed.

Lemma seek_any : forall p s r s', seek p s = (r, s') ->
  same s s' /\ k_data (w_sink s') = k_data (w_sink s) /\
  match r with Ok _ => k_pos (w_sink s') = p | Err (WIo _) => k_pos (w_sink s') = k_pos (w_sink s) | _ => False end.
Proof.
  intros p s r s' H. unfold seek, k_seek in H.
  destruct (k_seeks (w_sink s)) as [|[c|] sk]; injection H as <- <-; repeat split; auto.
Qed.

Lemma seek_ok : forall p s a s' pre old, seek p s = (Ok a, s') -> k_data (w_sink s) = pre ++ old -> p = lenN pre ->
  (lenN pre < pow2_63)%N -> same s s' /\ at_ pre old (w_sink s').
Proof.
  intros p s a s' pre old H D -> L. destruct (seek_any _ _ _ _ H) as (S & D' & P).
  split; [exact S|]. split; [congruence|]. auto.
Qed.

(** Patching earlier bytes and coming back. *)
Lemma patch_ok : forall (m : WM unit) p q s a s' x h y old h',
  (seek p ;> m ;> seek q) s = (Ok a, s') ->
  (forall s a s' pre old, m s = (Ok a, s') -> at_ pre old (w_sink s) -> same s s' /\ at_ (pre ++ h') (dropN (lenN h') old) (w_sink s')) ->
  at_ (x ++ h ++ y) old (w_sink s) -> p = lenN x -> q = lenN (x ++ h ++ y) -> lenN h' = lenN h ->
  same s s' /\ at_ (x ++ h' ++ y) old (w_sink s').
Proof.
  intros m p q s a s' x h y old h' H Hm (D & P & L) -> -> EL.
  apply wbind_ok in H. destruct H as (u1 & s1 & H1 & H). apply wbind_ok in H. destruct H as (u2 & s2 & H2 & H3).
  assert (L' : (lenN x < pow2_63)%N) by (rewrite lenN_app in L; lia).
  destruct (seek_ok (lenN x) s u1 s1 x (h ++ y ++ old) H1 ltac:(rewrite D, <- !app_assoc; reflexivity) eq_refl L') as [S1 A1].
  destruct (Hm _ _ _ _ _ H2 A1) as [S2 (D2 & P2 & L2)].
  rewrite EL, dropN_app_len in D2.
  destruct (seek_ok (lenN (x ++ h ++ y)) s2 a s' (x ++ h' ++ y) old H3) as [S3 A3].
  - rewrite D2, <- !app_assoc. reflexivity.
  - rewrite !lenN_app. lia.
  - rewrite !lenN_app in *. lia.
  - split; [eapply same_trans; [exact S1|eapply same_trans; eauto]|exact A3].
Qed.

(** ** The errors a computation can return *)
Definition werrs {A} (P : werr -> Prop) (m : WM A) : Prop := forall s e s', m s = (Err e, s') -> P e.
Lemma werrs_bind : forall A B P (m : WM A) (k : A -> WM B), werrs P m -> (forall a, werrs P (k a)) -> werrs P (wbind m k).
Proof.
  intros A B P m k Hm Hk s e s' H. apply wbind_inv in H. destruct H as [(a & s1 & _ & H)|[(e1 & H & X)|[_ X]]]; [eapply Hk; eauto| |discriminate].
  injection X as <-. eapply Hm; eauto.
Qed.
Lemma werrs_ret : forall A P (a : A), werrs P (wret a).
Proof. intros A P a s e s' H. discriminate. Qed.
Lemma werrs_throw : forall A (P : werr -> Prop) e, P e -> werrs P (@wthrow A e).
Proof. intros A P e HP s e' s' H. injection H as <- <-. exact HP. Qed.
Lemma werrs_panic : forall A P, werrs P (@wpanic A).
Proof. intros A P s e s' H. discriminate. Qed.
Lemma werrs_gets : forall A P (f : wstate -> A), werrs P (wgets f).
Proof. intros A P f s e s' H. discriminate. Qed.
Lemma werrs_modify : forall P f, werrs P (wmodify f).
Proof. intros P f s e s' H. discriminate. Qed.
Lemma werrs_write : forall (P : werr -> Prop) wrap bs, (forall e, P (wrap e)) -> werrs P (write_as wrap bs).
Proof.
  intros P wrap bs HP s e s' H. unfold write_as in H. destruct (wr _ _ _ _) as [[[[x|] ?] ?] ?]; [|discriminate].
  injection H as <- _. apply HP.
Qed.
Lemma werrs_tell : forall P : werr -> Prop, (forall e, P (WIo e)) -> werrs P tell.
Proof. intros P HP s e s' H. unfold tell, k_seek in H. destruct (k_seeks (w_sink s)) as [|[c|] sk]; try discriminate. injection H as <- _. apply HP. Qed.
Lemma werrs_seek : forall (P : werr -> Prop) p, (forall e, P (WIo e)) -> werrs P (seek p).
Proof. intros P p HP s e s' H. unfold seek, k_seek in H. destruct (k_seeks (w_sink s)) as [|[c|] sk]; try discriminate. injection H as <- _. apply HP. Qed.
Lemma werrs_sub : forall {env : Env} P a b, werrs P (sub_u64 a b).
Proof. intros env P a b s e s' H. unfold sub_u64 in H. destruct (_ <=? _)%N; [discriminate|]. destruct ovf_checks; discriminate. Qed.
Ltac werr_step :=
  match goal with
  | |- werrs _ (wbind _ _) => apply werrs_bind; [|intro]
  | |- werrs _ (wret _) => apply werrs_ret
  | |- werrs _ (wthrow _) => apply werrs_throw
  | |- werrs _ wpanic => apply werrs_panic
  | |- werrs _ (wgets _) => apply werrs_gets
  | |- werrs _ (wmodify _) => apply werrs_modify
  | |- werrs _ (write _) => apply werrs_write; intro
  | |- werrs _ (write_as _ _) => apply werrs_write; intro
  | |- werrs _ tell => apply werrs_tell; intro
  | |- werrs _ (seek _) => apply werrs_seek; intro
  | |- werrs _ (sub_u64 _ _) => apply werrs_sub
  | |- werrs _ (wwhen _ _) => unfold wwhen
  | |- werrs _ (match ?x with _ => _ end) => destruct x
  | |- werrs _ (if ?x then _ else _) => destruct x
  end.
