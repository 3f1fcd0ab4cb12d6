(** Two runs of the parser on streams that agree up to some offset and may differ after it. *)
Require Import Coq.Lists.List Coq.NArith.NArith Coq.ZArith.ZArith Coq.Bool.Bool Coq.micromega.Lia.
Require Import ZifyBool ZifyNat ZifyN.
Require Import Verif.Base Verif.BaseFacts Verif.Utf8 Verif.Types Verif.Io Verif.IoFacts Verif.Parser Verif.MonadFacts Verif.ParserSteps Verif.ParserShape Verif.ParserHist Verif.ParserPos Verif.ParserRel Verif.Zlib.
Import ListNotations.
Ltac Zify.zify_post_hook ::= Z.div_mod_to_equations.

(** ** Streams *)
Local Open Scope nat_scope.

Lemma firstn_app_le : forall A (a b : list A) n, n <= length a -> firstn n (a ++ b) = firstn n a.
Proof. intros A a b n H. rewrite firstn_app. replace (n - length a) with 0 by lia. cbn. apply app_nil_r. Qed.
Lemma skipn_app_le : forall A (a b : list A) n, n <= length a -> skipn n (a ++ b) = skipn n a ++ b.
Proof. intros A a b n H. rewrite skipn_app. replace (n - length a) with 0 by lia. reflexivity. Qed.

(** Reading from [q ++ x1]: more than [q] is consumed, or the end is hit, or the read from
    [q ++ x2] does the same. *)
Lemma rx_cut : forall x1 x2 sc q n e got rem' sc', rx sc (q ++ x1) n = (e, got, rem', sc') ->
  length q < length got \/ (rem' = [] /\ e <> None) \/
  exists q', rem' = q' ++ x1 /\ length got + length q' = length q /\ rx sc (q ++ x2) n = (e, got, q' ++ x2, sc').
Proof.
  intros x1 x2. induction sc as [|a sc IH]; intros q n e got rem' sc' H; (destruct n as [|n]; [cbn in *; injection H as <- <- <- <-; right; right; exists q; auto|]).
  - cbn [rx] in *. generalize dependent (S n). clear n. intros n H. destruct (Nat.leb_spec n (length (q ++ x1))) as [L|L].
    + injection H as <- <- <- <-. destruct (Nat.le_gt_cases n (length q)) as [Lq|Lq].
      * right; right. exists (skipn n q). rewrite !firstn_app_le, !skipn_app_le by exact Lq.
        split; [reflexivity|]. split; [rewrite firstn_length, skipn_length; lia|].
        replace (Nat.leb n (length (q ++ x2))) with true; [reflexivity|].
        symmetry. apply Nat.leb_le. rewrite app_length. lia.
      * left. rewrite firstn_length. lia.
    + injection H as <- <- <- <-. right; left. split; [reflexivity|discriminate].
  - destruct a as [k| |cd].
    + cbn [rx] in *.
      remember (Nat.min (S n) (Nat.min (Pos.to_nat k) (length (q ++ x1)))) as m eqn:Hm in *.
      destruct m as [|m'] eqn:Em.
      { injection H as <- <- <- <-. right; left. split; [|discriminate].
        assert (length (q ++ x1) = 0) by lia. destruct (q ++ x1); [reflexivity|discriminate]. }
      rewrite <- Em in *.
      destruct (rx sc (skipn m (q ++ x1)) (S n - m)) as [[[e1 g1] rm1] sc1] eqn:E1.
      injection H as <- <- <- <-.
      assert (Lf : length (firstn m (q ++ x1)) = m) by (rewrite firstn_length; lia).
      destruct (Nat.le_gt_cases m (length q)) as [Lq|Lq].
      * rewrite skipn_app_le in E1 by exact Lq. pose proof E1 as E1'.
        apply IH in E1. destruct E1 as [A|[A|(q' & A & B & C)]].
        { left. rewrite app_length, Lf. rewrite skipn_length in A. lia. }
        { auto. }
        destruct (Nat.eq_dec m (Nat.min (S n) (Nat.min (Pos.to_nat k) (length (q ++ x2))))) as [D|D].
        { right; right. exists q'. split; [exact A|]. split; [rewrite app_length, Lf; rewrite skipn_length in B; lia|].
          rewrite <- D, Em. rewrite <- Em.
          rewrite !firstn_app_le, !skipn_app_le by exact Lq. rewrite C. reflexivity. }
        { (* the read stopped at the end of the first stream *)
          assert (length x1 = 0 /\ m = length q /\ m < S n) as (X1 & X2 & X3) by (rewrite !app_length in *; lia).
          destruct x1; [|discriminate]. rewrite app_nil_r in *.
          assert (Z : skipn m q = []) by (rewrite X2; apply skipn_all).
          rewrite Z in *. right; left. pose proof (rx_gen _ _ _ _ _ _ _ E1') as (R1 & R2 & R3 & _).
          destruct g1; [|discriminate]. destruct rm1; [|discriminate]. split; [reflexivity|].
          intros ->. specialize (R3 eq_refl). cbn [length] in R3. lia. }
      * left. rewrite app_length, Lf. lia.
    + cbn [rx] in *. apply IH in H. exact H.
    + cbn [rx] in *. injection H as <- <- <- <-. right; right. exists q. auto.
Qed.

Lemma clip_cut : forall x1 x2 q n, (clip n (q ++ x1) <= length q)%nat ->
  clip n (q ++ x1) = clip n (q ++ x2) \/ (clip n (q ++ x1) = length (q ++ x1) /\ x1 = []).
Proof.
  intros x1 x2 q n H. unfold clip, lenN in *. rewrite !app_length in *.
  destruct x1 as [|b x1]; cbn [length] in *; [|left; lia].
  destruct (N.le_gt_cases n (N.of_nat (length q))); [left; lia | right; split; [lia|reflexivity]].
Qed.

Lemma rte_cut : forall x1 x2 sc q n e got rem' sc', rte sc (q ++ x1) n = (e, got, rem', sc') ->
  length q < length got \/ rem' = [] \/
  exists q', rem' = q' ++ x1 /\ length got + length q' = length q /\ rte sc (q ++ x2) n = (e, got, q' ++ x2, sc').
Proof.
  intros x1 x2. induction sc as [|a sc IH]; intros q n e got rem' sc' H; cbn [rte] in *;
    (destruct (N.eqb_spec n 0) as [Z|Z]; [injection H as <- <- <- <-; right; right; exists q; auto|]).
  - injection H as <- <- <- <-. pose proof (clip_le n (q ++ x1)) as Lc.
    destruct (Nat.le_gt_cases (clip n (q ++ x1)) (length q)) as [Lq|Lq].
    + destruct (clip_cut x1 x2 q n Lq) as [D|[D X]].
      * right; right. exists (skipn (clip n (q ++ x1)) q). rewrite <- D. rewrite !firstn_app_le, !skipn_app_le by exact Lq.
        split; [reflexivity|]. split; [|reflexivity]. rewrite firstn_length, skipn_length. lia.
      * right; left. rewrite D. apply skipn_all.
    + left. rewrite firstn_length. lia.
  - destruct a as [k| |cd].
    + set (m := clip (N.min n (N.pos k)) (q ++ x1)) in *. pose proof (clip_le (N.min n (N.pos k)) (q ++ x1)) as Lc. fold m in Lc.
      destruct m as [|m'] eqn:Em.
      { injection H as <- <- <- <-. right; left. unfold m, clip, lenN in Em.
        assert (length (q ++ x1) = 0) by lia. destruct (q ++ x1); [reflexivity|discriminate]. }
      rewrite <- Em in *.
      destruct (rte sc (skipn m (q ++ x1)) (n - N.of_nat m)) as [[[e1 g1] rm1] sc1] eqn:E1.
      injection H as <- <- <- <-.
      assert (Lf : length (firstn m (q ++ x1)) = m) by (rewrite firstn_length; lia).
      destruct (Nat.le_gt_cases m (length q)) as [Lq|Lq].
      * destruct (clip_cut x1 x2 q (N.min n (N.pos k)) Lq) as [D|[D X]]; fold m in D.
        { rewrite skipn_app_le in E1 by exact Lq. apply IH in E1. destruct E1 as [A|[A|(q' & A & B & C)]].
          - left. rewrite app_length, Lf. rewrite skipn_length in A. lia.
          - auto.
          - right; right. exists q'. split; [exact A|]. split; [rewrite app_length, Lf; rewrite skipn_length in B; lia|].
            rewrite <- D, Em. rewrite <- Em. rewrite !firstn_app_le, !skipn_app_le by exact Lq. rewrite C. reflexivity. }
        { right; left. rewrite D in E1. rewrite skipn_all in E1. apply rte_gen in E1. destruct E1 as (R & _).
          destruct g1; [|discriminate]. destruct rm1; [reflexivity|discriminate]. }
      * left. rewrite app_length, Lf. lia.
    + apply IH in H. exact H.
    + injection H as <- <- <- <-. right; right. exists q. auto.
Qed.

Lemma r1_cut : forall x1 x2 sc q n r rem' sc', r1 sc (q ++ x1) n = (r, rem', sc') ->
  (exists got, r = inr got /\ length q < length got) \/ rem' = [] \/
  exists q', rem' = q' ++ x1 /\ length (match r with inr got => got | inl _ => [] end) + length q' = length q /\
             r1 sc (q ++ x2) n = (r, q' ++ x2, sc').
Proof.
  intros x1 x2 sc q n r rem' sc' H. unfold r1 in *.
  assert (G : forall m s, (inr (firstn m (q ++ x1)), skipn m (q ++ x1), s) = (r, rem', sc') ->
    (exists got, r = inr got /\ length q < length got) \/ rem' = [] \/
    exists q', rem' = q' ++ x1 /\ length (match r with inr got => got | inl _ => [] end) + length q' = length q /\
             (inr (firstn m (q ++ x2)), skipn m (q ++ x2), s) = (r, q' ++ x2, sc')).
  { intros m s E. injection E as <- <- <-. destruct (Nat.le_gt_cases m (length q)) as [L|L].
    - right; right. exists (skipn m q). rewrite !firstn_app_le, !skipn_app_le by exact L.
      split; [reflexivity|]. split; [|reflexivity]. rewrite firstn_length, skipn_length. lia.
    - destruct (Nat.le_gt_cases (length (q ++ x1)) m) as [L'|L'].
      + right; left. apply skipn_all2. exact L'.
      + left. eexists. split; [reflexivity|]. rewrite firstn_length. lia. }
  destruct n as [|n]; [injection H as <- <- <-; right; right; exists q; auto|].
  destruct sc as [|[k| |cd] sc]; try (injection H as <- <- <-; right; right; exists q; auto; fail); apply G; exact H.
Qed.

Section Cut.
Context {env : Env}.
Context (x1 x2 : list byte) (c : N).
Local Open Scope N_scope.

(** The first run stands at an offset up to [c]; the second one differs from it only by what
    follows offset [c]. *)
Definition retail (q : list byte) (r : reader) : reader :=
  mkReader (mkStream (q ++ x2) (s_off (r_stream r)) (s_sched (r_stream r)) (s_seeks (r_stream r))) (r_pos r) (r_seekable r).
Definition rcut (r r' : reader) : Prop :=
  exists q, s_rem (r_stream r) = q ++ x1 /\ s_off (r_stream r) + lenN q = c /\ r' = retail q r.
Definition cut (s s' : pstate) : Prop := exists r', rcut (p_rd s) r' /\ s' = set_rd r' s.

(** The first run is past [c], or it stands at the end of its stream. *)
Definition over (s : pstate) : Prop := c < s_off (r_stream (p_rd s)).
Definition dead (s : pstate) : Prop := s_rem (r_stream (p_rd s)) = [].
Definition gone (s : pstate) : Prop := over s \/ dead s.

Lemma over_fwd : forall s s', fwd s s' -> over s -> over s'.
Proof. intros s s' (_ & _ & _ & d & p & (_ & M & _) & _) H. unfold over in *. rewrite M. lia. Qed.
Lemma gone_fwd : forall s s', fwd s s' -> gone s -> gone s'.
Proof.
  intros s s' F [H|H]; [left; eapply over_fwd; eauto|]. right. unfold dead in *.
  destruct F as (_ & _ & _ & d & p & (M & _) & _). rewrite M, H. rewrite dropN_skipn. apply skipn_nil.
Qed.

(** [crx E m]: if [m] yields a value in the first run, then [E] or it yields the same in the
    second. *)
Definition crx {A} (E : A -> pstate -> Prop) (m : M A) : Prop :=
  steps fwd m /\
  forall s1 s2 a t1, cut s1 s2 -> m s1 = (Ok a, t1) -> E a t1 \/ exists t2, m s2 = (Ok a, t2) /\ cut t1 t2.
Definition cr (esc : pstate -> Prop) {A} (m : M A) : Prop := crx (fun _ => esc) m.

Lemma crx_weaken : forall A (E E' : A -> pstate -> Prop) m, (forall a t, E a t -> E' a t) -> crx E m -> crx E' m.
Proof. intros A E E' m H [F G]. split; [exact F|]. intros s1 s2 a t1 C X. destruct (G _ _ _ _ C X); auto. Qed.
Lemma cr_over_gone : forall A (m : M A), cr over m -> cr gone m.
Proof. intros A m. apply crx_weaken. intros a t H. left. exact H. Qed.

Lemma cut_get : forall s s', cut s s' ->
  p_ver s' = p_ver s /\ p_health s' = p_health s /\ p_stack s' = p_stack s /\ p_last s' = p_last s /\
  p_top s' = p_top s /\ p_handler s' = p_handler s /\ p_log s' = p_log s /\ p_attrs s' = p_attrs s /\
  r_pos (p_rd s') = r_pos (p_rd s) /\ s_off (r_stream (p_rd s')) = s_off (r_stream (p_rd s)) /\
  rcut (p_rd s) (p_rd s').
Proof. intros s s' (r' & C & ->). pose proof C as (q & _ & _ & ->). repeat split; auto. Qed.
Lemma cut_upd : forall (f : pstate -> pstate),
  (forall s r, f (set_rd r s) = set_rd r (f s)) -> (forall s, p_rd (f s) = p_rd s) ->
  forall s s', cut s s' -> cut (f s) (f s').
Proof. intros f H1 H2 s s' (r' & C & ->). exists r'. rewrite H2. split; [exact C | apply H1]. Qed.

Section Esc.
Context (esc : pstate -> Prop).
Context (esc_fwd : forall s s', fwd s s' -> esc s -> esc s').

Lemma c_bindx : forall A B (E : B -> pstate -> Prop) (m : M A) (f : A -> M B),
  (forall b t, esc t -> E b t) -> cr esc m -> (forall a, crx E (f a)) -> crx E (bind m f).
Proof.
  intros A B E m f HE [F G] Hf. split. { apply (st_bind _ fwd_pre); [exact F | intros a; apply (Hf a)]. }
  intros s1 s2 b t1 C H. mstep H as a u1 X; [|discriminate|discriminate].
  destruct (Hf a) as [Fa Ga]. destruct (G _ _ _ _ C X) as [L|(u2 & Y & D)].
  - left. apply HE. apply (esc_fwd u1); [|exact L]. apply (steps_elim _ _ _ _ _ _ Fa H). discriminate.
  - destruct (Ga _ _ _ _ D H) as [L|(t2 & Z & K)]; [left; exact L|]. right. exists t2. split; [|exact K].
    rewrite (bind_ok _ _ _ _ _ _ _ Y). exact Z.
Qed.
Lemma c_bind : forall A B (m : M A) (f : A -> M B), cr esc m -> (forall a, cr esc (f a)) -> cr esc (bind m f).
Proof. intros. apply c_bindx; auto. Qed.
Lemma c_ret : forall A (a : A), cr esc (ret a).
Proof. intros A a. split; [apply (st_ret _ fwd_pre)|]. intros s1 s2 b t1 C H. injection H as <- <-. right. exists s2. auto. Qed.
Lemma c_throw : forall A E e, crx E (@throw A e).
Proof. intros A E e. split; [apply (st_throw _ fwd_pre)|]. intros s1 s2 b t1 C H. discriminate. Qed.
Lemma c_panic : forall A E, crx E (@panic A).
Proof. intros A E. split; [apply (st_panic _ fwd_pre)|]. intros s1 s2 b t1 C H. discriminate. Qed.
Lemma c_when : forall b m, cr esc m -> cr esc (when b m).
Proof. intros [|] m H; [exact H | apply c_ret]. Qed.
Lemma c_assert : forall b, cr esc (assert_ b).
Proof. intros [|]; [apply c_ret | apply c_panic]. Qed.
Lemma c_lift : forall A (r : perr + A), cr esc (lift r).
Proof. intros A [e|a]; [apply c_throw | apply c_ret]. Qed.
Lemma c_gets : forall A (f : pstate -> A), (forall s s', cut s s' -> f s' = f s) -> cr esc (gets f).
Proof.
  intros A f H. split; [apply (st_gets _ fwd_pre)|]. intros s1 s2 a t1 C X. injection X as <- <-.
  right. exists s2. split; [|exact C]. unfold gets. rewrite (H _ _ C). reflexivity.
Qed.
Lemma c_modify : forall f, (forall s, fwd s (f s)) -> (forall s s', cut s s' -> cut (f s) (f s')) -> cr esc (modify f).
Proof.
  intros f F H. split; [apply st_modify; exact F|]. intros s1 s2 a t1 C X. injection X as <- <-.
  right. exists (f s2). split; [reflexivity|]. auto.
Qed.
Lemma c_position : cr esc position.
Proof.
  split; [apply (st_position _ fwd_pre)|]. intros s1 s2 a t1 C H.
  destruct (cut_get _ _ C) as (_ & _ & G & _ & T & _ & _ & _ & P & _).
  unfold position, position_of in *. rewrite G, T, P.
  destruct (p_stack s1); [|destruct (p_top s1 =? 0)]; try discriminate; injection H as <- <-; right; exists s2; auto.
Qed.
Lemma c_ensure : cr esc ensure_continuable.
Proof.
  split; [apply (st_ensure _ fwd_pre)|]. intros s1 s2 a t1 C H.
  destruct (cut_get _ _ C) as (_ & G & _). unfold ensure_continuable in *. rewrite G.
  destruct (p_health s1); try discriminate. injection H as <- <-; right; exists s2; auto.
Qed.
Lemma c_warn : forall w p, cr esc (warn w p).
Proof.
  intros w p. split; [apply steps_qf; apply warn_quiet|]. intros s1 s2 a t1 C H.
  destruct (cut_get _ _ C) as (_ & _ & _ & _ & _ & Gh & Gl & _). unfold warn in *. rewrite Gh, Gl.
  assert (K : cut (set_log ((w, p) :: p_log s1) s1) (set_log ((w, p) :: p_log s1) s2)).
  { apply cut_upd; [reflexivity|reflexivity|exact C]. }
  destruct (p_handler s1) as [h|]; [destruct (h _) as [e|]; [discriminate|]|];
    (injection H as <- <-; right; eexists; split; [reflexivity|exact K]).
Qed.
Lemma c_reader_pos : cr esc reader_pos.
Proof. apply c_gets. intros s s' C. apply (cut_get _ _ C). Qed.
End Esc.

(** ** Reader operations *)
Lemma over_set : forall r s, c < s_off (r_stream r) -> over (set_rd r s).
Proof. intros. exact H. Qed.

Lemma c_rdop : forall A (E : A -> pstate -> Prop) (f : reader -> option A * reader),
  (forall r a r', f r = (Some a, r') -> rd_fwd r r') ->
  (forall s r' a t, rcut (p_rd s) r' -> f (p_rd s) = (Some a, t) ->
     E a (set_rd t s) \/ exists t', f r' = (Some a, t') /\ rcut t t') -> crx E (rdop f).
Proof.
  intros A E f F H. split; [apply steps_qf; apply quieta_rdop; exact F|].
  intros s1 s2 a t1 C X. destruct (cut_get _ _ C) as (_ & _ & _ & _ & _ & _ & _ & _ & _ & _ & R).
  unfold rdop in *. destruct (f (p_rd s1)) as [[v|] t] eqn:Ef; [|discriminate]. injection X as <- <-.
  destruct (H s1 _ _ _ R Ef) as [L|(t' & Y & K)]; [left; exact L|]. right. rewrite Y.
  eexists. split; [reflexivity|]. exists t'. split; [exact K|]. destruct C as (r' & _ & ->). reflexivity.
Qed.

Lemma rcut_intro : forall q' rem off sc sk pos seekable, rem = q' ++ x1 -> off + lenN q' = c ->
  rcut (mkReader (mkStream rem off sc sk) pos seekable) (mkReader (mkStream (q' ++ x2) off sc sk) pos seekable).
Proof. intros. exists q'. cbn. split; [assumption|]. split; [assumption|]. reflexivity. Qed.

Lemma c_try_read : forall n, crx (fun r t => over t \/ (dead t /\ exists e, r = inl e)) (try_read n).
Proof.
  intros n. apply c_rdop; [apply rd_exact_fwd|]. intros s r' a t (q & Hq & Ho & ->) H.
  unfold rd_exact in *. cbn [retail r_stream s_sched s_rem s_off s_seeks r_pos].
  destruct (rx (s_sched (r_stream (p_rd s))) (s_rem (r_stream (p_rd s))) n) as [[[e got] rem'] sc'] eqn:E.
  rewrite Hq in E. destruct (advance (r_pos (p_rd s)) (lenN got)) as [p|] eqn:Ea; [|discriminate]. injection H as <- <-.
  destruct (rx_cut x1 x2 _ _ _ _ _ _ _ E) as [L|[[D N]|(q' & A & B & C)]].
  - left; left. apply over_set. cbn. unfold lenN in *. lia.
  - left; right. split; [exact D|]. destruct e; [eauto|congruence].
  - right. rewrite C. rewrite Ea. eexists. split; [reflexivity|]. apply rcut_intro; [exact A|]. unfold lenN in *. lia.
Qed.
Lemma c_read_exact : forall n, cr over (read_exact n).
Proof.
  intros n. split; [apply steps_qf; apply read_exact_quiet|]. intros s1 s2 a t1 C H.
  unfold read_exact in H. mstep H as r u X; [|discriminate|discriminate].
  destruct r as [e|bs]; [discriminate|]. injection H as <- <-.
  destruct (proj2 (c_try_read n) _ _ _ _ C X) as [[L|[_ [e L]]]|(t2 & Y & K)]; [left; exact L|discriminate|].
  right. exists t2. split; [|exact K]. unfold read_exact. rewrite (bind_ok _ _ _ _ _ _ _ Y). reflexivity.
Qed.
Lemma c_exact : forall n, cr gone (rdop (rd_exact n)).
Proof. intros n. eapply crx_weaken; [|apply c_try_read]. intros a t [H|[H _]]; [left|right]; exact H. Qed.
Lemma c_to_end : forall n, cr gone (rdop (rd_to_end n)).
Proof.
  intros n. apply c_rdop; [apply rd_to_end_fwd|]. intros s r' a t (q & Hq & Ho & ->) H.
  unfold rd_to_end in *. cbn [retail r_stream s_sched s_rem s_off s_seeks r_pos].
  destruct (rte (s_sched (r_stream (p_rd s))) (s_rem (r_stream (p_rd s))) n) as [[[e got] rem'] sc'] eqn:E.
  rewrite Hq in E. destruct (advance (r_pos (p_rd s)) (lenN got)) as [p|] eqn:Ea; [|discriminate]. injection H as <- <-.
  destruct (rte_cut x1 x2 _ _ _ _ _ _ _ E) as [L|[D|(q' & A & B & C)]].
  - left; left. apply over_set. cbn. unfold lenN in *. lia.
  - left; right. exact D.
  - right. rewrite C. rewrite Ea. eexists. split; [reflexivity|]. apply rcut_intro; [exact A|]. unfold lenN in *. lia.
Qed.
Lemma c_once : forall n, cr gone (rdop (rd_once n)).
Proof.
  intros n. apply c_rdop; [apply rd_once_fwd|]. intros s r' a t (q & Hq & Ho & ->) H.
  unfold rd_once in *. cbn [retail r_stream s_sched s_rem s_off s_seeks r_pos].
  destruct (r1 (s_sched (r_stream (p_rd s))) (s_rem (r_stream (p_rd s))) n) as [[r rem'] sc'] eqn:E.
  rewrite Hq in E. destruct (r1_cut x1 x2 _ _ _ _ _ _ E) as [(got & -> & L)|[D|(q' & A & B & C)]].
  - destruct (advance (r_pos (p_rd s)) (lenN got)) as [p|]; [|discriminate]. injection H as <- <-.
    left; left. apply over_set. cbn. unfold lenN in *. lia.
  - destruct (advance (r_pos (p_rd s)) _) as [p|]; [|discriminate]. injection H as <- <-. left; right. exact D.
  - rewrite C. destruct (advance (r_pos (p_rd s)) _) as [p|] eqn:Ea; [|discriminate]. injection H as <- <-.
    right. eexists. split; [reflexivity|]. apply rcut_intro; [exact A|]. destruct r; unfold lenN in *; cbn [length] in *; lia.
Qed.

(** Dropping bytes; if the runs stay together the offset moves by exactly that much. *)
Lemma drop_cut : forall n s1 s2 t1, cut s1 s2 -> rdop (rd_drop n) s1 = (Ok tt, t1) ->
  (dead t1 /\ lenN (s_rem (r_stream (p_rd s1))) < n) \/
  (s_off (r_stream (p_rd t1)) = s_off (r_stream (p_rd s1)) + n /\
   (over t1 \/ exists t2, rdop (rd_drop n) s2 = (Ok tt, t2) /\ cut t1 t2)).
Proof.
  intros n s1 s2 t1 C H. destruct (cut_get _ _ C) as (_ & _ & _ & _ & _ & _ & _ & _ & _ & _ & R).
  destruct C as (r' & (q & Hq & Ho & ->) & ->). unfold rdop, rd_drop in *.
  destruct (advance (r_pos (p_rd s1)) (N.of_nat (clip n (s_rem (r_stream (p_rd s1)))))) as [p|] eqn:Ea; [|discriminate].
  injection H as <-. cbn [retail r_stream s_sched s_rem s_off s_seeks r_pos set_rd p_rd].
  destruct (N.le_gt_cases n (lenN (s_rem (r_stream (p_rd s1))))) as [L|L].
  - right. assert (K1 : N.of_nat (clip n (s_rem (r_stream (p_rd s1)))) = n) by (unfold clip; lia).
    cbn [set_rd p_rd with_stream r_stream s_off]. split; [lia|].
    destruct (N.le_gt_cases n (lenN q)) as [L'|L'].
    + right. assert (K2 : N.of_nat (clip n (q ++ x2)) = n) by (unfold clip; rewrite lenN_app; lia).
      assert (K3 : clip n (q ++ x2) = clip n (s_rem (r_stream (p_rd s1)))) by lia.
      rewrite K3, Ea. eexists. split; [reflexivity|].
      assert (K4 : (clip n (s_rem (r_stream (p_rd s1))) <= length q)%nat) by (unfold lenN in *; lia).
      rewrite skipn_app_le by exact K4.
      eexists. split; [|reflexivity]. cbn [set_rd p_rd with_stream]. apply rcut_intro.
      { clear - Hq K4. revert K4. generalize (clip n (s_rem (r_stream (p_rd s1)))). intros k K4. rewrite Hq. apply skipn_app_le. exact K4. }
      unfold lenN in *. rewrite skipn_length. lia.
    + left. apply over_set. cbn. lia.
  - left. split; [|exact L]. unfold dead. cbn. apply skipn_all2. unfold clip, lenN in *. lia.
Qed.
Lemma c_drop : forall n, cr gone (rdop (rd_drop n)).
Proof.
  intros n. split; [apply steps_qf; apply quieta_rdop; apply rd_drop_fwd|]. intros s1 s2 [] t1 C H.
  destruct (drop_cut n s1 s2 t1 C H) as [[D _]|(_ & [O|K])]; [left; right; exact D|left; left; exact O|right; exact K].
Qed.

(** Skipping: also the errors are the same. *)
Lemma seek_cut : forall ps r r' a t, rcut r r' -> seek_all ps r = (a, t) -> a <> None ->
  c < s_off (r_stream t) \/ exists t', seek_all ps r' = (a, t') /\ rcut t t'.
Proof.
  induction ps as [|p ps IH]; intros r r' a t C H Ha; cbn [seek_all] in *.
  - injection H as <- <-. right. exists r'. auto.
  - destruct (seek_part p r) as [b u] eqn:Ep.
    assert (K : b <> None -> c < s_off (r_stream u) \/ exists u', seek_part p r' = (b, u') /\ rcut u u').
    { intros Hb. destruct C as (q & Hq & Ho & ->). unfold seek_part in *. cbn [retail r_stream s_sched s_rem s_off s_seeks r_pos].
      assert (G : forall sk, (let s' := mkStream (dropN p (s_rem (r_stream r))) (s_off (r_stream r) + p) (s_sched (r_stream r)) sk in
          match seek_move (r_pos r) p with
          | None => (None, with_stream r s' (r_pos r))
          | Some q => (Some None, with_stream r s' q)
          end) = (b, u) -> c < s_off (r_stream u) \/ exists u',
          (let s' := mkStream (dropN p (q ++ x2)) (s_off (r_stream r) + p) (s_sched (r_stream r)) sk in
          match seek_move (r_pos r) p with
          | None => (None, with_stream (retail q r) s' (r_pos r))
          | Some p' => (Some None, with_stream (retail q r) s' p')
          end) = (b, u') /\ rcut u u').
      { intros sk G. cbn zeta in *. destruct (seek_move (r_pos r) p) as [p'|]; [|congruence]. injection G as <- <-.
        destruct (N.le_gt_cases p (lenN q)) as [L|L].
        - right. eexists. split; [reflexivity|]. rewrite dropN_app_le by exact L. apply rcut_intro.
          + rewrite Hq. apply dropN_app_le. exact L.
          + rewrite lenN_dropN. lia.
        - left. cbn. lia. }
      destruct (s_seeks (r_stream r)) as [|[cd|] sk].
      + apply G. exact Ep.
      + injection Ep as <- <-. right. eexists. split; [reflexivity|]. apply rcut_intro; assumption.
      + apply G. exact Ep. }
    destruct b as [[e|]|].
    + injection H as <- <-. destruct (K ltac:(discriminate)) as [L|(u' & Y & D)]; [left; exact L|]. right. rewrite Y. eauto.
    + destruct (K ltac:(discriminate)) as [L|(u' & Y & D)].
      * left. apply seek_all_spec in H. destruct a as [[e|]|].
        { destruct H as (d & _ & (_ & M & _) & _). rewrite M. lia. }
        { destruct H as ((_ & M & _) & _). rewrite M. lia. }
        { congruence. }
      * rewrite Y. apply IH with (r := u); assumption.
    + injection H as <- <-. congruence.
Qed.
Lemma skip_cut : forall n r r' a t, rcut r r' -> skip_to n r = (Some a, t) ->
  c < s_off (r_stream t) \/ s_rem (r_stream t) = [] \/ exists t', skip_to n r' = (Some a, t') /\ rcut t t'.
Proof.
  intros n r r' a t C H. pose proof C as (q & Hq & Ho & Er). unfold skip_to in *.
  assert (P : r_pos r' = r_pos r) by (rewrite Er; reflexivity). rewrite P.
  destruct (n <? r_pos r); [discriminate|]. unfold skip_distance in *.
  assert (S : r_seekable r' = r_seekable r) by (rewrite Er; reflexivity). rewrite S.
  destruct (r_seekable r).
  - unfold skip_distance_seekable in *. destruct (seek_cut _ _ _ _ _ C H) as [L|R]; [discriminate|left; exact L|right; right; exact R].
  - unfold skip_distance_plain in *. rewrite Er. cbn [retail r_stream s_sched s_rem s_off s_seeks r_pos].
    destruct (rte (s_sched (r_stream r)) (s_rem (r_stream r)) (n - r_pos r)) as [[[e got] rem'] sc'] eqn:E.
    rewrite Hq in E. injection H as <- <-.
    destruct (rte_cut x1 x2 _ _ _ _ _ _ _ E) as [L|[D|(q' & A & B & K)]].
    + left. cbn. unfold lenN in *. lia.
    + right; left. exact D.
    + right; right. rewrite K. eexists. split; [reflexivity|]. apply rcut_intro; [exact A|]. unfold lenN in *. lia.
Qed.
Lemma c_skip_op : forall n, cr gone (rdop (skip_to n)).
Proof.
  intros n. apply c_rdop; [apply skip_to_fwd|]. intros s r' a t C H.
  destruct (skip_cut _ _ _ _ _ C H) as [L|[L|L]]; [left; left; exact L|left; right; exact L|right; exact L].
Qed.
End Cut.
