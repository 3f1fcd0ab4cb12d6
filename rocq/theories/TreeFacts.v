(** Facts about the arena: what the link operations do to sibling lists. *)
Require Import Coq.Lists.List Coq.Arith.PeanoNat Coq.Bool.Bool Lia.
Require Import Verif.Base Verif.Types Verif.Values Verif.Tree.
Import ListNotations.

(** ** Lists *)

Definition last_opt {A} (l : list A) : option A := hd_error (rev l).

Lemma last_opt_app : forall A (l : list A) x, last_opt (l ++ [x]) = Some x.
Proof. intros. unfold last_opt. rewrite rev_app_distr. reflexivity. Qed.

Lemma last_opt_some : forall A (l : list A) x, last_opt l = Some x -> exists k, l = k ++ [x].
Proof.
  intros A l x H. unfold last_opt in H. destruct (rev l) as [|y k] eqn:E; [discriminate|].
  injection H as ->. exists (rev k). rewrite <- (rev_involutive l), E. reflexivity.
Qed.

Lemma last_opt_none : forall A (l : list A), last_opt l = None -> l = [].
Proof.
  intros A l H. unfold last_opt in H. destruct (rev l) as [|y k] eqn:E; [|discriminate].
  rewrite <- (rev_involutive l), E. reflexivity.
Qed.

Lemma hd_error_some : forall A (l : list A) x, hd_error l = Some x -> exists k, l = x :: k.
Proof. intros A [|y k] x H; [discriminate|]. injection H as ->. eauto. Qed.

Lemma hd_error_none : forall A (l : list A), hd_error l = None -> l = [].
Proof. intros A [|y k] H; [reflexivity|discriminate]. Qed.

Lemma last_opt_in : forall A (l : list A) x, last_opt l = Some x -> In x l.
Proof. intros A l x H. apply last_opt_some in H as [k ->]. rewrite in_app_iff. cbn; auto. Qed.

Lemma hd_error_in : forall A (l : list A) x, hd_error l = Some x -> In x l.
Proof. intros A l x H. apply hd_error_some in H as [k ->]. cbn; auto. Qed.

Lemma hd_error_app : forall A (l m : list A), hd_error (l ++ m) = or_else (hd_error l) (hd_error m).
Proof. intros A [|x l] m; reflexivity. Qed.

Lemma last_opt_app2 : forall A (l m : list A), last_opt (l ++ m) = or_else (last_opt m) (last_opt l).
Proof. intros A l m. unfold last_opt. rewrite rev_app_distr. apply hd_error_app. Qed.

Lemma nodup_mid : forall (l1 l2 : list nat) x, NoDup (l1 ++ x :: l2) <->
  NoDup (l1 ++ l2) /\ ~ In x (l1 ++ l2).
Proof.
  intros l1 l2 x. split.
  - intros H. split; [eapply NoDup_remove_1; eauto|eapply NoDup_remove_2; eauto].
  - intros [H1 H2]. induction l1 as [|a l1 IH]; cbn in *; [constructor; auto|].
    inversion H1; subst. constructor.
    + rewrite in_app_iff in *. cbn. intros [H|[H|H]]; [apply H3; auto|subst; apply H2; auto|apply H3; auto].
    + apply IH; auto.
Qed.

Lemma nodup_split : forall (a b c d : list nat) i,
  NoDup (a ++ i :: b) -> a ++ i :: b = c ++ i :: d -> a = c /\ b = d.
Proof.
  induction a as [|x a IH]; intros b c d i H E.
  - destruct c as [|y c]; cbn in E; injection E.
    + intros ->. auto.
    + intros E2 ->. exfalso. cbn in H. inversion H as [|? ? N _]; subst. apply N. rewrite in_app_iff. cbn; auto.
  - destruct c as [|y c]; cbn in E; injection E.
    + intros E2 ->. exfalso. cbn in H. inversion H as [|? ? N _]; subst. apply N. rewrite in_app_iff. cbn; auto.
    + intros E2 ->. cbn in H. inversion H; subst. destruct (IH _ _ _ _ H3 E2) as [-> ->]. auto.
Qed.

Notation rm := (remove Nat.eq_dec).

Lemma rm_notin : forall x l, ~ In x l -> rm x l = l.
Proof. intros. apply notin_remove. assumption. Qed.

Lemma rm_mid : forall x l1 l2, ~ In x (l1 ++ l2) -> rm x (l1 ++ x :: l2) = l1 ++ l2.
Proof.
  intros x l1 l2 H. rewrite remove_app. rewrite in_app_iff in H. rewrite rm_notin by tauto.
  rewrite remove_cons, rm_notin by tauto. reflexivity.
Qed.

Lemma in_rm : forall x y l, In y (rm x l) <-> In y l /\ y <> x.
Proof. intros. split; [apply in_remove|intros [H1 H2]; apply in_in_remove; auto]. Qed.

Lemma nodup_rm : forall x l, NoDup l -> NoDup (rm x l).
Proof.
  induction l as [|y l IH]; intros H; [assumption|]. inversion H; subst. cbn [remove].
  destruct (Nat.eq_dec x y); [auto|]. constructor; [|auto]. rewrite in_rm. tauto.
Qed.

(** ** Updates *)

Lemma upd_length : forall A i f (l : list A), length (upd i f l) = length l.
Proof. intros A i f l. revert i. induction l as [|x l IH]; intros [|i]; cbn; auto. Qed.

Lemma nth_upd : forall A i j f (l : list A),
  nth_error (upd i f l) j = if Nat.eqb j i then option_map f (nth_error l i) else nth_error l j.
Proof.
  intros A i j f l. revert i j. induction l as [|x l IH]; intros [|i] [|j]; cbn; try reflexivity.
  - destruct (Nat.eqb j i); reflexivity.
  - apply IH.
Qed.

Lemma used_lt : forall a i, used a i = true <-> i < length a.
Proof. intros. apply Nat.ltb_lt. Qed.

Lemma lk_other : forall f g a i j, (forall s, f (g s) = f s) -> lk f (upd i g a) j = lk f a j.
Proof.
  intros f g a i j H. unfold lk. rewrite nth_upd. destruct (Nat.eqb_spec j i); [|reflexivity].
  subst. destruct (nth_error a i); cbn; auto.
Qed.

Lemma lk_set : forall f g a i j v, i < length a -> (forall s, f (g s) = v) ->
  lk f (upd i g a) j = if Nat.eqb j i then v else lk f a j.
Proof.
  intros f g a i j v L H. unfold lk. rewrite nth_upd. destruct (Nat.eqb_spec j i); [|reflexivity].
  subst. destruct (nth_error a i) eqn:E; cbn; auto. apply nth_error_None in E. lia.
Qed.

(** What is not a link. *)
Definition payload (a : arena) (i : nat) : option (nat * list aval) :=
  option_map (fun s => (sl_name s, sl_attrs s)) (nth_error a i).

Lemma payload_upd : forall g a i j, (forall s, sl_name (g s) = sl_name s /\ sl_attrs (g s) = sl_attrs s) ->
  payload (upd i g a) j = payload a j.
Proof.
  intros g a i j H. unfold payload. rewrite nth_upd. destruct (Nat.eqb_spec j i); [|reflexivity].
  subst. destruct (nth_error a i) as [s|]; cbn; [|reflexivity]. destruct (H s) as [-> ->]. reflexivity.
Qed.

Definition lt_opt (o : option nat) (n : nat) := match o with Some i => i < n | None => True end.

Section Connect.
Context (par prev next : option nat) (a : arena)
  (Hpar : lt_opt par (length a)) (Hprev : lt_opt prev (length a)) (Hnext : lt_opt next (length a)).
Let c := connect_neighbors par prev next a.

Lemma connect_length : length c = length a.
Proof.
  unfold c, connect_neighbors. destruct par, prev, next; rewrite ?upd_length; reflexivity.
Qed.
Lemma connect_payload : forall i, payload c i = payload a i.
Proof.
  intros i. unfold c, connect_neighbors. destruct par, prev, next; rewrite ?payload_upd; auto.
Qed.
Lemma connect_parent : forall i, lk sl_parent c i = lk sl_parent a i.
Proof.
  intros i. unfold c, connect_neighbors. destruct par, prev, next; rewrite ?lk_other; auto.
Qed.
Lemma connect_next : forall i, lk sl_next c i =
  match prev with Some q => if Nat.eqb i q then next else lk sl_next a i | None => lk sl_next a i end.
Proof.
  intros i. unfold c, connect_neighbors. destruct par, prev, next; cbn in *;
    rewrite ?lk_other by auto; try reflexivity; apply lk_set; auto.
Qed.
Lemma connect_prev : forall i, lk sl_prev c i =
  match next with Some q => if Nat.eqb i q then prev else lk sl_prev a i | None => lk sl_prev a i end.
Proof.
  intros i. unfold c, connect_neighbors. destruct par, prev, next; cbn in *;
    rewrite ?(lk_other sl_prev (set_ends _ _)) by auto; rewrite ?(lk_other sl_prev (set_next _)) by auto; try reflexivity;
    (erewrite lk_set; [|rewrite ?upd_length; eassumption|intros; cbn; reflexivity]);
    rewrite ?(lk_other sl_prev (set_next _)) by auto; reflexivity.
Qed.
Lemma connect_first : forall i, lk sl_first c i =
  match par with
  | Some p => if Nat.eqb i p
              then match prev with Some q => or_else (lk sl_first a p) (Some q) | None => next end
              else lk sl_first a i
  | None => lk sl_first a i
  end.
Proof.
  intros i. unfold c, connect_neighbors. destruct par as [p|]; cbn [lt_opt] in *.
  - erewrite lk_set; [|destruct prev, next; rewrite ?upd_length; assumption|intros; cbn; reflexivity].
    destruct prev, next; rewrite ?lk_other by auto; reflexivity.
  - destruct prev, next; rewrite ?lk_other by auto; reflexivity.
Qed.
Lemma connect_last : forall i, lk sl_last c i =
  match par with
  | Some p => if Nat.eqb i p
              then match next with Some q => or_else (lk sl_last a p) (Some q) | None => prev end
              else lk sl_last a i
  | None => lk sl_last a i
  end.
Proof.
  intros i. unfold c, connect_neighbors. destruct par as [p|]; cbn [lt_opt] in *.
  - erewrite lk_set; [|destruct prev, next; rewrite ?upd_length; assumption|intros; cbn; reflexivity].
    destruct prev, next; rewrite ?lk_other by auto; reflexivity.
  - destruct prev, next; rewrite ?lk_other by auto; reflexivity.
Qed.
End Connect.

(** ** Consistent links

    [sib i] is the list of the siblings of [i] ([i] included), [ch p] the list of the
    children of [p]. *)
Record links (a : arena) (sib ch : nat -> list nat) : Prop := mkLinks {
  l_self : forall i, i < length a -> In i (sib i);
  l_nodup : forall i, i < length a -> NoDup (sib i);
  l_same : forall i j, i < length a -> In j (sib i) ->
    j < length a /\ sib j = sib i /\ lk sl_parent a j = lk sl_parent a i;
  l_up : forall i p, i < length a -> lk sl_parent a i = Some p -> p < length a /\ ch p = sib i;
  l_down : forall p j, p < length a -> In j (ch p) -> j < length a /\ lk sl_parent a j = Some p;
  l_nb : forall i l1 l2, i < length a -> sib i = l1 ++ i :: l2 ->
    lk sl_prev a i = last_opt l1 /\ lk sl_next a i = hd_error l2;
  l_ends : forall p, p < length a -> lk sl_first a p = hd_error (ch p) /\ lk sl_last a p = last_opt (ch p)
}.

Lemma lk_range : forall f a i v, lk f a i = Some v -> i < length a.
Proof.
  intros f a i v H. unfold lk in H. destruct (nth_error a i) eqn:E; [|discriminate].
  apply nth_error_Some. congruence.
Qed.

Lemma links_nb_range : forall a sib ch i, links a sib ch -> i < length a ->
  lt_opt (lk sl_prev a i) (length a) /\ lt_opt (lk sl_next a i) (length a) /\ lt_opt (lk sl_parent a i) (length a).
Proof.
  intros a sib ch i L Hi. destruct (in_split _ _ (l_self _ _ _ L i Hi)) as (l1 & l2 & E).
  destruct (l_nb _ _ _ L i l1 l2 Hi E) as [-> ->].
  assert (R : forall j, In j (l1 ++ i :: l2) -> j < length a).
  { intros j Hj. rewrite <- E in Hj. apply (l_same _ _ _ L i j Hi Hj). }
  split; [|split].
  - destruct (last_opt l1) eqn:E1; cbn; [|exact I]. apply R. rewrite in_app_iff. left. apply last_opt_in, E1.
  - destruct (hd_error l2) eqn:E1; cbn; [|exact I]. apply R. rewrite in_app_iff. right. right. apply hd_error_in, E1.
  - destruct (lk sl_parent a i) eqn:E1; cbn; [|exact I]. apply (l_up _ _ _ L i n Hi E1).
Qed.

(** ** Detaching *)

Lemma detach_links : forall a sib ch x, links a sib ch -> x < length a ->
  exists a', a_detach x a = Some a' /\ length a' = length a /\
    (forall i, payload a' i = payload a i) /\
    (forall i, lk sl_parent a' i = if Nat.eqb i x then None else lk sl_parent a i) /\
    links a' (fun y => if Nat.eqb y x then [x] else rm x (sib y)) (fun p => rm x (ch p)).
Proof.
  intros a sib ch x L Hx. unfold a_detach.
  destruct (nth_error a x) as [s|] eqn:ES; [|apply nth_error_None in ES; lia].
  assert (Epar : sl_parent s = lk sl_parent a x) by (unfold lk; rewrite ES; reflexivity).
  assert (Eprev : sl_prev s = lk sl_prev a x) by (unfold lk; rewrite ES; reflexivity).
  assert (Enext : sl_next s = lk sl_next a x) by (unfold lk; rewrite ES; reflexivity).
  rewrite Epar, Eprev, Enext. clear s ES Epar Eprev Enext.
  destruct (links_nb_range a sib ch x L Hx) as (Rp & Rn & Rq).
  destruct (in_split _ _ (l_self _ _ _ L x Hx)) as (l1 & l2 & E).
  pose proof (l_nodup _ _ _ L x Hx) as ND. rewrite E in ND. apply nodup_mid in ND as [ND NI].
  destruct (l_nb _ _ _ L x l1 l2 Hx E) as [Ep En].
  set (a1 := upd x (fun s => set_prev None (set_next None s)) a).
  assert (La1 : length a1 = length a) by apply upd_length.
  rewrite <- La1 in Rp, Rn, Rq.
  set (a2 := connect_neighbors (lk sl_parent a x) (lk sl_prev a x) (lk sl_next a x) a1).
  assert (La2 : length a2 = length a) by (unfold a2; rewrite connect_length by assumption; exact La1).
  assert (P1 : forall i, lk sl_parent a1 i = lk sl_parent a i) by (intros; apply lk_other; reflexivity).
  assert (F1 : forall i, lk sl_first a1 i = lk sl_first a i) by (intros; apply lk_other; reflexivity).
  assert (G1 : forall i, lk sl_last a1 i = lk sl_last a i) by (intros; apply lk_other; reflexivity).
  assert (V1 : forall i, lk sl_prev a1 i = if Nat.eqb i x then None else lk sl_prev a i) by (intros; apply lk_set; [exact Hx|reflexivity]).
  assert (N1 : forall i, lk sl_next a1 i = if Nat.eqb i x then None else lk sl_next a i) by (intros; apply lk_set; [exact Hx|reflexivity]).
  exists (upd x (set_parent None) a2). split; [reflexivity|]. split; [rewrite upd_length; exact La2|].
  split.
  { intros i. rewrite payload_upd by auto. unfold a2. rewrite connect_payload by assumption. unfold a1. apply payload_upd. auto. }
  assert (PP : forall i, lk sl_parent (upd x (set_parent None) a2) i = if Nat.eqb i x then None else lk sl_parent a i).
  { intros i. rewrite lk_set with (v := None); [|rewrite La2; exact Hx|reflexivity].
    unfold a2. rewrite connect_parent, P1 by assumption. reflexivity. }
  split; [exact PP|].
  set (a3 := upd x (set_parent None) a2) in *.
  assert (La3 : length a3 = length a) by (unfold a3; rewrite upd_length; exact La2).
  assert (NN : forall i, lk sl_next a3 i =
     match lk sl_prev a x with Some q => if Nat.eqb i q then lk sl_next a x else lk sl_next a1 i | None => lk sl_next a1 i end).
  { intros i. unfold a3. rewrite lk_other by reflexivity. unfold a2. apply connect_next; assumption. }
  assert (VV : forall i, lk sl_prev a3 i =
     match lk sl_next a x with Some q => if Nat.eqb i q then lk sl_prev a x else lk sl_prev a1 i | None => lk sl_prev a1 i end).
  { intros i. unfold a3. rewrite lk_other by reflexivity. unfold a2. apply connect_prev; assumption. }
  assert (FF : forall p, p < length a -> lk sl_first a3 p = hd_error (rm x (ch p))).
  { intros p Hp. unfold a3. rewrite lk_other by reflexivity. unfold a2. rewrite connect_first by assumption.
    destruct (l_ends _ _ _ L p Hp) as [EF EL].
    destruct (lk sl_parent a x) as [q|] eqn:EQ.
    - destruct (l_up _ _ _ L x q Hx EQ) as [Hq Eq].
      destruct (Nat.eqb_spec p q).
      + subst q. rewrite F1, EF, Eq, E, rm_mid by exact NI. rewrite Ep, En.
        destruct (last_opt l1) eqn:E1.
        * apply last_opt_some in E1 as [k ->]. destruct k; reflexivity.
        * apply last_opt_none in E1. subst l1. reflexivity.
      + rewrite F1, EF, rm_notin; [reflexivity|]. intros HI. apply (l_down _ _ _ L p x Hp) in HI. destruct HI; congruence.
    - rewrite F1, EF, rm_notin; [reflexivity|]. intros HI. apply (l_down _ _ _ L p x Hp) in HI. destruct HI; congruence. }
  assert (GG : forall p, p < length a -> lk sl_last a3 p = last_opt (rm x (ch p))).
  { intros p Hp. unfold a3. rewrite lk_other by reflexivity. unfold a2. rewrite connect_last by assumption.
    destruct (l_ends _ _ _ L p Hp) as [EF EL].
    destruct (lk sl_parent a x) as [q|] eqn:EQ.
    - destruct (l_up _ _ _ L x q Hx EQ) as [Hq Eq].
      destruct (Nat.eqb_spec p q).
      + subst q. rewrite G1, EL, Eq, E, rm_mid by exact NI. rewrite Ep, En.
        destruct l2 as [|y l2]; cbn [hd_error].
        * rewrite app_nil_r. reflexivity.
        * rewrite !last_opt_app2. change (x :: y :: l2) with ([x] ++ y :: l2). rewrite last_opt_app2.
          destruct (last_opt (y :: l2)) eqn:E1; [reflexivity|]. apply last_opt_none in E1. discriminate.
      + rewrite G1, EL, rm_notin; [reflexivity|]. intros HI. apply (l_down _ _ _ L p x Hp) in HI. destruct HI; congruence.
    - rewrite G1, EL, rm_notin; [reflexivity|]. intros HI. apply (l_down _ _ _ L p x Hp) in HI. destruct HI; congruence. }
  constructor; rewrite ?La3.
  - intros i Hi. destruct (Nat.eqb_spec i x); [subst; cbn; auto|]. rewrite in_rm. split; [apply (l_self _ _ _ L i Hi)|exact n].
  - intros i Hi. destruct (Nat.eqb_spec i x); [repeat constructor; cbn; tauto|]. apply nodup_rm, (l_nodup _ _ _ L i Hi).
  - intros i j Hi Hj. rewrite !PP. destruct (Nat.eqb_spec i x).
    + destruct Hj as [<-|[]]. rewrite Nat.eqb_refl. subst. auto.
    + apply in_rm in Hj as [Hj Nj]. destruct (l_same _ _ _ L i j Hi Hj) as (Rj & Ej & Pj).
      destruct (Nat.eqb_spec j x); [contradiction|]. rewrite Ej. auto.
  - intros i p Hi Hp. rewrite PP in Hp. destruct (Nat.eqb_spec i x); [discriminate|].
    destruct (l_up _ _ _ L i p Hi Hp) as [Rp' Ec]. rewrite Ec. auto.
  - intros p j Hp Hj. apply in_rm in Hj as [Hj Nj]. destruct (l_down _ _ _ L p j Hp Hj) as [Rj Pj].
    rewrite PP. destruct (Nat.eqb_spec j x); [contradiction|]. auto.
  - intros i m1 m2 Hi Em. rewrite VV, NN, V1, N1. destruct (Nat.eqb_spec i x) as [->|NE].
    + assert (m1 = [] /\ m2 = []) as [-> ->].
      { destruct m1 as [|z m1]; [injection Em as <-; auto|]. destruct m1; discriminate. }
      rewrite Ep, En. split.
      * destruct l2 as [|y l2]; [reflexivity|]. cbn [hd_error]. destruct (Nat.eqb_spec x y); [|reflexivity].
        subst. exfalso. apply NI. rewrite in_app_iff. cbn; auto.
      * destruct (last_opt l1) eqn:E1; [|reflexivity]. destruct (Nat.eqb_spec x n); [|reflexivity].
        subst. exfalso. apply NI. rewrite in_app_iff. left. apply last_opt_in, E1.
    + destruct (in_dec Nat.eq_dec x (sib i)) as [HI|HI].
      * (* a sibling of x *)
        destruct (l_same _ _ _ L i x Hi HI) as (_ & ES & _). rewrite <- ES in Em. rewrite E, rm_mid in Em by exact NI.
        assert (IN : In i (l1 ++ l2)) by (rewrite Em, in_app_iff; cbn; auto).
        apply in_app_or in IN as [IN|IN]; apply in_split in IN as (k1 & k2 & Ek).
        -- subst l1. rewrite <- app_assoc in Em. cbn [app] in Em.
           assert (ND' := ND). rewrite <- app_assoc in ND'. cbn [app] in ND'.
           destruct (nodup_split _ _ _ _ _ ND' Em) as [<- <-].
           assert (ED : sib i = k1 ++ i :: (k2 ++ x :: l2)) by (rewrite <- ES, E, <- app_assoc; reflexivity).
           destruct (l_nb _ _ _ L i _ _ Hi ED) as [Pi Ni]. rewrite Pi, Ni, Ep, En.
           apply nodup_mid in ND' as [ND1 NI1]. split.
           ++ destruct l2 as [|y l2]; [reflexivity|]. cbn [hd_error]. destruct (Nat.eqb_spec i y); [|reflexivity].
              subst. exfalso. apply NI1. rewrite !in_app_iff. cbn; auto.
           ++ rewrite last_opt_app2. change (i :: k2) with ([i] ++ k2). rewrite last_opt_app2.
              destruct (last_opt k2) eqn:E2; cbn [or_else last_opt rev app hd_error].
              ** destruct (Nat.eqb_spec i n).
                 { subst. exfalso. apply NI1. rewrite !in_app_iff. right. left. apply last_opt_in, E2. }
                 apply last_opt_some in E2 as [k ->]. destruct k; reflexivity.
              ** apply last_opt_none in E2. subst k2. rewrite Nat.eqb_refl. reflexivity.
        -- subst l2.
           assert (ND' := ND). rewrite app_assoc in Em, ND'.
           destruct (nodup_split _ _ _ _ _ ND' Em) as [<- <-].
           assert (ED : sib i = (l1 ++ x :: k1) ++ i :: k2) by (rewrite <- ES, E, <- app_assoc; reflexivity).
           destruct (l_nb _ _ _ L i _ _ Hi ED) as [Pi Ni]. rewrite Pi, Ni, Ep, En.
           apply nodup_mid in ND' as [ND1 NI1]. split.
           ++ destruct k1 as [|y k1]; cbn [app hd_error].
              ** rewrite Nat.eqb_refl, app_nil_r. reflexivity.
              ** destruct (Nat.eqb_spec i y).
                 { subst. exfalso. apply NI1. rewrite !in_app_iff. cbn; auto. }
                 rewrite !last_opt_app2. change (x :: y :: k1) with ([x] ++ y :: k1). rewrite last_opt_app2.
                 destruct (last_opt (y :: k1)) eqn:E1; [reflexivity|]. apply last_opt_none in E1. discriminate.
           ++ destruct (last_opt l1) eqn:E1; [|reflexivity]. destruct (Nat.eqb_spec i n); [|reflexivity].
              subst. exfalso. apply NI1. rewrite !in_app_iff. left. left. apply last_opt_in, E1.
      * (* elsewhere *)
        rewrite rm_notin in Em by exact HI. destruct (l_nb _ _ _ L i _ _ Hi Em) as [-> ->].
        assert (NIi : ~ In i (l1 ++ x :: l2)).
        { rewrite <- E. intros HH. destruct (l_same _ _ _ L x i Hx HH) as (_ & ES & _). apply HI. rewrite ES. apply (l_self _ _ _ L x Hx). }
        rewrite Ep, En. split.
        -- destruct l2 as [|y l2]; [reflexivity|]. cbn [hd_error]. destruct (Nat.eqb_spec i y); [|reflexivity].
           subst. exfalso. apply NIi. rewrite in_app_iff. cbn; auto.
        -- destruct (last_opt l1) eqn:E1; [|reflexivity]. destruct (Nat.eqb_spec i n); [|reflexivity].
           subst. exfalso. apply NIi. rewrite in_app_iff. left. apply last_opt_in, E1.
  - intros p Hp. split; [apply FF|apply GG]; exact Hp.
Qed.

(** ** Inserting a detached node *)

Lemma nodup_app_l : forall (l m : list nat), NoDup (l ++ m) -> NoDup l.
Proof. induction l as [|x l IH]; intros m H; [constructor|]. cbn in H. inversion H; subst. constructor; [rewrite in_app_iff in *; tauto|eauto]. Qed.

Lemma onat_eqb_eq : forall a b, onat_eqb a b = true <-> a = b.
Proof.
  intros [x|] [y|]; cbn; try (split; congruence). rewrite Nat.eqb_eq. split; congruence.
Qed.

Definition memb (i : nat) (l : list nat) : bool := existsb (Nat.eqb i) l.
Lemma memb_in : forall i l, memb i l = true <-> In i l.
Proof.
  intros i l. unfold memb. rewrite existsb_exists. split.
  - intros (x & H & E). apply Nat.eqb_eq in E. subst. exact H.
  - intros H. exists i. split; [exact H|apply Nat.eqb_refl].
Qed.
Lemma memb_notin : forall i l, memb i l = false <-> ~ In i l.
Proof. intros. rewrite <- memb_in. destruct (memb i l); split; congruence. Qed.

(** [x] is alone; [l1 ++ l2] is a complete list of siblings under [par] (possibly empty). *)
Lemma insert_links : forall a sib ch x par l1 l2,
  links a sib ch -> x < length a -> sib x = [x] -> lk sl_parent a x = None ->
  (forall y, In y (l1 ++ l2) -> y < length a /\ sib y = l1 ++ l2 /\ lk sl_parent a y = par) ->
  (forall p, par = Some p -> p < length a /\ ch p = l1 ++ l2) ->
  NoDup (l1 ++ l2) -> ~ In x (l1 ++ l2) -> par <> Some x ->
  exists a', insert_with_neighbors x par (last_opt l1) (hd_error l2) a = Some a' /\ length a' = length a /\
    (forall i, payload a' i = payload a i) /\
    (forall i, lk sl_parent a' i = if Nat.eqb i x then par else lk sl_parent a i) /\
    links a' (fun z => if Nat.eqb z x || memb z (l1 ++ l2) then l1 ++ x :: l2 else sib z)
             (fun p => if onat_eqb par (Some p) then l1 ++ x :: l2 else ch p).
Proof.
  intros a sib ch x par l1 l2 L Hx Sx Px HL HP ND NI NP. unfold insert_with_neighbors.
  assert (X1 : onat_eqb (last_opt l1) (Some x) = false).
  { destruct (onat_eqb (last_opt l1) (Some x)) eqn:E; [|reflexivity]. apply onat_eqb_eq, last_opt_in in E. exfalso. apply NI. rewrite in_app_iff. auto. }
  assert (X2 : onat_eqb (hd_error l2) (Some x) = false).
  { destruct (onat_eqb (hd_error l2) (Some x)) eqn:E; [|reflexivity]. apply onat_eqb_eq, hd_error_in in E. exfalso. apply NI. rewrite in_app_iff. auto. }
  assert (X3 : onat_eqb par (Some x) = false).
  { destruct (onat_eqb par (Some x)) eqn:E; [|reflexivity]. apply onat_eqb_eq in E. contradiction. }
  rewrite X1, X2, X3. cbn [orb]. clear X1 X2 X3.
  set (a1 := upd x (set_parent par) a).
  assert (La1 : length a1 = length a) by apply upd_length.
  assert (Rpar : lt_opt par (length a1)) by (rewrite La1; destruct par; cbn; [apply HP; reflexivity|exact I]).
  assert (Rprev : lt_opt (last_opt l1) (length a1)).
  { rewrite La1. destruct (last_opt l1) eqn:E; cbn; [|exact I]. apply HL. rewrite in_app_iff. left. apply last_opt_in, E. }
  assert (Rx : lt_opt (Some x) (length a1)) by (rewrite La1; exact Hx).
  set (a2 := connect_neighbors par (last_opt l1) (Some x) a1).
  assert (La2 : length a2 = length a1) by (unfold a2; apply connect_length; assumption).
  assert (Rpar2 : lt_opt par (length a2)) by (rewrite La2; assumption).
  assert (Rx2 : lt_opt (Some x) (length a2)) by (rewrite La2; assumption).
  assert (Rnext2 : lt_opt (hd_error l2) (length a2)).
  { rewrite La2, La1. destruct (hd_error l2) eqn:E; cbn; [|exact I]. apply HL. rewrite in_app_iff. right. apply hd_error_in, E. }
  set (a3 := connect_neighbors par (Some x) (hd_error l2) a2).
  assert (La3 : length a3 = length a) by (unfold a3; rewrite connect_length by assumption; congruence).
  exists a3. split; [reflexivity|]. split; [exact La3|]. split.
  { intros i. unfold a3. rewrite connect_payload by assumption. unfold a2. rewrite connect_payload by assumption.
    unfold a1. apply payload_upd. auto. }
  assert (PP : forall i, lk sl_parent a3 i = if Nat.eqb i x then par else lk sl_parent a i).
  { intros i. unfold a3. rewrite connect_parent by assumption. unfold a2. rewrite connect_parent by assumption.
    unfold a1. apply lk_set; [exact Hx|reflexivity]. }
  split; [exact PP|].
  assert (O1 : forall f i, (forall s, f (set_parent par s) = f s) -> lk f a1 i = lk f a i) by (intros; apply lk_other; auto).
  assert (NN : forall i, lk sl_next a3 i =
    if Nat.eqb i x then hd_error l2
    else match last_opt l1 with Some q => if Nat.eqb i q then Some x else lk sl_next a i | None => lk sl_next a i end).
  { intros i. unfold a3. rewrite connect_next by assumption. destruct (Nat.eqb_spec i x); [reflexivity|].
    unfold a2. rewrite connect_next by assumption. rewrite O1 by reflexivity. reflexivity. }
  assert (VV : forall i, lk sl_prev a3 i =
    if Nat.eqb i x then last_opt l1
    else match hd_error l2 with Some q => if Nat.eqb i q then Some x else lk sl_prev a i | None => lk sl_prev a i end).
  { intros i. unfold a3. rewrite connect_prev by assumption. unfold a2. rewrite connect_prev by assumption.
    rewrite O1 by reflexivity. destruct (hd_error l2) as [q|] eqn:E2; [|reflexivity].
    destruct (Nat.eqb_spec i q); [|reflexivity]. destruct (Nat.eqb_spec i x); [|reflexivity].
    subst. exfalso. apply NI. rewrite in_app_iff. right. apply hd_error_in, E2. }
  assert (FF : forall p, p < length a -> lk sl_first a3 p = if onat_eqb par (Some p) then hd_error (l1 ++ x :: l2) else hd_error (ch p)).
  { intros p Hp. destruct (l_ends _ _ _ L p Hp) as [EF _]. unfold a3. rewrite connect_first by assumption.
    unfold a2. rewrite !connect_first by assumption. rewrite !O1 by reflexivity. rewrite EF.
    destruct par as [q|]; cbn [onat_eqb]; [|reflexivity]. rewrite (Nat.eqb_sym q p).
    destruct (Nat.eqb_spec p q); [|reflexivity]. subst q. rewrite connect_first by assumption. rewrite Nat.eqb_refl, O1, EF by reflexivity.
    destruct (HP p eq_refl) as [_ ->]. destruct l1 as [|y k]; [reflexivity|].
    destruct (last_opt (y :: k)) eqn:E; [reflexivity|]. apply last_opt_none in E. discriminate. }
  assert (GG : forall p, p < length a -> lk sl_last a3 p = if onat_eqb par (Some p) then last_opt (l1 ++ x :: l2) else last_opt (ch p)).
  { intros p Hp. destruct (l_ends _ _ _ L p Hp) as [_ EL]. unfold a3. rewrite connect_last by assumption.
    unfold a2. rewrite !connect_last by assumption. rewrite !O1 by reflexivity. rewrite EL.
    destruct par as [q|]; cbn [onat_eqb]; [|reflexivity]. rewrite (Nat.eqb_sym q p).
    destruct (Nat.eqb_spec p q); [|reflexivity]. subst q. rewrite connect_last by assumption. rewrite Nat.eqb_refl, O1, EL by reflexivity.
    destruct (HP p eq_refl) as [_ ->]. rewrite last_opt_app2. change (x :: l2) with ([x] ++ l2). rewrite last_opt_app2.
    destruct l2 as [|y k]; cbn [hd_error]; [reflexivity|].
    rewrite last_opt_app2. destruct (last_opt (y :: k)) eqn:E; [reflexivity|]. apply last_opt_none in E. discriminate. }
  assert (ND' : NoDup (l1 ++ x :: l2)) by (apply nodup_mid; auto).
  assert (MX : forall i, In i (l1 ++ x :: l2) <-> i = x \/ In i (l1 ++ l2)).
  { intros i. rewrite !in_app_iff. cbn. intuition. }
  assert (SEL : forall i, (Nat.eqb i x || memb i (l1 ++ l2) = true <-> In i (l1 ++ x :: l2))).
  { intros i. rewrite orb_true_iff, Nat.eqb_eq, memb_in, MX. reflexivity. }
  assert (OUT : forall i j, i < length a -> ~ In i (l1 ++ x :: l2) -> In j (sib i) -> ~ In j (l1 ++ x :: l2)).
  { intros i j Hi Ni Hj HC. apply Ni. destruct (l_same _ _ _ L i j Hi Hj) as (Rj & Ej & _).
    rewrite MX in HC |- *. destruct HC as [->|HC].
    - left. rewrite Sx in Ej. pose proof (l_self _ _ _ L i Hi) as HS. rewrite <- Ej in HS. destruct HS as [->|[]]. reflexivity.
    - right. destruct (HL j HC) as (_ & EE & _). pose proof (l_self _ _ _ L i Hi) as HS. rewrite <- Ej, EE in HS. exact HS. }
  constructor; rewrite ?La3.
  - intros i Hi. destruct (Nat.eqb i x || memb i (l1 ++ l2)) eqn:EM; [apply SEL, EM|apply (l_self _ _ _ L i Hi)].
  - intros i Hi. destruct (Nat.eqb i x || memb i (l1 ++ l2)); [exact ND'|apply (l_nodup _ _ _ L i Hi)].
  - intros i j Hi Hj. destruct (Nat.eqb i x || memb i (l1 ++ l2)) eqn:EM.
    + pose proof (proj2 (SEL j) Hj) as EJ. rewrite EJ. rewrite !PP.
      assert (Q : forall k, In k (l1 ++ x :: l2) -> k < length a /\ (if Nat.eqb k x then par else lk sl_parent a k) = par).
      { intros k Hk. apply MX in Hk as [->|Hk]; [rewrite Nat.eqb_refl; auto|]. destruct (HL k Hk) as (Rk & _ & Pk).
        split; [exact Rk|]. destruct (Nat.eqb_spec k x); auto. }
      destruct (Q j Hj) as [Rj ->]. destruct (Q i (proj1 (SEL i) EM)) as [_ ->]. auto.
    + assert (Ni : ~ In i (l1 ++ x :: l2)) by (rewrite <- SEL, EM; discriminate).
      pose proof (OUT i j Hi Ni Hj) as Nj. assert (EJ : Nat.eqb j x || memb j (l1 ++ l2) = false) by (destruct (Nat.eqb j x || memb j (l1 ++ l2)) eqn:EE; [apply SEL in EE; contradiction|reflexivity]).
      rewrite EJ. destruct (l_same _ _ _ L i j Hi Hj) as (Rj & Ej & Pj). rewrite !PP.
      destruct (Nat.eqb_spec i x); [subst; exfalso; apply Ni, MX; auto|].
      destruct (Nat.eqb_spec j x); [subst; exfalso; apply Nj, MX; auto|]. auto.
  - intros i p Hi Hp. rewrite PP in Hp. destruct (Nat.eqb i x || memb i (l1 ++ l2)) eqn:EM.
    + assert (par = Some p).
      { apply SEL, MX in EM. destruct (Nat.eqb_spec i x); [exact Hp|]. destruct EM as [->|EM]; [congruence|].
        destruct (HL i EM) as (_ & _ & E). congruence. }
      subst par. cbn [onat_eqb]. rewrite Nat.eqb_refl. split; [apply (HP p eq_refl)|reflexivity].
    + apply orb_false_iff in EM as [E1 E2]. rewrite E1 in Hp. destruct (l_up _ _ _ L i p Hi Hp) as [Rp Ec].
      split; [exact Rp|]. destruct (onat_eqb par (Some p)) eqn:EP; [|exact Ec]. apply onat_eqb_eq in EP.
      destruct (HP p EP) as [_ EC]. exfalso. apply memb_notin in E2. apply E2. rewrite <- EC, Ec. apply (l_self _ _ _ L i Hi).
  - intros p j Hp Hj. rewrite PP. destruct (onat_eqb par (Some p)) eqn:EP.
    + apply onat_eqb_eq in EP. apply MX in Hj as [->|Hj]; [rewrite Nat.eqb_refl; auto|].
      destruct (HL j Hj) as (Rj & _ & Pj). split; [exact Rj|]. destruct (Nat.eqb_spec j x); congruence.
    + destruct (l_down _ _ _ L p j Hp Hj) as [Rj Pj]. split; [exact Rj|]. destruct (Nat.eqb_spec j x); [|exact Pj].
      subst. congruence.
  - intros i m1 m2 Hi Em. rewrite VV, NN. destruct (Nat.eqb i x || memb i (l1 ++ l2)) eqn:EM.
    + apply SEL, MX in EM. destruct (Nat.eqb_spec i x) as [->|NE].
      * destruct (nodup_split _ _ _ _ _ ND' Em) as [<- <-]. auto.
      * destruct EM as [->|EM]; [contradiction|]. destruct (HL i EM) as (_ & ES & _).
        apply in_app_or in EM as [IN|IN]; apply in_split in IN as (k1 & k2 & Ek).
        -- subst l1. rewrite <- app_assoc in Em. cbn [app] in Em.
           assert (ND2 := ND'). rewrite <- app_assoc in ND2. cbn [app] in ND2.
           destruct (nodup_split _ _ _ _ _ ND2 Em) as [<- <-].
           rewrite <- app_assoc in ES. cbn [app] in ES. destruct (l_nb _ _ _ L i _ _ Hi ES) as [-> ->].
           apply nodup_mid in ND2 as [_ NI2]. split.
           ++ destruct l2 as [|y l2]; [reflexivity|]. cbn [hd_error]. destruct (Nat.eqb_spec i y); [|reflexivity].
              subst. exfalso. apply NI2. rewrite !in_app_iff. cbn; auto.
           ++ rewrite last_opt_app2. change (i :: k2) with ([i] ++ k2). rewrite last_opt_app2.
              destruct (last_opt k2) eqn:E2; cbn [or_else last_opt rev app hd_error].
              ** destruct (Nat.eqb_spec i n).
                 { subst. exfalso. apply NI2. rewrite !in_app_iff. right. left. apply last_opt_in, E2. }
                 apply last_opt_some in E2 as [k ->]. destruct k; reflexivity.
              ** apply last_opt_none in E2. subst k2. rewrite Nat.eqb_refl. reflexivity.
        -- subst l2.
           assert (EQ : (l1 ++ x :: k1) ++ i :: k2 = m1 ++ i :: m2) by (rewrite <- Em, <- app_assoc; reflexivity).
           assert (ND2 : NoDup ((l1 ++ x :: k1) ++ i :: k2)) by (rewrite <- app_assoc; exact ND').
           destruct (nodup_split _ _ _ _ _ ND2 EQ) as [<- <-].
           assert (ED : sib i = (l1 ++ k1) ++ i :: k2) by (rewrite ES, <- app_assoc; reflexivity).
           destruct (l_nb _ _ _ L i _ _ Hi ED) as [-> ->].
           apply nodup_mid in ND2 as [_ NI2]. split.
           ++ destruct k1 as [|y k1]; cbn [app hd_error].
              ** rewrite Nat.eqb_refl, last_opt_app. reflexivity.
              ** destruct (Nat.eqb_spec i y).
                 { subst. exfalso. apply NI2. rewrite !in_app_iff. cbn; auto. }
                 rewrite !last_opt_app2. change (x :: y :: k1) with ([x] ++ y :: k1). rewrite last_opt_app2.
                 destruct (last_opt (y :: k1)) eqn:E1; [reflexivity|]. apply last_opt_none in E1. discriminate.
           ++ destruct (last_opt l1) eqn:E1; [|reflexivity]. destruct (Nat.eqb_spec i n); [|reflexivity].
              subst. exfalso. apply NI2. rewrite !in_app_iff. left. left. apply last_opt_in, E1.
    + assert (Ni : ~ In i (l1 ++ x :: l2)) by (rewrite <- SEL, EM; discriminate).
      apply orb_false_iff in EM as [-> _].
      destruct (l_nb _ _ _ L i _ _ Hi Em) as [-> ->]. split.
      * destruct l2 as [|y l2]; [reflexivity|]. cbn [hd_error]. destruct (Nat.eqb_spec i y); [|reflexivity].
        subst. exfalso. apply Ni. rewrite in_app_iff. cbn; auto.
      * destruct (last_opt l1) eqn:E1; [|reflexivity]. destruct (Nat.eqb_spec i n); [|reflexivity].
        subst. exfalso. apply Ni. rewrite in_app_iff. left. apply last_opt_in, E1.
  - intros p Hp. rewrite FF, GG by exact Hp. destruct (onat_eqb par (Some p)); auto.
Qed.
