(** What the tree operations do to sibling lists and child lists. *)
Require Import Coq.Lists.List Coq.Arith.PeanoNat Coq.Bool.Bool Lia.
Require Import Verif.Base Verif.Types Verif.Values Verif.Tree Verif.TreeFacts Verif.TreeSpec.
Import ListNotations.

(** ** Observers *)

Lemma nodup_bounded : forall (l : list nat) n, NoDup l -> (forall i, In i l -> i < n) -> length l <= n.
Proof.
  intros l n ND H. rewrite <- (seq_length n 0). apply NoDup_incl_length; [exact ND|].
  intros i Hi. apply in_seq. specialize (H i Hi). lia.
Qed.

Lemma links_ch_sib : forall a sib ch p c, links a sib ch -> p < length a -> In c (ch p) ->
  c < length a /\ lk sl_parent a c = Some p /\ sib c = ch p.
Proof.
  intros a sib ch p c L Hp Hc. destruct (l_down _ _ _ L p c Hp Hc) as [Rc Pc].
  destruct (l_up _ _ _ L c p Rc Pc) as [_ E]. auto.
Qed.

Lemma links_ch_nodup : forall a sib ch p, links a sib ch -> p < length a -> NoDup (ch p).
Proof.
  intros a sib ch p L Hp. destruct (ch p) as [|c l] eqn:E; [constructor|].
  assert (Hc : In c (ch p)) by (rewrite E; cbn; auto).
  destruct (links_ch_sib _ _ _ _ _ L Hp Hc) as (Rc & _ & S). rewrite E in S. rewrite <- S. apply (l_nodup _ _ _ L c Rc).
Qed.

Lemma walk_sib : forall t sib ch i, links (tr_arena t) sib ch -> node_of t i ->
  forall l2 l1 fuel, sib i = l1 ++ l2 -> length l2 <= fuel -> walk fuel t (hd_error l2) = l2.
Proof.
  intros t sib ch i L Hi. induction l2 as [|c l2 IH]; intros l1 fuel E F.
  - destruct fuel; reflexivity.
  - destruct fuel as [|fuel]; [cbn in F; lia|]. cbn [hd_error walk]. f_equal.
    assert (Hc : In c (sib i)) by (rewrite E, in_app_iff; cbn; auto).
    destruct (l_same _ _ _ L i c Hi Hc) as (Rc & Ec & _).
    assert (ED : sib c = l1 ++ c :: l2) by congruence.
    destruct (l_nb _ _ _ L c _ _ Rc ED) as [_ Nx]. unfold next_sibling. rewrite Nx.
    apply (IH (l1 ++ [c])); [rewrite E, <- app_assoc; reflexivity|cbn in F; lia].
Qed.

Lemma walk_back_sib : forall t sib ch i, links (tr_arena t) sib ch -> node_of t i ->
  forall l1 l2 fuel, sib i = l1 ++ l2 -> length l1 <= fuel -> rev (walk_back fuel t (last_opt l1)) = l1.
Proof.
  intros t sib ch i L Hi l1. induction l1 as [|c l1 IH] using rev_ind; intros l2 fuel E F.
  - destruct fuel; reflexivity.
  - rewrite app_length in F. cbn [length] in F. destruct fuel as [|fuel]; [lia|].
    rewrite last_opt_app. cbn [walk_back rev]. f_equal.
    assert (Hc : In c (sib i)) by (rewrite E, !in_app_iff; cbn; auto).
    destruct (l_same _ _ _ L i c Hi Hc) as (Rc & Ec & _).
    rewrite <- app_assoc in E. cbn [app] in E.
    assert (ED : sib c = l1 ++ c :: l2) by congruence.
    destruct (l_nb _ _ _ L c _ _ Rc ED) as [Pv _]. unfold previous_sibling. rewrite Pv.
    apply (IH (c :: l2)); [exact E|lia].
Qed.

Lemma sib_length : forall a sib ch i, links a sib ch -> i < length a -> length (sib i) <= length a.
Proof.
  intros a sib ch i L Hi. apply nodup_bounded; [apply (l_nodup _ _ _ L i Hi)|].
  intros j Hj. apply (l_same _ _ _ L i j Hi Hj).
Qed.

Lemma links_children : forall t sib ch p, links (tr_arena t) sib ch -> node_of t p -> children t p = ch p.
Proof.
  intros t sib ch p L Hp. unfold children, first_child. destruct (l_ends _ _ _ L p Hp) as [-> _].
  destruct (ch p) as [|c l] eqn:E; [destruct (length (tr_arena t)); reflexivity|].
  assert (Hc : In c (ch p)) by (rewrite E; cbn; auto).
  destruct (links_ch_sib _ _ _ _ _ L Hp Hc) as (Rc & _ & S). rewrite E in S.
  apply (walk_sib t sib ch c L Rc (c :: l) []); [exact S|]. rewrite <- S. apply (sib_length _ _ _ _ L Rc).
Qed.

Lemma links_siblings : forall t sib ch i, links (tr_arena t) sib ch -> node_of t i -> siblings t i = sib i.
Proof.
  intros t sib ch i L Hi. destruct (in_split _ _ (l_self _ _ _ L i Hi)) as (l1 & l2 & E).
  destruct (l_nb _ _ _ L i _ _ Hi E) as [Pv Nx]. unfold siblings, previous_sibling, next_sibling. rewrite Pv, Nx, E.
  pose proof (sib_length _ _ _ _ L Hi) as B. rewrite E, app_length in B. cbn [length] in B.
  rewrite (walk_back_sib t sib ch i L Hi l1 (i :: l2)) by (auto; lia).
  rewrite (walk_sib t sib ch i L Hi l2 (l1 ++ [i])) by (rewrite ?E, <- ?app_assoc; auto; lia). reflexivity.
Qed.

(** ** Operations on arenas *)

Definition keeps (a a' : arena) := length a' = length a /\ forall i, payload a' i = payload a i.

Lemma rm_in_same : forall x l1 l2 y, NoDup (l1 ++ y :: l2) -> y <> x ->
  rm x (l1 ++ y :: l2) = rm x l1 ++ y :: rm x l2.
Proof. intros. rewrite remove_app. cbn [remove]. destruct (Nat.eq_dec x y); [congruence|reflexivity]. Qed.

(** [append] and [prepend]: [g l] is where the node goes. *)
Lemma child_effect : forall a sib ch p x a' l1 l2, links a sib ch -> p < length a -> x < length a -> x <> p ->
  rm x (ch p) = l1 ++ l2 -> (l1 = [] \/ l2 = []) ->
  (exists a1, a_detach x a = Some a1 /\ insert_with_neighbors x (Some p) (if l2 then lk sl_last a1 p else None) (if l2 then None else lk sl_first a1 p) a1 = Some a') ->
  keeps a a' /\
  (forall i, lk sl_parent a' i = if Nat.eqb i x then Some p else lk sl_parent a i) /\
  exists sib' ch', links a' sib' ch' /\
    (forall q, ch' q = if Nat.eqb q p then l1 ++ x :: l2 else rm x (ch q)) /\
    (forall z, sib' z = if Nat.eqb z x || memb z (l1 ++ l2) then l1 ++ x :: l2 else rm x (sib z)).
Proof.
  intros a sib ch p x a' l1 l2 L Hp Hx NE E EE (a0 & D0 & I0).
  destruct (detach_links a sib ch x L Hx) as (a1 & D & La1 & Y1 & P1 & L1).
  rewrite D in D0. injection D0 as <-.
  set (sib1 := fun y => if Nat.eqb y x then [x] else rm x (sib y)) in *.
  set (ch1 := fun q => rm x (ch q)) in *.
  assert (Hp1 : p < length a1) by lia. assert (Hx1 : x < length a1) by lia.
  assert (E1 : ch1 p = l1 ++ l2) by exact E.
  destruct (insert_links a1 sib1 ch1 x (Some p) l1 l2) as (a2 & I2 & La2 & Y2 & P2 & L2).
  - exact L1.
  - exact Hx1.
  - unfold sib1. rewrite Nat.eqb_refl. reflexivity.
  - rewrite P1, Nat.eqb_refl. reflexivity.
  - intros y Hy. rewrite <- E1 in Hy |- *. destruct (links_ch_sib _ _ _ _ _ L1 Hp1 Hy) as (Ry & Py & Sy). auto.
  - intros q Hq. injection Hq as <-. auto.
  - rewrite <- E1. apply (links_ch_nodup _ _ _ _ L1 Hp1).
  - rewrite <- E1. unfold ch1. rewrite in_rm. tauto.
  - congruence.
  - destruct (l_ends _ _ _ L1 p Hp1) as [EF EL]. rewrite E1 in EF, EL.
    assert (I0' : insert_with_neighbors x (Some p) (last_opt l1) (hd_error l2) a1 = Some a').
    { rewrite <- I0. f_equal.
      - destruct l2; [rewrite EL, app_nil_r; reflexivity|]. destruct EE as [->|EE]; [reflexivity|discriminate].
      - destruct l2; [reflexivity|]. destruct EE as [->|EE]; [rewrite EF; reflexivity|discriminate]. }
    rewrite I2 in I0'. injection I0' as <-. split; [split; [lia|intros; rewrite Y2, Y1; reflexivity]|]. split.
    { intros i. rewrite P2, P1. destruct (Nat.eqb i x); reflexivity. }
    eexists. eexists. split; [exact L2|]. split.
    + intros q. cbn [onat_eqb]. rewrite (Nat.eqb_sym p q). reflexivity.
    + intros z. unfold sib1. destruct (Nat.eqb z x); reflexivity.
Qed.

Lemma a_append_effect : forall a sib ch p x a', links a sib ch -> a_append p x a = Some a' ->
  (p < length a /\ x < length a /\ x <> p /\ anc_mem (S (length a)) a x p = Some false) /\
  keeps a a' /\
  (forall i, lk sl_parent a' i = if Nat.eqb i x then Some p else lk sl_parent a i) /\
  exists sib' ch', links a' sib' ch' /\
    (forall q, ch' q = if Nat.eqb q p then rm x (ch q) ++ [x] else rm x (ch q)) /\
    (forall z, sib' z = if Nat.eqb z x || memb z (rm x (ch p)) then rm x (ch p) ++ [x] else rm x (sib z)).
Proof.
  intros a sib ch p x a' L H. unfold a_append in H.
  destruct (used a p && used a x) eqn:U; [|discriminate]. apply andb_prop in U as [Up Ux]. apply used_lt in Up, Ux.
  cbn [negb] in H. destruct (Nat.eqb_spec x p); [discriminate|].
  destruct (anc_mem (S (length a)) a x p) as [[]|] eqn:A; try discriminate.
  split; [auto|].
  destruct (child_effect a sib ch p x a' (rm x (ch p)) [] L Up Ux n) as (K & P & sib' & ch' & L' & C' & S').
  - rewrite app_nil_r. reflexivity.
  - auto.
  - destruct (a_detach x a) as [a1|]; [|discriminate]. eauto.
  - split; [exact K|]. split; [exact P|]. exists sib', ch'. split; [exact L'|]. rewrite app_nil_r in S'. split; [|exact S'].
    intros q. rewrite C'. destruct (Nat.eqb_spec q p); [subst|]; reflexivity.
Qed.

Lemma a_prepend_effect : forall a sib ch p x a', links a sib ch -> a_prepend p x a = Some a' ->
  (p < length a /\ x < length a /\ x <> p /\ anc_mem (S (length a)) a x p = Some false) /\
  keeps a a' /\
  (forall i, lk sl_parent a' i = if Nat.eqb i x then Some p else lk sl_parent a i) /\
  exists sib' ch', links a' sib' ch' /\
    (forall q, ch' q = if Nat.eqb q p then x :: rm x (ch q) else rm x (ch q)) /\
    (forall z, sib' z = if Nat.eqb z x || memb z (rm x (ch p)) then x :: rm x (ch p) else rm x (sib z)).
Proof.
  intros a sib ch p x a' L H. unfold a_prepend in H.
  destruct (used a p && used a x) eqn:U; [|discriminate]. apply andb_prop in U as [Up Ux]. apply used_lt in Up, Ux.
  cbn [negb] in H. destruct (Nat.eqb_spec x p); [discriminate|].
  destruct (anc_mem (S (length a)) a x p) as [[]|] eqn:A; try discriminate.
  split; [auto|].
  destruct (child_effect a sib ch p x a' [] (rm x (ch p)) L Up Ux n) as (K & P & sib' & ch' & L' & C' & S').
  - reflexivity.
  - auto.
  - destruct (a_detach x a) as [a1|] eqn:D; [|discriminate]. exists a1. split; [reflexivity|].
    destruct (detach_links a sib ch x L Ux) as (a1' & D' & La1 & _ & _ & L1). rewrite D in D'. injection D' as <-.
    assert (Hp1 : p < length a1) by lia. destruct (l_ends _ _ _ L1 p Hp1) as [EF EL]. cbn beta in EF, EL.
    destruct (rm x (ch p)); [|exact H]. rewrite EL. rewrite EF in H. exact H.
  - split; [exact K|]. split; [exact P|]. exists sib', ch'. split; [exact L'|]. split; [|exact S'].
    intros q. rewrite C'. destruct (Nat.eqb_spec q p); [subst|]; reflexivity.
Qed.

Lemma put_after_mid : forall y x l1 l2, ~ In y l1 -> put_after y x (l1 ++ y :: l2) = l1 ++ y :: x :: l2.
Proof.
  induction l1 as [|z l1 IH]; intros l2 H; cbn.
  - rewrite Nat.eqb_refl. reflexivity.
  - cbn in H. destruct (Nat.eqb_spec z y); [tauto|]. rewrite IH by tauto. reflexivity.
Qed.
Lemma put_before_mid : forall y x l1 l2, ~ In y l1 -> put_before y x (l1 ++ y :: l2) = l1 ++ x :: y :: l2.
Proof.
  induction l1 as [|z l1 IH]; intros l2 H; cbn.
  - rewrite Nat.eqb_refl. reflexivity.
  - cbn in H. destruct (Nat.eqb_spec z y); [tauto|]. rewrite IH by tauto. reflexivity.
Qed.
Lemma put_after_notin : forall y x l, ~ In y l -> put_after y x l = l.
Proof.
  induction l as [|z l IH]; intros H; cbn; [reflexivity|]. cbn in H. destruct (Nat.eqb_spec z y); [tauto|]. rewrite IH by tauto. reflexivity.
Qed.
Lemma put_before_notin : forall y x l, ~ In y l -> put_before y x l = l.
Proof.
  induction l as [|z l IH]; intros H; cbn; [reflexivity|]. cbn in H. destruct (Nat.eqb_spec z y); [tauto|]. rewrite IH by tauto. reflexivity.
Qed.

(** [insert_after] ([after = true]) and [insert_before]. *)
Lemma sibling_effect : forall (after : bool) a sib ch y x a', links a sib ch ->
  (if after then a_insert_after y x a else a_insert_before y x a) = Some a' ->
  let put := if after then put_after y x else put_before y x in
  (y < length a /\ x < length a /\ x <> y /\ lk sl_parent a y <> Some x) /\
  keeps a a' /\
  (forall i, lk sl_parent a' i = if Nat.eqb i x then lk sl_parent a y else lk sl_parent a i) /\
  exists sib' ch', links a' sib' ch' /\
    (forall q, q < length a -> ch' q = put (rm x (ch q))) /\
    (forall z, z < length a -> sib' z = put (rm x (sib (if Nat.eqb z x then y else z)))).
Proof.
  intros after a sib ch y x a' L H put.
  assert (U : y < length a /\ x < length a /\ x <> y /\ exists a1, a_detach x a = Some a1 /\
    insert_with_neighbors x (lk sl_parent a1 y) (if after then Some y else lk sl_prev a1 y) (if after then lk sl_next a1 y else Some y) a1 = Some a').
  { unfold a_insert_after, a_insert_before in H.
    destruct after; (destruct (used a y && used a x) eqn:U; [|discriminate]); apply andb_prop in U as [Uy Ux]; apply used_lt in Uy, Ux;
      cbn [negb] in H; (destruct (Nat.eqb_spec x y); [discriminate|]);
      (destruct (a_detach x a) as [a1|]; [|discriminate]); eauto 8. }
  destruct U as (Hy & Hx & NE & a0 & D0 & I0). clear H.
  destruct (detach_links a sib ch x L Hx) as (a1 & D & La1 & Y1 & P1 & L1).
  rewrite D in D0. injection D0 as <-.
  set (sib1 := fun y => if Nat.eqb y x then [x] else rm x (sib y)) in *.
  set (ch1 := fun q => rm x (ch q)) in *.
  assert (Hy1 : y < length a1) by lia. assert (Hx1 : x < length a1) by lia.
  assert (Py : lk sl_parent a1 y = lk sl_parent a y) by (rewrite P1; destruct (Nat.eqb_spec y x); congruence).
  rewrite Py in I0.
  assert (NP : lk sl_parent a y <> Some x).
  { intros HC. rewrite HC in I0. unfold insert_with_neighbors in I0. cbn [onat_eqb] in I0. rewrite Nat.eqb_refl in I0.
    destruct (_ || _); discriminate. }
  split; [auto|].
  assert (Sy : sib1 y = rm x (sib y)) by (unfold sib1; destruct (Nat.eqb_spec y x); [congruence|reflexivity]).
  destruct (in_split _ _ (l_self _ _ _ L1 y Hy1)) as (k1 & k2 & E).
  pose proof (l_nodup _ _ _ L1 y Hy1) as ND. 
  destruct (l_nb _ _ _ L1 y _ _ Hy1 E) as [Pv Nx]. rewrite Pv, Nx in I0.
  set (l1 := if after then k1 ++ [y] else k1). set (l2 := if after then k2 else y :: k2).
  assert (El : sib1 y = l1 ++ l2) by (rewrite E; unfold l1, l2; destruct after; [rewrite <- app_assoc|]; reflexivity).
  assert (Ey : ~ In y k1).
  { rewrite E in ND. apply nodup_mid in ND as [_ NI]. rewrite in_app_iff in NI. tauto. }
  assert (EP : l1 ++ x :: l2 = put (rm x (sib y))).
  { rewrite <- Sy, E. unfold l1, l2, put. destruct after; [rewrite put_after_mid, <- app_assoc by exact Ey|rewrite put_before_mid by exact Ey]; reflexivity. }
  destruct (insert_links a1 sib1 ch1 x (lk sl_parent a y) l1 l2) as (a2 & I2 & La2 & Y2 & P2 & L2).
  - exact L1.
  - exact Hx1.
  - unfold sib1. rewrite Nat.eqb_refl. reflexivity.
  - rewrite P1, Nat.eqb_refl. reflexivity.
  - intros z Hz. rewrite <- El in Hz |- *. destruct (l_same _ _ _ L1 y z Hy1 Hz) as (Rz & Sz & Pz). rewrite <- Py. auto.
  - intros q Hq. rewrite <- Py in Hq. destruct (l_up _ _ _ L1 y q Hy1 Hq) as [Rq Cq]. rewrite <- El. auto.
  - rewrite <- El. exact ND.
  - rewrite <- El, Sy, in_rm. tauto.
  - exact NP.
  - assert (I0' : insert_with_neighbors x (lk sl_parent a y) (last_opt l1) (hd_error l2) a1 = Some a').
    { rewrite <- I0. unfold l1, l2. destruct after; [rewrite last_opt_app|]; reflexivity. }
    rewrite I2 in I0'. injection I0' as <-. split; [split; [lia|intros; rewrite Y2, Y1; reflexivity]|]. split.
    { intros i. rewrite P2, P1. destruct (Nat.eqb i x); reflexivity. }
    eexists. eexists. split; [exact L2|]. split.
    + intros q Hq. cbv beta. destruct (onat_eqb (lk sl_parent a y) (Some q)) eqn:EQ.
      * apply onat_eqb_eq in EQ. rewrite <- Py in EQ. destruct (l_up _ _ _ L1 y q Hy1 EQ) as [_ Cq]. unfold ch1 in Cq. rewrite Cq, Sy. exact EP.
      * unfold ch1. assert (NI : ~ In y (rm x (ch q))).
        { intros HI. destruct (l_down _ _ _ L1 q y ltac:(lia) HI) as [_ HC]. rewrite Py in HC. rewrite HC in EQ. cbn in EQ. rewrite Nat.eqb_refl in EQ. discriminate. }
        unfold put. destruct after; [rewrite put_after_notin|rewrite put_before_notin]; auto.
    + intros z Hz. cbv beta. rewrite <- El. destruct (Nat.eqb_spec z x); cbn [orb].
      * exact EP.
      * destruct (memb z (sib1 y)) eqn:EM.
        -- apply memb_in in EM. destruct (l_same _ _ _ L1 y z Hy1 EM) as (_ & Sz & _).
           unfold sib1 in Sz at 1. destruct (Nat.eqb_spec z x); [contradiction|]. rewrite Sz, Sy. exact EP.
        -- apply memb_notin in EM. unfold sib1 at 1. destruct (Nat.eqb_spec z x); [contradiction|].
           assert (NI : ~ In y (rm x (sib z))).
           { intros HI. apply EM. assert (HI' : In y (sib1 z)) by (unfold sib1; destruct (Nat.eqb_spec z x); [contradiction|exact HI]).
             destruct (l_same _ _ _ L1 z y ltac:(lia) HI') as (_ & Sz & _). rewrite Sz. apply (l_self _ _ _ L1 z). lia. }
           unfold put. destruct after; [rewrite put_after_notin|rewrite put_before_notin]; auto.
Qed.

(** A new orphan. *)
Lemma lk_app_old : forall f a s i, i < length a -> lk f (a ++ [s]) i = lk f a i.
Proof. intros. unfold lk. rewrite nth_error_app1 by assumption. reflexivity. Qed.
Lemma lk_app_new : forall f a s, lk f (a ++ [s]) (length a) = f s.
Proof. intros. unfold lk. rewrite nth_error_app2, Nat.sub_diag by lia. reflexivity. Qed.

Lemma create_links : forall a sib ch sym ats, links a sib ch ->
  links (a ++ [fresh_slot sym ats]) (fun i => if Nat.eqb i (length a) then [length a] else sib i)
        (fun p => if Nat.eqb p (length a) then [] else ch p).
Proof.
  intros a sib ch sym ats L. set (n := length a). set (s := fresh_slot sym ats).
  assert (LA : length (a ++ [s]) = S n) by (rewrite app_length; cbn; unfold n; lia).
  assert (OLD : forall i, i < S n -> i <> n -> i < length a) by (unfold n; intros; lia).
  constructor; rewrite ?LA.
  - intros i Hi. destruct (Nat.eqb_spec i n); [subst; cbn; auto|]. apply (l_self _ _ _ L); auto.
  - intros i Hi. destruct (Nat.eqb_spec i n); [repeat constructor; cbn; tauto|]. apply (l_nodup _ _ _ L); auto.
  - intros i j Hi Hj. destruct (Nat.eqb_spec i n).
    + destruct Hj as [<-|[]]. rewrite Nat.eqb_refl. subst. auto.
    + destruct (l_same _ _ _ L i j (OLD _ Hi n0) Hj) as (Rj & Ej & Pj).
      destruct (Nat.eqb_spec j n); [subst j; unfold n in Rj; lia|]. rewrite !lk_app_old by (auto; fold n; lia).
      split; [fold n in Rj; lia|]. auto.
  - intros i p Hi Hp. destruct (Nat.eqb_spec i n).
    + subst i. unfold n in Hp. rewrite lk_app_new in Hp. discriminate.
    + rewrite lk_app_old in Hp by auto. destruct (l_up _ _ _ L i p (OLD _ Hi n0) Hp) as [Rp Ec].
      destruct (Nat.eqb_spec p n); [subst p; unfold n in Rp; lia|]. split; [fold n in Rp; lia|exact Ec].
  - intros p j Hp Hj. destruct (Nat.eqb_spec p n); [destruct Hj|].
    destruct (l_down _ _ _ L p j (OLD _ Hp n0) Hj) as [Rj Pj]. rewrite lk_app_old by exact Rj. split; [fold n in Rj; lia|exact Pj].
  - intros i l1 l2 Hi E. destruct (Nat.eqb_spec i n).
    + subst i. unfold n. rewrite !lk_app_new. destruct l1 as [|z l1]; [injection E as <-; auto|]. destruct l1; discriminate.
    + rewrite !lk_app_old by auto. apply (l_nb _ _ _ L); auto.
  - intros p Hp. destruct (Nat.eqb_spec p n).
    + subst p. unfold n. rewrite !lk_app_new. auto.
    + rewrite !lk_app_old by auto. apply (l_ends _ _ _ L); auto.
Qed.

(** Changing attributes. *)
Lemma attrs_links : forall a sib ch i f, (forall s, exists l, f s = set_sattrs l s) -> links a sib ch -> links (upd i f a) sib ch.
Proof.
  intros a sib ch i f HF L.
  assert (O : forall g j, (forall s l, g (set_sattrs l s) = g s) -> lk g (upd i f a) j = lk g a j).
  { intros g j Hg. apply lk_other. intros s. destruct (HF s) as [l ->]. apply Hg. }
  constructor; rewrite ?upd_length; intros; rewrite ?O in * by reflexivity.
  - apply (l_self _ _ _ L); auto.
  - apply (l_nodup _ _ _ L); auto.
  - apply (l_same _ _ _ L); auto.
  - apply (l_up _ _ _ L); auto.
  - apply (l_down _ _ _ L); auto.
  - apply (l_nb _ _ _ L); auto.
  - apply (l_ends _ _ _ L); auto.
Qed.

Lemma default_links : links (tr_arena tree_default) (fun i => [i]) (fun _ => []).
Proof.
  cbn. constructor; cbn [length]; intros.
  - cbn; auto.
  - repeat constructor; cbn; tauto.
  - destruct H0 as [->|[]]. auto.
  - destruct i; [discriminate|lia].
  - destruct H0.
  - destruct i; [|lia]. destruct l1 as [|z l1]; [injection H0 as <-; auto|]. destruct l1; discriminate.
  - destruct p; [auto|lia].
Qed.
