(** Three small program logics for the parser monad: step relations, Hoare triples,
    relational triples. *)
Require Import Coq.Lists.List Coq.NArith.NArith Coq.ZArith.ZArith Coq.Bool.Bool Coq.micromega.Lia.
Require Import Verif.Base Verif.BaseFacts Verif.Utf8 Verif.Types Verif.Io Verif.IoFacts Verif.Parser.
Import ListNotations.

(** ** Step relations: unless it panics, [m] only moves the state along the preorder [T]. *)
Definition steps (T : pstate -> pstate -> Prop) {A} (m : M A) : Prop :=
  forall s, fst (m s) <> Panic -> T s (snd (m s)).

Definition preorder (T : pstate -> pstate -> Prop) : Prop :=
  (forall s, T s s) /\ (forall a b c, T a b -> T b c -> T a c).

Section Steps.
Context (T : pstate -> pstate -> Prop) (HT : preorder T).

Lemma st_ret : forall A (a : A), steps T (ret a).
Proof. intros A a s _. apply HT. Qed.
Lemma st_throw : forall A e, steps T (@throw A e).
Proof. intros A e s _. apply HT. Qed.
Lemma st_panic : forall A, steps T (@panic A).
Proof. intros A s _. apply HT. Qed.
Lemma st_gets : forall A (f : pstate -> A), steps T (gets f).
Proof. intros A f s _. apply HT. Qed.
Lemma st_modify : forall f, (forall s, T s (f s)) -> steps T (modify f).
Proof. intros f H s _. apply H. Qed.
Lemma st_bind : forall A B (m : M A) (f : A -> M B),
  steps T m -> (forall a, steps T (f a)) -> steps T (bind m f).
Proof.
  intros A B m f Hm Hf s. unfold bind. specialize (Hm s).
  destruct (m s) as [[a|e|] s']; simpl in *; intros Hp.
  - eapply HT; [apply Hm; discriminate | apply Hf; exact Hp].
  - apply Hm. discriminate.
  - congruence.
Qed.
Lemma st_try : forall A (m : M A), steps T m -> steps T (try_ m).
Proof.
  intros A m Hm s. unfold try_. specialize (Hm s).
  destruct (m s) as [[a|e|] s']; simpl in *; intros Hp; try (apply Hm; discriminate). congruence.
Qed.
Lemma st_when : forall b m, steps T m -> steps T (when b m).
Proof. intros [|] m H; [exact H | apply st_ret]. Qed.
Lemma st_assert : forall b, steps T (assert_ b).
Proof. intros [|]; [apply st_ret | apply st_panic]. Qed.
Lemma st_lift : forall A (r : perr + A), steps T (lift r).
Proof. intros A [e|a]; [apply st_throw | apply st_ret]. Qed.
Lemma st_position : steps T position.
Proof. intros s _. unfold position. destruct (position_of s); apply HT. Qed.
Lemma st_ensure : steps T ensure_continuable.
Proof. intros s _. unfold ensure_continuable. destruct (p_health s); apply HT. Qed.
Lemma st_mloop : forall S R p (f : S -> M (S + R)), (forall x, steps T (f x)) -> forall x, steps T (mloop p f x).
Proof.
  intros S R p f Hf. induction p as [p IH|p IH|]; intros x; cbn [mloop].
  - apply st_bind; [apply Hf | intros [x'|v]].
    + apply st_bind; [apply IH | intros [x2|v]; [apply IH | apply st_ret]].
    + apply st_ret.
  - apply st_bind; [apply IH | intros [x'|v]; [apply IH | apply st_ret]].
  - apply Hf.
Qed.
Lemma st_rdop : forall A (f : reader -> option A * reader),
  (forall s a r, f (p_rd s) = (Some a, r) -> T s (set_rd r s)) -> steps T (rdop f).
Proof.
  intros A f H s. unfold rdop. specialize (H s).
  destruct (f (p_rd s)) as [[a|] r]; simpl; intros Hp; [eauto | congruence].
Qed.
End Steps.

(** Walk through a program, leaving the leaves (modify, rdop, warn) to the caller. *)
Ltac steps_step HT :=
  first
    [ simple apply (st_bind _ HT); [| intros ?]
    | simple apply (st_ret _ HT) | simple apply (st_throw _ HT) | simple apply (st_panic _ HT)
    | simple apply (st_gets _ HT)
    | simple apply st_try | simple apply (st_when _ HT) | simple apply (st_assert _ HT)
    | simple apply (st_lift _ HT)
    | simple apply (st_position _ HT) | simple apply (st_ensure _ HT)
    | match goal with |- steps _ (let '(_, _) := ?x in _) => destruct x end
    | match goal with |- steps _ (match ?x with _ => _ end) => destruct x end ].

(** ** Hoare triples, total over results (including errors and panics). *)
Definition hoare {A} (P : pstate -> Prop) (m : M A) (Q : res perr A -> pstate -> Prop) : Prop :=
  forall s, P s -> Q (fst (m s)) (snd (m s)).

(** Postconditions by outcome: [Q] for values, [QE] for errors, [X] for panics. *)
Definition post (X : Prop) {A} (Q : A -> pstate -> Prop) (QE : perr -> pstate -> Prop) : res perr A -> pstate -> Prop :=
  fun r s => match r with Ok a => Q a s | Err e => QE e s | Panic => X end.

(** [psafe X P m Q QE]: from [P], [m] panics only if [X], else establishes [Q] or [QE]. *)
Definition psafe (X : Prop) {A} P (m : M A) Q QE := hoare P m (post X Q QE).
(** [safe P m Q QE]: from [P], [m] does not panic and establishes [Q] or [QE]. *)
Notation safe := (psafe False).
Lemma sf_any : forall (X : Prop) A (m : M A) P Q QE, safe P m Q QE -> psafe X P m Q QE.
Proof.
  intros X A m P Q QE H s Hs. specialize (H s Hs). destruct (m s) as [[a|e|] s']; simpl in *; tauto.
Qed.

Lemma sf_ret : forall (X : Prop) A (a : A) (P : pstate -> Prop) (Q : A -> pstate -> Prop) QE,
  (forall s, P s -> Q a s) -> psafe X P (ret a) Q QE.
Proof. intros X A a P Q QE H s Hs. simpl. auto. Qed.
Lemma sf_throw : forall (X : Prop) A e (P : pstate -> Prop) Q (QE : perr -> pstate -> Prop),
  (forall s, P s -> QE e s) -> psafe X P (@throw A e) Q QE.
Proof. intros X A e P Q QE H s Hs. simpl. auto. Qed.
Lemma sf_bind : forall (X : Prop) A B (m : M A) (f : A -> M B) P R Q QE,
  psafe X P m R QE -> (forall a, psafe X (R a) (f a) Q QE) -> psafe X P (bind m f) Q QE.
Proof.
  intros X A B m f P R Q QE Hm Hf s Hs. unfold bind. specialize (Hm s Hs).
  destruct (m s) as [[a|e|] s']; simpl in *; try exact Hm.
  apply Hf. exact Hm.
Qed.
Lemma sf_gets : forall (X : Prop) A (f : pstate -> A) (P : pstate -> Prop) (Q : A -> pstate -> Prop) QE,
  (forall s, P s -> Q (f s) s) -> psafe X P (gets f) Q QE.
Proof. intros X A f P Q QE H s Hs. simpl. auto. Qed.
Lemma sf_modify : forall (X : Prop) f (P : pstate -> Prop) (Q : unit -> pstate -> Prop) QE,
  (forall s, P s -> Q tt (f s)) -> psafe X P (modify f) Q QE.
Proof. intros X f P Q QE H s Hs. simpl. auto. Qed.
Lemma sf_conseq : forall (X : Prop) A (m : M A) (P P' : pstate -> Prop) (Q Q' : A -> pstate -> Prop) (QE QE' : perr -> pstate -> Prop),
  psafe X P' m Q' QE' -> (forall s, P s -> P' s) -> (forall a s, Q' a s -> Q a s) ->
  (forall e s, QE' e s -> QE e s) -> psafe X P m Q QE.
Proof.
  intros X A m P P' Q Q' QE QE' H HP HQ HE s Hs. specialize (H s (HP s Hs)).
  unfold post in *. destruct (m s) as [[a|e|] s']; simpl in *; auto.
Qed.
Lemma sf_try : forall (X : Prop) A (m : M A) P (Q : perr + A -> pstate -> Prop) QE,
  psafe X P m (fun a => Q (inr a)) (fun e => Q (inl e)) -> psafe X P (try_ m) Q QE.
Proof.
  intros X A m P Q QE H s Hs. specialize (H s Hs). unfold try_.
  destruct (m s) as [[a|e|] s']; simpl in *; auto.
Qed.
Lemma sf_when : forall (X : Prop) b m (P : pstate -> Prop) (Q : unit -> pstate -> Prop) QE,
  (b = true -> psafe X P m Q QE) -> (b = false -> forall s, P s -> Q tt s) -> psafe X P (when b m) Q QE.
Proof.
  intros X [|] m P Q QE H1 H2; simpl; [auto|]. apply sf_ret. auto.
Qed.
Lemma sf_assert : forall (X : Prop) b (P : pstate -> Prop) (Q : unit -> pstate -> Prop) QE,
  (forall s, P s -> b = true /\ Q tt s) -> psafe X P (assert_ b) Q QE.
Proof.
  intros X b P Q QE H s Hs. destruct (H s Hs) as [-> HQ]. simpl. exact HQ.
Qed.
Lemma sf_pre : forall (X : Prop) A (m : M A) (P : pstate -> Prop) Q QE, (forall s, P s -> psafe X (fun t => t = s) m Q QE) -> psafe X P m Q QE.
Proof. intros X A m P Q QE H s Hs. apply (H s Hs). reflexivity. Qed.

(** ** Relational triples: equal results, related final states. *)
Definition rel {A} (R : pstate -> pstate -> Prop) (m1 m2 : M A) : Prop :=
  forall s1 s2, R s1 s2 ->
    fst (m1 s1) = fst (m2 s2) /\ R (snd (m1 s1)) (snd (m2 s2)).

Section Rel.
Context (R : pstate -> pstate -> Prop).

Lemma rl_ret : forall A (a : A), rel R (ret a) (ret a).
Proof. intros A a s1 s2 H. split; [reflexivity | exact H]. Qed.
Lemma rl_throw : forall A e, rel R (@throw A e) (@throw A e).
Proof. intros A e s1 s2 H. split; [reflexivity | exact H]. Qed.
Lemma rl_panic : forall A, rel R (@panic A) (@panic A).
Proof. intros A s1 s2 H. split; [reflexivity | exact H]. Qed.
Lemma rl_bind : forall A B (m1 m2 : M A) (f1 f2 : A -> M B),
  rel R m1 m2 -> (forall a, rel R (f1 a) (f2 a)) -> rel R (bind m1 f1) (bind m2 f2).
Proof.
  intros A B m1 m2 f1 f2 Hm Hf s1 s2 H. unfold bind. destruct (Hm s1 s2 H) as [E HR].
  destruct (m1 s1) as [r1 t1], (m2 s2) as [r2 t2]. simpl in E, HR. subst r2.
  destruct r1 as [a|e|]; simpl; auto. apply Hf. exact HR.
Qed.
Lemma rl_gets : forall A (f : pstate -> A), (forall s1 s2, R s1 s2 -> f s1 = f s2) -> rel R (gets f) (gets f).
Proof. intros A f H s1 s2 HR. simpl. rewrite (H s1 s2 HR). auto. Qed.
Lemma rl_modify : forall f, (forall s1 s2, R s1 s2 -> R (f s1) (f s2)) -> rel R (modify f) (modify f).
Proof. intros f H s1 s2 HR. simpl. auto. Qed.
Lemma rl_try : forall A (m1 m2 : M A), rel R m1 m2 -> rel R (try_ m1) (try_ m2).
Proof.
  intros A m1 m2 Hm s1 s2 H. unfold try_. destruct (Hm s1 s2 H) as [E HR].
  destruct (m1 s1) as [r1 t1], (m2 s2) as [r2 t2]. simpl in E, HR. subst r2.
  destruct r1 as [a|e|]; simpl; auto.
Qed.
Lemma rl_when : forall b m1 m2, rel R m1 m2 -> rel R (when b m1) (when b m2).
Proof. intros [|] m1 m2 H; [exact H | apply rl_ret]. Qed.
Lemma rl_assert : forall b, rel R (assert_ b) (assert_ b).
Proof. intros [|]; [apply rl_ret | apply rl_panic]. Qed.
Lemma rl_lift : forall A (r : perr + A), rel R (lift r) (lift r).
Proof. intros A [e|a]; [apply rl_throw | apply rl_ret]. Qed.
Lemma rl_mloop : forall S X p (f : S -> M (S + X)), (forall x, rel R (f x) (f x)) -> forall x, rel R (mloop p f x) (mloop p f x).
Proof.
  intros S X p f Hf. induction p as [p IH|p IH|]; intros x; cbn [mloop].
  - apply rl_bind; [apply Hf | intros [x'|v]].
    + apply rl_bind; [apply IH | intros [x2|v]; [apply IH | apply rl_ret]].
    + apply rl_ret.
  - apply rl_bind; [apply IH | intros [x'|v]; [apply IH | apply rl_ret]].
  - apply Hf.
Qed.
Lemma rl_rdop : forall A (f : reader -> option A * reader),
  (forall s1 s2, R s1 s2 ->
     fst (f (p_rd s1)) = fst (f (p_rd s2)) /\
     R (set_rd (snd (f (p_rd s1))) s1) (set_rd (snd (f (p_rd s2))) s2)) -> rel R (rdop f) (rdop f).
Proof.
  intros A f H s1 s2 HR. unfold rdop. destruct (H s1 s2 HR) as [E HR'].
  destruct (f (p_rd s1)) as [o1 r1], (f (p_rd s2)) as [o2 r2]. simpl in E, HR'. subst o2.
  destruct o1; simpl; auto.
Qed.
End Rel.

(** [mloop] as iteration on natural numbers. *)
Fixpoint nloop {S R} (n : nat) (f : S -> M (S + R)) (x : S) : M (S + R) :=
  match n with
  | O => ret (inl x)
  | Datatypes.S n' => let* r := f x in match r with inl x' => nloop n' f x' | inr v => ret (inr v) end
  end.

Lemma nloop_add : forall S R n m (f : S -> M (S + R)) x s,
  nloop (n + m)%nat f x s =
  bind (nloop n f x) (fun r => match r with inl x' => nloop m f x' | inr v => ret (inr v) end) s.
Proof.
  induction n as [|n IH]; intros m f x s; cbn [nloop Nat.add].
  - reflexivity.
  - unfold bind. destruct (f x s) as [[[x'|v]|e|] s']; try reflexivity.
    rewrite IH. unfold bind. reflexivity.
Qed.

Lemma nloop_1 : forall S R (f : S -> M (S + R)) x s, nloop 1 f x s = f x s.
Proof.
  intros. cbn. unfold bind. destruct (f x s) as [[[x'|v]|e|] s']; reflexivity.
Qed.

Lemma mloop_nloop : forall S R p (f : S -> M (S + R)) x s,
  mloop p f x s = nloop (Pos.to_nat p) f x s.
Proof.
  intros S R p f. induction p as [p IH|p IH|]; intros x s.
  - rewrite Pos2Nat.inj_xI. cbn [mloop]. change (Datatypes.S (2 * Pos.to_nat p)) with (1 + 2 * Pos.to_nat p)%nat.
    rewrite nloop_add. unfold bind at 1 3. rewrite nloop_1.
    destruct (f x s) as [[[x'|v]|e|] s']; try reflexivity.
    simpl Nat.mul. rewrite Nat.add_0_r, nloop_add. unfold bind.
    rewrite IH. destruct (nloop (Pos.to_nat p) f x' s') as [[[x2|v]|e|] s2]; try reflexivity.
    apply IH.
  - rewrite Pos2Nat.inj_xO. cbn [mloop]. simpl Nat.mul. rewrite Nat.add_0_r, nloop_add. unfold bind.
    rewrite IH. destruct (nloop (Pos.to_nat p) f x s) as [[[x2|v]|e|] s2]; try reflexivity.
    apply IH.
  - rewrite Pos2Nat.inj_1, nloop_1. reflexivity.
Qed.

(** Stepping through a program on a concrete state. *)
Lemma bind_ok : forall A B (m : M A) (f : A -> M B) s a s', m s = (Ok a, s') -> bind m f s = f a s'.
Proof. intros A B m f s a s' H. unfold bind. rewrite H. reflexivity. Qed.
Lemma bind_err : forall A B (m : M A) (f : A -> M B) s e s', m s = (Err e, s') -> bind m f s = (Err e, s').
Proof. intros A B m f s a s' H. unfold bind. rewrite H. reflexivity. Qed.
Lemma bind_panic : forall A B (m : M A) (f : A -> M B) s s', m s = (Panic, s') -> bind m f s = (Panic, s').
Proof. intros A B m f s s' H. unfold bind. rewrite H. reflexivity. Qed.
Lemma bind_gets : forall A B (g : pstate -> A) (f : A -> M B) s, bind (gets g) f s = f (g s) s.
Proof. reflexivity. Qed.
Lemma bind_modify : forall B g (f : unit -> M B) s, bind (modify g) f s = f tt (g s).
Proof. reflexivity. Qed.
Lemma bind_ret : forall A B (a : A) (f : A -> M B) s, bind (ret a) f s = f a s.
Proof. reflexivity. Qed.
Lemma bind_throw : forall A B e (f : A -> M B) s, bind (throw e) f s = (Err e, s).
Proof. reflexivity. Qed.
Lemma bind_assoc : forall A B C (m : M A) (f : A -> M B) (g : B -> M C) s,
  bind (bind m f) g s = bind m (fun a => bind (f a) g) s.
Proof. intros. unfold bind. destruct (m s) as [[a|e|] s']; reflexivity. Qed.
Lemma bind_inv : forall A B (m : M A) (f : A -> M B) s r s',
  bind m f s = (r, s') ->
  (exists a s1, m s = (Ok a, s1) /\ f a s1 = (r, s')) \/
  (exists e, m s = (Err e, s') /\ r = Err e) \/
  (m s = (Panic, s') /\ r = Panic).
Proof.
  intros A B m f s r s' H. unfold bind in H. destruct (m s) as [[a|e|] s1].
  - left. eauto.
  - right; left. injection H as <- <-. eauto.
  - right; right. injection H as <- <-. auto.
Qed.
Lemma steps_elim : forall T A (m : M A) s r s', steps T m -> m s = (r, s') -> r <> Panic -> T s s'.
Proof. intros T A m s r s' H E Hp. specialize (H s). rewrite E in H. apply H. exact Hp. Qed.

(** Invert a hypothesis [bind m f s = (r, s')]. *)
Tactic Notation "mstep" hyp(H) "as" simple_intropattern(a) ident(s1) ident(E) :=
  let e := fresh "e" in
  apply bind_inv in H;
  destruct H as [(a & s1 & E & H) | [(e & E & H) | (E & H)]].
