(** C60: the memory that loading asks for is bounded by the size of the file. *)
Require Import Coq.Lists.List Coq.NArith.NArith Coq.ZArith.ZArith Coq.Bool.Bool Coq.micromega.Lia.
Require Import Coq.Init.Byte.
Require Import ZifyBool ZifyNat ZifyN.
Require Import Verif.Base Verif.BaseFacts Verif.Utf8 Verif.Types Verif.Io Verif.Parser Verif.MonadFacts Verif.ParserSteps Verif.ParserShape Verif.ParserPos Verif.Loaders Verif.Spec
  Verif.LayoutIn Verif.IoFacts Verif.AttrLoad Verif.PropsSafety Verif.PropsAttr Verif.Samples.
Import ListNotations.
Open Scope monad_scope.
Ltac Zify.zify_post_hook ::= Z.div_mod_to_equations.

(** The capacity of the buffer that [DirectLoader], [BinaryLoader] and [StringLoader] create
    before they read a binary or string of declared length [len]
    (/repo/src/pull_parser/v7400/attribute/loaders/direct.rs lines 98-99 and 105-106,
    single.rs lines 84-85 and 103-104).  Arrays are collected from an iterator whose size hint
    has the lower bound 0 (array.rs lines 112-115, 200-203), so nothing is reserved for them. *)
Definition capacity_for (len : N) : N := len.

(** A loader that reads nothing and returns the capacity that these loaders ask for. *)
Definition capacity_loader : loader N :=
  mkLoader (fun _ => inr 0%N) (fun _ => inr 0%N) (fun _ => inr 0%N) (fun _ => inr 0%N) (fun _ => inr 0%N) (fun _ => inr 0%N)
    (fun _ => SRet (inr 0%N)) (fun _ => SRet (inr 0%N)) (fun _ => SRet (inr 0%N)) (fun _ => SRet (inr 0%N)) (fun _ => SRet (inr 0%N))
    (fun len => RRet (inr (capacity_for len))) (fun len => RRet (inr (capacity_for len)))
    (fun len => RRet (inr (capacity_for len))) (fun len => RRet (inr (capacity_for len))).

Section WithEnv.
Context {env : Env}.

Lemma array_zero : forall A (el : elem A) a b s n s', load_array el (fun _ => SRet (inr 0%N)) a b s = (Ok n, s') -> n = 0%N.
Proof.
  intros A el a b s n s' H. unfold load_array in H. mstep H as h s1 E1; try discriminate. destruct h as [[c e] l].
  mstep H as u s2 E2; try discriminate. mstep H as d s3 E3; try discriminate. cbn [run_seq] in H. unfold bind, ret, lift in H. cbn [it_bad it_err when] in H.
  injection H as <- <-. reflexivity.
Qed.
Lemma special_len : forall s n s', load_special (fun len => RRet (inr (capacity_for len))) s = (Ok n, s') -> (n < 2 ^ 32)%N.
Proof.
  intros s n s' H. unfold load_special in H. mstep H as len s1 E1; try discriminate. mstep H as u s2 E2; try discriminate. cbn [run_rd] in H. injection H as <- <-.
  apply parse_uint_fits in E1. exact E1.
Qed.

(** One load asks for less than 4 GiB, whatever the file says. *)
Theorem C60_capacity_partial : forall b s n s', load_next_gen b capacity_loader s = (Ok (Some n), s') -> (n < 2 ^ 32)%N.
Proof.
  intros b s n s' H. apply load_next_shape in H; [|discriminate]. destruct (p_health s); [|destruct H; discriminate|destruct H; discriminate].
  destruct H as (a & _ & r0 & s1 & E & _ & -> & ->). unfold load_body in E. mstep E as t s2 E2; try discriminate. destruct t as [t|]; [|discriminate].
  mstep E as v s3 E3; try discriminate. injection E as <- <-. unfold load_next_impl in E3.
  assert (Z : (v = 0 -> v < 2 ^ 32)%N) by (intros ->; reflexivity).
  destruct t; cbn [ld_bool ld_i16 ld_i32 ld_i64 ld_f32 ld_f64 ld_abool ld_ai32 ld_ai64 ld_af32 ld_af64 ld_bin ld_str ld_bin_buf ld_str_buf capacity_loader] in E3;
    try (apply array_zero in E3; auto; fail); try (destruct b; apply special_len in E3; exact E3).
  all: apply Z; mstep E3 as w s4 E4; try discriminate; mstep E3 as u s5 E5; try discriminate.
  - mstep E3 as u' s6 E6; try discriminate. injection E3 as <- <-. reflexivity.
  - injection E3 as <- <-. reflexivity.
  - injection E3 as <- <-. reflexivity.
  - injection E3 as <- <-. reflexivity.
  - injection E3 as <- <-. reflexivity.
  - injection E3 as <- <-. reflexivity.
Qed.

(** [load_special] with both loaders from one state. *)
Lemma special_both : forall (pr : rdprog aval) (chk : list byte -> bool) (f : list byte -> aval) s v s1,
  pr = RToEnd (fun r => RRet match r with (Some e, _) => inl (err_from (EIo e)) | (None, bs) => if chk bs then inr (f bs) else inl (err_from (EIo IoUtf8)) end) ->
  load_special (fun _ => pr) s = (Ok v, s1) ->
  exists n s2 bs, load_special (fun len => RRet (inr (capacity_for len))) s = (Ok n, s2) /\ v = f bs /\
    (lenN bs <= n)%N /\ (lenN bs < n -> rem_of s1 = [])%N /\ (lenN bs + lenN (rem_of s1) <= lenN (rem_of s))%N.
Proof.
  intros pr chk f s v s1 -> H. unfold load_special in *. mstep H as len s2 E1; try discriminate. mstep H as u s3 E2; try discriminate. mstep H as x s4 E3; try discriminate.
  assert (F : (lenN (rem_of s3) <= lenN (rem_of s))%N).
  { pose proof (parse_uint_quiet 4 s) as Q1. pose proof (update_next_quiet len s2) as Q2. rewrite E1 in Q1. rewrite E2 in Q2. cbn [fst snd] in Q1, Q2.
    destruct Q1 as ((_ & _ & _ & _ & _ & _ & _ & d1 & q1 & M1 & _) & _); [discriminate|]. destruct Q2 as ((_ & _ & _ & _ & _ & _ & _ & d2 & q2 & M2 & _) & _); [discriminate|].
    unfold rd_moved in M1, M2. unfold rem_of. destruct M1 as (R1 & _). destruct M2 as (R2 & _). rewrite R2, R1, !lenN_dropN. lia. }
  cbn [run_rd] in E3. mstep E3 as p0 s5 G1; try discriminate. mstep E3 as r s6 G2; try discriminate. mstep E3 as p1 s7 G3; try discriminate.
  unfold reader_pos, gets in G1, G3. injection G1 as <- <-. injection G3 as <- <-. inversion E3; subst; clear E3.
  unfold rdop in G2. destruct (rd_to_end len (p_rd s3)) as [[[e got]|] r'] eqn:E; [|discriminate]. injection G2 as <- <-. apply rd_to_end_spec in E.
  destruct E as (Hr & Hl & _ & _ & Hn). destruct e as [e|]; [discriminate|]. specialize (Hn eq_refl).
  destruct (chk got); [|discriminate]. injection H as <- <-.
  assert (S : (lenN (rem_of s3) = lenN got + lenN (s_rem (r_stream r')))%N) by (unfold rem_of; rewrite Hr, lenN_app; reflexivity).
  exists len, s3, got. split; [|split; [reflexivity|split; [exact Hl|split]]].
  - unfold bind. rewrite E1, E2. reflexivity.
  - intros L. cbn. assert (Z : (lenN (s_rem (r_stream r')) = 0)%N). { apply (f_equal lenN) in Hn. rewrite lenN_takeN in Hn. unfold rem_of in S. lia. }
    unfold rem_of, set_rd; cbn. destruct (s_rem (r_stream r')); [reflexivity|]. rewrite lenN_cons in Z. lia.
  - unfold rem_of at 1, set_rd; cbn. lia.
Qed.
Lemma array_both : forall A (el : elem A) (f : list A -> aval) a b s v s1, load_array el (fun _ => collect_as f) a b s = (Ok v, s1) ->
  exists s2, load_array el (fun _ => SRet (inr 0%N)) a b s = (Ok 0%N, s2) /\ exists l, v = f l.
Proof.
  intros A el f a b s v s1 H. unfold load_array in *. mstep H as h s2 E1; try discriminate. destruct h as [[c e] l].
  mstep H as u s3 E2; try discriminate. mstep H as d s4 E3; try discriminate. mstep H as x s5 E4; try discriminate. destruct x as [it r].
  mstep H as w s6 E5; try discriminate. mstep H as u' s7 E6; try discriminate.
  assert (w = v) by (destruct (it_err it); [discriminate|injection H as <- _; reflexivity]). subst w.
  exists s4. split; [unfold bind at 1; rewrite E1; unfold bind at 1; rewrite E2; unfold bind at 1; rewrite E3; reflexivity|].
  unfold collect_as in E4. cbn [run_seq] in E4. mstep E4 as y s8 E7; try discriminate. destruct y as [it' r']. cbn in E4. injection E4 as <- <- <-.
  destruct r' as [e'|l']; [discriminate|]. injection E5 as <- _. exists l'. reflexivity.
Qed.

(** Whenever a value is loaded, the capacity asked for is what the value needs: nothing beyond
    it unless the file ends inside the value, and then nothing is left of the file.  So a
    demand larger than the rest of the file is made for truncated values only. *)
Theorem C60_demand_partial : forall b s v s1, load_next_gen b direct_loader s = (Ok (Some v), s1) ->
  exists n s2, load_next_gen b capacity_loader s = (Ok (Some n), s2) /\
    match v with
    | VBinary bs | VString bs => (lenN bs <= n)%N /\ (lenN bs < n -> rem_of s1 = [])%N /\ (n <= lenN (rem_of s) \/ rem_of s1 = [])%N
    | _ => n = 0%N
    end.
Proof.
  intros b s v s1 H. unfold load_next_gen, do_with_health_check in *. mstep H as u s2 E1; try discriminate. mstep H as a s3 E2; try discriminate. mstep H as r s4 E3; try discriminate.
  destruct r as [e|ov]; [mstep H as p s5 E4; try discriminate; mstep H as u' s6 E5; discriminate|]. unfold ret in H. inversion H; subst ov s4; clear H.
  assert (s2 = s) as -> by (unfold ensure_continuable in E1; unfold bind, gets in E1; destruct (p_health s); [injection E1 as _ <-; reflexivity|discriminate|discriminate]).
  assert (s3 = s) as -> by (unfold get_attrs, bind, gets in E2; destruct (p_attrs s); [injection E2 as _ <-; reflexivity|discriminate]).
  unfold bind at 1; rewrite E1. unfold bind at 1; rewrite E2. cbv zeta.
  unfold try_ in E3. match type of E3 with context [match ?m s with _ => _ end] => destruct (m s) as [[o|e|] s7] eqn:E4 end; try discriminate. inversion E3; subst; clear E3.
  mstep E4 as t s8 E5; try discriminate. destruct t as [t|]; [|discriminate]. mstep E4 as w s9 E6; try discriminate. unfold ret in E4. inversion E4; subst; clear E4.
  assert (F : (lenN (rem_of s8) <= lenN (rem_of s))%N).
  { pose proof (read_next_attr_type_quiet s) as Q1. rewrite E5 in Q1. cbn [fst snd] in Q1. destruct Q1 as ((_ & _ & _ & _ & _ & _ & _ & d1 & q1 & M1 & _) & _); [discriminate|].
    unfold rd_moved in M1. unfold rem_of. destruct M1 as (R1 & _). rewrite R1, lenN_dropN. lia. }
  assert (K : forall n sx, load_next_impl b t capacity_loader (a_next a) (a_total a - a_rest a) s8 = (Ok n, sx) ->
    match v with VBinary bs | VString bs => (lenN bs <= n)%N /\ (lenN bs < n -> rem_of s1 = [])%N /\ (n <= lenN (rem_of s) \/ rem_of s1 = [])%N | _ => n = 0%N end ->
    exists n s2, (let* r := try_ (let* t := read_next_attr_type in match t with None => ret None
        | Some t => let* v := load_next_impl b t capacity_loader (a_next a) (a_total a - a_rest a) in ret (Some v) end) in
      match r with inl e => let* p := attr_position (a_next a) (a_total a - a_rest a) in modify (set_health (Aborted p)) ;; throw (and_position e p) | inr v0 => ret v0 end) s = (Ok (Some n), s2) /\
    match v with VBinary bs | VString bs => (lenN bs <= n)%N /\ (lenN bs < n -> rem_of s1 = [])%N /\ (n <= lenN (rem_of s) \/ rem_of s1 = [])%N | _ => n = 0%N end).
  { intros n sx L X. exists n, sx. split; [|exact X]. unfold bind, try_. rewrite E5, L. reflexivity. }
  unfold load_next_impl in E6, K.
  destruct t; cbn [ld_bool ld_i16 ld_i32 ld_i64 ld_f32 ld_f64 ld_abool ld_ai32 ld_ai64 ld_af32 ld_af64 ld_bin ld_str ld_bin_buf ld_str_buf capacity_loader direct_loader] in E6, K.
  all: try (apply array_both in E6; destruct E6 as (sx & L & l & ->); apply (K _ _ L); reflexivity).
  7: assert (E' : load_special (fun _ => read_all VBinary) s8 = (Ok v, s1)) by (destruct b; exact E6);
     apply (special_both _ (fun _ => true) VBinary _ _ _ eq_refl) in E'.
  8: assert (E' : load_special (fun _ => read_all_str VString) s8 = (Ok v, s1)) by (destruct b; exact E6);
     apply (special_both _ utf8_valid VString _ _ _ eq_refl) in E'.
  7,8: destruct E' as (n & sx & bs & L & -> & X3 & X4 & X5); apply (K n sx); [destruct b; exact L|];
     (split; [exact X3|split; [exact X4|destruct (N.ltb_spec (lenN bs) n); [right; auto|left; lia]]]).
  all: mstep E6 as w s10 E7; try discriminate; mstep E6 as u1 s11 E8; try discriminate.
  1: mstep E6 as u2 s12 E9; try discriminate.
  all: unfold lift, ret in E6; inversion E6; subst; eapply K; [unfold bind; rewrite E7, E8; try rewrite E9; reflexivity|reflexivity].
Qed.
End WithEnv.

(** ** Concrete cases *)
Module AllocCases.
(** A file of 48 bytes whose only attribute claims 2^32 - 1 bytes: that is what the loaders ask
    for.  The value returned has two bytes. *)
Definition huge : list byte := one_node 1 ([x52] ++ le_enc 4 4294967295 ++ [x01; x02]) [].
Definition s_huge : pstate := Eval vm_compute in match run_from release huge [] true [@ONext aval] with Some (_, s) => s | None => mkP 0 Running [] None 0 (mkReader (mkStream [] 0 [] []) 0 true) None [] None end.
Theorem C60_refuted : exists p rs s1 s2, opened huge [] [] true None p /\ run_ops (env := release) [@ONext aval] p = (rs, s_huge) /\ lenN huge = 48%N /\
  load_next (env := release) capacity_loader s_huge = (Ok (Some 4294967295%N), s1) /\
  load_next (env := release) direct_loader s_huge = (Ok (Some (VBinary [x01; x02])), s2).
Proof. do 4 eexists. split; [eexists; split; vm_compute; reflexivity|]. repeat (split; [vm_compute; reflexivity|]). vm_compute. reflexivity. Qed.
Example C60_ex : exists s', load_next (env := release) capacity_loader s_huge = (Ok (Some 4294967295%N), s').
Proof. eexists. vm_compute. reflexivity. Qed.
(** A complete binary attribute: the capacity is the length of the value. *)
Definition full : list byte := one_node 1 ([x52] ++ le_enc 4 3 ++ [x01; x02; x03]) [].
Definition s_full : pstate := Eval vm_compute in match run_from release full [] true [@ONext aval] with Some (_, s) => s | None => s_huge end.
Example C60_full_ex : exists s1 s2, load_next_gen (env := release) false direct_loader s_full = (Ok (Some (VBinary [x01; x02; x03])), s1) /\
  load_next_gen (env := release) false capacity_loader s_full = (Ok (Some 3%N), s2).
Proof. do 2 eexists. split; vm_compute; reflexivity. Qed.
End AllocCases.
