(** A zlib implementation of the published format (RFC 1950 and RFC 1951).

    This models no code of /repo: the crate calls the external crate [libflate], of which the
    theorems assume contracts ([zlib_roundtrip], [zlib_hands_on]).  This file shows that a decoder
    for the whole format (stored blocks, fixed and dynamic Huffman codes, back references), with an
    encoder that uses literals only, meets the contracts.  That arrays
    compressed by the reference implementation are loaded is in PropsDeflate.v.  The decoder stops
    where the caller has all the bytes it asked for, and does not look at the checksum. *)
Require Import Coq.Lists.List Coq.NArith.NArith Coq.ZArith.ZArith Coq.Bool.Bool Coq.micromega.Lia.
Require Import ZifyBool ZifyNat ZifyN.
Require Import Coq.Init.Byte.
Require Import Verif.Base Verif.BaseFacts Verif.Types Verif.Parser Verif.Zlib Verif.SpecErr.
Import ListNotations.
Local Open Scope nat_scope.

(** ** Programs that read bits *)
Inductive bp (A : Type) :=
| BRet (a : A)
| BFail
| BBit (k : bool -> bp A)
| BAlign (k : bp A).
Arguments BRet {A}. Arguments BFail {A}. Arguments BBit {A}. Arguments BAlign {A}.
Fixpoint bbind {A B} (p : bp A) (f : A -> bp B) : bp B :=
  match p with
  | BRet a => f a
  | BFail => BFail
  | BBit k => BBit (fun b => bbind (k b) f)
  | BAlign k => BAlign (bbind k f)
  end.
Declare Scope bits_scope.
Notation "'bit' x <- p ;; q" := (bbind p (fun x => q)) (at level 61, p at next level, right associativity) : bits_scope.
Open Scope bits_scope.

(** A number of [n] bits, least significant bit first (RFC 1951, 3.1.1). *)
Fixpoint bits (n : nat) : bp N :=
  match n with
  | O => BRet 0%N
  | S n => BBit (fun b => bit r <- bits n ;; BRet ((if b then 1 else 0) + 2 * r)%N)
  end.

(** ** Huffman codes, RFC 1951, 3.2.2: how many codes of each length 1..15, and the symbols in the
    order of their codes *)
Record huff := mkHuff { h_count : list N; h_syms : list N }.
Definition mk_huff (lens : list nat) : huff :=
  mkHuff (map (fun l => N.of_nat (count_occ Nat.eq_dec lens l)) (seq 1 15))
         (flat_map (fun l => map (fun p => N.of_nat (fst p)) (filter (fun p => Nat.eqb (snd p) l) (combine (seq 0 (length lens)) lens))) (seq 1 15)).
Fixpoint hsym (counts : list N) (syms : list N) (code first : N) : bp N :=
  match counts with
  | [] => BFail
  | cnt :: rest => BBit (fun b =>
      let code := (code + if b then 1 else 0)%N in
      if (code <? first + cnt)%N then match nth_error syms (N.to_nat (code - first)) with Some s => BRet s | None => BFail end
      else hsym rest (skipn (N.to_nat cnt) syms) (2 * code) (2 * (first + cnt)))
  end.
Definition symbol (h : huff) : bp N := hsym (h_count h) (h_syms h) 0 0.

(** ** Blocks *)
Inductive mode :=
| MBlock                                            (** before a block *)
| MStored (left : nat) (last : bool)
| MHuff (lit dist : huff) (last : bool)
| MEnd.

(** RFC 1951, 3.2.6. *)
Definition fixed_lit : huff := Eval vm_compute in mk_huff (repeat 8 144 ++ repeat 9 112 ++ repeat 7 24 ++ repeat 8 8).
Definition fixed_dist : huff := Eval vm_compute in mk_huff (repeat 5 30).

(** RFC 1951, 3.2.5: base and extra bits of lengths and distances. *)
Definition len_base : list nat := [3;4;5;6;7;8;9;10;11;13;15;17;19;23;27;31;35;43;51;59;67;83;99;115;131;163;195;227;258].
Definition len_extra : list nat := [0;0;0;0;0;0;0;0;1;1;1;1;2;2;2;2;3;3;3;3;4;4;4;4;5;5;5;5;0].
Definition dist_base : list N := [1;2;3;4;5;7;9;13;17;25;33;49;65;97;129;193;257;385;513;769;1025;1537;2049;3073;4097;6145;8193;12289;16385;24577]%N.
Definition dist_extra : list nat := [0;0;0;0;1;1;2;2;3;3;4;4;5;5;6;6;7;7;8;8;9;9;10;10;11;11;12;12;13;13].

(** RFC 1951, 3.2.7: dynamic codes. *)
Definition clen_order : list nat := [16;17;18;0;8;7;9;6;10;5;11;4;12;3;13;2;14;1;15].
Fixpoint clens (order : list nat) (n : nat) : bp (list (nat * nat)) :=
  match order, n with
  | o :: order, S n => bit l <- bits 3 ;; bit r <- clens order n ;; BRet ((o, N.to_nat l) :: r)
  | _, _ => BRet []
  end.
Definition assoc (l : list (nat * nat)) (i : nat) : nat := match find (fun p => Nat.eqb (fst p) i) l with Some p => snd p | None => 0 end.
(** The code lengths, the last one read first. *)
Fixpoint lens (fuel need : nat) (h : huff) (acc : list nat) : bp (list nat) :=
  if Nat.leb need (length acc) then (if Nat.eqb need (length acc) then BRet (rev acc) else BFail)
  else match fuel with
  | O => BFail
  | S fuel =>
      bit s <- symbol h ;;
      if (s <? 16)%N then lens fuel need h (N.to_nat s :: acc)
      else if (s =? 16)%N then match acc with [] => BFail | x :: _ => bit n <- bits 2 ;; lens fuel need h (repeat x (3 + N.to_nat n) ++ acc) end
      else if (s =? 17)%N then bit n <- bits 3 ;; lens fuel need h (repeat 0 (3 + N.to_nat n) ++ acc)
      else bit n <- bits 7 ;; lens fuel need h (repeat 0 (11 + N.to_nat n) ++ acc)
  end.
Definition dynamic (last : bool) : bp mode :=
  bit hlit <- bits 5 ;; bit hdist <- bits 5 ;; bit hclen <- bits 4 ;;
  bit cl <- clens clen_order (4 + N.to_nat hclen) ;;
  let nl := 257 + N.to_nat hlit in let nd := 1 + N.to_nat hdist in
  bit l <- lens (nl + nd) (nl + nd) (mk_huff (map (assoc cl) (seq 0 19))) [] ;;
  BRet (MHuff (mk_huff (firstn nl l)) (mk_huff (skipn nl l)) last).

(** RFC 1951, 3.2.3. *)
Definition block : bp mode :=
  bit last <- bits 1 ;; bit ty <- bits 2 ;;
  let last := (last =? 1)%N in
  if (ty =? 0)%N then BAlign (bit len <- bits 16 ;; bit nlen <- bits 16 ;;
    if (len + nlen =? 65535)%N then BRet (MStored (N.to_nat len) last) else BFail)
  else if (ty =? 1)%N then BRet (MHuff fixed_lit fixed_dist last)
  else if (ty =? 2)%N then dynamic last
  else BFail.
Definition after (last : bool) : mode := if last then MEnd else MBlock.

(** [n] bytes from [d] bytes back; [hist] is the output, the last byte first. *)
Fixpoint copy (n d : nat) (hist : list byte) : option (list byte) :=
  match n with
  | O => Some []
  | S n => match nth_error hist d with
           | Some b => match copy n d (b :: hist) with Some l => Some (b :: l) | None => None end
           | None => None
           end
  end.

(** The next mode and the next bytes of output. *)
Definition dstep (m : mode) (hist : list byte) : bp (mode * list byte) :=
  match m with
  | MBlock => bit m <- block ;; BRet (m, [])
  | MStored O last => BRet (after last, [])
  | MStored (S n) last => bit b <- bits 8 ;; BRet (MStored n last, [Nb b])
  | MHuff lit dist last =>
      bit s <- symbol lit ;;
      if (s <? 256)%N then BRet (m, [Nb s])
      else if (s =? 256)%N then BRet (after last, [])
      else
        match nth_error len_base (N.to_nat (s - 257)), nth_error len_extra (N.to_nat (s - 257)) with
        | Some base, Some extra =>
            bit x <- bits extra ;; bit ds <- symbol dist ;;
            match nth_error dist_base (N.to_nat ds), nth_error dist_extra (N.to_nat ds) with
            | Some dbase, Some dextra =>
                bit y <- bits dextra ;;
                match copy (base + N.to_nat x) (N.to_nat (dbase + y) - 1) hist with
                | Some l => BRet (m, l)
                | None => BFail
                end
            | _, _ => BFail
            end
        | _, _ => BFail
        end
  | MEnd => BFail
  end.

(** ** On a stream of bytes *)
Definition byte_bits (b : byte) : list bool :=
  let '(b0, (b1, (b2, (b3, (b4, (b5, (b6, b7))))))) := to_bits b in [b0; b1; b2; b3; b4; b5; b6; b7].
Fixpoint zbits {A} (p : bp A) (pend : list bool) : zprog ((ioerr + A) * list bool) :=
  match p with
  | BRet a => ZRet (inr a, pend)
  | BFail => ZRet (inl IoZlib, pend)
  | BBit k =>
      match pend with
      | b :: pend => zbits (k b) pend
      | [] => ZExact 1 (fun r =>
          match r with
          | inl e => ZRet (inl e, [])
          | inr [x] => let '(b0, (b1, (b2, (b3, (b4, (b5, (b6, b7))))))) := to_bits x in zbits (k b0) [b1; b2; b3; b4; b5; b6; b7]
          | inr _ => ZRet (inl IoZlib, [])
          end)
      end
  | BAlign k => zbits k []
  end.
Fixpoint zbind {A B} (p : zprog A) (f : A -> zprog B) : zprog B :=
  match p with
  | ZRet a => f a
  | ZExact n k => ZExact n (fun r => zbind (k r) f)
  | ZTake n k => ZTake n (fun r => zbind (k r) f)
  end.
Fixpoint zloop {S R} (p : positive) (f : S -> zprog (S + R)) (x : S) : zprog (S + R) :=
  match p with
  | xH => f x
  | xO q => zbind (zloop q f x) (fun r => match r with inl x => zloop q f x | inr v => ZRet (inr v) end)
  | xI q => zbind (f x) (fun r => match r with
              | inl x => zbind (zloop q f x) (fun r => match r with inl x => zloop q f x | inr v => ZRet (inr v) end)
              | inr v => ZRet (inr v)
              end)
  end.

(** A decoder: bits of the last byte read, the output so far (last byte first), output not handed
    out yet, where in the format it is. *)
Record dz := mkDz { dz_pend : list bool; dz_hist : list byte; dz_out : list byte; dz_mode : mode }.
Definition df_step (n : nat) (x : dz) : zprog (dz + ((ioerr + list byte) * dz)) :=
  if Nat.leb n (length (dz_out x))
  then ZRet (inr (inr (firstn n (dz_out x)), mkDz (dz_pend x) (dz_hist x) (skipn n (dz_out x)) (dz_mode x)))
  else zbind (zbits (dstep (dz_mode x) (dz_hist x)) (dz_pend x)) (fun r =>
         match r with
         | (inl e, pend) => ZRet (inr (inl e, mkDz pend (dz_hist x) (dz_out x) (dz_mode x)))
         | (inr (m, new), pend) => ZRet (inl (mkDz pend (rev_append new (dz_hist x)) (dz_out x ++ new) m))
         end).
(** Gives up after [2^64] empty blocks. *)
Definition df_read (x : dz) (n : nat) : zprog ((ioerr + list byte) * dz) :=
  zbind (zloop (N.succ_pos (2 ^ 64 + N.of_nat n)) (df_step n) x) (fun r =>
    match r with inr v => ZRet v | inl x => ZRet (inl IoZlib, x) end).
(** RFC 1950, 2.2: method 8, no dictionary, check bits. *)
Definition df_open : zprog (ioerr + dz) :=
  ZExact 2 (fun r => ZRet match r with
    | inr [a; b] => if (N.modulo (bN a) 16 =? 8)%N && (bN b / 32 mod 2 =? 0)%N && (N.modulo (256 * bN a + bN b) 31 =? 0)%N
                    then inr (mkDz [] [] [] MBlock) else inl IoZlib
    | inr _ => inl IoZlib
    | inl e => inl e
    end).

(** ** The encoder: one block, every byte as a literal *)
Fixpoint msb (n : nat) (v : N) : list bool := match n with O => [] | S n => N.testbit v (N.of_nat n) :: msb n v end.
Definition litbits (b : byte) : list bool := if (bN b <? 144)%N then msb 8 (48 + bN b) else msb 9 (256 + bN b).
Definition encbits (d : list byte) : list bool := [true; true; false] ++ flat_map litbits d ++ repeat false 7.
Fixpoint pack (l : list bool) : list byte :=
  match l with
  | [] => []
  | b0 :: b1 :: b2 :: b3 :: b4 :: b5 :: b6 :: b7 :: t => of_bits (b0, (b1, (b2, (b3, (b4, (b5, (b6, b7))))))) :: pack t
  | l => let f i := nth i l false in [of_bits (f 0, (f 1, (f 2, (f 3, (f 4, (f 5, (f 6, f 7)))))))]
  end.
Fixpoint adler (a b : N) (d : list byte) : list byte :=
  match d with
  | [] => [Nb (b / 256); Nb b; Nb (a / 256); Nb a]
  | x :: d => let a := N.modulo (a + bN x) 65521 in adler a (N.modulo (b + a) 65521) d
  end.
Definition deflate_env (ovf : bool) : Env :=
  {| zst := dz; z_open := df_open; z_read := df_read;
     z_feed := fun _ => [[x78; x01]]; z_fin := fun l => [pack (encbits (concat l)); adler 1 0 (concat l)]; ovf_checks := ovf |}.

(** ** Proofs *)
Fixpoint brun {A} (p : bp A) (l : list bool) : option (A * list bool) :=
  match p with
  | BRet a => Some (a, l)
  | BFail => None
  | BBit k => match l with b :: l => brun (k b) l | [] => None end
  | BAlign k => brun k (skipn (Nat.modulo (length l) 8) l)
  end.
Definition bits_of (c : list byte) : list bool := flat_map byte_bits c.

Lemma byte_bits_len : forall b, length (byte_bits b) = 8.
Proof. intros b. unfold byte_bits. destruct (to_bits b) as (b0 & b1 & b2 & b3 & b4 & b5 & b6 & b7). reflexivity. Qed.
Lemma bits_of_len : forall c, length (bits_of c) = 8 * length c.
Proof. induction c as [|b c IH]; [reflexivity|]. cbn [bits_of flat_map]. rewrite app_length, byte_bits_len. fold (bits_of c). cbn [length]. lia. Qed.

(** Bits are taken from the bytes as they are needed. *)
Lemma zbits_run : forall A (p : bp A) pend c a l', brun p (pend ++ bits_of c) = Some (a, l') -> length pend < 8 ->
  exists k pend', k <= length c /\ zrun (zbits p pend) c = ((inr a, pend'), skipn k c) /\ pend' ++ bits_of (skipn k c) = l' /\ length pend' < 8.
Proof.
  intros A. induction p as [a0| |k IH|p IH]; intros pend c a l' H L; cbn [brun] in H.
  - injection H as <- <-. exists 0, pend. cbn [zbits zrun skipn]. repeat split; [lia|exact L].
  - discriminate.
  - destruct pend as [|b pend]; cbn [app] in H.
    + destruct c as [|x c]; [discriminate|]. cbn [bits_of flat_map] in H. unfold byte_bits in H at 1. cbn [zbits zrun].
      replace (1 <=? length (x :: c)) with true by reflexivity. cbn [firstn skipn].
      destruct (to_bits x) as (b0 & b1 & b2 & b3 & b4 & b5 & b6 & b7). cbn [app] in H. fold (bits_of c) in H.
      destruct (IH b0 [b1; b2; b3; b4; b5; b6; b7] c _ _ H ltac:(cbn; lia)) as (n & pend' & K1 & K2 & K3 & K4).
      exists (S n), pend'. cbn [skipn length]. repeat split; auto. lia.
    + cbn [zbits]. apply (IH b pend c _ _ H). cbn in L. lia.
  - cbn [zbits]. apply (IH [] c); [|cbn; lia]. cbn [app]. rewrite <- H. f_equal. rewrite app_length, bits_of_len.
    replace ((length pend + 8 * length c) mod 8) with (length pend) by (rewrite Nat.mul_comm, Nat.mod_add by lia; symmetry; apply Nat.mod_small, L).
    rewrite skipn_app, skipn_all, Nat.sub_diag. reflexivity.
Qed.

Lemma brun_bind : forall A B (p : bp A) (f : A -> bp B) l, brun (bbind p f) l = match brun p l with Some (a, l') => brun (f a) l' | None => None end.
Proof. intros A B. induction p as [a| |k IH|p IH]; intros f l; cbn [bbind brun]; auto. destruct l; auto. Qed.
Lemma zrun_bind : forall A B (p : zprog A) (f : A -> zprog B) c, zrun (zbind p f) c = let '(a, c') := zrun p c in zrun (f a) c'.
Proof.
  intros A B. induction p as [a|n k IH|n k IH]; intros f c; cbn [zbind zrun]; [reflexivity| |apply IH]. destruct (n <=? length c); apply IH.
Qed.

(** The loop, step by step. *)
Fixpoint zsteps {S R} (n : nat) (f : S -> zprog (S + R)) (x : S) (c : list byte) : (S + R) * list byte :=
  match n with
  | O => (inl x, c)
  | Datatypes.S n => match zrun (f x) c with (inl x, c) => zsteps n f x c | (inr v, c) => (inr v, c) end
  end.
Lemma zsteps_add : forall S R (f : S -> zprog (S + R)) n m x c,
  zsteps (n + m) f x c = match zsteps n f x c with (inl x, c) => zsteps m f x c | (inr v, c) => (inr v, c) end.
Proof. intros S R f. induction n as [|n IH]; intros m x c; cbn [zsteps Nat.add]; [reflexivity|]. destruct (zrun (f x) c) as [[x'|v] c']; auto. Qed.
Lemma zloop_steps : forall S R (f : S -> zprog (S + R)) p x c, zrun (zloop p f x) c = zsteps (Pos.to_nat p) f x c.
Proof.
  intros S R f. induction p as [p IH|p IH|]; intros x c; cbn [zloop].
  - rewrite Pos2Nat.inj_xI, zrun_bind. change (Datatypes.S (2 * Pos.to_nat p)) with (1 + 2 * Pos.to_nat p). cbn [zsteps Nat.add].
    destruct (zrun (f x) c) as [[x'|v] c']; [|reflexivity]. rewrite zrun_bind, IH. replace (2 * Pos.to_nat p) with (Pos.to_nat p + Pos.to_nat p) by lia. rewrite zsteps_add.
    destruct (zsteps (Pos.to_nat p) f x' c') as [[y|v] c2]; [apply IH|reflexivity].
  - rewrite Pos2Nat.inj_xO, zrun_bind, IH. replace (2 * Pos.to_nat p) with (Pos.to_nat p + Pos.to_nat p) by lia. rewrite zsteps_add.
    destruct (zsteps (Pos.to_nat p) f x c) as [[y|v] c2]; [apply IH|reflexivity].
  - change (Pos.to_nat 1) with 1. cbn [zsteps]. destruct (zrun (f x) c) as [[y|v] c2]; reflexivity.
Qed.

(** A literal. *)
Lemma literal : forall b hist l, brun (dstep (MHuff fixed_lit fixed_dist true) hist) (litbits b ++ l) = Some ((MHuff fixed_lit fixed_dist true, [b]), l).
Proof. intros b hist l. destruct b; reflexivity. Qed.
Lemma begins : forall hist l, brun (dstep MBlock hist) ([true; true; false] ++ l) = Some ((MHuff fixed_lit fixed_dist true, []), l).
Proof. reflexivity. Qed.

(** The decoder stands before the literals [d]. *)
Definition before (x : dz) (c d : list byte) (tail : list bool) : Prop :=
  length (dz_pend x) < 8 /\ dz_out x = [] /\
  ((dz_mode x = MBlock /\ dz_pend x ++ bits_of c = [true; true; false] ++ flat_map litbits d ++ tail) \/
   (dz_mode x = MHuff fixed_lit fixed_dist true /\ dz_pend x ++ bits_of c = flat_map litbits d ++ tail)).

Lemma reads_literals : forall n tail j fuel x c d, j < fuel -> length (dz_out x) + j = n -> j <= length d ->
  length (dz_pend x) < 8 -> dz_mode x = MHuff fixed_lit fixed_dist true -> dz_pend x ++ bits_of c = flat_map litbits d ++ tail ->
  exists k x', k <= length c /\ zsteps fuel (df_step n) x c = (inr (inr (dz_out x ++ firstn j d), x'), skipn k c) /\ before x' (skipn k c) (skipn j d) tail.
Proof.
  intros n tail. induction j as [|j IH]; intros fuel x c d F N J L M E; (destruct fuel as [|fuel]; [lia|]); cbn [zsteps]; unfold df_step at 1.
  - replace (n <=? length (dz_out x)) with true by (symmetry; apply Nat.leb_le; lia). cbn [zrun]. exists 0. eexists. split; [lia|]. cbn [skipn firstn].
    rewrite app_nil_r, (firstn_all2 (dz_out x)), (skipn_all2 (dz_out x)) by lia. split; [reflexivity|]. split; [exact L|]. split; [reflexivity|]. right. auto.
  - replace (n <=? length (dz_out x)) with false by (symmetry; apply Nat.leb_gt; lia). rewrite zrun_bind. destruct d as [|b d]; [cbn in J; lia|].
    cbn [flat_map] in E. rewrite <- app_assoc in E. pose proof (literal b (dz_hist x) (flat_map litbits d ++ tail)) as T. rewrite <- E, <- M in T.
    destruct (zbits_run _ _ _ _ _ _ T L) as (k & pend' & K1 & K2 & K3 & K4). rewrite K2. cbn [zrun].
    destruct (IH fuel (mkDz pend' (rev_append [b] (dz_hist x)) (dz_out x ++ [b]) (dz_mode x)) (skipn k c) d) as (k2 & x' & A1 & A2 & A3);
      cbn [dz_pend dz_out dz_mode]; auto; try lia.
    { rewrite app_length. cbn [length]. lia. }
    { cbn in J. lia. }
    cbn [dz_out] in A2. rewrite <- app_assoc in A2. cbn [app] in A2. rewrite skipn_length in A1. rewrite <- skipn_plus in A2, A3.
    exists (k + k2), x'. split; [lia|]. cbn [firstn skipn]. split; [exact A2|exact A3].
Qed.

Lemma read_before : forall ovf n x c d tail, before x c d tail -> n <= length d ->
  exists k x', k <= length c /\ zrun (z_read (Env := deflate_env ovf) x n) c = ((inr (firstn n d), x'), skipn k c) /\ before x' (skipn k c) (skipn n d) tail.
Proof.
  intros ovf n x c d tail (L & O & H) J. change (z_read (Env := deflate_env ovf) x n) with (df_read x n). unfold df_read. rewrite zrun_bind, zloop_steps.
  set (fuel := Pos.to_nat (N.succ_pos (2 ^ 64 + N.of_nat n))). assert (F : S n < fuel).
  { unfold fuel. assert (X : N.of_nat (Pos.to_nat (N.succ_pos (2 ^ 64 + N.of_nat n))) = N.succ (2 ^ 64 + N.of_nat n)) by (rewrite positive_nat_N, N.succ_pos_spec; reflexivity). change (2 ^ 64)%N with 18446744073709551616%N in *. lia. }
  clearbody fuel. destruct H as [(M & E)|(M & E)].
  - destruct fuel as [|fuel]; [lia|]. cbn [zsteps]. unfold df_step at 1. rewrite O. destruct n as [|n].
    + cbn [length Nat.leb zrun]. exists 0. eexists. split; [lia|]. split; [reflexivity|]. split; [exact L|]. split; [reflexivity|]. left. auto.
    + cbn [length Nat.leb]. rewrite zrun_bind. pose proof (begins (dz_hist x) (flat_map litbits d ++ tail)) as T. rewrite <- E, <- M in T.
      destruct (zbits_run _ _ _ _ _ _ T L) as (k & pend' & K1 & K2 & K3 & K4). rewrite K2. cbn [zrun app].
      destruct (reads_literals (S n) tail (S n) fuel (mkDz pend' (rev_append [] (dz_hist x)) [] (MHuff fixed_lit fixed_dist true)) (skipn k c) d) as (k2 & x' & A1 & A2 & A3);
        cbn [dz_pend dz_out dz_mode length]; auto; try lia.
      rewrite A2. cbn [zrun dz_out app]. rewrite skipn_length in A1. rewrite <- skipn_plus in A3 |- *. exists (k + k2), x'. split; [lia|]. auto.
  - destruct (reads_literals n tail n fuel x c d) as (k & x' & A1 & A2 & A3); auto; try lia; [rewrite O; reflexivity|].
    rewrite A2, O. cbn [zrun app]. exists k, x'. auto.
Qed.

Lemma reads_before : forall ovf ns x c d tail, before x c d tail -> list_sum ns <= length d ->
  exists k x', k <= length c /\ zreads (env := deflate_env ovf) ns x c = (map inr (cut_at ns d), x', skipn k c) /\ before x' (skipn k c) (skipn (list_sum ns) d) tail.
Proof.
  intros ovf. induction ns as [|n ns IH]; intros x c d tail B H.
  - exists 0, x. split; [lia|]. split; [reflexivity|exact B].
  - change (list_sum (n :: ns)) with (n + list_sum ns) in *. destruct (read_before ovf n x c d tail B ltac:(lia)) as (k & x1 & K1 & K2 & K3).
    destruct (IH _ _ _ _ K3) as (k2 & x2 & A1 & A2 & A3); [rewrite skipn_length; lia|]. rewrite skipn_length in A1.
    cbn [zreads cut_at map]. rewrite K2, A2. exists (k + k2), x2. split; [lia|]. rewrite !skipn_plus. auto.
Qed.

Lemma pack_bits : forall l, exists k, bits_of (pack l) = l ++ repeat false k.
Proof.
  assert (G : forall n l, length l <= n -> exists k, bits_of (pack l) = l ++ repeat false k).
  { induction n as [|n IH]; intros l L.
    - destruct l; [|cbn in L; lia]. exists 0. reflexivity.
    - assert (P : forall b0 b1 b2 b3 b4 b5 b6 b7, byte_bits (of_bits (b0, (b1, (b2, (b3, (b4, (b5, (b6, b7)))))))) = [b0; b1; b2; b3; b4; b5; b6; b7]) by (intros; unfold byte_bits; rewrite to_bits_of_bits; reflexivity).
      destruct l as [|b0 [|b1 [|b2 [|b3 [|b4 [|b5 [|b6 [|b7 t]]]]]]]].
      1: exists 0; reflexivity.
      1-7: cbn [pack nth bits_of flat_map]; rewrite P; cbn [app repeat].
      + exists 7. reflexivity.
      + exists 6. reflexivity.
      + exists 5. reflexivity.
      + exists 4. reflexivity.
      + exists 3. reflexivity.
      + exists 2. reflexivity.
      + exists 1. reflexivity.
      + destruct (IH t) as (k & E); [cbn in L; lia|]. exists k. cbn [pack bits_of flat_map]. rewrite P. fold (bits_of (pack t)). rewrite E. reflexivity. }
  intros l. apply (G (length l) l). lia.
Qed.

(** What the decoder has taken lies in the compressed form. *)
Lemma taken : forall x e rest k d tail, before x (skipn k (e ++ rest)) d (tail ++ bits_of rest) -> k <= length (e ++ rest) -> k <= length e.
Proof.
  intros x e rest k d tail (L & _ & H) K. rewrite app_length in K.
  assert (Q : length (dz_pend x) + 8 * (length e + length rest - k) >= 8 * length rest).
  { assert (Q : length (dz_pend x ++ bits_of (skipn k (e ++ rest))) >= 8 * length rest) by (destruct H as [(_ & ->)|(_ & ->)]; rewrite !app_length, bits_of_len; lia).
    rewrite app_length, bits_of_len, skipn_length, app_length in Q. lia. }
  lia.
Qed.

Theorem deflate_roundtrip : forall ovf, zlib_roundtrip (deflate_env ovf).
Proof.
  intros ovf l rest. set (d := concat l).
  assert (E : z_enc (env := deflate_env ovf) l = [x78; x01] ++ pack (encbits d) ++ adler 1 0 d).
  { unfold z_enc. cbn [z_feed z_fin deflate_env concat]. rewrite !app_nil_r. reflexivity. }
  rewrite E. clear E. set (e := pack (encbits d) ++ adler 1 0 d).
  destruct (pack_bits (encbits d)) as (pad & EP).
  assert (B : before (mkDz [] [] [] MBlock) (e ++ rest) d ((repeat false 7 ++ repeat false pad ++ bits_of (adler 1 0 d)) ++ bits_of rest)).
  { split; [cbn; lia|]. split; [reflexivity|]. left. split; [reflexivity|]. cbn [dz_pend app]. unfold e, bits_of.
    rewrite !flat_map_app. fold (bits_of (pack (encbits d))). rewrite EP. unfold encbits. rewrite <- !app_assoc. reflexivity. }
  exists (mkDz [] [] [] MBlock), 2%N. split; [|split].
  - change (z_open (Env := deflate_env ovf)) with df_open. rewrite dropN_skipn. reflexivity.
  - rewrite lenN_app. unfold lenN. cbn [length]. lia.
  - intros ns H. destruct (reads_before ovf ns _ _ _ _ B H) as (k & x & K1 & K2 & K3).
    assert (D : dropN 2 (([x78; x01] ++ e) ++ rest) = e ++ rest) by (rewrite dropN_skipn; reflexivity).
    exists x, (N.of_nat k). split.
    + rewrite D, K2. f_equal. rewrite <- dropN_dropN, D, dropN_skipn, Nnat.Nat2N.id. reflexivity.
    + pose proof (taken _ _ _ _ _ _ K3 K1). rewrite lenN_app. unfold lenN. cbn [length]. lia.
Qed.

(** A failure of the stream is handed on as it is. *)
Lemma hands_bind : forall A B (says : ioerr -> A -> Prop) (fine : A -> Prop) (says' : ioerr -> B -> Prop) fine' (f : A -> zprog B),
  (forall e a, says e a -> exists b, f a = ZRet b /\ says' e b) -> (forall a, fine a -> hands_on says' fine' (f a)) ->
  forall p, hands_on says fine p -> hands_on says' fine' (zbind p f).
Proof.
  intros A B says fine says' fine' f H1 H2. induction p as [a|n k IH|n k IH]; cbn [hands_on zbind]; [apply H2| |].
  - intros [K1 K2]. split; [|intros bs; apply IH, K2]. intros e. destruct (K1 e) as (a & -> & S). cbn [zbind]. apply H1, S.
  - intros [K1 K2]. split; [|intros bs; apply IH, K2]. intros e bs. destruct (K1 e bs) as (a & -> & S). cbn [zbind]. apply H1, S.
Qed.
Definition loop_says {S X} (e : ioerr) (r : S + (ioerr + X) * S) : Prop := match r with inr (inl e', _) => e' = e | _ => False end.
Definition loop_fine {S X} (r : S + (ioerr + X) * S) : Prop := match r with inr (inl e, _) => own_io e | _ => True end.
Lemma hands_loop : forall S X (f : S -> zprog (S + (ioerr + X) * S)), (forall x, hands_on loop_says loop_fine (f x)) ->
  forall p x, hands_on loop_says loop_fine (zloop p f x).
Proof.
  intros S X f H.
  assert (G : forall q, (forall x, hands_on loop_says loop_fine (zloop q f x)) -> forall r, loop_fine r ->
    hands_on (A := S + (ioerr + X) * S) loop_says loop_fine (match r with inl x => zloop q f x | inr v => ZRet (inr v) end)) by (intros q Hq [x|v] F; [apply Hq|exact F]).
  assert (G1 : forall q e (r : S + (ioerr + X) * S), loop_says e r -> exists b, (match r with inl x => zloop q f x | inr v => ZRet (inr v) end) = ZRet b /\ loop_says e b).
  { intros q e [x|v] F; [contradiction|]. exists (inr v). auto. }
  induction p as [p IH|p IH|]; intros x; cbn [zloop].
  - eapply hands_bind; [| |apply H].
    + intros e [y|v] F; [contradiction|]. exists (inr v). auto.
    + intros [y|v] F; [|exact F]. eapply hands_bind; [apply G1|apply G; exact IH|apply IH].
  - eapply hands_bind; [apply G1|apply G; exact IH|apply IH].
  - apply H.
Qed.
Lemma hands_bits : forall A (p : bp A) pend, hands_on (fun e x => fst x = inl e) (fun x => match fst x with inl e => own_io e | inr _ => True end) (zbits p pend).
Proof.
  intros A. induction p as [a| |k IH|p IH]; intros pend; cbn [zbits hands_on fst]; auto.
  - exact I.
  - destruct pend as [|b pend]; [|apply IH]. cbn [hands_on]. split; [intros e; eexists; split; [reflexivity|reflexivity]|].
    intros [|x [|y l]]; cbn [hands_on fst]; try exact I. destruct (to_bits x) as (b0 & b1 & b2 & b3 & b4 & b5 & b6 & b7). apply IH.
Qed.
Theorem deflate_hands_on : forall ovf, zlib_hands_on (deflate_env ovf).
Proof.
  intros ovf. split.
  - change (z_open (Env := deflate_env ovf)) with df_open. cbn [df_open hands_on]. split; [intros e; eexists; split; reflexivity|].
    intros [|a [|b [|c l]]]; cbn [hands_on]; try exact I. destruct (_ && _); exact I.
  - intros st n. change (z_read (Env := deflate_env ovf) st n) with (df_read st n). unfold df_read.
    eapply hands_bind; [| |apply hands_loop].
    + intros e [x|[[e'|v] x]] F; try contradiction. cbn in F. subst e'. eexists. split; reflexivity.
    + intros [x|[[e|v] x]] F; cbn [hands_on fst]; try exact I. exact F.
    + intros x. unfold df_step. destruct (n <=? length (dz_out x)); [exact I|]. eapply hands_bind; [| |apply hands_bits].
      * intros e [[e'|[m new]] pend] F; cbn [fst] in F; [|discriminate]. injection F as ->. eexists. split; reflexivity.
      * intros [[e|[m new]] pend] F; [exact F|exact I].
Qed.
