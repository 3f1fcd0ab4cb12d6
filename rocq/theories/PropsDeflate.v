(** C81: compressed arrays with an implementation of the published zlib format.

    The theorems about compressed arrays assume [zlib_roundtrip] of the external zlib crate, and
    those about failures [zlib_hands_on].  Here they are stated for a concrete implementation of
    RFC 1950 and RFC 1951 (Deflate.v), without assumptions. *)
Require Import Coq.Lists.List Coq.NArith.NArith Coq.ZArith.ZArith Coq.Bool.Bool Coq.micromega.Lia.
Require Import Coq.Init.Byte.
Require Import Verif.Base Verif.BaseFacts Verif.Types Verif.Values Verif.Io Verif.IoFacts Verif.Parser Verif.Loaders Verif.Spec Verif.SpecErr Verif.Zlib Verif.Deflate.
Require Import Verif.Writer Verif.WriterSpec Verif.PropsWriter Verif.FooterFacts Verif.DocTrace Verif.DocRef Verif.PropsDoc Verif.PropsRound Verif.ParserPos Verif.ParserHist Verif.Tree Verif.TreeSpec Verif.TreeIo Verif.TreeIoSpec Verif.TreeRound Verif.PropsTreeIo Verif.AttrLoad Verif.Samples.
Import ListNotations.
Local Open Scope nat_scope.

(** Both contracts are met. *)
Theorem C81_zlib_contracts : forall ovf, zlib_roundtrip (deflate_env ovf) /\ zlib_hands_on (deflate_env ovf).
Proof. intros ovf. split; [apply deflate_roundtrip|apply deflate_hands_on]. Qed.

(** A document with compressed arrays, read by any calls. *)
Theorem C81_document_round_trip : forall ovf k ver l f k', let env := deflate_env ovf in
  finished (env := env) k ver l f k' -> standard f ->
  let ns := nodes_of l in let ft := foot_of (env := env) ver ns f in
  forall sched seeks h p, nofail sched = true -> noseekfail seeks = true -> accepting h -> opened (k_data k') sched seeks true h p ->
  forall calls os r', ref_run (footer_warnings (env := env) ver ns ft) (ref_start (env := env) ver ns ft) calls os r' ->
  exists rs s', run_pos (env := env) (map op_of calls) p = (rs, s') /\ Forall2 sees rs os /\ map fst (p_log s') = rf_warn r'.
Proof. intros ovf k ver l f k' env. exact (C26_document_round_trip (env := env) k ver l f k' (deflate_roundtrip ovf)). Qed.

(** The same document as a tree. *)
Theorem C81_tree_of_document : forall ovf ver ns f ext p, let env := deflate_env ovf in
  opened_doc (env := env) ver ns f ext true p ->
  exists t s', load_tree (env := env) p = (Ok (t, inr (footer_of ver f)), s') /\ rem_of s' = ext /\
    grown t /\ doc_at t (tr_root t) (DNode [] [] (map doc_of ns)).
Proof. intros ovf ver ns f ext p env H. exact (C33_document (env := env) ver ns f ext true p (deflate_roundtrip ovf) H (or_introl eq_refl)). Qed.

(** ** Concrete cases *)
Module DeflateCases.
#[local] Instance real : Env := deflate_env false.

(** Four nodes, each with the same array of 120 elements, compressed by the reference
    implementation of zlib (version 1.2.13): with dynamic codes, stored, with fixed codes, and with
    dynamic codes without back references.  The file was put together by a separate program. *)
Definition real_file : list byte := map Nb
   [75; 97; 121; 100; 97; 114; 97; 32; 70; 66; 88; 32; 66; 105; 110; 97; 114; 121; 32; 32; 0; 26; 0; 232; 28; 0; 0; 226; 0; 0; 0; 1; 0; 0; 0; 185; 0; 0; 0; 1;
    90; 105; 120; 0; 0; 0; 1; 0; 0; 0; 172; 0; 0; 0; 120; 218; 181; 209; 177; 10; 130; 80; 24; 134; 225; 83; 134; 36; 54; 68; 131; 40; 13; 42; 181; 41; 148; 130; 109; 70;
    58; 136; 225; 16; 14; 134; 17; 101; 247; 127; 21; 189; 193; 119; 11; 13; 207; 34; 122; 206; 255; 191; 26; 99; 204; 12; 11; 56; 88; 35; 192; 30; 25; 46; 232; 97; 193; 199; 1; 45;
    230; 8; 113; 198; 132; 24; 13; 86; 40; 240; 65; 138; 39; 18; 188; 145; 99; 137; 10; 91; 140; 56; 193; 195; 3; 37; 118; 112; 113; 71; 141; 35; 34; 108; 96; 227; 133; 1; 55; 116;
    184; 74; 167; 103; 131; 222; 177; 245; 77; 164; 51; 106; 157; 233; 234; 142; 82; 119; 122; 154; 97; 212; 76; 149; 102; 204; 53; 115; 162; 29; 82; 237; 84; 104; 199; 70; 59; 79; 106; 16;
    170; 73; 171; 70; 190; 154; 245; 106; 152; 169; 105; 160; 198; 142; 154; 255; 218; 155; 63; 254; 131; 47; 210; 104; 21; 166; 232; 2; 0; 0; 1; 0; 0; 0; 248; 1; 0; 0; 1; 90;
    105; 120; 0; 0; 0; 1; 0; 0; 0; 235; 1; 0; 0; 120; 1; 1; 224; 1; 31; 254; 0; 0; 0; 0; 1; 0; 0; 0; 4; 0; 0; 0; 9; 0; 0; 0; 16; 0; 0; 0;
    25; 0; 0; 0; 36; 0; 0; 0; 49; 0; 0; 0; 64; 0; 0; 0; 81; 0; 0; 0; 3; 0; 0; 0; 24; 0; 0; 0; 47; 0; 0; 0; 72; 0; 0; 0; 2; 0; 0; 0;
    31; 0; 0; 0; 62; 0; 0; 0; 95; 0; 0; 0; 33; 0; 0; 0; 70; 0; 0; 0; 12; 0; 0; 0; 53; 0; 0; 0; 96; 0; 0; 0; 44; 0; 0; 0; 91; 0; 0; 0;
    43; 0; 0; 0; 94; 0; 0; 0; 50; 0; 0; 0; 8; 0; 0; 0; 65; 0; 0; 0; 27; 0; 0; 0; 88; 0; 0; 0; 54; 0; 0; 0; 22; 0; 0; 0; 89; 0; 0; 0;
    61; 0; 0; 0; 35; 0; 0; 0; 11; 0; 0; 0; 86; 0; 0; 0; 66; 0; 0; 0; 48; 0; 0; 0; 32; 0; 0; 0; 18; 0; 0; 0; 6; 0; 0; 0; 93; 0; 0; 0;
    85; 0; 0; 0; 79; 0; 0; 0; 75; 0; 0; 0; 73; 0; 0; 0; 73; 0; 0; 0; 75; 0; 0; 0; 79; 0; 0; 0; 85; 0; 0; 0; 93; 0; 0; 0; 6; 0; 0; 0;
    18; 0; 0; 0; 32; 0; 0; 0; 48; 0; 0; 0; 66; 0; 0; 0; 86; 0; 0; 0; 11; 0; 0; 0; 35; 0; 0; 0; 61; 0; 0; 0; 89; 0; 0; 0; 22; 0; 0; 0;
    54; 0; 0; 0; 88; 0; 0; 0; 27; 0; 0; 0; 65; 0; 0; 0; 8; 0; 0; 0; 50; 0; 0; 0; 94; 0; 0; 0; 43; 0; 0; 0; 91; 0; 0; 0; 44; 0; 0; 0;
    96; 0; 0; 0; 53; 0; 0; 0; 12; 0; 0; 0; 70; 0; 0; 0; 33; 0; 0; 0; 95; 0; 0; 0; 62; 0; 0; 0; 31; 0; 0; 0; 2; 0; 0; 0; 72; 0; 0; 0;
    47; 0; 0; 0; 24; 0; 0; 0; 3; 0; 0; 0; 81; 0; 0; 0; 64; 0; 0; 0; 49; 0; 0; 0; 36; 0; 0; 0; 25; 0; 0; 0; 16; 0; 0; 0; 9; 0; 0; 0;
    4; 0; 0; 0; 1; 0; 0; 0; 0; 0; 0; 0; 1; 0; 0; 0; 4; 0; 0; 0; 9; 0; 0; 0; 16; 0; 0; 0; 25; 0; 0; 0; 36; 0; 0; 0; 49; 0; 0; 0;
    64; 0; 0; 0; 81; 0; 0; 0; 3; 0; 0; 0; 24; 0; 0; 0; 47; 0; 0; 0; 72; 0; 0; 0; 2; 0; 0; 0; 31; 0; 0; 0; 62; 0; 0; 0; 95; 0; 0; 0;
    33; 0; 0; 0; 70; 0; 0; 0; 12; 0; 0; 0; 53; 0; 0; 0; 96; 0; 0; 0; 210; 104; 21; 166; 215; 3; 0; 0; 1; 0; 0; 0; 225; 0; 0; 0; 1; 90; 105; 120;
    0; 0; 0; 1; 0; 0; 0; 212; 0; 0; 0; 120; 1; 99; 96; 96; 96; 96; 4; 98; 22; 32; 230; 4; 98; 1; 32; 150; 4; 98; 21; 32; 54; 4; 98; 7; 32; 14; 4; 98;
    102; 32; 150; 0; 98; 125; 32; 246; 0; 98; 38; 32; 150; 7; 98; 59; 32; 142; 7; 98; 69; 32; 118; 3; 98; 30; 32; 54; 5; 226; 4; 32; 214; 1; 226; 104; 32; 214; 6; 226;
    56; 32; 54; 2; 98; 14; 32; 118; 4; 98; 105; 32; 142; 0; 98; 51; 32; 22; 3; 226; 72; 32; 182; 5; 98; 101; 32; 230; 6; 226; 48; 32; 118; 2; 98; 3; 32; 86; 0; 98;
    33; 32; 102; 3; 226; 88; 32; 14; 5; 98; 127; 32; 246; 6; 98; 79; 40; 246; 134; 138; 133; 66; 213; 176; 65; 245; 40; 64; 205; 112; 130; 154; 201; 13; 181; 195; 22; 106; 167; 24;
    212; 13; 17; 80; 55; 57; 66; 221; 104; 4; 117; 179; 54; 212; 15; 58; 80; 63; 153; 66; 253; 232; 6; 245; 115; 60; 52; 12; 228; 161; 97; 226; 1; 13; 35; 9; 104; 152; 5; 66;
    195; 208; 16; 26; 166; 146; 208; 48; 230; 132; 134; 57; 40; 236; 25; 104; 24; 7; 0; 210; 104; 21; 166; 171; 4; 0; 0; 1; 0; 0; 0; 198; 0; 0; 0; 1; 90; 105; 120; 0;
    0; 0; 1; 0; 0; 0; 185; 0; 0; 0; 120; 1; 5; 193; 193; 10; 193; 0; 0; 0; 208; 55; 91; 178; 236; 176; 28; 68; 14; 179; 236; 70; 13; 197; 141; 198; 97; 77; 14; 218;
    129; 72; 204; 255; 127; 133; 247; 32; 64; 132; 24; 41; 166; 40; 176; 65; 133; 22; 33; 38; 40; 209; 160; 135; 12; 71; 116; 200; 81; 35; 193; 14; 63; 172; 240; 198; 18; 95; 108; 49;
    192; 9; 51; 60; 177; 199; 24; 47; 28; 176; 192; 16; 15; 156; 177; 198; 28; 35; 244; 241; 193; 29; 55; 92; 113; 193; 5; 87; 220; 112; 199; 7; 125; 140; 48; 199; 26; 103; 60; 48;
    196; 2; 7; 188; 48; 198; 30; 79; 204; 112; 194; 0; 91; 124; 177; 196; 27; 43; 252; 176; 67; 130; 26; 57; 58; 28; 145; 161; 135; 6; 37; 38; 8; 209; 162; 194; 6; 5; 166; 72;
    17; 35; 66; 0; 8; 16; 33; 70; 138; 41; 10; 108; 80; 161; 69; 136; 9; 74; 52; 232; 33; 195; 17; 29; 114; 212; 72; 176; 195; 15; 127; 210; 104; 21; 166; 0; 0; 0; 0; 0;
    0; 0; 0; 0; 0; 0; 0; 0; 250; 188; 171; 9; 208; 200; 212; 102; 177; 118; 251; 131; 28; 247; 38; 126; 0; 0; 0; 0; 0; 0; 0; 0; 0; 0; 0; 0; 232; 28; 0; 0;
    0; 0; 0; 0; 0; 0; 0; 0; 0; 0; 0; 0; 0; 0; 0; 0; 0; 0; 0; 0; 0; 0; 0; 0; 0; 0; 0; 0; 0; 0; 0; 0; 0; 0; 0; 0; 0; 0; 0; 0;
    0; 0; 0; 0; 0; 0; 0; 0; 0; 0; 0; 0; 0; 0; 0; 0; 0; 0; 0; 0; 0; 0; 0; 0; 0; 0; 0; 0; 0; 0; 0; 0; 0; 0; 0; 0; 0; 0; 0; 0;
    0; 0; 0; 0; 0; 0; 0; 0; 0; 0; 0; 0; 0; 0; 0; 0; 0; 0; 0; 0; 0; 0; 0; 0; 0; 0; 0; 0; 0; 0; 0; 0; 0; 0; 0; 0; 0; 0; 0; 0;
    248; 90; 140; 106; 222; 245; 217; 126; 236; 233; 12; 227; 117; 143; 41; 11]%N.
Definition squares : list Z := map (fun i => (Z.of_nat i * Z.of_nat i mod 97)%Z) (seq 0 120).
Example real_arrays :
  match any_tree (mkStream real_file 0 [AChunk 5; AIntr; AChunk 1000] []) true with
  | Ok (v, t, inr _) => v = 7400%N /\ map (attributes t) (children t (tr_root t)) = repeat (Some [VArrI32 squares]) 4
  | _ => False
  end.
Proof. vm_compute. auto. Qed.
(** The sample document with a compressed array, written and read back. *)
Definition st1 : wstate := match new_writer PropsWriter.Cases.k0 7400 with Ok s => snd (run_wcalls PropsWriter.Cases.calls0 s) | _ => mkW PropsWriter.Cases.k0 0 [] end.
Definition done1 : sink := match finalize true default_footer st1 with (Ok k, _) => k | _ => PropsWriter.Cases.k0 end.
Example C81_document_round_trip_ex : finished PropsWriter.Cases.k0 7400 PropsWriter.Cases.calls0 default_footer done1 /\
  standard default_footer /\ nodes_of PropsWriter.Cases.calls0 = sample_nodes.
Proof.
  split; [|split; [repeat split|vm_compute; reflexivity]].
  constructor; [repeat split|vm_compute; reflexivity|]. exists st1, true. eexists. split; [|vm_compute; reflexivity].
  constructor; [exact PropsWriter.Cases.typed0|exact PropsWriter.Cases.faithful0|].
  eexists. eexists. split; [vm_compute; reflexivity|]. split; [vm_compute; reflexivity|]. PropsWriter.Cases.fine_all.
Qed.
(** The data of the file's compressed array.  The reference implementation decompresses it to the
    twelve bytes of [1; -2; 3]. *)
Example written_array : z_enc [[x01; x00; x00; x00]; [xfe; xff; xff; xff]; [x03; x00; x00; x00]] =
  map Nb [120; 1; 99; 100; 96; 96; 248; 247; 255; 255; 127; 102; 6; 6; 6; 0; 26; 2; 4; 0]%N.
Proof. vm_compute. reflexivity. Qed.
(** The checksum of 600 bytes 255, as the reference implementation has it; and a header that asks for
    a preset dictionary is refused. *)
Example checksum : adler 1 0 (repeat xff 600) = map Nb [183; 31; 85; 199]%N.
Proof. vm_compute. reflexivity. Qed.
Example dictionary : zrun df_open (map Nb [120; 32]%N) = (inl IoZlib, []).
Proof. vm_compute. reflexivity. Qed.
Example read_back :
  match any_tree (mkStream (k_data done1) 0 [AChunk 5; AIntr; AChunk 1000] []) true with
  | Ok (v, t, inr _) => v = 7400%N /\ map (attributes t) (children t (tr_root t)) =
      [Some [VI32 (-5); VString s_hi]; Some [VArrI32 [1; -2; 3]%Z; VArrBool [true; false]; VBinary [x01; xff]]]
  | _ => False
  end.
Proof. vm_compute. auto. Qed.
End DeflateCases.

Print Assumptions C81_zlib_contracts.
Print Assumptions C81_document_round_trip.
Print Assumptions C81_tree_of_document.
