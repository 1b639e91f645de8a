(** C69: command lines of echelonize, check_cert, dm and bitmap. *)
From Coq Require Import String Znumtheory ZifyBool.
From Verif Require Import Base BaseFacts Spec SpecFacts SpecText SpecElim SpecRank SpecSha SpecCert SpecTools SpecDm SpecParts SpecReport SpecPnm TextChecks Checks Zp Mat Reach Par Schur DenseProofs Dense DenseProofs4 Echelonize EchProofs EchProofs2 EchExamples Stdio IO IOSave Cert CertIO CertIOProofs Scc Dm ToolsProofs ToolsElim ToolsElimProofs Pnm PnmTools
  Options SpecOptions OptionsProofs OptTools ToolOptions SpecToolOptions ToolOptionsProofs ToolMains PropToolsElim PropPnm.
Local Open Scope string_scope.
Local Open Scope list_scope.
Local Open Scope Z_scope.

(** ** The options *)
Theorem C69_echelonize_options cmd : ints [e_modulus; o_block; e_weight] cmd -> match parse_echelonize cmd with
  | Ok (Some (p, rr, o)) => Forall (allowed e_opts) cmd /\ value e_modulus cmd 42013 p /\ (rr = true <-> given e_rref cmd) /\
      (o_greedy o = false <-> given e_nogreedy cmd) /\ (o_tall o = false <-> given o_nolow cmd) /\ value o_block cmd 1000 (o_blk o) /\ value e_weight cmd (-1) (o_w0 o) /\
      o_dense o = true /\ o_GPLU o = true /\ o_L o = false /\ o_complete o = false /\ o_rounds o = 3
  | Ok None => ~ Forall (allowed e_opts) cmd
  | Fail _ => False end.
Proof. exact (parse_echelonize_ok cmd). Qed.
Print Assumptions C69_echelonize_options.
Theorem C69_dm_options cmd : match parse_dm cmd with
  | Ok (Some (mode, mpix)) => Forall (allowed d_opts) cmd /\ (mode = 118 <-> chosen cmd d_verbose) /\ (mode = 116 <-> chosen cmd d_tabulated) /\ (mode = 105 <-> chosen cmd d_image) /\
      (mode = 112 <-> chosen cmd d_permuted \/ forall o, In o d_opts -> ~ given o cmd) /\ (mode = 105 -> last_arg d_image cmd = Some mpix)
  | Ok None => ~ Forall (allowed d_opts) cmd
  | Fail _ => False end.
Proof. exact (parse_dm_ok cmd). Qed.
Print Assumptions C69_dm_options.
Theorem C69_bitmap_options cmd : ints [b_width; b_height] cmd -> match parse_bitmap cmd with
  | Ok (Some (w, h, mpix, gray)) => Forall (allowed b_opts) cmd /\ value b_width cmd (-1) w /\ value b_height cmd (-1) h /\ mpix = last_arg b_mpixels cmd /\ (gray = true <-> given b_gray cmd)
  | Ok None => ~ Forall (allowed b_opts) cmd
  | Fail _ => False end.
Proof. exact (parse_bitmap_ok cmd). Qed.
Print Assumptions C69_bitmap_options.
Theorem C69_check_options cmd : numeric cmd -> match parse_check cmd with
  | Ok (Some a) => Forall (proper k_opts) cmd /\ a_file a = last_arg o_matrix cmd /\ value o_modulus cmd 42013 (a_prime a) /\ a_own a = last_arg k_cert cmd
  | Ok None => ~ Forall (proper k_opts) cmd
  | Fail _ => False end.
Proof. exact (parse_check_ok cmd). Qed.
Print Assumptions C69_check_options.

(** ** The programs *)
(* echelonize: rows in echelon form (reduced with --rref) in the row space of the matrix; all of it with --no-low-rank-mode and thresholds that select
   the dense elimination *)
Theorem C69_echelonize stdin cmd p blk gs g X fuel ch scr n m es : ints [e_modulus; o_block; e_weight] cmd -> Forall (allowed e_opts) cmd ->
  value e_modulus cmd 42013 p -> ok_modulus p -> prime p -> value o_block cmd 1000 blk -> 0 < blk -> matrix_file stdin n m es -> no_cancel p es -> params_ok X p m ->
  (forall k t, 0 <= k -> scr_ok k (scr k t)) -> (given e_rref cmd -> forall r, 0 <= r <= Z.min n m -> r * (m - r + 1) < 2 ^ 31) ->
  outs (main_echelonize gs g X fuel ch scr stdin cmd) (fun x => exists f' r es' piv, x = Some f' /\ written f' r m es' /\
      (given e_rref cmd -> clean p es' /\ reduced_rows p m r (fmat es') piv) /\ (~ given e_rref cmd -> echelon_rows p m r (fmat es') piv) /\
      (forall k, 0 <= k < r -> rowsp p n m (fmat es) (fmat es' k)) /\
      (given o_nolow cmd -> always_dense X -> frank p n m (fmat es) r /\ forall i, 0 <= i < n -> rowsp p r m (fmat es') (fmat es i)))
    (fun e => ~ given o_nolow cmd /\ (e = OutOfFuel \/ e = Overflow) \/ e = Overflow /\ m < n).
Proof. exact (main_echelonize_ok stdin cmd p blk gs g X fuel ch scr n m es). Qed.
Print Assumptions C69_echelonize.
(* dm: the permuted matrix by default; the last mode wins *)
Theorem C69_dm gs g gd level size stdin cmd n m es : Forall (allowed d_opts) cmd -> matrix_file stdin n m es -> no_cancel 42013 es ->
  let R := fun i j => ~ cong 42013 (fmat es i j) 0 in
  chosen cmd d_permuted \/ (forall o, In o d_opts -> ~ given o cmd) ->
  sat (main_dm gs g gd level size stdin cmd) (fun x => exists f' P Q es' hn hm s, x = Some f' /\ is_perm n P /\ is_perm m Q /\ written f' n m es' /\ clean 42013 es' /\
    (forall i j, 0 <= i < n -> 0 <= j < m -> cong 42013 (fmat es' i j) (fmat es (get P i) (get Q j))) /\
    (forall a, 0 <= a < n -> (a < hn <-> hrow n m R (get P a)) /\ (hn + s <= a <-> vrow n m R (get P a))) /\
    (forall b, 0 <= b < m -> (b < hm <-> hcol n m R (get Q b)) /\ (hm + s <= b <-> vcol n m R (get Q b))) /\
    (forall x, 0 <= x < s -> ~ cong 42013 (fmat es' (hn + x) (hm + x)) 0)).
Proof. exact (main_dm_permuted gs g gd level size stdin cmd n m es). Qed.
Print Assumptions C69_dm.
Theorem C69_dm_verbose gs g gd level size stdin cmd n m es : Forall (allowed d_opts) cmd -> matrix_file stdin n m es -> no_cancel 42013 es ->
  let R := fun i j => ~ cong 42013 (fmat es i j) 0 in
  chosen cmd d_verbose ->
  exists k hn hm s vn vm bs, srank n m R k /\ many hn (hrow n m R) /\ many hm (hcol n m R) /\ many s (sqrow n m R) /\ many s (sqcol n m R) /\
    many vn (vrow n m R) /\ many vm (vcol n m R) /\ blocks_of n m R bs /\
    if hn + s + m <? 2 ^ 31 then exists f', main_dm gs g gd level size stdin cmd = Ok (Some f') /\ renders (report k hn hm s (map len bs) vn vm) f'
    else main_dm gs g gd level size stdin cmd = Fail Overflow.
Proof. exact (main_dm_verbose gs g gd level size stdin cmd n m es). Qed.
Print Assumptions C69_dm_verbose.
Theorem C69_dm_image gs g gd level size stdin cmd n m es a w h : Forall (allowed d_opts) cmd -> matrix_file stdin n m es -> no_cancel 42013 es ->
  chosen cmd d_image -> last_arg d_image cmd = Some a -> size a n m = (w, h) -> 0 < n -> 0 < m -> 0 < w -> 0 < h -> Z.min w m * Z.min h n < 2 ^ 31 ->
  sat (main_dm gs g gd level size stdin cmd) (fun x => exists f' A B P Q rr cc r c nb, x = Some f' /\
    holds 42013 n m es A /\ coarse A P Q rr cc /\ (get rr 1 < get rr 2 -> fine A P Q rr cc r c nb) /\
    wf B /\ cn B = n /\ cm B = m /\ (forall i j, 0 <= i < n -> 0 <= j < m -> stored B i j <-> stored A (get P i) (get Q j)) /\
    colour_picture B (Z.min w m) (Z.min h n) rr cc r c f').
Proof. intros H1 H2 H3. exact (main_dm_image gs g gd level size stdin cmd n m es H1 H2 H3 a w h). Qed.
Print Assumptions C69_dm_image.
(* a documented mode that prints nothing *)
Theorem C69_dm_tabulated_refuted gs g gd level size stdin cmd n m es : Forall (allowed d_opts) cmd -> matrix_file stdin n m es -> no_cancel 42013 es -> chosen cmd d_tabulated ->
  main_dm gs g gd level size stdin cmd = Ok (Some []).
Proof. exact (main_dm_tabulated gs g gd level size stdin cmd n m es). Qed.
Print Assumptions C69_dm_tabulated_refuted.
(* bitmap: both dimensions are given, or none of them (see C56 for the other cases) *)
Theorem C69_bitmap gs g level sgn size stdin cmd n m w h es (gray : bool) : ints [b_width; b_height] cmd -> Forall (allowed b_opts) cmd -> matrix_file stdin n m es ->
  (gray = true <-> given b_gray cmd) -> (gray = true -> es <> [] /\ forall c M, 0 <= c <= M -> 0 < M -> 0 <= level c M <= 255) ->
  last_arg b_mpixels cmd = None -> value b_width cmd (-1) w -> value b_height cmd (-1) h -> 0 < w -> 0 < h -> Z.min w m * Z.min h n < 2 ^ 31 ->
  sat (main_bitmap gs g level sgn size stdin cmd) (fun x => exists f' A, x = Some f' /\ pattern_of n m es A /\
    if gray then gray_picture level A (Z.min w m) (Z.min h n) f' else bw_picture A (Z.min w m) (Z.min h n) f').
Proof. exact (main_bitmap_given gs g level sgn size stdin cmd n m w h es gray). Qed.
Print Assumptions C69_bitmap.
Theorem C69_bitmap_pixels gs g level sgn size stdin cmd n m w h es (gray : bool) : ints [b_width; b_height] cmd -> Forall (allowed b_opts) cmd -> matrix_file stdin n m es ->
  (gray = true <-> given b_gray cmd) -> (gray = true -> es <> [] /\ forall c M, 0 <= c <= M -> 0 < M -> 0 <= level c M <= 255) ->
  last_arg b_width cmd = None -> last_arg b_height cmd = None -> (forall a, last_arg b_mpixels cmd = Some a -> sgn a <> 0) ->
  size (last_arg b_mpixels cmd) n m = (w, h) -> 0 < w -> 0 < h -> Z.min w m * Z.min h n < 2 ^ 31 ->
  sat (main_bitmap gs g level sgn size stdin cmd) (fun x => exists f' A, x = Some f' /\ pattern_of n m es A /\
    if gray then gray_picture level A (Z.min w m) (Z.min h n) f' else bw_picture A (Z.min w m) (Z.min h n) f').
Proof. exact (main_bitmap_default gs g level sgn size stdin cmd n m w h es gray). Qed.
Print Assumptions C69_bitmap_pixels.
(* check_cert: what it says of the matrix and of the certificate in these files (see C58) *)
Theorem C69_check gs g gc fc junk fs stdin rest cmd p f cf : numeric cmd -> Forall (proper k_opts) cmd -> value o_modulus cmd 42013 p ->
  reads o_matrix fs stdin cmd f -> reads k_cert fs (match last_arg o_matrix cmd with None => rest | Some _ => stdin end) cmd cf ->
  main_check gs g gc fc junk fs stdin rest cmd = (r <- tool_check_cert gs g gc fc junk f cf p ;; Ok (Some r)).
Proof. exact (main_check_ok gs g gc fc junk fs stdin rest cmd p f cf). Qed.
Print Assumptions C69_check.
(* the certificate of any other file is said to be correct, with exit code 0 *)
Theorem C69_check_refuted gs g gc fc junk fs stdin rest cmd p f n m es c cf : numeric cmd -> Forall (proper k_opts) cmd -> value o_modulus cmd 42013 p -> ok_modulus p ->
  reads o_matrix fs stdin cmd f -> matrix_file f n m es -> no_cancel p es -> storable c -> c_hash c <> sha256 f -> cert_save c = Ok cf ->
  reads k_cert fs (match last_arg o_matrix cmd with None => rest | Some _ => stdin end) cmd cf ->
  main_check gs g gc fc junk fs stdin rest cmd = Ok (Some (true, 0)).
Proof. exact (main_check_wrong gs g gc fc junk fs stdin rest cmd p f n m es c cf). Qed.
Print Assumptions C69_check_refuted.
(* echelonize reads the modulus as an int: the largest prime that the library accepts does not fit *)
Theorem C69_modulus_refuted : exists cmd p, Forall (allowed e_opts) cmd /\ value e_modulus cmd 42013 p /\ ok_modulus p /\ prime p /\ parse_echelonize cmd = Fail Overflow.
Proof.
  exists [Long "modulus" (Some (chars "4294967291"))], 4294967291. split.
  - constructor; [|constructor]. exists e_modulus. split; [cbn; tauto|]. split; [reflexivity|]. split; [intros _; eexists; reflexivity|reflexivity].
  - split; [apply numeralb_ok; reflexivity|]. split; [unfold ok_modulus; lia|]. split; [apply (prime_sieve 4294967291 65535); [lia|lia|vm_compute; reflexivity]|reflexivity].
Qed.
Print Assumptions C69_modulus_refuted.

(** ** Examples *)
Ltac allow o := constructor; [exists o; split; [cbn; tauto|split; [reflexivity|split; [cbn [item_arg snd]; intros; try discriminate; eexists; reflexivity|intros (? & E); try discriminate E; reflexivity]]]|].
(* echelonize --modulus=7 --rref file --no-low-rank-mode --dense-block-size=2, the argument "file" being ignored *)
Definition to_ech : list item := [Long "modulus" (Some (chars "7")); Long "rref" None; Plain (chars "file"); Long "no-low-rank-mode" None; Long "dense-block-size" (Some (chars "2"))].
Definition to_X : params := run 7 3 1 (fun k i => 3 * k + i) (fun i => i) (fun r => r) (-1) false.
Example C69_echelonize_example : ints [e_modulus; o_block; e_weight] to_ech /\ Forall (allowed e_opts) to_ech /\ value e_modulus to_ech 42013 7 /\ value o_block to_ech 1000 2 /\ given e_rref to_ech /\ given o_nolow to_ech /\
  params_ok to_X 7 3 /\ main_echelonize (fun _ => 5) te_g to_X 9 (fun _ => 0) te_scr te_text to_ech = Ok (Some (chars "2 3 M" ++ [NL] ++ chars "1 3 1" ++ [NL] ++ chars "2 1 1" ++ [NL] ++ chars "2 2 -3" ++ [NL] ++ chars "0 0 0" ++ [NL])).
Proof.
  split; [apply intsb_ok; reflexivity|]. split; [allow e_modulus; allow e_rref; constructor; [exact I|]; allow o_nolow; allow o_block; constructor|].
  split; [apply numeralb_ok; reflexivity|]. split; [apply numeralb_ok; reflexivity|]. split; [apply given_ok; reflexivity|]. split; [apply given_ok; reflexivity|].
  split; [apply run_ok; [unfold ok_modulus; lia|now apply primeb_ok|lia]|]. vm_compute. reflexivity.
Qed.
(* dm --image=2 --verbose *)
Definition to_dm : list item := [Long "image" (Some (chars "2")); Long "verbose" None].
Example C69_dm_example : Forall (allowed d_opts) to_dm /\ chosen to_dm d_verbose /\ ~ chosen to_dm d_image /\
  main_dm (fun _ => 5) te_g te_g (fun _ _ => 0) (fun _ _ _ => (6, 6)) dm_text to_dm = Ok (Some (chars "structural rank = 2" ++ [NL] ++ chars "*) H (1 x 2)" ++ [NL] ++ chars "*) V (2 x 1)" ++ [NL])) /\
  main_dm (fun _ => 5) te_g te_g (fun _ _ => 0) (fun _ _ _ => (6, 6)) dm_text [] = Ok (Some (file_of 3 3 [(0, 1, 3); (0, 2, 4); (0, 0, -1); (1, 2, 5); (2, 2, 7)])).
Proof.
  split; [allow d_image; allow d_verbose; constructor|]. split; [exists [Long "image" (Some (chars "2"))], (Long "verbose" None), []; split; [reflexivity|split; [reflexivity|intros ? ? []]]|].
  split; [|split; vm_compute; reflexivity].
  intros C. change to_dm with ([Long "image" (Some (chars "2"))] ++ [Long "verbose" None]) in C. apply chosen_snoc in C as [C|[C _]]; [discriminate C|]. specialize (C d_verbose ltac:(cbn; tauto)). discriminate C.
Qed.
(* bitmap --width=3 --gray --height=+2 *)
Definition to_bitmap : list item := [Long "width" (Some (chars "3")); Long "gray" None; Long "height" (Some (chars "+2"))].
Example C69_bitmap_example : ints [b_width; b_height] to_bitmap /\ Forall (allowed b_opts) to_bitmap /\ given b_gray to_bitmap /\ value b_width to_bitmap (-1) 3 /\ value b_height to_bitmap (-1) 2 /\
  exists f, main_bitmap (fun _ => 5) (fun _ _ _ => 5) ex_level (fun _ => 1) (fun _ _ _ => (0, 0)) ex_pic_text to_bitmap = Ok (Some f) /\ save_pnm (fun _ => 5) ex_level ex_pic 3 2 2 None = Ok f.
Proof.
  split; [apply intsb_ok; reflexivity|]. split; [allow b_width; allow b_gray; allow b_height; constructor|]. split; [apply given_ok; reflexivity|]. split; [apply numeralb_ok; reflexivity|]. split; [apply numeralb_ok; reflexivity|].
  eexists. split; vm_compute; reflexivity.
Qed.
(* check_cert -c certificate --modulus 7 < matrix *)
Definition to_check : list item := [Short 99 (Some (chars "certificate")); Long "modulus" (Some (chars "7"))].
Example C69_check_example : let c := Cert 1 7 (fill 32 255) [3] [1] [1] [2] in numeric to_check /\ Forall (proper k_opts) to_check /\ value o_modulus to_check 42013 7 /\ matrix_file te_text 3 3 te_es /\ storable c /\ c_hash c <> sha256 te_text /\
  exists cf, cert_save c = Ok cf /\ main_check (fun _ => 5) te_g te_g 20 c (fun _ => Some cf) te_text [] to_check = Ok (Some (true, 0)).
Proof.
  cbv zeta. split; [apply numericb_ok; reflexivity|]. split; [allow k_cert; allow o_modulus; constructor|]. split; [apply numeralb_ok; reflexivity|]. split; [apply te_ok|]. split; [apply C58_example|]. split; [apply C58_example|].
  eexists. split; [vm_compute; reflexivity|]. vm_compute. reflexivity.
Qed.
