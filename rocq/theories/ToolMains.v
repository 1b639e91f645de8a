(** The programs echelonize, check_cert, dm and bitmap, from the command line to the result. *)
From Coq Require Import String Znumtheory ZifyBool.
From Verif Require Import Base BaseFacts Spec SpecFacts SpecText SpecElim SpecRank SpecSha SpecCert SpecTools SpecDm CertIO CertIOProofs SpecParts SpecReport SpecPnm TextChecks Checks Zp Mat Reach Par Schur DenseProofs Dense DenseProofs4 Echelonize EchProofs EchProofs2 Cert Scc Dm ToolsElim ToolsElimProofs DmTool Pnm PnmTools
  Options SpecOptions OptionsProofs OptTools ToolOptions SpecToolOptions ToolOptionsProofs.
Local Open Scope string_scope.
Local Open Scope list_scope.
Local Open Scope Z_scope.

Definition intsb (os : list opt) (cmd : list item) : bool :=
  forallb (fun it => forallb (fun o => negb (isopt o it) || match item_arg it with Some a => fitsb 31 a | None => true end) os) cmd.
Lemma intsb_ok os cmd : intsb os cmd = true -> ints os cmd.
Proof.
  intros H i o a I J E Ea. unfold intsb in H. rewrite forallb_forall in H. specialize (H i I). rewrite forallb_forall in H. specialize (H o J). rewrite E, Ea in H. cbn in H.
  unfold fitsb in H. destruct (numeralb a) as [z|] eqn:Ez; [|discriminate]. exists z. split; [now apply numeralb_ok|]. unfold int32. lia.
Qed.

Theorem main_echelonize_ok stdin cmd p blk gs g X fuel ch scr n m es : ints [e_modulus; o_block; e_weight] cmd -> Forall (allowed e_opts) cmd ->
  value e_modulus cmd 42013 p -> ok_modulus p -> prime p -> value o_block cmd 1000 blk -> 0 < blk -> matrix_file stdin n m es -> no_cancel p es -> params_ok X p m ->
  (forall k t, 0 <= k -> scr_ok k (scr k t)) -> (given e_rref cmd -> forall r, 0 <= r <= Z.min n m -> r * (m - r + 1) < 2 ^ 31) ->
  outs (main_echelonize gs g X fuel ch scr stdin cmd) (fun x => exists f' r es' piv, x = Some f' /\ written f' r m es' /\
      (given e_rref cmd -> clean p es' /\ reduced_rows p m r (fmat es') piv) /\ (~ given e_rref cmd -> echelon_rows p m r (fmat es') piv) /\
      (forall k, 0 <= k < r -> rowsp p n m (fmat es) (fmat es' k)) /\
      (given o_nolow cmd -> always_dense X -> frank p n m (fmat es) r /\ forall i, 0 <= i < n -> rowsp p r m (fmat es') (fmat es i)))
    (fun e => ~ given o_nolow cmd /\ (e = OutOfFuel \/ e = Overflow) \/ e = Overflow /\ m < n).
Proof.
  intros HI HF Hv Hmod Hp Hb Hblk HM HNC HX HS HR. unfold main_echelonize. pose proof (parse_echelonize_ok cmd HI) as P. destruct (parse_echelonize cmd) as [[[[p' rr] o]|]|e]; [|contradiction|contradiction]. cbn [bind].
  destruct P as (_ & P1 & P2 & P3 & P4 & P5 & P6 & P7 & P8 & P9 & P10 & P11). assert (p' = p) as -> by now apply (value_fun e_modulus cmd 42013). assert (o_blk o = blk) by now apply (value_fun o_block cmd 1000).
  assert (Hw : wantsL o = false) by (unfold wantsL; now rewrite P9, P10). assert (Hgood : good_opts X o) by (split; [lia|auto]).
  apply outs_bind. pose proof (tool_echelonize_ok gs g X fuel o ch scr rr stdin n m es p Hmod Hp HM HNC HX Hgood HS) as S.
  assert (HR' : rr = true -> forall r, 0 <= r <= Z.min n m -> r * (m - r + 1) < 2 ^ 31) by (intros E; apply HR; tauto). specialize (S HR').
  destruct (tool_echelonize _ _ _ _ _ _ _ _ _ _) as [f'|e]; cbn [outs] in S |- *.
  - destruct S as (r & es' & S1 & S2 & (piv & S3) & S4 & S5). exists f', r, es', piv. split; [auto|]. split; [auto|]. split; [|split; [|split; [auto|]]].
    + intros G. apply P2 in G. subst rr. auto.
    + intros G. destruct rr; [exfalso; apply G; tauto|auto].
    + intros G D. apply S5. split; [unfold low_rank; apply P4 in G; now rewrite G|]. left. auto.
  - destruct S as [[S1 S2]|(-> & S1 & S2)]; [left; split; [|auto]|auto]. rewrite <- P4. unfold low_rank in S1. destruct (o_tall o); [congruence|discriminate S1].
Qed.

(* the mode *)
Section dm.
Context (gs : Z -> Z) (g : Z -> Z -> Z -> Z) (gd : Z -> Z -> Z -> Z) (level : Z -> Z -> Z) (size : list Z -> Z -> Z -> Z * Z) (stdin : list Z) (cmd : list item).
Context (n m : Z) (es : list (Z * Z * Z)).
Hypothesis HF : Forall (allowed d_opts) cmd.
Hypothesis HM : matrix_file stdin n m es.
Hypothesis HNC : no_cancel 42013 es.
Let R := fun i j => ~ cong 42013 (fmat es i j) 0.
Theorem main_dm_permuted : chosen cmd d_permuted \/ (forall o, In o d_opts -> ~ given o cmd) ->
  sat (main_dm gs g gd level size stdin cmd) (fun x => exists f' P Q es' hn hm s, x = Some f' /\ is_perm n P /\ is_perm m Q /\ written f' n m es' /\ clean 42013 es' /\
    (forall i j, 0 <= i < n -> 0 <= j < m -> cong 42013 (fmat es' i j) (fmat es (get P i) (get Q j))) /\
    (forall a, 0 <= a < n -> (a < hn <-> hrow n m R (get P a)) /\ (hn + s <= a <-> vrow n m R (get P a))) /\
    (forall b, 0 <= b < m -> (b < hm <-> hcol n m R (get Q b)) /\ (hm + s <= b <-> vcol n m R (get Q b))) /\
    (forall x, 0 <= x < s -> ~ cong 42013 (fmat es' (hn + x) (hm + x)) 0)).
Proof.
  intros C. unfold main_dm. pose proof (parse_dm_ok cmd) as P. destruct (parse_dm cmd) as [[[mode mpix]|]|e]; [|contradiction|contradiction]. cbn [bind].
  destruct P as (_ & _ & _ & _ & P4 & _). apply P4 in C. subst mode. cbn [Z.eqb Pos.eqb]. apply sat_bind. eapply sat_mono; [apply (tool_dm_ok gs g gd stdin n m es HM HNC)|].
  intros f' (P & Q & es' & hn & hm & s & H). exists f', P, Q, es', hn, hm, s. split; [auto|exact H].
Qed.
Theorem main_dm_verbose : chosen cmd d_verbose ->
  exists k hn hm s vn vm bs, srank n m R k /\ many hn (hrow n m R) /\ many hm (hcol n m R) /\ many s (sqrow n m R) /\ many s (sqcol n m R) /\
    many vn (vrow n m R) /\ many vm (vcol n m R) /\ blocks_of n m R bs /\
    if hn + s + m <? 2 ^ 31 then exists f', main_dm gs g gd level size stdin cmd = Ok (Some f') /\ renders (report k hn hm s (map len bs) vn vm) f'
    else main_dm gs g gd level size stdin cmd = Fail Overflow.
Proof.
  intros C. unfold main_dm. pose proof (parse_dm_ok cmd) as P. destruct (parse_dm cmd) as [[[mode mpix]|]|e]; [|contradiction|contradiction]. cbn [bind].
  destruct P as (_ & P4 & _). apply P4 in C. subst mode. cbn [Z.eqb Pos.eqb].
  destruct (tool_dm_report_ok gs g gd stdin n m es HM HNC) as (k & hn & hm & s & vn & vm & bs & H1 & H2 & H3 & H4 & H5 & H6 & H7 & H8 & H9). exists k, hn, hm, s, vn, vm, bs. repeat (split; [assumption|]).
  destruct (hn + s + m <? 2 ^ 31); [destruct H9 as (f' & -> & H9); exists f'; cbn [bind]; auto|rewrite H9; reflexivity].
Qed.
Theorem main_dm_tabulated : chosen cmd d_tabulated -> main_dm gs g gd level size stdin cmd = Ok (Some []).
Proof.
  intros C. unfold main_dm. pose proof (parse_dm_ok cmd) as P. destruct (parse_dm cmd) as [[[mode mpix]|]|e]; [|contradiction|contradiction]. cbn [bind].
  destruct P as (_ & _ & P4 & _). apply P4 in C. subst mode. cbn [Z.eqb Pos.eqb]. pose proof (tool_dm_ok gs g gd stdin n m es HM HNC) as S. unfold tool_dm in S.
  destruct (dm_matrix gs g gd stdin) as [[D B]|e]; [reflexivity|contradiction].
Qed.
Theorem main_dm_image a w h : chosen cmd d_image -> last_arg d_image cmd = Some a -> size a n m = (w, h) -> 0 < n -> 0 < m -> 0 < w -> 0 < h -> Z.min w m * Z.min h n < 2 ^ 31 ->
  sat (main_dm gs g gd level size stdin cmd) (fun x => exists f' A B P Q rr cc r c nb, x = Some f' /\
    holds 42013 n m es A /\ coarse A P Q rr cc /\ (get rr 1 < get rr 2 -> fine A P Q rr cc r c nb) /\
    wf B /\ cn B = n /\ cm B = m /\ (forall i j, 0 <= i < n -> 0 <= j < m -> stored B i j <-> stored A (get P i) (get Q j)) /\
    colour_picture B (Z.min w m) (Z.min h n) rr cc r c f').
Proof.
  intros C Ea Hs Hn Hm Hw Hh Hwh. unfold main_dm. pose proof (parse_dm_ok cmd) as P. destruct (parse_dm cmd) as [[[mode mpix]|]|e]; [|contradiction|contradiction]. cbn [bind].
  destruct P as (_ & _ & _ & P4 & _ & P5). apply P4 in C. specialize (P5 C). assert (mpix = a) as -> by congruence. subst mode. cbn [Z.eqb Pos.eqb].
  apply sat_bind. eapply sat_mono; [apply (dm_image_ok gs g gd level (size a) stdin n m es w h HM HNC); auto|].
  intros f' (A & B & P & Q & rr & cc & r & c & nb & H). exists f', A, B, P, Q, rr, cc, r, c, nb. split; [auto|exact H].
Qed.
End dm.

Section bitmap.
Context (gs : Z -> Z) (g : Z -> Z -> Z -> Z) (level : Z -> Z -> Z) (sgn : list Z -> Z) (size : option (list Z) -> Z -> Z -> Z * Z) (stdin : list Z) (cmd : list item) (n m w h : Z) (es : list (Z * Z * Z)) (gray : bool).
Hypothesis HI : ints [b_width; b_height] cmd.
Hypothesis HF : Forall (allowed b_opts) cmd.
Hypothesis HM : matrix_file stdin n m es.
Hypothesis Hg : gray = true <-> given b_gray cmd.
Hypothesis Hl : gray = true -> es <> [] /\ forall c M, 0 <= c <= M -> 0 < M -> 0 <= level c M <= 255.
(* both dimensions are given, and the number of pixels is not *)
Theorem main_bitmap_given : last_arg b_mpixels cmd = None -> value b_width cmd (-1) w -> value b_height cmd (-1) h -> 0 < w -> 0 < h -> Z.min w m * Z.min h n < 2 ^ 31 ->
  sat (main_bitmap gs g level sgn size stdin cmd) (fun x => exists f' A, x = Some f' /\ pattern_of n m es A /\
    if gray then gray_picture level A (Z.min w m) (Z.min h n) f' else bw_picture A (Z.min w m) (Z.min h n) f').
Proof.
  intros Hx Hw Hh H1 H2 H3. unfold main_bitmap. pose proof (parse_bitmap_ok cmd HI) as P. destruct (parse_bitmap cmd) as [[[[[w' h'] mpix] gray']|]|e]; [|contradiction|contradiction]. cbn [bind].
  destruct P as (_ & P1 & P2 & -> & P4). assert (w' = w) as -> by now apply (value_fun b_width cmd (-1)). assert (h' = h) as -> by now apply (value_fun b_height cmd (-1)).
  assert (gray' = gray) as -> by (destruct gray, gray'; intuition congruence). rewrite Hx. apply sat_bind. eapply sat_mono; [apply (bitmap_given gs g level _ (-1) w h gray stdin n m es HM); auto; lia|].
  intros f' (A & H). exists f', A. auto.
Qed.
(* neither *)
Theorem main_bitmap_default : last_arg b_width cmd = None -> last_arg b_height cmd = None -> (forall a, last_arg b_mpixels cmd = Some a -> sgn a <> 0) ->
  size (last_arg b_mpixels cmd) n m = (w, h) -> 0 < w -> 0 < h -> Z.min w m * Z.min h n < 2 ^ 31 ->
  sat (main_bitmap gs g level sgn size stdin cmd) (fun x => exists f' A, x = Some f' /\ pattern_of n m es A /\
    if gray then gray_picture level A (Z.min w m) (Z.min h n) f' else bw_picture A (Z.min w m) (Z.min h n) f').
Proof.
  intros Hw Hh Hx Hs H1 H2 H3. unfold main_bitmap. pose proof (parse_bitmap_ok cmd HI) as P. destruct (parse_bitmap cmd) as [[[[[w' h'] mpix] gray']|]|e]; [|contradiction|contradiction]. cbn [bind].
  destruct P as (_ & P1 & P2 & -> & P4). unfold value in P1, P2. rewrite Hw in P1. rewrite Hh in P2. subst w' h'.
  assert (gray' = gray) as -> by (destruct gray, gray'; intuition congruence). apply sat_bind. eapply sat_mono; [apply (bitmap_default gs g level _ _ (-1) (-1) w h gray stdin n m es HM); auto; try lia|].
  - destruct (last_arg b_mpixels cmd) as [a|]; [now apply Hx|lia].
  - intros f' (A & H). exists f', A. auto.
Qed.
End bitmap.

Theorem main_check_ok gs g gc fc junk fs stdin rest cmd p f cf : numeric cmd -> Forall (proper k_opts) cmd -> value o_modulus cmd 42013 p ->
  reads o_matrix fs stdin cmd f -> reads k_cert fs (match last_arg o_matrix cmd with None => rest | Some _ => stdin end) cmd cf ->
  main_check gs g gc fc junk fs stdin rest cmd = (r <- tool_check_cert gs g gc fc junk f cf p ;; Ok (Some r)).
Proof.
  intros HN HF Hv Hf Hc. unfold main_check. pose proof (parse_check_ok cmd HN) as P. destruct (parse_check cmd) as [[a|]|e]; [|contradiction|contradiction]. cbn [bind].
  destruct P as (_ & E1 & E2 & E3). rewrite E1, E3, (reads_ok _ _ _ _ _ Hf), (reads_ok _ _ _ _ _ Hc). assert (a_prime a = p) as -> by now apply (value_fun o_modulus cmd 42013). reflexivity.
Qed.
(* whatever the certificate of another file, check_cert says that it is correct *)
Theorem main_check_wrong gs g gc fc junk fs stdin rest cmd p f n m es c cf : numeric cmd -> Forall (proper k_opts) cmd -> value o_modulus cmd 42013 p -> ok_modulus p ->
  reads o_matrix fs stdin cmd f -> matrix_file f n m es -> no_cancel p es -> storable c -> c_hash c <> sha256 f -> cert_save c = Ok cf ->
  reads k_cert fs (match last_arg o_matrix cmd with None => rest | Some _ => stdin end) cmd cf ->
  main_check gs g gc fc junk fs stdin rest cmd = Ok (Some (true, 0)).
Proof.
  intros HN HF Hv Hmod Hf HM HNC Hs Hh Ec Hc. rewrite (main_check_ok gs g gc fc junk fs stdin rest cmd p f cf HN HF Hv Hf Hc).
  destruct (check_cert_wrong gs g gc fc junk f n m es p c Hmod HM HNC Hs Hh) as (cf' & E & H). assert (cf' = cf) as -> by congruence. now rewrite H.
Qed.
(* a faster test of primality *)
Definition sieve (p : Z) (k : positive) : Z * bool := Pos.iter (fun '(d, b) => (d + 1, b && negb (p mod d =? 0))) (2, true) k.
Lemma sieve_ok p k : fst (sieve p k) = 2 + Zpos k /\ (snd (sieve p k) = true -> forall d, 2 <= d < 2 + Zpos k -> ~ (d | p)).
Proof.
  induction k as [|k [I1 I2]] using Pos.peano_ind.
  - split; [reflexivity|]. cbn [sieve Pos.iter snd]. intros H d Hd D. assert (d = 2) as -> by lia. apply Z.mod_divide in D; [|lia]. now rewrite D in H.
  - unfold sieve in *. rewrite Pos.iter_succ. destruct (Pos.iter _ _ k) as [d b]. cbn [fst snd] in *. split; [lia|]. intros H e He D. apply andb_prop in H as [H1 H2].
    destruct (Z_lt_le_dec e (2 + Zpos k)) as [L|L]; [exact (I2 H1 e ltac:(lia) D)|]. assert (e = d) as -> by lia. apply Z.mod_divide in D; [|lia]. now rewrite D in H2.
Qed.
Lemma prime_sieve p k : 1 < p -> p < (2 + Zpos k) * (2 + Zpos k) -> snd (sieve p k) = true -> prime p.
Proof.
  intros Hp Hs H. pose proof (proj2 (sieve_ok p k) H) as D. apply prime_alt. split; [lia|]. intros n Hn (q & Hq).
  destruct (Z_lt_le_dec n (2 + Zpos k)) as [L|L]; [apply (D n); [lia|now exists q]|]. assert (q < 2 + Zpos k) by nia. assert (1 < q) by nia. apply (D q); [lia|]. exists n. lia.
Qed.
