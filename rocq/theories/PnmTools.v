(** The tools that draw pictures of matrices. *)
From Verif Require Import Base BaseFacts Spec SpecFacts SpecText SpecTools SpecMatch SpecDm SpecPnm Checks Zp VecProofs Mat MatFacts RowList CompressProofs TransposeProofs ParRows ExtractProofs MatProofs Stdio IO IOProofs Scc Dm DmProofs DmMain Tools ToolsProofs ToolsElim ToolsElimProofs Pnm PnmProofs.

Lemma keeps_pattern es : flat_map (keeps (-1) false) (map from0 es) = map (fun '(i, j, _) => (i - 1, j - 1, 1)) es.
Proof. induction es as [|[[i j] v] es IH]; [reflexivity|]. cbn. now rewrite IH. Qed.
Lemma compress_loaded g' T n m es : twf T -> tn T = n -> tm T = m -> tx T = None -> tlist T = flat_map (keeps (-1) false) (map from0 es) -> sat (compress g' T) (pattern_of n m es).
Proof.
  intros W En Em Hx L. eapply sat_mono; [apply (compress_pattern g' T W Hx)|]. intros A (WA & E1 & E2 & _ & _ & D & S). split; [auto|]. do 2 (split; [congruence|]). split; [auto|].
  intros i j Hi. rewrite S by lia. rewrite keeps_pattern in L. unfold tlist in L. split.
  - intros (k & Hk & <- & <-). assert (I : In (get (ti T) k, get (tj T) k, tval T k) (map (fun '(i, j, _) => (i - 1, j - 1, 1)) es)).
    { rewrite <- L. apply in_map_iff. exists k. split; [reflexivity|now apply In_zseq]. }
    apply in_map_iff in I as ([[a b] v] & E & I). injection E as <- <- _. exists v. now rewrite !Z.sub_add.
  - intros (v & I). assert (I' : In (i, j, 1) (map (fun '(i, j, _) => (i - 1, j - 1, 1)) es)) by (apply in_map_iff; exists (i + 1, j + 1, v); split; [f_equal; f_equal; lia|auto]).
    rewrite <- L in I'. apply in_map_iff in I' as (k & E & Hk). injection E as E3 E4 _. apply In_zseq in Hk. exists k. auto.
Qed.
Lemma load_pattern gs g g' f n m es : matrix_file f n m es ->
  sat ('(T, _) <- triplet_load gs g f (-1) None ;; compress g' T) (pattern_of n m es).
Proof.
  intros F. apply sat_bind. eapply sat_mono; [apply (load_file gs g f n m es (-1) None F); discriminate|]. intros [T h] ((W & En & Em & _ & HV & L) & _).
  cbn [negb Z.eqb Pos.eqb] in HV, L. assert (Hx : tx T = None) by (unfold has_values in HV; destruct (tx T); [discriminate|reflexivity]). now apply compress_loaded.
Qed.

Lemma pattern_draw g level (gray : bool) n m es A w h : pattern_of n m es A -> Forall (inside n m) es -> n < 2 ^ 31 -> m < 2 ^ 31 -> 0 < w -> 0 < h -> Z.min w m * Z.min h n < 2 ^ 31 ->
  (gray = true -> es <> [] /\ forall c M, 0 <= c <= M -> 0 < M -> 0 <= level c M <= 255) ->
  sat (save_pnm g level A (Z.min w m) (Z.min h n) (if gray then 2 else 1) None) (if gray then gray_picture level A (Z.min w m) (Z.min h n) else bw_picture A (Z.min w m) (Z.min h n)).
Proof.
  intros P I Hn Hm Hw Hh Hp Hg. pose proof P as (W & En & Em & D & S). assert (EX : forall a b, Z.min (Z.min a b) b = Z.min a b) by lia. pose proof (wf_n A W). pose proof (wf_m A W). destruct gray.
  - destruct (Hg eq_refl) as [NE Hl]. destruct es as [|[[a b] v] l]; [easy|]. inversion I as [|? ? I1 _]; subst. unfold inside in I1.
    pose proof (save_pgm_ok A W (Z.min w (cm A)) (Z.min h (cn A)) ltac:(lia) ltac:(lia) ltac:(lia) ltac:(lia) ltac:(lia) ltac:(lia) ltac:(rewrite !EX; lia) g level (a - 1) (b - 1) ltac:(lia)) as G.
    rewrite !EX in G. apply G; auto. apply S; [lia|]. exists v. left. f_equal. f_equal; lia.
  - pose proof (save_pbm_ok A W (Z.min w (cm A)) (Z.min h (cn A)) ltac:(lia) ltac:(lia) ltac:(lia) ltac:(lia) ltac:(lia) ltac:(lia) ltac:(rewrite !EX; subst; lia) g level) as G.
    rewrite !EX in G. rewrite En, Em in G. exact G.
Qed.
Section bitmap.
Context (gs : Z -> Z) (g : Z -> Z -> Z -> Z) (level : Z -> Z -> Z) (target : Z -> Z -> Z * Z) (mpix w h : Z) (gray : bool) (f : list Z) (n m : Z) (es : list (Z * Z * Z)).
Hypothesis F : matrix_file f n m es.

Lemma bitmap_picture w' h' : bitmap_size target mpix w h n m = Ok (Z.min w' m, Z.min h' n) -> 0 < w' -> 0 < h' -> Z.min w' m * Z.min h' n < 2 ^ 31 ->
  (gray = true -> es <> [] /\ forall c M, 0 <= c <= M -> 0 < M -> 0 <= level c M <= 255) ->
  sat (tool_bitmap gs g level target mpix w h gray f) (fun f' => exists A, pattern_of n m es A /\
    if gray then gray_picture level A (Z.min w' m) (Z.min h' n) f' else bw_picture A (Z.min w' m) (Z.min h' n) f').
Proof.
  intros Hs Hw Hh Hp Hg. destruct (file_dims f n m es F) as [Hn Hm]. unfold tool_bitmap.
  pose proof (load_pattern gs (g 0) (g 1) f n m es F) as LP. destruct (triplet_load gs (g 0) f (-1) None) as [[T h0]|]; [|contradiction]. cbn [bind] in LP |- *.
  apply sat_bind. eapply sat_mono; [exact LP|]. intros A P. pose proof P as (W & En & Em & D & S). rewrite En, Em, Hs. cbn [bind]. destruct F as (_ & I & _).
  eapply sat_mono; [apply (pattern_draw (g 2 0) level gray n m es A w' h' P I); auto; lia|]. intros f' Hf. exists A. split; [exact P|]. destruct gray; exact Hf.
Qed.
End bitmap.

(* both dimensions are given *)
Theorem bitmap_given gs g level target mpix w h (gray : bool) f n m es : matrix_file f n m es -> mpix <= 0 -> 0 < w -> 0 < h -> Z.min w m * Z.min h n < 2 ^ 31 ->
  (gray = true -> es <> [] /\ forall c M, 0 <= c <= M -> 0 < M -> 0 <= level c M <= 255) ->
  sat (tool_bitmap gs g level target mpix w h gray f) (fun f' => exists A, pattern_of n m es A /\
    if gray then gray_picture level A (Z.min w m) (Z.min h n) f' else bw_picture A (Z.min w m) (Z.min h n) f').
Proof.
  intros F Hx Hw Hh Hp Hg. apply bitmap_picture; auto. unfold bitmap_size. cbv zeta.
  assert (E0 : (0 <? mpix) = false) by lia. assert (E1 : (w <? 0) = false) by lia. assert (E2 : (h <? 0) = false) by lia. rewrite E0, E1, E2, !andb_false_r. cbn [andb]. rewrite ?E0. cbn [andb]. rewrite ?E1, ?E2, ?andb_false_r. cbn [andb bind]. rewrite ?E2, ?andb_false_r. reflexivity.
Qed.
(* none of them is given *)
Theorem bitmap_default gs g level target mpix w h w' h' (gray : bool) f n m es : matrix_file f n m es -> mpix <> 0 -> w < 0 -> h < 0 -> target n m = (w', h') -> 0 < w' -> 0 < h' -> Z.min w' m * Z.min h' n < 2 ^ 31 ->
  (gray = true -> es <> [] /\ forall c M, 0 <= c <= M -> 0 < M -> 0 <= level c M <= 255) ->
  sat (tool_bitmap gs g level target mpix w h gray f) (fun f' => exists A, pattern_of n m es A /\
    if gray then gray_picture level A (Z.min w' m) (Z.min h' n) f' else bw_picture A (Z.min w' m) (Z.min h' n) f').
Proof.
  intros F Hx Hw Hh Ht Hw' Hh' Hp Hg. apply bitmap_picture; auto. unfold bitmap_size. cbv zeta.
  assert (E1 : (w <? 0) = true) by lia. assert (E2 : (h <? 0) = true) by lia. assert (E3 : (0 <? w) = false) by lia. assert (E4 : (0 <? h) = false) by lia. rewrite E1, E2, E3, E4.
  cbn [orb andb]. rewrite andb_false_r, !andb_true_r. assert (E5 : (0 <? (if mpix <? 0 then 1 else mpix)) = true) by (destruct (Z.ltb_spec mpix 0); lia).
  rewrite E5, Ht. assert (E6 : ((if mpix <? 0 then 1 else mpix) <? 0) = false) by lia. rewrite E6. reflexivity.
Qed.
(* only one of them is given, not smaller than that of the matrix: one pixel for each position *)
Theorem bitmap_height gs g level target mpix w h (gray : bool) f n m es : matrix_file f n m es -> mpix < 0 -> w < 0 -> 0 < n <= h -> 0 < m -> m * (h / n) < 2 ^ 31 -> n * m < 2 ^ 31 ->
  (gray = true -> es <> [] /\ forall c M, 0 <= c <= M -> 0 < M -> 0 <= level c M <= 255) ->
  sat (tool_bitmap gs g level target mpix w h gray f) (fun f' => exists A, pattern_of n m es A /\
    if gray then gray_picture level A m n f' else bw_picture A m n f').
Proof.
  intros F Hx Hw Hh Hm Hq Hp Hg. assert (Q : 1 <= h / n) by (apply Z.div_le_lower_bound; lia).
  pose proof (bitmap_picture gs g level target mpix w h gray f n m es F m n) as P. rewrite !Z.min_id in P. apply P; [|lia|lia|lia|auto]. clear P. unfold bitmap_size. cbv zeta.
  assert (E0 : (0 <? mpix) = false) by lia. assert (E1 : (w <? 0) = true) by lia. assert (E2 : (h <? 0) = false) by lia. assert (E3 : (0 <? h) = true) by lia. assert (E4 : (mpix <? 0) = true) by lia. rewrite E0, E1, E2, E4. cbn [andb]. rewrite ?E0, ?E4. cbn [andb]. rewrite ?E1, ?E3, ?E4. cbn [andb]. unfold cdiv. destruct (Z.eqb_spec n 0); [lia|]. cbn [bind]. rewrite Z.quot_div_nonneg by lia. unfold i32.
  assert (0 <= m * (h / n)) by nia. replace ((- 2 ^ 31 <=? m * (h / n)) && (m * (h / n) <? 2 ^ 31)) with true by lia. cbn [bind]. rewrite E2, !andb_false_r. cbn [bind]. f_equal. f_equal; [|lia]. nia.
Qed.
Theorem bitmap_width gs g level target mpix w h (gray : bool) f n m es : matrix_file f n m es -> mpix < 0 -> h < 0 -> 0 < m <= w -> 0 < n -> n * (w / m) < 2 ^ 31 -> n * m < 2 ^ 31 ->
  (gray = true -> es <> [] /\ forall c M, 0 <= c <= M -> 0 < M -> 0 <= level c M <= 255) ->
  sat (tool_bitmap gs g level target mpix w h gray f) (fun f' => exists A, pattern_of n m es A /\
    if gray then gray_picture level A m n f' else bw_picture A m n f').
Proof.
  intros F Hx Hh Hw Hn Hq Hp Hg. assert (Q : 1 <= w / m) by (apply Z.div_le_lower_bound; lia).
  pose proof (bitmap_picture gs g level target mpix w h gray f n m es F m n) as P. rewrite !Z.min_id in P. apply P; [|lia|lia|lia|auto]. clear P. unfold bitmap_size. cbv zeta.
  assert (E0 : (0 <? mpix) = false) by lia. assert (E1 : (w <? 0) = false) by lia. assert (E2 : (h <? 0) = true) by lia. assert (E3 : (0 <? w) = true) by lia. assert (E4 : (mpix <? 0) = true) by lia. rewrite E0, E1, E2, E4. cbn [andb]. rewrite ?E0, ?E4. cbn [andb]. rewrite ?E1, ?E4. cbn [andb bind]. rewrite E2, E3. cbn [andb]. unfold cdiv. destruct (Z.eqb_spec m 0); [lia|]. cbn [bind]. rewrite Z.quot_div_nonneg by lia. unfold i32.
  assert (0 <= n * (w / m)) by nia. replace ((- 2 ^ 31 <=? n * (w / m)) && (n * (w / m) <? 2 ^ 31)) with true by lia. cbn [bind]. f_equal. f_equal; [lia|]. nia.
Qed.

(** ** The picture of the Dulmage-Mendelsohn decomposition *)
Lemma dm_draw_ok g gd level size n m es A w h : holds 42013 n m es A -> size n m = (w, h) -> n < 2 ^ 31 -> m < 2 ^ 31 ->
  0 < n -> 0 < m -> 0 < w -> 0 < h -> Z.min w m * Z.min h n < 2 ^ 31 ->
  sat (dm_draw g gd level size A) (fun f' => exists B P Q rr cc r c nb,
    coarse A P Q rr cc /\ (get rr 1 < get rr 2 -> fine A P Q rr cc r c nb) /\
    wf B /\ cn B = n /\ cm B = m /\ (forall i j, 0 <= i < n -> 0 <= j < m -> stored B i j <-> stored A (get P i) (get Q j)) /\
    colour_picture B (Z.min w m) (Z.min h n) rr cc r c f').
Proof.
  intros H Hsz Hn Hm Hn0 Hm0 Hw Hh Hp. unfold dm_draw.
  pose proof H as (W & En & Em & _).
  apply sat_bind. eapply sat_mono; [apply (dulmage_mendelsohn_ok gd A W)|]. intros D (C & Fi & _). pose proof C as [Cp Cq (L1 & L2) Cr Cc Cs _ _ _ _].
  apply sat_bind. eapply sat_mono; [apply (pinv_ok (g 2) (Some (dm_q D)) (cm A)); [lia|exact Cq]|]. intros qinv (_ & Q1 & Q2).
  apply sat_bind. eapply sat_mono; [apply (permute_entry (g 3) A (Some (dm_p D)) qinv true W Cp Q1)|]. intros B (WB & B1 & B2 & _ & _ & _ & B6).
  rewrite En, Em, Hsz. rewrite <- En, <- Em in *.
  pose proof (save_ppm_ok B WB w h D Hw Hh ltac:(lia) ltac:(lia) ltac:(rewrite B2; lia) ltac:(rewrite B1; lia) ltac:(rewrite B1, B2; lia) L1 L2) as G.
  rewrite B1, B2 in G. eapply sat_mono; [apply G|].
  - destruct Cr as (R1 & _ & R3). pose proof (R3 0 ltac:(lia)). pose proof (R3 1 ltac:(lia)). cbn [Z.add Pos.add] in *. lia.
  - destruct Cc as (R1 & _ & R3). pose proof (R3 0 ltac:(lia)). pose proof (R3 1 ltac:(lia)). pose proof (R3 2 ltac:(lia)). cbn [Z.add Pos.add Pos.succ] in *. lia.
  - intros Hl. destruct (Fi Hl) as [N (N1 & N2) (F1 & F2 & F3 & _) (F4 & F5 & F6 & _) Inc Sq _ _]. do 3 (split; [auto|]). do 3 (split; [auto|]).
    destruct Cr as (R1 & _ & R3). pose proof (R3 0 ltac:(lia)) as R4. destruct Cc as (S1 & _ & S3). pose proof (S3 0 ltac:(lia)). pose proof (S3 1 ltac:(lia)). cbn [Z.add Pos.add] in *.
    assert (G1 : forall t, 1 <= t <= dm_nb D - 1 -> get (dm_rr D) 1 <= get (dm_r D) t).
    { intros t Ht. pattern t. apply (range_ind _ 1 (dm_nb D - 1)); [lia| |lia]. intros l Hl' IH. pose proof (Inc l ltac:(lia)). lia. }
    split; intros t Ht; pose proof (G1 t ltac:(lia)); [lia|]. pose proof (Sq t Ht). lia.
  - intros f' Pf. exists B, (dm_p D), (dm_q D), (dm_rr D), (dm_cc D), (dm_r D), (dm_c D), (dm_nb D).
    split; [exact C|]. split; [exact Fi|]. split; [exact WB|]. split; [auto|]. split; [auto|]. split; [|exact Pf].
    intros i j Hi Hj. assert (Hq : 0 <= get (dm_q D) j < cm A) by (apply Cq; auto). destruct (B6 i (get (dm_q D) j) Hi Hq) as (_ & St).
    assert (E : oapply qinv (get (dm_q D) j) = j) by (specialize (Q2 j Hj); apply Q2). rewrite E in St. exact St.
Qed.
Theorem dm_image_ok gs g gd level size f n m es w h : matrix_file f n m es -> no_cancel 42013 es -> size n m = (w, h) ->
  0 < n -> 0 < m -> 0 < w -> 0 < h -> Z.min w m * Z.min h n < 2 ^ 31 ->
  sat (tool_dm_image gs g gd level size f) (fun f' => exists A B P Q rr cc r c nb,
    holds 42013 n m es A /\ coarse A P Q rr cc /\ (get rr 1 < get rr 2 -> fine A P Q rr cc r c nb) /\
    wf B /\ cn B = n /\ cm B = m /\ (forall i j, 0 <= i < n -> 0 <= j < m -> stored B i j <-> stored A (get P i) (get Q j)) /\
    colour_picture B (Z.min w m) (Z.min h n) rr cc r c f').
Proof.
  intros F NC Hsz Hn0 Hm0 Hw Hh Hp. assert (Hp' : ok_modulus 42013) by (unfold ok_modulus; lia). destruct (file_dims f n m es F) as [Hn Hm]. unfold tool_dm_image. apply sat_bind.
  eapply sat_mono; [apply (load_matrix_ok gs g (fun _ _ => false) f n m es 42013 None Hp' F NC); discriminate|]. intros [A h0] (H & _). cbv beta iota in H.
  eapply sat_mono; [apply (dm_draw_ok g gd level size n m es A w h H Hsz); lia|]. intros f' (B & P & Q & rr & cc & r & c & nb & R). exists A, B, P, Q, rr, cc, r, c, nb. split; [exact H|exact R].
Qed.
(* the number of pixels and a dimension *)
Lemma bitmap_exclusive gs g level target mpix w h gray input img : 0 < mpix -> 0 < w \/ 0 < h -> tool_bitmap gs g level target mpix w h gray input <> Ok img.
Proof.
  intros Hp Hd. unfold tool_bitmap. destruct (triplet_load _ _ _ _ _) as [[T h']|]; [|discriminate]. cbn [bind]. destruct (compress _ _) as [A|]; [|discriminate]. cbn [bind].
  unfold bitmap_size. replace (andb _ _) with true by lia. discriminate.
Qed.
