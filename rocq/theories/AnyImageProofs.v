(** Proofs about AnyImage.v. *)
From Verif Require Import Base BaseFacts Spec SpecFacts SpecText SpecAccept SpecTools SpecHeader SpecAny SpecAnyElim SpecAnyImage SpecMatch SpecDm SpecPnm Zp Mat MatFacts RowList VecProofs CompressProofs TransposeProofs ParRows ExtractProofs MatProofs DenseProofs4 CertProofs
  SpecSha ShaHash Sha Stdio IO TextProofs IOProofs IOHash IOSave IOAccept IOCut IOSafe Sizes Header HeaderProofs Tools ToolsProofs AnyInput AnyProofs
  Scc Dm DmProofs DmMain ToolsElim ToolsElimProofs DmTool AnyElim AnyElimProofs Pnm PnmProofs PnmTools AnyImage.

(** ** Dimensions *)
Definition reach (n m : Z) (es : list (Z * Z * Z)) (T : triplet) : Prop := spans (-1) n m es T /\ tn T = tall n es /\ tm T = wide m es.
Lemma tall_snoc n es i j x : tall n (es ++ [(i, j, x)]) = Z.max i (tall n es).
Proof. unfold tall. induction es as [|[[a b] y] l IH]; [reflexivity|]. cbn [app fold_right]. rewrite IH. lia. Qed.
Lemma wide_snoc n es i j x : wide n (es ++ [(i, j, x)]) = Z.max j (wide n es).
Proof. unfold wide. induction es as [|[[a b] y] l IH]; [reflexivity|]. cbn [app fold_right]. rewrite IH. lia. Qed.
Lemma reach_add g n m es T i j x T' : reach n m es T -> 1 <= i < 2 ^ 31 -> 1 <= j < 2 ^ 31 -> add_entry g T (i - 1) (j - 1) x = Ok T' -> reach n m (es ++ [(i, j, x)]) T'.
Proof.
  intros (S & E1 & E2) Hi Hj Ea. split; [exact (spans_add g (-1) n m es T i j x T' S Hi Hj Ea)|]. rewrite tall_snoc, wide_snoc, <- E1, <- E2.
  destruct S as ((_ & P & V & _) & _). cbn [negb Z.eqb Pos.eqb] in V. unfold has_values in V. cbn [redim tx tprime] in V, P.
  revert Ea. unfold add_entry. destruct (assert_ _); [|discriminate]. cbn [bind]. cbv zeta.
  set (T1 := if tnz T =? len (tj T) then _ else T). assert (D : tn T1 = tn T /\ tm T1 = tm T /\ tx T1 = None).
  { unfold T1. destruct (tnz T =? len (tj T)); cbn [triplet_realloc tn tm tprime tx]; (split; [reflexivity|]); (split; [reflexivity|]); destruct (tx T); [discriminate|reflexivity|discriminate|reflexivity]. }
  clearbody T1. destruct D as (<- & <- & D4). rewrite D4.
  destruct (aset _ _ _); [|discriminate]. cbn [bind]. destruct (aset _ _ _); [|discriminate]. cbn [bind]. intros E. injection E as <-. cbn [tn tm]. lia.
Qed.
Lemma load_reach gs g f hash T h : ~ In 0 f -> triplet_load gs g f (-1) hash = Ok (T, h) -> exists n m es, like_pattern f n m es /\ reach n m es T.
Proof.
  intros H0 E. destruct (load_accepts_inv gs g (-1) reach) with (f := f) (hash := hash) (T := T) (h := h) as (n & m & es & L & R); auto.
  - intros n m es T0 i j x T'. apply reach_add.
  - intros n m nz Hz. split; [|split; reflexivity]. split; [change (redim (triplet_alloc g n m nz (-1) (negb (-1 =? -1)))) with (triplet_alloc g (Z.max n 0) (Z.max m 0) nz (-1) (negb (-1 =? -1))); apply loaded_alloc; lia|]. cbn [triplet_alloc tn tm tnz]. lia.
  - intros n m es T0 ((H & H') & H''). split; [split; [|exact H']|exact H'']. change (redim (triplet_realloc g T0 (-1))) with (triplet_realloc g (redim T0) (-1)). now apply loaded_realloc.
  - exists n, m, es. split; [|exact R]. destruct L as [(c & L & _)|L]; [left; eauto|now right].
Qed.
Lemma pattern_len f n m es : like_pattern f n m es -> len es <= len f /\ int32 n /\ int32 m.
Proof.
  intros [(c & h & ls & e & gl & -> & T & _ & Hn & Hm & B & _)|(h & cs & d & ls & gl & -> & T & _ & _ & _ & _ & Hn & Hm & _ & B)]; (split; [|auto]); apply text_len in T; rewrite (entries_len _ _ B); revert T; rewrite len_cons, ?len_app, ?len_cons, ?len_app.
  - pose proof (len_nonneg gl). lia.
  - pose proof (len_nonneg gl). pose proof (len_nonneg cs). lia.
Qed.
Lemma begin_inside ls es : begin_entries ls es -> Forall (fun '(i, j, _) => 1 <= i < 2 ^ 31 /\ 1 <= j < 2 ^ 31) es.
Proof. induction 1 as [|s [[i j] x] ls es (_ & Hi & Hj & _) _ IH]; constructor; auto. Qed.
Lemma pattern_inside f n m es : like_pattern f n m es -> Forall (fun '(i, j, _) => 1 <= i < 2 ^ 31 /\ 1 <= j < 2 ^ 31) es.
Proof. intros [(c & h & ls & e & gl & _ & _ & _ & _ & _ & B & _)|(h & cs & d & ls & gl & _ & _ & _ & _ & _ & _ & _ & _ & _ & B)]; exact (begin_inside _ _ B). Qed.
Lemma inside_reach n m es : Forall (fun '(i, j, _) => 1 <= i < 2 ^ 31 /\ 1 <= j < 2 ^ 31) es -> Forall (inside (tall n es) (wide m es)) es.
Proof.
  intros H. apply Forall_forall. intros [[i j] x] I. rewrite Forall_forall in H. specialize (H _ I). cbn in H. unfold inside.
  assert (i <= tall n es /\ j <= wide m es); [|lia]. clear H. unfold tall, wide. induction es as [|[[a b] y] l IH]; [destruct I|]. cbn [fold_right]. destruct I as [E|I]; [injection E as -> -> ->; lia|specialize (IH I); lia].
Qed.

(** ** A matrix without entries *)
Lemma blank_gray A g level w h : wf A -> (forall i j, 0 <= i < cn A -> ~ stored A i j) -> cn A < 2 ^ 31 -> cm A < 2 ^ 31 -> 0 < w -> 0 < h ->
  Z.min w (cm A) * Z.min h (cn A) < 2 ^ 31 ->
  outs (save_pnm g level A (Z.min w (cm A)) (Z.min h (cn A)) 2 None) (fun f => (cn A = 0 \/ cm A = 0) /\ plain_image f 2 [Z.min w (cm A); Z.min h (cn A); 255]) refused.
Proof.
  intros W NS Hn Hm Hw Hh Hp. pose proof (wf_n A W) as Hn0. pose proof (wf_m A W) as Hm0.
  unfold save_pnm. change ((2 - 1) * (2 - 2) * (2 - 3) =? 0) with true. change (negb (2 =? 3)) with true. cbn [assert_ bind orb]. cbv zeta.
  replace (Z.min (Z.min w (cm A)) (cm A)) with (Z.min w (cm A)) by lia. replace (Z.min (Z.min h (cn A)) (cn A)) with (Z.min h (cn A)) by lia.
  set (X := Z.min w (cm A)) in *. set (Y := Z.min h (cn A)) in *.
  apply outs_bind. apply sat_outs. eapply sat_mono; [apply (counts_ok A W X Y); lia|]. intros u (Lu & U).
  apply outs_bind. apply sat_outs. eapply sat_mono; [unfold X, Y; apply (max_ok A W w h); lia|]. intros M (M1 & M2 & M3). cbn [pnm_limits bind].
  assert (M0 : M = 0).
  { destruct M3 as [->|(k & Hk & E)]; [reflexivity|]. fold X Y in Hk. assert (0 < X) by nia. pose proof (Z.div_mod k X ltac:(lia)). pose proof (Z.mod_pos_bound k X ltac:(lia)).
    assert (0 <= k / X < Y) by (split; [apply Z.div_pos; lia|apply Z.div_lt_upper_bound; lia]). replace k with (k / X * X + k mod X) in E by lia. rewrite U in E by auto.
    pose proof (density_nonneg A X Y (k / X) (k mod X)). destruct (Z.eq_dec M 0); [auto|]. assert (C : covered A X Y (k / X) (k mod X)) by (apply density_covered; lia). destruct C as (a & b & Ha & S & _). destruct (NS a b Ha S). }
  subst M. destruct (Z.eq_dec (X * Y) 0) as [E0|E0].
  - destruct (header_ok 2 X Y ltac:(lia) ltac:(apply numeral_fits_range; lia) ltac:(apply numeral_fits_range; lia)) as (a & b & T & N1 & N2).
    change (1 <? 2) with true in *. cbv iota in T, N2. apply sat_outs.
    apply sat_bind. eapply sat_mono; [apply (image_ok X Y ltac:(lia) ltac:(lia) _ (fun _ _ => True) (fun i j l => l = [])); [auto| |exact T|exact I]|].
    + intros i j e Hi Hj. nia.
    + intros [[f t] e] (img & ws & P & Tf & Nf). cbn [sat]. split; [nia|]. exists (a ++ b ++ ws). change (([80; 48 + 2] :: (a ++ b)) ++ ws) with ([80; 48 + 2] :: ((a ++ b) ++ ws)) in Tf. rewrite <- app_assoc in Tf. split; [exact Tf|].
      apply (Forall2_app (l1 := a) (l1' := [X; Y])); [auto|]. apply (Forall2_app (l1 := b) (l1' := [255])); [auto|]. replace (raster X Y img) with (@nil Z) in Nf; [exact Nf|].
      rewrite (raster_ext X Y img (fun _ _ => [])) by (intros i j Hi Hj; nia). unfold raster. clear. induction (zseq 0 Y) as [|i l IH]; [reflexivity|]. cbn [flat_map]. rewrite <- IH, app_nil_r. induction (zseq 0 X); [reflexivity|auto].
  - apply outs_bind. apply (outs_for (fun i _ => i <= 0)); [lia|lia| |lia].
    intros i s Hi _. apply (outs_for (fun j _ => j <= 0)); [lia|lia| |nia]. intros j [[f t] e] Hj _. apply outs_bind. unfold pnm_pixel. apply outs_bind, sat_outs, sat_aget; [nia|]. cbn [Z.eqb Pos.eqb negb assert_ bind outs]. left. reflexivity.
Qed.

(** ** Any bytes *)
Section ANY.
Variables (gs : Z -> Z) (g : Z -> Z -> Z -> Z) (most : Z) (f : list Z).
Hypothesis (HB : bytes f) (HL : len f < 2 ^ 60) (H0 : ~ In 0 f) (HA : forall nnz, announces f nnz -> - 2 ^ 61 <= nnz < 2 ^ 61) (Hmost : 0 <= most < 2 ^ 61).
Lemma hload_reach g0 : outs (hload gs g0 most f (-1) None) (fun '(T, h) => exists n m es, like_pattern f n m es /\ reach n m es T) refused.
Proof.
  destruct (hload_same gs g0 most f (-1) None H0 HA Hmost) as [-> | ->]; [left; reflexivity|]. pose proof (load_safe gs g0 f (-1) None HB ltac:(lia) ltac:(discriminate)) as S.
  destruct (triplet_load gs g0 f (-1) None) as [[T h]|e] eqn:E; [|exact S]. cbn [outs]. exact (load_reach gs g0 f None T h H0 E).
Qed.
Lemma npattern_any : outs ('(T, _) <- hload gs (g 0) most f (-1) None ;; ncompress (g 1) most T)
  (fun A => exists n m es, like_pattern f n m es /\ tall n es < 2 ^ 31 /\ wide m es < 2 ^ 31 /\ pattern_of (tall n es) (wide m es) es A) (fun e => refused e \/ e = OOB /\ nothing f).
Proof.
  apply outs_bind. eapply outs_imp; [apply (hload_reach (g 0))| |intros e He; left; exact He]. intros [T h] (n & m & es & LP & S & E1 & E2). destruct (pattern_len _ _ _ _ LP) as (Le & In & Im). unfold int32 in *.
  pose proof S as ((W & P & V & L & _) & Z1 & Z2 & Z3 & Z4). cbn [negb Z.eqb Pos.eqb] in V, L. change (tprime (redim T)) with (tprime T) in P.
  assert (Hx : tx T = None) by (unfold has_values in V; cbn [redim tx] in V; destruct (tx T); [discriminate|reflexivity]). pose proof W as (_ & _ & W3 & W4 & _).
  change (tnz (redim T)) with (tnz T) in W3. change (tj (redim T)) with (tj T) in *. change (ti (redim T)) with (ti T) in *.
  assert (Lz : tnz T = len es). { pose proof (len_tlist (redim T)) as E. change (tnz (redim T)) with (tnz T) in E. rewrite <- E by lia. rewrite L, keeps_pattern, len_map. reflexivity. }
  assert (WT : 0 <= tn T -> 0 <= tm T -> twf T) by (intros; now rewrite <- (redim_eq T)).
  eapply outs_imp; [apply (ncompress_all (g 1) most T)| |]; unfold int32; try lia.
  - intros WT'. pose proof (compress_pattern (g 1) T WT' Hx) as C. destruct (Mat.compress (g 1) T) as [A|]; [eauto|destruct C].
  - split; [lia|]. split; [lia|]. now rewrite Hx.
  - exact WT.
  - intros A (N0 & M0 & WT' & EA). exists n, m, es. split; [exact LP|]. split; [lia|]. split; [lia|]. rewrite (redim_eq T) in L by auto.
    pose proof (compress_loaded (g 1) T (tall n es) (wide m es) es WT' E1 E2 Hx L) as C. rewrite EA in C. exact C.
  - intros e [He|(-> & En & Ez)]; [left; exact He|]. right. split; [reflexivity|]. destruct (Z1 Ez) as [F1 _]. assert (es = []) by (destruct es as [|a l]; [reflexivity|]; rewrite len_cons in Lz; pose proof (len_nonneg l); lia). subst es. exists m. rewrite <- En, F1. exact LP.
Qed.
Lemma bitmap_rest level target mpix w h gray : ntool_bitmap gs g most level target mpix w h gray f =
  (A <- ('(T, _) <- hload gs (g 0) most f (-1) None ;; ncompress (g 1) most T) ;; '(w, h) <- bitmap_size target mpix w h (cn A) (cm A) ;; save_pnm (g 2 0) level A w h (if gray then 2 else 1) None).
Proof. unfold ntool_bitmap. destruct (hload gs (g 0) most f (-1) None) as [[T ?]|]; reflexivity. Qed.
Lemma drawn_any level (gray : bool) n m es A w h : like_pattern f n m es -> tall n es < 2 ^ 31 -> wide m es < 2 ^ 31 -> pattern_of (tall n es) (wide m es) es A -> 0 < w -> 0 < h ->
  Z.min w (wide m es) * Z.min h (tall n es) < 2 ^ 31 -> (gray = true -> forall c M, 0 <= c <= M -> 0 < M -> 0 <= level c M <= 255) ->
  outs (save_pnm (g 2 0) level A (Z.min w (wide m es)) (Z.min h (tall n es)) (if gray then 2 else 1) None) (fun f' =>
    if gray then gray_picture level A (Z.min w (wide m es)) (Z.min h (tall n es)) f' \/ es = [] /\ (tall n es = 0 \/ wide m es = 0) /\ plain_image f' 2 [Z.min w (wide m es); Z.min h (tall n es); 255]
    else bw_picture A (Z.min w (wide m es)) (Z.min h (tall n es)) f') refused.
Proof.
  intros LP HN HM P Hw Hh Hp Hl. pose proof (inside_reach n m es (pattern_inside _ _ _ _ LP)) as I. destruct (bool_dec gray true) as [->|Hg].
  - destruct es as [|e0 l] eqn:Ees.
    + pose proof P as (W & En & Em & D & S). rewrite <- En, <- Em in *. eapply outs_imp; [apply (blank_gray A (g 2 0) level w h W); auto| |auto].
      * intros i j Hi St. apply S in St; [|lia]. destruct St as (v & []).
      * intros f' [F1 F2]. right. split; [reflexivity|]. split; [tauto|exact F2].
    + rewrite <- Ees in *. apply sat_outs. eapply sat_mono; [apply (pattern_draw (g 2 0) level true _ _ es A w h P I); auto; intros _; split; [subst; discriminate|auto]|]. intros f' Hf. left. exact Hf.
  - destruct gray; [congruence|]. apply sat_outs. apply (pattern_draw (g 2 0) level false _ _ es A w h P I); auto; discriminate.
Qed.
Theorem bitmap_any level target mpix w h (gray : bool) : mpix <= 0 -> 0 < w -> 0 < h -> w * h < 2 ^ 31 -> (gray = true -> forall c M, 0 <= c <= M -> 0 < M -> 0 <= level c M <= 255) ->
  outs (ntool_bitmap gs g most level target mpix w h gray f) (fun f' => exists n m es A, like_pattern f n m es /\ let N := tall n es in let M := wide m es in pattern_of N M es A /\
      if gray then gray_picture level A (Z.min w M) (Z.min h N) f' \/ es = [] /\ (N = 0 \/ M = 0) /\ plain_image f' 2 [Z.min w M; Z.min h N; 255] else bw_picture A (Z.min w M) (Z.min h N) f')
    (fun e => refused e \/ e = OOB /\ nothing f).
Proof.
  intros Hx Hw Hh Hp Hl. rewrite bitmap_rest. apply outs_bind. eapply outs_imp; [apply npattern_any| |intros e He; exact He]. intros A (n & m & es & LP & HN & HM & P). pose proof P as (W & En & Em & _).
  assert (Es : bitmap_size target mpix w h (cn A) (cm A) = Ok (Z.min w (cm A), Z.min h (cn A))).
  { unfold bitmap_size. cbv zeta. assert (E1 : (w <? 0) = false) by lia. assert (E2 : (h <? 0) = false) by lia. assert (E3 : (0 <? mpix) = false) by lia. rewrite E3, E1, E2, !andb_false_r. cbn [andb]. rewrite ?E3. cbn [andb]. rewrite ?E1, ?E2, ?andb_false_r. cbn [andb bind]. rewrite ?E2, ?andb_false_r. reflexivity. }
  rewrite Es. cbn [bind]. rewrite En, Em. pose proof (wf_n A W). pose proof (wf_m A W). eapply outs_imp; [apply (drawn_any level gray n m es A w h LP HN HM P Hw Hh); [nia|exact Hl]| |auto]. intros f' Hf. exists n, m, es, A. cbv zeta. auto.
Qed.
Theorem bitmap_default_any level target mpix w h (gray : bool) : mpix <> 0 -> w < 0 -> h < 0 ->
  (forall n m, 0 < n -> 0 < m -> let '(x, y) := target n m in 0 < x /\ 0 < y /\ Z.min x m * Z.min y n < 2 ^ 31) -> (gray = true -> forall c M, 0 <= c <= M -> 0 < M -> 0 <= level c M <= 255) ->
  outs (ntool_bitmap gs g most level target mpix w h gray f) (fun f' => exists n m es A, like_pattern f n m es /\ let N := tall n es in let M := wide m es in pattern_of N M es A /\
      (0 < N -> 0 < M -> let '(x, y) := target N M in if gray then gray_picture level A (Z.min x M) (Z.min y N) f' else bw_picture A (Z.min x M) (Z.min y N) f'))
    (fun e => refused e \/ e = OOB /\ nothing f \/ exists n m, like_pattern f n m [] /\ (n = 0 \/ m = 0)).
Proof.
  intros Hx Hw Hh Ht Hl. rewrite bitmap_rest. apply outs_bind. eapply outs_imp; [apply npattern_any| |intros e [He|He]; auto]. intros A (n & m & es & LP & HN & HM & P). pose proof P as (W & En & Em & _). pose proof (wf_n A W). pose proof (wf_m A W).
  pose proof (inside_reach n m es (pattern_inside _ _ _ _ LP)) as I.
  destruct (Z_lt_le_dec 0 (cn A)) as [N0|N0]; [destruct (Z_lt_le_dec 0 (cm A)) as [M0|M0]|].
  2,3: match goal with |- outs ?r _ _ => destruct r as [f'|e] end; cbn [outs]; [exists n, m, es, A; cbv zeta; split; [exact LP|]; split; [exact P|lia]|]; right; right;
    (destruct es as [|[[i j] x] l]; [exists n, m; split; [exact LP|]; cbn [tall wide fold_right] in *; lia|inversion I as [|? ? I1 _]; unfold inside in I1; lia]).
  specialize (Ht (cn A) (cm A) N0 M0). destruct (target (cn A) (cm A)) as [x y] eqn:Et. destruct Ht as (Hx0 & Hy0 & Hp).
  assert (Es : bitmap_size target mpix w h (cn A) (cm A) = Ok (Z.min x (cm A), Z.min y (cn A))).
  { unfold bitmap_size. cbv zeta. assert (E1 : (w <? 0) = true) by lia. assert (E2 : (h <? 0) = true) by lia. assert (E3 : (0 <? w) = false) by lia. assert (E4 : (0 <? h) = false) by lia. rewrite E1, E2, E3, E4.
    cbn [orb andb]. rewrite andb_false_r, !andb_true_r. assert (E5 : (0 <? (if mpix <? 0 then 1 else mpix)) = true) by (destruct (Z.ltb_spec mpix 0); lia).
    rewrite E5, Et. assert (E6 : ((if mpix <? 0 then 1 else mpix) <? 0) = false) by lia. rewrite E6. reflexivity. }
  rewrite Es. cbn [bind]. rewrite En, Em in *. eapply outs_imp; [apply (drawn_any level gray n m es A x y LP HN HM P Hx0 Hy0 Hp Hl)| |auto]. intros f' Hf. exists n, m, es, A. cbv zeta. split; [exact LP|]. split; [exact P|]. intros _ _. rewrite Et. destruct gray; [|exact Hf]. destruct Hf as [Hf|(_ & Hf & _)]; [exact Hf|lia].
Qed.

(** ** The picture of the Dulmage-Mendelsohn decomposition *)
Lemma draw_empty gd level size n m es A w h : holds 42013 n m es A -> size n m = (w, h) -> n = 0 \/ m = 0 -> outs (dm_draw g gd level size A) (fun _ => False) refused.
Proof.
  intros H Hsz H1. pose proof H as (W & En & Em & _). unfold dm_draw.
  apply outs_bind, sat_outs. eapply sat_mono; [apply (dulmage_mendelsohn_ok gd A W)|]. intros D (C & Fi & _). pose proof C as [Cp Cq (L1 & L2) Cr Cc Cs _ _ _ _].
  pose proof (wf_n A W). pose proof (wf_m A W).
  apply outs_bind, sat_outs. eapply sat_mono; [apply (pinv_ok (g 2) (Some (dm_q D)) (cm A)); [lia|exact Cq]|]. intros qinv (_ & Q1 & Q2).
  apply outs_bind, sat_outs. eapply sat_mono; [apply (permute_entry (g 3) A (Some (dm_p D)) qinv true W Cp Q1)|]. intros B (WB & B1 & B2 & _).
  rewrite En, Em, Hsz. unfold save_pnm. change ((3 - 1) * (3 - 2) * (3 - 3) =? 0) with true. cbn [assert_ bind orb]. rewrite orb_true_r. cbn [assert_ bind]. rewrite B1, B2, En, Em. cbv zeta.
  set (X := Z.min w m). set (Y := Z.min h n). apply outs_bind. eapply (outs_mono _ (fun u => X * Y <= len u)).
  { unfold pnm_counts, i32. destruct (_ && _); [|right; reflexivity]. cbn [bind]. apply outs_bind. apply (outs_mono _ (fun u => X * Y <= len u)).
    - destruct (Z_le_gt_dec (X * Y) 0) as [L|L]; [rewrite for_empty by lia; cbn [outs]; rewrite len_malloc; lia|]. apply sat_outs, init_spec; [lia|rewrite len_malloc; lia|]. intros u Lu _. cbn [sat]. lia.
    - intros u Lu. apply (outs_for (fun _ u => X * Y <= len u)); [lia|exact Lu| |auto]. intros i v Hi Lv. apply outs_bind. unfold cdiv at 1. destruct (Z.eqb_spec (cn B) 0); [lia|]. cbn [outs].
      assert (M0 : cm B = 0) by lia. pose proof (wf_row B WB i Hi) as R. pose proof (wf_len B WB). apply outs_bind, sat_outs, sat_aget; [lia|]. apply outs_bind, sat_outs, sat_aget; [lia|].
      assert (rend B i <= rbeg B i). { destruct (Z_lt_le_dec (rbeg B i) (rend B i)); [|auto]. pose proof (wf_col B WB (rbeg B i) ltac:(lia)). lia. }
      unfold rbeg, rend in *. rewrite for_empty by lia. exact Lv. }
  intros u Lu. apply outs_bind. apply (outs_mono _ (fun _ => True)).
  { destruct (Z_le_gt_dec (X * Y) 0) as [L|L]; [rewrite for_empty by lia; exact I|]. apply (outs_for (fun _ _ => True)); [lia|exact I| |auto]. intros j v Hj _. apply outs_bind, sat_outs, sat_aget; [lia|exact I]. }
  intros mx _. apply outs_bind. cbn [pnm_limits].
  assert (G : forall l k, len l = 5 -> 0 <= k < 5 -> aget l k = Ok (get l k)) by (intros l k Hl Hk; apply aget_ok; lia). rewrite !G by lia. cbn [bind]. rewrite B1, B2, En, Em.
  assert (CZ : forall a, cdiv a 0 = Fail Overflow) by reflexivity. assert (CN : forall a b, b <> 0 -> exists q, cdiv a b = Ok q) by (intros a b Hb; unfold cdiv; destruct (Z.eqb_spec b 0); [lia|eauto]).
  destruct (Z.eq_dec m 0) as [M0|M0]; [rewrite M0, CZ; cbn [bind outs]; right; reflexivity|]. assert (N0 : n = 0) by lia. rewrite N0.
  destruct (CN (get (dm_cc D) 2 * X) m M0) as (q1 & ->). destruct (CN (get (dm_cc D) 3 * X) m M0) as (q2 & ->). rewrite !CZ. cbn [bind outs]. right. reflexivity.
Qed.
Theorem dm_image_any gd level size : quiet 42013 f -> (forall n m, 0 < n -> 0 < m -> let '(w, h) := size n m in 0 < w /\ 0 < h /\ Z.min w m * Z.min h n < 2 ^ 31) ->
  outs (ntool_dm_image gs g most gd level size f) (fun f' => exists n m es, like_matrix f n m es /\ let N := rows 42013 n es in let M := cols 42013 m es in 0 < N /\ 0 < M /\
      let '(w, h) := size N M in exists A B P Q rr cc r c nb,
      holds 42013 N M es A /\ coarse A P Q rr cc /\ (get rr 1 < get rr 2 -> fine A P Q rr cc r c nb) /\
      wf B /\ cn B = N /\ cm B = M /\ (forall i j, 0 <= i < N -> 0 <= j < M -> stored B i j <-> stored A (get P i) (get Q j)) /\
      colour_picture B (Z.min w M) (Z.min h N) rr cc r c f')
    (fun e => refused e \/ e = OOB /\ minus_one (fun _ _ => false) f 42013).
Proof.
  intros Q Hs. unfold ntool_dm_image. apply outs_bind. eapply outs_imp; [apply (nload_matrix_holds gs g most f HB HL H0 HA Hmost (fun _ _ => false) 42013 None); [unfold ok_modulus; lia|exact Q|discriminate]| |intros e He; exact He].
  intros [A h0] (_ & n & m & es & L & HN & HM & H). cbv beta iota in H. specialize (Hs (rows 42013 n es) (cols 42013 m es)). destruct (size (rows 42013 n es) (cols 42013 m es)) as [w h] eqn:Es.
  destruct (Z_lt_le_dec 0 (rows 42013 n es)) as [N0|N0]; [destruct (Z_lt_le_dec 0 (cols 42013 m es)) as [M0|M0]|].
  2,3: eapply outs_imp; [apply (draw_empty gd level size _ _ es A w h H Es); lia|intros f' []|auto].
  destruct (Hs N0 M0) as (Hw0 & Hh0 & Hq). apply sat_outs. eapply sat_mono; [apply (dm_draw_ok g gd level size _ _ es A w h H Es); lia|]. intros f' (B & P & R). exists n, m, es. split; [exact L|]. cbv zeta. split; [exact N0|]. split; [exact M0|]. rewrite Es. exists A, B, P.
  destruct R as (Q' & rr & cc & r & c & nb & R). exists Q', rr, cc, r, c, nb. split; [exact H|exact R].
Qed.
End ANY.
