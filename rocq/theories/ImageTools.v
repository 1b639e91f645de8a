(** The dimensions of the pictures of bitmap and dm, when a number of pixels is asked for. *)
From Coq Require Import String ZifyBool.
From Verif Require Import Base BaseFacts Spec SpecFacts SpecText SpecTools SpecMatch SpecDm SpecPnm Zp Mat MatFacts VecProofs DenseProofs4 CertProofs Stdio IO IOProofs Scc Dm ToolsProofs ToolsElim ToolsElimProofs Pnm PnmProofs PnmTools
  Options SpecOptions OptionsProofs OptTools ToolOptions SpecToolOptions ToolOptionsProofs ToolMains ZZp ImageSize ImageSizeProofs.
Local Open Scope Z_scope.

(* a picture without rows or without columns *)
Lemma outs_sat_false {T} (r : res T) e : outs r (fun _ => False) (fun e' => e' = e) -> r = Fail e.
Proof. destruct r; cbn; [contradiction|congruence]. Qed.
Lemma counts_oob g A x y a0 b0 : wf A -> 0 <= x -> 0 <= y -> x * y = 0 -> 0 <= a0 < cn A -> stored A a0 b0 -> pnm_counts g A x y = Fail OOB.
Proof.
  intros W Hx Hy E Ha (px0 & Hpx & _). pose proof (wf_n A W) as Hn. pose proof (wf_nnz A W) as Hz. pose proof (wf_len A W) as Hlp.
  apply outs_sat_false. unfold pnm_counts. rewrite E. change (i32 0) with (@Ok Z 0). cbn [bind]. change (malloc g 0) with (@nil Z). change (for_ 0 0 (fun (i : Z) (w : list Z) => aset w i 0) (@nil Z)) with (@Ok (list Z) nil). cbn [bind].
  apply (outs_for (fun a w => w = [] /\ a <= a0)).
  - lia.
  - split; [auto|lia].
  - intros a w Ha' (-> & La). pose proof (wf_row A W a Ha') as Hrow. rewrite cdiv_ok by nia. cbn [bind].
    apply outs_bind, sat_outs, sat_aget; [lia|]. apply outs_bind, sat_outs, sat_aget; [lia|]. fold (rbeg A a) (rend A a).
    apply (outs_for (fun px w => w = [] /\ px = rbeg A a)).
    + lia.
    + auto.
    + intros px w Hp (-> & ->). apply outs_bind, sat_outs, sat_aget; [lia|]. pose proof (wf_col A W (rbeg A a) ltac:(lia)) as Hc. rewrite cdiv_ok by nia. cbn [bind].
      assert (G : forall i, aget (@nil Z) i = Fail OOB) by (intros i; unfold aget, inb, len; cbn [List.length Z.of_nat]; now replace ((0 <=? i) && (i <? 0)) with false by lia).
      rewrite G. reflexivity.
    + intros w (-> & Er). split; [auto|]. destruct (Z.eq_dec a a0) as [->|]; [lia|lia].
  - intros w (-> & L). lia.
Qed.

Lemma min_prod w h m n c : 0 <= w -> 0 <= h -> 0 <= m -> 0 <= n -> w * h <= c -> Z.min w m * Z.min h n <= c.
Proof. intros. apply Z.le_trans with (w * h); [apply Z.mul_le_mono_nonneg; lia|lia]. Qed.

Section bitmap.
Context (gs : Z -> Z) (g : Z -> Z -> Z -> Z) (level : Z -> Z -> Z) (sgn : list Z -> Z) (size : option (list Z) -> Z -> Z -> Z * Z) (stdin : list Z) (cmd : list item) (n m k : Z) (es : list (Z * Z * Z)).
Hypothesis HI : ints [b_width; b_height] cmd.
Hypothesis HF : Forall (allowed b_opts) cmd.
Hypothesis HM : matrix_file stdin n m es.
Hypothesis NE : es <> [].
Hypothesis Hw : last_arg b_width cmd = None.
Hypothesis Hh : last_arg b_height cmd = None.
Hypothesis Hk : value b_mpixels cmd 1 k.
Hypothesis Hk2 : 1 <= k <= 2000.
Hypothesis Hs : forall a, last_arg b_mpixels cmd = Some a -> 0 < sgn a.
Hypothesis Hsize : image_size (d_of_int k) n m = Ok (size (last_arg b_mpixels cmd) n m).
Lemma dims_pos : 1 <= n < 2 ^ 31 /\ 1 <= m < 2 ^ 31.
Proof. destruct (file_dims stdin n m es HM) as [Hn Hm]. destruct HM as (_ & I & _). destruct es as [|[[a b] v] l]; [easy|]. inversion I as [|? ? I1 _]; subst. unfold inside in I1. lia. Qed.
Theorem bitmap_mpixels (gray : bool) : (gray = true <-> given b_gray cmd) -> (gray = true -> forall c M, 0 <= c <= M -> 0 < M -> 0 <= level c M <= 255) ->
  n < 1000000 * k * m -> m < 1000000 * k * n ->
  sat (main_bitmap gs g level sgn size stdin cmd) (fun x => exists w h f' A, x = Some f' /\ pattern_of n m es A /\
    w * h <= 1000000 * k <= (w + 1) * (h + 1) /\ 100 * Z.abs (w * n - h * m) <= 101 * Z.max n m /\ 0 < w /\ 0 < h /\
    if gray then gray_picture level A (Z.min w m) (Z.min h n) f' else bw_picture A (Z.min w m) (Z.min h n) f').
Proof.
  intros Hg Hl H1 H2. destruct dims_pos as [Bn Bm]. destruct (image_size_ok k n m Hk2 Bn Bm) as (w & h & E & P1 & P2 & P3 & P4 & P5 & P6 & _).
  specialize (P5 H1). specialize (P6 H2). rewrite Hsize in E. injection E as E.
  pose proof (min_prod w h m n 2000000000 P1 P2 ltac:(lia) ltac:(lia) ltac:(lia)) as MP.
  eapply sat_mono; [apply (main_bitmap_default gs g level sgn size stdin cmd n m w h es gray HI HF HM Hg)|].
  - auto.
  - exact Hw.
  - exact Hh.
  - intros a Ha. specialize (Hs a Ha). lia.
  - auto.
  - lia.
  - lia.
  - lia.
  - intros x (f' & A & -> & P & Q). exists w, h, f', A. split; [reflexivity|]. do 3 (split; [assumption|]). split; [lia|]. split; [lia|]. exact Q.
Qed.
Theorem bitmap_zero w h : size (last_arg b_mpixels cmd) n m = (w, h) -> 0 <= w -> 0 <= h -> w = 0 \/ h = 0 -> main_bitmap gs g level sgn size stdin cmd = Fail OOB.
Proof.
  intros E P1 P2 HT. destruct dims_pos as [Bn Bm]. assert (Z0 : Z.min w m * Z.min h n = 0) by (destruct HT; subst; lia).
  unfold main_bitmap. pose proof (parse_bitmap_ok cmd HI) as P. destruct (parse_bitmap cmd) as [[[[[w' h'] mpix] gray]|]|e]; [|contradiction|contradiction]. cbn [bind].
  destruct P as (_ & Q1 & Q2 & -> & Q4). unfold value in Q1, Q2. rewrite Hw in Q1. rewrite Hh in Q2. subst w' h'. unfold tool_bitmap.
  pose proof (load_pattern gs (g 0) (g 1) stdin n m es HM) as LP. destruct (triplet_load gs (g 0) stdin (-1) None) as [[T h0]|]; [|contradiction]. cbn [bind] in LP |- *.
  destruct (compress (g 1) T) as [A|]; [|contradiction]. cbn [bind sat] in LP |- *. destruct LP as (W & En & Em & D & S).
  assert (B : bitmap_size (size (last_arg b_mpixels cmd)) (match last_arg b_mpixels cmd with Some a => sgn a | None => -1 end) (-1) (-1) (cn A) (cm A) = Ok (Z.min w m, Z.min h n)).
  { rewrite En, Em. unfold bitmap_size. cbv zeta. destruct (last_arg b_mpixels cmd) as [a|] eqn:EL.
    - specialize (Hs a eq_refl). replace (0 <? sgn a) with true by lia. cbn [Z.ltb Z.compare orb andb]. replace (sgn a <? 0) with false by lia. cbn [andb]. replace (0 <? sgn a) with true by lia. cbn [andb]. rewrite E. replace (sgn a <? 0) with false by lia. reflexivity.
    - cbn [Z.ltb Z.compare orb andb]. rewrite E. reflexivity. }
  rewrite B. cbn [bind]. destruct HM as (_ & I & _). destruct es as [|[[a b] v] l]; [easy|]. inversion I as [|? ? I1 _]; subst. unfold inside in I1.
  assert (C : forall g, pnm_counts g A (Z.min (Z.min w (cm A)) (cm A)) (Z.min (Z.min h (cn A)) (cn A)) = Fail OOB).
  { intros g'. apply (counts_oob g' A _ _ (a - 1) (b - 1) W); [lia|lia|lia|lia|]. apply S; [lia|]. exists v. left. f_equal; f_equal; lia. }
  unfold save_pnm. cbv zeta. rewrite C. destruct gray; reflexivity.
Qed.
Theorem bitmap_thin : 1000000 * k * m < n \/ 1000000 * k * n < m -> main_bitmap gs g level sgn size stdin cmd = Fail OOB.
Proof.
  intros HT. destruct dims_pos as [Bn Bm]. destruct (image_size_ok k n m Hk2 Bn Bm) as (w & h & E & P1 & P2 & P3 & P4 & P5 & P6 & P7 & P8).
  rewrite Hsize in E. injection E as E. apply (bitmap_zero w h E P1 P2). destruct HT; auto.
Qed.
End bitmap.

Theorem dm_pixels gs g gd level size stdin cmd n m k es a : Forall (allowed d_opts) cmd -> matrix_file stdin n m es -> no_cancel 42013 es -> chosen cmd d_image -> last_arg d_image cmd = Some a -> numeral a k -> 1 <= k <= 2000 ->
  0 < n -> 0 < m -> image_size (d_of_int k) n m = Ok (size a n m) -> n < 1000000 * k * m -> m < 1000000 * k * n ->
  sat (main_dm gs g gd level size stdin cmd) (fun x => exists w h f' A B P Q rr cc r c nb, x = Some f' /\
    w * h <= 1000000 * k <= (w + 1) * (h + 1) /\ 100 * Z.abs (w * n - h * m) <= 101 * Z.max n m /\ 0 < w /\ 0 < h /\
    holds 42013 n m es A /\ coarse A P Q rr cc /\ (get rr 1 < get rr 2 -> fine A P Q rr cc r c nb) /\
    wf B /\ cn B = n /\ cm B = m /\ (forall i j, 0 <= i < n -> 0 <= j < m -> stored B i j <-> stored A (get P i) (get Q j)) /\
    colour_picture B (Z.min w m) (Z.min h n) rr cc r c f').
Proof.
  intros HF HM HN C La _ Hk Hn Hm E H1 H2. destruct (file_dims stdin n m es HM) as [Bn Bm].
  destruct (image_size_ok k n m Hk ltac:(lia) ltac:(lia)) as (w & h & E' & P1 & P2 & P3 & P4 & P5 & P6 & _). specialize (P5 H1). specialize (P6 H2). rewrite E in E'. injection E' as E'.
  eapply sat_mono; [apply (main_dm_image gs g gd level size stdin cmd n m es HF HM HN a w h C La); [auto|lia|lia|lia|lia|pose proof (min_prod w h m n 2000000000 P1 P2 ltac:(lia) ltac:(lia) ltac:(lia)); lia]|].
  intros x (f' & A & B & P & Q & rr & cc & r & c & nb & -> & H). exists w, h, f', A, B, P, Q, rr, cc, r, c, nb. split; [auto|]. split; [auto|]. split; [auto|]. split; [lia|]. split; [lia|exact H].
Qed.
