(** The pictures of matrices. *)
From Verif Require Import Base BaseFacts Spec SpecFacts SpecText SpecPnm Zp Mat MatFacts RowList Stdio IO Scc TextProofs Pnm.

(** ** Words *)
Lemma tokens_spaces s f ws : spaces s -> tokens f ws -> tokens (s ++ f) ws.
Proof.
  intros Hs H. destruct H as [s' H'|s' t c r ws H' Ht Hn Hc Hr]; [constructor; now apply Forall_app|].
  rewrite app_assoc. constructor; auto. now apply Forall_app.
Qed.
Lemma tokens_app f ws f' ws' : tokens f ws -> tokens f' ws' -> tokens (f ++ f') (ws ++ ws').
Proof.
  intros H H'. induction H as [s Hs|s t c r ws Hs Ht Hn Hc Hr IH]; [now apply tokens_spaces|].
  replace ((s ++ t ++ c :: r) ++ f') with (s ++ t ++ c :: (r ++ f')) by (rewrite <- !app_assoc; reflexivity). now constructor.
Qed.
Lemma tokens_one t c : t <> [] -> Forall (fun c => ~ is_space c) t -> is_space c -> tokens (t ++ [c]) [t].
Proof. intros. change (t ++ [c]) with ([] ++ t ++ c :: []). constructor; auto; [constructor|constructor; constructor]. Qed.
Lemma numeral_word s z : numeral s z -> s <> [] /\ Forall (fun c => ~ is_space c) s.
Proof.
  assert (D : forall d, Forall is_digit d -> Forall (fun c => ~ is_space c) d) by (intros d; apply Forall_impl; unfold is_digit, is_space; intros; lia).
  destruct 1; (split; [auto; discriminate|]); auto; constructor; auto; unfold is_space; lia.
Qed.
Lemma tokens_int z c : fits z -> is_space c -> exists t, tokens (print_int z ++ [c]) [t] /\ numeral t z.
Proof.
  intros Hz Hc. destruct (print_int_spec z Hz) as (N & _). exists (print_int z). split; [|auto]. destruct (numeral_word _ _ N). now apply tokens_one.
Qed.
Lemma space_NL : is_space NL.
Proof. unfold is_space, NL. lia. Qed.
Lemma space_SP : is_space SP.
Proof. unfold is_space, SP. lia. Qed.

(** ** Counting *)
Lemma cdiv_ok a b : 0 <= a -> 0 < b -> cdiv a b = Ok (a / b).
Proof. intros Ha Hb. unfold cdiv. replace (b =? 0) with false by lia. now rewrite Z.quot_div_nonneg. Qed.
Lemma scale_range a y n : 0 <= a < n -> 0 < y -> 0 <= a * y / n < y.
Proof. intros Ha Hy. split; [apply Z.div_pos; nia|apply Z.div_lt_upper_bound; nia]. Qed.
Lemma pixel_inj x i j i' j' : 0 <= j < x -> 0 <= j' < x -> i * x + j = i' * x + j' -> i = i' /\ j = j'.
Proof. intros. assert (i = i') by nia. nia. Qed.

Section counts.
Context (A : csr) (HA : wf A) (x y : Z).
Hypothesis Hx : 0 < cm A -> 0 < x. Hypothesis Hy : 0 < cn A -> 0 < y.
Hypothesis Hx0 : 0 <= x. Hypothesis Hy0 : 0 <= y. Hypothesis Hxy : x * y < 2 ^ 31.

Definition hit (i j a px : Z) : Z := if (a * y / cn A =? i) && (get (cj A) px * x / cm A =? j) then 1 else 0.
Lemma counts_ok g : sat (pnm_counts g A x y) (fun w => len w = x * y /\ forall i j, 0 <= i < y -> 0 <= j < x -> get w (i * x + j) = density A x y i j).
Proof.
  pose proof (wf_n A HA) as Hn. pose proof (wf_nnz A HA) as Hz. pose proof (wf_len A HA) as Hlp.
  unfold pnm_counts, i32. assert (0 <= x * y) by nia. replace (_ && _) with true by lia. cbn [bind].
  apply sat_bind. apply init_spec; [lia|rewrite len_malloc; lia|]. intros w0 L0 Z0.
  apply (for_spec (fun a w => len w = x * y /\ forall i j, 0 <= i < y -> 0 <= j < x ->
    get w (i * x + j) = sum 0 a (fun a => sum (rbeg A a) (rend A a) (hit i j a)))).
  - lia.
  - split; [auto|]. intros i j Hi Hj. rewrite Z0 by nia. now rewrite sum_empty by lia.
  - intros a w Ha (Lw & W). pose proof (wf_row A HA a Ha) as Hrow. specialize (Hy ltac:(lia)).
    rewrite cdiv_ok by nia. cbn [bind]. apply sat_bind, sat_aget; [lia|]. apply sat_bind, sat_aget; [lia|]. fold (rbeg A a) (rend A a).
    pose proof (scale_range a y (cn A) Ha Hy) as Hk. set (k := a * y / cn A) in *.
    apply (for_spec (fun px w => len w = x * y /\ forall i j, 0 <= i < y -> 0 <= j < x ->
      get w (i * x + j) = sum 0 a (fun a => sum (rbeg A a) (rend A a) (hit i j a)) + sum (rbeg A a) px (hit i j a))).
    + lia.
    + split; [auto|]. intros i j Hi Hj. rewrite W by auto. rewrite (sum_empty (rbeg A a)) by lia. lia.
    + intros px w1 Hpx (L1 & W1). pose proof (wf_col A HA px ltac:(lia)) as Hc. specialize (Hx ltac:(lia)).
      apply sat_bind, sat_aget; [lia|]. set (c := get (cj A) px) in *. rewrite cdiv_ok by nia. cbn [bind].
      pose proof (scale_range c x (cm A) Hc Hx) as Ht. set (t := c * x / cm A) in *.
      apply sat_bind, sat_aget; [nia|]. apply sat_aset; [nia|]. rewrite len_upd. split; [auto|]. intros i j Hi Hj.
      rewrite sum_S by lia. rewrite get_upd_in by nia. unfold hit at 3. fold k c t. destruct (Z.eqb_spec (k * x + t) (i * x + j)) as [E|E].
      * apply pixel_inj in E as [Ei Ej]; auto. rewrite W1 by auto. rewrite Ei, Ej, !Z.eqb_refl. cbn [andb]. lia.
      * rewrite W1 by auto. destruct (Z.eqb_spec k i) as [->|]; cbn [andb]; [|lia]. destruct (Z.eqb_spec t j) as [->|]; [congruence|lia].
    + intros w1 (L1 & W1). split; [auto|]. intros i j Hi Hj. rewrite W1 by auto. now rewrite sum_S by lia.
  - intros w (Lw & W). split; [auto|]. intros i j Hi Hj. rewrite W by auto. reflexivity.
Qed.
End counts.

Lemma density_nonneg A x y i j : 0 <= density A x y i j.
Proof. apply sum_nonneg. intros a _. apply sum_nonneg. intros px _. destruct (_ && _); lia. Qed.
Lemma density_covered A x y i j : 0 < density A x y i j <-> covered A x y i j.
Proof.
  split.
  - intros H. apply sum_pos_exists in H as (a & Ha & H). apply sum_pos_exists in H as (px & Hpx & H).
    exists a, (get (cj A) px). split; [auto|]. split; [exists px; auto|]. unfold drawn. destruct (Z.eqb_spec (a * y / cn A) i), (Z.eqb_spec (get (cj A) px * x / cm A) j); cbn [andb] in H; auto; lia.
  - intros (a & b & Ha & (px & Hpx & <-) & E1 & E2). apply (sum_pos _ _ _ a); auto.
    + apply (sum_pos _ _ _ px); auto; [rewrite E1, E2, !Z.eqb_refl; cbn; lia|]. intros; destruct (_ && _); lia.
    + intros. apply sum_nonneg. intros; destruct (_ && _); lia.
Qed.

(** ** The image *)
Section image.
Context (x y : Z) (Hx0 : 0 <= x) (Hy0 : 0 <= y).
Context (px : Z -> Z -> edges -> res (list Z * edges)) (E : Z -> edges -> Prop) (P : Z -> Z -> list Z -> Prop).
Hypothesis E_next : forall i e, E i e -> E (i + 1) e.
Hypothesis px_ok : forall i j e, 0 <= i < y -> 0 <= j < x -> E i e ->
  sat (px i j e) (fun '(s, e') => E i e' /\ exists l ws, P i j l /\ tokens s ws /\ Forall2 numeral ws l).

Lemma flat_map_ext_in {B} (f h : Z -> list B) l : (forall a, In a l -> f a = h a) -> flat_map f l = flat_map h l.
Proof. induction l as [|a l IH]; intros H; [reflexivity|]. cbn. rewrite H by now left. rewrite IH; [reflexivity|]. intros b Hb. apply H. now right. Qed.

Lemma image_ok f0 h0 e0 : tokens f0 h0 -> E 0 e0 ->
  sat (for_ 0 y (fun i s => for_ 0 x (fun j '(f, t, e) =>
      '(s, e) <- px i j e ;;
      Ok (f ++ s ++ (if Z.land t 31 =? 0 then [NL] else []), t + 1, e)) s) (f0, 0, e0))
   (fun '(f, _, _) => exists img ws, (forall i j, 0 <= i < y -> 0 <= j < x -> P i j (img i j)) /\ tokens f (h0 ++ ws) /\ Forall2 numeral ws (raster x y img)).
Proof.
  intros Hw He.
  set (Inv := fun i j '((f, t, e) : list Z * Z * edges) => E i e /\ exists (img : Z -> Z -> list Z) ws,
    (forall i' j', 0 <= i' < i -> 0 <= j' < x -> P i' j' (img i' j')) /\ (forall j', 0 <= j' < j -> P i j' (img i j')) /\ tokens f (h0 ++ ws) /\
    Forall2 numeral ws (raster x i img ++ flat_map (img i) (zseq 0 j))).
  apply (for_spec (fun i => Inv i 0)).
  - lia.
  - split; [auto|]. exists (fun _ _ => []), []. rewrite app_nil_r. split; [intros; lia|]. split; [intros; lia|]. split; [auto|]. constructor.
  - intros i s Hi HI. apply (for_spec (fun j => Inv i j)); [lia|auto| |].
    + intros j [[f t] e] Hj (H1 & img & ws & H2 & H2' & H3 & H4). apply sat_bind. eapply sat_mono; [apply (px_ok i j e Hi Hj H1)|].
      intros [s' e'] (G1 & l & ws' & G2 & G3 & G4). cbn [sat]. split; [auto|].
      set (img' := fun a b => if (a =? i) && (b =? j) then l else img a b).
      assert (I1 : forall a b, a <> i \/ b <> j -> img' a b = img a b) by (intros a b Hab; unfold img'; destruct (Z.eqb_spec a i), (Z.eqb_spec b j); cbn [andb]; auto; lia).
      assert (I2 : img' i j = l) by (unfold img'; now rewrite !Z.eqb_refl).
      exists img', (ws ++ ws'). split; [intros i' j' Hi' Hj'; rewrite I1 by lia; auto|]. split; [|split].
      * intros j' Hj'. destruct (Z.eq_dec j' j) as [->|]; [now rewrite I2|rewrite I1 by lia; apply H2'; lia].
      * rewrite (app_assoc h0), <- (app_nil_r ((h0 ++ ws) ++ ws')), (app_assoc f). apply tokens_app; [apply tokens_app; auto|]. constructor.
        destruct (_ =? 0); [constructor; [apply space_NL|constructor]|constructor].
      * rewrite zseq_S by lia. rewrite flat_map_app, app_assoc. cbn [flat_map]. rewrite app_nil_r, I2. apply Forall2_app; [|auto].
        replace (raster x i img' ++ flat_map (img' i) (zseq 0 j)) with (raster x i img ++ flat_map (img i) (zseq 0 j)); [auto|]. f_equal.
        -- apply flat_map_ext_in. intros a Ha. apply In_zseq in Ha. apply flat_map_ext_in. intros b _. rewrite I1 by lia. reflexivity.
        -- apply flat_map_ext_in. intros b Hb. apply In_zseq in Hb. rewrite I1 by lia. reflexivity.
    + intros [[f t] e] (H1 & img & ws & H2 & H2' & H3 & H4). split; [auto|]. exists img, ws. split.
      { intros i' j' Hi' Hj'. destruct (Z.eq_dec i' i) as [->|]; [auto|apply H2; lia]. }
      split; [intros; lia|]. split; [auto|]. rewrite (zseq_empty 0 0) by lia. cbn [flat_map]. rewrite app_nil_r.
      unfold raster in *. rewrite zseq_S by lia. rewrite flat_map_app. cbn [flat_map]. now rewrite app_nil_r.
  - intros [[f t] e] (H1 & img & ws & H2 & _ & H3 & H4). exists img, ws. split; [auto|]. split; [auto|].
    rewrite (zseq_empty 0 0) in H4 by lia. cbn [flat_map] in H4. now rewrite app_nil_r in H4.
Qed.
End image.

Lemma raster_ext x y a b : (forall i j, 0 <= i < y -> 0 <= j < x -> a i j = b i j) -> raster x y a = raster x y b.
Proof. intros H. apply flat_map_ext_in. intros i Hi. apply In_zseq in Hi. apply flat_map_ext_in. intros j Hj. apply In_zseq in Hj. auto. Qed.

(** ** The header *)
Lemma header_ok magic x y : 0 <= magic <= 9 -> fits x -> fits y -> exists a b,
  tokens (80 :: print_int magic ++ [NL] ++ print_int x ++ [SP] ++ print_int y ++ [NL] ++ (if 1 <? magic then print_int 255 ++ [NL] else [])) ([80; 48 + magic] :: a ++ b) /\
  Forall2 numeral a [x; y] /\ Forall2 numeral b (if 1 <? magic then [255] else []).
Proof.
  intros Hm Fx Fy. destruct (tokens_int x SP Fx space_SP) as (tx & T1 & N1). destruct (tokens_int y NL Fy space_NL) as (ty & T2 & N2).
  assert (Em : print_int magic = [48 + magic]) by (assert (H : magic = 0 \/ magic = 1 \/ magic = 2 \/ magic = 3 \/ magic = 4 \/ magic = 5 \/ magic = 6 \/ magic = 7 \/ magic = 8 \/ magic = 9) by lia; repeat destruct H as [->|H]; try reflexivity; subst; reflexivity).
  rewrite Em. assert (T0 : tokens ([80; 48 + magic] ++ [NL]) [[80; 48 + magic]]) by (apply tokens_one; [discriminate|repeat constructor; unfold is_space; lia|apply space_NL]).
  assert (B : exists b, tokens (if 1 <? magic then print_int 255 ++ [NL] else []) b /\ Forall2 numeral b (if 1 <? magic then [255] else [])).
  { destruct (1 <? magic); [|exists []; split; repeat constructor]. destruct (tokens_int 255 NL ltac:(unfold fits; lia) space_NL) as (t & T & N). exists [t]. split; [auto|repeat constructor; auto]. }
  destruct B as (b & B1 & B2). exists [tx; ty], b. split; [|split; [repeat constructor; auto|auto]].
  pose proof (tokens_app _ _ _ _ T0 (tokens_app _ _ _ _ T1 (tokens_app _ _ _ _ T2 B1))) as T. cbn [app] in T |- *. rewrite <- !app_assoc in T. cbn [app] in T. exact T.
Qed.

(** ** Black and white, gray levels *)
Lemma numeral_fits_range z : 0 <= z < 2 ^ 31 -> fits z.
Proof. unfold fits. lia. Qed.

Section modes.
Context (A : csr) (HA : wf A) (x y : Z).
Hypothesis Hx0 : 0 <= x. Hypothesis Hy0 : 0 <= y. Hypothesis Hx : 0 < cm A -> 0 < x. Hypothesis Hy : 0 < cn A -> 0 < y.
Notation X := (Z.min x (cm A)). Notation Y := (Z.min y (cn A)).
Hypothesis HX : X < 2 ^ 31. Hypothesis HY : Y < 2 ^ 31. Hypothesis HXY : X * Y < 2 ^ 31.

Lemma max_ok w : len w = X * Y -> sat (for_ 0 (X * Y) (fun j max => v <- aget w j ;; Ok (Z.max max v)) 0)
  (fun M => 0 <= M /\ (forall k, 0 <= k < X * Y -> get w k <= M) /\ (M = 0 \/ exists k, 0 <= k < X * Y /\ get w k = M)).
Proof.
  intros L. pose proof (wf_n A HA). pose proof (wf_m A HA).
  apply (for_spec (fun j M => 0 <= M /\ (forall k, 0 <= k < j -> get w k <= M) /\ (M = 0 \/ exists k, 0 <= k < j /\ get w k = M))).
  - nia.
  - split; [lia|]. split; [lia|auto].
  - intros j M Hj (H1 & H2 & H3). apply sat_bind, sat_aget; [lia|]. cbn [sat]. split; [lia|]. split.
    + intros k Hk. destruct (Z.eq_dec k j) as [->|]; [lia|]. specialize (H2 k ltac:(lia)). lia.
    + destruct (Z.max_spec M (get w j)) as [[? ->]|[? ->]]; [right; exists j; split; [lia|auto]|].
      destruct H3 as [->|(k & Hk & E)]; [now left|]. right. exists k. split; [lia|auto].
  - auto.
Qed.

Theorem save_pbm_ok g level : sat (save_pnm g level A x y 1 None) (bw_picture A X Y).
Proof.
  pose proof (wf_n A HA) as Hn. pose proof (wf_m A HA) as Hm.
  unfold save_pnm. change ((1 - 1) * (1 - 2) * (1 - 3) =? 0) with true. change (negb (1 =? 3)) with true. cbn [assert_ bind orb].
  apply sat_bind. eapply sat_mono; [apply counts_ok; auto; lia|]. intros w (Lw & W).
  apply sat_bind. eapply sat_mono; [apply max_ok; auto; lia|]. intros M _. cbn [pnm_limits bind].
  destruct (header_ok 1 X Y ltac:(lia) ltac:(apply numeral_fits_range; lia) ltac:(apply numeral_fits_range; lia)) as (a & b & T & N1 & N2).
  cbn [Z.ltb Z.compare Pos.compare Pos.compare_cont] in N2. inversion N2; subst b. rewrite (app_nil_r a) in T. change (1 <? 1) with false in T. cbv iota in T.
  apply sat_bind. eapply sat_mono; [apply (image_ok X Y ltac:(lia) ltac:(lia) _ (fun _ _ => True)
    (fun i j l => exists t, l = [t] /\ (t = 1 /\ covered A X Y i j \/ t = 0 /\ ~ covered A X Y i j))); [auto| |exact T|exact I]|].
  - intros i j e Hi Hj _. unfold pnm_pixel. apply sat_bind, sat_aget; [nia|]. cbn [Z.eqb Pos.eqb]. cbn [sat]. split; [auto|].
    rewrite W by auto. pose proof (density_covered A X Y i j) as DC. pose proof (density_nonneg A X Y i j) as DN.
    set (t := if 0 <? density A X Y i j then 1 else 0). destruct (tokens_int t SP) as (s & T1 & N3); [unfold fits; clear; subst t; destruct (0 <? _); lia|apply space_SP|].
    exists [t], [s]. split; [|split; [auto|repeat constructor; auto]]. exists t. split; [auto|]. unfold t. destruct (Z.ltb_spec 0 (density A X Y i j)); [left|right]; split; auto; [tauto|intros C; apply DC in C; lia].
  - intros [[f t] e] (img & ws & P & Tf & Nf). cbn [sat]. exists (fun i j => hd 0 (img i j)). split.
    + exists (a ++ ws). split; [exact Tf|]. apply (Forall2_app (l1 := a) (l1' := [X; Y])); [auto|].
      rewrite (raster_ext _ _ _ img); [auto|]. intros i j Hi Hj. destruct (P i j Hi Hj) as (? & -> & _). reflexivity.
    + intros i j Hi Hj. destruct (P i j Hi Hj) as (t' & -> & Ht). exact Ht.
Qed.

Lemma some_density a b : 0 <= a < cn A -> stored A a b -> exists i j, 0 <= i < Y /\ 0 <= j < X /\ 0 < density A X Y i j.
Proof.
  intros Ha S. pose proof S as (px & Hp & Eb). pose proof (wf_row A HA a Ha). pose proof (wf_col A HA px ltac:(lia)).
  exists (a * Y / cn A), (b * X / cm A). split; [apply scale_range; lia|]. split; [apply scale_range; lia|]. apply density_covered. exists a, b. unfold drawn. auto.
Qed.

Theorem save_pgm_ok g level a0 b0 : 0 <= a0 < cn A -> stored A a0 b0 -> (forall c M, 0 <= c <= M -> 0 < M -> 0 <= level c M <= 255) ->
  sat (save_pnm g level A x y 2 None) (gray_picture level A X Y).
Proof.
  intros Ha0 Hs Hl. pose proof (wf_n A HA) as Hn. pose proof (wf_m A HA) as Hm.
  unfold save_pnm. change ((2 - 1) * (2 - 2) * (2 - 3) =? 0) with true. change (negb (2 =? 3)) with true. cbn [assert_ bind orb].
  apply sat_bind. eapply sat_mono; [apply counts_ok; auto; lia|]. intros w (Lw & W).
  apply sat_bind. eapply sat_mono; [apply max_ok; auto; lia|]. intros M (M1 & M2 & M3). cbn [pnm_limits bind].
  destruct (some_density a0 b0 Ha0 Hs) as (i0 & j0 & Hi0 & Hj0 & D0). assert (HM : 0 < M) by (specialize (M2 (i0 * X + j0) ltac:(nia)); rewrite W in M2; auto; lia).
  destruct (header_ok 2 X Y ltac:(lia) ltac:(apply numeral_fits_range; lia) ltac:(apply numeral_fits_range; lia)) as (a & b & T & N1 & N2).
  change (1 <? 2) with true in *. cbv iota in T, N2.
  apply sat_bind. eapply sat_mono; [apply (image_ok X Y ltac:(lia) ltac:(lia) _ (fun _ _ => True)
    (fun i j l => l = [level (density A X Y i j) M])); [auto| |exact T|exact I]|].
  - intros i j e Hi Hj _. unfold pnm_pixel. apply sat_bind, sat_aget; [nia|]. cbn [Z.eqb Pos.eqb]. replace (negb (M =? 0)) with true by lia. cbn [assert_ bind sat]. split; [auto|].
    rewrite W by auto. pose proof (density_nonneg A X Y i j) as DN. specialize (M2 (i * X + j) ltac:(nia)). rewrite W in M2 by auto.
    destruct (tokens_int (level (density A X Y i j) M) SP) as (s & T1 & N3); [specialize (Hl (density A X Y i j) M ltac:(lia) HM); unfold fits; lia|apply space_SP|].
    eexists [_], [s]. split; [reflexivity|]. split; [auto|repeat constructor; auto].
  - intros [[f t] e] (img & ws & P & Tf & Nf). cbn [sat]. exists M. split; [|split; [auto|]].
    + split; [intros i j Hi Hj; rewrite <- W by auto; apply M2; nia|]. destruct M3 as [->|(k & Hk & E)]; [lia|]. exists (k / X), (k mod X).
      assert (0 < X) by lia. pose proof (Z.div_mod k X ltac:(lia)). pose proof (Z.mod_pos_bound k X ltac:(lia)).
      assert (0 <= k / X < Y) by (split; [apply Z.div_pos; lia|apply Z.div_lt_upper_bound; lia]). split; [auto|]. split; [auto|]. rewrite <- W by auto. now replace (k / X * X + k mod X) with k by lia.
    + exists (a ++ b ++ ws). change (([80; 48 + 2] :: (a ++ b)) ++ ws) with ([80; 48 + 2] :: ((a ++ b) ++ ws)) in Tf. rewrite <- app_assoc in Tf. split; [exact Tf|]. apply (Forall2_app (l1 := a) (l1' := [X; Y])); [auto|]. apply (Forall2_app (l1 := b) (l1' := [255])); [auto|].
      rewrite (raster_ext _ _ _ img); [auto|]. intros i j Hi Hj. symmetry. auto.
Qed.
End modes.

(** ** Colours *)
Lemma edge_ok b y n : 0 <= b -> 0 <= y -> 0 < n -> cdiv (b * y) n = Ok (edge_at b y n).
Proof. intros. apply cdiv_ok; [nia|auto]. Qed.
Lemma edge_mono a b y n : 0 <= y -> 0 < n -> a <= b -> edge_at a y n <= edge_at b y n.
Proof. intros. apply Z.div_le_mono; nia. Qed.
Definition red (z : Z) := Z.land (Z.shiftr z 16) 255.
Definition green (z : Z) := Z.land (Z.shiftr z 8) 255.
Definition blue (z : Z) := Z.land z 255.
Definition split (z : Z) : Z * Z * Z := (red z, green z, blue z).
Lemma part_range a b i : part a b i = 0 \/ part a b i = 1 \/ part a b i = 2.
Proof. unfold part. destruct (_ <? _); [|destruct (_ <? _)]; auto. Qed.
Lemma bgcolor_ok v h : (v = 0 \/ v = 1 \/ v = 2) -> (h = 0 \/ h = 1 \/ h = 2) -> split (bgcolor v h) = background v h.
Proof. intros [->|[->| ->]] [->|[->| ->]]; reflexivity. Qed.
Lemma byte_fits z : fits (Z.land z 255).
Proof. change 255 with (Z.ones 8). rewrite Z.land_ones by lia. pose proof (Z.mod_pos_bound z (2 ^ 8) ltac:(lia)). unfold fits. lia. Qed.
Lemma rgb_tokens z : exists ws, tokens (print_int (red z) ++ [SP] ++ print_int (green z) ++ [SP] ++ print_int (blue z) ++ [SP]) ws /\ Forall2 numeral ws [red z; green z; blue z].
Proof.
  destruct (tokens_int (red z) SP (byte_fits _) space_SP) as (t1 & T1 & N1). destruct (tokens_int (green z) SP (byte_fits _) space_SP) as (t2 & T2 & N2).
  destruct (tokens_int (blue z) SP (byte_fits _) space_SP) as (t3 & T3 & N3). exists ([t1] ++ [t2] ++ [t3]). split; [|repeat constructor; auto].
  pose proof (tokens_app _ _ _ _ T1 (tokens_app _ _ _ _ T2 T3)) as T. rewrite <- !app_assoc in T. exact T.
Qed.

Section colours.
Context (A : csr) (HA : wf A) (x y : Z) (D : dm) (Hx : 0 < x) (Hy : 0 < y) (Hn : 0 < cn A) (Hm : 0 < cm A).
Notation n := (cn A). Notation m := (cm A). Notation rr := (dm_rr D). Notation cc := (dm_cc D). Notation r := (dm_r D). Notation c := (dm_c D). Notation nb := (dm_nb D).
Notation X := (Z.min x m). Notation Y := (Z.min y n).
Notation ev b := (edge_at b Y n). Notation eh b := (edge_at b X m).
Hypothesis HX : X < 2 ^ 31. Hypothesis HY : Y < 2 ^ 31. Hypothesis HXY : X * Y < 2 ^ 31.
Hypothesis Lrr : len rr = 5. Hypothesis Lcc : len cc = 5.
Hypothesis Hrr : 0 <= get rr 1 <= get rr 2. Hypothesis Hcc : 0 <= get cc 2 <= get cc 3.
(* the blocks of the square part *)
Hypothesis Hb : get rr 1 < get rr 2 -> 3 <= nb /\ nb < len r /\ nb < len c /\ get r 0 = 0 /\ get c 0 = 0 /\ get r (nb - 1) = get rr 2 /\
  (forall t, 1 <= t < nb -> 0 <= get r t) /\ forall t, 1 <= t < nb -> 0 <= get c t.

Definition lim : limits := Limits (ev (get rr 1)) (ev (get rr 2)) (eh (get cc 2)) (eh (get cc 3)) r c.
Lemma limits_ok : pnm_limits A X Y (Some D) = Ok lim.
Proof.
  cbn [pnm_limits]. assert (G : forall l k, len l = 5 -> 0 <= k < 5 -> aget l k = Ok (get l k)) by (intros l k Hl Hk; apply aget_ok; lia).
  rewrite !G by lia. cbn [bind]. rewrite !edge_ok by lia. reflexivity.
Qed.

Definition scc_inv (i : Z) (e : edges) : Prop := get rr 1 < get rr 2 ->
  let '(scc, le, ri, bo) := e in 0 <= scc <= nb - 1 /\ ri = eh (get c scc) /\ bo = ev (get r scc) /\ (1 <= scc -> le = eh (get c (scc - 1))) /\
    forall u, 1 <= u < scc -> ev (get r u) <= i.
Lemma scc_inv_next i e : scc_inv i e -> scc_inv (i + 1) e.
Proof.
  destruct e as [[[scc le] ri] bo]. intros H Hl. destruct (H Hl) as (H1 & H2 & H3 & H4 & H5). do 4 (split; [auto|]). intros u Hu. specialize (H5 u Hu). lia.
Qed.
Lemma scc_inv_0 : scc_inv 0 (0, 0, 0, 0).
Proof.
  intros Hl. destruct (Hb Hl) as (B1 & _ & _ & B2 & B3 & _). rewrite B2, B3. change (eh 0) with (0 * X / m). change (ev 0) with (0 * Y / n). rewrite !Z.mul_0_l, !Z.div_0_l by lia.
  repeat split; lia.
Qed.
Lemma next_scc_ok i e : 0 <= i -> i < ev (get rr 2) -> get rr 1 < get rr 2 -> scc_inv i e ->
  sat (next_scc A X Y lim i e) (fun '(scc, le, ri, bo) => scc_inv i (scc, le, ri, bo) /\ 1 <= scc /\ i < bo).
Proof.
  intros Hi Hv Hl He. destruct (Hb Hl) as (B1 & B2 & B3 & B4 & B5 & B6 & B7 & B8). unfold next_scc. cbn [l_r l_c lim].
  apply (loop_spec (fun '(scc, le, ri, bo) => scc_inv i (scc, le, ri, bo)) (fun '(scc, _, _, _) => nb - 1 - scc)).
  - intros [[[scc le] ri] bo] I. pose proof (I Hl) as (H1 & H2 & H3 & H4 & H5). destruct (Z.leb_spec bo i) as [Hbo|Hbo].
    + assert (Hs : scc < nb - 1) by (destruct (Z.eq_dec scc (nb - 1)) as [->|]; [rewrite B6 in H3; lia|lia]).
      apply sat_bind, sat_aget; [lia|]. rewrite edge_ok by (try apply B8; lia). cbn [bind]. apply sat_bind, sat_aget; [lia|]. rewrite edge_ok by (try apply B7; lia). cbn [bind sat].
      split; [|lia]. intros _. split; [lia|]. split; [auto|]. split; [auto|]. split; [intros _; now replace (scc + 1 - 1) with scc by lia|].
      intros u Hu. destruct (Z.eq_dec u scc) as [->|]; [lia|apply H5; lia].
    + cbn [sat]. split; [exact I|]. split; [|lia]. destruct (Z.eq_dec scc 0) as [->|]; [|lia]. exfalso. rewrite B4 in H3. unfold edge_at in H3. rewrite Z.mul_0_l, Z.div_0_l in H3 by lia. lia.
  - destruct e as [[[scc le] ri] bo]. exact He.
  - destruct e as [[[scc le] ri] bo]. destruct (He Hl) as (H1 & _). unfold len in B2. lia.
Qed.

Lemma colour_ok w i j e : len w = X * Y -> (forall i j, 0 <= i < Y -> 0 <= j < X -> get w (i * X + j) = density A X Y i j) -> 0 <= i < Y -> 0 <= j < X -> scc_inv i e ->
  sat (pnm_colour A X Y lim i j (density A X Y i j) e) (fun '(s, e') => scc_inv i e' /\
    exists l ws, (covered A X Y i j /\ l = [0; 0; 0] \/ ~ covered A X Y i j /\ exists R G B, colour n m X Y rr cc r c i j (R, G, B) /\ l = [R; G; B]) /\ tokens s ws /\ Forall2 numeral ws l).
Proof.
  intros Lw W Hi Hj He. unfold pnm_colour. cbn [lv0 lv1 lh0 lh1 lim].
  set (v := if ev (get rr 1) <=? i then _ else _). set (h := if eh (get cc 2) <=? j then _ else _).
  assert (Ev : v = part (ev (get rr 1)) (ev (get rr 2)) i) by (unfold v, part; destruct (Z.leb_spec (ev (get rr 1)) i), (Z.ltb_spec i (ev (get rr 1))); lia).
  assert (Eh : h = part (eh (get cc 2)) (eh (get cc 3)) j) by (unfold h, part; destruct (Z.leb_spec (eh (get cc 2)) j), (Z.ltb_spec j (eh (get cc 2))); lia).
  clearbody v h. pose proof (part_range (ev (get rr 1)) (ev (get rr 2)) i) as Rv. pose proof (part_range (eh (get cc 2)) (eh (get cc 3)) j) as Rh. rewrite <- Ev in Rv. rewrite <- Eh in Rh.
  (* the background *)
  apply sat_bind. assert (BG : sat (if (h =? 1) && (v =? 1) then
      e <- next_scc A X Y lim i e ;;
      let '(_, le, ri, _) := e in
      Ok (if j <? le then 16777215 else if j <? ri then bgcolor v h + 13158 else bgcolor v h, e)
    else Ok (bgcolor v h, e)) (fun '(bg, e') => scc_inv i e' /\ colour n m X Y rr cc r c i j (split bg))).
  { unfold colour. rewrite <- Ev, <- Eh. rewrite andb_comm. destruct (Z.eqb_spec v 1) as [V1|V1]; cbn [andb]; [destruct (Z.eqb_spec h 1) as [H1|H1]|]; cbn [andb].
    - assert (Hv : ev (get rr 1) <= i < ev (get rr 2)) by (rewrite V1 in Ev; unfold part in Ev; destruct (Z.ltb_spec i (ev (get rr 1))); [lia|]; destruct (Z.ltb_spec i (ev (get rr 2))); lia).
      assert (Hl : get rr 1 < get rr 2) by (destruct (Z.eq_dec (get rr 1) (get rr 2)) as [E|]; [rewrite E in Hv; lia|lia]).
      apply sat_bind. eapply sat_mono; [apply (next_scc_ok i e); auto; lia|]. intros [[[scc le] ri] bo] (I & S1 & S2). cbn [sat]. split; [exact I|].
      destruct (I Hl) as (J1 & J2 & J3 & J4 & J5). exists scc. split; [auto|]. split; [lia|]. split; [auto|]. rewrite <- J2, <- (J4 S1). rewrite V1, H1. unfold part.
      destruct (j <? le); [reflexivity|]. destruct (j <? ri); reflexivity.
    - cbn [sat]. split; [auto|]. now apply bgcolor_ok.
    - cbn [sat]. split; [auto|]. now apply bgcolor_ok. }
  eapply sat_mono; [exact BG|]. intros [bg e'] (I & Cb). cbn [sat]. split; [exact I|].
  set (pixel := if 0 <? density A X Y i j then 0 else bg). destruct (rgb_tokens pixel) as (ws & T & N). exists [red pixel; green pixel; blue pixel], ws. split; [|split; [exact T|exact N]].
  pose proof (density_covered A X Y i j) as DC. unfold pixel. destruct (Z.ltb_spec 0 (density A X Y i j)) as [P|P].
  - left. split; [tauto|reflexivity].
  - right. split; [intros Q; apply DC in Q; lia|]. exists (red bg), (green bg), (blue bg). split; [exact Cb|reflexivity].
Qed.

Theorem save_ppm_ok g level : sat (save_pnm g level A x y 3 (Some D)) (colour_picture A X Y rr cc r c).
Proof.
  unfold save_pnm. change ((3 - 1) * (3 - 2) * (3 - 3) =? 0) with true. cbn [assert_ bind orb]. rewrite orb_true_r. cbn [assert_ bind].
  apply sat_bind. eapply sat_mono; [apply counts_ok; auto; lia|]. intros w (Lw & W).
  apply sat_bind. eapply sat_mono; [apply max_ok; auto; lia|]. intros M (M1 & M2 & M3). rewrite limits_ok. cbn [bind].
  destruct (header_ok 3 X Y ltac:(lia) ltac:(apply numeral_fits_range; lia) ltac:(apply numeral_fits_range; lia)) as (a & b & T & N1 & N2).
  change (1 <? 3) with true in *. cbv iota in T, N2.
  apply sat_bind. eapply sat_mono; [apply (image_ok X Y ltac:(lia) ltac:(lia) _ scc_inv
    (fun i j l => covered A X Y i j /\ l = [0; 0; 0] \/ ~ covered A X Y i j /\ exists R G B, colour n m X Y rr cc r c i j (R, G, B) /\ l = [R; G; B])); [exact scc_inv_next| |exact T|exact scc_inv_0]|].
  - intros i j e Hi Hj He. unfold pnm_pixel. apply sat_bind, sat_aget; [nia|]. change (3 =? 1) with false. change (3 =? 2) with false. cbv iota. rewrite W by auto. now apply (colour_ok w).
  - intros [[f t] e] (img & ws & P & Tf & Nf). cbn [sat]. exists img. split; [|exact P].
    exists (a ++ b ++ ws). change (([80; 48 + 3] :: (a ++ b)) ++ ws) with ([80; 48 + 3] :: ((a ++ b) ++ ws)) in Tf. rewrite <- app_assoc in Tf. split; [exact Tf|].
    apply (Forall2_app (l1 := a) (l1' := [X; Y])); [auto|]. apply (Forall2_app (l1 := b) (l1' := [255])); auto.
Qed.
End colours.
