(** The tools that echelonize a matrix. *)
From Verif Require Import Base BaseFacts Spec SpecFacts SpecElim SpecRank SpecText SpecSha SpecTools Checks Zp VecProofs Mat MatFacts RowList CompressProofs TransposeProofs ParRows MatProofs ExtractProofs LinAlg ElimFacts EchInv MatchProofs TriProofs
  Stdio IO IOProofs IOSave IOHash Par Schur Dense Echelonize Rref RrefProofs KernelProofs DenseProofs DenseProofs4 EchProofs EchProofs2 EchFinal Rank RankT GpluProofs Gesv GesvProofs GesvNarrow PrngProofs SpecCert Cert CertCreate CertSound CertFact CertIO CertIOProofs SpecMatch SpecDm Scc Dm DmProofs DmMain Tools ToolsProofs ToolsElim.
From Coq Require Import Znumtheory.

(** ** Swapped entries *)
Lemma fentry_swapped es i j : fentry (swapped es) j i = fentry es i j.
Proof. induction es as [|[[a b] x] es IH]; [reflexivity|]. unfold swapped. cbn [map]. rewrite !fentry_cons. fold (swapped es). rewrite IH. now rewrite andb_comm. Qed.
Lemma no_cancel_swapped p es : no_cancel p es -> no_cancel p (swapped es).
Proof.
  intros H i j x I N. rewrite fentry_swapped. apply (H j i x); auto. apply in_map_iff in I as ([[a b] y] & E & I). injection E as <- <- <-. exact I.
Qed.
Lemma reloaded_transpose n m p es T : reloaded n m p (map from0 es) T -> reloaded m n p (map from0 (swapped es)) (triplet_transpose T).
Proof.
  intros (W & En & Em & Ep & Hv & TL). destruct W as (W1 & W2 & W3 & W4 & W5 & W6). split.
  - unfold twf, triplet_transpose. cbn [tn tm tnz ti tj tx]. split; [auto|]. split; [auto|]. split; [lia|]. split; [auto|]. split; [destruct (tx T); lia|]. intros k Hk. destruct (W6 k Hk). auto.
  - unfold triplet_transpose. cbn [tn tm tprime]. split; [auto|]. split; [auto|]. split; [auto|]. split; [exact Hv|].
    transitivity (map (fun '(i, j, x) => (j, i, x)) (tlist T)).
    + unfold tlist. rewrite map_map. reflexivity.
    + rewrite TL. clear. unfold swapped. induction es as [|[[a b] x] es IH]; [reflexivity|]. cbn [map flat_map from0]. rewrite !map_app, IH. f_equal. unfold keeps. destruct (negb _); [|reflexivity]. destruct (bal p x =? 0); reflexivity.
Qed.
Lemma load_matrix_calm gs g (flip : Z -> Z -> bool) f n m es p hash : ok_modulus p -> matrix_file f n m es -> (if flip n m then calm p m (swapped es) else calm p n es) -> (forall md, hash = Some md -> len md = 32) ->
  sat (load_matrix gs g flip f p hash) (fun '(A, h) => (if flip n m then holds p m n (swapped es) A else holds p n m es A) /\ h = option_map (fun _ => sha256 f) hash).
Proof.
  intros Hp F NC Hmd. unfold load_matrix. apply sat_bind. eapply sat_mono; [apply (load_file gs (g 0) f n m es p hash F Hmd)|]. intros [T h] (R & Eh).
  pose proof R as (_ & En & Em & _). rewrite En, Em. apply sat_bind. destruct (flip n m).
  - eapply sat_mono; [apply (compress_holds _ _ m n (swapped es) p Hp); [now apply reloaded_transpose|exact NC]|]. intros A HA. cbn [sat]. auto.
  - eapply sat_mono; [apply (compress_holds _ T n m es p Hp R NC)|]. intros A HA. cbn [sat]. auto.
Qed.
Lemma no_cancel_either p (b : bool) n m es : no_cancel p es -> if b then calm p m (swapped es) else calm p n es.
Proof. intros H. destruct b; [now apply no_cancel_calm, no_cancel_swapped|now apply no_cancel_calm]. Qed.
Lemma load_matrix_ok gs g flip f n m es p hash : ok_modulus p -> matrix_file f n m es -> no_cancel p es -> (forall md, hash = Some md -> len md = 32) ->
  sat (load_matrix gs g flip f p hash) (fun '(A, h) => (if flip n m then holds p m n (swapped es) A else holds p n m es A) /\ h = option_map (fun _ => sha256 f) hash).
Proof. intros Hp F NC. apply load_matrix_calm; auto. now apply no_cancel_either. Qed.

(** ** The matrix of a file *)
Lemma holds_mat p n m es A : holds p n m es A -> forall i j, 0 <= i < cn A -> 0 <= j < cm A -> cong p (entry A i j) (fmat es i j).
Proof. intros (_ & <- & <- & _ & _ & _ & _ & _ & H). exact H. Qed.
Lemma holds_rowsp p n m es A v : holds p n m es A -> in_rowspace p A v <-> rowsp p n m (fmat es) v.
Proof.
  intros H. pose proof (holds_mat _ _ _ _ _ H) as E. destruct H as (_ & En & Em & _). subst n m. split; intros (x & Hx); exists x; intros j Hj; rewrite <- (Hx j Hj); apply sum_cong; intros i Hi; apply cong_mul; try apply cong_refl.
  - symmetry. auto.
  - auto.
Qed.
Lemma holds_frank p n m es A r : holds p n m es A -> rank_is p A r <-> frank p n m (fmat es) r.
Proof.
  intros H. pose proof (holds_mat _ _ _ _ _ H) as E. destruct H as (_ & En & Em & _). subst n m. rewrite frank_rank. split; apply frank_ext; auto. intros i j Hi Hj. symmetry. auto.
Qed.
Lemma save_written A : wf A -> cn A < 2 ^ 31 -> cm A < 2 ^ 31 -> (forall px, 0 <= px < nnz A -> int64 (val A px)) ->
  exists f es, csr_save A = Ok f /\ written f (cn A) (cm A) es /\ (forall i j, 0 <= i < cn A -> fmat es i j = entry A i j) /\
    (forall p, cprime A = p -> reduced A -> no_zero A -> nodup_rows A -> clean p es).
Proof.
  intros W Hn Hm Hx. exists (file_of (cn A) (cm A) (clist A)), (map to1 (clist A)). split; [now apply csr_save_ok|]. pose proof (wf_n A W). pose proof (wf_m A W). pose proof (clist_writable A W Hx) as Hw.
  destruct (file_of_ok (cn A) (cm A) (clist A)) as (F1 & F2 & F3); auto; try lia. split; [split; [exact F1|split; [now apply inside_to1|exact F2]]|]. split.
  - intros i j Hi. unfold fmat. rewrite fentry_to1. now apply clist_tcoef.
  - intros p E R Z0 D. now apply clean_clist.
Qed.
Lemma rowsp_entry p U n m es v : cn U = n -> cm U = m -> (forall i j, 0 <= i < n -> fmat es i j = entry U i j) -> in_rowspace p U v <-> rowsp p n m (fmat es) v.
Proof.
  intros <- <- H. split; intros (x & Hx); exists x; intros j Hj; rewrite <- (Hx j Hj); apply sum_cong; intros i Hi; rewrite H by auto; apply cong_refl.
Qed.

(** ** Echelonization: every run is sound; it finds the whole row space under [full] *)
Definition good_opts X o : Prop := 0 < o_blk o /\ (wantsL o = false \/ o_complete o = true \/ o_dense o = false \/ one_round X o).
Definition finishes X o : Prop := o_dense o = true /\ always_dense X \/ o_GPLU o = true.
Definition full X o : Prop := low_rank o = false /\ (o_dense o = true /\ always_dense X \/ o_GPLU o = true /\ wantsL o = true).
(* the density computed when each column holds a pivot and rows remain *)
Definition nan_err o n m (e : err) : Prop := e = Overflow /\ 0 < o_rounds o /\ m < n.
Definition failures o n m (e : err) : Prop := low_rank o = true /\ (e = OutOfFuel \/ e = Overflow) \/ nan_err o n m e.

Lemma echelonize_holds X fuel o p n m es A : ok_modulus p -> prime p -> holds p n m es A -> params_ok X p m -> good_opts X o ->
  outs (echelonize X fuel o A) (fun f => echelon_of p A f /\ (forall r, rank_is p A r -> cn (lu_U f) <= r) /\
    (full X o -> forall i, 0 <= i < cn A -> in_rowspace p (lu_U f) (entry A i)) /\
    (wantsL o = true -> finishes X o -> exists L, factors p A f L)) (failures o n m).
Proof.
  intros Hp Pp H HX (B & O). pose proof H as (W & En & Em & Ep & R & Z0 & D & _ & E). subst n m.
  pose proof (echelonize_sound X fuel o A p Hp Pp W Ep R Z0 D HX B O) as S. pose proof (echelonize_rank X fuel o A p Hp Pp W Ep R Z0 D HX B O) as K.
  pose proof (echelonize_LU X fuel o A p Hp Pp W Ep R Z0 D HX B O) as LU.
  destruct (echelonize X fuel o A) as [f|e] eqn:Ef; cbn [outs] in *.
  - destruct S as (S1 & _ & S2). split; [exact S1|]. split; [exact S2|]. split.
    + intros (F1 & F2). destruct K as (pr & k & _ & _ & _ & K). apply K; [auto|]. destruct F2 as [F2|[F2 F3]]; auto.
    + intros HL Fi. destruct (LU HL) as (_ & L & _ & _ & G). exists L. auto.
  - destruct S as [?|(-> & ? & ? & _)]; [left; auto|right; split; auto].
Qed.

(** ** echelonize *)
Lemma pick_range (P : Z -> Z -> Prop) r : (forall k, 0 <= k < r -> exists j, P k j) -> exists f, forall k, 0 <= k < r -> P k (f k).
Proof.
  intros H. destruct (Z_lt_le_dec r 0) as [|Hr]; [exists (fun _ => 0); intros; lia|].
  assert (G : forall k, 0 <= k <= r -> exists f, forall i, 0 <= i < k -> P i (f i)); [|apply G; lia].
  apply (range_ind (fun k => exists f, forall i, 0 <= i < k -> P i (f i)) 0 r).
  - exists (fun _ => 0). intros; lia.
  - intros k Hk (f & Hf). destruct (H k Hk) as (j & Hj). exists (fun i => if i =? k then j else f i). intros i Hi. destruct (Z.eqb_spec i k) as [->|]; [auto|apply Hf; lia].
Qed.
Lemma upper_echelon p U q : wf U -> upper p U q -> exists piv, echelon_rows p (cm U) (cn U) (entry U) piv.
Proof.
  intros W [U1 U2 U3 U4 U5 U6]. destruct (pick_range (fun k j => 0 <= j < cm U /\ get q j = k) (cn U) U3) as (piv & Hpiv). exists piv. intros k Hk. destruct (Hpiv k Hk) as [P1 P2].
  split; [auto|]. split; [rewrite <- P2 at 1; apply U5; lia|]. intros l Hl. destruct (Hpiv l ltac:(lia)) as [Q1 Q2]. apply cong_eq.
  apply entry_absent. apply U6; lia.
Qed.

Lemma frank_of_echelon p n m es A f : holds p n m es A -> echelon_of p A f -> (forall i, 0 <= i < cn A -> in_rowspace p (lu_U f) (entry A i)) -> frank p n m (fmat es) (cn (lu_U f)).
Proof. intros H He Hs. apply (holds_frank p n m es A _ H). now apply echelon_rank. Qed.
Lemma reduced_int64 A p : ok_modulus p -> cprime A = p -> reduced A -> forall px, 0 <= px < nnz A -> int64 (val A px).
Proof. intros Hp E (_ & R) px Hx. apply (balanced_int64 p); [auto|]. rewrite <- E. auto. Qed.
Lemma upper_rows_le p n m es A f : holds p n m es A -> echelon_of p A f -> 0 <= cn (lu_U f) <= n /\ cm (lu_U f) = m.
Proof. intros (W & <- & <- & _) [W' _ _ E L _ _ _]. pose proof (wf_n _ W'). lia. Qed.

(* what follows the loading *)
Lemma echelonize_after (g : Z -> Z -> Z -> Z) X fuel o ch scr (use_rref : bool) n m es p A : ok_modulus p -> prime p -> 0 <= n < 2 ^ 31 -> 0 <= m < 2 ^ 31 -> holds p n m es A ->
  params_ok X p m -> good_opts X o -> (forall k t, 0 <= k -> scr_ok k (scr k t)) ->
  (use_rref = true -> forall r, 0 <= r <= Z.min n m -> r * (m - r + 1) < 2 ^ 31) ->
  outs (f <- echelonize X fuel o A ;;
    if use_rref then '(R, _) <- rref (g 2) ch (scr (cm A)) (lu_U f) (lu_qinv f) (malloc (g 3 0) (cm A)) ;; csr_save R else csr_save (lu_U f)) (fun f' => exists r es', written f' r m es' /\ (use_rref = true -> clean p es') /\
    (exists piv, if use_rref then reduced_rows p m r (fmat es') piv else echelon_rows p m r (fmat es') piv) /\
    (forall k, 0 <= k < r -> rowsp p n m (fmat es) (fmat es' k)) /\
    (full X o -> frank p n m (fmat es) r /\ forall i, 0 <= i < n -> rowsp p r m (fmat es') (fmat es i))) (failures o n m).
Proof.
  intros Hp Pp Hn Hm H HX HO Hscr Hbig.
  apply outs_bind. eapply outs_mono; [apply (echelonize_holds X fuel o p n m es A Hp Pp H HX HO)|]. intros lu (He & _ & Hfull & _). apply sat_outs.
  destruct (upper_rows_le _ _ _ _ _ _ H He) as [Hr Hm']. pose proof (holds_mat _ _ _ _ _ H) as HM. pose proof He as [W' R' P' _ _ Up First Rows]. pose proof H as (_ & En & Em & _).
  pose proof (upper_n_le_m p _ _ W' Up) as Hnm.
  assert (TR : forall v es', (forall j, 0 <= j < m -> cong p (v j) (es' j)) -> in_rowspace p A v -> rowsp p n m (fmat es) es').
  { intros v e Hv Hi. apply (holds_rowsp _ _ _ _ _ _ H) in Hi. destruct Hi as (x & Hx). exists x. intros j Hj. rewrite (Hx j Hj). auto. }
  destruct use_rref.
  - apply sat_bind. eapply sat_mono.
    { apply (rref_ok (g 2) ch (scr (cm A)) (lu_U lu) (lu_qinv lu) p); auto.
      - unfold ok_modulus in Hp; lia.
      - apply R'.
      - intros i _. rewrite Hm', <- Em. apply Hscr. lia.
      - rewrite len_malloc by lia. lia.
      - rewrite Hm'. apply Hbig; auto. lia. }
    intros [Rm q] (WR & R1 & R2 & R3 & R4 & R5 & R6 & RF & _ & R7 & R8). rewrite Hm' in R2.
    destruct (save_written Rm WR) as (f' & es' & Ef & Hw & Hent & Hcl); try lia. { apply (reduced_int64 _ p); auto. }
    rewrite Ef. cbn [sat]. exists (cn Rm), es'. rewrite R2 in Hw. split; [auto|]. split; [auto|]. split; [|split].
    + destruct RF as [Q1 Q2 Q3 Q4 Q5]. exists (fun k => get (cj Rm) (rbeg Rm k)). intros k Hk. destruct (Q2 k Hk) as [B1 B2].
      pose proof (wf_row Rm WR k Hk). pose proof (wf_col Rm WR (rbeg Rm k) ltac:(lia)). split; [lia|]. intros l Hl. rewrite Hent by auto.
      destruct (Z.eqb_spec k l) as [->|Hne].
      * rewrite (nodup_entry Rm l (rbeg Rm l)) by (auto; lia). apply Q4; auto.
      * apply cong_eq, entry_absent. intros (px & Hpx & Ej). destruct (Z.eq_dec px (rbeg Rm l)) as [->|].
        -- destruct (Q2 l Hl) as [_ B3]. rewrite Ej in B3. lia.
        -- pose proof (Q5 l px Hl ltac:(lia)) as B4. rewrite Ej in B4. lia.
    + intros k Hk. apply (TR (entry Rm k)). { intros j Hj. rewrite Hent by auto. apply cong_refl. }
      apply (in_rowspace_trans p (lu_U lu) A); [congruence|auto|apply R7; lia].
    + intros Hf. specialize (Hfull Hf). split. { rewrite R1. apply (frank_of_echelon p n m es A); auto. }
      intros i Hi. apply (rowsp_entry p Rm (cn Rm) m es'); auto.
      apply (in_rowspace_ext p Rm (entry A i)). { intros j Hj. apply HM; lia. }
      apply (in_rowspace_trans p (lu_U lu) Rm); [congruence|exact R8|apply Hfull; lia].
  - destruct (save_written (lu_U lu) W') as (f' & es' & Ef & Hw & Hent & _); try lia. { apply (reduced_int64 _ p); auto. }
    rewrite Ef. cbn [sat]. exists (cn (lu_U lu)), es'. rewrite Hm' in Hw. split; [auto|]. split; [discriminate|]. split; [|split].
    + destruct (upper_echelon p _ _ W' Up) as (piv & Hpiv). rewrite Hm' in Hpiv. exists piv. intros k Hk. destruct (Hpiv k Hk) as (P1 & P2 & P3). split; [auto|]. rewrite Hent by auto. split; [auto|]. intros l Hl. rewrite Hent by auto. auto.
    + intros k Hk. apply (TR (entry (lu_U lu) k)). { intros j Hj. rewrite Hent by auto. apply cong_refl. } auto.
    + intros Hf. specialize (Hfull Hf). split. { apply (frank_of_echelon p n m es A); auto. }
      intros i Hi. apply (rowsp_entry p (lu_U lu) (cn (lu_U lu)) m es'); auto. apply (in_rowspace_ext p _ (entry A i)). { intros j Hj. apply HM; lia. } apply Hfull. lia.
Qed.
Theorem tool_echelonize_calm gs g X fuel o ch scr use_rref f n m es p : ok_modulus p -> prime p -> matrix_file f n m es -> calm p n es ->
  params_ok X p m -> good_opts X o -> (forall k t, 0 <= k -> scr_ok k (scr k t)) ->
  (use_rref = true -> forall r, 0 <= r <= Z.min n m -> r * (m - r + 1) < 2 ^ 31) ->
  outs (tool_echelonize gs g X fuel o ch scr use_rref f p) (fun f' => exists r es', written f' r m es' /\ (use_rref = true -> clean p es') /\
    (exists piv, if use_rref then reduced_rows p m r (fmat es') piv else echelon_rows p m r (fmat es') piv) /\
    (forall k, 0 <= k < r -> rowsp p n m (fmat es) (fmat es' k)) /\
    (full X o -> frank p n m (fmat es) r /\ forall i, 0 <= i < n -> rowsp p r m (fmat es') (fmat es i))) (failures o n m).
Proof.
  intros Hp Pp F NC HX HO Hscr Hbig. destruct (file_dims f n m es F) as [Hn Hm]. unfold tool_echelonize. apply outs_bind, sat_outs.
  eapply sat_mono; [apply (load_matrix_calm gs g (fun _ _ => false) f n m es p None Hp F NC); discriminate|]. intros [A h] (H & _). now apply echelonize_after.
Qed.
Theorem tool_echelonize_ok gs g X fuel o ch scr use_rref f n m es p : ok_modulus p -> prime p -> matrix_file f n m es -> no_cancel p es ->
  params_ok X p m -> good_opts X o -> (forall k t, 0 <= k -> scr_ok k (scr k t)) ->
  (use_rref = true -> forall r, 0 <= r <= Z.min n m -> r * (m - r + 1) < 2 ^ 31) ->
  outs (tool_echelonize gs g X fuel o ch scr use_rref f p) (fun f' => exists r es', written f' r m es' /\ (use_rref = true -> clean p es') /\
    (exists piv, if use_rref then reduced_rows p m r (fmat es') piv else echelon_rows p m r (fmat es') piv) /\
    (forall k, 0 <= k < r -> rowsp p n m (fmat es) (fmat es' k)) /\
    (full X o -> frank p n m (fmat es) r /\ forall i, 0 <= i < n -> rowsp p r m (fmat es') (fmat es i))) (failures o n m).
Proof. intros Hp Pp F NC. apply tool_echelonize_calm; auto. now apply no_cancel_calm. Qed.

(** ** kernel *)
Lemma holds_flip p n m es A (b : bool) : (if b then holds p m n (swapped es) A else holds p n m es A) ->
  exists es', holds p (if b then m else n) (if b then n else m) es' A /\ forall i j, fmat es' i j = flipped b (fmat es) i j.
Proof. destruct b; intros H; [exists (swapped es)|exists es]; (split; [exact H|]); intros i j; [apply fentry_swapped|reflexivity]. Qed.
Lemma nullbasis_ext p n m M M' k K K' : (forall i j, 0 <= i < n -> 0 <= j < m -> cong p (M i j) (M' i j)) -> (forall t j, 0 <= t < k -> K t j = K' t j) ->
  nullbasis p n m M k K -> nullbasis p n m M' k K'.
Proof.
  intros HM HK (N1 & N2 & N3). split; [|split].
  - intros t i Ht Hi. eapply cong_trans; [|apply (N1 t i Ht Hi)]. apply sum_cong. intros j Hj. rewrite HK, (HM i j) by auto. apply cong_refl.
  - intros x Hx. apply N2. intros j Hj. eapply cong_trans; [|apply (Hx j Hj)]. apply cong_eq, sum_ext. intros t Ht. now rewrite HK.
  - intros v Hv. destruct (N3 v) as (x & Hx).
    + intros i Hi. eapply cong_trans; [|apply (Hv i Hi)]. apply sum_cong. intros j Hj. rewrite (HM i j) by auto. apply cong_refl.
    + exists x. intros j Hj. rewrite <- (Hx j Hj). apply cong_eq, sum_ext. intros t Ht. now rewrite HK.
Qed.
Lemma kernel_nullbasis p A K : kernel_basis p A K -> nullbasis p (cn A) (cm A) (entry A) (cn K) (entry K).
Proof.
  intros [K1 K2 K3 K4]. split; [|split].
  - intros t i Ht Hi. apply (K2 t Ht i Hi).
  - intros x Hx. apply K3. intros j Hj. apply Hx. lia.
  - intros v Hv. destruct (K4 v Hv) as (x & Hx). exists x. intros j Hj. apply Hx. lia.
Qed.

Lemma kernel_after (g : Z -> Z -> Z -> Z) X fuel o ch scr N M es1 mat p A : ok_modulus p -> prime p -> 0 <= N < 2 ^ 31 -> 0 <= M < 2 ^ 31 -> holds p N M es1 A -> (forall i j, fmat es1 i j = mat i j) ->
  params_ok X p M -> good_opts X o -> full X o -> (forall k t, 0 <= k -> scr_ok k (scr k t)) ->
  outs (f <- echelonize X fuel o A ;; K <- kernel (g 2) ch (scr (cn (lu_U f))) (lu_U f) (lu_qinv f) ;; csr_save K) (fun f' => exists k es', written f' k M es' /\ (3 <= p -> clean p es') /\
    frank p N M mat (M - k) /\ nullbasis p N M mat k (fmat es')) (nan_err o N M).
Proof.
  intros Hp Pp HN HN' H E1 HX HO HF Hscr.
  apply outs_bind. pose proof (echelonize_holds X fuel o p N M es1 A Hp Pp H HX HO) as S.
  destruct (echelonize X fuel o A) as [lu|e]; cbn [outs] in S |- *. 2:{ destruct S as [[S _]|S]; auto. destruct HF. congruence. }
  destruct S as (He & _ & Hfull & _). specialize (Hfull HF). apply sat_outs.
  destruct (upper_rows_le _ _ _ _ _ _ H He) as [Hr Hm']. pose proof (holds_mat _ _ _ _ _ H) as HM. pose proof He as [W' R' P' _ _ Up First Rows]. pose proof H as (W & En & Em & _).
  pose proof (upper_n_le_m p _ _ W' Up) as Hnm.
  apply sat_bind. eapply sat_mono.
  { apply (kernel_ok (g 2) ch (scr (cn (lu_U lu))) (lu_U lu) (lu_qinv lu) p); auto.
    - unfold ok_modulus in Hp; lia.
    - apply R'.
    - intros j _. apply Hscr. lia. }
  intros K (WK & K1 & K2 & K3 & K4 & K5 & K6 & K7 & K8). rewrite Hm' in K1, K2.
  destruct (save_written K WK) as (f' & es' & Ef & Hw & Hent & Hcl); try lia.
  { intros px Hpx. destruct (K5 px Hpx) as [->|B]; [unfold int64; lia|now apply (balanced_int64 p)]. }
  rewrite Ef. cbn [sat]. exists (cn K), es'. rewrite K2 in Hw. split; [auto|]. split; [auto|]. split.
  - rewrite K1. replace (M - (M - cn (lu_U lu))) with (cn (lu_U lu)) by ring. eapply frank_ext; [|apply (frank_of_echelon p N M es1 A); eauto]. intros i j _ _. rewrite E1. apply cong_refl.
  - assert (KB : kernel_basis p A K). { apply (kernel_transfer p A (lu_U lu)); auto. - congruence. - lia. }
    apply kernel_nullbasis in KB. rewrite En, Em in KB. eapply nullbasis_ext; [| |exact KB].
    + intros i j Hi Hj. rewrite HM, E1 by lia. apply cong_refl.
    + intros t j Ht. symmetry. apply Hent. auto.
Qed.
Theorem tool_kernel_calm gs g X fuel o ch scr (left : bool) f n m es p : ok_modulus p -> prime p -> matrix_file f n m es -> (if left then calm p m (swapped es) else calm p n es) ->
  let N := if left then m else n in let M := if left then n else m in
  params_ok X p M -> good_opts X o -> full X o -> (forall k t, 0 <= k -> scr_ok k (scr k t)) ->
  outs (tool_kernel gs g X fuel o ch scr left f p) (fun f' => exists k es', written f' k M es' /\ (3 <= p -> clean p es') /\
    frank p N M (flipped left (fmat es)) (M - k) /\ nullbasis p N M (flipped left (fmat es)) k (fmat es')) (nan_err o N M).
Proof.
  intros Hp Pp F NC N M HX HO HF Hscr. destruct (file_dims f n m es F) as [Hn Hm]. unfold tool_kernel. apply outs_bind, sat_outs.
  eapply sat_mono; [apply (load_matrix_calm gs g (fun _ _ => left) f n m es p None Hp F NC); discriminate|]. intros [A h] (H0 & _).
  destruct (holds_flip p n m es A left H0) as (es1 & H & E1). fold N M in H. apply (kernel_after g X fuel o ch scr N M es1 _ p A); auto; unfold N, M; now destruct left.
Qed.
Theorem tool_kernel_ok gs g X fuel o ch scr (left : bool) f n m es p : ok_modulus p -> prime p -> matrix_file f n m es -> no_cancel p es ->
  let N := if left then m else n in let M := if left then n else m in
  params_ok X p M -> good_opts X o -> full X o -> (forall k t, 0 <= k -> scr_ok k (scr k t)) ->
  outs (tool_kernel gs g X fuel o ch scr left f p) (fun f' => exists k es', written f' k M es' /\ (3 <= p -> clean p es') /\
    frank p N M (flipped left (fmat es)) (M - k) /\ nullbasis p N M (flipped left (fmat es)) k (fmat es')) (nan_err o N M).
Proof. intros Hp Pp F NC. apply tool_kernel_calm; auto. now apply no_cancel_either. Qed.

(** ** rank *)
Lemma frank_flip p n m es (b : bool) r es' : prime p -> 0 <= n -> 0 <= m -> (forall i j, fmat es' i j = flipped b (fmat es) i j) ->
  frank p (if b then m else n) (if b then n else m) (fmat es') r <-> frank p n m (fmat es) r.
Proof.
  intros Pp Hn Hm E. destruct b; cbn [flipped] in E.
  - split; intros H.
    + apply (frank_transpose p n m (fmat es) r Pp Hm). eapply frank_ext; [|exact H]. intros i j _ _. rewrite E. apply cong_refl.
    + apply (frank_transpose p m n (fmat es') r Pp Hn). eapply frank_ext; [|exact H]. intros i j _ _. rewrite E. apply cong_refl.
  - split; apply frank_ext; intros i j _ _; rewrite E; apply cong_refl.
Qed.
Definition turned (allow_transpose : bool) (n m : Z) : bool := allow_transpose && (n <? m).

Lemma rank_after X fuel o n m (b : bool) es es1 p A : ok_modulus p -> prime p -> 0 <= n -> 0 <= m ->
  let N := if b then m else n in let M := if b then n else m in
  holds p N M es1 A -> (forall i j, fmat es1 i j = flipped b (fmat es) i j) -> params_ok X p M -> good_opts X o ->
  outs (f <- echelonize X fuel o A ;; Ok (cn (lu_U f), @None (cert * bool))) (fun '(r, c) => c = None /\ 0 <= r /\ (forall r', frank p n m (fmat es) r' -> r <= r') /\
    (full X o -> frank p n m (fmat es) r)) (failures o N M).
Proof.
  intros Hp Pp Hn Hm N M H E1 HX HO.
  apply outs_bind. eapply outs_mono; [apply (echelonize_holds X fuel o p N M es1 A Hp Pp H HX HO)|]. intros lu (He & Hle & Hfull & _). cbn [outs].
  destruct (upper_rows_le _ _ _ _ _ _ H He) as [Hr Hm']. split; [auto|]. split; [lia|]. split.
  - intros r' Hr'. apply Hle. apply (holds_frank p N M es1 A r' H). unfold N, M. apply (frank_flip p n m es b r' es1); auto; lia.
  - intros HF. apply (frank_flip p n m es b _ es1); auto; try lia. fold N M. apply (frank_of_echelon p N M es1 A); auto.
Qed.
Theorem tool_rank_calm gs g X fuel o gc fc tr f n m es p : ok_modulus p -> prime p -> matrix_file f n m es -> (if turned tr n m then calm p m (swapped es) else calm p n es) ->
  let N := if turned tr n m then m else n in let M := if turned tr n m then n else m in
  params_ok X p M -> good_opts X o ->
  outs (tool_rank gs g X fuel o gc fc tr false f p) (fun '(r, c) => c = None /\ 0 <= r /\ (forall r', frank p n m (fmat es) r' -> r <= r') /\
    (full X o -> frank p n m (fmat es) r)) (failures o N M).
Proof.
  intros Hp Pp F NC N M HX HO. destruct (file_dims f n m es F) as [Hn Hm]. unfold tool_rank. apply outs_bind, sat_outs.
  eapply sat_mono; [apply (load_matrix_calm gs g (fun n m => tr && (n <? m)) f n m es p _ Hp F NC); intros md E; injection E as <-; apply len_malloc; lia|]. intros [A h] (H0 & _).
  destruct (holds_flip p n m es A _ H0) as (es1 & H & E1). fold (turned tr n m) in *. fold N M in H.
  apply (rank_after X fuel o n m (turned tr n m) es es1 p A); auto; lia.
Qed.
Theorem tool_rank_ok gs g X fuel o gc fc tr f n m es p : ok_modulus p -> prime p -> matrix_file f n m es -> no_cancel p es ->
  let N := if turned tr n m then m else n in let M := if turned tr n m then n else m in
  params_ok X p M -> good_opts X o ->
  outs (tool_rank gs g X fuel o gc fc tr false f p) (fun '(r, c) => c = None /\ 0 <= r /\ (forall r', frank p n m (fmat es) r' -> r <= r') /\
    (full X o -> frank p n m (fmat es) r)) (failures o N M).
Proof. intros Hp Pp F NC. apply tool_rank_calm; auto. now apply no_cancel_either. Qed.

Lemma rank_cert_after (gc : Z -> Z -> Z -> Z -> Z) X fuel o fc n m (b : bool) es p A hash h : ok_modulus p -> prime p -> 0 <= n -> 0 <= m ->
  let N := if b then m else n in let M := if b then n else m in
  (if b then holds p m n (swapped es) A else holds p n m es A) -> h = Some hash -> len hash = 32 -> bytes hash -> params_ok X p M -> good_opts X (with_L o) -> finishes X o ->
  outs (f <- echelonize X fuel (with_L o) A ;;
    hash <- deref h ;;
    b <- factorization_verify (gc 0) fc A f 42 ;; _ <- assert_ b ;;
    b <- factorization_verify (gc 1) fc A f 1337 ;; _ <- assert_ b ;;
    b <- factorization_verify (gc 2) fc A f 21011984 ;; _ <- assert_ b ;;
    proof <- rank_create (gc 3) fc A hash f ;;
    correct <- rank_verify (gc 4) fc A hash proof ;;
    Ok (cn (lu_U f), Some (proof, correct)))
    (fun '(r, c) => frank p n m (fmat es) r /\ exists proof, c = Some (proof, true) /\ c_r proof = r /\ c_hash proof = hash /\ forall gs', rank_verify gs' fc A hash proof = Ok true)
    (fun e => e = OutOfFuel \/ e = Overflow).
Proof.
  intros Hp Pp Hn Hm N M H0 Eh Lh Bh HX HO Hfi. destruct (holds_flip p n m es A _ H0) as (es1 & H & E1). fold N M in H.
  apply outs_bind. pose proof (echelonize_holds X fuel (with_L o) p N M es1 A Hp Pp H HX HO) as S.
  destruct (echelonize X fuel (with_L o) A) as [lu|e]; cbn [outs] in S |- *. 2:{ destruct S as [[_ S]|[S _]]; auto. }
  destruct S as (He & _ & _ & HL). destruct HL as (L & HL); auto. rewrite Eh. cbn [deref bind].
  pose proof H as (W & En & Em & Ep & [Rx _] & _).
  assert (V : forall gs' sd, 0 <= sd < 2 ^ 64 -> forall {T} (k : bool -> res T) Q, outs (k true) Q (fun e => e = OutOfFuel \/ e = Overflow) -> outs (bind (factorization_verify gs' fc A lu sd) k) Q (fun e => e = OutOfFuel \/ e = Overflow)).
  { intros gs' sd Hsd T k Q Hk. apply outs_bind. eapply outs_mono; [apply (fact_accepts p A lu L gs' fc sd); auto|]. intros ok ->. exact Hk. }
  apply V; [lia|]. cbn [assert_ bind]. apply V; [lia|]. cbn [assert_ bind]. apply V; [lia|]. cbn [assert_ bind].
  assert (CR : forall gs', outs (rank_create (gc 3) fc A hash lu) (fun c => rank_is p A (c_r c) /\ c_hash c = hash /\ c_prime c = p /\ rank_verify gs' fc A hash c = Ok true) (fun e => e = OutOfFuel \/ e = Overflow)).
  { intros gs'. apply (complete_rank p A lu L hash fc (gc 3) gs'); auto. }
  apply outs_bind. destruct (rank_create (gc 3) fc A hash lu) as [c|e]; [|exact (CR (gc 4))]. cbn [outs] in CR |- *.
  destruct (CR (gc 4)) as (C1 & C3 & _ & C2). rewrite C2. cbn [bind outs]. assert (RU : rank_is p A (cn (lu_U lu))) by (apply echelon_rank; auto; apply HL). split.
  - apply (frank_flip p n m es b _ es1); auto; try lia. fold N M. now apply (holds_frank p N M es1 A _ H).
  - exists c. split; [auto|]. split; [apply (rank_unique p A); auto; apply (wf_n A W)|]. split; [exact C3|intros; apply CR].
Qed.
Theorem tool_rank_cert_calm gs g X fuel o gc fc tr f n m es p : ok_modulus p -> prime p -> matrix_file f n m es -> (if turned tr n m then calm p m (swapped es) else calm p n es) ->
  let N := if turned tr n m then m else n in let M := if turned tr n m then n else m in
  params_ok X p M -> good_opts X (with_L o) -> finishes X o ->
  outs (tool_rank gs g X fuel o gc fc tr true f p) (fun '(r, c) => frank p n m (fmat es) r /\ exists proof A, c = Some (proof, true) /\ c_r proof = r /\ c_hash proof = sha256 f /\
      (if turned tr n m then holds p m n (swapped es) A else holds p n m es A) /\ forall gs', rank_verify gs' fc A (sha256 f) proof = Ok true)
    (fun e => e = OutOfFuel \/ e = Overflow).
Proof.
  intros Hp Pp F NC N M HX HO Hfi. destruct (file_dims f n m es F) as [Hn Hm]. unfold tool_rank. apply outs_bind, sat_outs.
  eapply sat_mono; [apply (load_matrix_calm gs g (fun n m => tr && (n <? m)) f n m es p _ Hp F NC); intros md E; injection E as <-; apply len_malloc; lia|]. intros [A h] (H0 & Eh).
  eapply outs_mono; [apply (rank_cert_after gc X fuel o fc n m (turned tr n m) es p A (sha256 f) h); auto; try lia; [apply len_sha256|apply bytes_sha256]|].
  intros [r c] (R & proof & C1 & C2 & C3 & C4). split; [exact R|]. exists proof, A. auto.
Qed.
Theorem tool_rank_cert gs g X fuel o gc fc tr f n m es p : ok_modulus p -> prime p -> matrix_file f n m es -> no_cancel p es ->
  let N := if turned tr n m then m else n in let M := if turned tr n m then n else m in
  params_ok X p M -> good_opts X (with_L o) -> finishes X o ->
  outs (tool_rank gs g X fuel o gc fc tr true f p) (fun '(r, c) => frank p n m (fmat es) r /\ exists proof A, c = Some (proof, true) /\ c_r proof = r /\ c_hash proof = sha256 f /\
      (if turned tr n m then holds p m n (swapped es) A else holds p n m es A) /\ forall gs', rank_verify gs' fc A (sha256 f) proof = Ok true)
    (fun e => e = OutOfFuel \/ e = Overflow).
Proof. intros Hp Pp F NC. apply tool_rank_cert_calm; auto. now apply no_cancel_either. Qed.

(** ** solve *)
(* what follows the loading *)
Definition solve_rest (g : Z -> Z -> Z -> Z) X fuel o ch w (A B : csr) : res (list Z * list Z) :=
  f <- echelonize X fuel (with_L o) A ;;
  '(XX, ok) <- gesv (g 3) ch w f B (Some (malloc (g 4 0) (cn B))) ;;
  ok <- deref ok ;;
  warn <- for_ 0 (cn B) (fun i warn => b <- aget ok i ;; Ok (if b =? 0 then warn ++ [i] else warn)) [] ;;
  out <- csr_save XX ;;
  Ok (out, warn).
Lemma solve_after_wide g X fuel o ch w n m es nb mb esb p A B : ok_modulus p -> prime p -> 0 <= n < 2 ^ 31 -> 0 <= m < 2 ^ 31 -> 0 <= nb < 2 ^ 31 -> m <= mb -> holds p n m es A -> holds p nb mb esb B ->
  params_ok X p m -> good_opts X (with_L o) -> finishes X o ->
  outs (solve_rest g X fuel o ch w A B) (fun '(f', warn) => exists es', written f' nb n es' /\ clean p es' /\
    lists warn (fun i => 0 <= i < nb /\ ~ rowsp p n m (fmat es) (fmat esb i)) /\
    forall i, 0 <= i < nb -> rowsp p n m (fmat es) (fmat esb i) -> forall j, 0 <= j < m -> cong p (sum 0 n (fun k => fmat es' i k * fmat es k j)) (fmat esb i j))
    (nan_err o n m).
Proof.
  intros Hp Pp Hn Hm Hnb Le H HB HX HO Hfi. unfold solve_rest.
  apply outs_bind. pose proof (echelonize_holds X fuel (with_L o) p n m es A Hp Pp H HX HO) as S.
  destruct (echelonize X fuel (with_L o) A) as [lu|e]; cbn [outs] in S |- *.
  2:{ destruct S as [[S _]|S]; auto. unfold low_rank, wantsL, with_L in S. cbn in S. destruct (o_tall o); discriminate S. }
  destruct S as (He & _ & _ & HL). destruct HL as (L & HL); auto.
  pose proof H as (W & En & Em & Ep & [Rx _] & _). pose proof HB as (WB & EnB & EmB & EpB & [RxB _] & _). pose proof (holds_mat _ _ _ _ _ H) as HM. pose proof (holds_mat _ _ _ _ _ HB) as HMB.
  apply sat_outs. destruct (gesv_spec p A lu L B Hp Pp HL WB RxB EpB ltac:(lia) w) as (xs & G).
  apply sat_bind. eapply sat_mono; [apply (G (g 3) ch (Some (malloc (g 4 0) (cn B)))); rewrite len_malloc; lia|].
  intros [XX ok] (WX & X1 & X2 & X3 & X4 & X5 & X6 & _ & X7 & X8). destruct ok as [ok|]; [|tauto]. destruct X8 as (O1 & _ & O2). rewrite len_malloc in O1 by lia.
  cbn [deref bind].
  assert (RS : forall i, 0 <= i < nb -> in_rowspace p A (entry B i) <-> rowsp p n m (fmat es) (fmat esb i)).
  { intros i Hi. rewrite (holds_rowsp p n m es A _ H). split; intros (x & Hx); exists x; intros j Hj; rewrite (Hx j Hj); [|symmetry]; apply HMB; lia. }
  apply sat_bind. apply (for_spec (fun i warn => warn = filter (fun i => get ok i =? 0) (zseq 0 i))).
  - lia.
  - reflexivity.
  - intros i warn Hi ->. apply sat_bind, sat_aget; [lia|]. cbn [sat]. rewrite zseq_S, filter_app by lia. cbn [filter]. destruct (get ok i =? 0); [reflexivity|now rewrite app_nil_r].
  - intros warn ->. destruct (save_written XX WX) as (f' & es' & Ef & Hw & Hent & Hcl); try lia. { apply (reduced_int64 _ p); auto. }
    rewrite Ef. cbn [bind sat]. exists es'. rewrite X1, X2, EnB, En in Hw. split; [auto|]. split; [auto|]. split.
    + split.
      * intros s t Hs Ht. apply filter_increasing; auto; lia.
      * intros i. rewrite filter_In, In_zseq. split.
        -- intros (Hi & E). split; [lia|]. rewrite <- RS by lia. destruct (O2 i ltac:(lia)) as [[_ ?]|[? _]]; [lia|auto].
        -- intros (Hi & E). split; [lia|]. rewrite <- RS in E by lia. destruct (O2 i ltac:(lia)) as [[? _]|[_ ?]]; [tauto|lia].
    + intros i Hi Hrs j Hj. apply RS in Hrs; [|auto]. rewrite <- (HMB i j) by lia. rewrite <- (X7 i ltac:(lia) Hrs j ltac:(lia)). unfold xA. rewrite En. apply sum_cong. intros k Hk.
      rewrite Hent by lia. rewrite (HM k j) by lia. apply cong_refl.
Qed.
Lemma holds_none p m : 0 <= m -> holds p 0 m [] (Csr 0 m [0] [] (Some []) p).
Proof.
  intros Hm. unfold holds, wf, reduced, no_zero, nodup_rows, nnz, val, rbeg, rend. cbn.
  repeat split; try discriminate; intros; try lia.
Qed.
Lemma solve_after g X fuel o ch w n m es nb mb esb p A B : ok_modulus p -> prime p -> 0 <= n < 2 ^ 31 -> 0 <= m < 2 ^ 31 -> 0 <= nb < 2 ^ 31 -> holds p n m es A -> holds p nb mb esb B ->
  params_ok X p m -> good_opts X (with_L o) -> finishes X o ->
  outs (solve_rest g X fuel o ch w A B) (fun '(f', warn) => (m <= mb \/ nb = 0) /\ exists es', written f' nb n es' /\ clean p es' /\
    lists warn (fun i => 0 <= i < nb /\ ~ rowsp p n m (fmat es) (fmat esb i)) /\
    forall i, 0 <= i < nb -> rowsp p n m (fmat es) (fmat esb i) -> forall j, 0 <= j < m -> cong p (sum 0 n (fun k => fmat es' i k * fmat es k j)) (fmat esb i j))
    (fun e => nan_err o n m e \/ e = OOB /\ mb < m /\ 1 <= nb).
Proof.
  intros Hp Pp Hn Hm Hnb H HB HX HO Hfi. destruct (Z_lt_le_dec mb m) as [Lt|Le].
  2:{ eapply outs_mono2; [apply (solve_after_wide g X fuel o ch w n m es nb mb esb p A B); auto| |intros e He; left; exact He]. intros [f' warn] H'. split; [left; exact Le|exact H']. }
  pose proof HB as (WB & EnB & EmB & EpB & [RxB _] & _). destruct (Z.eq_dec nb 0) as [->|N0].
  - replace (solve_rest g X fuel o ch w A B) with (solve_rest g X fuel o ch w A (Csr 0 m [0] [] (Some []) p)).
    + eapply outs_mono2; [apply (solve_after_wide g X fuel o ch w n m es 0 m [] p A _ Hp Pp Hn Hm); auto; [lia|apply holds_none; lia]| |intros e He; left; exact He].
      intros [f' warn] (es' & H1 & H2 & (H3 & H4) & _). split; [right; reflexivity|]. exists es'. split; [exact H1|]. split; [exact H2|]. split; [|intros; lia]. split; [exact H3|]. intros i. rewrite H4. split; intros [? _]; lia.
    + unfold solve_rest. destruct (echelonize X fuel (with_L o) A); [|reflexivity]. cbn [bind]. rewrite EnB. cbn [cn]. now rewrite (gesv_none (g 3) ch w _ B (Csr 0 m [0] [] (Some []) p)).
  - unfold solve_rest. apply outs_bind. pose proof (echelonize_holds X fuel (with_L o) p n m es A Hp Pp H HX HO) as S. pose proof H as (_ & _ & EmA & _).
    destruct (echelonize X fuel (with_L o) A) as [lu|e]; cbn [outs] in S |- *.
    2:{ left. destruct S as [[S _]|S]; auto. unfold low_rank, wantsL, with_L in S. cbn in S. destruct (o_tall o); discriminate S. }
    destruct S as (_ & _ & _ & HL). destruct HL as (L & HL); auto. rewrite (gesv_narrow p A lu L B) by (auto; lia). right. split; [reflexivity|lia].
Qed.
Theorem tool_solve_cols gs g g' X fuel o ch w f n m es fb nb mb esb p : ok_modulus p -> prime p -> matrix_file f n m es -> calm p n es ->
  matrix_file fb nb mb esb -> calm p nb esb -> params_ok X p m -> good_opts X (with_L o) -> finishes X o ->
  outs (tool_solve gs g g' X fuel o ch w f fb p) (fun '(f', warn) => (m <= mb \/ nb = 0) /\ exists es', written f' nb n es' /\ clean p es' /\
    lists warn (fun i => 0 <= i < nb /\ ~ rowsp p n m (fmat es) (fmat esb i)) /\
    forall i, 0 <= i < nb -> rowsp p n m (fmat es) (fmat esb i) -> forall j, 0 <= j < m -> cong p (sum 0 n (fun k => fmat es' i k * fmat es k j)) (fmat esb i j))
    (fun e => nan_err o n m e \/ e = OOB /\ mb < m /\ 1 <= nb).
Proof.
  intros Hp Pp F NC Fb NCb HX HO Hfi. destruct (file_dims f n m es F) as [Hn Hm]. destruct (file_dims fb nb mb esb Fb) as [Hnb Hmb]. unfold tool_solve. apply outs_bind, sat_outs.
  eapply sat_mono; [apply (load_matrix_calm gs g (fun _ _ => false) f n m es p _ Hp F NC); intros md E; injection E as <-; apply len_malloc; lia|]. intros [A h] (H & Eh). cbv beta iota in H.
  apply outs_bind, sat_outs.
  eapply sat_mono; [apply (load_matrix_calm gs g' (fun _ _ => false) fb nb mb esb p _ Hp Fb NCb); rewrite Eh; intros md E; injection E as <-; apply len_sha256|]. intros [B h'] (HB & _). cbv beta iota in HB.
  apply (solve_after g X fuel o ch w n m es nb mb esb p A B); auto.
Qed.
Theorem tool_solve_calm gs g g' X fuel o ch w f n m es fb nb esb p : ok_modulus p -> prime p -> matrix_file f n m es -> calm p n es ->
  matrix_file fb nb m esb -> calm p nb esb -> params_ok X p m -> good_opts X (with_L o) -> finishes X o ->
  outs (tool_solve gs g g' X fuel o ch w f fb p) (fun '(f', warn) => exists es', written f' nb n es' /\ clean p es' /\
    lists warn (fun i => 0 <= i < nb /\ ~ rowsp p n m (fmat es) (fmat esb i)) /\
    forall i, 0 <= i < nb -> rowsp p n m (fmat es) (fmat esb i) -> forall j, 0 <= j < m -> cong p (sum 0 n (fun k => fmat es' i k * fmat es k j)) (fmat esb i j))
    (nan_err o n m).
Proof.
  intros Hp Pp F NC Fb NCb HX HO Hfi. eapply outs_mono2; [apply (tool_solve_cols gs g g' X fuel o ch w f n m es fb nb m esb p Hp Pp F NC Fb NCb HX HO Hfi)| |].
  - intros [f' warn] (_ & H). exact H.
  - intros e [He|(_ & He & _)]; [exact He|lia].
Qed.
Theorem tool_solve_ok gs g g' X fuel o ch w f n m es fb nb esb p : ok_modulus p -> prime p -> matrix_file f n m es -> no_cancel p es ->
  matrix_file fb nb m esb -> no_cancel p esb -> params_ok X p m -> good_opts X (with_L o) -> finishes X o ->
  outs (tool_solve gs g g' X fuel o ch w f fb p) (fun '(f', warn) => exists es', written f' nb n es' /\ clean p es' /\
    lists warn (fun i => 0 <= i < nb /\ ~ rowsp p n m (fmat es) (fmat esb i)) /\
    forall i, 0 <= i < nb -> rowsp p n m (fmat es) (fmat esb i) -> forall j, 0 <= j < m -> cong p (sum 0 n (fun k => fmat es' i k * fmat es k j)) (fmat esb i j))
    (nan_err o n m).
Proof. intros Hp Pp F NC Fb NCb. apply tool_solve_calm; auto; now apply no_cancel_calm. Qed.

(** ** dm *)
Lemma holds_stored p n m es A i j : ok_modulus p -> holds p n m es A -> 0 <= i < n -> 0 <= j < m -> stored A i j <-> ~ cong p (fmat es i j) 0.
Proof.
  intros Hp H Hi Hj. pose proof (holds_mat _ _ _ _ _ H) as HM. pose proof H as (W & En & Em & Ep & (_ & R) & Z0 & D & _). split.
  - intros S. rewrite <- (HM i j) by lia. destruct (stored_val A i j W D ltac:(lia) S) as (px & Hx & ->). intros C. apply (Z0 px Hx). specialize (R px Hx). rewrite Ep in R.
    apply (balanced_cong_0 p); auto. unfold ok_modulus in Hp; lia.
  - intros N. destruct (storedb A i j) eqn:S; [now apply storedb_ok|]. exfalso. apply N. rewrite <- (HM i j) by lia. rewrite entry_absent; [apply cong_refl|]. rewrite <- storedb_ok. congruence.
Qed.

(** ** check_cert *)
Lemma verify_hash gs fuel A hash c : len hash = 32 -> bytes hash -> len (c_hash c) = 32 -> c_hash c <> hash -> rank_verify gs fuel A hash c = Ok false.
Proof.
  intros Lh Bh Lc N. unfold rank_verify.
  assert (S : sat (forb 0 32 (fun i (_ : unit) => a <- aget hash i ;; b <- aget (c_hash c) i ;; if a =? b then Ok (inl tt) else Ok (inr false)) tt) (fun o => o = inr false)).
  { apply (forb_spec (fun k _ => forall t, 0 <= t < k -> get hash t = get (c_hash c) t)); [lia|lia| |].
    - intros k _ Hk HI. apply sat_bind, sat_aget; [lia|]. apply sat_bind, sat_aget; [lia|]. destruct (Z.eqb_spec (get hash k) (get (c_hash c) k)); cbn [sat]; [|reflexivity].
      intros t Ht. destruct (Z.eq_dec t k) as [->|]; [auto|apply HI; lia].
    - intros u HI. exfalso. apply N. apply list_ext; [lia|]. intros i Hi. symmetry. apply HI. lia. }
  match type of S with sat ?r _ => assert (E : r = Ok (inr false)) by (destruct r; cbn [sat] in S; [now rewrite S|tauto]) end. rewrite E. reflexivity.
Qed.
Lemma check_cert_saved gs g gc fc junk f n m es p c : ok_modulus p -> matrix_file f n m es -> no_cancel p es -> storable c ->
  exists cf A c', cert_save c = Ok cf /\ holds p n m es A /\ c_r c' = c_r c /\ c_prime c' = c_prime c /\ c_hash c' = c_hash c /\ c_x c' = c_x c /\ c_y c' = c_y c /\
    c_i c' = c_j c /\ (forall k, 0 <= k < c_r c -> get (c_j c') k = g 3 1 k) /\
    tool_check_cert gs g gc fc junk f cf p = (correct <- rank_verify gc fc A (sha256 f) c' ;; Ok (negb correct, if correct then 1 else 0)).
Proof.
  intros Hp F NC Hc. unfold tool_check_cert. pose proof (cert_reload (g 3) c Hc) as CR. destruct (cert_save c) as [cf|]; cbn [bind sat] in CR; [|tauto].
  pose proof (load_matrix_ok gs g (fun _ _ => false) f n m es p (Some (malloc (g 2 0) 32)) Hp F NC) as LM.
  destruct (load_matrix _ _ _ _ _ _) as [[A h]|]; [|exfalso; apply LM; intros md E; injection E as <-; apply len_malloc; lia].
  destruct LM as [H ->]; [intros md E; injection E as <-; apply len_malloc; lia|]. cbn [bind option_map]. destruct (cert_load (g 3) cf) as [o|] eqn:EL; cbn [sat] in CR; [|tauto].
  destruct CR as (c' & -> & C1 & C2 & C3 & C4 & C5 & C6 & C7). exists cf, A, c'. rewrite EL. cbn [bind deref]. repeat (split; [assumption || reflexivity|]). reflexivity.
Qed.
Theorem check_cert_wrong gs g gc fc junk f n m es p c : ok_modulus p -> matrix_file f n m es -> no_cancel p es -> storable c -> c_hash c <> sha256 f ->
  exists cf, cert_save c = Ok cf /\ tool_check_cert gs g gc fc junk f cf p = Ok (true, 0).
Proof.
  intros Hp F NC Hc N. destruct (check_cert_saved gs g gc fc junk f n m es p c Hp F NC Hc) as (cf & A & c' & E & _ & _ & _ & Eh & _ & _ & _ & _ & ET). exists cf. split; [auto|].
  rewrite ET, verify_hash; [reflexivity|apply len_sha256|apply bytes_sha256| |]; rewrite Eh; [|auto]. apply Hc.
Qed.
Theorem check_cert_empty gs g gc fc junk f n m es p : ok_modulus p -> matrix_file f n m es -> no_cancel p es -> len (c_hash junk) = 32 -> c_hash junk <> sha256 f ->
  tool_check_cert gs g gc fc junk f [] p = Ok (true, 0).
Proof.
  intros Hp F NC L N. unfold tool_check_cert.
  pose proof (load_matrix_ok gs g (fun _ _ => false) f n m es p (Some (malloc (g 2 0) 32)) Hp F NC) as LM.
  destruct (load_matrix _ _ _ _ _ _) as [[A h]|]; [|exfalso; apply LM; intros md E; injection E as <-; apply len_malloc; lia].
  destruct LM as [H ->]; [intros md E; injection E as <-; apply len_malloc; lia|]. cbn [bind option_map]. change (cert_load (g 3) []) with (Ok (@None cert)). cbn [bind deref].
  rewrite verify_hash; [reflexivity|apply len_sha256|apply bytes_sha256|auto|auto].
Qed.
