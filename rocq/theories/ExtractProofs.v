(** Proofs about spasm_pivots_extract_structural (Extract.v). *)
From Verif Require Import Base BaseFacts Spec SpecFacts SpecElim Zp ZpFacts Mat MatFacts RowList VecProofs TriProofs ElimFacts Reach Sched Pivots PivotsProofs
  GreedyProofs ReorderProofs Extract.
From Coq Require Import ZifyBool Znumtheory.

Lemma sat_deref {A} (o : option A) a (Q : A -> Prop) : o = Some a -> Q a -> sat (deref o) Q.
Proof. intros -> H. exact H. Qed.
Lemma entry_nodup A i px : nodup_rows A -> 0 <= i < cn A -> rbeg A i <= px < rend A i -> entry A i (get (cj A) px) = val A px.
Proof.
  intros HD Hi Hpx. unfold entry. rewrite (sum_pick _ _ _ px) by auto. rewrite Z.eqb_refl.
  rewrite sum_zero; [lia|]. intros py Hpy. destruct (Z.eqb_spec py px); auto.
  destruct (Z.eqb_spec (get (cj A) py) (get (cj A) px)) as [E|]; auto. apply (HD i) in E; auto. lia.
Qed.

Section rows.
Context (A : csr) (HA : wf A) (HD : nodup_rows A) (Ax : list Z) (Ex : cx A = Some Ax).
Context (p : Z) (Hp : cprime A = p) (Hmod : ok_modulus p) (Hprime : prime p).
Context (Hnz : no_zero A) (Hred : reduced A).
Let m := cm A.

Lemma val_Ax px : val A px = get Ax px.
Proof. unfold val. now rewrite Ex. Qed.
Lemma val_inv px : 0 <= px < nnz A -> ~ cong p (val A px) 0 /\ balanced p (val A px) /\ - p < val A px < p.
Proof.
  intros Hpx. destruct Hred as [_ HR]. rewrite Hp in HR. specialize (HR px Hpx). specialize (Hnz px Hpx).
  split; [|split; auto].
  - intros C. apply Hnz. apply (balanced_cong_0 p); auto; unfold ok_modulus in Hmod; lia.
  - unfold balanced in HR. unfold ok_modulus in Hmod. Z.to_euclidean_division_equations. lia.
Qed.

Lemma locate_pivot_ok i j : 0 <= i < cn A -> stored A i j ->
  locate_pivot A Ax i j = Ok (entry A i j) /\ ~ cong p (entry A i j) 0 /\ balanced p (entry A i j) /\ - p < entry A i j < p.
Proof.
  intros Hi (pz & Hpz & Ez). pose proof (wf_row A HA i Hi) as Hrow. pose proof (wf_len A HA) as Hl.
  pose proof (wf_nnz A HA) as Hnn. pose proof (wf_vals A HA Ax Ex) as Hlx.
  assert (E : entry A i j = val A pz) by (rewrite <- Ez; now apply entry_nodup).
  rewrite E. split; [|apply val_inv; lia].
  enough (H : sat (locate_pivot A Ax i j) (fun x => x = val A pz)).
  { destruct (locate_pivot A Ax i j); cbn in H; [now subst|easy]. }
  unfold locate_pivot. apply sat_bind, sat_aget; [lia|]. apply sat_bind, sat_aget; [lia|]. fold (rbeg A i) (rend A i).
  apply sat_bind. eapply sat_mono; [apply (forb_spec (fun px (_ : Z) => px <= pz) (fun o : Z + Z => o = inr (val A pz)))|].
  - lia.
  - lia.
  - intros px x Hpx Hle. apply sat_bind, sat_aget; [lia|]. destruct (Z.eqb_spec (get (cj A) px) j) as [Ec|Ec]; cbn [negb].
    + assert (px = pz) by (apply (HD i); auto; congruence). subst px.
      apply sat_bind, sat_aget; [lia|]. cbn [sat]. rewrite <- val_Ax. pose proof (Hnz pz ltac:(lia)).
      now replace (val A pz =? 0) with false by lia.
    + cbn. assert (px <> pz) by congruence. lia.
  - intros x Hx. lia.
  - cbv beta. intros o ->. reflexivity.
Qed.

(* the row that is written *)
Definition scaled (i j : Z) : list (Z * Z) :=
  (j, 1) :: map (fun e => (fst e, zmul p (zinv p (entry A i j)) (snd e))) (filter (fun e => negb (fst e =? j)) (rowl A i)).
Lemma filter_len_lt {B} (f : B -> bool) (l : list B) x : In x l -> f x = false -> len (filter f l) < len l.
Proof.
  induction l as [|a l IH]; [easy|]. cbn [filter]. intros [->|H] E.
  - rewrite E, len_cons. enough (len (filter f l) <= len l) by lia.
    clear. induction l as [|b l IH]; cbn [filter]; [lia|]. destruct (f b); rewrite ?len_cons; lia.
  - specialize (IH H E). destruct (f a); rewrite !len_cons; lia.
Qed.
Lemma len_scaled i j : 0 <= i < cn A -> stored A i j -> len (scaled i j) <= rend A i - rbeg A i.
Proof.
  intros Hi (pz & Hpz & Ez). unfold scaled. rewrite len_cons, len_map. pose proof (wf_row A HA i Hi) as Hrow.
  rewrite <- (len_rowl A i) by lia. pose proof (filter_len_lt (fun e => negb (fst e =? j)) (rowl A i) (j, val A pz)).
  assert (In (j, val A pz) (rowl A i)) by (apply In_rowl; exists pz; auto).
  specialize (H H0). cbn [fst] in H. rewrite Z.eqb_refl in H. specialize (H eq_refl). lia.
Qed.
Lemma scaled_entry i j c : 0 <= i < cn A -> stored A i j -> cong p (entry A i c) (entry A i j * lentry c (scaled i j)).
Proof.
  intros Hi Hs. destruct (locate_pivot_ok i j Hi Hs) as (_ & Hpv & Hb & Hr). set (v := entry A i j) in *.
  destruct (zinv_ok p v Hmod Hprime Hr Hpv) as [_ Hinv]. unfold scaled. fold v. rewrite lentry_cons.
  assert (Hl : forall l, cong p (v * lentry c (map (fun e => (fst e, zmul p (zinv p v) (snd e))) l)) (lentry c l)).
  { induction l as [|[a b] l IH]; [cbn; unfold lentry; cbn; rewrite Z.mul_0_r; apply cong_refl|]. cbn [map fst snd]. rewrite !lentry_cons.
    rewrite Z.mul_add_distr_l. apply cong_add; auto. destruct (a =? c); [|rewrite Z.mul_0_r; apply cong_refl].
    apply cong_trans with (v * (zinv p v * b)); [apply cong_mul; [apply cong_refl|apply zmul_cong; unfold ok_modulus in Hmod; lia]|].
    replace (v * (zinv p v * b)) with (v * zinv p v * b) by ring.
         apply cong_trans with (1 * b); [apply cong_mul; [auto|apply cong_refl]|rewrite Z.mul_1_l; apply cong_refl]. }
  rewrite Z.mul_add_distr_l. rewrite entry_rowl.
  destruct (Z.eqb_spec j c) as [->|Hne].
  - rewrite (lentry_absent c (map _ _)).
    + rewrite Z.mul_0_r, Z.add_0_r, Z.mul_1_r. rewrite <- entry_rowl. apply cong_refl.
    + rewrite map_map, in_map_iff. intros (e & E & He). apply filter_In in He. cbn in E. destruct He as [_ He]. rewrite E, Z.eqb_refl in He. easy.
  - rewrite Z.mul_0_r, Z.add_0_l. eapply cong_trans; [|apply cong_sym, Hl].
    enough (E : lentry c (rowl A i) = lentry c (filter (fun e => negb (fst e =? j)) (rowl A i))) by (rewrite E; apply cong_refl).
    induction (rowl A i) as [|[a b] l IH]; auto. cbn [filter fst]. rewrite lentry_cons, IH.
    destruct (Z.eqb_spec a j) as [->|]; cbn [negb]; [|now rewrite lentry_cons]. replace (j =? c) with false by lia. lia.
Qed.

Lemma extract_row_ok U q i j Ux : elim p U q -> cx U = Some Ux -> cm U = m -> cn U + 2 <= len (cp U) ->
  nnz U + (rend A i - rbeg A i) <= len (cj U) -> 0 <= i < cn A -> stored A i j ->
  (forall c, stored A i c -> get q c < 0) ->
  sat (extract_row A Ax U Ux (nnz U) i j (entry A i j)) (fun '(U', unz) =>
    appended U U' (scaled i j) /\ unz = nnz U' /\ elim p U' (upd q j (cn U)) /\ len (cj U') = len (cj U)).
Proof.
  intros HE EU Hm Hlp Hroom Hi Hs Hq. pose proof HE as [W X P Up F R]. destruct (locate_pivot_ok i j Hi Hs) as (_ & Hpv & Hb & Hr).
  assert (Hp2 : 2 <= p) by (unfold ok_modulus in Hmod; lia).
  pose proof (wf_row A HA i Hi) as Hrow. pose proof (wf_len A HA) as Hl. pose proof (wf_n U W) as Hn.
  pose proof (wf_nnz A HA) as Hnn. pose proof (wf_vals A HA Ax Ex) as Hlx.
  pose proof (wf_nnz U W) as Hnu. pose proof (wf_vals U W Ux EU) as Hlu. pose proof (len_scaled i j Hi Hs) as Hls.
  unfold extract_row. rewrite Hp. set (alpha := zinv p (entry A i j)).
  destruct Hs as (pz & Hpz & Ez).
  apply sat_bind, sat_aset; [lia|]. apply sat_bind, sat_aset; [lia|].
  apply sat_bind, sat_aget; [lia|]. apply sat_bind, sat_aget; [lia|]. fold (rbeg A i) (rend A i).
  set (rest := fun px => map (fun e : Z * Z => (fst e, zmul p alpha (snd e)))
     (filter (fun e => negb (fst e =? j)) (map (fun px => (get (cj A) px, val A px)) (zseq (rbeg A i) px)))).
  pose proof (len_ulist U W) as Hul.
  assert (Hfin : len (rest (rend A i)) + 1 <= rend A i - rbeg A i).
  { unfold scaled in Hls. rewrite len_cons in Hls. fold alpha in Hls. unfold rest. fold (rowl A i). lia. }
  assert (Hmono : forall px, rbeg A i <= px < rend A i -> get (cj A) px <> j -> len (rest px) < len (rest (rend A i))).
  { intros px Hpx Hne. unfold rest. rewrite !len_map.
    assert (E : zseq (rbeg A i) (rend A i) = zseq (rbeg A i) px ++ zseq px (rend A i)).
    { apply (listd_ext 0); [rewrite len_app, !len_zseq; lia|]. intros k Hk. rewrite len_zseq in Hk. rewrite getd_zseq by lia.
      destruct (Z_lt_le_dec k (px - rbeg A i)).
      - rewrite getd_app_l, getd_zseq by (rewrite ?len_zseq; lia). lia.
      - rewrite getd_app_r, getd_zseq by (rewrite ?len_zseq; lia). rewrite len_zseq. lia. }
    rewrite E, map_app, filter_app, len_app. rewrite (zseq_cons px) by lia. cbn [map filter fst].
    replace (get (cj A) px =? j) with false by lia. cbn [negb]. rewrite len_cons.
    pose proof (len_nonneg (filter (fun e : Z * Z => negb (fst e =? j)) (map (fun px0 => (get (cj A) px0, val A px0)) (zseq (px + 1) (rend A i))))). lia. }
  apply sat_bind. apply (for_spec (fun px '(Uj, Vx, unz) => Built Uj (Some Vx) (ulist U ++ (j, 1) :: rest px) /\
    unz = nnz U + 1 + len (rest px) /\ len Uj = len (cj U))).
  - lia.
  - unfold rest. rewrite zseq_empty by lia. cbn [map filter]. change (len (@nil (Z * Z))) with 0. rewrite len_upd. split; [|split; auto; lia].
    pose proof (Built_app (cj U) (Some Ux) (ulist U) j 1 (Built_ulist U Ux W EU)) as HB. rewrite Hul in HB.
    apply HB; [lia|discriminate].
  - intros px [[Uj Vx] unz] Hpx (B & Eu & Hj). apply sat_bind, sat_aget; [lia|].
    assert (Hsnoc : rest (px + 1) = rest px ++ (if j =? get (cj A) px then [] else [(get (cj A) px, zmul p alpha (val A px))])).
    { unfold rest. rewrite zseq_S by lia. rewrite map_app, filter_app, map_app. f_equal. cbn [map filter fst]. rewrite Z.eqb_sym.
      destruct (j =? get (cj A) px); reflexivity. }
    rewrite Hsnoc. destruct (Z.eqb_spec j (get (cj A) px)) as [E|E].
    + rewrite app_nil_r. cbn. auto.
    + pose proof (Hmono px Hpx ltac:(congruence)) as Hlt. pose proof B as (B1 & B2 & _). cbn in B2.
      pose proof (len_nonneg (rest px)).
      apply sat_bind, sat_aset; [lia|]. apply sat_bind, sat_aget; [lia|]. apply sat_bind, sat_aset; [lia|]. cbn [sat].
      rewrite len_upd. split; [|split; auto; rewrite len_app; change (len [(get (cj A) px, zmul p alpha (val A px))]) with 1; lia].
      rewrite <- val_Ax.
      pose proof (Built_app Uj (Some Vx) (ulist U ++ (j, 1) :: rest px) (get (cj A) px) (zmul p alpha (val A px)) B) as HB.
      rewrite len_app, len_cons, Hul in HB. replace (nnz U + (1 + len (rest px))) with unz in HB by lia.
      rewrite <- app_assoc in HB. cbn [app oupd option_map] in HB. apply HB; [lia|discriminate].
  - intros [[Uj Vx] unz] (B & Eu & Hj). apply sat_bind, sat_aset; [lia|]. cbn [sat].
    change ((j, 1) :: rest (rend A i)) with (scaled i j) in B.
    assert (Eu2 : unz = nnz U + len (scaled i j)) by (unfold scaled; rewrite len_cons; fold (rowl A i); subst unz; unfold rest; fold (rowl A i) alpha; lia).
    rewrite Eu2.
    assert (Hin : forall e, In e (tl (scaled i j)) -> stored A i (fst e) /\ fst e <> j /\ balanced p (snd e)).
    { cbn [tl scaled]. intros e He. apply in_map_iff in He. destruct He as ([c v] & <- & Hf). apply filter_In in Hf. cbn [fst snd] in *.
      destruct Hf as [Hf Hne]. split; [|split; [|apply zmul_balanced; lia]].
      - apply stored_rowl, in_map_iff. exists (c, v). auto.
      - destruct (Z.eqb_spec c j); [easy|auto]. }
    assert (Hjr : 0 <= j < cm U) by (rewrite Hm, <- Ez; apply (wf_col A HA); lia).
    assert (HAp : appended U (Csr (cn U + 1) (cm U) (upd (cp U) (cn U + 1) (nnz U + len (scaled i j))) Uj (Some Vx) (cprime U)) (scaled i j)).
    { apply appended_ok; auto. intros e He. unfold scaled in He. destruct He as [<-|He]; [exact Hjr|].
      destruct (Hin e He) as [(px & Hpx & <-) _]. rewrite Hm. apply (wf_col A HA). lia. }
    split; auto. split; [now rewrite (ap_nnz _ _ _ HAp)|]. split; auto.
    unfold scaled in HAp at 2. eapply elim_append; eauto.
    + apply Hq. exists pz. auto.
    + intros e He. destruct (Hin e He) as (H1 & H2 & H3). auto.
Qed.
End rows.

Lemma tlist_snoc_tentry T T' l i j : tlist T' = tlist T ++ l ->
  tentry T' i j = tentry T i j + lsum (fun '(a, b, v) => if (a =? i) && (b =? j) then v else 0) l.
Proof. intros H. rewrite !tentry_tlist, H. apply lsum_app. Qed.

Section main.
Context (A : csr) (HA : wf A) (HD : nodup_rows A) (p : Z) (Hp : cprime A = p) (Hmod : ok_modulus p) (Hprime : prime p).
Context (Hnz : no_zero A) (Hred : reduced A).


Theorem extract_structural_ok g ch scr greedy p_in f p0 : gscr A scr ->
  elim p (f_U f) (f_q f) -> cm (f_U f) = cm A -> cn (f_U f) + cn A + 1 <= len (cp (f_U f)) ->
  (forall i c, 0 <= i < cn A -> stored A i c -> get (f_q f) c < 0) ->
  match f_L f with
  | Some L => twf L /\ tx L <> None /\ tprime L = p /\ cn (f_U f) + cn A <= tm L /\ cn (f_U f) + cn A <= len (f_p f) /\
      match p_in with Some l => len l = cn A | None => True end /\ (forall i, 0 <= i < cn A -> 0 <= oapply p_in i < tn L)
  | None => True end ->
  cn A <= len p0 ->
  sat (extract_structural g ch scr greedy A p_in f p0) (fun '(npiv, f', pr) =>
    exists pinv qinv, pivots A pinv qinv /\ acyclic A qinv /\ npos qinv = npiv /\ 0 <= npiv <= cn A /\
      len pr = len p0 /\ pivot_order A pinv npiv pr /\ elim p (f_U f') (f_q f') /\ extracted p A p_in f f' pinv pr npiv).
Proof.
  intros Hscr HE Hm Hroom HQ HL Hp0. pose proof (wf_n A HA) as Hn. pose proof (wf_m A HA) as Hmm. pose proof (wf_len A HA) as Hlp.
  destruct (cx A) as [Ax|] eqn:Ex; [|now destruct Hred].
  unfold extract_structural. apply sat_bind.
  eapply sat_mono; [apply (pivots_find_ok A HA); auto; [congruence|rewrite len_malloc; lia|rewrite len_malloc; lia]|]. cbv beta.
  intros [[npiv pinv] qinv] (HPV & Hac & Hnp & _). pose proof HPV as [PL1 PL2 PP PQ].
  assert (Hnn : 0 <= npiv <= cn A).
  { pose proof (npos_rows A pinv qinv HPV). pose proof (npos_le pinv). pose proof (npos_nonneg pinv). lia. }
  apply sat_bind. eapply sat_mono; [now apply (pivots_reorder_ok A HA)|]. cbv beta. intros pr [Lpr PO].
  pose proof PO as [PO1 PO2 PO3 PO4].
  set (wt := fun k => rend A (get pr k) - rbeg A (get pr k)).
  assert (Hwt : forall k, 0 <= k < cn A -> 0 <= wt k).
  { intros k Hk. unfold wt. pose proof (wf_row A HA (get pr k) (PO1 k Hk)). lia. }
  apply sat_bind. apply (for_spec (fun k s => s = sum 0 k wt)).
  { lia. } { now rewrite sum_empty by lia. }
  { intros k s Hk ->. apply sat_bind, sat_aget; [lia|]. pose proof (PO1 k ltac:(lia)) as Hr. unfold row_weight.
    apply sat_bind, sat_bind, sat_aget; [lia|]. apply sat_bind, sat_aget; [lia|]. cbn [sat]. rewrite sum_S by lia. reflexivity. }
  intros pnnz ->.
  destruct f as [U q L lp]. cbn [f_U f_q f_L f_p] in *. pose proof HE as [W X P Up F R].
  pose proof (wf_n U W) as HnU. pose proof (wf_nnz U W) as Hnu.
  apply sat_bind, sat_aget; [lia|]. fold (nnz U).
  assert (Hs0 : 0 <= sum 0 npiv wt) by (apply sum_nonneg; intros; apply Hwt; lia).
  apply sat_bind.
  apply (sat_mono _ (fun U1 => elim p U1 q /\ same_entries U U1 /\ nnz U + sum 0 npiv wt <= len (cj U1))).
  { destruct (Z.ltb_spec (len (cj U)) (nnz U + sum 0 npiv wt)).
    - eapply sat_mono; [apply (csr_realloc_ok g U (nnz U + sum 0 npiv wt) W); lia|]. cbv beta. intros U1 (W1 & S1 & L1 & X1).
      split; [eapply elim_same; eauto|]. split; auto. rewrite L1. replace (nnz U + sum 0 npiv wt <? 0) with false by lia. lia.
    - cbn. split; auto. split; [|lia]. unfold same_entries. repeat split; auto. }
  intros U1 (HE1 & HS1 & Hr1). apply sat_bind. apply (sat_deref _ Ax); auto.
  pose proof HS1 as (S1 & S2 & S3 & S4 & S5).
  apply sat_bind, sat_aget; [rewrite S1, S3; lia|]. fold (nnz U1).
  assert (En1 : nnz U1 = nnz U) by (unfold nnz; now rewrite S1, S3).
  set (f0 := Fact U q L lp).
  apply sat_bind. apply (for_spec (fun k '(U', unz, q', L', lp') => elim p U' q' /\ unz = nnz U' /\
    nnz U' + sum k npiv wt <= len (cj U') /\ extracted p A p_in f0 (Fact U' q' L' lp') pinv pr k)).
  { lia. }
  { split; auto. split; auto. split; [lia|]. constructor; cbn [f_U f_q f_L f_p f0]; auto; try (intros; lia); try lia.
    - now rewrite S3.
    - intros i Hi. now apply same_rowl.
    - destruct L as [L|]; auto. destruct HL as (T1 & T2 & T3 & T4 & T5 & T6). split; auto. split; auto. split; auto. split; auto. split; auto.
      split; [rewrite zseq_empty by lia; cbn; now rewrite app_nil_r|]. split; auto. intros; lia. }
  { intros k [[[[U' unz] q'] L'] lp'] Hk (HE' & Eu & Hrm & HX). destruct HX as [x1 x2 x3 x4 x5 x6 x7 x8 x9].
    cbn [f_U f_q f_L f_p f0] in *. pose proof HE' as [W' X' P' Up' F' R'].
    apply sat_bind, sat_aget; [lia|]. pose proof (PO1 k ltac:(lia)) as Hi. set (i := get pr k) in *.
    apply sat_bind, sat_aget; [lia|]. set (j := get pinv i) in *.
    assert (Hj : 0 <= j) by (apply PO3; lia).
    destruct (PP i Hi) as [E|(J1 & J2 & J3)]; [fold j in E; lia|]. fold j in J1, J2, J3.
    apply sat_bind, sat_assert; [lia|]. apply sat_bind, sat_aget; [lia|]. apply sat_bind, sat_assert; [lia|].
    pose proof (up_len _ _ _ Up') as Lq'. apply sat_bind, sat_aset; [lia|].
    destruct (locate_pivot_ok A HA HD Ax Ex p Hp Hmod Hprime Hnz Hred i j Hi J3) as (Eloc & Hpv & Hb & Hr).
    rewrite Eloc. cbn [bind]. set (v := entry A i j) in *.
    assert (Hv0 : v <> 0) by (intros E; apply Hpv; rewrite E; apply cong_refl).
    apply sat_bind, sat_assert; [lia|].
    assert (Hfree : forall c, stored A i c -> get q' c < 0).
    { intros c Hs. destruct (x6 c) as [->|(_ & l & Hl & Ec & _)]; [now apply (HQ i)|].
      exfalso. apply (PO4 l k ltac:(lia) ltac:(lia)). fold i. now rewrite <- Ec. }
    assert (Hwk : wt k = rend A i - rbeg A i) by reflexivity.
    assert (Hsk : sum k npiv wt = wt k + sum (k + 1) npiv wt) by (apply sum_first; lia).
    assert (Hsk1 : 0 <= sum (k + 1) npiv wt) by (apply sum_nonneg; intros; apply Hwt; lia).
    assert (HRow : sat (Ux <- deref (cx U') ;; extract_row A Ax U' Ux unz i j v) (fun '(U2, unz2) =>
       appended U' U2 (scaled A p i j) /\ unz2 = nnz U2 /\ elim p U2 (upd q' j (cn U')) /\ len (cj U2) = len (cj U'))).
    { destruct (cx U') as [Ux|] eqn:EU; [|easy]. cbn [deref bind]. subst unz.
      apply (extract_row_ok A HA HD Ax Ex p Hp Hmod Hprime Hnz Hred U' q' i j Ux); auto; try lia. }
    assert (HRec : sat (record_pivot g L' lp' p_in i (cn U') v) (fun '(L2, lp2) => len lp2 = len lp' /\
       match L, L2 with
         | Some L, Some L2 => twf L2 /\ tx L2 <> None /\ tn L2 = tn L /\ tm L2 = tm L /\ tprime L2 = tprime L /\
             tlist L2 = tlist L ++ map (fun l => (oapply p_in (get pr l), cn U + l, entry A (get pr l) (get pinv (get pr l)))) (zseq 0 (k + 1)) /\
             (forall c, ~ cn U <= c < cn U + (k + 1) -> get lp2 c = get lp c) /\
             (forall l, 0 <= l < k + 1 -> get lp2 (cn U + l) = oapply p_in (get pr l))
         | None, None => lp2 = lp
         | _, _ => False end)).
    { destruct L as [L|], L' as [L'|]; cbn [record_pivot]; [|now destruct x9|now destruct x9|cbn; now auto].
      destruct x9 as (T1 & T2 & T3 & T4 & T5 & T6 & T7 & T8). destruct HL as (K1 & K2 & K3 & K4 & K5 & K6 & K7).
      apply sat_bind. assert (Ho : 0 <= oapply p_in i < tn L) by (apply K7; auto).
      apply (sat_mono _ (fun o => o = oapply p_in i)).
      { destruct p_in as [pi|]; cbn; [apply sat_aget; [lia|reflexivity]|reflexivity]. }
      intros o ->. apply sat_bind. eapply sat_mono; [apply (add_entry_ok g L' (oapply p_in i) (cn U') v T1); lia|].
      cbv beta. intros L2 (A1 & A2 & A3 & A4 & A5 & A6).
      assert (Ek : keeps (tprime L') (has_values L') (oapply p_in i, cn U', v) = [(oapply p_in i, cn U', v)]).
      { unfold keeps. destruct (tx L') eqn:ET; [|easy]. unfold has_values. rewrite ET, T5, K3.
        rewrite (bal_id p v) by (auto; unfold ok_modulus in Hmod; lia). replace (v =? 0) with false by lia. reflexivity. }
      rewrite Ek in *. clear A5. destruct (A6 ltac:(discriminate)) as [A7 A8].
      apply sat_bind, sat_aset; [lia|]. cbn [sat]. rewrite len_upd. split; auto. split; auto.
      split. { unfold has_values in A3. destruct (tx L2), (tx L'); congruence. }
      split; [lia|]. split; [lia|]. split; [congruence|]. split; [|split].
      - rewrite A4, T6, zseq_S by lia. rewrite map_app, app_assoc. cbn [map]. fold i. fold j. fold v. now rewrite x1.
      - intros c Hc. rewrite get_upd_ne by lia. apply T7. lia.
      - intros l Hl. destruct (Z.eq_dec l k) as [->|]; [rewrite x1, get_upd_eq by lia; reflexivity|].
        rewrite get_upd_ne by lia. apply T8. lia. }
    apply sat_bind. eapply sat_mono; [exact HRec|]. cbv beta. clear HRec. intros [L2 lp2] (HR1 & HR2).
    assert (HE2 : forall U2 unz2, appended U' U2 (scaled A p i j) -> unz2 = nnz U2 -> elim p U2 (upd q' j (cn U')) -> len (cj U2) = len (cj U') ->
      elim p U2 (upd q' j (cn U')) /\ unz2 = nnz U2 /\ nnz U2 + sum (k + 1) npiv wt <= len (cj U2) /\
      extracted p A p_in f0 (Fact U2 (upd q' j (cn U')) L2 lp2) pinv pr (k + 1)).
    { intros U2 unz2 HAp E2 HEl Hlj. split; auto. split; auto. split.
      - rewrite (ap_nnz _ _ _ HAp), Hlj. pose proof (len_scaled A HA p i j Hi J3). lia.
      - assert (HQ2 : forall c, get (upd q' j (cn U')) c = if j =? c then cn U' else get q' c) by (intros; apply get_upd_in; lia).
        constructor; cbn [f_U f_q f_L f_p f0].
        + rewrite (ap_n _ _ _ HAp). lia.
        + rewrite (ap_m _ _ _ HAp). auto.
        + rewrite (ap_len _ _ _ HAp). auto.
        + intros l Hl. rewrite (ap_old _ _ _ HAp) by lia. auto.
        + intros l c Hl. destruct (Z.eq_dec l k) as [->|].
          * fold i. fold j. replace (cn U + k) with (cn U') by lia. rewrite (ap_entry_new _ _ _ _ HAp). fold v.
            apply (scaled_entry A HA HD Ax Ex p Hp Hmod Hprime Hnz Hred i j c Hi J3).
          * rewrite (ap_entry _ _ _ _ _ HAp) by lia. apply x5. lia.
        + intros c. rewrite HQ2. destruct (Z.eqb_spec j c) as [<-|].
          * right. split; [now apply (HQ i)|]. exists k. split; [lia|]. split; auto.
          * destruct (x6 c) as [|(Q1 & l & Hl & Ec & Eq)]; [auto|]. right. split; auto. exists l. split; [lia|auto].
        + intros l Hl. rewrite HQ2. destruct (Z.eq_dec l k) as [->|]; [fold i; fold j; rewrite Z.eqb_refl; lia|].
          destruct (Z.eqb_spec j (get pinv (get pr l))) as [E|]; [|apply x7; lia].
          exfalso. apply (PO4 l k ltac:(lia) ltac:(lia)). fold i. now rewrite <- E.
        + lia.
        + exact HR2. }
    destruct (cx U') as [Ux|] eqn:EU; [|easy]. cbn [deref bind] in HRow |- *.
    apply sat_bind. eapply sat_mono; [exact HRow|]. cbv beta. intros [U2 unz2] (B1 & B2 & B3 & B4). cbn [sat]. now apply HE2. }
  intros [[[[U' unz] q'] L'] lp'] (HE' & Eu & Hrm & HX).
  pose proof (wf_nnz U' (el_wf _ _ _ HE')). apply sat_bind, sat_assert; [lia|]. cbn [sat].
  exists pinv, qinv. repeat (split; auto).
Qed.
End main.
