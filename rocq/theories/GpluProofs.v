(** Correctness of echelonize_GPLU (Gplu.v). *)
From Verif Require Import Base BaseFacts Spec SpecFacts SpecElim Zp ZpFacts Mat MatFacts RowList LinAlg Reach TriProofs SolveProofs
  VecProofs MatProofs KernelProofs ParRows SchurProofs ElimFacts ExtractProofs EchInv Gplu.
From Coq Require Import ZifyBool Permutation.

(** ** The result of a sparse triangular solve, as lists *)
Definition pat (xj : list Z) (top m : Z) : list Z := map (get xj) (zseq top m).
(* entries on non-pivotal columns, entries on pivotal columns (by pivot) *)
Definition srow (q x js : list Z) : list (Z * Z) :=
  map (fun j => (j, get x j)) (filter (fun j => negb (get x j =? 0) && (get q j <? 0)) js).
Definition lrow (q x js : list Z) : list (Z * Z) :=
  map (fun j => (get q j, get x j)) (filter (fun j => negb (get x j =? 0) && negb (get q j <? 0)) js).

Lemma lentry_map (f : Z -> Z) l j : NoDup l -> lentry j (map (fun a => (a, f a)) l) = if in_dec Z.eq_dec j l then f j else 0.
Proof.
  induction l as [|a l IH]; intros HN; [reflexivity|]. inversion HN as [|? ? H1 H2]; subst. cbn [map]. rewrite lentry_cons, IH by auto.
  destruct (Z.eqb_spec a j) as [E|Hne].
  - subst a. destruct (in_dec Z.eq_dec j l) as [H|H]; [easy|]. destruct (in_dec Z.eq_dec j (j :: l)) as [G|G]; [lia|]. exfalso. apply G. cbn. auto.
  - destruct (in_dec Z.eq_dec j l) as [H|H], (in_dec Z.eq_dec j (a :: l)) as [G|G]; auto; exfalso; cbn in G; tauto.
Qed.
Lemma xA_lentry U l j : (forall e, In e l -> 0 <= fst e < cn U) ->
  xA U (fun c => lentry c l) j = lsum (fun e => snd e * entry U (fst e) j) l.
Proof.
  induction l as [|[a v] l IH]; intros H.
  - rewrite (xA_ext U _ (fun _ => 0)) by reflexivity. now rewrite xA_zero.
  - rewrite (xA_ext U _ (fun c => (if c =? a then v else 0) + lentry c l)).
    2:{ intros c Hc. now rewrite lentry_cons, Z.eqb_sym. }
    rewrite xA_add, xA_delta by (apply (H (a, v)); cbn; auto). rewrite IH by (intros; apply H; cbn; auto). rewrite lsum_cons. reflexivity.
Qed.
Lemma In_pat xj top m c : In c (pat xj top m) <-> exists l, top <= l < m /\ get xj l = c.
Proof. unfold pat. rewrite in_map_iff. split; intros (l & H1 & H2); exists l; rewrite In_zseq in *; auto. Qed.
Lemma NoDup_map_in {X Y} (f : X -> Y) l : NoDup l -> (forall a b, In a l -> In b l -> f a = f b -> a = b) -> NoDup (map f l).
Proof.
  induction l as [|a l IH]; intros HN Hf; [constructor|]. inversion HN as [|? ? H1 H2]; subst. cbn. constructor.
  - rewrite in_map_iff. intros (b & E & Hb). assert (b = a) by (apply Hf; cbn; auto). congruence.
  - apply IH; auto. intros x y Hx Hy. apply Hf; cbn; auto.
Qed.
Lemma sum_pat f xj top m : sum top m (fun l => f (get xj l)) = lsum f (pat xj top m).
Proof. unfold pat. rewrite lsum_map. now rewrite lsum_zseq. Qed.

Lemma solve_rows p U A r q xj ps mk x : elim p U q -> 2 <= p -> wf A -> cprime A = p -> cx A <> None -> cm U = cm A -> 0 <= r < cn A ->
  len xj = cm A -> len ps = cm A -> len mk = cm A -> (forall c, 0 <= c < cm A -> get mk c = 0) -> cm A <= len x ->
  sat (sparse_triangular_solve U A r xj ps mk x q) (fun '(top, xj', ps', mk', x') =>
    0 <= top <= cm A /\ len xj' = cm A /\ len ps' = cm A /\ len mk' = cm A /\ (forall c, 0 <= c < cm A -> get mk' c = 0) /\
    len x' = len x /\ (forall c, ~ In c (pat xj' top (cm A)) -> get x' c = get x c) /\
    NoDup (pat xj' top (cm A)) /\
    (forall j, In j (pat xj' top (cm A)) -> 0 <= j < cm A /\ balanced p (get x' j)) /\
    (forall j, 0 <= j < cm A -> cong p (entry A r j)
       (xA U (fun c => lentry c (lrow q x' (pat xj' top (cm A)))) j + lentry j (srow q x' (pat xj' top (cm A)))))).
Proof.
  intros HE Hp2 HA HpA HxA Hm Hr Lj Lp Lm Hz Lx. pose proof HE as [W X P Up F R].
  eapply sat_mono.
  { apply (sparse_triangular_solve_spec U A r q xj ps mk x p); auto; try (rewrite Hm; auto).
    - apply (upper_qinv_ok p); auto.
    - apply (upper_acyclic p); auto.
    - rewrite <- Hm. apply (up_unit _ _ _ Up). }
  cbv beta. rewrite Hm. intros [[[[top xj'] ps'] mk'] x'] (T1 & T2 & T3 & T4 & T5 & T6 & T7 & _ & T9 & T10 & T11 & Xf & X1 & X2 & X3).
  set (js := pat xj' top (cm A)).
  assert (HND : NoDup js).
  { unfold js, pat. apply NoDup_map_in; [apply NoDup_zseq|]. intros a b Ha Hb. rewrite In_zseq in Ha, Hb. auto. }
  assert (Hjs : forall j, In j js -> 0 <= j < cm A /\ balanced p (get x' j)).
  { intros j Hj. apply In_pat in Hj. destruct Hj as (l & Hl & <-). auto. }
  split; [auto|]. split; [auto|]. split; [auto|]. split; [auto|]. split; [auto|]. split; [auto|]. split.
  { intros c Hc. apply T10. intros l Hl E. apply Hc, In_pat. eauto. }
  split; [auto|]. split; [auto|].
  intros j Hj. rewrite X3 by auto. apply cong_eq. f_equal.
  - rewrite xA_lentry.
    2:{ intros e He. unfold lrow in He. apply in_map_iff in He. destruct He as (c & <- & Hc). apply filter_In in Hc. destruct Hc as [Hc Hb].
        cbn [fst]. destruct (Hjs c Hc) as [Hcr _]. pose proof (up_rng _ _ _ Up c ltac:(rewrite Hm; auto)). lia. }
    unfold lrow. rewrite lsum_map, lsum_filter. rewrite (sum_pattern xj' top (cm A)); auto.
    + rewrite (sum_pat (fun c => if 0 <=? get q c then Xf c * entry U (get q c) j else 0)). fold js. apply lsum_ext. intros c Hc.
      apply In_pat in Hc. destruct Hc as (l & Hl & <-). cbn [fst snd]. rewrite X1 by auto.
      destruct (Z.eqb_spec (get x' (get xj' l)) 0) as [->|]; cbn [negb andb].
      * destruct (0 <=? _); lia.
      * destruct (Z.ltb_spec (get q (get xj' l)) 0); cbn [negb]; [replace (0 <=? get q (get xj' l)) with false by lia|replace (0 <=? get q (get xj' l)) with true by lia]; auto.
    + intros c Hc Hn. rewrite X2 by auto. destruct (0 <=? _); auto.
  - unfold srow. rewrite lentry_map by (apply NoDup_filter; auto).
    destruct (in_dec Z.eq_dec j _) as [H|H].
    + apply filter_In in H. destruct H as [H Hb]. apply In_pat in H. destruct H as (l & Hl & <-). rewrite X1 by auto.
      replace (get q (get xj' l) <? 0) with true by lia. auto.
    + destruct (Z.ltb_spec (get q j) 0) as [Hq|]; auto. destruct (in_dec Z.eq_dec j js) as [Hin|Hin].
      * apply In_pat in Hin. destruct Hin as (l & Hl & <-). rewrite X1 by auto.
        destruct (Z.eq_dec (get x' (get xj' l)) 0); auto. exfalso. apply H. apply filter_In. split; [apply In_pat; eauto|]. lia.
      * apply X2. intros l Hl E. apply Hin, In_pat. eauto.
Qed.

(** ** Triplets *)
Definition nz (L : triplet) (k : Z) : triplet := Triplet k (tn L) (tm L) (ti L) (tj L) (tx L) (tprime L).
Lemma tput_ok L k i j v : twf (nz L k) -> tx L <> None -> k < len (tj L) -> 0 <= i < tn L -> 0 <= j < tm L ->
  sat (tput L k i j v) (fun L' => twf (nz L' (k + 1)) /\ tx L' <> None /\ tn L' = tn L /\ tm L' = tm L /\ tprime L' = tprime L /\
    len (tj L') = len (tj L) /\ tlist (nz L' (k + 1)) = tlist (nz L k) ++ [(i, j, v)]).
Proof.
  intros (W1 & W2 & W3 & W4 & W5 & W6) Hx Hk Hi Hj. cbn [nz tn tm tnz ti tj tx] in *.
  unfold tput. apply sat_bind, sat_aset; [lia|]. apply sat_bind, sat_aset; [lia|].
  destruct (tx L) as [lx|] eqn:EX; [|easy]. cbn [deref bind]. apply sat_bind, sat_aset; [lia|]. cbn [sat].
  split. { unfold twf. cbn [nz tn tm tnz ti tj tx]. rewrite !len_upd. split; [lia|]. split; [lia|]. split; [lia|]. split; [lia|]. split; [lia|].
    intros l Hl. rewrite !get_upd_in by lia. destruct (Z.eqb_spec k l); [lia|]. apply W6. lia. }
  cbn [tx tn tm tprime tj]. split; [discriminate|]. split; [auto|]. split; [auto|]. split; [auto|]. split; [apply len_upd|].
  unfold tlist. cbn [nz tnz ti tj tx]. rewrite zseq_S by lia. rewrite map_app. f_equal.
  - apply map_ext_in. intros l Hl. apply In_zseq in Hl. unfold tval. cbn [nz tx]. rewrite EX. now rewrite !get_upd_ne by lia.
  - cbn [map]. unfold tval. cbn [nz tx]. now rewrite !get_upd_eq by lia.
Qed.
Lemma nz_realloc g L k nzmax : twf (nz L k) -> k <= nzmax ->
  let L' := triplet_realloc g L nzmax in
  twf (nz L' k) /\ tn L' = tn L /\ tm L' = tm L /\ tprime L' = tprime L /\ len (tj L') = nzmax /\ (tx L' = None <-> tx L = None) /\
  tlist (nz L' k) = tlist (nz L k).
Proof.
  intros HW Hk. pose proof (triplet_realloc_ok g (nz L k) nzmax HW Hk) as H. cbv zeta in *.
  assert (Hk0 : 0 <= k) by (destruct HW as (_ & _ & H0 & _); cbn in H0; lia).
  assert (E : triplet_realloc g (nz L k) nzmax = nz (triplet_realloc g L nzmax) k).
  { unfold triplet_realloc, nz. cbn. replace (nzmax <? 0) with false by lia. reflexivity. }
  rewrite E in H. destruct H as (H1 & H2 & H3 & H4 & H5 & H6 & H7 & H8). cbn [nz tn tm tprime tj tx ti tnz] in *.
  split; [auto|]. split; [auto|]. split; [auto|]. split; [auto|]. split; [auto|]. split; [auto|].
  unfold tlist. cbn [nz tnz ti tj tx]. apply map_ext_in. intros l Hl. apply In_zseq in Hl. destruct (H8 l Hl) as (-> & -> & ->). reflexivity.
Qed.
Lemma nz_id L : nz L (tnz L) = L.
Proof. now destruct L. Qed.

Lemma gplu_scan_ok q xj x top m io L lnz : 0 <= top <= m -> m <= len xj -> m <= len q ->
  (forall j, In j (pat xj top m) -> 0 <= j < m /\ j < len x) ->
  match L with Some L => twf (nz L lnz) /\ tx L <> None /\ lnz + m <= len (tj L) /\ 0 <= io < tn L /\
    (forall j, In j (pat xj top m) -> get q j < tm L) | None => True end ->
  sat (gplu_scan q xj x top m io L lnz) (fun '(jpiv, L', lnz') =>
    (jpiv = m \/ In jpiv (pat xj top m) /\ get x jpiv <> 0 /\ get q jpiv < 0) /\
    (forall j, In j (pat xj top m) -> get x j <> 0 -> get q j < 0 -> jpiv <= j) /\
    match L, L' with
    | Some L, Some L' => twf (nz L' lnz') /\ tx L' <> None /\ tn L' = tn L /\ tm L' = tm L /\ tprime L' = tprime L /\
        len (tj L') = len (tj L) /\ tlist (nz L' lnz') = tlist (nz L lnz) ++ map (fun e => (io, fst e, snd e)) (lrow q x (pat xj top m)) /\
        lnz' = lnz + len (lrow q x (pat xj top m))
    | None, None => lnz' = lnz
    | _, _ => False end).
Proof.
  intros Ht Hxj Hq Hjs HL. unfold gplu_scan.
  eapply (for_spec (fun px '(jpiv, L', lnz') =>
    (jpiv = m \/ In jpiv (pat xj top px) /\ get x jpiv <> 0 /\ get q jpiv < 0) /\
    (forall j, In j (pat xj top px) -> get x j <> 0 -> get q j < 0 -> jpiv <= j) /\
    match L, L' with
    | Some L, Some L' => twf (nz L' lnz') /\ tx L' <> None /\ tn L' = tn L /\ tm L' = tm L /\ tprime L' = tprime L /\
        len (tj L') = len (tj L) /\ tlist (nz L' lnz') = tlist (nz L lnz) ++ map (fun e => (io, fst e, snd e)) (lrow q x (pat xj top px)) /\
        lnz' = lnz + len (lrow q x (pat xj top px)) /\ lnz' <= lnz + (px - top)
    | None, None => lnz' = lnz
    | _, _ => False end)).
  - lia.
  - unfold pat at 1 2. rewrite zseq_empty by lia. split; auto. split; [easy|]. destruct L as [L|]; auto.
    unfold pat. rewrite zseq_empty by lia. cbn [lrow map filter]. rewrite app_nil_r. change (len (@nil (Z * Z))) with 0.
    destruct HL as (H1 & H2 & _). repeat (split; auto); lia.
  - intros px [[jpiv L'] lnz'] Hpx (I1 & I2 & I3).
    assert (Hin : In (get xj px) (pat xj top m)) by (apply In_pat; eauto).
    destruct (Hjs _ Hin) as [Hj Hjx].
    apply sat_bind, sat_aget; [lia|]. apply sat_bind, sat_aget; [lia|].
    assert (Hp : pat xj top (px + 1) = pat xj top px ++ [get xj px]) by (unfold pat; rewrite zseq_S by lia; now rewrite map_app).
    assert (Hl : lrow q x (pat xj top (px + 1)) = lrow q x (pat xj top px) ++
      (if negb (get x (get xj px) =? 0) && negb (get q (get xj px) <? 0) then [(get q (get xj px), get x (get xj px))] else [])).
    { rewrite Hp. unfold lrow. rewrite filter_app, map_app. f_equal. cbn [filter]. destruct (andb _ _); reflexivity. }
    set (j := get xj px) in *.
    assert (Hold : (jpiv = m \/ In jpiv (pat xj top (px + 1)) /\ get x jpiv <> 0 /\ get q jpiv < 0)).
    { destruct I1 as [I1|I1]; auto. right. split; [|tauto]. rewrite Hp, in_app_iff. tauto. }
    destruct (Z.eqb_spec (get x j) 0) as [E|E].
    + cbn [sat]. rewrite Hl. cbn [negb andb]. rewrite app_nil_r. split; auto. split.
      { intros c Hc. rewrite Hp, in_app_iff in Hc. destruct Hc as [Hc|[<-|[]]]; auto. intros H. now contradiction H. }
      destruct L as [L|], L' as [L'|]; auto. destruct I3 as (G1 & G2 & G3 & G4 & G5 & G6 & G7 & G8 & G9). repeat (split; auto). lia.
    + apply sat_bind, sat_aget; [lia|]. destruct (Z.ltb_spec (get q j) 0) as [Hq0|Hq0].
      * cbn [sat]. rewrite Hl. cbn [negb andb]. rewrite app_nil_r. split.
        { destruct (j <? jpiv); [|exact Hold]. right. rewrite Hp, in_app_iff. cbn. auto. }
        split. { intros c Hc H1 H2. rewrite Hp, in_app_iff in Hc. destruct Hc as [Hc|[<-|[]]].
          - specialize (I2 c Hc H1 H2). destruct (Z.ltb_spec j jpiv); lia.
          - destruct (Z.ltb_spec j jpiv); lia. }
        destruct L as [L|], L' as [L'|]; auto. destruct I3 as (G1 & G2 & G3 & G4 & G5 & G6 & G7 & G8 & G9). repeat (split; auto). lia.
      * assert (Hcand : forall c, In c (pat xj top (px + 1)) -> get x c <> 0 -> get q c < 0 -> jpiv <= c).
        { intros c Hc H1 H2. rewrite Hp, in_app_iff in Hc. destruct Hc as [Hc|[<-|[]]]; auto. lia. }
        destruct L as [L|], L' as [L'|]; try easy.
        destruct I3 as (G1 & G2 & G3 & G4 & G5 & G6 & G7 & G8 & G9). destruct HL as (H1 & H2 & H3 & H4 & H5).
        apply sat_bind. eapply sat_mono.
        { apply tput_ok; auto; try lia. specialize (H5 j Hin). lia. }
        cbv beta. intros L2 (K1 & K2 & K3 & K4 & K5 & K6 & K7). cbn [sat]. split; auto. split; auto.
        rewrite Hl. cbn [negb andb]. split; [auto|]. split; [auto|]. split; [congruence|]. split; [congruence|]. split; [congruence|]. split; [congruence|].
        split. { rewrite K7, G7, map_app, app_assoc. reflexivity. }
        rewrite len_app. change (len [(get q j, get x j)]) with 1. lia.
  - intros [[jpiv L'] lnz'] (I1 & I2 & I3). split; auto. split; auto. destruct L as [L|], L' as [L'|]; auto. tauto.
Qed.

Lemma gplu_row_ok p U q xj x top m jpiv : ok_modulus p -> Znumtheory.prime p -> elim p U q -> cm U = m ->
  0 <= top <= m -> m <= len xj -> NoDup (pat xj top m) ->
  (forall j, In j (pat xj top m) -> 0 <= j < m /\ j < len x /\ balanced p (get x j)) ->
  In jpiv (pat xj top m) -> get x jpiv <> 0 -> get q jpiv < 0 ->
  nnz U + m <= len (cj U) -> cn U + 2 <= len (cp U) ->
  sat (gplu_row p U (upd q jpiv (cn U)) xj x top m jpiv (nnz U)) (fun '(U', unz) => exists r,
    appended U U' r /\ unz = nnz U' /\ elim p U' (upd q jpiv (cn U)) /\
    (forall c, cong p (lentry c (srow q x (pat xj top m))) (get x jpiv * entry U' (cn U) c))).
Proof.
  intros Hmod Hprime HE Hm Ht Hxj HND Hjs Hpin Hpx Hpq Hroom Hlp. pose proof HE as [W X P Up F R].
  assert (Hp2 : 2 <= p) by (unfold ok_modulus in Hmod; lia).
  destruct (Hjs jpiv Hpin) as (Hjr & Hjx & Hjb). set (q' := upd q jpiv (cn U)).
  pose proof (wf_n U W) as Hn. pose proof (wf_nnz U W) as Hnu. pose proof (up_len _ _ _ Up) as Hql. rewrite Hm in Hql.
  destruct (cx U) as [Ux|] eqn:EU; [|easy]. pose proof (wf_vals U W Ux EU) as Hlu. pose proof (len_ulist U W) as Hul.
  unfold gplu_row. apply sat_bind, sat_aset; [lia|]. rewrite EU. cbn [deref bind]. apply sat_bind, sat_aset; [lia|].
  apply sat_bind, sat_aget; [lia|]. apply sat_bind, sat_assert; [lia|]. set (v := get x jpiv) in *. set (beta := zinv p v).
  set (ok := fun j => negb (get x j =? 0) && (get q' j <? 0)).
  set (rest := fun px => map (fun j => (j, zmul p beta (get x j))) (filter ok (pat xj top px))).
  assert (Hq' : forall c, get q' c = if jpiv =? c then cn U else get q c) by (intros; apply get_upd_in; lia).
  assert (Hsplit : forall px, top <= px <= m -> len (rest px) + 1 <= m).
  { intros px Hpx'. unfold rest. rewrite len_map.
    assert (H1 : len (filter ok (pat xj top px)) <= len (filter ok (pat xj top m))).
    { assert (E : pat xj top m = pat xj top px ++ map (get xj) (zseq px m)) by (unfold pat; rewrite (zseq_split top px m) by lia; apply map_app).
      rewrite E, filter_app, len_app. pose proof (len_nonneg (filter ok (map (get xj) (zseq px m)))). lia. }
    assert (H2 : len (filter ok (pat xj top m)) < len (pat xj top m)).
    { apply (filter_len_lt U ok _ jpiv); auto. unfold ok. rewrite Hq', Z.eqb_refl. lia. }
    unfold pat in H2 at 2. rewrite len_map, len_zseq in H2. lia. }
  apply sat_bind. apply (for_spec (fun px '(Uj, Vx, unz) => Built Uj (Some Vx) (ulist U ++ (jpiv, 1) :: rest px) /\
    unz = nnz U + 1 + len (rest px) /\ len Uj = len (cj U))).
  - lia.
  - unfold rest, pat. rewrite zseq_empty by lia. cbn [map filter]. change (len (@nil (Z * Z))) with 0. rewrite len_upd. split; [|split; auto; lia].
    pose proof (Built_app (cj U) (Some Ux) (ulist U) jpiv 1 (Built_ulist U Ux W EU)) as HB. rewrite Hul in HB.
    apply HB; [lia|discriminate].
  - intros px [[Uj Vx] unz] Hpx' (B & Eu & Hj).
    assert (Hin : In (get xj px) (pat xj top m)) by (apply In_pat; eauto). destruct (Hjs _ Hin) as (Hr1 & Hr2 & _).
    apply sat_bind, sat_aget; [lia|]. apply sat_bind, sat_aget; [lia|].
    assert (Hsnoc : rest (px + 1) = rest px ++ (if ok (get xj px) then [(get xj px, zmul p beta (get x (get xj px)))] else [])).
    { unfold rest, pat. rewrite zseq_S by lia. rewrite map_app, filter_app, map_app. f_equal. cbn [map filter]. destruct (ok _); reflexivity. }
    pose proof (Hsplit (px + 1) ltac:(lia)) as Hsp. rewrite Hsnoc in *. unfold ok in Hsp |- *. set (j := get xj px) in *.
    destruct (Z.eqb_spec (get x j) 0) as [E|E]; cbn [negb andb] in *.
    + rewrite app_nil_r. cbn. auto.
    + apply sat_bind, sat_aget; [unfold q'; rewrite len_upd; lia|]. destruct (get q' j <? 0); cbn [negb] in *.
      2:{ rewrite app_nil_r. cbn. auto. }
      pose proof B as (B1 & B2 & _). cbn in B2. pose proof (len_nonneg (rest px)).
      rewrite len_app in Hsp. change (len [(j, zmul p beta (get x j))]) with 1 in Hsp.
      apply sat_bind, sat_aset; [lia|]. apply sat_bind, sat_aset; [lia|]. cbn [sat].
      rewrite len_upd. split; [|split; auto; rewrite len_app; change (len [(j, zmul p beta (get x j))]) with 1; lia].
      pose proof (Built_app Uj (Some Vx) (ulist U ++ (jpiv, 1) :: rest px) j (zmul p beta (get x j)) B) as HB.
      rewrite len_app, len_cons, Hul in HB. replace (nnz U + (1 + len (rest px))) with unz in HB by lia.
      rewrite <- app_assoc in HB. cbn [app oupd option_map] in HB. apply HB; [lia|discriminate].
  - intros [[Uj Vx] unz] (B & Eu & Hj). apply sat_bind, sat_aset; [lia|]. cbn [sat].
    set (r := (jpiv, 1) :: rest m) in *.
    assert (Hr : forall e, In e (rest m) -> fst e <> jpiv /\ get q (fst e) < 0 /\ 0 <= fst e < m /\ balanced p (snd e)).
    { intros e He. unfold rest in He. apply in_map_iff in He. destruct He as (j & <- & Hj'). apply filter_In in Hj'. destruct Hj' as [Hj1 Hj2].
      unfold ok in Hj2. rewrite Hq' in Hj2. cbn [fst snd]. destruct (Hjs j Hj1) as (G1 & G2 & G3).
      destruct (Z.eqb_spec jpiv j); [lia|]. split; [auto|]. split; [lia|]. split; [auto|]. apply zmul_balanced; auto. }
    assert (Happ : appended U (Csr (cn U + 1) (cm U) (upd (cp U) (cn U + 1) (nnz U + len r)) Uj (Some Vx) (cprime U)) r).
    { apply appended_ok; auto. intros e [<-|He]; [cbn [fst]; lia|]. rewrite Hm. now apply Hr. }
    assert (Eunz : unz = nnz U + len r) by (unfold r; rewrite len_cons; lia). rewrite Eunz.
    exists r. split; [auto|]. split; [symmetry; apply (ap_nnz _ _ _ Happ)|]. split.
    + apply (elim_append p U q _ jpiv (rest m)); auto; try lia. intros e He. apply Hr in He. tauto.
    + intros c. rewrite (ap_entry_new _ _ _ _ Happ). unfold r, rest, srow. rewrite lentry_cons.
      destruct (zinv_ok p v Hmod Hprime) as [_ Hinv].
      { unfold balanced, ok_modulus in *. pose proof (Z.div_mod p 2 ltac:(lia)). pose proof (Z.mod_pos_bound p 2 ltac:(lia)). lia. }
      { apply balanced_nz; auto. }
      rewrite (lentry_map (fun j => zmul p beta (get x j))), (lentry_map (get x)) by (apply NoDup_filter; auto).
      destruct (Z.eqb_spec jpiv c) as [<-|Hne].
      * destruct (in_dec Z.eq_dec jpiv (filter ok (pat xj top m))) as [H|H].
        { apply filter_In in H. destruct H as [_ H]. unfold ok in H. rewrite Hq', Z.eqb_refl in H. lia. }
        destruct (in_dec Z.eq_dec jpiv _) as [H'|H']; [fold v; apply cong_eq; ring|].
        exfalso. apply H', filter_In. split; auto. fold v. lia.
      * assert (Heq : In c (filter ok (pat xj top m)) <-> In c (filter (fun j => negb (get x j =? 0) && (get q j <? 0)) (pat xj top m))).
        { rewrite !filter_In. unfold ok. rewrite Hq'. replace (jpiv =? c) with false by lia. reflexivity. }
        destruct (in_dec Z.eq_dec c _) as [H|H], (in_dec Z.eq_dec c _) as [H'|H']; try tauto.
        -- rewrite Z.add_0_l. rewrite (zmul_cong p ltac:(lia) beta (get x c)). unfold beta.
           replace (v * (zinv p v * get x c)) with (v * zinv p v * get x c) by ring. rewrite Hinv. apply cong_eq. ring.
        -- apply cong_eq. ring.
Qed.

(** ** One row *)
Lemma tcoef_map_row i c lr : tcoef i c (map (fun e => (i, fst e, snd e)) lr) = lentry c lr.
Proof.
  unfold tcoef. rewrite lsum_map. unfold lentry. induction lr as [|[a v] lr IH]; [reflexivity|]. rewrite lsum_cons, IH. cbn [fst snd].
  rewrite Z.eqb_refl. cbn. destruct (a =? c); reflexivity.
Qed.
Lemma tcoef_map_other i i0 c lr : i <> i0 -> tcoef i0 c (map (fun e : Z * Z => (i, fst e, snd e)) lr) = 0.
Proof. intros H. apply tcoef_row. intros e He. apply in_map_iff in He. destruct He as (a & <- & _). cbn. auto. Qed.

Lemma inv_one p A0 (full : Prop) comp f f' A o i rem u1 lr k pv :
  ok_modulus p -> Znumtheory.prime p -> inv p A0 full comp f A o (i :: rem) u1 ->
  elim p (f_U f') (f_q f') -> cm (f_U f') = cm (f_U f) -> len (cp (f_U f')) = len (cp (f_U f)) ->
  k = 0 \/ k = 1 /\ balanced p pv /\ pv <> 0 -> cn (f_U f') = cn (f_U f) + k ->
  (forall i c, 0 <= i < cn (f_U f) -> entry (f_U f') i c = entry (f_U f) i c) ->
  (forall c, 0 <= c < cm (f_U f) -> get (f_q f') c = get (f_q f) c \/ cn (f_U f) <= get (f_q f') c) ->
  (forall j, 0 <= j < cm A0 -> cong p (entry A i j) (xA (f_U f) (fun c => lentry c lr) j + k * (pv * entry (f_U f') (cn (f_U f)) j))) ->
  (forall c v, In (c, v) lr -> 0 <= c < cn (f_U f) /\ balanced p v /\ v <> 0) -> NoDup (map fst lr) ->
  match f_L f, f_L f' with
  | Some L, Some L' => twf L' /\ tx L' <> None /\ tn L' = tn L /\ tprime L' = tprime L /\ cn (f_U f') <= tm L' /\
      tlist L' = tlist L ++ map (fun e => (o i, fst e, snd e)) (lr ++ if k =? 1 then [(cn (f_U f), pv)] else []) /\
      f_p f' = (if k =? 1 then upd (f_p f) (cn (f_U f)) (o i) else f_p f)
  | None, None => True
  | _, _ => False end ->
  inv p A0 full comp f' A o rem u1.
Proof.
  intros Hmod Hprime HI Hel Hm Hlen Hk Hn Hold Hq HA Hlr HN HL.
  assert (Hp2 : 2 <= p) by (unfold ok_modulus in *; lia).
  pose proof HI as [I1 I2 I3 I4 I5 I6 I7 I8 I9 I10 I11 I12 I13 I14 I15 I16].
  set (U := f_U f) in *. set (U' := f_U f') in *. pose proof (wf_n U (el_wf _ _ _ I1)) as Hun.
  assert (Hk01 : 0 <= k <= 1) by lia.
  destruct (I10 i ltac:(cbn; auto)) as [Hi Hoi].
  assert (Hxi : in_rowspace p A0 (entry A i)) by (apply I14; cbn; auto).
  assert (HxA : forall x j, xA U' x j = xA U x j + (if k =? 1 then x (cn U) * entry U' (cn U) j else 0)).
  { intros x j. rewrite (xA_ext_rows U U' k x j); try lia; auto. f_equal. destruct (Z.eqb_spec k 1) as [->|].
    - rewrite sum_first, sum_empty by lia. rewrite !Z.add_0_r. reflexivity.
    - rewrite sum_empty by lia. reflexivity. }
  assert (Hcol : forall c v, In (c, v) lr -> u1 <= c).
  { intros c v Hc. destruct (Hlr c v Hc) as (H1 & H2 & H3). destruct (Z_lt_le_dec c u1) as [Hlt|]; auto. exfalso.
    assert (Hl : lentry c lr = v). { clear - HN Hc. induction lr as [|[a w] lr IH]; [easy|]. cbn [map fst] in HN. inversion HN as [|? ? G1 G2]; subst.
      rewrite lentry_cons. destruct Hc as [E|Hc].
      - injection E as -> ->. rewrite Z.eqb_refl, lentry_absent by auto. lia.
      - rewrite IH by auto. destruct (Z.eqb_spec a c) as [->|]; [|lia]. exfalso. apply G1, in_map_iff. exists (c, v). auto. }
    apply (balanced_nz p v); auto. rewrite <- Hl.
    apply (upper_low_zero p U (f_q f) u1 (fun c => lentry c lr)); [apply I1|apply I1|lia| |lia].
    intros j Hj Hqj. specialize (HA j ltac:(congruence)). rewrite (entry_absent A) in HA by (intros Hs; apply (I12 i j) in Hs; cbn; auto).
    destruct (Z.eq_dec k 1) as [->|]; [|assert (k = 0) as -> by lia; rewrite Z.mul_0_l, Z.add_0_r in HA; now symmetry].
    rewrite (entry_absent U') in HA; [rewrite !Z.mul_0_r, Z.add_0_r in HA; now symmetry|].
    apply (up_tri _ _ _ (el_up _ _ _ Hel)); [fold U'; lia| |lia]. destruct (Hq j ltac:(lia)) as [->|Hx]; [lia|].
    exfalso. destruct (upper_columns p U (f_q f) (el_wf _ _ _ I1) (el_up _ _ _ I1)) as (col & _ & _).
    pose proof (up_rng _ _ _ (el_up _ _ _ Hel) j ltac:(lia)) as Hr. fold U' in Hr.
    destruct (upper_columns p U' (f_q f') (el_wf _ _ _ Hel) (el_up _ _ _ Hel)) as (col' & Hc' & Hc2').
    (* the pivot of a row of U is still there *)
    assert (Hqu : get (f_q f') j = cn U) by lia.
    assert (Hrow : exists c', 0 <= c' < cm U' /\ get (f_q f') c' = get (f_q f) j) by (apply (up_row _ _ _ (el_up _ _ _ Hel)); fold U'; lia).
    destruct Hrow as (c' & Hc'r & Hc'q). destruct (Hq c' ltac:(lia)) as [E|E]; [|lia]. rewrite E in Hc'q.
    assert (c' = j). { apply (up_inj _ _ _ (el_up _ _ _ I1)); fold U; lia. } subst c'. lia. }
  assert (Hnew : k = 1 -> in_rowspace p A0 (entry U' (cn U))).
  { intros ->. destruct Hk as [|(_ & Hb & Hz)]; [lia|]. destruct (cong_inverse p pv Hmod Hprime Hb Hz) as (b & Eb).
    eapply in_rowspace_ext; [|apply in_rowspace_scale with (k := b); apply in_rowspace_sub;
      [apply Hxi|apply (in_rowspace_trans p U A0 (xA U (fun c => lentry c lr)) I2 I13 (in_rowspace_xA _ _ _))]].
    intros j Hj. cbv beta. rewrite (HA j Hj). rewrite Z.mul_1_l.
    replace (b * (xA U (fun c => lentry c lr) j + pv * entry U' (cn U) j - xA U (fun c => lentry c lr) j)) with (b * pv * entry U' (cn U) j) by ring.
    rewrite Eb. apply cong_eq. ring. }
  set (delta := fun c => (if c <? cn U then lentry c lr else 0) + (if (c =? cn U) && (k =? 1) then pv else 0)).
  assert (HAd : forall j, 0 <= j < cm A0 -> cong p (entry A i j) (xA U' delta j)).
  { intros j Hj. rewrite (HA j Hj), HxA. unfold delta at 2. rewrite Z.ltb_irrefl, Z.eqb_refl. cbn [andb].
    rewrite (xA_ext U delta (fun c => lentry c lr)).
    2:{ intros c Hc. unfold delta. replace (c <? cn U) with true by lia. replace (c =? cn U) with false by lia. cbn [andb]. ring. }
    destruct (Z.eqb_spec k 1) as [->|]; [apply cong_eq; ring|]. assert (k = 0) as -> by lia. apply cong_eq. ring. }
  apply (inv_batch p A0 full full comp f f' A o (i :: rem) [i] rem u1 k); auto; fold U U'.
  - change (len [i]) with 1. lia.
  - intros l Hl. replace (cn U + l) with (cn U) by lia. apply Hnew. lia.
  - intros F. split; auto. intros i' [<-|[]]. exists delta. intros j Hj. symmetry. apply HAd. congruence.
  - destruct (f_L f) as [L|] eqn:EL, (f_L f') as [L'|] eqn:EL'; try easy.
    destruct HL as (W & X & N & P & M & TL & LP).
    destruct I16 as [Q1 Q2 Q3 Q4 Q5 Q6 Q7 Q8 Q9 Q10].
    set (lr' := lr ++ if k =? 1 then [(cn U, pv)] else []) in *.
    set (es := map (fun e => (o i, fst e, snd e)) lr') in *.
    assert (Hlr' : forall c v, In (c, v) lr' -> u1 <= c < cn U' /\ balanced p v /\ v <> 0).
    { intros c v Hc. unfold lr' in Hc. apply in_app_iff in Hc. destruct Hc as [Hc|Hc].
      - destruct (Hlr c v Hc) as (H1 & H2). pose proof (Hcol c v Hc). split; [lia|auto].
      - destruct (Z.eqb_spec k 1) as [E|]; [|easy]. destruct Hc as [E2|[]]. injection E2 as <- <-. split; [lia|]. destruct Hk as [|Hk]; [lia|]. tauto. }
    assert (HN' : NoDup (map fst lr')).
    { unfold lr'. rewrite map_app. apply NoDup_app; auto.
      - destruct (k =? 1); repeat constructor. easy.
      - intros c Hc Hc2. apply in_map_iff in Hc. destruct Hc as ([c' v] & E & Hc). cbn in E. subst c'. destruct (Hlr c v Hc) as [H _].
        destruct (k =? 1); [|easy]. destruct Hc2 as [E|[]]. cbn in E. lia. }
    assert (HE : forall i0 c, tentry L' i0 c = tentry L i0 c + tcoef i0 c es).
    { intros i0 c. rewrite !tentry_tcoef, TL. apply tcoef_app. }
    assert (HEi : forall c, tcoef (o i) c es = delta c).
    { intros c. unfold es. rewrite tcoef_map_row. unfold lr', delta. rewrite lentry_app. f_equal.
      - destruct (Z.ltb_spec c (cn U)); auto. apply lentry_absent. rewrite in_map_iff. intros ([c' v] & E & Hc). cbn in E. subst c'.
        destruct (Hlr c v Hc). lia.
      - destruct (k =? 1); [|now rewrite andb_false_r]. rewrite lentry_cons, Z.eqb_sym. rewrite andb_true_r. unfold lentry. cbn. lia. }
    assert (Hz : forall c, cn U <= c -> tentry L (o i) c = 0).
    { intros c Hc. apply tentry_unstored. intros Hs. pose proof (lt_col _ _ _ _ Q1 _ _ Hs) as H. fold U in H. lia. }
    split.
    { apply (ltri_app p (cn A0) (cn U) (cn U') L L' es); auto; try lia.
      - intros i0 c v Hc. unfold es in Hc. apply in_map_iff in Hc. destruct Hc as ([c' v'] & E & Hc). cbn in E. injection E as <- <- <-.
        destruct (Hlr' _ _ Hc) as (H1 & H2 & H3). split; auto. split; auto. split; [lia|].
        intros Hs. apply (Q9 i) in Hs; [|cbn; auto]. lia.
      - unfold es. rewrite map_map. cbn [fst]. assert (E : map (fun e : Z * Z => (o i, fst e)) lr' = map (fun c => (o i, c)) (map fst lr')) by (now rewrite map_map).
        rewrite E. apply FinFun.Injective_map_NoDup; auto. intros a b Hab. now injection Hab. }
    split. { rewrite LP. destruct (k =? 1); auto. apply len_upd. }
    split. { intros i0 Hi0 c. cbn in Hi0. rewrite HE. unfold es. rewrite tcoef_map_other by tauto. split; [ring|].
      intros Hs. apply tstored_tlist in Hs. rewrite TL, map_app, in_app_iff in Hs. destruct Hs as [Hs|Hs]; [now apply tstored_tlist|].
      exfalso. apply in_map_iff in Hs. destruct Hs as (e & E & He). apply in_map_iff in He. destruct He as (e' & <- & _). cbn in E.
      injection E as E _. tauto. }
    split. { intros c Hc. rewrite LP. destruct (k =? 1); auto. rewrite get_upd_ne by lia. auto. }
    exists (fun _ => i), (fun _ => delta). split.
    + intros l Hl. assert (k = 1) as Ek by lia. assert (l = 0) as -> by lia. rewrite !Z.add_0_r. split; [cbn; auto|].
      split. { rewrite LP, Ek. cbn [Z.eqb Pos.eqb]. rewrite get_upd_eq; auto. rewrite len_cons in I4. pose proof (len_nonneg rem). fold U in I4. lia. }
      rewrite HE, HEi, Hz by lia. unfold delta. rewrite Z.ltb_irrefl, Z.eqb_refl, Ek. cbn [Z.eqb Pos.eqb andb].
      split. { rewrite !Z.add_0_l. destruct Hk as [|(_ & Hb & Hz')]; [lia|]. apply balanced_nz; auto. }
      intros c Hc. lia.
    + intros i' [<-|[]] _. split; [|auto]. intros c Hc. rewrite HE, HEi. apply cong_refl.
Qed.

(** ** The main loop *)
Lemma filter_nil {B} (f : B -> bool) l : (forall x, In x l -> f x = false) -> filter f l = [].
Proof. induction l as [|a l IH]; intros H; cbn; auto. rewrite (H a) by (left; auto). apply IH. intros x Hx. apply H. right. auto. Qed.
Definition gcur (s : gplu_st) : fact := Fact (g_U s) (g_q s) (option_map (fun L => nz L (g_lnz s)) (g_L s)) (g_lp s).

Section gplu.
Context (g : Z -> Z -> Z) (test : csr -> list Z -> res bool) (p : Z) (A0 A : csr) (comp : bool) (pr : list Z) (n : Z)
  (p_in : option (list Z)) (u1 : Z).
Context (Hmod : ok_modulus p) (Hprime : Znumtheory.prime p).
Context (Htest : forall U q, elim p U q -> cm U = cm A -> sat (test U q) (fun _ => True)).
Context (Hn : 0 <= n <= len pr) (Hpin : match p_in with Some l => len l = cn A | None => True end).
(* the completion test is not wrong about U *)
Definition honest (U : csr) (q : list Z) : Prop := test U q = Ok true -> forall i, 0 <= i < n -> in_rowspace p U (entry A (get pr i)).
Context (hasL : bool) (full : Prop).

Definition gscratch (s : gplu_st) : Prop :=
  len (g_xj s) = cm A /\ len (g_ps s) = cm A /\ len (g_mk s) = cm A /\ (forall c, 0 <= c < cm A -> get (g_mk s) c = 0) /\ cm A <= len (g_x s).
Definition ginv (i : Z) (s : gplu_st) : Prop :=
  inv p A0 full comp (gcur s) A (oapply p_in) (map (get pr) (zseq i n)) u1 /\ g_unz s = nnz (g_U s) /\
  match g_L s with Some L => tm L = cn A0 | None => True end /\ is_some (g_L s) = hasL /\ gscratch s.
Definition gdone (s : gplu_st) : Prop :=
  inv p A0 (full /\ (hasL = true \/ cn A = cn A0 /\ honest (g_U s) (g_q s))) comp (gcur s) A (oapply p_in) [] u1 /\ is_some (g_L s) = hasL.

Lemma gplu_step_ok i s : 0 <= i < n -> ginv i s ->
  sat (gplu_step g test A pr n p_in i s) (fun o => match o with inl s' => ginv (i + 1) s' | inr s' => gdone s' end).
Proof.
  intros Hi (HI & Hunz & Htm & HhL & (S1 & S2 & S3 & S4 & S5)).
  assert (Hp2 : 2 <= p) by (unfold ok_modulus in *; lia).
  pose proof HI as [I1 I2 I3 I4 I5 I6 I7 I8 I9 I10 I11 I12 I13 I14 I15 I16]. cbn [gcur f_U f_q f_L f_p] in *.
  assert (Hrem : map (get pr) (zseq i n) = get pr i :: map (get pr) (zseq (i + 1) n)) by (rewrite zseq_cons by lia; reflexivity).
  assert (HmU : cm (g_U s) = cm A) by congruence.
  unfold gplu_step. rewrite HhL.
  (* early aborts *)
  destruct (negb hasL && (cn (g_U s) =? Z.min (cn A) (cm A))) eqn:Estop.
  { cbn [sat]. split; auto. eapply (inv_drop p A0 full _ comp (gcur s) A (oapply p_in) (map (get pr) (zseq i n)) u1); auto.
    - intros [F0 F]. split; auto. intros k Hk. destruct F as [|[HnA _]]; [destruct hasL; easy|]. destruct hasL; [easy|].
      cbn [negb andb] in Estop. destruct (Z.eq_dec (cn (g_U s)) (cm A)) as [E|E].
      + apply (upper_full p (g_U s) (g_q s)); [apply I1|apply I1|congruence].
      + exfalso. assert (cn (g_U s) = cn A0) by lia. rewrite Hrem, len_cons in I4.
        pose proof (len_nonneg (map (get pr) (zseq (i + 1) n))). lia.
    - intros _ HL. exfalso. apply HL. cbn. destruct (g_L s); auto. destruct hasL; easy. }
  apply sat_bind.
  apply sat_mono with (P := fun '(stop, tested) => stop = true -> hasL = false /\ test (g_U s) (g_q s) = Ok true).
  { destruct (_ && _ && _ && _) eqn:Et; [|easy]. pose proof (Htest (g_U s) (g_q s) I1 HmU) as Hs.
    apply sat_Ok in Hs. destruct Hs as (b & Eb & _). rewrite Eb. cbn. intros ->. split; auto. destruct hasL; [easy|auto]. }
  intros [stop tested] Hstop. destruct stop.
  { destruct (Hstop eq_refl) as [HL0 Hb]. cbn [sat]. split; auto.
    eapply (inv_drop p A0 full _ comp (gcur s) A (oapply p_in) (map (get pr) (zseq i n)) u1); auto.
    - intros [F0 F]. split; auto. intros k Hk. destruct F as [|[_ Hh]]; [congruence|]. apply in_map_iff in Hk. destruct Hk as (l & <- & Hl).
      apply In_zseq in Hl. apply Hh; auto. lia.
    - intros _ HL. exfalso. apply HL. cbn. destruct (g_L s); auto. cbn in HhL. congruence. }
  clear Hstop Estop.
  (* room in U *)
  pose proof (wf_m A I5) as HmA. pose proof (wf_nnz (g_U s) (el_wf _ _ _ I1)) as Hnu. pose proof (wf_n (g_U s) (el_wf _ _ _ I1)) as Hun.
  apply sat_bind.
  apply sat_mono with (P := fun U => elim p U (g_q s) /\ same_entries (g_U s) U /\ nnz U + cm A <= len (cj U)).
  { destruct (Z.ltb_spec (len (cj (g_U s))) (g_unz s + cm A)) as [Hlt|Hge].
    - eapply sat_mono; [apply csr_realloc_ok; [apply I1|]|].
      + right. pose proof (len_nonneg (cj (g_U s))). lia.
      + cbv beta. intros U (W & HS & HLn & HX). split; [apply (elim_same p (g_U s) (g_q s)); auto|]. split; [auto|].
        assert (Hnn : nnz U = nnz (g_U s)) by (destruct HS as (E1 & _ & E3 & _); unfold nnz; congruence).
        rewrite Hnn, HLn. replace (2 * len (cj (g_U s)) + cm A <? 0) with false by (pose proof (len_nonneg (cj (g_U s))); lia). lia.
    - cbn. split; auto. split; [|lia]. repeat (split; auto). }
  intros U (HU & HS & HroomU). pose proof HS as (E1 & E2 & E3 & E4 & E5).
  assert (HnnU : nnz U = nnz (g_U s)) by (unfold nnz; congruence).
  assert (HeU : forall k c, 0 <= k < cn (g_U s) -> entry U k c = entry (g_U s) k c).
  { intros k c Hk. rewrite !entry_rowl. now rewrite (same_rowl (g_U s) U) by (auto; apply I1). }
  (* room in L *)
  set (L1 := option_map _ (g_L s)).
  assert (HL1 : match g_L s, L1 with
    | Some L, Some L' => twf (nz L' (g_lnz s)) /\ tx L' <> None /\ tn L' = tn L /\ tm L' = tm L /\ tprime L' = tprime L /\
        tlist (nz L' (g_lnz s)) = tlist (nz L (g_lnz s)) /\ g_lnz s + cm A <= len (tj L')
    | None, None => True | _, _ => False end).
  { unfold L1. destruct (g_L s) as [L|]; auto. cbn [option_map] in *. destruct I16 as [[T1 T2 T3 T4 T5 T6 T7 T8] _ _ _ _ _ _ _ _ _]. cbn [nz tx tn tm tprime] in *.
    destruct (Z.ltb_spec (len (tj L)) (g_lnz s + cm A)) as [Hlt|Hge].
    - destruct (nz_realloc g L (g_lnz s) (2 * len (tj L) + cm A) T1) as (G1 & G2 & G3 & G4 & G5 & G6 & G7).
      { destruct T1 as (_ & _ & T1 & _). cbn in T1. lia. }
      split; [auto|]. split; [tauto|]. split; [auto|]. split; [auto|]. split; [auto|]. split; [auto|].
      destruct T1 as (_ & _ & T1 & _). cbn in T1. lia.
    - repeat (split; auto). }
  clearbody L1.
  (* the row *)
  apply sat_bind, sat_aget; [lia|]. set (r := get pr i) in *.
  destruct (I10 r ltac:(rewrite Hrem; cbn; auto)) as [Hr Hor].
  apply sat_bind.
  apply sat_mono with (P := fun io => io = oapply p_in r).
  { unfold operm_get. destruct p_in as [l|]; cbn; auto. apply sat_aget; [lia|auto]. }
  intros io ->. set (io := oapply p_in r) in *.
  apply sat_bind. eapply sat_mono.
  { apply (solve_rows p U A r (g_q s)); auto. - apply I8. - congruence. }
  intros [[[[top xj] ps] mk] x] (T1 & T2 & T3 & T4 & T5 & T6 & _ & HND & Hjs & HA). set (js := pat xj top (cm A)) in *.
  pose proof (up_len _ _ _ (el_up _ _ _ I1)) as Hql. rewrite HmU in Hql.
  apply sat_bind. eapply sat_mono.
  { apply (gplu_scan_ok (g_q s) xj x top (cm A) io L1 (g_lnz s)); try lia.
    - intros j Hj. destruct (Hjs j Hj). lia.
    - destruct (g_L s) as [L|], L1 as [L1|]; try easy. destruct HL1 as (G1 & G2 & G3 & G4 & G5 & G6 & G7). cbn [option_map] in I16.
      destruct I16 as [[Q1 Q2 Q3 Q4 Q5 Q6 Q7 Q8] _ _ _ _ _ _ _ _ _]. cbn [nz tn tm] in *.
      split; [auto|]. split; [auto|]. split; [auto|]. split; [lia|]. intros j Hj.
      pose proof (up_rng _ _ _ (el_up _ _ _ I1) j ltac:(rewrite HmU; apply Hjs; auto)). lia. }
  cbv beta. fold js. intros [[jpiv L2] lnz] (J1 & J2 & HL2).
  set (lr := lrow (g_q s) x js) in *.
  assert (Hlr : forall c v, In (c, v) lr -> 0 <= c < cn (g_U s) /\ balanced p v /\ v <> 0).
  { intros c v Hc. unfold lr, lrow in Hc. apply in_map_iff in Hc. destruct Hc as (j & E & Hj). injection E as <- <-.
    apply filter_In in Hj. destruct Hj as [Hj Hb]. destruct (Hjs j Hj) as [Hj1 Hj2].
    pose proof (up_rng _ _ _ (el_up _ _ _ I1) j ltac:(rewrite HmU; auto)). split; [lia|]. split; [auto|]. lia. }
  assert (HlrN : NoDup (map fst lr)).
  { unfold lr, lrow. rewrite map_map. cbn [fst]. apply NoDup_map_in; [apply NoDup_filter; auto|].
    intros a b Ha Hb E. apply filter_In in Ha, Hb. destruct Ha as [Ha Ha'], Hb as [Hb Hb'].
    apply (up_inj _ _ _ (el_up _ _ _ I1)); rewrite ?HmU; [now apply Hjs|now apply Hjs|lia|exact E]. }
  assert (HxU : forall y j, xA U y j = xA (g_U s) y j). { intros y j. unfold xA. rewrite E1. apply sum_ext. intros k Hk. now rewrite HeU. }
  assert (Hscr : forall U q L lp a b c d, gscratch (Gst U q L lp a b c d xj ps mk x)).
  { intros. unfold gscratch. cbn. repeat (split; auto). lia. }
  destruct (Z.eqb_spec jpiv (cm A)) as [Ej|Ej].
  - (* no pivot *)
    cbn [sat]. assert (Hs0 : srow (g_q s) x js = []).
    { unfold srow. rewrite (filter_nil (fun j => negb (get x j =? 0) && (get (g_q s) j <? 0)) js); auto.
      intros j Hj. destruct (negb (get x j =? 0) && (get (g_q s) j <? 0)) eqn:E; auto. exfalso.
      specialize (J2 j Hj ltac:(lia) ltac:(lia)). destruct (Hjs j Hj). lia. }
    unfold ginv. cbn [gcur g_U g_q g_L g_lp g_unz g_lnz]. split.
    + rewrite Hrem in HI.
      apply (inv_one p A0 full comp (gcur s) _ A (oapply p_in) r (map (get pr) (zseq (i + 1) n)) u1 lr 0 0); auto; cbn [gcur f_U f_q f_L f_p g_U g_q g_L g_lp g_lnz].
      * congruence.
      * lia.
      * intros j Hj. rewrite (HA j) by congruence. rewrite Hs0, HxU. apply cong_eq. unfold lentry. cbn. lia.
      * destruct (g_L s) as [L|], L1 as [L1|], L2 as [L2|]; try easy. cbn [option_map]. destruct HL1 as (G1 & G2 & G3 & G4 & G5 & G6 & G7).
        destruct HL2 as (K1 & K2 & K3 & K4 & K5 & K6 & K7 & K8). cbn [nz tx tn tm tprime] in *.
        split; [auto|]. split; [auto|]. split; [congruence|]. split; [congruence|]. split.
        { rewrite E1, K4, G4. cbn [option_map] in I16. destruct I16 as [[_ _ _ _ Q5 _ _ _] _ _ _ _ _ _ _ _ _]. exact Q5. }
        cbn [Z.eqb]. split; auto. change (Triplet lnz (tn L2) (tm L2) (ti L2) (tj L2) (tx L2) (tprime L2)) with (nz L2 lnz).
        rewrite K7, G6, app_nil_r. reflexivity.
    + split; [lia|]. split; [|split; [|apply Hscr]].
      * destruct (g_L s) as [L|], L1 as [L1|], L2 as [L2|]; try easy. destruct HL1 as (G1 & G2 & G3 & G4 & G5 & G6 & G7).
        destruct HL2 as (K1 & K2 & K3 & K4 & K5 & K6 & K7 & K8). congruence.
      * destruct (g_L s) as [L|], L1 as [L1|], L2 as [L2|]; easy.
  - (* pivot *)
    destruct J1 as [J1|(J3 & J4 & J5)]; [easy|]. destruct (Hjs jpiv J3) as [Hjr Hjb].
    assert (Hroom : cn (g_U s) + 1 <= cn A0). { rewrite Hrem, len_cons in I4. pose proof (len_nonneg (map (get pr) (zseq (i + 1) n))). lia. }
    assert (HlrL : len lr + 1 <= cm A).
    { assert (H : len lr < len js). { unfold lr, lrow. rewrite len_map. apply (filter_len_lt A _ _ jpiv); auto. lia. }
      unfold js, pat in H. rewrite len_map, len_zseq in H. lia. }
    apply sat_bind.
    apply sat_mono with (P := fun '(L3, lp, lnz3) => match L2, L3 with
      | Some L2, Some L3 => twf (nz L3 lnz3) /\ tx L3 <> None /\ tn L3 = tn L2 /\ tm L3 = tm L2 /\ tprime L3 = tprime L2 /\
          tlist (nz L3 lnz3) = tlist (nz L2 lnz) ++ [(io, cn U, get x jpiv)] /\ lp = upd (g_lp s) (cn U) io
      | None, None => True | _, _ => False end).
    { unfold gplu_pivot. destruct L2 as [L2|]; [|easy]. destruct (g_L s) as [L|], L1 as [L1|]; try easy. cbn [option_map] in I16.
      destruct HL1 as (G1 & G2 & G3 & G4 & G5 & G6 & G7). destruct HL2 as (K1 & K2 & K3 & K4 & K5 & K6 & K7 & K8).
      destruct I16 as [[Q1 Q2 Q3 Q4 Q5 Q6 Q7 Q8] R2 _ _ _ _ _ _ _ _]. cbn [nz tn tm] in *.
      apply sat_bind, sat_aget; [lia|]. apply sat_bind, sat_assert; [lia|]. apply sat_bind, sat_aset; [lia|].
      apply sat_bind. eapply sat_mono; [apply tput_ok; auto; lia|]. cbv beta. intros L3 (M1 & M2 & M3 & M4 & M5 & M6 & M7).
      cbn [sat]. repeat (split; auto). }
    cbv beta. intros [[L3 lp] lnz3] HL3.
    apply sat_bind, sat_aset; [lia|]. rewrite E1, Hunz, <- HnnU, I7. rewrite <- E1.
    apply sat_bind. eapply sat_mono.
    { apply (gplu_row_ok p U (g_q s) xj x top (cm A) jpiv); auto; try lia; [|rewrite E1, E3; lia].
      intros j Hj. destruct (Hjs j Hj). split; [auto|]. split; [lia|auto]. }
    cbv beta. fold js. intros [U' unz'] (rw & Happ & Hunz' & HU' & Hnew). cbn [sat].
    unfold ginv. cbn [gcur g_U g_q g_L g_lp g_unz g_lnz]. split.
    + rewrite Hrem in HI. pose proof (ap_n _ _ _ Happ) as Hapn.
      apply (inv_one p A0 full comp (gcur s) _ A (oapply p_in) r (map (get pr) (zseq (i + 1) n)) u1 lr 1 (get x jpiv)); auto;
        cbn [gcur f_U f_q f_L f_p g_U g_q g_L g_lp g_lnz].
      * rewrite (ap_m _ _ _ Happ). congruence.
      * rewrite (ap_len _ _ _ Happ). congruence.
      * lia.
      * intros k c Hk. rewrite (ap_entry _ _ _ _ _ Happ) by lia. auto.
      * intros c Hc. rewrite get_upd_in by lia. destruct (Z.eqb_spec jpiv c); [right; lia|left; auto].
      * intros j Hj. rewrite (HA j) by congruence. rewrite HxU, (Hnew j), <- E1. apply cong_eq. ring.
      * destruct (g_L s) as [L|], L1 as [L1|], L2 as [L2|], L3 as [L3|]; try easy. cbn [option_map]. destruct HL1 as (G1 & G2 & G3 & G4 & G5 & G6 & G7).
        destruct HL2 as (K1 & K2 & K3 & K4 & K5 & K6 & K7 & K8). destruct HL3 as (M1 & M2 & M3 & M4 & M5 & M6 & M7). cbn [nz tx tn tm tprime] in *.
        split; [auto|]. split; [auto|]. split; [congruence|]. split; [congruence|]. split; [lia|].
        cbn [Z.eqb Pos.eqb]. split; [|rewrite M7, E1; auto].
        change (Triplet lnz3 (tn L3) (tm L3) (ti L3) (tj L3) (tx L3) (tprime L3)) with (nz L3 lnz3).
        rewrite M6, K7, G6, map_app, <- app_assoc, E1. reflexivity.
    + split; [auto|]. split; [|split; [|apply Hscr]].
      * destruct (g_L s) as [L|], L1 as [L1|], L2 as [L2|], L3 as [L3|]; try easy. destruct HL1 as (G1 & G2 & G3 & G4 & G5 & G6 & G7).
        destruct HL2 as (K1 & K2 & K3 & K4 & K5 & K6 & K7 & K8). destruct HL3 as (M1 & M2 & M3 & M4 & _). congruence.
      * destruct (g_L s) as [L|], L1 as [L1|], L2 as [L2|], L3 as [L3|]; easy.
Qed.
End gplu.

Theorem gplu_ok g test p A0 (full : Prop) comp f A pr n p_in u1 : ok_modulus p -> Znumtheory.prime p ->
  inv p A0 full comp f A (oapply p_in) (map (get pr) (zseq 0 n)) u1 ->
  0 <= n <= len pr -> match p_in with Some l => len l = cn A | None => True end ->
  match f_L f with Some L => tm L = cn A0 | None => True end ->
  (forall U q, elim p U q -> cm U = cm A -> sat (test U q) (fun _ => True)) ->
  sat (echelonize_GPLU g test A pr n p_in f) (fun f' =>
    inv p A0 (full /\ (f_L f <> None \/ cn A = cn A0 /\ honest test p A pr n (f_U f') (f_q f'))) comp f' A (oapply p_in) [] u1 /\
    (f_L f' = None <-> f_L f = None)).
Proof.
  intros Hmod Hprime HI Hn Hpin Htm Htest.
  unfold echelonize_GPLU. pose proof (iv_el _ _ _ _ _ _ _ _ _ HI) as Hel. pose proof (wf_len _ (el_wf _ _ _ Hel)) as Hl.
  pose proof (wf_n _ (el_wf _ _ _ Hel)). pose proof (wf_m A (iv_wfA _ _ _ _ _ _ _ _ _ HI)) as HmA.
  apply sat_bind, sat_aget; [lia|]. fold (nnz (f_U f)). set (s0 := Gst _ _ _ _ _ _ _ _ _ _ _ _).
  assert (Hcur : gcur s0 = f). { unfold gcur, s0. cbn. destruct f as [U q [L|] lp]; cbn; auto. now rewrite nz_id. }
  set (done := gdone test p A0 A comp pr n p_in u1 (is_some (f_L f)) full).
  apply sat_bind. eapply sat_mono.
  { apply (forb_spec (ginv p A0 A comp pr n p_in u1 (is_some (f_L f)) full) (fun o => match o with inl s => done s | inr s => done s end)).
    - lia.
    - unfold ginv. rewrite Hcur. split; [exact HI|]. split; [reflexivity|]. split; [exact Htm|].
      split; [reflexivity|]. unfold gscratch, s0. cbn [g_xj g_ps g_mk g_x]. rewrite !len_fill by lia. split; [lia|]. split; [lia|]. split; [lia|].
      split; [intros c Hc; now rewrite get_fill by lia|]. rewrite len_malloc; lia.
    - intros i s Hi Hs. eapply sat_mono; [eapply gplu_step_ok; eauto|]. auto.
    - intros s (G1 & _ & _ & G4 & _). split; auto. unfold zseq in G1. rewrite Z.sub_diag in G1.
      eapply inv_weaken; [|exact G1]. tauto. }
  cbv beta. intros o Ho. cbn [sat]. set (s := match o with inl s => s | inr s => s end).
  assert (Hd : done s) by (destruct o; auto). destruct Hd as [Hd1 Hd2].
  cbn [f_U f_q]. split.
  - assert (Hd3 : inv p A0 (full /\ (f_L f <> None \/ cn A = cn A0 /\ honest test p A pr n (g_U s) (g_q s))) comp (gcur s) A (oapply p_in) [] u1).
    { eapply inv_weaken; [|exact Hd1]. intros [F [F'|F']]; split; auto. left. destruct (f_L f); easy. }
    clear Hd1. destruct s as [U q [L|] lp a lnz b c d e h k]; cbn [gcur g_U g_q g_L g_lp g_lnz option_map] in *; [|exact Hd3].
    apply (inv_setm p A0 _ comp U q (nz L lnz) lp A (oapply p_in) [] u1 (cn U)); [lia|exact Hd3].
  - cbn [f_L]. destruct (g_L s), (f_L f); cbn in *; easy.
Qed.
