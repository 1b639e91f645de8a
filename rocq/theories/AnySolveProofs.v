(** Proofs about AnySolve.v. *)
From Coq Require Import Znumtheory.
From Verif Require Import Base BaseFacts Spec SpecFacts SpecText SpecAccept SpecTools SpecHeader SpecAny SpecAnyElim Zp Mat MatFacts RowList VecProofs CompressProofs TransposeProofs DenseProofs4 CertProofs
  SpecSha ShaHash Sha Stdio IO TextProofs IOProofs IOHash IOSave IOAccept IOCut IOSafe Sizes Header HeaderProofs Tools ToolsProofs AnyInput AnyProofs
  Par Schur Dense Echelonize EchProofs EchProofs2 Rref PrngProofs Cert Gesv SpecMatch SpecDm SpecScc SpecParts SpecReport Dm ToolsElim ToolsElimProofs DmTool AnyElim AnyElimProofs AnySolve.

Section ANY.
Variables (gs : Z -> Z) (g : Z -> Z -> Z -> Z) (most : Z) (f : list Z).
Hypothesis (HB : bytes f) (HL : len f < 2 ^ 60) (H0 : ~ In 0 f) (HA : forall nnz, announces f nnz -> - 2 ^ 61 <= nnz < 2 ^ 61) (Hmost : 0 <= most < 2 ^ 61).

Lemma ndm_matrix_ok gd : quiet 42013 f -> outs (ndm_matrix gs g most gd f) (fun r => exists n m es, like_matrix f n m es /\ 0 <= rows 42013 n es < 2 ^ 31 /\ 0 <= cols 42013 m es < 2 ^ 31 /\ dm_ok (rows 42013 n es) (cols 42013 m es) es r)
  (fun e => refused e \/ e = OOB /\ minus_one (fun _ _ => false) f 42013).
Proof.
  intros Q. unfold ndm_matrix. apply outs_bind. eapply outs_imp; [apply (nload_matrix_holds gs g most f HB HL H0 HA Hmost (fun _ _ => false) 42013 None); [unfold ok_modulus; lia|exact Q|discriminate]| |intros e He; exact He].
  intros [A h] (_ & n & m & es & L & HN & HM & H). cbv beta iota in H. apply sat_outs. eapply sat_mono; [apply (dm_permute_ok g gd _ _ es A H)|]. intros r Hr. exists n, m, es. auto.
Qed.
Theorem dm_any gd : quiet 42013 f ->
  outs (ntool_dm gs g most gd f) (fun f' => exists n m es, like_matrix f n m es /\ 0 <= rows 42013 n es /\ 0 <= cols 42013 m es /\
      let N := rows 42013 n es in let M := cols 42013 m es in let R := fun i j => ~ cong 42013 (fmat es i j) 0 in
      exists P Q es' hn hm s, is_perm N P /\ is_perm M Q /\ written f' N M es' /\ clean 42013 es' /\
        (forall i j, 0 <= i < N -> 0 <= j < M -> cong 42013 (fmat es' i j) (fmat es (get P i) (get Q j))) /\
        (forall a, 0 <= a < N -> (a < hn <-> hrow N M R (get P a)) /\ (hn + s <= a <-> vrow N M R (get P a))) /\
        (forall b, 0 <= b < M -> (b < hm <-> hcol N M R (get Q b)) /\ (hm + s <= b <-> vcol N M R (get Q b))) /\
        (forall x, 0 <= x < s -> ~ cong 42013 (fmat es' (hn + x) (hm + x)) 0))
    (fun e => refused e \/ e = OOB /\ minus_one (fun _ _ => false) f 42013).
Proof.
  intros Q. unfold ntool_dm. apply outs_bind. eapply outs_imp; [apply (ndm_matrix_ok gd Q)| |intros e He; exact He]. intros [D B] (n & m & es & L & HN & HM & H). apply sat_outs.
  eapply sat_mono; [apply (dm_save_ok _ _ es D B HN HM H)|]. intros f' Hf. exists n, m, es. split; [exact L|]. split; [lia|]. split; [lia|]. exact Hf.
Qed.
Theorem dm_report_any gd : quiet 42013 f ->
  outs (ntool_dm_report gs g most gd f) (fun f' => exists n m es, like_matrix f n m es /\ 0 <= rows 42013 n es /\ 0 <= cols 42013 m es /\
      let N := rows 42013 n es in let M := cols 42013 m es in let R := fun i j => ~ cong 42013 (fmat es i j) 0 in
      exists k hn hm s vn vm bs, srank N M R k /\ many hn (hrow N M R) /\ many hm (hcol N M R) /\ many s (sqrow N M R) /\ many s (sqcol N M R) /\
        many vn (vrow N M R) /\ many vm (vcol N M R) /\ blocks_of N M R bs /\ renders (report k hn hm s (map len bs) vn vm) f')
    (fun e => refused e \/ e = OOB /\ minus_one (fun _ _ => false) f 42013).
Proof.
  intros Q. unfold ntool_dm_report. apply outs_bind. eapply outs_imp; [apply (ndm_matrix_ok gd Q)| |intros e He; exact He]. intros [D B] (n & m & es & L & HN & HM & H).
  destruct (dm_report_ok _ _ es D B HN HM H) as (k & hn & hm & s & vn & vm & bs & R1 & R2 & R3 & R4 & R5 & R6 & R7 & R8 & E).
  destruct (hn + s + cols 42013 m es <? 2 ^ 31).
  - destruct E as (f' & -> & Hr). cbn [outs]. exists n, m, es. split; [exact L|]. split; [lia|]. split; [lia|]. exists k, hn, hm, s, vn, vm, bs. auto 12.
  - rewrite E. left. right. reflexivity.
Qed.
Theorem solve_any g' X fuel o ch w fb p : bytes fb -> len fb < 2 ^ 60 -> ~ In 0 fb -> (forall nnz, announces fb nnz -> - 2 ^ 61 <= nnz < 2 ^ 61) -> ok_modulus p -> prime p -> quiet p f -> quiet p fb ->
  (forall m, 0 <= m -> params_ok (X m) p m /\ good_opts (X m) (with_L o) /\ finishes (X m) o) ->
  outs (ntool_solve gs g g' most X fuel o ch w f fb p) (fun '(f', warn) => exists n m es nb mb esb, like_matrix f n m es /\ like_matrix fb nb mb esb /\
      let N := rows p n es in let M := cols p m es in let Nb := rows p nb esb in
      0 <= N /\ 0 <= M /\ 0 <= Nb /\ (M <= cols p mb esb \/ Nb = 0) /\
      exists es', written f' Nb N es' /\ clean p es' /\ lists warn (fun i => 0 <= i < Nb /\ ~ rowsp p N M (fmat es) (fmat esb i)) /\
        forall i, 0 <= i < Nb -> rowsp p N M (fmat es) (fmat esb i) -> forall j, 0 <= j < M -> cong p (sum 0 N (fun k => fmat es' i k * fmat es k j)) (fmat esb i j))
    (fun e => refused e \/ e = OOB /\ (minus_one (fun _ _ => false) f p \/ minus_one (fun _ _ => false) fb p \/
      exists n m es nb mb esb, like_matrix f n m es /\ like_matrix fb nb mb esb /\ cols p mb esb < cols p m es /\ 1 <= rows p nb esb)).
Proof.
  intros HBb HLb H0b HAb Mp Pp Q Qb HX. unfold ntool_solve. apply outs_bind. eapply outs_imp; [apply (nload_matrix_holds gs g most f HB HL H0 HA Hmost (fun _ _ => false) p _ Mp Q); intros md E; injection E as <-; apply len_malloc; lia| |intros e [He|[-> He]]; auto].
  intros [A h] (Eh & n & m & es & L & HN & HM & H). cbv beta iota in H. rewrite (Eh _ eq_refl). apply outs_bind. eapply outs_imp; [apply (nload_matrix_holds gs g' most fb HBb HLb H0b HAb Hmost (fun _ _ => false) p _ Mp Qb); intros md E; injection E as <-; apply len_sha256| |intros e [He|[-> He]]; auto 6].
  intros [B h'] (_ & nb & mb & esb & Lb & HNb & HMb & Hb). cbv beta iota in Hb. pose proof H as (_ & _ & Ec & _). rewrite Ec. destruct (HX (cols p m es)) as (X1 & X2 & X3); [lia|].
  eapply outs_imp; [apply (solve_after g (X (cols p m es)) fuel o ch w _ _ es _ _ esb p A B Mp Pp HN HM HNb H Hb X1 X2 X3)| |].
  - intros [f' warn] (Hc & es' & Hw). exists n, m, es, nb, mb, esb. cbv zeta. split; [exact L|]. split; [exact Lb|]. split; [lia|]. split; [lia|]. split; [lia|]. split; [exact Hc|]. exists es'. exact Hw.
  - intros e [He|(-> & E1 & E2)].
    + destruct He as [-> _]. left. right. reflexivity.
    + right. split; [reflexivity|]. right. right. exists n, m, es, nb, mb, esb. auto.
Qed.
End ANY.
