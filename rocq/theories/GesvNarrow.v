(** spasm_gesv with a right-hand side that has less columns than the matrix. *)
From Verif Require Import Base BaseFacts Spec SpecFacts Zp ZpFacts Mat MatFacts RowList CompressProofs TriProofs VecProofs Reach Sched SchedProofs Solve SolveProofs Gesv DenseProofs4 CertProofs.
From Coq Require Import ZifyBool Znumtheory.

(* not enough columns: the copy of b reads outside of it *)
Lemma solve_narrow p A f L y0 z0 Uq0 b x : ok_modulus p -> factors p A f L -> len y0 = cm A -> len Uq0 = cn (lu_U f) -> len b < cm A -> solve y0 z0 Uq0 f b x = Fail OOB.
Proof.
  intros Hm F Ly Lq Lb. pose proof F as [F1 F2 F3 F4 F5 F6 F7 F8 F9 F10 F11 F12 F13 F14 F15]. unfold solve. rewrite F1. cbn [deref bind].
  pose proof (pivot_columns_ok p (lu_U f) _ Uq0 F2 F12 Lq) as S. destruct (pivot_columns _ _ _) as [Uq|]; cbn [sat] in S; [|tauto]. cbn [bind].
  assert (K : outs (for_ 0 (cm (lu_U f)) (fun i y => v <- aget b i ;; aset y i v) y0) (fun _ => False) (fun e => e = OOB)).
  { pose proof (len_nonneg b). apply (outs_for (fun k y => k <= len b /\ len y = cm A)); [lia|split; [lia|exact Ly]| |intros; lia].
    intros i y Hi (H1 & H2). apply outs_bind. destruct (Z.eq_dec i (len b)) as [->|N]; [unfold aget, inb; replace ((0 <=? len b) && (len b <? len b)) with false by lia; reflexivity|].
    apply sat_outs, sat_aget; [lia|]. apply sat_outs, sat_aset; [lia|]. rewrite len_upd. lia. }
  destruct (for_ _ _ _ _); cbn [outs] in K; [tauto|]. now rewrite K.
Qed.
Lemma gesv_row_narrow p A f L B w Xm i : ok_modulus p -> factors p A f L -> wf B -> cx B <> None -> cprime B = p -> cm B < cm A -> 0 <= i < cn B -> gesv_row w f B Xm i = Fail OOB.
Proof.
  intros Hm F HB HBx HBp Hmb Hi. pose proof F as [F1 F2 F3 F4 F5 F6 F7 F8 F9 F10 F11 F12 F13 F14 F15]. pose proof (wf_m B HB). pose proof (wf_n _ F2). pose proof (wf_m _ F2). unfold gesv_row.
  assert (S : sat (for_ 0 (cm B) (fun j b => aset b j 0) (malloc (w i 0) (cm B))) (fun b => len b = cm B)).
  { apply (for_spec (fun _ b => len b = cm B)); [lia|rewrite len_malloc; lia| |auto]. intros j b Hj E. apply sat_aset; [lia|]. now rewrite len_upd. }
  destruct (for_ _ _ _ _) as [b|]; cbn [sat] in S; [|tauto]. cbn [bind]. unfold ok_modulus in Hm.
  pose proof (scatter_ok' B HB HBx p HBp ltac:(lia) i 1 b Hi ltac:(lia)) as S'. destruct (scatter B i 1 b) as [b'|]; cbn [sat] in S'; [|tauto]. cbn [bind]. destruct S' as (Lb & _).
  apply (solve_narrow p A f L); auto; rewrite ?len_malloc; lia.
Qed.
Lemma gesv_narrow p A f L B w g ch o0 : ok_modulus p -> factors p A f L -> wf B -> cx B <> None -> cprime B = p -> cm B < cm A -> 1 <= cn B -> gesv g ch w f B o0 = Fail OOB.
Proof.
  intros Hm F HB HBx HBp Hmb Hn. pose proof F as [F1 F2 F3 F4 F5 F6 F7 F8 F9 F10 F11 F12 F13 F14 F15]. unfold gesv. rewrite F1. cbn [deref bind].
  rewrite HBp, F7, Z.eqb_refl. cbn [assert_ bind triplet_alloc tx deref tnz ti tj]. pose proof (wf_n L F3) as Hl.
  set (h := Vsh o0 _ _ _ _).
  assert (E : spar (vstep_all w f B (cn L)) vdone (cn B) (vfuel B (cn L)) ch 0 (h, vstart B) = Fail OOB); [|now rewrite E].
  assert (Es : forall t, 0 <= t < cn B -> vstep_all w f B (cn L) t (h, vstart B) = Fail OOB).
  { intros t Ht. unfold vstep_all. replace (getd VEnd (vstart B) t) with VStart.
    - unfold h, vstep. now rewrite (gesv_row_narrow p A f L).
    - unfold vstart. symmetry. now rewrite (getd_map _ 0) by (rewrite len_zseq; lia). }
  unfold vfuel. destruct (Z.to_nat (cn B * (4 * cn L + 2))) as [|fuel] eqn:Ef; [nia|]. cbn [spar].
  replace (vdone (h, vstart B)) with false.
  2:{ unfold vdone, vstart. cbn [snd]. unfold zseq. destruct (Z.to_nat (cn B - 0)) eqn:E0; [lia|]. reflexivity. }
  assert (Efl : filter (scan (vstep_all w f B (cn L)) (h, vstart B)) (zseq 0 (cn B)) = zseq 0 (cn B)).
  { rewrite (filter_ext_in _ (fun _ => true)); [induction (zseq 0 (cn B)) as [|a l IH]; cbn [filter]; congruence|]. intros t Ht. apply In_zseq in Ht. unfold scan. now rewrite Es. }
  rewrite Efl. set (l := zseq 0 (cn B)). assert (Ll : len l = cn B) by (unfold l; rewrite len_zseq; lia).
  assert (Er : srun1 (vstep_all w f B (cn L)) (h, vstart B) (getd 0 l (ch 0 mod len l)) = Fail OOB).
  { unfold srun1. rewrite Es; [reflexivity|]. pose proof (Z.mod_pos_bound (ch 0) (len l) ltac:(lia)). rewrite Ll in *. unfold l. rewrite getd_zseq; lia. }
  destruct l; [cbn in Ll; lia|]. now rewrite Er.
Qed.
(* no right-hand side: their number of columns does not matter *)
Lemma gesv_none g ch w f B B' o0 : cn B = 0 -> cn B' = 0 -> cprime B = cprime B' -> gesv g ch w f B o0 = gesv g ch w f B' o0.
Proof.
  intros E E' Ep. unfold gesv. rewrite Ep, E, E'. destruct (lu_L f) as [L|]; [|reflexivity]. cbn [deref bind]. destruct (assert_ _); [|reflexivity]. cbn [bind]. destruct (tx _) as [x|]; [|reflexivity]. cbn [deref bind].
  assert (K : forall B, cn B = 0 -> spar (vstep_all w f B (cn L)) vdone 0 (vfuel B (cn L)) ch 0 (Vsh o0 (tnz (triplet_alloc g 0 (cn L) (cn L * 0) (cprime B') true)) (ti (triplet_alloc g 0 (cn L) (cn L * 0) (cprime B') true)) (tj (triplet_alloc g 0 (cn L) (cn L * 0) (cprime B') true)) x, vstart B)
    = Ok (Vsh o0 (tnz (triplet_alloc g 0 (cn L) (cn L * 0) (cprime B') true)) (ti (triplet_alloc g 0 (cn L) (cn L * 0) (cprime B') true)) (tj (triplet_alloc g 0 (cn L) (cn L * 0) (cprime B') true)) x, [])).
  { intros B0 E0. unfold vfuel, vstart. rewrite E0. cbn. reflexivity. }
  now rewrite (K B E), (K B' E').
Qed.
