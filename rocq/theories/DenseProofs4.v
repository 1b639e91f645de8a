(** Proofs about dense Schur complements (Dense.v): the two loops. *)
From Verif Require Import Base BaseFacts Spec SpecFacts SpecElim Zp ZpFacts Mat MatFacts RowList CompressProofs LinAlg TriProofs VecProofs KernelProofs ParRows ElimFacts EchInv Reach Schur Sched Append AppendProofs Gplu GpluProofs Dense DenseSpec DenseProofs DenseProofs2 DenseProofs3.
From Coq Require Import ZifyBool Permutation.

(** ** Outcomes: a result that may be one of some errors *)
Definition outs {T} (r : res T) (Q : T -> Prop) (F : err -> Prop) : Prop := match r with Ok a => Q a | Fail e => F e end.
Lemma sat_outs {T} (r : res T) Q F : sat r Q -> outs r Q F.
Proof. now destruct r. Qed.
Lemma outs_mono {T} (r : res T) (Q Q' : T -> Prop) F : outs r Q F -> (forall a, Q a -> Q' a) -> outs r Q' F.
Proof. destruct r; cbn; auto. Qed.
Lemma outs_bind {T T'} (r : res T) (k : T -> res T') Q F : outs r (fun a => outs (k a) Q F) F -> outs (bind r k) Q F.
Proof. now destruct r. Qed.
Lemma outs_loop {S R} (Inv : S -> Prop) (Q : R -> Prop) (F : err -> Prop) (body : S -> res (S + R)) fuel s : F OutOfFuel ->
  (forall s, Inv s -> outs (body s) (fun o => match o with inl s' => Inv s' | inr r => Q r end) F) ->
  Inv s -> outs (loop fuel body s) Q F.
Proof.
  intros HF Hs. revert s. induction fuel as [|fuel IH]; intros s HI; cbn [loop]; [exact HF|].
  apply outs_bind. eapply outs_mono; [apply Hs; auto|]. intros [s'|r]; [apply IH|auto].
Qed.

Lemma nth_skipn' {T} (d : T) k l i : nth i (skipn k l) d = nth (k + i) l d.
Proof. revert l. induction k as [|k IH]; intros l; [reflexivity|]. destruct l; [cbn; now destruct i|]. cbn [skipn Nat.add nth]. apply IH. Qed.
Lemma get_skipn k l i : 0 <= i -> get (skipn k l) i = get l (Z.of_nat k + i).
Proof.
  intros Hi. unfold get, getd. replace (i <? 0) with false by lia. replace (Z.of_nat k + i <? 0) with false by lia.
  rewrite nth_skipn'. f_equal. lia.
Qed.
Lemma len_skipn {T} k (l : list T) : len (skipn k l) = Z.max 0 (len l - Z.of_nat k).
Proof. unfold len. rewrite skipn_length. lia. Qed.
Lemma skipn_skipn' {T} a b (l : list T) : skipn a (skipn b l) = skipn (b + a) l.
Proof. revert l. induction b as [|b IH]; intros l; [reflexivity|]. destruct l; [now rewrite !skipn_nil|]. cbn [skipn Nat.add]. apply IH. Qed.

Section loops.
Context (E : env) (p : Z) (A0 A : csr) (comp : bool) (p_in : option (list Z)) (u1 : Z).
Context (HF : ffpack_ok E p) (Hmod : ok_modulus p) (Hprime : Znumtheory.prime p) (Hscr : forall c k, scr_ok (cm A) (e_scr E c k)) (HSn : 0 <= e_Sn E).
Let o := oapply p_in.
Context (Hpin : match p_in with Some l => len l = cn A | None => True end).

Lemma dense_chunk full f pr N rem' c Sd q0 p_out pivotal :
  inv p A0 full comp f A o (map (get pr) (zseq 0 N) ++ rem') u1 -> 0 <= N <= len pr ->
  let Sm := cm A - cn (f_U f) in
  N * Sm <= len Sd -> N <= len p_out -> Sm <= len q0 ->
  match f_L f with Some L => tm L = cn A0 /\ (comp = true \/ cn A0 <= len pivotal) | None => True end ->
  sat ('(f1, Sd, q, p_out) <- schur_dense E c A pr N p_in f Sd q0 p_out ;;
       '(rr, Sd, pivotal, f2) <- (match f_L f1 with
        | Some _ =>
            let '(rr, Sd, Sp, Sqinv) := e_plu E N Sm Sd in
            '(pivotal, f) <- update_fact_after_LU (e_junk E) N Sm rr Sd Sp Sqinv q p_out (match f_L f with Some L => tnz L | None => -1 end) comp pivotal f1 ;;
            Ok (rr, Sd, pivotal, f)
        | None =>
            let '(rr, Sd, Sqinv) := e_rref E N Sm Sd in
            f <- update_U_after_rref (e_junk E) rr Sm Sd Sqinv q f1 ;;
            Ok (rr, Sd, pivotal, f)
        end) ;; Ok (q, p_out, rr, Sd, pivotal, f2))
   (fun '(q, p_out', rr, Sd', pivotal', f') =>
     inv p A0 full comp f' A o rem' u1 /\ len q = len q0 /\ len p_out' = len p_out /\ len Sd' = len Sd /\ len pivotal' = len pivotal /\
     0 <= rr /\ cn (f_U f') = cn (f_U f) + rr /\
     match f_L f, f_L f' with Some _, Some L => tm L = cn A0 | None, None => True | _, _ => False end).
Proof.
  intros HI HN Sm HSd Hpo Hq0 HL. pose proof HI as [I1 I2 I3 I4 I5 I6 I7 I8 I9 I10 I11 I12 I13 I14 I15 I16].
  assert (Hp2 : 2 <= p) by (unfold ok_modulus in *; lia). assert (Hm : cm (f_U f) = cm A) by congruence.
  pose proof (Sm_nonneg p A (f_U f) (f_q f) I1 Hm) as HSm. fold Sm in HSm.
  assert (Hin : forall k, 0 <= k < N -> In (get pr k) (map (get pr) (zseq 0 N) ++ rem')). { intros k Hk. apply in_app_iff. left. apply in_map. now apply In_zseq. }
  assert (Hr : forall k, 0 <= k < N -> 0 <= get pr k < cn A /\ 0 <= o (get pr k) < cn A0) by (intros k Hk; apply I10; auto).
  apply sat_bind. eapply sat_mono.
  { apply (schur_dense_ok E c p A pr N p_in f Sd q0 p_out); auto; try (fold Sm; lia).
    - apply I8.
    - intros k Hk. now apply Hr.
    - destruct (f_L f) as [L|]; auto. destruct I16 as [[Q1 Q2 Q3 Q4 Q5 Q6 Q7 Q8] _ _ _ _ _ _ _ _ _]. split; auto. split; auto. split; auto.
      intros k Hk. rewrite Q4. now apply Hr. }
  cbv beta. intros [[[f1 S1] qc] po] (E1 & E2 & E3 & LS & Lp & Lq & HC & lr & Hrow & HL1). fold Sm o in HC, Hrow, HL1.
  assert (Hbal : forall i j, 0 <= i < N -> 0 <= j < Sm -> balanced p (dget Sm S1 i j)). { intros i j Hi Hj. destruct (Hrow i Hi) as (_ & Hd & _). now apply Hd. }
  destruct (f_L f) as [L0|] eqn:EL0, (f_L f1) as [L1|] eqn:EL1; try contradiction.
  - destruct HL1 as (T1 & T2 & T3 & T4 & T5 & log & T6 & T7 & T8). destruct HL as [HL HL'].
    destruct HF as [_ HF2]. specialize (HF2 N Sm S1 ltac:(lia) HSm ltac:(lia) Hbal). destruct (e_plu E N Sm S1) as [[[rr S2] Sp] Sq].
    apply sat_bind, sat_bind. eapply sat_mono.
    { apply (update_fact_ok (e_junk E) p A0 comp full f f1 A o (get pr) N Sm rem' u1 rr S1 S2 Sp Sq qc po lr L0 L1 log pivotal); auto; try lia; try congruence. }
    cbv beta. intros [piv' f'] (V1 & V2 & V3 & V4). cbn [sat]. pose proof (lk_len _ _ _ _ _ _ _ _ HF2). pose proof (lk_rank _ _ _ _ _ _ _ _ HF2).
    split; auto. split; auto. split; auto. split; [lia|]. split; auto. split; [lia|]. split; auto.
  - destruct HF as [HF1 _]. specialize (HF1 N Sm S1 ltac:(lia) HSm ltac:(lia) Hbal). destruct (e_rref E N Sm S1) as [[rr S2] Sq].
    pose proof (rk_len _ _ _ _ _ _ _ HF1). pose proof (rk_rank _ _ _ _ _ _ _ HF1). rewrite len_app, len_map, len_zseq in I4. pose proof (len_nonneg rem').
    apply sat_bind, sat_bind. eapply sat_mono.
    { apply (update_U_ok (e_junk E) p N Sm S1 rr S2 Sq qc f1); auto; rewrite ?E1, ?E2; auto; try lia. now rewrite Hm. }
    cbv beta. rewrite !E1, !E2, !E3, EL1. intros f' (V1 & V2 & V3 & V4 & V5 & V6 & V7 & V8 & C & D & V9 & V10). cbn [sat].
    split; [|rewrite V5; split; auto; split; auto; split; [lia|]; split; auto; split; [lia|auto]].
    apply (inv_chunk p A0 full comp f f' A o (get pr) N rem' u1 rr lr (fun k => dext Sm qc (dget Sm S1 k)) C); auto; try lia.
    + intros k j Hk Hj. apply (Hrow k Hk). lia.
    + intros k c0 v Hk Hin0. destruct (Hrow k Hk) as (_ & _ & Hd & _). now apply Hd.
    + intros k Hk. apply (Hrow k Hk).
    + intros k j Hk Hj Hq. now apply (dext_pivot (f_q f) (cm A)).
    + intros k j Hk Hj. apply V9; auto. congruence.
    + intros HT l Hl. apply (in_rowspace_ext p A0 (fun j => sum 0 N (fun k => D l k * dext Sm qc (dget Sm S1 k) j))).
      * intros j Hj. rewrite V10; [apply cong_refl|auto|congruence].
      * now apply in_rowspace_sum.
    + now rewrite EL0, V5.
Qed.

Definition sameL (f f' : fact) : Prop := f_L f' = None <-> f_L f = None.
Definition hasm (f : fact) : Prop := match f_L f with Some L => tm L = cn A0 | None => True end.

Lemma zseq_head_map (P : Z -> Z) a b c : a <= b <= c -> map P (zseq a c) = map P (zseq a b) ++ map P (zseq b c).
Proof. intros H. rewrite <- map_app. f_equal. now apply zseq_split. Qed.

(** ** Low-rank mode: sound, when it stops *)
Lemma lowrank_ok fuel blk w0 full f pr n : 
  inv p A0 full comp f A o (map (get pr) (zseq 0 n)) u1 -> 0 <= n <= len pr -> f_L f = None -> 0 < blk ->
  outs (echelonize_dense_lowrank E fuel blk w0 A pr n f)
    (fun f' => inv p A0 False comp f' A o [] u1 /\ f_L f' = None) (fun e => e = OutOfFuel \/ e = Overflow).
Proof.
  intros HI Hn HL Hblk. pose proof HI as [I1 I2 I3 I4 I5 I6 I7 I8 I9 I10 I11 I12 I13 I14 I15 I16].
  assert (Hp2 : 2 <= p) by (unfold ok_modulus in *; lia). rewrite len_map, len_zseq in I4.
  assert (Hin : forall k, 0 <= k < n -> In (get pr k) (map (get pr) (zseq 0 n))). { intros k Hk. apply in_map. now apply In_zseq. }
  assert (Hrow : forall k, 0 <= k < n -> 0 <= get pr k < cn A) by (intros k Hk; apply (I10 (get pr k)); auto).
  assert (Hrs : forall k, 0 <= k < n -> in_rowspace p A0 (entry A (get pr k))) by (intros k Hk; apply I14; auto).
  assert (Hm : cm (f_U f) = cm A) by congruence. pose proof (Sm_nonneg p A (f_U f) (f_q f) I1 Hm) as HSm0.
  unfold echelonize_dense_lowrank. rewrite (proj2 (Z.ltb_lt 0 blk) Hblk). cbn [assert_ bind].
  set (Sm0 := cm A - cn (f_U f)) in *. set (ub := Z.min n Sm0).
  apply outs_bind. assert (Hw : outs (if w0 <? 0 then if ub =? 0 then Fail Overflow else Ok (e_w0 E n ub) else Ok w0) (fun _ => True) (fun e => e = OutOfFuel \/ e = Overflow)).
  { destruct (w0 <? 0); [|exact I]. destruct (ub =? 0); [now right|exact I]. }
  eapply outs_mono; [exact Hw|]. intros w _.
  apply (outs_loop (fun '(n', Sm, rub, w, f, Sd, q, round) => n' <= n /\ rub <= n' /\ Sm = cm A - cn (f_U f) /\ rub <= Sm /\ cn (f_U f) + rub <= cn A0 /\
    blk * Sm <= len Sd /\ Sm <= len q /\ f_L f = None /\ inv p A0 False comp f A o [] u1)).
  - now left.
  - intros [[[[[[[n' Sm] rub] w'] f'] Sd] q] round] (J1 & J2 & J3 & J4 & J5 & J6 & J7 & J8 & J9).
    destruct (Z.leb_spec (Z.min rub blk) 0) as [Hs|Hs]; [cbn [outs]; auto|]. set (Sn := Z.min rub blk) in *.
    pose proof J9 as [K1 K2 K3 K4 _ _ _ _ K9 _ _ _ K13 _ _ _]. assert (Hm' : cm (f_U f') = cm A) by congruence.
    pose proof (Sm_nonneg p A (f_U f') (f_q f') K1 Hm') as HSm. rewrite <- J3 in HSm.
    apply outs_bind, sat_outs. eapply sat_mono.
    { apply (randomized_ok E p A (f_U f') (f_q f') pr n'); auto; try lia; [apply I8|intros k Hk; apply Hrow; lia|rewrite <- J3; nia]. }
    cbv beta. rewrite <- J3. intros [S1 qc] (L1 & L2 & HC & HR).
    assert (HlS : Sn * Sm <= len S1) by nia.
    destruct HF as [HF1 _]. specialize (HF1 Sn Sm S1 ltac:(lia) HSm HlS). destruct (e_rref E Sn Sm S1) as [[rr S2] Q].
    specialize (HF1 ltac:(intros i j Hi Hj; rewrite J3; apply (HR i Hi); lia)).
    pose proof (rk_len _ _ _ _ _ _ _ HF1) as HlS2. pose proof (rk_rank _ _ _ _ _ _ _ HF1) as Hrr.
    apply outs_bind. assert (Hstop : outs (if rr =? 0 then b <- test_completion E (2 * round + 1) A pr n' (f_U f') (f_q f') ;; Ok (b, 0, e_thr E) else Ok (false, w', Sn))
      (fun _ => True) (fun e => e = OutOfFuel \/ e = Overflow)).
    { destruct (rr =? 0); [|exact I]. apply outs_bind, sat_outs. eapply sat_mono.
      - apply (test_completion_ok E p A (f_U f') (f_q f') pr n'); auto; try lia; [apply I8|intros k Hk; apply Hrow; lia].
      - intros b _. exact I. }
    eapply outs_mono; [exact Hstop|]. intros [[stop w2] Sn2] _. destruct stop; [cbn [outs]; auto|].
    apply outs_bind. assert (Hov : outs (if e_few9 E rr Sn2 then if i32_max <? 2 * w2 then Fail Overflow else Ok (2 * w2) else Ok w2) (fun _ => True) (fun e => e = OutOfFuel \/ e = Overflow)).
    { destruct (e_few9 _ _ _); [|exact I]. destruct (i32_max <? 2 * w2); cbn [outs]; auto. }
    eapply outs_mono; [exact Hov|]. intros w3 _. apply outs_bind, sat_outs. eapply sat_mono.
    { apply (update_U_ok (e_junk E) p Sn Sm S1 rr S2 Q qc f'); auto; try lia. now rewrite Hm'. }
    cbv beta. intros f2 (V1 & V2 & V3 & V4 & V5 & V6 & V7 & V8 & C & D & V9 & V10). cbn [outs].
    split; [lia|]. split; [lia|]. split; [lia|]. split; [lia|]. split; [lia|]. split; [nia|]. split; [lia|]. split; [congruence|].
    apply (inv_batch p A0 False False comp f' f2 A o [] [] [] u1 rr); auto; try tauto; try lia.
    + split; [lia|]. right. change (len (@nil Z)) with 0. lia.
    + intros l Hl. apply (in_rowspace_ext p A0 (fun j => sum 0 Sn (fun k => D l k * dext Sm qc (dget Sm S1 k) j))).
      { intros j Hj. rewrite V10; [apply cong_refl|auto|congruence]. }
      apply in_rowspace_sum. intros k Hk. destruct (HR k Hk) as (_ & cf & lam & Hc & _). rewrite <- J3 in Hc.
      apply (in_rowspace_ext p A0 (fun j => comb A pr n' cf j - xA (f_U f') lam j)).
      { intros j Hj. rewrite Hc by congruence. apply cong_eq. ring. }
      apply in_rowspace_sub.
      * apply in_rowspace_sum. intros i Hi. apply Hrs. lia.
      * apply in_rowspace_sum. auto.
    + now rewrite V5, J8.
  - split; [lia|]. split; [lia|]. split; [reflexivity|]. split; [lia|]. split; [lia|]. rewrite !len_malloc by nia. split; [lia|]. split; [lia|]. split; [auto|].
    apply (inv_drop p A0 full False comp f A o (map (get pr) (zseq 0 n)) u1); auto; [tauto|]. now rewrite HL.
Qed.

(** ** Dense mode *)
Theorem dense_ok fuel blk w0 tall full f pr n :
  inv p A0 full comp f A o (map (get pr) (zseq 0 n)) u1 -> 0 <= n <= len pr -> 0 < blk -> hasm f ->
  f_L f = None \/ tall = false /\ (comp = true \/ cn A0 <= cn A) ->
  outs (echelonize_dense E fuel blk w0 tall comp A pr n p_in f)
    (fun f' => inv p A0 (full /\ tall = false) comp f' A o [] u1 /\ sameL f f' /\ hasm f')
    (fun e => tall = true /\ (e = OutOfFuel \/ e = Overflow)).
Proof.
  intros HI Hn Hblk Htm HL. unfold echelonize_dense. rewrite (proj2 (Z.ltb_lt 0 blk) Hblk). cbn [assert_ bind].
  pose proof (wf_n A (iv_wfA _ _ _ _ _ _ _ _ _ HI)) as HnA.
  assert (HSm : forall f rem, inv p A0 full comp f A o rem u1 -> 0 <= cm A - cn (f_U f)).
  { intros f' rem HI'. apply (Sm_nonneg p A (f_U f') (f_q f') (iv_el _ _ _ _ _ _ _ _ _ HI')). rewrite (iv_m _ _ _ _ _ _ _ _ _ HI'). symmetry. apply (iv_mA _ _ _ _ _ _ _ _ _ HI'). }
  apply outs_bind, sat_outs. eapply sat_mono.
  { apply (loop_spec (fun '(p', done, f', Sm, Sd, q, p_out, pivotal, ub, round) => 0 <= done <= n /\ p' = skipn (Z.to_nat done) pr /\
        inv p A0 full comp f' A o (map (get pr) (zseq done n)) u1 /\ Sm = cm A - cn (f_U f') /\ blk * Sm <= len Sd /\ Sm <= len q /\ blk <= len p_out /\
        len pivotal = cn A /\ sameL f f' /\ hasm f')
      (fun '(p', done, f', Sm, Sd, q, p_out, pivotal, ub, round) => n - done)
      (fun '(p', done, f', ub, low) => 0 <= done <= n /\ p' = skipn (Z.to_nat done) pr /\ inv p A0 full comp f' A o (map (get pr) (zseq done n)) u1 /\
        sameL f f' /\ hasm f' /\ if low : bool then tall = true else done = n)).
    - intros [[[[[[[[[p' done] f'] Sm] Sd] q] po] piv] ub] round] (J1 & J2 & J3 & J4 & J5 & J6 & J7 & J8 & J9 & J10).
      destruct (Z.leb_spec (Z.min blk (n - done)) 0) as [Hs|Hs]. { cbn [sat]. repeat (split; [solve [auto]|]). lia. }
      set (Sn := Z.min blk (n - done)) in *. specialize (HSm _ _ J3).
      assert (Hlp : len p' = len pr - done). { rewrite J2, len_skipn. lia. }
      assert (Hmap : map (get pr) (zseq done n) = map (get p') (zseq 0 Sn) ++ map (get pr) (zseq (done + Sn) n)).
      { rewrite (zseq_head_map (get pr) done (done + Sn) n) by lia. f_equal. 
        apply (listd_ext 0). { rewrite !len_map, !len_zseq. lia. }
        intros k Hk. rewrite len_map, len_zseq in Hk. rewrite !(getd_map _ 0) by (rewrite len_zseq; lia). rewrite !getd_zseq by lia.
        rewrite J2, get_skipn by lia. f_equal. lia. }
      rewrite Hmap in J3.
      pose proof (dense_chunk full f' p' Sn (map (get pr) (zseq (done + Sn) n)) round Sd q po piv J3 ltac:(lia)) as HCh. cbv zeta in HCh. rewrite <- J4 in HCh.
      specialize (HCh ltac:(nia) ltac:(lia) J6).
      assert (HL' : match f_L f' with Some L => tm L = cn A0 /\ (comp = true \/ cn A0 <= len piv) | None => True end).
      { unfold hasm in J10. destruct (f_L f') as [L|] eqn:EL; auto. split; auto. destruct HL as [HL|[_ [HL|HL]]]; [|auto|right; lia].
        apply J9 in HL. congruence. }
      specialize (HCh HL'). apply sat_Ok in HCh. destruct HCh as (r & Er & HCh).
      apply sat_bind. apply sat_Ok. destruct (schur_dense _ _ _ _ _ _ _ _ _ _) as [[[[f1 S1] qc] po1]|]; [|discriminate]. cbn [bind] in Er. eexists. split; [reflexivity|].
      apply sat_bind. apply sat_Ok. destruct (match f_L f1 with Some _ => _ | None => _ end) as [[[[rr S2] piv2] f2]|]; [|discriminate]. cbn [bind] in Er. eexists. split; [reflexivity|].
      injection Er as <-. destruct HCh as (V1 & V2 & V3 & V4 & V5 & V6 & V7 & V8).
      assert (H9 : sameL f f2 /\ hasm f2). { unfold sameL, hasm in *. destruct (f_L f'), (f_L f2); try contradiction; split; auto; rewrite <- J9; split; congruence. }
      assert (Hsk : skipn (Z.to_nat Sn) p' = skipn (Z.to_nat (done + Sn)) pr). { rewrite J2, skipn_skipn'. f_equal. lia. }
      destruct (tall && e_few E rr Sn) eqn:Et; cbn [sat].
      + split; [lia|]. split; [auto|]. split; [auto|]. split; [apply H9|]. split; [apply H9|]. now destruct tall.
      + split; [|lia]. split; [lia|]. split; [auto|]. split; [auto|]. split; [auto|]. split; [nia|]. split; [lia|]. split; [lia|]. split; [lia|]. apply H9.
    - specialize (HSm _ _ HI). split; [lia|]. split; [reflexivity|]. split; [auto|]. split; [auto|]. rewrite !len_malloc, len_fill by nia. repeat (split; [lia|]). split; [unfold sameL; tauto|auto].
    - lia. }
  cbv beta. intros [[[[p' done] f'] ub] low] (J1 & J2 & J3 & J4 & J5 & J6).
  destruct (andb (andb _ _) low) eqn:Ec.
  - destruct low; [|now rewrite andb_false_r in Ec]. subst tall. destruct HL as [HL|[HL _]]; [|discriminate].
    assert (Hlp : len p' = len pr - done). { rewrite J2, len_skipn. lia. }
    assert (HW := lowrank_ok fuel blk w0 full f' p' (n - done)). 
    replace (map (get pr) (zseq done n)) with (map (get p') (zseq 0 (n - done))) in J3.
    2:{ apply (listd_ext 0). { rewrite !len_map, !len_zseq. lia. }
        intros k Hk. rewrite len_map, len_zseq in Hk. rewrite !(getd_map _ 0) by (rewrite len_zseq; lia). rewrite !getd_zseq by lia.
        rewrite J2, get_skipn by lia. f_equal. lia. }
    specialize (HW J3 ltac:(lia) (proj2 J4 HL) Hblk).
    destruct (echelonize_dense_lowrank _ _ _ _ _ _ _ _) as [f2|e]; cbn [outs] in *.
    + destruct HW as [W1 W2]; auto.
      split; [|split].
        -- revert W1. apply inv_weaken. intros [_ H]. discriminate.
        -- unfold sameL. tauto.
        -- unfold hasm. now rewrite W2.
    + split; auto.
  - cbn [outs]. split; [|auto]. destruct low.
    + apply (inv_drop p A0 full _ comp f' A o (map (get pr) (zseq done n)) u1); auto.
      * intros [_ H]. congruence.
      * intros _ H. exfalso. apply H. apply J4. destruct HL as [HL|[HL _]]; auto. congruence.
    + subst done. replace (zseq n n) with (@nil Z) in J3 by (unfold zseq; now rewrite Z.sub_diag). revert J3. apply inv_weaken. tauto.
Qed.
End loops.
