(** When no matrix is trimmed to zero cells, it does not matter what realloc(ptr, 0) returns. *)
From Verif Require Import Base BaseFacts Spec SpecFacts SpecElim Zp ZpFacts Mat MatFacts RowList CompressProofs LinAlg TriProofs VecProofs KernelProofs ParRows ElimFacts EchInv
  Reach Pivots PivotsProofs GreedyProofs ReorderProofs Extract ExtractProofs Par Schur SchurProofs RrefProofs Sched Append AppendProofs Gplu GpluProofs Dense DenseSpec DenseProofs DenseProofs2 DenseProofs3
  DenseProofs4 CertProofs Echelonize EchProofs EchProofs2 SpecText SpecSha Sha Stdio IO Null.
From Coq Require Import ZifyBool.

(** ** Partial correctness *)
Definition any (e : err) : Prop := True.
Lemma outs_any {T} (r : res T) (Q : T -> Prop) : (forall a, r = Ok a -> Q a) -> outs r Q any.
Proof. destruct r; cbn; auto. unfold any. auto. Qed.
Lemma outs_use {T} (r : res T) (Q : T -> Prop) a : outs r Q any -> r = Ok a -> Q a.
Proof. intros H ->. exact H. Qed.
Lemma outs_bind_any {T T'} (r : res T) (k : T -> res T') Q : (forall a, r = Ok a -> outs (k a) Q any) -> outs (bind r k) Q any.
Proof. destruct r; cbn; auto. intros _. exact I. Qed.
Lemma outs_for_any {S} (Inv : S -> Prop) (body : Z -> S -> res S) lo hi s : Inv s -> (forall i s, Inv s -> outs (body i s) Inv any) -> outs (for_ lo hi body s) Inv any.
Proof.
  intros H0 Hb. unfold for_. generalize (Z.to_nat (hi - lo)). intros k. revert lo s H0. induction k as [|k IH]; intros lo s H0; cbn [for_nat]; [exact H0|].
  specialize (Hb lo s H0). destruct (body lo s); cbn in *; [now apply IH|exact I].
Qed.
Lemma loop_eq {S R} (Inv : S -> Prop) (b0 b : S -> res (S + R)) fuel s : Inv s ->
  (forall s, Inv s -> b0 s = b s /\ outs (b s) (fun r => match r with inl s' => Inv s' | inr _ => True end) any) -> loop fuel b0 s = loop fuel b s.
Proof.
  intros H0 Hb. revert s H0. induction fuel as [|fuel IH]; intros s H0; cbn [loop]; auto. destruct (Hb s H0) as [-> H]. destruct (b s) as [[s'|r]|]; cbn in *; auto.
Qed.
Lemma loop_out {S R} (Inv : S -> Prop) (Q : R -> Prop) (b : S -> res (S + R)) fuel s : Inv s ->
  (forall s, Inv s -> outs (b s) (fun r => match r with inl s' => Inv s' | inr r => Q r end) any) -> outs (loop fuel b s) Q any.
Proof.
  intros H0 Hb. revert s H0. induction fuel as [|fuel IH]; intros s H0; cbn [loop]; [exact I|]. specialize (Hb s H0). destruct (b s) as [[s'|r]|]; cbn in *; auto.
Qed.
Lemma append_nz {H} (start : Z -> H -> res (H * list (Z * Z * Z))) ch n m s : outs (append_for start ch n m s) (fun s' => a_nz s <= a_nz s') any.
Proof.
  unfold append_for. apply outs_bind_any. intros c Ec. cbn.
  assert (G : forall fuel k c0 c, a_nz s <= a_nz (fst c0) -> spar (astep_all start) adone n fuel ch k c0 = Ok c -> a_nz s <= a_nz (fst c)).
  { clear c Ec. induction fuel as [|fuel IH]; intros k c0 c Hc; cbn [spar].
    - destruct (adone c0); [now intros [= <-]|discriminate].
    - destruct (adone c0); [now intros [= <-]|]. destruct (filter _ _) as [|t l]; [discriminate|].
      generalize (getd 0 (t :: l) (ch k mod len (t :: l))). intros u. destruct (srun1 (astep_all start) c0 u) as [c1|] eqn:E1; [|discriminate]. cbn [bind]. apply IH.
      revert E1. unfold srun1, astep_all. destruct c0 as [[h nz Xi Xj Xx] ps]. cbn [fst] in *. unfold astep. cbn [a_nz] in *.
      destruct (getd AEnd ps u) as [|[|e es]|e es j|e es j|e es j|].
      + destruct (start u h) as [[h' es]|]; [|discriminate]. cbn. intros [= <-]. exact Hc.
      + cbn. intros [= <-]. exact Hc.
      + cbn. intros [= <-]. cbn. lia.
      + destruct (aset Xi j _); [|discriminate]. cbn. intros [= <-]. exact Hc.
      + destruct (aset Xj j _); [|discriminate]. cbn. intros [= <-]. exact Hc.
      + destruct (aset Xx j _); [|discriminate]. cbn. intros [= <-]. exact Hc.
      + cbn. intros [= <-]. exact Hc. }
  refine (G _ _ _ _ _ Ec). cbn. lia.
Qed.

(** ** Matrices with entries *)
(* U and L have entries *)
Definition filled (f : fact) : Prop := 0 < get (cp (f_U f)) (cn (f_U f)) /\ match f_L f with Some L => 0 < tnz L /\ tx L <> None | None => True end.
(* the library does not find more pivots than there are rows or columns *)
Definition ranks (E : env) : Prop :=
  (forall n m S, let '(rr, _, _) := e_rref E n m S in 0 <= rr <= Z.max 0 (Z.min n m)) /\
  (forall n m S, let '(rr, _, _, _) := e_plu E n m S in 0 <= rr <= Z.max 0 (Z.min n m)).

Lemma csr_realloc_eq g A k : 0 < get (cp A) (cn A) -> k <> 0 -> csr_realloc0 g A k = csr_realloc g A k.
Proof.
  intros H Hk. unfold csr_realloc0, csr_realloc. destruct (aget (cp A) (cn A)) as [z|] eqn:E; [|reflexivity]. cbn [bind].
  assert (z = get (cp A) (cn A)). { unfold aget in E. destruct (inb _ _); [|discriminate]. now injection E. }
  destruct (k <? 0); [replace (z =? 0) with false by lia|replace (k =? 0) with false by lia]; reflexivity.
Qed.
Lemma triplet_realloc_eq g T k : 0 < tnz T -> k <> 0 -> triplet_realloc0 g T k = triplet_realloc g T k.
Proof.
  intros H Hk. unfold triplet_realloc0, triplet_realloc. cbv zeta. destruct (k <? 0); [replace (tnz T =? 0) with false by lia|replace (k =? 0) with false by lia]; reflexivity.
Qed.
Lemma aset_Ok {A} (a a' : list A) i v : aset a i v = Ok a' -> 0 <= i < len a /\ a' = upd a i v.
Proof. unfold aset. destruct (inb a i) eqn:E; [|discriminate]. intros [= <-]. split; auto. unfold inb in E. lia. Qed.
Lemma aget_Ok (a : list Z) i v : aget a i = Ok v -> v = get a i.
Proof. unfold aget. destruct (inb a i); [|discriminate]. now intros [= <-]. Qed.

(* the state of the loops that add rows to U *)
Definition unz_ok (s : csr * list Z * Z) : Prop := let '(U, q, unz) := s in unz = get (cp U) (cn U) /\ 0 < unz.
Lemma fill_row_ok skip Sm Sd Sq q i lo s : unz_ok s -> outs (fill_row skip Sm Sd Sq q i lo s) unz_ok any.
Proof.
  destruct s as [[U uq] unz]. intros [E H]. unfold fill_row. do 6 (apply outs_bind_any; intros ? ?).
  apply outs_bind_any. intros [[Uj Ux] unz'] E1.
  assert (0 < unz').
  { revert E1. match goal with |- ?r = Ok _ -> _ => assert (G : outs r (fun '(_, _, u) => 0 < u) any) end.
    { apply (outs_for_any (fun '(_, _, u) => 0 < u)); [lia|]. intros k [[Uj' Ux'] u'] Hu. do 2 (apply outs_bind_any; intros ? ?). destruct (andb _ _); [exact Hu|].
      do 3 (apply outs_bind_any; intros ? ?). cbn. lia. }
    intros E1. rewrite E1 in G. exact G. }
  apply outs_bind_any. intros Up EU. apply aset_Ok in EU. destruct EU as [HU ->]. cbn. rewrite get_upd_eq by lia. lia.
Qed.

Lemma update_U_eq g rr Sm Sd Sq q f : filled f -> 0 <= rr <= Z.max 0 Sm -> update_U_after_rref0 g rr Sm Sd Sq q f = update_U_after_rref g rr Sm Sd Sq q f.
Proof.
  intros [H _] Hr. unfold update_U_after_rref0, update_U_after_rref. destruct (aget _ _) as [unz|] eqn:E; [|reflexivity]. cbn [bind]. apply aget_Ok in E.
  rewrite csr_realloc_eq; [reflexivity|exact H|]. destruct (Z.eq_dec rr 0) as [->|]; [lia|]. assert (0 <= (1 + Sm - rr) * rr) by (apply Z.mul_nonneg_nonneg; lia). lia.
Qed.
Lemma update_U_filled g rr Sm Sd Sq q f : filled f -> outs (update_U_after_rref g rr Sm Sd Sq q f) filled any.
Proof.
  intros [H HL]. unfold update_U_after_rref. apply outs_bind_any. intros unz E. apply aget_Ok in E. apply outs_bind_any. intros U EU.
  assert (G : cp U = cp (f_U f) /\ cn U = cn (f_U f)). { revert EU. unfold csr_realloc. destruct (aget _ _); [|discriminate]. cbn. now intros [= <-]. }
  apply outs_bind_any. intros [[U' q'] unz'] E1.
  assert (G' : unz_ok (U', q', unz')).
  { revert E1. apply outs_use. apply outs_for_any; [cbn; destruct G as [-> ->]; lia|]. intros i s. apply fill_row_ok. }
  apply outs_bind_any. intros _ _. cbn. split; [cbn; destruct G' as [G1 G2]; lia|exact HL].
Qed.

Lemma tput_ok L k i j v : outs (tput L k i j v) (fun L' => tx L' <> None /\ tnz L' = tnz L) any.
Proof. unfold tput. do 4 (apply outs_bind_any; intros ? ?). cbn. split; [discriminate|reflexivity]. Qed.
Lemma update_fact_eq g n Sm r Sd Sp Sq q p_in lb comp piv f : filled f -> 0 <= r <= Z.max 0 (Z.min n Sm) ->
  update_fact_after_LU0 g n Sm r Sd Sp Sq q p_in lb comp piv f = update_fact_after_LU g n Sm r Sd Sp Sq q p_in lb comp piv f.
Proof.
  intros [H HL] Hr. unfold update_fact_after_LU0, update_fact_after_LU. destruct (f_L f) as [L|]; [|reflexivity]. destruct HL as [HL _]. cbn [deref bind].
  destruct (aget _ _) as [unz|] eqn:E; [|reflexivity]. cbn [bind]. apply aget_Ok in E.
  rewrite csr_realloc_eq; [|exact H|].
  2:{ destruct (Z.eq_dec r 0) as [->|]; [lia|]. assert (0 <= (1 + 2 * Sm - r) * r) by (apply Z.mul_nonneg_nonneg; lia). lia. }
  rewrite triplet_realloc_eq; [reflexivity|exact HL|].
  destruct (Z.eq_dec r 0) as [->|]; [rewrite Z.mul_0_r; change (0 / 2) with 0; lia|].
  assert (0 <= (2 * n - r + 1) * r) by (apply Z.mul_nonneg_nonneg; lia). assert (0 <= (2 * n - r + 1) * r / 2) by (apply Z.div_pos; lia). lia.
Qed.
Lemma update_fact_filled g n Sm r Sd Sp Sq q p_in lb comp piv f : filled f -> 0 < lb ->
  outs (update_fact_after_LU g n Sm r Sd Sp Sq q p_in lb comp piv f) (fun '(_, f') => filled f') any.
Proof.
  intros [H HL] Hlb. unfold update_fact_after_LU. destruct (f_L f) as [L|]; [|exact I]. destruct HL as [HL HX]. cbn [deref bind].
  apply outs_bind_any. intros unz E. apply aget_Ok in E. apply outs_bind_any. intros U EU.
  assert (G : cp U = cp (f_U f) /\ cn U = cn (f_U f)). { revert EU. unfold csr_realloc. destruct (aget _ _); [|discriminate]. cbn. now intros [= <-]. }
  cbv zeta. set (L1 := triplet_realloc g L _).
  assert (H1 : tx L1 <> None /\ 0 < tnz L1). { unfold L1, triplet_realloc. cbn. split; [|exact HL]. now destruct (tx L). }
  clearbody L1. apply outs_bind_any. intros [[piv' L2] lnz] E2.
  assert (H2 : tx L2 <> None /\ 0 < lnz).
  { revert E2. apply outs_use with (Q := fun '(_, L2, lnz) => tx L2 <> None /\ 0 < lnz). destruct comp; [exact H1|].
    unfold keep_pivotal. apply outs_bind_any. intros pv _. apply outs_bind_any. intros [L3 l3] E3. cbn.
    revert E3. apply outs_use with (Q := fun '(L3, l3) => tx L3 <> None /\ 0 < l3). apply (outs_for_any (fun '(L3, l3) => tx L3 <> None /\ 0 < l3)); [tauto|].
    intros px [L4 l4] [V1 V2]. do 2 (apply outs_bind_any; intros ? ?). destruct (_ =? 0); [cbn; tauto|]. do 3 (apply outs_bind_any; intros ? ?).
    apply outs_bind_any. intros L5 E5. apply (outs_use _ _ _ (tput_ok _ _ _ _ _)) in E5. cbn. split; [tauto|lia]. }
  apply outs_bind_any. intros [[L3 Lp] lnz3] E3.
  assert (H3 : tx L3 <> None /\ 0 < lnz3).
  { revert E3. apply outs_use with (Q := fun '(L3, _, lnz3) => tx L3 <> None /\ 0 < lnz3). unfold lu_rows. apply (outs_for_any (fun '(L3, _, lnz3) => tx L3 <> None /\ 0 < lnz3)); [exact H2|].
    intros i [[L4 Lp4] l4] V. do 2 (apply outs_bind_any; intros ? ?). apply outs_bind_any. intros [L5 l5] E5.
    assert (V5 : tx L5 <> None /\ 0 < l5).
    { revert E5. apply outs_use with (Q := fun '(L5, l5) => tx L5 <> None /\ 0 < l5). apply (outs_for_any (fun '(L5, l5) => tx L5 <> None /\ 0 < l5)); [exact V|].
      intros j [L6 l6] V6. apply outs_bind_any. intros ? ?. destruct (_ =? 0); [exact V6|]. apply outs_bind_any. intros L7 E7. apply (outs_use _ _ _ (tput_ok _ _ _ _ _)) in E7. cbn. split; [tauto|lia]. }
    apply outs_bind_any. intros ? ?. exact V5. }
  apply outs_bind_any. intros [[U' q'] unz'] E1.
  assert (G' : unz_ok (U', q', unz')).
  { revert E1. apply outs_use. apply outs_for_any; [cbn; destruct G as [-> ->]; lia|]. intros i s. apply fill_row_ok. }
  cbn. split; [cbn; destruct G' as [G1 G2]; lia|]. cbn. tauto.
Qed.
Lemma schur_dense_eq E c A p n p_in f Sd q p_out : filled f -> schur_dense0 E c A p n p_in f Sd q p_out = schur_dense E c A p n p_in f Sd q p_out.
Proof.
  intros [H HL]. unfold schur_dense0, schur_dense. destruct (prepare_q _ _ _); [|reflexivity]. cbn [bind]. cbv zeta. destruct (f_L f) as [L|]; [|reflexivity]. destruct HL as [_ HL].
  cbn [option_map]. unfold triplet_realloc. cbv zeta. cbn [tx ti tj tnz tn tm tprime]. destruct (tx L) as [x|]; [|contradiction]. cbn [option_map deref bind is_some]. reflexivity.
Qed.
Lemma schur_dense_filled E c A p n p_in f Sd q p_out : filled f ->
  outs (schur_dense E c A p n p_in f Sd q p_out) (fun '(f', _, _, _) => filled f' /\ (f_L f' = None <-> f_L f = None)) any.
Proof.
  intros [H HL]. unfold schur_dense. apply outs_bind_any. intros q' _. cbv zeta. apply outs_bind_any. intros Lx EL. apply outs_bind_any. intros s Es. apply (outs_use _ _ _ (append_nz _ _ _ _ _)) in Es.
  cbn. destruct (f_L f) as [L|]; cbn in *.
  - split; [|split; discriminate]. split; [exact H|]. cbn. split; [lia|discriminate].
  - split; [|tauto]. split; [exact H|exact I].
Qed.

Definition dst_filled (s : list Z * Z * fact * Z * list Z * list Z * list Z * list Z * Z * Z) : Prop := let '(_, _, f, _, _, _, _, _, _, _) := s in filled f.
Definition dres_filled (r : list Z * Z * fact * Z * bool) : Prop := let '(_, _, f, _, _) := r in filled f.
Section finish.
Context (E : env) (HR : ranks E).
Lemma lowrank_eq fuel blk w0 A p n f : filled f -> echelonize_dense_lowrank0 E fuel blk w0 A p n f = echelonize_dense_lowrank E fuel blk w0 A p n f.
Proof.
  intros Hf. unfold echelonize_dense_lowrank0, echelonize_dense_lowrank. destruct (assert_ _); [|reflexivity]. cbn [bind]. cbv zeta.
  destruct (if w0 <? 0 then _ else _) as [w|]; [|reflexivity]. cbn [bind].
  apply (loop_eq (fun '(n, Sm, rank_ub, w, f, Sd, q, round) => filled f)); [exact Hf|]. clear - HR. intros [[[[[[[n Sm] ub] w] f] Sd] q] round] Hf.
  destruct (Z.min ub blk <=? 0); [split; [reflexivity|exact I]|]. destruct (schur_dense_randomized _ _ _ _ _ _ _ _ _ _ _) as [[S1 q1]|]; [|split; [reflexivity|exact I]]. cbn [bind].
  destruct HR as [HR1 _]. specialize (HR1 (Z.min ub blk) Sm S1). destruct (e_rref E _ _ _) as [[rr S2] Sp].
  destruct (if rr =? 0 then _ else _) as [[[stop w2] Sn2]|]; [|split; [reflexivity|exact I]]. cbn [bind]. destruct stop; [split; [reflexivity|exact I]|].
  destruct (if e_few9 E rr Sn2 then _ else _) as [w3|]; [|split; [reflexivity|exact I]]. cbn [bind].
  rewrite update_U_eq by (auto; lia). split; [reflexivity|]. apply outs_bind_any. intros f' Ef. apply (outs_use _ _ _ (update_U_filled _ _ _ _ _ _ _ Hf)) in Ef. exact Ef.
Qed.
Lemma dense_eq fuel blk w0 tall comp A p n p_in f : filled f -> echelonize_dense0 E fuel blk w0 tall comp A p n p_in f = echelonize_dense E fuel blk w0 tall comp A p n p_in f.
Proof.
  intros Hf. unfold echelonize_dense0, echelonize_dense. destruct (assert_ _); [|reflexivity]. cbn [bind]. cbv zeta.
  match goal with |- bind (loop ?k ?b0 ?s0) _ = bind (loop ?k ?b ?s0) _ =>
    assert (B : forall s, dst_filled s -> b0 s = b s /\
      outs (b s) (fun r => match r with inl s' => dst_filled s' | inr r => dres_filled r end) any) end.
  { clear - HR. intros [[[[[[[[[p done] f] Sm] Sd] q] po] piv] ub] round] Hf. cbv beta zeta delta [dst_filled dres_filled] in *.
    destruct (Z.min blk (n - done) <=? 0); [split; [reflexivity|exact Hf]|]. set (Sn := Z.min blk (n - done)).
    rewrite schur_dense_eq by exact Hf. pose proof (schur_dense_filled E round A p Sn p_in f Sd q po Hf) as HS.
    destruct (schur_dense _ _ _ _ _ _ _ _ _ _) as [[[[f1 S1] q1] po1]|]; [|split; [reflexivity|exact I]]. cbn [bind outs] in *. destruct HS as [HS HN].
    destruct (f_L f1) as [L1|] eqn:EL.
    - destruct HR as [_ HR2]. specialize (HR2 Sn Sm S1). destruct (e_plu E Sn Sm S1) as [[[rr S2] Sp] Sq]. rewrite update_fact_eq by (auto; lia). split; [reflexivity|].
      assert (HB : 0 < match f_L f with Some L => tnz L | None => -1 end). { destruct Hf as [_ HL]. destruct (f_L f) as [L|]; [tauto|]. exfalso. discriminate (proj2 HN eq_refl). }
      apply outs_bind_any. intros [[[rr' S3] piv'] f'] E1.
      assert (Hf' : filled f').
      { revert E1. match goal with |- bind ?r _ = _ -> _ => destruct r as [[pv f2]|] eqn:E2; [|discriminate] end. cbn [bind]. intros [= <- <- <- <-].
        revert E2. apply outs_use with (Q := fun '(_, f2) => filled f2). now apply update_fact_filled. }
      destruct (tall && e_few E rr' Sn); exact Hf'.
    - destruct HR as [HR1 _]. specialize (HR1 Sn Sm S1). destruct (e_rref E Sn Sm S1) as [[rr S2] Sq]. rewrite update_U_eq by (auto; lia). split; [reflexivity|].
      apply outs_bind_any. intros [[[rr' S3] piv'] f'] E1.
      assert (Hf' : filled f').
      { revert E1. match goal with |- bind ?r _ = _ -> _ => destruct r as [f2|] eqn:E2; [|discriminate] end. cbn [bind]. intros [= <- <- <- <-].
        revert E2. apply outs_use. now apply update_U_filled. }
      destruct (tall && e_few E rr' Sn); exact Hf'. }
  match goal with |- bind (loop ?k ?b0 ?s0) _ = bind (loop ?k ?b ?s0) _ =>
    rewrite (loop_eq dst_filled b0 b k s0 Hf);
    [pose proof (loop_out dst_filled dres_filled b k s0 Hf) as HO|] end.
  - match type of HO with _ -> outs ?r _ _ => destruct r as [[[[[p' done] f'] ub'] low]|] eqn:E1; [|reflexivity] end. cbn [bind].
    destruct (andb _ low); [|reflexivity]. apply lowrank_eq. cbn [outs] in HO. apply HO. intros s Hs. apply B, Hs.
  - intros s Hs. destruct (B s Hs) as [B1 B2]. split; [exact B1|]. clear B1 Hs.
    match type of B2 with outs ?r _ _ => destruct r as [[s'|r']|] end; cbn [outs] in *; auto.
Qed.
End finish.

(** ** The rounds *)
Lemma inv_filled p A0 full comp f A o rem u1 : 2 <= p -> inv p A0 full comp f A o rem u1 -> 0 < cn (f_U f) -> filled f.
Proof.
  intros Hp [I1 _ _ _ _ _ _ _ _ _ _ _ _ _ _ I16] Hn. pose proof (el_wf _ _ _ I1) as HU. split.
  - fold (nnz (f_U f)). destruct (upper_columns p (f_U f) (f_q f) HU (el_up _ _ _ I1)) as (col & Hc & _). destruct (Hc 0 ltac:(lia)) as [Hc1 Hc2].
    pose proof (up_unit _ _ _ (el_up _ _ _ I1) (col 0) Hc1 ltac:(lia)) as Hu. rewrite Hc2 in Hu.
    pose proof (wf_nnz _ HU). destruct (Z.eq_dec (nnz (f_U f)) 0) as [E|]; [|lia].
    rewrite (entry_nnz0 (f_U f)) in Hu by (auto; lia). apply cong_sym in Hu. unfold cong in Hu. apply Z.divide_pos_le in Hu; lia.
  - destruct (f_L f) as [L|]; [|exact I]. destruct I16 as [[Q1 Q2 _ _ _ _ _ _] _ _ _ Q _ _ _ _ _]. split; [|exact Q2].
    destruct (Z_lt_le_dec 0 (tnz L)) as [|Hz]; auto. exfalso. apply (Q 0 ltac:(lia)). unfold tentry. rewrite sum_empty by lia. apply cong_refl.
Qed.

Section rounds.
Context (X : params) (p : Z) (A0 : csr) (comp : bool) (hasL greedy : bool).
Context (HX : params_ok X p (cm A0)) (Hmod : ok_modulus p) (Hprime : Znumtheory.prime p).

Lemma round_pos round s : rinv p A0 comp hasL False False round s ->
  outs (ech_round X greedy round s) (fun r => match r with
    | inl s' => 0 < cn (f_U (s_f s'))
    | inr (s', st) => st = 1 \/ 0 < cn (f_U (s_f s')) end) any.
Proof.
  destruct HX as (X1 & X2 & X3 & X4 & X5 & X6 & X7).
  destruct s as [A p_in f pr npiv dns]. intros (HI & HD & HZ & Hpin & (HL1 & HL2) & Hlp & _ & _). cbn [s_A s_pin s_f s_p s_npiv s_dense] in *.
  assert (Hp2 : 2 <= p) by (unfold ok_modulus in *; lia).
  pose proof HI as [I1 I2 I3 I4 I5 I6 I7 I8 I9 I10 I11 I12 I13 I14 I15 I16]. pose proof (wf_len A I5) as HlA. pose proof (wf_n A I5) as HnA.
  rewrite len_zseq in I4. assert (Hm : cm (f_U f) = cm A) by congruence.
  unfold ech_round. apply outs_bind_any. intros nz Enz. apply aget_Ok in Enz. fold (nnz A) in Enz. subst nz.
  destruct (Z.eqb_spec (nnz A) 0) as [En|En]; [cbn; auto|].
  assert (HG : gscr A (x_pscr X round)).
  { intros t Ht. destruct (X4 round t) as (Y1 & Y2 & Y3). split; [|congruence]. split; [congruence|auto]. }
  apply outs_bind_any. intros [[k f1] pr1] Ex.
  assert (Hk : 1 <= k).
  { assert (HS : exists i j, 0 <= i < cn A /\ stored A i j).
    { destruct (row_exists A I5 0) as (i & Hi & Hr); [pose proof (wf_nnz A I5); lia|]. exists i, (get (cj A) 0). split; auto. exists 0. auto. }
    destruct HS as (i & j & Hi & Hs).
    pose proof (pivots_find_progress A I5 (x_junk X round) (x_pch X round) (x_pscr X round) greedy (malloc (x_junk X round 20) (cn A)) (malloc (x_junk X round 21) (cm A)) i j HD
      (proj1 I8) HZ) as HP.
    pose proof (wf_m A I5) as HmA. specialize (HP ltac:(rewrite len_malloc; lia) ltac:(rewrite len_malloc; lia) HG Hi Hs).
    revert Ex. unfold extract_structural. destruct (pivots_find _ _ _ _ _ _ _) as [[[np pi] qi]|]; [|discriminate]. cbn [sat bind] in *.
    repeat match goal with |- bind ?r _ = Ok _ -> _ => destruct r as [?a|]; [cbn [bind]|discriminate] end.
    destruct a5 as [[[[U' unz'] q'] L'] lp']. repeat match goal with |- bind ?r _ = Ok _ -> _ => destruct r as [?a|]; [cbn [bind]|discriminate] end. intros [= <- _ _]. exact HP. }
  assert (Hn1 : cn (f_U f1) = cn (f_U f) + k).
  { assert (HO : sat (extract_structural (x_junk X round) (x_pch X round) (x_pscr X round) greedy A p_in f pr) (fun '(k, f1, _) => cn (f_U f1) = cn (f_U f) + k)).
    { eapply sat_mono.
      { apply (extract_structural_ok A I5 HD p I7 Hmod Hprime HZ I8 (x_junk X round) (x_pch X round) (x_pscr X round) greedy p_in f pr); auto; try lia.
        - intros i c Hi Hs. pose proof (stored_range A i c I5 Hi Hs) as Hc. pose proof (up_rng _ _ _ (el_up _ _ _ I1) c ltac:(lia)) as Hr.
          specialize (I12 i c ltac:(now apply In_zseq) Hs). lia.
        - destruct (f_L f) as [L|]; auto. destruct I16 as [[Q1 Q2 Q3 Q4 Q5 Q6 Q7 Q8] Q9 _ _ _ _ _ _ _ _]. split; auto. split; auto. split; auto.
          split; [lia|]. split; [lia|]. split; [exact Hpin|]. intros i Hi. rewrite Q4. apply I10. now apply In_zseq. }
      cbv beta. intros [[k' f1'] pr1'] (pinv & qinv & P1 & P2 & P3 & P4 & P5 & P6 & P7 & P8). now apply (ex_n _ _ _ _ _ _ _ _ P8). }
    rewrite Ex in HO. exact HO. }
  pose proof (wf_n _ (el_wf _ _ _ I1)) as HnU. assert (Hpos : 0 < cn (f_U f1)) by lia.
  destruct (x_few _ _ _); [cbn; auto|]. apply outs_bind_any. intros c _. destruct (andb _ _); [exact I|]. destruct (x_dens _ _ _); [cbn; auto|].
  apply outs_bind_any. intros [[Sc L'] po] _. exact Hpos.
Qed.
End rounds.

Theorem echelonize_eq X fuel o A p : ok_modulus p -> Znumtheory.prime p -> wf A -> cprime A = p -> reduced A -> no_zero A -> nodup_rows A ->
  params_ok X p (cm A) -> ranks (x_E X) -> 0 < o_rounds o \/ o_dense o = false /\ low_rank o = false -> echelonize0 X fuel o A = echelonize X fuel o A.
Proof.
  intros Hmod Hprime HA HpA HR HZ HD HX HRk Hro. unfold echelonize0, echelonize. fold (wantsL o). fold (low_rank o).
  destruct Hro as [Hro|[Hde Hlo]].
  2:{ rewrite Hlo. assert (HF : forall s st, ech_finish0 X fuel o false s st = ech_finish X fuel o false s st).
      { intros [A' p_in f pr npiv dns] st. unfold ech_finish0, ech_finish. now rewrite Hde. }
      destruct (aget _ _); [|reflexivity]. cbn [bind]. destruct (for_ 0 (cm A) _ _); [|reflexivity]. cbn [bind].
      match goal with |- bind ?r _ = bind ?r _ => destruct r as [[L Lp]|]; [|reflexivity] end. cbn [bind].
      destruct (forb _ _ _ _) as [[s|[s st]]|]; cbn [bind]; [| |reflexivity]; now rewrite HF. }
  set (hasL := wantsL o) in *. set (tall := low_rank o) in *.
  pose proof (wf_n A HA) as Hn. pose proof (wf_m A HA) as Hm. pose proof (wf_len A HA) as Hl. pose proof (wf_nnz A HA) as Hnz.
  rewrite aget_ok by lia. cbn [bind]. fold (nnz A). set (g := e_junk (x_E X)).
  destruct (for_ 0 (cm A) _ _) as [q|] eqn:Eq; [|reflexivity]. cbn [bind].
  assert (HQ : len q = cm A /\ forall j, 0 <= j < cm A -> get q j = -1).
  { match type of Eq with ?r = _ => assert (HS : sat r (fun q => len q = cm A /\ forall j, 0 <= j < cm A -> get q j = -1)) end.
    { apply (for_spec (fun k q => len q = cm A /\ forall j, 0 <= j < k -> get q j = -1)); [lia|rewrite len_malloc by lia; split; [lia|intros; lia]| |auto].
      intros k q0 Hk [L1 L2]. apply sat_aset; [lia|]. rewrite len_upd. split; auto. intros j Hj. rewrite get_upd_in by lia. destruct (Z.eqb_spec k j); auto. apply L2. lia. }
    rewrite Eq in HS. exact HS. }
  destruct HQ as [Lq Hq]. clear Eq.
  match goal with |- bind ?r _ = bind ?r _ => destruct r as [[L Lp]|] eqn:EL; [|reflexivity] end. cbn [bind].
  assert (HL : L = (if hasL then Some (triplet_alloc g (cn A) (cn A) (nnz A) (cprime A) true) else None) /\ (hasL = true -> len Lp = cn A)).
  { destruct hasL; [|injection EL as <- <-; split; [auto|discriminate]]. destruct (for_ 0 (cn A) _ _) as [lp|] eqn:E2; [|discriminate]. cbn in EL. injection EL as <- <-.
    match type of E2 with ?r = _ => assert (HS : sat r (fun l => len l = cn A)) end.
    { apply (for_spec (fun _ q => len q = cn A)); [lia|rewrite len_malloc; lia| |auto]. intros i l Hi Hl2. apply sat_aset; [lia|]. now rewrite len_upd. }
    rewrite E2 in HS. auto. }
  destruct HL as [-> HLp]. clear EL. set (s0 := Est _ _ _ _ _ _).
  assert (HI0 : inv p A True (o_complete o) (s_f s0) A (oapply None) (zseq 0 (cn A)) 0).
  { unfold s0. cbn [s_f]. rewrite <- HpA. refine (inv_init (cprime A) A g hasL (o_complete o) q Lp HA eq_refl HR Lq Hq HLp _). lia. }
  assert (HR0 : rinv p A (o_complete o) hasL False False 0 s0).
  { split; [exact HI0|]. split; auto. split; auto. split; [exact I|]. split; [unfold s0, Lok; cbn [s_f f_L]; now destruct hasL|]. split; [cbn; rewrite len_malloc; lia|]. split; contradiction. }
  clearbody s0. assert (Hp2 : 2 <= p) by (unfold ok_modulus in *; lia).
  set (good := fun s : est => filled (s_f s)).
  assert (Hloop : outs (forb 0 (o_rounds o) (fun round s => ech_round X (o_greedy o) round s) s0) (fun r => match r with
    | inl s => filled (s_f s) | inr (s, st) => st = 1 \/ filled (s_f s) end) any).
  { apply (outs_forb (fun rd s => rinv p A (o_complete o) hasL False False rd s /\ (0 < rd -> 0 < cn (f_U (s_f s))))); [lia|split; [auto|lia]| |].
    - intros rd s Hrd [HI _]. pose proof (round_ok X p A (o_complete o) hasL (o_greedy o) HX Hmod Hprime False False (fun H => False_ind _ H) rd s HI) as HO.
      pose proof (round_pos X p A (o_complete o) hasL (o_greedy o) HX Hmod Hprime rd s HI) as HP.
      destruct (ech_round _ _ _ _) as [[s'|[s' st]]|e]; cbn [outs] in *; [| |exact I].
      + destruct HO as [_ HO]. split; [apply HO; contradiction|auto].
      + destruct HO as [(-> & _)|[-> HO]]; [auto|]. destruct HP as [|HP]; [lia|]. right. destruct HO as (u1 & HI' & _); [contradiction|]. apply (inv_filled _ _ _ _ _ _ _ _ _ Hp2 HI' HP).
    - intros s [HI HP]. specialize (HP Hro). destruct HI as [HI _]. apply (inv_filled _ _ _ _ _ _ _ _ _ Hp2 HI HP). }
  destruct (forb _ _ _ _) as [r|]; [|reflexivity]. cbn [bind outs] in *.
  assert (HF : forall s st, st = 1 \/ filled (s_f s) -> ech_finish0 X fuel o tall s st = ech_finish X fuel o tall s st).
  { intros [A' p_in f pr npiv dns] st H. cbn [s_f] in H. unfold ech_finish0, ech_finish. destruct (if st =? 0 then _ else _) as [[np pr']|]; [|reflexivity]. cbn [bind].
    destruct (Z.eqb_spec st 1) as [|Hst]; [reflexivity|]. destruct H as [|H]; [contradiction|]. cbv zeta. rewrite (lowrank_eq _ HRk), (dense_eq _ HRk) by exact H. reflexivity. }
  destruct r as [s|[s st]]; rewrite HF by auto; reflexivity.
Qed.

(** ** Loading *)
Lemma triplet_load_eq gs g bytes prime hash T h : triplet_load gs g bytes prime hash = Ok (T, h) -> 0 < tnz T -> triplet_load0 gs g bytes prime hash = Ok (T, h).
Proof.
  unfold triplet_load, triplet_load0. cbv zeta. intros E Hz. destruct (read_line _ _ _) as [[[[s|] c] f]|]; try discriminate. cbn [bind] in *.
  match type of E with bind ?r _ = _ => destruct r as [[[[[[mm n] m] nz] c'] f']|]; [|discriminate] end. cbn [bind] in *.
  destruct (assert_ _); [|discriminate]. cbn [bind] in *. destruct (read_entries _ _ _ _ _ _ _) as [[[T' c2] f2]|]; [|discriminate]. cbn [bind] in *.
  destruct mm; [exact E|]. rewrite triplet_realloc_eq; [exact E| |lia].
  match type of E with bind ?r _ = _ => destruct r; [|discriminate] end. cbn [bind] in E. injection E as <- _. exact Hz.
Qed.
(** A library that answers 0 instead of a number of pivots that is too large *)
Definition clamp (E : env) : env :=
  Env (e_junk E) (e_scr E) (e_ch E) (e_rc E) (e_ri E)
    (fun n m S => let '(rr, S', Q) := e_rref E n m S in (if (0 <=? rr) && (rr <=? Z.min n m) then rr else 0, S', Q))
    (fun n m S => let '(rr, S', P, Q) := e_plu E n m S in (if (0 <=? rr) && (rr <=? Z.min n m) then rr else 0, S', P, Q))
    (e_Sn E) (e_few E) (e_few9 E) (e_w0 E) (e_thr E).
Lemma clamp_ranks E : ranks (clamp E).
Proof.
  split; intros n m S; cbn.
  - destruct (e_rref E n m S) as [[rr S'] Q]. destruct (andb _ _) eqn:Eb; lia.
  - destruct (e_plu E n m S) as [[[rr S'] P] Q]. destruct (andb _ _) eqn:Eb; lia.
Qed.
Lemma clamp_ok E p : ffpack_ok E p -> ffpack_ok (clamp E) p.
Proof.
  intros [H1 H2]. split; intros n m S Hn Hm Hl Hb; cbn.
  - specialize (H1 n m S Hn Hm Hl Hb). destruct (e_rref E n m S) as [[rr S'] Q]. pose proof (rk_rank _ _ _ _ _ _ _ H1). now replace (andb _ _) with true by lia.
  - specialize (H2 n m S Hn Hm Hl Hb). destruct (e_plu E n m S) as [[[rr S'] P] Q]. pose proof (lk_rank _ _ _ _ _ _ _ _ H2). now replace (andb _ _) with true by lia.
Qed.
Definition with_env (X : params) (E : env) : params :=
  Params E (x_junk X) (x_pch X) (x_pscr X) (x_few X) (x_rand X) (x_escr X) (x_dens0 X) (x_dens X) (x_size X) (x_sch X) (x_sscr X) (x_tall X).
