(** Invariant of the echelonization: what is known while U (and L) are being built. *)
From Verif Require Import Base BaseFacts Spec SpecFacts SpecElim Zp ZpFacts Mat MatFacts RowList CompressProofs LinAlg TriProofs VecProofs KernelProofs ParRows ElimFacts.
From Coq Require Import ZifyBool Permutation.

(* the triplets of L: n0 rows, columns below u, no two entries cancel *)
Record ltri (p n0 u : Z) (L : triplet) : Prop := {
  lt_wf : twf L;
  lt_x : tx L <> None;
  lt_p : tprime L = p;
  lt_n : tn L = n0;
  lt_m : u <= tm L;
  lt_bal : forall k, 0 <= k < tnz L -> balanced p (tval L k);
  lt_clean : forall i c, tstored L i c -> ~ cong p (tentry L i c) 0;
  lt_col : forall i c, tstored L i c -> c < u
}.

(* the rows [rem] of A are still to be processed; row i of A comes from row (o i) of A0.
   u1: A is zero on the first u1 pivotal columns *)
Record lpart (p : Z) (A0 : csr) (comp : bool) (U : csr) (L : triplet) (lp : list Z)
  (A : csr) (o : Z -> Z) (rem : list Z) (u1 : Z) : Prop := {
  lq_tri : ltri p (cn A0) (cn U) L;
  lq_len : cn A0 <= len lp;
  lq_rng : forall k, 0 <= k < cn U -> 0 <= get lp k < cn A0;
  lq_dis : forall k, 0 <= k < cn U -> ~ In (get lp k) (map o rem);
  lq_diag : forall k, 0 <= k < cn U -> ~ cong p (tentry L (get lp k) k) 0;
  lq_low : forall k c, 0 <= k < c -> c < cn U -> cong p (tentry L (get lp k) c) 0;
  lq_piv : forall k j, 0 <= k < cn U -> 0 <= j < cm A0 -> cong p (entry A0 (get lp k) j) (xA U (tentry L (get lp k)) j);
  lq_rem : forall i j, In i rem -> 0 <= j < cm A0 -> cong p (entry A0 (o i) j) (xA U (tentry L (o i)) j + entry A i j);
  lq_base : forall i c, In i rem -> tstored L (o i) c -> c < u1;
  lq_all : comp = true -> forall i0 j, 0 <= i0 < cn A0 -> ~ In i0 (map o rem) -> 0 <= j < cm A0 ->
    cong p (entry A0 i0 j) (xA U (tentry L i0) j)
}.
Record inv (p : Z) (A0 : csr) (full : Prop) (comp : bool) (f : fact) (A : csr) (o : Z -> Z) (rem : list Z) (u1 : Z) : Prop := {
  iv_el : elim p (f_U f) (f_q f);
  iv_m : cm (f_U f) = cm A0;
  iv_len : len (cp (f_U f)) = cn A0 + 1;
  iv_room : cn (f_U f) + len rem <= cn A0;
  iv_wfA : wf A;
  iv_mA : cm A = cm A0;
  iv_pA : cprime A = p;
  iv_redA : reduced A;
  iv_u1 : 0 <= u1 <= cn (f_U f);
  iv_rngrem : forall i, In i rem -> 0 <= i < cn A /\ 0 <= o i < cn A0;
  iv_nodup : NoDup (map o rem);
  iv_base : forall i c, In i rem -> stored A i c -> ~ 0 <= get (f_q f) c < u1;
  iv_U : forall k, 0 <= k < cn (f_U f) -> in_rowspace p A0 (entry (f_U f) k);
  iv_rem : forall i, In i rem -> in_rowspace p A0 (entry A i);
  iv_full : full -> forall i0, 0 <= i0 < cn A0 -> in_rowspace p (f_U f) (entry A0 i0) \/
    exists i, In i rem /\ o i = i0 /\ exists lam, forall j, 0 <= j < cm A0 -> cong p (entry A0 i0 j) (xA (f_U f) lam j + entry A i j);
  iv_L : match f_L f with Some L => lpart p A0 comp (f_U f) L (f_p f) A o rem u1 | None => True end
}.

(** ** General facts *)
(* x * U' when U' has k more rows *)
Lemma xA_ext_rows U U' k x j : 0 <= k -> 0 <= cn U -> cn U' = cn U + k -> (forall i, 0 <= i < cn U -> entry U' i j = entry U i j) ->
  xA U' x j = xA U x j + sum 0 k (fun l => x (cn U + l) * entry U' (cn U + l) j).
Proof.
  intros Hk Hn Hn' H. unfold xA. rewrite (sum_split (cn U) 0 (cn U')) by lia. f_equal.
  - apply sum_ext. intros i Hi. now rewrite H.
  - rewrite Hn'. apply (sum_shift0 (cn U) k (fun i => x i * entry U' i j)).
Qed.
Lemma tentry_unstored L i c : ~ tstored L i c -> tentry L i c = 0.
Proof.
  intros H. apply sum_zero. intros k Hk. destruct (andb _ _) eqn:E; auto. exfalso. apply H. exists k. lia.
Qed.
(* a vector that agrees with the rows of U is a combination of them *)
Lemma upper_reduce p U q : wf U -> upper p U q -> forall b, exists y, forall j, 0 <= j < cm U -> 0 <= get q j -> cong p (xA U y j) (b j).
Proof.
  intros HU Hup b. destruct (upper_columns p U q HU Hup) as (col & Hc & Hc2).
  assert (G : forall t, (Z.of_nat t <= cn U) -> exists y, forall i, 0 <= i < Z.of_nat t -> cong p (sum 0 (Z.of_nat t) (fun k => y k * entry U k (col i))) (b (col i))).
  { induction t as [|t IH]; intros Ht. { exists (fun _ => 0). intros i Hi. lia. }
    destruct IH as (y & Hy); [lia|]. set (T := Z.of_nat t) in *. replace (Z.of_nat (S t)) with (T + 1) in * by lia.
    exists (fun k => if k =? T then b (col T) - sum 0 T (fun k => y k * entry U k (col T)) else y k).
    intros i Hi. rewrite sum_last by lia. replace (T + 1 - 1) with T by lia. rewrite Z.eqb_refl.
    rewrite (sum_ext 0 T _ (fun k => y k * entry U k (col i))). 2:{ intros k Hk. now replace (k =? T) with false by lia. }
    destruct (Hc i ltac:(lia)) as [Hci Hqi].
    destruct (Z.eq_dec i T) as [->|Hne].
    - pose proof (up_unit _ _ _ Hup (col T) ltac:(auto)) as Hu. rewrite Hqi in Hu. rewrite (Hu ltac:(lia)). apply cong_eq. ring.
    - rewrite (entry_absent U T (col i)).
      { rewrite Z.mul_0_r, Z.add_0_r. apply Hy. lia. }
      apply (up_tri _ _ _ Hup); auto; lia. }
  destruct (G (Z.to_nat (cn U))) as (y & Hy). { pose proof (wf_n U HU). lia. }
  exists y. intros j Hj Hq. pose proof (wf_n U HU). rewrite Z2Nat.id in Hy by lia. pose proof (up_rng _ _ _ Hup j Hj).
  specialize (Hy (get q j) ltac:(lia)). rewrite Hc2 in Hy by auto. exact Hy.
Qed.
(* full column rank: everything is in the row space *)
Lemma upper_full p U q : wf U -> upper p U q -> cn U = cm U -> forall b, in_rowspace p U b.
Proof.
  intros HU Hup Hn b. destruct (upper_reduce p U q HU Hup b) as (y & Hy). exists y. intros j Hj. apply Hy; auto.
  pose proof (count_free p U q HU Hup) as Hf. rewrite Hn, Z.sub_diag in Hf.
  destruct (Z_lt_le_dec (get q j) 0) as [Hlt|]; auto. exfalso.
  pose proof (sum_split j 0 (cm U) (fun j => if 0 <=? get q j then 0 else 1) ltac:(lia)) as E.
  pose proof (sum_nonneg 0 j (fun j => if 0 <=? get q j then 0 else 1)) as E1.
  rewrite (sum_first j (cm U)) in E by lia. replace (0 <=? get q j) with false in E by lia.
  pose proof (sum_nonneg (j + 1) (cm U) (fun j => if 0 <=? get q j then 0 else 1)) as E2.
  assert (forall lo i, lo <= i < cm U -> 0 <= (if 0 <=? get q i then 0 else 1)) by (intros; destruct (0 <=? _); lia).
  assert (0 <= sum 0 j (fun j => if 0 <=? get q j then 0 else 1)) by (apply E1; intros; destruct (0 <=? _); lia).
  assert (0 <= sum (j + 1) (cm U) (fun j => if 0 <=? get q j then 0 else 1)) by (apply E2; intros; destruct (0 <=? _); lia). lia.
Qed.
(* a combination that vanishes on the pivotal columns of the first u1 rows does not use them *)
Lemma upper_low_zero p U q u1 lam : wf U -> upper p U q -> u1 <= cn U ->
  (forall j, 0 <= j < cm U -> 0 <= get q j < u1 -> cong p (xA U lam j) 0) -> forall c, 0 <= c < u1 -> cong p (lam c) 0.
Proof.
  intros HU Hup Hu H. destruct (upper_columns p U q HU Hup) as (col & Hc & _).
  assert (G : forall t, Z.of_nat t <= u1 -> forall c, 0 <= c < Z.of_nat t -> cong p (lam c) 0).
  { induction t as [|t IH]; intros Ht c Hct; [lia|]. destruct (Z_lt_le_dec c (Z.of_nat t)) as [Hl|Hl]; [apply IH; lia|].
    assert (c = Z.of_nat t) as -> by lia. set (T := Z.of_nat t) in *. destruct (Hc T ltac:(lia)) as [HT Hq].
    specialize (H (col T) HT ltac:(lia)). unfold xA in H. rewrite (sum_split T) in H by lia.
    rewrite (sum_cong p 0 T _ (fun _ => 0)) in H. 2:{ intros i Hi. rewrite (IH ltac:(lia) i ltac:(lia)). apply cong_eq. ring. }
    rewrite (sum_zero 0 T (fun _ => 0)) in H by auto. rewrite sum_first in H by lia.
    rewrite (sum_zero (T + 1) (cn U)) in H.
    2:{ intros i Hi. rewrite (entry_absent U i (col T)); [ring|]. apply (up_tri _ _ _ Hup); auto; lia. }
    pose proof (up_unit _ _ _ Hup (col T) HT ltac:(lia)) as Hu1. rewrite Hq in Hu1. rewrite Hu1 in H.
    rewrite <- H. apply cong_eq. ring. }
  intros c Hcu. apply (G (Z.to_nat u1)); lia.
Qed.

(** ** Steps *)
(* the rows [done] have been reduced and give k pivots *)
Lemma inv_batch p A0 (full full' : Prop) comp f f' A o rem don rem' u1 k :
  inv p A0 full comp f A o rem u1 -> Permutation rem (don ++ rem') ->
  elim p (f_U f') (f_q f') -> cm (f_U f') = cm (f_U f) -> len (cp (f_U f')) = len (cp (f_U f)) ->
  cn (f_U f') = cn (f_U f) + k -> 0 <= k /\ (k <= len don \/ cn (f_U f) + k + len rem' <= cn A0) ->
  (forall i c, 0 <= i < cn (f_U f) -> entry (f_U f') i c = entry (f_U f) i c) ->
  (forall l, 0 <= l < k -> in_rowspace p A0 (entry (f_U f') (cn (f_U f) + l))) ->
  (forall c, 0 <= c < cm (f_U f) -> get (f_q f') c = get (f_q f) c \/ cn (f_U f) <= get (f_q f') c) ->
  (full' -> full /\ forall i, In i don -> in_rowspace p (f_U f') (entry A i)) ->
  match f_L f, f_L f' with
  | Some L, Some L' =>
      ltri p (cn A0) (cn (f_U f')) L' /\ len (f_p f') = len (f_p f) /\
      (forall i0, ~ In i0 (map o don) -> forall c, tentry L' i0 c = tentry L i0 c /\ (tstored L' i0 c -> tstored L i0 c)) /\
      (forall c, 0 <= c < cn (f_U f) -> get (f_p f') c = get (f_p f) c) /\
      exists d delta,
        (forall l, 0 <= l < k -> In (d l) don /\ get (f_p f') (cn (f_U f) + l) = o (d l) /\
           ~ cong p (tentry L' (o (d l)) (cn (f_U f) + l)) 0 /\
           (forall c, cn (f_U f) + l < c < cn (f_U f') -> cong p (tentry L' (o (d l)) c) 0)) /\
        (forall i, In i don -> comp = true \/ (exists l, 0 <= l < k /\ i = d l) ->
           (forall c, 0 <= c < cn (f_U f') -> cong p (tentry L' (o i) c) (tentry L (o i) c + delta i c)) /\
           (forall j, 0 <= j < cm A0 -> cong p (entry A i j) (xA (f_U f') (delta i) j)))
  | None, None => True
  | _, _ => False end ->
  inv p A0 full' comp f' A o rem' u1.
Proof.
  intros [I1 I2 I3 I4 I5 I6 I7 I8 I9 I10 I11 I12 I13 I14 I15 I16] HP Hel Hm Hlen Hn Hk Hold Hnew Hq Hfull HL.
  set (U := f_U f) in *. set (U' := f_U f') in *. pose proof (wf_n U (el_wf _ _ _ I1)) as Hun.
  assert (Hin : forall i, In i rem <-> In i don \/ In i rem').
  { intros i. rewrite <- in_app_iff. split; apply Permutation_in; auto. now symmetry. }
  assert (Hlr : len rem = len don + len rem') by (unfold len; rewrite (Permutation_length HP), app_length; lia).
  assert (HND : NoDup (map o don ++ map o rem')). { rewrite <- map_app. eapply Permutation_NoDup; [apply Permutation_map, HP|auto]. }
  assert (Hdis : forall i0, In i0 (map o rem') -> ~ In i0 (map o don)).
  { intros i0 H1 H2. clear - HND H1 H2. induction (map o don) as [|a l IH]; [easy|]. cbn in HND. inversion HND; subst.
    destruct H2 as [->|H2]; [|auto]. apply H3, in_app_iff. auto. }
  assert (HxU : forall x j, xA U' x j = xA U x j + sum 0 k (fun l => x (cn U + l) * entry U' (cn U + l) j)).
  { intros x j. apply xA_ext_rows; auto; lia. }
  assert (HxU0 : forall x j, (forall c, cn U <= c < cn U' -> x c = 0) -> xA U' x j = xA U x j).
  { intros x j H. rewrite HxU, sum_zero; [ring|]. intros l Hl. rewrite H by lia. ring. }
  constructor; auto; fold U U'.
  - congruence.
  - congruence.
  - lia.
  - lia.
  - intros i Hi. apply I10, Hin. auto.
  - clear - HND. induction (map o don); auto. cbn in HND. inversion HND; auto.
  - intros i c Hi Hs. specialize (I12 i c (proj2 (Hin i) (or_intror Hi)) Hs).
    assert (Hi' : 0 <= i < cn A) by (apply I10, Hin; auto).
    assert (Hc : 0 <= c < cm U). { rewrite I2, <- I6. destruct Hs as (px & Hpx & <-). apply (wf_col A I5). pose proof (wf_row A I5 i Hi'). lia. }
    destruct (Hq c Hc) as [->|]; auto. lia.
  - intros i Hi. destruct (Z_lt_le_dec i (cn U)) as [H|H].
    + eapply in_rowspace_ext; [|apply (I13 i); lia]. intros j Hj. rewrite Hold by lia. apply cong_refl.
    + replace i with (cn U + (i - cn U)) by lia. apply Hnew. lia.
  - intros i Hi. apply I14, Hin. auto.
  - intros F' i0 Hi0. destruct (Hfull F') as [F Hd].
    assert (Hinc : forall b, in_rowspace p U b -> in_rowspace p U' b).
    { intros b (y & Hy). exists (fun i => if i <? cn U then y i else 0). intros j Hj. rewrite HxU0.
      - rewrite <- Hy by congruence. apply cong_eq, xA_ext. intros i Hi. now replace (i <? cn U) with true by lia.
      - intros c Hc. now replace (c <? cn U) with false by lia. }
    destruct (I15 F i0 Hi0) as [H|(i & Hi & Ho & lam & Hl)]; [left; auto|].
    apply Hin in Hi. destruct Hi as [Hi|Hi].
    + left. eapply in_rowspace_ext; [|apply in_rowspace_add; [apply Hinc, (in_rowspace_xA p U lam)|apply (Hd i Hi)]].
      intros j Hj. cbv beta. rewrite <- Hl by congruence. apply cong_refl.
    + right. exists i. split; auto. split; auto. exists (fun c => if c <? cn U then lam c else 0).
      intros j Hj. rewrite Hl by auto. rewrite HxU0.
      * apply cong_add; [|apply cong_refl]. apply cong_eq, xA_ext. intros c Hc. now replace (c <? cn U) with true by lia.
      * intros c Hc. now replace (c <? cn U) with false by lia.
  - destruct (f_L f) as [L|] eqn:EL, (f_L f') as [L'|] eqn:EL'; try easy.
    destruct I16 as [Q1 Q2 Q3 Q4 Q5 Q6 Q7 Q8 Q9 Q10].
    destruct HL as (T & Hlp & Hoth & Hlpo & d & delta & Hd & Hdel).
    assert (Hz : forall i0 c, cn U <= c -> tentry L i0 c = 0).
    { intros i0 c Hc. apply tentry_unstored. intros Hs. pose proof (lt_col _ _ _ _ Q1 i0 c Hs). fold U in H. lia. }
    assert (HA : forall i, In i don -> comp = true \/ (exists l, 0 <= l < k /\ i = d l) -> forall j, 0 <= j < cm A0 ->
      cong p (entry A0 (o i) j) (xA U' (tentry L' (o i)) j)).
    { intros i Hi Hc j Hj. destruct (Hdel i Hi Hc) as [D1 D2]. rewrite (xA_cong p U' _ (fun c => tentry L (o i) c + delta i c)) by auto.
      rewrite xA_add, <- (D2 j Hj), (HxU0 (tentry L (o i))) by (intros; apply Hz; lia). apply Q8; auto. apply Hin. auto. }
    assert (Hpr : forall c, 0 <= c < cn U' -> c < cn U /\ get (f_p f') c = get (f_p f) c \/
      exists l, 0 <= l < k /\ c = cn U + l /\ get (f_p f') c = o (d l) /\ In (d l) don).
    { intros c Hc. destruct (Z_lt_le_dec c (cn U)) as [H|H]; [left; split; auto; apply Hlpo; lia|right].
      exists (c - cn U). destruct (Hd (c - cn U) ltac:(lia)) as (H1 & H2 & _). replace (cn U + (c - cn U)) with c in H2 by lia.
      split; [lia|]. split; [lia|]. auto. }
    assert (Hnd : forall c, 0 <= c < cn U -> ~ In (get (f_p f) c) (map o don)).
    { intros c Hc H. apply (Q4 c Hc). apply in_map_iff in H. destruct H as (x & <- & Hx). apply in_map, Hin. auto. }
    constructor; auto.
    + lia.
    + intros c Hc. destruct (Hpr c Hc) as [[H ->]|(l & Hl & -> & -> & H)]; [apply Q3; lia|]. apply I10, Hin. auto.
    + intros c Hc H. destruct (Hpr c Hc) as [[H0 E]|(l & Hl & -> & E & H0)]; rewrite E in H.
      * apply (Q4 c ltac:(lia)). apply in_map_iff in H. destruct H as (x & <- & Hx). apply in_map, Hin. auto.
      * apply (Hdis _ H). now apply in_map.
    + intros c Hc. destruct (Hpr c Hc) as [[H0 ->]|(l & Hl & -> & -> & H0)].
      * destruct (Hoth (get (f_p f) c) (Hnd c ltac:(lia)) c) as [-> _]. apply Q5. lia.
      * apply Hd. auto.
    + intros c c2 Hc Hc2. destruct (Hpr c ltac:(lia)) as [[H0 ->]|(l & Hl & -> & -> & H0)].
      * destruct (Hoth (get (f_p f) c) (Hnd c ltac:(lia)) c2) as [-> _].
        destruct (Z_lt_le_dec c2 (cn U)); [apply Q6; lia|]. rewrite Hz by auto. apply cong_refl.
      * apply Hd; auto. lia.
    + intros c j Hc Hj. destruct (Hpr c ltac:(lia)) as [[H0 ->]|(l & Hl & -> & -> & H0)].
      * assert (Hx : forall c2, tentry L' (get (f_p f) c) c2 = tentry L (get (f_p f) c) c2) by (intros c2; apply (Hoth _ (Hnd c ltac:(lia)) c2)).
        rewrite (xA_ext U' _ (tentry L (get (f_p f) c))) by auto. rewrite HxU0 by (intros; apply Hz; lia). apply Q7; auto. lia.
      * apply HA; auto. right. eauto.
    + intros i j Hi Hj. assert (Ho : ~ In (o i) (map o don)) by (apply Hdis, in_map; auto).
      rewrite (xA_ext U' _ (tentry L (o i))) by (intros; apply (Hoth _ Ho)). rewrite HxU0 by (intros; apply Hz; lia).
      apply Q8; auto. apply Hin. auto.
    + intros i c Hi Hs. assert (Ho : ~ In (o i) (map o don)) by (apply Hdis, in_map; auto).
      apply (Q9 i c); [apply Hin; auto|]. now apply (Hoth _ Ho c).
    + intros Hc i0 j Hi0 Hni Hj. destruct (in_dec Z.eq_dec i0 (map o don)) as [H|H].
      * apply in_map_iff in H. destruct H as (i & <- & Hi). apply HA; auto.
      * rewrite (xA_ext U' _ (tentry L i0)) by (intros; apply (Hoth _ H)). rewrite HxU0 by (intros; apply Hz; lia).
        apply Q10; auto. intros H1. apply in_map_iff in H1. destruct H1 as (i & <- & Hi). apply Hin in Hi.
        destruct Hi as [Hi|Hi]; [apply H|apply Hni]; apply in_map; auto.
Qed.

(** ** Adding triplets to L *)
Definition tcoef (i j : Z) (es : list (Z * Z * Z)) : Z := lsum (fun '(a, b, v) => if (a =? i) && (b =? j) then v else 0) es.
Lemma tcoef_nil_in i j es : ~ In (i, j) (map fst es) -> tcoef i j es = 0.
Proof.
  unfold tcoef. induction es as [|[[a b] v] es IH]; intros H; [reflexivity|]. rewrite lsum_cons. rewrite IH; [|cbn in H; tauto].
  destruct (andb _ _) eqn:E; [|lia]. exfalso. apply H. left. cbn. f_equal; lia.
Qed.
Lemma tcoef_in i j v es : NoDup (map fst es) -> In (i, j, v) es -> tcoef i j es = v.
Proof.
  unfold tcoef. induction es as [|[[a b] w] es IH]; [easy|]. cbn [map fst]. intros HN [E|H]; inversion HN as [|? ? H1 H2]; subst; rewrite lsum_cons.
  - injection E as -> -> ->. rewrite !Z.eqb_refl. cbn [andb]. fold (tcoef i j es). rewrite tcoef_nil_in by auto. lia.
  - rewrite IH by auto. destruct (andb _ _) eqn:E; [|lia]. exfalso. apply H1. apply in_map_iff. exists (i, j, v). split; auto. cbn. f_equal; lia.
Qed.
Lemma tcoef_app i j l1 l2 : tcoef i j (l1 ++ l2) = tcoef i j l1 + tcoef i j l2.
Proof. apply lsum_app. Qed.
Lemma tcoef_row i j es : (forall e, In e es -> fst (fst e) <> i) -> tcoef i j es = 0.
Proof.
  intros H. apply tcoef_nil_in. intros H1. apply in_map_iff in H1. destruct H1 as (e & E & He). apply (H e He). now rewrite E.
Qed.
Lemma tentry_tcoef L i j : tentry L i j = tcoef i j (tlist L).
Proof. apply tentry_tlist. Qed.
Lemma tstored_tlist L i j : tstored L i j <-> In (i, j) (map fst (tlist L)).
Proof.
  unfold tlist. rewrite map_map. cbn [fst]. rewrite in_map_iff. split.
  - intros (k & Hk & H1 & H2). exists k. rewrite In_zseq. split; auto. congruence.
  - intros (k & E & Hk). rewrite In_zseq in Hk. exists k. split; auto. now inversion E.
Qed.
Lemma In_tlist L e : In e (tlist L) <-> exists k, 0 <= k < tnz L /\ e = (get (ti L) k, get (tj L) k, tval L k).
Proof.
  unfold tlist. rewrite in_map_iff. split; intros (k & H1 & H2).
  - rewrite In_zseq in H2. eauto.
  - exists k. rewrite In_zseq. auto.
Qed.
Lemma balanced_nz p v : 2 <= p -> balanced p v -> v <> 0 -> ~ cong p v 0.
Proof. intros Hp Hb Hv H. apply Hv. apply (balanced_unique p); auto. apply balanced_0. auto. Qed.
Lemma ltri_app p n0 u u' L L' es : 2 <= p -> ltri p n0 u L -> u <= u' -> u' <= tm L' -> twf L' -> tx L' <> None ->
  tprime L' = tprime L -> tn L' = tn L -> tlist L' = tlist L ++ es ->
  (forall i c v, In (i, c, v) es -> balanced p v /\ v <> 0 /\ c < u' /\ ~ tstored L i c) -> NoDup (map fst es) ->
  ltri p n0 u' L'.
Proof.
  intros Hp [H1 H2 H3 H4 H5 H6 H7 H8] Hu Hm W X P N E Hes HN.
  assert (HS : forall i c, tstored L' i c <-> tstored L i c \/ In (i, c) (map fst es)).
  { intros i c. rewrite !tstored_tlist, E, map_app, in_app_iff. reflexivity. }
  assert (HE : forall i c, tentry L' i c = tentry L i c + tcoef i c es).
  { intros i c. rewrite !tentry_tcoef, E. apply tcoef_app. }
  constructor; auto; try congruence.
  - intros k Hk. assert (G : In (get (ti L') k, get (tj L') k, tval L' k) (tlist L')) by (apply In_tlist; eauto).
    rewrite E, in_app_iff in G. destruct G as [G|G].
    + apply In_tlist in G. destruct G as (l & Hl & G). inversion G as [[G1 G2 G3]]. rewrite G3. auto.
    + now apply Hes in G.
  - intros i c Hs. rewrite HE. apply HS in Hs. destruct (in_dec (fun a b : Z * Z => ltac:(repeat decide equality)) (i, c) (map fst es)) as [G|G].
    + apply in_map_iff in G. destruct G as ([[i' c'] v] & G & Hin). cbn in G. injection G as -> ->.
      rewrite (tcoef_in i c v) by auto. destruct (Hes _ _ _ Hin) as (B & V & _ & Hns). rewrite tentry_unstored by auto.
      cbn. now apply balanced_nz.
    + destruct Hs as [Hs|]; [|easy]. rewrite tcoef_nil_in by auto. rewrite Z.add_0_r. auto.
  - intros i c Hs. apply HS in Hs. destruct Hs as [Hs|Hs]; [specialize (H8 i c Hs); lia|].
    apply in_map_iff in Hs. destruct Hs as ([[i' c'] v] & G & Hin). cbn in G. injection G as -> ->. apply Hes in Hin. lia.
Qed.

(** ** Structural pivots *)
Lemma map_get_perm n pr : 0 <= n -> (forall k, 0 <= k < n -> 0 <= get pr k < n) ->
  (forall k l, 0 <= k < n -> 0 <= l < n -> get pr k = get pr l -> k = l) -> Permutation (zseq 0 n) (map (get pr) (zseq 0 n)).
Proof.
  intros Hn Hr Hi. symmetry. apply perm_Permutation; auto.
  assert (G : forall i, 0 <= i < n -> get (map (get pr) (zseq 0 n)) i = get pr i).
  { intros i H. unfold get at 1. rewrite (getd_map _ 0) by (rewrite len_zseq; lia). now rewrite getd_zseq by lia. }
  split; [rewrite len_map, len_zseq; lia|]. split.
  - intros i H. rewrite G; auto.
  - intros i j H1 H2. rewrite !G; auto.
Qed.
Lemma zseq_split lo mid hi : lo <= mid <= hi -> zseq lo hi = zseq lo mid ++ zseq mid hi.
Proof.
  intros H. apply (listd_ext 0).
  - rewrite len_app, !len_zseq. lia.
  - intros k Hk. rewrite len_zseq in Hk. rewrite getd_zseq by lia. destruct (Z_lt_le_dec k (mid - lo)).
    + rewrite getd_app_l by (rewrite len_zseq; lia). rewrite getd_zseq by lia. auto.
    + rewrite getd_app_r by (rewrite len_zseq; lia). rewrite len_zseq, getd_zseq by lia. lia.
Qed.
Lemma NoDup_map_inj {X Y} (f : X -> Y) l a b : NoDup (map f l) -> In a l -> In b l -> f a = f b -> a = b.
Proof.
  induction l as [|x l IH]; [easy|]. cbn. intros HN Ha Hb E. inversion HN as [|? ? H1 H2]; subst.
  destruct Ha as [->|Ha], Hb as [->|Hb]; auto.
  - exfalso. apply H1. rewrite E. now apply in_map.
  - exfalso. apply H1. rewrite <- E. now apply in_map.
Qed.
Lemma cong_inverse p a : ok_modulus p -> Znumtheory.prime p -> balanced p a -> a <> 0 -> exists b, cong p (b * a) 1.
Proof.
  intros Hm Hp Hb Ha. exists (zinv p a). rewrite Z.mul_comm. apply zinv_ok; auto.
  - unfold balanced, ok_modulus in *. assert (p / 2 < p) by (apply Z.div_lt; lia). assert (0 <= p / 2) by (apply Z.div_pos; lia).
    pose proof (Z.div_mod p 2 ltac:(lia)). pose proof (Z.mod_pos_bound p 2 ltac:(lia)). lia.
  - apply balanced_nz; auto. unfold ok_modulus in *. lia.
Qed.

Lemma inv_extract p A0 (full : Prop) comp f f' A p_in u1 pinv qinv pr k :
  ok_modulus p -> Znumtheory.prime p ->
  inv p A0 full comp f A (oapply p_in) (zseq 0 (cn A)) u1 -> u1 = cn (f_U f) -> nodup_rows A -> no_zero A ->
  0 <= k <= cn A -> pivots A pinv qinv -> pivot_order A pinv k pr ->
  match f_L f with Some L => tm L = cn A0 | None => True end ->
  elim p (f_U f') (f_q f') -> extracted p A p_in f f' pinv pr k ->
  inv p A0 full comp f' A (oapply p_in) (map (get pr) (zseq k (cn A))) u1.
Proof.
  intros Hmod Hprime HI Hu1 HD HZ Hk Hpv Hpo Htm Hel [X1 X2 X3 X4 X5 X6 X7 X8 X9].
  assert (Hp2 : 2 <= p) by (unfold ok_modulus in *; lia).
  pose proof HI as [I1 I2 I3 I4 I5 I6 I7 I8 I9 I10 I11 I12 I13 I14 I15 I16].
  set (U := f_U f) in *. set (U' := f_U f') in *. set (o := oapply p_in) in *.
  pose proof (wf_n U (el_wf _ _ _ I1)) as Hun. pose proof (wf_n A I5) as Hna.
  destruct Hpo as [P1 P2 P3 P4].
  set (a := fun l => entry A (get pr l) (get pinv (get pr l))) in *.
  assert (Ha : forall l, 0 <= l < k -> balanced p (a l) /\ a l <> 0).
  { intros l Hl. destruct (pv_p _ _ _ Hpv (get pr l) (P1 l ltac:(lia))) as [H|(H1 & H2 & px & H3 & H4)].
    - assert (l < k) by lia. rewrite P3, H in H0 by lia. lia.
    - unfold a. rewrite <- H4, nodup_entry by (auto; apply P1; lia). pose proof (wf_row A I5 (get pr l) (P1 l ltac:(lia))).
      split; [|apply HZ; lia]. rewrite <- I7. apply I8. lia. }
  assert (Hoinj : forall i i', 0 <= i < cn A -> 0 <= i' < cn A -> o i = o i' -> i = i').
  { intros i i' H1 H2 E. eapply NoDup_map_inj; eauto; now apply In_zseq. }
  assert (Hin : forall i, In i (map (get pr) (zseq 0 k)) <-> exists l, 0 <= l < k /\ i = get pr l).
  { intros i. rewrite in_map_iff. split; intros (l & H1 & H2); exists l; rewrite In_zseq in *; auto. }
  assert (Hinv : forall l, 0 <= l < k -> exists b, forall c, cong p (entry U' (cn U + l) c) (b * entry A (get pr l) c)).
  { intros l Hl. destruct (Ha l Hl) as [Hb Hz]. destruct (cong_inverse p (a l) Hmod Hprime Hb Hz) as (b & Eb). exists b.
    intros c. rewrite (X5 l c Hl). fold (a l) U'. rewrite Z.mul_assoc, Eb. apply cong_eq. ring. }
  apply (inv_batch p A0 full full comp f f' A o (zseq 0 (cn A)) (map (get pr) (zseq 0 k)) _ u1 k); auto; fold U U'.
  - rewrite <- map_app, <- zseq_split by lia. apply map_get_perm; auto.
  - rewrite len_map, len_zseq. lia.
  - intros i c Hi. rewrite !entry_rowl. rewrite X4 by auto. reflexivity.
  - intros l Hl. destruct (Hinv l Hl) as (b & Hb). eapply in_rowspace_ext; [|apply in_rowspace_scale with (k := b)].
    2:{ apply (I14 (get pr l)). apply In_zseq. apply P1. lia. }
    intros j Hj. cbv beta. now rewrite Hb.
  - intros c Hc. destruct (X6 c) as [->|(_ & l & Hl & _ & ->)]; [auto|]. right. fold U. lia.
  - intros F. split; auto. intros i Hi. apply Hin in Hi. destruct Hi as (l & Hl & ->).
    exists (fun i => if i =? cn U + l then a l else 0). intros j Hj. rewrite xA_delta by (lia).
    rewrite (X5 l j Hl). apply cong_refl.
  - destruct (f_L f) as [L|] eqn:EL, (f_L f') as [L'|] eqn:EL'; try easy.
    destruct X9 as (W & X & N & M & P & TL & LP1 & LP2).
    destruct I16 as [Q1 Q2 Q3 Q4 Q5 Q6 Q7 Q8 Q9 Q10].
    set (es := map (fun l => (o (get pr l), cn U + l, a l)) (zseq 0 k)).
    assert (Hes : forall i c v, In (i, c, v) es <-> exists l, 0 <= l < k /\ i = o (get pr l) /\ c = cn U + l /\ v = a l).
    { intros i c v. unfold es. rewrite in_map_iff. split.
      - intros (l & E & Hl). rewrite In_zseq in Hl. inversion E; eauto.
      - intros (l & Hl & -> & -> & ->). exists l. rewrite In_zseq. auto. }
    assert (HN : NoDup (map fst es)).
    { unfold es. rewrite map_map. cbn [fst]. apply FinFun.Injective_map_NoDup; [|apply NoDup_zseq]. intros x y E. injection E. lia. }
    assert (HTL : tlist L' = tlist L ++ es) by exact TL.
    assert (HE : forall i c, tentry L' i c = tentry L i c + tcoef i c es).
    { intros i c. rewrite !tentry_tcoef, HTL. apply tcoef_app. }
    split.
    { apply (ltri_app p (cn A0) (cn U) (cn U') L L' es); auto.
      - lia.
      - rewrite X1, M, Htm. rewrite len_zseq in I4. lia.
      - intros i c v Hv. apply Hes in Hv. destruct Hv as (l & Hl & -> & -> & ->). destruct (Ha l Hl) as [H1 H2].
        split; auto. split; auto. split; [lia|].
        intros Hs. pose proof (lt_col _ _ _ _ Q1 _ _ Hs) as H. fold U in H. lia. }
    split; [auto|]. split.
    { intros i0 Hi0 c. rewrite HE, tcoef_row.
      - split; [ring|]. intros Hs. apply tstored_tlist in Hs. rewrite HTL, map_app, in_app_iff in Hs.
        destruct Hs as [Hs|Hs]; [now apply tstored_tlist|]. exfalso. apply in_map_iff in Hs. destruct Hs as ([[i c'] v] & E & Hv).
        apply Hes in Hv. destruct Hv as (l & Hl & -> & _). cbn in E. injection E as E _. apply Hi0. rewrite <- E. apply in_map, Hin. eauto.
      - intros [[i c'] v] Hv. cbn. apply Hes in Hv. destruct Hv as (l & Hl & -> & _). intros E. apply Hi0. rewrite <- E. apply in_map, Hin. eauto. }
    split. { intros c Hc. apply LP1. fold U. lia. }
    exists (get pr), (fun i c => if (cn U <=? c) && (c <? cn U + k) && (get pr (c - cn U) =? i) then a (c - cn U) else 0).
    assert (HC : forall l, 0 <= l < k -> forall c, tcoef (o (get pr l)) c es = if c =? cn U + l then a l else 0).
    { intros l Hl c. destruct (Z.eqb_spec c (cn U + l)) as [->|Hne].
      - apply tcoef_in; auto. apply Hes. eauto.
      - apply tcoef_nil_in. intros H. apply in_map_iff in H. destruct H as ([[i c'] v] & E & Hv). apply Hes in Hv.
        destruct Hv as (l' & Hl' & -> & -> & _). cbn in E. injection E as E1 E2. apply Hoinj in E1; try (apply P1; lia).
        apply P2 in E1; lia. }
    split.
    + intros l Hl. split; [apply Hin; eauto|]. split; [apply LP2; auto|]. rewrite HE, (HC l Hl), Z.eqb_refl.
      assert (Hz : forall c, cn U <= c -> tentry L (o (get pr l)) c = 0).
      { intros c Hc. apply tentry_unstored. intros Hs. pose proof (lt_col _ _ _ _ Q1 _ _ Hs) as H. fold U in H. lia. }
      split.
      * rewrite Hz by lia. rewrite Z.add_0_l. destruct (Ha l Hl). now apply balanced_nz.
      * intros c Hc. rewrite HE, (HC l Hl), Hz by lia. replace (c =? cn U + l) with false by lia. apply cong_refl.
    + intros i Hi _. apply Hin in Hi. destruct Hi as (l & Hl & ->).
      assert (Hdel : forall c, (if (cn U <=? c) && (c <? cn U + k) && (get pr (c - cn U) =? get pr l) then a (c - cn U) else 0) =
        if c =? cn U + l then a l else 0).
      { intros c. destruct (Z.eqb_spec c (cn U + l)) as [->|Hne].
        - replace (cn U + l - cn U) with l by lia. replace (cn U <=? cn U + l) with true by lia. replace (cn U + l <? cn U + k) with true by lia.
          rewrite Z.eqb_refl. reflexivity.
        - destruct (andb _ _) eqn:E; auto. exfalso. assert (c - cn U = l); [|lia]. apply P2; lia. }
      split.
      * intros c Hc. rewrite HE, (HC l Hl), Hdel. apply cong_refl.
      * intros j Hj. rewrite (xA_ext U' _ (fun i => if i =? cn U + l then a l else 0)) by auto.
        rewrite xA_delta by (lia). apply X5. auto.
Qed.

(** ** Schur complement *)
Lemma inv_schur p A0 (full : Prop) comp f A o (P : Z -> Z) u1 n Sc o' oo lam L' :
  2 <= p -> inv p A0 full comp f A o (map P (zseq 0 n)) u1 -> 0 <= n ->
  wf Sc -> cn Sc = n -> cm Sc = cm A -> cprime Sc = p -> reduced Sc ->
  (forall k j, 0 <= k < n -> stored Sc k j -> get (f_q f) j < 0) ->
  is_perm n oo ->
  (forall k j, 0 <= k < n -> 0 <= j < cm A -> cong p (entry A (P (get oo k)) j) (xA (f_U f) (lam k) j + entry Sc k j)) ->
  (forall k, 0 <= k < n -> o' k = o (P (get oo k))) ->
  match f_L f, L' with
  | Some L, Some L' => twf L' /\ tx L' <> None /\ tn L' = tn L /\ tm L' = tm L /\ tprime L' = tprime L /\
      tnz L <= tnz L' /\ (forall k, 0 <= k < tnz L -> get (ti L') k = get (ti L) k /\ get (tj L') k = get (tj L) k /\ tval L' k = tval L k) /\
      (forall k, tnz L <= k < tnz L' -> balanced p (tval L' k) /\ tval L' k <> 0 /\ 0 <= get (tj L') k < cn (f_U f) /\
        exists r, 0 <= r < n /\ get (ti L') k = o' r /\ tval L' k = lam r (get (tj L') k)) /\
      (forall i q, tentry L' i q = tentry L i q + sum 0 n (fun k => if o' k =? i then lam k q else 0))
  | None, None => True | _, _ => False end ->
  inv p A0 full comp (Fact (f_U f) (f_q f) L' (f_p f)) Sc o' (zseq 0 n) (cn (f_U f)).
Proof.
  intros Hp2 [I1 I2 I3 I4 I5 I6 I7 I8 I9 I10 I11 I12 I13 I14 I15 I16] Hn SW Sn Sm Sp Sr Sst Hoo HA Ho' HL.
  set (U := f_U f) in *. set (q := f_q f) in *.
  pose proof (wf_n U (el_wf _ _ _ I1)) as Hun.
  destruct Hoo as (O1 & O2 & O3).
  assert (HinP : forall k, 0 <= k < n -> In (P (get oo k)) (map P (zseq 0 n))).
  { intros k Hk. apply in_map, In_zseq, O2, Hk. }
  assert (Hperm : Permutation (map o (map P (zseq 0 n))) (map o' (zseq 0 n))).
  { transitivity (map (fun k => o (P k)) (map (get oo) (zseq 0 n))).
    - rewrite map_map. apply Permutation_map, map_get_perm; auto.
    - rewrite map_map. apply Permutation_refl'. apply map_ext_in. intros k Hk. rewrite In_zseq in Hk. symmetry. auto. }
  assert (Hin : forall i0, In i0 (map o' (zseq 0 n)) <-> In i0 (map o (map P (zseq 0 n)))).
  { intros i0. split; apply Permutation_in; auto. now symmetry. }
  assert (HND : NoDup (map o' (zseq 0 n))) by (eapply Permutation_NoDup; eauto).
  assert (Hinj : forall k l, 0 <= k < n -> 0 <= l < n -> o' k = o' l -> k = l).
  { intros k l H1 H2 E. eapply NoDup_map_inj; eauto; now apply In_zseq. }
  assert (Hlow : forall k c, 0 <= k < n -> 0 <= c < u1 -> cong p (lam k c) 0).
  { intros k c Hk Hc. apply (upper_low_zero p U q u1 (lam k)); auto; [apply I1|apply I1|lia|].
    intros j Hj Hq. specialize (HA k j Hk ltac:(rewrite I6, <- I2; exact Hj)).
    rewrite (entry_absent A) in HA. 2:{ intros Hs. apply (I12 _ j (HinP k Hk)); auto. }
    rewrite (entry_absent Sc) in HA. 2:{ intros Hs. specialize (Sst k j Hk Hs). lia. }
    rewrite Z.add_0_r in HA. now symmetry. }
  constructor; cbn [f_U f_q f_L f_p]; auto; fold U q.
  - rewrite len_map in I4. rewrite len_zseq in *. lia.
  - congruence.
  - lia.
  - intros k Hk. apply In_zseq in Hk. split; [lia|]. rewrite Ho' by auto. apply I10. auto.
  - intros k c Hk Hs. apply In_zseq in Hk. specialize (Sst k c Hk Hs). lia.
  - intros k Hk. apply In_zseq in Hk.
    eapply in_rowspace_ext; [|apply in_rowspace_sub; [apply (I14 (P (get oo k)) (HinP k Hk))|apply (in_rowspace_trans p U A0 (xA U (lam k)) I2 I13 (in_rowspace_xA p U (lam k)))]].
    intros j Hj. cbv beta. rewrite (HA k j Hk) by congruence. apply cong_eq. ring.
  - intros F i0 Hi0. destruct (I15 F i0 Hi0) as [H|(i & Hi & <- & lam0 & Hl)]; [auto|right].
    assert (Hk : In (o i) (map o' (zseq 0 n))) by (apply Hin, in_map; auto). apply in_map_iff in Hk. destruct Hk as (k & E & Hk).
    apply In_zseq in Hk. exists k. split; [now apply In_zseq|]. split; auto.
    assert (Ei : i = P (get oo k)). { apply (NoDup_map_inj o _ _ _ I11 Hi (HinP k Hk)). rewrite <- E. auto. }
    exists (fun c => lam0 c + lam k c). intros j Hj. rewrite Hl by auto. rewrite xA_add, Ei, (HA k j) by (auto; congruence). apply cong_eq. ring.
  - destruct (f_L f) as [L|] eqn:EL, L' as [L'|]; try easy.
    destruct HL as (W & X & N & M & Pp & NZ & Hold & Hnew & HE).
    destruct I16 as [Q1 Q2 Q3 Q4 Q5 Q6 Q7 Q8 Q9 Q10].
    assert (HEo : forall i0 c, ~ In i0 (map o' (zseq 0 n)) -> tentry L' i0 c = tentry L i0 c).
    { intros i0 c H. rewrite HE, sum_zero; [ring|]. intros k Hk. destruct (Z.eqb_spec (o' k) i0) as [<-|]; auto.
      exfalso. apply H. apply in_map. now apply In_zseq. }
    assert (HEk : forall k c, 0 <= k < n -> tentry L' (o' k) c = tentry L (o' k) c + lam k c).
    { intros k c Hk. rewrite HE. f_equal. rewrite (sum_single 0 n _ k) by (auto; intros l Hl Hne; destruct (Z.eqb_spec (o' l) (o' k)); auto; exfalso; auto).
      now rewrite Z.eqb_refl. }
    assert (HS : forall i c, tstored L' i c -> tstored L i c \/ exists k, 0 <= k < n /\ i = o' k /\ u1 <= c < cn U /\ tentry L' i c = lam k c /\ ~ cong p (lam k c) 0).
    { intros i c (k & Hk & E1 & E2). destruct (Z_lt_le_dec k (tnz L)) as [H|H].
      - left. exists k. destruct (Hold k ltac:(lia)) as (G1 & G2 & _). rewrite <- E1, <- E2. auto with zarith.
      - right. destruct (Hnew k ltac:(lia)) as (B & V & R & r & Hr & Er & Ev). exists r.
        rewrite E1 in Er. rewrite E2 in R, Ev. rewrite Ev in V, B. pose proof (balanced_nz p _ Hp2 B V) as Hnz.
        assert (Hc : u1 <= c). { destruct (Z_lt_le_dec c u1); auto. exfalso. apply Hnz, Hlow; auto. lia. }
        split; auto. split; auto. split; [lia|]. split; auto. rewrite Er, HEk by auto. rewrite tentry_unstored; [ring|].
        intros Hs. assert (c < u1); [|lia]. rewrite Ho' in Hs by auto. eapply Q9; eauto. }
    assert (Hdis : forall k, 0 <= k < cn U -> ~ In (get (f_p f) k) (map o' (zseq 0 n))).
    { intros k Hk H. apply Hin in H. now apply (Q4 k). }
    constructor; auto.
    + destruct Q1 as [T1 T2 T3 T4 T5 T6 T7 T8]. constructor; auto; try (unfold U in *; congruence); try (unfold U in *; lia).
      * intros k Hk. destruct (Z_lt_le_dec k (tnz L)) as [H|H]; [destruct (Hold k ltac:(lia)) as (_ & _ & ->); apply T6; lia|].
        apply Hnew. lia.
      * intros i c Hs. destruct (HS i c Hs) as [H|(k & Hk & -> & Hc & -> & H)]; auto.
        destruct (in_dec Z.eq_dec i (map o' (zseq 0 n))) as [G|G].
        { apply in_map_iff in G. destruct G as (k & <- & Hk). apply In_zseq in Hk. rewrite HEk by auto.
          assert (Hc : c < u1). { rewrite Ho' in H by auto. eapply Q9; eauto. }
          assert (0 <= c). { destruct H as (k' & Hk' & _ & <-). destruct T1 as (_ & _ & _ & _ & _ & T1). specialize (T1 k' Hk'). lia. }
          rewrite (Hlow k c) by (auto; lia). rewrite Z.add_0_r. auto. }
        rewrite HEo by auto. auto.
      * intros i c Hs. destruct (HS i c Hs) as [H|(k & Hk & -> & Hc & _)]; [apply (T8 i c H)|lia].
    + intros k Hk. rewrite HEo by auto. auto.
    + intros k c Hk Hc. rewrite HEo by (apply Hdis; lia). auto.
    + intros k j Hk Hj. rewrite (xA_ext U _ (tentry L (get (f_p f) k))) by (intros; apply HEo; auto). auto.
    + intros k j Hk Hj. apply In_zseq in Hk. rewrite (xA_ext U _ (fun c => tentry L (o' k) c + lam k c)) by auto. rewrite xA_add.
      rewrite Ho' by auto. rewrite (Q8 (P (get oo k)) j) by auto. fold U. rewrite (HA k j) by (auto; congruence). apply cong_eq. ring.
    + intros k c Hk Hs. destruct (HS _ _ Hs) as [H|(k' & _ & _ & H & _)]; [|lia]. apply (lt_col _ _ _ _ Q1 _ _ H).
    + intros Hc i0 j Hi0 Hni Hj. rewrite (xA_ext U _ (tentry L i0)) by auto. apply Q10; auto. intros H. apply Hni, Hin, H.
Qed.

(** ** Weakening, stopping *)
Lemma inv_weaken p A0 (full full' : Prop) comp f A o rem u1 : (full' -> full) -> inv p A0 full comp f A o rem u1 -> inv p A0 full' comp f A o rem u1.
Proof. intros H [I1 I2 I3 I4 I5 I6 I7 I8 I9 I10 I11 I12 I13 I14 I15 I16]. constructor; auto. Qed.
(* the remaining rows are given up *)
Lemma inv_drop p A0 (full full' : Prop) comp f A o rem u1 : inv p A0 full comp f A o rem u1 ->
  (full' -> full /\ forall i, In i rem -> in_rowspace p (f_U f) (entry A i)) ->
  (comp = true -> f_L f <> None -> forall i j, In i rem -> 0 <= j < cm A0 -> cong p (entry A i j) 0) ->
  inv p A0 full' comp f A o [] u1.
Proof.
  intros HI HF HC. pose proof HI as [I1 I2 I3 I4 I5 I6 I7 I8 I9 I10 I11 I12 I13 I14 I15 I16].
  apply (inv_batch p A0 full full' comp f f A o rem rem [] u1 0); auto; try lia.
  - now rewrite app_nil_r.
  - pose proof (len_nonneg rem). lia.
  - destruct (f_L f) as [L|] eqn:EL; auto. destruct I16 as [Q1 Q2 Q3 Q4 Q5 Q6 Q7 Q8 Q9 Q10].
    split; [auto|]. split; [auto|]. split; [auto|]. split; [auto|].
    exists (fun _ => 0), (fun _ _ => 0). split; [intros; lia|]. intros i Hi [Hc|(l & Hl & _)]; [|lia]. split.
    + intros c Hc2. apply cong_eq. ring.
    + intros j Hj. rewrite xA_zero. apply HC; auto. discriminate.
Qed.
(* only the dimension and the spare room of L change *)
Lemma inv_setm p A0 full comp U q L lp A o rem u1 m' : cn U <= m' ->
  inv p A0 full comp (Fact U q (Some L) lp) A o rem u1 ->
  inv p A0 full comp (Fact U q (Some (Triplet (tnz L) (tn L) m' (ti L) (tj L) (tx L) (tprime L))) lp) A o rem u1.
Proof.
  intros Hm [I1 I2 I3 I4 I5 I6 I7 I8 I9 I10 I11 I12 I13 I14 I15 I16]. constructor; auto. cbn [f_U f_q f_L f_p] in *.
  destruct I16 as [Q1 Q2 Q3 Q4 Q5 Q6 Q7 Q8 Q9 Q10]. constructor; auto.
  destruct Q1 as [(W1 & W2 & W3 & W4 & W5 & W6) T2 T3 T4 T5 T6 T7 T8]. pose proof (wf_n U (el_wf _ _ _ I1)).
  constructor; cbn [tn tm tx tprime]; auto. unfold twf. cbn [tn tm tnz ti tj tx]. split; [auto|]. split; [cbn in *; lia|]. split; [auto|]. split; [auto|]. split; [auto|].
  intros k Hk. split; [apply W6; auto|]. split; [apply W6; auto|]. assert (H0 : get (tj L) k < cn U); [|lia].
  apply (T8 (get (ti L) k)). exists k. auto.
Qed.
