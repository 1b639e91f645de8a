(** Correctness of the Dulmage-Mendelsohn decomposition: the whole function. *)
From Verif Require Import Base BaseFacts Spec SpecFacts Mat MatFacts RowList MatProofs VecProofs TransposeProofs SpecMatch Matching Counting MatchProofs.
From Verif Require Import GpluProofs EchInv SpecScc Scc SccProofs SpecDm Dm DmBfs DmMarks DmProofs.
From Coq Require Import ZifyBool Permutation Relation_Operators.

Lemma sat_bind_inv {X Y} (e : res X) (f : X -> res Y) Q : sat (bind e f) Q -> sat e (fun x => sat (f x) Q).
Proof. destruct e; auto. Qed.

Section main.
Context (A : csr) (HA : wf A) (jm im wi wj : list Z) (M : matching A jm im) (K : marks A jm im wi wj).
Context (HM : forall p' q', matching A p' q' -> msize p' <= msize jm).
Local Notation n := (cn A).
Local Notation m := (cm A).

Lemma layout_msize p q rr cc : layout A jm im wi wj p q rr cc -> msize jm = get rr 3.
Proof.
  intros [(L1 & L2 & L3) _ _ _ (E0 & E4 & E01 & E12 & E23 & E34) _ Hi _ _]. rewrite (msize_count _ _ _ M). pose proof (wf_n A HA) as Hn.
  assert (G1 : sum 0 n (fun a => b1 (a <? get rr 3)) <= sum 0 n (fun i => b1 (0 <=? get jm i))).
  { apply (count_inj _ _ (get p)); auto. intros a Ha H. split; auto. specialize (Hi a Ha). pose proof (L2 a Ha) as Ra. destruct (ma_row _ _ _ M _ Ra) as [E|]; [|lia].
    apply (k_ui _ _ _ _ _ K _ Ra) in E. rewrite E in Hi. rewrite H in Hi. destruct (a <? get rr 1), (a <? get rr 2); lia. }
  assert (G2 : sum 0 n (fun a => b1 (get rr 3 <=? a)) <= sum 0 n (fun i => b1 (get jm i <? 0))).
  { apply (count_inj _ _ (get p)); auto. intros a Ha H. split; auto. specialize (Hi a Ha). pose proof (L2 a Ha) as Ra.
    assert (get jm (get p a) = -1); [|lia]. apply (k_ui _ _ _ _ _ K _ Ra). rewrite Hi. replace (a <? get rr 1) with false by lia. replace (a <? get rr 2) with false by lia. now replace (a <? get rr 3) with false by lia. }
  assert (G3 : sum 0 n (fun a => b1 (a <? get rr 3)) + sum 0 n (fun a => b1 (get rr 3 <=? a)) = n).
  { rewrite <- sum_add. rewrite (sum_ext _ _ _ (fun _ => 1)); [rewrite sum_const by lia; lia|]. intros a Ha. unfold b1. destruct (Z.ltb_spec a (get rr 3)), (Z.leb_spec (get rr 3) a); lia. }
  assert (G4 : sum 0 n (fun i => b1 (0 <=? get jm i)) + sum 0 n (fun i => b1 (get jm i <? 0)) = n).
  { rewrite <- sum_add. rewrite (sum_ext _ _ _ (fun _ => 1)); [rewrite sum_const by lia; lia|]. intros a Ha. unfold b1. destruct (Z.ltb_spec (get jm a) 0), (Z.leb_spec 0 (get jm a)); lia. }
  assert (G5 : sum 0 n (fun a => b1 (a <? get rr 3)) = get rr 3).
  { rewrite (sum_split (get rr 3) 0 n) by lia. rewrite (sum_ext 0 (get rr 3) _ (fun _ => 1)), (sum_ext (get rr 3) n _ (fun _ => 0)).
    - rewrite !sum_const by lia. lia.
    - intros a Ha. unfold b1. now replace (a <? get rr 3) with false by lia.
    - intros a Ha. unfold b1. now replace (a <? get rr 3) with true by lia. }
  lia.
Qed.

Theorem layout_coarse p q rr cc : layout A jm im wi wj p q rr cc -> coarse A p q rr cc.
Proof.
  intros L. pose proof (layout_msize _ _ _ _ L) as Hs. destruct L as [(L1 & L2 & L3) (N1 & N2 & N3) Lrr Lcc (E0 & E4 & E01 & E12 & E23 & E34) (F0 & F4 & F01 & F2 & F3 & F5) Hi Hj Hd].
  assert (Hi' : forall a, 0 <= a < n -> (get rr 1 <= a <-> get wi (get p a) <> 1) /\ (get rr 2 <= a <-> get wi (get p a) = 0 \/ get wi (get p a) = 3) /\ (get rr 3 <= a <-> get wi (get p a) = 0)).
  { intros a Ha. rewrite Hi by auto. destruct (Z.ltb_spec a (get rr 1)), (Z.ltb_spec a (get rr 2)), (Z.ltb_spec a (get rr 3)); lia. }
  assert (Hj' : forall b, 0 <= b < m -> (b < get cc 1 <-> get wj (get q b) = 0) /\ (b < get cc 2 <-> get wj (get q b) = 0 \/ get wj (get q b) = 1) /\ (b < get cc 3 <-> get wj (get q b) <> 3)).
  { intros b Hb. rewrite Hj by auto. destruct (Z.ltb_spec b (get cc 1)), (Z.ltb_spec b (get cc 2)), (Z.ltb_spec b (get cc 3)); lia. }
  assert (Hdd : forall x, 0 <= x < get rr 3 -> stored A (get p x) (get q (get cc 1 + x))).
  { intros x Hx. rewrite Hd by auto. assert (Rx : 0 <= get p x < n) by (apply L2; lia). destruct (ma_row _ _ _ M _ Rx) as [E|]; [|tauto].
    apply (k_ui _ _ _ _ _ K _ Rx) in E. apply (Hi' x) in E; lia. }
  constructor.
  - split; auto.
  - split; auto.
  - split; auto.
  - split; [auto|]. split; [auto|]. intros t Ht. assert (t = 0 \/ t = 1 \/ t = 2 \/ t = 3) as [->|[->|[->| ->]]] by lia; auto.
  - split; [auto|]. split; [auto|]. intros t Ht. assert (t = 0 \/ t = 1 \/ t = 2 \/ t = 3) as [->|[->|[->| ->]]] by lia; cbn [Z.add Pos.add Pos.succ]; lia.
  - intros t Ht. assert (t = 0 \/ t = 1 \/ t = 2) as [->|[->| ->]] by lia; cbn [Z.add Pos.add Pos.succ]; lia.
  - intros t x Ht Hx. replace (get cc (t + 1) + x) with (get cc 1 + (get rr t + x)).
    + apply Hdd. assert (t = 0 \/ t = 1 \/ t = 2) as [->|[->| ->]] by lia; cbn [Z.add Pos.add Pos.succ] in Hx; lia.
    + assert (t = 0 \/ t = 1 \/ t = 2) as [->|[->| ->]] by lia; cbn [Z.add Pos.add Pos.succ]; lia.
  - intros a b Ha Hb Hst. destruct (Hi' a) as (I1 & _); [lia|]. destruct (Hj' b Hb) as (_ & J & _). destruct (Z_le_gt_dec (get cc 2) b); auto. exfalso.
    apply (proj1 I1); [lia|]. apply (k_1 _ _ _ _ _ K _ (get q b)); auto; try (apply L2; lia). apply J. lia.
  - intros a b Ha Hb Hst. destruct (Hi' a) as (_ & I1 & _); [lia|]. destruct (Hj' b Hb) as (_ & _ & J). destruct (Z_le_gt_dec (get cc 3) b); auto. exfalso.
    apply (proj1 J); [lia|]. apply (k_3 _ _ _ _ _ K (get p a)); auto; try (apply L2; lia). apply I1. lia.
  - exists jm, im. split; [auto|]. split; [auto|]. split; [|split; [|split; [|split]]].
    + rewrite <- Hs. split; [eauto|auto].
    + intros a Ha. destruct (Hi' a Ha) as (_ & _ & ->). apply (k_ui _ _ _ _ _ K). auto.
    + intros b Hb. destruct (Hj' b Hb) as (-> & _). apply (k_uj _ _ _ _ _ K). auto.
    + intros a Ha. destruct (Hi' a Ha) as (_ & -> & _). apply (k_ai _ _ _ _ _ K). auto.
    + intros b Hb. destruct (Hj' b Hb) as (_ & -> & _). apply (k_aj _ _ _ _ _ K). auto.
Qed.

(* permuting the square part *)
Definition shift (lo k : Z) (s : list Z) (a : Z) : Z := if (lo <=? a) && (a <? lo + k) then lo + get s (a - lo) else a.
Lemma shift_rng lo k s a N : is_perm k s -> 0 <= lo -> lo + k <= N -> 0 <= a < N -> 0 <= shift lo k s a < N.
Proof. intros (_ & Hs & _) Hl Hk Ha. unfold shift. destruct (Z.leb_spec lo a), (Z.ltb_spec a (lo + k)); cbn [andb]; try lia. specialize (Hs (a - lo)). lia. Qed.
Lemma shift_perm lo k s N p p' : is_perm k s -> 0 <= lo -> 0 <= k -> lo + k <= N -> is_perm N p -> len p' = len p -> (forall a, 0 <= a < N -> get p' a = get p (shift lo k s a)) -> is_perm N p'.
Proof.
  intros Hs Hl Hk HN (P1 & P2 & P3) L E. split; [lia|]. split.
  - intros a Ha. rewrite E by auto. apply P2. apply shift_rng; auto.
  - intros a b Ha Hb Eq. rewrite !E in Eq by auto. apply P3 in Eq; try (apply shift_rng; auto). destruct Hs as (_ & S1 & S2). unfold shift in Eq.
    destruct (Z.leb_spec lo a), (Z.ltb_spec a (lo + k)), (Z.leb_spec lo b), (Z.ltb_spec b (lo + k)); cbn [andb] in Eq; try lia;
      try (pose proof (S1 (a - lo)); lia); try (pose proof (S1 (b - lo)); lia).
    assert (a - lo = b - lo) by (apply S2; lia). lia.
Qed.
Lemma shift_lt lo k s a x : is_perm k s -> x <= lo \/ lo + k <= x -> (shift lo k s a <? x) = (a <? x).
Proof.
  intros (_ & Hs & _) Hx. unfold shift. destruct (Z.leb_spec lo a), (Z.ltb_spec a (lo + k)); cbn [andb]; auto. specialize (Hs (a - lo)). lia.
Qed.
Lemma layout_shift p q rr cc s p' q' : layout A jm im wi wj p q rr cc -> is_perm (get rr 2 - get rr 1) s -> len p' = len p -> len q' = len q ->
  (forall a, 0 <= a < n -> get p' a = get p (shift (get rr 1) (get rr 2 - get rr 1) s a)) ->
  (forall b, 0 <= b < m -> get q' b = get q (shift (get cc 2) (get rr 2 - get rr 1) s b)) -> layout A jm im wi wj p' q' rr cc.
Proof.
  intros [L1 L2 L3 L4 (E0 & E4 & E01 & E12 & E23 & E34) (F0 & F4 & F01 & F2 & F3 & F5) Hi Hj Hd] Hs Lp Lq Ep Eq.
  pose proof Hs as (_ & Hs1 & _).
  assert (Rp : forall a, 0 <= a < n -> 0 <= shift (get rr 1) (get rr 2 - get rr 1) s a < n) by (intros; apply shift_rng; auto; lia).
  assert (Rq : forall b, 0 <= b < m -> 0 <= shift (get cc 2) (get rr 2 - get rr 1) s b < m) by (intros; apply shift_rng; auto; lia).
  constructor; auto; try lia.
  - eapply shift_perm with (lo := get rr 1); eauto; lia.
  - eapply shift_perm with (lo := get cc 2); eauto; lia.
  - intros a Ha. rewrite Ep, Hi by auto. rewrite !shift_lt by (auto; lia). reflexivity.
  - intros b Hb. rewrite Eq, Hj by auto. rewrite !shift_lt by (auto; lia). reflexivity.
  - intros x Hx. rewrite Ep, Eq by lia. unfold shift.
    replace (get cc 2 <=? get cc 1 + x) with (get rr 1 <=? x) by lia. replace (get cc 1 + x <? get cc 2 + (get rr 2 - get rr 1)) with (x <? get rr 1 + (get rr 2 - get rr 1)) by lia.
    destruct (Z.leb_spec (get rr 1) x), (Z.ltb_spec x (get rr 1 + (get rr 2 - get rr 1))); cbn [andb]; try (apply Hd; lia).
    replace (get cc 1 + x - get cc 2) with (x - get rr 1) by lia. replace (get cc 2 + get s (x - get rr 1)) with (get cc 1 + (get rr 1 + get s (x - get rr 1))) by lia.
    apply Hd. specialize (Hs1 (x - get rr 1)). lia.
Qed.

(** ** The fine decomposition *)
Section fine_.
Context (p q rr cc : list Z) (Ly : layout A jm im wi wj p q rr cc) (Hne : get rr 1 < get rr 2).
Let k := get rr 2 - get rr 1.
Context (C : csr) (HC : wf C) (EnC : cn C = k) (EmC : cm C = k).
Context (HCst : forall x y, 0 <= x < k -> 0 <= y < k -> (stored C x y <-> stored A (get p (get rr 1 + x)) (get q (get cc 2 + y)))).
Context (D : dm) (RD : scc_result C D).
Context (p' q' r c : list Z) (Lp : len p' = len p) (Lq : len q' = len q) (Lr : dm_nb D + 2 < len r) (Lc : dm_nb D + 2 < len c).
Context (Ep : forall a, 0 <= a < n -> get p' a = get p (shift (get rr 1) k (dm_p D) a)).
Context (Eq : forall b, 0 <= b < m -> get q' b = get q (shift (get cc 2) k (dm_p D) b)).
Local Notation s := (dm_p D).
Local Notation nb := (dm_nb D).
Context (r0 : get r 0 = 0) (c0 : get c 0 = 0) (rn : get r (nb + 2) = n) (cm_ : get c (nb + 2) = m).
Context (rt : forall t, 0 <= t <= nb -> get r (t + 1) = get rr 1 + get (dm_r D) t).
Context (ct : forall t, 0 <= t <= nb -> get c (t + 1) = get cc 2 + get (dm_r D) t).

Lemma s_perm : is_perm k s.
Proof. rewrite <- EnC. apply RD. Qed.
Lemma fine_edge x y : 0 <= x < k -> 0 <= y < k -> (stored A (get p' (get rr 1 + x)) (get q' (get cc 2 + y)) <-> stored C (get s x) (get s y)).
Proof.
  intros Hx Hy. pose proof s_perm as (_ & S1 & _). destruct (ly_rr _ _ _ _ _ _ _ _ _ Ly) as (E0 & E4 & E01 & E12 & E23 & E34). destruct (ly_cc _ _ _ _ _ _ _ _ _ Ly) as (F0 & F4 & F01 & F2 & F3 & F5).
  rewrite Ep, Eq by (unfold k in *; lia). rewrite HCst by (apply S1; auto). unfold shift.
  replace ((get rr 1 <=? get rr 1 + x) && (get rr 1 + x <? get rr 1 + k)) with true by lia. replace ((get cc 2 <=? get cc 2 + y) && (get cc 2 + y <? get cc 2 + k)) with true by lia.
  replace (get rr 1 + x - get rr 1) with x by lia. replace (get cc 2 + y - get cc 2) with y by lia. reflexivity.
Qed.
Lemma fine_reach1 x y : 0 <= x < k -> dreach A p' q' rr cc x y -> 0 <= y < k /\ reach C (get s x) (get s y).
Proof.
  intros Hx H. revert Hx. induction H as [x y (H1 & H2 & H3)|x|x y z H1 IH1 H2 IH2]; intros Hx.
  - split; [auto|]. eapply reach_step; [apply reach_refl|]. apply fine_edge; auto.
  - split; [auto|]. apply reach_refl.
  - destruct (IH1 Hx) as (Hy & G1). destruct (IH2 Hy) as (Hz & G2). split; auto. eapply reach_trans; eauto.
Qed.
Lemma fine_reach2 x v : 0 <= x < k -> reach C (get s x) v -> exists y, 0 <= y < k /\ get s y = v /\ dreach A p' q' rr cc x y.
Proof.
  intros Hx H. remember (get s x) as u eqn:Eu. revert Eu. induction H as [u|u v w H IH Hst]; intros Eu.
  - exists x. split; [auto|]. split; [auto|]. apply rt_refl.
  - destruct (IH Eu) as (y & Hy & Ey & Hr). pose proof s_perm as Ps. pose proof Ps as (_ & S1 & _).
    assert (Rw : 0 <= w < k) by (rewrite <- EmC; apply (stored_col C HC v); [rewrite EnC, <- Ey; auto|auto]).
    destruct (perm_surj k s w Ps Rw) as (z & Hz & Ez). exists z. split; [auto|]. split; [auto|].
    eapply rt_trans; [exact Hr|]. apply rt_step. split; [exact Hy|]. split; [exact Hz|]. apply fine_edge; auto. now rewrite Ey, Ez.
Qed.
Lemma fine_reach x y : 0 <= x < k -> 0 <= y < k -> (dreach A p' q' rr cc x y <-> reach C (get s x) (get s y)).
Proof.
  intros Hx Hy. split; [intros H; now apply (fine_reach1 x y)|]. intros H. destruct (fine_reach2 x _ Hx H) as (z & Hz & Ez & Hr).
  pose proof s_perm as (_ & _ & S2). apply S2 in Ez; auto. now subst.
Qed.
Theorem fine_ok : fine A p' q' rr cc r c (nb + 2).
Proof.
  pose proof (layout_shift _ _ _ _ _ _ _ Ly s_perm Lp Lq Ep Eq) as Ly'. pose proof (layout_coarse _ _ _ _ Ly') as Co.
  destruct (ly_rr _ _ _ _ _ _ _ _ _ Ly) as (E0 & E4 & E01 & E12 & E23 & E34). destruct (ly_cc _ _ _ _ _ _ _ _ _ Ly) as (F0 & F4 & F01 & F2 & F3 & F5).
  pose proof (sr_b _ _ RD) as (B1 & B2 & B3 & B4 & B5). rewrite EnC in B4.
  assert (Hnb : 1 <= nb) by (destruct (Z.eq_dec nb 0) as [E|]; [rewrite E in B4; unfold k in *; lia|lia]).
  assert (Hmono : forall v w, 0 <= v -> v <= w -> w <= nb -> get (dm_r D) v <= get (dm_r D) w).
  { intros v w Hv Hvw Hw. revert Hw. pattern w. apply (range_ind _ v w); try lia. intros l Hl IH Hw. pose proof (B5 l ltac:(lia)). specialize (IH ltac:(lia)). lia. }
  assert (r1 : get r 1 = get rr 1) by (replace 1 with (0 + 1) at 1 by lia; rewrite rt by lia; lia).
  assert (c1 : get c 1 = get cc 2) by (replace 1 with (0 + 1) at 1 by lia; rewrite ct by lia; lia).
  assert (r2 : get r (nb + 1) = get rr 2) by (rewrite rt by lia; unfold k in *; lia).
  assert (c2 : get c (nb + 1) = get cc 3) by (rewrite ct by lia; unfold k in *; lia).
  assert (rt' : forall t, 1 <= t <= nb + 1 -> get r t = get rr 1 + get (dm_r D) (t - 1)) by (intros t Ht; replace t with (t - 1 + 1) at 1 by lia; apply rt; lia).
  assert (ct' : forall t, 1 <= t <= nb + 1 -> get c t = get cc 2 + get (dm_r D) (t - 1)) by (intros t Ht; replace t with (t - 1 + 1) at 1 by lia; apply ct; lia).
  assert (Hin : forall t x, 1 <= t < nb + 1 -> in_block r t (get rr 1 + x) -> in_block (dm_r D) (t - 1) x /\ 0 <= x < k).
  { intros t x Ht Hx. unfold in_block in *. rewrite !rt' in Hx by lia. replace (t + 1 - 1) with (t - 1 + 1) in Hx by lia. split; [lia|]. pose proof (Hmono 0 (t - 1)). pose proof (Hmono (t - 1 + 1) nb). lia. }
  constructor.
  - lia.
  - lia.
  - split; [auto|]. split; [auto|]. split; [replace (nb + 2 - 1) with (nb + 1) by lia; auto|auto].
  - split; [auto|]. split; [auto|]. split; [replace (nb + 2 - 1) with (nb + 1) by lia; auto|auto].
  - intros t Ht. rewrite !rt' by lia. replace (t + 1 - 1) with (t - 1 + 1) by lia. pose proof (B5 (t - 1)). lia.
  - intros t Ht. rewrite rt', ct' by lia. lia.
  - intros t u a b Ht Hu Ha Hb Hst.
    assert (Hrt : forall t, 1 <= t <= nb + 1 -> get rr 1 <= get r t <= get rr 2).
    { intros v Hv. rewrite rt' by lia. pose proof (Hmono 0 (v - 1)). pose proof (Hmono (v - 1) nb). unfold k in *. lia. }
    assert (Hct : forall t, 1 <= t <= nb + 1 -> get cc 2 <= get c t <= get cc 3).
    { intros v Hv. rewrite ct' by lia. pose proof (Hmono 0 (v - 1)). pose proof (Hmono (v - 1) nb). unfold k in *. lia. }
    assert (Ra : 0 <= a < n).
    { unfold in_block in Ha. destruct (Z.eq_dec t 0) as [->|]; [pose proof (Hrt 1); change (0 + 1) with 1 in Ha; lia|]. destruct (Z.eq_dec t (nb + 1)) as [->|].
      - replace (nb + 1 + 1) with (nb + 2) in Ha by lia. pose proof (Hrt (nb + 1)). lia.
      - pose proof (Hrt t). pose proof (Hrt (t + 1)). lia. }
    assert (Rb : 0 <= b < m).
    { unfold in_block in Hb. destruct (Z.eq_dec u 0) as [->|]; [pose proof (Hct 1); change (0 + 1) with 1 in Hb; lia|]. destruct (Z.eq_dec u (nb + 1)) as [->|].
      - replace (nb + 1 + 1) with (nb + 2) in Hb by lia. pose proof (Hct (nb + 1)). lia.
      - pose proof (Hct u). pose proof (Hct (u + 1)). lia. }
    destruct (Z.eq_dec t 0) as [|T0]; [lia|]. unfold in_block in Ha, Hb. pose proof (Hrt t ltac:(lia)).
    pose proof (co_tri2 _ _ _ _ _ Co a b ltac:(lia) Rb Hst) as H2.
    destruct (Z.eq_dec u 0) as [->|U0]; [change (0 + 1) with 1 in Hb; lia|].
    destruct (Z.eq_dec t (nb + 1)) as [->|T1].
    + pose proof (co_tri3 _ _ _ _ _ Co a b ltac:(lia) Rb Hst) as H3. destruct (Z_le_gt_dec (nb + 1) u); auto. pose proof (Hct (u + 1)). lia.
    + destruct (Z.eq_dec u (nb + 1)) as [|U1]; [lia|]. rewrite !rt' in Ha by lia. rewrite !ct' in Hb by lia.
      replace (t + 1 - 1) with (t - 1 + 1) in Ha by lia. replace (u + 1 - 1) with (u - 1 + 1) in Hb by lia.
      pose proof (Hmono (t - 1 + 1) nb). pose proof (Hmono (u - 1 + 1) nb). pose proof (Hmono 0 (u - 1)). pose proof (Hmono 0 (t - 1)).
      assert (Hst' : stored C (get s (a - get rr 1)) (get s (b - get cc 2))).
      { apply fine_edge; [lia|lia|]. replace (get rr 1 + (a - get rr 1)) with a by lia. now replace (get cc 2 + (b - get cc 2)) with b by lia. }
      pose proof (sr_tri _ _ RD (t - 1) (a - get rr 1) (b - get cc 2)) as T. rewrite EnC in T. unfold in_block in T. specialize (T ltac:(lia) ltac:(lia) ltac:(lia) Hst').
      destruct (Z_le_gt_dec t u); auto. pose proof (Hmono (u - 1 + 1) (t - 1)). lia.
  - intros t u x y Ht Hu Hx Hy. destruct (Hin t x ltac:(lia) Hx) as (Bx & Rx). destruct (Hin u y ltac:(lia) Hy) as (By & Ry).
    rewrite (fine_reach x y), (fine_reach y x) by auto. pose proof (sr_strong _ _ RD (t - 1) (u - 1) x y ltac:(lia) ltac:(lia) Bx By) as S. unfold strong in S. rewrite S. lia.
Qed.
End fine_.
End main.

Theorem dulmage_mendelsohn_ok gs A : wf A ->
  sat (dulmage_mendelsohn gs A) (fun D => coarse A (dm_p D) (dm_q D) (dm_rr D) (dm_cc D) /\
    (get (dm_rr D) 1 < get (dm_rr D) 2 -> fine A (dm_p D) (dm_q D) (dm_rr D) (dm_cc D) (dm_r D) (dm_c D) (dm_nb D)) /\
    (get (dm_rr D) 1 = get (dm_rr D) 2 -> dm_nb D = 0)).
Proof.
  intros HA. unfold dulmage_mendelsohn. pose proof (wf_n A HA) as Hn. pose proof (wf_m A HA) as Hm.
  apply sat_bind. eapply sat_mono; [apply (transpose_transposed _ A false HA)|]. intros T HT. pose proof HT as (T1 & T2 & T3 & T4).
  apply sat_bind. eapply (sat_mono _ (fun '(jm, im) => matching A jm im /\ exists F, closed A im F /\ forall i, 0 <= i < cn A -> 0 <= get jm i \/ F i = true)).
  { destruct (cn A <? cm A).
    - apply sat_bind. eapply sat_mono; [apply (maximum_matching_spec A HA); rewrite len_malloc; lia|]. intros [[z jm] im] (M & _ & HF). wp. auto.
    - apply sat_bind. eapply sat_mono; [apply (maximum_matching_spec T T1); rewrite len_malloc; lia|]. intros [[z im] jm] (M & _ & F & CF & HF). wp.
      assert (HT' := transposed_sym A T HA HT). split; [apply (matching_transposed T A im jm); auto|].
      destruct (closed_flip T A im jm F T1 HT' M CF HF) as (G1 & G2). eexists. split; [exact G1|]. rewrite T3 in G2. exact G2. }
  intros [jm im] (M & F & CF & HF). cbn [dm_alloc dm_p dm_q dm_r dm_c dm_nb dm_rr dm_cc].
  apply sat_bind. apply (for_spec (fun k w => len w = cm A + 6 /\ forall j, 0 <= j < k -> get w j = -1)); auto.
  { rewrite len_malloc. split; lia. }
  { intros j w Hj (L & I). wp; [lia|]. rewrite len_upd. split; [auto|]. intros k Hk. rewrite get_upd_in by lia. destruct (Z.eqb_spec j k); auto. apply I. lia. }
  intros wj0 (Lj0 & Hj0).
  apply sat_bind. apply (for_spec (fun k w => len w = cn A + 6 /\ forall j, 0 <= j < k -> get w j = -1)); auto.
  { rewrite len_malloc. split; lia. }
  { intros j w Hj (L & I). wp; [lia|]. rewrite len_upd. split; [auto|]. intros k Hk. rewrite get_upd_in by lia. destruct (Z.eqb_spec j k); auto. apply I. lia. }
  intros wi0 (Li0 & Hi0).
  pose proof (bfs_marks A T jm im F wi0 wj0 (malloc (gs 3 0) (cn A)) (malloc (gs 3 1) (cm A)) HA HT M CF HF ltac:(lia) ltac:(lia) Hi0 Hj0 ltac:(rewrite len_malloc; lia) ltac:(rewrite len_malloc; lia)) as HB.
  apply sat_bind. apply sat_bind_inv in HB. eapply sat_mono; [exact HB|]. clear HB. intros [[wi1 wj1] p1] HB. cbv beta iota in HB.
  apply sat_bind. apply sat_bind_inv in HB. eapply sat_mono; [exact HB|]. clear HB. intros [[wj wi] q1] HB. cbv beta iota in HB.
  unfold sat in HB. destruct HB as (K & Li & Lj & Lp1 & Lq1).
  pose proof (collect_all A HA jm im wi wj M K p1 q1 Lp1 Lq1) as HB.
  apply sat_bind. apply sat_bind_inv in HB. eapply sat_mono; [exact HB|]. clear HB. intros [q2 cc2] HB. cbv beta iota in HB.
  apply sat_bind. apply sat_bind_inv in HB. eapply sat_mono; [exact HB|]. clear HB. intros [[[p3 q3] cc3] rr3] HB. cbv beta iota in HB.
  apply sat_bind. apply sat_bind_inv in HB. eapply sat_mono; [exact HB|]. clear HB. intros [[[p4 q4] cc4] rr4] HB. cbv beta iota in HB.
  apply sat_bind. apply sat_bind_inv in HB. eapply sat_mono; [exact HB|]. clear HB. intros [[[p5 q] cc] rr5] HB. cbv beta iota in HB.
  apply sat_bind. apply sat_bind_inv in HB. eapply sat_mono; [exact HB|]. clear HB. intros [p rr] Ly. unfold sat in Ly.
  clear p1 q1 Lp1 Lq1 q2 cc2 p3 q3 cc3 rr3 p4 q4 cc4 rr4 p5 rr5 wi1 wj1.
  assert (HM : forall p' q', matching A p' q' -> msize p' <= msize jm) by (apply (closed_maximum A jm im F); auto).
  pose proof (layout_coarse A HA jm im wi wj M K HM p q rr cc Ly) as Co.
  destruct (ly_rr _ _ _ _ _ _ _ _ _ Ly) as (E0 & E4 & E01 & E12 & E23 & E34). destruct (ly_cc _ _ _ _ _ _ _ _ _ Ly) as (F0 & F4 & F01 & F2 & F3 & F5).
  pose proof (ly_lr _ _ _ _ _ _ _ _ _ Ly) as Lrr. pose proof (ly_lc _ _ _ _ _ _ _ _ _ Ly) as Lcc. pose proof (ly_p _ _ _ _ _ _ _ _ _ Ly) as Pp. pose proof (ly_q _ _ _ _ _ _ _ _ _ Ly) as Pq.
  apply sat_bind, sat_aget; [lia|]. apply sat_bind, sat_aget; [lia|]. destruct (Z.eqb_spec (get rr 2 - get rr 1) 0) as [Ez|Ez].
  { wp. cbn [dm_p dm_q dm_r dm_c dm_nb dm_rr dm_cc]. split; [auto|]. split; [lia|auto]. }
  apply sat_bind. eapply sat_mono; [apply (pinv_ok (gs 4) (Some q) (cm A) Hm Pq)|]. intros qinv (Q1 & Q2 & Q3). destruct qinv as [qi|]; [|destruct Q1 as (Q1 & _); specialize (Q1 eq_refl); discriminate].
  cbn [oapply is_operm] in Q2, Q3.
  apply sat_bind. eapply sat_mono; [apply (permute_entry (gs 5) A (Some p) (Some qi) false HA Pp Q2)|]. intros B (WB & EnB & EmB & _ & _ & _ & HBst). cbn [oapply] in HBst.
  apply sat_bind, sat_aget; [lia|]. apply sat_bind, sat_aget; [lia|].
  apply sat_bind. eapply sat_mono; [apply (submatrix_entry (gs 6) B _ _ (get cc 2) (get cc 3) false WB); lia|].
  intros C (WC & EnC & EmC & _ & _ & _ & HCst). replace (Z.max 0 (get cc 3 - get cc 2)) with (get rr 2 - get rr 1) in EmC by lia.
  assert (HCA : forall x y, 0 <= x < get rr 2 - get rr 1 -> 0 <= y < get rr 2 - get rr 1 -> (stored C x y <-> stored A (get p (get rr 1 + x)) (get q (get cc 2 + y)))).
  { intros x y Hx Hy. destruct (HCst x y ltac:(lia) ltac:(lia)) as (_ & ->). destruct Pq as (_ & Pq2 & _). pose proof (Pq2 (get cc 2 + y) ltac:(lia)) as Rq.
    destruct (HBst (get rr 1 + x) (get q (get cc 2 + y)) ltac:(lia) Rq) as (_ & G). destruct (Q3 (get cc 2 + y) ltac:(lia)) as (Q4 & _). now rewrite Q4 in G. }
  apply sat_bind. eapply sat_mono; [apply (scc_spec C WC); lia|]. intros D RD.
  pose proof (sr_p _ _ RD) as Ps. rewrite EnC in Ps. pose proof (sr_q _ _ RD) as Eq. pose proof (sr_b _ _ RD) as (B1 & B2 & B3 & B4 & B5). pose proof (sr_c _ _ RD) as (C1 & C2). rewrite EnC in B4.
  apply sat_bind. eapply sat_mono; [apply (range_pvec_ok p (get rr 1) (get rr 2) (dm_p D)); [lia|rewrite (proj1 Pp); lia|auto]|]. intros [p' z] (Lp' & P1 & P2). clear z.
  apply sat_bind. rewrite Eq. eapply sat_mono; [apply (range_pvec_ok q (get cc 2) (get cc 3) (dm_p D)); [lia|rewrite (proj1 Pq); lia|replace (get cc 3 - get cc 2) with (get rr 2 - get rr 1) by lia; auto]|].
  intros [q' z] (Lq' & P3 & P4). clear z.
  (* the number of blocks *)
  assert (Hnb : dm_nb D <= get rr 2 - get rr 1).
  { assert (G : forall t, 0 <= t <= dm_nb D -> t <= get (dm_r D) t).
    { intros t Ht. pattern t. apply (range_ind _ 0 (dm_nb D)); try lia. intros l Hl IH. pose proof (B5 l ltac:(lia)). lia. }
    pose proof (G (dm_nb D)). lia. }
  apply sat_bind, sat_aset; [lia|]. apply sat_bind.
  apply (for_spec (fun k r => len r = len wi /\ get r 0 = 0 /\ forall t, 0 <= t < k -> get r (t + 1) = get rr 1 + get (dm_r D) t)); [lia| | |].
  { split; [now len|]. split; [apply get_upd_eq; lia|]. lia. }
  { intros i r Hi (J1 & J2 & J3). wp; try lia. rewrite len_upd. split; [auto|]. split; [rewrite get_upd_ne by lia; auto|]. intros t Ht. rewrite get_upd_in by lia.
    destruct (Z.eqb_spec (i + 1) (t + 1)); [f_equal; f_equal; lia|]. apply J3. lia. }
  intros r (Lr & r0 & rt). apply sat_bind, sat_aset; [lia|].
  apply sat_bind, sat_aset; [lia|]. apply sat_bind.
  apply (for_spec (fun k r => len r = len wj /\ get r 0 = 0 /\ forall t, 0 <= t < k -> get r (t + 1) = get cc 2 + get (dm_r D) t)); [lia| | |].
  { split; [now len|]. split; [apply get_upd_eq; lia|]. lia. }
  { intros i c Hi (J1 & J2 & J3). wp; try lia. rewrite len_upd. split; [auto|]. split; [rewrite get_upd_ne by lia; auto|]. intros t Ht. rewrite get_upd_in by lia.
    destruct (Z.eqb_spec (i + 1) (t + 1)); [rewrite <- C2 by lia; f_equal; f_equal; lia|]. apply J3. lia. }
  intros c (Lc & c0 & ct). apply sat_bind, sat_aset; [lia|]. wp. cbn [dm_p dm_q dm_r dm_c dm_nb dm_rr dm_cc].
  assert (Ep : forall a, 0 <= a < cn A -> get p' a = get p (shift (get rr 1) (get rr 2 - get rr 1) (dm_p D) a)).
  { intros a Ha. unfold shift. destruct (Z.leb_spec (get rr 1) a), (Z.ltb_spec a (get rr 1 + (get rr 2 - get rr 1))); cbn [andb]; try (apply P2; lia).
    rewrite <- P1 by lia. f_equal. lia. }
  assert (Eqq : forall b, 0 <= b < cm A -> get q' b = get q (shift (get cc 2) (get rr 2 - get rr 1) (dm_p D) b)).
  { intros b Hb. unfold shift. destruct (Z.leb_spec (get cc 2) b), (Z.ltb_spec b (get cc 2 + (get rr 2 - get rr 1))); cbn [andb]; try (apply P4; lia).
    rewrite <- P3 by lia. f_equal. lia. }
  split; [|split; [|lia]].
  - apply (layout_coarse A HA jm im wi wj M K HM). apply (layout_shift A jm im wi wj p q rr cc (dm_p D)); auto.
  - intros _. apply (fine_ok A HA jm im wi wj M K HM p q rr cc Ly ltac:(lia) C WC EnC EmC HCA D RD p' q'); auto.
    + rewrite len_upd. lia.
    + rewrite len_upd. lia.
    + rewrite get_upd_ne by lia. auto.
    + rewrite get_upd_ne by lia. auto.
    + apply get_upd_eq. lia.
    + apply get_upd_eq. lia.
    + intros t Ht. rewrite get_upd_ne by lia. apply rt. lia.
    + intros t Ht. rewrite get_upd_ne by lia. apply ct. lia.
Qed.
