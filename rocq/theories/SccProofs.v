(** Correctness of the strongly connected components. *)
From Verif Require Import Base BaseFacts Spec SpecFacts Mat MatFacts RowList SpecScc Scc Counting MatchProofs.
From Coq Require Import ZifyBool.

(* [loop_spec], with a ghost measure *)
Lemma loop_ghost {S R} (Inv : S -> Z -> Prop) (Q : R -> Prop) (body : S -> res (S + R)) fuel s k :
  (forall s k, Inv s k -> sat (body s) (fun o => match o with inl s' => exists k', Inv s' k' /\ 0 <= k' < k | inr r => Q r end)) ->
  Inv s k -> 0 <= k < Z.of_nat fuel -> sat (loop fuel body s) Q.
Proof.
  intros Hs. revert s k. induction fuel; intros s k HI Hf; cbn [loop]. { lia. }
  apply sat_bind. eapply sat_mono. { eapply Hs, HI. }
  intros [s'|r]; simpl; auto. intros (k' & HI' & Hm). eapply IHfuel; eauto. lia.
Qed.
Lemma upd_same (a : list Z) i : upd a i (get a i) = a.
Proof.
  apply list_ext; [now len|]. intros k Hk. rewrite len_upd in Hk. rewrite get_upd.
  destruct (Z.eqb_spec i k) as [->|]; cbn; auto. now destruct (inb a k).
Qed.

Lemma reach_trans A a b c : reach A a b -> reach A b c -> reach A a c.
Proof. intros H1 H2. induction H2 as [|x y z H2 IH E]; auto. exact (reach_step _ _ y _ (IH H1) E). Qed.
Lemma reach_edge A a b : stored A a b -> reach A a b.
Proof. intros H. exact (reach_step _ _ a _ (reach_refl _ a) H). Qed.

Section scc.
Context (A : csr) (HA : wf A) (Hsq : cm A = cn A).
Local Notation n := (cn A).
Local Notation reach := (reach A).
Local Notation stk s u := (get (s_stk s) u).
Local Notation mk s v := (get (s_mk s) v).
Local Notation low s v := (get (s_low s) v).

Definition wt (v : Z) : Z := rend A v - rbeg A v.
Definition nbr (v px : Z) : Z := get (cj A) (rbeg A v + px).
Definition inout (s : scc) (v : Z) : Prop := exists a, 0 <= a < s_ptop s /\ get (s_p s) a = v.
Definition scanned (s : scc) (v px : Z) : Prop :=
  0 <= mk s (nbr v px) /\ (inout s (nbr v px) \/ low s v <= mk s (nbr v px)).
Record seg_ok (s : scc) (lo hi : Z) : Prop := {
  g_rng : 0 <= lo < hi;
  g_low : forall u, lo < u < hi -> low s (stk s lo) <= low s (stk s u) < mk s (stk s u);
  g_scan : forall u px, lo < u < hi -> 0 <= px < wt (stk s u) -> scanned s (stk s u) px;
  g_ps : 0 <= get (s_ps s) (stk s lo) <= wt (stk s lo);
  g_cur : forall px, 0 <= px < get (s_ps s) (stk s lo) -> scanned s (stk s lo) px;
  g_reach : forall u, lo <= u < hi -> reach (stk s lo) (stk s u)
}.
Fixpoint segs (s : scc) (hi : Z) (l : list Z) : Prop :=
  match l with
  | [] => hi = 0
  | lo :: l' => seg_ok s lo hi /\ get (s_prev s) (stk s lo) = (match l' with [] => -1 | lo' :: _ => stk s lo' end) /\
      (match l' with [] => True | lo' :: _ => reach (stk s lo') (stk s lo) end) /\ segs s lo l'
  end.
Record blocks (nb pt : Z) (rr p : list Z) : Prop := {
  k_nb : 0 <= nb;
  k_0 : get rr 0 = 0;
  k_n : get rr nb = pt;
  k_inc : forall t, 0 <= t < nb -> get rr t < get rr (t + 1);
  k_reach : forall t a b, 0 <= t < nb -> in_block rr t a -> in_block rr t b -> reach (get p a) (get p b);
  k_clo : forall t a w, 0 <= t < nb -> in_block rr t a -> stored A (get p a) w -> exists b, 0 <= b < get rr (t + 1) /\ get p b = w
}.
Record SI (s : scc) (l : list Z) : Prop := {
  z_lp : len (s_p s) = n; z_lrr : len (s_rr s) = n + 6; z_lps : len (s_ps s) = n; z_lm : len (s_mk s) = n;
  z_lprev : len (s_prev s) = n; z_lstk : len (s_stk s) = n; z_llow : len (s_low s) = n;
  z_pt : 0 <= s_ptop s; z_top : -1 <= s_top s; z_idx : s_idx s = s_ptop s + s_top s + 1;
  z_out : forall a, 0 <= a < s_ptop s -> 0 <= get (s_p s) a < n /\ low s (get (s_p s) a) = n /\ 0 <= mk s (get (s_p s) a);
  z_oinj : forall a b, 0 <= a < s_ptop s -> 0 <= b < s_ptop s -> get (s_p s) a = get (s_p s) b -> a = b;
  z_stk : forall u, 0 <= u <= s_top s -> 0 <= stk s u < n;
  z_sinj : forall u v, 0 <= u <= s_top s -> 0 <= v <= s_top s -> stk s u = stk s v -> u = v;
  z_dis : forall a u, 0 <= a < s_ptop s -> 0 <= u <= s_top s -> get (s_p s) a <> stk s u;
  z_mk : forall v, 0 <= v < n -> 0 <= mk s v -> inout s v \/ exists u, 0 <= u <= s_top s /\ stk s u = v;
  z_mks : forall u, 0 <= u <= s_top s -> 0 <= mk s (stk s u) < s_idx s;
  z_mono : forall u v, 0 <= u -> u < v -> v <= s_top s -> mk s (stk s u) < mk s (stk s v);
  z_low : forall u, 0 <= u <= s_top s -> low s (stk s u) <= mk s (stk s u) /\
            exists w, 0 <= w <= u /\ mk s (stk s w) = low s (stk s u) /\ reach (stk s u) (stk s w);
  z_new : forall v, 0 <= v < n -> mk s v < 0 -> get (s_ps s) v = 0 /\ get (s_prev s) v = -1;
  z_blk : blocks (s_n s) (s_ptop s) (s_rr s) (s_p s);
  z_seg : segs s (s_top s + 1) l;
  z_j : s_j s = match l with [] => -1 | lo :: _ => stk s lo end
}.

Ltac keep I := first [exact (z_lp _ _ I) | exact (z_lrr _ _ I) | exact (z_lps _ _ I) | exact (z_lm _ _ I) | exact (z_lprev _ _ I) | exact (z_lstk _ _ I) | exact (z_llow _ _ I) | exact (z_pt _ _ I) | exact (z_top _ _ I) | exact (z_idx _ _ I) | exact (z_out _ _ I) | exact (z_oinj _ _ I) | exact (z_stk _ _ I) | exact (z_sinj _ _ I) | exact (z_dis _ _ I) | exact (z_mk _ _ I) | exact (z_mks _ _ I) | exact (z_mono _ _ I) | exact (z_low _ _ I) | exact (z_new _ _ I) | exact (z_blk _ _ I) | exact (z_j _ _ I)].
Lemma nbr_ok v px : 0 <= v < n -> 0 <= px < wt v -> stored A v (nbr v px) /\ 0 <= nbr v px < n.
Proof.
  intros Hv Hpx. unfold wt in Hpx. pose proof (wf_row A HA v Hv). split.
  - exists (rbeg A v + px). split; [lia|reflexivity].
  - rewrite <- Hsq. apply (wf_col A HA). lia.
Qed.
Lemma nbr_ex v w : 0 <= v < n -> stored A v w -> exists px, 0 <= px < wt v /\ nbr v px = w.
Proof.
  intros Hv (px & Hpx & E). exists (px - rbeg A v). unfold wt, nbr. split; [lia|]. replace (rbeg A v + (px - rbeg A v)) with px by lia. auto.
Qed.
Lemma mono_iff s l u v : SI s l -> 0 <= u <= s_top s -> 0 <= v <= s_top s -> mk s (stk s u) < mk s (stk s v) -> u < v.
Proof.
  intros I Hu Hv H. destruct (Z.lt_trichotomy u v) as [?|[->|?]]; [auto|lia|]. pose proof (z_mono _ _ I v u). lia.
Qed.
Lemma mono_le s l u v : SI s l -> 0 <= u <= s_top s -> 0 <= v <= s_top s -> mk s (stk s u) <= mk s (stk s v) -> u <= v.
Proof.
  intros I Hu Hv H. destruct (Z_le_gt_dec u v); auto. pose proof (z_mono _ _ I v u). lia.
Qed.
Lemma idx_le s l : SI s l -> s_idx s <= n.
Proof.
  intros I. rewrite (z_idx _ _ I). pose proof (z_pt _ _ I). pose proof (z_top _ _ I).
  apply (injpoints (fun t => if t <? s_ptop s then get (s_p s) t else stk s (t - s_ptop s))).
  - lia.
  - intros t Ht. destruct (Z.ltb_spec t (s_ptop s)); [apply (z_out _ _ I); lia|apply (z_stk _ _ I); lia].
  - intros t u Ht Hu. destruct (Z.ltb_spec t (s_ptop s)), (Z.ltb_spec u (s_ptop s)).
    + apply (z_oinj _ _ I); lia.
    + intros E. exfalso. apply (z_dis _ _ I t (u - s_ptop s)) in E; auto; lia.
    + intros E. exfalso. symmetry in E. apply (z_dis _ _ I u (t - s_ptop s)) in E; auto; lia.
    + intros E. apply (z_sinj _ _ I) in E; lia.
  - apply HA.
Qed.
Lemma idx_lt s l w : SI s l -> 0 <= w < n -> mk s w < 0 -> s_idx s < n.
Proof.
  intros I Hw Hm. rewrite (z_idx _ _ I). pose proof (z_pt _ _ I). pose proof (z_top _ _ I).
  assert (s_ptop s + s_top s + 2 <= n); [|lia].
  assert (HO : forall a, 0 <= a < s_ptop s -> get (s_p s) a <> w) by (intros a Ha E; destruct (z_out _ _ I a Ha) as (_ & _ & G); rewrite E in G; lia).
  assert (HS : forall u, 0 <= u <= s_top s -> stk s u <> w) by (intros u Hu E; pose proof (z_mks _ _ I u Hu) as G; rewrite E in G; lia).
  apply (injpoints (fun t => if t <? s_ptop s then get (s_p s) t else if t =? s_ptop s + s_top s + 1 then w else stk s (t - s_ptop s))).
  - lia.
  - intros t Ht. destruct (Z.ltb_spec t (s_ptop s)); [apply (z_out _ _ I); lia|].
    destruct (Z.eqb_spec t (s_ptop s + s_top s + 1)); auto. apply (z_stk _ _ I); lia.
  - intros t u Ht Hu.
    destruct (Z.ltb_spec t (s_ptop s)), (Z.ltb_spec u (s_ptop s)).
    + apply (z_oinj _ _ I); lia.
    + destruct (Z.eqb_spec u (s_ptop s + s_top s + 1)); [intros E; exfalso; apply (HO t); auto; lia|].
      intros E. exfalso. apply (z_dis _ _ I t (u - s_ptop s)) in E; auto; lia.
    + destruct (Z.eqb_spec t (s_ptop s + s_top s + 1)); [intros E; exfalso; apply (HO u); auto; lia|].
      intros E. exfalso. symmetry in E. apply (z_dis _ _ I u (t - s_ptop s)) in E; auto; lia.
    + destruct (Z.eqb_spec t (s_ptop s + s_top s + 1)), (Z.eqb_spec u (s_ptop s + s_top s + 1)); try lia.
      * intros E. exfalso. apply (HS (u - s_ptop s)); auto. lia.
      * intros E. exfalso. apply (HS (t - s_ptop s)); auto. lia.
      * intros E. apply (z_sinj _ _ I) in E; lia.
  - apply HA.
Qed.

(** *** What the segments depend on *)
Record same (s s' : scc) (lo hi : Z) : Prop := {
  m_stk : forall u, lo <= u < hi -> stk s' u = stk s u;
  m_low : forall u, lo <= u < hi -> low s' (stk s u) = low s (stk s u);
  m_ps : forall u, lo <= u < hi -> get (s_ps s') (stk s u) = get (s_ps s) (stk s u);
  m_prev : forall u, lo <= u < hi -> get (s_prev s') (stk s u) = get (s_prev s) (stk s u);
  m_mk : forall v, 0 <= mk s v -> mk s' v = mk s v;
  m_out : forall v, inout s v -> inout s' v
}.
Lemma same_sub s s' lo hi lo' hi' : same s s' lo hi -> lo <= lo' -> hi' <= hi -> same s s' lo' hi'.
Proof. intros [] H1 H2. constructor; auto; intros u Hu; [apply m_stk0|apply m_low0|apply m_ps0|apply m_prev0]; lia. Qed.
Lemma scanned_same s s' lo hi u px : same s s' lo hi -> lo <= u < hi -> scanned s (stk s u) px -> scanned s' (stk s u) px.
Proof. intros M Hu (H1 & H2). unfold scanned. rewrite (m_mk _ _ _ _ M) by auto. rewrite (m_low _ _ _ _ M) by auto. split; auto. destruct H2; auto. left. now apply (m_out _ _ _ _ M). Qed.
Lemma seg_same s s' lo hi : same s s' lo hi -> (forall u, lo <= u < hi -> 0 <= mk s (stk s u)) -> seg_ok s lo hi -> seg_ok s' lo hi.
Proof.
  intros M Hmk []. constructor; auto.
  - intros u Hu. rewrite !(m_stk _ _ _ _ M), !(m_low _ _ _ _ M), (m_mk _ _ _ _ M) by (auto; try apply Hmk; lia). auto.
  - intros u px Hu. rewrite (m_stk _ _ _ _ M) by lia. intros Hpx. apply (scanned_same _ _ _ _ _ _ M); auto. lia.
  - rewrite !(m_stk _ _ _ _ M), (m_ps _ _ _ _ M) by lia. auto.
  - rewrite !(m_stk _ _ _ _ M), (m_ps _ _ _ _ M) by lia. intros px Hpx. apply (scanned_same _ _ _ _ _ _ M); auto. lia.
  - intros u Hu. rewrite !(m_stk _ _ _ _ M) by lia. auto.
Qed.
Lemma segs_same s s' hi l : same s s' 0 hi -> (forall u, 0 <= u < hi -> 0 <= mk s (stk s u)) -> segs s hi l -> segs s' hi l.
Proof.
  revert hi. induction l as [|lo l IH]; intros hi M Hmk; cbn [segs]; auto.
  intros (G & H1 & H2 & H3). pose proof (g_rng _ _ _ G) as R.
  assert (El : stk s' lo = stk s lo) by (apply (m_stk _ _ _ _ M); lia).
  split; [|split; [|split]].
  - apply (seg_same s); auto; [apply (same_sub _ _ _ _ _ _ M); lia|]. intros; apply Hmk; lia.
  - rewrite El. rewrite (m_prev _ _ _ _ M) by lia. destruct l as [|lo' l']; auto. destruct H3 as (G' & _). pose proof (g_rng _ _ _ G').
    rewrite (m_stk _ _ _ _ M) by lia. auto.
  - destruct l as [|lo' l']; auto. destruct H3 as (G' & _). pose proof (g_rng _ _ _ G'). rewrite El, (m_stk _ _ _ _ M) by lia. auto.
  - apply IH; auto; [apply (same_sub _ _ _ _ _ _ M); lia|]. intros; apply Hmk; lia.
Qed.
Lemma blocks_same nb pt rr p p' : (forall a, 0 <= a < pt -> get p' a = get p a) -> blocks nb pt rr p -> blocks nb pt rr p'.
Proof.
  intros H []. 
  assert (Hle : forall t, 0 <= t < nb -> 0 <= get rr t /\ get rr (t + 1) <= pt).
  { assert (H0 : forall t, 0 <= t <= nb -> 0 <= get rr t).
    { intros t Ht. pattern t. apply (range_ind _ 0 nb); try lia. intros k Hk IH. pose proof (k_inc0 k Hk). lia. }
    assert (H1 : forall d, 0 <= d <= nb -> get rr (nb - d) <= pt).
    { intros d Hd. pattern d. apply (range_ind _ 0 nb); try lia.
      - replace (nb - 0) with nb by lia. lia.
      - intros k Hk IH. pose proof (k_inc0 (nb - (k + 1)) ltac:(lia)) as G. replace (nb - (k + 1) + 1) with (nb - k) in G by lia. lia. }
    intros t Ht. split; [apply H0; lia|]. specialize (H1 (nb - (t + 1)) ltac:(lia)). now replace (nb - (nb - (t + 1))) with (t + 1) in H1 by lia. }
  constructor; auto.
  - intros t a b Ht Ha Hb. pose proof (Hle t Ht). unfold in_block in *. rewrite !H by lia. apply (k_reach0 t); auto.
  - intros t a w Ht Ha. pose proof (Hle t Ht). unfold in_block in *. rewrite H by lia. intros Hs. destruct (k_clo0 t a w Ht Ha Hs) as (b & Hb & E).
    exists b. split; auto. rewrite H by lia. auto.
Qed.
Lemma blocks_le nb pt rr p : blocks nb pt rr p -> nb <= pt /\ forall t, 0 <= t <= nb -> t <= get rr t <= pt.
Proof.
  intros [].
  assert (H0 : forall t, 0 <= t <= nb -> t <= get rr t).
  { intros t Ht. pattern t. apply (range_ind _ 0 nb); try lia. intros k Hk IH. pose proof (k_inc0 k Hk). lia. }
  assert (H1 : forall d, 0 <= d <= nb -> get rr (nb - d) <= pt).
  { intros d Hd. pattern d. apply (range_ind _ 0 nb); try lia.
    - replace (nb - 0) with nb by lia. lia.
    - intros k Hk IH. pose proof (k_inc0 (nb - (k + 1)) ltac:(lia)) as G. replace (nb - (k + 1) + 1) with (nb - k) in G by lia. lia. }
  split; [rewrite <- k_n0; apply H0; lia|]. intros t Ht. split; [apply H0; auto|]. specialize (H1 (nb - t) ltac:(lia)). now replace (nb - (nb - t)) with t in H1 by lia.
Qed.

(** *** Scanning an edge to a visited node *)
Definition at_px (s : scc) (lw : list Z) (px : Z) : scc :=
  Scc (s_ptop s) (s_p s) (s_rr s) (s_n s) (upd (s_ps s) (s_j s) px) (s_mk s) (s_prev s) (s_stk s) lw (s_idx s) (s_top s) (s_j s).

Lemma SI_scan s lo l px : SI s (lo :: l) -> get (s_ps s) (s_j s) = px -> px < wt (s_j s) -> 0 <= mk s (nbr (s_j s) px) ->
  SI (at_px s (upd (s_low s) (s_j s) (Z.min (low s (s_j s)) (low s (nbr (s_j s) px)))) (px + 1)) (lo :: l).
Proof.
  intros I Hps Hlt Hm. pose proof (z_j _ _ I) as Ej. cbn in Ej.
  pose proof (z_seg _ _ I) as (G & Hpr & Hre & Hsg). pose proof (g_rng _ _ _ G) as R.
  pose proof (z_stk _ _ I lo ltac:(lia)) as Rj. rewrite <- Ej in Rj.
  pose proof (g_ps _ _ _ G) as Gps. rewrite <- Ej in Gps. rewrite Hps in Gps.
  destruct (nbr_ok (s_j s) px Rj ltac:(lia)) as (Hst & Hw). set (w := nbr (s_j s) px) in *.
  pose proof (z_llow _ _ I) as Ll. pose proof (z_lps _ _ I) as Lps.
  pose proof (z_mks _ _ I lo ltac:(lia)) as Mj. rewrite <- Ej in Mj. pose proof (idx_le _ _ I) as Hidx.
  destruct (z_low _ _ I lo ltac:(lia)) as (Lj & wj & Hwj & Ewj & Pwj). rewrite <- Ej in Lj, Ewj, Pwj.
  set (lw := upd (s_low s) (s_j s) (Z.min (low s (s_j s)) (low s w))).
  assert (Elj : get lw (s_j s) = Z.min (low s (s_j s)) (low s w)) by (apply get_upd_eq; lia).
  assert (Elo : forall v, v <> s_j s -> get lw v = low s v) by (intros; apply get_upd_ne; auto).
  assert (Hno : forall u, 0 <= u <= s_top s -> u <> lo -> stk s u <> s_j s).
  { intros u Hu Hne E. apply Hne. apply (z_sinj _ _ I); [lia|lia|congruence]. }
  (* the edge is fine *)
  assert (Hedge : inout s w \/ get lw (s_j s) <= mk s w).
  { destruct (z_mk _ _ I w Hw Hm) as [|(u & Hu & Eu)]; auto. right. rewrite Elj. destruct (z_low _ _ I u Hu) as (G1 & _). rewrite Eu in G1. lia. }
  assert (Hscan : forall v px', v <> s_j s -> scanned s v px' -> scanned (at_px s lw (px + 1)) v px').
  { intros v px' Hv (S1 & S2). split; auto. destruct S2 as [S2|S2]; [left; exact S2|right]. cbn. rewrite Elo; auto. }
  constructor; cbn [at_px s_ptop s_p s_rr s_n s_ps s_mk s_prev s_stk s_low s_idx s_top s_j]; try keep I; try (unfold lw; rewrite len_upd; keep I).
  - intros a Ha. destruct (z_out _ _ I a Ha) as (O1 & O2 & O3). split; auto. split; auto. rewrite Elo; auto.
    rewrite Ej. apply (z_dis _ _ I); auto. lia.
  - intros u Hu. destruct (Z.eq_dec u lo) as [->|Hne].
    + rewrite <- Ej, Elj. split; [lia|]. destruct (Z_le_gt_dec (low s (s_j s)) (low s w)) as [Hle|Hgt].
      * exists wj. rewrite Z.min_l by lia. auto.
      * destruct (z_mk _ _ I w Hw Hm) as [(a & Ha & Ea)|(x & Hx & Ex)].
        { destruct (z_out _ _ I a Ha) as (_ & O2 & _). rewrite Ea in O2. lia. }
        destruct (z_low _ _ I x Hx) as (L1 & y & Hy & Ey & Py). rewrite Ex in *.
        exists y. rewrite Z.min_r by lia. split; [|split; auto].
        -- assert (y < lo); [|lia]. apply (mono_iff s (lo :: l)); auto; try lia. rewrite <- Ej. lia.
        -- apply (reach_trans _ _ w); auto. now apply reach_edge.
    + rewrite Elo by (apply Hno; auto). apply (z_low _ _ I); auto.
  - intros v Hv Hmv. destruct (z_new _ _ I v Hv Hmv) as (N1 & N2). split; auto. rewrite get_upd_ne; auto. intros <-. lia.
  - cbn [segs]. cbn [at_px s_ptop s_p s_rr s_n s_ps s_mk s_prev s_stk s_low s_idx s_top s_j]. split; [|split; [|split]]; auto.
    + destruct G as [G1 G2 G3 G4 G5 G6]. constructor; cbn [at_px s_ptop s_p s_rr s_n s_ps s_mk s_prev s_stk s_low s_idx s_top s_j]; auto.
      * intros u Hu. rewrite (Elo (stk s u)) by (apply Hno; lia). rewrite <- Ej, Elj. specialize (G2 u Hu). rewrite <- Ej in G2. lia.
      * intros u px' Hu Hpx. apply Hscan; [apply Hno; lia|]. apply G3; auto.
      * rewrite <- Ej. rewrite get_upd_eq by lia. lia.
      * rewrite <- Ej. rewrite get_upd_eq by lia. intros px' Hpx'. destruct (Z.eq_dec px' px) as [->|].
        -- split; [exact Hm|]. destruct Hedge; auto.
        -- rewrite <- Ej in G5. destruct (G5 px' ltac:(lia)) as (S1 & S2). split; auto. destruct S2 as [|S2]; [now left|right]. cbn. rewrite Elj. lia.
    + apply (segs_same s); auto.
      * constructor; cbn [at_px s_ptop s_p s_rr s_n s_ps s_mk s_prev s_stk s_low s_idx s_top s_j]; auto.
        -- intros u Hu. apply Elo, Hno; lia.
        -- intros u Hu. apply get_upd_ne. intros E. apply (Hno u); auto; lia.
      * intros u Hu. apply (z_mks _ _ I). lia.
Qed.

(** *** Pushing a new node *)
Definition pushed (s : scc) (px : Z) : scc :=
  let w := nbr (s_j s) px in
  Scc (s_ptop s) (s_p s) (s_rr s) (s_n s) (upd (s_ps s) (s_j s) (px + 1)) (upd (s_mk s) w (s_idx s)) (upd (s_prev s) w (s_j s))
    (upd (s_stk s) (s_top s + 1) w) (upd (s_low s) w (s_idx s)) (s_idx s + 1) (s_top s + 1) w.
Lemma SI_push s lo l px : SI s (lo :: l) -> get (s_ps s) (s_j s) = px -> px < wt (s_j s) -> mk s (nbr (s_j s) px) < 0 ->
  s_top s + 1 < n /\ SI (pushed s px) (s_top s + 1 :: lo :: l).
Proof.
  intros I Hps Hlt Hm. pose proof (z_j _ _ I) as Ej. cbn in Ej.
  pose proof (z_seg _ _ I) as (G & Hpr & Hre & Hsg). pose proof (g_rng _ _ _ G) as R.
  pose proof (z_stk _ _ I lo ltac:(lia)) as Rj. rewrite <- Ej in Rj.
  pose proof (g_ps _ _ _ G) as Gps. rewrite <- Ej in Gps. rewrite Hps in Gps.
  destruct (nbr_ok (s_j s) px Rj ltac:(lia)) as (Hst & Hw).
  pose proof (idx_lt _ _ _ I Hw Hm) as Hidx. pose proof (z_idx _ _ I) as Ei. pose proof (z_pt _ _ I) as Hpt.
  split; [lia|].
  set (w := nbr (s_j s) px) in *.
  pose proof (z_llow _ _ I) as Ll. pose proof (z_lps _ _ I) as Lps. pose proof (z_lm _ _ I) as Lm. pose proof (z_lprev _ _ I) as Lpr. pose proof (z_lstk _ _ I) as Ls.
  assert (HwS : forall u, 0 <= u <= s_top s -> stk s u <> w) by (intros u Hu E; pose proof (z_mks _ _ I u Hu) as G'; rewrite E in G'; lia).
  assert (HwO : forall a, 0 <= a < s_ptop s -> get (s_p s) a <> w) by (intros a Ha E; destruct (z_out _ _ I a Ha) as (_ & _ & G'); rewrite E in G'; lia).
  assert (Hjw : s_j s <> w) by (rewrite Ej; apply HwS; lia).
  set (s' := pushed s px).
  assert (Es : forall u, 0 <= u <= s_top s -> stk s' u = stk s u) by (intros u Hu; apply get_upd_ne; lia).
  assert (Esn : stk s' (s_top s + 1) = w) by (apply get_upd_eq; lia).
  assert (Em : forall v, v <> w -> mk s' v = mk s v) by (intros; apply get_upd_ne; auto).
  assert (Emn : mk s' w = s_idx s) by (apply get_upd_eq; lia).
  assert (El : forall v, v <> w -> low s' v = low s v) by (intros; apply get_upd_ne; auto).
  assert (Eln : low s' w = s_idx s) by (apply get_upd_eq; lia).
  assert (Hmk0 : forall v, 0 <= mk s v -> mk s' v = mk s v) by (intros v Hv; apply Em; intros ->; lia).
  assert (Hscan : forall v px', v <> w -> scanned s v px' -> scanned s' v px').
  { intros v px' Hv (S1 & S2). unfold scanned. rewrite Hmk0, El by auto. split; auto. }
  assert (Hsame : same s s' 0 lo).
  { constructor; auto.
    - intros u Hu. apply Es. lia.
    - intros u Hu. apply El, HwS. lia.
    - intros u Hu. apply get_upd_ne. intros E. assert (lo = u) by (apply (z_sinj _ _ I); [lia|lia|congruence]). lia.
    - intros u Hu. apply get_upd_ne. intros E. apply (HwS u); [lia|auto]. }
  constructor.
  - exact (z_lp _ _ I).
  - exact (z_lrr _ _ I).
  - unfold s', pushed; cbn [s_ps]. now rewrite len_upd.
  - unfold s', pushed; cbn [s_mk]. now rewrite len_upd.
  - unfold s', pushed; cbn [s_prev]. now rewrite len_upd.
  - unfold s', pushed; cbn [s_stk]. now rewrite len_upd.
  - unfold s', pushed; cbn [s_low]. now rewrite len_upd.
  - exact Hpt.
  - unfold s', pushed; cbn [s_top]. lia.
  - unfold s', pushed; cbn [s_top s_idx s_ptop]. lia.
  - intros a Ha. change (s_ptop s') with (s_ptop s) in *. change (s_p s') with (s_p s) in *. destruct (z_out _ _ I a Ha) as (O1 & O2 & O3).
    rewrite El, Hmk0 by auto. auto.
  - exact (z_oinj _ _ I).
  - intros u Hu. change (s_top s') with (s_top s + 1) in Hu. destruct (Z.eq_dec u (s_top s + 1)) as [->|]; [now rewrite Esn|]. rewrite Es by lia. apply (z_stk _ _ I). lia.
  - intros u v Hu Hv. change (s_top s') with (s_top s + 1) in *. destruct (Z.eq_dec u (s_top s + 1)) as [->|], (Z.eq_dec v (s_top s + 1)) as [->|]; auto.
    + rewrite Esn, Es by lia. intros E. exfalso. apply (HwS v); [lia|auto].
    + rewrite Esn, Es by lia. intros E. exfalso. apply (HwS u); [lia|auto].
    + rewrite !Es by lia. apply (z_sinj _ _ I); lia.
  - intros a u Ha Hu. change (s_top s') with (s_top s + 1) in *. change (s_ptop s') with (s_ptop s) in *. change (s_p s') with (s_p s) in *.
    destruct (Z.eq_dec u (s_top s + 1)) as [->|]; [rewrite Esn; auto|]. rewrite Es by lia. apply (z_dis _ _ I); lia.
  - intros v Hv Hmv. change (s_top s') with (s_top s + 1). destruct (Z.eq_dec v w) as [->|Hne].
    + right. exists (s_top s + 1). split; [pose proof (z_top _ _ I); lia|auto].
    + rewrite Em in Hmv by auto. destruct (z_mk _ _ I v Hv Hmv) as [|(u & Hu & E)]; [now left|]. right. exists u. split; [lia|]. rewrite Es by auto. auto.
  - intros u Hu. change (s_top s') with (s_top s + 1) in *. change (s_idx s') with (s_idx s + 1). destruct (Z.eq_dec u (s_top s + 1)) as [->|].
    + rewrite Esn, Emn. pose proof (z_top _ _ I). lia.
    + rewrite Es by lia. pose proof (z_mks _ _ I u ltac:(lia)). rewrite Hmk0 by lia. lia.
  - intros u v Hu Huv Hv. change (s_top s') with (s_top s + 1) in *. pose proof (z_mks _ _ I u ltac:(lia)) as Hu1. rewrite (Es u) by lia. rewrite (Hmk0 (stk s u)) by lia.
    destruct (Z.eq_dec v (s_top s + 1)) as [->|].
    + rewrite Esn, Emn. lia.
    + rewrite Es by lia. pose proof (z_mks _ _ I v ltac:(lia)). rewrite Hmk0 by lia. apply (z_mono _ _ I); lia.
  - intros u Hu. change (s_top s') with (s_top s + 1) in *. destruct (Z.eq_dec u (s_top s + 1)) as [->|].
    + rewrite Esn, Emn, Eln. split; [lia|]. exists (s_top s + 1). rewrite Esn, Emn. split; [lia|]. split; auto. apply reach_refl.
    + rewrite Es by lia. pose proof (z_mks _ _ I u ltac:(lia)). rewrite Hmk0 by lia. rewrite El by (apply HwS; lia).
      destruct (z_low _ _ I u ltac:(lia)) as (L1 & y & Hy & Ey & Py). split; auto. exists y. rewrite Es by lia.
      pose proof (z_mks _ _ I y ltac:(lia)). rewrite Hmk0 by lia. auto.
  - intros v Hv Hmv. destruct (Z.eq_dec v w) as [->|Hne]; [lia|]. rewrite Em in Hmv by auto. destruct (z_new _ _ I v Hv Hmv) as (N1 & N2).
    unfold s', pushed; cbn [s_ps s_prev]. rewrite !get_upd_ne; auto. intros <-. rewrite Ej in Hmv. pose proof (z_mks _ _ I lo ltac:(lia)). lia.
  - exact (z_blk _ _ I).
  - change (s_top s') with (s_top s + 1). cbn [segs]. rewrite Esn, (Es lo) by lia. rewrite <- Ej.
    split; [|split; [|split; [|split; [|split; [|split]]]]].
    + constructor.
      * lia.
      * intros; lia.
      * intros; lia.
      * rewrite Esn. unfold s', pushed; cbn [s_ps]. rewrite get_upd_ne by auto. destruct (z_new _ _ I w Hw Hm) as (-> & _). unfold wt. pose proof (wf_row A HA w Hw). lia.
      * rewrite Esn. unfold s', pushed; cbn [s_ps]. rewrite get_upd_ne by auto. destruct (z_new _ _ I w Hw Hm) as (-> & _). intros; lia.
      * intros u Hu. replace u with (s_top s + 1) by lia. apply reach_refl.
    + unfold s', pushed; cbn [s_prev]. apply get_upd_eq. lia.
    + apply reach_edge. auto.
    + destruct G as [G1 G2 G3 G4 G5 G6]. constructor.
      * lia.
      * intros u Hu. rewrite !Es by lia. pose proof (z_mks _ _ I u ltac:(lia)). rewrite Hmk0 by lia. rewrite !El by (apply HwS; lia). apply G2. auto.
      * intros u px' Hu. rewrite Es by lia. intros Hpx'. apply Hscan; [apply HwS; lia|]. apply G3; auto.
      * rewrite Es, <- Ej by lia. unfold s', pushed; cbn [s_ps]. rewrite get_upd_eq by lia. lia.
      * rewrite Es, <- Ej by lia. unfold s' at 1, pushed; cbn [s_ps]. rewrite get_upd_eq by lia. intros px' Hpx'. destruct (Z.eq_dec px' px) as [->|].
        -- unfold scanned. fold w. rewrite Emn. split; [pose proof (z_top _ _ I); lia|]. right. rewrite El by auto.
           destruct (z_low _ _ I lo ltac:(lia)) as (L1 & _). pose proof (z_mks _ _ I lo ltac:(lia)). rewrite Ej. lia.
        -- apply Hscan; auto. rewrite <- Ej in G5. apply G5. lia.
      * intros u Hu. rewrite !Es by lia. apply G6. auto.
    + change (s_prev s') with (upd (s_prev s) w (s_j s)). rewrite get_upd_ne by auto. rewrite Ej, Hpr. destruct l as [|lo' l']; auto. destruct Hsg as (G' & _). pose proof (g_rng _ _ _ G'). rewrite Es by lia. auto.
    + destruct l as [|lo' l']; auto. destruct Hsg as (G' & _). pose proof (g_rng _ _ _ G'). rewrite Es by lia. rewrite Ej. auto.
    + apply (segs_same s); auto. intros u Hu. apply (z_mks _ _ I). lia.
  - change (s_j s') with w. symmetry. exact Esn.
Qed.

(** *** Finishing a node that is not a root *)
Lemma SI_pop s lo l : SI s (lo :: l) -> get (s_ps s) (s_j s) = wt (s_j s) -> low s (s_j s) <> mk s (s_j s) ->
  exists j', get (s_prev s) (s_j s) = j' /\ 0 <= j' < n /\
    SI (Scc (s_ptop s) (s_p s) (s_rr s) (s_n s) (s_ps s) (s_mk s) (s_prev s) (s_stk s) (upd (s_low s) j' (Z.min (low s j') (low s (s_j s)))) (s_idx s) (s_top s) j') l.
Proof.
  intros I Hps Hne. pose proof (z_j _ _ I) as Ej. cbn in Ej.
  pose proof (z_seg _ _ I) as (G & Hpr & Hre & Hsg). pose proof (g_rng _ _ _ G) as R.
  destruct (z_low _ _ I lo ltac:(lia)) as (Lj & wj & Hwj & Ewj & Pwj). rewrite <- Ej in *.
  destruct l as [|lo1 l].
  { exfalso. cbn in Hsg. subst lo. assert (wj = 0) by lia. subst wj. rewrite <- Ej in Ewj. lia. }
  destruct Hsg as (G1 & Hpr1 & Hre1 & Hsg1). pose proof (g_rng _ _ _ G1) as R1.
  pose proof (z_stk _ _ I lo1 ltac:(lia)) as Rj1. pose proof (z_llow _ _ I) as Ll.
  exists (stk s lo1). split; [rewrite Ej; rewrite Ej in Hpr; exact Hpr|]. split; [auto|].
  set (j' := stk s lo1) in *. set (lw := upd (s_low s) j' (Z.min (low s j') (low s (s_j s)))).
  assert (Elj : get lw j' = Z.min (low s j') (low s (s_j s))) by (apply get_upd_eq; lia).
  assert (Elo : forall v, v <> j' -> get lw v = low s v) by (intros; apply get_upd_ne; auto).
  assert (Hno : forall u, 0 <= u <= s_top s -> u <> lo1 -> stk s u <> j').
  { intros u Hu Hn E. apply Hn. apply (z_sinj _ _ I); auto; lia. }
  destruct (z_low _ _ I lo1 ltac:(lia)) as (L1 & w1 & Hw1 & Ew1 & Pw1). fold j' in L1, Ew1, Pw1.
  set (s' := Scc (s_ptop s) (s_p s) (s_rr s) (s_n s) (s_ps s) (s_mk s) (s_prev s) (s_stk s) lw (s_idx s) (s_top s) j').
  assert (Hscan : forall v px', v <> j' -> scanned s v px' -> scanned s' v px').
  { intros v px' Hv (S1 & S2). split; auto. destruct S2 as [S2|S2]; [left; exact S2|right]. cbn. rewrite Elo; auto. }
  constructor; try keep I.
  - change (len lw = n). unfold lw. now rewrite len_upd.
  - unfold s'; cbn [s_ptop s_p s_rr s_n s_ps s_mk s_prev s_stk s_low s_idx s_top s_j]. intros a Ha. destruct (z_out _ _ I a Ha) as (O1 & O2 & O3). split; auto. split; auto. rewrite Elo; auto. apply (z_dis _ _ I); auto. lia.
  - unfold s'; cbn [s_ptop s_p s_rr s_n s_ps s_mk s_prev s_stk s_low s_idx s_top s_j]. intros u Hu. destruct (Z.eq_dec u lo1) as [->|Hn].
    + fold j'. rewrite Elj. split; [lia|]. destruct (Z_le_gt_dec (low s j') (low s (s_j s))).
      * exists w1. rewrite Z.min_l by lia. auto.
      * exists wj. rewrite Z.min_r by lia. split; [|split; auto].
        -- assert (wj < lo1); [|lia]. apply (mono_iff s (lo :: lo1 :: l)); auto; try lia. fold j'. lia.
        -- apply (reach_trans _ _ (s_j s)); auto.
    + rewrite Elo by (apply Hno; auto). apply (z_low _ _ I); auto.
  - change (s_top s') with (s_top s). cbn [segs]. change (s_stk s') with (s_stk s). change (s_prev s') with (s_prev s). split; [|split; [|split]]; auto.
    + destruct G as [A1 A2 A3 A4 A5 A6], G1 as [B1 B2 B3 B4 B5 B6]. constructor; change (s_stk s') with (s_stk s); change (s_mk s') with (s_mk s); change (s_low s') with lw; change (s_ps s') with (s_ps s); fold j'.
      * lia.
      * intros u Hu. rewrite Elj, (Elo (stk s u)) by (apply Hno; lia). destruct (Z.lt_trichotomy u lo) as [Hlt|[->|Hgt]].
        -- specialize (B2 u ltac:(lia)). fold j' in B2. lia.
        -- rewrite <- Ej. lia.
        -- specialize (A2 u ltac:(lia)). rewrite <- Ej in A2. lia.
      * intros u px' Hu Hpx'. apply Hscan; [apply Hno; lia|]. destruct (Z.lt_trichotomy u lo) as [Hlt|[->|Hgt]].
        -- apply B3; auto. lia.
        -- rewrite <- Ej in *. apply A5. lia.
        -- apply A3; auto. lia.
      * exact B4.
      * intros px' Hpx'. destruct (B5 px' Hpx') as (S1 & S2). split; auto. destruct S2 as [|S2]; [now left|right]. change (s_low s') with lw. fold j' in S2 |- *. rewrite Elj. change (s_mk s') with (s_mk s). lia.
      * intros u Hu. destruct (Z_lt_ge_dec u lo) as [Hlt|Hge].
        -- apply B6. lia.
        -- apply (reach_trans _ _ (s_j s)); auto. rewrite Ej. apply A6. lia.
    + apply (segs_same s); auto.
      * constructor; auto. intros u Hu. cbn. apply Elo, Hno; lia.
      * intros u Hu. apply (z_mks _ _ I). lia.
  - reflexivity.
Qed.

(** *** Finishing a root: its component is complete *)
Lemma emit_spec fuel s lo l : SI s (lo :: l) -> s_top s - lo < Z.of_nat fuel ->
  sat (scc_emit fuel (s_stk s) (s_j s) n (s_top s, s_ptop s, s_p s, s_low s)) (fun '(top, ptop, p, lw) =>
    top = lo /\ ptop = s_ptop s + (s_top s - lo) /\ len p = n /\ len lw = n /\
    (forall a, 0 <= a < s_ptop s -> get p a = get (s_p s) a) /\
    (forall d, 0 <= d < s_top s - lo -> get p (s_ptop s + d) = stk s (s_top s - d)) /\
    (forall u, lo < u <= s_top s -> get lw (stk s u) = n) /\
    (forall v, (forall u, lo < u <= s_top s -> stk s u <> v) -> get lw v = low s v)).
Proof.
  intros I Hf. pose proof (z_j _ _ I) as Ej. cbn in Ej.
  pose proof (z_seg _ _ I) as (G & _). pose proof (g_rng _ _ _ G) as R.
  pose proof (z_lstk _ _ I) as Ls. pose proof (idx_le _ _ I) as Hidx. pose proof (z_idx _ _ I) as Ei. pose proof (z_pt _ _ I) as Hpt.
  unfold scc_emit.
  apply (loop_spec (fun '(top, ptop, p, lw) => lo <= top <= s_top s /\ ptop = s_ptop s + (s_top s - top) /\ len p = n /\ len lw = n /\
    (forall a, 0 <= a < s_ptop s -> get p a = get (s_p s) a) /\
    (forall d, 0 <= d < s_top s - top -> get p (s_ptop s + d) = stk s (s_top s - d)) /\
    (forall u, top < u <= s_top s -> get lw (stk s u) = n) /\
    (forall v, (forall u, top < u <= s_top s -> stk s u <> v) -> get lw v = low s v)) (fun '(top, _, _, _) => top - lo)).
  - intros [[[top ptop] p] lw] (J1 & J2 & J3 & J4 & J5 & J6 & J7 & J8). pose proof (z_stk _ _ I top ltac:(lia)) as Rt.
    wp; try lia.
    + assert (top = lo). { apply (z_sinj _ _ I); try lia. } subst top. auto 10.
    + assert (top <> lo) by (intros ->; lia). split; [|lia]. split; [lia|]. split; [lia|]. split; [now len|]. split; [now len|].
      split; [|split; [|split]].
      * intros a Ha. rewrite get_upd_ne by lia. auto.
      * intros d Hd. rewrite get_upd_in by lia. destruct (Z.eqb_spec ptop (s_ptop s + d)) as [E'|].
        -- f_equal. lia.
        -- apply J6. lia.
      * intros u Hu. rewrite get_upd_in by lia. destruct (Z.eqb_spec (stk s top) (stk s u)); auto. apply J7. assert (u <> top) by congruence. lia.
      * intros v Hv. rewrite get_upd_ne by (apply Hv; lia). apply J8. intros u Hu. apply Hv. lia.
  - split; [lia|]. split; [lia|]. split; [apply I|]. split; [apply I|]. repeat split; auto; intros; lia.
  - lia.
Qed.

Lemma SI_root s lo l p lw rr ptop : SI s (lo :: l) -> get (s_ps s) (s_j s) = wt (s_j s) -> low s (s_j s) = mk s (s_j s) ->
  ptop = s_ptop s + (s_top s - lo) + 1 -> len p = n -> len lw = n -> len rr = n + 6 ->
  (forall a, 0 <= a < s_ptop s -> get p a = get (s_p s) a) ->
  (forall d, 0 <= d <= s_top s - lo -> get p (s_ptop s + d) = stk s (s_top s - d)) ->
  (forall u, lo <= u <= s_top s -> get lw (stk s u) = n) ->
  (forall v, (forall u, lo <= u <= s_top s -> stk s u <> v) -> get lw v = low s v) ->
  get rr (s_n s + 1) = ptop -> (forall t, 0 <= t <= s_n s -> get rr t = get (s_rr s) t) ->
  get (s_prev s) (s_j s) = match l with [] => -1 | lo' :: _ => stk s lo' end /\
  SI (Scc ptop p rr (s_n s + 1) (s_ps s) (s_mk s) (s_prev s) (s_stk s) lw (s_idx s) (lo - 1) (match l with [] => -1 | lo' :: _ => stk s lo' end)) l.
Proof.
  intros I Hps Hroot -> Lp Ll Lr Hp1 Hp2 Hl1 Hl2 Hr1 Hr2. pose proof (z_j _ _ I) as Ej. cbn in Ej.
  pose proof (z_seg _ _ I) as (G & Hpr & Hre & Hsg). pose proof (g_rng _ _ _ G) as R.
  pose proof (idx_le _ _ I) as Hidx. pose proof (z_idx _ _ I) as Ei. pose proof (z_pt _ _ I) as Hpt.
  split; [rewrite Ej; exact Hpr|].
  set (pt' := s_ptop s + (s_top s - lo) + 1).
  set (s' := Scc pt' p rr (s_n s + 1) (s_ps s) (s_mk s) (s_prev s) (s_stk s) lw (s_idx s) (lo - 1) (match l with [] => -1 | lo' :: _ => stk s lo' end)).
  assert (Hpn : forall u, lo <= u <= s_top s -> 0 <= s_ptop s + (s_top s - u) < pt' /\ get p (s_ptop s + (s_top s - u)) = stk s u).
  { intros u Hu. split; [unfold pt'; lia|]. rewrite Hp2 by lia. f_equal. lia. }
  assert (Hpc : forall a, s_ptop s <= a < pt' -> exists u, lo <= u <= s_top s /\ get p a = stk s u).
  { intros a Ha. exists (s_top s - (a - s_ptop s)). unfold pt' in Ha. split; [lia|]. rewrite <- Hp2 by lia. f_equal. lia. }
  assert (Hout : forall v, inout s v -> inout s' v).
  { intros v (a & Ha & E). exists a. cbn. unfold pt'. split; [lia|]. rewrite Hp1; auto. }
  assert (Hlow : forall u, lo <= u <= s_top s -> mk s (s_j s) <= low s (stk s u)).
  { intros u Hu. destruct (Z.eq_dec u lo) as [->|]; [rewrite <- Ej; lia|]. pose proof (g_low _ _ _ G u ltac:(lia)) as H. rewrite <- Ej in H. lia. }
  assert (Hback : forall u, lo <= u <= s_top s -> reach (stk s u) (s_j s)).
  { intros u Hu. cut (forall k, lo <= k <= s_top s + 1 -> forall u, lo <= u < k -> reach (stk s u) (s_j s)). { intros H. apply (H (s_top s + 1)); lia. }
    clear u Hu. intros k Hk. pattern k. apply (range_ind _ lo (s_top s + 1)); try lia. clear k Hk.
    intros k Hk IH u Hu. destruct (Z.eq_dec u k) as [->|]; [|apply IH; lia].
    destruct (Z.eq_dec k lo) as [->|]; [rewrite <- Ej; apply reach_refl|].
    destruct (z_low _ _ I k ltac:(lia)) as (L1 & w & Hw & Ew & Pw). pose proof (g_low _ _ _ G k ltac:(lia)) as GL.
    apply (reach_trans _ _ (stk s w)); auto. apply IH. split.
    - apply (mono_le s (lo :: l)); auto; try lia. rewrite <- Ej, Ew. apply Hlow. lia.
    - apply (mono_iff s (lo :: l)); auto; lia. }
  assert (Hclo : forall u w, lo <= u <= s_top s -> stored A (stk s u) w -> inout s' w).
  { intros u w Hu Hst. pose proof (z_stk _ _ I u ltac:(lia)) as Ru. destruct (nbr_ex _ _ Ru Hst) as (px & Hpx & <-). destruct (nbr_ok _ _ Ru Hpx) as (_ & Rw).
    assert (S : scanned s (stk s u) px).
    { destruct (Z.eq_dec u lo) as [->|]; [apply (g_cur _ _ _ G); rewrite <- Ej in *; lia|apply (g_scan _ _ _ G); auto; lia]. }
    destruct S as (S1 & [S2|S2]); [auto|]. destruct (z_mk _ _ I _ Rw S1) as [|(x & Hx & Ex)]; [auto|].
    assert (lo <= x). { apply (mono_le s (lo :: l)); auto; try lia. rewrite Ex, <- Ej. specialize (Hlow u Hu). lia. }
    destruct (Hpn x ltac:(lia)) as (P1 & P2). exists (s_ptop s + (s_top s - x)). cbn. rewrite P2. auto. }
  constructor; unfold s'; cbn [s_ptop s_p s_rr s_n s_ps s_mk s_prev s_stk s_low s_idx s_top s_j]; try keep I; auto.
  - unfold pt'. lia.
  - lia.
  - unfold pt'. lia.
  - intros a Ha. destruct (Z_lt_ge_dec a (s_ptop s)) as [Hlt|Hge].
    + rewrite Hp1 by lia. destruct (z_out _ _ I a ltac:(lia)) as (O1 & O2 & O3). split; auto. split; auto. rewrite Hl2; auto. intros u Hu E. apply (z_dis _ _ I a u); auto; lia.
    + destruct (Hpc a ltac:(lia)) as (u & Hu & ->). split; [apply (z_stk _ _ I); lia|]. split; [apply Hl1; auto|]. apply (z_mks _ _ I). lia.
  - intros a b Ha Hb. destruct (Z_lt_ge_dec a (s_ptop s)), (Z_lt_ge_dec b (s_ptop s)).
    + rewrite !Hp1 by lia. apply (z_oinj _ _ I); lia.
    + rewrite Hp1 by lia. destruct (Hpc b ltac:(lia)) as (u & Hu & ->). intros E. exfalso. apply (z_dis _ _ I a u); auto; lia.
    + rewrite (Hp1 b) by lia. destruct (Hpc a ltac:(lia)) as (u & Hu & ->). intros E. exfalso. apply (z_dis _ _ I b u); auto; lia.
    + replace a with (s_ptop s + (a - s_ptop s)) by lia. replace b with (s_ptop s + (b - s_ptop s)) by lia. unfold pt' in *. rewrite !Hp2 by lia.
      intros E. apply (z_sinj _ _ I) in E; lia.
  - intros u Hu. apply (z_stk _ _ I). lia.
  - intros u v Hu Hv. apply (z_sinj _ _ I); lia.
  - intros a u Ha Hu. destruct (Z_lt_ge_dec a (s_ptop s)).
    + rewrite Hp1 by lia. apply (z_dis _ _ I); lia.
    + destruct (Hpc a ltac:(lia)) as (x & Hx & ->). intros E. apply (z_sinj _ _ I) in E; lia.
  - intros v Hv Hm. destruct (z_mk _ _ I v Hv Hm) as [H|(u & Hu & <-)]; [left; apply Hout; auto|].
    destruct (Z_lt_ge_dec u lo); [right; exists u; split; auto; lia|]. left. destruct (Hpn u ltac:(lia)) as (P1 & P2). exists (s_ptop s + (s_top s - u)). auto.
  - intros u Hu. apply (z_mks _ _ I). lia.
  - intros u v Hu Huv Hv. apply (z_mono _ _ I); lia.
  - intros u Hu. rewrite Hl2 by (intros x Hx E; apply (z_sinj _ _ I) in E; lia). apply (z_low _ _ I). lia.
  - (* blocks *)
    pose proof (z_blk _ _ I) as K. pose proof (blocks_le _ _ _ _ K) as (K0 & Kle). destruct K as [K1 K2 K3 K4 K5 K6].
    constructor.
    + lia.
    + rewrite Hr2 by lia. auto.
    + auto.
    + intros t Ht. destruct (Z.eq_dec t (s_n s)) as [->|].
      * rewrite Hr1, Hr2 by lia. lia.
      * rewrite !Hr2 by lia. apply K4. lia.
    + intros t a b Ht. unfold in_block. destruct (Z.eq_dec t (s_n s)) as [->|].
      * rewrite Hr1, Hr2 by lia. intros Ha Hb. destruct (Hpc a ltac:(unfold pt'; lia)) as (u & Hu & ->). destruct (Hpc b ltac:(unfold pt'; lia)) as (v & Hv & ->).
        apply (reach_trans _ _ (s_j s)); auto. rewrite Ej. apply (g_reach _ _ _ G). lia.
      * rewrite !Hr2 by lia. pose proof (Kle (t + 1) ltac:(lia)). pose proof (Kle t ltac:(lia)). intros Ha Hb. rewrite !Hp1 by lia. apply (K5 t); unfold in_block; lia.
    + intros t a w Ht. unfold in_block. destruct (Z.eq_dec t (s_n s)) as [->|].
      * rewrite Hr1, Hr2 by lia. intros Ha. destruct (Hpc a ltac:(unfold pt'; lia)) as (u & Hu & ->). intros Hst. destruct (Hclo u w Hu Hst) as (b & Hb & E). exists b. auto.
      * rewrite !Hr2 by lia. pose proof (Kle (t + 1) ltac:(lia)). pose proof (Kle t ltac:(lia)). intros Ha. rewrite Hp1 by lia. intros Hst. destruct (K6 t a w ltac:(lia) Ha Hst) as (b & Hb & E).
        exists b. split; auto. rewrite Hp1 by lia. auto.
  - replace (lo - 1 + 1) with lo by lia. apply (segs_same s); auto.
    + constructor; auto. intros u Hu. cbn. apply Hl2. intros x Hx E. apply (z_sinj _ _ I) in E; lia.
    + intros u Hu. apply (z_mks _ _ I). lia.
Qed.

(** *** The depth-first search *)
Lemma upd_upd (a : list Z) i x y : upd (upd a i x) i y = upd a i y.
Proof.
  apply list_ext; [now len|]. intros k Hk. rewrite !len_upd in Hk. rewrite !get_upd. unfold inb. rewrite len_upd.
  destruct (Z.eqb_spec i k) as [->|]; cbn; auto. now destruct ((0 <=? k) && (k <? len a)).
Qed.
Lemma at_px_self s : at_px s (s_low s) (get (s_ps s) (s_j s)) = s.
Proof. unfold at_px. rewrite upd_same. now destruct s. Qed.
Lemma segs_in s hi l x : segs s hi l -> In x l -> 0 <= x < hi.
Proof.
  revert hi. induction l as [|lo l IH]; intros hi; cbn [segs In]; [tauto|]. intros (G & _ & _ & H) [->|Hx].
  - apply (g_rng _ _ _ G).
  - specialize (IH lo H Hx). pose proof (g_rng _ _ _ G). lia.
Qed.
Definition set_ps (s : scc) (ps : list Z) : scc :=
  Scc (s_ptop s) (s_p s) (s_rr s) (s_n s) ps (s_mk s) (s_prev s) (s_stk s) (s_low s) (s_idx s) (s_top s) (s_j s).
Lemma segs_ps s ps hi l : (forall x, In x l -> get ps (stk s x) = get (s_ps s) (stk s x)) -> segs s hi l -> segs (set_ps s ps) hi l.
Proof.
  revert hi. induction l as [|lo l IH]; intros hi Hps; cbn [segs]; auto. intros (G & H1 & H2 & H3). split; [|split; [|split]]; auto.
  - destruct G as [A1 A2 A3 A4 A5 A6]. constructor; auto; cbn [set_ps s_stk s_ps]; rewrite Hps by (left; auto); auto.
  - apply IH; auto. intros x Hx. apply Hps. now right.
Qed.
Lemma SI_ps s ps l : SI s l -> len ps = n -> (forall x, In x l -> get ps (stk s x) = get (s_ps s) (stk s x)) ->
  (forall v, 0 <= v < n -> mk s v < 0 -> get ps v = get (s_ps s) v) -> SI (set_ps s ps) l.
Proof.
  intros I L H1 H2. constructor; try keep I; auto.
  - cbn. intros v Hv Hm. rewrite H2 by auto. apply (z_new _ _ I); auto.
  - apply segs_ps; auto. apply I.
Qed.

Lemma scan_spec s lo l : SI s (lo :: l) ->
  sat (scc_scan A s) (fun o => match o with
    | inl lw => SI (at_px s lw (wt (s_j s))) (lo :: l)
    | inr s' => 0 <= s_j s' /\ exists s'', scc_mark s' = Ok s'' /\ SI s'' (s_top s + 1 :: lo :: l) /\ s_idx s'' = s_idx s + 1 /\
        forall x, 0 <= mk s x -> 0 <= mk s'' x
    end).
Proof.
  intros I. pose proof (z_j _ _ I) as Ej. cbn in Ej.
  pose proof (z_seg _ _ I) as (G & _). pose proof (g_rng _ _ _ G) as R. pose proof (g_ps _ _ _ G) as Gps. rewrite <- Ej in Gps.
  pose proof (z_stk _ _ I lo ltac:(lia)) as Rj. rewrite <- Ej in Rj.
  pose proof (z_lps _ _ I) as Lps. pose proof (z_lm _ _ I) as Lm. pose proof (z_lprev _ _ I) as Lpr. pose proof (z_lstk _ _ I) as Ls.
  pose proof (wf_len A HA) as Lc. pose proof (wf_nnz A HA) as Hz. pose proof (wf_row A HA _ Rj) as Hr.
  unfold scc_scan. wp; try lia. fold (rbeg A (s_j s)) (rend A (s_j s)). change (rend A (s_j s) - rbeg A (s_j s)) with (wt (s_j s)).
  apply (forb_spec (fun px lw => get (s_ps s) (s_j s) <= px /\ SI (at_px s lw px) (lo :: l))).
  - lia.
  - split; [lia|]. rewrite at_px_self. exact I.
  - intros px lw Hpx (H0 & I'). destruct (nbr_ok (s_j s) px Rj ltac:(lia)) as (_ & Hw). unfold nbr in Hw.
    pose proof (z_llow _ _ I') as Ll. cbn in Ll.
    assert (Eps : get (s_ps (at_px s lw px)) (s_j (at_px s lw px)) = px) by (cbn; apply get_upd_eq; lia).
    assert (Hcj : rbeg A (s_j s) + px < len (cj A)) by (unfold wt in Hpx; lia).
    wp; try lia.
    + split; [lia|]. pose proof (SI_scan _ _ _ px I' Eps ltac:(cbn; lia)) as H. cbn [at_px s_ptop s_p s_rr s_n s_ps s_mk s_prev s_stk s_low s_idx s_top s_j] in H.
      unfold nbr in H. specialize (H ltac:(lia)). unfold at_px in H. cbn [s_ptop s_p s_rr s_n s_ps s_mk s_prev s_stk s_low s_idx s_top s_j] in H. rewrite upd_upd in H. exact H.
    + destruct (SI_push _ _ _ px I' Eps ltac:(cbn; lia) ltac:(cbn; unfold nbr; lia)) as (Ht & _). cbn in Ht. pose proof (z_top _ _ I). lia.
    + destruct (SI_push _ _ _ px I' Eps ltac:(cbn; lia) ltac:(cbn; unfold nbr; lia)) as (Ht & I2). cbn in Ht.
      split; [cbn; lia|]. unfold scc_mark. cbn [s_ptop s_p s_rr s_n s_ps s_mk s_prev s_stk s_low s_idx s_top s_j].
      rewrite aget_ok by lia. cbn [bind]. replace (get (s_mk s) (get (cj A) (rbeg A (s_j s) + px)) <? 0) with true by lia.
      rewrite !aset_ok by lia. cbn [bind]. eexists. split; [reflexivity|]. split; [|split; [reflexivity|]].
      2:{ cbn. intros x Hx. pose proof (z_pt _ _ I). pose proof (z_idx _ _ I). pose proof (z_top _ _ I). rewrite get_upd_in by lia. destruct (Z.eqb_spec (get (cj A) (rbeg A (s_j s) + px)) x); lia. }
      unfold pushed, at_px, nbr in I2. cbn [s_ptop s_p s_rr s_n s_ps s_mk s_prev s_stk s_low s_idx s_top s_j] in I2. rewrite upd_upd in I2. exact I2.
  - intros lw (_ & I'). exact I'.
Qed.

Lemma finish_spec s lw lo l : SI (at_px s lw (wt (s_j s))) (lo :: l) ->
  sat (scc_finish n (Scc (s_ptop s) (s_p s) (s_rr s) (s_n s) (s_ps s) (s_mk s) (s_prev s) (s_stk s) lw (s_idx s) (s_top s) (s_j s)))
    (fun s' => SI s' l /\ s_idx s' = s_idx s /\ s_mk s' = s_mk s).
Proof.
  set (s1 := at_px s lw (wt (s_j s))). intros I. pose proof (z_j _ _ I) as Ej. cbn in Ej.
  pose proof (z_seg _ _ I) as Sg. pose proof Sg as (G & Hpr & _ & Hsg). pose proof (g_rng _ _ _ G) as R. cbn in R.
  pose proof (z_stk _ _ I lo ltac:(cbn; lia)) as Rj. change (stk s1 lo) with (get (s_stk s) lo) in Rj. rewrite <- Ej in Rj.
  pose proof (z_llow _ _ I) as Ll. pose proof (z_lm _ _ I) as Lm. pose proof (z_lp _ _ I) as Lp. pose proof (z_lrr _ _ I) as Lrr. pose proof (z_lprev _ _ I) as Lpr.
  pose proof (z_lps _ _ I) as Lps. pose proof (idx_le _ _ I) as Hidx. pose proof (z_idx _ _ I) as Ei. pose proof (z_pt _ _ I) as Hpt.
  cbn in Ll, Lm, Lp, Lrr, Lpr, Lps, Hidx, Ei, Hpt. rewrite len_upd in Lps.
  assert (Eps : get (s_ps s1) (s_j s1) = wt (s_j s1)) by (cbn; apply get_upd_eq; lia).
  assert (Hback : forall s2, SI s2 l -> s_ps s2 = upd (s_ps s) (s_j s) (wt (s_j s)) -> s_stk s2 = s_stk s -> s_mk s2 = s_mk s -> SI (set_ps s2 (s_ps s)) l).
  { intros s2 I2 E1 E2 E3. apply SI_ps; auto.
    - intros x Hx. rewrite E1, E2. symmetry. apply get_upd_ne. intros E. pose proof (segs_in _ _ _ _ Hsg Hx) as Rx.
      assert (lo = x); [|lia]. apply (z_sinj _ _ I); [cbn; lia|cbn; lia|]. change (stk s lo = stk s x). rewrite <- Ej. exact E.
    - intros v Hv Hm. rewrite E1. symmetry. apply get_upd_ne. intros <-. rewrite E3 in Hm. pose proof (z_mks _ _ I lo ltac:(cbn; lia)) as H. cbn in H. rewrite <- Ej in H. lia. }
  unfold scc_finish. cbn [s_ptop s_p s_rr s_n s_ps s_mk s_prev s_stk s_low s_idx s_top s_j].
  apply sat_bind, sat_aget; [lia|]. apply sat_bind, sat_aget; [lia|].
  destruct (Z.eqb_spec (get lw (s_j s)) (get (s_mk s) (s_j s))) as [Er|Er].
  - (* a root *)
    apply sat_bind, sat_bind.
    eapply sat_mono; [apply (emit_spec (Z.to_nat (n + 1)) s1 lo l I); cbn; lia|].
    intros [[[top ptop] p] lw2] (-> & -> & L1 & L2 & H1 & H2 & H3 & H4). cbn [s1 at_px s_ptop s_p s_rr s_n s_ps s_mk s_prev s_stk s_low s_idx s_top s_j] in H1, H2, H3, H4 |- *.
    pose proof (blocks_le _ _ _ _ (z_blk _ _ I)) as (Hnb & _). pose proof (k_nb _ _ _ _ (z_blk _ _ I)) as Hnb0. cbn in Hnb, Hnb0.
    apply sat_bind, sat_aset; [lia|]. apply sat_bind, sat_aset; [lia|]. apply sat_bind, sat_aset; [lia|]. unfold sat at 1. cbv beta iota. cbn [s_ptop s_p s_rr s_n s_ps s_mk s_prev s_stk s_low s_idx s_top s_j].
    set (p3 := upd p _ _). set (lw3 := upd lw2 _ _). set (rr3 := upd (s_rr s) _ _). set (pt3 := s_ptop s + (s_top s - lo) + 1) in *.
    destruct (SI_root s1 lo l p3 lw3 rr3 pt3 I Eps) as (Epr & I2); auto; cbn [s1 at_px s_ptop s_p s_rr s_n s_ps s_mk s_prev s_stk s_low s_idx s_top s_j].
    + unfold p3. now len.
    + unfold lw3. now len.
    + unfold rr3. now len.
    + intros a Ha. unfold p3. rewrite get_upd_ne by lia. auto.
    + intros d Hd. unfold p3. rewrite get_upd_in by lia. destruct (Z.eqb_spec (s_ptop s + (s_top s - lo)) (s_ptop s + d)) as [E|E]; [rewrite Ej; f_equal; lia|]. apply H2. lia.
    + intros u Hu. unfold lw3. rewrite get_upd_in by lia. destruct (Z.eqb_spec (s_j s) (get (s_stk s) u)) as [E|E]; auto. apply H3. assert (u <> lo) by (intros ->; auto). lia.
    + intros v Hv. unfold lw3. rewrite get_upd_ne by (rewrite Ej; apply Hv; lia). apply H4. intros u Hu. apply Hv. lia.
    + unfold rr3. apply get_upd_eq. lia.
    + intros t Ht. unfold rr3. apply get_upd_ne. lia.
    + cbn [s1 at_px s_ptop s_p s_rr s_n s_ps s_mk s_prev s_stk s_low s_idx s_top s_j] in Epr, I2.
      apply sat_bind, sat_aget; [lia|]. rewrite Epr.
      pose proof (Hback _ I2 eq_refl eq_refl eq_refl) as I3. unfold set_ps in I3. cbn [s_ptop s_p s_rr s_n s_ps s_mk s_prev s_stk s_low s_idx s_top s_j] in I3.
      destruct l as [|lo' l'].
      * replace (0 <=? -1) with false by lia. wp. split; [exact I3|split; reflexivity].
      * pose proof (z_seg _ _ I3) as (G3 & _). pose proof (g_rng _ _ _ G3) as R3. cbn in R3. pose proof (z_stk _ _ I3 lo' ltac:(cbn; lia)) as Rs. cbn in Rs.
        destruct (z_low _ _ I3 lo' ltac:(cbn; lia)) as (Ls & _). pose proof (z_mks _ _ I3 lo' ltac:(cbn; lia)) as Ms. pose proof (idx_le _ _ I3) as Hx3. cbn in Ls, Ms, Hx3.
        assert (L3 : len lw3 = n) by (unfold lw3; now len).
        assert (Enj : get lw3 (s_j s) = n) by (unfold lw3; apply get_upd_eq; lia).
        replace (0 <=? get (s_stk s) lo') with true by lia. wp; try lia. rewrite Enj. rewrite Z.min_l by lia. rewrite upd_same. split; [exact I3|split; reflexivity].
  - (* not a root *)
    apply sat_bind. unfold sat at 1. cbv beta iota. cbn [s_ptop s_p s_rr s_n s_ps s_mk s_prev s_stk s_low s_idx s_top s_j].
    destruct (SI_pop s1 lo l I Eps Er) as (j' & Epr & Hj' & I2). cbn [s1 at_px s_ptop s_p s_rr s_n s_ps s_mk s_prev s_stk s_low s_idx s_top s_j] in Epr, I2.
    apply sat_bind, sat_aget; [lia|]. rewrite Epr. replace (0 <=? j') with true by lia. wp; try lia.
    pose proof (Hback _ I2 eq_refl eq_refl eq_refl) as I3. unfold set_ps in I3. cbn [s_ptop s_p s_rr s_n s_ps s_mk s_prev s_stk s_low s_idx s_top s_j] in I3.
    split; [exact I3|split; reflexivity].
Qed.

(* M: nodes that are marked *)
Definition DI (M : Z -> Prop) (s : scc) (k : Z) : Prop :=
  exists s' l, (s_j s < 0 /\ s' = s \/ 0 <= s_j s /\ scc_mark s = Ok s') /\ SI s' l /\ k = 2 * (n - s_idx s') + len l /\ forall x, M x -> 0 <= mk s' x.
Lemma SI_DI (M : Z -> Prop) s l : SI s l -> (forall x, M x -> 0 <= mk s x) -> DI M s (2 * (n - s_idx s) + len l).
Proof.
  intros I HM. exists s, l. split; [|auto]. pose proof (z_j _ _ I) as Ej. destruct l as [|lo l].
  - left. split; auto. lia.
  - right. pose proof (z_seg _ _ I) as (G & _). pose proof (g_rng _ _ _ G) as R. pose proof (z_stk _ _ I lo ltac:(lia)) as Rj. pose proof (z_mks _ _ I lo ltac:(lia)) as Mk.
    pose proof (z_lm _ _ I) as Lm. rewrite <- Ej in *. split; [lia|]. unfold scc_mark. rewrite aget_ok by lia. cbn [bind]. replace (_ <? 0) with false by lia. reflexivity.
Qed.
Lemma dfs_spec (M : Z -> Prop) s k : DI M s k -> 0 <= k < 2 * n + 1 -> sat (scc_dfs A s) (fun s' => SI s' [] /\ forall x, M x -> 0 <= mk s' x).
Proof.
  intros H Hk. unfold scc_dfs. apply (loop_ghost (DI M)) with (k := k); auto; [|lia].
  clear s k H Hk. intros s k (s' & l & Hs & I & -> & HM). pose proof (idx_le _ _ I) as Hidx.
  destruct Hs as [(Hj & ->)|(Hj & Em)].
  - replace (s_j s <? 0) with true by lia. wp. destruct l as [|lo l]; auto. exfalso. pose proof (z_j _ _ I) as Ej. cbv beta iota in Ej. pose proof (z_seg _ _ I) as (G & _). pose proof (g_rng _ _ _ G) as R.
    pose proof (z_stk _ _ I lo ltac:(lia)). lia.
  - replace (s_j s <? 0) with false by lia. rewrite Em. cbn [bind].
    assert (Ejj : s_j s' = s_j s).
    { unfold scc_mark in Em. destruct (aget (s_mk s) (s_j s)) as [v|]; [|discriminate]. cbn [bind] in Em. destruct (v <? 0); [|congruence].
      destruct (aset (s_low s) (s_j s) (s_idx s)); [|discriminate]. cbn [bind] in Em. destruct (aset (s_mk s) (s_j s) (s_idx s)); [|discriminate]. cbn [bind] in Em. injection Em as <-. reflexivity. }
    destruct l as [|lo l]. { exfalso. pose proof (z_j _ _ I) as Ej. cbv beta iota in Ej. lia. }
    apply sat_bind. eapply sat_mono; [apply (scan_spec s' lo l I)|]. intros [lw|s2].
    + intros I2. apply sat_bind. eapply sat_mono; [apply (finish_spec s' lw lo l I2)|]. intros s3 (I3 & E3 & Em3). wp.
      exists (2 * (n - s_idx s3) + len l). split; [apply SI_DI; auto; intros x Hx; rewrite Em3; auto|]. rewrite len_cons. pose proof (len_nonneg l). lia.
    + intros (H1 & s3 & E3 & I3 & Ei & Hmm). wp. exists (2 * (n - s_idx s3) + len (s_top s' + 1 :: lo :: l)). split.
      * exists s3, (s_top s' + 1 :: lo :: l). split; [now right|]. split; [auto|]. split; [auto|]. intros x Hx. apply Hmm. auto.
      * rewrite !len_cons. pose proof (len_nonneg l). pose proof (idx_le _ _ I3). lia.
Qed.

(* starting from a node that was not visited *)
Lemma SI_start s i : SI s [] -> 0 <= i < n -> mk s i < 0 ->
  exists k, DI (fun x => 0 <= mk s x \/ x = i) (Scc (s_ptop s) (s_p s) (s_rr s) (s_n s) (s_ps s) (s_mk s) (s_prev s) (upd (s_stk s) 0 i) (s_low s) (s_idx s) 0 i) k /\ 0 <= k < 2 * n + 1.
Proof.
  intros I Hi Hm. pose proof (idx_lt _ _ _ I Hi Hm) as Hidx. pose proof (z_idx _ _ I) as Ei. pose proof (z_pt _ _ I) as Hpt.
  pose proof (z_seg _ _ I) as Et. cbn in Et. assert (Etop : s_top s = -1) by lia. clear Et.
  pose proof (z_llow _ _ I) as Ll. pose proof (z_lm _ _ I) as Lm. pose proof (z_lstk _ _ I) as Ls.
  exists (2 * (n - (s_idx s + 1)) + len [0]). split.
  2:{ change (len [0]) with 1. lia. }
  set (s' := Scc (s_ptop s) (s_p s) (s_rr s) (s_n s) (s_ps s) (upd (s_mk s) i (s_idx s)) (s_prev s) (upd (s_stk s) 0 i) (upd (s_low s) i (s_idx s)) (s_idx s + 1) 0 i).
  exists s', [0]. split; [|split; [|split; [reflexivity|]]].
  3:{ cbn. intros x Hx. rewrite get_upd_in by lia. destruct (Z.eqb_spec i x); lia. }
  { right. split; [cbn; lia|]. unfold scc_mark. cbn [s_ptop s_p s_rr s_n s_ps s_mk s_prev s_stk s_low s_idx s_top s_j]. rewrite aget_ok by lia. cbn [bind]. replace (_ <? 0) with true by lia.
    rewrite !aset_ok by lia. reflexivity. }
  assert (E0 : stk s' 0 = i) by (apply get_upd_eq; lia).
  assert (Emn : mk s' i = s_idx s) by (apply get_upd_eq; lia). assert (Eln : low s' i = s_idx s) by (apply get_upd_eq; lia).
  assert (HO : forall a, 0 <= a < s_ptop s -> get (s_p s) a <> i) by (intros a Ha E; destruct (z_out _ _ I a Ha) as (_ & _ & G); rewrite E in G; lia).
  assert (Em : forall v, v <> i -> mk s' v = mk s v) by (intros; apply get_upd_ne; auto).
  destruct (z_new _ _ I i Hi Hm) as (N1 & N2).
  constructor; try keep I.
  - unfold s'. cbn [s_stk s_mk s_low]. rewrite len_upd. auto.
  - unfold s'. cbn [s_stk s_mk s_low]. rewrite len_upd. auto.
  - unfold s'. cbn [s_stk s_mk s_low]. rewrite len_upd. auto.
  - cbn. lia.
  - cbn. lia.
  - cbn [s' s_ptop s_p]. intros a Ha. destruct (z_out _ _ I a Ha) as (O1 & O2 & O3). split; auto. rewrite Em by auto. split; auto. change (low s' (get (s_p s) a) = n). unfold s'; cbn [s_low]. rewrite get_upd_ne; auto. intros E; apply (HO a); auto.
  - change (s_top s') with 0. intros u Hu. replace u with 0 by lia. now rewrite E0.
  - change (s_top s') with 0. intros; lia.
  - change (s_top s') with 0. change (s_p s') with (s_p s). intros a u Ha Hu. replace u with 0 by lia. rewrite E0. auto.
  - change (s_top s') with 0. intros v Hv Hmv. destruct (Z.eq_dec v i) as [->|Hne]; [right; exists 0; split; auto; lia|]. rewrite Em in Hmv by auto.
    destruct (z_mk _ _ I v Hv Hmv) as [|(u & Hu & _)]; [now left|lia].
  - change (s_top s') with 0. change (s_idx s') with (s_idx s + 1). intros u Hu. replace u with 0 by lia. rewrite E0, Emn. lia.
  - change (s_top s') with 0. intros; lia.
  - change (s_top s') with 0. intros u Hu. replace u with 0 by lia. rewrite E0, Emn, Eln. split; [lia|]. exists 0. rewrite E0. split; [lia|]. split; auto. apply reach_refl.
  - intros v Hv Hmv. destruct (Z.eq_dec v i) as [->|Hne]; [lia|]. rewrite Em in Hmv by auto. apply (z_new _ _ I v Hv Hmv).
  - change (s_top s') with 0. cbn [segs]. split; [|split; [|split]]; auto.
    + constructor.
      * lia.
      * intros; lia.
      * intros; lia.
      * rewrite E0. change (s_ps s') with (s_ps s). rewrite N1. pose proof (wf_row A HA i Hi). unfold wt. lia.
      * rewrite E0. change (s_ps s') with (s_ps s). rewrite N1. intros; lia.
      * intros u Hu. replace u with 0 by lia. apply reach_refl.
    + rewrite E0. exact N2.
  - rewrite E0. reflexivity.
Qed.

Lemma surj_le (f : Z -> Z) k n : 0 <= k -> (forall v, 0 <= v < n -> exists a, 0 <= a < k /\ f a = v) -> n <= k.
Proof.
  intros Hk H. pose proof (NoDup_incl_length (NoDup_zseq 0 n) (l' := map f (zseq 0 k))) as HL. rewrite map_length in HL.
  pose proof (len_zseq 0 k) as L1. pose proof (len_zseq 0 n) as L2. unfold len in L1, L2.
  assert (incl (zseq 0 n) (map f (zseq 0 k))); [|specialize (HL H0); lia].
  intros v Hv. apply In_zseq in Hv. destruct (H v Hv) as (a & Ha & <-). apply in_map. apply In_zseq. lia.
Qed.

Record scc_result (D : dm) : Prop := {
  sr_p : is_perm n (dm_p D);
  sr_q : dm_q D = dm_p D;
  sr_b : boundaries n (dm_nb D) (dm_r D);
  sr_c : len (dm_c D) = len (dm_r D) /\ forall t, 0 <= t <= dm_nb D -> get (dm_c D) t = get (dm_r D) t;
  sr_strong : forall t u a b, 0 <= t < dm_nb D -> 0 <= u < dm_nb D -> in_block (dm_r D) t a -> in_block (dm_r D) u b ->
    (strong A (get (dm_p D) a) (get (dm_p D) b) <-> t = u);
  sr_tri : forall t a b, 0 <= t < dm_nb D -> in_block (dm_r D) t a -> 0 <= b < n -> stored A (get (dm_p D) a) (get (dm_p D) b) -> get (dm_r D) t <= b
}.

Lemma blocks_result p rr nb r' p' : blocks nb n rr p -> (forall a, 0 <= a < n -> 0 <= get p a < n) -> (forall a b, 0 <= a < n -> 0 <= b < n -> get p a = get p b -> a = b) ->
  (forall a, 0 <= a < n -> get p' a = get p (n - 1 - a)) -> (forall t, 0 <= t <= nb -> get r' t = n - get rr (nb - t)) ->
  (forall t u a b, 0 <= t < nb -> 0 <= u < nb -> in_block r' t a -> in_block r' u b -> (strong A (get p' a) (get p' b) <-> t = u)) /\
  (forall t a b, 0 <= t < nb -> in_block r' t a -> 0 <= b < n -> stored A (get p' a) (get p' b) -> get r' t <= b).
Proof.
  intros K Hp Hi Ep Er. pose proof (blocks_le _ _ _ _ K) as (K0 & Kle). destruct K as [K1 K2 K3 K4 K5 K6].
  assert (Kmono : forall t u, 0 <= t -> t <= u -> u <= nb -> get rr t <= get rr u).
  { intros t u Ht Htu Hu. revert Hu. pattern u. apply (range_ind _ t u); try lia. intros k Hk IH Hu. pose proof (K4 k ltac:(lia)). specialize (IH ltac:(lia)). lia. }
  assert (Hb : forall t a, 0 <= t < nb -> in_block r' t a -> in_block rr (nb - 1 - t) (n - 1 - a) /\ 0 <= a < n).
  { intros t a Ht Ha. unfold in_block in *. rewrite !Er in Ha by lia. pose proof (Kle (nb - t) ltac:(lia)). pose proof (Kle (nb - (t + 1)) ltac:(lia)).
    replace (nb - 1 - t + 1) with (nb - t) by lia. replace (nb - 1 - t) with (nb - (t + 1)) by lia. lia. }
  assert (Hclo : forall t a y, 0 <= t < nb -> in_block rr t a -> reach (get p a) y -> exists b, 0 <= b < get rr (t + 1) /\ get p b = y).
  { intros t a y Ht Ha Hr. remember (get p a) as x eqn:Ex. revert Ex. induction Hr as [x|x y z H IH Hst]; intros Ex; subst x.
    - exists a. unfold in_block in Ha. pose proof (Kle t ltac:(lia)). split; auto. lia.
    - destruct (IH eq_refl) as (b & Hb1 & <-).
      (* the block of b *)
      assert (Hblk : exists u, 0 <= u <= t /\ in_block rr u b).
      { assert (Hd : forall k, 0 <= k <= t + 1 -> b < get rr k -> exists u, 0 <= u < k /\ in_block rr u b).
        { intros k Hk. pattern k. apply (range_ind _ 0 (t + 1)); try lia. intros l Hl IHl Hlt. destruct (Z_lt_ge_dec b (get rr l)) as [Hc|Hc].
          - destruct (IHl Hc) as (u & Hu & Hbu). exists u. split; auto. lia.
          - exists l. split; [lia|]. unfold in_block. lia. }
        destruct (Hd (t + 1) ltac:(lia) ltac:(lia)) as (u & Hu & Hbu). exists u. split; auto. lia. }
      destruct Hblk as (u & Hu & Hbu). destruct (K6 u b z ltac:(lia) Hbu Hst) as (c & Hc & E). exists c. split; auto. pose proof (Kmono (u + 1) (t + 1)). lia. }
  assert (Hle : forall t u a b, 0 <= t < nb -> 0 <= u < nb -> in_block rr t a -> in_block rr u b -> reach (get p a) (get p b) -> u <= t).
  { intros t u a b Ht Hu Ha Hb' Hr. destruct (Hclo t a _ Ht Ha Hr) as (c & Hc & E). unfold in_block in *.
    pose proof (Kle (t + 1) ltac:(lia)). pose proof (Kle (u + 1) ltac:(lia)). pose proof (Kle u ltac:(lia)).
    apply Hi in E; try lia. subst c. destruct (Z_le_gt_dec u t); auto. pose proof (Kmono (t + 1) u). lia. }
  split.
  - intros t u a b Ht Hu Ha Hb'. destruct (Hb t a Ht Ha) as (Ba & Ra). destruct (Hb u b Hu Hb') as (Bb & Rb). rewrite !Ep by auto. split.
    + intros (H1 & H2). apply (Hle (nb - 1 - t) (nb - 1 - u)) in H1; auto; try lia. apply (Hle (nb - 1 - u) (nb - 1 - t)) in H2; auto; lia.
    + intros <-. split; apply (K5 (nb - 1 - t)); auto; lia.
  - intros t a b Ht Ha Rb Hst. destruct (Hb t a Ht Ha) as (Ba & Ra). rewrite !Ep in Hst by auto.
    destruct (K6 (nb - 1 - t) (n - 1 - a) _ ltac:(lia) Ba Hst) as (c & Hc & E). pose proof (Kle (nb - 1 - t + 1) ltac:(lia)). apply Hi in E; try lia. subst c.
    rewrite Er by lia. replace (nb - t) with (nb - 1 - t + 1) by lia. lia.
Qed.

Theorem scc_spec g : sat (strongly_connected_components g A) scc_result.
Proof.
  unfold strongly_connected_components. pose proof (wf_n A HA) as Hn.
  apply sat_bind, sat_assert; [lia|]. apply sat_bind.
  apply (for_spec (fun k '(m, pr, ps) => len m = n /\ len pr = n /\ len ps = n /\ forall i, 0 <= i < k -> get m i = -1 /\ get pr i = -1 /\ get ps i = 0)); auto.
  { rewrite !len_malloc. do 3 (split; [lia|]). lia. }
  { intros i [[m pr] ps] Hi (J1 & J2 & J3 & J4). wp; try lia. rewrite !len_upd. do 3 (split; [auto|]).
    intros k Hk. rewrite !get_upd_in by lia. destruct (Z.eqb_spec i k); auto. apply J4. lia. }
  intros [[m pr] ps] (L1 & L2 & L3 & H0). cbn [dm_alloc dm_r dm_p dm_q dm_c dm_rr dm_cc]. apply sat_bind, sat_aset; [rewrite len_malloc; lia|].
  apply sat_bind. apply (for_spec (fun i s => SI s [] /\ forall x, 0 <= x < i -> 0 <= mk s x)); auto.
  { split; [|lia]. constructor; cbn [s_ptop s_p s_rr s_n s_ps s_mk s_prev s_stk s_low s_idx s_top s_j]; try rewrite ?len_upd, ?len_malloc; auto; try lia.
    - intros v Hv. destruct (H0 v Hv) as (-> & _). lia.
    - intros v Hv _. destruct (H0 v Hv) as (_ & -> & ->). auto.
    - assert (E0 : get (upd (malloc (g 2) (n + 6)) 0 0) 0 = 0) by (apply get_upd_eq; rewrite len_malloc; lia). constructor; auto; try lia.
    - cbn. lia. }
  { intros i s Hi (I & Hm). pose proof (z_lm _ _ I) as Lm. pose proof (z_lstk _ _ I) as Ls. wp; try lia.
    - split; auto. intros x Hx. destruct (Z.eq_dec x i) as [->|]; [lia|]. apply Hm. lia.
    - destruct (SI_start s i I Hi ltac:(lia)) as (k & HD & Hk).
      eapply sat_mono; [apply (dfs_spec _ _ k HD Hk)|]. intros s' (I' & Hm').
      split; auto. intros x Hx. apply Hm'. destruct (Z.eq_dec x i) as [->|]; [now right|left; apply Hm; lia]. }
  intros s (I & Hall). pose proof (z_seg _ _ I) as Et. cbn in Et. pose proof (z_idx _ _ I) as Ei. pose proof (idx_le _ _ I) as Hle. pose proof (z_pt _ _ I) as Hpt.
  pose proof (z_lp _ _ I) as Lp. pose proof (z_lrr _ _ I) as Lrr. pose proof (z_blk _ _ I) as K.
  assert (Ept : s_ptop s = n).
  { assert (Hsur : forall v, 0 <= v < n -> exists a, 0 <= a < s_ptop s /\ get (s_p s) a = v).
    { intros v Hv. destruct (z_mk _ _ I v Hv (Hall v Hv)) as [(a & Ha & E)|(u & Hu & _)]; [eauto|lia]. }
    enough (n <= s_ptop s) by lia.
    apply (surj_le (get (s_p s)) (s_ptop s) n); auto. }
  apply sat_bind, sat_assert; [lia|]. rewrite Ept in *. pose proof (blocks_le _ _ _ _ K) as (Kn & Kle). pose proof (k_nb _ _ _ _ K) as Kn0. pose proof (k_inc _ _ _ _ K) as Km. pose proof (k_0 _ _ _ _ K) as K0. pose proof (k_n _ _ _ _ K) as Ke.
  apply sat_bind. apply (for_spec (fun k q => len q = n /\ forall a, 0 <= a < k -> get q a = get (s_p s) (n - 1 - a))); auto.
  { rewrite len_malloc. split; lia. }
  { intros i q Hi (J1 & J2). wp; try lia. rewrite len_upd. split; auto. intros a Ha. rewrite get_upd_in by lia. destruct (Z.eqb_spec i a) as [->|]; auto. apply J2. lia. }
  intros q (Lq & Hq). apply sat_bind.
  apply (for_spec (fun k p => len p = n /\ forall a, 0 <= a < k -> get p a = get q a)); auto.
  { split; auto. lia. }
  { intros i p Hi (J1 & J2). wp; try lia. rewrite len_upd. split; auto. intros a Ha. rewrite get_upd_in by lia. destruct (Z.eqb_spec i a) as [->|]; auto. apply J2. lia. }
  intros p (Lp' & Hp). apply sat_bind.
  apply (for_spec (fun k c => len c = n + 6 /\ forall t, 0 <= t < k -> get c t = n - get (s_rr s) (s_n s - t))); try lia.
  { rewrite len_malloc. split; lia. }
  { intros i c Hi (J1 & J2). wp; try lia. rewrite len_upd. split; auto. intros a Ha. rewrite get_upd_in by lia. destruct (Z.eqb_spec i a) as [->|]; auto. apply J2. lia. }
  intros c (Lc & Hc). apply sat_bind.
  apply (for_spec (fun k r => len r = n + 6 /\ forall t, 0 <= t < k -> get r t = get c t)); try lia.
  { split; auto. lia. }
  { intros i r Hi (J1 & J2). wp; try lia. rewrite len_upd. split; auto. intros a Ha. rewrite get_upd_in by lia. destruct (Z.eqb_spec i a) as [->|]; auto. apply J2. lia. }
  intros r (Lr & Hr). wp.
  assert (Hr' : forall t, 0 <= t <= s_n s -> get r t = n - get (s_rr s) (s_n s - t)) by (intros t Ht; rewrite Hr by lia; apply Hc; lia).
  assert (Hp' : forall a, 0 <= a < n -> get p a = get (s_p s) (n - 1 - a)) by (intros a Ha; rewrite Hp by lia; apply Hq; lia).
  destruct (blocks_result _ _ _ r p K (fun a Ha => proj1 (z_out _ _ I a ltac:(lia)))) as (B1 & B2); auto.
  { intros a b Ha Hb. apply (z_oinj _ _ I); lia. }
  constructor; cbn [dm_p dm_q dm_r dm_c dm_nb]; auto.
  - split; auto. split.
    + intros a Ha. rewrite Hp' by auto. apply (z_out _ _ I). lia.
    + intros a b Ha Hb E. rewrite !Hp' in E by auto. apply (z_oinj _ _ I) in E; lia.
  - apply list_ext; [lia|]. intros k Hk. symmetry. apply Hp. lia.
  - unfold boundaries. split; [auto|]. split; [lia|]. split; [rewrite Hr' by lia; rewrite Z.sub_0_r; lia|]. split; [rewrite Hr' by lia; rewrite Z.sub_diag; lia|].
    intros t Ht. rewrite !Hr' by lia. pose proof (Km (s_n s - (t + 1)) ltac:(lia)) as H. replace (s_n s - (t + 1) + 1) with (s_n s - t) in H by lia. lia.
  - split; [lia|]. intros t Ht. symmetry. apply Hr. lia.
Qed.
End scc.

Theorem scc_correct g A : wf A -> cm A = cn A ->
  sat (strongly_connected_components g A) (fun D => is_perm (cn A) (dm_p D) /\ dm_q D = dm_p D /\
    boundaries (cn A) (dm_nb D) (dm_r D) /\ (forall t, 0 <= t <= dm_nb D -> get (dm_c D) t = get (dm_r D) t) /\
    (forall t u a b, 0 <= t < dm_nb D -> 0 <= u < dm_nb D -> in_block (dm_r D) t a -> in_block (dm_r D) u b ->
      (strong A (get (dm_p D) a) (get (dm_p D) b) <-> t = u)) /\
    (forall t u a b, 0 <= t < dm_nb D -> 0 <= u < dm_nb D -> in_block (dm_r D) t a -> in_block (dm_r D) u b ->
      stored A (get (dm_p D) a) (get (dm_p D) b) -> t <= u)).
Proof.
  intros HA Hsq. eapply sat_mono; [apply (scc_spec A HA Hsq)|]. intros D [R1 R2 R3 R4 R5 R6].
  do 3 (split; [auto|]). split; [apply R4|]. split; auto. intros t u a b Ht Hu Ha Hb Hst.
  destruct R3 as (B1 & B2 & B3 & B4 & B5).
  assert (Hmono : forall v w, 0 <= v -> v <= w -> w <= dm_nb D -> get (dm_r D) v <= get (dm_r D) w).
  { intros v w Hv Hvw Hw. revert Hw. pattern w. apply (range_ind _ v w); try lia. intros k Hk IH Hw. pose proof (B5 k ltac:(lia)). specialize (IH ltac:(lia)). lia. }
  unfold in_block in *. pose proof (Hmono 0 u) as M1. pose proof (Hmono (u + 1) (dm_nb D)) as M2.
  pose proof (R6 t a b Ht Ha ltac:(lia) Hst). destruct (Z_le_gt_dec t u); auto. pose proof (Hmono (u + 1) t). lia.
Qed.
