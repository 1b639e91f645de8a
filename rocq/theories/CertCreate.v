(** Honest certificates are accepted. *)
From Verif Require Import Base BaseFacts Spec SpecFacts Zp ZpFacts Mat MatFacts RowList VecProofs TriProofs LinAlg Solve SolveProofs Counting
  SpecSha ShaHash SpecPrng Prng PrngProofs PrngDraw DenseProofs4 Cert CertProofs.

(* lia is slow when there are many quantified hypotheses *)
Ltac flia := repeat match goal with H : forall _ : _, _ |- _ => clear H end; lia.

Section create.
Context (p : Z) (Hp : ok_modulus p) (Hprime : Znumtheory.prime p) (A : csr) (HA : wf A) (HAp : cprime A = p) (HAx : cx A <> None).
Context (hash : list Z) (Hs : len hash = 32 /\ bytes hash) (b : Z) (Hb : mask_bits p b) (fuel : nat).
Context (f : lu) (L : csr) (F : factors p A f L).
Local Notation pos := (pos hash p 0 b fuel).
Local Notation al := (al hash p 0 b fuel).
Local Notation good := (good hash p 0 b fuel).
Local Notation n := (cn A). Local Notation m := (cm A). Local Notation r := (cn (lu_U f)).

Lemma balanced_bot v : balanced p v -> v <> BOT.
Proof. unfold balanced, BOT, ok_modulus in *. intros H ->. assert (p / 2 <= 2147483645) by (apply Z.div_le_upper_bound; lia). lia. Qed.
Lemma putf_bot v ii i : 0 <= r -> (forall k, 0 <= k < r -> get v k <> BOT) -> (forall k k', 0 <= k < k' -> k' < r -> get ii k <> get ii k') ->
  (putf r ii v (fun _ => BOT) i = BOT <-> forall k, 0 <= k < r -> get ii k <> i).
Proof.
  intros Hr Hv Hd. split; [|intros; now apply putf_out]. intros E k Hk <-. rewrite putf_in in E; auto; [now apply (Hv k)|].
  intros k' Hk' E'. apply (Hd k k'); auto; lia.
Qed.
Lemma in_dec_z (ii : list Z) i : (forall k, 0 <= k < r -> get ii k <> i) \/ exists k, 0 <= k < r /\ get ii k = i.
Proof.
  destruct (in_dec Z.eq_dec i (map (get ii) (zseq 0 r))) as [H|H].
  - right. apply in_map_iff in H as (k & E & Hk). apply In_zseq in Hk. eauto.
  - left. intros k Hk E. apply H, in_map_iff. exists k. rewrite In_zseq. auto.
Qed.

Theorem create_ok gs : outs (rank_create gs fuel A hash f) (fun c =>
    c_r c = r /\ cert_wf c /\ c_hash c = hash /\ c_prime c = p /\ ranges A c /\ (forall k, 0 <= k < needed A c -> good k) /\
    (forall k, 0 <= k < c_r c -> cong p (xA A (vx c) (get (c_j c) k)) (al k)) /\
    (forall j, 0 <= j < m -> cong p (xA A (vy p hash b fuel c) j) 0)) prng_err.
Proof.
  pose proof Hp as Hp'. unfold ok_modulus in Hp'. pose proof (wf_n A HA) as Hn. pose proof (wf_m A HA) as Hm.
  pose proof (fa_wfU _ _ _ _ F) as HU. pose proof (wf_n _ HU) as Hr. pose proof (fa_m _ _ _ _ F) as Em. pose proof (fa_n _ _ _ _ F) as En. pose proof (fa_r _ _ _ _ F) as Er.
  pose proof (fa_lower _ _ _ _ F) as Lo. pose proof (lo_len _ _ _ Lo) as LP. rewrite Er in LP. destruct Hs as [Ls Bs].
  assert (HP : forall k, 0 <= k < r -> 0 <= get (lu_p f) k < n) by (intros; rewrite <- En; apply (lo_rng _ _ _ Lo); flia).
  assert (HD : forall k k', 0 <= k < k' -> k' < r -> get (lu_p f) k <> get (lu_p f) k').
  { intros k k' Hk Hk' E. apply (lo_diag _ _ _ Lo k'); [flia|]. rewrite <- E. apply (lo_tri _ _ _ Lo); flia. }
  unfold rank_create. rewrite (fa_L _ _ _ _ F). cbn [assert_ bind deref]. rewrite HAp, Em, En.
  apply outs_bind, sat_outs. apply (for_spec (fun t h => len h = 32 /\ forall i, 0 <= i < t -> get h i = get hash i)).
  { flia. } { split; [apply len_malloc; flia|flia]. }
  { intros t h Ht (Lh & Eh). wp; try flia. len. split; [auto|]. intros i Hi. rewrite get_upd_in by flia. destruct (Z.eqb_spec t i); [congruence|apply Eh; flia]. }
  intros h (Lh & Eh). assert (h = hash) by (apply list_ext; [flia|intros; apply Eh; flia]). subst h. clear Eh Lh.
  apply outs_bind, sat_outs. eapply sat_mono; [apply cert_i_ok; rewrite ?len_malloc; flia|]. intros ii (Li & Ei). rewrite len_malloc, Z.max_r in Li by flia.
  apply outs_bind, sat_outs. rewrite <- Em at 1. eapply sat_mono; [apply (cert_j_ok p); [auto|apply (fa_upper _ _ _ _ F)|rewrite len_malloc; flia]|].
  intros [jj k0] (_ & Lj & Hj & Mj). rewrite len_malloc, Z.max_r in Lj by flia. rewrite Em in Hj.
  apply outs_bind, sat_outs. eapply sat_mono; [apply (seed_ok hash p 0 b); auto|]. intros ctx A0.
  apply outs_bind, sat_outs. eapply sat_mono; [apply set_all_ok; rewrite len_malloc; flia|]. intros y0 (L0 & Z0). rewrite len_malloc, Z.max_r in L0 by flia.
  apply outs_bind. eapply outs_mono.
  { apply (challenge_ok hash p b (conj Ls Bs) Hb fuel _ r jj y0 ctx); [flia| | |exact A0].
    - intros t Ht. destruct (Hj t Ht). flia.
    - intros t t' Ht Ht'. specialize (Mj t t' Ht Ht'). flia. }
  intros [y1 ctx1] (L1 & A1 & G1 & E1 & E2).
  assert (By1 : forall j, 0 <= j < m -> balanced p (get y1 j)).
  { intros j Hj'. destruct (in_dec_z jj j) as [H|(k & Hk & <-)]; [|rewrite E1 by auto; now apply al_balanced]. rewrite E2, Z0 by auto. apply balanced_0. flia. }
  apply outs_bind, sat_outs. eapply sat_mono; [apply (solve_full p Hp Hprime A f L F); rewrite ?len_malloc; try flia; auto|].
  intros [ok1 x1] (Lx1 & Bx1 & Sx1 & Px1 & _). rewrite len_malloc, Z.max_r in Lx1 by flia.
  assert (Ri : forall k, 0 <= k < r -> 0 <= get ii k < n) by (intros k Hk; rewrite Ei by auto; auto).
  assert (Di : forall k k', 0 <= k < k' -> k' < r -> get ii k <> get ii k') by (intros k k' Hk Hk'; rewrite !Ei by flia; auto).
  apply outs_bind, sat_outs. eapply sat_mono; [apply get_at_ok; rewrite ?len_malloc; try flia; intros; rewrite Lx1; auto|]. intros xx (Lxx & Exx). rewrite len_malloc, Z.max_r in Lxx by flia.
  apply outs_bind, sat_outs. eapply sat_mono; [apply (set_all_ok n BOT x1); flia|]. intros x2 (Lx2 & Z2).
  apply outs_bind, sat_outs. eapply sat_mono; [apply put_at_ok; try (rewrite len_fill); try flia; intros k Hk; specialize (Ri k Hk); flia|]. intros x3 (Lx3 & E3).
  assert (exists z3, z3 = putf r ii (fill r 0) (fun _ => BOT)) as (z3 & Dz3) by eauto.
  assert (V3 : forall i, 0 <= i < n -> get x3 i = z3 i) by (intros i Hi; rewrite E3, Dz3; apply putf_ext; auto).
  assert (Hz : forall i, z3 i = BOT <-> forall k, 0 <= k < r -> get ii k <> i).
  { intros i. rewrite Dz3. apply putf_bot; auto. intros k Hk. rewrite get_fill0. unfold BOT. flia. }
  assert (Bn : forall i, 0 <= i <= n -> bots (get x3) i = bots z3 i) by (intros i Hi; apply (bots_ext _ _ n); auto; intros t Ht; now rewrite V3).
  apply outs_bind. eapply outs_imp; [apply (fill_bot_gen hash p b (conj Ls Bs) Hb fuel _ Z.opp n x3 ctx1 r); auto; flia| |intros e (He & _); exact He].
  intros [x4 ctx2] (Lx4 & _ & G2 & E4). rewrite Bn in G2 by flia.
  assert (E4' : forall i, 0 <= i < n -> get x4 i = if z3 i =? BOT then - al (r + bots z3 i) else z3 i) by (intros i Hi; rewrite E4, V3, Bn by flia; reflexivity).
  clear E4. pose proof (spmv_0 p Hp A HA HAp HAx b x4 y1 ltac:(flia) ltac:(flia)) as S2.
  apply outs_bind, sat_outs. eapply sat_mono; [exact (sat_bind_inv _ _ _ S2)|]. clear S2. intros y2 S2.
  apply outs_bind, sat_outs. eapply sat_mono; [exact S2|]. clear S2. intros y3 (Ly3 & Hy3).
  apply outs_bind, sat_outs. eapply sat_mono; [apply (solve_full p Hp Hprime A f L F); rewrite ?len_malloc; try flia; intros j Hj'; now apply Hy3|].
  intros [ok2 x5] (Lx5 & Bx5 & Sx5 & _ & K5 & K6).
  assert (ok2 = true). { apply K5. exists (get x4). intros j Hj'. symmetry. now apply Hy3. }
  specialize (K6 H). clear K5.
  apply outs_bind, sat_outs. eapply sat_mono; [apply get_at_ok; rewrite ?len_malloc; try flia; intros k Hk; specialize (Ri k Hk); flia|]. intros yy (Lyy & Eyy). rewrite len_malloc, Z.max_r in Lyy by flia.
  cbn [outs]. unfold needed. cbn [c_r c_hash c_prime c_i c_j]. split; [auto|]. split; [constructor; cbn; flia|]. do 2 (split; [auto|]). split.
  { intros k Hk. cbn in *. split; [auto|]. apply Hj. auto. }
  set (c := Cert r p hash ii jj xx yy).
  assert (Vx : forall i, 0 <= i < n -> vx c i = get x1 i).
  { intros i Hi. unfold vx. cbn. destruct (in_dec_z ii i) as [Hout|(k & Hk & <-)].
    - rewrite putf_out by auto. symmetry. apply Sx1; auto. intros k Hk. rewrite <- Ei by auto. auto.
    - rewrite putf_in; auto. intros k' Hk' E. apply (Di k k'); auto; flia. }
  assert (Hvy0 : forall i, vy0 c i = BOT <-> z3 i = BOT).
  { intros i. rewrite Hz. unfold vy0. cbn. apply putf_bot; auto. intros k Hk. rewrite Eyy by auto. apply balanced_bot, Bx5, Ri, Hk. }
  assert (Hbots : forall i, bots (vy0 c) i = bots z3 i).
  { intros i. apply sum_ext. intros t Ht. f_equal. destruct (Z.eqb_spec (vy0 c t) BOT) as [C|C], (Z.eqb_spec (z3 t) BOT) as [D|D]; auto; apply Hvy0 in D + apply Hvy0 in C; congruence. }
  split. { intros k Hk. rewrite Hbots in Hk. destruct (Z_lt_le_dec k r); [apply G1; flia|apply G2; flia]. }
  split.
  - intros k Hk. destruct (Hj k Hk) as [Rj Qj]. rewrite <- E1, <- (Px1 _ Rj Qj) by auto. apply cong_eq. apply sum_ext. intros i Hi. now rewrite Vx.
  - intros j Hj'. assert (Vy : forall i, 0 <= i < n -> vy p hash b fuel c i = get x5 i - get x4 i).
    { intros i Hi. unfold vy. rewrite E4', Hbots by auto. cbn [c_r c]. destruct (Z.eqb_spec (z3 i) BOT) as [C|C].
      - replace (vy0 c i =? BOT) with true by (symmetry; apply Z.eqb_eq, Hvy0, C). rewrite Sx5; [ring|auto|].
        intros k Hk. rewrite <- Ei by auto. apply Hz; auto.
      - destruct (Z.eqb_spec (vy0 c i) BOT) as [D|D]; [apply Hvy0 in D; congruence|].
        destruct (in_dec_z ii i) as [Hout|(k & Hk & <-)]; [apply Hz in Hout; congruence|].
        assert (Last : forall k', k < k' < r -> get ii k' <> get ii k) by (intros k' Hk' E; apply (Di k k'); auto; flia).
        rewrite Dz3. unfold vy0. cbn. rewrite !putf_in by auto. rewrite get_fill0, Eyy by auto. ring. }
    unfold xA. rewrite (sum_ext 0 n _ (fun i => get x5 i * entry A i j - get x4 i * entry A i j)) by (intros i Hi; rewrite Vy by auto; ring).
    rewrite sum_sub. fold (xA A (get x5) j) (xA A (get x4) j). destruct (Hy3 j Hj') as [C3 _]. rewrite (K6 j Hj'), C3. apply cong_eq. ring.
Qed.

Theorem complete gs gs' : outs (rank_create gs fuel A hash f) (fun c => c_r c = r /\ c_hash c = hash /\ c_prime c = p /\ rank_verify gs' fuel A hash c = Ok true) prng_err.
Proof.
  eapply outs_mono; [apply create_ok|]. intros c (Ec & W & H1 & H2 & H3 & H4 & H5 & H6). split; [exact Ec|]. split; [exact H1|]. split; [exact H2|].
  pose proof (verify_gen p Hp A HA HAp HAx hash Hs b Hb fuel gs' c W) as V. destruct (rank_verify gs' fuel A hash c) as [ok|e]; cbn [outs] in V.
  - f_equal. apply V. do 5 (split; [auto|]). auto.
  - destruct V as (_ & k & Hk & Gk). exfalso. apply Gk, H4, Hk.
Qed.
End create.
