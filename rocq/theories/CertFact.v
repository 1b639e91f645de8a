(** Forged certificates; spasm_factorization_verify. *)
From Coq Require Import Znumtheory.
From Verif Require Import Base BaseFacts Spec SpecFacts Zp ZpFacts Mat MatFacts RowList VecProofs TriProofs LinAlg Solve SolveProofs SpecRank Rank Counting
  SpecSha ShaHash SpecPrng Prng PrngProofs PrngDraw DenseProofs4 SpecCert Cert CertProofs CertCreate CertSound.

(** ** Forgeries *)
Lemma choose_list r (P : Z -> Z -> Prop) : 0 <= r -> (forall k, 0 <= k < r -> exists j, P k j) -> exists l, len l = r /\ forall k, 0 <= k < r -> P k (get l k).
Proof.
  intros Hr H. assert (G : forall t, 0 <= t <= r -> exists l, len l = t /\ forall k, 0 <= k < t -> P k (get l k)).
  { apply (range_ind (fun t => exists l, len l = t /\ forall k, 0 <= k < t -> P k (get l k)) 0 r).
    - exists []. split; [reflexivity|lia].
    - intros t Ht (l & L & Hl). destruct (H t Ht) as (j & Hj). exists (l ++ [j]). rewrite len_app, L. split; [reflexivity|]. intros k Hk.
      destruct (Z.eq_dec k t) as [->|].
      + rewrite get_app_r by lia. replace (t - len l) with 0 by lia. exact Hj.
      + rewrite get_app_l by lia. apply Hl. lia. }
  apply G. lia.
Qed.
(* a row that holds all the residues: the columns can be chosen after the challenge *)
Theorem forgery p A : ok_modulus p -> wf A -> cprime A = p -> cx A <> None -> cn A = 1 -> (forall v, exists j, 0 <= j < cm A /\ cong p (entry A 0 j) v) ->
  forall hash fuel r, len hash = 32 -> bytes hash -> 1 <= r ->
  exists c, cert_wf c /\ c_r c = r /\ forall gs, outs (rank_verify gs fuel A hash c) (fun ok => ok = true) prng_err.
Proof.
  intros Hp HA HAp HAx Hn Hv hash fuel r Lh Bh Hr. destruct (mask_bits_exists p) as [b Hb]; [unfold ok_modulus in Hp; lia|].
  destruct (choose_list r (fun k j => 0 <= j < cm A /\ cong p (entry A 0 j) (al hash p 0 b fuel k))) as (jj & Lj & Hj); [lia|intros; apply Hv|].
  set (c := Cert r p hash (fill r 0) jj (fill r 1) (fill r 0)).
  assert (W : cert_wf c) by (constructor; cbn [c_r c_hash c_i c_j c_x c_y c]; rewrite ?len_fill; lia).
  assert (F : forall v d, putf r (fill r 0) (fill r v) d 0 = v).
  { intros v d. replace 0 with (get (fill r 0) (r - 1)) at 2 by (rewrite get_fill by lia; reflexivity). rewrite putf_in by lia. now rewrite get_fill by lia. }
  exists c. do 2 (split; [auto; reflexivity|]). intros gs.
  eapply outs_imp; [apply (verify_full p Hp A HA HAp HAx hash (conj Lh Bh) b Hb fuel gs c W)| |intros e [He _]; exact He].
  intros ok [G H].
  assert (R : ranges A c). { intros k Hk. cbn [c_r c] in Hk. cbn [c_i c_j c]. rewrite get_fill by lia. split; [lia|apply Hj; lia]. }
  specialize (G eq_refl eq_refl R). apply H. do 3 (split; [auto; reflexivity|]). split; [exact G|]. split.
  - intros k Hk. cbn [c_r c] in Hk. cbn [c_j c]. unfold xA. rewrite Hn. change (sum 0 1 ?f) with (f 0 + 0). cbv beta. unfold vx, c. cbn [c_r c_i c_x].
    rewrite F. destruct (Hj k ltac:(lia)) as [_ E]. rewrite E. apply cong_eq. ring.
  - intros j Hj'. unfold xA. rewrite Hn. change (sum 0 1 ?f) with (f 0 + 0). cbv beta. unfold vy, vy0, c. cbn [c_r c_i c_y]. rewrite F. apply cong_eq. cbn. ring.
Qed.

(** ** Verification of a factorization *)
Section fact.
Context (p : Z) (Hp : ok_modulus p) (A L : csr) (HA : wf A) (HAp : cprime A = p) (HAx : cx A <> None) (HL : wf L) (HLp : cprime L = p) (HLx : cx L <> None).
Context (f : lu) (HU : wf (lu_U f)) (HUp : cprime (lu_U f) = p) (HUx : cx (lu_U f) <> None).
Context (Ef : lu_L f = Some L) (Hn : cn L = cn A) (Hm : cm (lu_U f) = cm A) (Hr : cm L = cn (lu_U f)).
Context (Lp : cn (lu_U f) <= len (lu_p f)) (Rp : forall k, 0 <= k < cn (lu_U f) -> 0 <= get (lu_p f) k < cn A).
Local Notation U := (lu_U f).
Local Notation rows := (map (get (lu_p f)) (zseq 0 (cn U))).

Lemma xApy_0 M x y : wf M -> cprime M = p -> cx M <> None -> cn M <= len x -> cm M <= len y -> (forall j, 0 <= j < cm M -> get y j = 0) ->
  sat (xApy x M y) (fun z => len z = len y /\ forall j, 0 <= j < cm M -> cong p (get z j) (xA M (get x) j) /\ balanced p (get z j)).
Proof.
  intros HM Ep Hx Lx Ly Z0. unfold ok_modulus in Hp. eapply sat_mono. { apply (xApy_ok M HM); try lia; auto. }
  rewrite Ep. intros z (Lz & C & B & _). split; [lia|]. intros j Hj. split.
  - rewrite C, Z0 by auto. apply cong_eq. unfold xA. ring.
  - destruct (B j) as [E|]; [|auto]. rewrite E, Z0 by auto. apply balanced_0. lia.
Qed.

Lemma rows_in i : existsb (Z.eqb i) rows = true <-> exists k, 0 <= k < cn U /\ get (lu_p f) k = i.
Proof.
  rewrite existsb_exists. split.
  - intros (x & Hx & E). apply Z.eqb_eq in E. subst x. apply in_map_iff in Hx as (k & E & Hk). apply In_zseq in Hk. eauto.
  - intros (k & Hk & E). exists i. split; [|apply Z.eqb_refl]. apply in_map_iff. exists k. split; [auto|]. apply In_zseq. lia.
Qed.

Theorem fact_verify gs fuel sd : 0 <= sd < 2 ^ 64 ->
  outs (factorization_verify gs fuel A f sd) (fun ok => exists alpha, (forall i, 0 <= i < cn A -> is_draw (seed_bytes sd) p 0 i (alpha i)) /\
     (ok = true <-> forall j, 0 <= j < cm A -> cong p (xA A (on_rows rows alpha) j) (sum 0 (cn A) (fun i => on_rows rows alpha i * lu_entry L U i j)))) prng_err.
Proof.
  intros Hsd. pose proof (wf_n A HA) as Hn0. pose proof (wf_m A HA) as Hm0. pose proof (wf_n U HU) as Hr0. pose proof Hp as Hp'. unfold ok_modulus in Hp'.
  destruct (mask_bits_exists p) as [b Hb]; [lia|]. pose proof (simple_seed_ok sd) as Hs.
  unfold factorization_verify. rewrite Ef. cbn [assert_ bind deref].
  apply outs_bind, sat_outs. eapply sat_mono; [apply set_all_ok; rewrite len_malloc; lia|]. intros v0 (L0 & Z0). rewrite len_malloc in L0.
  apply outs_bind, sat_outs.
  apply (for_spec (fun t v => len v = cn A /\ forall i, 0 <= i < cn A -> (get v i = 0 <-> ~ exists k, 0 <= k < t /\ get (lu_p f) k = i))).
  { lia. }
  { split; [lia|]. intros i Hi. rewrite Z0 by lia. split; [intros _ (k & Hk & _); lia|auto]. }
  { intros k v Hk (Lv & Hv). pose proof (Rp k Hk). apply sat_bind, sat_aget; [lia|]. apply sat_bind, sat_assert; [lia|]. apply sat_aset; [lia|]. len. split; [auto|].
    intros i Hi. rewrite get_upd_in by lia. destruct (Z.eqb_spec (get (lu_p f) k) i) as [E|E].
    - split; [lia|]. intros H0. exfalso. apply H0. exists k. split; [lia|auto].
    - rewrite Hv by auto. split; intros H0 (t & Ht & Et); apply H0; exists t; (split; [|auto]); [|lia]. assert (t <> k) by congruence. lia. }
  intros v (Lv & Hv). rewrite HAp.
  apply outs_bind, sat_outs. eapply sat_mono; [apply (seed_simple_ok p 0 b sd); auto; unfold word; lia|]. intros ctx A0.
  apply outs_bind, sat_outs.
  apply (for_spec (fun t '(z, t') => len z = cm A /\ len t' = cm A /\ forall j, 0 <= j < t -> get z j = 0 /\ get t' j = 0)).
  { lia. }
  { rewrite !len_malloc. split; [lia|]. split; [lia|]. lia. }
  { intros j [z t'] Hj (Lz & Lt & HI). apply sat_bind, sat_aset; [lia|]. apply sat_bind, sat_aset; [lia|]. cbn [sat]. len. do 2 (split; [auto|]).
    intros t Ht. rewrite !get_upd_in by lia. destruct (j =? t) eqn:E; [auto|apply HI; lia]. }
  intros [z t'] (Lz & Lt & Hzt).
  apply outs_bind, sat_outs. eapply sat_mono; [apply set_all_ok; rewrite len_malloc; lia|]. intros y (Ly & Hy). rewrite len_malloc in Ly.
  set (al := al (simple_seed sd) p 0 b fuel).
  apply outs_bind.
  apply (outs_for (fun i '(x, ctx) => len x = cn A /\ at_ (simple_seed sd) p 0 b (pos (simple_seed sd) p 0 b fuel i) ctx /\
     (forall k, 0 <= k < i -> good (simple_seed sd) p 0 b fuel k) /\ forall k, 0 <= k < i -> get x k = on_rows rows al k)).
  { lia. }
  { rewrite len_malloc. split; [lia|]. split; [exact A0|]. split; lia. }
  { intros i [x c] Hi (Lx & Ac & G & Hx). apply outs_bind. eapply outs_imp; [apply (draw_al (simple_seed sd) p 0 b Hs Hb fuel _ i c ltac:(lia) Ac)| |intros e [_ He]; exact He].
    intros [w c'] (Gi & -> & Ac'). rewrite aget_ok by lia. cbn [bind]. rewrite aset_ok by lia. cbn [bind outs]. len. do 2 (split; [auto|]). split.
    - intros k Hk. destruct (Z.eq_dec k i) as [->|]; [auto|apply G; lia].
    - intros k Hk. rewrite get_upd_in by lia. destruct (Z.eqb_spec i k) as [<-|]; [|apply Hx; lia]. unfold on_rows. pose proof (rows_in i) as RI. pose proof (Hv i Hi) as Vi.
      destruct (existsb (Z.eqb i) rows), (Z.eqb_spec (get v i) 0) as [E|E]; try reflexivity; exfalso.
      + apply (proj1 Vi E), RI. reflexivity.
      + apply E, Vi. intros H0. apply RI in H0. discriminate. }
  intros [x c] (Lx & _ & G & Hx).
  apply outs_bind, sat_outs. eapply sat_mono; [apply (xApy_0 A x t'); auto; try lia; intros j Hj; apply Hzt; lia|]. intros t1 (Lt1 & H1).
  apply outs_bind, sat_outs. eapply sat_mono; [apply (xApy_0 L x y); auto; try lia; intros j Hj; apply Hy; lia|]. intros y1 (Ly1 & H2).
  apply outs_bind, sat_outs. eapply sat_mono; [apply (xApy_0 U y1 z); auto; try lia; intros j Hj; apply Hzt; lia|]. intros z1 (Lz1 & H3).
  assert (X : forall j, 0 <= j < cm A -> cong p (get z1 j) (sum 0 (cn A) (fun i => on_rows rows al i * lu_entry L U i j))).
  { intros j Hj. destruct (H3 j) as [C3 _]; [lia|]. rewrite C3. rewrite (LinAlg.xA_cong p U (get y1) (xA L (get x))) by (intros k Hk; apply H2; lia).
    apply cong_eq. unfold xA at 1. unfold xA, lu_entry. rewrite Hn.
    rewrite (sum_ext 0 (cn U) _ (fun k => sum 0 (cn A) (fun i => get x i * entry L i k * entry U k j))) by (intros; now rewrite sum_scale_r).
    rewrite sum_swap. apply sum_ext. intros i Hi. rewrite <- Hx by lia. rewrite <- sum_scale. apply sum_ext. intros; ring. }
  assert (Y : forall j, xA A (get x) j = xA A (on_rows rows al) j) by (intros j; apply LinAlg.xA_ext; auto).
  apply sat_outs. apply (for_spec (fun t ok => ok = true <-> forall j, 0 <= j < t -> get z1 j = get t1 j)).
  - lia.
  - split; [lia|auto].
  - intros t ok Ht I. apply sat_bind, sat_aget; [lia|]. apply sat_bind, sat_aget; [lia|]. cbn [sat]. destruct (Z.eqb_spec (get z1 t) (get t1 t)) as [E|E].
    + rewrite I. split; intros H0 j Hj; [|apply H0; lia]. destruct (Z.eq_dec j t) as [->|]; [auto|apply H0; lia].
    + split; [discriminate|]. intros H0. exfalso. apply E, H0. lia.
  - intros ok I. exists al. split.
    + intros i Hi. apply (al_is_draw (simple_seed sd)); auto; [lia|]. intros k Hk. apply G. lia.
    + rewrite I. split; intros H0 j Hj.
      * rewrite <- X, H0, <- Y by auto. symmetry. apply H1. lia.
      * destruct (H1 j Hj) as [C1 B1]. destruct (H3 j) as [_ B3]; [lia|]. apply (balanced_unique p); [lia|auto|auto|]. rewrite X, C1, Y by auto. symmetry. auto.
Qed.
(* when a row of the pivots is not the row of L * U, the challenge is in a hyperplane *)
Theorem fact_wrong k0 j : 0 <= k0 < cn U -> 0 <= j < cm A -> ~ cong p (entry A (get (lu_p f) k0) j) (lu_entry L U (get (lu_p f) k0) j) ->
  exists w, (exists i, 0 <= i < cn A /\ ~ cong p (w i) 0) /\
  forall gs fuel sd, 0 <= sd < 2 ^ 64 -> factorization_verify gs fuel A f sd = Ok true ->
    exists alpha, (forall i, 0 <= i < cn A -> is_draw (seed_bytes sd) p 0 i (alpha i)) /\ cong p (sum 0 (cn A) (fun i => w i * alpha i)) 0.
Proof.
  intros Hk Hj Hne. exists (fun i => if existsb (Z.eqb i) rows then entry A i j - lu_entry L U i j else 0). split.
  - exists (get (lu_p f) k0). split; [auto|]. replace (existsb _ rows) with true by (symmetry; apply rows_in; eauto). intros E. apply Hne.
    replace (entry A (get (lu_p f) k0) j) with ((entry A (get (lu_p f) k0) j - lu_entry L U (get (lu_p f) k0) j) + lu_entry L U (get (lu_p f) k0) j) by ring. rewrite E. apply cong_eq. ring.
  - intros gs fuel sd Hsd E. pose proof (fact_verify gs fuel sd Hsd) as V. rewrite E in V. cbn [outs] in V. destruct V as (alpha & D & V). exists alpha. split; [auto|].
    assert (E1 := proj1 V eq_refl j Hj). unfold xA in E1.
    rewrite (sum_ext 0 (cn A) _ (fun i => on_rows rows alpha i * entry A i j - on_rows rows alpha i * lu_entry L U i j)).
    + rewrite sum_sub, E1. apply cong_eq. ring.
    + intros i Hi. unfold on_rows. destruct (existsb _ _); ring.
Qed.
End fact.

Theorem fact_accepts p A f L gs fuel sd : ok_modulus p -> wf A -> cprime A = p -> cx A <> None -> factors p A f L -> 0 <= sd < 2 ^ 64 ->
  outs (factorization_verify gs fuel A f sd) (fun ok => ok = true) prng_err.
Proof.
  intros Hp HA HAp HAx F Hsd. pose proof (fa_lower _ _ _ _ F) as Lo. pose proof (fa_r _ _ _ _ F) as Er. pose proof (lo_len _ _ _ Lo) as L1. pose proof (lo_rng _ _ _ Lo) as L2. rewrite Er in *. rewrite (fa_n _ _ _ _ F) in L2.
  eapply outs_imp; [apply (fact_verify p Hp A L); auto; try apply F| |auto]; try (destruct (fa_redL _ _ _ _ F); auto; fail); try (destruct (fa_redU _ _ _ _ F); auto; fail).
  intros ok (alpha & _ & E). apply E. intros j Hj. unfold xA. apply sum_cong. intros i Hi. unfold on_rows. pose proof (rows_in A f L2 i) as RI.
  destruct (existsb (Z.eqb i) _); [|apply cong_eq; ring]. destruct (proj1 RI eq_refl) as (k & Hk & <-). rewrite (fa_LU _ _ _ _ F k j Hk Hj). apply cong_refl.
Qed.

(** ** The rank of a factorized matrix *)
Lemma factors_rank p A f L : ok_modulus p -> prime p -> wf A -> factors p A f L -> rank_is p A (cn (lu_U f)).
Proof.
  intros Hp Hprime HA F. pose proof (fa_wfU _ _ _ _ F) as HU. pose proof (fa_m _ _ _ _ F) as Em. pose proof (wf_n _ HU). pose proof (wf_m _ HA). pose proof (wf_n _ HA). pose proof (fa_upper _ _ _ _ F) as Up.
  split; [auto|]. exists (entry (lu_U f)). split; [rewrite <- Em; apply (Rank.upper_independent p _ (lu_qinv f)); auto|]. split.
  - intros k Hk. set (b := map (fun j => bal p (entry (lu_U f) k j)) (zseq 0 (cm A))).
    assert (Lb : len b = cm A) by (unfold b, len; rewrite map_length; unfold zseq; rewrite map_length, seq_length; lia).
    assert (Eb : forall j, 0 <= j < cm A -> get b j = bal p (entry (lu_U f) k j)).
    { intros j Hj. unfold b. unfold get at 1. rewrite (getd_map _ 0) by (rewrite len_zseq; lia). rewrite getd_zseq by lia. f_equal. }
    assert (2 <= p) by (unfold ok_modulus in Hp; lia).
    pose proof (solve_full p Hp Hprime A f L F (fill (cm A) 0) (fill (cn (lu_U f)) 0) (fill (cn (lu_U f)) 0) b (fill (cn A) 0)) as S.
    rewrite !len_fill in S. specialize (S ltac:(lia) ltac:(lia) ltac:(lia) ltac:(lia) ltac:(lia)).
    assert (Bb : forall j, 0 <= j < cm A -> balanced p (get b j)) by (intros; rewrite Eb by auto; apply bal_balanced; lia). specialize (S Bb).
    destruct (solve _ _ _ f b _) as [[ok x']|]; [|destruct S]. cbn [sat] in S. destruct S as (_ & _ & _ & Hpiv & _).
    exists (get x').
    destruct (choose_coeffs p A (cn (lu_U f)) (entry (lu_U f))) as (c & Hc); [auto| |].
    { intros i Hi. destruct (fa_span _ _ _ _ F i Hi) as (y & Hy). exists y. intros j Hj. symmetry. apply Hy. lia. }
    set (z := fun t => sum 0 (cn A) (fun i => get x' i * c i t)).
    assert (V : forall j, 0 <= j < cm A -> cong p (xA A (get x') j) (xA (lu_U f) z j)) by (intros j Hj; apply (xA_coords p A _ _ c (get x') j Hc Hj)).
    assert (D : forall j, cong p (xA (lu_U f) (fun t => z t - (if t =? k then 1 else 0)) j) 0).
    { apply (upper_vanish p _ (lu_qinv f) HU Up). intros j Hj Hq. rewrite xA_sub, xA_delta by auto. rewrite <- V, Hpiv, Eb by (auto; lia). rewrite bal_cong by lia. apply cong_eq. ring. }
    intros j Hj. rewrite V by auto. specialize (D j). rewrite xA_sub, xA_delta in D by auto. rewrite Z.mul_1_l in D.
    replace (xA (lu_U f) z j) with ((xA (lu_U f) z j - entry (lu_U f) k j) + entry (lu_U f) k j) by ring. rewrite D. apply cong_eq. ring.
  - intros i Hi. destruct (fa_span _ _ _ _ F i Hi) as (y & Hy). exists y. intros j Hj. symmetry. apply Hy. lia.
Qed.

(** ** Statements without sections *)
Lemma complete_rank p A f L hash fuel gs gs' : ok_modulus p -> prime p -> wf A -> cprime A = p -> cx A <> None -> factors p A f L ->
  len hash = 32 -> bytes hash ->
  outs (rank_create gs fuel A hash f) (fun c => rank_is p A (c_r c) /\ c_hash c = hash /\ c_prime c = p /\ rank_verify gs' fuel A hash c = Ok true) (fun e => e = OutOfFuel \/ e = Overflow).
Proof.
  intros Hp Hq HA HAp HAx F Lh Bh. destruct (mask_bits_exists p) as [b Hb]; [unfold ok_modulus in Hp; lia|].
  eapply outs_imp; [apply (complete p Hp Hq A HA HAp HAx hash (conj Lh Bh) b Hb fuel f L F gs gs')| |auto]. intros c [-> E]. split; [|exact E]. now apply (factors_rank p A f L).
Qed.
Lemma hyperplane p r w : prime p -> (exists k, 0 <= k < r /\ ~ cong p (w k) 0) ->
  p * sum 0 (p ^ r) (fun N => if cong_dec p (sum 0 r (fun k => w k * digit p N k)) 0 then 1 else 0) = p ^ r.
Proof.
  intros Hp Hw. assert (0 <= r) by (destruct Hw as (k & Hk & _); lia). destruct (plane_count p w Hp r H 0) as [E _]. etransitivity; [|apply (E Hw)]. f_equal. apply sum_ext. intros N HN.
  unfold on_plane. now rewrite Z.add_0_r.
Qed.
Lemma fact_answer p A L f gs fuel sd : ok_modulus p -> wf A -> cprime A = p -> cx A <> None -> wf L -> cprime L = p -> cx L <> None ->
  wf (lu_U f) -> cprime (lu_U f) = p -> cx (lu_U f) <> None ->
  lu_L f = Some L -> cn L = cn A -> cm (lu_U f) = cm A -> cm L = cn (lu_U f) ->
  cn (lu_U f) <= len (lu_p f) -> (forall k, 0 <= k < cn (lu_U f) -> 0 <= get (lu_p f) k < cn A) -> 0 <= sd < 2 ^ 64 ->
  outs (factorization_verify gs fuel A f sd) (fun ok => exists alpha, (forall i, 0 <= i < cn A -> is_draw (seed_bytes sd) p 0 i (alpha i)) /\
     let x := on_rows (map (get (lu_p f)) (zseq 0 (cn (lu_U f)))) alpha in
     (ok = true <-> forall j, 0 <= j < cm A -> cong p (xA A x j) (sum 0 (cn A) (fun i => x i * lu_entry L (lu_U f) i j)))) (fun e => e = OutOfFuel \/ e = Overflow).
Proof. intros. now apply (fact_verify p). Qed.
Lemma fact_missed p A L f k0 j : ok_modulus p -> wf A -> cprime A = p -> cx A <> None -> wf L -> cprime L = p -> cx L <> None ->
  wf (lu_U f) -> cprime (lu_U f) = p -> cx (lu_U f) <> None ->
  lu_L f = Some L -> cn L = cn A -> cm (lu_U f) = cm A -> cm L = cn (lu_U f) ->
  cn (lu_U f) <= len (lu_p f) -> (forall k, 0 <= k < cn (lu_U f) -> 0 <= get (lu_p f) k < cn A) ->
  0 <= k0 < cn (lu_U f) -> 0 <= j < cm A -> ~ cong p (entry A (get (lu_p f) k0) j) (lu_entry L (lu_U f) (get (lu_p f) k0) j) ->
  exists w, (exists i, 0 <= i < cn A /\ ~ cong p (w i) 0) /\
  forall gs fuel sd, 0 <= sd < 2 ^ 64 -> factorization_verify gs fuel A f sd = Ok true ->
    exists alpha, (forall i, 0 <= i < cn A -> is_draw (seed_bytes sd) p 0 i (alpha i)) /\ cong p (sum 0 (cn A) (fun i => w i * alpha i)) 0.
Proof. intros. now apply (fact_wrong p) with (L := L) (k0 := k0) (j := j). Qed.
