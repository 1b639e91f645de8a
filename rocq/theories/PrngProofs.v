(** The generator of src/spasm_prng.c returns the words of its stream. *)
From Verif Require Import Base BaseFacts Spec SpecFacts RowList EchInv ElimFacts Counting SpecSha Sha ShaProofs ShaHash ShaCtx Zp SpecPrng Prng DenseProofs4.
From Coq Require Import ZifyBool.
Ltac Zify.zify_post_hook ::= Z.to_euclidean_division_equations.

(** ** Bytes of a word *)
Lemma of_be_bound l : bytes l -> 0 <= of_be l < 256 ^ len l.
Proof.
  induction l as [|b l IH] using rev_ind; intros H; [cbn; lia|]. apply Forall_app in H as [Hl Hb]. inversion_clear Hb as [|? ? Hb' _].
  specialize (IH Hl). rewrite of_be_snoc, len_app. change (len [b]) with 1. rewrite Z.pow_add_r by (pose proof (len_nonneg l); lia). unfold byte in Hb'. lia.
Qed.
Lemma be_of_be l : bytes l -> be (length l) (of_be l) = l.
Proof.
  induction l as [|b l IH] using rev_ind; intros H; [reflexivity|]. apply Forall_app in H as [Hl Hb]. inversion_clear Hb as [|? ? Hb' _].
  rewrite app_length. cbn [length]. rewrite Nat.add_1_r. cbn [be]. rewrite of_be_snoc. unfold byte in Hb'.
  replace ((256 * of_be l + b) / 256) with (of_be l) by lia. replace ((256 * of_be l + b) mod 256) with b by lia. now rewrite IH.
Qed.
Lemma bytes_rev l : bytes l -> bytes (rev l). Proof. apply Forall_rev. Qed.
Lemma len_rev {A} (l : list A) : len (rev l) = len l. Proof. unfold len. now rewrite rev_length. Qed.
Lemma be4_of_be l : bytes l -> len l = 4 -> be 4 (of_be l) = l.
Proof. intros H L. rewrite <- (be_of_be l H) at 2. f_equal. unfold len in L. lia. Qed.
(* the bytes of htonl(x) are those of x in big-endian order *)
Lemma htonl_bytes x : rev (be 4 (htonl x)) = be 4 x.
Proof. unfold htonl. rewrite be4_of_be, rev_involutive; [reflexivity|apply bytes_rev, bytes_be|rewrite len_rev; reflexivity]. Qed.
Lemma htonl_of_be s : bytes s -> len s = 4 -> htonl (of_be (rev s)) = of_be s.
Proof. intros B L. unfold htonl. rewrite be4_of_be, rev_involutive; [reflexivity|apply bytes_rev; auto|rewrite len_rev; auto]. Qed.
Lemma len_sha256 m : len (sha256 m) = 32.
Proof.
  unfold sha256. destruct (hstate_absorb sha_H0 (pad m) hstate0) as [L _]. revert L. generalize (absorb sha_H0 (pad m)). intros H L.
  assert (G : forall l, len (flat_map (be 4) l) = 4 * len l).
  { induction l as [|x l IH]; [reflexivity|]. cbn [flat_map]. rewrite len_app, len_be, IH, len_cons. lia. }
  rewrite G. lia.
Qed.
Lemma bytes_sha256 m : bytes (sha256 m).
Proof.
  unfold sha256. generalize (absorb sha_H0 (pad m)). intros l. induction l as [|x l IH]; [constructor|]. cbn [flat_map].
  apply bytes_app; [apply bytes_be|apply IH].
Qed.
Lemma set_u32_ok mem k v a b c : mem = a ++ b ++ c -> 0 <= k -> len a = 4 * k -> len b = 4 -> set_u32 mem k v = Ok (a ++ rev (be 4 v) ++ c).
Proof.
  intros -> Hk La Lb. pose proof (len_nonneg c). unfold set_u32. rewrite memcpy_ok by (rewrite ?len_app, ?len_rev, ?len_be; lia). f_equal.
  rewrite firstn_len_app by lia. rewrite slice_all by (rewrite len_rev, len_be; reflexivity). do 2 f_equal.
  rewrite app_assoc. apply skipn_len_app. rewrite len_app. lia.
Qed.

Section Stream.
Context (seed : list Z) (p seq b : Z).
Hypothesis Hp : ok_modulus p.
Hypothesis Hs : len seed = 32 /\ bytes seed.
Hypothesis Hq : word seq.
Hypothesis Hb : mask_bits p b.
Notation blk c := (prng_block seed p c seq).
Notation wd k := (prng_word seed p seq k).

Lemma len_blk c : len (blk c) = 44.
Proof. unfold prng_block. rewrite !len_app, !len_be. destruct Hs. lia. Qed.
Lemma bytes_blk c : bytes (blk c).
Proof. unfold prng_block. destruct Hs. auto using bytes_app, bytes_be. Qed.

(* n words were drawn *)
Record at_ (n : Z) (ctx : prng_ctx) : Prop := {
  at_c : 1 <= pcounter ctx < 2 ^ 31;
  at_block : pblock ctx = blk (pcounter ctx);
  at_hash : phash ctx = sha256 (blk (pcounter ctx - 1));
  at_i : 0 <= pi ctx <= 8;
  at_n : n = 8 * (pcounter ctx - 1) + pi ctx;
  at_prime : pprime ctx = p;
  at_mask : pmask ctx = 2 ^ b - 1;
  at_field : pfield ctx = p
}.

Lemma rehash_gen g ctx : 0 <= pcounter ctx -> pblock ctx = blk (pcounter ctx) -> len (phash ctx) = 32 ->
  pprime ctx = p -> pmask ctx = 2 ^ b - 1 -> pfield ctx = p ->
  outs (rehash g ctx) (fun ctx' => pcounter ctx + 1 < 2 ^ 31 /\ at_ (8 * pcounter ctx) ctx' /\ pi ctx' = 0) (fun e => e = Overflow /\ 2 ^ 31 <= pcounter ctx + 1).
Proof.
  intros Hc Eb Lh E1 E2 E3. unfold rehash. apply outs_bind.
  assert (U := update_ok g SHA256_init [] [] (pblock ctx) repr_init ltac:(rewrite Eb; apply bytes_blk) ltac:(rewrite Eb, len_blk; cbn; lia)).
  replace (len (pblock ctx)) with 44 in U by (rewrite Eb, len_blk; reflexivity).
  apply sat_outs. eapply sat_mono; [exact U|]. clear U. intros hctx (m1 & m2 & E & R). cbn [app] in E.
  apply outs_bind, sat_outs. eapply sat_mono; [apply final_ok with (m1 := m1) (m2 := m2); auto|].
  { rewrite E, Eb, len_blk. lia. }
  intros hash ->. rewrite E, Eb. destruct (Z.leb_spec (2 ^ 31) (pcounter ctx + 1)) as [C|C]; [cbn; auto|].
  rewrite (set_u32_ok _ 9 _ (seed ++ be 4 p) (be 4 (pcounter ctx)) (be 4 seq)).
  - cbn [bind outs]. split; [auto|]. split; [|reflexivity]. constructor; cbn [pblock phash pprime pmask pcounter pi pfield]; auto; try lia.
    + rewrite htonl_bytes, w32_id by (unfold word; lia). unfold prng_block. now rewrite <- !app_assoc.
    + now replace (pcounter ctx + 1 - 1) with (pcounter ctx) by lia.
  - unfold prng_block. now rewrite <- !app_assoc.
  - lia.
  - rewrite len_app, len_be. destruct Hs. lia.
  - apply len_be.
Qed.

Lemma slice_hash m k : 0 <= k < 8 -> len (slice (sha256 m) (4 * k) 4) = 4 /\ bytes (slice (sha256 m) (4 * k) 4).
Proof. intros. split; [apply len_slice; rewrite ?len_sha256; lia|apply Forall_slice, bytes_sha256]. Qed.
Lemma word_bound k : word (wd k).
Proof.
  unfold prng_word. destruct (slice_hash (blk (k / 8)) (k mod 8)) as [L B]; [lia|]. pose proof (of_be_bound _ B) as O. rewrite L in O. exact O.
Qed.

Lemma u32_gen g n ctx : at_ n ctx ->
  outs (prng_u32 g ctx) (fun '(x, ctx') => n < 8 * (2 ^ 31 - 1) /\ x = wd n /\ at_ (n + 1) ctx') (fun e => e = Overflow /\ n = 8 * (2 ^ 31 - 1)).
Proof.
  intros A. unfold prng_u32. apply outs_bind.
  assert (L32 : len (phash ctx) = 32) by (rewrite (at_hash _ _ A); apply len_sha256).
  apply (outs_mono _ (fun ctx' => n < 8 * (2 ^ 31 - 1) /\ at_ n ctx' /\ pi ctx' < 8)).
  - destruct (Z.eqb_spec (pi ctx) 8) as [E|E].
    + pose proof (at_c _ _ A) as Hc. pose proof (at_n _ _ A) as En.
      assert (G := rehash_gen g ctx ltac:(lia) (at_block _ _ A) L32 (at_prime _ _ A) (at_mask _ _ A) (at_field _ _ A)).
      destruct (rehash g ctx) as [c'|e]; cbn [outs] in *; [|destruct G; split; [assumption|lia]].
      destruct G as (C & G & E0). replace (8 * pcounter ctx) with n in G by lia. split; [lia|]. split; [exact G|lia].
    + cbn [outs]. pose proof (at_c _ _ A) as Hc. pose proof (at_n _ _ A) as En. pose proof (at_i _ _ A). split; [lia|]. split; [exact A|lia].
  - intros c' (Hn & A' & Hi). pose proof (at_i _ _ A') as Hi0. pose proof (at_n _ _ A') as En.
    assert (L' : len (phash c') = 32) by (rewrite (at_hash _ _ A'); apply len_sha256).
    unfold get_u32. replace (_ && _) with true by lia. cbn [bind outs].
    destruct (slice_hash (blk (pcounter c' - 1)) (pi c')) as [Ls Bs]; [lia|].
    split; [lia|]. split.
    + rewrite (at_hash _ _ A'), htonl_of_be by auto. unfold prng_word. replace (n / 8) with (pcounter c' - 1) by lia. replace (n mod 8) with (pi c') by lia. reflexivity.
    + destruct A'. constructor; cbn [pblock phash pprime pmask pcounter pi pfield]; auto; lia.
Qed.
Lemma u32_ok g n ctx : at_ n ctx -> n < 8 * (2 ^ 31 - 1) -> sat (prng_u32 g ctx) (fun '(x, ctx') => x = wd n /\ at_ (n + 1) ctx').
Proof. intros A Hn. pose proof (u32_gen g n ctx A) as G. destruct (prng_u32 g ctx) as [[x c]|e]; cbn [outs sat] in *; [tauto|lia]. Qed.

Lemma draw_u32_ok g (k : nat) n ctx : at_ n ctx -> n + Z.of_nat k <= 8 * (2 ^ 31 - 1) ->
  sat (draw_u32 g k ctx) (fun '(l, ctx') => l = map (fun i => wd i) (zseq n (n + Z.of_nat k)) /\ at_ (n + Z.of_nat k) ctx').
Proof.
  revert n ctx. induction k as [|k IH]; intros n ctx A Hn.
  - cbn [draw_u32 sat]. rewrite zseq_empty by lia. split; [reflexivity|]. now replace (n + Z.of_nat 0) with n by lia.
  - cbn [draw_u32]. apply sat_bind. eapply sat_mono; [apply u32_ok; eauto; lia|]. intros [x c1] (-> & A1).
    apply sat_bind. eapply sat_mono; [apply (IH _ _ A1); lia|]. intros [l c2] (-> & A2). cbn [sat].
    rewrite (zseq_cons n) by lia. cbn [map]. replace (n + 1 + Z.of_nat k) with (n + Z.of_nat (S k)) in * by lia. auto.
Qed.
(* the counter is an int: its overflow is undefined *)
Lemma draw_u32_overflow g (k : nat) n ctx : at_ n ctx -> 8 * (2 ^ 31 - 1) < n + Z.of_nat k -> draw_u32 g k ctx = Fail Overflow.
Proof.
  revert n ctx. induction k as [|k IH]; intros n ctx A Hn.
  - pose proof (at_c _ _ A). pose proof (at_n _ _ A). pose proof (at_i _ _ A). lia.
  - cbn [draw_u32]. pose proof (u32_gen g n ctx A) as G. destruct (prng_u32 g ctx) as [[x c]|e]; cbn [outs bind] in *.
    + destruct G as (_ & _ & A1). rewrite (IH _ _ A1) by lia. reflexivity.
    + now destruct G as [-> _].
Qed.

(** ** Field elements *)
Definition acc (n N : Z) : list Z := filter (fun x => x <? p) (map (fun k => wd k mod 2 ^ b) (zseq n N)).
Lemma acc_split n k N : n <= k <= N -> acc n N = acc n k ++ acc k N.
Proof. intros H. unfold acc. rewrite (zseq_split n k N) by lia. rewrite map_app, filter_app. reflexivity. Qed.
Lemma acc_one k : acc k (k + 1) = if wd k mod 2 ^ b <? p then [wd k mod 2 ^ b] else [].
Proof. unfold acc. rewrite zseq_cons, zseq_empty by lia. reflexivity. Qed.

Lemma land_mask x : Z.land x (2 ^ b - 1) = x mod 2 ^ b.
Proof. destruct Hb as [Hb0 _]. rewrite <- Z.land_ones by lia. f_equal. rewrite Z.ones_equiv. lia. Qed.

Lemma ZZp_ok g fuel n ctx : at_ n ctx ->
  outs (prng_ZZp g fuel ctx) (fun '(v, ctx') => exists N x, n < N /\ at_ N ctx' /\ acc n N = [x] /\ x = wd (N - 1) mod 2 ^ b /\ x < p /\ v = bal p x)
    (fun e => e = OutOfFuel \/ e = Overflow).
Proof.
  intros A. unfold prng_ZZp.
  apply (outs_loop (fun c => exists N, n <= N /\ at_ N c /\ acc n N = [])).
  - now left.
  - intros c (N & HN & AN & EN). apply outs_bind. pose proof (u32_gen g N c AN) as G.
    destruct (prng_u32 g c) as [[x c']|e]; cbn [outs] in *; [|tauto].
    destruct G as (_ & -> & A'). rewrite (at_mask _ _ A'), (at_prime _ _ A'), (at_field _ _ A'), land_mask.
    assert (E : acc n (N + 1) = if wd N mod 2 ^ b <? p then [wd N mod 2 ^ b] else []) by (rewrite (acc_split n N), EN, acc_one by lia; reflexivity).
    destruct (Z.ltb_spec (wd N mod 2 ^ b) p); cbn [outs].
    + exists (N + 1), (wd N mod 2 ^ b). do 2 (split; [auto; lia|]). split; [exact E|]. split; [do 2 f_equal; lia|]. split; [auto|reflexivity].
    + exists (N + 1). split; [lia|]. split; [auto|exact E].
  - exists n. split; [lia|]. split; [auto|]. unfold acc. now rewrite zseq_empty by lia.
Qed.

Lemma draw_ZZp_gen g fuel (k : nat) n ctx : at_ n ctx ->
  outs (draw_ZZp g fuel k ctx) (fun '(l, ctx') => exists N, n <= N /\ at_ N ctx' /\ l = map (bal p) (acc n N) /\ length l = k /\
      (k <> O -> n < N /\ wd (N - 1) mod 2 ^ b < p) /\ (k = O -> N = n))
    (fun e => e = OutOfFuel \/ e = Overflow).
Proof.
  revert n ctx. induction k as [|k IH]; intros n ctx A; cbn [draw_ZZp].
  - cbn [outs]. exists n. split; [lia|]. split; [auto|]. unfold acc. rewrite zseq_empty by lia. repeat split; auto; congruence.
  - apply outs_bind. eapply outs_mono; [apply (ZZp_ok g fuel n ctx A)|]. intros [v c] (N & x & HN & AN & EN & Ex & Hx & ->).
    apply outs_bind. eapply outs_mono; [apply (IH N c AN)|]. intros [l c'] (N' & HN' & A' & -> & Ll & Hlast & H0). cbn [outs].
    exists N'. split; [lia|]. split; [auto|]. rewrite (acc_split n N N') by lia. rewrite EN. cbn [app map]. split; [reflexivity|].
    split; [cbn [length]; lia|]. split; [|congruence]. intros _. split; [lia|].
    destruct (Nat.eq_dec k 0) as [->|]; [rewrite H0, <- Ex by auto; exact Hx|now apply Hlast].
Qed.
Lemma acc_range n N : Forall (fun x => 0 <= x < p) (acc n N).
Proof.
  unfold acc. apply Forall_forall. intros x Hx. apply filter_In in Hx as [Hx Hlt]. apply in_map_iff in Hx as (k & <- & _).
  destruct Hb as [Hb0 _]. assert (0 < 2 ^ b) by (apply Z.pow_pos_nonneg; lia). pose proof (Z.mod_pos_bound (wd k) (2 ^ b) ltac:(lia)). lia.
Qed.

(** ** Seeding *)
Lemma mask_loop : sat (loop 64 (fun mask => if mask <? p then m <- i64 (2 * mask) ;; Ok (inl m) else Ok (inr mask)) 1) (fun m => m = 2 ^ b).
Proof.
  destruct Hb as (Hb0 & Hb1 & Hb2). unfold ok_modulus in Hp.
  assert (Hb32 : b <= 32). { destruct (Z_le_gt_dec b 32); auto. assert (2 ^ 33 <= 2 ^ b) by (apply Z.pow_le_mono_r; lia). lia. }
  apply (loop_spec (fun m => exists k, 0 <= k <= b /\ m = 2 ^ k) (fun m => 33 - Z.log2 m)).
  - intros m (k & Hk & ->). destruct (Z.ltb_spec (2 ^ k) p).
    + assert (k < b). { destruct (Z_lt_le_dec k b); auto. assert (k = b) by lia. subst. lia. }
      assert (E : 2 * 2 ^ k = 2 ^ (k + 1)) by (rewrite Z.pow_add_r by lia; lia). rewrite E.
      assert (2 ^ (k + 1) <= 2 ^ 32) by (apply Z.pow_le_mono_r; lia). assert (0 < 2 ^ (k + 1)) by (apply Z.pow_pos_nonneg; lia).
      unfold i64. replace (_ && _) with true by lia. cbn [bind sat]. split; [exists (k + 1); split; [lia|reflexivity]|].
      rewrite !Z.log2_pow2 by lia. lia.
    + cbn [sat]. assert (k = b); [|congruence]. destruct (Z.eq_dec k b); auto.
      assert (2 ^ (k + 1) <= 2 ^ b) by (apply Z.pow_le_mono_r; lia). rewrite Z.pow_add_r in * by lia. lia.
  - exists 0. split; [lia|reflexivity].
  - change (Z.log2 1) with 0. lia.
Qed.

Lemma seed_ok g ctx0 : len (pblock ctx0) = 44 -> len (phash ctx0) = 32 ->
  sat (prng_seed g seed p seq ctx0) (fun ctx => at_ 0 ctx).
Proof.
  intros Lb Lh. destruct Hs as [Ls Bs]. pose proof Hb as (Hb0 & Hb1 & Hb2). pose proof Hp as Hp'. unfold ok_modulus in Hp'.
  assert (2 ^ b <= 2 ^ 32). { apply Z.pow_le_mono_r; try lia. destruct (Z_le_gt_dec b 32); auto. assert (2 ^ 33 <= 2 ^ b) by (apply Z.pow_le_mono_r; lia). lia. }
  unfold prng_seed. apply sat_bind.
  apply (for_spec (fun k bl => len bl = 44 /\ forall i, 0 <= i < k -> get bl i = get seed i)).
  - lia.
  - split; [auto|lia].
  - intros k bl Hk (L & E). wp; try lia. split; [len; lia|]. intros i Hi. rewrite get_upd_in by lia. destruct (Z.eqb_spec k i); [congruence|apply E; lia].
  - intros bl (L & E).
    assert (Ebl : bl = seed ++ slice bl 32 4 ++ slice bl 36 4 ++ slice bl 40 4).
    { assert (S1 := slice_split bl 36 4 4 ltac:(lia) ltac:(lia) ltac:(lia)). assert (S2 := slice_split bl 32 4 8 ltac:(lia) ltac:(lia) ltac:(lia)).
      change (36 + 4) with 40 in S1. change (32 + 4) with 36 in S2. change (4 + 4) with 8 in S1. change (4 + 8) with 12 in S2. rewrite <- S1, <- S2.
      rewrite <- (slice_all bl (32 + 12)) at 1 by lia. rewrite (slice_split bl 0 32 12) by lia. change (0 + 32) with 32. f_equal.
      apply list_ext; [rewrite len_slice; lia|]. intros i Hi. rewrite len_slice in Hi by lia. rewrite <- E by lia.
      rewrite slice_firstn. rewrite <- (firstn_skipn (Z.to_nat 32) bl) at 2. rewrite get_app_l by (rewrite len_firstn; lia). reflexivity. }
    assert (L32 : len (slice bl 32 4) = 4) by (apply len_slice; lia). assert (L36 : len (slice bl 36 4) = 4) by (apply len_slice; lia). assert (L40 : len (slice bl 40 4) = 4) by (apply len_slice; lia).
    revert Ebl L32 L36 L40. generalize (slice bl 32 4) (slice bl 36 4) (slice bl 40 4). intros s8 s9 s10 Ebl L8 L9 L10.
    apply sat_bind. eapply sat_mono; [apply mask_loop|]. intros m ->.
    rewrite (set_u32_ok bl 8 _ seed s8 (s9 ++ s10)) by (auto; lia). cbn [bind]. rewrite htonl_bytes, w32_id by (unfold word; lia).
    rewrite (set_u32_ok _ 9 _ (seed ++ be 4 p) s9 s10) by (rewrite <- ?app_assoc, ?len_app, ?len_be; auto; lia). cbn [bind].
    rewrite (set_u32_ok _ 10 _ ((seed ++ be 4 p) ++ rev (be 4 0)) s10 []) by (rewrite ?app_nil_r, <- ?app_assoc, ?len_app, ?len_rev, ?len_be; auto; lia). cbn [bind].
    rewrite htonl_bytes, app_nil_r. change (rev (be 4 0)) with (be 4 0).
    match goal with |- sat (rehash g ?c) _ => assert (G := rehash_gen g c) end.
    cbn [pblock phash pprime pmask pcounter pi pfield] in G.
    specialize (G ltac:(lia) ltac:(unfold prng_block; now rewrite <- !app_assoc) Lh eq_refl ltac:(apply w32_id; unfold word; lia) eq_refl).
    match goal with |- sat ?r _ => destruct r as [c|e] end; cbn [outs sat] in *; [tauto|lia].
Qed.
End Stream.

(* the blocks that are hashed differ as soon as one of the parameters does *)
Lemma be4_inj x y : word x -> word y -> be 4 x = be 4 y -> x = y.
Proof. unfold word. intros Hx Hy E. rewrite <- (of_be_be 4 x), <- (of_be_be 4 y), E by (change (256 ^ Z.of_nat 4) with (2 ^ 32); lia). reflexivity. Qed.
Lemma app_inj_len {A} (a a' b b' : list A) : length a = length a' -> a ++ b = a' ++ b' -> a = a' /\ b = b'.
Proof. revert a'. induction a as [|x a IH]; intros [|x' a'] L E; try discriminate; [auto|]. cbn in *. injection E as -> E. destruct (IH a' ltac:(lia) E) as [-> ->]. auto. Qed.
Lemma prng_block_inj s p c q s' p' c' q' : len s = 32 -> len s' = 32 -> word p -> word p' -> word c -> word c' -> word q -> word q' ->
  prng_block s p c q = prng_block s' p' c' q' -> s = s' /\ p = p' /\ c = c' /\ q = q'.
Proof.
  intros L L' Hp Hp' Hc Hc' Hq Hq' E. unfold prng_block in E.
  apply app_inj_len in E as [-> E]; [|unfold len in *; lia]. split; [reflexivity|].
  apply app_inj_len in E as [E1 E]; [|reflexivity]. apply app_inj_len in E as [E2 E3]; [|reflexivity].
  apply be4_inj in E1, E2, E3; auto.
Qed.
(* every word is the image of as many 32-bit words by the mask *)
Lemma count_mod q m x : 0 < m -> 0 <= q -> 0 <= x < m -> sum 0 (q * m) (fun w => b1 (w mod m =? x)) = q.
Proof.
  intros Hm Hq Hx. pattern q. apply (range_ind _ 0 q); try lia; [reflexivity|]. intros k Hk E.
  rewrite (sum_split (k * m)) by lia. rewrite E. f_equal. rewrite (sum_single _ _ _ (k * m + x)).
  - replace (k * m + x) with (x + k * m) by lia. rewrite Z.mod_add, Z.mod_small, Z.eqb_refl by lia. reflexivity.
  - lia.
  - intros i Hi Hn. destruct (Z.eqb_spec (i mod m) x) as [Ei|]; [|reflexivity]. exfalso. apply Hn.
    assert (i / m = k) by (symmetry; apply Z.div_unique with (i - k * m); lia). pose proof (Z.div_mod i m). lia.
Qed.

(** ** The whole generator *)
Lemma mask_bits_exists p : 2 <= p -> exists b, mask_bits p b.
Proof.
  intros Hp. exists (Z.log2_up p). destruct (Z.log2_up_spec p ltac:(lia)) as [H1 H2]. pose proof (Z.log2_up_pos p ltac:(lia)).
  split; [lia|]. split; [lia|]. replace (Z.log2_up p) with (Z.pred (Z.log2_up p) + 1) at 1 by lia. rewrite Z.pow_add_r by lia. lia.
Qed.
Definition simple_seed (sd : Z) : list Z := be 4 (sd mod 2 ^ 32) ++ be 4 (sd / 2 ^ 32) ++ fill 24 0.
Lemma simple_seed_ok sd : len (simple_seed sd) = 32 /\ bytes (simple_seed sd).
Proof.
  unfold simple_seed. split; [rewrite !len_app, !len_be; reflexivity|].
  apply bytes_app; [apply bytes_be|]. apply bytes_app; [apply bytes_be|]. apply Forall_fill. unfold byte. lia.
Qed.
Lemma seed_simple_ok p seq b sd g ctx0 junk : ok_modulus p -> word seq -> mask_bits p b -> 0 <= sd < 2 ^ 64 ->
  len (pblock ctx0) = 44 -> len (phash ctx0) = 32 -> len junk = 32 ->
  sat (prng_seed_simple g p sd seq ctx0 junk) (fun ctx => at_ (simple_seed sd) p seq b 0 ctx).
Proof.
  intros Hp Hq Hb Hsd Lb Lh Lj. unfold prng_seed_simple.
  set (lo := Z.land sd 0xffffffff). assert (El : lo = sd mod 2 ^ 32) by (unfold lo; change 0xffffffff with (Z.ones 32); now rewrite Z.land_ones by lia).
  set (hi := w32 (Z.shiftr sd 32)). assert (Eh : hi = sd / 2 ^ 32) by (unfold hi; rewrite Z.shiftr_div_pow2 by lia; apply w32_id; unfold word; lia). clearbody lo hi.
  rewrite (set_u32_ok junk 0 _ [] (slice junk 0 4) (slice junk 4 28)).
  2:{ cbn [app]. rewrite <- (slice_all junk (4 + 28)) at 1 by lia. now rewrite slice_split by lia. }
  2-4: try rewrite len_slice; try reflexivity; lia.
  cbn [bind app]. rewrite htonl_bytes.
  rewrite (set_u32_ok _ 1 _ (be 4 lo) (slice junk 4 4) (slice junk 8 24)).
  2:{ f_equal. change 28 with (4 + 24). now rewrite slice_split by lia. }
  2-4: try rewrite len_slice; try reflexivity; lia.
  cbn [bind]. rewrite htonl_bytes. apply sat_bind.
  apply (for_spec (fun k bl => exists t, bl = (be 4 lo ++ be 4 hi) ++ fill (4 * (k - 2)) 0 ++ t /\ len t = 4 * (8 - k))).
  - lia.
  - exists (slice junk 8 24). rewrite <- app_assoc. split; [reflexivity|]. rewrite len_slice; lia.
  - intros k bl Hk (t & -> & Lt).
    rewrite (set_u32_ok _ k _ ((be 4 lo ++ be 4 hi) ++ fill (4 * (k - 2)) 0) (slice t 0 4) (slice t 4 (4 * (8 - k) - 4))).
    + cbn [sat]. exists (slice t 4 (4 * (8 - k) - 4)). rewrite len_slice by lia. split; [|lia].
      change (rev (be 4 0)) with (fill 4 0). rewrite <- !app_assoc. do 2 f_equal. rewrite app_assoc. f_equal.
      unfold fill. rewrite <- repeat_app. f_equal. lia.
    + rewrite <- !app_assoc. do 3 f_equal. rewrite <- (slice_all t (4 + (4 * (8 - k) - 4))) at 1 by lia. now rewrite slice_split by lia.
    + lia.
    + rewrite !len_app, !len_be, len_fill. lia.
    + apply len_slice; lia.
  - intros bl (t & -> & Lt). destruct t; [|rewrite len_cons in Lt; pose proof (len_nonneg t); lia]. rewrite app_nil_r.
    assert (E : (be 4 lo ++ be 4 hi) ++ fill (4 * (8 - 2)) 0 = simple_seed sd) by (rewrite <- app_assoc, El, Eh; reflexivity).
    rewrite E. apply seed_ok; auto. apply simple_seed_ok.
Qed.

Theorem prng_u32_stream g g' seed p seq ctx0 (n : nat) : ok_modulus p -> len seed = 32 -> bytes seed -> word seq ->
  len (pblock ctx0) = 44 -> len (phash ctx0) = 32 -> Z.of_nat n <= 8 * (2 ^ 31 - 1) ->
  sat (ctx <- prng_seed g seed p seq ctx0 ;; draw_u32 g' n ctx) (fun '(l, _) => l = map (prng_word seed p seq) (zseq 0 (Z.of_nat n))).
Proof.
  intros Hp Ls Bs Hq Lb Lh Hn. destruct (mask_bits_exists p) as [b Hb]; [unfold ok_modulus in Hp; lia|].
  apply sat_bind. eapply sat_mono; [apply (seed_ok seed p seq b); auto|]. intros ctx A.
  eapply sat_mono; [apply (draw_u32_ok seed p seq b (conj Ls Bs) g' n 0 ctx A); lia|]. intros [l c] (-> & _). reflexivity.
Qed.
Theorem prng_u32_overflow g g' seed p seq ctx0 (n : nat) : ok_modulus p -> len seed = 32 -> bytes seed -> word seq ->
  len (pblock ctx0) = 44 -> len (phash ctx0) = 32 -> 8 * (2 ^ 31 - 1) < Z.of_nat n ->
  (ctx <- prng_seed g seed p seq ctx0 ;; draw_u32 g' n ctx) = Fail Overflow.
Proof.
  intros Hp Ls Bs Hq Lb Lh Hn. destruct (mask_bits_exists p) as [b Hb]; [unfold ok_modulus in Hp; lia|].
  pose proof (seed_ok seed p seq b Hp (conj Ls Bs) Hb g ctx0 Lb Lh) as S. destruct (prng_seed g seed p seq ctx0) as [ctx|]; [|contradiction].
  cbn [bind sat] in *. apply (draw_u32_overflow seed p seq b (conj Ls Bs) g' n 0 ctx S). lia.
Qed.
Theorem prng_ZZp_stream g g' fuel seed p seq ctx0 (n : nat) : ok_modulus p -> len seed = 32 -> bytes seed -> word seq ->
  len (pblock ctx0) = 44 -> len (phash ctx0) = 32 ->
  outs (ctx <- prng_seed g seed p seq ctx0 ;; draw_ZZp g' fuel n ctx)
    (fun '(l, _) => exists b N, mask_bits p b /\ 0 <= N /\ l = map (bal p) (prng_accepted seed p seq b N) /\ length l = n /\
      (n <> O -> prng_word seed p seq (N - 1) mod 2 ^ b < p) /\ (n = O -> N = 0) /\ Forall (balanced p) l)
    (fun e => e = OutOfFuel \/ e = Overflow).
Proof.
  intros Hp Ls Bs Hq Lb Lh. destruct (mask_bits_exists p) as [b Hb]; [unfold ok_modulus in Hp; lia|].
  apply outs_bind, sat_outs. eapply sat_mono; [apply (seed_ok seed p seq b); auto|]. intros ctx A.
  eapply outs_mono; [apply (draw_ZZp_gen seed p seq b (conj Ls Bs) Hb g' fuel n 0 ctx A)|]. intros [l c] (N & HN & _ & -> & Ll & H1 & H0).
  exists b, N. split; [auto|]. split; [auto|]. split; [reflexivity|]. split; [auto|]. split; [intros; now apply H1|]. split; [auto|].
  apply Forall_forall. intros v Hv. apply in_map_iff in Hv as (x & <- & _). apply bal_balanced. unfold ok_modulus in Hp. lia.
Qed.
Theorem prng_unbiased p : ok_modulus p -> exists b, mask_bits p b /\ b <= 32 /\
  (forall v, balanced p v -> exists! x, 0 <= x < p /\ bal p x = v) /\
  (forall x, 0 <= x < 2 ^ b -> sum 0 (2 ^ 32) (fun w => b1 (w mod 2 ^ b =? x)) = 2 ^ (32 - b)).
Proof.
  intros Hp. unfold ok_modulus in Hp. destruct (mask_bits_exists p) as [b Hb]; [lia|]. exists b. split; [auto|].
  destruct Hb as (Hb0 & Hb1 & Hb2).
  assert (Hb32 : b <= 32). { destruct (Z_le_gt_dec b 32); auto. assert (2 ^ 33 <= 2 ^ b) by (apply Z.pow_le_mono_r; lia). lia. }
  split; [auto|]. split.
  - intros v Hv. exists (v mod p). split.
    + split; [apply Z.mod_pos_bound; lia|]. unfold balanced, bal in *. rewrite Zmod_mod.
      destruct (Z_lt_le_dec v 0).
      * replace (v mod p) with (v + p) by (apply Z.mod_unique with (-1); lia). replace (v + p >? p / 2) with true by lia. lia.
      * rewrite Z.mod_small by lia. replace (v >? p / 2) with false by lia. reflexivity.
    + intros x (Hx & <-). unfold bal. rewrite (Z.mod_small x) by lia. destruct (Z.gtb_spec x (p / 2)).
      * replace (x - p) with (x + (-1) * p) by lia. rewrite Z.mod_add, Z.mod_small; lia.
      * now rewrite Z.mod_small by lia.
  - intros x Hx. assert (E : 2 ^ 32 = 2 ^ (32 - b) * 2 ^ b) by (rewrite <- Z.pow_add_r by lia; f_equal; lia). rewrite E.
    apply count_mod; auto; apply Z.pow_nonneg || apply Z.pow_pos_nonneg; lia.
Qed.
Theorem prng_simple g g' p seq sd ctx0 junk (n : nat) : ok_modulus p -> word seq -> 0 <= sd < 2 ^ 64 ->
  len (pblock ctx0) = 44 -> len (phash ctx0) = 32 -> len junk = 32 -> Z.of_nat n <= 8 * (2 ^ 31 - 1) ->
  sat (ctx <- prng_seed_simple g p sd seq ctx0 junk ;; draw_u32 g' n ctx) (fun '(l, _) =>
    l = map (prng_word (be 4 (sd mod 2 ^ 32) ++ be 4 (sd / 2 ^ 32) ++ fill 24 0) p seq) (zseq 0 (Z.of_nat n))).
Proof.
  intros Hp Hq Hsd Lb Lh Lj Hn. destruct (mask_bits_exists p) as [b Hb]; [unfold ok_modulus in Hp; lia|].
  apply sat_bind. eapply sat_mono; [apply (seed_simple_ok p seq b); auto|]. intros ctx A.
  eapply sat_mono; [apply (draw_u32_ok (simple_seed sd) p seq b (simple_seed_ok sd) g' n 0 ctx A); lia|]. intros [l c] (-> & _). reflexivity.
Qed.
