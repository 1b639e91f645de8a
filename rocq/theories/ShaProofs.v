(** The block function of src/sha256.c is the compression function of FIPS 180-4. *)
From Verif Require Import Base BaseFacts Spec SpecFacts RowList EchInv ElimFacts SpecSha Sha.
From Coq Require Import ZifyBool.
Ltac Zify.zify_post_hook ::= Z.to_euclidean_division_equations.

(** ** Words *)
Lemma w32_word x : word (w32 x).
Proof. unfold word, w32. apply Z.mod_pos_bound. lia. Qed.
Lemma w32_id x : word x -> w32 x = x.
Proof. unfold word, w32. intros. apply Z.mod_small; lia. Qed.
Lemma w32_add_r a b : w32 (a + w32 b) = w32 (a + b).
Proof. unfold w32. apply Zplus_mod_idemp_r. Qed.
Lemma w32_add_l a b : w32 (w32 a + b) = w32 (a + b).
Proof. unfold w32. apply Zplus_mod_idemp_l. Qed.

Lemma bits_above x n k : 0 <= x < 2 ^ n -> n <= k -> Z.testbit x k = false.
Proof.
  intros. destruct (Z.eq_dec x 0) as [->|]; [apply Z.bits_0|]. apply Z.bits_above_log2; try lia.
  apply Z.log2_lt_pow2; try lia. apply Z.lt_le_trans with (2 ^ n); [lia|]. apply Z.pow_le_mono_r; lia.
Qed.
(* disjoint bits *)
Lemma lor_add a b n : 0 <= n -> 0 <= b < 2 ^ n -> Z.lor (a * 2 ^ n) b = a * 2 ^ n + b.
Proof.
  intros Hn Hb. rewrite <- Z.lxor_lor, Z.add_nocarry_lxor; auto.
  all: apply Z.bits_inj'; intros k Hk; rewrite Z.land_spec, Z.bits_0; apply andb_false_iff.
  all: destruct (Z_lt_le_dec k n); [left; rewrite <- Z.shiftl_mul_pow2 by lia; apply Z.shiftl_spec_low; lia|right; now apply bits_above with n].
Qed.
Lemma lxor_word a b : word a -> word b -> word (Z.lxor a b).
Proof.
  unfold word. intros Ha Hb. assert (0 <= Z.lxor a b) by (apply Z.lxor_nonneg; lia). split; auto.
  destruct (Z.eq_dec (Z.lxor a b) 0); [lia|]. apply Z.log2_lt_pow2; try lia.
  assert (Z.log2 (Z.lxor a b) <= Z.max (Z.log2 a) (Z.log2 b)) by (apply Z.log2_lxor; lia).
  assert (Z.log2 a < 32) by (destruct (Z.eq_dec a 0) as [->|]; [reflexivity|apply Z.log2_lt_pow2; lia]).
  assert (Z.log2 b < 32) by (destruct (Z.eq_dec b 0) as [->|]; [reflexivity|apply Z.log2_lt_pow2; lia]). lia.
Qed.

Lemma rotr_word n x : 0 <= n <= 32 -> word x -> word (rotr n x).
Proof.
  unfold word, rotr. intros Hn Hx.
  assert (E : 2 ^ 32 = 2 ^ n * 2 ^ (32 - n)) by (rewrite <- Z.pow_add_r by lia; f_equal; lia).
  assert (0 < 2 ^ n) by (apply Z.pow_pos_nonneg; lia). assert (0 < 2 ^ (32 - n)) by (apply Z.pow_pos_nonneg; lia).
  rewrite E in *. set (P := 2 ^ n) in *. set (Q := 2 ^ (32 - n)) in *. clearbody P Q.
  assert (0 <= x / P) by (apply Z.div_pos; lia). assert (x / P < Q) by (apply Z.div_lt_upper_bound; lia).
  assert (0 <= x mod P < P) by (apply Z.mod_pos_bound; lia). nia.
Qed.
(* a rotation to the left by 32 - n *)
Lemma ROTATE_rotr n x : 0 < n < 32 -> word x -> ROTATE x (32 - n) = rotr n x.
Proof.
  unfold word, ROTATE, rotr, w32. intros Hn Hx.
  change 0xffffffff with (Z.ones 32). rewrite Z.land_ones, (Z.mod_small x) by lia.
  rewrite Z.shiftl_mul_pow2, Z.shiftr_div_pow2 by lia. replace (32 - (32 - n)) with n by lia.
  assert (E : 2 ^ 32 = 2 ^ n * 2 ^ (32 - n)) by (rewrite <- Z.pow_add_r by lia; f_equal; lia).
  assert (0 < 2 ^ n) by (apply Z.pow_pos_nonneg; lia). assert (0 < 2 ^ (32 - n)) by (apply Z.pow_pos_nonneg; lia).
  rewrite E, Z.mul_mod_distr_r by lia.
  rewrite lor_add; [lia|lia|]. split; [apply Z.div_pos; lia|]. apply Z.div_lt_upper_bound; lia.
Qed.
Lemma shr_word n x : 0 <= n -> word x -> word (shr n x).
Proof.
  unfold word, shr. intros Hn Hx. assert (0 < 2 ^ n) by (apply Z.pow_pos_nonneg; lia).
  split; [apply Z.div_pos; lia|]. apply Z.le_lt_trans with x; [apply Z.div_le_upper_bound; nia|lia].
Qed.
Lemma Sigma0_ok x : word x -> Sigma0 x = bsig0 x.
Proof. intros. unfold Sigma0, bsig0. now rewrite <- !ROTATE_rotr by (auto; lia). Qed.
Lemma Sigma1_ok x : word x -> Sigma1 x = bsig1 x.
Proof. intros. unfold Sigma1, bsig1. now rewrite <- !ROTATE_rotr by (auto; lia). Qed.
Lemma sigma0_ok x : word x -> sigma0 x = ssig0 x.
Proof. intros. unfold sigma0, ssig0. rewrite <- !ROTATE_rotr by (auto; lia). unfold shr. now rewrite Z.shiftr_div_pow2 by lia. Qed.
Lemma sigma1_ok x : word x -> sigma1 x = ssig1 x.
Proof. intros. unfold sigma1, ssig1. rewrite <- !ROTATE_rotr by (auto; lia). unfold shr. now rewrite Z.shiftr_div_pow2 by lia. Qed.
Lemma Ch_ok x y z : word x -> Ch x y z = ch x y z.
Proof.
  unfold word, Ch, ch. intros. do 2 f_equal. unfold w32, Z.lnot. rewrite <- (Z.mod_small (2 ^ 32 - 1 - x) (2 ^ 32)) by lia.
  replace (2 ^ 32 - 1 - x) with (Z.pred (- x) + 1 * 2 ^ 32) by lia. now rewrite Z.mod_add by lia.
Qed.
Lemma K256_ok : K256 = sha_K.
Proof. vm_compute. reflexivity. Qed.

(** ** Bytes *)
Lemma byte_in d i : bytes d -> 0 <= i < len d -> byte (get d i).
Proof. intros H Hi. unfold bytes in H. rewrite Forall_forall in H. apply H, get_In; auto. Qed.
Lemma slice4 d o : 0 <= o -> o + 4 <= len d -> slice d o 4 = [get d o; get d (o + 1); get d (o + 2); get d (o + 3)].
Proof.
  intros Ho Hl. apply list_ext; unfold slice.
  - unfold len in *. rewrite firstn_length, skipn_length. cbn [length]. lia.
  - intros i Hi. assert (Hi' : 0 <= i < 4) by (unfold len in *; rewrite firstn_length, skipn_length in Hi; lia).
    assert (E : get (firstn (Z.to_nat 4) (skipn (Z.to_nat o) d)) i = get d (o + i)).
    { rewrite <- (firstn_skipn (Z.to_nat o) d) at 2. rewrite get_app_r by (unfold len in *; rewrite firstn_length; lia).
      replace (o + i - len (firstn (Z.to_nat o) d)) with i by (unfold len in *; rewrite firstn_length; lia).
      rewrite <- (firstn_skipn (Z.to_nat 4) (skipn (Z.to_nat o) d)) at 2.
      rewrite get_app_l; auto. unfold len in *. rewrite firstn_length, skipn_length. lia. }
    rewrite E. assert (i = 0 \/ i = 1 \/ i = 2 \/ i = 3) as [->|[->|[->| ->]]] by lia; [rewrite Z.add_0_r| | |]; reflexivity.
Qed.
Lemma HOST_c2l_ok d o : bytes d -> 0 <= o -> o + 4 <= len d ->
  sat (HOST_c2l d o) (fun '(l, o') => l = of_be (slice d o 4) /\ o' = o + 4 /\ word l).
Proof.
  intros Hd Ho Hl. unfold HOST_c2l. wp; try lia. rewrite slice4 by lia.
  pose proof (byte_in d o Hd ltac:(lia)) as B0. pose proof (byte_in d (o + 1) Hd ltac:(lia)) as B1.
  pose proof (byte_in d (o + 2) Hd ltac:(lia)) as B2. pose proof (byte_in d (o + 3) Hd ltac:(lia)) as B3.
  unfold byte in *. set (b0 := get d o) in *. set (b1 := get d (o + 1)) in *. set (b2 := get d (o + 2)) in *. set (b3 := get d (o + 3)) in *. clearbody b0 b1 b2 b3.
  rewrite !Z.shiftl_mul_pow2 by lia.
  rewrite (w32_id (b0 * 2 ^ 24)) by (unfold word; lia).
  rewrite (lor_add b0) by lia. rewrite (w32_id (_ + _)) by (unfold word; lia).
  replace (b0 * 2 ^ 24 + b1 * 2 ^ 16) with ((b0 * 2 ^ 8 + b1) * 2 ^ 16) by lia.
  rewrite lor_add by lia. rewrite (w32_id (_ + _)) by (unfold word; lia).
  replace ((b0 * 2 ^ 8 + b1) * 2 ^ 16 + b2 * 2 ^ 8) with ((b0 * 2 ^ 16 + b1 * 2 ^ 8 + b2) * 2 ^ 8) by lia.
  rewrite lor_add by lia. rewrite (w32_id (_ + _)) by (unfold word; lia).
  split; [|split; [reflexivity|unfold word; lia]]. unfold of_be. cbn [fold_left]. lia.
Qed.

(** ** The rounds *)
Definition wregs (s : regs) : Prop :=
  let '(a, b, c, d, e, f, g, h) := s in word a /\ word b /\ word c /\ word d /\ word e /\ word f /\ word g /\ word h.
Section Rounds.
Variable W : list Z.
Hypothesis LW : len W = 64.
Hypothesis HW : forall t, 0 <= t < 64 -> word (get W t).
Notation step := (step sha_K W).

Lemma ROUND_ok i a b c d e f g h : 0 <= i < 64 -> wregs (a, b, c, d, e, f, g, h) ->
  sat (ROUND_00_15 i a b c d e f g h (get W i)) (fun '(d', h') =>
    step (a, b, c, d, e, f, g, h) i = (h', a, b, c, d', e, f, g) /\ wregs (h', a, b, c, d', e, f, g)).
Proof.
  intros Hi (Ha & Hb & Hc & Hd & He & Hf & Hg & Hh). unfold ROUND_00_15. rewrite K256_ok. wp.
  - change (len sha_K) with 64. lia.
  - cbv zeta. rewrite Sigma1_ok, Ch_ok, Sigma0_ok by auto. unfold Maj. fold (maj a b c).
    rewrite (w32_add_r (get W i)). unfold SpecSha.step.
    replace (get W i + (h + bsig1 e + ch e f g + get sha_K i)) with (h + bsig1 e + ch e f g + get sha_K i + get W i) by lia.
    rewrite (Z.add_comm (w32 (bsig0 a + maj a b c))). split; [reflexivity|]. cbn [wregs]. do 7 (split; [first [assumption|apply w32_word]|]). assumption.
Qed.

(* the last words of the schedule are in X *)
Definition holds (X : list Z) (t : Z) : Prop := len X = 16 /\ forall j, t - 16 <= j < t -> 0 <= j -> get X (j mod 16) = get W j.

Lemma mod16 i : Z.land i 0x0f = i mod 16.
Proof. change 0x0f with (Z.ones 4). now rewrite Z.land_ones by lia. Qed.

Hypothesis Wext : forall t, 16 <= t < 64 -> get W t = w32 (ssig1 (get W (t - 2)) + get W (t - 7) + ssig0 (get W (t - 15)) + get W (t - 16)).

Lemma ROUND16_ok i a b c d e f g h X : 16 <= i < 64 -> wregs (a, b, c, d, e, f, g, h) -> holds X i ->
  sat (ROUND_16_63 i a b c d e f g h X) (fun '(d', h', X') =>
    step (a, b, c, d, e, f, g, h) i = (h', a, b, c, d', e, f, g) /\ wregs (h', a, b, c, d', e, f, g) /\ holds X' (i + 1)).
Proof.
  intros Hi Hr [LX HX]. unfold ROUND_16_63. rewrite !mod16.
  assert (B : forall k, 0 <= k mod 16 < 16) by (intros; apply Z.mod_pos_bound; lia).
  assert (E : forall k, 0 <= k < 16 -> get X ((i + k) mod 16) = get W (i + k - 16)).
  { intros k Hk. rewrite <- HX by lia. f_equal. replace (i + k) with (i + k - 16 + 1 * 16) at 1 by lia. now rewrite Z.mod_add by lia. }
  do 4 (apply sat_bind, sat_aget; [pose proof (B i); pose proof (B (i + 1)); pose proof (B (i + 9)); pose proof (B (i + 14)); lia|]; cbv beta zeta).
  rewrite !E by lia. replace (get X (i mod 16)) with (get W (i - 16)) by (rewrite <- (Z.add_0_r i) at 2; rewrite E by lia; f_equal; lia).
  assert (ET : w32 (get W (i - 16) + w32 (sigma0 (get W (i + 1 - 16)) + sigma1 (get W (i + 14 - 16)) + get W (i + 9 - 16))) = get W i).
  { rewrite w32_add_r, (Wext i) by lia. rewrite sigma0_ok, sigma1_ok by (apply HW; lia).
    replace (i + 1 - 16) with (i - 15) by lia. replace (i + 14 - 16) with (i - 2) by lia. replace (i + 9 - 16) with (i - 7) by lia. f_equal. lia. }
  rewrite ET. wp; [pose proof (B i); lia|]. eapply sat_mono; [apply ROUND_ok; auto; lia|]. intros [d' h'] [E1 E2]. wp.
  split; [auto|]. split; [auto|]. split; [len; lia|]. intros j Hj Hj0.
  rewrite get_upd_in by (pose proof (B i); lia). destruct (Z.eqb_spec (i mod 16) (j mod 16)); [f_equal; lia|].
  assert (j <> i) by (intros ->; lia). apply HX; lia.
Qed.

Variable data : list Z.
Variable o0 : Z.
Hypothesis Hdata : bytes data.
Hypothesis Ho : 0 <= o0 /\ o0 + 64 <= len data.
Hypothesis Wdata : forall t, 0 <= t < 16 -> get W t = of_be (slice data (o0 + 4 * t) 4).

Lemma READ_ROUND_ok i a b c d e f g h st : 0 <= i < 16 -> wregs (a, b, c, d, e, f, g, h) -> fst st = o0 + 4 * i -> holds (snd st) i ->
  sat (READ_ROUND data i a b c d e f g h st) (fun '(d', h', st') =>
    step (a, b, c, d, e, f, g, h) i = (h', a, b, c, d', e, f, g) /\ wregs (h', a, b, c, d', e, f, g) /\
    fst st' = o0 + 4 * (i + 1) /\ holds (snd st') (i + 1)).
Proof.
  intros Hi Hr Eo [LX HX]. destruct st as [o X]. cbn [fst snd] in *. unfold READ_ROUND. apply sat_bind.
  eapply sat_mono; [apply HOST_c2l_ok; auto; lia|]. intros [l o'] (-> & -> & _). cbv beta. subst o. rewrite <- Wdata by lia.
  wp; [lia|]. eapply sat_mono; [apply ROUND_ok; auto; lia|]. intros [d' h'] [E1 E2]. wp. cbn [fst snd].
  split; [auto|]. split; [auto|]. split; [lia|]. split; [len; lia|]. intros j Hj Hj0. rewrite (Z.mod_small j) by lia.
  rewrite get_upd_in by lia. destruct (Z.eqb_spec i j); [f_equal; lia|]. rewrite <- (Z.mod_small j 16) at 1 by lia. apply HX; lia.
Qed.

Lemma holds_eq X a b : holds X a -> a = b -> holds X b. Proof. congruence. Qed.
Lemma steps8 i s : fold_left step (zseq i (i + 8)) s =
  step (step (step (step (step (step (step (step s (i + 0)) (i + 1)) (i + 2)) (i + 3)) (i + 4)) (i + 5)) (i + 6)) (i + 7).
Proof. unfold zseq. replace (Z.to_nat (i + 8 - i)) with 8%nat by lia. reflexivity. Qed.

Lemma first_rounds_ok i s st : 0 <= i <= 8 -> wregs s -> fst st = o0 + 4 * i -> holds (snd st) i ->
  sat (first_rounds data i s st) (fun '(s', st') =>
    s' = fold_left step (zseq i (i + 8)) s /\ wregs s' /\ fst st' = o0 + 4 * (i + 8) /\ holds (snd st') (i + 8)).
Proof.
  intros Hi Hr E H. destruct s as [[[[[[[a b] c] d] e] f] g] h]. unfold first_rounds.
  rewrite steps8.
  apply sat_bind. eapply sat_mono; [apply READ_ROUND_ok; [lia|exact Hr|lia|eapply holds_eq; [eassumption|lia]]|].
  intros [[d1 h1] st1] (E1 & R1 & F1 & H1). cbv beta iota. rewrite E1.
  apply sat_bind. eapply sat_mono; [apply READ_ROUND_ok; [lia|exact R1|lia|eapply holds_eq; [eassumption|lia]]|].
  intros [[c2 g2] st2] (E2 & R2 & F2 & H2). cbv beta iota. rewrite E2.
  apply sat_bind. eapply sat_mono; [apply READ_ROUND_ok; [lia|exact R2|lia|eapply holds_eq; [eassumption|lia]]|].
  intros [[b3 f3] st3] (E3 & R3 & F3 & H3). cbv beta iota. rewrite E3.
  apply sat_bind. eapply sat_mono; [apply READ_ROUND_ok; [lia|exact R3|lia|eapply holds_eq; [eassumption|lia]]|].
  intros [[a4 e4] st4] (E4 & R4 & F4 & H4). cbv beta iota. rewrite E4.
  apply sat_bind. eapply sat_mono; [apply READ_ROUND_ok; [lia|exact R4|lia|eapply holds_eq; [eassumption|lia]]|].
  intros [[h5 d5] st5] (E5 & R5 & F5 & H5). cbv beta iota. rewrite E5.
  apply sat_bind. eapply sat_mono; [apply READ_ROUND_ok; [lia|exact R5|lia|eapply holds_eq; [eassumption|lia]]|].
  intros [[g6 c6] st6] (E6 & R6 & F6 & H6). cbv beta iota. rewrite E6.
  apply sat_bind. eapply sat_mono; [apply READ_ROUND_ok; [lia|exact R6|lia|eapply holds_eq; [eassumption|lia]]|].
  intros [[f7 b7] st7] (E7 & R7 & F7 & H7). cbv beta iota. rewrite E7.
  apply sat_bind. eapply sat_mono; [apply READ_ROUND_ok; [lia|exact R7|lia|eapply holds_eq; [eassumption|lia]]|].
  intros [[e8 a8] st8] (E8 & R8 & F8 & H8). cbv beta iota. rewrite E8.
  wp. split; [reflexivity|]. split; [exact R8|]. split; [lia|]. eapply holds_eq; [eassumption|lia].
Qed.

Lemma next_rounds_ok i s X : 16 <= i <= 56 -> wregs s -> holds X i ->
  sat (next_rounds i s X) (fun '(s', X') => s' = fold_left step (zseq i (i + 8)) s /\ wregs s' /\ holds X' (i + 8)).
Proof.
  intros Hi Hr H. destruct s as [[[[[[[a b] c] d] e] f] g] h]. unfold next_rounds.
  rewrite steps8.
  apply sat_bind. eapply sat_mono; [apply ROUND16_ok; [lia|exact Hr|eapply holds_eq; [eassumption|lia]]|].
  intros [[d1 h1] X1] (E1 & R1 & H1). cbv beta iota. rewrite E1.
  apply sat_bind. eapply sat_mono; [apply ROUND16_ok; [lia|exact R1|eapply holds_eq; [eassumption|lia]]|].
  intros [[c2 g2] X2] (E2 & R2 & H2). cbv beta iota. rewrite E2.
  apply sat_bind. eapply sat_mono; [apply ROUND16_ok; [lia|exact R2|eapply holds_eq; [eassumption|lia]]|].
  intros [[b3 f3] X3] (E3 & R3 & H3). cbv beta iota. rewrite E3.
  apply sat_bind. eapply sat_mono; [apply ROUND16_ok; [lia|exact R3|eapply holds_eq; [eassumption|lia]]|].
  intros [[a4 e4] X4] (E4 & R4 & H4). cbv beta iota. rewrite E4.
  apply sat_bind. eapply sat_mono; [apply ROUND16_ok; [lia|exact R4|eapply holds_eq; [eassumption|lia]]|].
  intros [[h5 d5] X5] (E5 & R5 & H5). cbv beta iota. rewrite E5.
  apply sat_bind. eapply sat_mono; [apply ROUND16_ok; [lia|exact R5|eapply holds_eq; [eassumption|lia]]|].
  intros [[g6 c6] X6] (E6 & R6 & H6). cbv beta iota. rewrite E6.
  apply sat_bind. eapply sat_mono; [apply ROUND16_ok; [lia|exact R6|eapply holds_eq; [eassumption|lia]]|].
  intros [[f7 b7] X7] (E7 & R7 & H7). cbv beta iota. rewrite E7.
  apply sat_bind. eapply sat_mono; [apply ROUND16_ok; [lia|exact R7|eapply holds_eq; [eassumption|lia]]|].
  intros [[e8 a8] X8] (E8 & R8 & H8). cbv beta iota. rewrite E8.
  wp. split; [reflexivity|]. split; [exact R8|]. eapply holds_eq; [eassumption|lia].
Qed.

Lemma all_rounds_ok s X : wregs s -> len X = 16 ->
  sat ('(s, st) <- first_rounds data 0 s (o0, X) ;; '(s, st) <- first_rounds data 8 s st ;;
       let '(o, X) := st in
       '(s, X) <- for_ 0 6 (fun k '(s, X) => next_rounds (16 + 8 * k) s X) (s, X) ;; Ok (s, (o, X)))
    (fun '(s', (o, X)) => s' = fold_left step (zseq 0 64) s /\ wregs s' /\ o = o0 + 64 /\ len X = 16).
Proof.
  intros Hs LX. apply sat_bind. eapply sat_mono; [apply first_rounds_ok; cbn [fst snd]; auto; try lia; split; auto; lia|].
  intros [s1 st1] (E1 & R1 & F1 & H1). cbv beta iota. apply sat_bind.
  eapply sat_mono; [apply (first_rounds_ok 8); auto; try lia|].
  intros [s2 [o2 X2]] (E2 & R2 & F2 & H2). cbv beta iota. cbn [fst snd] in *. apply sat_bind.
  apply (for_spec (fun k '(s', X') => s' = fold_left step (zseq 0 (16 + 8 * k)) s /\ wregs s' /\ holds X' (16 + 8 * k))).
  - lia.
  - split; [|split; auto]. rewrite E2, E1, <- fold_left_app. f_equal.
  - intros k [s' X'] Hk (E' & R' & H'). eapply sat_mono; [apply next_rounds_ok; auto; lia|].
    intros [s3 X3] (E3 & R3 & H3). split; [|split; auto; eapply holds_eq; [eassumption|lia]].
    rewrite E3, E', <- fold_left_app. f_equal. rewrite (zseq_split 0 (16 + 8 * k) (16 + 8 * (k + 1))) by lia. do 2 f_equal. lia.
  - intros [s' X'] (E' & R' & H'). wp. split; [exact E'|]. split; [auto|]. split; [lia|]. apply H'.
Qed.
End Rounds.
