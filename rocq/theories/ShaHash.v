(** Hashing a message given by pieces with src/sha256.c. *)
From Verif Require Import Base BaseFacts Spec SpecFacts RowList EchInv ElimFacts SpecSha Sha ShaProofs.
From Coq Require Import ZifyBool.
Ltac Zify.zify_post_hook ::= Z.to_euclidean_division_equations.

Lemma sat_bind_inv {X Y} (e : res X) (f : X -> res Y) Q : sat (bind e f) Q -> sat e (fun x => sat (f x) Q).
Proof. destruct e; auto. Qed.

(** ** Slices *)
Section Slices.
Context {A : Type}.
Implicit Types l a b : list A.
Lemma len_slice l o k : 0 <= o -> 0 <= k -> o + k <= len l -> len (slice l o k) = k.
Proof. intros. unfold slice, len in *. rewrite firstn_length, skipn_length. lia. Qed.
Lemma slice_all l k : k = len l -> slice l 0 k = l.
Proof. intros ->. unfold slice, len. cbn [skipn Z.to_nat]. rewrite firstn_all2; auto. lia. Qed.
Lemma slice_0 l o : slice l o 0 = [].
Proof. reflexivity. Qed.
Lemma firstn_len_app a b k : k = len a -> firstn (Z.to_nat k) (a ++ b) = a.
Proof. intros ->. unfold len. rewrite Nat2Z.id, firstn_app, Nat.sub_diag, firstn_O, app_nil_r. apply firstn_all2. lia. Qed.
Lemma skipn_len_app a b k : k = len a -> skipn (Z.to_nat k) (a ++ b) = b.
Proof. intros ->. unfold len. rewrite Nat2Z.id, skipn_app, Nat.sub_diag, skipn_all2 by lia. reflexivity. Qed.
Lemma slice_app_l a b o k : 0 <= o -> 0 <= k -> o + k <= len a -> slice (a ++ b) o k = slice a o k.
Proof.
  intros. unfold slice, len in *. rewrite skipn_app, firstn_app.
  replace (Z.to_nat k - length (skipn (Z.to_nat o) a))%nat with 0%nat by (rewrite skipn_length; lia).
  now rewrite firstn_O, app_nil_r.
Qed.
Lemma slice_app_r a b o k : len a <= o -> slice (a ++ b) o k = slice b (o - len a) k.
Proof.
  intros. unfold slice, len in *. rewrite skipn_app, (skipn_all2 a) by lia. cbn [app]. do 2 f_equal. lia.
Qed.
Lemma skipn_skipn_ l (i j : nat) : skipn i (skipn j l) = skipn (j + i) l.
Proof. revert l. induction j as [|j IH]; intros l; [reflexivity|]. destruct l; [now rewrite !skipn_nil|]. apply IH. Qed.
Lemma slice_slice l o k o' k' : 0 <= o -> 0 <= o' -> 0 <= k' -> o' + k' <= k -> slice (slice l o k) o' k' = slice l (o + o') k'.
Proof.
  intros. unfold slice. rewrite skipn_firstn_comm, firstn_firstn, skipn_skipn_.
  f_equal; [lia|]. f_equal. lia.
Qed.
Lemma slice_split l o k1 k2 : 0 <= o -> 0 <= k1 -> 0 <= k2 -> slice l o (k1 + k2) = slice l o k1 ++ slice l (o + k1) k2.
Proof.
  intros. unfold slice. replace (Z.to_nat (o + k1)) with (Z.to_nat o + Z.to_nat k1)%nat by lia. rewrite <- skipn_skipn_.
  replace (Z.to_nat (k1 + k2)) with (Z.to_nat k1 + Z.to_nat k2)%nat by lia.
  set (m := skipn (Z.to_nat o) l). rewrite <- (firstn_skipn (Z.to_nat k1) (firstn (Z.to_nat k1 + Z.to_nat k2) m)).
  rewrite firstn_firstn, skipn_firstn_comm. f_equal; f_equal; lia.
Qed.
Lemma Forall_slice P l o k : Forall P l -> Forall P (slice l o k).
Proof.
  intros H. unfold slice. rewrite <- (firstn_skipn (Z.to_nat o) l) in H. apply Forall_app in H as [_ H].
  rewrite <- (firstn_skipn (Z.to_nat k)) in H. now apply Forall_app in H as [H _].
Qed.
Lemma Forall_firstn_ P (n : nat) l : Forall P l -> Forall P (firstn n l).
Proof. intros H. rewrite <- (firstn_skipn n) in H. now apply Forall_app in H as [H _]. Qed.
Lemma Forall_skipn_ P (n : nat) l : Forall P l -> Forall P (skipn n l).
Proof. intros H. rewrite <- (firstn_skipn n) in H. now apply Forall_app in H as [_ H]. Qed.
Lemma Forall_fill (P : A -> Prop) k (x : A) : P x -> Forall P (fill k x).
Proof. intros H. unfold fill. apply Forall_forall. intros y Hy. apply repeat_spec in Hy. now subst. Qed.
End Slices.

(** ** The message schedule *)
Lemma len_extend k W : len (extend k W) = len W + Z.of_nat k.
Proof. revert W. induction k as [|k IH]; intros W; cbn [extend]; [lia|]. rewrite IH, len_app, len_cons, len_nil. lia. Qed.
Lemma get_extend k W t : t < len W -> get (extend k W) t = get W t.
Proof.
  revert W. induction k as [|k IH]; intros W Ht; cbn [extend]; [reflexivity|].
  rewrite IH by (rewrite len_app, len_cons, len_nil; lia). now rewrite get_app_l by lia.
Qed.
Lemma extend_rec k W t : 16 <= len W -> len W <= t < len W + Z.of_nat k ->
  get (extend k W) t = w32 (ssig1 (get (extend k W) (t - 2)) + get (extend k W) (t - 7) + ssig0 (get (extend k W) (t - 15)) + get (extend k W) (t - 16)).
Proof.
  revert W. induction k as [|k IH]; intros W L Ht; [lia|]. cbn [extend]. set (W' := W ++ _).
  assert (L' : len W' = len W + 1) by (unfold W'; rewrite len_app, len_cons, len_nil; lia).
  destruct (Z.eq_dec t (len W)) as [->|].
  - rewrite !get_extend by lia. unfold W'. rewrite get_app_r by lia. rewrite !get_app_l by lia. rewrite Z.sub_diag. reflexivity.
  - apply IH; lia.
Qed.
Lemma of_be_word l : bytes l -> len l = 4 -> word (of_be l).
Proof.
  intros H L. destruct l as [|a [|b [|c [|d [|e l]]]]]; len; try (rewrite ?len_nil in L; pose proof (len_nonneg l); lia);
    try (exfalso; unfold len in L; cbn [length] in L; lia).
  inversion_clear H as [|? ? Ha H1]. inversion_clear H1 as [|? ? Hb H2]. inversion_clear H2 as [|? ? Hc H3]. inversion_clear H3 as [|? ? Hd H4].
  unfold byte, word, of_be in *. cbn [fold_left]. lia.
Qed.
Lemma len_words b : len (words b) = 16. Proof. reflexivity. Qed.
Lemma get_words b t : 0 <= t < 16 -> get (words b) t = of_be (slice b (4 * t) 4).
Proof.
  intros Ht. unfold words. assert (t = Z.of_nat (Z.to_nat t)) as -> by lia.
  assert (D : (Z.to_nat t < 16)%nat) by lia. revert D. generalize (Z.to_nat t). intros n Hn.
  do 16 (destruct n as [|n]; [reflexivity|]). lia.
Qed.

(** ** The block function *)
Lemma blocks_app a b k : 0 <= k -> len a = 64 * k -> blocks (a ++ b) = blocks a ++ blocks b.
Proof.
  intros Hk La. unfold blocks. rewrite len_app, La. replace ((64 * k + len b) / 64) with (k + len b / 64) by lia.
  replace (64 * k / 64) with k by lia. pose proof (len_nonneg b).
  rewrite (zseq_split 0 k (k + len b / 64)), map_app by (split; [lia|]; pose proof (Z.div_pos (len b) 64 ltac:(lia) ltac:(lia)); lia). f_equal.
  - apply map_ext_in. intros i Hi. apply In_zseq in Hi. apply slice_app_l; lia.
  - unfold zseq. replace (Z.to_nat (k + len b / 64 - k)) with (Z.to_nat (len b / 64 - 0)) by lia. rewrite !map_map.
    apply map_ext. intros i. rewrite slice_app_r by lia. f_equal. lia.
Qed.
Lemma absorb_app H a b k : 0 <= k -> len a = 64 * k -> absorb H (a ++ b) = absorb (absorb H a) b.
Proof. intros. unfold absorb. rewrite (blocks_app a b k), fold_left_app by auto. reflexivity. Qed.
Lemma absorb_block H b : len b = 64 -> absorb H b = compress H b.
Proof.
  intros L. unfold absorb. assert (E : blocks b = [b]).
  { unfold blocks. rewrite L. change (zseq 0 (64 / 64)) with [0]. cbn [map]. now rewrite slice_all by lia. }
  rewrite E. generalize compress. reflexivity.
Qed.
Lemma absorb_nil H : absorb H [] = H. Proof. reflexivity. Qed.

Lemma len_add_regs H s : len (add_regs H s) = 8. Proof. destruct s as [[[[[[[? ?] ?] ?] ?] ?] ?] ?]. reflexivity. Qed.
Lemma word_add_regs H s : Forall word (add_regs H s).
Proof. destruct s as [[[[[[[? ?] ?] ?] ?] ?] ?] ?]. unfold add_regs. repeat (apply Forall_cons; [apply w32_word|]). apply Forall_nil. Qed.

Definition hstate (H : list Z) : Prop := len H = 8 /\ Forall word H.
Lemma hstate_compress H b : hstate (compress H b).
Proof.
  unfold compress. generalize (fold_left (step sha_K (schedule b)) (zseq 0 64) (get_regs H)). intros s.
  split; [apply len_add_regs|apply word_add_regs].
Qed.
Lemma fold_left_inv {A B} (P : A -> Prop) (f : A -> B -> A) l a : (forall a b, P (f a b)) -> P a -> P (fold_left f l a).
Proof. intros Hf. revert a. induction l as [|b l IH]; intros a Ha; [exact Ha|]. cbn [fold_left]. apply IH, Hf. Qed.
Lemma hstate_absorb H l : hstate H -> hstate (absorb H l).
Proof. intros HH. unfold absorb. apply fold_left_inv; [apply hstate_compress|exact HH]. Qed.
Lemma hstate0 : hstate sha_H0.
Proof.
  assert (E : sha_H0 = sh SHA256_init) by (vm_compute; reflexivity). rewrite E. split; [reflexivity|].
  unfold SHA256_init, sh. repeat (apply Forall_cons; [unfold word; lia|]). apply Forall_nil.
Qed.

Lemma hadd_ok H k v : len H = 8 -> 0 <= k < 8 ->
  sat (hadd H k v) (fun H' => len H' = 8 /\ get H' k = w32 (get H k + v) /\ forall i, i <> k -> get H' i = get H i).
Proof.
  intros L Hk. unfold hadd. wp; try lia. split; [len; lia|]. split; [apply get_upd_eq; lia|]. intros i Hi. apply get_upd_ne. lia.
Qed.
Lemma hadd_all H a b c d e f g h : len H = 8 ->
  sat (H <- hadd H 0 a ;; H <- hadd H 1 b ;; H <- hadd H 2 c ;; H <- hadd H 3 d ;;
       H <- hadd H 4 e ;; H <- hadd H 5 f ;; H <- hadd H 6 g ;; hadd H 7 h) (fun H' => H' = add_regs H (a, b, c, d, e, f, g, h)).
Proof.
  intros L.
  apply sat_bind. eapply sat_mono; [apply hadd_ok; [exact L|lia]|]. intros H1 (L1 & E1 & F1).
  apply sat_bind. eapply sat_mono; [apply hadd_ok; [exact L1|lia]|]. intros H2 (L2 & E2 & F2).
  apply sat_bind. eapply sat_mono; [apply hadd_ok; [exact L2|lia]|]. intros H3 (L3 & E3 & F3).
  apply sat_bind. eapply sat_mono; [apply hadd_ok; [exact L3|lia]|]. intros H4 (L4 & E4 & F4).
  apply sat_bind. eapply sat_mono; [apply hadd_ok; [exact L4|lia]|]. intros H5 (L5 & E5 & F5).
  apply sat_bind. eapply sat_mono; [apply hadd_ok; [exact L5|lia]|]. intros H6 (L6 & E6 & F6).
  apply sat_bind. eapply sat_mono; [apply hadd_ok; [exact L6|lia]|]. intros H7 (L7 & E7 & F7).
  eapply sat_mono; [apply hadd_ok; [exact L7|lia]|]. intros H8 (L8 & E8 & F8).
  unfold add_regs. rewrite (Z.add_comm a), (Z.add_comm b), (Z.add_comm c), (Z.add_comm d), (Z.add_comm e), (Z.add_comm f), (Z.add_comm g), (Z.add_comm h).
  rewrite F7, F6, F5, F4, F3, F2, F1 in E8 by lia. rewrite F6, F5, F4, F3, F2, F1 in E7 by lia. rewrite F5, F4, F3, F2, F1 in E6 by lia.
  rewrite F4, F3, F2, F1 in E5 by lia. rewrite F3, F2, F1 in E4 by lia. rewrite F2, F1 in E3 by lia. rewrite F1 in E2 by lia.
  rewrite <- E1, <- E2, <- E3, <- E4, <- E5, <- E6, <- E7, <- E8.
  apply list_ext; [exact L8|]. intros i Hi. rewrite L8 in Hi.
  assert (i = 0 \/ i = 1 \/ i = 2 \/ i = 3 \/ i = 4 \/ i = 5 \/ i = 6 \/ i = 7) as [->|[->|[->|[->|[->|[->|[->| ->]]]]]]] by lia.
  - rewrite F8, F7, F6, F5, F4, F3, F2 by lia. reflexivity.
  - rewrite F8, F7, F6, F5, F4, F3 by lia. reflexivity.
  - rewrite F8, F7, F6, F5, F4 by lia. reflexivity.
  - rewrite F8, F7, F6, F5 by lia. reflexivity.
  - rewrite F8, F7, F6 by lia. reflexivity.
  - rewrite F8, F7 by lia. reflexivity.
  - rewrite F8 by lia. reflexivity.
  - reflexivity.
Qed.

Lemma schedule_rec b t : 16 <= t < 64 -> get (schedule b) t =
  w32 (ssig1 (get (schedule b) (t - 2)) + get (schedule b) (t - 7) + ssig0 (get (schedule b) (t - 15)) + get (schedule b) (t - 16)).
Proof. intros Ht. unfold schedule. apply extend_rec; rewrite len_words; lia. Qed.
Lemma schedule_word b t : 0 <= t < 16 -> get (schedule b) t = of_be (slice b (4 * t) 4).
Proof. intros Ht. unfold schedule. rewrite get_extend by (rewrite len_words; lia). now apply get_words. Qed.
Lemma schedule_words b t : bytes b -> len b = 64 -> 0 <= t < 64 -> word (get (schedule b) t).
Proof.
  intros Bb Lb Ht. destruct (Z_lt_le_dec t 16); [|rewrite schedule_rec by lia; apply w32_word].
  rewrite schedule_word by lia. apply of_be_word; [apply Forall_slice; auto|apply len_slice; lia].
Qed.

Lemma one_block_W W H data o X : hstate H -> bytes data -> 0 <= o -> o + 64 <= len data -> len X = 16 ->
  (forall t, 0 <= t < 64 -> word (get W t)) ->
  (forall t, 16 <= t < 64 -> get W t = w32 (ssig1 (get W (t - 2)) + get W (t - 7) + ssig0 (get W (t - 15)) + get W (t - 16))) ->
  (forall t, 0 <= t < 16 -> get W t = of_be (slice data (o + 4 * t) 4)) ->
  sat (a <- aget H 0 ;; b <- aget H 1 ;; c <- aget H 2 ;; d <- aget H 3 ;;
    e <- aget H 4 ;; f <- aget H 5 ;; g <- aget H 6 ;; h <- aget H 7 ;;
    '(s, st) <- first_rounds data 0 (a, b, c, d, e, f, g, h) (o, X) ;;
    '(s, st) <- first_rounds data 8 s st ;;
    let '(o, X) := st in
    '(s, X) <- for_ 0 6 (fun k '(s, X) => next_rounds (16 + 8 * k) s X) (s, X) ;;
    let '(a, b, c, d, e, f, g, h) := s in
    H <- hadd H 0 a ;; H <- hadd H 1 b ;; H <- hadd H 2 c ;; H <- hadd H 3 d ;;
    H <- hadd H 4 e ;; H <- hadd H 5 f ;; H <- hadd H 6 g ;; H <- hadd H 7 h ;;
    Ok (H, (o, X))) (fun '(H', (o', X')) => H' = add_regs H (fold_left (step sha_K W) (zseq 0 64) (get_regs H)) /\ o' = o + 64 /\ len X' = 16).
Proof.
  intros [LH WH] Hd Ho Hl LX WW We Wd. do 8 (apply sat_bind, sat_aget; [lia|]; cbv beta).
  assert (R0 : wregs (get_regs H)).
  { rewrite Forall_forall in WH. cbn [wregs get_regs]. repeat (match goal with |- _ /\ _ => split end); apply WH, get_In; lia. }
  pose proof (all_rounds_ok W WW We data o Hd ltac:(lia) Wd (get_regs H) X R0 LX) as HR.
  revert HR. generalize (fold_left (step sha_K W) (zseq 0 64) (get_regs H)). intros S HR.
  unfold get_regs in HR.
  apply sat_bind. apply sat_bind_inv in HR. eapply sat_mono; [exact HR|]. clear HR. intros [s1 st1] HR. cbv beta iota in HR.
  apply sat_bind. apply sat_bind_inv in HR. eapply sat_mono; [exact HR|]. clear HR. intros [s2 [o2 X2]] HR. cbv beta iota in HR.
  apply sat_bind. apply sat_bind_inv in HR. eapply sat_mono; [exact HR|]. clear HR. intros [s3 X3] HR. cbn [sat] in HR.
  destruct HR as (-> & _ & -> & L3). destruct S as [[[[[[[a1 b1] c1] d1] e1] f1] g1] h1].
  pose proof (hadd_all H a1 b1 c1 d1 e1 f1 g1 h1 LH) as HA. revert HA.
  generalize (add_regs H (a1, b1, c1, d1, e1, f1, g1, h1)). intros R HA.
  do 7 (apply sat_bind; apply sat_bind_inv in HA; eapply sat_mono; [exact HA|]; clear HA; intros ? HA; cbv beta in HA).
  apply sat_bind. eapply sat_mono; [exact HA|]. intros H8 ->. cbn [sat]. auto.
Qed.

Lemma one_block H data o X : hstate H -> bytes data -> 0 <= o -> o + 64 <= len data -> len X = 16 ->
  sat (a <- aget H 0 ;; b <- aget H 1 ;; c <- aget H 2 ;; d <- aget H 3 ;;
    e <- aget H 4 ;; f <- aget H 5 ;; g <- aget H 6 ;; h <- aget H 7 ;;
    '(s, st) <- first_rounds data 0 (a, b, c, d, e, f, g, h) (o, X) ;;
    '(s, st) <- first_rounds data 8 s st ;;
    let '(o, X) := st in
    '(s, X) <- for_ 0 6 (fun k '(s, X) => next_rounds (16 + 8 * k) s X) (s, X) ;;
    let '(a, b, c, d, e, f, g, h) := s in
    H <- hadd H 0 a ;; H <- hadd H 1 b ;; H <- hadd H 2 c ;; H <- hadd H 3 d ;;
    H <- hadd H 4 e ;; H <- hadd H 5 f ;; H <- hadd H 6 g ;; H <- hadd H 7 h ;;
    Ok (H, (o, X))) (fun '(H', (o', X')) => H' = compress H (slice data o 64) /\ o' = o + 64 /\ len X' = 16).
Proof.
  intros HH Hd Ho Hl LX. unfold compress. apply one_block_W; auto.
  - intros t Ht. apply schedule_words; [apply Forall_slice; auto|apply len_slice; lia|lia].
  - intros t Ht. now apply schedule_rec.
  - intros t Ht. rewrite schedule_word by lia. now rewrite slice_slice by lia.
Qed.

Lemma block_data_order_ok g H data o num : hstate H -> bytes data -> 0 <= o -> 0 <= num -> o + 64 * num <= len data ->
  sat (sha256_block_data_order g H data o num) (fun H' => H' = absorb H (slice data o (64 * num)) /\ hstate H').
Proof.
  intros HH Hd Ho Hn Hl. unfold sha256_block_data_order. apply sat_bind.
  apply (for_spec (fun k '(H', (o', X')) => H' = absorb H (slice data o (64 * k)) /\ o' = o + 64 * k /\ len X' = 16)).
  - lia.
  - split; [reflexivity|]. split; [lia|]. rewrite len_map, len_zseq. reflexivity.
  - intros k [H' [o' X']] Hk (E & -> & LX). eapply sat_mono; [apply one_block; auto; try lia|].
    + rewrite E. now apply hstate_absorb.
    + intros [H2 [o2 X2]] (E2 & -> & L2). split; [|split; [lia|auto]].
      rewrite E2, E, <- absorb_block by (apply len_slice; lia). rewrite <- (absorb_app _ _ _ k) by (try apply len_slice; lia).
      f_equal. replace (64 * (k + 1)) with (64 * k + 64) by lia. rewrite slice_split by lia. reflexivity.
  - intros [H' [o' X']] (E & _). wp. split; [exact E|]. rewrite E. now apply hstate_absorb.
Qed.
