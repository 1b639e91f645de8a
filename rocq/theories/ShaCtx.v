(** init, updates and final of src/sha256.c compute SHA-256. *)
From Verif Require Import Base BaseFacts Spec SpecFacts RowList EchInv ElimFacts SpecSha Sha ShaProofs ShaHash.
From Coq Require Import ZifyBool.
Ltac Zify.zify_post_hook ::= Z.to_euclidean_division_equations.

(** ** Memory *)
Lemma memcpy_ok dst o src so k : 0 <= k -> 0 <= o -> o + k <= len dst -> 0 <= so -> so + k <= len src ->
  memcpy dst o src so k = Ok (firstn (Z.to_nat o) dst ++ slice src so k ++ skipn (Z.to_nat (o + k)) dst).
Proof. intros. unfold memcpy. replace (_ && _ && _ && _ && _) with true by lia. reflexivity. Qed.
Lemma memset_ok dst o v k : 0 <= k -> 0 <= o -> o + k <= len dst ->
  memset dst o v k = Ok (firstn (Z.to_nat o) dst ++ fill k v ++ skipn (Z.to_nat (o + k)) dst).
Proof. intros. unfold memset. replace (_ && _ && _) with true by lia. reflexivity. Qed.
Lemma len_firstn {A} (l : list A) k : 0 <= k <= len l -> len (firstn (Z.to_nat k) l) = k.
Proof. intros. unfold len in *. rewrite firstn_length. lia. Qed.
Lemma len_skipn {A} (l : list A) k : 0 <= k <= len l -> len (skipn (Z.to_nat k) l) = len l - k.
Proof. intros. unfold len in *. rewrite skipn_length. lia. Qed.
Lemma slice_firstn {A} (l : list A) k : slice l 0 k = firstn (Z.to_nat k) l.
Proof. reflexivity. Qed.

Lemma bytes_app a b : bytes a -> bytes b -> bytes (a ++ b).
Proof. intros. apply Forall_app. auto. Qed.
Lemma be4 x : be 4 x = [x / 2 ^ 24 mod 256; x / 2 ^ 16 mod 256; x / 2 ^ 8 mod 256; x mod 256].
Proof.
  cbn [be app]. change (2 ^ 24) with (256 * 256 * 256). change (2 ^ 16) with (256 * 256). change (2 ^ 8) with 256.
  rewrite !Z.div_div by lia. rewrite !Z.mul_assoc. reflexivity.
Qed.
Lemma len_be k x : len (be k x) = Z.of_nat k.
Proof. revert x. induction k as [|k IH]; intros x; cbn [be]; [reflexivity|]. rewrite len_app, IH, len_cons, len_nil. lia. Qed.
Lemma bytes_be k x : bytes (be k x).
Proof.
  revert x. induction k as [|k IH]; intros x; cbn [be]; [constructor|]. apply Forall_app. split; [apply IH|].
  constructor; [|constructor]. unfold byte. apply Z.mod_pos_bound. lia.
Qed.
Lemma be_app j k x : 0 <= x -> be (j + k) x = be j (x / 256 ^ Z.of_nat k) ++ be k x.
Proof.
  revert x. induction k as [|k IH]; intros x Hx; [cbn [be]; rewrite Nat.add_0_r, app_nil_r, Z.div_1_r; reflexivity|].
  replace (j + S k)%nat with (S (j + k)) by lia. cbn [be]. rewrite IH by (apply Z.div_pos; lia). rewrite app_assoc.
  do 2 f_equal. rewrite Z.div_div by (try apply Z.pow_pos_nonneg; lia). f_equal. f_equal. rewrite Nat2Z.inj_succ, Z.pow_succ_r by lia. reflexivity.
Qed.
Lemma be_mod k x : be k (x mod 256 ^ Z.of_nat k) = be k x.
Proof.
  revert x. induction k as [|k IH]; intros x; cbn [be]; [reflexivity|].
  rewrite Nat2Z.inj_succ, Z.pow_succ_r by lia. set (P := 256 ^ Z.of_nat k) in *. assert (0 < P) by (apply Z.pow_pos_nonneg; lia).
  rewrite Z.rem_mul_r by lia. f_equal.
  - rewrite <- (IH (x / 256)). f_equal. rewrite (Z.add_comm (x mod 256)), Z.mul_comm, Z.div_add_l by lia. rewrite (Z.div_small (x mod 256)) by lia.
    rewrite Z.add_0_r. reflexivity.
  - rewrite Z.mul_comm, Z.mod_add by lia. now rewrite Zmod_mod.
Qed.
Lemma of_be_snoc l b : of_be (l ++ [b]) = 256 * of_be l + b.
Proof. unfold of_be. rewrite fold_left_app. reflexivity. Qed.
Lemma of_be_be k x : 0 <= x < 256 ^ Z.of_nat k -> of_be (be k x) = x.
Proof.
  revert x. induction k as [|k IH]; intros x Hx; cbn [be]; [cbn in *; lia|].
  rewrite Nat2Z.inj_succ, Z.pow_succ_r in Hx by lia. rewrite of_be_snoc, IH; [lia|]. split; [apply Z.div_pos; lia|]. apply Z.div_lt_upper_bound; lia.
Qed.

Lemma HOST_l2c_ok l c o : 0 <= o -> o + 4 <= len c ->
  HOST_l2c l c o = Ok (firstn (Z.to_nat o) c ++ be 4 l ++ skipn (Z.to_nat (o + 4)) c, o + 4).
Proof.
  intros Ho Hl. unfold HOST_l2c. do 4 (rewrite aset_ok by (len; lia); cbn [bind]). do 2 f_equal.
  change 0xff with (Z.ones 8). rewrite !Z.land_ones, !Z.shiftr_div_pow2 by lia. change (2 ^ 8) with 256 at 1 2 3 5.
  set (a := l / _ mod _). set (b := l / _ mod _). set (d := l / _ mod _). set (e := l mod _).
  assert (E : be 4 l = [a; b; d; e]) by (rewrite be4; reflexivity). rewrite E. clearbody a b d e.
  assert (Lf := len_firstn c o ltac:(lia)). assert (Ls := len_skipn c (o + 4) ltac:(lia)).
  apply list_ext; [rewrite !len_upd, !len_app, Lf, Ls; change (len [a; b; d; e]) with 4; lia|]. intros i Hi. rewrite !len_upd in Hi.
  rewrite (get_upd_in _ (o + 3)) by (len; lia). rewrite (get_upd_in _ (o + 2)) by (len; lia). rewrite (get_upd_in _ (o + 1)) by (len; lia). rewrite (get_upd_in _ o) by (len; lia).
  destruct (Z_lt_le_dec i o).
  { rewrite get_app_l by lia. do 4 (match goal with |- context [?x =? ?y] => replace (x =? y) with false by lia end).
    rewrite <- (firstn_skipn (Z.to_nat o) c) at 1. now rewrite get_app_l by lia. }
  rewrite get_app_r, Lf by lia.
  destruct (Z_lt_le_dec i (o + 4)).
  { rewrite get_app_l by (unfold len; cbn [length]; lia).
    assert (i = o \/ i = o + 1 \/ i = o + 2 \/ i = o + 3) as [->|[->|[->| ->]]] by lia.
    - do 3 (match goal with |- context [?x =? ?y] => replace (x =? y) with false by lia end). rewrite Z.eqb_refl, Z.sub_diag. reflexivity.
    - do 2 (match goal with |- context [?x =? ?y] => replace (x =? y) with false by lia end). rewrite Z.eqb_refl. replace (o + 1 - o) with 1 by lia. reflexivity.
    - do 1 (match goal with |- context [?x =? ?y] => replace (x =? y) with false by lia end). rewrite Z.eqb_refl. replace (o + 2 - o) with 2 by lia. reflexivity.
    - rewrite Z.eqb_refl. replace (o + 3 - o) with 3 by lia. reflexivity. }
  rewrite get_app_r by (unfold len; cbn [length]; lia). change (len [a; b; d; e]) with 4.
  do 4 (match goal with |- context [?x =? ?y] => replace (x =? y) with false by lia end).
  rewrite <- (firstn_skipn (Z.to_nat (o + 4)) c) at 1. rewrite get_app_r by (rewrite len_firstn; lia). rewrite len_firstn by lia. f_equal. lia.
Qed.

(** ** Contexts *)
(* the context after the message m = m1 ++ m2: m1 is absorbed, m2 is in the buffer *)
Record repr (c : sha_ctx) (m1 m2 : list Z) : Prop := {
  re_b1 : bytes m1;
  re_b2 : bytes m2;
  re_m1 : exists k, 0 <= k /\ len m1 = 64 * k;
  re_m2 : len m2 < 64;
  re_h : sh c = absorb sha_H0 m1;
  re_data : len (sdata c) = 64 /\ bytes (sdata c) /\ firstn (Z.to_nat (len m2)) (sdata c) = m2;
  re_num : snum c = len m2;
  re_len : sNh c * 2 ^ 32 + sNl c = 8 * len (m1 ++ m2) /\ word (sNl c) /\ word (sNh c);
  re_md : smd_len c = 32
}.
Lemma repr_init : repr SHA256_init [] [].
Proof.
  constructor; cbn [SHA256_init sh sdata snum sNh sNl smd_len]; try reflexivity; try constructor.
  - exists 0. split; [lia|reflexivity].
  - reflexivity.
  - split; [|reflexivity]. apply Forall_fill. unfold byte. lia.
  - reflexivity.
  - unfold word. lia.
Qed.

Lemma count_ok Nh Nl L0 L : word Nl -> word Nh -> Nh * 2 ^ 32 + Nl = 8 * L0 -> 0 <= L0 -> 0 <= L -> L0 + L < 2 ^ 61 ->
  let l := w32 (Nl + w32 (Z.shiftl (w32 L) 3)) in
  let Nh' := if l <? Nl then w32 (Nh + 1) else Nh in
  let Nh'' := w32 (Nh' + w32 (Z.shiftr L 29)) in
  Nh'' * 2 ^ 32 + l = 8 * (L0 + L) /\ word l /\ word Nh''.
Proof.
  intros WN WH E P0 P B. cbv zeta. split; [|split; apply w32_word].
  rewrite Z.shiftl_mul_pow2, Z.shiftr_div_pow2 by lia. unfold w32, word in *.
  change (2 ^ 61) with 2305843009213693952 in *. change (2 ^ 32) with 4294967296 in *. change (2 ^ 29) with 536870912. change (2 ^ 3) with 8.
  destruct (Z.ltb_spec ((Nl + (L mod 4294967296 * 8) mod 4294967296) mod 4294967296) Nl); lia.
Qed.

Lemma update_ok g c m1 m2 data : repr c m1 m2 -> bytes data -> len (m1 ++ m2) + len data < 2 ^ 61 ->
  sat (SHA256_update g c data (len data)) (fun c' => exists m1' m2', m1' ++ m2' = m1 ++ m2 ++ data /\ repr c' m1' m2').
Proof.
  intros R Hd HL. unfold SHA256_update. pose proof (len_nonneg data) as Pd.
  destruct (Z.eqb_spec (len data) 0) as [E0|E0].
  { exists m1, m2. split; [|exact R]. destruct data; [now rewrite app_nil_r|]. rewrite len_cons in E0. pose proof (len_nonneg data). lia. }
  destruct R as [B1 B2 (k & Hk & L1) L2 Eh (Ld & Bd & Ed) En (El & WNl & WNh) Emd].
  pose proof (len_nonneg m1) as P1. pose proof (len_nonneg m2) as P2. len.
  pose proof (count_ok (sNh c) (sNl c) (len m1 + len m2) (len data) WNl WNh El ltac:(lia) Pd HL) as HC. cbv zeta in HC.
  set (l := w32 (sNl c + _)) in *. set (Nh := w32 (_ + w32 (Z.shiftr (len data) 29))) in *. clearbody l Nh.
  destruct HC as (HC & Wl & WN).
  assert (H0 : hstate (sh c)) by (rewrite Eh; apply hstate_absorb, hstate0).
  (* the second part *)
  assert (P : forall H buf num off r, r = len data - off -> 0 <= off <= len data -> hstate H ->
    (exists j, 0 <= j /\ len (m1 ++ m2 ++ firstn (Z.to_nat off) data) = 64 * j) ->
    (num = 0) -> H = absorb sha_H0 (m1 ++ m2 ++ firstn (Z.to_nat off) data) -> len buf = 64 -> bytes buf ->
    sat ('(H, off, length) <- (if 0 <? r / 64 then
         H <- sha256_block_data_order g H data off (r / 64) ;;
         Ok (H, off + 64 * (r / 64), r - 64 * (r / 64))
       else Ok (H, off, r)) ;;
    if negb (length =? 0) then
      buf <- memcpy buf 0 data off length ;;
      Ok (Ctx H l Nh buf (w32 length) (smd_len c))
    else Ok (Ctx H l Nh buf num (smd_len c)))
    (fun c' => exists m1' m2', m1' ++ m2' = m1 ++ m2 ++ data /\ repr c' m1' m2')).
  { intros H buf num off r Er Ho HH (j & Hj & Lj) Enum EH Lb Bb. apply sat_bind.
    apply (sat_mono _ (fun '(H', off', r') => off' = off + 64 * (r / 64) /\ r' = r - 64 * (r / 64) /\
      H' = absorb sha_H0 (m1 ++ m2 ++ firstn (Z.to_nat off') data))).
    - destruct (Z.ltb_spec 0 (r / 64)) as [Hr|Hr].
      + apply sat_bind. eapply sat_mono; [apply block_data_order_ok; auto; lia|]. intros H' (-> & _). cbn [sat].
        split; [reflexivity|]. split; [reflexivity|]. rewrite EH, <- (absorb_app _ _ _ j) by auto. f_equal.
        rewrite <- !app_assoc. do 2 f_equal. rewrite <- !slice_firstn, slice_split by lia. reflexivity.
      + cbn [sat]. assert (r / 64 = 0) by lia. split; [lia|]. split; [lia|]. rewrite EH. reflexivity.
    - intros [[H' off'] r'] (-> & -> & EH'). set (off' := off + 64 * (r / 64)) in *. set (r' := r - 64 * (r / 64)).
      assert (Hr' : 0 <= r' < 64) by (unfold r'; lia). assert (Eo : off' + r' = len data) by (unfold off', r'; lia).
      assert (Ho' : 0 <= off') by (unfold off'; lia).
      assert (Lo : exists i, 0 <= i /\ len (m1 ++ m2 ++ firstn (Z.to_nat off') data) = 64 * i).
      { exists (j + r / 64). split; [lia|]. len. rewrite !len_firstn in * by lia. unfold off'. lia. }
      clearbody off' r'.
      assert (Bo : bytes (m1 ++ m2 ++ firstn (Z.to_nat off') data)) by (apply Forall_app; split; [auto|apply Forall_app; split; [auto|apply Forall_firstn_; auto]]).
      assert (Sp : (m1 ++ m2 ++ firstn (Z.to_nat off') data) ++ slice data off' r' = m1 ++ m2 ++ data).
      { rewrite <- !app_assoc. do 2 f_equal. rewrite <- slice_firstn. change off' with (0 + off') at 2. rewrite <- slice_split by lia. apply slice_all. lia. }
      assert (Ls : len (slice data off' r') = r') by (apply len_slice; lia).
      destruct (Z.eqb_spec r' 0) as [Er0|Er0]; cbn [negb].
      + cbn [sat]. exists (m1 ++ m2 ++ firstn (Z.to_nat off') data), (slice data off' r'). split; [exact Sp|].
        constructor; cbn [sh sdata snum sNh sNl smd_len]; auto.
        * apply Forall_slice; auto.
        * lia.
        * split; [auto|]. split; [auto|]. rewrite Ls, Er0. reflexivity.
        * lia.
        * rewrite Sp. len. split; [lia|auto].
      + rewrite memcpy_ok by lia. cbn [bind sat]. change (firstn (Z.to_nat 0) buf) with (@nil Z). cbn [app].
        exists (m1 ++ m2 ++ firstn (Z.to_nat off') data), (slice data off' r'). split; [exact Sp|].
        constructor; cbn [sh sdata snum sNh sNl smd_len]; auto.
        * apply Forall_slice; auto.
        * lia.
        * split; [len; rewrite len_skipn by lia; lia|]. split; [apply Forall_app; split; [apply Forall_slice; auto|apply Forall_skipn_; auto]|].
          apply firstn_len_app. lia.
        * rewrite w32_id by (unfold word; lia). lia.
        * rewrite Sp. len. split; [lia|auto]. }
  rewrite En in *. destruct (Z.eqb_spec (len m2) 0) as [Z2|Z2]; cbn [negb].
  - cbn [bind]. apply P; auto; try lia.
    + exists k. destruct m2; [|rewrite len_cons in Z2; pose proof (len_nonneg m2); lia]. cbn [app firstn Z.to_nat]. rewrite app_nil_r. lia.
    + destruct m2; [|rewrite len_cons in Z2; pose proof (len_nonneg m2); lia]. cbn [app firstn Z.to_nat]. rewrite app_nil_r. exact Eh.
  - destruct ((64 <=? len data) || (64 <=? len data + len m2)) eqn:C.
    + rewrite memcpy_ok by lia. cbn [bind].
      rewrite Ed. replace (len m2 + (64 - len m2)) with 64 by lia. rewrite (skipn_all2 (n := Z.to_nat 64)) by (unfold len in *; lia). rewrite app_nil_r.
      set (b := m2 ++ slice data 0 (64 - len m2)).
      assert (Lb : len b = 64) by (unfold b; len; rewrite len_slice by lia; lia).
      assert (Bb : bytes b) by (apply Forall_app; split; [auto|apply Forall_slice; auto]).
      apply sat_bind, sat_bind. eapply sat_mono; [apply block_data_order_ok; auto; lia|]. intros H' (EH' & HH').
      rewrite memset_ok by lia. rewrite (skipn_all2 (n := Z.to_nat (0 + 64))) by (unfold len in *; lia). change (firstn (Z.to_nat 0) b) with (@nil Z). cbn [bind sat app].
      rewrite app_nil_r. rewrite (slice_all b) in EH' by lia. apply P; auto; try lia.
      * exists (k + 1). split; [lia|]. rewrite <- slice_firstn. fold b. len. lia.
      * rewrite <- slice_firstn. fold b. rewrite EH', Eh, <- (absorb_app _ _ _ k) by lia. reflexivity.
      * apply Forall_fill. unfold byte. lia.
    + rewrite memcpy_ok by lia. cbn [bind sat]. exists m1, (m2 ++ data). split; [reflexivity|].
      rewrite Ed, (slice_all data) by lia.
      constructor; cbn [sh sdata snum sNh sNl smd_len]; auto.
      * apply Forall_app; auto.
      * exists k; lia.
      * len. lia.
      * split; [len; rewrite len_skipn by lia; lia|]. split.
        -- apply Forall_app; split; [auto|]. apply Forall_app; split; [auto|apply Forall_skipn_; auto].
        -- rewrite app_assoc. apply firstn_len_app. lia.
      * rewrite w32_id by (unfold word; lia). len. lia.
      * len. split; [lia|auto].
Qed.

Lemma updates_ok g k c m1 m2 chunks : repr c m1 m2 -> Forall bytes chunks -> len (m1 ++ m2) + len (concat chunks) < 2 ^ 61 ->
  sat (updates g k c chunks) (fun c' => exists m1' m2', m1' ++ m2' = m1 ++ m2 ++ concat chunks /\ repr c' m1' m2').
Proof.
  revert k c m1 m2. induction chunks as [|d ds IH]; intros k c m1 m2 R HB HL; cbn [updates concat].
  - exists m1, m2. split; [now rewrite app_nil_r|exact R].
  - inversion_clear HB as [|? ? Hd Hds]. cbn [concat] in HL. rewrite len_app in HL. pose proof (len_nonneg (concat ds)). apply sat_bind. eapply sat_mono; [apply (update_ok _ _ m1 m2); [exact R|exact Hd|rewrite len_app in *; lia]|].
    intros c' (m1' & m2' & E & R'). eapply sat_mono; [apply (IH _ _ m1' m2'); auto|].
    + rewrite E. rewrite !len_app in *. lia.
    + intros c'' (a & b & E' & R''). exists a, b. split; [|exact R'']. rewrite E', app_assoc, E, <- !app_assoc. reflexivity.
Qed.

(** ** Final *)
Lemma write_hash H md : hstate H -> len md = 32 ->
  sat (for_ 0 8 (fun nn '(md, o) => x <- aget H nn ;; HOST_l2c x md o) (md, 0)) (fun '(md', _) => md' = flat_map (be 4) H).
Proof.
  intros [LH WH] Lm.
  apply (for_spec (fun k '(md', o) => o = 4 * k /\ md' = flat_map (be 4) (firstn (Z.to_nat k) H) ++ skipn (Z.to_nat (4 * k)) md)).
  - lia.
  - split; [lia|reflexivity].
  - intros k [md' o] Hk (-> & ->). apply sat_bind, sat_aget; [lia|].
    assert (Lf : len (flat_map (be 4) (firstn (Z.to_nat k) H)) = 4 * k).
    { assert (G : forall l, len (flat_map (be 4) l) = 4 * len l).
      { induction l as [|x l IH]; [reflexivity|]. cbn [flat_map]. rewrite len_app, len_be, IH, len_cons. lia. }
      rewrite G, len_firstn by lia. lia. }
    rewrite HOST_l2c_ok by (len; rewrite ?len_skipn by lia; lia). cbn [sat]. split; [lia|].
    rewrite firstn_len_app by lia.
    replace (firstn (Z.to_nat (k + 1)) H) with (firstn (Z.to_nat k) H ++ [get H k]).
    + rewrite flat_map_app. cbn [flat_map]. rewrite app_nil_r, <- app_assoc. do 2 f_equal.
      replace (Z.to_nat (4 * k + 4)) with (Z.to_nat (4 * k) + 4)%nat by lia. rewrite skipn_app.
      rewrite skipn_all2 by (unfold len in Lf; lia). cbn [app]. rewrite skipn_skipn_. f_equal. unfold len in Lf. lia.
    + rewrite <- !slice_firstn. rewrite (slice_split H 0 k 1) by lia. f_equal. apply list_ext.
      * rewrite len_slice by lia. reflexivity.
      * intros i Hi. change (len [get H k]) with 1 in Hi. assert (i = 0) as -> by lia. unfold slice.
        rewrite <- (firstn_skipn (Z.to_nat (0 + k)) H) at 1. rewrite get_app_r by (rewrite len_firstn by lia; lia). rewrite len_firstn by lia.
        replace (k - (0 + k)) with 0 by lia. destruct (skipn (Z.to_nat (0 + k)) H) as [|x t] eqn:Es; [reflexivity|]. reflexivity.
  - intros [md' o] (_ & ->). change (4 * 8) with 32. rewrite (skipn_all2 (n := Z.to_nat 32)) by (unfold len in *; lia). rewrite app_nil_r.
    rewrite firstn_all2 by (unfold len in *; lia). reflexivity.
Qed.

Lemma final_ok g md c m1 m2 : repr c m1 m2 -> len (m1 ++ m2) < 2 ^ 61 -> len md = 32 ->
  sat (SHA256_final g md c) (fun md' => md' = sha256 (m1 ++ m2)).
Proof.
  intros [B1 B2 (k & Hk & L1) L2 Eh (Ld & Bd & Ed) En (El & WNl & WNh) Emd] HL Lm. unfold SHA256_final, sha256.
  pose proof (len_nonneg m1) as P1. pose proof (len_nonneg m2) as P2. rewrite En.
  assert (H0 : hstate (sh c)) by (rewrite Eh; apply hstate_absorb, hstate0).
  rewrite aset_ok by lia. cbn [bind].
  assert (Ep : upd (sdata c) (len m2) 128 = m2 ++ [128] ++ skipn (Z.to_nat (len m2 + 1)) (sdata c)).
  { apply list_ext; [rewrite len_upd, !len_app, len_skipn by lia; change (len [128]) with 1; lia|]. intros i Hi. rewrite len_upd in Hi. rewrite get_upd_in by lia.
    destruct (Z.eqb_spec (len m2) i) as [<-|]; [rewrite get_app_r, Z.sub_diag by lia; reflexivity|].
    destruct (Z_lt_le_dec i (len m2)).
    - rewrite get_app_l by lia. rewrite <- (firstn_skipn (Z.to_nat (len m2)) (sdata c)), get_app_l by (rewrite len_firstn; lia). now rewrite Ed.
    - rewrite get_app_r by lia. rewrite get_app_r by (change (len [128]) with 1; lia). change (len [128]) with 1.
      rewrite <- (firstn_skipn (Z.to_nat (len m2 + 1)) (sdata c)) at 1. rewrite get_app_r by (rewrite len_firstn; lia). rewrite len_firstn by lia. f_equal. lia. }
  rewrite Ep. set (tl := skipn _ (sdata c)). assert (Lt : len tl = 63 - len m2) by (unfold tl; rewrite len_skipn by lia; lia).
  assert (Bt : bytes tl) by (apply Forall_skipn_; auto). clearbody tl. clear Ep.
  assert (B80 : bytes [128]) by (constructor; [unfold byte; lia|constructor]).
  assert (B0 : forall j, bytes (fill j 0)) by (intros; apply Forall_fill; unfold byte; lia).
  (* what remains once the last block starts with p *)
  assert (P : forall H p pre n, hstate H -> H = absorb sha_H0 pre -> (exists j, 0 <= j /\ len pre = 64 * j) -> len p = 64 -> bytes p -> 0 <= n <= 56 ->
    pre ++ firstn (Z.to_nat n) p ++ fill (56 - n) 0 = (m1 ++ m2) ++ [128] ++ fill ((55 - len (m1 ++ m2)) mod 64) 0 ->
    sat (p <- memset p n 0 (56 - n) ;;
      '(p, o) <- HOST_l2c (sNh c) p 56 ;;
      '(p, _) <- HOST_l2c (sNl c) p o ;;
      H <- sha256_block_data_order g H p 0 1 ;;
      p <- memset p 0 0 64 ;;
      _ <- assert_ (smd_len c =? 32) ;;
      '(md, _) <- for_ 0 8 (fun nn '(md, o) => x <- aget H nn ;; HOST_l2c x md o) (md, 0) ;;
      Ok md) (fun md' => md' = flat_map (be 4) (absorb sha_H0 (pad (m1 ++ m2))))).
  { intros H p pre n HH EH (j & Hj & Lp) Lq Bp Hn Epre.
    rewrite memset_ok by lia. cbn [bind]. replace (n + (56 - n)) with 56 by lia.
    set (q := firstn (Z.to_nat n) p ++ fill (56 - n) 0). assert (Lq' : len q = 56) by (unfold q; len; rewrite len_firstn by lia; lia).
    assert (Bq : bytes q) by (apply bytes_app; [apply Forall_firstn_; auto|auto]).
    rewrite app_assoc. fold q. set (t := skipn (Z.to_nat 56) p). assert (Lt' : len t = 8) by (unfold t; rewrite len_skipn by lia; lia).
    rewrite HOST_l2c_ok by (len; lia). cbn [bind]. rewrite firstn_len_app by lia.
    replace (skipn (Z.to_nat (56 + 4)) (q ++ t)) with (skipn 4 t)
      by (rewrite skipn_app, (skipn_all2 q) by (unfold len in *; lia); cbn [app]; f_equal; unfold len in *; lia).
    assert (L4 : len (skipn 4 t) = 4) by (unfold len in *; rewrite skipn_length; lia).
    rewrite (app_assoc q (be 4 (sNh c))).
    rewrite (HOST_l2c_ok (sNl c)) by (rewrite ?len_app, ?len_be; lia). cbn [bind].
    rewrite firstn_len_app by (rewrite len_app, len_be; lia).
    rewrite (skipn_all2 (n := Z.to_nat (56 + 4 + 4))) by (rewrite !app_length; pose proof (len_be 4 (sNh c)); unfold len in *; lia). rewrite app_nil_r.
    set (last := (q ++ be 4 (sNh c)) ++ be 4 (sNl c)).
    assert (Ll : len last = 64) by (unfold last; rewrite !len_app, !len_be; lia).
    assert (Bl : bytes last) by (unfold last; auto using bytes_be, bytes_app).
    apply sat_bind. eapply sat_mono; [apply block_data_order_ok; auto; lia|]. intros H' (EH' & HH').
    rewrite (slice_all last) in EH' by lia. rewrite memset_ok by lia. cbn [bind]. rewrite Emd, Z.eqb_refl. cbn [assert_ bind].
    apply sat_bind. eapply sat_mono; [apply write_hash; auto|]. intros [md' o'] ->. cbn [sat]. f_equal.
    rewrite EH', EH, <- (absorb_app _ _ _ j) by lia. f_equal. unfold last, q, pad. rewrite <- !app_assoc.
    assert (E8 : be 8 (8 * len (m1 ++ m2)) = be 4 (sNh c) ++ be 4 (sNl c)).
    { pose proof (len_nonneg (m1 ++ m2)). rewrite (be_app 4 4) by lia. rewrite <- El. change (256 ^ Z.of_nat 4) with (2 ^ 32). rewrite Z.div_add_l, (Z.div_small (sNl c)), Z.add_0_r by (unfold word in *; lia).
      f_equal. rewrite <- (be_mod 4 (_ + _)). change (256 ^ Z.of_nat 4) with (2 ^ 32). rewrite Z.add_comm, Z.mod_add, Z.mod_small by (unfold word in *; lia). reflexivity. }
    rewrite E8. rewrite <- !app_assoc in Epre. rewrite !app_assoc. rewrite !app_assoc in Epre. rewrite Epre. reflexivity. }
  destruct (Z.ltb_spec 56 (len m2 + 1)) as [C|C].
  - assert (Lx : len (m2 ++ [128] ++ tl) = 64) by (len; change (len [128]) with 1; lia).
    rewrite memset_ok by lia. cbn [bind]. replace (len m2 + 1 + (64 - (len m2 + 1))) with 64 by lia.
    rewrite (skipn_all2 (n := Z.to_nat 64)) by (unfold len in *; lia). rewrite app_nil_r.
    replace (firstn (Z.to_nat (len m2 + 1)) (m2 ++ [128] ++ tl)) with (m2 ++ [128]).
    2:{ rewrite app_assoc. symmetry. apply firstn_len_app. len. reflexivity. }
    set (b := (m2 ++ [128]) ++ fill (64 - (len m2 + 1)) 0).
    assert (Lb : len b = 64) by (unfold b; len; change (len [128]) with 1; lia).
    assert (Bb : bytes b) by (unfold b; auto using bytes_app).
    apply sat_bind, sat_bind. eapply sat_mono; [apply block_data_order_ok; auto; lia|]. intros H' (EH' & HH').
    rewrite (slice_all b) in EH' by lia. cbn [sat].
    apply (P H' b (m1 ++ b) 0); auto; try lia.
    + rewrite EH', Eh, <- (absorb_app _ _ _ k) by lia. reflexivity.
    + exists (k + 1). split; [lia|]. len. lia.
    + cbn [firstn Z.to_nat app]. unfold b. rewrite <- !app_assoc. do 3 f_equal. len.
      replace ((55 - (len m1 + len m2)) mod 64) with ((64 - (len m2 + 1)) + 56) by lia.
      unfold fill. rewrite <- repeat_app. cbn [app]. do 2 f_equal. lia.
  - cbn [bind]. apply (P (sh c) (m2 ++ [128] ++ tl) m1 (len m2 + 1)); auto; try lia.
    + exists k. lia.
    + len. change (len [128]) with 1. lia.
    + auto using bytes_app.
    + replace (firstn (Z.to_nat (len m2 + 1)) (m2 ++ [128] ++ tl)) with (m2 ++ [128]).
      2:{ rewrite app_assoc. symmetry. apply firstn_len_app. len. reflexivity. }
      rewrite <- !app_assoc. do 4 f_equal. len. lia.
Qed.

(* src/sha256.c as a whole *)
Theorem hash_chunks_ok g chunks md : Forall bytes chunks -> len (concat chunks) < 2 ^ 61 -> len md = 32 ->
  sat (hash_chunks g chunks md) (fun md' => md' = sha256 (concat chunks)).
Proof.
  intros HB HL Lm. unfold hash_chunks. apply sat_bind. eapply sat_mono; [apply updates_ok; [apply repr_init|auto|]|].
  - cbn [app]. rewrite len_nil. lia.
  - intros c (m1 & m2 & E & R). cbn [app] in E. rewrite <- E in *. apply final_ok with (m2 := m2) (m1 := m1); auto.
Qed.
