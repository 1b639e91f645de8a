(** The tools that rewrite a matrix, on any sequence of bytes. *)
From Verif Require Import Base BaseFacts Spec SpecFacts SpecText SpecAccept SpecTools SpecHeader SpecAny Zp Mat MatFacts RowList VecProofs CompressProofs TransposeProofs DenseProofs4 CertProofs
  SpecSha ShaHash Sha Stdio IO TextProofs IOProofs IOHash IOSave IOAccept IOSafe Sizes Header HeaderProofs Tools ToolsProofs AnyInput.

(* r stopped with a message or an overflow, or r is r' *)
Definition tame {T} (r r' : res T) : Prop := match r with Fail e => refused e \/ r' = Fail e | _ => r' = r end.
Lemma tame_bind {A B} (r r' : res A) (k k' : A -> res B) : tame r r' -> (forall a, r = Ok a -> tame (k a) (k' a)) -> tame (bind r k) (bind r' k').
Proof. destruct r as [a|e]; cbn [tame bind]; [intros -> H; cbn [bind]; auto|intros [H| ->] _; cbn; auto]. Qed.
Lemma tame_refl {T} (r : res T) : tame r r.
Proof. destruct r; cbn; auto. Qed.
Lemma tame_same {A B} (r : res A) (k k' : A -> res B) : (forall a, r = Ok a -> tame (k a) (k' a)) -> tame (bind r k) (bind r k').
Proof. apply tame_bind, tame_refl. Qed.
(* an allocation, absent on the right *)
Lemma tame_new {A B} (r : res A) (k : A -> res B) (r' : res B) P : outs r P refused -> (forall a, P a -> tame (k a) r') -> tame (bind r k) r'.
Proof. destruct r as [a|e]; cbn; auto. Qed.
Lemma tame_outs {T} (r r' : res T) Q : tame r r' -> outs r' Q refused -> outs r Q refused.
Proof. destruct r as [a|e]; cbn; [intros ->; auto|intros [H| ->]; auto]. Qed.

(** ** The blocks *)
Lemma signed64 z : - 2 ^ 63 <= z < 2 ^ 63 -> (z mod 2 ^ 64 + 2 ^ 63) mod 2 ^ 64 - 2 ^ 63 = z.
Proof. intros H. rewrite Zplus_mod_idemp_l, Z.mod_small; lia. Qed.
Lemma block_int most n k : - 2 ^ 31 <= n < 2 ^ 31 -> (k = 4 \/ k = 8) -> block most (Mul (int n) (sizeof k)) k = if (0 <=? n) && (n * k <=? most) then Ok n else Fail AssertFailed.
Proof.
  intros Hn Hk. unfold block, argument, int, sizeof. cbn [eval bind binop join fst snd norm conv]. rewrite <- Zmult_mod, signed64 by lia.
  unfold assert_. replace (0 <=? n * k) with (0 <=? n) by lia. destruct (_ && _); cbn [bind]; [|reflexivity]. f_equal. apply Z.div_mul. lia.
Qed.
Lemma block_size most n k : - 2 ^ 31 <= n < 2 ^ 31 -> (k = 4 \/ k = 8) -> block most (Mul (Cast Csize (int n)) (sizeof k)) k = if (0 <=? n) && (n * k <=? most) then Ok n else Fail AssertFailed.
Proof.
  intros Hn Hk. unfold block, argument, int, sizeof. cbn [eval bind binop join fst snd norm conv]. rewrite <- Zmult_mod, Zmult_mod_idemp_l, signed64 by lia.
  unfold assert_. replace (0 <=? n * k) with (0 <=? n) by lia. destruct (_ && _); cbn [bind]; [|reflexivity]. f_equal. apply Z.div_mul. lia.
Qed.
Lemma block_i64 most n k : - 2 ^ 60 <= n < 2 ^ 60 -> (k = 4 \/ k = 8) -> block most (Mul (i64v n) (sizeof k)) k = if (0 <=? n) && (n * k <=? most) then Ok n else Fail AssertFailed.
Proof.
  intros Hn Hk. unfold block, argument, i64v, sizeof. cbn [eval bind binop join fst snd norm conv]. rewrite <- Zmult_mod, signed64 by lia.
  unfold assert_. replace (0 <=? n * k) with (0 <=? n) by lia. destruct (_ && _); cbn [bind]; [|reflexivity]. f_equal. apply Z.div_mul. lia.
Qed.
Lemma block_next most n k : - 2 ^ 31 <= n < 2 ^ 31 -> (k = 4 \/ k = 8) -> block most (Mul (Add (int n) (int 1)) (sizeof k)) k =
  if n =? 2 ^ 31 - 1 then Fail Overflow else if (0 <=? n + 1) && ((n + 1) * k <=? most) then Ok (n + 1) else Fail AssertFailed.
Proof.
  intros Hn Hk. unfold block, argument, int, sizeof. cbn [eval bind binop join fst snd norm conv]. destruct (Z.eqb_spec n (2 ^ 31 - 1)) as [->|].
  - reflexivity.
  - unfold binop. cbn [bind fst snd join norm conv]. replace ((- 2 ^ 31 <=? n + 1) && (n + 1 <? 2 ^ 31)) with true by lia. cbn [bind fst snd join norm conv]. rewrite <- Zmult_mod, signed64 by lia.
    unfold assert_. replace (0 <=? (n + 1) * k) with (0 <=? n + 1) by lia. destruct (_ && _); cbn [bind]; [|reflexivity]. f_equal. apply Z.div_mul. lia.
Qed.
Ltac refuse := solve [left; left; reflexivity | left; right; reflexivity | right; reflexivity].

Lemma ncsr_alloc_tame g most n m nz p wv : 0 <= n < 2 ^ 31 -> 0 <= nz < 2 ^ 60 -> tame (ncsr_alloc g most n m nz p wv) (Ok (csr_alloc g n m nz p wv)).
Proof.
  intros Hn Hz. unfold ncsr_alloc, sz_i64, sz_int, sz_zzp. rewrite block_next, !block_i64 by lia. destruct (n =? _); [refuse|]. destruct (_ && _) at 1; [|refuse]. cbn [bind].
  destruct (_ && _); [|refuse]. cbn [bind]. rewrite aset_ok by (rewrite len_malloc; lia). cbn [bind]. reflexivity.
Qed.
Lemma ncsr_alloc_minus_one g most m p wv : 0 <= most -> ncsr_alloc g most (-1) m 0 p wv = Fail OOB.
Proof.
  intros Hm. unfold ncsr_alloc, sz_i64, sz_int, sz_zzp. rewrite block_next, !block_i64 by lia. change (-1 =? 2 ^ 31 - 1) with false. cbn [Z.add Z.mul Z.leb Z.compare andb Z.pos_sub Z.opp].
  replace (0 <=? most) with true by lia. cbn [andb bind]. reflexivity.
Qed.
Lemma ncsr_alloc_neg g most n m nz p wv : - 2 ^ 31 <= n < -1 -> ncsr_alloc g most n m nz p wv = Fail AssertFailed.
Proof. intros Hn. unfold ncsr_alloc, sz_i64. rewrite block_next by lia. replace (n =? _) with false by lia. replace ((0 <=? n + 1) && _) with false by lia. reflexivity. Qed.

Lemma tame_val {A B} (r : res A) (c : A) (k : A -> res B) (r' : res B) : tame r (Ok c) -> tame (k c) r' -> tame (bind r k) r'.
Proof. destruct r as [a|e]; cbn [tame bind]; [intros E; injection E as ->; auto|intros [H|H] _; [left; exact H|discriminate]]. Qed.
Lemma tame_if (b : bool) {A B} (a : A) (k : A -> res B) (r' : res B) : (b = true -> tame (k a) r') -> tame (bind (if b then Ok a else Fail AssertFailed) k) r'.
Proof. destruct b; cbn; [auto|intros _; left; left; reflexivity]. Qed.
Lemma ncompress_raw_tame g most T : 0 <= tn T < 2 ^ 31 -> 0 <= tnz T < 2 ^ 60 -> tame (ncompress_raw g most T) (compress_raw g T).
Proof.
  intros Hn Hz. unfold ncompress_raw, compress_raw, sz_i64. cbv zeta. eapply tame_val; [apply ncsr_alloc_tame; auto|]. rewrite block_int by lia. apply tame_if. intros _.
  apply tame_same. intros w _. eapply tame_new; [apply refused_i32|]. intros _ _. apply tame_refl.
Qed.
Lemma ndeduplicate_tame g most A : - 2 ^ 31 <= cm A < 2 ^ 31 -> tame (ndeduplicate g most A) (deduplicate g A).
Proof. intros Hm. unfold ndeduplicate, deduplicate, sz_i64. rewrite block_int by lia. apply tame_if. intros _. apply tame_refl. Qed.
Lemma ndeduplicate_neg g most A : - 2 ^ 31 <= cm A < 0 -> ndeduplicate g most A = Fail AssertFailed.
Proof. intros Hm. unfold ndeduplicate, sz_i64. rewrite block_int by lia. replace (0 <=? cm A) with false by lia. reflexivity. Qed.
Lemma ntranspose_tame g most A kv : wf A -> cm A < 2 ^ 31 -> nnz A < 2 ^ 60 -> tame (ntranspose g most A kv) (transpose g A kv).
Proof.
  intros W Hm Hz. pose proof (wf_n A W). pose proof (wf_m A W). pose proof (wf_len A W). pose proof (wf_nnz A W). unfold ntranspose, transpose, sz_i64. cbv zeta. rewrite (aget_ok (cp A) (cn A)) by lia. cbn [bind]. fold (nnz A).
  eapply tame_val; [apply ncsr_alloc_tame; lia|]. rewrite block_size by lia. apply tame_if. intros _. apply tame_refl.
Qed.

(** ** The number of entries does not grow *)
Definition any (e : err) : Prop := True.
Lemma outs_any {T} (r : res T) (Q : T -> Prop) : (forall a, r = Ok a -> Q a) -> outs r Q any.
Proof. destruct r; cbn; auto. exact (fun _ => I). Qed.
Lemma aset_len (l : list Z) i (v : Z) l' : aset l i v = Ok l' -> len l' = len l /\ 0 <= i < len l /\ l' = upd l i v.
Proof. unfold aset. destruct (inb l i) eqn:E; [|discriminate]. intros X. injection X as <-. unfold inb in E. rewrite len_upd. repeat split; lia. Qed.
Lemma outs_for_any {S} (Inv : S -> Prop) (Q : S -> Prop) (body : Z -> S -> res S) lo hi s : Inv s -> (forall i s, Inv s -> outs (body i s) Inv any) -> (forall s, Inv s -> Q s) -> outs (for_ lo hi body s) Q any.
Proof.
  intros H0 Hs HQ. destruct (Z_le_gt_dec lo hi); [apply (outs_for (fun _ => Inv)); auto|]. unfold for_. replace (Z.to_nat (hi - lo)) with O by lia. cbn. auto.
Qed.
Ltac step := apply outs_bind, outs_any; intros ? ?.
Lemma compress_raw_len g T : 0 <= tnz T -> outs (compress_raw g T) (fun C => len (cj C) = tnz T) any.
Proof.
  intros Hz. unfold compress_raw. cbv zeta. step. step. apply outs_bind, outs_any. intros [[Cp w] s] _. step. apply outs_bind.
  apply (outs_for_any (fun '(w, Cj, Cx) => len Cj = tnz T)); [unfold csr_alloc; cbn [cj]; rewrite len_malloc; lia| |].
  - intros k [[w1 Cj] Cx] L. step. step. step. step. apply outs_bind, outs_any. intros Cj' E. apply aset_len in E as (E & _). step. cbn [outs]. lia.
  - intros [[w1 Cj] Cx] L. exact L.
Qed.
Lemma deduplicate_nnz g A : outs (deduplicate g A) (fun D => nnz D <= len (cj A)) any.
Proof.
  unfold deduplicate. step. apply outs_bind.
  apply (outs_for_any (fun '(v, Ap, Aj, Ax, nz) => len Aj = len (cj A) /\ nz <= len (cj A))); [pose proof (len_nonneg (cj A)); lia| |].
  - intros i [[[[v Ap] Aj] Ax] nz] L. cbv zeta. step. step. apply outs_bind. apply (outs_for_any (fun '(v, Aj, Ax, nz) => len Aj = len (cj A) /\ nz <= len (cj A))); [exact L| |].
    + intros it [[[v1 Aj1] Ax1] nz1] L1. step. step. step. destruct (_ <? nz).
      * step. apply outs_bind, outs_any. intros Aj' E. apply aset_len in E as (E & E' & _). step. cbn [outs]. lia.
      * destruct Ax1; [|exact L1]. step. step. step. step. exact L1.
    + intros [[[v1 Aj1] Ax1] nz1] L1. step. exact L1.
  - intros [[[[v Ap] Aj] Ax] nz] L. apply outs_bind, outs_any. intros Ap' E. apply aset_len in E as (E & E' & ->). unfold csr_realloc. cbn [cp cn]. rewrite aget_ok by (rewrite len_upd; lia). cbn [bind outs]. unfold nnz. cbn [cp cn].
    rewrite get_upd_eq by lia. lia.
Qed.
Lemma outs_both {T} (r : res T) Q Q' : sat r Q -> outs r Q' any -> sat r (fun a => Q a /\ Q' a).
Proof. destruct r; cbn; auto. Qed.
Lemma compress_any g T : twf T -> 2 <= tprime T -> sat (Mat.compress g T) (fun C => wf C /\ cn C = tn T /\ cm C = tm T /\ cprime C = tprime T /\ nnz C <= tnz T).
Proof.
  intros W Hp. assert (Hz : 0 <= tnz T) by (unfold twf in W; lia). unfold Mat.compress. apply sat_bind. pose proof (compress_stages g T W (fun _ => Hp)) as H. eapply sat_mono; [exact (outs_both _ _ _ H (compress_raw_len g T Hz))|]. intros C (HC & LC).
  apply sat_bind. eapply sat_mono; [exact (outs_both _ _ _ HC (deduplicate_nnz g C))|]. intros D ((HD & D1 & D2 & D3 & _) & LD). eapply sat_mono; [now apply (remove_zeroes_safe g D)|]. intros E (HE & E1 & E2 & E3 & _ & E5 & _).
  split; [auto|]. split; [congruence|]. split; [congruence|]. split; [congruence|lia].
Qed.

(** ** What is loaded *)
(* the same matrix with dimensions that are not negative *)
Definition redim (T : triplet) : triplet := Triplet (tnz T) (Z.max (tn T) 0) (Z.max (tm T) 0) (ti T) (tj T) (tx T) (tprime T).
Lemma redim_eq T : 0 <= tn T -> 0 <= tm T -> redim T = T.
Proof. intros H1 H2. destruct T. unfold redim. cbn in *. now rewrite !Z.max_l by lia. Qed.
Lemma add_redim g T i j x : 0 <= i -> 0 <= j -> add_entry g (redim T) i j x = (T' <- add_entry g T i j x ;; Ok (redim T')).
Proof.
  intros Hi Hj. unfold add_entry, assert_. replace ((0 <=? i) && (0 <=? j)) with true by lia. cbn [bind]. cbv zeta. change (tnz (redim T)) with (tnz T). change (tj (redim T)) with (tj T).
  replace (if tnz T =? len (tj T) then triplet_realloc g (redim T) (1 + 2 * len (tj T)) else redim T) with (redim (if tnz T =? len (tj T) then triplet_realloc g T (1 + 2 * len (tj T)) else T)) by (destruct (_ =? _); reflexivity).
  generalize (if tnz T =? len (tj T) then triplet_realloc g T (1 + 2 * len (tj T)) else T). intros T1. change (tx (redim T1)) with (tx T1). change (ti (redim T1)) with (ti T1). change (tj (redim T1)) with (tj T1). change (tprime (redim T1)) with (tprime T1).
  destruct (tx T1).
  - destruct (_ =? 0); [reflexivity|]. destruct (aset _ _ _); [|reflexivity]. cbn [bind]. destruct (aset _ _ _); [|reflexivity]. cbn [bind]. destruct (aset _ _ _); [|reflexivity]. cbn [bind]. unfold redim. cbn [tn tm tnz ti tj tx tprime]. do 2 f_equal; lia.
  - destruct (aset _ _ _); [|reflexivity]. cbn [bind]. destruct (aset _ _ _); [|reflexivity]. cbn [bind]. unfold redim. cbn [tn tm tnz ti tj tx tprime]. do 2 f_equal; lia.
Qed.
Definition spans (p n m : Z) (es : list (Z * Z * Z)) (T : triplet) : Prop :=
  loaded (Z.max n 0) (Z.max m 0) p (negb (p =? -1)) es (redim T) /\ (tnz T = 0 -> tn T = n /\ tm T = m) /\ (0 < tnz T -> 1 <= tn T /\ 1 <= tm T) /\ n <= tn T <= Z.max n (2 ^ 31 - 1) /\ m <= tm T <= Z.max m (2 ^ 31 - 1).
Lemma spans_add g p n m es T i j x T' : spans p n m es T -> 1 <= i < 2 ^ 31 -> 1 <= j < 2 ^ 31 -> add_entry g T (i - 1) (j - 1) x = Ok T' -> spans p n m (es ++ [(i, j, x)]) T'.
Proof.
  intros (H & H1 & H2 & H3 & H4) Hi Hj Ea. split.
  - pose proof (loaded_snoc g _ _ p _ es i j x _ H ltac:(lia) ltac:(lia)) as S. rewrite add_redim, Ea in S by lia. exact S.
  - revert Ea. unfold add_entry. destruct (assert_ _); [|discriminate]. cbn [bind]. cbv zeta. set (T1 := if tnz T =? len (tj T) then _ else T). assert (E1 : tnz T1 = tnz T /\ tn T1 = tn T /\ tm T1 = tm T) by (unfold T1; destruct (tnz T =? len (tj T)); repeat split; reflexivity). clearbody T1.
    assert (H0 : 0 <= tnz T) by (destruct H as ((_ & _ & W & _) & _); cbn in W; lia).
    destruct (tx T1).
    + destruct (_ =? 0); [intros E; injection E as <-; destruct E1 as (-> & -> & ->); auto|]. destruct (aset _ _ _); [|discriminate]. cbn [bind]. destruct (aset _ _ _); [|discriminate]. cbn [bind]. destruct (aset _ _ _); [|discriminate]. cbn [bind].
      intros E. injection E as <-. cbn [tn tm tnz]. lia.
    + destruct (aset _ _ _); [|discriminate]. cbn [bind]. destruct (aset _ _ _); [|discriminate]. cbn [bind]. intros E. injection E as <-. cbn [tn tm tnz]. lia.
Qed.
Lemma load_spans gs g p f hash T h : ~ In 0 f -> triplet_load gs g f p hash = Ok (T, h) -> exists n m es, ((exists c, like_sms f n m c es /\ (p = -1 \/ c = 77)) \/ like_mm f n m es) /\ spans p n m es T.
Proof.
  apply (load_accepts_inv gs g p (spans p)).
  - intros n m es T0 i j x T'. apply spans_add.
  - intros n m nz Hz. split; [change (redim (triplet_alloc g n m nz p (negb (p =? -1)))) with (triplet_alloc g (Z.max n 0) (Z.max m 0) nz p (negb (p =? -1))); apply loaded_alloc; lia|]. cbn [triplet_alloc tn tm tnz]. lia.
  - intros n m es T0 (H & H'). split; [|exact H']. change (redim (triplet_realloc g T0 (-1))) with (triplet_realloc g (redim T0) (-1)). now apply loaded_realloc.
Qed.
Lemma text_len ls : text ls -> len ls <= len (concat ls).
Proof.
  induction 1 as [|s ls H _ IH]; [cbn; lia|]. cbn [concat]. rewrite len_cons, len_app. assert (s <> []) by (destruct H as [(t & -> & _)|H]; [now destruct t|tauto]).
  destruct s as [|c s]; [congruence|]. rewrite len_cons. pose proof (len_nonneg s). lia.
Qed.
Lemma entries_len ls es : begin_entries ls es -> len es = len ls.
Proof. induction 1; [reflexivity|]. rewrite !len_cons. lia. Qed.
Lemma like_len f n m es : like_matrix f n m es -> len es <= len f /\ int32 n /\ int32 m.
Proof.
  intros [(h & ls & e & gl & -> & T & _ & Hn & Hm & B & _)|(h & cs & d & ls & gl & -> & T & _ & _ & _ & _ & Hn & Hm & _ & B)]; (split; [|auto]); apply text_len in T; rewrite (entries_len _ _ B); revert T; rewrite len_cons, ?len_app, ?len_cons, ?len_app.
  - pose proof (len_nonneg gl). lia.
  - pose proof (len_nonneg gl). pose proof (len_nonneg cs). lia.
Qed.
Lemma keeps_len p l : len (flat_map (keeps p true) l) <= len l.
Proof. induction l as [|[[i j] x] l IH]; [cbn; lia|]. cbn [flat_map]. rewrite len_app, len_cons. assert (len (keeps p true (i, j, x)) <= 1); [|lia]. unfold keeps. destruct (_ =? 0); cbn; unfold len; cbn; lia. Qed.
Lemma keeps_nil p es : flat_map (keeps p true) (map from0 es) = [] -> kept p es = [].
Proof.
  unfold kept. induction es as [|[[i j] x] es IH]; [reflexivity|]. cbn [flat_map map from0]. intros E. apply app_eq_nil in E as [E1 E2]. rewrite IH by auto. unfold keeps in *. destruct (_ =? 0); [reflexivity|discriminate].
Qed.
Lemma spans_facts p n m es T : 2 <= p -> spans p n m es T -> slots T /\ tprime T = p /\ tnz T <= len es /\ (tnz T = 0 -> kept p es = []) /\ (0 <= tn T -> 0 <= tm T -> twf T).
Proof.
  intros Hp ((W & P & V & L & _) & _). replace (negb (p =? -1)) with true in L by lia. change (tprime (redim T)) with (tprime T) in P. pose proof W as (_ & _ & W3 & W4 & W5 & _).
  change (tnz (redim T)) with (tnz T) in W3. change (tj (redim T)) with (tj T) in *. change (ti (redim T)) with (ti T) in *. change (tx (redim T)) with (tx T) in *.
  split; [repeat split; auto; lia|]. split; [auto|]. pose proof (len_tlist (redim T)) as E. change (tnz (redim T)) with (tnz T) in E. rewrite L in E. specialize (E ltac:(lia)).
  split; [pose proof (keeps_len p (map from0 es)) as K; rewrite len_map in K; lia|]. split; [|intros; now rewrite <- (redim_eq T)].
  intros E0. apply keeps_nil. destruct (flat_map _ _) as [|a l]; [reflexivity|]. rewrite len_cons in E. pose proof (len_nonneg l). lia.
Qed.

(** ** Any bytes *)
Section ANY.
Variables (gs : Z -> Z) (g : Z -> Z -> Z -> Z) (most : Z) (f : list Z).
Hypothesis (HB : bytes f) (HL : len f < 2 ^ 60) (H0 : ~ In 0 f) (HA : forall nnz, announces f nnz -> - 2 ^ 61 <= nnz < 2 ^ 61) (Hmost : 0 <= most < 2 ^ 61).
Lemma hload_any g0 p hash : 2 <= p -> (forall md, hash = Some md -> len md = 32) ->
  outs (hload gs g0 most f p hash) (fun '(T, h) => exists n m es, like_matrix f n m es /\ spans p n m es T) refused.
Proof.
  intros Hp Hm. destruct (hload_same gs g0 most f p hash H0 HA Hmost) as [-> | ->]; [left; reflexivity|]. pose proof (load_safe gs g0 f p hash HB ltac:(lia) Hm) as S.
  destruct (triplet_load gs g0 f p hash) as [[T h]|e] eqn:E; [|exact S]. cbn [outs]. destruct (load_spans gs g0 p f hash T h H0 E) as (n & m & es & [(c & L & [->| ->])|L] & Sp); [lia| |]; exists n, m, es; (split; [|exact Sp]); [now left|now right].
Qed.
Lemma raw_cols g0 T m' : compress_raw g0 (Triplet (tnz T) (tn T) m' (ti T) (tj T) (tx T) (tprime T)) = (C <- compress_raw g0 T ;; Ok (Csr (cn C) m' (cp C) (cj C) (cx C) (cprime C))).
Proof.
  unfold compress_raw. cbv zeta. cbn [tnz tn tm ti tj tx tprime csr_alloc cp cj cx]. destruct (for_ _ _ _ (malloc _ _)) as [w|]; [|reflexivity]. cbn [bind]. destruct (for_ _ _ _ w) as [w1|]; [|reflexivity]. cbn [bind].
  destruct (for_ _ _ _ (_, w1, 0)) as [[[Cp w2] s]|]; [|reflexivity]. cbn [bind]. destruct (aset Cp (tn T) s) as [Cp'|]; [|reflexivity]. cbn [bind]. destruct (for_ _ _ _ (w2, _, _)) as [[[w3 Cj] Cx]|]; reflexivity.
Qed.
Lemma ncompress_any g0 p n m es T : 2 <= p -> like_matrix f n m es -> spans p n m es T ->
  outs (ncompress g0 most T) (fun A => wf A /\ cprime A = p /\ cn A = tn T /\ cm A = tm T /\ nnz A <= tnz T) (fun e => refused e \/ e = OOB /\ tn T = -1 /\ only_rows f p (-1)).
Proof.
  intros Hp HL' HS. destruct (like_len _ _ _ _ HL') as (Le & In & Im). unfold int32 in *. destruct (spans_facts p n m es T Hp HS) as ((S1 & S2 & S3) & P & Lz & K & W). pose proof HS as (_ & Z1 & Z2 & Z3 & Z4).
  destruct (Z_lt_le_dec (tn T) 0) as [Hn|Hn].
  - assert (E0 : tnz T = 0) by (destruct (Z.eq_dec (tnz T) 0); lia). destruct (Z1 E0) as [En Em]. unfold ncompress, ncompress_raw. cbv zeta. destruct (Z.eq_dec (tn T) (-1)) as [E1|E1].
    + rewrite E1, E0, ncsr_alloc_minus_one by lia. cbn [bind outs]. right. split; [reflexivity|]. split; [reflexivity|]. exists m, es. rewrite E1 in En. subst n. split; [exact HL'|auto].
    + rewrite ncsr_alloc_neg by lia. cbn [bind outs]. left. left. reflexivity.
  - eapply outs_imp; [|intros a Ha; exact Ha|intros e He; left; exact He]. destruct (Z_lt_le_dec (tm T) 0) as [Hm|Hm].
    + unfold ncompress. apply outs_bind. apply (outs_mono _ (fun C => cm C = tm T)).
      * eapply tame_outs; [apply ncompress_raw_tame; lia|]. pose proof (raw_cols g0 T 0) as R. assert (E0 : tnz T = 0) by (destruct (Z.eq_dec (tnz T) 0); lia).
        set (T' := Triplet (tnz T) (tn T) 0 (ti T) (tj T) (tx T) (tprime T)) in *. assert (W' : twf T'). { unfold twf, T'. cbn [tn tm tnz ti tj tx]. rewrite E0. split; [lia|]. split; [lia|]. split; [lia|]. split; [auto|]. split; [auto|]. intros; lia. }
        pose proof (compress_raw_ok g0 T' W') as OK. rewrite R in OK. assert (M : outs (compress_raw g0 T) (fun C => cm C = tm T) any).
        { unfold compress_raw. cbv zeta. step. step. apply outs_bind, outs_any. intros [[? ?] ?] _. step. apply outs_bind, outs_any. intros [[? ?] ?] _. reflexivity. }
        destruct (compress_raw g0 T) as [C|e]; [exact M|destruct OK].
      * intros C E. rewrite ndeduplicate_neg by lia. left. reflexivity.
    + specialize (W ltac:(lia) ltac:(lia)). apply (tame_outs _ (Mat.compress g0 T)).
      * unfold ncompress, Mat.compress. apply tame_bind; [apply ncompress_raw_tame; lia|]. intros C EC. apply tame_bind; [|intros D _; apply tame_refl]. apply ndeduplicate_tame.
        pose proof (ncompress_raw_tame g0 most T ltac:(lia) ltac:(lia)) as R. rewrite EC in R. cbn in R. pose proof (compress_raw_ok g0 T W) as OK. rewrite R in OK. destruct OK as (_ & _ & -> & _). lia.
      * apply sat_outs. eapply sat_mono; [apply compress_any; [auto|lia]|]. intros A (A1 & A2 & A3 & A4 & A5). repeat (split; [auto; congruence|]). exact A5.
Qed.
Lemma nload_csr_any p hash : 2 <= p -> (forall md, hash = Some md -> len md = 32) ->
  outs (nload_csr gs g most f p hash) (fun '(A, h) => wf A /\ cprime A = p /\ cn A < 2 ^ 31 /\ cm A < 2 ^ 31 /\ nnz A <= len f) (fun e => refused e \/ e = OOB /\ only_rows f p (-1)).
Proof.
  intros Hp Hm. unfold nload_csr. apply outs_bind. eapply outs_imp; [apply (hload_any (g 0) p hash Hp Hm)| |intros e He; left; exact He]. intros [T h] (n & m & es & HL' & HS). apply outs_bind.
  destruct (like_len _ _ _ _ HL') as (Le & In & Im). unfold int32 in *. destruct (spans_facts p n m es T Hp HS) as (_ & P & Lz & _). pose proof HS as (_ & _ & _ & Z3 & Z4).
  eapply outs_imp; [apply (ncompress_any (g 1) p n m es T Hp HL' HS)| |intros e [He|(He & _ & He')]; [left; exact He|right; auto]]. intros A (A1 & A2 & A3 & A4 & A5). cbn [outs]. split; [auto|]. split; [auto|]. lia.
Qed.
(* the exact condition *)
Lemma nload_csr_oob p hash : 2 <= p -> (forall md, hash = Some md -> len md = 32) ->
  (nload_csr gs g most f p hash = Fail OOB <-> exists T h, hload gs (g 0) most f p hash = Ok (T, h) /\ tn T = -1).
Proof.
  intros Hp Hm. pose proof (hload_any (g 0) p hash Hp Hm) as S. unfold nload_csr. destruct (hload gs (g 0) most f p hash) as [[T h]|e]; cbn [outs bind] in *.
  - destruct S as (n & m & es & HL' & HS). pose proof (ncompress_any (g 1) p n m es T Hp HL' HS) as N. split.
    + intros E. exists T, h. split; [reflexivity|]. destruct (ncompress (g 1) most T) as [A|e]; [discriminate|]. injection E as ->. destruct N as [[N|N]|(_ & N & _)]; [discriminate|discriminate|exact N].
    + intros (T' & h' & E & E1). injection E as <- <-. pose proof HS as (_ & Z1 & Z2 & _). destruct (spans_facts p n m es T Hp HS) as ((S1 & _) & _).
      unfold ncompress, ncompress_raw. cbv zeta. rewrite E1. replace (tnz T) with 0 by lia. rewrite ncsr_alloc_minus_one by lia. reflexivity.
  - split; [intros E; injection E as ->; destruct S; discriminate|]. intros (T & h & E & _). discriminate.
Qed.

Lemma tsave_any T : slots T -> outs (triplet_save T) (fun _ => True) refused.
Proof.
  intros (S1 & S2 & S3). unfold triplet_save. cbv zeta. apply outs_bind. apply (outs_for (fun _ _ => True)); [lia|exact I| |intros; exact I]. intros k w Hk _. rewrite !aget_ok by lia. cbn [bind].
  apply outs_bind. eapply outs_mono; [apply refused_i32|]. intros i' _. apply outs_bind. eapply outs_mono; [apply refused_i32|]. intros j' _. destruct (tx T); [rewrite aget_ok by lia|]; exact I.
Qed.
Lemma csave_any A : wf A -> outs (csr_save A) (fun _ => True) refused.
Proof.
  intros W. pose proof (wf_n A W). pose proof (wf_nnz A W). unfold csr_save. cbv zeta. apply outs_bind. apply (outs_for (fun _ _ => True)); [lia|exact I| |intros; exact I]. intros i w Hi _. pose proof (wf_row A W i Hi) as R. unfold rbeg, rend in R. pose proof (wf_len A W).
  rewrite !aget_ok by lia. cbn [bind]. apply (outs_for (fun _ _ => True)); [lia|exact I| |intros; exact I]. intros px w' Hpx _.
  apply outs_bind, (outs_mono _ (fun _ => True)); [destruct (cx A) as [x|] eqn:Ex; [pose proof (wf_vals A W x Ex); rewrite aget_ok by lia|]; exact I|]. intros x _. rewrite aget_ok by lia. cbn [bind].
  apply outs_bind. eapply outs_mono; [apply refused_i32|]. intros i' _. apply outs_bind. eapply outs_mono; [apply refused_i32|]. intros j' _. exact I.
Qed.
Lemma transpose_any : outs (ntool_transpose gs g most f) (fun _ => True) (fun e => refused e \/ e = OOB /\ only_rows f 42013 (-1)).
Proof.
  unfold ntool_transpose. apply outs_bind. eapply outs_mono; [apply (nload_csr_any 42013 None); [lia|discriminate]|]. intros [A h] (W & P & Hn & Hm & Hz). apply outs_bind. eapply outs_imp; [|intros a Ha; exact Ha|intros e He; left; exact He].
  apply (tame_outs _ (transpose (g 2) A true)); [apply ntranspose_tame; auto; lia|]. apply sat_outs. eapply sat_mono; [apply (transpose_ok A W (g 2) true)|]. intros B (WB & _). cbn beta. eapply outs_imp; [apply (csave_any B WB)|auto|]. intros e He. now left.
Qed.
Lemma slots_any g0 p hash : (forall md, hash = Some md -> len md = 32) -> outs (hload gs g0 most f p hash) (fun '(T, h) => slots T) refused.
Proof. intros Hm. destruct (hload_same gs g0 most f p hash H0 HA Hmost) as [-> | ->]; [left; reflexivity|]. apply load_safe; auto. lia. Qed.
Lemma swap_any : outs (ntool_vertical_swap gs g most f) (fun _ => True) refused.
Proof.
  unfold ntool_vertical_swap. apply outs_bind. eapply outs_mono; [apply (slots_any (g 0) 42013 None); discriminate|]. intros [T h] (S1 & S2 & S3). cbv zeta. apply outs_bind. apply (outs_for (fun _ Aj => len Aj = len (tj T))); [lia|reflexivity| |].
  - intros k Aj Hk L. rewrite aget_ok by lia. cbn [bind]. apply outs_bind. eapply outs_mono; [apply refused_i32|]. intros d _. apply outs_bind. eapply outs_mono; [apply refused_i32|]. intros d' _. rewrite aset_ok by lia. cbn [outs]. now rewrite len_upd.
  - intros Aj L. apply tsave_any. unfold slots. cbn [tnz ti tj tx]. repeat split; try lia. destruct (tx T); [lia|auto].
Qed.
Lemma mark_any g0 n nz a : 0 <= n -> nz <= len a -> (forall k, 0 <= k < nz -> 0 <= get a k < n) -> sat (nmark_used g0 n nz n a) (fun p => len p = n).
Proof.
  intros Hn Hz Ha. unfold nmark_used. apply sat_bind. apply (for_spec (fun _ p => len p = n)); [lia|rewrite len_malloc; lia| |].
  - intros k p Hk L. apply sat_aset; [lia|]. now rewrite len_upd.
  - intros p L. destruct (Z_le_gt_dec 0 nz); [|unfold for_; replace (Z.to_nat (nz - 0)) with O by lia; exact L]. apply (for_spec (fun _ p => len p = n)); [lia|auto| |auto]. intros k p' Hk L'. apply sat_bind, sat_aget; [lia|]. specialize (Ha k Hk). apply sat_aset; [lia|]. now rewrite len_upd.
Qed.
Lemma renumber_any n p : 0 <= n -> len p = n -> sat (renumber n p) (fun '(q, u) => len q = n).
Proof.
  intros Hn L. unfold renumber. apply (for_spec (fun _ '(q, u) => len q = n)); [lia|auto| |auto]. intros k [q u] Hk Lq. apply sat_bind, sat_aget; [lia|]. destruct (0 <? _); [|exact Lq]. apply sat_bind, sat_aset; [lia|]. cbn [sat]. now rewrite len_upd.
Qed.
Lemma to_i32_le z : 0 <= z -> to_i32 z <= z.
Proof. intros H. unfold to_i32. pose proof (Z.mod_le (z + 2 ^ 31) (2 ^ 32) ltac:(lia) ltac:(lia)). lia. Qed.
Lemma outs_if (b : bool) (a : Z) : outs (if b then Ok a else Fail AssertFailed) (fun x => x = a /\ b = true) refused.
Proof. destruct b; cbn; [auto|left; reflexivity]. Qed.
Lemma stack_any : outs (ntool_stack gs g most f) (fun _ => True) refused.
Proof.
  unfold ntool_stack, sz_int. apply outs_bind. eapply outs_mono; [apply (hload_any (g 0) 42013 None); [lia|discriminate]|]. intros [T h] (n & m & es & HL' & HS). cbv zeta. destruct (like_len _ _ _ _ HL') as (Le & In & Im). unfold int32 in *.
  destruct (spans_facts 42013 n m es T ltac:(lia) HS) as (SL & P & Lz & _ & W). pose proof HS as (_ & _ & _ & Z3 & Z4).
  rewrite !block_int by lia. apply outs_bind. eapply outs_mono; [apply outs_if|]. intros np (-> & E1). apply outs_bind. eapply outs_mono; [apply outs_if|]. intros nq (-> & E2). specialize (W ltac:(lia) ltac:(lia)). destruct W as (W1 & W2 & W3 & W4 & W5 & W6).
  pose proof (to_i32_le (tnz T) ltac:(lia)) as Hz. set (nz := to_i32 (tnz T)) in *. clearbody nz.
  apply outs_bind, sat_outs. eapply sat_mono; [apply mark_any; [auto|lia|intros k Hk; apply W6; lia]|]. intros p Lp. apply outs_bind, sat_outs. eapply sat_mono; [apply mark_any; [auto|lia|intros k Hk; apply W6; lia]|]. intros q Lq.
  apply outs_bind, sat_outs. eapply sat_mono; [apply (renumber_any (tn T) p); auto|]. intros [p' u] Lp'. apply outs_bind, sat_outs. eapply sat_mono; [apply (renumber_any (tm T) q); auto|]. intros [q' v] Lq'.
  apply outs_bind. apply (outs_mono _ (fun '(Ai, Aj) => len Ai = len (tj T) /\ len Aj = len (tj T))).
  - destruct (Z_le_gt_dec 0 nz); [|unfold for_; replace (Z.to_nat (nz - 0)) with O by lia; cbn [for_nat outs]; lia].
    apply (outs_for (fun k '(Ai, Aj) => len Ai = len (tj T) /\ len Aj = len (tj T) /\ forall t, k <= t < nz -> get Ai t = get (ti T) t /\ get Aj t = get (tj T) t)); [lia|split; [lia|auto]| |intros [Ai Aj]; tauto].
    intros k [Ai Aj] Hk (L1 & L2 & L3). destruct (L3 k ltac:(lia)) as [X1 X2]. specialize (W6 k ltac:(lia)). rewrite (aget_ok Ai) by lia. cbn [bind]. rewrite X1, (aget_ok p') by lia. cbn [bind]. rewrite aset_ok by lia. cbn [bind].
    rewrite (aget_ok Aj) by lia. cbn [bind]. rewrite X2, (aget_ok q') by lia. cbn [bind]. rewrite aset_ok by lia. cbn [bind outs]. rewrite !len_upd. split; [auto|]. split; [auto|]. intros t Ht. rewrite !get_upd_ne by lia. apply L3. lia.
  - intros [Ai Aj] (L1 & L2). apply tsave_any. unfold slots. cbn [tnz ti tj tx]. repeat split; try lia. destruct (tx T); [lia|auto].
Qed.

(** ** The files of matrices *)
Lemma hload_tame g0 p hash : tame (hload gs g0 most f p hash) (triplet_load gs g0 f p hash).
Proof. destruct (hload_same gs g0 most f p hash H0 HA Hmost) as [-> | ->]; [left; left; reflexivity|apply tame_refl]. Qed.
Lemma tame_hload {B} g0 p hash (k k' : triplet * option (list Z) -> res B) (P : triplet -> Prop) : sat (triplet_load gs g0 f p hash) (fun '(T, _) => P T) -> (forall T h, P T -> tame (k (T, h)) (k' (T, h))) ->
  tame (bind (hload gs g0 most f p hash) k) (bind (triplet_load gs g0 f p hash) k').
Proof.
  intros S H. apply tame_bind; [apply hload_tame|]. intros [T h] E. pose proof (hload_tame g0 p hash) as Q. rewrite E in Q. cbn in Q. rewrite Q in S. apply H. exact S.
Qed.
Lemma load_tame g0 p hash n m es : matrix_file f n m es -> (forall md, hash = Some md -> len md = 32) -> 2 <= p ->
  sat (triplet_load gs g0 f p hash) (fun '(T, _) => twf T /\ tn T < 2 ^ 31 /\ tm T < 2 ^ 31 /\ tprime T = p /\ tnz T <= len es).
Proof.
  intros F Hm Hp. eapply sat_mono; [apply (load_file gs g0 f n m es p hash F Hm)|]. intros [T h] ((W & En & Em & Ep & _ & L) & _). destruct (file_dims _ _ _ _ F) as [Hn Hm']. split; [auto|]. split; [lia|]. split; [lia|]. split; [auto|].
  replace (negb (p =? -1)) with true in L by lia. rewrite <- (len_tlist T) by (unfold twf in W; lia). rewrite L. pose proof (keeps_len p (map from0 es)) as K. rewrite len_map in K. exact K.
Qed.
Lemma nload_csr_same p hash n m es : matrix_file f n m es -> (forall md, hash = Some md -> len md = 32) -> 2 <= p -> len es < 2 ^ 60 -> tame (nload_csr gs g most f p hash) (load_csr gs g f p hash).
Proof.
  intros F Hm Hp Le. unfold nload_csr, load_csr. eapply tame_hload; [apply (load_tame (g 0) p hash n m es F Hm Hp)|]. intros T h (W & Hn & Hm' & _ & Hz). cbn beta iota. pose proof W as (W1 & W2 & W3 & _).
  apply tame_bind; [|intros A _; apply tame_refl]. unfold ncompress, Mat.compress. apply tame_bind; [apply ncompress_raw_tame; lia|]. intros C EC. apply tame_bind; [|intros D _; apply tame_refl]. apply ndeduplicate_tame.
  pose proof (ncompress_raw_tame (g 1) most T ltac:(lia) ltac:(lia)) as R. rewrite EC in R. cbn in R. pose proof (compress_raw_ok (g 1) T W) as OK. rewrite R in OK. destruct OK as (_ & _ & -> & _). lia.
Qed.
Lemma transpose_same n m es : matrix_file f n m es -> len es < 2 ^ 60 -> tame (ntool_transpose gs g most f) (tool_transpose gs g f).
Proof.
  intros F Le. unfold ntool_transpose, tool_transpose. apply tame_bind; [apply (nload_csr_same 42013 None n m es F); [discriminate|lia|auto]|]. intros [A h] EA. apply tame_bind; [|intros B _; apply tame_refl].
  pose proof (nload_csr_any 42013 None ltac:(lia) ltac:(discriminate)) as N. rewrite EA in N. destruct N as (W & _ & _ & Hm & Hz). apply ntranspose_tame; auto. lia.
Qed.
Lemma tame_for {S} (Inv : Z -> S -> Prop) (b b' : Z -> S -> res S) lo hi s : Inv lo s -> (forall i s, lo <= i < hi -> Inv i s -> tame (b i s) (b' i s)) -> (forall i s s', lo <= i < hi -> Inv i s -> b' i s = Ok s' -> Inv (i + 1) s') ->
  tame (for_ lo hi b s) (for_ lo hi b' s).
Proof.
  intros HI Hb Hi. unfold for_. assert (G : forall k i s, lo <= i -> i + Z.of_nat k <= Z.max lo hi -> Inv i s -> tame (for_nat k i b s) (for_nat k i b' s)); [|apply G; auto; lia].
  induction k as [|k IH]; intros i t H1 H2 HI'; cbn [for_nat]; [apply tame_refl|]. apply tame_bind; [apply Hb; auto; lia|]. intros t' E. apply IH; [lia|lia|]. pose proof (Hb i t ltac:(lia) HI') as Q. rewrite E in Q. cbn in Q. apply (Hi i t t'); auto; lia.
Qed.
Lemma swap_same n m es : matrix_file f n m es -> tame (ntool_vertical_swap gs g most f) (tool_vertical_swap gs g f).
Proof.
  intros F. unfold ntool_vertical_swap, tool_vertical_swap. eapply tame_hload; [apply (load_tame (g 0) 42013 None n m es F); [discriminate|lia]|]. intros T h _. cbv zeta. apply tame_bind; [|intros Aj _; apply tame_refl].
  apply (tame_for (fun _ _ => True)); auto. intros k Aj _ _. apply tame_same. intros j _. unfold i32. destruct ((_ <=? tm T - j) && _); [|refuse]. cbn [bind]. destruct (_ && _); [|refuse]. cbn [bind]. apply tame_refl.
Qed.
Lemma stack_same n m es : matrix_file f n m es -> len es < 2 ^ 31 -> tame (ntool_stack gs g most f) (tool_stack gs g f).
Proof.
  intros F Le. unfold ntool_stack, tool_stack, sz_int. eapply tame_hload; [apply (load_tame (g 0) 42013 None n m es F); [discriminate|lia]|]. intros T h (W & Hn & Hm & _ & Hz). pose proof W as (W1 & W2 & W3 & _). cbv zeta.
  unfold i32. replace ((- 2 ^ 31 <=? tnz T) && (tnz T <? 2 ^ 31)) with true by lia. cbn [bind]. replace (to_i32 (tnz T)) with (tnz T) by (unfold to_i32; rewrite Z.mod_small; lia).
  rewrite !block_int by lia. apply tame_if. intros _. apply tame_if. intros _. apply tame_refl.
Qed.
End ANY.

Lemma csr_orderly gs g most f p hash : bytes f -> len f < 2 ^ 60 -> ~ In 0 f -> (forall nnz, announces f nnz -> - 2 ^ 61 <= nnz < 2 ^ 61) -> 0 <= most < 2 ^ 61 -> 2 <= p -> (forall md, hash = Some md -> len md = 32) ->
  (forall A h, nload_csr gs g most f p hash = Ok (A, h) -> wf A /\ cprime A = p) /\ (~ only_rows f p (-1) -> orderly (nload_csr gs g most f p hash)).
Proof.
  intros B L N A M Hp Hm. pose proof (nload_csr_any gs g most f B L N A M p hash Hp Hm) as H. destruct (nload_csr gs g most f p hash) as [[C h]|e]; cbn in H.
  - split; [|split; discriminate]. intros A' h' E. injection E as <- <-. tauto.
  - split; [discriminate|]. intros NR. destruct H as [[-> | ->]|(_ & H)]; [split; discriminate|split; discriminate|contradiction].
Qed.
Lemma transpose_orderly gs g most f : bytes f -> len f < 2 ^ 60 -> ~ In 0 f -> (forall nnz, announces f nnz -> - 2 ^ 61 <= nnz < 2 ^ 61) -> 0 <= most < 2 ^ 61 -> ~ only_rows f 42013 (-1) ->
  orderly (ntool_transpose gs g most f).
Proof.
  intros B L N A M NR. pose proof (transpose_any gs g most f B L N A M) as H. split; intros E; rewrite E in H; destruct H as [[X|X]|(X & H)]; try discriminate; contradiction.
Qed.
Lemma swap_orderly gs g most f : bytes f -> len f < 2 ^ 60 -> ~ In 0 f -> (forall nnz, announces f nnz -> - 2 ^ 61 <= nnz < 2 ^ 61) -> 0 <= most < 2 ^ 61 -> orderly (ntool_vertical_swap gs g most f).
Proof. intros B L N A M. pose proof (swap_any gs g most f B L N A M) as H. split; intros E; rewrite E in H; destruct H as [X|X]; discriminate. Qed.
Lemma stack_orderly gs g most f : bytes f -> len f < 2 ^ 60 -> ~ In 0 f -> (forall nnz, announces f nnz -> - 2 ^ 61 <= nnz < 2 ^ 61) -> 0 <= most < 2 ^ 61 -> orderly (ntool_stack gs g most f).
Proof. intros B L N A M. pose proof (stack_any gs g most f B L N A M) as H. split; intros E; rewrite E in H; destruct H as [X|X]; discriminate. Qed.
Lemma tools_same gs g most f n m es : matrix_file f n m es -> bytes f -> len f < 2 ^ 60 -> ~ In 0 f -> (forall nnz, announces f nnz -> - 2 ^ 61 <= nnz < 2 ^ 61) -> 0 <= most < 2 ^ 61 -> len es < 2 ^ 31 ->
  let stops r := r = Fail AssertFailed \/ r = Fail Overflow in
  (stops (ntool_transpose gs g most f) \/ ntool_transpose gs g most f = tool_transpose gs g f) /\
  (stops (ntool_vertical_swap gs g most f) \/ ntool_vertical_swap gs g most f = tool_vertical_swap gs g f) /\
  (stops (ntool_stack gs g most f) \/ ntool_stack gs g most f = tool_stack gs g f).
Proof.
  intros F B L N A M Le stops. assert (X : forall r r', tame r r' -> stops r \/ r = r'). { intros [v|e] r'; cbn; [intros ->; auto|]. unfold stops. intros [[-> | ->]| ->]; auto. }
  split; [apply X, (transpose_same gs g most f B L N A M n m es F); lia|]. split; [apply X, (swap_same gs g most f N A M n m es F)|]. apply X, (stack_same gs g most f N A M n m es F Le).
Qed.

(** ** For the examples *)
Lemma begins_mm_first h r : begins_mm h -> get (h ++ r) 0 = 37.
Proof. intros (w0 & w1 & w2 & w3 & a & b & c & d & t & -> & _). reflexivity. Qed.
Lemma announces_first f nnz : announces f nnz -> get f 0 = 37.
Proof. intros (h & cs & d & r & n & m & -> & B & _). cbn [concat]. rewrite <- app_assoc. now apply begins_mm_first. Qed.
Lemma only_rows_first f p n : only_rows f p n -> get f 0 <> 37 -> exists r, scan_int 31 f = Ok (Some n, r).
Proof.
  intros (m & es & [(h & ls & e & gl & -> & _ & (r1 & r2 & w & t & B1 & B2 & _) & In & _)|(h & cs & d & ls & gl & -> & _ & B & _)] & _) N; [|exfalso; apply N; cbn [concat]; now apply begins_mm_first].
  destruct B1 as (w1 & sa & -> & Hw & Hs & He). cbn [concat]. exists (r1 ++ concat (ls ++ e :: gl)). rewrite <- !app_assoc. apply scan_numeral; auto. destruct r1 as [|c r1].
  - destruct B2 as (w2 & sb & E & _ & Nb & _). destruct w2, sb; try discriminate. exfalso. inversion Nb; congruence.
  - cbn. cbn in He. unfold is_digit in He. unfold isdigit. lia.
Qed.
