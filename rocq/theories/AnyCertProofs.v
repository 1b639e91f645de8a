(** Proofs about AnyCert.v. *)
From Coq Require Import Znumtheory.
From Verif Require Import Base BaseFacts Spec SpecFacts SpecText SpecAccept SpecTools SpecHeader SpecAny SpecAnyElim SpecAnyCert Zp Mat MatFacts RowList DenseProofs4 EchProofs CertProofs
  SpecSha ShaHash Sha Prng PrngProofs Stdio IO TextProofs IOProofs IOAccept IOSafe Sizes SizesProofs AnyInput AnyProofs Cert CertIO CertIOProofs ToolsElim ToolsElimProofs AnyElim AnyElimProofs AnyCert.

Lemma unchecked_eq g most r : 0 <= most < 2 ^ 61 -> int32 r -> unchecked g most r = Ok (if 4 * r <=? most then malloc g r else []).
Proof.
  unfold int32. intros Hm Hr. unfold unchecked.
  assert (E : argument (Mul (int r) (sizeof sz_int)) = Ok (4 * r)).
  { unfold argument, int, sizeof. cbn [eval bind binop join fst snd norm conv]. rewrite <- Zmult_mod, signed64 by (unfold sz_int; lia). unfold sz_int. f_equal. lia. }
  rewrite E. cbn [bind]. unfold sz_int. f_equal. destruct (Z.leb_spec 0 r).
  - replace (0 <=? 4 * r) with true by lia. cbn [andb]. replace (4 * r / 4) with r by (rewrite Z.mul_comm, Z.div_mul; lia). reflexivity.
  - replace (0 <=? 4 * r) with false by lia. cbn [andb]. replace (4 * r <=? most) with true by lia. unfold malloc. replace (Z.to_nat r) with O by lia. reflexivity.
Qed.
(* the loader of CertIO.v, when the blocks exist *)
Lemma ncert_load_same g most bs : 0 <= most < 2 ^ 61 -> ~ too_many most bs -> ncert_load g most bs = cert_load g bs.
Proof.
  intros Hm N. unfold ncert_load, cert_load, fscan_int. cbn [frest feof]. destruct (scan_int 31 bs) as [[[r|] t]|e] eqn:E; cbn [bind]; try reflexivity.
  destruct (scan_int_inv _ _ _ _ E) as [B I]. rewrite !unchecked_eq by (auto; exact I). replace (4 * r <=? most) with true; [reflexivity|].
  symmetry. apply Z.leb_le. destruct (Z_le_gt_dec (4 * r) most) as [|G]; [auto|]. exfalso. apply N. exists r, t. split; [exact B|lia].
Qed.

Lemma Forall_upd (P : Z -> Prop) l k v : Forall P l -> P v -> Forall P (upd l k v).
Proof.
  intros H Hv. unfold upd. destruct (k <? 0); [auto|]. revert l H. induction (Z.to_nat k) as [|i IH]; intros l H; destruct H as [|x l Hx H]; cbn [upd_nat]; constructor; auto.
Qed.
Lemma scan_list_any r l f : outs (scan_list r l f) (fun '(l', _) => len l' = len l /\ (Forall int32 l -> Forall int32 l')) (fun e => e = Overflow \/ e = OOB /\ len l < r).
Proof.
  unfold scan_list. destruct (Z_le_gt_dec r 0). { rewrite for_empty by lia. cbn. auto. }
  apply (outs_for (fun _ '(l', _) => len l' = len l /\ (Forall int32 l -> Forall int32 l'))); [lia|auto| |].
  - intros k [l' f'] Hk [L Fo]. unfold fscan_int. destruct (scan_int 31 (frest f')) as [[[v|] t]|e] eqn:E; cbn [bind].
    + destruct (scan_int_inv _ _ _ _ E) as [_ I]. unfold aset. destruct (inb l' k) eqn:B; unfold inb in B; cbn [bind outs].
      * rewrite len_upd. split; [auto|]. intros H. apply Forall_upd; [auto|exact I].
      * right. split; [reflexivity|lia].
    + cbn [outs]. auto.
    + cbn [outs]. left. pose proof (refused_int 31 (frest f')) as R. rewrite E in R. cbn in R. destruct R as [->|]; [|auto].
      exfalso. revert E. unfold scan_int. destruct (match skip_space (frest f') with [] => _ | _ => _ end) as [neg s]. destruct (negb _); [discriminate|]. destruct (scan_digits 0 s) as [v s']. destruct (_ && _); discriminate.
  - intros [l' f'] H. exact H.
Qed.

Lemma strtoul16_byte s : byte (strtoul16 s).
Proof. unfold strtoul16, byte. cbv zeta. match goal with |- context [let (_, _) := ?X in _] => destruct X as [neg t] end. apply Z.mod_pos_bound. lia. Qed.
Lemma hash_loop g buf : 64 <= len buf ->
  sat (for_ 0 32 (fun i hash => a <- aget buf (2 * i) ;; b <- aget buf (2 * i + 1) ;; aset hash i (strtoul16 [a; b])) (malloc g 32)) (fun h => len h = 32 /\ bytes h).
Proof.
  intros Lb. apply (for_spec (fun k h => len h = 32 /\ forall i, 0 <= i < k -> byte (get h i))); [lia|split; [now rewrite len_malloc by lia|lia]| |].
  - intros k h Hk [L Bh]. rewrite !aget_ok by lia. cbn [bind]. rewrite aset_ok by lia. cbn [sat]. rewrite len_upd. split; [auto|]. intros i Hi. rewrite get_upd_in by lia. destruct (Z.eqb_spec k i); [|apply Bh; lia].
    apply strtoul16_byte.
  - intros h [Lh Bh]. split; [exact Lh|]. apply Forall_forall. intros x Hx. destruct (BaseFacts.In_get _ _ Hx) as (i & Hi & <-). apply Bh. lia.
Qed.
(* the certificate: arrays as they were allocated *)
Lemma ncert_load_any g most bs : 0 <= most < 2 ^ 61 ->
  outs (ncert_load g most bs) (fun o => forall c, o = Some c -> (read_cert c \/ too_many most bs /\ most < 4 * c_r c /\ c_i c = []) /\ len (c_hash c) = 32 /\ ((forall k i, int32 (g k i)) -> ints c))
    (fun e => e = Overflow \/ e = OOB /\ too_many most bs).
Proof.
  intros Hm. unfold ncert_load. assert (SO : forall bits s e, scan_int bits s = Fail e -> e = Overflow).
  { intros bits s e. unfold scan_int. destruct (match skip_space s with [] => _ | _ => _ end) as [neg t]. destruct (negb _); [discriminate|]. destruct (scan_digits 0 t) as [v t']. destruct (_ && _); [discriminate|]. intros E. now injection E as <-. }
  unfold fscan_int at 1. cbn [frest feof]. destruct (scan_int 31 bs) as [[[r|] t]|e] eqn:E; cbn [bind]; [|discriminate|left; eapply SO; exact E].
  destruct (scan_int_inv _ _ _ _ E) as [B I]. rewrite !unchecked_eq by (auto; exact I). cbn [bind].
  unfold fscan_int. cbn [frest feof]. destruct (scan_int 63 t) as [[[p|] t']|e] eqn:E'; cbn [bind]; [|discriminate|left; eapply SO; exact E'].
  destruct (scan_int_inv _ _ _ _ E') as [_ I'].
  cbn [frest]. destruct (fgets 65 _) as [[l|] f'] eqn:EF; [|cbn [outs]; discriminate].
  assert (Ll : len l <= 64).
  { unfold fgets in EF. cbn [feof frest] in EF. destruct (skip_space t') as [|c0 s0]; [discriminate|]. destruct (take_line (Z.to_nat (65 - 1)) (c0 :: s0)) as [[l0 r0] e0] eqn:ET. apply take_line_len in ET. destruct ET as [ET _].
    change (Z.to_nat (65 - 1)) with 64%nat in ET. destruct l0; [discriminate|]. injection EF as <- _. unfold len. lia. }
  set (buf := (l ++ [0]) ++ skipn (length l + 1) (malloc (g 4) 65)).
  assert (Lb : 64 <= len buf).
  { unfold buf. assert (LM : len (malloc (g 4) 65) = 65) by (apply len_malloc; lia). unfold len in *. rewrite !app_length, skipn_length. cbn [length]. lia. }
  apply outs_bind, sat_outs. eapply sat_mono; [apply (hash_loop (g 5) buf Lb)|]. intros h [Lh HH].
  set (arr := fun g0 : Z -> Z => if 4 * r <=? most then malloc g0 r else []).
  assert (La : forall g0, len (arr g0) = if 4 * r <=? most then Z.max 0 r else 0).
  { intros g0. unfold arr. destruct (_ <=? _); [|reflexivity]. unfold malloc, len. rewrite map_length, seq_length. lia. }
  assert (Fa : forall k, (forall k i, int32 (g k i)) -> Forall int32 (arr (g k))).
  { intros k H. unfold arr. destruct (_ <=? _); [|constructor]. apply Forall_forall. intros x Hx. unfold malloc in Hx. apply in_map_iff in Hx. destruct Hx as (i & <- & _). apply H. }
  assert (Big : forall g0, len (arr g0) < r -> too_many most bs).
  { intros g0 H. rewrite La in H. exists r, t. split; [exact B|]. destruct (Z.leb_spec (4 * r) most); lia. }
  fold (arr (g 0)) (arr (g 1)) (arr (g 2)) (arr (g 3)).
  apply outs_bind. eapply outs_imp; [apply scan_list_any| |intros e [->|[-> H]]; [now left|right; split; [reflexivity|eapply Big; exact H]]]. intros [i1 f1] [L1 F1].
  apply outs_bind. eapply outs_imp; [apply scan_list_any| |intros e [->|[-> H]]; [now left|right; split; [reflexivity|eapply Big; rewrite L1 in H; exact H]]]. intros [i2 f2] [L2 F2].
  apply outs_bind. eapply outs_imp; [apply scan_list_any| |intros e [->|[-> H]]; [now left|right; split; [reflexivity|eapply Big; exact H]]]. intros [x1 f3] [L3 F3].
  apply outs_bind. eapply outs_imp; [apply scan_list_any| |intros e [->|[-> H]]; [now left|right; split; [reflexivity|eapply Big; exact H]]]. intros [y1 f4] [L4 F4].
  cbn [outs]. intros c Ec. injection Ec as <-. unfold ints, read_cert. cbn [c_r c_prime c_hash c_i c_j c_x c_y]. rewrite La in L1, L3, L4. rewrite L1 in L2. pose proof (La (g 1)) as L5. split; [|split; [exact Lh|]].
  - destruct (Z.leb_spec (4 * r) most).
    + left. split; [exact I|]. split; [exact I'|]. split; [exact Lh|]. split; [exact HH|]. cbn [In]. intros l0 Hl. destruct Hl as [<-|[<-|[<-|[<-|[]]]]]; assumption.
    + right. split; [exists r, t; split; [exact B|lia]|]. split; [lia|]. destruct i2; [reflexivity|]. unfold len in L2. cbn in L2. lia.
  - intros Hg. cbn [In]. intros l0 Hl. destruct Hl as [<-|[<-|[<-|[<-|[]]]]]; auto.
Qed.

(* whatever the size that malloc refuses, there is a short file for which a null pointer is dereferenced *)
Lemma ncert_load_null g most : 0 <= most < 2 ^ 33 - 4 -> ncert_load g most (print_int (most / 4 + 1) ++ [NL; 55; NL; 48; NL; 53; NL]) = Fail OOB.
Proof.
  intros Hm. pose proof (Z.div_mod most 4 ltac:(lia)). pose proof (Z.mod_pos_bound most 4 ltac:(lia)). set (r := most / 4 + 1) in *.
  assert (I : int32 r) by (unfold int32, r; lia). unfold ncert_load.
  destruct (fscan_numeral 31 [] (print_int r) [NL; 55; NL; 48; NL; 53; NL] r false) as [e E]; [constructor|apply int32_fits, I|reflexivity|exact I|]. cbn [app] in E. rewrite E. cbn [bind].
  rewrite !unchecked_eq by (lia || exact I). replace (4 * r <=? most) with false by lia. cbn [bind].
  change (fscan_int 63 (File [NL; 55; NL; 48; NL; 53; NL] e)) with (Ok (Some 7, File [NL; 48; NL; 53; NL] (e || false))). cbn [bind frest].
  change (fgets 65 _) with (Some [48; NL], File [53; NL] false). cbv beta iota zeta.
  match goal with |- bind (for_ 0 32 ?b ?m) _ = _ => pose proof (hash_loop (g 5) (([48; NL] ++ [0]) ++ skipn (length [48; NL] + 1) (malloc (g 4) 65))) as HH; destruct (for_ 0 32 b m) as [h|e'] end.
  - cbn [bind]. unfold scan_list, for_. destruct (Z.to_nat (r - 0)) as [|k] eqn:Ek; [unfold r in *; lia|]. reflexivity.
  - exfalso. cbn [sat] in HH. apply HH. assert (LM : len (malloc (g 4) 65) = 65) by (apply len_malloc; lia). unfold len in *. rewrite !app_length, skipn_length. cbn [length] in *. lia.
Qed.

(* a certificate of negative rank is handled as one of rank zero *)
Lemma verify_neg gs fuel A hash c : c_r c <= 0 -> rank_verify gs fuel A hash c = rank_verify gs fuel A hash (Cert 0 (c_prime c) (c_hash c) [] [] [] []).
Proof.
  intros H. unfold rank_verify, in_range, put_at, check_x. cbn [c_r c_prime c_hash c_i c_j c_x c_y]. destruct (forb 0 32 _ tt) as [[u|b]|e]; cbn [bind]; try reflexivity. destruct (negb _); [reflexivity|].
  rewrite !forb_none by lia. cbn [bind]. destruct (prng_seed _ _ _ _ _) as [ctx|]; cbn [bind]; [|reflexivity]. destruct (set_all (cn A) 0 _) as [x|]; cbn [bind]; [|reflexivity]. rewrite !for_empty by lia. cbn [bind].
  destruct (set_all (cm A) 0 _) as [y|]; cbn [bind]; [|reflexivity]. destruct (xApy x A y) as [y1|]; cbn [bind]; [|reflexivity]. rewrite !for_empty by lia. cbn [bind].
  destruct (set_all (cn A) BOT _) as [x1|]; cbn [bind]; [|reflexivity]. now rewrite !for_empty by lia.
Qed.
Lemma read_wf c : read_cert c -> 0 <= c_r c -> cert_wf c.
Proof.
  intros (_ & _ & Lh & _ & L) Hr. cbn [In] in L. constructor; auto; rewrite L by auto; lia.
Qed.
(* what the verification of a certificate that was read says *)
Lemma verify_read p A hash gs fuel c : ok_modulus p -> wf A -> cprime A = p -> cx A <> None -> len hash = 32 -> bytes hash -> read_cert c ->
  outs (rank_verify gs fuel A hash c) (fun ok => ok = true -> c_hash c = hash /\ c_prime c = p /\ forall k, 0 <= k < c_r c -> 0 <= get (c_i c) k < cn A /\ 0 <= get (c_j c) k < cm A) prng_err.
Proof.
  intros Hp HA HAp HAx Lh Bh Hc. destruct (mask_bits_exists p) as [b Hb]; [unfold ok_modulus in Hp; lia|]. destruct (Z_le_gt_dec (c_r c) 0) as [N|N].
  - rewrite verify_neg by auto. eapply outs_imp; [apply (verify_gen p Hp A HA HAp HAx hash (conj Lh Bh) b Hb fuel gs)| |intros e [He _]; exact He].
    + destruct Hc as (_ & _ & Lc & _). constructor; cbn [c_r c_hash c_i c_j c_x c_y]; auto; reflexivity || lia.
    + intros ok V E. apply V in E. cbn [c_r c_prime c_hash] in E. destruct E as (E1 & E2 & _). split; [auto|]. split; [auto|]. lia.
  - eapply outs_imp; [apply (verify_gen p Hp A HA HAp HAx hash (conj Lh Bh) b Hb fuel gs); apply read_wf; [auto|lia]| |intros e [He _]; exact He].
    intros ok V E. apply V in E. destruct E as (E1 & E2 & E3 & _). auto.
Qed.

(** ** check_cert *)
Section ANY.
Variables (gs : Z -> Z) (g : Z -> Z -> Z -> Z) (most : Z) (f : list Z).
Hypothesis (HB : bytes f) (HL : len f < 2 ^ 60) (H0 : ~ In 0 f) (HA : forall nnz, announces f nnz -> - 2 ^ 61 <= nnz < 2 ^ 61) (Hmost : 0 <= most < 2 ^ 61).
Theorem check_any gc fc junk cf p : ok_modulus p -> quiet p f -> len (c_hash junk) = 32 -> c_hash junk <> sha256 f ->
  outs (ntool_check_cert gs g gc fc junk most f cf p) (fun '(said, code) => exists n m es A, like_matrix f n m es /\ holds p (rows p n es) (cols p m es) es A /\
      (said = true /\ code = 0 /\ (ncert_load (g 3) most cf = Ok None \/ exists c, ncert_load (g 3) most cf = Ok (Some c) /\ rank_verify gc fc A (sha256 f) c = Ok false) \/
       said = false /\ code = 1 /\ exists c, ncert_load (g 3) most cf = Ok (Some c) /\ read_cert c /\ rank_verify gc fc A (sha256 f) c = Ok true /\
         c_hash c = sha256 f /\ c_prime c = p /\ forall k, 0 <= k < c_r c -> 0 <= get (c_i c) k < rows p n es /\ 0 <= get (c_j c) k < cols p m es))
    (fun e => refused e \/ e = OutOfFuel \/ e = OOB /\ (minus_one (fun _ _ => false) f p \/ too_many most cf)).
Proof.
  intros Mp Q Lj Nj. unfold ntool_check_cert. apply outs_bind. eapply outs_imp; [apply (nload_matrix_holds gs g most f HB HL H0 HA Hmost (fun _ _ => false) p _ Mp Q); intros md E; injection E as <-; apply len_malloc; lia| |intros e [He|[-> He]]; [now left|right; right; auto]].
  intros [A h] (Eh & n & m & es & L & HN & HM & H). cbv beta iota in H. rewrite (Eh _ eq_refl). clear Eh h.
  apply outs_bind. pose proof (ncert_load_any (g 3) most cf Hmost) as NL. destruct (ncert_load (g 3) most cf) as [o|e] eqn:EL; cbn [outs] in *; [|destruct NL as [->|[-> T]]; [left; right; reflexivity|right; right; auto]].
  pose proof H as (WA & E1 & E2 & E3 & RA & _).
  assert (Xs : cx A <> None) by apply RA.
  cbn [deref bind]. destruct o as [c|].
  - destruct (NL c eq_refl) as (Rc & Lh & _). destruct Rc as [Rc|(T & Tr & Ei)].
    + apply outs_bind. pose proof (verify_read p A (sha256 f) gc fc c Mp WA E3 Xs (len_sha256 f) (bytes_sha256 f) Rc) as V. destruct (rank_verify gc fc A (sha256 f) c) as [ok|e] eqn:EV; cbn [outs] in *.
      * exists n, m, es, A. split; [exact L|]. split; [exact H|]. destruct ok; cbn [negb].
        -- right. destruct (V eq_refl) as (V1 & V2 & V3). split; [reflexivity|]. split; [reflexivity|]. exists c. rewrite E1, E2 in V3. auto 10.
        -- left. split; [reflexivity|]. split; [reflexivity|]. right. exists c. auto.
      * destruct V as [->| ->]; [right; left; reflexivity|left; right; reflexivity].
    + (* no array *)
      destruct (list_eq_dec Z.eq_dec (c_hash c) (sha256 f)) as [Eq|Ne].
      2:{ rewrite verify_hash by (auto using len_sha256, bytes_sha256). cbn [bind outs negb]. exists n, m, es, A. split; [exact L|]. split; [exact H|]. left. split; [reflexivity|]. split; [reflexivity|]. right. exists c. split; [reflexivity|]. apply verify_hash; auto using len_sha256, bytes_sha256. }
      assert (VE : rank_verify gc fc A (sha256 f) c = Ok false \/ rank_verify gc fc A (sha256 f) c = Fail OOB).
      { assert (W : cert_wf (Cert 0 (c_prime c) (c_hash c) [] [] [] [])) by (constructor; cbn [c_r c_hash c_i c_j c_x c_y]; auto; reflexivity || lia).
        assert (SH := hash_eq_ok (sha256 f) (conj (len_sha256 f) (bytes_sha256 f)) 0 _ W). cbn [c_hash] in SH. unfold rank_verify. destruct (forb 0 32 _ tt) as [[u|b]|e]; cbn [sat] in SH; [|tauto|tauto].
        cbn [bind]. destruct (negb _); [now left|]. right. unfold in_range, forb. destruct (Z.to_nat (c_r c - 0)) as [|k] eqn:Ek; [lia|]. cbn [forb_nat]. rewrite Ei. reflexivity. }
      destruct VE as [VE|VE]; rewrite VE; cbn [bind outs negb]; [|right; right; auto]. exists n, m, es, A. split; [exact L|]. split; [exact H|]. left. split; [reflexivity|]. split; [reflexivity|]. right. exists c. auto.
  - rewrite verify_hash by (auto using len_sha256, bytes_sha256). cbn [bind outs negb]. exists n, m, es, A. split; [exact L|]. split; [exact H|]. left. auto.
Qed.
End ANY.
