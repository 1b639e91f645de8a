(** What spasm_compress does when entries cancel. *)
From Verif Require Import Base BaseFacts Spec SpecFacts SpecCompress Zp ZpFacts Mat MatFacts Dispatch RowList TransposeProofs CompressProofs EchInv DenseProofs.

(* the entries at positions a to b of the arrays *)
Definition seg (Aj Ax : list Z) (a b : Z) : list (Z * Z) := map (fun q => (get Aj q, get Ax q)) (zseq a b).
Lemma seg_ext Aj Ax Aj' Ax' a b : (forall q, a <= q < b -> get Aj q = get Aj' q /\ get Ax q = get Ax' q) -> seg Aj Ax a b = seg Aj' Ax' a b.
Proof. intros H. unfold seg. apply map_ext_in. intros q Hq. apply In_zseq in Hq. destruct (H q Hq) as [-> ->]. reflexivity. Qed.
Lemma seg_snoc Aj Ax a b : a <= b -> seg Aj Ax a (b + 1) = seg Aj Ax a b ++ [(get Aj b, get Ax b)].
Proof. intros H. unfold seg. rewrite zseq_S by lia. now rewrite map_app. Qed.
Lemma seg_empty Aj Ax a b : b <= a -> seg Aj Ax a b = [].
Proof. intros H. unfold seg. now rewrite zseq_empty by lia. Qed.
Lemma seg_split Aj Ax a b c : a <= b <= c -> seg Aj Ax a c = seg Aj Ax a b ++ seg Aj Ax b c.
Proof. intros H. unfold seg. rewrite (zseq_split a b c) by lia. apply map_app. Qed.
Lemma length_seg Aj Ax a b : a <= b -> length (seg Aj Ax a b) = Z.to_nat (b - a).
Proof. intros H. pose proof (len_zseq a b) as L. unfold seg, len in *. rewrite map_length. lia. Qed.

Lemma remove_zeroes_rows g A : wf A -> cx A <> None ->
  sat (remove_explicit_zeroes g A) (fun B => cn B = cn A /\ forall i, 0 <= i < cn A -> rowl B i = filter nonzero (carry (rowl A) (Z.to_nat i) ++ rowl A i)).
Proof.
  intros HA HX. unfold remove_explicit_zeroes. destruct (cx A) as [Ax0|] eqn:EA; [|congruence].
  pose proof (wf_n A HA) as Hn. pose proof (wf_len A HA) as Hl. pose proof (wf_nnz A HA) as Hnz.
  pose proof (wf_vals A HA _ EA) as Hlx. set (L := len (cj A)) in *.
  wp. apply (for_spec (fun i '(Ap, Aj, Ax, nz) =>
    cn A + 1 <= len Ap /\ len Aj = L /\ len Ax = L /\ get Ap i = nz /\ get Ap 0 = 0 /\
    0 <= nz <= get (cp A) i /\ (forall k, i < k <= cn A -> get Ap k = get (cp A) k) /\
    (forall k, 0 <= k < i -> get Ap k <= get Ap (k + 1) <= nz) /\
    (forall q, 0 <= q < nnz A -> 0 <= get Aj q < cm A) /\
    (forall q, get (cp A) i <= q -> get Aj q = get (cj A) q /\ get Ax q = get Ax0 q) /\
    seg Aj Ax nz (get (cp A) i) = carry (rowl A) (Z.to_nat i) /\
    (forall k, 0 <= k < i -> seg Aj Ax (get Ap k) (get Ap (k + 1)) = filter nonzero (carry (rowl A) (Z.to_nat k) ++ rowl A k)))); auto.
  - pose proof (wf_0 A HA) as W0. rewrite W0. repeat split; auto; try lia; now apply (wf_col A HA).
  - intros i [[[Ap Aj] Ax] nz] Hi (L1 & L2 & L3 & E & E0 & Hz & HAp & Hm & Hc & Hq & HC & HR).
    pose proof (wf_row A HA i Hi) as Hrow. unfold rbeg, rend in Hrow.
    assert (E1 : get Ap (i + 1) = get (cp A) (i + 1)) by (apply HAp; lia).
    wp; try lia. rewrite E, E1. set (hi := get (cp A) (i + 1)) in *.
    assert (ES : seg Aj Ax nz hi = carry (rowl A) (Z.to_nat i) ++ rowl A i).
    { rewrite (seg_split _ _ nz (get (cp A) i) hi) by lia. rewrite HC. f_equal. unfold rowl, seg, rbeg, rend. fold hi. apply map_ext_in. intros q Hq'. apply In_zseq in Hq'. destruct (Hq q) as [-> ->]; [lia|]. unfold val. now rewrite EA. }
    apply (for_spec (fun it '(Aj', Ax', z) => len Aj' = L /\ len Ax' = L /\ nz <= z <= it /\
      (forall q, 0 <= q < nnz A -> 0 <= get Aj' q < cm A) /\
      (forall q, q < nz \/ z <= q -> get Aj' q = get Aj q /\ get Ax' q = get Ax q) /\ seg Aj' Ax' nz z = filter nonzero (seg Aj Ax nz it))).
    + lia.
    + rewrite !seg_empty by lia. repeat split; auto; try lia; now apply Hc.
    + intros it [[Aj' Ax'] z] Hit (M2 & M3 & M4 & Mc & Mq & Ms).
      assert (Hx : get Ax' it = get Ax it) by (apply Mq; lia). assert (Hj : get Aj' it = get Aj it) by (apply Mq; lia). rewrite seg_snoc, filter_app by lia. cbn [filter]. unfold nonzero at 2. cbn [snd]. rewrite <- Hx. wp; try lia.
      * replace (get Ax' it =? 0) with true by lia. cbn [negb]. rewrite app_nil_r. repeat split; auto; try lia; try (now apply Mc); now apply Mq.
      * replace (get Ax' it =? 0) with false by lia. cbn [negb]. len. split; [auto|]. split; [auto|]. split; [lia|]. split.
        { intros q Hq'. rewrite get_upd_in by lia. destruct (z =? q); apply Mc; lia. }
        split; [intros q Hq'; rewrite !get_upd_ne by lia; apply Mq; lia|].
        rewrite seg_snoc by lia. rewrite !get_upd_eq by lia. rewrite <- Ms, Hj. f_equal. apply seg_ext. intros q Hq'. rewrite !get_upd_ne by lia. auto.
    + intros [[Aj' Ax'] z] (M2 & M3 & M4 & Mc & Mq & Ms). wp; try lia. len.
      split; [auto|]. split; [auto|]. split; [auto|]. split; [rewrite get_upd_eq; lia|].
      split; [rewrite get_upd_ne; lia|]. split; [lia|].
      split. { intros k Hk. rewrite get_upd_ne by lia. apply HAp; lia. }
      split. { intros k Hk. rewrite (get_upd_ne _ _ k) by lia. rewrite get_upd_in by lia.
        destruct (Z.eqb_spec (i + 1) (k + 1)); [replace k with i by lia; lia|]. specialize (Hm k ltac:(lia)). lia. }
      split; [auto|]. split.
      { intros q Hq'. destruct (Mq q) as [-> ->]; [lia|]. apply Hq. lia. }
      assert (Lz : length (filter nonzero (carry (rowl A) (Z.to_nat i) ++ rowl A i)) = Z.to_nat (z - nz)). { rewrite <- ES, <- Ms. apply length_seg. lia. }
      split.
      * replace (Z.to_nat (i + 1)) with (S (Z.to_nat i)) by lia. cbn [carry]. rewrite Z2Nat.id by lia. rewrite Lz, <- ES.
        rewrite (seg_split Aj Ax nz z hi) by lia. rewrite skipn_app, skipn_all2 by (rewrite length_seg; lia). rewrite length_seg by lia. rewrite Nat.sub_diag. cbn [skipn app]. apply seg_ext. intros q Hq'. apply Mq. lia.
      * intros k Hk. rewrite (get_upd_ne _ _ k) by lia. rewrite get_upd_in by lia. destruct (Z.eqb_spec (i + 1) (k + 1)) as [|Nk].
        -- replace k with i by lia. rewrite E, Ms, ES. reflexivity.
        -- rewrite <- HR by lia. apply seg_ext. intros q Hq'. apply Mq. specialize (Hm k ltac:(lia)). lia.
  - intros [[[Ap Aj] Ax] nz] (L1 & L2 & L3 & E & E0 & Hz & HAp & Hm & Hc & Hq & HC & HR).
    set (B := Csr _ _ _ _ _ _). assert (HnB : nnz B = nz) by exact E. fold (nnz A) in Hz.
    assert (HB : wf B).
    { unfold wf. rewrite HnB. cbn [cn cm cp cj cx B].
      split; [auto|]. split; [apply (wf_m A HA)|]. split; [auto|]. split; [auto|].
      split; [intros k Hk; apply Hm; lia|]. split; [lia|]. split; [|lia]. intros q Hq'. apply Hc; lia. }
    eapply sat_mono. { apply (csr_realloc_ok g B (-1)); auto. lia. }
    intros C (HC' & (S1 & S2 & S3 & S4 & S5) & H3 & H4). split; [auto|]. intros i Hi. rewrite <- HR by auto.
    unfold rowl, seg, rbeg, rend. rewrite S3. cbn [cp B]. apply map_ext_in. intros q Hq'. apply In_zseq in Hq'. 
    assert (0 <= get Ap i). { clear - Hm E0 Hi. revert Hi. intros [H0 H1]. assert (X : forall k, 0 <= k -> k < cn A -> 0 <= get Ap k); [|now apply X]. intros k Hk. pattern k. apply natlike_ind; [lia| |auto].
      intros x Hx IH Hlt. specialize (Hm x ltac:(lia)). replace (Z.succ x) with (x + 1) by lia. specialize (IH ltac:(lia)). lia. }
    specialize (Hm i Hi). destruct (S5 q) as [-> ->]; [lia|]. reflexivity.
Qed.

Lemma lentry_nonzero j l : lentry j (filter nonzero l) = lentry j l.
Proof.
  induction l as [|[c v] l IH]; [reflexivity|]. cbn [filter]. unfold nonzero at 1. cbn [snd]. rewrite (lentry_cons j c v). destruct (Z.eqb_spec v 0) as [->|]; cbn [negb].
  - rewrite IH. destruct (c =? j); lia.
  - rewrite lentry_cons. now rewrite IH.
Qed.
Lemma carry_none R k : (forall i, 0 <= i < Z.of_nat k -> Forall (fun e => snd e <> 0) (R i)) -> carry R k = [].
Proof.
  induction k as [|k IH]; intros H; [reflexivity|]. cbn [carry]. rewrite IH by (intros; apply H; lia). cbn [app].
  specialize (H (Z.of_nat k) ltac:(lia)). assert (E : filter nonzero (R (Z.of_nat k)) = R (Z.of_nat k)).
  { induction H as [|e l He _ IHl]; [reflexivity|]. cbn [filter]. unfold nonzero at 1. replace (snd e =? 0) with false by lia. cbn [negb]. now rewrite IHl. }
  rewrite E. apply skipn_all.
Qed.
Lemma nodup_rowl A i : nodup_rows A -> 0 <= i < cn A -> NoDup (map fst (rowl A i)).
Proof.
  intros H Hi. unfold rowl. rewrite map_map. cbn [fst]. pose proof (NoDup_zseq (rbeg A i) (rend A i)) as N.
  assert (X : forall q, In q (zseq (rbeg A i) (rend A i)) -> rbeg A i <= q < rend A i) by (intros q Hq; now apply In_zseq in Hq).
  induction N as [|q l Hq N IH]; cbn [map]; constructor; [|apply IH; intros; apply X; now right].
  rewrite in_map_iff. intros (q' & E & Hq'). apply Hq. replace q with q'; [auto|]. apply (H i); auto; apply X; [now right|now left].
Qed.

(* R i: the entries of row i of T, duplicates summed *)
Theorem compress_rows g T : twf T -> 2 <= tprime T -> tx T <> None -> (forall k, 0 <= k < tnz T -> balanced (tprime T) (tval T k)) ->
  sat (compress g T) (fun C => exists R : Z -> list (Z * Z),
    (forall i, 0 <= i < tn T -> NoDup (map fst (R i)) /\ (forall j, In j (map fst (R i)) <-> tstored T i j) /\
      forall j x, In (j, x) (R i) -> balanced (tprime T) x /\ cong (tprime T) x (tentry T i j)) /\
    forall i, 0 <= i < tn T -> rowl C i = filter nonzero (carry R (Z.to_nat i) ++ R i)).
Proof.
  intros HT Hp Hx Hb. unfold compress. apply sat_bind.
  eapply sat_mono; [now apply compress_stages|]. intros C HC. apply sat_bind.
  eapply sat_mono; [exact HC|]. clear C HC.
  intros D (HD & D1 & D2 & D3 & D4 & D5 & D6 & D7 & D8).
  eapply sat_mono; [apply (remove_zeroes_rows g D); [auto|tauto]|]. intros C (C1 & HR). exists (rowl D). split; [|intros i Hi; apply HR; lia].
  intros i Hi. split; [apply nodup_rowl; [auto|lia]|]. split; [intros j; rewrite <- stored_rowl; now apply D6|].
  intros j x Hin. apply In_rowl in Hin as (px & Hpx & <- & <-). pose proof (wf_row D HD i ltac:(lia)) as W. split; [apply D8; auto; lia|]. rewrite <- D7 by auto. rewrite nodup_entry by (auto; lia). apply cong_refl.
Qed.
Theorem compress_prefix g T : twf T -> 2 <= tprime T -> tx T <> None -> (forall k, 0 <= k < tnz T -> balanced (tprime T) (tval T k)) ->
  sat (compress g T) (fun C => forall r, (forall i j, 0 <= i < r -> tstored T i j -> ~ cong (tprime T) (tentry T i j) 0) ->
    forall i j, 0 <= i <= r -> i < tn T -> cong (tprime T) (entry C i j) (tentry T i j)).
Proof.
  intros HT Hp Hx Hb. eapply sat_mono; [now apply compress_rows|]. intros C (R & HR & HC) r Hr i j Hi Hin.
  rewrite entry_rowl, HC by lia. rewrite carry_none. 2: { intros k Hk. destruct (HR k) as (_ & H2 & H3); [lia|]. apply Forall_forall. intros [c v] He E. cbn [snd] in E. subst v.
    destruct (H3 c 0 He) as [_ H4]. apply (Hr k c); [lia|apply H2; now apply (in_map fst) in He|]. now apply cong_sym. }
  cbn [app]. rewrite lentry_nonzero. destruct (HR i) as (H1 & H2 & H3); [lia|].
  destruct (in_dec Z.eq_dec j (map fst (R i))) as [Hj|Hj].
  - apply in_map_iff in Hj as ([c v] & E & Hj). cbn [fst] in E. subst c. rewrite (lentry_in j v) by auto. now apply H3.
  - rewrite lentry_absent by auto. apply cong_eq. symmetry. apply tentry_unstored. rewrite <- H2. exact Hj.
Qed.
