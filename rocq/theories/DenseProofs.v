(** Proofs about dense Schur complements (Dense.v). *)
From Verif Require Import Base BaseFacts Spec SpecFacts SpecElim Zp ZpFacts Mat MatFacts RowList CompressProofs LinAlg TriProofs VecProofs KernelProofs ParRows ElimFacts EchInv Reach Schur Sched Append AppendProofs Gplu GpluProofs Dense DenseSpec.
From Coq Require Import ZifyBool Permutation.

(** ** Non-pivotal columns *)
Record cols (q : list Z) (m Sm : Z) (qc : list Z) : Prop := {
  co_len : Sm <= len qc;
  co_rng : forall t, 0 <= t < Sm -> 0 <= get qc t < m /\ get q (get qc t) < 0;
  co_inj : forall t u, 0 <= t < Sm -> 0 <= u < Sm -> get qc t = get qc u -> t = u;
  co_sur : forall j, 0 <= j < m -> get q j < 0 -> exists t, 0 <= t < Sm /\ get qc t = j
}.
Definition free01 (q : list Z) (j : Z) : Z := if 0 <=? get q j then 0 else 1.
Lemma free01_mono q a b : 0 <= a <= b -> sum 0 a (free01 q) <= sum 0 b (free01 q).
Proof.
  intros H. rewrite (sum_split a 0 b) by lia. pose proof (sum_nonneg a b (free01 q)) as E.
  assert (0 <= sum a b (free01 q)); [|lia]. apply E. intros i Hi. unfold free01. destruct (0 <=? _); lia.
Qed.
Lemma prepare_q_ok m q qc : 0 <= m -> len q = m -> sum 0 m (free01 q) <= len qc ->
  sat (prepare_q m q qc) (fun qc' => len qc' = len qc /\ cols q m (sum 0 m (free01 q)) qc').
Proof.
  intros Hm Hq Hl. unfold prepare_q. apply sat_bind.
  apply (for_spec (fun j '(qc', i) => len qc' = len qc /\ i = sum 0 j (free01 q) /\
    (forall t, 0 <= t < i -> 0 <= get qc' t < j /\ get q (get qc' t) < 0) /\
    (forall t u, 0 <= t < u -> u < i -> get qc' t < get qc' u) /\
    (forall c, 0 <= c < j -> get q c < 0 -> exists t, 0 <= t < i /\ get qc' t = c))).
  - auto.
  - split; auto. split; [symmetry; now apply sum_empty|]. split; [intros; lia|]. split; intros; lia.
  - intros j [qc' i] Hj (L1 & Ei & R1 & M1 & S1). apply sat_bind, sat_aget; [lia|].
    assert (E1 : sum 0 (j + 1) (free01 q) = i + free01 q j). { rewrite sum_S by lia. lia. }
    pose proof (free01_mono q (j + 1) m ltac:(lia)) as Hmo. pose proof (free01_mono q 0 j ltac:(lia)) as Hge. rewrite (sum_empty 0 0) in Hge by lia.
    unfold free01 in E1 at 2. destruct (Z.ltb_spec (get q j) 0) as [Hlt|Hge'].
    + replace (0 <=? get q j) with false in E1 by lia. apply sat_bind, sat_aset; [lia|]. cbn [sat]. rewrite len_upd.
      split; auto. split; [lia|]. split; [|split].
      * intros t Ht. rewrite get_upd_in by lia. destruct (Z.eqb_spec i t); [lia|]. destruct (R1 t ltac:(lia)). lia.
      * intros t u Ht Hu. rewrite !get_upd_in by lia. destruct (Z.eqb_spec i t); [lia|]. destruct (Z.eqb_spec i u).
        -- destruct (R1 t ltac:(lia)). lia.
        -- apply M1; lia.
      * intros c Hc Hqc. destruct (Z.eq_dec c j) as [->|].
        -- exists i. split; [lia|]. rewrite get_upd_eq by lia. auto.
        -- destruct (S1 c ltac:(lia) Hqc) as (t & Ht & E). exists t. split; [lia|]. rewrite get_upd_ne by lia. auto.
    + replace (0 <=? get q j) with true in E1 by lia. cbn [sat]. split; auto. split; [lia|]. split; [|split; auto].
      * intros t Ht. destruct (R1 t Ht). lia.
      * intros c Hc Hqc. destruct (Z.eq_dec c j) as [->|]; [lia|]. apply S1; auto. lia.
  - intros [qc' i] (L1 & Ei & R1 & M1 & S1). cbn [sat]. split; auto. subst i. constructor; auto; [lia|].
    intros t u Ht Hu E. destruct (Z.lt_total t u) as [H|[H|H]]; auto.
    + specialize (M1 t u). lia.
    + specialize (M1 u t). lia.
Qed.
Lemma free_count p U q : elim p U q -> sum 0 (cm U) (free01 q) = cm U - cn U.
Proof. intros HE. apply (count_free p U q (el_wf _ _ _ HE) (el_up _ _ _ HE)). Qed.

(* the vector with given values on the non-pivotal columns *)
Definition dext (Sm : Z) (qc : list Z) (row : Z -> Z) (j : Z) : Z := lentry j (map (fun t => (get qc t, row t)) (zseq 0 Sm)).
Lemma lentry_map_inj (f h : Z -> Z) l t : (forall a b, In a l -> In b l -> f a = f b -> a = b) -> NoDup l -> In t l ->
  lentry (f t) (map (fun t => (f t, h t)) l) = h t.
Proof.
  intros Hi HN Ht. induction l as [|a l IH]; [easy|]. inversion HN as [|? ? H1 H2]; subst. cbn [map]. rewrite lentry_cons.
  destruct (Z.eqb_spec (f a) (f t)) as [E|E].
  - assert (a = t) as -> by (apply Hi; cbn [In]; auto). rewrite lentry_absent; [lia|]. rewrite map_map. cbn [fst].
    rewrite in_map_iff. intros (b & Eb & Hb). assert (b = t) as -> by (apply Hi; cbn [In]; auto). easy.
  - destruct Ht as [->|Ht]; [easy|]. rewrite IH; auto. intros x y Hx Hy. apply Hi; now right.
Qed.
Lemma lentry_map_out (f h : Z -> Z) l j : (forall t, In t l -> f t <> j) -> lentry j (map (fun t => (f t, h t)) l) = 0.
Proof. intros Hj. apply lentry_absent. rewrite map_map. cbn [fst]. rewrite in_map_iff. intros (t & E & Ht). now apply (Hj t). Qed.
Lemma dext_col q m Sm qc row t : cols q m Sm qc -> 0 <= t < Sm -> dext Sm qc row (get qc t) = row t.
Proof.
  intros HC Ht. apply (lentry_map_inj (get qc)); [|apply NoDup_zseq|now apply In_zseq].
  intros a b Ha Hb. apply In_zseq in Ha, Hb. apply (co_inj _ _ _ _ HC); auto.
Qed.
Lemma dext_pivot q m Sm qc row j : cols q m Sm qc -> 0 <= get q j -> dext Sm qc row j = 0.
Proof. intros HC Hj. apply lentry_map_out. intros t Ht E. apply In_zseq in Ht. destruct (co_rng _ _ _ _ HC t Ht). subst j. lia. Qed.
(* two vectors that are zero on pivotal columns *)
Lemma cols_ind q m Sm qc (P : Z -> Prop) : cols q m Sm qc -> (forall j, 0 <= j < m -> 0 <= get q j -> P j) ->
  (forall t, 0 <= t < Sm -> P (get qc t)) -> forall j, 0 <= j < m -> P j.
Proof.
  intros HC H1 H2 j Hj. destruct (Z_lt_le_dec (get q j) 0) as [H|H]; auto.
  destruct (co_sur _ _ _ _ HC j Hj H) as (t & Ht & <-). auto.
Qed.
Lemma dext_ext Sm qc r1 r2 j : (forall t, 0 <= t < Sm -> r1 t = r2 t) -> dext Sm qc r1 j = dext Sm qc r2 j.
Proof. intros E. unfold dext. f_equal. apply map_ext_in. intros t Ht. apply In_zseq in Ht. now rewrite E. Qed.

(** ** Writing a row *)
Lemma gather_ok n xj x S off : 0 <= n -> n <= len xj -> (forall k, 0 <= k < n -> 0 <= get xj k < len x) -> 0 <= off -> off + n <= len S ->
  sat (gather n xj x S off) (fun S' => len S' = len S /\ (forall k, 0 <= k < n -> get S' (off + k) = get x (get xj k)) /\
    (forall k, ~ off <= k < off + n -> get S' k = get S k)).
Proof.
  intros Hn Hxj Hx Hoff HS. unfold gather.
  apply (for_spec (fun i S' => len S' = len S /\ (forall k, 0 <= k < i -> get S' (off + k) = get x (get xj k)) /\
    (forall k, ~ off <= k < off + i -> get S' k = get S k))); auto.
  - split; auto. split; auto. intros; lia.
  - intros i S' Hi (L & G1 & G2). apply sat_bind, sat_aget; [lia|]. specialize (Hx i Hi). apply sat_bind, sat_aget; [lia|].
    apply sat_aset; [lia|]. rewrite len_upd. split; auto. split.
    + intros k Hk. rewrite get_upd_in by lia. destruct (Z.eqb_spec (off + i) (off + k)).
      * replace k with i by lia. auto.
      * apply G1. lia.
    + intros k Hk. rewrite get_upd_ne by lia. apply G2. lia.
Qed.

Lemma mul_lt_room N Sm k t len : 0 <= k < N -> 0 <= t < Sm -> N * Sm <= len -> 0 <= k * Sm + t < len.
Proof. intros. nia. Qed.

(** ** Dense Schur complement *)
Section dense.
Context (p : Z) (A U : csr) (q : list Z).
Context (Hp2 : 2 <= p) (HE : elim p U q) (HA : wf A) (HAp : cprime A = p) (HAx : cx A <> None) (Hm : cm U = cm A).
Let m := cm A. Let Sm := m - cn U.

Lemma Sm_nonneg : 0 <= Sm.
Proof. pose proof (upper_n_le_m p U q (el_wf _ _ _ HE) (el_up _ _ _ HE)). unfold Sm, m. lia. Qed.

(* row k of S is what remains of row r of A once the pivots of U are eliminated with the coefficients lr *)
Definition drow_ok (qc : list Z) (r : Z) (Sd : list Z) (k : Z) (lr : list (Z * Z)) : Prop :=
  (forall t, 0 <= t < Sm -> balanced p (dget Sm Sd k t)) /\
  (forall c v, In (c, v) lr -> 0 <= c < cn U /\ balanced p v /\ v <> 0) /\ NoDup (map fst lr) /\
  (forall j, 0 <= j < m -> cong p (entry A r j) (xA U (fun c => lentry c lr) j + dext Sm qc (dget Sm Sd k) j)).

Context (hasL : bool) (pr : list Z) (N : Z) (p_in : option (list Z)) (qc : list Z).
Context (HN : 0 <= N <= len pr) (Hpin : match p_in with Some l => len l = cn A | None => True end).
Context (Hrow : forall k, 0 <= k < N -> 0 <= get pr k < cn A) (HC : cols q m Sm qc).
Let o := oapply p_in.

Lemma lcoeffs_ok xj x top io : 0 <= top <= m -> m <= len xj -> (forall j, In j (pat xj top m) -> 0 <= j < m /\ j < len x) ->
  sat (lcoeffs q xj x top m io) (fun es => es = map (fun e => (io, fst e, snd e)) (lrow q x (pat xj top m))).
Proof.
  intros Ht Hx Hj. pose proof (up_len _ _ _ (el_up _ _ _ HE)) as Hlq. unfold lcoeffs.
  apply (for_spec (fun px es => es = map (fun e => (io, fst e, snd e)) (lrow q x (pat xj top px)))).
  - lia.
  - unfold pat. rewrite zseq_empty by lia. reflexivity.
  - intros px es Hpx ->. destruct (Hj (get xj px)) as [J1 J2]. { apply In_pat. exists px. auto. }
    apply sat_bind, sat_aget; [lia|]. apply sat_bind, sat_aget; [fold m in Hm; lia|]. apply sat_bind, sat_aget; [lia|]. cbn [sat].
    unfold pat, lrow. rewrite (zseq_S top px), map_app, filter_app, !map_app by lia. cbn [map filter]. set (j := get xj px).
    destruct (Z.eqb_spec (get x j) 0), (Z.ltb_spec (get q j) 0); cbn [negb andb orb map app]; rewrite ?app_nil_r; auto.
  - intros es ->. reflexivity.
Qed.

Definition dR (k : Z) (h : list Z * list Z) (es : list (Z * Z * Z)) : Prop :=
  get (snd h) k = o (get pr k) /\ exists lr, drow_ok qc (get pr k) (fst h) k lr /\
  es = if hasL then map (fun e => (o (get pr k), fst e, snd e)) lr else [].

Lemma dense_row_ok scr k Sd p_out : 0 <= k < N -> scr_ok m scr -> N * Sm <= len Sd -> N <= len p_out ->
  sat (dense_row A U q hasL pr p_in qc scr k (Sd, p_out)) (fun '(Sd', p_out', es) =>
    len Sd' = len Sd /\ len p_out' = len p_out /\ dR k (Sd', p_out') es /\ len es <= cn U /\
    (forall i, i <> k -> get p_out' i = get p_out i) /\
    (forall i, ~ k * Sm <= i < k * Sm + Sm -> get Sd' i = get Sd i)).
Proof.
  intros Hk Hscr HSl Hpl. destruct scr as [[[xj ps] mk] x]. destruct Hscr as (X1 & X2 & X3 & X4 & X5).
  pose proof Sm_nonneg as HSm. pose proof (wf_m A HA) as HmA. fold m in HmA. unfold dense_row.
  apply sat_bind, sat_aget; [lia|]. specialize (Hrow k Hk). set (r := get pr k) in *.
  apply sat_bind. apply sat_mono with (P := fun io => io = o r).
  { unfold operm_get, o. destruct p_in as [l|]; cbn; auto. apply sat_aget; [lia|auto]. }
  intros io ->. apply sat_bind, sat_aset; [lia|]. apply sat_bind.
  apply (for_spec (fun i y => len y = len x /\ forall j, 0 <= j < i -> get y j = 0)).
  { fold m; lia. }
  { split; auto. intros; lia. }
  { intros i y Hi (L1 & Z1). fold m in Hi. apply sat_aset; [lia|]. rewrite len_upd. split; auto. intros j Hj. rewrite get_upd_in by lia.
    destruct (Z.eqb_spec i j); auto. apply Z1. lia. }
  intros y (L1 & Z1). fold m in Z1. apply sat_bind. eapply sat_mono.
  { apply (solve_rows p U A r q xj ps mk y); auto; fold m; lia. }
  fold m. cbv beta. intros [[[[top xj'] ps'] mk'] x'] (T1 & T2 & T3 & T4 & T5 & T6 & T7 & HND & Hjs & Heq).
  set (js := pat xj' top m) in *.
  pose proof (co_len _ _ _ _ HC) as HCl.
  apply sat_bind. eapply sat_mono.
  { apply (gather_ok Sm qc x' Sd (k * Sm)); auto; [|nia|nia]. intros t Ht. destruct (co_rng _ _ _ _ HC t Ht). lia. }
  cbv beta. intros Sd' (G1 & G2 & G3).
  set (lr := lrow q x' js) in *.
  assert (Hlr : forall c v, In (c, v) lr -> 0 <= c < cn U /\ balanced p v /\ v <> 0).
  { intros c v Hc. unfold lr, lrow in Hc. apply in_map_iff in Hc. destruct Hc as (j & E & Hj). injection E as <- <-.
    apply filter_In in Hj. destruct Hj as [Hj Hb]. destruct (Hjs j Hj) as [Hj1 Hj2].
    pose proof (up_rng _ _ _ (el_up _ _ _ HE) j ltac:(rewrite Hm; auto)). split; [lia|]. split; [auto|]. lia. }
  assert (HlrN : NoDup (map fst lr)).
  { unfold lr, lrow. rewrite map_map. cbn [fst]. apply NoDup_map_in; [apply NoDup_filter; auto|].
    intros a b Ha Hb E. apply filter_In in Ha, Hb. destruct Ha as [Ha Ha'], Hb as [Hb Hb'].
    apply (up_inj _ _ _ (el_up _ _ _ HE)); rewrite ?Hm; [now apply Hjs|now apply Hjs|lia|exact E]. }
  assert (Hlen : len lr <= cn U).
  { rewrite <- (len_map fst lr). assert (HI : incl (map fst lr) (zseq 0 (cn U))).
    { intros c Hc. apply in_map_iff in Hc. destruct Hc as ([c' v] & <- & Hc). apply In_zseq. apply (Hlr _ _ Hc). }
    apply (NoDup_incl_length HlrN) in HI. pose proof (len_zseq 0 (cn U)) as E. pose proof (wf_n U (el_wf _ _ _ HE)). unfold len in *. lia. }
  assert (Hrowk : drow_ok qc r Sd' k lr).
  { split; [|split; [auto|split; [auto|]]].
    - intros t Ht. unfold dget. rewrite G2 by auto. destruct (co_rng _ _ _ _ HC t Ht) as [R1 R2].
      destruct (in_dec Z.eq_dec (get qc t) js) as [H|H]; [now apply Hjs|]. rewrite T7 by auto. rewrite Z1 by auto. apply balanced_0. lia.
    - intros j Hj. rewrite (Heq j Hj). apply cong_eq. f_equal. fold js. unfold srow. rewrite lentry_map by (apply NoDup_filter; auto).
      revert j Hj. apply (cols_ind q m Sm qc _ HC).
      + intros j Hj Hq. rewrite (dext_pivot q m) by auto. destruct (in_dec Z.eq_dec j _) as [H|H]; auto. apply filter_In in H. lia.
      + intros t Ht. rewrite (dext_col q m) by auto. unfold dget. rewrite G2 by auto. destruct (co_rng _ _ _ _ HC t Ht) as [R1 R2].
        destruct (in_dec Z.eq_dec (get qc t) (filter _ js)) as [H|H]; auto.
        destruct (in_dec Z.eq_dec (get qc t) js) as [H'|H'].
        * destruct (Z.eq_dec (get x' (get qc t)) 0) as [E|E]; [lia|]. exfalso. apply H, filter_In. split; auto. lia.
        * rewrite T7 by auto. rewrite Z1 by auto. auto. }
  assert (Hout : get (upd p_out k (o r)) k = o r) by (apply get_upd_eq; lia).
  assert (Hne : forall i, i <> k -> get (upd p_out k (o r)) i = get p_out i) by (intros; apply get_upd_ne; lia).
  apply sat_bind. apply sat_mono with (P := fun es => es = if hasL then map (fun e => (o r, fst e, snd e)) lr else []).
  { destruct hasL; [|reflexivity]. apply lcoeffs_ok; auto; [lia|]. intros j Hj. destruct (Hjs j Hj). lia. }
  intros es Hes. cbn [sat]. rewrite len_upd. split; [auto|]. split; [auto|]. split; [|split; [|split; auto]].
  - split; cbn [fst snd]; [auto|]. exists lr. auto.
  - rewrite Hes. destruct hasL; [now rewrite len_map|]. change (len (@nil (Z * Z * Z))) with 0. pose proof (wf_n U (el_wf _ _ _ HE)). lia.
Qed.
End dense.

Lemma zchoice {T} (d : T) N (P : Z -> T -> Prop) : (forall k, 0 <= k < N -> exists x, P k x) -> exists f, forall k, 0 <= k < N -> P k (f k).
Proof.
  intros H. assert (G : forall n, exists f, forall k, 0 <= k < Z.of_nat n -> k < N -> P k (f k)).
  { induction n as [|n (f & Hf)]; [exists (fun _ => d); intros; lia|].
    destruct (Z_lt_le_dec (Z.of_nat n) N) as [Hl|Hl].
    - destruct (H (Z.of_nat n) ltac:(lia)) as (x & Hx). exists (fun k => if k =? Z.of_nat n then x else f k). intros k Hk Hk2.
      destruct (Z.eqb_spec k (Z.of_nat n)) as [->|]; auto. apply Hf; lia.
    - exists f. intros k Hk Hk2. apply Hf; lia. }
  destruct (G (Z.to_nat N)) as (f & Hf). exists f. intros k Hk. apply Hf; lia.
Qed.
Lemma getd_In {T} (d : T) l k : 0 <= k < len l -> In (getd d l k) l.
Proof. intros H. unfold getd. replace (k <? 0) with false by lia. apply nth_In. unfold len in H. lia. Qed.
(* the triplets of L once the log has been appended *)
Lemma tlist_log L L' log : twf L -> tnz L' = tnz L + len log ->
  (forall k, 0 <= k < tnz L -> get (ti L') k = get (ti L) k /\ get (tj L') k = get (tj L) k /\ tval L' k = tval L k) ->
  (forall k, 0 <= k < len log -> (get (ti L') (tnz L + k), get (tj L') (tnz L + k), tval L' (tnz L + k)) = getd (0, 0, 0) log k) ->
  tlist L' = tlist L ++ log.
Proof.
  intros (_ & _ & H0 & _) Hn H1 H2. unfold tlist. rewrite Hn, (zseq_split 0 (tnz L)) by (pose proof (len_nonneg log); lia). rewrite map_app. f_equal.
  - apply map_ext_in. intros k Hk. apply In_zseq in Hk. destruct (H1 k Hk) as (-> & -> & ->). reflexivity.
  - apply (listd_ext (0, 0, 0)).
    + rewrite len_map, len_zseq. pose proof (len_nonneg log). lia.
    + intros k Hk. rewrite len_map, len_zseq in Hk. rewrite (getd_map _ 0) by (rewrite len_zseq; lia). rewrite getd_zseq by lia. apply H2. lia.
Qed.

Lemma schur_dense_ok (E : env) c p A pr N p_in f Sd q0 p_out :
  2 <= p -> elim p (f_U f) (f_q f) -> wf A -> cprime A = p -> cx A <> None -> cm (f_U f) = cm A ->
  (forall c k, scr_ok (cm A) (e_scr E c k)) ->
  0 <= N <= len pr -> match p_in with Some l => len l = cn A | None => True end ->
  (forall k, 0 <= k < N -> 0 <= get pr k < cn A) ->
  let U := f_U f in let Sm := cm A - cn U in let o := oapply p_in in
  N * Sm <= len Sd -> N <= len p_out -> Sm <= len q0 ->
  match f_L f with Some L => twf L /\ tx L <> None /\ cn U <= tm L /\ (forall k, 0 <= k < N -> 0 <= o (get pr k) < tn L) | None => True end ->
  sat (schur_dense E c A pr N p_in f Sd q0 p_out) (fun '(f', Sd', qc, p_out') =>
    f_U f' = U /\ f_q f' = f_q f /\ f_p f' = f_p f /\ len Sd' = len Sd /\ len p_out' = len p_out /\ len qc = len q0 /\
    cols (f_q f) (cm A) Sm qc /\ exists lr,
      (forall k, 0 <= k < N -> get p_out' k = o (get pr k) /\ drow_ok p A U qc (get pr k) Sd' k (lr k)) /\
      match f_L f, f_L f' with
      | Some L, Some L' => twf L' /\ tx L' <> None /\ tn L' = tn L /\ tm L' = tm L /\ tprime L' = tprime L /\
          exists log, tlist L' = tlist L ++ log /\ tnz L' = tnz L + len log /\
            Permutation log (flat_map (fun k => map (fun e => (o (get pr k), fst e, snd e)) (lr k)) (zseq 0 N))
      | None, None => True
      | _, _ => False end).
Proof.
  intros Hp2 HE HA HAp HAx Hm Hscr HN Hpin Hrow U Sm o HSd Hpo Hq0 HL. fold U in HE, Hm.
  pose proof (up_len _ _ _ (el_up _ _ _ HE)) as Hlq. pose proof (wf_m A HA) as HmA. pose proof (wf_n U (el_wf _ _ _ HE)) as Hun.
  pose proof (free_count p U (f_q f) HE) as Hfree. rewrite Hm in Hfree, Hlq. fold Sm in Hfree.
  pose proof (Sm_nonneg p A U (f_q f) HE Hm) as HSm. fold Sm in HSm.
  unfold schur_dense. apply sat_bind. eapply sat_mono; [apply (prepare_q_ok (cm A) (f_q f) q0); auto; lia|]. cbv beta.
  rewrite Hfree. intros qc (Lqc & HC). fold U.
  set (L1 := option_map _ (f_L f)).
  set (hasL := is_some L1).
  (* the shared state *)
  assert (HL1 : match f_L f, L1 with
    | Some L, Some L1 => twf L1 /\ tx L1 <> None /\ tn L1 = tn L /\ tm L1 = tm L /\ tprime L1 = tprime L /\ tnz L1 = tnz L /\
        len (ti L1) = tnz L + (1 + N * cn U) /\ len (tj L1) = tnz L + (1 + N * cn U) /\ tlist L1 = tlist L
    | None, None => True | _, _ => False end).
  { unfold L1. destruct (f_L f) as [L|]; cbn [option_map]; auto. destruct HL as (W & X & _ & _).
    destruct (triplet_realloc_ok (e_junk E) L (tnz L + (1 + N * cn U)) W ltac:(nia)) as (H1 & H2 & H3 & H4 & H5 & H6 & H7 & H8).
    split; [auto|]. split; [tauto|]. do 4 (split; [auto|]). split; [|split; [auto|]].
    - destruct H1 as (_ & _ & _ & E1 & _). lia.
    - unfold tlist. rewrite H2. apply map_ext_in. intros k Hk. apply In_zseq in Hk. destruct (H8 k Hk) as (-> & -> & ->). reflexivity. }
  apply sat_bind. apply sat_mono with (P := fun Lx => match L1 with Some L1 => tx L1 = Some Lx | None => Lx = [] end).
  { destruct L1 as [L1'|]; [|reflexivity]. destruct (f_L f); [|easy]. destruct HL1 as (_ & X & _). destruct (tx L1'); [reflexivity|easy]. }
  intros Lx HLx. set (s0 := match L1 with Some L => _ | None => _ end).
  set (M := if hasL then cn U else 0).
  pose proof (fun k Sd p_out Hk => dense_row_ok p A U (f_q f) Hp2 HE HA HAp HAx Hm hasL pr N p_in qc HN Hpin Hrow HC (e_scr E c k) k Sd p_out Hk (Hscr c k)) as Hone.
  fold Sm in Hone.
  (* when there is no L, no triplet *)
  assert (Hz0 : 0 <= a_nz s0). { unfold s0. destruct L1 as [L1'|]; cbn; [|lia]. destruct (f_L f); [|easy]. destruct HL1 as ((_ & _ & H & _) & _). lia. }
  set (B := fun h : list Z * list Z => len (fst h) = len Sd /\ len (snd h) = len p_out).
  set (R := dR p A U hasL pr p_in qc).
  assert (Hs0 : s0 = Ash (Sd, p_out) (a_nz s0) (a_i s0) (a_j s0) (a_x s0)) by (unfold s0; destruct L1; reflexivity).
  assert (Hroom : a_nz s0 + N * M <= len (a_i s0) /\ a_nz s0 + N * M <= len (a_j s0) /\ a_nz s0 + N * M <= len (a_x s0)).
  { unfold s0, M, hasL. destruct L1 as [L1'|]; cbn [a_nz a_i a_j a_x is_some]; [|change (len (@nil Z)) with 0; lia].
    destruct (f_L f) as [L|]; [|easy]. destruct HL1 as ((W1 & W2 & W3 & W4 & W5 & _) & _ & _ & _ & _ & E1 & E2 & E3 & _). rewrite HLx in W5. lia. }
  apply sat_bind. rewrite Hs0. eapply sat_mono.
  { apply (append_sched _ N M ltac:(lia) ltac:(unfold M; destruct hasL; lia) B R) with (h := (Sd, p_out)).
    - intros k [Sd1 po1] Hk (B1 & B2). cbn [fst snd] in B1, B2. eapply sat_mono; [apply (Hone k Sd1 po1 Hk); lia|]. cbv beta.
      intros [[Sd2 po2] es] (H1 & H2 & H3 & H4 & H5 & H6). split; [unfold B; cbn [fst snd]; lia|]. split; [exact H3|]. split.
      { unfold M. destruct hasL; [auto|]. destruct H3 as (_ & lr & _ & ->). change (len (@nil (Z * Z * Z))) with 0. lia. }
      intros u es' Hu Hur (G1 & lr & (D1 & D2 & D3 & D4) & G2). cbn [fst snd] in *.
      assert (Hget : forall t, 0 <= t < Sm -> dget Sm Sd2 u t = dget Sm Sd1 u t). { intros t Ht. unfold dget. apply H6. nia. }
      split; cbn [fst snd]; [rewrite H5; auto|]. exists lr. split; auto. split; [|split; [auto|split; [auto|]]].
      + intros t Ht. fold Sm. rewrite Hget by auto. apply D1. auto.
      + intros j Hj. rewrite (D4 j Hj). fold Sm. rewrite (dext_ext Sm qc (dget Sm Sd2 u) (dget Sm Sd1 u)) by auto. apply cong_refl.
    - auto.
    - exact Hroom.
    - split; reflexivity. }
  cbv beta. intros s (es & log & (B1 & B2) & HR & HP & N1 & N2 & N3 & N4 & N5 & N6). cbn [sat].
  cbn [f_U f_q f_p f_L]. do 3 (split; [reflexivity|]). split; [auto|]. split; [auto|]. split; [auto|]. split; [exact HC|].
  assert (HX : exists lr, forall k, 0 <= k < N -> get (snd (a_h s)) k = o (get pr k) /\ drow_ok p A U qc (get pr k) (fst (a_h s)) k (lr k) /\
    es k = if hasL then map (fun e => (o (get pr k), fst e, snd e)) (lr k) else []).
  { destruct (zchoice [] N (fun k lr => get (snd (a_h s)) k = o (get pr k) /\ drow_ok p A U qc (get pr k) (fst (a_h s)) k lr /\
      es k = if hasL then map (fun e => (o (get pr k), fst e, snd e)) lr else [])) as (lr & Hlr); [|eauto].
    intros k Hk. destruct (HR k Hk) as [(H1 & lr & H2 & H3) _]. eauto. }
  destruct HX as (lr & Hlr). exists lr. split. { intros k Hk. destruct (Hlr k Hk) as (H1 & H2 & _). auto. }
  subst L1 s0 hasL. destruct (f_L f) as [L|]; cbn [option_map is_some a_nz a_i a_j a_x] in *; [|exact I].
  set (L2 := triplet_realloc _ _ _) in *. destruct HL1 as ((W1 & W2 & W3 & W4 & W5 & W6) & K2 & K3 & K4 & K5 & K6 & K7 & K8 & K9).
  destruct HL as (_ & _ & HtM & Hor). cbn [a_nz a_i a_j a_x] in *. rewrite HLx in W5.
  assert (HPl : Permutation log (flat_map (fun k => map (fun e => (o (get pr k), fst e, snd e)) (lr k)) (zseq 0 N))).
  { rewrite HP. apply Permutation_refl'. apply flat_map_eq. intros k Hk. apply In_zseq in Hk. apply (Hlr k Hk). }
  assert (Hlog : forall e, In e log -> 0 <= fst (fst e) < tn L /\ 0 <= snd (fst e) < tm L).
  { intros e He. apply (Permutation_in _ HPl) in He. apply in_flat_map in He. destruct He as (k & Hk & He). apply In_zseq in Hk.
    apply in_map_iff in He. destruct He as ([c' v] & <- & Hc). cbn [fst snd]. split; [auto|].
    destruct (Hlr k Hk) as (_ & (_ & D2 & _) & _). destruct (D2 _ _ Hc). lia. }
  assert (HTL : tlist (Triplet (a_nz s) (tn L2) (tm L2) (a_i s) (a_j s) (Some (a_x s)) (tprime L2)) = tlist L2 ++ log).
  { apply tlist_log; cbn [tnz ti tj]; auto.
    - split; auto. split; auto. split; auto. split; auto. split; [rewrite HLx; auto|auto].
    - intros k Hk. unfold tval. cbn [tx]. rewrite HLx. apply N5. auto. }
  cbn [tx tn tm tprime tnz]. split.
  { pose proof (len_nonneg log) as Hl0. assert (Hll : len log <= N * M).
    { pose proof (Permutation_length HP) as E1. enough (len (flat_map es (zseq 0 N)) <= N * M) by (unfold len in *; lia).
      clear - HR HN. clearbody M. assert (G : forall l, (forall k, In k l -> 0 <= k < N) -> len (flat_map es l) <= len l * M).
      { induction l as [|a l IH]; intros H; [reflexivity|]. cbn [flat_map]. rewrite len_app, len_cons. specialize (IH ltac:(intros; apply H; now right)).
        destruct (HR a ltac:(apply H; now left)). lia. }
      specialize (G (zseq 0 N)). rewrite len_zseq in G. replace (Z.max 0 (N - 0)) with N in G by lia. apply G. intros. now apply In_zseq. }
    split; cbn [tn]; [lia|]. split; cbn [tm]; [lia|]. cbn [tnz ti tj tx]. split; [lia|]. split; [lia|]. split; [lia|].
    intros k Hk. destruct (Z_lt_le_dec k (tnz L2)) as [Hlt|Hge].
    - destruct (N5 k ltac:(lia)) as (-> & -> & _). apply W6. lia.
    - specialize (N6 (k - tnz L2) ltac:(lia)). replace (tnz L2 + (k - tnz L2)) with k in N6 by lia.
      assert (HI : In (getd (0, 0, 0) log (k - tnz L2)) log) by (apply getd_In; lia). rewrite <- N6 in HI. apply Hlog in HI. cbn [fst snd] in HI.
      rewrite K3, K4. exact HI. }
  split; [discriminate|]. split; [auto|]. split; [auto|]. split; [auto|]. exists log. split; [|split; [lia|exact HPl]].
  rewrite HTL, K9. reflexivity.
Qed.

(** ** From dense to sparse *)
Section fill.
Context (p : Z) (skip : bool) (Sm : Z) (Sd Q qc : list Z) (m : Z).
Let col k := get qc (get Q k).
(* the new row of U that comes from row i *)
Definition nrow (i lo : Z) : list (Z * Z) := (col i, 1) :: map (fun k => (col k, dget Sm Sd i k)) (zseq lo Sm).
Definition nkept (i lo hi : Z) : list (Z * Z) :=
  map (fun k => (col k, dget Sm Sd i k)) (filter (fun k => negb (skip && (dget Sm Sd i k =? 0))) (zseq lo hi)).
Lemma lentry_nkept i lo hi j : lentry j (nkept i lo hi) = lentry j (map (fun k => (col k, dget Sm Sd i k)) (zseq lo hi)).
Proof.
  unfold nkept. induction (zseq lo hi) as [|k l IH]; [reflexivity|]. cbn [filter map]. rewrite lentry_cons, <- IH.
  destruct skip; cbn [andb negb]; [|cbn [map]; now rewrite lentry_cons].
  destruct (Z.eqb_spec (dget Sm Sd i k) 0) as [->|]; cbn [negb map]; [destruct (_ =? _); lia|now rewrite lentry_cons].
Qed.
Lemma len_filter {B} (f : B -> bool) l : len (filter f l) <= len l.
Proof. induction l as [|a l IH]; cbn [filter]; [lia|]. destruct (f a); rewrite !len_cons; lia. Qed.
Lemma len_nkept i lo hi : lo <= hi -> len (nkept i lo hi) <= hi - lo.
Proof. intros H. unfold nkept. rewrite len_map. eapply Z.le_trans; [apply len_filter|]. rewrite len_zseq. lia. Qed.
Lemma In_nkept i lo hi e : In e (nkept i lo hi) -> exists k, lo <= k < hi /\ e = (col k, dget Sm Sd i k).
Proof. unfold nkept. intros H. apply in_map_iff in H. destruct H as (k & <- & H). apply filter_In in H. destruct H as [H _]. apply In_zseq in H. eauto. Qed.

Context (Hp2 : 2 <= p) (HQ : Sm <= len Q) (HQr : forall k, 0 <= k < Sm -> 0 <= get Q k < Sm)
  (HQi : forall k l, 0 <= k < Sm -> 0 <= l < Sm -> get Q k = get Q l -> k = l) (Hqc : Sm <= len qc).

Lemma fill_row_ok i lo U Uq : elim p U Uq -> 0 <= i < lo -> lo <= Sm -> i * Sm + Sm <= len Sd ->
  (forall k, 0 <= k < Sm -> 0 <= col k < cm U) ->
  (forall k, i <= k < Sm -> get Uq (col k) < 0) ->
  (forall k l, 0 <= k < Sm -> 0 <= l < Sm -> col k = col l -> k = l) ->
  (forall k, lo <= k < Sm -> balanced p (dget Sm Sd i k)) ->
  nnz U + (1 + Sm - lo) <= len (cj U) -> cn U + 2 <= len (cp U) ->
  sat (fill_row skip Sm Sd Q qc i lo (U, Uq, nnz U)) (fun '(U', Uq', unz) => exists r,
    appended U U' r /\ unz = nnz U' /\ len (cj U') = len (cj U) /\ len r <= 1 + Sm - lo /\ Uq' = upd Uq (col i) (cn U) /\ elim p U' Uq' /\
    (forall j, entry U' (cn U) j = lentry j (nrow i lo))).
Proof.
  intros HE Hi Hlo HSd Hcr Hcq Hci Hbal Hroom Hlp. pose proof HE as [W X P Up F R].
  pose proof (wf_n U W) as Hn. pose proof (wf_nnz U W) as Hnu. pose proof (up_len _ _ _ Up) as Hql.
  destruct (cx U) as [Ux|] eqn:EU; [|easy]. pose proof (wf_vals U W Ux EU) as Hlu. pose proof (len_ulist U W) as Hul.
  pose proof (Hcr i ltac:(lia)) as Hcri.
  unfold fill_row. apply sat_bind, sat_aget; [lia|]. apply sat_bind, sat_aget; [specialize (HQr i ltac:(lia)); lia|]. fold (col i).
  apply sat_bind, sat_aset; [lia|]. rewrite EU. cbn [deref bind]. apply sat_bind, sat_aset; [lia|]. apply sat_bind, sat_aset; [lia|].
  apply sat_bind. apply (for_spec (fun k '(Uj, Vx, unz) => Built Uj (Some Vx) (ulist U ++ (col i, 1) :: nkept i lo k) /\
    unz = nnz U + 1 + len (nkept i lo k) /\ len Uj = len (cj U))).
  - lia.
  - unfold nkept. rewrite zseq_empty by lia. cbn [map filter]. change (len (@nil (Z * Z))) with 0. rewrite len_upd. split; [|split; auto; lia].
    pose proof (Built_app (cj U) (Some Ux) (ulist U) (col i) 1 (Built_ulist U Ux W EU)) as HB. rewrite Hul in HB. apply HB; [lia|discriminate].
  - intros k [[Uj Vx] unz] Hk (B & Eu & Hj). apply sat_bind, sat_aget; [lia|]. apply sat_bind, sat_aget; [nia|]. fold (dget Sm Sd i k).
    assert (Hs : nkept i lo (k + 1) = nkept i lo k ++ if negb (skip && (dget Sm Sd i k =? 0)) then [(col k, dget Sm Sd i k)] else []).
    { unfold nkept. rewrite zseq_S by lia. rewrite filter_app, map_app. f_equal. cbn [filter]. destruct (negb _); reflexivity. }
    rewrite Hs. destruct (skip && (dget Sm Sd i k =? 0)); cbn [negb]; [rewrite app_nil_r; cbn; auto|].
    apply sat_bind, sat_aget; [specialize (HQr k ltac:(lia)); lia|]. fold (col k). pose proof B as (B1 & B2 & _). cbn in B2.
    pose proof (len_nkept i lo k ltac:(lia)). pose proof (len_nonneg (nkept i lo k)).
    apply sat_bind, sat_aset; [lia|]. apply sat_bind, sat_aset; [lia|]. cbn [sat]. rewrite len_upd.
    split; [|split; auto; rewrite len_app; change (len [(col k, dget Sm Sd i k)]) with 1; lia].
    pose proof (Built_app Uj (Some Vx) (ulist U ++ (col i, 1) :: nkept i lo k) (col k) (dget Sm Sd i k) B) as HB.
    rewrite len_app, len_cons, Hul in HB. replace (nnz U + (1 + len (nkept i lo k))) with unz in HB by lia.
    rewrite <- app_assoc in HB. cbn [app oupd option_map] in HB. apply HB; [lia|discriminate].
  - intros [[Uj Vx] unz] (B & Eu & Hj). apply sat_bind, sat_aset; [lia|]. cbn [sat].
    set (r := (col i, 1) :: nkept i lo Sm) in *.
    assert (Happ : appended U (Csr (cn U + 1) (cm U) (upd (cp U) (cn U + 1) (nnz U + len r)) Uj (Some Vx) (cprime U)) r).
    { apply appended_ok; auto. intros e [<-|He]; [cbn [fst]; lia|]. apply In_nkept in He. destruct He as (k & Hk & ->). cbn [fst]. apply Hcr. lia. }
    assert (Eunz : unz = nnz U + len r) by (unfold r; rewrite len_cons; lia). rewrite Eunz.
    exists r. split; [auto|]. split; [symmetry; apply (ap_nnz _ _ _ Happ)|]. split; [exact Hj|].
    split. { unfold r. rewrite len_cons. pose proof (len_nkept i lo Sm ltac:(lia)). lia. }
    split; [reflexivity|]. split.
    + apply (elim_append p U Uq _ (col i) (nkept i lo Sm)); auto; try lia; [apply Hcq; lia|].
      intros e He. apply In_nkept in He. destruct He as (k & Hk & ->). cbn [fst snd]. split; [|split].
      * intros E. apply Hci in E; lia.
      * apply Hcq. lia.
      * apply Hbal. lia.
    + intros j. rewrite (ap_entry_new _ _ _ _ Happ). unfold r, nrow. rewrite !lentry_cons, lentry_nkept. reflexivity.
Qed.

Lemma fill_rows_ok rr lo w U q : elim p U q -> 0 <= rr <= Sm -> rr * Sm <= len Sd ->
  (forall i, 0 <= i < rr -> i < lo i <= Sm /\ 1 + Sm - lo i <= w) ->
  (forall k, 0 <= k < Sm -> 0 <= col k < cm U /\ get q (col k) < 0) ->
  (forall k l, 0 <= k < Sm -> 0 <= l < Sm -> col k = col l -> k = l) ->
  (forall i k, 0 <= i < rr -> lo i <= k < Sm -> balanced p (dget Sm Sd i k)) ->
  nnz U + rr * w <= len (cj U) -> cn U + rr + 1 <= len (cp U) ->
  sat (for_ 0 rr (fun i s => fill_row skip Sm Sd Q qc i (lo i) s) (U, q, nnz U)) (fun '(U', q', unz) =>
    elim p U' q' /\ cn U' = cn U + rr /\ cm U' = cm U /\ len (cp U') = len (cp U) /\ unz = nnz U' /\
    (forall i c, 0 <= i < cn U -> entry U' i c = entry U i c) /\
    (forall l j, 0 <= l < rr -> entry U' (cn U + l) j = lentry j (nrow l (lo l))) /\
    (forall c, 0 <= c < cm U -> get q' c = get q c \/ cn U <= get q' c)).
Proof.
  intros HE Hrr HSd Hlo Hcr Hci Hbal Hroom Hlp. pose proof (wf_n U (el_wf _ _ _ HE)) as Hn.
  apply (for_spec (fun i '(U', q', unz) => elim p U' q' /\ cn U' = cn U + i /\ cm U' = cm U /\ len (cp U') = len (cp U) /\ unz = nnz U' /\
    len (cj U') = len (cj U) /\ nnz U' <= nnz U + i * w /\
    (forall l c, 0 <= l < cn U -> entry U' l c = entry U l c) /\
    (forall l j, 0 <= l < i -> entry U' (cn U + l) j = lentry j (nrow l (lo l))) /\
    (forall c, 0 <= c < cm U -> get q' c = get q c \/ cn U <= get q' c) /\
    (forall k, i <= k < Sm -> get q' (col k) = get q (col k)))).
  - lia.
  - split; [auto|]. do 5 (split; [auto; lia|]). split; [lia|]. split; [auto|]. split; [intros; lia|]. auto.
  - intros i [[U' q'] unz] Hi (I1 & I2 & I3 & I4 & I5 & I6 & I7 & I8 & I9 & I10 & I11). subst unz.
    destruct (Hlo i Hi) as [Hl1 Hl2]. pose proof (up_len _ _ _ (el_up _ _ _ I1)) as Hql.
    eapply sat_mono.
    { apply fill_row_ok; auto; try lia; try nia.
      - intros k Hk. rewrite I3. now apply Hcr.
      - intros k Hk. rewrite I11 by auto. apply Hcr. lia. }
    cbv beta. intros [[U2 q2] unz] (r & HA & E1 & E2 & E3 & E4 & E5 & E6).
    pose proof (ap_n _ _ _ HA) as An. pose proof (ap_m _ _ _ HA) as Am. pose proof (ap_len _ _ _ HA) as Al. pose proof (ap_nnz _ _ _ HA) as Anz.
    pose proof (Hcr i ltac:(lia)) as [Hci1 _].
    split; [auto|]. split; [lia|]. split; [lia|]. split; [lia|]. split; [auto|]. split; [lia|]. split; [nia|]. split.
    { intros l c Hl. rewrite (ap_entry U' U2 r) by (auto; lia). auto. }
    split. { intros l j Hl. destruct (Z.eq_dec l i) as [->|].
      - rewrite <- I2. apply E6.
      - rewrite (ap_entry U' U2 r) by (auto; lia). apply I9. lia. }
    split.
    + intros c Hc. rewrite E4, get_upd_in by lia. destruct (Z.eqb_spec (col i) c); [right; lia|auto].
    + intros k Hk. rewrite E4, get_upd_in by lia. destruct (Z.eqb_spec (col i) (col k)) as [E|]; [apply Hci in E; lia|apply I11; lia].
  - intros [[U' q'] unz] (I1 & I2 & I3 & I4 & I5 & I6 & I7 & I8 & I9 & I10 & I11). auto 10.
Qed.
End fill.

(** ** A block of rows *)
Lemma NoDup_app_l {T} (l l' : list T) : NoDup (l ++ l') -> NoDup l.
Proof.
  induction l as [|a l IH]; intros H; [constructor|]. cbn in H. inversion H as [|? ? H1 H2]; subst. constructor; auto.
  intros Hin. apply H1, in_app_iff. auto.
Qed.
Lemma lentry_in c v lr : NoDup (map fst lr) -> In (c, v) lr -> lentry c lr = v.
Proof.
  intros HN Hc. induction lr as [|[a w] lr IH]; [easy|]. cbn [map fst] in HN. inversion HN as [|? ? G1 G2]; subst.
  rewrite lentry_cons. destruct Hc as [E|Hc].
  - injection E as -> ->. rewrite Z.eqb_refl, lentry_absent by auto. lia.
  - rewrite IH by auto. destruct (Z.eqb_spec a c) as [->|]; [|lia]. exfalso. apply G1, in_map_iff. exists (c, v). auto.
Qed.
Lemma inv_chunk p A0 (full : Prop) comp f f' A o P N rem' u1 rr lr T C :
  2 <= p -> inv p A0 full comp f A o (map P (zseq 0 N) ++ rem') u1 -> 0 <= N ->
  elim p (f_U f') (f_q f') -> cm (f_U f') = cm (f_U f) -> len (cp (f_U f')) = len (cp (f_U f)) ->
  cn (f_U f') = cn (f_U f) + rr -> 0 <= rr <= N ->
  (forall i c, 0 <= i < cn (f_U f) -> entry (f_U f') i c = entry (f_U f) i c) ->
  (forall c, 0 <= c < cm (f_U f) -> get (f_q f') c = get (f_q f) c \/ cn (f_U f) <= get (f_q f') c) ->
  (forall k j, 0 <= k < N -> 0 <= j < cm A0 -> cong p (entry A (P k) j) (xA (f_U f) (fun c => lentry c (lr k)) j + T k j)) ->
  (forall k c v, 0 <= k < N -> In (c, v) (lr k) -> 0 <= c < cn (f_U f) /\ balanced p v /\ v <> 0) ->
  (forall k, 0 <= k < N -> NoDup (map fst (lr k))) ->
  (forall k j, 0 <= k < N -> 0 <= j < cm A0 -> 0 <= get (f_q f) j -> T k j = 0) ->
  (forall k j, 0 <= k < N -> 0 <= j < cm A0 -> cong p (T k j) (sum 0 rr (fun l => C k l * entry (f_U f') (cn (f_U f) + l) j))) ->
  ((forall k, 0 <= k < N -> in_rowspace p A0 (T k)) -> forall l, 0 <= l < rr -> in_rowspace p A0 (entry (f_U f') (cn (f_U f) + l))) ->
  match f_L f, f_L f' with
  | Some L, Some L' => twf L' /\ tx L' <> None /\ tn L' = tn L /\ tprime L' = tprime L /\ cn (f_U f') <= tm L' /\
      len (f_p f') = len (f_p f) /\ (forall c, 0 <= c < cn (f_U f) -> get (f_p f') c = get (f_p f) c) /\
      exists es d, tlist L' = tlist L ++ es /\ NoDup (map fst es) /\
        (forall i c v, In (i, c, v) es -> exists k, 0 <= k < N /\ i = o (P k) /\ balanced p v /\ v <> 0 /\
          (In (c, v) (lr k) \/ cn (f_U f) <= c < cn (f_U f'))) /\
        (forall l, 0 <= l < rr -> 0 <= d l < N /\ get (f_p f') (cn (f_U f) + l) = o (P (d l)) /\ ~ cong p (C (d l) l) 0 /\
          forall l', l < l' < rr -> C (d l) l' = 0) /\
        (forall k, 0 <= k < N -> comp = true \/ (exists l, 0 <= l < rr /\ k = d l) -> forall c, 0 <= c < cn (f_U f') ->
          tcoef (o (P k)) c es = if c <? cn (f_U f) then lentry c (lr k) else C k (c - cn (f_U f)))
  | None, None => True
  | _, _ => False end ->
  inv p A0 full comp f' A o rem' u1.
Proof.
  intros Hp2 HI HN Hel Hm Hlen Hn Hrr Hold Hq HA Hlr HND HT HC Hnew HL.
  pose proof HI as [I1 I2 I3 I4 I5 I6 I7 I8 I9 I10 I11 I12 I13 I14 I15 I16].
  set (U := f_U f) in *. set (U' := f_U f') in *. pose proof (wf_n U (el_wf _ _ _ I1)) as Hun.
  set (don := map P (zseq 0 N)) in *.
  assert (Hdon : forall i, In i don <-> exists k, 0 <= k < N /\ i = P k).
  { intros i. unfold don. rewrite in_map_iff. split; intros (k & H1 & H2); exists k; rewrite In_zseq in *; auto. }
  assert (Hrem : forall k, 0 <= k < N -> In (P k) (don ++ rem')) by (intros k Hk; apply in_app_iff; left; apply Hdon; eauto).
  assert (Hinj : forall k l, 0 <= k < N -> 0 <= l < N -> o (P k) = o (P l) -> k = l).
  { intros k l Hk Hl E. rewrite map_app in I11. apply NoDup_app_l in I11. unfold don in I11. rewrite map_map in I11.
    apply (NoDup_map_inj (fun k => o (P k)) (zseq 0 N)); auto; now apply In_zseq. }
  assert (HTr : forall k, 0 <= k < N -> in_rowspace p A0 (T k)).
  { intros k Hk. eapply in_rowspace_ext; [|apply in_rowspace_sub; [apply (I14 (P k)); auto|
      apply (in_rowspace_trans p U A0 (xA U (fun c => lentry c (lr k))) I2 I13 (in_rowspace_xA _ _ _))]].
    intros j Hj. cbv beta. rewrite (HA k j Hk Hj). apply cong_eq. ring. }
  assert (HxA : forall x j, xA U' x j = xA U x j + sum 0 rr (fun l => x (cn U + l) * entry U' (cn U + l) j)).
  { intros x j. apply (xA_ext_rows U U' rr x j); try lia; auto. }
  set (delta := fun k c => if c <? cn U then lentry c (lr k) else C k (c - cn U)).
  assert (HAd : forall k j, 0 <= k < N -> 0 <= j < cm A0 -> cong p (entry A (P k) j) (xA U' (delta k) j)).
  { intros k j Hk Hj. rewrite (HA k j Hk Hj), HxA, (HC k j Hk Hj). apply cong_eq. f_equal.
    - apply xA_ext. intros c Hc. unfold delta. now replace (c <? cn U) with true by lia.
    - apply sum_ext. intros l Hl. unfold delta. replace (cn U + l <? cn U) with false by lia. now replace (cn U + l - cn U) with l by lia. }
  assert (Hcol : forall k c v, 0 <= k < N -> In (c, v) (lr k) -> u1 <= c).
  { intros k c v Hk Hc. destruct (Hlr k c v Hk Hc) as (H1 & H2 & H3). destruct (Z_lt_le_dec c u1) as [Hlt|]; auto. exfalso.
    apply (balanced_nz p v); auto. rewrite <- (lentry_in c v (lr k)) by auto.
    apply (upper_low_zero p U (f_q f) u1 (fun c => lentry c (lr k))); [apply I1|apply I1|lia| |lia].
    intros j Hj Hqj. specialize (HA k j Hk ltac:(congruence)). rewrite (entry_absent A) in HA by (intros Hs; apply (I12 (P k) j) in Hs; auto).
    rewrite HT in HA by (auto; lia). rewrite Z.add_0_r in HA. now symmetry. }
  apply (inv_batch p A0 full full comp f f' A o (don ++ rem') don rem' u1 rr); auto; fold U U'.
  - unfold don. rewrite len_map, len_zseq. lia.
  - intros F. split; auto. intros i' Hi'. apply Hdon in Hi'. destruct Hi' as (k & Hk & ->). exists (delta k). intros j Hj. symmetry. apply HAd; auto. congruence.
  - destruct (f_L f) as [L|] eqn:EL, (f_L f') as [L'|] eqn:EL'; try easy.
    destruct HL as (W & X & HtN & Pr & M & LPl & LP & es & d & TL & HNes & Hes & Hd & Hco).
    destruct I16 as [Q1 Q2 Q3 Q4 Q5 Q6 Q7 Q8 Q9 Q10].
    assert (HE : forall i0 c, tentry L' i0 c = tentry L i0 c + tcoef i0 c es).
    { intros i0 c. rewrite !tentry_tcoef, TL. apply tcoef_app. }
    assert (Hz : forall i c, cn U <= c -> tentry L i c = 0).
    { intros i c Hc. apply tentry_unstored. intros Hs. pose proof (lt_col _ _ _ _ Q1 _ _ Hs) as H. fold U in H. lia. }
    split.
    { apply (ltri_app p (cn A0) (cn U) (cn U') L L' es); auto; try lia.
      intros i c v Hc. destruct (Hes i c v Hc) as (k & Hk & -> & H2 & H3 & H4). split; auto. split; auto. split.
      { destruct H4 as [H4|]; [|lia]. destruct (Hlr k c v Hk H4). lia. }
      intros Hs. destruct H4 as [H4|H4].
      - apply (Q9 (P k)) in Hs; auto. pose proof (Hcol k c v Hk H4). lia.
      - pose proof (lt_col _ _ _ _ Q1 _ _ Hs) as H. fold U in H. lia. }
    split; [auto|]. split.
    { intros i0 Hi0 c.
      assert (Hno : forall e, In e es -> fst (fst e) <> i0).
      { intros [[i c'] v] He E. cbn in E. subst i. destruct (Hes i0 c' v He) as (k & Hk & -> & _). apply Hi0. apply in_map, Hdon. eauto. }
      rewrite HE, tcoef_row by auto. split; [ring|].
      intros Hs. apply tstored_tlist in Hs. rewrite TL, map_app, in_app_iff in Hs. destruct Hs as [Hs|Hs]; [now apply tstored_tlist|].
      exfalso. apply in_map_iff in Hs. destruct Hs as (e & E & He). apply (Hno e He). now rewrite E. }
    split; [auto|].
    (* row i of A is the row k of the block *)
    set (pos := fun i => lsum (fun k => if P k =? i then k else 0) (zseq 0 N)).
    assert (HPinj : forall k l, 0 <= k < N -> 0 <= l < N -> P k = P l -> k = l) by (intros k l Hk Hl E; apply Hinj; auto; now rewrite E).
    assert (Hpos : forall k, 0 <= k < N -> pos (P k) = k).
    { intros k Hk. unfold pos. assert (G : forall l, NoDup l -> (forall a, In a l -> 0 <= a < N) -> In k l -> lsum (fun k0 => if P k0 =? P k then k0 else 0) l = k).
      { clear - HPinj Hk. intros l. induction l as [|a l IH]; [easy|]. intros HND Hr Hin. inversion HND as [|? ? G1 G2]; subst. rewrite lsum_cons.
        destruct (Z.eqb_spec (P a) (P k)) as [E|E].
        - apply HPinj in E; [|apply Hr; now left|auto]. subst a. rewrite (lsum_ext _ (fun _ => 0)).
          + clear. induction l as [|a l IH]; [cbn; lia|]. rewrite lsum_cons. lia.
          + intros b Hb. destruct (Z.eqb_spec (P b) (P k)) as [E|]; auto. apply HPinj in E; [|apply Hr; now right|auto]. now subst b.
        - destruct Hin as [->|Hin]; [easy|]. rewrite IH; auto. intros b Hb. apply Hr. now right. }
      apply G; [apply NoDup_zseq| |now apply In_zseq]. intros a Ha. now apply In_zseq. }
    exists (fun l => P (d l)), (fun i => delta (pos i)). split.
    + intros l Hl. destruct (Hd l Hl) as (D1 & D2 & D3 & D4). split; [apply Hdon; eauto|]. split; [auto|].
      assert (HB : comp = true \/ exists l0, 0 <= l0 < rr /\ d l = d l0) by (right; eauto).
      split.
      * rewrite HE, Hz, (Hco (d l) D1 HB) by lia. replace (cn U + l <? cn U) with false by lia. replace (cn U + l - cn U) with l by lia. now rewrite Z.add_0_l.
      * intros c Hc. rewrite HE, Hz, (Hco (d l) D1 HB) by lia. replace (c <? cn U) with false by lia. rewrite D4 by lia. apply cong_refl.
    + intros i Hi HB. apply Hdon in Hi. destruct Hi as (k & Hk & ->). rewrite Hpos by auto. split.
      * intros c Hc. rewrite HE, (Hco k Hk); auto; [apply cong_refl|]. destruct HB as [|(l & Hl & E)]; auto. right. exists l. split; auto.
        apply HPinj; auto. now apply Hd.
      * intros j Hj. apply HAd; auto.
Qed.

(* the dense rows, as combinations *)
Lemma dext_lin p q m Sm qc (r : Z -> Z) n c (b : Z -> Z -> Z) : cols q m Sm qc ->
  (forall t, 0 <= t < Sm -> cong p (r t) (sum 0 n (fun l => c l * b l t))) ->
  forall j, 0 <= j < m -> cong p (dext Sm qc r j) (sum 0 n (fun l => c l * dext Sm qc (b l) j)).
Proof.
  intros HC H. apply (cols_ind q m Sm qc _ HC).
  - intros j Hj Hq. rewrite (dext_pivot q m Sm qc r) by auto. rewrite sum_zero; [apply cong_refl|].
    intros l Hl. rewrite (dext_pivot q m Sm qc) by auto. ring.
  - intros t Ht. rewrite (dext_col q m Sm qc) by auto. rewrite (H t Ht). apply cong_eq. apply sum_ext. intros l Hl. now rewrite (dext_col q m Sm qc) by auto.
Qed.
Lemma perm_surj Sm Q : (forall k, 0 <= k < Sm -> 0 <= get Q k < Sm) -> (forall k l, 0 <= k < Sm -> 0 <= l < Sm -> get Q k = get Q l -> k = l) ->
  forall t, 0 <= t < Sm -> exists k, 0 <= k < Sm /\ get Q k = t.
Proof.
  intros Hr Hi t Ht. assert (HP : Permutation (zseq 0 Sm) (map (get Q) (zseq 0 Sm))) by (apply map_get_perm; auto; lia).
  assert (In t (map (get Q) (zseq 0 Sm))) as Hin by (apply (Permutation_in _ HP); now apply In_zseq).
  apply in_map_iff in Hin. destruct Hin as (k & E & Hk). apply In_zseq in Hk. eauto.
Qed.
Lemma nrow_dext q m Sm qc Q Sd i lo h : cols q m Sm qc -> 0 <= i < lo -> lo <= Sm ->
  (forall k, 0 <= k < Sm -> 0 <= get Q k < Sm) -> (forall k l, 0 <= k < Sm -> 0 <= l < Sm -> get Q k = get Q l -> k = l) ->
  (forall k, 0 <= k < Sm -> h (get Q k) = if k <? lo then (if k =? i then 1 else 0) else dget Sm Sd i k) ->
  forall j, 0 <= j < m -> lentry j (nrow Sm Sd Q qc i lo) = dext Sm qc h j.
Proof.
  intros HC Hi Hlo Hr Hinj Hh.
  assert (Hci : forall k l, 0 <= k < Sm -> 0 <= l < Sm -> get qc (get Q k) = get qc (get Q l) -> k = l).
  { intros k l Hk Hl E. apply Hinj; auto. apply (co_inj _ _ _ _ HC); auto. }
  apply (cols_ind q m Sm qc _ HC).
  - intros j Hj Hq. rewrite (dext_pivot q m Sm qc) by auto. unfold nrow. rewrite lentry_cons.
    destruct (co_rng _ _ _ _ HC (get Q i)) as [_ Hn]; [apply Hr; lia|]. destruct (Z.eqb_spec (get qc (get Q i)) j) as [<-|_]; [lia|].
    rewrite (lentry_map_out (fun k => get qc (get Q k))); [ring|]. intros k Hk E. apply In_zseq in Hk. subst j.
    destruct (co_rng _ _ _ _ HC (get Q k)); [apply Hr; lia|]. lia.
  - intros t Ht. rewrite (dext_col q m Sm qc) by auto. destruct (perm_surj Sm Q Hr Hinj t Ht) as (k & Hk & <-). rewrite Hh by auto.
    unfold nrow. rewrite lentry_cons. destruct (Z.ltb_spec k lo) as [Hl|Hl].
    + rewrite (lentry_map_out (fun k => get qc (get Q k))).
      2:{ intros k' Hk' E. apply In_zseq in Hk'. apply Hci in E; lia. }
      destruct (Z.eqb_spec k i) as [->|Hne]; [rewrite Z.eqb_refl; ring|].
      destruct (Z.eqb_spec (get qc (get Q i)) (get qc (get Q k))) as [E|]; [apply Hci in E; lia|ring].
    + destruct (Z.eqb_spec (get qc (get Q i)) (get qc (get Q k))) as [E|]; [apply Hci in E; lia|].
      rewrite (lentry_map_inj (fun k => get qc (get Q k))); [ring| |apply NoDup_zseq|apply In_zseq; lia].
      intros a b Ha Hb. apply In_zseq in Ha, Hb. apply Hci; lia.
Qed.
