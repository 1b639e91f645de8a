(** Pivot selection (Pivots.v): pivots are consistent and cycle-free. *)
From Verif Require Import Base BaseFacts Spec SpecFacts SpecElim Zp Mat MatFacts RowList Reach ReachProofs ParProofs Sched SchedProofs Pivots.
From Coq Require Import ZifyBool.

(** ** Counting *)
Definition b1 (b : bool) : Z := if b then 1 else 0.
Lemma sum_upd1 lo hi f f' k : lo <= k < hi -> (forall i, lo <= i < hi -> i <> k -> f' i = f i) ->
  sum lo hi f' = sum lo hi f - f k + f' k.
Proof.
  intros Hk H. rewrite (sum_split k lo hi f), (sum_split k lo hi f') by lia.
  rewrite (sum_first k hi f), (sum_first k hi f') by lia.
  rewrite (sum_ext lo k f' f), (sum_ext (k + 1) hi f' f); [lia| |]; intros; apply H; lia.
Qed.
Lemma npos_upd q j v : 0 <= j < len q -> npos (upd q j v) = npos q - b1 (0 <=? get q j) + b1 (0 <=? v).
Proof.
  intros Hj. unfold npos. rewrite len_upd.
  rewrite (sum_upd1 0 (len q) (fun j => if 0 <=? get q j then 1 else 0) (fun k => if 0 <=? get (upd q j v) k then 1 else 0) j); [|lia|].
  - cbv beta. rewrite get_upd_eq by lia. reflexivity.
  - intros i _ Hi. rewrite get_upd_ne by auto. reflexivity.
Qed.
Lemma npos_none q : (forall j, 0 <= j < len q -> get q j = -1) -> npos q = 0.
Proof. intros H. apply sum_zero. intros j Hj. now rewrite H. Qed.

Lemma npos_rows A pinv qinv : pivots A pinv qinv -> npos qinv = npos pinv.
Proof.
  intros [L1 L2 HP HQ]. unfold npos. rewrite L1, L2.
  transitivity (sum 0 (cm A) (fun j => sum 0 (cn A) (fun i => if get qinv j =? i then 1 else 0))).
  { apply sum_ext. intros j Hj. destruct (HQ j Hj) as [->|[H1 H2]].
    - replace (0 <=? -1) with false by lia. symmetry. apply sum_zero. intros i Hi. destruct (Z.eqb_spec (-1) i); lia.
    - replace (0 <=? get qinv j) with true by lia. rewrite (sum_ext _ _ _ (fun i => if i =? get qinv j then 1 else 0)).
      + rewrite sum_delta. now replace ((0 <=? get qinv j) && (get qinv j <? cn A)) with true by lia.
      + intros. now rewrite Z.eqb_sym. }
  rewrite sum_swap. apply sum_ext. intros i Hi. destruct (HP i Hi) as [E|(H1 & H2 & _)].
  - rewrite E. cbn. apply sum_zero. intros j Hj. destruct (Z.eqb_spec (get qinv j) i) as [<-|]; auto.
    destruct (HQ j Hj) as [E'|[_ H2]]; lia.
  - replace (0 <=? get pinv i) with true by lia.
    rewrite (sum_ext _ _ _ (fun j => if j =? get pinv i then 1 else 0)).
    + rewrite sum_delta. now replace ((0 <=? get pinv i) && (get pinv i <? cm A)) with true by lia.
    + intros j Hj. destruct (Z.eqb_spec j (get pinv i)) as [->|Hne].
      * now rewrite H2, Z.eqb_refl.
      * destruct (Z.eqb_spec (get qinv j) i) as [E|]; auto. destruct (HQ j Hj) as [E'|[_ H3]]; [lia|]. rewrite E in H3. lia.
Qed.
Lemma npos_le q : npos q <= len q.
Proof.
  unfold npos. pose proof (len_nonneg q). rewrite <- (Z.mul_1_r (len q)) at 2. rewrite <- (Z.sub_0_r (len q)) at 2.
  rewrite <- sum_const by lia. apply sum_le. intros i _. destruct (0 <=? get q i); lia.
Qed.
Lemma npos_nonneg q : 0 <= npos q.
Proof. apply sum_nonneg. intros i _. destruct (0 <=? get q i); lia. Qed.

(** ** Adding a pivot *)
Section add.
Context (A : csr) (qinv : list Z) (i j : Z) (Hj : 0 <= j < len qinv) (Hi : 0 <= i).
Let q' := upd qinv j i.
Lemma edge_add a b : edge A q' a b -> a = j /\ stored A i b \/ a <> j /\ edge A qinv a b.
Proof.
  unfold edge, q'. rewrite len_upd, get_upd_in by lia. intros (H1 & H2 & H3).
  destruct (Z.eqb_spec j a) as [->|]; auto.
Qed.
Lemma path_add a b : path A q' a b -> path A qinv a b \/ path A qinv a j /\ exists c, stored A i c /\ path A qinv c b.
Proof.
  intros H. induction H as [a|a b c H IH He]; [left; constructor|].
  apply edge_add in He. destruct He as [[-> Hs]|[Hne He]].
  - right. split; [tauto|]. exists c. split; auto. constructor.
  - destruct IH as [IH|(IH1 & c0 & IH2 & IH3)].
    + left. eapply path_step; eauto.
    + right. split; auto. exists c0. split; auto. eapply path_step; eauto.
Qed.
Lemma path_free a b : get qinv a < 0 -> path A qinv a b -> b = a.
Proof. intros Ha H. induction H as [a|a b c H IH He]; auto. destruct (IH Ha). destruct He. lia. Qed.
Lemma acyclic_add : acyclic A qinv -> get qinv j < 0 ->
  (forall c, stored A i c -> c <> j -> ~ path A qinv c j) -> acyclic A q'.
Proof.
  intros Hac Hfree Hc a b He Hne Hp. apply edge_add in He. apply path_add in Hp.
  destruct He as [[-> Hs]|[Haj He]].
  - destruct Hp as [Hp|[Hp _]]; apply (Hc b); auto.
  - destruct Hp as [Hp|(Hp & c & Hs & Hp2)].
    + apply (Hac a b); auto.
    + destruct (Z.eq_dec c j) as [->|Hcj].
      * apply path_free in Hp2; auto.
      * apply (Hc c); auto. eapply path_trans; [exact Hp2|]. eapply path_trans; [|exact Hp].
        eapply path_step; [constructor|exact He].
Qed.
End add.

(** ** Registering a pivot *)
Lemma register_pivot1_new i j pinv qinv : 0 <= i < len pinv -> 0 <= j < len qinv -> get pinv i = -1 -> get qinv j = -1 ->
  register_pivot1 i j pinv qinv = Ok (1, upd pinv i j, qinv).
Proof.
  intros Hi Hj Ei Ej. unfold register_pivot1. rewrite !aget_ok by lia. rewrite Ei, Ej. cbn. rewrite aset_ok by lia. reflexivity.
Qed.
Lemma register_pivot_ok A i j pinv qinv : pivots A pinv qinv -> 0 <= i < cn A -> 0 <= j < cm A -> get pinv i = -1 -> stored A i j ->
  sat (register_pivot i j pinv qinv) (fun '(r, pinv', qinv') =>
    pivots A pinv' qinv' /\ qinv' = upd qinv j i /\ get pinv' i = j /\ r = b1 (get qinv j <? 0) /\
    (forall i', 0 <= i' < cn A -> i' <> i -> get pinv' i' = get pinv i' \/ get qinv j = i' /\ get pinv' i' = -1) /\
    npos qinv' = npos qinv + r).
Proof.
  intros [L1 L2 HP HQ] Hi Hj Ei Hs. unfold register_pivot, register_pivot1.
  rewrite !aget_ok by lia. cbn [bind]. rewrite Ei. cbn [bind Z.ltb Z.compare orb assert_ Z.eqb Pos.eqb].
  destruct (HQ j Hj) as [Ej|[Hq Hpq]].
  - rewrite Ej. cbn [bind Z.eqb Pos.eqb]. rewrite aset_ok by lia. cbn [bind]. rewrite aset_ok by lia. cbn [bind sat].
    split; [|split; [auto|split; [now rewrite get_upd_eq by lia|split; [reflexivity|split]]]].
    + constructor; rewrite ?len_upd; auto.
      * intros k Hk. rewrite get_upd_in by lia. destruct (Z.eqb_spec i k) as [->|Hne].
        -- right. rewrite get_upd_eq by lia. auto.
        -- destruct (HP k Hk) as [|(H1 & H2 & H3)]; auto. right. rewrite get_upd_in by lia.
           destruct (Z.eqb_spec j (get pinv k)) as [E|]; [rewrite <- E in H2; lia|auto].
      * intros k Hk. rewrite get_upd_in by lia. destruct (Z.eqb_spec j k) as [->|Hne].
        -- right. rewrite get_upd_eq by lia. auto.
        -- destruct (HQ k Hk) as [|(H1 & H2)]; auto. right. rewrite get_upd_in by lia.
           destruct (Z.eqb_spec i (get qinv k)) as [E|]; [rewrite <- E in H2; lia|auto].
    + intros i' _ Hne. left. now rewrite get_upd_ne by auto.
    + rewrite npos_upd by lia. rewrite Ej. replace (0 <=? i) with true by lia. cbn. lia.
  - assert (Hqi : get qinv j <> i) by (intros E; rewrite E in Hpq; lia).
    replace (get qinv j =? -1) with false by lia. rewrite aget_ok by lia. cbn [bind]. rewrite Hpq, Z.eqb_refl. cbn [assert_ bind].
    replace (get qinv j =? i) with false by lia. cbn [assert_ bind negb].
    rewrite aset_ok by lia. cbn [bind]. rewrite aset_ok by (rewrite len_upd; lia). cbn [bind]. rewrite aset_ok by lia. cbn [bind sat].
    set (q := get qinv j) in *.
    split; [|split; [auto|split; [now rewrite get_upd_eq by (rewrite len_upd; lia)|split; [|split]]]].
    + constructor; rewrite ?len_upd; auto.
      * intros k Hk. rewrite get_upd_in by (rewrite len_upd; lia). destruct (Z.eqb_spec i k) as [->|Hne].
        -- right. rewrite get_upd_eq by lia. auto.
        -- rewrite get_upd_in by lia. destruct (Z.eqb_spec q k) as [Eq|Hqk]; auto.
           destruct (HP k Hk) as [|(H1 & H2 & H3)]; auto. right. rewrite get_upd_in by lia.
           destruct (Z.eqb_spec j (get pinv k)) as [E|]; [rewrite <- E in H2; unfold q in *; lia|auto].
      * intros k Hk. rewrite get_upd_in by lia. destruct (Z.eqb_spec j k) as [->|Hne].
        -- right. rewrite get_upd_eq by (rewrite len_upd; lia). auto.
        -- destruct (HQ k Hk) as [|(H1 & H2)]; auto. right. rewrite get_upd_in by (rewrite len_upd; lia).
           destruct (Z.eqb_spec i (get qinv k)) as [E|]; [rewrite <- E in H2; lia|]. rewrite get_upd_in by lia.
           destruct (Z.eqb_spec q (get qinv k)) as [E|]; auto. exfalso. rewrite <- E in H2. congruence.
    + unfold b1. destruct (Z.ltb_spec q 0); lia.
    + intros i' _ Hne. rewrite get_upd_ne by auto. rewrite get_upd_in by lia. destruct (Z.eqb_spec q i'); auto.
    + rewrite npos_upd by lia. fold q. replace (0 <=? q) with true by lia. replace (0 <=? i) with true by lia. cbn. lia.
Qed.

(* in general: the row may already have a pivot, which it loses *)
Lemma register_pivot_gen A i j pinv qinv : pivots A pinv qinv -> 0 <= i < cn A -> 0 <= j < cm A -> stored A i j ->
  get pinv i = -1 \/ get qinv j = -1 ->
  sat (register_pivot i j pinv qinv) (fun '(r, pinv', qinv') =>
    pivots A pinv' qinv' /\ get pinv' i = j /\ npos qinv' = npos qinv + r /\
    forall i', 0 <= i' < cn A -> i' <> i -> get pinv i' <> j -> get pinv' i' = get pinv i').
Proof.
  intros P Hi Hj Hs Hfree. pose proof P as [L1 L2 HP HQ]. destruct (HP i Hi) as [Ei|(Hc & Hqc & Hst)].
  { eapply sat_mono; [exact (register_pivot_ok A i j pinv qinv P Hi Hj Ei Hs)|]. intros [[r pv] qv] (H1 & H2 & H3 & H4 & H5 & H6).
    split; [auto|]. split; [auto|]. split; [auto|]. intros i' Hi' Hne Hj'. destruct (H5 i' Hi' Hne) as [|[E _]]; [auto|].
    exfalso. apply Hj'. destruct (HQ j Hj) as [E'|[_ E']]; [lia|]. now rewrite <- E. }
  set (c := get pinv i) in *. assert (Ej : get qinv j = -1) by lia. assert (Hcj : c <> j) by (intros E; rewrite E in Hqc; lia).
  unfold register_pivot, register_pivot1. rewrite !aget_ok by lia. fold c. cbn [bind]. rewrite Ej. replace ((c <? 0) || (-1 <? 0)) with true by lia. cbn [assert_ bind].
  replace (c =? -1) with false by lia. rewrite aget_ok by lia. cbn [bind]. rewrite Hqc, Z.eqb_refl. cbn [assert_ bind]. replace (c =? j) with false by lia. cbn [negb assert_ bind].
  rewrite aset_ok by lia. cbn [bind Z.eqb Pos.eqb]. rewrite aset_ok by lia. cbn [bind]. rewrite aset_ok by (rewrite len_upd; lia). cbn [bind sat].
  split; [constructor; rewrite ?len_upd; auto|split; [now rewrite get_upd_eq by lia|split]].
  - intros k Hk. rewrite get_upd_in by lia. destruct (Z.eqb_spec i k) as [<-|Hne].
    + right. rewrite get_upd_eq by (rewrite len_upd; lia). auto.
    + destruct (HP k Hk) as [|(H1 & H2 & H3)]; auto. right. rewrite get_upd_in by (rewrite len_upd; lia).
      destruct (Z.eqb_spec j (get pinv k)) as [E|]; [rewrite <- E in H2; lia|]. rewrite get_upd_in by lia. destruct (Z.eqb_spec c (get pinv k)) as [E|]; [rewrite <- E in H2; lia|auto].
  - intros k Hk. rewrite get_upd_in by (rewrite len_upd; lia). destruct (Z.eqb_spec j k) as [<-|Hne].
    + right. rewrite get_upd_eq by lia. auto.
    + rewrite get_upd_in by lia. destruct (Z.eqb_spec c k) as [|Hne']; [auto|]. destruct (HQ k Hk) as [|(H1 & H2)]; auto. right. rewrite get_upd_in by lia.
      destruct (Z.eqb_spec i (get qinv k)) as [E|]; [rewrite <- E in H2; fold c in H2; lia|auto].
  - rewrite npos_upd by (rewrite len_upd; lia). rewrite npos_upd by lia. rewrite get_upd_ne by auto. rewrite Ej, Hqc. replace (0 <=? i) with true by lia. cbn. lia.
  - intros i' _ Hne _. now rewrite get_upd_ne by auto.
Qed.

(* more pivots, more paths *)
Lemma path_ext A q q' a b : len q' = len q -> (forall c, 0 <= get q c -> get q' c = get q c) -> path A q a b -> path A q' a b.
Proof.
  intros E1 E2 H. induction H as [a|a b c H IH (H1 & H2 & H3)]; [constructor|]. econstructor; [exact IH|]. split; [now rewrite E1|].
  now rewrite E2 by auto.
Qed.
(* a pivot on column c cannot be added, if c can be reached from a pivotal column of the row *)
Lemma path_cycle A (HA : wf A) i c d qinv : len qinv = cm A -> 0 <= i < cn A -> stored A i c -> get qinv c < 0 -> stored A i d -> 0 <= get qinv d ->
  path A qinv d c -> ~ acyclic A (upd qinv c i).
Proof.
  intros L Hi (px & Hpx & Ec) Hq Hd Hqd Hp HC. pose proof (wf_row A HA i Hi) as Hrow. pose proof (wf_col A HA px ltac:(lia)) as Hcol. rewrite Ec in Hcol.
  apply (HC c d); [|intros ->; lia|].
  - split; [rewrite len_upd; lia|]. rewrite get_upd_eq by lia. split; [lia|auto].
  - apply (path_ext A qinv); auto; [apply len_upd|]. intros x Hx. rewrite get_upd_ne; auto. intros ->. lia.
Qed.

(** ** Faugère-Lachartre pivots *)
Section fl.
Context (A : csr) (HA : wf A).
Let n := cn A. Let m := cm A.

Definition leftmost (pinv : list Z) : Prop :=
  forall i c, 0 <= i < n -> 0 <= get pinv i -> stored A i c -> get pinv i <= c.
Lemma fl_acyclic pinv qinv : pivots A pinv qinv -> leftmost pinv -> acyclic A qinv.
Proof.
  intros [L1 L2 HP HQ] HL.
  assert (HE : forall a b, edge A qinv a b -> a <= b).
  { intros a b (Ha & Hq & Hs). rewrite L2 in Ha. destruct (HQ a Ha) as [|[H1 H2]]; [lia|].
    specialize (HL (get qinv a) b H1). rewrite H2 in HL. apply HL; auto. lia. }
  assert (HPa : forall a b, path A qinv a b -> a <= b).
  { intros a b H. induction H as [a|a b c H IH He]; [lia|]. apply HE in He. lia. }
  intros a b He Hne Hp. apply HE in He. apply HPa in Hp. lia.
Qed.

Lemma find_FL_pivots_ok pinv qinv : cx A <> None -> no_zero A -> pivots A pinv qinv ->
  (forall i, 0 <= i < n -> get pinv i = -1) -> npos qinv = 0 ->
  sat (find_FL_pivots A pinv qinv) (fun '(npiv, pinv', qinv') =>
    pivots A pinv' qinv' /\ acyclic A qinv' /\ npos qinv' = npiv /\ fl_choice A n qinv').
Proof.
  intros Hx Hnz HPV Hnone Hpos. pose proof (wf_n A HA) as Hn. pose proof (wf_m A HA) as Hm. pose proof (wf_len A HA) as Hlp.
  pose proof (wf_nnz A HA) as Hz. unfold find_FL_pivots.
  destruct (cx A) as [Ax|] eqn:Ex; [clear Hx|easy]. pose proof (wf_vals A HA Ax Ex) as Hlx.
  apply (for_spec (fun i '(npiv, pinv, qinv) => pivots A pinv qinv /\ leftmost pinv /\ npos qinv = npiv /\
    (forall k, i <= k < n -> get pinv k = -1) /\ fl_choice A i qinv)).
  - lia.
  - split; auto. split; [|split; [auto|split; [intros; apply Hnone; lia|]]]. { intros i c Hi Hp. rewrite Hnone in Hp by auto. lia. }
    intros j Hj. split; [intros; lia|]. intros Hq. pose proof HPV as [_ _ _ PQ]. destruct (PQ j Hj) as [|[H1 H2]]; [lia|]. rewrite Hnone in H2 by auto. lia.
  - intros i [[npiv pv] qv] Hi (HPV1 & HL & Hc & Hf & HC). pose proof (wf_row A HA i Hi) as Hrow.
    apply sat_bind, sat_aget; [lia|]. apply sat_bind, sat_aget; [lia|]. fold (rbeg A i) (rend A i).
    apply sat_bind. eapply (for_spec (fun px j =>
      (forall py, rbeg A i <= py < px -> j <= get (cj A) py) /\
      (j = m + 1 \/ exists py, rbeg A i <= py < px /\ get (cj A) py = j))).
    { lia. } { split; [intros; lia|auto]. }
    { intros px j Hpx (J1 & J2). cbn [deref bind]. apply sat_bind, sat_aget; [lia|].
      apply sat_bind, sat_assert.
      { specialize (Hnz px ltac:(lia)). unfold val in Hnz. rewrite Ex in Hnz. lia. }
      apply sat_bind, sat_aget; [lia|]. cbn. destruct (Z.ltb_spec (get (cj A) px) j) as [Hlt|Hge].
      - split.
        + intros py Hpy. destruct (Z.eq_dec py px) as [->|]; [lia|]. specialize (J1 py ltac:(lia)). lia.
        + right. exists px. split; [lia|auto].
      - split.
        + intros py Hpy. destruct (Z.eq_dec py px) as [->|]; [lia|]. apply J1. lia.
        + destruct J2 as [|(py & Hpy & E)]; auto. right. exists py. split; [lia|auto]. }
    intros j (J1 & J2). fold m. destruct (Z.eqb_spec j (m + 1)) as [|Hjm].
    { cbn. split; auto. split; auto. split; auto. split; [intros; apply Hf; lia|]. intros c Hcm. destruct (HC c Hcm) as (C1 & C2).
      assert (Hnl : ~ leads A i c). { intros ((py & Hpy & Ec) & _). specialize (J1 py Hpy). lia. }
      split; [intros Hq k Hk; destruct (Z.eq_dec k i) as [->|]; [auto|apply C1; auto; lia]|]. intros Hq. destruct (C2 Hq) as (C3 & C4). split; [auto|].
      intros k Hk Hl. destruct (Z.eq_dec k i) as [->|]; [easy|apply C4; auto; lia]. }
    destruct J2 as [|(py & Hpy & Ej)]; [lia|]. pose proof (wf_col A HA py ltac:(lia)) as Hcol. rewrite Ej in Hcol. fold m in Hcol.
    assert (Hst : stored A i j) by (exists py; auto).
    assert (Hld : forall c, leads A i c <-> c = j).
    { intros c. split; [intros ((pz & Hpz & Ez) & Hmin)|intros ->]; [specialize (Hmin j Hst); specialize (J1 pz Hpz); lia|]. split; [auto|]. intros c (pz & Hpz & <-). apply J1. lia. }
    pose proof HPV1 as [PL1 PL2 PP PQ]. fold n in PL1, PP, PQ. fold m in PL2, PP, PQ.
    apply sat_bind, sat_aget; [lia|].
    assert (G : (0 <= get qv j -> rend A i - rbeg A i <= rend A (get qv j) - rbeg A (get qv j)) -> sat ('(r, pinv0, qinv0) <- register_pivot i j pv qv ;; Ok (npiv + r, pinv0, qinv0)) (fun '(npiv, pinv, qinv) =>
       pivots A pinv qinv /\ leftmost pinv /\ npos qinv = npiv /\ (forall k, i + 1 <= k < n -> get pinv k = -1) /\ fl_choice A (i + 1) qinv)).
    { intros Hw. apply sat_bind. eapply sat_mono; [apply (register_pivot_ok A i j pv qv HPV1 Hi Hcol); [apply Hf; unfold n; lia|exact Hst]|]. cbv beta.
      intros [[r pv'] qv'] (R1 & R2 & R3 & R4 & R5 & R6). cbn. split; auto. split; [|split; [lia|split]].
      - intros k c Hk Hp Hs. destruct (Z.eq_dec k i) as [->|Hne].
        + rewrite R3. destruct Hs as (pz & Hpz & <-). apply J1. lia.
        + destruct (R5 k Hk Hne) as [E|[_ E]]; [|lia]. rewrite E in *. apply HL; auto.
      - intros k Hk. destruct (R5 k ltac:(lia) ltac:(lia)) as [->|[_ ->]]; auto. apply Hf. lia.
      - intros c Hcm. rewrite R2. destruct (HC c Hcm) as (C1 & C2). rewrite get_upd_in by lia. destruct (Z.eqb_spec j c) as [<-|Hjc].
        + split; [lia|]. intros _. split; [now apply Hld|]. intros k Hk Hl. destruct (Z.eq_dec k i) as [->|]; [lia|].
          destruct (Z.ltb_spec (get qv j) 0) as [Hneg|Hge]; [destruct (C1 Hneg k ltac:(lia) Hl)|]. specialize (Hw Hge). destruct (C2 Hge) as (_ & C4). specialize (C4 k ltac:(lia) Hl). lia.
        + split; [intros Hq k Hk Hl; destruct (Z.eq_dec k i) as [->|]; [apply Hld in Hl; auto|exact (C1 Hq k ltac:(lia) Hl)]|].
          intros Hq. destruct (C2 Hq) as (C3 & C4). split; [auto|]. intros k Hk Hl. destruct (Z.eq_dec k i) as [->|]; [apply Hld in Hl; now symmetry in Hl|apply C4; auto; lia]. }
    destruct (Z.eqb_spec (get qv j) (-1)) as [Eq|Hq].
    + cbn [bind]. apply G. lia.
    + destruct (PQ j ltac:(lia)) as [|[Hq1 Hq2]]; [lia|]. unfold row_weight.
      apply sat_bind. apply sat_bind, sat_bind, sat_aget; [lia|]. apply sat_bind, sat_aget; [lia|]. cbn [sat].
      apply sat_bind, sat_bind, sat_aget; [fold n in Hlp; lia|]. apply sat_bind, sat_aget; [fold n in Hlp; lia|]. cbn [sat].
      destruct (Z.ltb_spec (get (cp A) (i + 1) - get (cp A) i) (get (cp A) (get qv j + 1) - get (cp A) (get qv j))) as [Hlt|Hge];
        fold (rbeg A i) (rend A i) (rbeg A (get qv j)) (rend A (get qv j)) in *; [apply G; lia|]. cbn. split; auto. split; auto. split; auto. split; [intros; apply Hf; lia|].
      intros c Hcm. destruct (HC c Hcm) as (C1 & C2). split; [intros Hneg k Hk Hl; destruct (Z.eq_dec k i) as [->|]; [apply Hld in Hl; subst c; lia|exact (C1 Hneg k ltac:(lia) Hl)]|].
      intros Hqc. destruct (C2 Hqc) as (C3 & C4). split; [auto|]. intros k Hk Hl. destruct (Z.eq_dec k i) as [->|]; [apply Hld in Hl; subst c; lia|apply C4; auto; lia].
  - intros [[npiv pv] qv] (H1 & H2 & H3 & _ & H4). split; auto. split; [eapply fl_acyclic; eauto|]. auto.
Qed.

(* w is zero on the columns of pivotal rows *)
Definition obstructed (pinv w : list Z) : Prop :=
  forall i c, 0 <= i < n -> 0 <= get pinv i -> stored A i c -> get w c = 0.
(* w is only zero on the columns of pivotal rows *)
Definition hit (pinv w : list Z) : Prop :=
  forall c, 0 <= c < m -> get w c = 0 -> exists k, 0 <= k < n /\ 0 <= get pinv k /\ stored A k c.
(* the first rows cannot get a pivot *)
Definition settled (i : Z) (pinv qinv w : list Z) : Prop :=
  forall k c, 0 <= k < i -> get pinv k < 0 -> stored A k c -> get w c = 0 \/ 0 <= get qinv c.
Lemma clear_row w i : 0 <= i < n -> len w = m ->
  sat (for_ (rbeg A i) (rend A i) (fun px w => j <- aget (cj A) px ;; aset w j 0) w) (fun w' =>
    len w' = m /\ (forall c, get w' c = get w c \/ get w' c = 0) /\ (forall c, stored A i c -> get w' c = 0) /\
    forall c, get w c <> 0 -> get w' c = 0 -> stored A i c).
Proof.
  intros Hi Hw. pose proof (wf_row A HA i Hi) as Hrow. pose proof (wf_nnz A HA).
  eapply sat_mono; [apply (for_spec (fun px w' => len w' = m /\ (forall c, get w' c = get w c \/ get w' c = 0) /\
    (forall py, rbeg A i <= py < px -> get w' (get (cj A) py) = 0) /\ forall c, get w c <> 0 -> get w' c = 0 -> stored A i c)) with (Q := fun w' =>
      len w' = m /\ (forall c, get w' c = get w c \/ get w' c = 0) /\
    (forall py, rbeg A i <= py < rend A i -> get w' (get (cj A) py) = 0) /\ forall c, get w c <> 0 -> get w' c = 0 -> stored A i c)|].
  - lia.
  - split; auto. split; auto. split; [intros; lia|]. intros; lia.
  - intros px w' Hpx (H1 & H2 & H3 & H4). pose proof (wf_col A HA px ltac:(lia)) as Hcol. fold m in Hcol.
    apply sat_bind, sat_aget; [lia|]. apply sat_aset; [lia|]. rewrite len_upd. split; auto. split; [|split].
    + intros c. rewrite get_upd_in by lia. destruct (_ =? _); auto.
    + intros py Hpy. rewrite get_upd_in by lia. destruct (Z.eqb_spec (get (cj A) px) (get (cj A) py)) as [|Hne]; auto.
      apply H3. assert (py <> px) by congruence. lia.
    + intros c Hc. rewrite get_upd_in by lia. destruct (Z.eqb_spec (get (cj A) px) c) as [<-|]; auto. exists px. auto.
  - auto.
  - cbv beta. intros w' (H1 & H2 & H3 & H4). split; auto. split; auto. split; auto. intros c (py & Hpy & <-). auto.
Qed.
Lemma path_last q a b : path A q a b -> a = b \/ exists c, edge A q c b.
Proof. intros H. destruct H; eauto. Qed.

Lemma find_FL_column_pivots_ok w0 pinv qinv : len w0 = m -> pivots A pinv qinv -> acyclic A qinv ->
  sat (find_FL_column_pivots w0 A pinv qinv) (fun '(npiv, pinv', qinv') =>
    pivots A pinv' qinv' /\ acyclic A qinv' /\ npos qinv' = npos qinv + npiv /\
    (forall j, 0 <= get qinv j -> get qinv' j = get qinv j) /\ covered_rows A pinv').
Proof.
  intros Hw0 HPV Hac. pose proof (wf_n A HA) as Hn. pose proof (wf_m A HA) as Hm. pose proof (wf_len A HA) as Hlp.
  pose proof (wf_nnz A HA) as Hz. unfold find_FL_column_pivots. fold n m.
  apply sat_bind. apply (for_spec (fun k w => len w = m /\ forall c, 0 <= c < k -> get w c = 1)); [lia|split; auto; intros; lia| |].
  { intros j w Hj (W1 & W2). apply sat_aset; [lia|]. rewrite len_upd. split; auto. intros c Hc. rewrite get_upd_in by lia. destruct (Z.eqb_spec j c); auto. apply W2. lia. }
  intros w1 (Hw1 & Hw1').
  apply sat_bind. pose proof HPV as [PL1 PL2 _ _]. fold n in PL1. fold m in PL2.
  apply (for_spec (fun i w => len w = m /\ (forall k c, 0 <= k < i -> 0 <= get pinv k -> stored A k c -> get w c = 0) /\ hit pinv w)).
  { lia. } { split; auto. split; [intros; lia|]. intros c Hc. rewrite Hw1' by auto. lia. }
  { intros i w Hi (W1 & W2 & W3). apply sat_bind, sat_aget; [lia|].
    destruct (Z.ltb_spec (get pinv i) 0).
    - cbn. split; auto. split; auto. intros k c Hk Hp. destruct (Z.eq_dec k i) as [->|]; [lia|]. apply W2; auto. lia.
    - apply sat_bind, sat_aget; [lia|]. apply sat_bind, sat_aget; [lia|]. fold (rbeg A i) (rend A i).
      eapply sat_mono; [now apply clear_row|]. cbv beta. intros w' (R1 & R2 & R3 & R4). split; auto. split.
      2:{ intros c Hc E. destruct (Z.eq_dec (get w c) 0) as [E0|E0]; [now apply W3|]. exists i. split; auto. }
      intros k c Hk Hp Hs. destruct (Z.eq_dec k i) as [->|]; auto. destruct (R2 c) as [->|]; auto. apply (W2 k); auto. lia. }
  intros w (W1 & W2 & W3). apply sat_bind.
  apply (for_spec (fun i '(npiv, pv, qv, w) => pivots A pv qv /\ acyclic A qv /\ npos qv = npos qinv + npiv /\
     len w = m /\ obstructed pv w /\ hit pv w /\ (forall j, 0 <= get qinv j -> get qv j = get qinv j) /\ settled i pv qv w)).
  { lia. } { split; auto. split; auto. split; [lia|]. split; auto. split; auto. split; auto. split; auto. intros k c Hk. lia. }
  2:{ intros [[[npiv pv] qv] w2] (H1 & H2 & H3 & W1' & W2' & W3' & K & S). cbn. split; auto. split; auto. split; auto. split; auto.
    intros k c Hk Hneg Hs. assert (Hc : 0 <= c < m) by (destruct Hs as (px & Hpx & <-); pose proof (wf_row A HA k Hk); apply (wf_col A HA); lia).
    destruct (S k c Hk Hneg Hs) as [E|E]; [now apply W3'|]. pose proof H1 as [_ _ PP PQ]. destruct (PQ c Hc) as [|[Q1 Q2]]; [lia|].
    exists (get qv c). split; auto. split; [lia|]. destruct (PP _ Q1) as [|(P1 & P2 & P3)]; [lia|]. now rewrite Q2 in P3. }
  clear w W1 W2 W3 PL1 PL2. intros i [[[npiv pv] qv] w] Hi (H1 & H2 & H3 & W1 & W2 & W3 & K & S).
  pose proof H1 as [PL1 PL2 PP PQ]. fold n in PL1, PP, PQ. fold m in PL2, PP, PQ. pose proof (wf_row A HA i Hi) as Hrow.
  apply sat_bind, sat_aget; [lia|]. destruct (Z.leb_spec 0 (get pv i)) as [|Hneg].
  { cbn. repeat (split; [assumption|]). intros k c Hk Hn'. destruct (Z.eq_dec k i) as [->|]; [lia|apply S; auto; lia]. }
  apply sat_bind, sat_aget; [lia|]. apply sat_bind, sat_aget; [lia|]. fold (rbeg A i) (rend A i).
  apply sat_bind. eapply sat_mono; [apply (forb_spec (fun px _ => forall py, rbeg A i <= py < px -> get w (get (cj A) py) = 0 \/ 0 <= get qv (get (cj A) py))
     (fun o => match o with inl _ => forall c, stored A i c -> get w c = 0 \/ 0 <= get qv c | inr st =>
     let '(npiv, pv, qv, w) := st in pivots A pv qv /\ acyclic A qv /\ npos qv = npos qinv + npiv /\
     len w = m /\ obstructed pv w /\ hit pv w /\ (forall j, 0 <= get qinv j -> get qv j = get qinv j) /\ settled (i + 1) pv qv w end)); [lia|intros; lia| |]|]; cbv beta.
  2:{ intros _ HS c (px & Hpx & <-). auto. }
  - intros px [] Hpx HS. pose proof (wf_col A HA px ltac:(lia)) as Hcol. fold m in Hcol. set (j := get (cj A) px) in *.
    apply sat_bind, sat_aget; [lia|]. fold j. apply sat_bind, sat_aget; [lia|].
    assert (Hnext : get w j = 0 \/ 0 <= get qv j -> forall py, rbeg A i <= py < px + 1 -> get w (get (cj A) py) = 0 \/ 0 <= get qv (get (cj A) py)).
    { intros HJ py Hpy. destruct (Z.eq_dec py px) as [->|]; [auto|apply HS; lia]. }
    destruct (Z.eqb_spec (get w j) 0) as [|Hwj]; [cbn; auto|]. apply sat_bind, sat_aget; [lia|].
    destruct (Z.leb_spec 0 (get qv j)) as [|Hqj]; [cbn; auto|].
    assert (Hst : stored A i j) by (exists px; auto).
    apply sat_bind. eapply sat_mono; [apply (register_pivot_ok A i j pv qv H1 Hi Hcol); [destruct (PP i Hi); lia|exact Hst]|]. cbv beta.
    intros [[r pv'] qv'] (R1 & R2 & R3 & R4 & R5 & R6).
    apply sat_bind. eapply sat_mono; [now apply clear_row|]. cbv beta. intros w' (C1 & C2 & C3 & C4). cbn.
    assert (Hkeep : forall k, 0 <= k < n -> 0 <= get pv k -> get pv' k = get pv k).
    { intros k Hk Hp. destruct (R5 k Hk) as [|[E _]]; auto; [intros ->; lia|]. lia. }
    split; auto. split; [|split; [lia|split; [auto|split; [|split; [|split]]]]].
    + rewrite R2. apply acyclic_add; auto; try lia. intros c Hs Hne Hp. apply path_last in Hp. destruct Hp as [|(b & He)]; [lia|].
      destruct He as (Hb & Hqb & Hsb). rewrite PL2 in Hb. destruct (PQ b Hb) as [|[Q1 Q2]]; [lia|].
      apply Hwj. apply (W2 (get qv b)); auto. lia.
    + intros k c Hk Hp Hs. destruct (Z.eq_dec k i) as [->|Hne]; auto. destruct (C2 c) as [->|]; auto.
      destruct (R5 k Hk Hne) as [E|[_ E]]; [|lia]. rewrite E in Hp. apply (W2 k); auto.
    + intros c Hc E. destruct (Z.eq_dec (get w c) 0) as [E0|E0].
      * destruct (W3 c Hc E0) as (k & Hk & Hp & Hs). exists k. rewrite Hkeep by auto. auto.
      * exists i. split; auto. split; [lia|auto].
    + intros c Hc. rewrite R2, get_upd_in by lia. destruct (Z.eqb_spec j c) as [<-|]; [|now apply K]. apply K in Hc as E. lia.
    + intros k c Hk Hp Hs. destruct (Z.eq_dec k i) as [->|Hne]; [lia|]. destruct (R5 k ltac:(lia) Hne) as [E|[E _]]; [|lia].
      rewrite E in Hp. destruct (S k c ltac:(lia) Hp Hs) as [E0|E0]; [left; destruct (C2 c); congruence|]. right. rewrite R2, get_upd_in by lia. destruct (_ =? _); lia.
  - intros [[]|[[[npiv' pv'] qv'] w']]; cbn; auto. intros HS. repeat (split; [assumption|]).
    intros k c Hk Hp Hs. destruct (Z.eq_dec k i) as [->|]; [now apply HS|]. apply (S k); auto. lia.
Qed.
End fl.
