(** The parallel greedy search for pivots (Pivots.v) is cycle-free under every interleaving. *)
From Verif Require Import Base BaseFacts Spec SpecFacts SpecElim Zp Mat MatFacts RowList Reach ReachProofs ParProofs Sched SchedProofs Pivots PivotsProofs.
From Coq Require Import ZifyBool.

Section greedy.
Context (A : csr) (HA : wf A) (HD : nodup_rows A) (q0 : list Z).
Let n := cn A. Let m := cm A.
Let col := get (cj A).

(* column c was pivotal when there were k new pivots *)
Definition piv (h : gsh) (k c : Z) : Prop := 0 <= get q0 c \/ exists l, 0 <= l < k /\ get (g_log h) l = c.

(* column c can be reached from a pivotal column of row t *)
Definition rch (t : Z) (h : gsh) (c : Z) : Prop :=
  exists d, stored A t d /\ 0 <= get (g_qinv h) d /\ path A (g_qinv h) d c.

(* what an iteration knows; positions before px have been scattered, columns of the queue before hd
   have been handled, with respect to the k first new pivots *)
Record Loc (t : Z) (h : gsh) (l : bfs) (px hd k : Z) : Prop := {
  L_w : len (b_w l) = m;
  L_q : len (b_q l) = m;
  L_k : 0 <= k <= g_npiv h;
  L_ht : 0 <= hd <= b_tail l;
  L_val : forall c, 0 <= c < m -> -1 <= get (b_w l) c <= 1;
  L_in : forall x, 0 <= x < b_tail l -> 0 <= get (b_q l) x < m /\ get (b_w l) (get (b_q l) x) = -1;
  L_m1 : forall c, 0 <= c < m -> get (b_w l) c = -1 -> exists x, 0 <= x < b_tail l /\ get (b_q l) x = c;
  L_dist : forall x y, 0 <= x < b_tail l -> 0 <= y < b_tail l -> get (b_q l) x = get (b_q l) y -> x = y;
  L_1 : forall c, 0 <= c < m -> get (b_w l) c = 1 -> exists py, rbeg A t <= py < px /\ col py = c;
  L_row : forall py, rbeg A t <= py < px -> get (b_w l) (col py) <> 0 /\ (piv h k (col py) -> get (b_w l) (col py) = -1);
  L_surv : b_surv l = sum (rbeg A t) px (fun py => if get (b_w l) (col py) =? 1 then 1 else 0);
  L_clo : forall x, 0 <= x < hd -> piv h k (get (b_q l) x) ->
    forall c, stored A (get (g_qinv h) (get (b_q l) x)) c -> get (b_w l) c = -1;
  L_rch : forall x, 0 <= x < b_tail l -> rch t h (get (b_q l) x)
}.

Lemma tail_room t h l px hd k c : Loc t h l px hd k -> 0 <= c < m -> get (b_w l) c <> -1 -> b_tail l < m.
Proof.
  intros L Hc Hw. pose proof (L_ht _ _ _ _ _ _ L) as Ht.
  assert (H : len (c :: map (get (b_q l)) (zseq 0 (b_tail l))) <= m).
  { apply (pigeon A HA).
    - constructor.
      + rewrite in_map_iff. intros (x & E & Hx). apply In_zseq in Hx. apply (L_in _ _ _ _ _ _ L) in Hx. rewrite E in Hx. tauto.
      + assert (G : forall s, NoDup s -> (forall x, In x s -> 0 <= x < b_tail l) -> NoDup (map (get (b_q l)) s)).
        { induction s as [|a s IH]; intros HN HI; simpl; constructor; inversion HN; subst.
          - rewrite in_map_iff. intros (x & E & Hx). apply (L_dist _ _ _ _ _ _ L) in E; [congruence| |]; apply HI; simpl; auto.
          - apply IH; auto. intros; apply HI; simpl; auto. }
        apply G; [apply NoDup_zseq|]. intros x. apply In_zseq.
    - intros d [<-|Hd]; auto. apply in_map_iff in Hd. destruct Hd as (x & <- & Hx). apply In_zseq in Hx.
      apply (L_in _ _ _ _ _ _ L x Hx). }
  rewrite len_cons, len_map, len_zseq in H. lia.
Qed.

Lemma enqueue_ok t h l px hd k c : 0 <= t < n -> rbeg A t <= px <= rend A t -> Loc t h l px hd k -> 0 <= c < m -> get (b_w l) c <> -1 -> rch t h c ->
  exists l', bfs_enqueue l c = Ok l' /\ Loc t h l' px hd k /\
    b_w l' = upd (b_w l) c (-1) /\ b_q l' = upd (b_q l) (b_tail l) c /\ b_tail l' = b_tail l + 1 /\ b_head l' = b_head l /\ b_k l' = b_k l.
Proof.
  intros Ht Hpx L Hc Hw Hr. pose proof (tail_room t h l px hd k c L Hc Hw) as Hroom.
  destruct L as [L1 L2 L3 L4 L5 L6 L7 L8 L9 L10 L11 L12 L13].
  unfold bfs_enqueue. rewrite aset_ok by lia. cbn [bind]. rewrite aget_ok by lia. cbn [bind]. rewrite aset_ok by lia. cbn [bind].
  eexists. split; [reflexivity|]. split; [|repeat split; reflexivity].
  assert (Hq : forall x, 0 <= x < b_tail l -> get (upd (b_q l) (b_tail l) c) x = get (b_q l) x).
  { intros x Hx. rewrite get_upd_ne by lia. reflexivity. }
  assert (Hqt : get (upd (b_q l) (b_tail l) c) (b_tail l) = c) by (rewrite get_upd_eq by lia; reflexivity).
  assert (HW : forall d, get (upd (b_w l) c (-1)) d = if c =? d then -1 else get (b_w l) d).
  { intros d. apply get_upd_in. lia. }
  constructor; cbn [b_w b_q b_surv b_head b_tail b_k]; rewrite ?len_upd; auto; try lia.
  - intros d Hd. rewrite HW. destruct (_ =? _); [lia|auto].
  - intros x Hx. destruct (Z.eq_dec x (b_tail l)) as [->|].
    + rewrite Hqt, HW, Z.eqb_refl. auto.
    + rewrite Hq by lia. destruct (L6 x ltac:(lia)) as [H1 H2]. split; auto. rewrite HW, H2. destruct (_ =? _); auto.
  - intros d Hd. rewrite HW. destruct (Z.eqb_spec c d) as [->|].
    + intros _. exists (b_tail l). split; [lia|auto].
    + intros E. destruct (L7 d Hd E) as (x & Hx & Ex). exists x. split; [lia|]. now rewrite Hq.
  - intros x y Hx Hy. destruct (Z.eq_dec x (b_tail l)) as [->|], (Z.eq_dec y (b_tail l)) as [->|]; auto.
    + rewrite Hqt, Hq by lia. intros ->. exfalso. apply Hw. apply L6. lia.
    + rewrite Hqt, Hq by lia. intros <-. exfalso. apply Hw. apply L6. lia.
    + rewrite !Hq by lia. apply L8; lia.
  - intros d Hd. rewrite HW. destruct (_ =? _); [lia|auto].
  - intros py Hpy. rewrite HW. destruct (L10 py Hpy). destruct (_ =? _); [lia|auto].
  - rewrite L11. destruct (Z.eq_dec (get (b_w l) c) 1) as [E1|E1].
    + destruct (L9 c Hc E1) as (pc & Hpc & Ec). rewrite E1.
      rewrite (sum_upd1 _ _ (fun py => if get (b_w l) (col py) =? 1 then 1 else 0)
        (fun py => if get (upd (b_w l) c (-1)) (col py) =? 1 then 1 else 0) pc); auto.
      * rewrite HW, Ec, E1, !Z.eqb_refl. cbn. lia.
      * intros py Hpy Hne. rewrite HW. destruct (Z.eqb_spec c (col py)) as [E|]; auto. exfalso. apply Hne.
        apply (HD t); auto; try lia. fold col. congruence.
    + assert (E0 : get (b_w l) c = 0) by (specialize (L5 c Hc); lia). rewrite E0, Z.sub_0_r.
      apply sum_ext. intros py Hpy. rewrite HW. destruct (Z.eqb_spec c (col py)) as [E|]; auto.
      rewrite <- E, E0. reflexivity.
  - intros x Hx. rewrite Hq by lia. intros Hp d Hd. rewrite HW. destruct (_ =? _); auto. eapply L12; eauto.
  - intros x Hx. destruct (Z.eq_dec x (b_tail l)) as [->|]; [now rewrite Hqt|]. rewrite Hq by lia. apply L13. lia.
Qed.

Lemma enqueue_row_ok t h l px hd k i : 0 <= t < n -> rbeg A t <= px <= rend A t -> Loc t h l px hd k -> 0 <= i < n ->
  (forall c, stored A i c -> rch t h c) ->
  sat (bfs_enqueue_row A l i) (fun l' => Loc t h l' px hd k /\ b_head l' = b_head l /\ b_k l' = b_k l /\
    b_tail l <= b_tail l' /\ (forall x, 0 <= x < b_tail l -> get (b_q l') x = get (b_q l) x) /\
    (forall c, get (b_w l) c = -1 -> get (b_w l') c = -1) /\ (forall c, stored A i c -> get (b_w l') c = -1)).
Proof.
  intros Ht Hpx L Hi Hr. unfold bfs_enqueue_row. pose proof (wf_row A HA i Hi) as Hrow. pose proof (wf_len A HA). pose proof (wf_nnz A HA).
  apply sat_bind, sat_aget; [lia|]. apply sat_bind, sat_aget; [lia|]. fold (rbeg A i) (rend A i).
  eapply sat_mono; [apply (for_spec (fun py l' => Loc t h l' px hd k /\ b_head l' = b_head l /\ b_k l' = b_k l /\
    b_tail l <= b_tail l' /\ (forall x, 0 <= x < b_tail l -> get (b_q l') x = get (b_q l) x) /\
    (forall c, get (b_w l) c = -1 -> get (b_w l') c = -1) /\ (forall pz, rbeg A i <= pz < py -> get (b_w l') (col pz) = -1))
    (fun px l0 => j <- aget (cj A) px ;; wj <- aget (b_w l0) j ;; if 0 <=? wj then bfs_enqueue l0 j else Ok l0)
    (rbeg A i) (rend A i) l (fun l' => Loc t h l' px hd k /\ b_head l' = b_head l /\ b_k l' = b_k l /\
    b_tail l <= b_tail l' /\ (forall x, 0 <= x < b_tail l -> get (b_q l') x = get (b_q l) x) /\
    (forall c, get (b_w l) c = -1 -> get (b_w l') c = -1) /\ (forall pz, rbeg A i <= pz < rend A i -> get (b_w l') (col pz) = -1)))|].
  - lia.
  - split; auto. split; auto. split; auto. split; [lia|]. split; auto. split; auto. intros; lia.
  - intros py l1 Hpy (L1 & E1 & E2 & E3 & E4 & E5 & E6). pose proof (wf_col A HA py ltac:(lia)) as Hcol. fold m in Hcol.
    pose proof (L_w _ _ _ _ _ _ L1) as Hlw.
    apply sat_bind, sat_aget; [lia|]. fold (col py). fold (col py) in Hcol. apply sat_bind, sat_aget; [lia|].
    pose proof (L_val _ _ _ _ _ _ L1 (col py) Hcol) as Hv. pose proof (L_ht _ _ _ _ _ _ L) as Hht.
    destruct (Z.leb_spec 0 (get (b_w l1) (col py))) as [Hge|Hlt].
    + destruct (enqueue_ok t h l1 px hd k (col py) Ht Hpx L1 Hcol ltac:(lia) ltac:(apply Hr; exists py; auto)) as (l2 & -> & L2 & W2 & Q2 & T2 & H2 & K2). cbn [sat].
      split; auto. split; [congruence|]. split; [congruence|]. split; [lia|]. split; [|split].
      * intros x Hx. rewrite Q2, get_upd_ne by lia. auto.
      * intros c Hc. rewrite W2, get_upd_in by lia. destruct (_ =? _); auto.
      * intros pz Hpz. rewrite W2, get_upd_in by lia. destruct (Z.eqb_spec (col py) (col pz)) as [|Hne]; auto.
        apply E6. assert (pz <> py) by congruence. lia.
    + cbn [sat]. split; auto. split; auto. split; auto. split; auto. split; auto. split; auto.
      intros pz Hpz. destruct (Z.eq_dec pz py) as [->|]; [lia|]. apply E6. lia.
  - auto.
  - cbv beta. intros l' (L1 & E1 & E2 & E3 & E4 & E5 & E6). repeat (split; auto). intros c (pz & Hpz & <-). apply E6. auto.
Qed.

(* changing the scope *)
Lemma Loc_clo t h l px hd k : Loc t h l px hd k -> hd < b_tail l ->
  (piv h k (get (b_q l) hd) -> forall c, stored A (get (g_qinv h) (get (b_q l) hd)) c -> get (b_w l) c = -1) ->
  Loc t h l px (hd + 1) k.
Proof.
  intros [L1 L2 L3 L4 L5 L6 L7 L8 L9 L10 L11 L12 L13] Hh HC. constructor; auto; try lia.
  intros x Hx. destruct (Z.eq_dec x hd) as [->|]; auto. apply L12. lia.
Qed.
Lemma piv_S h k c : 0 <= k -> piv h (k + 1) c -> piv h k c \/ c = get (g_log h) k.
Proof.
  intros Hk [H|(l & Hl & E)]; [left; now left|]. destruct (Z.eq_dec l k) as [->|]; auto. left. right. exists l. split; auto. lia.
Qed.
Lemma Loc_S t h l px hd k : Loc t h l px hd k -> k < g_npiv h ->
  (forall py, rbeg A t <= py < px -> col py = get (g_log h) k -> get (b_w l) (col py) = -1) ->
  (forall x, 0 <= x < hd -> get (b_q l) x = get (g_log h) k -> forall c, stored A (get (g_qinv h) (get (b_q l) x)) c -> get (b_w l) c = -1) ->
  Loc t h l px hd (k + 1).
Proof.
  intros [L1 L2 L3 L4 L5 L6 L7 L8 L9 L10 L11 L12 L13] Hk HR HC. constructor; auto; try lia.
  - intros py Hpy. destruct (L10 py Hpy) as [H1 H2]. split; auto. intros Hp. apply piv_S in Hp; [|lia].
    destruct Hp as [Hp|Hp]; auto.
  - intros x Hx Hp. apply piv_S in Hp; [|lia]. destruct Hp as [Hp|Hp]; [now apply L12|now apply HC].
Qed.
(* forget everything but what is needed to clean up *)
Definition Cln (t : Z) (l : bfs) : Prop :=
  len (b_w l) = m /\ len (b_q l) = m /\ 0 <= b_tail l <= m /\
  (forall x, 0 <= x < b_tail l -> 0 <= get (b_q l) x < m) /\
  (forall c, 0 <= c < m -> get (b_w l) c <> 0 -> stored A t c \/ exists x, 0 <= x < b_tail l /\ get (b_q l) x = c).
Lemma Loc_Cln t h l px hd k : px <= rend A t -> Loc t h l px hd k -> Cln t l.
Proof.
  intros Hpx L. pose proof L as [L1 L2 L3 L4 L5 L6 L7 L8 L9 L10 L11 L12 L13]. split; auto. split; auto. split; [|split].
  - split; [lia|]. destruct (Z_le_gt_dec (b_tail l) m) as [|Hgt]; auto. exfalso.
    assert (H : len (map (get (b_q l)) (zseq 0 (b_tail l))) <= m).
    { apply (pigeon A HA).
      - assert (G : forall s, NoDup s -> (forall x, In x s -> 0 <= x < b_tail l) -> NoDup (map (get (b_q l)) s)).
        { induction s as [|a s IH]; intros HN HI; simpl; constructor; inversion HN; subst.
          - rewrite in_map_iff. intros (x & E & Hx). apply L8 in E; [congruence| |]; apply HI; simpl; auto.
          - apply IH; auto. intros; apply HI; simpl; auto. }
        apply G; [apply NoDup_zseq|]. intros x. apply In_zseq.
      - intros d Hd. apply in_map_iff in Hd. destruct Hd as (x & <- & Hx). apply In_zseq in Hx. apply (L6 x Hx). }
    rewrite len_map, len_zseq in H. lia.
  - intros x Hx. apply L6. auto.
  - intros c Hc Hne. specialize (L5 c Hc). assert (Hcase : get (b_w l) c = 1 \/ get (b_w l) c = -1) by lia.
    destruct Hcase as [E|E].
    + left. destruct (L9 c Hc E) as (py & Hpy & Ep). exists py. split; [lia|auto].
    + right. apply L7; auto.
Qed.
Definition zero (w : list Z) : Prop := len w = m /\ forall c, 0 <= c < m -> get w c = 0.
Lemma clean_ok t l : 0 <= t < n -> Cln t l -> sat (clean A t l) zero.
Proof.
  intros Ht (C1 & C2 & C3 & C4 & C5). unfold clean. pose proof (wf_row A HA t Ht) as Hrow. pose proof (wf_len A HA). pose proof (wf_nnz A HA).
  apply sat_bind, sat_aget; [lia|]. apply sat_bind, sat_aget; [lia|]. fold (rbeg A t) (rend A t).
  apply sat_bind. eapply sat_mono; [now apply (clear_row A HA (b_w l) t)|]. cbv beta. fold m. intros w (W1 & W2 & W3 & _).
  apply (for_spec (fun px w => len w = m /\ forall c, 0 <= c < m -> get w c <> 0 -> exists x, px <= x < b_tail l /\ get (b_q l) x = c)).
  - lia.
  - split; auto. intros c Hc Hne. destruct (W2 c) as [E|E]; [|lia]. destruct (C5 c Hc ltac:(congruence)) as [Hs|Hx]; auto.
    rewrite W3 in Hne; auto. lia.
  - intros px w' Hpx (V1 & V2). specialize (C4 px Hpx). apply sat_bind, sat_aget; [lia|]. apply sat_aset; [lia|]. rewrite len_upd.
    split; auto. intros c Hc. rewrite get_upd_in by lia. destruct (Z.eqb_spec (get (b_q l) px) c); [lia|]. intros Hne.
    destruct (V2 c Hc Hne) as (x & Hx & E). exists x. split; auto. assert (x <> px) by congruence. lia.
  - intros w' (V1 & V2). split; auto. intros c Hc. destruct (Z.eq_dec (get w' c) 0); auto. destruct (V2 c Hc ltac:(auto)) as (x & Hx & _). lia.
Qed.

(** ** Invariant *)
(* progress of the iteration inside the critical section *)
Inductive phase := Idle | Half (i j : Z) | Pend (j : Z) | Logged.
Definition phase_of (t : Z) (p : gpc) : phase :=
  match p with GSet _ j _ => Half t j | GLog _ j _ => Pend j | GInc _ _ => Logged | _ => Idle end.
Definition inCS (p : gpc) : bool :=
  match p with GTest _ _ | GReg _ _ | GSet _ _ _ | GLog _ _ _ | GInc _ _ | GOut _ | GFail _ _ => true | _ => false end.

Record Glob (h : gsh) (ph : phase) : Prop := {
  G_lp : len (g_pinv h) = n;
  G_lq : len (g_qinv h) = m;
  G_ll : len (g_log h) = n;
  G_np : 0 <= g_npiv h;
  G_ac : acyclic A (g_qinv h);
  G_q : forall j, 0 <= j < m -> get (g_qinv h) j = -1 \/ 0 <= get (g_qinv h) j < n /\ get (g_pinv h) (get (g_qinv h) j) = j;
  G_p : forall i, 0 <= i < n -> get (g_pinv h) i = -1 \/ 0 <= get (g_pinv h) i < m /\ stored A i (get (g_pinv h) i) /\
    (get (g_qinv h) (get (g_pinv h) i) = i \/ ph = Half i (get (g_pinv h) i));
  G_cnt : npos (g_qinv h) = npos q0 + g_npiv h + match ph with Pend _ | Logged => 1 | _ => 0 end;
  G_old : forall c, 0 <= c < m -> 0 <= get (g_qinv h) c -> piv h (g_npiv h) c \/
    ph = Pend c \/ ph = Logged /\ get (g_log h) (g_npiv h) = c;
  G_new : forall c, 0 <= c < m -> piv h (g_npiv h) c -> 0 <= get (g_qinv h) c;
  G_log : forall l, 0 <= l < g_npiv h -> 0 <= get (g_log h) l < m;
  G_keep : forall c, 0 <= get q0 c -> get (g_qinv h) c = get q0 c;
  G_ph : match ph with
         | Half i j => 0 <= j < m /\ get (g_qinv h) j = -1 /\ get (g_pinv h) i = j
         | Pend j => 0 <= j < m /\ 0 <= get (g_qinv h) j
         | Logged => 0 <= get (g_log h) (g_npiv h) < m /\ 0 <= get (g_qinv h) (get (g_log h) (g_npiv h))
         | Idle => True end
}.

(* found: j is a candidate *)
Definition Cand (t : Z) (h : gsh) (l : bfs) (j : Z) : Prop :=
  Loc t h l (rend A t) (b_head l) (b_k l) /\ b_head l = b_tail l /\ 0 <= j < m /\ get (b_w l) j = 1 /\ stored A t j.
Definition ok (t : Z) (h : gsh) (p : gpc) : Prop :=
  match p with
  | GStart w q => zero w /\ len q = m
  | GReadN w q => zero w /\ len q = m /\ get (g_pinv h) t = -1
  | GScat px l => get (g_pinv h) t = -1 /\ rbeg A t <= px <= rend A t /\ Loc t h l px 0 (b_k l) /\ b_head l = 0 /\
      forall x, 0 <= x < b_tail l -> exists py, rbeg A t <= py < px /\ col py = get (b_q l) x
  | GBfs l => get (g_pinv h) t = -1 /\ Loc t h l (rend A t) (b_head l) (b_k l)
  | GLock l j | GTest l j => get (g_pinv h) t = -1 /\ Cand t h l j
  | GReg l j => get (g_pinv h) t = -1 /\ Cand t h l j /\ g_npiv h = b_k l
  | GSet l j r => Cand t h l j /\ g_npiv h = b_k l /\ r = 1
  | GLog l j r => (Cln t l /\ 0 <= get (g_pinv h) t) /\ r = 1 /\ 0 <= b_k l <= g_npiv h /\ 0 <= b_head l <= m
  | GInc l r => (Cln t l /\ 0 <= get (g_pinv h) t) /\ r = 1 /\ 0 <= b_k l <= g_npiv h /\ 0 <= b_head l <= m
  | GOut l => (Cln t l /\ 0 <= get (g_pinv h) t) /\ 0 <= b_k l <= g_npiv h /\ 0 <= b_head l <= m
  | GFail l target => get (g_pinv h) t = -1 /\ Loc t h l (rend A t) (b_head l) (b_k l) /\ b_k l < target <= g_npiv h
  | GLearn l target => get (g_pinv h) t = -1 /\ Loc t h l (rend A t) (b_head l) (b_k l) /\ b_k l <= target <= g_npiv h
  | GFin w q => (zero w /\ len q = m) /\ (0 <= get (g_pinv h) t \/ forall c, stored A t c -> rch t h c)
  end.

Definition Inv (h : gsh) (P : Z -> gpc) : Prop :=
  exists ph, Glob h ph /\ (forall t, 0 <= t < n -> ok t h (P t)) /\
    (g_lock h = None -> ph = Idle) /\
    (forall t, 0 <= t < n -> (g_lock h = Some t <-> inCS (P t) = true)) /\
    (forall t, g_lock h = Some t -> 0 <= t < n /\ ph = phase_of t (P t)).

(* what the other iterations rely on *)
Record ext (h h' : gsh) : Prop := {
  E_n : g_npiv h <= g_npiv h';
  E_l : forall l, 0 <= l < g_npiv h -> get (g_log h') l = get (g_log h) l;
  E_q : forall c, 0 <= get (g_qinv h) c -> get (g_qinv h') c = get (g_qinv h) c;
  E_len : len (g_qinv h') = len (g_qinv h)
}.
Lemma ext_refl h : ext h h.
Proof. constructor; auto; lia. Qed.
Lemma ext_path h h' a b : ext h h' -> path A (g_qinv h) a b -> path A (g_qinv h') a b.
Proof. intros X. apply path_ext; [apply (E_len _ _ X)|apply (E_q _ _ X)]. Qed.
Lemma ext_rch t h h' c : ext h h' -> rch t h c -> rch t h' c.
Proof. intros X (d & H1 & H2 & H3). exists d. split; auto. split; [now rewrite (E_q _ _ X)|]. now apply (ext_path h). Qed.
Lemma ext_piv h h' k c : ext h h' -> k <= g_npiv h -> piv h' k c <-> piv h k c.
Proof.
  intros [E1 E2 E3 E4] Hk. unfold piv. split; (intros [H|(l & Hl & H)]; [now left|right; exists l; split; auto]).
  - now rewrite <- E2 by lia.
  - now rewrite E2 by lia.
Qed.
Lemma Loc_ext t h h' ph l px hd k : Glob h ph -> ext h h' -> Loc t h l px hd k -> Loc t h' l px hd k.
Proof.
  intros G X [L1 L2 L3 L4 L5 L6 L7 L8 L9 L10 L11 L12 L13]. constructor; auto.
  - destruct X. lia.
  - intros py Hpy. destruct (L10 py Hpy) as [H1 H2]. split; auto. intros Hp. apply H2. apply (ext_piv h h'); auto. lia.
  - intros x Hx Hp c. apply (ext_piv h h') in Hp; auto; [|lia].
    assert (Hq : 0 <= get (g_qinv h) (get (b_q l) x)).
    { apply (G_new _ _ G); [apply L6; lia|]. destruct Hp as [Hp|(y & Hy & E)]; [now left|right; exists y; split; auto; lia]. }
    rewrite (E_q _ _ X) by auto. apply L12; auto.
  - intros x Hx. apply (ext_rch t h); auto.
Qed.
Lemma ok_ext t h h' ph p : Glob h ph -> ext h h' -> get (g_pinv h') t = get (g_pinv h) t ->
  (inCS p = true -> g_npiv h' = g_npiv h) -> ok t h p -> ok t h' p.
Proof.
  intros G X Ep En. pose proof (E_n _ _ X) as Hn.
  destruct p; cbn [ok inCS] in *; rewrite ?Ep; unfold Cand; auto.
  - intros (H1 & H2 & H3 & H4 & H5). split; auto. split; auto. split; auto. eapply Loc_ext; eauto.
  - intros (H1 & H2). split; auto. eapply Loc_ext; eauto.
  - intros (H1 & H2 & H3). split; auto. split; auto. eapply Loc_ext; eauto.
  - intros (H1 & H2 & H3). split; auto. split; auto. eapply Loc_ext; eauto.
  - intros (H1 & (H2 & H3) & H4). rewrite (En eq_refl). split; auto. split; auto. split; auto. eapply Loc_ext; eauto.
  - intros ((H1 & H2) & H3 & H4). rewrite (En eq_refl). split; auto. split; auto. eapply Loc_ext; eauto.
  - intros (H1 & H2 & H3). rewrite (En eq_refl). auto.
  - intros (H1 & H2 & H3). rewrite (En eq_refl). auto.
  - intros (H1 & H2 & H3). rewrite (En eq_refl). auto.
  - intros (H1 & H2 & H3). split; auto. split; [eapply Loc_ext; eauto|]. lia.
  - intros (H1 & H2 & H3). split; auto. split; [eapply Loc_ext; eauto|]. lia.
  - intros (H1 & [H2|H2]); auto. split; auto. right. intros c Hc. apply (ext_rch t h); auto.
Qed.

(* a step of t changes h into h' and its own program counter into p' *)
Definition updP (P : Z -> gpc) (t : Z) (p : gpc) : Z -> gpc := fun u => if u =? t then p else P u.
Lemma Inv_local t h P p' : 0 <= t < n -> Inv h P -> inCS (P t) = inCS p' -> phase_of t p' = phase_of t (P t) ->
  ok t h p' -> Inv h (updP P t p').
Proof.
  intros Ht (ph & G & HO & H0 & HL & HP) E1 E2 Hok. exists ph. split; auto. unfold updP. split; [|split; auto; split].
  - intros u Hu. destruct (Z.eqb_spec u t) as [->|]; auto.
  - intros u Hu. destruct (Z.eqb_spec u t) as [->|]; auto. rewrite <- E1. auto.
  - intros u Hu. destruct (HP u Hu). split; auto. destruct (Z.eqb_spec u t) as [->|]; auto. congruence.
Qed.
(* the same, inside the critical section: shared data may change *)
Lemma Inv_cs t h h' P p' ph' : 0 <= t < n -> Inv h P -> inCS (P t) = true -> ext h h' -> Glob h' ph' ->
  (forall i, i <> t -> get (g_pinv h') i = get (g_pinv h) i) ->
  (g_lock h' = if inCS p' then Some t else None) -> ph' = phase_of t p' -> (inCS p' = false -> ph' = Idle) ->
  ok t h' p' -> Inv h' (updP P t p').
Proof.
  intros Ht (ph & G & HO & H0 & HL & HP) E1 X G' Hpi Hlk Hph Hid Hok. exists ph'. split; auto.
  assert (Hme : g_lock h = Some t) by now apply HL.
  assert (Hoth : forall u, 0 <= u < n -> u <> t -> inCS (P u) = false).
  { intros u Hu Hne. destruct (inCS (P u)) eqn:E; auto. apply HL in E; auto. congruence. }
  unfold updP. split; [|split; [|split]].
  - intros u Hu. destruct (Z.eqb_spec u t) as [->|Hne]; auto. apply (ok_ext u h h' ph); auto. intros E. rewrite Hoth in E by auto. discriminate.
  - intros E. destruct (inCS p'); [congruence|auto].
  - intros u Hu. destruct (Z.eqb_spec u t) as [->|Hne].
    + rewrite Hlk. destruct (inCS p'); split; congruence.
    + rewrite Hoth, Hlk by auto. destruct (inCS p'); split; congruence.
  - intros u Hu. rewrite Hlk in Hu. destruct (inCS p'); [|easy]. injection Hu as <-. split; auto. now rewrite Z.eqb_refl.
Qed.

(** ** Steps *)
Definition base_todo (l : bfs) : Z := 2 * (m - b_head l) + 8 * (n - b_k l).
Definition todo (t : Z) (p : gpc) : Z :=
  match p with
  | GStart _ _ => 13 + (rend A t - rbeg A t) + 2 * m + 8 * n
  | GReadN _ _ => 12 + (rend A t - rbeg A t) + 2 * m + 8 * n
  | GScat px l => 11 + (rend A t - px) + base_todo l
  | GBfs l => 10 + base_todo l
  | GLock l _ => 9 + base_todo l
  | GTest l _ => 8 + base_todo l
  | GReg l _ => 7 + base_todo l
  | GSet l _ _ => 6 + base_todo l
  | GLog l _ _ => 5 + base_todo l
  | GInc l _ => 4 + base_todo l
  | GOut l => 3 + base_todo l
  | GFail l _ => 7 + base_todo l
  | GLearn l target => 11 + 2 * (m - b_head l) + 8 * (n - target) + (target - b_k l)
  | GFin _ _ => 0
  end.
Lemma npos_inj qinv pinv : len qinv = m ->
  (forall j, 0 <= j < m -> get qinv j = -1 \/ 0 <= get qinv j < n /\ get pinv (get qinv j) = j) -> npos qinv <= n.
Proof.
  intros Hl HQ. unfold npos. rewrite Hl. pose proof (wf_n A HA) as Hn.
  apply Z.le_trans with (sum 0 m (fun j => sum 0 n (fun i => if get qinv j =? i then 1 else 0))).
  { apply Z.eq_le_incl, sum_ext. intros j Hj. destruct (HQ j Hj) as [->|[H1 H2]].
    - replace (0 <=? -1) with false by lia. symmetry. apply sum_zero. intros i Hi. destruct (Z.eqb_spec (-1) i); lia.
    - replace (0 <=? get qinv j) with true by lia. rewrite (sum_ext _ _ _ (fun i => if i =? get qinv j then 1 else 0)).
      + rewrite sum_delta. now replace ((0 <=? get qinv j) && (get qinv j <? n)) with true by lia.
      + intros. now rewrite Z.eqb_sym. }
  rewrite sum_swap. replace n with (sum 0 n (fun _ => 1)) at 2 by (rewrite sum_const; lia).
  apply sum_le. intros i Hi.
  apply Z.le_trans with (sum 0 m (fun j => if j =? get pinv i then 1 else 0)).
  - apply sum_le. intros j Hj. destruct (Z.eqb_spec (get qinv j) i) as [E|]; [|destruct (_ =? _); lia].
    destruct (HQ j Hj) as [|[_ H]]; [lia|]. rewrite E in H. rewrite H, Z.eqb_refl. lia.
  - rewrite sum_delta. destruct (_ && _); lia.
Qed.
Lemma npiv_le h ph : Glob h ph -> g_npiv h + match ph with Pend _ | Logged => 1 | _ => 0 end <= n.
Proof.
  intros G. pose proof (npos_inj (g_qinv h) (g_pinv h) (G_lq _ _ G) (G_q _ _ G)) as H.
  pose proof (G_cnt _ _ G) as H2. pose proof (npos_nonneg q0). lia.
Qed.
Lemma Loc_base t h ph l px hd : Glob h ph -> px <= rend A t -> Loc t h l px hd (b_k l) -> 0 <= hd <= m /\ 0 <= b_k l <= n.
Proof.
  intros G Hpx L. pose proof (L_k _ _ _ _ _ _ L). pose proof (L_ht _ _ _ _ _ _ L).
  destruct (Loc_Cln _ _ _ _ _ _ Hpx L) as (_ & _ & H1 & _). pose proof (npiv_le h ph G). destruct ph; lia.
Qed.
Lemma todo_nonneg t h ph p : 0 <= t < n -> Glob h ph -> ok t h p -> 0 <= todo t p.
Proof.
  intros Ht G. pose proof (wf_row A HA t Ht) as Hrow. pose proof (wf_n A HA). pose proof (wf_m A HA).
  pose proof (npiv_le h ph G) as Hnp. assert (Hnp' : g_npiv h <= n) by (destruct ph; lia).
  destruct p; cbn [ok todo]; unfold base_todo, Cand; try lia.
  - intros (_ & H1 & H2 & H3 & _). apply (Loc_base _ _ ph) in H2; auto; lia.
  - intros (_ & H2). apply (Loc_base _ _ ph) in H2; auto; lia.
  - intros (_ & H2 & _). apply (Loc_base _ _ ph) in H2; auto; lia.
  - intros (_ & H2 & _). apply (Loc_base _ _ ph) in H2; auto; lia.
  - intros (_ & (H2 & _) & _). apply (Loc_base _ _ ph) in H2; auto; lia.
  - intros ((H2 & _) & _). apply (Loc_base _ _ ph) in H2; auto; lia.
  - intros (_ & H2 & H3). apply (Loc_base _ _ ph) in H2; auto; lia.
  - intros (_ & H2 & H3). apply (Loc_base _ _ ph) in H2; auto; lia.
Qed.

(* the candidate does not close a cycle *)
Lemma cand_acyclic t h l j : 0 <= t < n -> Glob h (Half t j) -> Cand t h l j -> g_npiv h = b_k l ->
  forall c, stored A t c -> c <> j -> ~ path A (g_qinv h) c j.
Proof.
  intros Ht G (L & Ehd & Hj & Hwj & Hsj) En c Hs Hne Hp. pose proof (wf_row A HA t Ht) as Hrow.
  assert (Hold : forall b, 0 <= b < m -> 0 <= get (g_qinv h) b -> piv h (b_k l) b).
  { intros b Hb Hq. destruct (G_old _ _ G b Hb Hq) as [H|[H|[H _]]]; [|discriminate|discriminate]. congruence. }
  destruct Hs as (py & Hpy & <-). fold (col py) in *.
  assert (Hcol : 0 <= col py < m) by (apply (wf_col A HA); lia).
  destruct (L_row _ _ _ _ _ _ L py Hpy) as [H0 H1]. pose proof (L_val _ _ _ _ _ _ L (col py) Hcol) as Hv.
  assert (Hcase : get (b_w l) (col py) = 1 \/ get (b_w l) (col py) = -1) by lia. destruct Hcase as [E|E].
  - apply path_free in Hp; [congruence|]. destruct (Z_lt_le_dec (get (g_qinv h) (col py)) 0) as [|Hge]; auto.
    apply Hold in Hge; auto. apply H1 in Hge. lia.
  - assert (HW : forall a b, path A (g_qinv h) a b -> 0 <= a < m -> get (b_w l) a = -1 -> 0 <= b < m /\ get (b_w l) b = -1).
    { intros a b HP. induction HP as [a|a b d HP IH He]; auto. intros Ha Hwa. destruct (IH Ha Hwa) as [Hb Hwb].
      split. { eapply (edge_range A HA); eauto. split; [exact (G_lq _ _ G)|].
        intros x Hx. destruct (G_q _ _ G x Hx) as [->|[? _]]; fold n; [|lia]. pose proof (wf_n A HA). lia. }
      destruct He as (_ & Hq & Hsd). destruct (L_m1 _ _ _ _ _ _ L b Hb Hwb) as (x & Hx & Ex).
      apply (L_clo _ _ _ _ _ _ L x); [lia| |]; rewrite Ex; auto. }
    destruct (HW _ _ Hp Hcol E) as [_ HH]. lia.
Qed.

Lemma gstep_ok t h P : 0 <= t < n -> Inv h P ->
  sat (gstep A t (P t) h) (fun o => match o with
    | None => (exists l j u, P t = GLock l j /\ g_lock h = Some u) \/ exists w q, P t = GFin w q
    | Some (p', h') => Inv h' (updP P t p') /\ todo t p' < todo t (P t) end).
Proof.
  intros Ht HI. pose proof HI as (ph & G & HO & H0 & HL & HP). specialize (HO t Ht). pose proof (HL t Ht) as HLt.
  pose proof (wf_row A HA t Ht) as Hrow. pose proof (wf_len A HA) as Hlp. pose proof (wf_nnz A HA) as Hnz.
  pose proof (wf_n A HA) as Hn. pose proof (wf_m A HA) as Hm.
  pose proof (G_lp _ _ G) as Glp. pose proof (G_lq _ _ G) as Glq. pose proof (G_ll _ _ G) as Gll.
  pose proof (G_np _ _ G) as Hnp0.
  assert (Hnp : g_npiv h <= n) by (pose proof (npiv_le h ph G); destruct ph; lia).
  assert (HC : inCS (P t) = true -> g_lock h = Some t /\ ph = phase_of t (P t)).
  { intros E. apply HLt in E. split; auto. apply HP. auto. }
  destruct h as [lock npiv pinv qinv log]. cbn [g_lock g_npiv g_pinv g_qinv g_log] in *.
  set (h := Gsh lock npiv pinv qinv log) in *.
  destruct (P t) as [w q|w q|px l|l|l j|l j|l j|l j r|l j r|l r|l|l target|l target|w q] eqn:EP; cbn [ok inCS phase_of] in *; subst h; cbn [gstep g_lock g_npiv g_pinv g_qinv g_log] in *; set (h := Gsh lock npiv pinv qinv log) in *.
  - (* GStart *)
    destruct HO as [O1 O2]. apply sat_bind, sat_aget; [lia|]. cbn [sat]. destruct (Z.leb_spec 0 (get pinv t)) as [Hge|Hlt].
    + split; [|cbn [todo]; lia]. apply Inv_local; auto; rewrite ?EP; auto. split; auto.
    + split; [|cbn [todo]; lia]. apply Inv_local; auto; rewrite ?EP; auto. cbn. split; auto. split; auto.
      destruct (G_p _ _ G t Ht) as [|[? _]]; auto. cbn in *. lia.
  - (* GReadN *)
    destruct HO as (O1 & O2 & O3). apply sat_bind, sat_aget; [lia|]. cbn [sat]. fold (rbeg A t).
    split; [|cbn [todo]; unfold base_todo; cbn [b_head b_k]; lia].
    apply Inv_local; auto; rewrite ?EP; auto. cbn [ok b_k b_head b_tail]. split; auto. split; [lia|]. destruct O1 as [O1 O1'].
    split; [|split; auto; intros; lia].
    constructor; cbn [b_w b_q b_tail b_surv]; auto; try (intros; lia).
    + cbn [g_npiv h]. lia.
    + intros c Hc. rewrite O1' by auto. lia.
    + intros c Hc. rewrite O1' by auto. lia.
    + intros c Hc. rewrite O1' by auto. lia.
    + now rewrite sum_empty by lia.
  - (* GScat *)
    destruct HO as (O1 & O2 & O3 & O4 & O5). apply sat_bind, sat_aget; [lia|]. fold (rend A t).
    destruct (Z.ltb_spec px (rend A t)) as [Hlt|Hge].
    + pose proof (wf_col A HA px ltac:(lia)) as Hcol. apply sat_bind, sat_aget; [lia|]. fold (col px). fold (col px) in Hcol. fold m in Hcol.
      apply sat_bind, sat_aget; [lia|].
      assert (Hw0 : get (b_w l) (col px) = 0).
      { pose proof (L_val _ _ _ _ _ _ O3 (col px) Hcol) as Hv.
        assert (Hfr : forall py, rbeg A t <= py < px -> col py <> col px).
        { intros py Hpy E. apply (HD t) in E; auto; lia. }
        assert (Hc : get (b_w l) (col px) = 1 \/ get (b_w l) (col px) = -1 \/ get (b_w l) (col px) = 0) by lia.
        destruct Hc as [E|[E|]]; auto; exfalso.
        - destruct (L_1 _ _ _ _ _ _ O3 _ Hcol E) as (py & Hpy & E2). now apply (Hfr py).
        - destruct (L_m1 _ _ _ _ _ _ O3 _ Hcol E) as (x & Hx & E2). destruct (O5 x Hx) as (py & Hpy & E3). apply (Hfr py); congruence. }
      destruct (Z.ltb_spec (get qinv (col px)) 0) as [Hq|Hq].
      * destruct O3 as [L1 L2 L3 L4 L5 L6 L7 L8 L9 L10 L11 L12 L13].
        apply sat_bind, sat_bind, sat_aset; [lia|]. cbn [sat].
        assert (HW : forall d, get (upd (b_w l) (col px) 1) d = if col px =? d then 1 else get (b_w l) d) by (intros; apply get_upd_in; lia).
        split; [|cbn [todo]; unfold base_todo; cbn [b_head b_k]; lia]. apply Inv_local; auto; rewrite ?EP; auto.
        cbn [ok b_k b_head b_tail b_q]. split; auto. split; [lia|]. split; [|split; auto; intros x Hx; destruct (O5 x Hx) as (py & Hpy & E); exists py; split; auto; lia].
        constructor; cbn [b_w b_q b_tail b_surv]; rewrite ?len_upd; auto; try (intros; lia).
        -- intros d Hd. rewrite HW. destruct (_ =? _); [lia|auto].
        -- intros x Hx. destruct (L6 x Hx) as [H1 H2]. split; auto. rewrite HW. destruct (Z.eqb_spec (col px) (get (b_q l) x)) as [E|]; auto.
           rewrite <- E in H2. lia.
        -- intros d Hd. rewrite HW. destruct (_ =? _); [lia|auto].
        -- intros d Hd. rewrite HW. destruct (Z.eqb_spec (col px) d) as [E|].
           ++ intros _. exists px. split; [lia|auto].
           ++ intros E. destruct (L9 d Hd E) as (py & Hpy & E2). exists py. split; [lia|auto].
        -- intros py Hpy. rewrite HW. destruct (Z.eq_dec py px) as [->|Hne].
           ++ rewrite Z.eqb_refl. split; [lia|]. intros Hpv. exfalso.
              assert (piv h npiv (col px)). { destruct Hpv as [Hpv|(y & Hy & E)]; [now left|right; exists y; split; auto; cbn in L3; lia]. }
              apply (G_new _ _ G) in H; auto. cbn in H. lia.
           ++ destruct (L10 py ltac:(lia)) as [H1 H2]. destruct (Z.eqb_spec (col px) (col py)) as [E|]; auto.
              exfalso. apply Hne. apply (HD t); auto; try lia.
        -- rewrite sum_S by lia. rewrite HW, Z.eqb_refl. cbn [Z.eqb Pos.eqb]. f_equal. rewrite L11. apply sum_ext. intros py Hpy.
           rewrite HW. destruct (Z.eqb_spec (col px) (col py)) as [E|]; auto.
           apply (HD t) in E; auto; lia.
      * destruct (enqueue_ok t h l px 0 (b_k l) (col px) Ht ltac:(lia) O3 Hcol ltac:(lia) ltac:(exists (col px); split; [exists px; split; [lia|reflexivity]|split; [exact Hq|constructor]])) as (l2 & -> & L2 & W2 & Q2 & T2 & H2 & K2).
        cbn [bind sat]. split; [|cbn [todo]; unfold base_todo; rewrite H2, K2; lia]. apply Inv_local; auto; rewrite ?EP; auto.
        cbn [ok]. split; auto. split; [lia|]. rewrite K2. pose proof (L_ht _ _ _ _ _ _ O3) as Hht. split; [|split; [lia|]].
        -- pose proof (L_w _ _ _ _ _ _ O3) as Hlw.
           assert (Hwp : get (b_w l2) (col px) = -1) by (rewrite W2, get_upd_eq by lia; auto).
           destruct L2 as [M1 M2 M3 M4 M5 M6 M7 M8 M9 M10 M11 M12 M13]. constructor; auto; try lia.
           ++ intros d Hd E. destruct (M9 d Hd E) as (py & Hpy & E2). exists py. split; [lia|auto].
           ++ intros py Hpy. destruct (Z.eq_dec py px) as [->|]; [|apply M10; lia]. split; [lia|auto].
           ++ rewrite sum_S by lia. rewrite Hwp. cbn [Z.eqb]. lia.
        -- intros x Hx. rewrite Q2. pose proof (L_q _ _ _ _ _ _ O3) as Hlq.
           pose proof (tail_room _ _ _ _ _ _ (col px) O3 Hcol ltac:(lia)) as Htr. rewrite get_upd_in by lia.
           destruct (Z.eqb_spec (b_tail l) x).
           ++ exists px. split; [lia|auto].
           ++ destruct (O5 x ltac:(lia)) as (py & Hpy & E). exists py. split; [lia|auto].
    + cbn [sat]. assert (px = rend A t) by lia. subst px.
      split; [|cbn [todo]; lia]. apply Inv_local; auto; rewrite ?EP; auto. cbn [ok]. rewrite O4. auto.
  - (* GBfs *)
    destruct HO as (O1 & L). pose proof (Loc_base _ _ ph _ _ _ G (Z.le_refl _) L) as Hb.
    pose proof (L_ht _ _ _ _ _ _ L) as Hht. pose proof (Loc_Cln _ _ _ _ _ _ (Z.le_refl _) L) as HCl.
    pose proof HCl as (C1 & C2 & C3 & C4 & C5).
    destruct ((b_head l <? b_tail l) && (0 <? b_surv l)) eqn:EC.
    + destruct (L_in _ _ _ _ _ _ L (b_head l) ltac:(lia)) as [Hqr Hqw].
      apply sat_bind, sat_aget; [lia|]. set (j := get (b_q l) (b_head l)) in *. apply sat_bind, sat_aget; [lia|].
      set (l1 := Bfs (b_w l) (b_q l) (b_surv l) (b_head l + 1) (b_tail l) (b_k l)).
      assert (L1 : Loc t h l1 (rend A t) (b_head l) (b_k l)) by (destruct L; constructor; auto).
      destruct (Z.eqb_spec (get qinv j) (-1)) as [E|E].
      * cbn [sat]. split; [|cbn [todo]; unfold base_todo, l1; cbn [b_head b_k]; lia]. apply Inv_local; auto; rewrite ?EP; auto.
        cbn [ok]. split; auto. cbn [l1 b_head b_k]. apply Loc_clo; auto; [cbn; lia|]. intros Hpv. exfalso.
        assert (piv h npiv j). { pose proof (L_k _ _ _ _ _ _ L) as Lk. cbn in Lk. cbn [l1 b_q] in Hpv. fold j in Hpv. destruct Hpv as [Hpv|(y & Hy & E2)]; [now left|right; exists y; split; auto; lia]. }
        apply (G_new _ _ G) in H; auto. cbn in H. lia.
      * destruct (G_q _ _ G j Hqr) as [|[HI1 HI2]]; [cbn in *; lia|]. cbn [g_qinv h] in HI1.
        assert (Hr : forall c, stored A (get qinv j) c -> rch t h c).
        { intros c Hc. destruct (L_rch _ _ _ _ _ _ L (b_head l) ltac:(lia)) as (d & D1 & D2 & D3). exists d. split; auto. split; auto.
          econstructor; [exact D3|]. fold j. split; [cbn; lia|]. split; [cbn; lia|exact Hc]. }
        apply sat_bind. eapply sat_mono; [apply (enqueue_row_ok t h l1 (rend A t) (b_head l) (b_k l) (get qinv j)); auto; lia|].
        cbv beta. intros l2 (L2 & E1 & E2 & E3 & E4 & E5 & E6). cbn [l1 b_head b_k b_tail b_q] in *.
        cbn [sat]. split; [|cbn [todo]; unfold base_todo; rewrite E1, E2; lia]. apply Inv_local; auto; rewrite ?EP; auto.
        cbn [ok]. split; auto. rewrite E1, E2. apply Loc_clo; auto; [lia|]. rewrite E4 by lia. fold j. intros _ c Hc. apply E6. exact Hc.
    + destruct (Z.eqb_spec (b_surv l) 0) as [Es|Es].
      * apply sat_bind. eapply sat_mono; [now apply clean_ok|]. cbv beta. intros w Hw. cbn [sat].
        split; [|cbn [todo]; unfold base_todo; lia]. apply Inv_local; auto; rewrite ?EP; auto. cbn [ok]. split; auto. right.
        intros c (py & Hpy & Ec). fold (col py) in Ec. pose proof (wf_col A HA py ltac:(lia)) as Hcol. fold (col py) in Hcol. fold m in Hcol. rewrite Ec in Hcol.
        destruct (L_row _ _ _ _ _ _ L py Hpy) as [R1 _]. rewrite Ec in R1. pose proof (L_val _ _ _ _ _ _ L c Hcol) as Hv.
        destruct (Z.eq_dec (get (b_w l) c) 1) as [E1|E1].
        -- exfalso. rewrite (L_surv _ _ _ _ _ _ L) in Es.
           rewrite (sum_pick _ _ _ py) in Es by auto. cbv beta in Es. rewrite Ec, E1 in Es. cbn [Z.eqb Pos.eqb] in Es.
           enough (0 <= sum (rbeg A t) (rend A t) (fun i => if i =? py then 0 else if get (b_w l) (col i) =? 1 then 1 else 0)) by lia.
           apply sum_nonneg. intros y _. destruct (y =? py); [lia|]. destruct (_ =? 1); lia.
        -- destruct (L_m1 _ _ _ _ _ _ L c Hcol ltac:(lia)) as (x & Hx & <-). now apply (L_rch _ _ _ _ _ _ L).
      * pose proof (L_surv _ _ _ _ _ _ L) as Hsv.
        assert (Hsp : 0 < b_surv l).
        { assert (0 <= b_surv l); [|lia]. rewrite Hsv. apply sum_nonneg. intros y _. destruct (_ =? _); lia. }
        assert (Hhd : b_head l = b_tail l) by lia.
        rewrite Hsv in Hsp. apply sum_pos_exists in Hsp. destruct Hsp as (pz & Hpz & Hpz1).
        assert (Hwz : get (b_w l) (col pz) = 1) by (destruct (Z.eqb_spec (get (b_w l) (col pz)) 1); lia).
        unfold locate. apply sat_bind. apply sat_bind, sat_aget; [lia|]. apply sat_bind, sat_aget; [lia|]. fold (rbeg A t) (rend A t).
        apply sat_bind. eapply sat_mono; [apply (forb_spec (fun px (_ : Z) => px <= pz) (fun o : Z + Z => match o with inl _ => False | inr j =>
           0 <= j < m /\ get (b_w l) j = 1 /\ stored A t j end))|].
        -- lia.
        -- lia.
        -- intros px j0 Hpx Hle. pose proof (wf_col A HA px ltac:(lia)) as Hcol. apply sat_bind, sat_aget; [lia|].
           fold (col px). fold (col px) in Hcol. fold m in Hcol. apply sat_bind, sat_aget; [lia|].
           destruct (Z.eqb_spec (get (b_w l) (col px)) 1) as [E1|E1]; cbn [sat].
           ++ split; auto. split; auto. exists px. auto.
           ++ assert (px <> pz) by congruence. lia.
        -- intros; lia.
        -- cbv beta. intros [j|j]; [easy|]. intros (J1 & J2 & J3). apply sat_bind, sat_assert; [lia|]. cbn [sat].
           split; [|cbn [todo]; lia]. apply Inv_local; auto; rewrite ?EP; auto. cbn [ok]. split; auto. split; auto.
  - (* GLock *)
    destruct lock as [u|] eqn:El; cbn [sat]. { left. exists l, j, u. auto. }
    split; [|cbn [todo]; lia].
    exists ph. split; [destruct G; constructor; auto|]. unfold updP. split; [|split; [|split]]; cbn [g_lock].
    + intros u Hu. destruct HI as (_ & _ & HO2 & _). destruct (Z.eqb_spec u t) as [->|Hne].
      * destruct HO as (O1 & L & O2). cbn. split; auto. split; auto. apply (Loc_ext t h _ ph); auto. constructor; auto; cbn; lia.
      * specialize (HO2 u Hu). apply (ok_ext u h _ ph); auto. constructor; auto; cbn; lia.
    + discriminate.
    + intros u Hu. destruct (Z.eqb_spec u t) as [->|Hne]; [cbn; tauto|]. rewrite <- (HL u Hu). split; congruence.
    + intros u Hu. injection Hu as <-. split; auto. rewrite Z.eqb_refl. cbn. auto.
  - (* GTest *)
    destruct (HC eq_refl) as [Elk Eph]. destruct HO as (O1 & O2). cbn [sat]. destruct (Z.eqb_spec npiv (b_k l)) as [E|E].
    + split; [|cbn [todo]; lia]. apply Inv_local; auto; rewrite ?EP; auto. cbn [ok]. auto.
    + split; [|cbn [todo]; lia]. apply Inv_local; auto; rewrite ?EP; auto. cbn [ok]. split; auto. destruct O2 as (L & _). split; auto.
      pose proof (L_k _ _ _ _ _ _ L) as Lk. cbn in *. lia.
  - (* GReg *)
    destruct (HC eq_refl) as [Elk Eph]. destruct HO as (O1 & O2 & O3). pose proof O2 as (L & O4 & O5 & O6 & O7).
    assert (Hqj : get qinv j = -1).
    { destruct (G_q _ _ G j O5) as [|[Hq _]]; auto. exfalso. cbn in Hq.
      destruct (G_old _ _ G j O5) as [Hpv|[H|[H _]]]; [cbn; lia| |congruence|congruence]. cbn [g_npiv h] in Hpv. rewrite O3 in Hpv.
      destruct O7 as (py & Hpy & <-). apply (L_row _ _ _ _ _ _ L py Hpy) in Hpv. unfold col in Hpv. lia. }
    rewrite register_pivot1_new by (auto; lia). cbn [bind sat]. split; [|cbn [todo]; lia].
    set (h' := Gsh lock npiv (upd pinv t j) qinv log).
    assert (X : ext h h') by (constructor; auto; cbn; lia).
    apply (Inv_cs t h h' P (GSet l j 1) (Half t j)); auto; rewrite ?EP; auto.
    + subst ph. destruct G as [g1 g2 g3 g4 g5 g6 g7 g8 g9 g10 g11 g12 g13]. constructor; auto.
      * cbn. now rewrite len_upd.
      * intros c Hc. destruct (g6 c Hc) as [|[Q1 Q2]]; auto. right. cbn in *. split; auto. rewrite get_upd_in by lia.
        destruct (Z.eqb_spec t (get qinv c)) as [E|]; auto. rewrite <- E in Q2. lia.
      * intros i Hi. cbn. rewrite get_upd_in by lia. destruct (Z.eqb_spec t i) as [->|Hne]; auto.
        destruct (g7 i Hi) as [|(P1 & P2 & [P3|P3])]; auto. congruence.
      * intros c Hc Hq. destruct (g9 c Hc Hq) as [|[|[]]]; auto; congruence.
      * cbn. split; auto. split; auto. now rewrite get_upd_eq by lia.
    + intros i Hi. cbn. now rewrite get_upd_ne by auto.
    + discriminate.
    + cbn [ok]. split; auto. unfold Cand. split; auto. apply (Loc_ext t h h' ph); auto.
  - (* GSet *)
    destruct (HC eq_refl) as [Elk Eph]. destruct HO as (O1 & O2 & O3). pose proof O1 as (L & O4 & O5 & O6 & O7).
    apply sat_bind, sat_aset; [lia|]. cbn [sat]. split; [|cbn [todo]; lia].
    set (h' := Gsh lock npiv pinv (upd qinv j t) log). subst ph.
    assert (Hqj : get qinv j = -1) by apply (G_ph _ _ G).
    assert (HU : forall c, get (upd qinv j t) c = if j =? c then t else get qinv c) by (intros; apply get_upd_in; lia).
    assert (X : ext h h').
    { constructor; auto; cbn; try lia; [|apply len_upd]. intros c Hc. rewrite HU. destruct (Z.eqb_spec j c) as [->|]; auto. lia. }
    assert (Hin : Cln t l /\ 0 <= b_k l <= npiv /\ 0 <= b_head l <= m).
    { split; [exact (Loc_Cln _ _ _ _ _ _ (Z.le_refl _) L)|]. split; [apply (L_k _ _ _ _ _ _ L)|].
      pose proof (Loc_base _ _ _ _ _ _ G (Z.le_refl _) L). lia. }
    apply (Inv_cs t h h' P (GLog l j r) (Pend j)); auto; rewrite ?EP; auto.
    + pose proof (cand_acyclic t h l j Ht G O1 O2) as Hcy.
      destruct G as [g1 g2 g3 g4 g5 g6 g7 g8 g9 g10 g11 g12 g13]. cbn in g13. constructor; auto; cbn [g_pinv g_qinv g_npiv g_log h'].
      * now rewrite len_upd.
      * apply acyclic_add; auto; try lia.
      * intros c Hc. rewrite HU. destruct (Z.eqb_spec j c) as [->|]; auto. right. split; auto. apply g13.
      * intros i Hi. destruct (g7 i Hi) as [|(P1 & P2 & P3)]; auto. right. cbn in *. split; auto. split; auto. left. rewrite HU.
        destruct P3 as [P3|P3].
        -- destruct (Z.eqb_spec j (get pinv i)) as [E|]; auto. rewrite <- E in P3. lia.
        -- injection P3 as <- <-. now rewrite Z.eqb_refl.
      * rewrite npos_upd by lia. cbn in g8. rewrite g8, Hqj. replace (0 <=? t) with true by lia. cbn. lia.
      * intros c Hc. rewrite HU. destruct (Z.eqb_spec j c) as [->|]; auto. intros Hq.
        destruct (g9 c Hc Hq) as [|[|[]]]; auto; congruence.
      * intros c Hc Hpv. apply g10 in Hpv; auto. cbn in Hpv. rewrite HU. destruct (_ =? _); lia.
      * intros c Hc. rewrite HU. destruct (Z.eqb_spec j c) as [<-|]; [|now apply g12]. apply g12 in Hc as E. cbn in E. lia.
      * split; auto. rewrite HU, Z.eqb_refl. lia.
    + discriminate.
    + cbn [ok]. cbn. assert (get pinv t = j) by apply (G_ph _ _ G). split; [split; [apply Hin|lia]|tauto].
  - (* GLog *)
    destruct (HC eq_refl) as [Elk Eph]. destruct HO as (O1 & O2 & O3). subst ph.
    pose proof (npiv_le h _ G) as Hle. pose proof (G_np _ _ G) as Hn0. cbn in Hle, Hn0.
    apply sat_bind, sat_aset; [lia|]. cbn [sat]. split; [|cbn [todo]; lia].
    set (h' := Gsh lock npiv pinv qinv (upd log npiv j)).
    assert (X : ext h h').
    { constructor; auto; cbn; try lia. intros c Hc. rewrite get_upd_ne by lia. reflexivity. }
    assert (Hpv : forall c, piv h' npiv c <-> piv h npiv c) by (intros; apply ext_piv; auto; cbn; lia).
    apply (Inv_cs t h h' P (GInc l r) Logged); auto; rewrite ?EP; auto.
    + destruct G as [g1 g2 g3 g4 g5 g6 g7 g8 g9 g10 g11 g12 g13]. cbn in g13. constructor; auto; cbn [g_pinv g_qinv g_npiv g_log h'].
      * now rewrite len_upd.
      * intros i Hi. destruct (g7 i Hi) as [|(P1 & P2 & [P3|P3])]; [auto|auto|congruence].
      * intros c Hc Hq. destruct (g9 c Hc Hq) as [H|[H|[H _]]]; [left; now apply Hpv| |congruence]. right. right. split; auto.
        injection H as <-. now rewrite get_upd_eq by lia.
      * intros c Hc H. apply g10; auto. now apply Hpv.
      * intros y Hy. rewrite get_upd_ne by lia. apply g11. auto.
      * rewrite get_upd_eq by lia. exact g13.
    + discriminate.
    + cbn [ok]. cbn. tauto.
  - (* GInc *)
    destruct (HC eq_refl) as [Elk Eph]. destruct HO as (O1 & O2 & O3). subst ph r. cbn [sat]. split; [|cbn [todo]; lia].
    set (h' := Gsh lock (npiv + 1) pinv qinv log).
    pose proof (G_np _ _ G) as Hn0. cbn in Hn0.
    assert (X : ext h h') by (constructor; auto; cbn; lia).
    apply (Inv_cs t h h' P (GOut l) Idle); auto; rewrite ?EP; auto.
    + destruct G as [g1 g2 g3 g4 g5 g6 g7 g8 g9 g10 g11 g12 g13]. cbn in g13. constructor; auto; cbn [g_pinv g_qinv g_npiv g_log h'].
      * lia.
      * intros i Hi. destruct (g7 i Hi) as [|(P1 & P2 & [P3|P3])]; [auto|auto|congruence].
      * cbn in g8. lia.
      * intros c Hc Hq. left. destruct (g9 c Hc Hq) as [H|[H|[_ H]]]; [|congruence|].
        -- destruct H as [H|(y & Hy & E)]; [now left|right; exists y; split; auto; cbn in Hy; lia].
        -- right. exists npiv. split; [lia|auto].
      * intros c Hc H. change (0 <= get (g_qinv h) c). apply piv_S in H; auto. destruct H as [H|H]; [apply g10; auto|].
        subst c. apply g13.
      * intros y Hy. destruct (Z.eq_dec y npiv) as [->|]; [apply g13|]. apply g11. cbn. lia.
    + cbn [ok]. cbn. split; auto. lia.
  - (* GOut *)
    destruct (HC eq_refl) as [Elk Eph]. destruct HO as (O1 & O2). subst ph.
    apply sat_bind. eapply sat_mono; [now apply clean_ok|]. cbv beta. intros w Hw. cbn [sat].
    split; [|cbn [todo]; unfold base_todo; lia].
    set (h' := Gsh None npiv pinv qinv log).
    assert (X : ext h h') by (constructor; auto; cbn; lia).
    apply (Inv_cs t h h' P (GFin w (b_q l)) Idle); auto; rewrite ?EP; auto.
    + destruct G as [g1 g2 g3 g4 g5 g6 g7 g8 g9 g10 g11 g12 g13]. constructor; auto.
    + cbn [ok]. split; [split; [auto|apply O1]|left; apply O1].
  - (* GFail *)
    destruct (HC eq_refl) as [Elk Eph]. destruct HO as (O1 & L & O3). subst ph.
    pose proof (L_k _ _ _ _ _ _ L) as Lk. cbn in Lk.
    replace (target <? 0) with false by lia. cbn [sat].
    split; [|cbn [todo]; unfold base_todo; lia].
    set (h' := Gsh None npiv pinv qinv log).
    assert (X : ext h h') by (constructor; auto; cbn; lia).
    apply (Inv_cs t h h' P (GLearn l target) Idle); auto; rewrite ?EP; auto.
    + destruct G as [g1 g2 g3 g4 g5 g6 g7 g8 g9 g10 g11 g12 g13]. constructor; auto.
    + cbn [ok]. split; auto. split; [|cbn [g_npiv h']; lia]. apply (Loc_ext t h h' Idle); auto.
  - (* GLearn *)
    destruct HO as (O1 & L & O3). pose proof (L_k _ _ _ _ _ _ L) as Lk. cbn in Lk. pose proof (L_ht _ _ _ _ _ _ L) as Hht.
    destruct (Z.ltb_spec (b_k l) target) as [Hlt|Hge].
    + assert (Hj : 0 <= get log (b_k l) < m) by (apply (G_log _ _ G); cbn; lia).
      pose proof (L_w _ _ _ _ _ _ L) as Hlw.
      apply sat_bind, sat_aget; [lia|]. set (j := get log (b_k l)) in *. apply sat_bind, sat_aget; [lia|].
      pose proof (L_val _ _ _ _ _ _ L j Hj) as Hv.
      assert (Hpj : 0 <= get qinv j). { apply (G_new _ _ G); auto. right. exists (b_k l). split; auto. cbn. lia. }
      assert (Fin : forall l', b_head l' = b_head l -> b_k l' = b_k l -> Loc t h l' (rend A t) (b_head l) (b_k l + 1) ->
        Inv h (updP P t (GLearn (Bfs (b_w l') (b_q l') (b_surv l') (b_head l') (b_tail l') (b_k l' + 1)) target)) /\
        todo t (GLearn (Bfs (b_w l') (b_q l') (b_surv l') (b_head l') (b_tail l') (b_k l' + 1)) target) < todo t (GLearn l target)).
      { intros l' E1 E2 L'. split; [|cbn [todo b_head b_k]; lia]. apply Inv_local; auto; rewrite ?EP; auto.
        cbn [ok b_head b_k]. split; auto. rewrite E1, E2. split; [|cbn [g_npiv h]; lia]. destruct L'. constructor; auto. }
      apply sat_bind. destruct (Z.eqb_spec (get (b_w l) j) 0) as [E0|E0]; [|destruct (Z.eqb_spec (get (b_w l) j) 1) as [E1|E1]].
      * cbn [sat]. apply Fin; auto. apply Loc_S; auto; cbn [g_npiv g_log g_qinv h]; [lia| |]; fold j.
        -- intros py Hpy E. destruct (L_row _ _ _ _ _ _ L py Hpy). congruence.
        -- intros x Hx E. destruct (L_in _ _ _ _ _ _ L x ltac:(lia)) as [_ H]. rewrite E in H. lia.
      * destruct (enqueue_ok t h l (rend A t) (b_head l) (b_k l) j Ht ltac:(lia) L Hj ltac:(lia) ltac:(destruct (L_1 _ _ _ _ _ _ L j Hj E1) as (py & Hpy & Ep); exists j; split; [exists py; auto|split; [exact Hpj|constructor]])) as (l2 & -> & L2 & W2 & Q2 & T2 & H2 & K2).
        cbn [sat]. apply Fin; auto. apply Loc_S; auto; cbn [g_npiv g_log g_qinv h]; [lia| |]; fold j.
        -- intros py Hpy E. rewrite E, W2, get_upd_eq by lia. reflexivity.
        -- intros x Hx. rewrite Q2, get_upd_ne by lia. intros E.
           destruct (L_in _ _ _ _ _ _ L x ltac:(lia)) as [_ H]. rewrite E in H. lia.
      * apply sat_bind, sat_aget; [lia|].
        destruct (G_q _ _ G j Hj) as [H|[HI1 HI2]]; [cbn in H; lia|]. cbn in HI1.
        assert (Hr : forall c, stored A (get qinv j) c -> rch t h c).
        { intros c Hc. destruct (L_m1 _ _ _ _ _ _ L j Hj ltac:(lia)) as (x & Hx & Ex). destruct (L_rch _ _ _ _ _ _ L x Hx) as (d & D1 & D2 & D3).
          exists d. split; auto. split; auto. rewrite Ex in D3. econstructor; [exact D3|]. split; [cbn; lia|]. split; [exact Hpj|exact Hc]. }
        eapply sat_mono; [apply (enqueue_row_ok t h l (rend A t) (b_head l) (b_k l) (get qinv j)); auto; lia|].
        cbv beta. intros l2 (L2 & E2 & E3 & E4 & E5 & E6 & E7). cbn [sat]. apply Fin; auto.
        apply Loc_S; auto; cbn [g_npiv g_log g_qinv h]; [lia| |]; fold j.
        -- intros py Hpy E. rewrite E. apply E6. lia.
        -- intros x Hx E c. rewrite E. apply E7.
    + cbn [sat]. assert (target = b_k l) by lia. subst target.
      split; [|cbn [todo]; unfold base_todo; lia]. apply Inv_local; auto; rewrite ?EP; auto. cbn [ok]. auto.
  - (* GFin *)
    cbn [sat]. right. exists w, q. auto.
Qed.

(** ** The whole search *)
Definition good (c : gconfig) : Prop := len (snd c) = n /\ Inv (fst c) (getd gfin (snd c)).
Definition mu (c : gconfig) : Z := sum 0 n (fun t => todo t (getd gfin (snd c) t)).
Lemma Inv_eq h P P' : (forall t, 0 <= t < n -> P t = P' t) -> Inv h P -> Inv h P'.
Proof.
  intros E (ph & G & HO & H0 & HL & HP). exists ph. split; auto. split; [|split; auto; split].
  - intros t Ht. rewrite <- E by auto. auto.
  - intros t Ht. rewrite <- E by auto. auto.
  - intros t Ht. destruct (HP t Ht). rewrite <- E by auto. auto.
Qed.
Lemma mu_nonneg c : good c -> 0 <= mu c.
Proof.
  intros (_ & ph & G & HO & _). apply sum_nonneg. intros t Ht. eapply todo_nonneg; eauto.
Qed.
Lemma step_good c t : good c -> 0 <= t < n ->
  sat (gstep_all A t c) (fun o => match o with None => True | Some c' => good c' /\ 0 <= mu c' < mu c end).
Proof.
  destruct c as [h ps]. intros [HL HI] Ht. cbn [fst snd] in *. unfold gstep_all. apply sat_bind.
  eapply sat_mono; [apply (gstep_ok t h (getd gfin ps)); auto|]. cbv beta. intros [[p' h']|]; [|cbn; auto].
  intros [HI' Hm']. cbn [sat].
  assert (HG : good (h', upd ps t p')).
  { split; cbn [fst snd]; [now rewrite len_upd|]. eapply Inv_eq; [|exact HI']. intros u Hu. unfold updP.
    rewrite getd_upd. unfold inb. rewrite Z.eqb_sym. destruct (Z.eqb_spec t u); auto.
    replace ((0 <=? t) && (t <? len ps)) with true by lia. reflexivity. }
  split; auto. split; [now apply mu_nonneg|]. unfold mu. cbn [snd].
  rewrite (sum_pick 0 n (fun u => todo u (getd gfin (upd ps t p') u)) t) by auto.
  rewrite (sum_pick 0 n (fun u => todo u (getd gfin ps u)) t) by auto. cbv beta.
  rewrite getd_upd_eq by lia.
  rewrite (sum_ext _ _ _ (fun u => if u =? t then 0 else todo u (getd gfin ps u))); [lia|].
  intros u Hu. destruct (Z.eqb_spec u t); auto. rewrite getd_upd_ne by auto. reflexivity.
Qed.
Lemma gdone_iff c : gdone c = true <-> forall t, 0 <= t < len (snd c) -> exists w q, getd gfin (snd c) t = GFin w q.
Proof.
  unfold gdone. rewrite forallb_forall. split.
  - intros H t Ht. specialize (H (getd gfin (snd c) t)). destruct (getd gfin (snd c) t) eqn:E; try (eexists; eexists; reflexivity); 
    (exfalso; enough (false = true) by easy; apply H; rewrite <- E; unfold getd; replace (t <? 0) with false by lia; apply nth_In; unfold len in Ht; lia).
  - intros H p Hp. apply (In_nth _ _ gfin) in Hp. destruct Hp as (k & Hk & <-).
    destruct (H (Z.of_nat k)) as (w & q & E); [unfold len; lia|]. unfold getd in E.
    replace (Z.of_nat k <? 0) with false in E by lia. rewrite Nat2Z.id in E. now rewrite E.
Qed.
Lemma prog_good c : good c -> gdone c = false -> exists t, 0 <= t < n /\ scan (gstep_all A) c t = true.
Proof.
  intros [HL HI] Hd. destruct c as [h ps]. cbn [fst snd] in *.
  assert (Hs : forall t, 0 <= t < n -> (forall w q, getd gfin ps t <> GFin w q) ->
    (forall l j, getd gfin ps t = GLock l j -> g_lock h = None) -> scan (gstep_all A) (h, ps) t = true).
  { intros t Ht H1 H2. pose proof (gstep_ok t h (getd gfin ps) Ht HI) as HS. unfold scan, gstep_all.
    destruct (gstep A t (getd gfin ps t) h) as [[[p' h']|]|]; cbn in *; auto.
    destruct HS as [(l & j & u & E & E2)|(w & q & E)]; [|now apply H1 in E]. apply H2 in E. congruence. }
  pose proof HI as (ph & G & HO & H0 & HLk & HP).
  destruct (g_lock h) as [t|] eqn:El.
  - exists t. destruct (HP t eq_refl) as [Ht _]. split; auto.
    pose proof (proj1 (HLk t Ht) eq_refl) as Hcs. apply Hs; auto.
    + intros w q E. rewrite E in Hcs. discriminate.
    + intros l j E. rewrite E in Hcs. discriminate.
  - destruct (existsb (fun t => match getd gfin ps t with GFin _ _ => false | _ => true end) (zseq 0 n)) eqn:Ee.
    + apply existsb_exists in Ee. destruct Ee as (t & Ht & E). apply In_zseq in Ht. exists t. split; auto. apply Hs; auto.
      intros w q E2. now rewrite E2 in E.
    + exfalso. enough (gdone (h, ps) = true) by congruence. apply gdone_iff. cbn [snd]. intros t Ht.
      destruct (getd gfin ps t) eqn:E; try (eexists; eexists; reflexivity);
      (exfalso; enough (X : existsb (fun t => match getd gfin ps t with GFin _ _ => false | _ => true end) (zseq 0 n) = true) by congruence;
       apply existsb_exists; exists t; split; [apply In_zseq; lia|now rewrite E]).
Qed.
Lemma done_good c t : good c -> 0 <= t < n -> gdone c = true -> gstep_all A t c = Ok None.
Proof.
  intros [HL _] Ht Hd. destruct c as [h ps]. destruct (proj1 (gdone_iff _) Hd t) as (w & q & E); [lia|].
  cbn [snd] in E. unfold gstep_all. rewrite E. destruct h. reflexivity.
Qed.

Definition gscr (scr : Z -> list Z * list Z) : Prop := forall t, 0 <= t < n -> zero (fst (scr t)) /\ len (snd (scr t)) = m.
Lemma greedy_ok scr pinv journal : pivots A pinv q0 -> acyclic A q0 -> len journal = n -> gscr scr ->
  let c0 := (Gsh None 0 pinv q0 journal, gstart A scr) in
  sched_safe (gstep_all A) gdone n (gfuel A) c0 /\
  forall ch, sat (spar (gstep_all A) gdone n (gfuel A) ch 0 c0) (fun c =>
    pivots A (g_pinv (fst c)) (g_qinv (fst c)) /\ acyclic A (g_qinv (fst c)) /\
    npos (g_qinv (fst c)) = npos q0 + g_npiv (fst c) /\
    (forall j, 0 <= get q0 j -> get (g_qinv (fst c)) j = get q0 j) /\ maximal A (g_pinv (fst c)) (g_qinv (fst c))).
Proof.
  intros HPV Hac Hj Hscr c0.
  pose proof (wf_n A HA) as Hn. pose proof (wf_m A HA) as Hm. pose proof (wf_nnz A HA) as Hnz.
  assert (Hp0 : forall t, 0 <= t < n -> getd gfin (gstart A scr) t = GStart (fst (scr t)) (snd (scr t))).
  { intros t Ht. unfold gstart. unfold getd. replace (t <? 0) with false by lia.
    rewrite (nth_indep _ _ (GStart (fst (scr 0)) (snd (scr 0)))).
    - rewrite (map_nth (fun i => GStart (fst (scr i)) (snd (scr i)))). pose proof (getd_zseq 0 0 (cn A) t ltac:(unfold n in *; lia)) as E. unfold getd in E.
      replace (t <? 0) with false in E by lia. now rewrite E.
    - rewrite map_length. pose proof (len_zseq 0 (cn A)) as E. unfold len in E. unfold n in *. lia. }
  assert (Hl0 : len (gstart A scr) = n).
  { pose proof (len_zseq 0 (cn A)) as E. unfold gstart, len in *. rewrite map_length. unfold n in *. lia. }
  assert (HG0 : Glob (fst c0) Idle).
  { destruct HPV as [P1 P2 P3 P4]. constructor; cbn; auto.
    - lia.
    - intros i Hi. destruct (P3 i Hi) as [|(E1 & E2 & E3)]; auto.
    - lia.
    - intros c Hc Hq. left. now left.
    - intros c Hc [H|(l & Hl & _)]; auto. lia.
    - intros l Hl. lia. }
  assert (HG : good c0).
  { split; auto. exists Idle. split; auto. split; [|split; auto; split].
    - intros t Ht. cbn [snd c0]. rewrite Hp0 by auto. apply Hscr. auto.
    - intros t Ht. cbn [fst snd c0 g_lock]. rewrite Hp0 by auto. cbn. split; discriminate.
    - intros t Ht. discriminate. }
  destruct (sched_ok (gstep_all A) gdone n good mu step_good prog_good done_good (gfuel A) c0 HG) as [S1 S2].
  { unfold mu, gfuel. rewrite Z2Nat.id by nia. cbn [snd c0].
    apply Z.le_trans with (sum 0 n (fun _ => 14 + nnz A + 2 * cm A + 8 * cn A)).
    - apply sum_le. intros t Ht. rewrite Hp0 by auto. cbn [todo]. pose proof (wf_row A HA t Ht). unfold n, m. lia.
    - rewrite sum_const by lia. unfold n. lia. }
  split; auto. intros ch. specialize (S2 ch). eapply sat_mono; [exact S2|]. cbv beta.
  intros [h ps] [[HL (ph & G & HO & H0 & HLk & HP)] Hd]. cbn [fst snd] in *.
  assert (Hlk : g_lock h = None).
  { destruct (g_lock h) as [t|] eqn:E; auto. exfalso. destruct (HP t eq_refl) as [Ht _].
    pose proof (proj1 (HLk t Ht) eq_refl) as Hcs. destruct (proj1 (gdone_iff _) Hd t) as (w & q & E2); [cbn; lia|].
    cbn [snd] in E2. rewrite E2 in Hcs. discriminate. }
  rewrite (H0 Hlk) in G. destruct G as [g1 g2 g3 g4 g5 g6 g7 g8 g9 g10 g11 g12 g13].
  split; [|split; [auto|split; [lia|split; [auto|]]]].
  - constructor; auto. intros i Hi. destruct (g7 i Hi) as [|(E1 & E2 & [E3|E3])]; [auto|auto|discriminate].
  - intros i c Hi Hneg Hst Hq. destruct (proj1 (gdone_iff _) Hd i) as (w & q & E2); [cbn; fold n in Hi; lia|]. cbn [snd] in E2. specialize (HO i Hi). rewrite E2 in HO.
    destruct HO as (_ & [HO|HO]); [lia|]. destruct (HO c Hst) as (d & D1 & D2 & D3). apply (path_cycle A HA i c d); auto.
Qed.
End greedy.
