(** Correctness of the maximum matching. *)
From Verif Require Import Base BaseFacts Spec SpecFacts Mat MatFacts RowList SpecMatch Matching Counting.
From Coq Require Import ZifyBool.

Lemma msize_count A p q : matching A p q -> msize p = sum 0 (cn A) (fun i => b1 (0 <=? get p i)).
Proof. intros M. unfold msize. now rewrite (ma_lenp _ _ _ M). Qed.
Lemma injpoints (f : Z -> Z) k n : 0 <= k -> (forall t, 0 <= t < k -> 0 <= f t < n) ->
  (forall t u, 0 <= t < k -> 0 <= u < k -> f t = f u -> t = u) -> 0 <= n -> k <= n.
Proof.
  intros Hk Hr Hi Hn. pose proof (count_inj (fun _ => true) (fun _ => true) f k n Hk Hn) as H.
  cbn in H. rewrite !sum_const in H by lia. assert ((k - 0) * 1 <= (n - 0) * 1) by (apply H; auto). lia.
Qed.

(* a set of rows whose columns are all matched with rows of the set *)
Definition closed (A : csr) (q : list Z) (F : Z -> bool) : Prop :=
  forall i j, 0 <= i < cn A -> F i = true -> stored A i j -> 0 <= get q j /\ F (get q j) = true.

(** ** A closed set that contains the unmatched rows proves that the matching is maximum *)
Lemma closed_maximum A p q F : wf A -> matching A p q -> closed A q F -> (forall i, 0 <= i < cn A -> 0 <= get p i \/ F i = true) ->
  forall p' q', matching A p' q' -> msize p' <= msize p.
Proof.
  intros HA M C HU p' q' M'. rewrite (msize_count _ _ _ M), (msize_count _ _ _ M').
  assert (HS : forall i, 0 <= i < cn A -> 0 <= get p' i -> F i = true -> 0 <= get q (get p' i) < cn A /\ F (get q (get p' i)) = true /\ get p (get q (get p' i)) = get p' i).
  { intros i Hi H1 H2. destruct (ma_row _ _ _ M' i Hi) as [|(Hj & Hs & _)]; [lia|].
    destruct (C i (get p' i) Hi H2 Hs). destruct (ma_col _ _ _ M (get p' i) Hj) as [|(? & ?)]; [lia|]. auto. }
  apply (count_inj _ _ (fun i => if F i then get q (get p' i) else i)); try apply HA.
  - intros i Hi H. destruct (F i) eqn:E.
    + destruct (HS i Hi) as (G1 & G2 & G3); auto; [lia|]. split; auto. lia.
    + split; auto. destruct (HU i Hi); [lia|congruence].
  - intros i k Hi Hk H1 H2 HE.
    destruct (F i) eqn:E1, (F k) eqn:E2; auto.
    + destruct (HS i Hi) as (G1 & G2 & G3); auto; [lia|]. destruct (HS k Hk) as (K1 & K2 & K3); auto; [lia|].
      assert (Ep : get p' i = get p' k) by congruence.
      destruct (ma_row _ _ _ M' i Hi) as [|(_ & _ & R1)]; [lia|]. destruct (ma_row _ _ _ M' k Hk) as [|(_ & _ & R2)]; [lia|]. congruence.
    + destruct (HS i Hi) as (G1 & G2 & G3); auto; [lia|]. congruence.
    + destruct (HS k Hk) as (G1 & G2 & G3); auto; [lia|]. congruence.
Qed.

Section match_.
Context (A : csr) (HA : wf A).
Local Notation n := (cn A).
Local Notation m := (cm A).

Lemma stored_col i j : 0 <= i < n -> stored A i j -> 0 <= j < m.
Proof. intros Hi (px & H & <-). apply (wf_col A HA). pose proof (wf_row A HA i Hi). lia. Qed.

(* an alternating path: istack[0], jstack[0], istack[1], ..., istack[head] *)
Record apath (p q : list Z) (s head : Z) (is js : list Z) : Prop := {
  ap_start : get is 0 = s;
  ap_row : forall t, 0 <= t <= head -> 0 <= get is t < n;
  ap_inj : forall t u, 0 <= t <= head -> 0 <= u <= head -> get is t = get is u -> t = u;
  ap_adj : forall t, 0 <= t < head -> stored A (get is t) (get js t);
  ap_next : forall t, 0 <= t < head -> get q (get js t) = get is (t + 1)
}.

(* the matching, once augmented *)
Record augmented (p q : list Z) (s head : Z) (is js p' q' : list Z) : Prop := {
  au_lp : len p' = len p;
  au_lq : len q' = len q;
  au_p : forall t, 0 <= t <= head -> get p' (get is t) = get js t;
  au_q : forall t, 0 <= t <= head -> get q' (get js t) = get is t;
  au_po : forall i, (forall t, 0 <= t <= head -> get is t <> i) -> get p' i = get p i;
  au_qo : forall j, (forall t, 0 <= t <= head -> get js t <> j) -> get q' j = get q j
}.

Lemma js_inj p q s head is js : matching A p q -> apath p q s head is js -> 0 <= head -> stored A (get is head) (get js head) -> get q (get js head) < 0 ->
  (forall t, 0 <= t <= head -> 0 <= get js t < m) /\
  forall t u, 0 <= t <= head -> 0 <= u <= head -> get js t = get js u -> t = u.
Proof.
  intros M P Hh Hs Hq. destruct P as [P0 P1 P2 P3 P4].
  split.
  - intros t Ht. apply (stored_col (get is t)); auto. destruct (Z.eq_dec t head) as [->|]; auto. apply P3. lia.
  - intros t u Ht Hu E. destruct (Z.eq_dec t head), (Z.eq_dec u head); try lia.
    + subst t. rewrite E in Hq. rewrite P4 in Hq by lia. specialize (P1 (u + 1)). lia.
    + subst u. rewrite <- E in Hq. rewrite P4 in Hq by lia. specialize (P1 (t + 1)). lia.
    + assert (t + 1 = u + 1); [|lia]. apply P2; try lia. rewrite <- !P4 by lia. congruence.
Qed.

Lemma augment_spec p q s head is js : matching A p q -> apath p q s head is js -> 0 <= head -> stored A (get is head) (get js head) -> get q (get js head) < 0 ->
  head < len is -> head < len js ->
  sat (augment_matching head is js p q) (fun '(p', q') => augmented p q s head is js p' q').
Proof.
  intros M P Hh Hs Hq L1 L2. destruct (js_inj p q s head is js M P Hh Hs Hq) as (J1 & J2). unfold augment_matching.
  apply (for_down_spec (fun k '(p', q') => len p' = len p /\ len q' = len q /\
    (forall t, k <= t <= head -> get p' (get is t) = get js t) /\ (forall t, k <= t <= head -> get q' (get js t) = get is t) /\
    (forall i, (forall t, k <= t <= head -> get is t <> i) -> get p' i = get p i) /\
    (forall j, (forall t, k <= t <= head -> get js t <> j) -> get q' j = get q j))).
  - lia.
  - repeat split; auto; lia.
  - intros k [p' q'] Hk (I1 & I2 & I3 & I4 & I5 & I6).
    pose proof (ap_row _ _ _ _ _ _ P k ltac:(lia)) as Rk. pose proof (J1 k ltac:(lia)) as Ck.
    pose proof (ma_lenp _ _ _ M) as Lp. pose proof (ma_lenq _ _ _ M) as Lq.
    wp; try lia. len. repeat split; auto.
    + intros t Ht. rewrite get_upd_in by lia. destruct (Z.eqb_spec (get is k) (get is t)) as [E|E].
      * apply (ap_inj _ _ _ _ _ _ P) in E; try lia. congruence.
      * apply I3. assert (t <> k) by congruence. lia.
    + intros t Ht. rewrite get_upd_in by lia. destruct (Z.eqb_spec (get js k) (get js t)) as [E|E].
      * apply J2 in E; try lia. congruence.
      * apply I4. assert (t <> k) by congruence. lia.
    + intros i Hi. rewrite get_upd_ne by (apply Hi; lia). apply I5. intros t Ht. apply Hi. lia.
    + intros j Hj. rewrite get_upd_ne by (apply Hj; lia). apply I6. intros t Ht. apply Hj. lia.
  - intros [p' q'] (I1 & I2 & I3 & I4 & I5 & I6). constructor; auto.
Qed.

Lemma dec_range (f : Z -> Z) k v : 0 <= k -> (exists t, 0 <= t <= k /\ f t = v) \/ (forall t, 0 <= t <= k -> f t <> v).
Proof.
  intros Hk. cut (forall h, 0 <= h <= k + 1 -> (exists t, 0 <= t < h /\ f t = v) \/ (forall t, 0 <= t < h -> f t <> v)).
  { intros H. destruct (H (k + 1)) as [(t & Ht & E)|G]; [lia| |]; [left; exists t; split; auto; lia|right; intros; apply G; lia]. }
  intros h Hh. pattern h. apply (range_ind _ 0 (k + 1)); try lia.
  - right. lia.
  - intros l Hl [(t & Ht & E)|G]; [left; exists t; split; auto; lia|].
    destruct (Z.eq_dec (f l) v) as [E|E]; [left; exists l; split; auto; lia|].
    right. intros t Ht. destruct (Z.eq_dec t l) as [->|]; auto. apply G. lia.
Qed.

Lemma augmented_ok p q s head is js p' q' F : matching A p q -> apath p q s head is js -> 0 <= head ->
  stored A (get is head) (get js head) -> get q (get js head) < 0 -> get p s < 0 -> closed A q F ->
  augmented p q s head is js p' q' ->
  matching A p' q' /\ msize p' = msize p + 1 /\ closed A q' F /\ 0 <= get p' s /\
  (forall i, 0 <= i < n -> 0 <= get p i -> 0 <= get p' i) /\ (forall j, 0 <= j < m -> 0 <= get q j -> 0 <= get q' j).
Proof.
  intros M P Hh Hs Hq Hp C U. destruct (js_inj p q s head is js M P Hh Hs Hq) as (J1 & J2).
  destruct P as [P0 P1 P2 P3 P4]. destruct U as [U1 U2 U3 U4 U5 U6].
  assert (HJ : forall t, 0 <= t <= head -> stored A (get is t) (get js t)).
  { intros t Ht. destruct (Z.eq_dec t head) as [->|]; auto. apply P3. lia. }
  assert (Hdi : forall i, (exists t, 0 <= t <= head /\ get is t = i) \/ (forall t, 0 <= t <= head -> get is t <> i)) by (intros; apply dec_range; auto).
  assert (Hdj : forall j, (exists t, 0 <= t <= head /\ get js t = j) \/ (forall t, 0 <= t <= head -> get js t <> j)) by (intros; apply dec_range; auto).
  assert (Hprev : forall t, 0 < t <= head -> get p (get is t) = get js (t - 1)).
  { intros t Ht. assert (E : get q (get js (t - 1)) = get is t) by (rewrite P4 by lia; f_equal; lia).
    destruct (ma_col _ _ _ M (get js (t - 1))) as [|(_ & G)]; [apply J1; lia|specialize (P1 t); lia|]. rewrite E in G. exact G. }
  assert (M' : matching A p' q').
  { constructor.
    - rewrite U1. apply M.
    - rewrite U2. apply M.
    - intros i Hi. destruct (Hdi i) as [(t & Ht & <-)|Ho].
      + right. rewrite U3, U4 by auto. auto.
      + rewrite U5 by auto. destruct (ma_row _ _ _ M i Hi) as [|(R1 & R2 & R3)]; [now left|]. right. split; [auto|]. split; [auto|].
        destruct (Hdj (get p i)) as [(t & Ht & E)|Hoj]; [|rewrite U6; auto].
        exfalso. destruct (Z.eq_dec t head) as [->|].
        * rewrite E, R3 in Hq. lia.
        * rewrite <- E, P4 in R3 by lia. apply (Ho (t + 1)); [lia|auto].
    - intros j Hj. destruct (Hdj j) as [(t & Ht & <-)|Ho].
      + right. rewrite U4, U3 by auto. auto.
      + rewrite U6 by auto. destruct (ma_col _ _ _ M j Hj) as [|(R1 & R2)]; [now left|]. right. split; [auto|].
        destruct (Hdi (get q j)) as [(t & Ht & E)|Hoi]; [|rewrite U5; auto].
        exfalso. destruct (Z.eq_dec t 0) as [->|].
        * rewrite <- E, P0 in R2. lia.
        * rewrite <- E, Hprev in R2 by lia. apply (Ho (t - 1)); [lia|auto]. }
  assert (Hmono : forall i, 0 <= i < n -> 0 <= get p i -> 0 <= get p' i).
  { intros i Hi H. destruct (Hdi i) as [(t & Ht & <-)|Ho]; [rewrite U3 by auto; apply J1; auto|rewrite U5; auto]. }
  assert (Hs' : 0 <= get p' s). { rewrite <- P0, U3 by lia. apply J1. lia. }
  split; [auto|]. split; [|split; [|split; [|split]]]; auto.
  - rewrite (msize_count _ _ _ M), (msize_count _ _ _ M'). apply (count_flip _ _ n s).
    + rewrite <- P0. apply P1. lia.
    + lia.
    + lia.
    + intros k Hk Hne. destruct (Hdi k) as [(t & Ht & <-)|Ho]; [|rewrite U5; auto].
      assert (t <> 0) by (intros ->; lia). rewrite U3, Hprev by lia. pose proof (J1 t Ht). pose proof (J1 (t - 1) ltac:(lia)). lia.
  - (* no row of the path is in F *)
    assert (HF : forall t, 0 <= t <= head -> F (get is t) = true -> False).
    { intros t Ht. cut (forall d, 0 <= d <= head -> F (get is (head - d)) = true -> False).
      { intros H. replace t with (head - (head - t)) by lia. apply H. lia. }
      intros d Hd. pattern d. apply (range_ind _ 0 head); try lia.
      - replace (head - 0) with head by lia. intros E. destruct (C _ _ (P1 head ltac:(lia)) E Hs). lia.
      - intros k Hk IH E. apply IH. destruct (C _ _ (P1 (head - (k + 1)) ltac:(lia)) E (HJ (head - (k + 1)) ltac:(lia))) as (_ & G).
        rewrite P4 in G by lia. now replace (head - (k + 1) + 1) with (head - k) in G by lia. }
    intros i j Hi Hf Hst. destruct (C i j Hi Hf Hst) as (G1 & G2).
    destruct (Hdj j) as [(t & Ht & <-)|Ho]; [|rewrite U6; auto].
    exfalso. destruct (Z.eq_dec t head) as [->|]; [lia|]. rewrite P4 in G2 by lia. apply (HF (t + 1)); auto. lia.
  - intros j Hj H. destruct (Hdj j) as [(t & Ht & <-)|Ho]; [rewrite U4 by auto; apply P1; auto|rewrite U6; auto].
Qed.

(* the columns skipped by the lookahead are matched *)
Definition pl_ok (pl q : list Z) : Prop :=
  len pl = n /\ forall i, 0 <= i < n -> 0 <= get pl i <= rend A i - rbeg A i /\
    forall px, rbeg A i <= px < rbeg A i + get pl i -> 0 <= get q (get (cj A) px).

Lemma lookahead_spec p q s head is js pl i : matching A p q -> apath p q s head is js -> 0 <= head < n -> get is head = i -> len is = n -> len js = n ->
  pl_ok pl q ->
  sat (lookahead A i head pl is js p q) (fun '(b, pl', js', p', q') =>
    len js' = n /\ pl_ok pl' q /\
    if b : bool then (forall t, 0 <= t < head -> get js' t = get js t) /\ stored A i (get js' head) /\ get q (get js' head) < 0 /\ augmented p q s head is js' p' q'
    else js' = js /\ p' = p /\ q' = q /\ forall j, stored A i j -> 0 <= get q j).
Proof.
  intros M P Hh Ei L1 L2 (Lpl & Hpl). unfold lookahead.
  assert (Hi : 0 <= i < n) by (rewrite <- Ei; apply (ap_row _ _ _ _ _ _ P); lia).
  pose proof (wf_len A HA) as Lc. pose proof (wf_row A HA i Hi) as Hr. pose proof (wf_nnz A HA) as Hz. pose proof (ma_lenq _ _ _ M) as Lq.
  destruct (Hpl i Hi) as (G1 & G2).
  wp; try lia. fold (rbeg A i) (rend A i).
  apply (forb_spec (fun px _ => forall py, rbeg A i <= py < px -> 0 <= get q (get (cj A) py))).
  - lia.
  - exact G2.
  - intros px [] Hpx HI. pose proof (wf_col A HA px ltac:(lia)) as Hj.
    wp; try lia.
    + eapply sat_mono.
      { apply (augment_spec p q s head is (upd js head (get (cj A) px))); auto; try (rewrite ?len_upd; lia).
        - destruct P as [P0 P1 P2 P3 P4]. constructor; auto; intros t Ht; rewrite get_upd_ne by lia; auto.
        - rewrite get_upd_eq by lia. rewrite Ei. exists px. split; auto. lia.
        - rewrite get_upd_eq by lia. lia. }
      intros [p' q'] U. cbv beta iota. wp. len. split; [auto|]. split.
      * split; [now len|]. intros k Hk. rewrite get_upd_in by lia. destruct (Z.eqb_spec i k) as [<-|]; auto.
        split; [lia|]. intros py Hpy. apply HI. lia.
      * split; [intros t Ht; now rewrite get_upd_ne by lia|]. rewrite get_upd_eq by lia. split; [exists px; split; auto; lia|]. split; [lia|]. exact U.
    + intros py Hpy. destruct (Z.eq_dec py px) as [->|]; [lia|]. apply HI. lia.
  - intros [] HI. wp; [lia|]. split; [auto|]. split.
    + split; [now len|]. intros k Hk. rewrite get_upd_in by lia. destruct (Z.eqb_spec i k) as [<-|]; auto. split; [lia|]. intros py Hpy. apply HI. lia.
    + repeat split; auto. intros j (px & Hpx & <-). apply HI. lia.
Qed.

Section path_.
Context (p q : list Z) (s : Z) (M : matching A p q) (Hs : 0 <= s < n) (Hps : get p s < 0).

Record PI (head : Z) (is js ps mk pl : list Z) : Prop := {
  pi_head : -1 <= head < n;
  pi_li : len is = n; pi_lj : len js = n; pi_lp : len ps = n; pi_lm : len mk = n;
  pi_path : 0 <= head -> apath p q s head is js;
  pi_pl : pl_ok pl q;
  pi_mk : forall t, 0 <= t < head -> get mk (get is t) = s;
  pi_s : head = -1 -> get mk s = s;
  pi_mkb : forall i, 0 <= i < n -> get mk i <= s;
  pi_ps : forall t, 0 <= t <= head -> get mk (get is t) = s -> 0 <= get ps t <= rend A (get is t) - rbeg A (get is t) /\
     forall px, rbeg A (get is t) <= px < rbeg A (get is t) + get ps t ->
       get mk (get q (get (cj A) px)) = s \/ (t < head /\ get q (get (cj A) px) = get is (t + 1));
  pi_all : forall i j, 0 <= i < n -> get mk i = s -> stored A i j -> 0 <= get q j < n;
  pi_done : forall i j, 0 <= i < n -> get mk i = s -> (forall t, 0 <= t <= head -> get is t <> i) -> stored A i j ->
     get mk (get q j) = s
}.
Definition unmarked (mk : list Z) : Z := sum 0 n (fun i => b1 (negb (get mk i =? s))).
Definition fresh (head : Z) (is mk : list Z) : Z := if head <? 0 then 0 else b1 (negb (get mk (get is head) =? s)).
Definition pmu (st : Z * list Z * list Z * list Z * list Z * list Z) : Z :=
  let '(head, is, js, ps, mk, pl) := st in 2 * (unmarked mk - fresh head is mk) + head + 1.

Lemma unmarked_pos head is mk : (0 <= head -> 0 <= get is head < n) -> 0 <= unmarked mk - fresh head is mk.
Proof.
  intros H. pose proof (wf_n A HA) as Hn. unfold unmarked, fresh. destruct (Z.ltb_spec head 0).
  - pose proof (count_le (fun i => negb (get mk i =? s)) n Hn). cbv beta in *. lia.
  - rewrite (sum_pick _ _ _ (get is head)) by auto.
    assert (0 <= sum 0 n (fun i => if i =? get is head then 0 else b1 (negb (get mk i =? s)))).
    { apply sum_nonneg. intros i Hi. unfold b1. destruct (i =? get is head); [lia|]. destruct (negb _); lia. }
    lia.
Qed.
Lemma unmarked_mark mk i : 0 <= i < n -> len mk = n -> get mk i <> s -> unmarked (upd mk i s) = unmarked mk - 1.
Proof.
  intros Hi L E. unfold unmarked.
  assert (sum 0 n (fun k => b1 (negb (get mk k =? s))) = sum 0 n (fun k => b1 (negb (get (upd mk i s) k =? s))) + 1); [|lia].
  apply (count_flip _ _ n i); auto.
  - rewrite get_upd_eq by lia. lia.
  - lia.
  - intros k Hk Hne. now rewrite get_upd_ne by auto.
Qed.

Lemma PI_mark head is js ps mk pl pl' : PI head is js ps mk pl -> 0 <= head -> get mk (get is head) <> s -> pl_ok pl' q ->
  (forall j, stored A (get is head) j -> 0 <= get q j) ->
  PI head is js (upd ps head 0) (upd mk (get is head) s) pl'.
Proof.
  intros [] Hh Hm Hpl Hall. specialize (pi_path0 Hh). pose proof (ap_row _ _ _ _ _ _ pi_path0) as Hrow.
  pose proof (Hrow head ltac:(lia)) as Rh.
  assert (Ho : forall t, 0 <= t <= head -> t <> head -> get is t <> get is head).
  { intros t Ht Hne E. apply Hne. apply (ap_inj _ _ _ _ _ _ pi_path0); auto; lia. }
  constructor; auto; try now len.
  - intros t Ht. rewrite get_upd_in by lia. destruct (get is head =? get is t); auto.
  - lia.
  - intros i Hi. rewrite get_upd_in by lia. destruct (get is head =? i); [lia|auto].
  - intros t Ht. destruct (Z.eq_dec t head) as [->|Hne].
    + intros _. rewrite get_upd_eq by lia. pose proof (wf_row A HA _ Rh). split; [lia|]. intros; lia.
    + rewrite (get_upd_ne ps) by auto. rewrite (get_upd_ne mk (get is head) (get is t)) by (intros E0; apply (Ho t); auto). intros E. destruct (pi_ps0 t Ht E) as (G1 & G2). split; auto.
      intros px Hpx. destruct (G2 px Hpx) as [G|G]; auto. left. rewrite get_upd_in by lia. destruct (get is head =? _); auto.
  - intros i j Hi. rewrite get_upd_in by lia. destruct (Z.eqb_spec (get is head) i) as [<-|].
    + intros _ Hst. specialize (Hall j Hst). destruct (ma_col _ _ _ M j) as [|(G & _)]; [eapply stored_col; eauto|lia|auto].
    + intros. apply (pi_all0 i j); auto.
  - intros i j Hi. rewrite get_upd_in by lia. destruct (Z.eqb_spec (get is head) i) as [<-|].
    + intros _ Hn. exfalso. apply (Hn head); lia.
    + intros E Hn Hst. rewrite get_upd_in by lia. destruct (get is head =? _); auto. apply (pi_done0 i j); auto.
Qed.

Lemma PI_pop head is js ps mk pl : PI head is js ps mk pl -> 0 <= head -> get mk (get is head) = s ->
  (forall px, rbeg A (get is head) <= px < rend A (get is head) -> get mk (get q (get (cj A) px)) = s) ->
  PI (head - 1) is js ps mk pl.
Proof.
  intros [] Hh Hm Hall. specialize (pi_path0 Hh).
  constructor; auto; try lia.
  - intros Hh'. destruct pi_path0 as [P0 P1 P2 P3 P4]. constructor; auto.
    + intros t Ht. apply P1. lia.
    + intros t u Ht Hu. apply P2; lia.
    + intros t Ht. apply P3. lia.
    + intros t Ht. apply P4. lia.
  - intros t Ht. apply pi_mk0. lia.
  - intros E. assert (head = 0) by lia. subst head. now rewrite (ap_start _ _ _ _ _ _ pi_path0) in Hm.
  - intros t Ht E. destruct (pi_ps0 t ltac:(lia) E) as (G1 & G2). split; auto. intros px Hpx. destruct (G2 px Hpx) as [G|(G & G')]; auto.
    destruct (Z.eq_dec (t + 1) head) as [Et|]; [|right; split; auto; lia]. left. rewrite G', Et. auto.
  - intros i j Hi E Hn Hst. destruct (Z.eq_dec (get is head) i) as [<-|Hne].
    + destruct Hst as (px & Hpx & <-). auto.
    + apply (pi_done0 i j); auto. intros t Ht. destruct (Z.eq_dec t head) as [->|]; auto. apply Hn. lia.
Qed.

Lemma PI_push head is js ps mk pl px : PI head is js ps mk pl -> 0 <= head -> get mk (get is head) = s ->
  rbeg A (get is head) + get ps head <= px < rend A (get is head) ->
  (forall py, rbeg A (get is head) + get ps head <= py < px -> get mk (get q (get (cj A) py)) = s) ->
  get mk (get q (get (cj A) px)) <> s ->
  head + 1 < n /\ PI (head + 1) (upd is (head + 1) (get q (get (cj A) px))) (upd js head (get (cj A) px)) (upd ps head (get ps head + 1)) mk pl.
Proof.
  intros [] Hh Hm Hpx Hpy Hn. specialize (pi_path0 Hh). pose proof pi_path0 as [P0 P1 P2 P3 P4].
  pose proof (P1 head ltac:(lia)) as Rh. pose proof (wf_row A HA _ Rh) as Hr.
  destruct (pi_ps0 head ltac:(lia) Hm) as (Hps1 & Hps2).
  set (inew := get q (get (cj A) px)) in *.
  assert (Hst : stored A (get is head) (get (cj A) px)) by (exists px; split; auto; lia).
  assert (Hin : 0 <= inew < n) by (apply (pi_all0 (get is head)); auto).
  assert (Hmk : forall t, 0 <= t <= head -> get mk (get is t) = s) by (intros t Ht; destruct (Z.eq_dec t head) as [->|]; auto; apply pi_mk0; lia).
  assert (Hnew : forall t, 0 <= t <= head -> get is t <> inew) by (intros t Ht E; apply Hn; rewrite <- E; auto).
  assert (Hh1 : head + 1 < n).
  { pose proof (injpoints (fun t => if t =? head + 1 then inew else get is t) (head + 2) n) as H. assert (head + 2 <= n); [|lia]. apply H.
    - lia.
    - intros t Ht. destruct (Z.eqb_spec t (head + 1)); auto. apply P1. lia.
    - intros t u Ht Hu. destruct (Z.eqb_spec t (head + 1)), (Z.eqb_spec u (head + 1)); try lia.
      + intros E. exfalso. apply (Hnew u); [lia|auto].
      + intros E. exfalso. apply (Hnew t); [lia|auto].
      + apply P2; lia.
    - apply HA. }
  split; auto.
  assert (Gi : forall t, 0 <= t <= head -> get (upd is (head + 1) inew) t = get is t) by (intros; apply get_upd_ne; lia).
  assert (Gn : get (upd is (head + 1) inew) (head + 1) = inew) by (apply get_upd_eq; lia).
  constructor; auto; try lia; try (now len).
  - intros _. constructor.
    + rewrite Gi by lia. auto.
    + intros t Ht. destruct (Z.eq_dec t (head + 1)) as [->|]; [now rewrite Gn|]. rewrite Gi by lia. apply P1. lia.
    + intros t u Ht Hu. destruct (Z.eq_dec t (head + 1)) as [->|], (Z.eq_dec u (head + 1)) as [->|]; auto.
      * rewrite Gn, Gi by lia. intros E. exfalso. apply (Hnew u); [lia|auto].
      * rewrite Gn, Gi by lia. intros E. exfalso. apply (Hnew t); [lia|auto].
      * rewrite !Gi by lia. apply P2; lia.
    + intros t Ht. rewrite Gi by lia. rewrite get_upd_in by lia. destruct (Z.eqb_spec head t) as [<-|]; auto. apply P3. lia.
    + intros t Ht. rewrite get_upd_in by lia. destruct (Z.eqb_spec head t) as [<-|]; [now rewrite Gn|]. rewrite Gi by lia. apply P4. lia.
  - intros t Ht. rewrite Gi by lia. apply Hmk. lia.
  - intros t Ht. destruct (Z.eq_dec t (head + 1)) as [->|].
    + rewrite Gn. intros E. congruence.
    + rewrite Gi by lia. intros E. rewrite get_upd_in by lia. destruct (Z.eqb_spec head t) as [<-|Hne].
      * split; [lia|]. intros py Hy. rewrite Gn. destruct (Z.eq_dec py px) as [->|]; [right; split; auto; lia|]. left.
        destruct (Z_lt_ge_dec py (rbeg A (get is head) + get ps head)).
        -- destruct (Hps2 py ltac:(lia)) as [G|(G & _)]; [auto|lia].
        -- apply Hpy. lia.
      * destruct (pi_ps0 t ltac:(lia) E) as (G1 & G2). split; auto. intros py Hy. destruct (G2 py Hy) as [G|(G & G')]; auto.
        right. split; [lia|]. rewrite Gi by lia. auto.
  - intros i j Hi E Ho Hst'. apply (pi_done0 i j); auto. intros t Ht. rewrite <- Gi by lia. apply Ho. lia.
Qed.

Lemma augmenting_path_spec is js ps mk pl : len is = n -> len js = n -> len ps = n -> len mk = n -> pl_ok pl q -> (forall i, 0 <= i < n -> get mk i < s) ->
  sat (augmenting_path A s is js ps mk pl p q) (fun '(b, is', js', ps', mk', pl', p', q') =>
    len is' = n /\ len js' = n /\ len ps' = n /\ len mk' = n /\ pl_ok pl' q /\ (forall i, 0 <= i < n -> get mk' i <= s) /\
    if b : bool then exists head, 0 <= head /\ apath p q s head is' js' /\ stored A (get is' head) (get js' head) /\ get q (get js' head) < 0 /\ augmented p q s head is' js' p' q'
    else p' = p /\ q' = q /\ get mk' s = s /\
      forall i j, 0 <= i < n -> get mk' i = s -> stored A i j -> 0 <= get q j < n /\ get mk' (get q j) = s).
Proof.
  intros L1 L2 L3 L4 Hpl Hmk. unfold augmenting_path. pose proof (wf_len A HA) as Lc. pose proof (wf_nnz A HA) as Hz. pose proof (ma_lenq _ _ _ M) as Lq.
  wp; [lia|].
  apply (loop_spec (fun '(head, is, js, ps, mk, pl) => PI head is js ps mk pl) pmu).
  - intros [[[[[head is1] js1] ps1] mk1] pl1] I. cbv beta iota.
    destruct (Z.ltb_spec head 0) as [Hh|Hh].
    { wp. pose proof I as []. assert (head = -1) by lia. subst head. do 9 (split; [auto|]).
      intros i j Hi E Hst. split; [apply (pi_all0 i j); auto|]. apply (pi_done0 i j); auto. intros; lia. }
    pose proof (pi_head _ _ _ _ _ _ I) as I0. pose proof (pi_li _ _ _ _ _ _ I) as Li. pose proof (pi_lj _ _ _ _ _ _ I) as Lj.
    pose proof (pi_lp _ _ _ _ _ _ I) as Lp. pose proof (pi_lm _ _ _ _ _ _ I) as Lm.
    pose proof (pi_path _ _ _ _ _ _ I Hh) as P. pose proof (ap_row _ _ _ _ _ _ P head ltac:(lia)) as Rh.
    apply sat_bind, sat_aget; [lia|]. apply sat_bind, sat_aget; [lia|]. cbv beta.
    (* the rest of the iteration, once the row is marked *)
    assert (Hrest : forall ps1 mk1 pl1, PI head is1 js1 ps1 mk1 pl1 -> get mk1 (get is1 head) = s ->
      sat (lo <- aget (cp A) (get is1 head) ;; d <- aget ps1 head ;; hi <- aget (cp A) (get is1 head + 1) ;;
        o <- forb (lo + d) hi (fun px (_ : unit) =>
          j <- aget (cj A) px ;; inew <- aget q j ;; _ <- assert_ (negb (inew =? -1)) ;; mk <- aget mk1 inew ;;
          if mk =? s then Ok (inl tt) else
          pstack <- aset ps1 head (d + 1) ;; jstack <- aset js1 head j ;; istack <- aset is1 (head + 1) inew ;;
          Ok (inr (istack, jstack, pstack))) tt ;;
        match o with
        | inr (istack, jstack, pstack) => Ok (inl (head + 1, istack, jstack, pstack, mk1, pl1))
        | inl _ => Ok (inl (head - 1, is1, js1, ps1, mk1, pl1))
        end)
      (fun o : _ + bool * list Z * list Z * list Z * list Z * list Z * list Z * list Z => match o with
        | inl s' => (let '(head, is, js, ps, mk, pl) := s' in PI head is js ps mk pl) /\ 0 <= pmu s' < 2 * unmarked mk1 + head + 1
        | inr _ => False end)).
    { clear ps1 mk1 pl1 I Lp Lm. intros ps1 mk1 pl1 I Em. pose proof (pi_lp _ _ _ _ _ _ I) as Lp. pose proof (pi_lm _ _ _ _ _ _ I) as Lm.
      pose proof (wf_row A HA _ Rh) as Hr. destruct (pi_ps _ _ _ _ _ _ I head ltac:(lia) Em) as (G1 & G2).
      wp; try lia. fold (rbeg A (get is1 head)) (rend A (get is1 head)).
      apply (forb_spec (fun px _ => forall py, rbeg A (get is1 head) + get ps1 head <= py < px -> get mk1 (get q (get (cj A) py)) = s)).
      - lia.
      - intros; lia.
      - intros px [] Hpx HI. pose proof (wf_col A HA px ltac:(lia)) as Hj.
        assert (Hst : stored A (get is1 head) (get (cj A) px)) by (exists px; split; auto; lia).
        pose proof (pi_all _ _ _ _ _ _ I _ _ Rh Em Hst) as Hq.
        wp; try lia.
        + intros py Hpy. destruct (Z.eq_dec py px) as [->|]; [lia|]. apply HI. lia.
        + destruct (PI_push head is1 js1 ps1 mk1 pl1 px I Hh Em Hpx HI ltac:(lia)) as (Hn & I'). lia.
        + destruct (PI_push head is1 js1 ps1 mk1 pl1 px I Hh Em Hpx HI ltac:(lia)) as (Hn & I'). split; auto.
          unfold pmu. assert (Hf : fresh (head + 1) (upd is1 (head + 1) (get q (get (cj A) px))) mk1 = 1).
          { unfold fresh. replace (head + 1 <? 0) with false by lia. rewrite get_upd_eq by lia. replace (_ =? s) with false by lia. reflexivity. }
          rewrite Hf. pose proof (unmarked_pos (head + 1) (upd is1 (head + 1) (get q (get (cj A) px))) mk1) as Hu. rewrite Hf in Hu.
          assert (0 <= unmarked mk1 - 1); [|lia]. apply Hu. intros _. rewrite get_upd_eq by lia. auto.
      - intros [] HI. wp.
        assert (I' : PI (head - 1) is1 js1 ps1 mk1 pl1).
        { apply PI_pop; auto. intros px Hpx. destruct (Z_lt_ge_dec px (rbeg A (get is1 head) + get ps1 head)); [|apply HI; lia].
          destruct (G2 px ltac:(lia)) as [G|(G & _)]; [auto|lia]. }
        split; auto. unfold pmu.
        assert (Hf : fresh (head - 1) is1 mk1 = 0).
        { unfold fresh. destruct (Z.ltb_spec (head - 1) 0); auto. rewrite (pi_mk _ _ _ _ _ _ I) by lia. rewrite Z.eqb_refl. reflexivity. }
        rewrite Hf. pose proof (unmarked_pos (-1) is1 mk1 ltac:(lia)) as Hu. unfold fresh in Hu. cbn in Hu. lia. }
    destruct (Z.eqb_spec (get mk1 (get is1 head)) s) as [Em|Em]; cbn [negb].
    + apply sat_bind. unfold sat at 1. cbv beta iota. eapply sat_mono; [apply Hrest; eauto|].
      intros [s'|[[[[[[[b is'] js'] ps'] mk'] pl'] p'] q']]; [|tauto]. intros (H1 & H2). split; auto.
      unfold pmu at 3. unfold fresh. replace (head <? 0) with false by lia. rewrite Em, Z.eqb_refl. cbn [negb b1]. lia.
    + apply sat_bind, sat_bind, sat_aset; [lia|]. apply sat_bind.
      eapply sat_mono; [apply (lookahead_spec p q s head is1 js1 pl1 (get is1 head)); auto; try lia; apply I|].
      intros [[[[b pl2] js2] p2] q2] (H1 & H2 & H3). cbv beta iota. destruct b.
      * wp. destruct H3 as (K1 & K2 & K3 & K4). rewrite !len_upd.
        do 5 (split; [auto|]). split. { intros i Hi. rewrite get_upd_in by lia. destruct (Z.eqb_spec (get is1 head) i); [lia|]. apply (pi_mkb _ _ _ _ _ _ I); auto. }
        exists head. split; [auto|]. split; [|auto]. destruct P as [P0 P1 P2 P3 P4]. constructor; auto; intros t Ht; rewrite K1 by lia; auto.
      * destruct H3 as (-> & -> & -> & Hall). apply sat_bind, sat_aset; [lia|]. unfold sat at 1. cbv beta iota.
        assert (I' : PI head is1 js1 (upd ps1 head 0) (upd mk1 (get is1 head) s) pl2) by (apply (PI_mark _ _ _ _ _ pl1); auto).
        eapply sat_mono; [apply Hrest; eauto; apply get_upd_eq; lia|].
        intros [s'|[[[[[[[b is'] js'] ps'] mk'] pl'] p'] q']]; [|tauto]. intros (K1 & K2). split; auto.
        rewrite unmarked_mark in K2 by auto.
        unfold pmu at 3. unfold fresh. replace (head <? 0) with false by lia. replace (_ =? s) with false by lia. cbn [negb b1]. lia.
  - assert (G0 : get (upd is 0 s) 0 = s) by (apply get_upd_eq; lia).
    constructor; auto; try lia; try now len.
    + intros _. constructor; auto; try lia. intros t Ht. replace t with 0 by lia. now rewrite G0.
    + intros i Hi. specialize (Hmk i Hi). lia.
    + intros t Ht. replace t with 0 by lia. rewrite G0. specialize (Hmk s Hs). lia.
    + intros i j Hi E. specialize (Hmk i Hi). lia.
    + intros i j Hi E. specialize (Hmk i Hi). lia.
  - unfold pmu. pose proof (unmarked_pos 0 (upd is 0 s) mk) as Hu. rewrite get_upd_eq in Hu by lia. specialize (Hu ltac:(auto)).
    pose proof (count_le (fun i => negb (get mk i =? s)) n ltac:(lia)) as Hc. cbv beta in Hc. unfold unmarked in *.
    assert (0 <= fresh 0 (upd is 0 s) mk). { unfold fresh. replace (0 <? 0) with false by lia. unfold b1. destruct (negb _); lia. }
    lia.
Qed.
End path_.

Lemma full_columns p q : matching A p q -> m <= msize p -> forall j, 0 <= j < m -> 0 <= get q j.
Proof.
  intros M Hm j Hj. rewrite (msize_count _ _ _ M) in Hm.
  assert (H : sum 0 n (fun i => b1 (0 <=? get p i)) <= sum 0 m (fun j => b1 (0 <=? get q j))).
  { apply (count_inj _ _ (get p)); try apply HA.
    - intros i Hi E. destruct (ma_row _ _ _ M i Hi) as [|(G1 & _ & G3)]; [lia|]. split; auto. lia.
    - intros i k Hi Hk E1 E2 E. destruct (ma_row _ _ _ M i Hi) as [|(_ & _ & G)]; [lia|]. destruct (ma_row _ _ _ M k Hk) as [|(_ & _ & G')]; [lia|]. congruence. }
  assert (G : (0 <=? get q j) = true) by (apply (count_full (fun j => 0 <=? get q j) m); auto; lia). lia.
Qed.

Theorem maximum_matching_spec g p0 q0 : len p0 = n -> len q0 = m ->
  sat (maximum_matching g A p0 q0) (fun '(k, p, q) => matching A p q /\ msize p = k /\
    exists F, closed A q F /\ forall i, 0 <= i < n -> 0 <= get p i \/ F i = true).
Proof.
  intros Lp Lq. unfold maximum_matching. pose proof (wf_n A HA) as Hn. pose proof (wf_m A HA) as Hm.
  apply sat_bind. apply (for_spec (fun k q => len q = m /\ forall j, 0 <= j < k -> get q j = -1)); auto.
  { split; auto. lia. }
  { intros j q Hj (L & I). wp; [lia|]. split; [now len|]. intros k Hk. rewrite get_upd_in by lia. destruct (Z.eqb_spec j k); auto. apply I. lia. }
  intros q1 (Lq1 & Hq1). apply sat_bind.
  apply (for_spec (fun k '(p, mk, pl) => len p = n /\ len mk = n /\ len pl = n /\ forall i, 0 <= i < k -> get p i = -1 /\ get mk i = -1 /\ get pl i = 0)); auto.
  { rewrite !len_malloc. split; [auto|]. split; [lia|]. split; [lia|]. lia. }
  { intros i [[p mk] pl] Hi (J1 & J2 & J3 & J4). wp; try lia. rewrite !len_upd. do 3 (split; [auto|]).
    intros k Hk. rewrite !get_upd_in by lia. destruct (Z.eqb_spec i k); auto. apply J4. lia. }
  intros [[p1 mk1] pl1] (Lp1 & Lm1 & Ll1 & H1).
  assert (M0 : matching A p1 q1).
  { constructor; auto. intros i Hi. left. now apply H1. }
  assert (Z0 : msize p1 = 0).
  { unfold msize. apply sum_zero. intros i Hi. destruct (H1 i) as (-> & _); [lia|]. reflexivity. }
  cbv beta iota. apply sat_bind.
  apply (forb_spec (fun i '(k, is, js, ps, mk, pl, p, q) => matching A p q /\ msize p = k /\ len is = n /\ len js = n /\ len ps = n /\ len mk = n /\
    pl_ok pl q /\ (forall x, 0 <= x < n -> get mk x < i) /\
    exists F, closed A q F /\ forall x, 0 <= x < i -> 0 <= get p x \/ F x = true)).
  - lia.
  - rewrite !len_malloc. split; [auto|]. split; [auto|]. do 3 (split; [lia|]). split; [auto|]. split; [|split].
    + split; auto. intros i Hi. destruct (H1 i Hi) as (_ & _ & ->). pose proof (wf_row A HA i Hi). split; [lia|]. intros; lia.
    + intros x Hx. destruct (H1 x Hx) as (_ & -> & _). lia.
    + exists (fun _ => false). split; [intros i j _ ?; discriminate|]. lia.
  - intros i [[[[[[[k is] js] ps] mk] pl] p] q] Hi (M & Hk & L1 & L2 & L3 & L4 & Hpl & Hmk & F & CF & HF).
    pose proof (ma_lenp _ _ _ M) as Lp'.
    wp; try lia.
    + eapply sat_mono; [apply (augmenting_path_spec p q i M Hi is js ps mk pl); auto|].
      intros [[[[[[[b is'] js'] ps'] mk'] pl'] p'] q'] (K1 & K2 & K3 & K4 & K5 & K6 & K7). wp. destruct b.
      * destruct K7 as (head & K8 & P & S1 & S2 & U).
        destruct (augmented_ok p q i head is' js' p' q' F M P K8 S1 S2 ltac:(lia) CF U) as (M' & E' & C' & N1 & N2 & N3).
        split; [auto|]. split; [lia|]. do 4 (split; [auto|]). split; [|split].
        -- destruct K5 as (A1 & A2). split; auto. intros x Hx. destruct (A2 x Hx) as (A3 & A4). split; auto. intros px Hpx.
           apply N3; auto. apply (wf_col A HA). pose proof (wf_row A HA x Hx). lia.
        -- intros x Hx. specialize (K6 x Hx). lia.
        -- exists F. split; auto. intros x Hx. destruct (Z.eq_dec x i) as [->|]; auto. destruct (HF x ltac:(lia)); auto. left. apply N2; auto. lia.
      * destruct K7 as (-> & -> & E2 & HC). do 7 (split; [auto|]). split.
        -- intros x Hx. specialize (K6 x Hx). lia.
        -- exists (fun x => F x || (get mk' x =? i)). split.
           ++ intros x j Hx H Hst. apply orb_prop in H. destruct H as [H|H].
              ** destruct (CF x j Hx H Hst) as (G1 & ->). auto.
              ** destruct (HC x j Hx ltac:(lia) Hst) as (G1 & ->). rewrite Z.eqb_refl, orb_true_r. split; auto. lia.
           ++ intros x Hx. destruct (Z.eq_dec x i) as [->|]; [right; rewrite E2, Z.eqb_refl; apply orb_true_r|].
              destruct (HF x ltac:(lia)) as [|E3]; [auto|rewrite E3; auto].
    + do 7 (split; [auto|]). split.
      * intros x Hx. specialize (Hmk x Hx). lia.
      * exists F. split; auto. intros x Hx. destruct (Z.eq_dec x i) as [->|]; [left; lia|]. apply HF. lia.
    + split; auto. split; auto.
      destruct (Z_le_gt_dec n m).
      * exists (fun _ => false). split; [intros ? ? _ ?; discriminate|]. intros x Hx. left. rewrite (msize_count _ _ _ M) in Hk.
        assert (G : (0 <=? get p x) = true) by (apply (count_full (fun i => 0 <=? get p i) n); auto; lia). lia.
      * exists (fun _ => true). split; [|auto]. intros x j Hx _ Hst. split; auto. apply (full_columns p q M); [lia|]. eapply stored_col; eauto.
  - intros [[[[[[[k is] js] ps] mk] pl] p] q] (M & Hk & _ & _ & _ & _ & _ & _ & F). wp. auto.
Qed.
End match_.

Lemma msize_le A p q : wf A -> matching A p q -> 0 <= msize p <= Z.min (cn A) (cm A).
Proof.
  intros HA M. rewrite (msize_count _ _ _ M). pose proof (count_le (fun i => 0 <=? get p i) (cn A) (wf_n A HA)) as H. cbv beta in H.
  split; [lia|]. apply Z.min_glb; [lia|].
  assert (G : sum 0 (cn A) (fun i => b1 (0 <=? get p i)) <= sum 0 (cm A) (fun i => b1 (0 <=? get q i))).
  { apply (count_inj _ _ (get p)); try apply HA.
    - intros i Hi E. destruct (ma_row _ _ _ M i Hi) as [|(G1 & _ & G3)]; [lia|]. split; auto. lia.
    - intros i k Hi Hk E1 E2 E. destruct (ma_row _ _ _ M i Hi) as [|(_ & _ & G)]; [lia|]. destruct (ma_row _ _ _ M k Hk) as [|(_ & _ & G')]; [lia|]. congruence. }
  pose proof (count_le (fun i => 0 <=? get q i) (cm A) (wf_m A HA)) as H'. cbv beta in H'. lia.
Qed.

Theorem maximum_matching_max g A p0 q0 : wf A -> len p0 = cn A -> len q0 = cm A ->
  sat (maximum_matching g A p0 q0) (fun '(k, p, q) => matching A p q /\ msize p = k /\ forall p' q', matching A p' q' -> msize p' <= k).
Proof.
  intros HA Lp Lq. eapply sat_mono; [apply (maximum_matching_spec A HA g p0 q0 Lp Lq)|].
  intros [[k p] q] (M & E & F & CF & HF). split; [auto|]. split; [auto|]. rewrite <- E. apply (closed_maximum A p q F); auto.
Qed.
Theorem maximum_matching_size g A p0 q0 : wf A -> len p0 = cn A -> len q0 = cm A ->
  sat (maximum_matching g A p0 q0) (fun '(k, _, _) => maximum_size A k /\ 0 <= k <= Z.min (cn A) (cm A)).
Proof.
  intros HA Lp Lq. eapply sat_mono; [apply (maximum_matching_max g A p0 q0 HA Lp Lq)|].
  intros [[k p] q] (M & E & HM). split; [split; [eauto|auto]|]. rewrite <- E. apply (msize_le A p q); auto.
Qed.
