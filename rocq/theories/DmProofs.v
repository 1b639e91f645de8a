(** Correctness of the Dulmage-Mendelsohn decomposition. *)
From Verif Require Import Base BaseFacts Spec SpecFacts Mat MatFacts RowList MatProofs VecProofs TransposeProofs SpecMatch Matching Counting MatchProofs.
From Verif Require Import GpluProofs EchInv SpecScc Scc SccProofs SpecDm Dm DmBfs DmMarks.
From Coq Require Import ZifyBool Permutation Relation_Operators.

(** ** Collecting *)
(* L is written in p, from position k on *)
Definition wrote (p p' : list Z) (k : Z) (L : list Z) : Prop :=
  len p' = len p /\ (forall t, 0 <= t < len L -> get p' (k + t) = get L t) /\ (forall x, ~ k <= x < k + len L -> get p' x = get p x).
Lemma wrote_nil p k : wrote p p k [].
Proof. split; [auto|]. split; [|auto]. cbn. intros; lia. Qed.
Lemma wrote_snoc p p' k L v : wrote p p' k L -> 0 <= k -> k + len L < len p -> wrote p (upd p' (k + len L) v) k (L ++ [v]).
Proof.
  intros (H1 & H2 & H3) Hk Hl. pose proof (len_nonneg L). split; [now len|]. rewrite len_app. change (len [v]) with 1. split.
  - intros t Ht. rewrite get_upd_in by lia. destruct (Z.eqb_spec (k + len L) (k + t)) as [E|E].
    + replace t with (len L) by lia. rewrite get_app_r, Z.sub_diag by lia. reflexivity.
    + rewrite get_app_l by lia. apply H2. lia.
  - intros x Hx. rewrite get_upd_ne by lia. apply H3. lia.
Qed.
Lemma wrote_app p p' p'' k L L' : wrote p p' k L -> wrote p' p'' (k + len L) L' -> wrote p p'' k (L ++ L').
Proof.
  intros (H1 & H2 & H3) (K1 & K2 & K3). pose proof (len_nonneg L). pose proof (len_nonneg L'). split; [lia|]. rewrite len_app. split.
  - intros t Ht. destruct (Z_lt_ge_dec t (len L)).
    + rewrite get_app_l by lia. rewrite K3 by lia. apply H2. lia.
    + rewrite get_app_r by lia. rewrite <- K2 by lia. f_equal. lia.
  - intros x Hx. rewrite K3 by lia. apply H3. lia.
Qed.
Lemma wrote_all p p' L : wrote p p' 0 L -> len p = len L -> p' = L.
Proof. intros (H1 & H2 & _) E. apply list_ext; [lia|]. intros i Hi. rewrite <- H2 by lia. reflexivity. Qed.

Lemma filter_zseq (f : Z -> bool) k : 0 <= k -> filter f (zseq 0 (k + 1)) = filter f (zseq 0 k) ++ (if f k then [k] else []).
Proof. intros Hk. rewrite zseq_S by lia. rewrite filter_app. reflexivity. Qed.
Lemma filter_le (f : Z -> bool) k n : 0 <= k <= n -> len (filter f (zseq 0 k)) <= len (filter f (zseq 0 n)).
Proof. intros Hk. rewrite (zseq_split 0 k n) by lia. rewrite filter_app, len_app. pose proof (len_nonneg (filter f (zseq k n))). lia. Qed.
Lemma filter_lt (f : Z -> bool) k n : 0 <= k < n -> f k = true -> len (filter f (zseq 0 k)) < len (filter f (zseq 0 n)).
Proof.
  intros Hk E. pose proof (filter_le f (k + 1) n ltac:(lia)) as H. rewrite filter_zseq, E, len_app in H by lia. change (len [k]) with 1 in H. lia.
Qed.
Lemma collect_unmatched_spec n wi p rr set : 0 <= n -> n <= len wi -> 0 <= set -> set + 1 < len rr -> 0 <= get rr set ->
  let L := filter (fun i => get wi i =? 0) (zseq 0 n) in
  get rr set + len L <= len p ->
  sat (collect_unmatched n wi p rr set) (fun '(p', rr') => wrote p p' (get rr set) L /\ rr' = upd rr (set + 1) (get rr set + len L)).
Proof.
  intros Hn Lw Hs Hs' Hk L HL. unfold collect_unmatched. wp; [lia|].
  apply (for_spec (fun k '(p', kr) => wrote p p' (get rr set) (filter (fun i => get wi i =? 0) (zseq 0 k)) /\ kr = get rr set + len (filter (fun i => get wi i =? 0) (zseq 0 k)))); auto.
  - cbn. split; [apply wrote_nil|lia].
  - intros i [p' kr] Hi (W & ->). pose proof W as (W1 & _). apply sat_bind, sat_aget; [lia|]. rewrite filter_zseq by lia.
    pose proof (len_nonneg (filter (fun i => get wi i =? 0) (zseq 0 i))).
    destruct (Z.eqb_spec (get wi i) 0) as [E|E].
    + pose proof (filter_lt (fun i => get wi i =? 0) i n Hi ltac:(lia)) as HH. fold L in HH.
      apply sat_bind, sat_aset; [lia|]. wp. rewrite len_app. change (len [i]) with 1. split; [|lia]. apply wrote_snoc; auto. lia.
    + wp. rewrite app_nil_r. split; auto.
  - intros [p' kr] (W & ->). wp; [lia|]. auto.
Qed.
Lemma collect_matched_spec m wj im p q cc rr set mark : 0 <= m -> m <= len wj -> len im = m -> 1 <= set -> set + 1 < len cc -> set < len rr ->
  0 <= get cc set -> 0 <= get rr (set - 1) ->
  let L := filter (fun j => get wj j =? mark) (zseq 0 m) in
  get cc set + len L <= len q -> get rr (set - 1) + len L <= len p ->
  sat (collect_matched m wj im p q cc rr set mark) (fun '(p', q', cc', rr') =>
    wrote q q' (get cc set) L /\ wrote p p' (get rr (set - 1)) (map (get im) L) /\
    cc' = upd cc (set + 1) (get cc set + len L) /\ rr' = upd rr set (get rr (set - 1) + len L)).
Proof.
  intros Hm Lw Li Hs H1 H2 Hc Hr L Lq Lp. unfold collect_matched. wp; [lia|lia|].
  pose (Lk := fun k => filter (fun j => get wj j =? mark) (zseq 0 k)).
  apply (for_spec (fun k '(p', q', kc, kr) => wrote q q' (get cc set) (Lk k) /\ wrote p p' (get rr (set - 1)) (map (get im) (Lk k)) /\
    kc = get cc set + len (Lk k) /\ kr = get rr (set - 1) + len (Lk k))); auto.
  - cbn. split; [apply wrote_nil|]. split; [apply wrote_nil|]. lia.
  - intros j [[[p' q'] kc] kr] Hj (W & W' & -> & ->). pose proof W as (W1 & _). pose proof W' as (W2 & _). apply sat_bind, sat_aget; [lia|].
    assert (ELk : Lk (j + 1) = Lk j ++ (if get wj j =? mark then [j] else [])) by (unfold Lk; apply (filter_zseq (fun j => get wj j =? mark)); lia). rewrite ELk. pose proof (len_nonneg (Lk j)).
    destruct (Z.eqb_spec (get wj j) mark) as [E|E]; cbn [negb].
    + pose proof (filter_lt (fun i => get wj i =? mark) j m Hj ltac:(lia)) as HH. fold L in HH. fold (Lk j) in HH.
      apply sat_bind, sat_aget; [lia|]. apply sat_bind, sat_aset; [lia|]. apply sat_bind, sat_aset; [lia|]. wp. rewrite len_app. change (len [j]) with 1.
      split; [apply wrote_snoc; auto; lia|]. split; [|lia]. rewrite map_app. cbn [map].
      replace (get rr (set - 1) + len (Lk j)) with (get rr (set - 1) + len (map (get im) (Lk j))) by now rewrite len_map.
      apply wrote_snoc; auto. rewrite len_map. lia.
    + wp. rewrite app_nil_r. auto.
  - intros [[[p' q'] kc] kr] (W & W' & -> & ->). wp; try lia. auto.
Qed.

(** ** The layout of p and q *)
Record layout (A : csr) (jm im wi wj p q rr cc : list Z) : Prop := {
  ly_p : is_perm (cn A) p; ly_q : is_perm (cm A) q; ly_lr : len rr = 5; ly_lc : len cc = 5;
  ly_rr : get rr 0 = 0 /\ get rr 4 = cn A /\ get rr 0 <= get rr 1 /\ get rr 1 <= get rr 2 /\ get rr 2 <= get rr 3 /\ get rr 3 <= get rr 4;
  ly_cc : get cc 0 = 0 /\ get cc 4 = cm A /\ get cc 0 <= get cc 1 /\ get cc 2 = get cc 1 + get rr 1 /\ get cc 3 = get cc 1 + get rr 2 /\ get cc 4 = get cc 1 + get rr 3;
  ly_i : forall a, 0 <= a < cn A -> get wi (get p a) = if a <? get rr 1 then 1 else if a <? get rr 2 then -1 else if a <? get rr 3 then 3 else 0;
  ly_j : forall b, 0 <= b < cm A -> get wj (get q b) = if b <? get cc 1 then 0 else if b <? get cc 2 then 1 else if b <? get cc 3 then -1 else 3;
  ly_diag : forall x, 0 <= x < get rr 3 -> get q (get cc 1 + x) = get jm (get p x)
}.

Lemma perm_list n l : 0 <= n -> NoDup l -> (forall x, In x l <-> 0 <= x < n) -> is_perm n l.
Proof.
  intros Hn HN H. assert (P : Permutation l (zseq 0 n)).
  { apply NoDup_Permutation; auto; [apply NoDup_zseq|]. intros x. rewrite H, In_zseq. tauto. }
  assert (L : len l = n). { apply Permutation_length in P. pose proof (len_zseq 0 n). unfold len in *. lia. }
  split; [auto|]. split.
  - intros i Hi. apply H. apply get_In. lia.
  - intros i j Hi Hj E. rewrite NoDup_nth with (d := 0) in HN. specialize (HN (Z.to_nat i) (Z.to_nat j)).
    unfold get, getd in E. replace (i <? 0) with false in E by lia. replace (j <? 0) with false in E by lia. unfold len in L.
    assert (Z.to_nat i = Z.to_nat j) by (apply HN; auto; lia). lia.
Qed.

Section lay.
Context (A : csr) (HA : wf A) (jm im wi wj : list Z) (M : matching A jm im) (K : marks A jm im wi wj).
Local Notation n := (cn A).
Local Notation m := (cm A).
Definition Cs (mark : Z) : list Z := filter (fun j => get wj j =? mark) (zseq 0 m).
Definition R0 : list Z := filter (fun i => get wi i =? 0) (zseq 0 n).
Definition CM : list Z := Cs 1 ++ Cs (-1) ++ Cs 3.
Lemma In_Cs k j : In j (Cs k) <-> 0 <= j < m /\ get wj j = k.
Proof. unfold Cs. rewrite filter_In, In_zseq. lia. Qed.
Lemma In_CM j : In j CM <-> 0 <= j < m /\ 0 <= get im j.
Proof.
  unfold CM. rewrite !in_app_iff, !In_Cs. split.
  - intros H. assert (Hj : 0 <= j < m) by tauto. split; auto. destruct (ma_col _ _ _ M j Hj) as [E|]; [|tauto]. apply (k_uj _ _ _ _ _ K j Hj) in E. lia.
  - intros (Hj & H). destruct (k_rj _ _ _ _ _ K j Hj) as [|[E|[|]]]; auto. apply (k_uj _ _ _ _ _ K j Hj) in E. lia.
Qed.
Lemma NoDup_Cs k : NoDup (Cs k).
Proof. apply NoDup_filter, NoDup_zseq. Qed.
Lemma NoDup_CM : NoDup CM.
Proof.
  unfold CM. apply NoDup_app; [apply NoDup_Cs|apply NoDup_app; try apply NoDup_Cs|].
  - intros a. rewrite !In_Cs. lia.
  - intros a. rewrite in_app_iff, !In_Cs. lia.
Qed.
Lemma q_perm : is_perm m (Cs 0 ++ CM).
Proof.
  apply perm_list; [apply HA| |].
  - apply NoDup_app; [apply NoDup_Cs|apply NoDup_CM|]. intros j. rewrite In_Cs, In_CM. intros (Hj & E) (_ & H). apply (k_uj _ _ _ _ _ K j Hj) in E. lia.
  - intros j. rewrite in_app_iff, In_Cs, In_CM. split; [tauto|]. intros Hj. destruct (ma_col _ _ _ M j Hj) as [E|(E & _)]; [left|right; lia].
    split; auto. now apply (k_uj _ _ _ _ _ K).
Qed.
Lemma p_perm : is_perm n (map (get im) CM ++ R0).
Proof.
  apply perm_list; [apply HA| |].
  - apply NoDup_app; [apply NoDup_map_in; [apply NoDup_CM|]|apply NoDup_filter, NoDup_zseq|].
    + intros a b. rewrite !In_CM. intros (Ha & Ha') (Hb & Hb') E.
      destruct (ma_col _ _ _ M a Ha) as [|(_ & Ea)]; [lia|]. destruct (ma_col _ _ _ M b Hb) as [|(_ & Eb)]; [lia|]. congruence.
    + intros i. rewrite in_map_iff. intros (j & <- & Hj) Hi. apply In_CM in Hj. destruct Hj as (Hj & Hj').
      destruct (ma_col _ _ _ M j Hj) as [|(Ri & Ej)]; [lia|]. unfold R0 in Hi. rewrite filter_In in Hi. destruct Hi as (_ & E).
      assert (E' : get jm (get im j) = -1) by (apply (k_ui _ _ _ _ _ K); auto; lia). lia.
  - intros i. rewrite in_app_iff, in_map_iff. unfold R0. rewrite filter_In, In_zseq. split.
    + intros [(j & <- & Hj)|]; [|tauto]. apply In_CM in Hj. destruct Hj as (Hj & Hj'). destruct (ma_col _ _ _ M j Hj) as [|(Ri & _)]; [lia|auto].
    + intros Hi. destruct (ma_row _ _ _ M i Hi) as [E|(Rj & _ & Ei)].
      * right. split; auto. apply (k_ui _ _ _ _ _ K i Hi) in E. lia.
      * left. exists (get jm i). split; auto. apply In_CM. split; auto. lia.
Qed.
Definition rr_of : list Z := [0; len (Cs 1); len (Cs 1) + len (Cs (-1)); len (Cs 1) + len (Cs (-1)) + len (Cs 3); len (Cs 1) + len (Cs (-1)) + len (Cs 3) + len R0].
Definition cc_of : list Z := [0; len (Cs 0); len (Cs 0) + len (Cs 1); len (Cs 0) + len (Cs 1) + len (Cs (-1)); len (Cs 0) + len (Cs 1) + len (Cs (-1)) + len (Cs 3)].
Lemma rr_get : get rr_of 0 = 0 /\ get rr_of 1 = len (Cs 1) /\ get rr_of 2 = len (Cs 1) + len (Cs (-1)) /\ get rr_of 3 = len (Cs 1) + len (Cs (-1)) + len (Cs 3) /\
  get rr_of 4 = len (Cs 1) + len (Cs (-1)) + len (Cs 3) + len R0.
Proof. do 4 (split; [reflexivity|]). reflexivity. Qed.
Lemma cc_get : get cc_of 0 = 0 /\ get cc_of 1 = len (Cs 0) /\ get cc_of 2 = len (Cs 0) + len (Cs 1) /\ get cc_of 3 = len (Cs 0) + len (Cs 1) + len (Cs (-1)) /\
  get cc_of 4 = len (Cs 0) + len (Cs 1) + len (Cs (-1)) + len (Cs 3).
Proof. do 4 (split; [reflexivity|]). reflexivity. Qed.
Lemma len_CM : len CM = len (Cs 1) + len (Cs (-1)) + len (Cs 3).
Proof. unfold CM. rewrite !len_app. lia. Qed.
Lemma CM_mark x : 0 <= x < len CM -> 0 <= get CM x < m /\ 0 <= get im (get CM x) /\
  get wj (get CM x) = if x <? len (Cs 1) then 1 else if x <? len (Cs 1) + len (Cs (-1)) then -1 else 3.
Proof.
  intros Hx. pose proof (get_In CM x Hx) as H. apply In_CM in H. split; [tauto|]. split; [tauto|]. rewrite len_CM in Hx.
  unfold CM. destruct (Z.ltb_spec x (len (Cs 1))).
  - rewrite get_app_l by lia. apply (In_Cs 1). apply get_In. lia.
  - rewrite get_app_r by lia. destruct (Z.ltb_spec x (len (Cs 1) + len (Cs (-1)))).
    + rewrite get_app_l by lia. apply (In_Cs (-1)). apply get_In. lia.
    + rewrite get_app_r by lia. apply (In_Cs 3). apply get_In. lia.
Qed.
Lemma get_map f (l : list Z) x : 0 <= x < len l -> get (map f l) x = f (get l x).
Proof.
  intros Hx. unfold get, getd. replace (x <? 0) with false by lia. rewrite (nth_indep _ 0 (f 0)) by (rewrite map_length; unfold len in Hx; lia). apply map_nth.
Qed.
Lemma layout_lists : layout A jm im wi wj (map (get im) CM ++ R0) (Cs 0 ++ CM) rr_of cc_of.
Proof.
  pose proof p_perm as Pp. pose proof q_perm as Pq. pose proof (proj1 Pp) as Lp. pose proof (proj1 Pq) as Lq. rewrite len_app, len_map, len_CM in Lp. rewrite len_app, len_CM in Lq.
  pose proof (len_nonneg (Cs 0)). pose proof (len_nonneg (Cs 1)). pose proof (len_nonneg (Cs (-1))). pose proof (len_nonneg (Cs 3)). pose proof (len_nonneg R0).
  destruct rr_get as (G0 & G1 & G2 & G3 & G4). destruct cc_get as (D0 & D1 & D2 & D3 & D4).
  constructor; auto; rewrite ?G0, ?G1, ?G2, ?G3, ?G4, ?D0, ?D1, ?D2, ?D3, ?D4.
  -  lia.
  -  lia.
  -  intros a Ha. destruct (Z_lt_ge_dec a (len CM)) as [Hc|Hc].
    + rewrite get_app_l by (rewrite len_map; lia). rewrite get_map by lia. destruct (CM_mark a ltac:(lia)) as (C1 & C2 & C3).
      destruct (ma_col _ _ _ M _ C1) as [|(Ri & Ej)]; [lia|]. pose proof (k_pair _ _ _ _ _ K _ Ri ltac:(lia)) as E. rewrite Ej in E. rewrite <- E, C3. rewrite len_CM in Hc.
      now replace (a <? len (Cs 1) + len (Cs (-1)) + len (Cs 3)) with true by lia.
    + rewrite get_app_r by (rewrite len_map; lia). rewrite len_CM in Hc.
      replace (a <? len (Cs 1)) with false by lia. replace (a <? len (Cs 1) + len (Cs (-1))) with false by lia. replace (a <? len (Cs 1) + len (Cs (-1)) + len (Cs 3)) with false by lia.
      assert (HI : In (get R0 (a - len (map (get im) CM))) R0) by (apply get_In; rewrite len_map, len_CM; lia). unfold R0 in HI at 2. rewrite filter_In in HI. lia.
  -  intros b Hb. destruct (Z.ltb_spec b (len (Cs 0))) as [Hc|Hc].
    + rewrite get_app_l by lia. apply In_Cs. apply get_In. lia.
    + rewrite get_app_r by lia. destruct (CM_mark (b - len (Cs 0))) as (_ & _ & ->); [rewrite len_CM; lia|].
      replace (b - len (Cs 0) <? len (Cs 1)) with (b <? len (Cs 0) + len (Cs 1)) by lia.
      now replace (b - len (Cs 0) <? len (Cs 1) + len (Cs (-1))) with (b <? len (Cs 0) + len (Cs 1) + len (Cs (-1))) by lia.
  -  intros x Hx. pose proof len_CM. rewrite get_app_r by lia. rewrite get_app_l by (rewrite len_map; lia). rewrite get_map by lia.
    replace (len (Cs 0) + x - len (Cs 0)) with x by lia. destruct (CM_mark x ltac:(lia)) as (C1 & C2 & _). destruct (ma_col _ _ _ M _ C1) as [|(_ & Ej)]; [lia|]. auto.
Qed.

Ltac c5 := change (0 + 1) with 1 in *; change (1 + 1) with 2 in *; change (2 + 1) with 3 in *; change (3 + 1) with 4 in *;
  change (1 - 1) with 0 in *; change (2 - 1) with 1 in *; change (3 - 1) with 2 in *;
  repeat match goal with
  | |- context [get [?a; ?b; ?c; ?d; ?e] 0] => change (get [a; b; c; d; e] 0) with a
  | |- context [get [?a; ?b; ?c; ?d; ?e] 1] => change (get [a; b; c; d; e] 1) with b
  | |- context [get [?a; ?b; ?c; ?d; ?e] 2] => change (get [a; b; c; d; e] 2) with c
  | |- context [get [?a; ?b; ?c; ?d; ?e] 3] => change (get [a; b; c; d; e] 3) with d
  | |- context [len [?a; ?b; ?c; ?d; ?e]] => change (len [a; b; c; d; e]) with 5
  | |- context [upd [?a; ?b; ?c; ?d; ?e] 1 ?x] => change (upd [a; b; c; d; e] 1 x) with [a; x; c; d; e]
  | |- context [upd [?a; ?b; ?c; ?d; ?e] 2 ?x] => change (upd [a; b; c; d; e] 2 x) with [a; b; x; d; e]
  | |- context [upd [?a; ?b; ?c; ?d; ?e] 3 ?x] => change (upd [a; b; c; d; e] 3 x) with [a; b; c; x; e]
  | |- context [upd [?a; ?b; ?c; ?d; ?e] 4 ?x] => change (upd [a; b; c; d; e] 4 x) with [a; b; c; d; x]
  end.
Theorem collect_all p q : len p = n -> len q = m ->
  sat ('(q, cc) <- collect_unmatched m wj q [0; 0; 0; 0; 0] 0 ;;
       '(p, q, cc, rr) <- collect_matched m wj im p q cc [0; 0; 0; 0; 0] 1 1 ;;
       '(p, q, cc, rr) <- collect_matched m wj im p q cc rr 2 (-1) ;;
       '(p, q, cc, rr) <- collect_matched m wj im p q cc rr 3 3 ;;
       '(p, rr) <- collect_unmatched n wi p rr 3 ;; Ok (p, q, rr, cc))
    (fun '(p, q, rr, cc) => layout A jm im wi wj p q rr cc).
Proof.
  intros Lp0 Lq0. pose proof p_perm as Pp. pose proof q_perm as Pq. pose proof (proj1 Pp) as Lp. pose proof (proj1 Pq) as Lq. rewrite len_app, len_map, len_CM in Lp. rewrite len_app, len_CM in Lq.
  pose proof (len_nonneg (Cs 0)). pose proof (len_nonneg (Cs 1)). pose proof (len_nonneg (Cs (-1))). pose proof (len_nonneg (Cs 3)). pose proof (len_nonneg R0).
  pose proof (wf_n A HA) as Hn. pose proof (wf_m A HA) as Hm. pose proof (k_li _ _ _ _ _ K) as Li. pose proof (k_lj _ _ _ _ _ K) as Lj. pose proof (ma_lenq _ _ _ M) as Lim.
  apply sat_bind. eapply sat_mono; [apply collect_unmatched_spec; fold (Cs 0); c5; lia|]. fold (Cs 0).
  intros [q1 cc1] (Wq1 & Ecc). revert Wq1 Ecc. c5. intros Wq1 ->. pose proof Wq1 as (Lq1 & _).
  apply sat_bind. eapply sat_mono; [apply collect_matched_spec; fold (Cs 1); c5; lia|]. fold (Cs 1).
  intros [[[p2 q2] cc2] rr2] (Wq2 & Wp2 & Ecc & Err). revert Wq2 Wp2 Ecc Err. c5. intros Wq2 Wp2 -> ->. pose proof Wq2 as (Lq2 & _). pose proof Wp2 as (Lp2 & _).
  apply sat_bind. eapply sat_mono; [apply collect_matched_spec; fold (Cs (-1)); c5; lia|]. fold (Cs (-1)).
  intros [[[p3 q3] cc3] rr3] (Wq3 & Wp3 & Ecc & Err). revert Wq3 Wp3 Ecc Err. c5. intros Wq3 Wp3 -> ->. pose proof Wq3 as (Lq3 & _). pose proof Wp3 as (Lp3 & _).
  apply sat_bind. eapply sat_mono; [apply collect_matched_spec; fold (Cs 3); c5; lia|]. fold (Cs 3).
  intros [[[p4 q4] cc4] rr4] (Wq4 & Wp4 & Ecc & Err). revert Wq4 Wp4 Ecc Err. c5. intros Wq4 Wp4 -> ->. pose proof Wq4 as (Lq4 & _). pose proof Wp4 as (Lp4 & _).
  apply sat_bind. eapply sat_mono; [apply collect_unmatched_spec; fold R0; c5; lia|]. fold R0.
  intros [p5 rr5] (Wp5 & Err). revert Wp5 Err. c5. intros Wp5 ->. wp.
  assert (Eq : q4 = Cs 0 ++ CM).
  { apply (wrote_all q); [|rewrite len_app, len_CM; lia]. unfold CM. eapply wrote_app; [exact Wq1|]. eapply wrote_app; [exact Wq2|].
    eapply wrote_app; [exact Wq3|exact Wq4]. }
  assert (Ep : p5 = map (get im) CM ++ R0).
  { apply (wrote_all p); [|rewrite len_app, len_map, len_CM; lia]. unfold CM. rewrite !map_app, <- !app_assoc. eapply wrote_app; [exact Wp2|]. rewrite len_map. eapply wrote_app; [exact Wp3|].
    rewrite len_map. eapply wrote_app; [exact Wp4|]. rewrite len_map. exact Wp5. }
  subst. apply layout_lists.
Qed.
End lay.
