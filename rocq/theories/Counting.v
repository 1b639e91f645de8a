(** Counting by injections. *)
From Verif Require Import Base BaseFacts Spec SpecFacts Mat MatFacts RowList.
From Coq Require Import ZifyBool.

Definition b1 (b : bool) : Z := if b then 1 else 0.
Lemma count_filter (P : Z -> bool) n : 0 <= n -> sum 0 n (fun i => b1 (P i)) = len (filter P (zseq 0 n)).
Proof.
  intros Hn. pattern n. apply (range_ind _ 0 n); try lia.
  - rewrite sum_empty by lia. reflexivity.
  - intros k Hk IH. rewrite sum_S, IH by lia.
    assert (E : zseq 0 (k + 1) = zseq 0 k ++ [k]) by (apply zseq_S; lia).
    rewrite E, filter_app, len_app. cbn [filter]. destruct (P k); cbn; reflexivity.
Qed.
(* an injection from the P below n to the Q below m *)
Lemma count_inj (P Q : Z -> bool) (f : Z -> Z) n m : 0 <= n -> 0 <= m ->
  (forall i, 0 <= i < n -> P i = true -> 0 <= f i < m /\ Q (f i) = true) ->
  (forall i k, 0 <= i < n -> 0 <= k < n -> P i = true -> P k = true -> f i = f k -> i = k) ->
  sum 0 n (fun i => b1 (P i)) <= sum 0 m (fun i => b1 (Q i)).
Proof.
  intros Hn Hm HR HI. rewrite !count_filter by auto.
  rewrite <- (len_map f (filter P (zseq 0 n))). unfold len. apply inj_le. apply NoDup_incl_length.
  - assert (HN : NoDup (filter P (zseq 0 n))) by (apply NoDup_filter, NoDup_zseq).
    assert (HS : forall x, In x (filter P (zseq 0 n)) -> 0 <= x < n /\ P x = true)
      by (intros x Hx; apply filter_In in Hx; destruct Hx as (Hx & E); apply In_zseq in Hx; auto).
    revert HN HS. induction (filter P (zseq 0 n)) as [|a l IH]; intros HN HS; [constructor|].
    inversion HN as [|? ? H1 H2]; subst. cbn. constructor.
    + rewrite in_map_iff. intros (b & E & Hb). destruct (HS a) as (? & ?); [now left|]. destruct (HS b) as (? & ?); [now right|].
      assert (b = a) by (apply HI; auto). congruence.
    + apply IH; auto. intros x Hx. apply HS. now right.
  - intros y Hy. apply in_map_iff in Hy. destruct Hy as (x & <- & Hx). apply filter_In in Hx. destruct Hx as (Hx & E).
    apply In_zseq in Hx. destruct (HR x Hx E). apply filter_In. rewrite In_zseq. auto.
Qed.
Lemma count_le (P : Z -> bool) n : 0 <= n -> 0 <= sum 0 n (fun i => b1 (P i)) <= n.
Proof.
  intros Hn. split.
  - apply sum_nonneg. intros. unfold b1. destruct (P i); lia.
  - replace n with (sum 0 n (fun _ => 1)) at 2 by (rewrite sum_const by lia; lia). apply sum_le. intros. unfold b1. destruct (P i); lia.
Qed.
Lemma count_full (P : Z -> bool) n : 0 <= n -> n <= sum 0 n (fun i => b1 (P i)) -> forall i, 0 <= i < n -> P i = true.
Proof.
  intros Hn H i Hi. destruct (P i) eqn:E; auto. exfalso.
  rewrite (sum_pick _ _ _ i Hi), E in H. cbn in H.
  assert (sum 0 n (fun k => if k =? i then 0 else b1 (P k)) <= sum 0 n (fun k => if k =? i then 0 else 1)).
  { apply sum_le. intros k Hk. unfold b1. destruct (k =? i); [lia|]. destruct (P k); lia. }
  assert (n = sum 0 n (fun k => 1)) by (rewrite sum_const; lia).
  rewrite (sum_pick 0 n (fun _ => 1) i Hi) in H1. lia.
Qed.
Lemma count_flip (P Q : Z -> bool) n i : 0 <= i < n -> P i = false -> Q i = true -> (forall k, 0 <= k < n -> k <> i -> P k = Q k) ->
  sum 0 n (fun k => b1 (Q k)) = sum 0 n (fun k => b1 (P k)) + 1.
Proof.
  intros Hi E1 E2 H. rewrite (sum_pick _ _ _ i Hi), (sum_pick 0 n (fun k => b1 (P k)) i Hi), E1, E2.
  rewrite (sum_ext 0 n (fun k => if k =? i then 0 else b1 (Q k)) (fun k => if k =? i then 0 else b1 (P k))). { change (b1 true) with 1. change (b1 false) with 0. ring. }
  intros k Hk. destruct (Z.eqb_spec k i); auto. rewrite H; auto.
Qed.
