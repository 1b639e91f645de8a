(** Counting-sort dispatch of entries into rows: shared by the proofs about
    spasm_transpose and spasm_compress. *)
From Verif Require Import Base BaseFacts Spec Zp Mat MatFacts.

Section dispatch.
Context (N n : Z) (key : Z -> Z).
Context (HN : 0 <= N) (Hn : 0 <= n) (Hkey : forall k, 0 <= k < N -> 0 <= key k < n).

Definition cnt (k j : Z) : Z := sum 0 k (fun q => if key q =? j then 1 else 0).
Definition start (j : Z) : Z := sum 0 N (fun q => if key q <? j then 1 else 0).

Lemma cnt_S k j : 0 <= k -> cnt (k + 1) j = cnt k j + if key k =? j then 1 else 0.
Proof. intros H. unfold cnt. now rewrite sum_S by lia. Qed.
Lemma cnt_nonneg k j : 0 <= cnt k j.
Proof. apply sum_nonneg. intros i _. destruct (key i =? j); lia. Qed.
Lemma cnt_mono k l j : 0 <= k <= l -> cnt k j <= cnt l j.
Proof.
  intros H. unfold cnt. rewrite (sum_split k 0 l) by lia.
  assert (0 <= sum k l (fun q => if key q =? j then 1 else 0)); [|lia].
  apply sum_nonneg. intros i _. destruct (key i =? j); lia.
Qed.
Lemma start_S j : start (j + 1) = start j + cnt N j.
Proof.
  unfold start, cnt. rewrite <- sum_add. apply sum_ext. intros q _.
  destruct (Z.ltb_spec (key q) (j + 1)), (Z.ltb_spec (key q) j), (Z.eqb_spec (key q) j); lia.
Qed.
Lemma start_0 : start 0 = 0.
Proof. apply sum_zero. intros q Hq. specialize (Hkey q Hq). now replace (key q <? 0) with false by lia. Qed.
Lemma start_n : start n = N.
Proof.
  unfold start. rewrite (sum_ext _ _ _ (fun _ => 1)).
  - rewrite sum_const by lia. lia.
  - intros q Hq. specialize (Hkey q Hq). now replace (key q <? n) with true by lia.
Qed.
Lemma start_mono i j : i <= j -> start i <= start j.
Proof.
  intros H. apply sum_le. intros q _.
  destruct (Z.ltb_spec (key q) i), (Z.ltb_spec (key q) j); lia.
Qed.
Lemma start_nonneg j : 0 <= start j.
Proof. apply sum_nonneg. intros q _. destruct (key q <? j); lia. Qed.
Lemma start_le j : start j <= N.
Proof.
  unfold start. replace N with (sum 0 N (fun _ => 1)) at 2 by (rewrite sum_const by lia; lia).
  apply sum_le. intros q _. destruct (key q <? j); lia.
Qed.

(** counting *)
Definition counted (k : Z) (w : list Z) : Prop :=
  len w = n /\ forall j, 0 <= j < n -> get w j = cnt k j.

Lemma counted_0 w : len w = n -> (forall j, 0 <= j < n -> get w j = 0) -> counted 0 w.
Proof. intros Hl H. split; auto. Qed.

Lemma counted_step k w : 0 <= k < N -> counted k w ->
  counted (k + 1) (upd w (key k) (get w (key k) + 1)).
Proof.
  intros Hk [Hl Hw]. specialize (Hkey k Hk). split. { now len. }
  intros j Hj. rewrite get_upd_in by lia. rewrite cnt_S by lia.
  destruct (Z.eqb_spec (key k) j); rewrite ?Hw by lia; subst; lia.
Qed.

(** prefix sums: the loop computing row pointers in both Cp and w *)
Lemma prefix_spec Cp w (Q : list Z * list Z * Z -> Prop) :
  len Cp = n + 1 -> counted N w ->
  (forall Cp w, len Cp = n + 1 -> len w = n ->
     (forall j, 0 <= j < n -> get Cp j = start j) ->
     (forall j, 0 <= j < n -> get w j = start j) -> Q (Cp, w, N)) ->
  sat (for_ 0 n (fun k '(Cp, w, s) =>
      Cp <- aset Cp k s ;;
      c <- aget w k ;;
      w <- aset w k s ;;
      Ok (Cp, w, s + c)) (Cp, w, 0)) Q.
Proof.
  intros HC [Hl Hw] HQ.
  apply (for_spec (fun k '(Cp, w, s) => len Cp = n + 1 /\ len w = n /\ s = start k /\
     (forall j, 0 <= j < k -> get Cp j = start j) /\
     (forall j, 0 <= j < n -> get w j = if j <? k then start j else cnt N j))).
  - lia.
  - split; [auto|split; [auto|split; [now rewrite start_0|split]]].
    + lia.
    + intros j Hj. replace (j <? 0) with false by lia. auto.
  - intros k [[C v] s] Hk (H1 & H2 & -> & H3 & H4). wp; try lia.
    len. repeat split; auto.
    + rewrite start_S, H4 by lia. now replace (k <? k) with false by lia.
    + intros j Hj. rewrite get_upd_in by lia. destruct (Z.eqb_spec k j); subst; auto.
      apply H3; lia.
    + intros j Hj. rewrite get_upd_in by lia. destruct (Z.eqb_spec k j).
      * subst. now replace (j <? j + 1) with true by lia.
      * rewrite H4 by lia. destruct (Z.ltb_spec j k), (Z.ltb_spec j (k + 1)); auto; lia.
  - intros [[C v] s] (H1 & H2 & -> & H3 & H4). rewrite start_n. apply HQ; auto.
    intros j Hj. rewrite H4 by lia. now replace (j <? n) with true by lia.
Qed.

(** dispatching *)
Context (a b : Z -> Z).

(* after k items; [f] ranges over all functions of (column, value): the bucket
   contains exactly the items with this key *)
Definition Disp (k : Z) (w J : list Z) (X : option (list Z)) : Prop :=
  len w = n /\ len J = N /\ olen X N /\
  (forall j, 0 <= j < n -> get w j = start j + cnt k j) /\
  (forall f j, 0 <= j < n ->
     sum (start j) (start j + cnt k j) (fun py => f (get J py) (oval X py))
     = sum 0 k (fun q => if key q =? j then f (a q) (b q) else 0)).

Lemma Disp_0 w J X : len w = n -> len J = N -> olen X N ->
  (forall j, 0 <= j < n -> get w j = start j) -> Disp 0 w J X.
Proof.
  intros H1 H2 H3 H4. unfold Disp. split; [auto|split; [auto|split; [auto|split]]].
  - intros j Hj. rewrite H4 by auto. unfold cnt. rewrite sum_empty by lia. lia.
  - intros f j Hj. unfold cnt. rewrite !(sum_empty 0 0) by lia. rewrite sum_empty by lia. reflexivity.
Qed.

Lemma Disp_pos k w J X : 0 <= k < N -> Disp k w J X ->
  0 <= key k < n /\ get w (key k) = start (key k) + cnt k (key k) /\
  0 <= get w (key k) < N.
Proof.
  intros Hk (H1 & H2 & H3 & H4 & H5). specialize (Hkey k Hk). split; auto.
  rewrite H4 by auto. split; auto.
  pose proof (start_nonneg (key k)). pose proof (cnt_nonneg k (key k)).
  pose proof (cnt_mono (k + 1) N (key k) ltac:(lia)) as Hm.
  rewrite cnt_S, Z.eqb_refl in Hm by lia.
  pose proof (start_S (key k)). pose proof (start_le (key k + 1)). lia.
Qed.

Lemma Disp_step k w J X : 0 <= k < N -> Disp k w J X ->
  (X = None -> b k = 1) ->
  Disp (k + 1) (upd w (key k) (get w (key k) + 1)) (upd J (get w (key k)) (a k))
       (oupd X (get w (key k)) (b k)).
Proof.
  intros Hk HD HX. pose proof (Disp_pos k w J X Hk HD) as (Hkk & Hw & Hpos).
  destruct HD as (H1 & H2 & H3 & H4 & H5).
  unfold Disp. len. split; [auto|split; [auto|split; [now apply olen_oupd|split]]].
  - intros j Hj. rewrite get_upd_in by lia. rewrite cnt_S by lia.
    destruct (Z.eqb_spec (key k) j); rewrite ?H4 by lia; subst; lia.
  - intros f j Hj. rewrite cnt_S, sum_S by lia.
    pose proof (cnt_nonneg k j). pose proof (start_nonneg j).
    assert (Hval : forall py, oval (oupd X (get w (key k)) (b k)) py
       = if get w (key k) =? py then b k else oval X py).
    { intros py. rewrite (oval_oupd X _ _ py N) by (auto; lia).
      destruct X; auto. simpl. destruct (_ =? py); auto. now rewrite HX. }
    destruct (Z.eqb_spec (key k) j) as [E|E].
    + subst j. rewrite Z.add_assoc, sum_S by lia. f_equal.
      * rewrite <- H5 by auto. apply sum_ext. intros py Hpy.
        rewrite Hval, get_upd_in by lia.
        now replace (get w (key k) =? py) with false by lia.
      * rewrite Hval, get_upd_in by lia. rewrite Hw, Z.eqb_refl. reflexivity.
    + rewrite !Z.add_0_r. rewrite <- H5 by auto. apply sum_ext. intros py Hpy.
      assert (get w (key k) <> py).
      { rewrite Hw. pose proof (cnt_mono (k + 1) N (key k) ltac:(lia)) as Hm.
        rewrite cnt_S, Z.eqb_refl in Hm by lia. pose proof (cnt_nonneg k (key k)).
        pose proof (start_S (key k)). pose proof (start_S j).
        pose proof (cnt_mono k N j ltac:(lia)).
        destruct (Z_lt_le_dec (key k) j).
        - pose proof (start_mono (key k + 1) j ltac:(lia)). lia.
        - pose proof (start_mono (j + 1) (key k) ltac:(lia)). lia. }
      rewrite Hval, get_upd_in by lia.
      now replace (get w (key k) =? py) with false by lia.
Qed.

(** Every stored element comes from an item, so any property of items is inherited. *)
Lemma Disp_all w J X (R : Z -> Z -> bool) j py : Disp N w J X -> 0 <= j < n ->
  start j <= py < start (j + 1) ->
  (forall q, 0 <= q < N -> key q = j -> R (a q) (b q) = true) ->
  R (get J py) (oval X py) = true.
Proof.
  intros (H1 & H2 & H3 & H4 & H5) Hj Hpy HR.
  specialize (H5 (fun x y => if R x y then 0 else 1) j Hj).
  rewrite <- start_S in H5. rewrite (sum_zero 0 N) in H5.
  - destruct (R (get J py) (oval X py)) eqn:E; auto. exfalso.
    rewrite (sum_pick _ _ _ py Hpy) in H5. cbv beta in H5. rewrite E in H5.
    assert (0 <= sum (start j) (start (j + 1))
      (fun i => if i =? py then 0 else if R (get J i) (oval X i) then 0 else 1)); [|lia].
    apply sum_nonneg. intros i _. cbv beta. destruct (i =? py); try lia. destruct (R (get J i) (oval X i)); lia.
  - intros q Hq. destruct (Z.eqb_spec (key q) j); auto. now rewrite HR.
Qed.
End dispatch.
