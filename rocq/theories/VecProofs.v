(** Proofs about vector permutations, random permutations, matrix-vector products
    and insertion of entries (src/spasm_permutation.c, src/spasm_spmv.c,
    src/spasm_scatter.c, src/spasm_triplet.c). *)
From Verif Require Import Base BaseFacts Spec SpecFacts Zp ZpFacts Mat MatFacts RowList.

(** ** Permuting vectors *)
Lemma pvec_ok p b x n : 0 <= n -> is_operm n p -> n <= len b -> n <= len x ->
  sat (pvec p b x n) (fun y => len y = len x /\
    forall i, get y i = if (0 <=? i) && (i <? n) then get b (oapply p i) else get x i).
Proof.
  intros Hn Hp Hb Hx. unfold pvec.
  apply (for_spec (fun k y => len y = len x /\
    forall i, get y i = if (0 <=? i) && (i <? k) then get b (oapply p i) else get x i)); auto.
  - split; auto. intros i. now destruct (Z.leb_spec 0 i), (Z.ltb_spec i 0); try lia.
  - intros k y Hk (L & H). pose proof (operm_range n p k Hp Hk). wp.
    apply (sat_operm_get _ _ n); auto. wp; try lia. len. split; auto. intros i.
    rewrite get_upd_in by lia. rewrite H. destruct (Z.eqb_spec k i).
    + subst i. now replace ((0 <=? k) && (k <? k + 1)) with true by lia.
    + now replace ((0 <=? i) && (i <? k + 1)) with ((0 <=? i) && (i <? k)) by lia.
Qed.

Lemma ipvec_ok p b x n : 0 <= n -> is_operm n p -> n <= len b -> n <= len x ->
  sat (ipvec p b x n) (fun y => len y = len x /\
    (forall i, 0 <= i < n -> get y (oapply p i) = get b i) /\
    (forall i, ~ 0 <= i < n -> get y i = get x i)).
Proof.
  intros Hn Hp Hb Hx. unfold ipvec.
  apply (for_spec (fun k y => len y = len x /\
    (forall i, 0 <= i < k -> get y (oapply p i) = get b i) /\
    (forall i, ~ 0 <= i < n -> get y i = get x i))); auto.
  - repeat split; auto; lia.
  - intros k y Hk (L & H1 & H2). pose proof (operm_range n p k Hp Hk). wp.
    apply (sat_operm_get _ _ n); auto. wp; try lia. len. repeat split; auto.
    + intros i Hi. rewrite get_upd_in by lia. destruct (Z.eqb_spec (oapply p k) (oapply p i)) as [E|E].
      * apply (operm_inj n) in E; auto; try lia. congruence.
      * apply H1. destruct (Z.eq_dec i k); subst; lia.
    + intros i Hi. rewrite get_upd_ne by lia. auto.
Qed.

Lemma pinv_ok g p n : 0 <= n -> is_operm n p ->
  sat (pinv g p n) (fun q => (q = None <-> p = None) /\ is_operm n q /\
    forall i, 0 <= i < n -> oapply q (oapply p i) = i /\ oapply p (oapply q i) = i).
Proof.
  intros Hn Hp. unfold pinv. destruct p as [p|].
  2:{ wp. simpl. repeat split; auto. }
  wp. apply (for_spec (fun k q => len q = n /\ forall i, 0 <= i < k -> get q (get p i) = i)); auto.
  - rewrite len_malloc. split; lia.
  - intros k q Hk (L & H). pose proof Hp as (P1 & P2 & P3). pose proof (P2 k Hk). wp; try lia. len. split; auto.
    intros i Hi. rewrite get_upd_in by lia. destruct (Z.eqb_spec (get p k) (get p i)) as [E|E].
    + apply P3 in E; lia.
    + apply H. destruct (Z.eq_dec i k); subst; lia.
  - intros q (L & H). wp. simpl in *. pose proof Hp as (P1 & P2 & P3).
    assert (H' : forall i, 0 <= i < n -> 0 <= get q i < n /\ get p (get q i) = i).
    { intros i Hi. destruct (perm_surj n p i Hp Hi) as (k & Hk & <-). rewrite H by auto. auto. }
    split; [split; congruence|]. split.
    + split; auto. split. { intros i Hi. now apply H'. }
      intros i j Hi Hj E. destruct (H' i Hi) as (_ & <-), (H' j Hj) as (_ & <-). now rewrite E.
    + intros i Hi. split; auto. now apply H'.
Qed.

Lemma range_pvec_ok x a b p : 0 <= a <= b -> b <= len x -> is_perm (b - a) p ->
  sat (range_pvec x a b p) (fun '(y, _) => len y = len x /\
    (forall i, 0 <= i < b - a -> get y (a + i) = get x (a + get p i)) /\
    (forall i, ~ a <= i < b -> get y i = get x i)).
Proof.
  intros Hab Hb (P1 & P2 & P3). unfold range_pvec. wp.
  apply (for_spec (fun k q => len q = b - a /\
    forall i, 0 <= i < b - a -> get q i = if i <? k then get x (a + get p i) else get p i)); try lia.
  - split; auto. intros i Hi. now replace (i <? 0) with false by lia.
  - intros k q Hk (L & H). pose proof (P2 k Hk).
    assert (E : get q k = get p k) by (rewrite H by lia; now replace (k <? k) with false by lia).
    wp; try lia. len. split; auto. intros i Hi. rewrite get_upd_in by lia.
    destruct (Z.eqb_spec k i).
    + subst i. replace (k <? k + 1) with true by lia. now rewrite E.
    + rewrite H by auto. now replace (i <? k + 1) with (i <? k) by lia.
  - intros q (L & H). wp.
    apply (for_spec (fun k y => len y = len x /\
      (forall i, 0 <= i < k -> get y (a + i) = get x (a + get p i)) /\
      (forall i, ~ a <= i < b -> get y i = get x i))); try lia.
    + repeat split; auto; lia.
    + intros k y Hk (L' & H1 & H2). wp; try lia. len. split; auto. split.
      * intros i Hi. rewrite get_upd_in by lia. destruct (Z.eqb_spec (a + k) (a + i)).
        -- replace i with k by lia. rewrite H by lia. now replace (k <? b - a) with true by lia.
        -- apply H1; lia.
      * intros i Hi. rewrite get_upd_ne by lia. auto.
    + intros y (L' & H1 & H2). wp. auto.
Qed.

(** ** Random permutations *)
Lemma swap_perm n p i j : is_perm n p -> 0 <= i < n -> 0 <= j < n ->
  is_perm n (upd (upd p i (get p j)) j (get p i)).
Proof.
  intros (P1 & P2 & P3) Hi Hj. unfold is_perm. rewrite !len_upd. split; auto.
  assert (E : forall k, 0 <= k < n -> get (upd (upd p i (get p j)) j (get p i)) k
     = get p (if j =? k then i else if i =? k then j else k)).
  { intros k Hk. rewrite !get_upd_in by (rewrite ?len_upd; lia).
    destruct (Z.eqb_spec j k), (Z.eqb_spec i k); congruence. }
  split.
  - intros k Hk. rewrite E by auto. apply P2. destruct (j =? k), (i =? k); lia.
  - intros k l Hk Hl. rewrite !E by auto. intros H. apply P3 in H.
    + destruct (Z.eqb_spec j k), (Z.eqb_spec j l), (Z.eqb_spec i k), (Z.eqb_spec i l); lia.
    + destruct (j =? k), (i =? k); lia.
    + destruct (j =? l), (i =? l); lia.
Qed.

Lemma random_permutation_ok g rand n : 0 <= n -> (forall k, 0 <= rand k) ->
  sat (random_permutation g rand n) (is_perm n).
Proof.
  intros Hn Hr. unfold random_permutation. wp.
  apply (for_spec (fun k p => len p = n /\ forall i, 0 <= i < k -> get p i = i)); auto.
  - rewrite len_malloc. split; lia.
  - intros k p Hk (L & H). wp; try lia. len. split; auto. intros i Hi. rewrite get_upd_in by lia.
    destruct (Z.eqb_spec k i); auto. apply H; lia.
  - intros p (L & H).
    assert (HP : is_perm n p).
    { split; auto. split; intros; rewrite !H in * by lia; lia. }
    destruct (Z_le_gt_dec n 1).
    { unfold for_down. rewrite for_empty by lia. exact HP. }
    apply (for_down_spec (fun _ p => is_perm n p)); try lia; auto.
    intros i q Hi HQ. pose proof HQ as (L' & _).
    assert (0 <= Z.rem (rand (n - 1 - i)) i < i).
    { split. apply Z.rem_nonneg; auto; lia. rewrite Z.rem_mod_nonneg by (auto; lia).
      apply Z.mod_pos_bound. lia. }
    wp; len; try lia. apply swap_perm; auto; lia.
Qed.

(** ** Matrix-vector products *)
Section spmv.
Context (A : csr) (HA : wf A) (Hp : 2 <= cprime A) (Hx : cx A <> None).
Local Notation p := (cprime A).

(* adding beta times a row, from inside a loop over its entries *)
Lemma row_axpy i beta y (body : Z -> list Z -> res (list Z)) : 0 <= i < cn A -> len y >= cm A ->
  (forall px y, rbeg A i <= px < rend A i -> len y >= cm A ->
     body px y = Ok (upd y (get (cj A) px) (zaxpy p beta (val A px) (get y (get (cj A) px))))) ->
  sat (for_ (rbeg A i) (rend A i) body y) (fun z => len z = len y /\
    (forall j, cong p (get z j) (get y j + beta * entry A i j)) /\
    (forall j, get z j = get y j \/ balanced p (get z j)) /\
    (forall j, ~ stored A i j -> get z j = get y j)).
Proof.
  intros Hi Hy Hb. pose proof (wf_row A HA i Hi) as Hrow.
  apply (for_spec (fun px z => len z = len y /\
    (forall j, cong p (get z j) (get y j + beta * sum (rbeg A i) px (fun q => if get (cj A) q =? j then val A q else 0))) /\
    (forall j, get z j = get y j \/ balanced p (get z j)) /\
    (forall j, ~ stored A i j -> get z j = get y j))); auto.
  - lia.
  - split; auto. split; auto. intros j. rewrite sum_empty by lia. apply cong_eq. lia.
  - intros px z Hpx (L & H1 & H2 & H3). pose proof (wf_col A HA px ltac:(lia)).
    rewrite Hb by (auto; lia). cbn. len. split; auto. split; [|split].
    + intros j. rewrite sum_S by lia. rewrite get_upd_in by lia.
      destruct (Z.eqb_spec (get (cj A) px) j) as [<-|].
      * rewrite zaxpy_cong, H1 by auto. apply cong_eq. ring.
      * rewrite H1. apply cong_eq. ring.
    + intros j. rewrite get_upd_in by lia. destruct (get (cj A) px =? j); auto.
      right. now apply zaxpy_balanced.
    + intros j Hj. rewrite get_upd_ne; auto. intros <-. apply Hj. exists px. auto.
Qed.

Lemma scatter_ok i beta x : 0 <= i < cn A -> cm A <= len x ->
  sat (scatter A i beta x) (fun y => len y = len x /\
    (forall j, cong p (get y j) (get x j + beta * entry A i j)) /\
    (forall j, get y j = get x j \/ balanced p (get y j)) /\
    (forall j, ~ stored A i j -> get y j = get x j)).
Proof.
  intros Hi Hl. pose proof (wf_row A HA i Hi) as Hrow. pose proof (wf_len A HA). pose proof (wf_nnz A HA).
  unfold scatter. wp; try lia. fold (rbeg A i) (rend A i). apply row_axpy; auto; [lia|].
  intros px y Hpx Hy. pose proof (wf_col A HA px ltac:(lia)). unfold val.
  destruct (cx A) as [Ax|] eqn:E; [|congruence]. pose proof (wf_vals A HA Ax E).
  cbn [bind deref]. rewrite !aget_ok by lia. cbn [bind]. rewrite !aget_ok by lia. cbn [bind].
  now rewrite aset_ok by lia.
Qed.

Lemma xApy_ok x y : cn A <= len x -> cm A <= len y ->
  sat (xApy x A y) (fun z => len z = len y /\
    (forall j, cong p (get z j) (get y j + sum 0 (cn A) (fun i => get x i * entry A i j))) /\
    (forall j, get z j = get y j \/ balanced p (get z j)) /\
    (forall j, ~ 0 <= j < cm A -> get z j = get y j)).
Proof.
  intros Hlx Hly. pose proof (wf_n A HA) as Hn. pose proof (wf_len A HA). pose proof (wf_nnz A HA).
  unfold xApy.
  apply (for_spec (fun k z => len z = len y /\
    (forall j, cong p (get z j) (get y j + sum 0 k (fun i => get x i * entry A i j))) /\
    (forall j, get z j = get y j \/ balanced p (get z j)) /\
    (forall j, ~ 0 <= j < cm A -> get z j = get y j))); auto.
  - repeat split; auto. intros j. rewrite sum_empty by lia. apply cong_eq. lia.
  - intros i z Hi (L & H1 & H2 & H3). pose proof (wf_row A HA i Hi) as Hrow. wp; try lia.
    fold (rbeg A i) (rend A i).
    eapply sat_mono. { apply (row_axpy i (get x i)); auto; [lia|].
      intros px w Hpx Hw. pose proof (wf_col A HA px ltac:(lia)). unfold val.
      destruct (cx A) as [Ax|] eqn:E; [|congruence]. pose proof (wf_vals A HA Ax E).
      cbn [bind deref]. rewrite !aget_ok by lia. cbn [bind]. rewrite !aget_ok by lia. cbn [bind].
      now rewrite aset_ok by lia. }
    intros w (L' & W1 & W2 & W3). split; [congruence|]. split; [|split].
    + intros j. rewrite W1, H1, sum_S by lia. apply cong_eq. ring.
    + intros j. destruct (W2 j) as [->|]; auto.
    + intros j Hj. rewrite <- H3 by auto. apply W3. intros (px & Hpx & <-). apply Hj, (wf_col A HA). lia.
Qed.

Lemma Axpy_ok x y : cm A <= len x -> cn A <= len y ->
  sat (Axpy A x y) (fun z => len z = len y /\
    (forall i, 0 <= i < cn A -> cong p (get z i) (get y i + sum 0 (cm A) (fun j => entry A i j * get x j))) /\
    (forall i, get z i = get y i \/ balanced p (get z i)) /\
    (forall i, ~ 0 <= i < cn A -> get z i = get y i)).
Proof.
  intros Hlx Hly. pose proof (wf_n A HA) as Hn. pose proof (wf_len A HA). pose proof (wf_nnz A HA).
  unfold Axpy.
  apply (for_spec (fun k z => len z = len y /\
    (forall i, 0 <= i < k -> cong p (get z i) (get y i + sum 0 (cm A) (fun j => entry A i j * get x j))) /\
    (forall i, get z i = get y i \/ balanced p (get z i)) /\
    (forall i, ~ 0 <= i < k -> get z i = get y i))); auto.
  - repeat split; auto; lia.
  - intros i z Hi (L & H1 & H2 & H3). pose proof (wf_row A HA i Hi) as Hrow. wp; try lia.
    fold (rbeg A i) (rend A i).
    apply (for_spec (fun px w => len w = len y /\
      cong p (get w i) (get y i + sum (rbeg A i) px (fun q => val A q * get x (get (cj A) q))) /\
      (get w i = get y i \/ balanced p (get w i)) /\
      (forall k, k <> i -> get w k = get z k))).
    + lia.
    + rewrite sum_empty by lia. rewrite H3 by lia. repeat split; auto. apply cong_eq. lia.
    + intros px w Hpx (L' & W1 & W2 & W3). pose proof (wf_col A HA px ltac:(lia)).
      rewrite sum_S by lia. unfold val at 2.
      destruct (cx A) as [Ax|] eqn:E; [|congruence]. pose proof (wf_vals A HA Ax E).
      cbn [deref]. wp; try lia. len. rewrite get_upd_eq by lia. split; auto. split; [|split].
      * rewrite zaxpy_cong, W1 by auto. apply cong_eq. ring.
      * right. now apply zaxpy_balanced.
      * intros k Hk. rewrite get_upd_ne by lia. auto.
    + intros w (L' & W1 & W2 & W3). split; auto. split; [|split].
      * intros k Hk. destruct (Z.eq_dec k i) as [->|].
        -- rewrite W1. apply cong_eq. f_equal. unfold entry.
           transitivity (sum 0 (cm A) (fun j => sum (rbeg A i) (rend A i) (fun px => if get (cj A) px =? j then val A px * get x j else 0))).
           ++ rewrite sum_swap. apply sum_ext. intros px Hpx. pose proof (wf_col A HA px ltac:(lia)).
              rewrite (sum_single _ _ _ (get (cj A) px)); auto.
              ** now rewrite Z.eqb_refl.
              ** intros j Hj Hne. now replace (get (cj A) px =? j) with false by lia.
           ++ apply sum_ext. intros j Hj. rewrite <- sum_scale_r. apply sum_ext. intros px _.
              destruct (get (cj A) px =? j); lia.
        -- rewrite W3 by auto. apply H1. lia.
      * intros k. destruct (Z.eq_dec k i) as [->|]; auto. rewrite W3 by auto. auto.
      * intros k Hk. rewrite W3 by lia. apply H3. lia.
Qed.
End spmv.

(** ** Adding entries *)
Lemma triplet_realloc_ok g T k : twf T -> tnz T <= k ->
  let T' := triplet_realloc g T k in
  twf T' /\ tnz T' = tnz T /\ tn T' = tn T /\ tm T' = tm T /\ tprime T' = tprime T /\
  len (tj T') = k /\ (tx T' = None <-> tx T = None) /\
  forall q, 0 <= q < tnz T -> get (ti T') q = get (ti T) q /\ get (tj T') q = get (tj T) q /\ tval T' q = tval T q.
Proof.
  intros (H1 & H2 & H3 & H4 & H5 & H6) Hk. cbv zeta. unfold triplet_realloc.
  replace (k <? 0) with false by lia.
  set (T' := Triplet _ _ _ _ _ _ _).
  assert (E : forall q, 0 <= q < tnz T -> get (ti T') q = get (ti T) q /\ get (tj T') q = get (tj T) q /\ tval T' q = tval T q).
  { intros q Hq. unfold T'. cbn [ti tj]. rewrite !get_realloc by lia. split; auto. split; auto.
    unfold tval. cbn. destruct (tx T); simpl; auto. apply get_realloc; lia. }
  assert (Hlj : len (tj T') = k) by (apply len_realloc; lia).
  split; [|split; [|split; [|split; [|split; [|split; [|split]]]]]]; auto.
  - unfold twf. rewrite Hlj. cbn [tn tm tnz ti tx T']. rewrite len_realloc by lia.
    split; auto. split; auto. split; [lia|]. split; [auto|]. split.
    + destruct (tx T); simpl; auto. apply len_realloc; lia.
    + intros q Hq. change (realloc (g 0) (ti T) k) with (ti T').
      destruct (E q Hq) as (-> & -> & _). auto.
  - cbn. destruct (tx T); simpl; split; congruence.
Qed.


Theorem add_entry_ok g T i j x : twf T -> 0 <= i -> 0 <= j ->
  sat (add_entry g T i j x) (fun T' =>
    twf T' /\ tprime T' = tprime T /\ has_values T' = has_values T /\
    tlist T' = tlist T ++ keeps (tprime T) (has_values T) (i, j, x) /\
    (keeps (tprime T) (has_values T) (i, j, x) = [] -> tn T' = tn T /\ tm T' = tm T) /\
    (keeps (tprime T) (has_values T) (i, j, x) <> [] ->
       tn T' = Z.max (tn T) (i + 1) /\ tm T' = Z.max (tm T) (j + 1))).
Proof.
  intros HT Hi Hj. unfold add_entry. wp. { lia. }
  set (T1 := if tnz T =? len (tj T) then triplet_realloc g T (1 + 2 * len (tj T)) else T).
  assert (H : twf T1 /\ tnz T1 = tnz T /\ tn T1 = tn T /\ tm T1 = tm T /\ tprime T1 = tprime T /\
    tnz T < len (tj T1) /\ has_values T1 = has_values T /\
    forall q, 0 <= q < tnz T -> get (ti T1) q = get (ti T) q /\ get (tj T1) q = get (tj T) q /\ tval T1 q = tval T q).
  { pose proof HT as (_ & _ & Hz & _). unfold T1. destruct (Z.eqb_spec (tnz T) (len (tj T))).
    - destruct (triplet_realloc_ok g T (1 + 2 * len (tj T)) HT ltac:(lia)) as (A1 & A2 & A3 & A4 & A5 & A6 & A7 & A8).
      do 5 (split; [assumption|]). split; [lia|]. split; [|exact A8]. unfold has_values.
      destruct (tx (triplet_realloc g T (1 + 2 * len (tj T)))), (tx T); intuition congruence.
    - do 5 (split; [auto|]). split; [lia|]. auto. }
  clearbody T1. destruct H as (W & H1 & H2 & H3 & H4 & H5 & H6 & H7).
  assert (HL : tlist T1 = tlist T).
  { unfold tlist. rewrite H1. apply map_ext_in. intros q Hq. apply In_zseq in Hq.
    now destruct (H7 q Hq) as (-> & -> & ->). }
  rewrite <- H1, <- H2, <- H3, <- H4, <- H6, <- HL. rewrite <- H1 in H5. clear HT H1 H2 H3 H4 H6 H7 HL T.
  rename T1 into T. pose proof W as (W1 & W2 & W3 & W4 & W5 & W6). unfold has_values in *. unfold keeps.
  assert (Hpt : forall (tx1 : option (list Z)) xp,
     olen tx1 (len (tj T)) -> (tx1 = None <-> tx T = None) ->
     (forall q, oval tx1 q = if tx1 then (if tnz T =? q then xp else oval (tx T) q) else 1) ->
     let T' := Triplet (tnz T + 1) (Z.max (tn T) (i + 1)) (Z.max (tm T) (j + 1)) (upd (ti T) (tnz T) i) (upd (tj T) (tnz T) j) tx1 (tprime T) in
     twf T' /\ tlist T' = tlist T ++ [(i, j, if tx1 then xp else 1)]).
  { intros tx1 xp Lx Nx Vx. cbv zeta. set (T' := Triplet _ _ _ _ _ _ _). split.
    - unfold twf. cbn [tn tm tnz ti tj tx T']. rewrite !len_upd. do 5 (split; [auto; try lia|]).
      intros k Hk. rewrite !get_upd_in by lia. destruct (Z.eqb_spec (tnz T) k); [lia|].
      specialize (W6 k). lia.
    - unfold tlist. cbn [tnz T']. rewrite zseq_S by lia. rewrite map_snoc. f_equal.
      + apply map_ext_in. intros q Hq. apply In_zseq in Hq. cbn [ti tj T'].
        rewrite !get_upd_ne by lia. f_equal. unfold tval. cbn [tx T'].
        change (oval tx1 q = oval (tx T) q). rewrite Vx. replace (tnz T =? q) with false by lia.
        destruct tx1; auto. destruct (tx T) eqn:E; auto. destruct Nx as [Nx _]. discriminate Nx. reflexivity.
      + cbn [ti tj T']. rewrite !get_upd_eq by lia. do 2 f_equal. unfold tval. cbn [tx T'].
        change (oval tx1 (tnz T) = if tx1 then xp else 1). rewrite Vx, Z.eqb_refl. reflexivity. }
  destruct (tx T) as [tx0|] eqn:EX.
  - unfold zinit. destruct (Z.eqb_spec (bal (tprime T) x) 0) as [E0|E0].
    + wp. rewrite EX, app_nil_r. repeat (split; [auto; try tauto|]). congruence.
    + wp; try lia.
      destruct (Hpt (Some (upd tx0 (tnz T) (bal (tprime T) x))) (bal (tprime T) x)) as (P1 & P2).
      { simpl. now len. } { split; congruence. }
      { intros q. simpl. rewrite get_upd_in by lia. reflexivity. }
      split; [exact P1|]. split; [auto|]. split; [auto|]. split; [exact P2|].
      split; [congruence|]. auto.
  - wp; try lia. destruct (Hpt None 1) as (P1 & P2); simpl; auto; try tauto.
    split; [exact P1|]. split; [auto|]. split; [auto|]. split; [exact P2|].
    split; [congruence|]. auto.
Qed.

(* a sequence of insertions *)
Fixpoint add_entries (g : Z -> Z -> Z) (T : triplet) (l : list (Z * Z * Z)) : res triplet :=
  match l with
  | [] => Ok T
  | (i, j, x) :: l => T <- add_entry g T i j x ;; add_entries g T l
  end.

Lemma add_entries_ok g l T : twf T -> Forall (fun '(i, j, _) => 0 <= i /\ 0 <= j) l ->
  sat (add_entries g T l) (fun T' =>
    twf T' /\ tprime T' = tprime T /\ has_values T' = has_values T /\
    tlist T' = tlist T ++ flat_map (keeps (tprime T) (has_values T)) l /\
    tn T <= tn T' /\ tm T <= tm T').
Proof.
  revert T. induction l as [|[[i j] x] l IH]; intros T HT Hl; cbn [add_entries flat_map].
  - wp. rewrite app_nil_r. repeat (split; [auto; try lia|]). lia.
  - inversion Hl as [|? ? Hij Hl']; subst. destruct Hij as [Hi Hj]. wp. eapply sat_mono; [now apply add_entry_ok|].
    intros T1 (A1 & A2 & A3 & A4 & A5 & A6). eapply sat_mono; [now apply IH|].
    intros T2 (B1 & B2 & B3 & B4 & B5 & B6). rewrite A2, A3, A4 in *. rewrite app_assoc.
    do 4 (split; [auto|]).
    assert (tn T <= tn T1 /\ tm T <= tm T1).
    { destruct (keeps (tprime T) (has_values T) (i, j, x)); [destruct A5|destruct A6]; auto; try lia. congruence. }
    lia.
Qed.

Lemma tentry_tlist T i j : tentry T i j = lsum (fun '(a, b, v) => if (a =? i) && (b =? j) then v else 0) (tlist T).
Proof. unfold tentry, tlist. now rewrite lsum_map, lsum_zseq. Qed.

(* a fresh triplet matrix filled by insertions denotes the sum of the entries *)
Theorem fill_ok g n m nzmax p wv l : 0 <= n -> 0 <= m -> 0 <= nzmax -> 2 <= p ->
  Forall (fun '(i, j, _) => 0 <= i < n /\ 0 <= j < m) l ->
  sat (add_entries g (triplet_alloc g n m nzmax p wv) l) (fun T =>
    twf T /\ tprime T = p /\ has_values T = wv /\
    (wv = true -> forall k, 0 <= k < tnz T -> balanced p (tval T k) /\ tval T k <> 0) /\
    forall i j, cong p (tentry T i j)
      (lsum (fun '(a, b, x) => if (a =? i) && (b =? j) then (if wv then x else 1) else 0) l)).
Proof.
  intros Hn Hm Hz Hp Hl. set (T0 := triplet_alloc g n m nzmax p wv).
  assert (W0 : twf T0).
  { unfold twf, T0, triplet_alloc. cbn. rewrite !len_malloc. do 4 (split; [auto; try lia|]). split.
    - destruct wv; cbn; auto. rewrite len_malloc. lia.
    - intros; lia. }
  assert (V0 : has_values T0 = wv) by (unfold T0; destruct wv; reflexivity).
  eapply sat_mono.
  - apply add_entries_ok; auto. eapply Forall_impl; [|exact Hl]. intros [[a b] x]. cbn. lia.
  - intros T (H1 & H2 & H3 & H4 & H5 & H6).
    rewrite V0 in *. change (tprime T0) with p in *. change (tlist T0) with (@nil (Z * Z * Z)) in H4. simpl app in H4.
    do 3 (split; [auto|]). split.
    + intros -> k Hk.
      assert (HI : In (get (ti T) k, get (tj T) k, tval T k) (tlist T)).
      { unfold tlist. apply in_map_iff. exists k. split; auto. now apply In_zseq. }
      rewrite H4 in HI. apply in_flat_map in HI. destruct HI as ([[a b] x] & _ & HI). cbn in HI.
      destruct (Z.eqb_spec (bal p x) 0); [destruct HI|]. destruct HI as [HI|[]]. inversion HI.
      split; [apply bal_balanced; lia|congruence].
    + intros i j. rewrite tentry_tlist, H4. clear -Hp.
      induction l as [|[[a b] x] l IH]; cbn [flat_map lsum]; [reflexivity|].
      rewrite lsum_app, IH. apply cong_add; [|reflexivity].
      pose proof (bal_cong p x ltac:(lia)) as Hb.
      destruct wv; cbn; [|apply cong_eq; destruct (_ && _); lia].
      destruct (Z.eqb_spec (bal p x) 0) as [E|E]; cbn; destruct ((a =? i) && (b =? j)); rewrite ?Z.add_0_r; auto; try reflexivity.
      now rewrite <- E.
Qed.
