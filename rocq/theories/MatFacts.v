(** Lemmas about compressed-row matrices and memory, used by the proofs of the
    basic matrix routines. *)
From Verif Require Import Base BaseFacts Spec SpecFacts Zp ZpFacts Mat.

(** ** Memory *)
Lemma len_malloc g k : len (malloc g k) = Z.max 0 k.
Proof. unfold malloc, len. rewrite map_length, seq_length. lia. Qed.
Lemma get_malloc g k i : 0 <= i < k -> get (malloc g k) i = g i.
Proof.
  intros H. unfold get, getd, malloc. replace (i <? 0) with false by lia.
  rewrite (nth_indep _ 0 (g (Z.of_nat 0))) by (rewrite map_length, seq_length; lia).
  rewrite (map_nth (fun n => g (Z.of_nat n))). rewrite seq_nth by lia. f_equal. lia.
Qed.
Lemma len_firstn {A} (a : list A) k : 0 <= k -> len (firstn (Z.to_nat k) a) = Z.min k (len a).
Proof. intros H. unfold len. rewrite firstn_length. lia. Qed.
Lemma getd_firstn {A} (d : A) a k i : i < k -> getd d (firstn (Z.to_nat k) a) i = getd d a i.
Proof.
  intros H. unfold getd. destruct (Z.ltb_spec i 0); auto.
  assert (G : forall (l : list A) n m, (m < n)%nat -> nth m (firstn n l) d = nth m l d).
  { induction l; intros [|n] [|m] Hm; simpl; auto; try lia. apply IHl; lia. }
  apply G. lia.
Qed.
Lemma get_firstn a k i : i < k -> get (firstn (Z.to_nat k) a) i = get a i.
Proof. apply getd_firstn. Qed.
Lemma len_realloc g a k : 0 <= k -> len (realloc g a k) = k.
Proof. intros H. unfold realloc. rewrite len_app, len_malloc, len_firstn by lia. lia. Qed.
Lemma get_realloc g a k i : i < k -> i < len a -> get (realloc g a k) i = get a i.
Proof.
  intros H1 H2. unfold realloc. destruct (Z_lt_le_dec i 0). { now rewrite !get_out by lia. }
  rewrite get_app_l by (rewrite len_firstn by lia; lia). apply get_firstn; lia.
Qed.

(* initialisation loop: for (i = 0; i < k; i++) a[i] = v *)
Lemma init_spec v k a (Q : list Z -> Prop) : 0 <= k -> len a = k ->
  (forall a, len a = k -> (forall i, 0 <= i < k -> get a i = v) -> Q a) ->
  sat (for_ 0 k (fun i a => aset a i v) a) Q.
Proof.
  intros Hk Ha HQ.
  apply (for_spec (fun i a => len a = k /\ forall j, 0 <= j < i -> get a j = v)).
  - lia.
  - split; auto. lia.
  - intros i s Hi [Hl Hv]. wp. { lia. } len. split; auto. intros j Hj.
    rewrite get_upd_in by lia. destruct (Z.eqb_spec i j); auto. apply Hv; lia.
  - intros s [Hl Hv]. apply HQ; auto.
Qed.

(** ** Row ranges *)
Lemma mono_steps (f : Z -> Z) lo hi : (forall i, lo <= i < hi -> f i <= f (i + 1)) ->
  forall i k, lo <= i <= k -> k <= hi -> f i <= f k.
Proof.
  intros H i k Hik Hk.
  refine (sum_ind (fun i => lo <= i -> i <= k -> f i <= f k) i k _ _ _ _); try lia.
  - intros j Hj _ Hj'. replace j with k by lia. lia.
  - intros j Hj IH Hlo Hjk. specialize (H j ltac:(lia)). specialize (IH ltac:(lia) ltac:(lia)). lia.
Qed.

Section wf.
Context (A : csr) (Hwf : wf A).
Lemma wf_n : 0 <= cn A. Proof. apply Hwf. Qed.
Lemma wf_m : 0 <= cm A. Proof. apply Hwf. Qed.
Lemma wf_len : cn A + 1 <= len (cp A). Proof. apply Hwf. Qed.
Lemma wf_0 : get (cp A) 0 = 0. Proof. apply Hwf. Qed.
Lemma wf_mono i k : 0 <= i <= k -> k <= cn A -> get (cp A) i <= get (cp A) k.
Proof. apply mono_steps. apply Hwf. Qed.
Lemma wf_nnz : 0 <= nnz A <= len (cj A).
Proof.
  split; [|apply Hwf]. unfold nnz. pose proof wf_0 as H. rewrite <- H.
  apply wf_mono; pose proof wf_n; lia.
Qed.
Lemma wf_row i : 0 <= i < cn A ->
  0 <= rbeg A i /\ rbeg A i <= rend A i /\ rend A i <= nnz A.
Proof.
  intros Hi. unfold rbeg, rend, nnz. pose proof wf_0 as H. split; [|split].
  - rewrite <- H at 1. apply wf_mono; lia.
  - apply wf_mono; lia.
  - apply wf_mono; lia.
Qed.
Lemma wf_col px : 0 <= px < nnz A -> 0 <= get (cj A) px < cm A.
Proof. apply Hwf. Qed.
Lemma wf_vals x : cx A = Some x -> len x = len (cj A).
Proof. intros E. destruct Hwf as (_ & _ & _ & _ & _ & _ & _ & H). now rewrite E in H. Qed.
Lemma rbeg_rend i : 0 <= i -> rend A i = rbeg A (i + 1).
Proof. reflexivity. Qed.

(** The row containing the px-th entry. *)
Definition rowof (px : Z) : Z := sum 0 (cn A) (fun i => if rend A i <=? px then 1 else 0).

Lemma rowof_eq i px : 0 <= i < cn A -> rbeg A i <= px < rend A i -> rowof px = i.
Proof.
  intros Hi Hpx. unfold rowof. rewrite (sum_split i) by lia.
  rewrite (sum_ext 0 i _ (fun _ => 1)), (sum_zero i).
  - rewrite sum_const by lia. lia.
  - intros k Hk. assert (rend A i <= rend A k) by (unfold rend; apply wf_mono; lia).
    now replace (rend A k <=? px) with false by lia.
  - intros k Hk. assert (rend A k <= rbeg A i) by (unfold rend, rbeg; apply wf_mono; lia).
    now replace (rend A k <=? px) with true by lia.
Qed.

Lemma row_exists px : 0 <= px < nnz A -> exists i, 0 <= i < cn A /\ rbeg A i <= px < rend A i.
Proof.
  intros Hpx.
  assert (G : forall k : nat, Z.of_nat k <= cn A -> px < get (cp A) (Z.of_nat k) ->
     exists i, 0 <= i < Z.of_nat k /\ rbeg A i <= px < rend A i).
  { induction k; intros Hk Hlt.
    - change (Z.of_nat 0) with 0 in Hlt. rewrite wf_0 in Hlt. lia.
    - destruct (Z_lt_le_dec px (get (cp A) (Z.of_nat k))) as [H|H].
      + destruct (IHk ltac:(lia) H) as (i & Hi & Hr). exists i. split; auto. lia.
      + exists (Z.of_nat k). split; [lia|]. unfold rbeg, rend.
        replace (Z.of_nat k + 1) with (Z.of_nat (S k)) by lia. lia. }
  destruct (G (Z.to_nat (cn A))) as (i & Hi & Hr).
  - pose proof wf_n. lia.
  - pose proof wf_n. rewrite Z2Nat.id by lia. apply Hpx.
  - exists i. pose proof wf_n. rewrite Z2Nat.id in Hi by lia. auto.
Qed.

Lemma rowof_spec px : 0 <= px < nnz A ->
  0 <= rowof px < cn A /\ rbeg A (rowof px) <= px < rend A (rowof px).
Proof.
  intros H. destruct (row_exists px H) as (i & Hi & Hr).
  rewrite (rowof_eq i px Hi Hr). auto.
Qed.

Lemma row_flat f i : 0 <= i < cn A ->
  sum (rbeg A i) (rend A i) f = sum 0 (nnz A) (fun px => if rowof px =? i then f px else 0).
Proof.
  intros Hi. pose proof (wf_row i Hi) as (H1 & H2 & H3).
  rewrite (sum_split (rbeg A i) 0), (sum_split (rend A i) (rbeg A i) (nnz A)) by lia.
  rewrite (sum_zero 0), (sum_zero (rend A i)).
  - rewrite Z.add_0_l, Z.add_0_r. apply sum_ext. intros px Hpx.
    rewrite (rowof_eq i) by auto. now rewrite Z.eqb_refl.
  - intros px Hpx. destruct (rowof_spec px) as (? & ?); [lia|].
    destruct (Z.eqb_spec (rowof px) i) as [E|E]; auto. rewrite E in *. lia.
  - intros px Hpx. destruct (rowof_spec px) as (? & ?); [lia|].
    destruct (Z.eqb_spec (rowof px) i) as [E|E]; auto. rewrite E in *. lia.
Qed.

Lemma entry_flat i j : 0 <= i < cn A ->
  entry A i j = sum 0 (nnz A) (fun px =>
    if (rowof px =? i) && (get (cj A) px =? j) then val A px else 0).
Proof.
  intros Hi. unfold entry. rewrite row_flat by auto. apply sum_ext. intros px Hpx.
  destruct (rowof px =? i); auto.
Qed.

(* a loop over all entries, row by row *)
Lemma rows_spec_gen {S} (Inv : Z -> S -> Prop) (outer : Z -> S -> res S)
  (body : Z -> Z -> S -> res S) s (Q : S -> Prop) :
  (forall i s, outer i s = (lo <- aget (cp A) i ;; hi <- aget (cp A) (i + 1) ;;
                            for_ lo hi (body i) s)) ->
  Inv 0 s ->
  (forall i px s, 0 <= i < cn A -> rbeg A i <= px < rend A i -> Inv px s ->
     sat (body i px s) (Inv (px + 1))) ->
  (forall s, Inv (nnz A) s -> Q s) ->
  sat (for_ 0 (cn A) outer s) Q.
Proof.
  intros Ho H0 Hs HQ. pose proof wf_n. pose proof wf_len.
  apply (for_spec (fun i s => Inv (get (cp A) i) s)); auto.
  - now rewrite wf_0.
  - intros i t Hi Ht. rewrite Ho. wp; try lia.
    apply (for_spec Inv); auto. apply wf_mono; lia.
Qed.
Lemma rows_spec {S} (Inv : Z -> S -> Prop) (body : Z -> Z -> S -> res S) s (Q : S -> Prop) :
  Inv 0 s ->
  (forall i px s, 0 <= i < cn A -> rbeg A i <= px < rend A i -> Inv px s ->
     sat (body i px s) (Inv (px + 1))) ->
  (forall s, Inv (nnz A) s -> Q s) ->
  sat (for_ 0 (cn A) (fun i s => lo <- aget (cp A) i ;; hi <- aget (cp A) (i + 1) ;;
                        for_ lo hi (body i) s) s) Q.
Proof. apply rows_spec_gen. reflexivity. Qed.
End wf.

Lemma entry_out A i j : wf A -> 0 <= i < cn A -> ~ 0 <= j < cm A -> entry A i j = 0.
Proof.
  intros Hwf Hi Hj. unfold entry. apply sum_zero. intros px Hpx.
  pose proof (wf_row A Hwf i Hi). pose proof (wf_col A Hwf px ltac:(lia)).
  now replace (get (cj A) px =? j) with false by lia.
Qed.

(** ** Optional values *)
Definition oval (o : option (list Z)) (i : Z) : Z :=
  match o with Some x => get x i | None => 1 end.
Definition olen (o : option (list Z)) (k : Z) : Prop :=
  match o with Some x => len x = k | None => True end.
Definition oupd (o : option (list Z)) (i v : Z) : option (list Z) :=
  option_map (fun x => upd x i v) o.

Lemma val_oval A px : val A px = oval (cx A) px.
Proof. reflexivity. Qed.
Lemma olen_oupd o i v k : olen (oupd o i v) k <-> olen o k.
Proof. destruct o; simpl; try tauto. now rewrite len_upd. Qed.
Lemma oval_oupd o i v k N : olen o N -> 0 <= i < N ->
  oval (oupd o i v) k = match o with Some _ => if i =? k then v else oval o k | None => 1 end.
Proof. destruct o; simpl; auto. intros H Hi. rewrite get_upd_in by lia. reflexivity. Qed.

Lemma sat_ocopy dst i src k N M (Q : option (list Z) -> Prop) :
  olen dst N -> 0 <= i < N -> (dst <> None -> src <> None) ->
  olen src M -> 0 <= k < M ->
  Q (oupd dst i (oval src k)) -> sat (ocopy dst i src k) Q.
Proof.
  intros Hd Hi Hn Hs Hk HQ. unfold ocopy. destruct dst as [d|]; [|exact HQ].
  destruct src as [s|]; [|destruct Hn; congruence]. simpl in *. wp; auto; lia.
Qed.

(** ** Trimming and agreement on the live entries *)
Lemma upd_same (a : list Z) i : 0 <= i < len a -> upd a i (get a i) = a.
Proof.
  intros H. apply list_ext; len; auto. intros k Hk. rewrite get_upd_in by lia.
  destruct (Z.eqb_spec i k); subst; auto.
Qed.

(* B has the same shape as A and the same live entries *)
Definition same_entries (A B : csr) : Prop :=
  cn B = cn A /\ cm B = cm A /\ cp B = cp A /\ cprime B = cprime A /\
  (forall px, 0 <= px < nnz A -> get (cj B) px = get (cj A) px /\ val B px = val A px).

Lemma same_row A B i f : wf A -> same_entries A B -> 0 <= i < cn A ->
  sum (rbeg B i) (rend B i) (fun px => f (get (cj B) px) (val B px))
  = sum (rbeg A i) (rend A i) (fun px => f (get (cj A) px) (val A px)).
Proof.
  intros HA (H1 & H2 & H3 & H4 & H5) Hi. unfold rbeg, rend. rewrite H3.
  fold (rbeg A i) (rend A i). pose proof (wf_row A HA i Hi).
  apply sum_ext. intros px Hpx. destruct (H5 px) as [-> ->]; auto. lia.
Qed.
Lemma same_entry A B i j : wf A -> same_entries A B -> 0 <= i < cn A -> entry B i j = entry A i j.
Proof. intros HA HS Hi. exact (same_row A B i (fun c v => if c =? j then v else 0) HA HS Hi). Qed.
Lemma same_stored A B i j : wf A -> same_entries A B -> 0 <= i < cn A ->
  stored B i j <-> stored A i j.
Proof.
  intros HA (H1 & H2 & H3 & H4 & H5) Hi. unfold stored, rbeg, rend. rewrite H3.
  fold (rbeg A i) (rend A i). pose proof (wf_row A HA i Hi).
  split; intros (px & Hpx & E); exists px; (split; [auto|]);
    destruct (H5 px) as [E1 _]; try lia; congruence.
Qed.
Lemma same_nodup A B : wf A -> same_entries A B -> nodup_rows A -> nodup_rows B.
Proof.
  intros HA (H1 & H2 & H3 & H4 & H5) HD i px py Hi Hx Hy E.
  unfold rbeg, rend in *. rewrite H1, H3 in *. pose proof (wf_row A HA i Hi). unfold rbeg, rend in *.
  apply (HD i); auto. destruct (H5 px) as [<- _]; [lia|]. destruct (H5 py) as [<- _]; [lia|]. auto.
Qed.

Lemma csr_realloc_ok g A k : wf A -> k < 0 \/ nnz A <= k ->
  sat (csr_realloc g A k) (fun B => wf B /\ same_entries A B /\
    len (cj B) = (if k <? 0 then nnz A else k) /\ (cx B = None <-> cx A = None)).
Proof.
  intros HA Hk. pose proof (wf_nnz A HA). pose proof (wf_n A HA). pose proof (wf_len A HA).
  unfold csr_realloc. wp. { lia. } fold (nnz A).
  set (z := if k <? 0 then nnz A else k).
  assert (Hz : nnz A <= z) by (unfold z; destruct (Z.ltb_spec k 0); lia).
  set (B := Csr _ _ _ _ _ _).
  assert (HS : same_entries A B).
  { unfold same_entries. cbn [cn cm cp cprime cj B]. repeat split; auto.
    - apply get_realloc; lia.
    - unfold val. cbn [cx B]. destruct (cx A) eqn:E; simpl; auto.
      apply get_realloc. lia. rewrite (wf_vals A HA l E). lia. }
  split; [|split; [auto|split]].
  - destruct HA as (W1 & W2 & W3 & W4 & W5 & W6 & W7 & W8).
    unfold wf. change (nnz B) with (nnz A). cbn [cn cm cp cj cx B].
    repeat split; auto.
    + rewrite len_realloc by lia. lia.
    + rewrite get_realloc by lia. apply W7; auto.
    + rewrite get_realloc by lia. apply W7; auto.
    + destruct (cx A); simpl; auto. rewrite !len_realloc by lia. auto.
  - cbn [cj B]. rewrite len_realloc by lia. reflexivity.
  - cbn [cx B]. destruct (cx A); simpl; split; congruence.
Qed.

Lemma csr_resize_ok g A n m : wf A -> cn A <= n -> cm A <= m ->
  sat (csr_resize g A n m) (fun B => wf B /\ cn B = n /\ cm B = m /\
    cj B = cj A /\ cx B = cx A /\ cprime B = cprime A /\ nnz B = nnz A /\
    (forall i, 0 <= i <= cn A -> get (cp B) i = get (cp A) i) /\
    (forall i, cn A <= i <= n -> get (cp B) i = nnz A)).
Proof.
  intros HA Hn Hm. pose proof (wf_n A HA). pose proof (wf_len A HA) as Hl.
  unfold csr_resize. apply sat_bind.
  apply (sat_mono _ (fun Ap => len Ap = n + 1 /\
    (forall i, 0 <= i <= cn A -> get Ap i = get (cp A) i) /\
    (forall i, cn A <= i <= n -> get Ap i = nnz A))).
  - destruct (Z.ltb_spec (cn A) n).
    + apply (for_spec (fun k Ap => len Ap = n + 1 /\
        (forall i, 0 <= i <= cn A -> get Ap i = get (cp A) i) /\
        (forall i, cn A <= i < k -> get Ap i = nnz A))).
      * lia.
      * rewrite len_realloc by lia. repeat split; auto; try lia.
        intros i Hi. apply get_realloc; lia.
      * intros k Ap Hk (H2 & H3 & H4). wp; try lia. len. repeat split; auto.
        -- intros i Hi. rewrite get_upd_in by lia. destruct (Z.eqb_spec k i); auto.
           replace i with (cn A) by lia. apply H3; lia.
        -- intros i Hi. rewrite get_upd_in by lia. destruct (Z.eqb_spec k i); auto.
           ++ rewrite H3 by lia. reflexivity.
           ++ apply H4; lia.
      * intros Ap (H2 & H3 & H4). repeat split; auto. intros i Hi. apply H4; lia.
    + wp. rewrite len_realloc by lia. split; auto.
      assert (G : forall i, 0 <= i <= cn A -> get (realloc (g 5) (cp A) (n + 1)) i = get (cp A) i).
      { intros i Hi. apply get_realloc; lia. }
      split; auto. intros i Hi. replace i with (cn A) by lia. rewrite G by lia. reflexivity.
  - intros Ap (H1 & H2 & H3). wp. set (B := Csr _ _ _ _ _ _).
    assert (HnB : nnz B = nnz A) by (change (nnz B) with (get Ap n); apply H3; lia).
    destruct HA as (W1 & W2 & W3 & W4 & W5 & W6 & W7 & W8).
    split; [|repeat split; auto].
    unfold wf. rewrite HnB. cbn [cn cm cp cj cx B]. repeat split; auto; try lia.
    + rewrite H2 by lia. auto.
    + intros i Hi. unfold rbeg, rend. cbn [cp B]. destruct (Z_lt_le_dec i (cn A)).
      * rewrite !H2 by lia. apply W5; lia.
      * rewrite !H3 by lia. lia.
    + apply W7; auto.
    + specialize (W7 px ltac:(auto)). lia.
Qed.
