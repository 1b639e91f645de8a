(** From the final state of the parallel machine to the matrix it denotes. *)
From Verif Require Import Base BaseFacts Spec Mat MatFacts RowList Par ParProofs ParRun.
From Coq Require Import Permutation ZifyBool.

Lemma lsum_len_rows (row : Z -> list (Z * Z)) o : lsum (fun t => len (row t)) o = len (concat (map row o)).
Proof. induction o as [|a o IH]; auto. cbn [map concat lsum fold_right]. rewrite len_app, <- IH. reflexivity. Qed.

Lemma psum_rows (row : Z -> list (Z * Z)) o k :
  psum (fun t => len (row t)) o k = len (concat (firstn (Z.to_nat k) (map row o))).
Proof. unfold psum. rewrite lsum_len_rows. now rewrite firstn_map. Qed.

Lemma getd_concat (rs : list (list (Z * Z))) k i : 0 <= k < len rs -> 0 <= i < len (getd [] rs k) ->
  len (concat (firstn (Z.to_nat k) rs)) + i < len (concat rs) /\
  getd (0, 0) (concat rs) (len (concat (firstn (Z.to_nat k) rs)) + i) = getd (0, 0) (getd [] rs k) i.
Proof.
  intros Hk Hi. assert (Hn : (Z.to_nat k < length rs)%nat) by (unfold len in *; lia).
  pose proof (concat_split rs (Z.to_nat k) Hn) as E.
  assert (Eg : nth (Z.to_nat k) rs [] = getd [] rs k). { unfold getd. now replace (k <? 0) with false by lia. }
  rewrite Eg in E. pose proof (len_nonneg (concat (firstn (Z.to_nat k) rs))).
  set (pre := concat (firstn (Z.to_nat k) rs)) in *. rewrite E. split.
  - rewrite !len_app. pose proof (len_nonneg (concat (skipn (S (Z.to_nat k)) rs))). lia.
  - rewrite getd_app_r by lia. rewrite getd_app_l by lia. f_equal. lia.
Qed.

(* every position of the concatenation belongs to one of the rows *)
Lemma concat_pos (rs : list (list (Z * Z))) k : 0 <= k < len (concat rs) ->
  exists r i, 0 <= r < len rs /\ 0 <= i < len (getd [] rs r) /\ k = len (concat (firstn (Z.to_nat r) rs)) + i.
Proof.
  revert k. induction rs as [|x rs IH]; intros k Hk. { cbn in Hk. lia. }
  cbn [concat] in Hk. rewrite len_app in Hk. destruct (Z_lt_le_dec k (len x)).
  - exists 0, k. rewrite len_cons. pose proof (len_nonneg rs). cbn [Z.to_nat firstn concat].
    split; [lia|]. split; [cbn [getd]; unfold getd; cbn; lia|]. change (len (@nil (Z * Z))) with 0. lia.
  - destruct (IH (k - len x) ltac:(lia)) as (r & i & Hr & Hi & E). exists (r + 1), i. rewrite len_cons. split; [lia|].
    assert (Eg : getd [] (x :: rs) (r + 1) = getd [] rs r).
    { unfold getd. replace (r + 1 <? 0) with false by lia. replace (r <? 0) with false by lia.
      now replace (Z.to_nat (r + 1)) with (S (Z.to_nat r)) by lia. }
    rewrite Eg. split; auto. replace (Z.to_nat (r + 1)) with (S (Z.to_nat r)) by lia. cbn [firstn concat].
    rewrite len_app. lia.
Qed.

(* the row written by a task *)
Record writes_row (prog : list wr) (row : list (Z * Z)) : Prop := {
  wrow_j : forall k, 0 <= k < len row -> In (Wr SJ k (fst (getd (0, 0) row k))) prog;
  wrow_x : forall k, 0 <= k < len row -> In (Wr SX k (snd (getd (0, 0) row k))) prog;
  wrow_p : In (Wr SP 0 (len row)) prog
}.

Lemma final_rows T l0 mem o (row : Z -> list (Z * Z)) R m prime :
  (forall k, 0 <= k < len o -> written mem k (soff T o k) (loff T l0 o k) (t_prog (T (get o k)))) ->
  (forall t, In t o -> writes_row (t_prog (T t)) (row t) /\ t_ssz (T t) = len (row t)) ->
  R = len o -> len (mem SP) = R + 1 -> get (mem SP) 0 = 0 ->
  len (mem SX) = len (mem SJ) -> lsum (ssz T) o <= len (mem SJ) ->
  has_rows (Csr R m (mem SP) (mem SJ) (Some (mem SX)) prime) (map row o).
Proof.
  intros HW Ht HR Hl H0 HX Hc. pose proof (len_nonneg o).
  assert (Es : forall k, 0 <= k <= len o -> soff T o k = len (concat (firstn (Z.to_nat k) (map row o)))).
  { intros k Hk. rewrite <- psum_rows. unfold soff, psum. apply lsum_ext. intros a Ha.
    apply Ht. rewrite <- (firstn_skipn (Z.to_nat k) o), in_app_iff. auto. }
  assert (Ea : lsum (ssz T) o = len (concat (map row o))).
  { rewrite <- lsum_len_rows. apply lsum_ext. intros a Ha. now apply Ht. }
  assert (Er : forall k, 0 <= k < len o -> getd [] (map row o) k = row (get o k)).
  { intros k Hk. rewrite (getd_map row 0) by auto. reflexivity. }
  split; cbn [cn cp cj cx]; [now rewrite len_map|]. split; [auto|]. split.
  - intros k Hk. rewrite len_map in Hk. rewrite <- Es by auto. destruct (Z.eq_dec k 0) as [->|]. { now rewrite H0. }
    specialize (HW (k - 1) ltac:(lia)).
    assert (Hin : In (get o (k - 1)) o) by (apply get_In; lia).
    destruct (Ht _ Hin) as [Hwr Hsz]. apply wrow_p in Hwr. apply HW in Hwr. cbn in Hwr.
    replace (k - 1 + 1 + 0) with k in Hwr by lia. rewrite Hwr. rewrite <- Hsz.
    replace k with (k - 1 + 1) at 3 by lia. unfold soff. rewrite psum_S by lia. reflexivity.
  - split; [cbn [cj]; lia|]. split; [exact HX|]. intros k Hk.
    destruct (concat_pos _ _ Hk) as (r & i & Hr & Hi & E). rewrite len_map in Hr.
    destruct (getd_concat (map row o) r i) as [_ ->] || idtac.
    subst k. rewrite (proj2 (getd_concat (map row o) r i ltac:(rewrite len_map; lia) Hi)).
    rewrite Er in * by auto. specialize (HW r Hr).
    assert (Hin : In (get o r) o) by (apply get_In; lia). destruct (Ht _ Hin) as [Hwr _].
    pose proof (HW _ (wrow_j _ _ Hwr i Hi)) as E1. pose proof (HW _ (wrow_x _ _ Hwr i Hi)) as E2.
    cbn in E1, E2. rewrite Es in E1, E2 by lia. rewrite E1. cbn [oval]. rewrite E2. now destruct (getd (0, 0) (row (get o r)) i).
Qed.

(* entries written to L by a task: (row, column, value) *)
Record writes_l (prog : list wr) (lr : list (Z * Z * Z)) : Prop := {
  wl_i : forall k, 0 <= k < len lr -> In (Wr LI k (fst (fst (getd (0, 0, 0) lr k)))) prog;
  wl_j : forall k, 0 <= k < len lr -> In (Wr LJ k (snd (fst (getd (0, 0, 0) lr k)))) prog;
  wl_x : forall k, 0 <= k < len lr -> In (Wr LX k (snd (getd (0, 0, 0) lr k))) prog
}.

Lemma sum_shift0 a b f : sum a (a + b) f = sum 0 b (fun k => f (a + k)).
Proof. rewrite <- (Z.add_0_l a) at 1. rewrite (Z.add_comm a b), <- sum_shift. apply sum_ext. intros. f_equal. lia. Qed.

Lemma sum_lsum {A} (d : A) (f : A -> Z) l : sum 0 (len l) (fun k => f (getd d l k)) = lsum f l.
Proof.
  induction l as [|a l IH]; auto. rewrite len_cons. pose proof (len_nonneg l). rewrite sum_first by lia.
  cbn [lsum fold_right]. unfold lsum in IH. rewrite <- IH. f_equal.
  replace (0 + 1) with 1 by lia. rewrite sum_shift0. apply sum_ext. intros k Hk. f_equal.
  unfold getd. replace (1 + k <? 0) with false by lia. replace (k <? 0) with false by lia.
  now replace (Z.to_nat (1 + k)) with (S (Z.to_nat k)) by lia.
Qed.

(* sums over the final contents of L *)
Lemma final_l T l0 mem o (lrow : Z -> list (Z * Z * Z)) (f : Z * Z * Z -> Z) :
  (forall k, 0 <= k < len o -> written mem k (soff T o k) (loff T l0 o k) (t_prog (T (get o k)))) ->
  (forall t, In t o -> writes_l (t_prog (T t)) (lrow t) /\ t_lsz (T t) = len (lrow t)) ->
  0 <= l0 ->
  sum 0 (l0 + lsum (lsz T) o) (fun k => f (get (mem LI) k, get (mem LJ) k, get (mem LX) k)) =
  sum 0 l0 (fun k => f (get (mem LI) k, get (mem LJ) k, get (mem LX) k)) + lsum (fun t => lsum f (lrow t)) o.
Proof.
  intros HW Ht Hl0. pose proof (len_nonneg o) as Ho.
  assert (Hsz : forall a, In a o -> 0 <= lsz T a).
  { intros a Ha. unfold lsz. destruct (Ht a Ha) as [_ ->]. apply len_nonneg. }
  set (F := fun k => f (get (mem LI) k, get (mem LJ) k, get (mem LX) k)).
  assert (H : forall k, 0 <= k <= len o -> sum 0 (loff T l0 o k) F = sum 0 l0 F + psum (fun t => lsum f (lrow t)) o k).
  { apply range_ind.
    - unfold loff. rewrite !psum_0, !Z.add_0_r. reflexivity.
    - intros k Hk IH. rewrite psum_S by auto. unfold loff in *. rewrite (psum_S (lsz T)) by auto.
      assert (Hin : In (get o k) o) by (apply get_In; lia). specialize (Hsz _ Hin).
      pose proof (psum_le (lsz T) o 0 k). rewrite psum_0 in H.
      assert (0 <= psum (lsz T) o k).
      { apply H; try lia. intros a Ha. unfold lsz. destruct (Ht a Ha) as [_ ->]. apply len_nonneg. }
      rewrite Z.add_assoc. rewrite (sum_split (l0 + psum (lsz T) o k)) by lia. rewrite IH, <- Z.add_assoc. f_equal. f_equal.
      rewrite sum_shift0. specialize (HW k Hk). destruct (Ht _ Hin) as [Hwl Hlen]. unfold lsz at 1. rewrite Hlen.
      rewrite <- (sum_lsum (0, 0, 0)). apply sum_ext. intros i Hi. unfold F.
      pose proof (HW _ (wl_i _ _ Hwl i Hi)) as E1. pose proof (HW _ (wl_j _ _ Hwl i Hi)) as E2.
      pose proof (HW _ (wl_x _ _ Hwl i Hi)) as E3. cbn in E1, E2, E3. unfold loff in *. rewrite E1, E2, E3. f_equal.
      now destruct (getd (0, 0, 0) (lrow (get o k)) i) as [[? ?] ?]. }
  specialize (H (len o) ltac:(lia)). unfold loff in H. rewrite !psum_all in H. exact H.
Qed.

(** ** Construction of the list of writes *)
Record PI (prog po : list wr) (sr : list (Z * Z)) (lr : list (Z * Z * Z)) : Prop := {
  pi_in : forall w, In w prog -> match w_buf w with
    | SJ | SX => 0 <= w_off w < len sr | LI | LJ | LX => 0 <= w_off w < len lr | SP => False | PO => In w po end;
  pi_sj : forall k, 0 <= k < len sr -> In (Wr SJ k (fst (getd (0, 0) sr k))) prog;
  pi_sx : forall k, 0 <= k < len sr -> In (Wr SX k (snd (getd (0, 0) sr k))) prog;
  pi_l : writes_l prog lr;
  pi_po : forall w, In w po -> In w prog;
  pi_nodup : NoDup (map (fun w => (w_buf w, w_off w)) prog)
}.

Lemma PI_nil : PI [] [] [] [].
Proof.
  constructor; try easy.
  - intros k Hk. change (len (@nil (Z * Z))) with 0 in Hk. lia.
  - intros k Hk. change (len (@nil (Z * Z))) with 0 in Hk. lia.
  - constructor; intros k Hk; change (len (@nil (Z * Z * Z))) with 0 in Hk; lia.
  - constructor.
Qed.
Lemma PI_po v : PI [Wr PO 0 v] [Wr PO 0 v] [] [].
Proof.
  constructor; try easy.
  - intros w [<-|[]]. cbn. auto.
  - intros k Hk. change (len (@nil (Z * Z))) with 0 in Hk. lia.
  - intros k Hk. change (len (@nil (Z * Z))) with 0 in Hk. lia.
  - constructor; intros k Hk; change (len (@nil (Z * Z * Z))) with 0 in Hk; lia.
  - repeat constructor. easy.
Qed.

Lemma getd_snoc {A} (d : A) l a k : 0 <= k < len l + 1 -> getd d (l ++ [a]) k = if k =? len l then a else getd d l k.
Proof.
  intros Hk. destruct (Z.eqb_spec k (len l)) as [->|].
  - rewrite getd_app_r by lia. now rewrite Z.sub_diag.
  - apply getd_app_l. lia.
Qed.

Lemma NoDup_snoc {A} (l : list A) a : NoDup l -> ~ In a l -> NoDup (l ++ [a]).
Proof. intros H1 H2. apply NoDup_app; auto. { constructor; [easy|constructor]. } intros b Hb [->|[]]. auto. Qed.

Lemma PI_s prog po sr lr j v : PI prog po sr lr -> PI (prog ++ [Wr SJ (len sr) j; Wr SX (len sr) v]) po (sr ++ [(j, v)]) lr.
Proof.
  intros []. destruct pi_l0. pose proof (len_nonneg sr).
  constructor; rewrite ?len_snoc; try (intros k Hk; rewrite getd_snoc by lia).
  - intros w Hw. rewrite in_app_iff in Hw. destruct Hw as [Hw|[<-|[<-|[]]]]; cbn; try lia.
    specialize (pi_in0 w Hw). destruct (w_buf w); auto; lia.
  - rewrite in_app_iff. destruct (Z.eqb_spec k (len sr)) as [->|]; [cbn; auto|]. left. apply pi_sj0. lia.
  - rewrite in_app_iff. destruct (Z.eqb_spec k (len sr)) as [->|]; [cbn; auto|]. left. apply pi_sx0. lia.
  - constructor; intros; rewrite in_app_iff; auto.
  - intros w Hw. rewrite in_app_iff. auto.
  - rewrite map_app. cbn [map w_buf w_off]. change [(SJ, len sr); (SX, len sr)] with ([(SJ, len sr)] ++ [(SX, len sr)]).
    rewrite app_assoc. apply NoDup_snoc; [apply NoDup_snoc; auto|].
    + rewrite in_map_iff. intros (w & Ew & Hw). specialize (pi_in0 w Hw). injection Ew as E1 E2. rewrite E1 in pi_in0. lia.
    + rewrite in_app_iff, in_map_iff. intros [(w & Ew & Hw)|[H1|[]]]; [|congruence].
      specialize (pi_in0 w Hw). injection Ew as E1 E2. rewrite E1 in pi_in0. lia.
Qed.
Lemma PI_l prog po sr lr i j v : PI prog po sr lr ->
  PI (prog ++ [Wr LI (len lr) i; Wr LJ (len lr) j; Wr LX (len lr) v]) po sr (lr ++ [(i, j, v)]).
Proof.
  intros []. destruct pi_l0. pose proof (len_nonneg lr).
  constructor; rewrite ?len_snoc.
  - intros w Hw. rewrite in_app_iff in Hw. destruct Hw as [Hw|[<-|[<-|[<-|[]]]]]; cbn; try lia.
    specialize (pi_in0 w Hw). destruct (w_buf w); auto; lia.
  - intros k Hk. rewrite in_app_iff. auto.
  - intros k Hk. rewrite in_app_iff. auto.
  - constructor; intros k Hk; rewrite len_snoc in Hk; rewrite getd_snoc by lia; rewrite in_app_iff;
      (destruct (Z.eqb_spec k (len lr)) as [->|]; [cbn; auto|]; left).
    + apply wl_i0. lia.
    + apply wl_j0. lia.
    + apply wl_x0. lia.
  - intros w Hw. rewrite in_app_iff. auto.
  - rewrite map_app. cbn [map w_buf w_off].
    change [(LI, len lr); (LJ, len lr); (LX, len lr)] with (([(LI, len lr)] ++ [(LJ, len lr)]) ++ [(LX, len lr)]).
    rewrite !app_assoc. apply NoDup_snoc; [apply NoDup_snoc; [apply NoDup_snoc; auto|]|];
      rewrite ?in_app_iff, in_map_iff; cbn [In]; intros H0;
      repeat match type of H0 with _ \/ _ => destruct H0 as [H0|H0] end; try congruence; try easy;
      destruct H0 as (w & Ew & Hw); specialize (pi_in0 w Hw); injection Ew as E1 E2; rewrite E1 in pi_in0; lia.
Qed.
(* the last write: the row pointer *)
Lemma PI_close prog po sr lr : PI prog po sr lr ->
  let prog' := prog ++ [Wr SP 0 (len sr)] in
  writes_row prog' sr /\ writes_l prog' lr /\ (forall w, In w po -> In w prog') /\
  NoDup (map (fun w => (w_buf w, w_off w)) prog') /\
  (forall w, In w prog' -> match w_buf w with
    | SJ | SX => 0 <= w_off w < len sr | LI | LJ | LX => 0 <= w_off w < len lr | SP => w_off w = 0 | PO => In w po end).
Proof.
  intros []. destruct pi_l0. cbv zeta. split; [|split; [|split; [|split]]].
  - constructor; intros; rewrite in_app_iff; cbn; auto.
  - constructor; intros; rewrite in_app_iff; cbn; auto.
  - intros w Hw. rewrite in_app_iff. auto.
  - rewrite map_app. cbn [map w_buf w_off]. apply NoDup_snoc; auto. rewrite in_map_iff.
    intros (w & Ew & Hw). specialize (pi_in0 w Hw). injection Ew as E1 E2. now rewrite E1 in pi_in0.
  - intros w Hw. rewrite in_app_iff in Hw. destruct Hw as [Hw|[<-|[]]]; [|reflexivity].
    specialize (pi_in0 w Hw). destruct (w_buf w); auto; destruct pi_in0.
Qed.

(** ** Properties of a matrix read from its rows *)
Lemma same_rowl A B i : wf A -> same_entries A B -> 0 <= i < cn A -> rowl B i = rowl A i.
Proof.
  intros HA (H1 & H2 & H3 & H4 & H5) Hi. pose proof (wf_row A HA i Hi).
  assert (Eb : rbeg B i = rbeg A i) by (unfold rbeg; now rewrite H3).
  assert (Ee : rend B i = rend A i) by (unfold rend; now rewrite H3).
  apply (listd_ext (0, 0)). { rewrite !len_rowl; lia. }
  intros k Hk. rewrite len_rowl in Hk by lia. rewrite !getd_rowl by lia. rewrite Eb.
  destruct (H5 (rbeg A i + k)) as [E1 E2]; [lia|]. now rewrite E1, E2.
Qed.
Lemma rows_reduced B : wf B -> cx B <> None ->
  (forall i c v, 0 <= i < cn B -> In (c, v) (rowl B i) -> balanced (cprime B) v) -> reduced B.
Proof.
  intros HB Hx H. split; auto. intros px Hpx. destruct (row_exists B HB px Hpx) as (i & Hi & Hr).
  apply (H i (get (cj B) px)); auto. apply In_rowl. exists px. auto.
Qed.
Lemma rows_no_zero B : wf B -> (forall i c v, 0 <= i < cn B -> In (c, v) (rowl B i) -> v <> 0) -> no_zero B.
Proof.
  intros HB H px Hpx. destruct (row_exists B HB px Hpx) as (i & Hi & Hr).
  apply (H i (get (cj B) px)); auto. apply In_rowl. exists px. auto.
Qed.
Lemma rows_nodup B : wf B -> (forall i, 0 <= i < cn B -> NoDup (map fst (rowl B i))) -> nodup_rows B.
Proof.
  intros HB H i px py Hi Hx Hy E. specialize (H i Hi). pose proof (wf_row B HB i Hi).
  assert (G : forall z, rbeg B i <= z < rend B i -> get (map fst (rowl B i)) (z - rbeg B i) = get (cj B) z).
  { intros z Hz. unfold get at 1. rewrite (getd_map fst (0, 0)) by (rewrite len_rowl; lia).
    rewrite getd_rowl by lia. cbn. f_equal. lia. }
  enough (px - rbeg B i = py - rbeg B i) by lia.
  apply (NoDup_get_inj (map fst (rowl B i))); auto; try (rewrite len_map, len_rowl; lia).
  rewrite !G by lia. exact E.
Qed.
