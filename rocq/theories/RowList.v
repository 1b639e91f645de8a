(** Matrices seen as lists of rows, rows as lists of (column, value) pairs.
    Used by the proofs about functions that build a matrix entry after entry. *)
From Verif Require Import Base BaseFacts Spec SpecFacts Mat MatFacts.
From Coq Require Import Permutation.

(** ** Integer ranges *)

Lemma len_zseq lo hi : len (zseq lo hi) = Z.max 0 (hi - lo).
Proof. unfold zseq, len. rewrite map_length, seq_length. lia. Qed.
Lemma zseq_empty lo hi : hi <= lo -> zseq lo hi = [].
Proof. intros H. unfold zseq. now replace (Z.to_nat (hi - lo)) with O by lia. Qed.
Lemma zseq_S lo hi : lo <= hi -> zseq lo (hi + 1) = zseq lo hi ++ [hi].
Proof.
  intros H. unfold zseq. replace (Z.to_nat (hi + 1 - lo)) with (S (Z.to_nat (hi - lo))) by lia.
  rewrite seq_S, map_app. simpl. f_equal. f_equal. lia.
Qed.
Lemma In_zseq lo hi k : In k (zseq lo hi) <-> lo <= k < hi.
Proof.
  unfold zseq. rewrite in_map_iff. split.
  - intros (q & <- & Hq). apply in_seq in Hq. lia.
  - intros H. exists (Z.to_nat (k - lo)). rewrite in_seq. lia.
Qed.
Lemma NoDup_zseq lo hi : NoDup (zseq lo hi).
Proof. unfold zseq. apply FinFun.Injective_map_NoDup; [|apply seq_NoDup]. intros a b H. lia. Qed.
Lemma NoDup_app {A} (l1 l2 : list A) : NoDup l1 -> NoDup l2 -> (forall a, In a l1 -> ~ In a l2) -> NoDup (l1 ++ l2).
Proof.
  intros H1 H2 H. induction l1 as [|a l1 IH]; simpl; auto. inversion H1; subst. constructor.
  - rewrite in_app_iff. intros [|Hi]; auto. apply (H a); simpl; auto.
  - apply IH; auto. intros b Hb. apply H. simpl. auto.
Qed.
Lemma getd_map {A B} (f : A -> B) d l k : 0 <= k < len l -> forall d', getd d' (map f l) k = f (getd d l k).
Proof.
  intros Hk d'. unfold getd, len in *. destruct (Z.ltb_spec k 0); [lia|].
  rewrite (nth_indep _ d' (f d)) by (rewrite map_length; lia). apply map_nth.
Qed.
Lemma getd_zseq d lo hi k : 0 <= k < hi - lo -> getd d (zseq lo hi) k = lo + k.
Proof.
  intros Hk. unfold zseq. rewrite (getd_map _ O).
  - unfold getd. destruct (Z.ltb_spec k 0); [lia|]. rewrite seq_nth by lia. lia.
  - unfold len. rewrite seq_length. lia.
Qed.
Lemma lsum_zseq f lo hi : lsum f (zseq lo hi) = sum lo hi f.
Proof.
  destruct (Z_lt_le_dec lo hi); [|rewrite zseq_empty, sum_empty by lia; reflexivity].
  replace hi with (lo + Z.of_nat (Z.to_nat (hi - lo))) by lia.
  induction (Z.to_nat (hi - lo)) as [|k IH].
  - rewrite zseq_empty, sum_empty by lia. reflexivity.
  - replace (lo + Z.of_nat (S k)) with (lo + Z.of_nat k + 1) by lia.
    rewrite zseq_S, sum_S, lsum_app, IH by lia. simpl. lia.
Qed.
Lemma lsum_map {A B} (f : B -> Z) (h : A -> B) l : lsum f (map h l) = lsum (fun a => f (h a)) l.
Proof. induction l; simpl; auto. now rewrite IHl. Qed.

(** ** Sums and permutations *)
Lemma list_zseq d l : l = map (getd d l) (zseq 0 (len l)) :> list Z.
Proof.
  apply (listd_ext d).
  - rewrite len_map, len_zseq. pose proof (len_nonneg l). lia.
  - intros i Hi. rewrite (getd_map _ 0) by (rewrite len_zseq; lia). now rewrite getd_zseq by lia.
Qed.
Lemma NoDup_get (l : list Z) : (forall i j, 0 <= i < len l -> 0 <= j < len l -> get l i = get l j -> i = j) -> NoDup l.
Proof.
  intros H. rewrite (list_zseq 0 l). change (getd 0 l) with (get l).
  assert (G : forall L, NoDup L -> (forall i, In i L -> 0 <= i < len l) -> NoDup (map (get l) L)).
  { induction L; intros HN HI; simpl; constructor.
    - rewrite in_map_iff. intros (x & E & Hx). apply H in E; [|apply HI; simpl; auto..].
      subst x. now inversion HN.
    - apply IHL. now inversion HN. intros; apply HI; simpl; auto. }
  apply G. apply NoDup_zseq. intros i Hi. now apply In_zseq in Hi.
Qed.
Lemma perm_Permutation n p : 0 <= n -> is_perm n p -> Permutation p (zseq 0 n).
Proof.
  intros Hn (Hl & Hr & Hi). apply NoDup_Permutation_bis.
  - apply NoDup_get. now rewrite Hl.
  - pose proof (len_zseq 0 n) as E. unfold len in *. lia.
  - intros x Hx. apply In_get in Hx. destruct Hx as (i & Hi' & <-). apply In_zseq. apply Hr. lia.
Qed.
Lemma sum_perm n p f : 0 <= n -> is_perm n p -> sum 0 n (fun i => f (get p i)) = sum 0 n f.
Proof.
  intros Hn HP. rewrite <- (lsum_zseq f). rewrite <- (lsum_perm f p) by now apply perm_Permutation.
  destruct HP as (Hl & _). transitivity (lsum f (map (getd 0 p) (zseq 0 (len p)))).
  - now rewrite lsum_map, Hl, lsum_zseq.
  - now rewrite <- list_zseq.
Qed.
Lemma sum_operm n p f : 0 <= n -> is_operm n p -> sum 0 n (fun i => f (oapply p i)) = sum 0 n f.
Proof. destruct p; simpl; auto. apply sum_perm. Qed.
Lemma perm_surj n p k : is_perm n p -> 0 <= k < n -> exists i, 0 <= i < n /\ get p i = k.
Proof.
  intros HP Hk. assert (Hn : 0 <= n) by lia. pose proof (perm_Permutation n p Hn HP) as H.
  destruct HP as (Hl & _).
  assert (In k p). { apply (Permutation_in k (Permutation_sym H)). now apply In_zseq. }
  apply In_get in H0. now rewrite Hl in H0.
Qed.
Lemma operm_range n p i : is_operm n p -> 0 <= i < n -> 0 <= oapply p i < n.
Proof. destruct p; simpl; auto. intros (_ & H & _); auto. Qed.
Lemma operm_inj n p i j : is_operm n p -> 0 <= i < n -> 0 <= j < n -> oapply p i = oapply p j -> i = j.
Proof. destruct p; simpl; auto. intros (_ & _ & H); auto. Qed.
Lemma sat_operm_get p i n (Q : Z -> Prop) : is_operm n p -> 0 <= i < n -> Q (oapply p i) -> sat (operm_get p i) Q.
Proof. intros Hp Hi HQ. destruct p; simpl in *; auto. destruct Hp as (Hl & _). apply sat_aget; auto. lia. Qed.

(** ** Rows *)
Definition lentry (j : Z) (l : list (Z * Z)) : Z := lsum (fun e => if fst e =? j then snd e else 0) l.

Lemma entry_rowl A i j : entry A i j = lentry j (rowl A i).
Proof. unfold lentry, rowl. now rewrite lsum_map, lsum_zseq. Qed.
Lemma row_rowl A i f : sum (rbeg A i) (rend A i) (fun px => f (get (cj A) px) (val A px))
  = lsum (fun e => f (fst e) (snd e)) (rowl A i).
Proof. unfold rowl. now rewrite lsum_map, lsum_zseq. Qed.
Lemma stored_rowl A i j : stored A i j <-> In j (map fst (rowl A i)).
Proof.
  unfold stored, rowl. rewrite map_map, in_map_iff. simpl. split; intros (px & H1 & H2); exists px.
  - now rewrite In_zseq. 
  - now rewrite In_zseq in H2.
Qed.
Lemma In_rowl A i c v : In (c, v) (rowl A i) <-> exists px, rbeg A i <= px < rend A i /\ get (cj A) px = c /\ val A px = v.
Proof.
  unfold rowl. rewrite in_map_iff. split.
  - intros (px & E & H). apply In_zseq in H. inversion E. eauto.
  - intros (px & H & <- & <-). exists px. split; auto. now apply In_zseq.
Qed.
Lemma len_rowl A i : rbeg A i <= rend A i -> len (rowl A i) = rend A i - rbeg A i.
Proof. intros. unfold rowl. rewrite len_map, len_zseq. lia. Qed.
Lemma getd_rowl A i k : 0 <= k < rend A i - rbeg A i ->
  getd (0, 0) (rowl A i) k = (get (cj A) (rbeg A i + k), val A (rbeg A i + k)).
Proof. intros H. unfold rowl. rewrite (getd_map _ 0) by (rewrite len_zseq; lia). now rewrite getd_zseq by lia. Qed.

Lemma lentry_app j l1 l2 : lentry j (l1 ++ l2) = lentry j l1 + lentry j l2.
Proof. apply lsum_app. Qed.
Lemma lentry_cons j c v l : lentry j ((c, v) :: l) = (if c =? j then v else 0) + lentry j l.
Proof. reflexivity. Qed.
Lemma lentry_absent j l : ~ In j (map fst l) -> lentry j l = 0.
Proof.
  induction l as [|[c v] l IH]; auto. simpl map. simpl In. intros H. rewrite lentry_cons, IH by tauto.
  destruct (Z.eqb_spec c j); tauto.
Qed.

(** ** Building a matrix *)
(* the first entries of (Cj, Cx) are those of l *)
Definition Built (Cj : list Z) (Cx : option (list Z)) (l : list (Z * Z)) : Prop :=
  len l <= len Cj /\ olen Cx (len Cj) /\
  forall k, 0 <= k < len l -> getd (0, 0) l k = (get Cj k, oval Cx k).

Lemma Built_nil Cj Cx : olen Cx (len Cj) -> Built Cj Cx [].
Proof. intros H. split; [rewrite len_nil; apply len_nonneg|]. split; auto. intros k Hk. change (len (@nil (Z * Z))) with 0 in Hk. lia. Qed.
Lemma Built_app Cj Cx l c v : Built Cj Cx l -> len l < len Cj -> (Cx = None -> v = 1) ->
  Built (upd Cj (len l) c) (oupd Cx (len l) v) (l ++ [(c, v)]).
Proof.
  intros (H1 & H2 & H3) Hl Hv. pose proof (len_nonneg l). unfold Built. rewrite len_app, len_upd.
  change (len [(c, v)]) with 1. split; [lia|]. split; [now apply olen_oupd|].
  intros k Hk. rewrite (oval_oupd _ _ _ _ (len Cj)) by (auto; lia). rewrite get_upd_in by lia.
  destruct (Z.eqb_spec (len l) k).
  - subst k. rewrite getd_app_r by lia. rewrite Z.sub_diag. cbn. f_equal. destruct Cx; auto.
  - rewrite getd_app_l by lia. rewrite H3 by lia. destruct Cx; auto.
Qed.
(* overwriting beyond the live part changes nothing *)
Lemma Built_frame Cj Cx Cj' Cx' l : Built Cj Cx l -> len l <= len Cj' -> olen Cx' (len Cj') ->
  (forall k, 0 <= k < len l -> get Cj' k = get Cj k /\ oval Cx' k = oval Cx k) -> Built Cj' Cx' l.
Proof.
  intros (H1 & H2 & H3) Hl Ho HE. split; auto. split; auto. intros k Hk. rewrite H3 by auto.
  now destruct (HE k Hk) as [-> ->].
Qed.

(* Cp delimits the rows of rs in their concatenation *)
Definition Ptr (Cp : list Z) (rs : list (list (Z * Z))) : Prop :=
  forall k, 0 <= k <= len rs -> get Cp k = len (concat (firstn (Z.to_nat k) rs)).

Lemma Ptr_nil Cp : get Cp 0 = 0 -> Ptr Cp [].
Proof. intros H k Hk. change (len (@nil (list (Z*Z)))) with 0 in Hk. replace k with 0 by lia. exact H. Qed.
Lemma Ptr_get_last Cp rs : Ptr Cp rs -> get Cp (len rs) = len (concat rs).
Proof.
  intros H. pose proof (len_nonneg rs). rewrite H by lia.
  rewrite firstn_all2; auto. unfold len. lia.
Qed.
Lemma Ptr_app Cp rs r : Ptr Cp rs -> len rs + 1 < len Cp ->
  Ptr (upd Cp (len rs + 1) (len (concat rs) + len r)) (rs ++ [r]).
Proof.
  intros H Hl k Hk. pose proof (len_nonneg rs). rewrite len_app in Hk. change (len [r]) with 1 in Hk.
  rewrite get_upd_in by lia. destruct (Z.eqb_spec (len rs + 1) k).
  - subst k. rewrite firstn_all2.
    + rewrite concat_app, len_app. simpl. now rewrite app_nil_r.
    + rewrite app_length. unfold len. simpl. lia.
  - rewrite H by lia. rewrite firstn_app.
    replace (Z.to_nat k - length rs)%nat with O by (unfold len in *; lia). now rewrite app_nil_r.
Qed.
Lemma Ptr_ext Cp Cp' rs : Ptr Cp rs -> (forall k, 0 <= k <= len rs -> get Cp' k = get Cp k) -> Ptr Cp' rs.
Proof. intros H HE k Hk. rewrite HE by auto. auto. Qed.

Lemma concat_firstn_S (rs : list (list (Z * Z))) (k : nat) : (k < length rs)%nat ->
  concat (firstn (S k) rs) = concat (firstn k rs) ++ nth k rs [].
Proof.
  revert k. induction rs as [|r rs IH]; simpl; intros k Hk; [lia|].
  destruct k; simpl.
  - now rewrite app_nil_r.
  - rewrite <- app_assoc, <- IH by lia. reflexivity.
Qed.
Lemma concat_split (rs : list (list (Z * Z))) (k : nat) : (k < length rs)%nat ->
  concat rs = concat (firstn k rs) ++ nth k rs [] ++ concat (skipn (S k) rs).
Proof.
  intros Hk. rewrite app_assoc, <- concat_firstn_S by auto. rewrite <- concat_app.
  now rewrite firstn_skipn.
Qed.

(* a matrix whose arrays hold the rows rs *)
Definition has_rows (C : csr) (rs : list (list (Z * Z))) : Prop :=
  cn C = len rs /\ len (cp C) = cn C + 1 /\ Ptr (cp C) rs /\ Built (cj C) (cx C) (concat rs).

Lemma has_rows_rowl C rs : has_rows C rs -> forall i, 0 <= i < cn C -> rowl C i = getd [] rs i.
Proof.
  intros (Hn & Hl & HP & HB) i Hi.
  assert (Hb : rbeg C i = len (concat (firstn (Z.to_nat i) rs))) by (apply HP; lia).
  assert (Hk : (Z.to_nat i < length rs)%nat) by (unfold len in *; lia).
  assert (He : rend C i = rbeg C i + len (getd [] rs i)).
  { unfold rend. rewrite HP by lia. replace (Z.to_nat (i + 1)) with (S (Z.to_nat i)) by lia.
    rewrite concat_firstn_S by auto. rewrite len_app, Hb. f_equal. unfold getd.
    destruct (Z.ltb_spec i 0); [lia|]. reflexivity. }
  pose proof (len_nonneg (getd [] rs i)).
  apply (listd_ext (0, 0)). { rewrite len_rowl; lia. }
  intros k Hk'. rewrite len_rowl in Hk' by lia. rewrite getd_rowl by auto.
  destruct HB as (_ & _ & HB).
  pose proof (concat_split rs (Z.to_nat i) Hk) as E.
  assert (Hg : nth (Z.to_nat i) rs [] = getd [] rs i).
  { unfold getd. destruct (Z.ltb_spec i 0); [lia|]. reflexivity. }
  rewrite Hg in E.
  rewrite val_oval, <- HB.
  - rewrite E. rewrite getd_app_r by lia. rewrite getd_app_l by lia. f_equal. lia.
  - rewrite E. rewrite !len_app. pose proof (len_nonneg (concat (skipn (S (Z.to_nat i)) rs))). 
    pose proof (len_nonneg (concat (firstn (Z.to_nat i) rs))). lia.
Qed.

Lemma has_rows_nnz C rs : has_rows C rs -> nnz C = len (concat rs).
Proof. intros (Hn & Hl & HP & HB). unfold nnz. rewrite Hn. now apply Ptr_get_last. Qed.

Lemma has_rows_wf C rs : has_rows C rs -> 0 <= cm C ->
  (forall r e, In r rs -> In e r -> 0 <= fst e < cm C) -> wf C.
Proof.
  intros HR Hm Hc. pose proof (has_rows_nnz C rs HR) as Hz. destruct HR as (Hn & Hl & HP & HB).
  pose proof (len_nonneg rs). unfold wf. rewrite Hz. split; [lia|]. split; [auto|]. split; [lia|].
  split. { rewrite HP by lia. reflexivity. }
  split. { intros i Hi. unfold rbeg, rend. rewrite !HP by lia.
    replace (Z.to_nat (i + 1)) with (S (Z.to_nat i)) by lia. rewrite concat_firstn_S by (unfold len in *; lia).
    rewrite len_app. pose proof (len_nonneg (nth (Z.to_nat i) rs [])). lia. }
  destruct HB as (B1 & B2 & B3). split; [auto|]. split.
  - intros px Hpx. specialize (B3 px Hpx).
    assert (In (getd (0, 0) (concat rs) px) (concat rs)).
    { unfold getd. destruct (Z.ltb_spec px 0); [lia|]. apply nth_In. unfold len in *. lia. }
    apply in_concat in H0. destruct H0 as (r & Hr & He). specialize (Hc r _ Hr He). rewrite B3 in Hc. exact Hc.
  - exact B2.
Qed.

(* the rows of an existing matrix *)
Definition rowls (A : csr) : list (list (Z * Z)) := map (rowl A) (zseq 0 (cn A)).
Lemma len_rowls A : 0 <= cn A -> len (rowls A) = cn A.
Proof. intros. unfold rowls. rewrite len_map, len_zseq. lia. Qed.
Lemma getd_rowls A i : 0 <= i < cn A -> getd [] (rowls A) i = rowl A i.
Proof. intros. unfold rowls. rewrite (getd_map _ 0) by (rewrite len_zseq; lia). now rewrite getd_zseq by lia. Qed.

(* row pointers written at the beginning of each row: the last one is not there yet *)
Definition PtrL (Cp : list Z) (rs : list (list (Z * Z))) : Prop :=
  forall k, 0 <= k < len rs -> get Cp k = len (concat (firstn (Z.to_nat k) rs)).
Lemma PtrL_nil Cp : PtrL Cp [].
Proof. intros k Hk. change (len (@nil (list (Z * Z)))) with 0 in Hk. lia. Qed.
Lemma PtrL_close Cp rs : PtrL Cp rs -> len rs < len Cp -> Ptr (upd Cp (len rs) (len (concat rs))) rs.
Proof.
  intros H Hl k Hk. pose proof (len_nonneg rs). rewrite get_upd_in by lia.
  destruct (Z.eqb_spec (len rs) k).
  - subst k. rewrite firstn_all2; auto. unfold len. lia.
  - apply H; lia.
Qed.
Lemma Ptr_PtrL Cp rs r : Ptr Cp rs -> PtrL Cp (rs ++ [r]).
Proof.
  intros H k Hk. rewrite len_app in Hk. change (len [r]) with 1 in Hk. rewrite H by lia.
  rewrite firstn_app. replace (Z.to_nat k - length rs)%nat with O by (unfold len in *; lia). now rewrite app_nil_r.
Qed.

Lemma len_concat_le (rs : list (list (Z * Z))) : len (concat rs) = lsum (fun r => len r) rs.
Proof. induction rs; simpl; auto. rewrite len_app. lia. Qed.
Lemma concat_snoc {A} (rs : list (list A)) r : concat (rs ++ [r]) = concat rs ++ r.
Proof. rewrite concat_app. simpl. now rewrite app_nil_r. Qed.
Lemma map_snoc {A B} (f : A -> B) l a : map f (l ++ [a]) = map f l ++ [f a].
Proof. now rewrite map_app. Qed.
