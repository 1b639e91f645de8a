(** Boolean versions of the well-formedness predicates, to discharge the
    hypotheses of theorems on concrete examples by computation. *)
From Verif Require Import Base BaseFacts Spec SpecFacts Mat MatFacts RowList.

Definition allz (lo hi : Z) (f : Z -> bool) : bool := forallb f (zseq lo hi).
Lemma allz_spec lo hi f : allz lo hi f = true -> forall i, lo <= i < hi -> f i = true.
Proof. intros H i Hi. apply (proj1 (forallb_forall _ _) H). now apply In_zseq. Qed.

Definition wfb (A : csr) : bool :=
  (0 <=? cn A) && (0 <=? cm A) && (cn A + 1 <=? len (cp A)) && (get (cp A) 0 =? 0) &&
  allz 0 (cn A) (fun i => rbeg A i <=? rend A i) &&
  (nnz A <=? len (cj A)) &&
  allz 0 (nnz A) (fun px => (0 <=? get (cj A) px) && (get (cj A) px <? cm A)) &&
  match cx A with Some x => len x =? len (cj A) | None => true end.

Ltac andbs H := repeat match type of H with
  | (_ && _) = true => apply andb_prop in H; let H' := fresh "HB" in destruct H as [H H'] end.

Lemma wfb_ok A : wfb A = true -> wf A.
Proof.
  unfold wfb, wf. intros H. andbs H.
  repeat match goal with H : allz _ _ _ = true |- _ => pose proof (allz_spec _ _ _ H); clear H end. cbv beta in *.
  do 4 (split; [lia|]).
  split; [|split; [lia|split]].
  - intros i Hi. match goal with H : forall i, 0 <= i < cn A -> _ |- _ => specialize (H i Hi) end. lia.
  - intros px Hp. match goal with H : forall i, 0 <= i < nnz A -> _ |- _ => specialize (H px Hp) end. lia.
  - destruct (cx A); auto. lia.
Qed.

Definition twfb (T : triplet) : bool :=
  (0 <=? tn T) && (0 <=? tm T) && (0 <=? tnz T) && (tnz T <=? len (tj T)) && (len (ti T) =? len (tj T)) &&
  match tx T with Some x => len x =? len (tj T) | None => true end &&
  allz 0 (tnz T) (fun k => (0 <=? get (ti T) k) && (get (ti T) k <? tn T) && (0 <=? get (tj T) k) && (get (tj T) k <? tm T)).
Lemma twfb_ok T : twfb T = true -> twf T.
Proof.
  unfold twfb, twf. intros H. andbs H.
  repeat match goal with H : allz _ _ _ = true |- _ => pose proof (allz_spec _ _ _ H); clear H end. cbv beta in *.
  do 4 (split; [lia|]). split.
  - destruct (tx T); auto. lia.
  - intros k Hk. match goal with H : forall i, 0 <= i < tnz T -> _ |- _ => specialize (H k Hk) end. lia.
Qed.

Definition is_permb (n : Z) (p : list Z) : bool :=
  (len p =? n) && allz 0 n (fun i => (0 <=? get p i) && (get p i <? n)) &&
  allz 0 n (fun i => allz 0 n (fun j => negb (get p i =? get p j) || (i =? j))).
Lemma is_permb_ok n p : is_permb n p = true -> is_perm n p.
Proof.
  unfold is_permb, is_perm. intros H. andbs H. split; [lia|]. split.
  - intros i Hi. pose proof (allz_spec _ _ _ HB0 i Hi) as G. cbv beta in G. lia.
  - intros i j Hi Hj E. pose proof (allz_spec _ _ _ (allz_spec _ _ _ HB i Hi) j Hj) as G. cbv beta in G. lia.
Qed.

(* stored entries and values *)
Definition nodup_rowsb (A : csr) : bool :=
  allz 0 (cn A) (fun i => allz (rbeg A i) (rend A i) (fun px => allz (rbeg A i) (rend A i) (fun py =>
    negb (get (cj A) px =? get (cj A) py) || (px =? py)))).
Lemma nodup_rowsb_ok A : nodup_rowsb A = true -> nodup_rows A.
Proof.
  intros H i px py Hi Hx Hy E.
  pose proof (allz_spec _ _ _ (allz_spec _ _ _ (allz_spec _ _ _ H i Hi) px Hx) py Hy) as G. cbv beta in G. lia.
Qed.
Definition balancedb (p r : Z) : bool := (p / 2 - p + 1 <=? r) && (r <=? p / 2).
Lemma balancedb_ok p r : balancedb p r = true -> balanced p r.
Proof. unfold balancedb, balanced. lia. Qed.
Lemma cong_compute p a b : 0 < p -> (a mod p =? b mod p) = true -> cong p a b.
Proof. intros Hp H. apply cong_iff_mod; lia. Qed.
Lemma ncong_compute p a b : 0 < p -> (a mod p =? b mod p) = false -> ~ cong p a b.
Proof. intros Hp H E. apply cong_iff_mod in E; lia. Qed.

Definition congb (p a b : Z) : bool := (a - b) mod p =? 0.
Lemma congb_ok p a b : congb p a b = true -> p <> 0 -> cong p a b.
Proof. unfold congb. intros H Hp. apply Z.mod_divide; auto. lia. Qed.
Lemma ncongb_ok p a b : congb p a b = false -> p <> 0 -> ~ cong p a b.
Proof. unfold congb. intros H Hp H'. apply Z.mod_divide in H'; auto. lia. Qed.

Definition storedb (A : csr) (i j : Z) : bool := existsb (fun px => get (cj A) px =? j) (zseq (rbeg A i) (rend A i)).
Lemma storedb_ok A i j : storedb A i j = true <-> stored A i j.
Proof.
  unfold storedb, stored. rewrite existsb_exists. split.
  - intros (px & H1 & H2). exists px. apply In_zseq in H1. split; auto. lia.
  - intros (px & H1 & H2). exists px. rewrite In_zseq. split; auto. lia.
Qed.

Definition upperb (p : Z) (U : csr) (qinv : list Z) : bool :=
  (len qinv =? cm U) && negb (p =? 0) &&
  allz 0 (cm U) (fun j => (-1 <=? get qinv j) && (get qinv j <? cn U) &&
    ((get qinv j <? 0) || (congb p (entry U (get qinv j) j) 1 && allz (get qinv j + 1) (cn U) (fun i => negb (storedb U i j)))) &&
    allz 0 (cm U) (fun k => (get qinv j <? 0) || negb (get qinv j =? get qinv k) || (j =? k))) &&
  allz 0 (cn U) (fun i => existsb (fun j => get qinv j =? i) (zseq 0 (cm U))).
Lemma upperb_ok p U qinv : upperb p U qinv = true -> upper p U qinv.
Proof.
  unfold upperb. intros H. andbs H.
  assert (Hp : p <> 0) by lia.
  constructor.
  - lia.
  - intros j Hj. pose proof (allz_spec _ _ _ HB0 j Hj) as G. cbv beta in G. andbs G. lia.
  - intros i Hi. pose proof (allz_spec _ _ _ HB i Hi) as G. cbv beta in G. apply existsb_exists in G.
    destruct G as (j & Hj & E). apply In_zseq in Hj. exists j. split; auto. lia.
  - intros j k Hj Hk H0 E. pose proof (allz_spec _ _ _ HB0 j Hj) as G. cbv beta in G. apply andb_prop in G. destruct G as [_ G].
    pose proof (allz_spec _ _ _ G k Hk) as G'. cbv beta in G'. lia.
  - intros j Hj H0. pose proof (allz_spec _ _ _ HB0 j Hj) as G. cbv beta in G.
    apply andb_prop in G; destruct G as [G _]; apply andb_prop in G; destruct G as [_ HB4].
    apply orb_prop in HB4. destruct HB4 as [|HB4]; [lia|]. apply andb_prop in HB4. apply congb_ok; tauto.
  - intros j i Hj H0 Hi Hs. pose proof (allz_spec _ _ _ HB0 j Hj) as G. cbv beta in G.
    apply andb_prop in G; destruct G as [G _]; apply andb_prop in G; destruct G as [_ HB4].
    apply orb_prop in HB4. destruct HB4 as [|HB4]; [lia|]. apply andb_prop in HB4. destruct HB4 as [_ HB4].
    pose proof (allz_spec _ _ _ HB4 i ltac:(lia)) as G'. cbv beta in G'. apply storedb_ok in Hs. rewrite Hs in G'. discriminate.
Qed.

Definition lowerb (p : Z) (L : csr) (pr : list Z) : bool :=
  (cm L <=? len pr) && negb (p =? 0) &&
  allz 0 (cm L) (fun j => (0 <=? get pr j) && (get pr j <? cn L) && negb (congb p (entry L (get pr j) j) 0) &&
    allz (j + 1) (cm L) (fun k => congb p (entry L (get pr j) k) 0)).
Lemma lowerb_ok p L pr : lowerb p L pr = true -> lower p L pr.
Proof.
  unfold lowerb. intros H. andbs H. assert (Hp : p <> 0) by lia.
  constructor.
  - lia.
  - intros j Hj. pose proof (allz_spec _ _ _ HB j Hj) as G. cbv beta in G. andbs G. lia.
  - intros j Hj. pose proof (allz_spec _ _ _ HB j Hj) as G. cbv beta in G. andbs G. apply ncongb_ok; auto.
    now apply negb_true_iff.
  - intros j k Hj Hk. pose proof (allz_spec _ _ _ HB j ltac:(lia)) as G. cbv beta in G. andbs G.
    apply congb_ok; auto. exact (allz_spec _ _ _ HB1 k ltac:(lia)).
Qed.

Definition reducedb (A : csr) : bool :=
  match cx A with None => false | Some _ => true end && allz 0 (nnz A) (fun px => balancedb (cprime A) (val A px)).
Lemma reducedb_ok A : reducedb A = true -> reduced A.
Proof.
  unfold reducedb, reduced. intros H. andbs H. split; [destruct (cx A); discriminate|].
  intros px Hpx. apply balancedb_ok. exact (allz_spec _ _ _ HB px Hpx).
Qed.

(* complete factorizations: every row of A is a row of L*U *)
Definition factorsb (p : Z) (A : csr) (f : lu) (L : csr) : bool :=
  let U := lu_U f in
  wfb U && wfb L && reducedb U && reducedb L && (cprime U =? p) && (cprime L =? p) && (cm U =? cm A) &&
  (cn L =? cn A) && (cm L =? cn U) && nodup_rowsb L && upperb p U (lu_qinv f) && lowerb p L (lu_p f) && negb (p =? 0) &&
  allz 0 (cn A) (fun i => allz 0 (cm A) (fun j => congb p (entry A i j) (xA U (entry L i) j))).
Lemma factorsb_ok p A f L : lu_L f = Some L -> factorsb p A f L = true -> factors p A f L.
Proof.
  unfold factorsb. intros HL H. andbs H. assert (Hp : p <> 0) by lia.
  assert (G : forall i j, 0 <= i < cn A -> 0 <= j < cm A -> cong p (entry A i j) (xA (lu_U f) (entry L i) j)).
  { intros i j Hi Hj. apply congb_ok; auto. exact (allz_spec _ _ _ (allz_spec _ _ _ HB i Hi) j Hj). }
  pose proof (lowerb_ok _ _ _ HB1) as HLo.
  constructor; auto using wfb_ok, reducedb_ok, nodup_rowsb_ok, upperb_ok; try lia.
  - intros i Hi. exists (entry L i). intros j Hj. apply cong_sym, G; auto. lia.
  - intros k j Hk Hj. apply G; auto. pose proof (lo_rng _ _ _ HLo k). lia.
Qed.

(* small primes *)
Definition primeb (p : Z) : bool := (1 <? p) && allz 2 p (fun d => negb (p mod d =? 0)).
Lemma primeb_ok p : primeb p = true -> Znumtheory.prime p.
Proof.
  intros H. unfold primeb in H. andbs H. apply Znumtheory.prime_alt. split; [lia|]. intros n Hn D.
  pose proof (allz_spec _ _ _ HB n ltac:(lia)) as G. cbv beta in G. apply Z.mod_divide in D; lia.
Qed.

Definition pivot_firstb (U : csr) (qinv : list Z) : bool :=
  allz 0 (cn U) (fun i => (rbeg U i <? rend U i) && (get qinv (get (cj U) (rbeg U i)) =? i)).
Lemma pivot_firstb_ok U qinv : pivot_firstb U qinv = true -> pivot_first U qinv.
Proof. intros H i Hi. pose proof (allz_spec _ _ _ H i Hi) as G. cbv beta in G. andbs G. lia. Qed.

Definition rref_formb (p : Z) (R : csr) (qinv : list Z) : bool :=
  (len qinv =? cm R) && negb (p =? 0) && pivot_firstb R qinv &&
  allz 0 (cm R) (fun j => (get qinv j =? -1) ||
    ((0 <=? get qinv j) && (get qinv j <? cn R) && (get (cj R) (rbeg R (get qinv j)) =? j))) &&
  allz 0 (cn R) (fun i => congb p (val R (rbeg R i)) 1 &&
    allz (rbeg R i + 1) (rend R i) (fun px => get qinv (get (cj R) px) =? -1)).
Lemma rref_formb_ok p R qinv : rref_formb p R qinv = true -> rref_form p R qinv.
Proof.
  unfold rref_formb. intros H. andbs H. constructor.
  - lia.
  - now apply pivot_firstb_ok.
  - intros j Hj. pose proof (allz_spec _ _ _ HB0 j Hj) as G. cbv beta in G. lia.
  - intros i Hi. pose proof (allz_spec _ _ _ HB i Hi) as G. cbv beta in G. andbs G. apply congb_ok; auto. lia.
  - intros i px Hi Hpx. pose proof (allz_spec _ _ _ HB i Hi) as G. cbv beta in G. andbs G.
    pose proof (allz_spec _ _ _ HB3 px ltac:(lia)) as G'. cbv beta in G'. lia.
Qed.

(** ** Matchings *)
From Verif Require Import SpecMatch.
Definition matchingb (A : csr) (p q : list Z) : bool :=
  (len p =? cn A) && (len q =? cm A) &&
  allz 0 (cn A) (fun i => (get p i =? -1) || (0 <=? get p i) && (get p i <? cm A) && storedb A i (get p i) && (get q (get p i) =? i)) &&
  allz 0 (cm A) (fun j => (get q j =? -1) || (0 <=? get q j) && (get q j <? cn A) && (get p (get q j) =? j)).
Lemma matchingb_ok A p q : matchingb A p q = true -> matching A p q.
Proof.
  unfold matchingb. intros H. apply andb_prop in H. destruct H as (H & H4). apply andb_prop in H. destruct H as (H & H3). apply andb_prop in H. destruct H as (H1 & H2).
  constructor; [lia|lia| |].
  - intros i Hi. pose proof (allz_spec _ _ _ H3 i Hi) as G. cbv beta in G. apply orb_prop in G. destruct G as [G|G]; [left; lia|right].
    apply andb_prop in G. destruct G as (G & G4). apply andb_prop in G. destruct G as (G & G3). split; [lia|]. split; [now apply storedb_ok|lia].
  - intros j Hj. pose proof (allz_spec _ _ _ H4 j Hj) as G. cbv beta in G. lia.
Qed.
