(** Matchings of permuted matrices and of submatrices. *)
From Verif Require Import Base BaseFacts Spec SpecFacts Mat MatFacts RowList MatProofs SpecMatch Matching Counting MatchProofs DenseProofs4 CertProofs.
From Coq Require Import ZifyBool.

Definition inverse_perms (n : Z) (p pinv : list Z) : Prop :=
  is_perm n p /\ is_perm n pinv /\ forall i, 0 <= i < n -> get pinv (get p i) = i /\ get p (get pinv i) = i.

Lemma permute_row_ok g n jm p qinv : 0 <= n -> is_perm n p -> len jm = n -> (forall i, 0 <= i < n -> get jm i = -1 \/ 0 <= get jm i < len qinv) ->
  sat (permute_row_matching g n jm p qinv) (fun jj => len jj = n /\
    forall i, 0 <= i < n -> get jj i = if get jm (get p i) =? -1 then -1 else get qinv (get jm (get p i))).
Proof.
  intros Hn (Lp & Hp & _) L H. unfold permute_row_matching.
  apply (for_spec (fun k jj => len jj = n /\ forall i, 0 <= i < k -> get jj i = if get jm (get p i) =? -1 then -1 else get qinv (get jm (get p i)))); auto.
  - rewrite len_malloc. split; lia.
  - intros i jj Hi (L1 & I). pose proof (Hp i Hi) as Hpi. pose proof (H _ Hpi) as Hj. wp; try lia; (split; [now len|]);
      intros k Hk; rewrite get_upd_in by lia; (destruct (Z.eqb_spec i k) as [<-|]; [now rewrite E|apply I; lia]).
Qed.
Lemma permute_column_ok g m im pinv q : 0 <= m -> is_perm m q -> len im = m -> (forall i, 0 <= i < m -> get im i = -1 \/ 0 <= get im i < len pinv) ->
  sat (permute_column_matching g m im pinv q) (fun jj => len jj = m /\
    forall i, 0 <= i < m -> get jj i = if get im (get q i) =? -1 then -1 else get pinv (get im (get q i))).
Proof. exact (permute_row_ok g m im q pinv). Qed.

Theorem permute_matching g g1 g2 A jm im p pinv q qinv : wf A -> matching A jm im -> inverse_perms (cn A) p pinv -> inverse_perms (cm A) q qinv ->
  sat (B <- permute g A (Some p) (Some qinv) false ;;
       jj <- permute_row_matching g1 (cn A) jm p qinv ;;
       ii <- permute_column_matching g2 (cm A) im pinv q ;; Ok (B, jj, ii))
    (fun '(B, jj, ii) => matching B jj ii /\ msize jj = msize jm).
Proof.
  intros HA M (Pp & Ppi & Ip) (Pq & Pqi & Iq). pose proof (wf_n A HA) as Hn. pose proof (wf_m A HA) as Hm.
  pose proof Pp as (Lp & Rp & _). pose proof Ppi as (Lpi & Rpi & _). pose proof Pq as (Lq & Rq & _). pose proof Pqi as (Lqi & Rqi & _).
  apply sat_bind. eapply sat_mono; [apply (permute_entry g A (Some p) (Some qinv) false HA Pp Pqi)|].
  intros B (WB & EnB & EmB & _ & _ & _ & HB). cbn [oapply] in HB.
  apply sat_bind. eapply sat_mono.
  { apply permute_row_ok; auto; [apply M|]. intros i Hi. destruct (ma_row _ _ _ M i Hi) as [|(G & _)]; auto. right. lia. }
  intros jj (Lj & Hj). apply sat_bind. eapply sat_mono.
  { apply permute_column_ok; auto; [apply M|]. intros i Hi. destruct (ma_col _ _ _ M i Hi) as [|(G & _)]; auto. right. lia. }
  intros ii (Li & Hi). wp.
  assert (MB : matching B jj ii).
  { constructor; rewrite ?EnB, ?EmB; auto.
    - intros i Hi'. rewrite Hj by auto. pose proof (Rp i Hi') as R. destruct (Z.eqb_spec (get jm (get p i)) (-1)); [now left|]. right.
      destruct (ma_row _ _ _ M _ R) as [|(G1 & G2 & G3)]; [lia|]. pose proof (Rqi _ G1) as R2.
      split; [lia|]. split; [apply HB; auto|]. rewrite Hi by auto. destruct (Iq _ G1) as (_ & ->). rewrite G3.
      destruct (Z.eqb_spec (get p i) (-1)); [lia|]. apply Ip. auto.
    - intros j Hj'. rewrite Hi by auto. pose proof (Rq j Hj') as R. destruct (Z.eqb_spec (get im (get q j)) (-1)); [now left|]. right.
      destruct (ma_col _ _ _ M _ R) as [|(G1 & G2)]; [lia|]. pose proof (Rpi _ G1) as R2.
      split; [lia|]. rewrite Hj by auto. destruct (Ip _ G1) as (_ & ->). rewrite G2.
      destruct (Z.eqb_spec (get q j) (-1)); [lia|]. apply Iq. auto. }
  split; auto. rewrite (msize_count _ _ _ MB), (msize_count _ _ _ M), EnB.
  assert (Hs : forall i, 0 <= i < cn A -> (0 <=? get jj i) = (0 <=? get jm (get p i))).
  { intros i Hi'. rewrite Hj by auto. destruct (ma_row _ _ _ M _ (Rp i Hi')) as [->|(G & _)]; [reflexivity|].
    destruct (Z.eqb_spec (get jm (get p i)) (-1)); [lia|]. pose proof (Rqi _ G). lia. }
  apply Z.le_antisymm.
  - apply (count_inj _ _ (get p)); auto.
    + intros i Hi' E. rewrite Hs in E by auto. auto.
    + intros i k Hi' Hk _ _ E. destruct (Ip i Hi') as (<- & _). destruct (Ip k Hk) as (<- & _). congruence.
  - apply (count_inj _ _ (get pinv)); auto.
    + intros i Hi' E. rewrite Hs by auto. destruct (Ip i Hi') as (_ & ->). auto.
    + intros i k Hi' Hk _ _ E. destruct (Ip i Hi') as (_ & <-). destruct (Ip k Hk) as (_ & <-). congruence.
Qed.

Lemma submatching_ok g mt a b c d : 0 <= a <= b -> b <= len mt -> 0 <= c -> (forall i, a <= i < b -> get mt i = -1 \/ c <= get mt i < d) ->
  sat (submatching g mt a b c d) (fun pm => len pm = b - a /\
    forall i, 0 <= i < b - a -> get pm i = if get mt (a + i) =? -1 then -1 else get mt (a + i) - c).
Proof.
  intros Ha Hb Hc H. unfold submatching.
  apply (for_spec (fun k pm => len pm = b - a /\ forall i, 0 <= i < k - a -> get pm i = if get mt (a + i) =? -1 then -1 else get mt (a + i) - c)).
  - lia.
  - rewrite len_malloc. split; lia.
  - intros i pm Hi (L & I). specialize (H i Hi). wp; try lia; (split; [now len|]); intros k Hk; rewrite get_upd_in by lia;
      (destruct (Z.eqb_spec (i - a) k) as [<-|]; [replace (a + (i - a)) with i by lia; now rewrite E|apply I; lia]).
  - intros pm I. exact I.
Qed.

(* what is accepted: the relative index is compared with d *)
Lemma submatching_exact g mt a b c d : 0 <= a <= b -> b <= len mt ->
  outs (submatching g mt a b c d) (fun pm => (forall i, a <= i < b -> get mt i = -1 \/ c <= get mt i < c + d) /\ len pm = b - a /\
      forall i, 0 <= i < b - a -> get pm i = if get mt (a + i) =? -1 then -1 else get mt (a + i) - c)
    (fun e => e = AssertFailed /\ exists i, a <= i < b /\ get mt i <> -1 /\ ~ c <= get mt i < c + d).
Proof.
  intros Ha Hb. unfold submatching.
  apply (outs_for (fun k pm => (forall i, a <= i < k -> get mt i = -1 \/ c <= get mt i < c + d) /\ len pm = b - a /\ forall i, 0 <= i < k - a -> get pm i = if get mt (a + i) =? -1 then -1 else get mt (a + i) - c)).
  - lia.
  - rewrite len_malloc by lia. repeat split; lia.
  - intros i pm Hi (J & L & I). unfold aget, aset, assert_. replace (inb mt i) with true by (unfold inb; lia). cbn [bind]. replace (inb pm (i - a)) with true by (unfold inb; lia).
    assert (K : forall v, v = (if get mt i =? -1 then -1 else get mt i - c) -> forall k, 0 <= k < i + 1 - a -> get (upd pm (i - a) v) k = if get mt (a + k) =? -1 then -1 else get mt (a + k) - c).
    { intros v Hv k Hk. rewrite get_upd_in by lia. destruct (Z.eqb_spec (i - a) k) as [<-|]; [|apply I; lia]. rewrite Hv. replace (a + (i - a)) with i by lia. reflexivity. }
    destruct (get mt i =? -1) eqn:E; cbn [bind outs].
    + split; [intros k Hk; destruct (Z.eq_dec k i) as [->|]; [left; lia|apply J; lia]|]. split; [now len|]. now apply K.
    + destruct (0 <=? get mt i - c) eqn:E1; cbn [bind outs]; [|split; [auto|exists i; lia]]. destruct (get mt i - c <? d) eqn:E2; cbn [bind outs]; [|split; [auto|exists i; lia]].
      split; [intros k Hk; destruct (Z.eq_dec k i) as [->|]; [right; lia|apply J; lia]|]. split; [now len|]. now apply K.
  - auto.
Qed.

(* the rows [a, b) and the columns [c, d) are only matched together *)
Theorem submatching_matching g g1 g2 A jm im a b c d : wf A -> matching A jm im -> 0 <= a <= b -> b <= cn A -> 0 <= c <= d -> d <= cm A ->
  (forall i, a <= i < b -> get jm i = -1 \/ c <= get jm i < d) -> (forall j, c <= j < d -> get im j = -1 \/ a <= get im j < b) ->
  sat (B <- submatrix g A a b c d false ;; jj <- submatching g1 jm a b c d ;; ii <- submatching g2 im c d a b ;; Ok (B, jj, ii))
    (fun '(B, jj, ii) => matching B jj ii /\ (forall i, a <= i < b -> 0 <= get jm i -> get jj (i - a) = get jm i - c) /\
       (forall j, c <= j < d -> 0 <= get im j -> get ii (j - c) = get im j - a)).
Proof.
  intros HA M Ha Hb Hc Hd H1 H2. pose proof (ma_lenp _ _ _ M) as Lp. pose proof (ma_lenq _ _ _ M) as Lq.
  apply sat_bind. eapply sat_mono; [apply (submatrix_entry g A a b c d false HA Ha Hb)|].
  intros B (WB & EnB & EmB & _ & _ & _ & HB). replace (Z.max 0 (d - c)) with (d - c) in EmB by lia.
  apply sat_bind. eapply sat_mono; [apply submatching_ok; auto; lia|]. intros jj (Lj & Hj).
  apply sat_bind. eapply sat_mono; [apply submatching_ok; auto; lia|]. intros ii (Li & Hi). wp.
  split; [|split].
  - constructor; rewrite ?EnB, ?EmB; auto.
    + intros i Hi'. rewrite Hj by auto. destruct (Z.eqb_spec (get jm (a + i)) (-1)); [now left|]. right.
      destruct (H1 (a + i)); [lia|lia|]. destruct (ma_row _ _ _ M (a + i)) as [|(G1 & G2 & G3)]; [lia|lia|].
      split; [lia|]. split.
      * apply HB; try lia. now replace (c + (get jm (a + i) - c)) with (get jm (a + i)) by lia.
      * rewrite Hi by lia. replace (c + (get jm (a + i) - c)) with (get jm (a + i)) by lia. rewrite G3.
        destruct (Z.eqb_spec (a + i) (-1)); lia.
    + intros j Hj'. rewrite Hi by auto. destruct (Z.eqb_spec (get im (c + j)) (-1)); [now left|]. right.
      destruct (H2 (c + j)); [lia|lia|]. destruct (ma_col _ _ _ M (c + j)) as [|(G1 & G2)]; [lia|lia|].
      split; [lia|]. rewrite Hj by lia. replace (a + (get im (c + j) - a)) with (get im (c + j)) by lia. rewrite G2.
      destruct (Z.eqb_spec (c + j) (-1)); lia.
  - intros i Hi' E. rewrite Hj by lia. replace (a + (i - a)) with i by lia. destruct (Z.eqb_spec (get jm i) (-1)); lia.
  - intros j Hj' E. rewrite Hi by lia. replace (c + (j - c)) with j by lia. destruct (Z.eqb_spec (get im j) (-1)); lia.
Qed.
