(** The searches of the Dulmage-Mendelsohn decomposition. *)
From Verif Require Import Base BaseFacts Spec SpecFacts Mat MatFacts RowList SpecMatch Matching Counting MatchProofs SpecDm Scc Dm.
From Coq Require Import ZifyBool.

Section bfs.
Context (A : csr) (HA : wf A) (jm im : list Z) (M : matching A jm im) (F : Z -> bool) (CF : closed A im F) (mark : Z) (Hmark : 0 < mark).
Local Notation n := (cn A).
Local Notation m := (cm A).
Context (HU : forall i, 0 <= i < n -> 0 <= get jm i \/ F i = true).
(* the marks that are there before *)
Context (wi0 wj0 : list Z) (Lwi : n <= len wi0) (Lwj : m <= len wj0).
Context (P1 : forall i, 0 <= i < n -> 0 <= get wi0 i -> 0 <= get jm i /\ 0 <= get wj0 (get jm i)).

Record BI (wi wj qu : list Z) (tail : Z) : Prop := {
  b_lwi : len wi = len wi0; b_lwj : len wj = len wj0; b_lq : len qu = n; b_t : 0 <= tail;
  b_q : forall t, 0 <= t < tail -> 0 <= get qu t < n /\ get wi0 (get qu t) < 0 /\ 0 <= get wi (get qu t) /\ F (get qu t) = true /\ alt_row A jm im (get qu t);
  b_inj : forall t u, 0 <= t < tail -> 0 <= u < tail -> get qu t = get qu u -> t = u;
  b_new : forall i, 0 <= i < n -> get wi0 i < 0 -> 0 <= get wi i -> exists t, 0 <= t < tail /\ get qu t = i;
  b_wi : forall i, 0 <= i < n -> get wi i = get wi0 i \/
    get wi0 i < 0 /\ (get jm i < 0 /\ get wi i = 0 \/ 0 <= get jm i /\ get wi i = mark /\ get wj (get jm i) = mark);
  b_wj : forall j, 0 <= j < m -> get wj j = get wj0 j \/ get wj0 j < 0 /\ get wj j = mark /\ 0 <= get im j /\ get wi (get im j) = mark;
  b_un : forall i, 0 <= i < n -> get jm i < 0 -> get wi i = 0
}.
Lemma b_tn wi wj qu tail : BI wi wj qu tail -> tail <= n.
Proof.
  intros B. apply (injpoints (get qu)).
  - apply (b_t _ _ _ _ B).
  - intros t Ht. apply (b_q _ _ _ _ B t Ht).
  - apply (b_inj _ _ _ _ B).
  - apply HA.
Qed.

(* a column that was not seen *)
Lemma b_step wi wj qu tail h j : BI wi wj qu tail -> 0 <= h < tail -> stored A (get qu h) j -> get wj j < 0 ->
  0 <= get im j < n /\ get wi (get im j) < 0 /\ tail < n /\ BI (upd wi (get im j) mark) (upd wj j mark) (upd qu tail (get im j)) (tail + 1).
Proof.
  intros B Hh Hst Hj. destruct (b_q _ _ _ _ B h Hh) as (Q1 & Q2 & Q3 & Q4 & Q5).
  pose proof (stored_col A HA _ _ Q1 Hst) as Rj. destruct (CF _ _ Q1 Q4 Hst) as (HI & FI).
  destruct (ma_col _ _ _ M j Rj) as [|(RI & EI)]; [lia|]. remember (get im j) as I eqn:EqI.
  pose proof (b_lwi _ _ _ _ B) as L1. pose proof (b_lwj _ _ _ _ B) as L2. pose proof (b_lq _ _ _ _ B) as L3. pose proof (b_t _ _ _ _ B) as Ht.
  assert (Ej0 : get wj j = get wj0 j) by (destruct (b_wj _ _ _ _ B j Rj) as [|(_ & E & _)]; [auto|lia]).
  assert (Ei0 : get wi I = get wi0 I).
  { destruct (b_wi _ _ _ _ B I RI) as [|(_ & [(E & _)|(_ & _ & E)])]; [auto|lia|]. rewrite EI in E. lia. }
  assert (HIn : get wi I < 0).
  { destruct (Z_lt_ge_dec (get wi I) 0); auto. destruct (P1 I RI) as (_ & E); [lia|]. rewrite EI in E. lia. }
  assert (Hnew : forall t, 0 <= t < tail -> get qu t <> I) by (intros t Ht' E; destruct (b_q _ _ _ _ B t Ht') as (_ & _ & G & _); rewrite E in G; lia).
  assert (Htn : tail < n).
  { assert (tail + 1 <= n); [|lia]. apply (injpoints (fun t => if t =? tail then I else get qu t)); try lia.
    - intros t Ht'. destruct (Z.eqb_spec t tail); [lia|]. apply (b_q _ _ _ _ B t). lia.
    - intros t u Ht' Hu'. destruct (Z.eqb_spec t tail), (Z.eqb_spec u tail); intros E; try lia.
      + exfalso. apply (Hnew u); auto. lia.
      + exfalso. apply (Hnew t); auto. lia.
      + apply (b_inj _ _ _ _ B); auto; lia. }
  split; [auto|]. split; [auto|]. split; [auto|].
  assert (Hwi : forall x, get (upd wi I mark) x = if I =? x then mark else get wi x) by (intros; apply get_upd_in; lia).
  assert (Hwj : forall x, get (upd wj j mark) x = if j =? x then mark else get wj x) by (intros; apply get_upd_in; lia).
  assert (Hqu : forall x, get (upd qu tail I) x = if tail =? x then I else get qu x) by (intros; apply get_upd_in; lia).
  constructor; try (rewrite len_upd; auto); try lia.
  - intros t Ht'. rewrite Hqu. destruct (Z.eqb_spec tail t).
    + rewrite Hwi, Z.eqb_refl. do 4 (split; [first [assumption|lia]|]). subst I. eapply alt_row1; eauto.
    + destruct (b_q _ _ _ _ B t ltac:(lia)) as (G1 & G2 & G3 & G4 & G5). do 2 (split; [auto|]). rewrite Hwi. destruct (Z.eqb_spec I (get qu t)); [split; [lia|auto]|auto].
  - intros t u Ht' Hu'. rewrite !Hqu. destruct (Z.eqb_spec tail t), (Z.eqb_spec tail u); intros E; try lia.
    + exfalso. apply (Hnew u); auto. lia.
    + exfalso. apply (Hnew t); auto. lia.
    + apply (b_inj _ _ _ _ B); auto; lia.
  - intros i Hi H0. rewrite Hwi. destruct (Z.eqb_spec I i) as [E|E]; intros H1.
    + exists tail. rewrite Hqu, Z.eqb_refl. split; [lia|auto].
    + destruct (b_new _ _ _ _ B i Hi H0 H1) as (t & Ht' & Et). exists t. rewrite Hqu. destruct (Z.eqb_spec tail t); [lia|]. split; [lia|auto].
  - intros i Hi. rewrite Hwi. destruct (Z.eqb_spec I i) as [E|E].
    + right. split; [subst i; lia|]. right. subst i. rewrite EI, Hwj, Z.eqb_refl. split; [lia|auto].
    + destruct (b_wi _ _ _ _ B i Hi) as [|(G1 & G2)]; [now left|right]. split; auto. destruct G2 as [|(G2 & G3 & G4)]; [now left|right].
      rewrite Hwj. destruct (Z.eqb_spec j (get jm i)); auto.
  - intros k Hk. rewrite Hwj. destruct (Z.eqb_spec j k) as [E|E].
    + right. subst k. rewrite <- EqI, Hwi, Z.eqb_refl. split; [lia|auto].
    + destruct (b_wj _ _ _ _ B k Hk) as [|(G1 & G2 & G3 & G4)]; [now left|right]. do 3 (split; [auto|]). rewrite Hwi. destruct (Z.eqb_spec I (get im k)); auto.
  - intros i Hi Hm. rewrite Hwi. destruct (Z.eqb_spec I i); [subst i; lia|]. apply (b_un _ _ _ _ B i Hi Hm).
Qed.

Record bfs_post (wi wj : list Z) : Prop := {
  bp_lwi : len wi = len wi0; bp_lwj : len wj = len wj0;
  bp_wi : forall i, 0 <= i < n -> get wi i = get wi0 i \/
    get wi0 i < 0 /\ (get jm i < 0 /\ get wi i = 0 \/ 0 <= get jm i /\ get wi i = mark /\ get wj (get jm i) = mark);
  bp_wj : forall j, 0 <= j < m -> get wj j = get wj0 j \/ get wj0 j < 0 /\ get wj j = mark /\ 0 <= get im j /\ get wi (get im j) = mark;
  bp_un : forall i, 0 <= i < n -> get jm i < 0 -> get wi i = 0;
  bp_alt : forall i, 0 <= i < n -> get wi0 i < 0 -> 0 <= get wi i -> alt_row A jm im i;
  bp_clo : forall i j, 0 <= i < n -> get wi0 i < 0 -> 0 <= get wi i -> stored A i j -> 0 <= get wj j
}.

Lemma bfs_init qu0 : len qu0 = n ->
  sat (for_ 0 n (fun i '(wi, queue, tail) =>
      jm <- aget jm i ;;
      if 0 <=? jm then Ok (wi, queue, tail) else
      wi <- aset wi i 0 ;;
      queue <- aset queue tail i ;;
      Ok (wi, queue, tail + 1)) (wi0, qu0, 0)) (fun '(wi, qu, tail) => BI wi wj0 qu tail).
Proof.
  intros Lq. pose proof (wf_n A HA) as Hn. pose proof (ma_lenp _ _ _ M) as Ljm.
  apply (for_spec (fun k '(wi, qu, tail) => len wi = len wi0 /\ len qu = n /\ 0 <= tail <= k /\
    (forall i, get wi i = if (0 <=? i) && (i <? k) && (get jm i <? 0) then 0 else get wi0 i) /\
    (forall t, 0 <= t < tail -> 0 <= get qu t < k /\ get jm (get qu t) < 0) /\
    (forall t u, 0 <= t < tail -> 0 <= u < tail -> get qu t = get qu u -> t = u) /\
    (forall i, 0 <= i < k -> get jm i < 0 -> exists t, 0 <= t < tail /\ get qu t = i))); auto.
  - do 2 (split; [auto|]). split; [lia|]. split. { intros i. destruct (Z.leb_spec 0 i), (Z.ltb_spec i 0); cbn; auto. lia. } split; [lia|]. split; lia.
  - intros i [[wi qu] tail] Hi (J1 & J2 & J3 & J4 & J5 & J6 & J7). wp; try lia.
    + do 2 (split; [auto|]). split; [lia|]. split. { intros x. rewrite J4. destruct (Z.eq_dec x i) as [->|]; [|now replace (x <? i + 1) with (x <? i) by lia].
        replace (get jm i <? 0) with false by lia. now rewrite !andb_false_r. }
      split. { intros t Ht. destruct (J5 t Ht). lia. } split; auto. intros x Hx H. apply J7; auto. assert (x <> i) by (intros ->; lia). lia.
    + rewrite !len_upd. do 2 (split; [auto|]). split; [lia|]. split.
      { intros x. rewrite get_upd_in by lia. destruct (Z.eqb_spec i x) as [<-|]. { now replace ((0 <=? i) && (i <? i + 1) && (get jm i <? 0)) with true by lia. }
        rewrite J4. now replace (x <? i + 1) with (x <? i) by lia. }
      assert (Hqu : forall x, get (upd qu tail i) x = if tail =? x then i else get qu x) by (intros; apply get_upd_in; lia).
      split; [|split].
      * intros t Ht. rewrite Hqu. destruct (Z.eqb_spec tail t); [lia|]. destruct (J5 t ltac:(lia)). lia.
      * intros t u Ht Hu. rewrite !Hqu. destruct (Z.eqb_spec tail t), (Z.eqb_spec tail u); intros E'; try lia.
        -- destruct (J5 u ltac:(lia)). lia.
        -- destruct (J5 t ltac:(lia)). lia.
        -- apply J6; auto; lia.
      * intros x Hx H. destruct (Z.eq_dec x i) as [->|].
        -- exists tail. rewrite Hqu, Z.eqb_refl. split; [lia|auto].
        -- destruct (J7 x ltac:(lia) H) as (t & Ht & Et). exists t. rewrite Hqu. destruct (Z.eqb_spec tail t); [lia|]. split; [lia|auto].
  - intros [[wi qu] tail] (J1 & J2 & J3 & J4 & J5 & J6 & J7). wp.
    assert (Hwi : forall i, 0 <= i < n -> get wi i = if get jm i <? 0 then 0 else get wi0 i).
    { intros i Hi. rewrite J4. now replace ((0 <=? i) && (i <? n)) with true by lia. }
    assert (H0 : forall i, 0 <= i < n -> get jm i < 0 -> get wi0 i < 0).
    { intros i Hi H. destruct (Z_lt_ge_dec (get wi0 i) 0); auto. destruct (P1 i Hi); lia. }
    constructor; auto; try lia.
    + intros t Ht. destruct (J5 t Ht) as (G1 & G2). do 2 (split; [auto|]). rewrite Hwi by auto. replace (_ <? 0) with true by lia. split; [lia|].
      split; [destruct (HU _ G1); [lia|auto]|]. now apply alt_row0.
    + intros i Hi E1. rewrite Hwi by auto. destruct (Z.ltb_spec (get jm i) 0); [intros _; now apply J7|lia].
    + intros i Hi. rewrite Hwi by auto. destruct (Z.ltb_spec (get jm i) 0); [right|now left]. split; auto.
    + intros i Hi H. rewrite Hwi by auto. now replace (_ <? 0) with true by lia.
Qed.

Theorem bfs_spec qu0 : len qu0 = n -> sat (bfs A wi0 wj0 qu0 im jm mark) (fun '(wi, wj, qu) => bfs_post wi wj /\ len qu = n).
Proof.
  intros Lq. unfold bfs. pose proof (wf_n A HA) as Hn. pose proof (wf_len A HA) as Lc. pose proof (wf_nnz A HA) as Hz.
  apply sat_bind. eapply sat_mono; [apply (bfs_init qu0 Lq)|]. intros [[wi1 qu1] tail1] B1. cbv beta iota.
  pose proof (ma_lenq _ _ _ M) as Lim.
  apply (loop_spec (fun '(wi, wj, qu, head, tail) => BI wi wj qu tail /\ 0 <= head <= tail /\
    forall t j, 0 <= t < head -> stored A (get qu t) j -> 0 <= get wj j) (fun '(_, _, _, head, _) => n - head)).
  - intros [[[[wi wj] qu] head] tail] (B & Hh & Hc). pose proof (b_tn _ _ _ _ B) as Htn. pose proof (b_lq _ _ _ _ B) as L3.
    destruct (Z.ltb_spec head tail) as [Hlt|Hge].
    + destruct (b_q _ _ _ _ B head ltac:(lia)) as (Q1 & _). pose proof (wf_row A HA _ Q1) as Hr.
      apply sat_bind, sat_aget; [lia|]. wp; try lia.
      fold (rbeg A (get qu head)) (rend A (get qu head)).
      apply (for_spec (fun px '(wi', wj', qu', tail') => BI wi' wj' qu' tail' /\ tail <= tail' /\ (forall t, 0 <= t < tail -> get qu' t = get qu t) /\
        (forall j, 0 <= j < m -> 0 <= get wj j -> 0 <= get wj' j) /\
        forall py, rbeg A (get qu head) <= py < px -> 0 <= get wj' (get (cj A) py))); [lia| | |].
      * do 2 (split; [first [assumption|lia]|]). split; [auto|]. split; [auto|]. intros; lia.
      * intros px [[[wi' wj'] qu'] tail'] Hpx (B' & T1 & T2 & T3 & T4).
        pose proof (wf_col A HA px ltac:(lia)) as Rj. pose proof (b_lwi _ _ _ _ B') as K1. pose proof (b_lwj _ _ _ _ B') as K2. pose proof (b_lq _ _ _ _ B') as K3. pose proof (b_t _ _ _ _ B').
        assert (Hst : stored A (get qu' head) (get (cj A) px)) by (rewrite T2 by lia; exists px; auto).
        apply sat_bind, sat_aget; [lia|]. apply sat_bind, sat_aget; [lia|].
        destruct (Z.leb_spec 0 (get wj' (get (cj A) px))) as [Hs|Hs].
        -- wp. do 2 (split; [auto|]). split; [auto|]. split; [auto|]. intros py Hpy. destruct (Z.eq_dec py px) as [->|]; auto. apply T4. lia.
        -- destruct (b_step _ _ _ _ head _ B' ltac:(lia) Hst Hs) as (RI & HI & Ht' & B2).
           apply sat_bind, sat_aset; [lia|]. apply sat_bind, sat_aget; [lia|]. apply sat_bind, sat_aget; [lia|].
           replace (0 <=? _) with false by lia. wp; try lia. split; [auto|]. split; [lia|]. split; [|split].
           ++ intros t Ht. rewrite get_upd_ne by lia. auto.
           ++ intros j Hj1 Hj2. rewrite get_upd_in by lia. destruct (Z.eqb_spec (get (cj A) px) j); [lia|auto].
           ++ intros py Hpy. rewrite get_upd_in by lia. destruct (Z.eqb_spec (get (cj A) px) (get (cj A) py)); [lia|]. apply T4. assert (py <> px) by congruence. lia.
      * intros [[[wi' wj'] qu'] tail'] (B' & T1 & T2 & T3 & T4). wp. pose proof (b_tn _ _ _ _ B'). split; [|lia]. split; [auto|]. split; [lia|].
        intros t j Ht Hst. rewrite T2 in Hst by lia. destruct (Z.eq_dec t head) as [->|].
        -- destruct Hst as (py & Hpy & <-). auto.
        -- destruct (b_q _ _ _ _ B t ltac:(lia)) as (Qt & _). apply T3; [eapply stored_col; eauto|]. apply (Hc t); auto. lia.
    + wp. split; [|auto]. constructor; try apply B.
      * intros i Hi H0 H1. destruct (b_new _ _ _ _ B i Hi H0 H1) as (t & Ht & <-). apply (b_q _ _ _ _ B t Ht).
      * intros i j Hi H0 H1 Hst. destruct (b_new _ _ _ _ B i Hi H0 H1) as (t & Ht & <-). apply (Hc t); auto. lia.
  - split; auto. pose proof (b_t _ _ _ _ B1). split; [lia|]. intros; lia.
  - lia.
Qed.
End bfs.
