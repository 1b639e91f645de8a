(** The marks left by the two searches of the Dulmage-Mendelsohn decomposition. *)
From Verif Require Import Base BaseFacts Spec SpecFacts Mat MatFacts RowList TransposeProofs SpecMatch Matching Counting MatchProofs SpecDm Scc Dm DmBfs.
From Coq Require Import ZifyBool.

Definition transposed (A T : csr) : Prop :=
  wf T /\ cn T = cm A /\ cm T = cn A /\ forall i j, 0 <= i < cn A -> 0 <= j < cm A -> (stored T j i <-> stored A i j).
Lemma transpose_transposed g A kv : wf A -> sat (transpose g A kv) (transposed A).
Proof.
  intros HA. eapply sat_mono; [apply (transpose_ok A HA g kv)|]. intros T (T1 & T2 & T3 & _ & _ & _ & _ & _ & T9).
  split; [auto|]. split; [auto|]. split; [auto|]. intros i j Hi Hj. now rewrite !stored_pattern, T9.
Qed.
Lemma matching_transposed A T p q : wf A -> transposed A T -> matching A p q -> matching T q p.
Proof.
  intros HA (T1 & T2 & T3 & T4) [M1 M2 M3 M4]. constructor; try congruence; rewrite ?T2, ?T3.
  - intros j Hj. destruct (M4 j Hj) as [|(G1 & G2)]; [now left|right]. split; [auto|]. split; [|auto].
    apply T4; auto. destruct (M3 _ G1) as [|(_ & G3 & _)]; [lia|]. now rewrite G2 in G3.
  - intros i Hi. destruct (M3 i Hi) as [|(G1 & _ & G2)]; [now left|right]. auto.
Qed.
Lemma transposed_sym A T : wf A -> transposed A T -> transposed T A.
Proof. intros HA (T1 & T2 & T3 & T4). split; [auto|]. split; [auto|]. split; [auto|]. intros i j Hi Hj. symmetry. apply T4; lia. Qed.

(* a closed set of rows that contains the unmatched ones gives a closed set of columns that contains the unmatched ones *)
Lemma closed_flip A T p q F : wf A -> transposed A T -> matching A p q -> closed A q F -> (forall i, 0 <= i < cn A -> 0 <= get p i \/ F i = true) ->
  let G := fun j => (get q j <? 0) || negb (F (get q j)) in
  closed T p G /\ forall j, 0 <= j < cm A -> 0 <= get q j \/ G j = true.
Proof.
  intros HA HT M C HU G. pose proof HT as (T1 & T2 & T3 & T4). split.
  - intros j i Hj HG Hst. rewrite T2 in Hj. assert (Hi : 0 <= i < cn A) by (rewrite <- T3; apply (stored_col T T1 j); [lia|auto]).
    apply T4 in Hst; auto. destruct (F i) eqn:E.
    + destruct (C i j Hi E Hst) as (C1 & C2). exfalso. unfold G in HG. rewrite C2 in HG. cbn in HG. lia.
    + destruct (HU i Hi) as [Hp|]; [|congruence]. split; auto. unfold G.
      destruct (ma_row _ _ _ M i Hi) as [|(_ & _ & Ei)]; [lia|]. rewrite Ei, E. apply orb_true_r.
  - intros j Hj. destruct (Z_lt_ge_dec (get q j) 0); [right|left; lia]. unfold G. now replace (get q j <? 0) with true by lia.
Qed.

Record marks (A : csr) (jm im wi wj : list Z) : Prop := {
  k_li : cn A <= len wi; k_lj : cm A <= len wj;
  k_ri : forall i, 0 <= i < cn A -> get wi i = -1 \/ get wi i = 0 \/ get wi i = 1 \/ get wi i = 3;
  k_rj : forall j, 0 <= j < cm A -> get wj j = -1 \/ get wj j = 0 \/ get wj j = 1 \/ get wj j = 3;
  k_ui : forall i, 0 <= i < cn A -> (get wi i = 0 <-> get jm i = -1);
  k_uj : forall j, 0 <= j < cm A -> (get wj j = 0 <-> get im j = -1);
  k_pair : forall i, 0 <= i < cn A -> 0 <= get jm i -> get wj (get jm i) = get wi i;
  k_3 : forall i j, 0 <= i < cn A -> get wi i = 0 \/ get wi i = 3 -> stored A i j -> get wj j = 3;
  k_1 : forall i j, 0 <= i < cn A -> 0 <= j < cm A -> get wj j = 0 \/ get wj j = 1 -> stored A i j -> get wi i = 1;
  k_ai : forall i, 0 <= i < cn A -> (get wi i = 0 \/ get wi i = 3 <-> alt_row A jm im i);
  k_aj : forall j, 0 <= j < cm A -> (get wj j = 0 \/ get wj j = 1 <-> alt_col A jm im j)
}.
Lemma alt_row_rng A jm im i : wf A -> matching A jm im -> alt_row A jm im i -> 0 <= i < cn A.
Proof.
  intros HA M H. induction H as [i Hi Hj|i j H IH Hst Hj]; auto.
  destruct (ma_col _ _ _ M j) as [|(? & _)]; [apply (stored_col A HA i); auto|lia|auto].
Qed.
Lemma alt_col_rng A jm im j : matching A jm im -> alt_col A jm im j -> 0 <= j < cm A.
Proof.
  intros M H. induction H as [j Hi Hj|i j H IH Hi Hst Hj]; auto.
  destruct (ma_row _ _ _ M i) as [|(? & _)]; auto; lia.
Qed.
Lemma alt_transposed A T jm im j : wf A -> transposed A T -> matching A jm im -> alt_row T im jm j -> alt_col A jm im j.
Proof.
  intros HA HT M H. pose proof HT as (T1 & T2 & T3 & T4). pose proof (matching_transposed A T jm im HA HT M) as MT. induction H as [j Hj H|j i H IH Hst Hi].
  - apply alt_col0; auto. lia.
  - pose proof (alt_row_rng _ _ _ _ T1 MT H) as Rj. pose proof (stored_col T T1 _ _ Rj Hst) as Ri.
    apply (alt_col1 _ _ _ i j); auto; [lia|]. apply T4; auto; lia.
Qed.

Theorem bfs_marks A T jm im F wi0 wj0 qi qj : wf A -> transposed A T -> matching A jm im -> closed A im F -> (forall i, 0 <= i < cn A -> 0 <= get jm i \/ F i = true) ->
  cn A <= len wi0 -> cm A <= len wj0 -> (forall i, 0 <= i < cn A -> get wi0 i = -1) -> (forall j, 0 <= j < cm A -> get wj0 j = -1) ->
  len qi = cn A -> len qj = cm A ->
  sat ('(wi, wj, p) <- bfs A wi0 wj0 qi im jm 3 ;; '(wj, wi, q) <- bfs T wj wi qj jm im 1 ;; Ok (wi, wj, p, q))
    (fun '(wi, wj, p, q) => marks A jm im wi wj /\ len wi = len wi0 /\ len wj = len wj0 /\ len p = cn A /\ len q = cm A).
Proof.
  intros HA HT M C HU Li Lj Ei Ej Lqi Lqj. pose proof HT as (T1 & T2 & T3 & T4).
  pose proof (matching_transposed A T jm im HA HT M) as MT. destruct (closed_flip A T jm im F HA HT M C HU) as (CT & HUT).
  apply sat_bind. eapply sat_mono.
  { apply (bfs_spec A HA jm im M F C 3); auto; try lia. intros i Hi. rewrite Ei by auto. lia. }
  intros [[wi1 wj1] p] ([B1 B2 B3 B4 B5 B6 B7] & Lp).
  (* after the first search *)
  assert (Rj : forall i j, 0 <= i < cn A -> stored A i j -> 0 <= j < cm A) by (intros; eapply stored_col; eauto).
  assert (S1 : forall i, 0 <= i < cn A -> 0 <= get jm i -> get wi1 i = -1 /\ get wj1 (get jm i) = -1 \/ get wi1 i = 3 /\ get wj1 (get jm i) = 3).
  { intros i Hi Hm. destruct (ma_row _ _ _ M i Hi) as [|(G1 & G2 & G3)]; [lia|].
    destruct (B3 i Hi) as [G|(_ & [|(_ & G & G')])]; [|lia|auto]. rewrite Ei in G by auto. left. split; auto.
    destruct (B4 (get jm i) G1) as [G'|(_ & G4 & _ & G5)]; [now rewrite Ej in G' by auto|]. rewrite G3 in G5. lia. }
  assert (S2 : forall j, 0 <= j < cm A -> get wj1 j = -1 \/ get wj1 j = 3).
  { intros j Hj. destruct (B4 j Hj) as [G|(_ & G & _)]; [rewrite Ej in G by auto; auto|auto]. }
  assert (S3 : forall j, 0 <= j < cm A -> get im j < 0 -> get wj1 j = -1).
  { intros j Hj Hm. destruct (B4 j Hj) as [G|(_ & G & G' & _)]; [rewrite Ej in G by auto; auto|lia]. }
  assert (S4 : forall i j, 0 <= i < cn A -> 0 <= get wi1 i -> stored A i j -> get wj1 j = 3).
  { intros i j Hi H Hst. pose proof (B7 i j Hi ltac:(rewrite Ei by auto; lia) H Hst). destruct (S2 j (Rj i j Hi Hst)); lia. }
  assert (RI : forall i, 0 <= i < cn A -> get jm i < 0 \/ 0 <= get jm i < cm A /\ get im (get jm i) = i).
  { intros i Hi. destruct (ma_row _ _ _ M i Hi) as [|(G1 & _ & G2)]; [lia|auto]. }
  assert (RJ : forall j, 0 <= j < cm A -> get im j < 0 \/ 0 <= get im j < cn A /\ get jm (get im j) = j).
  { intros j Hj. destruct (ma_col _ _ _ M j Hj) as [|(G1 & G2)]; [lia|auto]. }
  apply sat_bind. eapply sat_mono.
  { apply (bfs_spec T T1 im jm MT _ CT 1); rewrite ?T2, ?T3; try lia; auto.
    intros j Hj H. destruct (RJ j Hj) as [Hm|(G1 & G2)]; [rewrite S3 in H by auto; lia|]. split; [lia|].
    destruct (S1 _ G1) as [(_ & G)|(G & _)]; [lia| |lia]. rewrite G2 in G. lia. }
  intros [[wj wi] q] ([D1 D2 D3 D4 D5 D6 D7] & Lq). wp. rewrite T2 in *. rewrite T3 in *.
  (* final marks *)
  assert (W1 : forall i, 0 <= i < cn A -> get wi i = get wi1 i \/ get wi1 i = -1 /\ get wi i = 1 /\ 0 <= get jm i /\ get wj (get jm i) = 1).
  { intros i Hi. destruct (D4 i Hi) as [|(G1 & G2 & G3 & G4)]; auto. right. split; auto. destruct (S1 i Hi G3); lia. }
  assert (W2 : forall j, 0 <= j < cm A -> get wj j = get wj1 j \/ get wj1 j = -1 /\ (get im j < 0 /\ get wj j = 0 \/ 0 <= get im j /\ get wj j = 1 /\ get wi (get im j) = 1)).
  { intros j Hj. destruct (D3 j Hj) as [|(G1 & G2)]; auto. right. split; auto. destruct (S2 j Hj); lia. }
  assert (U1 : forall i, 0 <= i < cn A -> (get wi i = 0 <-> get jm i = -1)).
  { intros i Hi. split.
    - intros H. destruct (ma_row _ _ _ M i Hi) as [|(G & _)]; auto. destruct (W1 i Hi) as [E|(_ & E & _)]; [|lia]. destruct (S1 i Hi ltac:(lia)); lia.
    - intros H. destruct (W1 i Hi) as [->|(_ & _ & E & _)]; [|lia]. apply B5; auto. lia. }
  assert (U2 : forall j, 0 <= j < cm A -> (get wj j = 0 <-> get im j = -1)).
  { intros j Hj. split.
    - intros H. destruct (ma_col _ _ _ M j Hj) as [|(G & _)]; auto. destruct (W2 j Hj) as [E|(_ & [(E & _)|(_ & E & _)])]; [|lia|lia]. destruct (S2 j Hj); lia.
    - intros H. apply D5; auto. lia. }
  assert (R1 : forall i, 0 <= i < cn A -> get wi i = -1 \/ get wi i = 0 \/ get wi i = 1 \/ get wi i = 3).
  { intros i Hi. destruct (W1 i Hi) as [->|(_ & -> & _)]; auto. destruct (Z_lt_ge_dec (get jm i) 0) as [Hm|Hm]; [rewrite B5 by auto; auto|]. destruct (S1 i Hi); lia. }
  assert (R2 : forall j, 0 <= j < cm A -> get wj j = -1 \/ get wj j = 0 \/ get wj j = 1 \/ get wj j = 3).
  { intros j Hj. destruct (W2 j Hj) as [->|(_ & [(_ & ->)|(_ & -> & _)])]; auto. destruct (S2 j Hj); auto. }
  assert (Pr : forall i, 0 <= i < cn A -> 0 <= get jm i -> get wj (get jm i) = get wi i).
  { intros i Hi Hm. destruct (RI i Hi) as [|(G1 & G2)]; [lia|]. destruct (W1 i Hi) as [E|(_ & -> & _ & ->)]; auto.
    destruct (W2 _ G1) as [E'|(E1 & [(E2 & _)|(_ & E2 & E3)])]; rewrite ?G2 in *; destruct (S1 i Hi Hm); lia. }
  assert (K3 : forall i j, 0 <= i < cn A -> get wi i = 0 \/ get wi i = 3 -> stored A i j -> get wj j = 3).
  { intros i j Hi H Hst. assert (0 <= get wi1 i) by (destruct (W1 i Hi) as [|(_ & ? & _)]; lia).
    pose proof (S4 i j Hi H0 Hst) as E. destruct (W2 j (Rj i j Hi Hst)) as [|(? & _)]; lia. }
  assert (K1 : forall i j, 0 <= i < cn A -> 0 <= j < cm A -> get wj j = 0 \/ get wj j = 1 -> stored A i j -> get wi i = 1).
  { intros i j Hi Hj H Hst. assert (E1 : get wj1 j = -1) by (destruct (W2 j Hj) as [|(? & _)]; destruct (S2 j Hj); lia).
    assert (H1 : 0 <= get wi i) by (apply (D7 j i Hj); [lia|lia|]; apply T4; auto).
    destruct (W1 i Hi) as [E|(_ & E & _)]; auto. rewrite E in H1. pose proof (S4 i j Hi H1 Hst). lia. }
  split; [|lia]. constructor; auto; try lia.
  - intros i Hi. split.
    + intros H. apply (B6 i Hi); [rewrite Ei by auto; lia|]. destruct (W1 i Hi) as [|(_ & ? & _)]; lia.
    + intros H. induction H as [i _ Hm|i j H IH Hst Hm].
      * left. apply U1; auto. destruct (ma_row _ _ _ M i Hi); lia.
      * pose proof (alt_row_rng A jm im i HA M H) as Hi'. pose proof (K3 i j Hi' (IH Hi') Hst) as E.
        destruct (RJ j (Rj i j Hi' Hst)) as [|(G1 & G2)]; [lia|]. right. rewrite <- Pr; auto; rewrite G2; auto. apply (Rj i j Hi' Hst).
  - intros j Hj. split.
    + intros H. apply (alt_transposed A T); auto. apply (D6 j Hj); [|lia]. destruct (W2 j Hj) as [|(? & _)]; destruct (S2 j Hj); lia.
    + intros H. induction H as [j _ Hm|i j H IH Hi Hst Hm].
      * left. apply U2; auto. destruct (ma_col _ _ _ M j Hj); lia.
      * pose proof (alt_col_rng A jm im j M H) as Hj'. pose proof (K1 i j Hi Hj' (IH Hj') Hst) as E. right. rewrite Pr by auto. auto.
Qed.
