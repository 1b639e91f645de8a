(** A library that does what is assumed of FFPACK: every permutation is a sequence of exchanges. *)
From Verif Require Import Rref RrefProofs Base BaseFacts Spec SpecFacts Zp Mat MatFacts RowList CompressProofs SpecFfpack DenseSpec DenseProofs Dense DenseProofs3 DenseRef EchFinal Ffpack FfpackProofs.
From Coq Require Import ZifyBool.

(* the place of v in M *)
Definition place (m : Z) (M : list Z) (v : Z) : Z := hd 0 (filter (fun j => get M j =? v) (zseq 0 m)).
(* k exchanges that put Q[0], ..., Q[k-1] in their places, and the permutation that they make *)
Fixpoint to_exchanges (m : Z) (Q : list Z) (k : nat) : list Z * list Z :=
  match k with
  | O => (zseq 0 m, [])
  | S k =>
      let '(M, L) := to_exchanges m Q k in
      let i := Z.of_nat k in
      let l := place m M (get Q i) in
      (upd (upd M i (get M l)) l (get M i), L ++ [l])
  end.
Definition ref_library (p : Z) : library := Library
  (fun n m S _ _ => let '(rr, S', Q) := ref_rref p n m S in (rr, S', [], snd (to_exchanges m Q (Z.to_nat m))))
  (fun n m S _ _ => let '(rr, S', P, Q) := ref_plu p n m S in
     (rr, S', snd (to_exchanges n P (Z.to_nat n)), snd (to_exchanges m Q (Z.to_nat m)))).

Lemma exchanges_app {T} L l k (f : Z -> T) : (Z.of_nat k <= len L) -> exchanges (L ++ [l]) k f = exchanges L k f.
Proof.
  intros H. induction k as [|k IH]; cbn [exchanges]; auto. rewrite IH by lia. f_equal. unfold get. rewrite getd_app_l by lia. reflexivity.
Qed.

Section perm.
Context (m : Z) (Q : list Z) (Hm : 0 <= m).
Context (HR : forall k, 0 <= k < m -> 0 <= get Q k < m) (HI : forall k l, 0 <= k < m -> 0 <= l < m -> get Q k = get Q l -> k = l).

Lemma to_exchanges_ok k : Z.of_nat k <= m ->
  let '(M, L) := to_exchanges m Q k in
  len M = m /\ len L = Z.of_nat k /\ (forall i, 0 <= i < Z.of_nat k -> 0 <= get L i < m) /\ made L m k M /\ forall j, 0 <= j < Z.of_nat k -> get M j = get Q j.
Proof.
  induction k as [|k IH]; intros Hk.
  - cbn. rewrite len_zseq. assert (G : forall j, 0 <= j < m -> get (zseq 0 m) j = j) by (intros j Hj; unfold get; rewrite getd_zseq; lia).
    split; [lia|]. split; [reflexivity|]. split; [intros; lia|]. split; [|intros; lia]. split; [|split].
    + intros j Hj. rewrite G; lia.
    + intros i j Hi Hj. rewrite !G; lia.
    + intros T f j Hj. cbn. now rewrite G.
  - cbn [to_exchanges]. specialize (IH ltac:(lia)). destruct (to_exchanges m Q k) as [M L]. destruct IH as (EM & EL & RL & (H1 & H2 & H3) & HQ).
    cbv zeta. set (i := Z.of_nat k) in *.
    assert (Hl : exists l, place m M (get Q i) = l /\ 0 <= l < m /\ get M l = get Q i).
    { destruct (DenseProofs.perm_surj m M H1 H2 (get Q i) (HR i ltac:(lia))) as (l & Hl & El).
      unfold place. destruct (filter (fun j => get M j =? get Q i) (zseq 0 m)) as [|l0 t] eqn:Ef.
      - assert (In l []) as [] . rewrite <- Ef. apply filter_In. split; [apply In_zseq; lia|lia].
      - exists l0. split; [reflexivity|]. assert (H : In l0 (l0 :: t)) by now left. rewrite <- Ef in H. apply filter_In in H. rewrite In_zseq in H. lia. }
    destruct Hl as (l & -> & Rl & El).
    assert (G : forall j, 0 <= j < m -> get (upd (upd M i (get M l)) l (get M i)) j = if j =? i then get M l else if j =? l then get M i else get M j).
    { intros j Hj. destruct (Z.eq_dec l j) as [->|D].
      - rewrite get_upd_eq by (rewrite len_upd; lia). destruct (j =? i) eqn:Ej; [f_equal; lia|]. now rewrite Z.eqb_refl.
      - rewrite get_upd_ne by lia. destruct (j =? i) eqn:Ej; [assert (j = i) as -> by lia; apply get_upd_eq; lia|].
        rewrite get_upd_ne by lia. destruct (j =? l) eqn:Ej'; [lia|reflexivity]. }
    split; [now rewrite !len_upd|]. split; [rewrite len_app; change (len [l]) with 1; lia|]. split; [|split].
    + intros j Hj. unfold get. destruct (Z_lt_le_dec j i); [rewrite getd_app_l by lia; apply RL; lia|].
      rewrite getd_app_r by lia. replace (j - len L) with 0 by lia. exact Rl.
    + split; [|split].
      * intros j Hj. rewrite G by lia. destruct (j =? i); [|destruct (j =? l)]; apply H1; lia.
      * intros a b Ha Hb. rewrite !G by lia. destruct (a =? i) eqn:A1, (b =? i) eqn:B1; [lia| | |].
        -- destruct (b =? l) eqn:B2; intros X; apply H2 in X; lia.
        -- destruct (a =? l) eqn:A2; intros X; apply H2 in X; lia.
        -- destruct (a =? l) eqn:A2, (b =? l) eqn:B2; intros X; apply H2 in X; lia.
      * intros T f j Hj. rewrite G by lia. cbn [exchanges]. rewrite exchanges_app by lia. fold i.
        replace (get (L ++ [l]) i) with l by (unfold get; rewrite getd_app_r by lia; replace (i - len L) with 0 by lia; reflexivity).
        unfold exchange. destruct (j =? i); [|destruct (j =? l)]; apply H3; lia.
    + intros j Hj. rewrite G by lia. destruct (j =? i) eqn:Ej; [assert (j = i) as -> by lia; auto|].
      assert (j <> l). { intros ->. rewrite HQ in El by lia. apply HI in El; lia. }
      destruct (j =? l) eqn:Ej'; [lia|]. apply HQ. lia.
Qed.
Lemma to_exchanges_perm : lapack m (snd (to_exchanges m Q (Z.to_nat m))) /\
  forall T (f : Z -> T) j, 0 <= j < m -> exchanges (snd (to_exchanges m Q (Z.to_nat m))) (Z.to_nat m) f j = f (get Q j).
Proof.
  pose proof (to_exchanges_ok (Z.to_nat m) ltac:(lia)) as H. destruct (to_exchanges m Q (Z.to_nat m)) as [M L]. cbn [snd].
  rewrite Z2Nat.id in H by lia. destruct H as (_ & EL & RL & (_ & _ & H3) & HQ). split; [split; auto|]. intros T f j Hj. rewrite H3 by lia. now rewrite HQ.
Qed.
End perm.

Lemma ref_library_ok p : ok_modulus p -> Znumtheory.prime p -> library_ok (ref_library p) p.
Proof.
  intros Hmod Hprime n m S P0 Q0 Hn Hm HS HB _ _ _ _. unfold ref_library. cbn [l_rref l_plu]. split.
  - pose proof (ref_rref_ok p n m S Hmod Hprime Hn Hm HS HB) as H. destruct (ref_rref p n m S) as [[rr S'] Q].
    destruct H as [H1 H2 H3 H4 H5 H6 (R & C & D & H7 & H8)]. destruct (to_exchanges_perm m Q Hm H4 H5) as [G1 G2].
    constructor; auto. exists R, C, D. split; auto. intros l k Hl Hk. rewrite G2 by lia. auto.
  - pose proof (ref_plu_ok p n m S Hmod Hprime Hn Hm HS HB) as H. destruct (ref_plu p n m S) as [[[rr S'] P] Q].
    destruct H as [H1 H2 H3 H4 H5 H6 H7 H8 H9 H10 H11].
    destruct (to_exchanges_perm n P Hn H4 H5) as [F1 F2]. destruct (to_exchanges_perm m Q Hm H7 H8) as [G1 G2].
    constructor; auto. intros i j Hi Hj. rewrite F2 by lia. rewrite G2 by lia. auto.
Qed.
