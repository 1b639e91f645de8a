(** The functions that call FFPACK hand over what the elimination expects of them. *)
From Verif Require Import Base BaseFacts Spec Zp Mat MatFacts SpecFfpack DenseSpec Dense DenseProofs3 Ffpack.
From Coq Require Import ZifyBool.

Lemma exchange_ext {T} a b (f g : Z -> T) j : (forall i, f i = g i) -> exchange a b f j = exchange a b g j.
Proof. intros H. unfold exchange. now rewrite !H. Qed.

(* the array M is the permutation that the first k exchanges of L make *)
Definition made (L : list Z) (n : Z) (k : nat) (M : list Z) : Prop :=
  (forall j, 0 <= j < n -> 0 <= get M j < n) /\
  (forall i j, 0 <= i < n -> 0 <= j < n -> get M i = get M j -> i = j) /\
  (forall T (f : Z -> T) j, 0 <= j < n -> exchanges L k f j = f (get M j)).

Lemma lapack_to_math_ok M L n : 0 <= n <= len M -> lapack n L ->
  sat (lapack_to_math M L n) (fun M' => len M' = len M /\ (forall k, n <= k -> get M' k = get M k) /\ made L n (Z.to_nat n) M').
Proof.
  intros Hn [HL HR]. unfold lapack_to_math.
  apply sat_bind. eapply sat_mono.
  { apply (for_spec (fun i M' => len M' = len M /\ (forall k, n <= k -> get M' k = get M k) /\ forall j, 0 <= j < i -> get M' j = j)); [lia| | |intros ? H; exact H].
    - split; [reflexivity|]. split; [reflexivity|]. intros; lia.
    - intros i M' Hi (E & Hk & H). rewrite aset_ok by lia. cbn. rewrite len_upd. split; auto. split.
      + intros k Hkn. rewrite get_upd_ne by lia. auto.
      + intros j Hj. destruct (Z.eq_dec i j) as [->|D]; [apply get_upd_eq; lia|]. rewrite get_upd_ne by lia. apply H. lia. }
  cbv beta. intros M0 (E0 & K0 & H0).
  eapply sat_mono.
  { apply (for_spec (fun i M' => len M' = len M /\ (forall k, n <= k -> get M' k = get M k) /\ made L n (Z.to_nat i) M')); [lia| | |intros ? H; exact H].
    - split; auto. split; auto. split; [|split].
      + intros j Hj. rewrite H0; lia.
      + intros i j Hi Hj. rewrite !H0; lia.
      + intros T f j Hj. cbn. now rewrite H0.
    - intros i M' Hi (E & HK & H1 & H2 & H3). rewrite aget_ok by lia. cbn [bind]. pose proof (HR i Hi) as Hl. set (l := get L i) in *.
      replace (Z.to_nat (i + 1)) with (Datatypes.S (Z.to_nat i)) by lia.
      assert (X : forall T (f : Z -> T) j, exchanges L (Datatypes.S (Z.to_nat i)) f j = exchange i l (exchanges L (Z.to_nat i) f) j).
      { intros. cbn [exchanges]. rewrite Z2Nat.id by lia. reflexivity. }
      destruct (l =? i) eqn:El.
      + cbn. split; auto. split; auto. split; [|split]; auto.
        intros T f j Hj. rewrite X. unfold exchange. assert (l = i) as -> by lia. destruct (j =? i) eqn:Ej; [assert (j = i) as -> by lia|]; auto.
      + rewrite !aget_ok by lia. cbn [bind]. rewrite aset_ok by lia. cbn [bind]. rewrite aset_ok by (rewrite len_upd; lia). cbn.
        assert (G : forall j, 0 <= j < n -> get (upd (upd M' i (get M' l)) l (get M' i)) j = if j =? i then get M' l else if j =? l then get M' i else get M' j).
        { intros j Hj. destruct (Z.eq_dec l j) as [->|D].
          - rewrite get_upd_eq by (rewrite len_upd; lia). destruct (j =? i) eqn:Ej; [lia|]. now rewrite Z.eqb_refl.
          - rewrite get_upd_ne by lia. destruct (j =? i) eqn:Ej; [assert (j = i) as -> by lia; apply get_upd_eq; lia|].
            rewrite get_upd_ne by lia. destruct (j =? l) eqn:Ej'; [lia|reflexivity]. }
        split; [now rewrite !len_upd|]. split; [intros k Hk; rewrite !get_upd_ne by lia; auto|]. split; [|split].
        * intros j Hj. rewrite G by lia. destruct (j =? i); [|destruct (j =? l)]; apply H1; lia.
        * intros a b Ha Hb. rewrite !G by lia. destruct (a =? i) eqn:A1, (b =? i) eqn:B1; [lia| | |].
          -- destruct (b =? l) eqn:B2; intros Q; apply H2 in Q; lia.
          -- destruct (a =? l) eqn:A2; intros Q; apply H2 in Q; lia.
          -- destruct (a =? l) eqn:A2, (b =? l) eqn:B2; intros Q; apply H2 in Q; lia.
        * intros T f j Hj. rewrite X, G by lia. unfold exchange. destruct (j =? i); [|destruct (j =? l)]; apply H3; lia. }
  cbv beta. auto.
Qed.

Lemma zeros_ok P n : 0 <= n <= len P -> sat (zeros P n) (fun P' => len P' = len P /\ forall i, 0 <= i < n -> get P' i = 0).
Proof.
  intros Hn. unfold zeros. apply (for_spec (fun k P' => len P' = len P /\ forall i, 0 <= i < k -> get P' i = 0)); [lia| | |auto].
  - split; [reflexivity|]. intros; lia.
  - intros i P' Hi (E & H). rewrite aset_ok by lia. cbn. rewrite len_upd. split; auto. intros j Hj.
    destruct (Z.eq_dec i j) as [->|D]; [apply get_upd_eq; lia|]. rewrite get_upd_ne by lia. apply H. lia.
Qed.

Section wrapper.
Context (g : Z -> Z -> Z) (F : library) (p n m : Z) (A : list Z).
Context (HF : library_ok F p) (Hn : 0 <= n) (Hm : 0 <= m) (HA : n * m <= len A).
Context (HB : forall i j, 0 <= i < n -> 0 <= j < m -> balanced p (dget m A i j)).

Lemma ffpack_rref_ok qinv : m <= len qinv ->
  sat (ffpack_rref g F n m A qinv) (fun '(rr, A', q') =>
    len q' = len qinv /\ (forall k, m <= k -> get q' k = get qinv k) /\ rref_ok p n m A rr A' (firstn (Z.to_nat m) q')).
Proof.
  intros Hq. unfold ffpack_rref. cbv zeta. apply sat_bind. eapply sat_mono; [apply zeros_ok; rewrite len_malloc; lia|]. cbv beta. rewrite len_malloc by lia. intros P [EP ZP].
  apply sat_bind. eapply sat_mono; [apply zeros_ok; rewrite len_malloc; lia|]. cbv beta. rewrite len_malloc by lia. intros Q [EQ ZQ].
  destruct (HF n m A P Q Hn Hm HA HB ltac:(lia) ltac:(lia) ZP ZQ) as [H _]. destruct (l_rref F n m A P Q) as [[[rr A'] P'] Q'].
  apply sat_bind. eapply sat_mono; [apply lapack_to_math_ok; [lia|apply H]|]. cbv beta. intros q' (E & K & M1 & M2 & M3). cbn.
  split; auto. split; auto. destruct H as [H1 H2 H3 H4 (R & C & D & H5 & H6 & H7)]. constructor; auto.
  - rewrite len_firstn by lia. lia.
  - intros k Hk. rewrite get_firstn by lia. auto.
  - intros k l Hk Hl. rewrite !get_firstn by lia. auto.
  - exists R, C, D. split; auto. intros l k Hl Hk. rewrite get_firstn by lia. rewrite <- M3 by lia. auto.
Qed.

Lemma ffpack_LU_ok pp qinv : n <= len pp -> m <= len qinv ->
  sat (ffpack_LU g F n m A pp qinv) (fun '(rr, A', p', q') =>
    len p' = len pp /\ (forall k, n <= k -> get p' k = get pp k) /\ len q' = len qinv /\ (forall k, m <= k -> get q' k = get qinv k) /\
    plu_ok p n m A rr A' (firstn (Z.to_nat n) p') (firstn (Z.to_nat m) q')).
Proof.
  intros Hp Hq. unfold ffpack_LU. cbv zeta. apply sat_bind. eapply sat_mono; [apply zeros_ok; rewrite len_malloc; lia|]. cbv beta. rewrite len_malloc by lia. intros P [EP ZP].
  apply sat_bind. eapply sat_mono; [apply zeros_ok; rewrite len_malloc; lia|]. cbv beta. rewrite len_malloc by lia. intros Q [EQ ZQ].
  destruct (HF n m A P Q Hn Hm HA HB ltac:(lia) ltac:(lia) ZP ZQ) as [_ H]. destruct (l_plu F n m A P Q) as [[[rr A'] P'] Q'].
  apply sat_bind. eapply sat_mono; [apply lapack_to_math_ok; [lia|apply H]|]. cbv beta. intros p' (Ep & Kp & N1 & N2 & N3).
  apply sat_bind. eapply sat_mono; [apply lapack_to_math_ok; [lia|apply H]|]. cbv beta. intros q' (E & K & M1 & M2 & M3). cbn.
  do 4 (split; auto). destruct H as [H1 H2 H3 H4 H5 H6 H7]. constructor; auto.
  - rewrite len_firstn by lia. lia.
  - intros k Hk. rewrite get_firstn by lia. auto.
  - intros k l Hk Hl. rewrite !get_firstn by lia. auto.
  - rewrite len_firstn by lia. lia.
  - intros k Hk. rewrite get_firstn by lia. auto.
  - intros k l Hk Hl. rewrite !get_firstn by lia. auto.
  - intros i j Hi Hj. rewrite !get_firstn by lia. specialize (H7 i j Hi Hj). rewrite N3 in H7 by lia. rewrite M3 in H7 by lia. exact H7.
Qed.
End wrapper.

(** ** The elimination *)
(* the parameters of Dense.v, computed by the functions of Ffpack.v; the arrays that are to receive the
   permutations, qv and pv, may be longer than needed *)
Definition calls_rref (g : Z -> Z -> Z) (F : library) (qv : Z -> Z -> list Z) (n m : Z) (S : list Z) : Z * list Z * list Z :=
  match ffpack_rref g F n m S (qv n m) with Ok (rr, S', q) => (rr, S', firstn (Z.to_nat m) q) | Fail _ => (0, [], []) end.
Definition calls_plu (g : Z -> Z -> Z) (F : library) (pv qv : Z -> Z -> list Z) (n m : Z) (S : list Z) : Z * list Z * list Z * list Z :=
  match ffpack_LU g F n m S (pv n m) (qv n m) with
  | Ok (rr, S', p, q) => (rr, S', firstn (Z.to_nat n) p, firstn (Z.to_nat m) q)
  | Fail _ => (0, [], [], [])
  end.
Lemma calls_ok E p g F pv qv : library_ok F p -> (forall n m, n <= len (pv n m)) -> (forall n m, m <= len (qv n m)) ->
  e_rref E = calls_rref g F qv -> e_plu E = calls_plu g F pv qv -> ffpack_ok E p.
Proof.
  intros HF Hp Hq E1 E2. split; intros n m S Hn Hm HS HB.
  - rewrite E1. unfold calls_rref. pose proof (ffpack_rref_ok g F p n m S HF Hn Hm HS HB (qv n m) (Hq n m)) as H.
    destruct (ffpack_rref g F n m S (qv n m)) as [[[rr S'] q]|]; [apply H|destruct H].
  - rewrite E2. unfold calls_plu. pose proof (ffpack_LU_ok g F p n m S HF Hn Hm HS HB (pv n m) (qv n m) (Hp n m) (Hq n m)) as H.
    destruct (ffpack_LU g F n m S (pv n m) (qv n m)) as [[[[rr S'] pp] q]|]; [apply H|destruct H].
Qed.
