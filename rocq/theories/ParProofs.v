(** Proofs about the parallel construction of a matrix (Par.v). *)
From Verif Require Import Base BaseFacts Spec Mat MatFacts RowList Par.
From Coq Require Import Permutation ZifyBool.

Lemma lsum_nonneg {A} (f : A -> Z) l : (forall a, In a l -> 0 <= f a) -> 0 <= lsum f l.
Proof.
  induction l as [|a l IH]; cbn; intros H; [lia|].
  specialize (IH (fun b h => H b (or_intror h))). specialize (H a (or_introl eq_refl)). unfold lsum in IH. lia.
Qed.

Lemma len_snoc {A} (o : list A) a : len (o ++ [a]) = len o + 1.
Proof. rewrite len_app. reflexivity. Qed.

(* prefix sums *)
Definition psum (f : Z -> Z) (o : list Z) (k : Z) : Z := lsum f (firstn (Z.to_nat k) o).

Lemma psum_0 f o : psum f o 0 = 0. Proof. reflexivity. Qed.
Lemma psum_S f o k : 0 <= k < len o -> psum f o (k + 1) = psum f o k + f (get o k).
Proof.
  intros H. unfold psum, get, getd. replace (k <? 0) with false by lia.
  replace (Z.to_nat (k + 1)) with (S (Z.to_nat k)) by lia.
  assert (Hk : (Z.to_nat k < length o)%nat) by (unfold len in H; lia).
  revert Hk. generalize (Z.to_nat k) as j. clear. induction o as [|a o IH]; intros j Hj; cbn in *; [lia|].
  destruct j as [|j]; cbn [firstn lsum fold_right nth] in *; [lia|].
  cbn [firstn]. specialize (IH j ltac:(lia)). cbn [firstn lsum fold_right] in *. unfold lsum in IH. lia.
Qed.
Lemma psum_app f o a k : 0 <= k <= len o -> psum f (o ++ [a]) k = psum f o k.
Proof.
  intros H. unfold psum. rewrite firstn_app. unfold len in H.
  replace (Z.to_nat k - length o)%nat with 0%nat by lia. cbn. now rewrite app_nil_r.
Qed.
Lemma psum_all f o : psum f o (len o) = lsum f o.
Proof. unfold psum, len. now rewrite Nat2Z.id, firstn_all. Qed.
Lemma psum_le f o j k : (forall a, In a o -> 0 <= f a) -> 0 <= j <= k -> k <= len o -> psum f o j <= psum f o k.
Proof.
  intros Hf Hj Hk. apply (range_ind (fun x => psum f o j <= psum f o x) j k); [cbv beta; lia| |lia].
  intros x Hx IH. rewrite psum_S by lia. specialize (Hf (get o x) (get_In o x ltac:(lia))). lia.
Qed.

Lemma NoDup_get_inj (o : list Z) i j : NoDup o -> 0 <= i < len o -> 0 <= j < len o -> get o i = get o j -> i = j.
Proof.
  intros Hn Hi Hj. unfold get, getd. replace (i <? 0) with false by lia. replace (j <? 0) with false by lia.
  intros H. apply (proj1 (NoDup_nth o 0) Hn) in H; unfold len in *; lia.
Qed.

Lemma buf_eqb_iff a b : buf_eqb a b = true <-> a = b.
Proof. destruct a, b; cbn; split; congruence. Qed.
Lemma buf_eqb_refl a : buf_eqb a a = true. Proof. now destruct a. Qed.

Definition crit (p : pc) : bool :=
  match p with ChkS | WaitS | GrowS | ResS | ChkL _ _ | WaitL _ _ | GrowL _ _ | ResL _ _
  | IncW _ _ _ | Unlock _ _ _ => true | _ => false end.
Definition resd (p : pc) : bool :=
  match p with Start | ChkS | WaitS | GrowS | ResS => false | _ => true end.
Definition preL (p : pc) : bool :=
  match p with ChkL _ _ | WaitL _ _ | GrowL _ _ | ResL _ _ => true | _ => false end.
Definition wrt (p : pc) : bool :=
  match p with Unlock _ _ _ | Write _ _ _ _ => true | _ => false end.
Definition growing (p : pc) : bool :=
  match p with GrowS | GrowL _ _ => true | _ => false end.
Definition b2z (b : bool) : Z := if b then 1 else 0.

Section par.
Context (g : Z -> Z -> Z) (hasL : bool) (lextra : Z) (T : Z -> task) (N R l0 : Z) (m0 : buf -> list Z).

Definition act t := t_act (T t).
Definition ssz t := t_ssz (T t).
Definition lsz t := t_lsz (T t).

(* size of the part of the array [b] where a task may write *)
Definition area (t : Z) (b : buf) : Z :=
  match b with SJ | SX => ssz t | LI | LJ | LX => if hasL then lsz t else 0 | SP => 1 | PO => 1 end.

Record tasks_ok : Prop := {
  ok_N : 0 <= N;
  ok_R : sum 0 N (fun t => b2z (act t)) <= R;
  ok_lextra : 0 <= lextra /\ forall t, 0 <= t < N -> act t = true -> lsz t <= lextra;
  ok_l0 : 0 <= l0;
  ok_sz : forall t, 0 <= t < N -> act t = true -> 0 <= ssz t <= t_need (T t) /\ t_need (T t) <= t_extra (T t) /\ 0 <= lsz t;
  ok_prog : forall t w, 0 <= t < N -> act t = true -> In w (t_prog (T t)) ->
     0 <= w_off w < area t (w_buf w) /\ (w_buf w = PO -> R <= len (m0 PO));
  ok_cells : forall t, NoDup (map (fun w => (w_buf w, w_off w)) (t_prog (T t)));
  ok_SX : len (m0 SX) = len (m0 SJ);
  ok_LJ : len (m0 LJ) = len (m0 LI);
  ok_LX : len (m0 LX) = len (m0 LI);
  ok_LI : hasL = true -> l0 <= len (m0 LI);
  ok_SP : len (m0 SP) = R + 1
}.

Definition locals_ok (p : pc) (k s l : Z) : Prop :=
  match p with
  | ChkL i a | WaitL i a | GrowL i a | ResL i a => i = k /\ a = s
  | IncW i a b | Unlock i a b | Write i a b _ => i = k /\ a = s /\ b = l
  | _ => True
  end.
Definition written (mem : buf -> list Z) (i s l : Z) (ws : list wr) : Prop :=
  forall w, In w ws -> get (mem (w_buf w)) (base (w_buf w) i s l + w_off w) = value w s.
Definition contents_ok (mem : buf -> list Z) (t : Z) (p : pc) (i s l : Z) : Prop :=
  match p with
  | Write _ _ _ r => exists d, t_prog (T t) = d ++ r /\ written mem i s l d
  | Fin => written mem i s l (t_prog (T t))
  | _ => True
  end.

Definition soff o k := psum ssz o k.
Definition loff o k := l0 + psum lsz o k.

(* the program counters, as a function *)
Definition setpc (P : Z -> pc) (t : Z) (p : pc) : Z -> pc := fun u => if u =? t then p else P u.

Record Inv (o : list Z) (h : shared) (P : Z -> pc) : Prop := {
  v_lock : forall t, 0 <= t < N -> (s_lock h = Some t <-> crit (P t) = true);
  v_lockr : forall t, s_lock h = Some t -> 0 <= t < N;
  v_writing : s_writing h = sum 0 N (fun t => b2z (wrt (P t)));
  v_nodup : NoDup o;
  v_in : forall t, In t o <-> 0 <= t < N /\ act t = true /\ resd (P t) = true;
  v_inact : forall t, 0 <= t < N -> act t = false -> P t = Fin;
  v_loc : forall k, 0 <= k < len o -> locals_ok (P (get o k)) k (soff o k) (loff o k);
  v_n : s_n h = len o;
  v_nz : s_nz h = soff o (len o);
  v_lnz1 : forall t, 0 <= t < N -> preL (P t) = true ->
     0 < len o /\ get o (len o - 1) = t /\ s_lnz h = loff o (len o - 1);
  v_lnz2 : (forall t, 0 <= t < N -> preL (P t) = false) -> s_lnz h = loff o (len o);
  v_SX : len (s_mem h SX) = len (s_mem h SJ);
  v_LJ : len (s_mem h LJ) = len (s_mem h LI);
  v_LX : len (s_mem h LX) = len (s_mem h LI);
  v_SP : len (s_mem h SP) = len (m0 SP);
  v_PO : len (s_mem h PO) = len (m0 PO);
  v_capS : s_nz h <= len (s_mem h SJ);
  v_capL : hasL = true -> s_lnz h <= len (s_mem h LI);
  v_roomS : forall t, 0 <= t < N -> P t = ResS -> s_nz h + ssz t <= len (s_mem h SJ);
  v_roomL : forall t i s, 0 <= t < N -> P t = ResL i s -> hasL = true ->
     s_lnz h + lsz t <= len (s_mem h LI);
  v_grow : forall t, 0 <= t < N -> growing (P t) = true -> s_writing h = 0;
  v_cont : forall k, 0 <= k < len o -> contents_ok (s_mem h) (get o k) (P (get o k)) k (soff o k) (loff o k);
  (* what is not written does not change: the beginning of L, and Sp[0] *)
  v_oldL : forall b k, b = LI \/ b = LJ \/ b = LX -> 0 <= k < l0 -> hasL = true -> get (s_mem h b) k = get (m0 b) k;
  v_old0 : get (s_mem h SP) 0 = get (m0 SP) 0
}.

Context (OK : tasks_ok).

Lemma setpc_eq P t p : setpc P t p t = p. Proof. unfold setpc. now rewrite Z.eqb_refl. Qed.
Lemma setpc_ne P t p u : u <> t -> setpc P t p u = P u.
Proof. unfold setpc. intros H. now replace (u =? t) with false by lia. Qed.

Lemma sum_setpc (f : pc -> Z) P t p : 0 <= t < N ->
  sum 0 N (fun u => f (setpc P t p u)) = sum 0 N (fun u => f (P u)) + f p - f (P t).
Proof.
  intros Ht. rewrite (sum_pick 0 N (fun u => f (setpc P t p u)) t), (sum_pick 0 N (fun u => f (P u)) t) by lia.
  rewrite setpc_eq. rewrite (sum_ext 0 N (fun i => if i =? t then 0 else f (setpc P t p i)) (fun i => if i =? t then 0 else f (P i))).
  - lia.
  - intros i Hi. destruct (Z.eqb_spec i t); auto. now rewrite setpc_ne.
Qed.

Lemma Inv_lenR o h P : Inv o h P -> len o <= R.
Proof.
  intros V. destruct OK as [? HR _ _ _ _ _ _ _ _ _ _].
  assert (H : len o <= sum 0 N (fun t => b2z (act t))); [|lia].
  assert (Hle : lsum (fun _ => 1) o <= lsum (fun t => b2z (act t)) (zseq 0 N)).
  { destruct V. clear - v_nodup0 v_in0.
    assert (Hin : forall a, In a o -> In a (zseq 0 N) /\ act a = true).
    { intros a Ha. apply v_in0 in Ha. rewrite In_zseq. tauto. }
    clear v_in0. revert Hin. generalize (zseq 0 N) as l. induction v_nodup0 as [|a o Ha Hn IH]; intros l Hin.
    - apply lsum_nonneg. intros. unfold b2z. destruct act; lia.
    - destruct (Hin a (or_introl eq_refl)) as [Hal Haa]. apply in_split in Hal. destruct Hal as (l1 & l2 & ->).
      specialize (IH (l1 ++ l2)). rewrite lsum_app in *. cbn [lsum fold_right]. rewrite Haa. cbn [b2z].
      fold (lsum (fun _ : Z => 1) o). fold (lsum (fun t => b2z (act t)) l2).
      assert (forall x, In x o -> In x (l1 ++ l2) /\ act x = true).
      { intros x Hx. destruct (Hin x (or_intror Hx)) as [H1 H2]. split; auto. rewrite in_app_iff in *.
        cbn in H1. destruct H1 as [H1|[->|H1]]; tauto. }
      specialize (IH H). lia. }
  rewrite lsum_zseq in Hle. replace (len o) with (lsum (fun _ : Z => 1) o); auto.
  clear. induction o as [|a o IH]; auto. rewrite len_cons, <- IH. reflexivity.
Qed.

(* tactics: case analysis on the program counter of a task u different from, or equal to, t *)
Ltac pcase u t := destruct (Z.eq_dec u t) as [->|]; [rewrite ?setpc_eq in *|rewrite ?(setpc_ne _ t _ u) in * by auto].
Ltac gcase o j t := destruct (Z.eq_dec (get o j) t) as [Eq|Ne]; [rewrite ?Eq, ?setpc_eq|rewrite ?setpc_ne by auto].

Lemma Inv_other o h P t u : Inv o h P -> 0 <= t < N -> 0 <= u < N -> crit (P t) = true -> u <> t -> crit (P u) = false.
Proof.
  intros V Ht Hu Hc Hne. destruct (crit (P u)) eqn:E; auto. apply (v_lock _ _ _ V) in Hc; auto.
  apply (v_lock _ _ _ V) in E; auto. congruence.
Qed.

Lemma crit_preL p : crit p = false -> preL p = false. Proof. destruct p; cbn; auto. Qed.
Lemma crit_grow p : crit p = false -> growing p = false. Proof. destruct p; cbn; auto. Qed.

(* a step of t inside the critical section, or entering or leaving it, that changes nothing but
   the lock *)
Lemma Inv_control o h P t p k : Inv o h P -> 0 <= t < N -> act t = true ->
  (crit (P t) = true \/ s_lock h = None) -> crit p = (match k with Some _ => true | None => false end) ->
  (k = None \/ k = Some t) ->
  resd p = resd (P t) -> wrt p = wrt (P t) -> preL p = preL (P t) ->
  (forall i s l, locals_ok (P t) i s l -> locals_ok p i s l) ->
  (p = ResS -> s_nz h + ssz t <= len (s_mem h SJ)) ->
  (forall i s, p = ResL i s -> hasL = true -> s_lnz h + lsz t <= len (s_mem h LI)) ->
  (growing p = true -> s_writing h = 0) ->
  (forall i s l r, p = Write i s l r -> r = t_prog (T t)) ->
  p <> Fin ->
  Inv o (Shared k (s_writing h) (s_n h) (s_nz h) (s_lnz h) (s_mem h)) (setpc P t p).
Proof.
  intros V Ht Ha Hcr Hk Hkt Hr Hw Hpl Hloc HrS HrL Hg Hwr Hfin.
  assert (Hoth : forall u, 0 <= u < N -> u <> t -> crit (P u) = false).
  { intros u Hu Hne. destruct Hcr as [Hcr|Hcr]. { apply (Inv_other o h P t u); auto. }
    destruct (crit (P u)) eqn:E; auto. apply (v_lock _ _ _ V) in E; auto. congruence. }
  destruct V. constructor; cbn [s_lock s_writing s_n s_nz s_lnz s_mem] in *; auto.
  - intros u Hu. pcase u t.
    + rewrite Hk. destruct Hkt as [-> | ->]; split; congruence.
    + rewrite Hoth by auto. destruct Hkt as [-> | ->]; split; congruence.
  - intros u. destruct Hkt as [-> | ->]; [congruence|]. intros [= <-]. auto.
  - rewrite v_writing0, (sum_setpc (fun p => b2z (wrt p))) by auto. rewrite Hw. lia.
  - intros u. rewrite v_in0. pcase u t; [|tauto]. rewrite Hr. tauto.
  - intros u Hu Hau. pcase u t; [congruence|auto].
  - intros j Hj. gcase o j t; [|auto]. apply Hloc. specialize (v_loc0 j Hj). rewrite Eq in v_loc0. auto.
  - intros u Hu. pcase u t; [rewrite Hpl|]; auto.
  - intros H. apply v_lnz4. intros u Hu. specialize (H u Hu). pcase u t; congruence.
  - intros u Hu. pcase u t; auto.
  - intros u i s Hu. pcase u t; [apply HrL|apply v_roomL0]; auto.
  - intros u Hu. pcase u t; [auto|apply v_grow0; auto].
  - intros j Hj. gcase o j t; [|auto].
    destruct p; cbn; auto; [|congruence].
    specialize (Hwr i s l todo eq_refl). subst todo. exists []. split; auto. intros w [].
Qed.

Lemma in_task o h P k : Inv o h P -> 0 <= k < len o -> 0 <= get o k < N /\ act (get o k) = true /\ resd (P (get o k)) = true.
Proof. intros V Hk. apply (v_in _ _ _ V). now apply get_In. Qed.

Lemma szs o h P : Inv o h P -> forall a, In a o -> 0 <= ssz a /\ 0 <= lsz a.
Proof. intros V a Ha. apply (v_in _ _ _ V) in Ha. destruct Ha as (Ha & Hb & _). destruct (ok_sz OK a); auto. lia. Qed.

Lemma soff_next o h P k k' : Inv o h P -> 0 <= k < k' -> k' <= len o -> soff o k + ssz (get o k) <= soff o k'.
Proof.
  intros V Hk Hk'. unfold soff. rewrite <- psum_S by lia. apply psum_le; try lia.
  intros a Ha. apply (szs o h P V a Ha).
Qed.
Lemma loff_next o h P k k' : Inv o h P -> 0 <= k < k' -> k' <= len o -> loff o k + lsz (get o k) <= loff o k'.
Proof.
  intros V Hk Hk'. unfold loff. rewrite <- Z.add_assoc, <- psum_S by lia. apply Z.add_le_mono_l, psum_le; try lia.
  intros a Ha. apply (szs o h P V a Ha).
Qed.
Lemma off_pos o h P k : Inv o h P -> 0 <= k <= len o -> 0 <= soff o k /\ l0 <= loff o k.
Proof.
  intros V Hk. unfold soff, loff.
  pose proof (psum_le ssz o 0 k (fun a h => proj1 (szs _ _ _ V a h)) ltac:(lia) ltac:(lia)).
  pose proof (psum_le lsz o 0 k (fun a h => proj2 (szs _ _ _ V a h)) ltac:(lia) ltac:(lia)).
  rewrite !psum_0 in *. lia.
Qed.
Lemma psum_last f o : 0 < len o -> psum f o (len o) = psum f o (len o - 1) + f (get o (len o - 1)).
Proof. intros H. rewrite <- psum_S by lia. f_equal. lia. Qed.

Lemma cell_range o h P k w : Inv o h P -> 0 <= k < len o -> preL (P (get o k)) = false ->
  In w (t_prog (T (get o k))) ->
  0 <= base (w_buf w) k (soff o k) (loff o k) + w_off w < len (s_mem h (w_buf w)) /\
  (w_buf w = LI \/ w_buf w = LJ \/ w_buf w = LX -> l0 <= base (w_buf w) k (soff o k) (loff o k) + w_off w).
Proof.
  intros V Hk Hp Hw. destruct (in_task o h P k V Hk) as (Ht & Ha & _).
  pose proof (Inv_lenR o h P V). destruct (ok_prog OK _ _ Ht Ha Hw) as [Ho HP].
  pose proof (off_pos o h P k V ltac:(lia)) as [O1 O2].
  pose proof (soff_next o h P k (len o) V ltac:(lia) ltac:(lia)) as N1.
  assert (N2 : loff o k + lsz (get o k) <= s_lnz h).
  { destruct (Z.eq_dec (s_lnz h) (loff o (len o))) as [->|Hn]. { apply (loff_next o h P); auto; lia. }
    assert (Hx : exists t, 0 <= t < N /\ preL (P t) = true).
    { destruct (Z_le_gt_dec (sum 0 N (fun t => b2z (preL (P t)))) 0) as [Hs|Hs].
      - exfalso. apply Hn, (v_lnz2 _ _ _ V). intros t Ht'. destruct (preL (P t)) eqn:E; auto.
        enough (0 < sum 0 N (fun t => b2z (preL (P t)))) by lia. apply (sum_pos 0 N _ t); auto; cbv beta.
        + rewrite E. reflexivity.
        + intros i _. unfold b2z. destruct (preL (P i)); lia.
      - destruct (sum_pos_exists 0 N (fun t => b2z (preL (P t))) ltac:(lia)) as (t & Ht' & Hb).
        exists t. split; auto. destruct (preL (P t)); auto. cbn in Hb. lia. }
    destruct Hx as (t & Ht' & Hpt). destruct (v_lnz1 _ _ _ V t Ht' Hpt) as (H0 & H1 & ->).
    apply (loff_next o h P); auto; try lia. destruct (Z.eq_dec k (len o - 1)) as [->|]; [|lia].
    rewrite H1 in Hp. congruence. }
  pose proof (v_capS _ _ _ V) as C1. pose proof (v_capL _ _ _ V) as C2. rewrite (v_nz _ _ _ V) in C1.
  pose proof (v_SX _ _ _ V). pose proof (v_LJ _ _ _ V). pose proof (v_LX _ _ _ V).
  pose proof (v_SP _ _ _ V). pose proof (v_PO _ _ _ V). pose proof (ok_SP OK).
  unfold area in Ho. unfold base. destruct (w_buf w); try (destruct hasL; [specialize (C2 eq_refl)|]);
    (split; [|intros [|[|]]; try congruence]); pose proof (ok_l0 OK); try specialize (HP eq_refl); try lia.
Qed.

Lemma cells_disjoint o h P k k' w w' : Inv o h P -> 0 <= k < len o -> 0 <= k' < len o -> k <> k' ->
  In w (t_prog (T (get o k))) -> In w' (t_prog (T (get o k'))) -> w_buf w = w_buf w' ->
  base (w_buf w) k (soff o k) (loff o k) + w_off w <> base (w_buf w') k' (soff o k') (loff o k') + w_off w'.
Proof.
  assert (H : forall k k' w w', Inv o h P -> 0 <= k < k' -> k' < len o ->
    In w (t_prog (T (get o k))) -> In w' (t_prog (T (get o k'))) -> w_buf w = w_buf w' ->
    base (w_buf w) k (soff o k) (loff o k) + w_off w < base (w_buf w') k' (soff o k') (loff o k') + w_off w').
  { clear k k' w w'. intros k k' w w' V Hk Hk' Hw Hw' Hb.
    destruct (in_task o h P k V ltac:(lia)) as (Ht & Ha & _).
    destruct (in_task o h P k' V ltac:(lia)) as (Ht' & Ha' & _).
    destruct (ok_prog OK _ _ Ht Ha Hw) as [Ho _]. destruct (ok_prog OK _ _ Ht' Ha' Hw') as [Ho' _].
    pose proof (soff_next o h P k k' V ltac:(lia) ltac:(lia)).
    pose proof (loff_next o h P k k' V ltac:(lia) ltac:(lia)).
    rewrite <- Hb in *. unfold area in *. unfold base. destruct (w_buf w); try destruct hasL; lia. }
  intros V Hk Hk' Hne Hw Hw' Hb. destruct (Z_lt_le_dec k k').
  - specialize (H k k' w w' V). lia || (specialize (H ltac:(lia) ltac:(lia) Hw Hw' Hb); lia).
  - specialize (H k' k w' w V ltac:(lia) ltac:(lia) Hw' Hw (eq_sym Hb)). lia.
Qed.

(* arrays grow when no task is writing *)
Lemma Inv_mem o h P mem : Inv o h P ->
  (forall b, len (s_mem h b) <= len (mem b)) ->
  (forall b k, 0 <= k < len (s_mem h b) -> get (mem b) k = get (s_mem h b) k) ->
  len (mem SX) = len (mem SJ) -> len (mem LJ) = len (mem LI) -> len (mem LX) = len (mem LI) ->
  len (mem SP) = len (m0 SP) -> len (mem PO) = len (m0 PO) ->
  Inv o (Shared (s_lock h) (s_writing h) (s_n h) (s_nz h) (s_lnz h) mem) P.
Proof.
  intros V Hl Hg L1 L2 L3 L4 L5. pose proof (cell_range o h P) as CR. pose proof V as V'.
  destruct V. constructor; cbn [s_lock s_writing s_n s_nz s_lnz s_mem] in *; auto.
  - specialize (Hl SJ). lia.
  - specialize (Hl LI). lia.
  - intros t Ht HP. specialize (v_roomS0 t Ht HP). specialize (Hl SJ). lia.
  - intros t i s Ht HP HL. specialize (v_roomL0 t i s Ht HP HL). specialize (Hl LI). lia.
  - intros k Hk. specialize (v_cont0 k Hk).
    assert (Hx : forall w, preL (P (get o k)) = false -> In w (t_prog (T (get o k))) ->
      get (mem (w_buf w)) (base (w_buf w) k (soff o k) (loff o k) + w_off w) =
      get (s_mem h (w_buf w)) (base (w_buf w) k (soff o k) (loff o k) + w_off w)).
    { intros w Hp Hw. apply Hg. apply CR; auto. }
    destruct (P (get o k)); cbn [contents_ok] in *; auto.
    + destruct v_cont0 as (d & Hd & Hw). exists d. split; auto. intros w Hin. rewrite Hx; auto.
      rewrite Hd, in_app_iff. auto.
    + intros w Hin. rewrite Hx; auto.
  - intros b k Hb Hk HL. rewrite Hg; auto. pose proof (off_pos o h P (len o) V' ltac:(pose proof (len_nonneg o); lia)).
    pose proof (off_pos o h P 0 V' ltac:(pose proof (len_nonneg o); lia)).
    assert (l0 <= s_lnz h).
    { destruct (Z_le_gt_dec l0 (s_lnz h)); auto. exfalso.
      assert (s_lnz h <> loff o (len o)) by lia.
      assert (Hx : forall t, 0 <= t < N -> preL (P t) = false).
      { intros t Ht. destruct (preL (P t)) eqn:E; auto. destruct (v_lnz3 t Ht E) as (A1 & _ & A3).
        pose proof (off_pos o h P (len o - 1) V' ltac:(lia)). lia. }
      auto. }
    specialize (v_capL0 HL). destruct Hb as [-> | [-> | ->]]; lia.
  - rewrite Hg; auto. rewrite v_SP0, (ok_SP OK). pose proof (Inv_lenR o h P V'). pose proof (len_nonneg o). lia.
Qed.

Lemma setmem_eq m b a : setmem m b a b = a. Proof. unfold setmem. now rewrite buf_eqb_refl. Qed.
Lemma setmem_ne m b a c : b <> c -> setmem m b a c = m c.
Proof. unfold setmem. destruct (buf_eqb b c) eqn:E; auto. apply buf_eqb_iff in E. congruence. Qed.

(* registering as a writer *)
Lemma Inv_incw o h P t i s l : Inv o h P -> 0 <= t < N -> act t = true -> P t = IncW i s l ->
  Inv o (Shared (s_lock h) (s_writing h + 1) (s_n h) (s_nz h) (s_lnz h) (s_mem h)) (setpc P t (Unlock i s l)).
Proof.
  intros V Ht Ha HP. pose proof V as V'. destruct V. constructor; cbn [s_lock s_writing s_n s_nz s_lnz s_mem] in *; auto.
  - intros u Hu. rewrite v_lock0 by auto. pcase u t; [rewrite HP|]; cbn; tauto.
  - rewrite (sum_setpc (fun p => b2z (wrt p))) by auto. rewrite v_writing0, HP. cbn. lia.
  - intros u. rewrite v_in0. pcase u t; [|tauto]. rewrite HP. cbn. tauto.
  - intros u Hu Hau. pcase u t; [congruence|auto].
  - intros j Hj. gcase o j t; [|auto]. specialize (v_loc0 j Hj). rewrite Eq, HP in v_loc0. auto.
  - intros u Hu. pcase u t; [cbn; congruence|auto].
  - intros H. apply v_lnz4. intros u Hu. specialize (H u Hu). pcase u t; [rewrite HP|]; auto.
  - intros u Hu. pcase u t; [congruence|auto].
  - intros u i' s' Hu. pcase u t; [congruence|apply v_roomL0; auto].
  - intros u Hu. pcase u t; [cbn; congruence|]. intros Hg. exfalso.
    pose proof (Inv_other o h P t u V' Ht Hu) as Ho. rewrite HP in Ho. specialize (Ho eq_refl n).
    apply crit_grow in Ho. congruence.
  - intros j Hj. gcase o j t; [|auto]. cbn. auto.
Qed.

(* end of the writes *)
Lemma Inv_decw o h P t i s l : Inv o h P -> 0 <= t < N -> act t = true -> P t = Write i s l [] ->
  Inv o (Shared (s_lock h) (s_writing h - 1) (s_n h) (s_nz h) (s_lnz h) (s_mem h)) (setpc P t Fin).
Proof.
  intros V Ht Ha HP. pose proof V as V'. destruct V. constructor; cbn [s_lock s_writing s_n s_nz s_lnz s_mem] in *; auto.
  - intros u Hu. rewrite v_lock0 by auto. pcase u t; [rewrite HP|]; cbn; tauto.
  - rewrite (sum_setpc (fun p => b2z (wrt p))) by auto. rewrite v_writing0, HP. cbn. lia.
  - intros u. rewrite v_in0. pcase u t; [|tauto]. rewrite HP. cbn. tauto.
  - intros u Hu Hau. pcase u t; auto.
  - intros j Hj. gcase o j t; [|auto]. cbn. auto.
  - intros u Hu. pcase u t; [cbn; congruence|auto].
  - intros H. apply v_lnz4. intros u Hu. specialize (H u Hu). pcase u t; [rewrite HP|]; auto.
  - intros u Hu. pcase u t; [congruence|auto].
  - intros u i' s' Hu. pcase u t; [congruence|apply v_roomL0; auto].
  - intros u Hu. pcase u t; [cbn; congruence|]. intros Hg. specialize (v_grow0 u Hu Hg).
    assert (0 < s_writing h); [|lia]. rewrite v_writing0. apply (sum_pos 0 N _ t); auto; cbv beta.
    + rewrite HP. reflexivity.
    + intros j _. unfold b2z. destruct (wrt (P j)); lia.
  - intros j Hj. gcase o j t; [|auto]. specialize (v_cont0 j Hj). rewrite Eq, HP in v_cont0.
    cbn in *. destruct v_cont0 as (d & Hd & Hw). rewrite app_nil_r in Hd. now rewrite Hd.
Qed.

(* reserving space in L *)
Lemma Inv_resl o h P t i s : Inv o h P -> 0 <= t < N -> act t = true -> P t = ResL i s ->
  Inv o (Shared (s_lock h) (s_writing h) (s_n h) (s_nz h) (s_lnz h + lsz t) (s_mem h)) (setpc P t (IncW i s (s_lnz h))).
Proof.
  intros V Ht Ha HP. pose proof V as V'. destruct V. constructor; cbn [s_lock s_writing s_n s_nz s_lnz s_mem] in *; auto.
  - intros u Hu. rewrite v_lock0 by auto. pcase u t; [rewrite HP|]; cbn; tauto.
  - rewrite (sum_setpc (fun p => b2z (wrt p))) by auto. rewrite v_writing0, HP. cbn. lia.
  - intros u. rewrite v_in0. pcase u t; [|tauto]. rewrite HP. cbn. tauto.
  - intros u Hu Hau. pcase u t; [congruence|auto].
  - intros j Hj. gcase o j t; [|auto]. specialize (v_loc0 j Hj). rewrite Eq, HP in v_loc0. cbn in *.
    destruct (v_lnz3 t Ht ltac:(now rewrite HP)) as (A1 & A2 & A3).
    rewrite <- A2 in Eq. apply NoDup_get_inj in Eq; auto; try lia. subst j. tauto.
  - intros u Hu. pcase u t; [cbn; congruence|]. intros Hg. exfalso.
    pose proof (Inv_other o h P t u V' Ht Hu) as Ho. rewrite HP in Ho. specialize (Ho eq_refl n).
    apply crit_preL in Ho. congruence.
  - intros _. destruct (v_lnz3 t Ht ltac:(now rewrite HP)) as (A1 & A2 & A3). rewrite A3. unfold loff.
    rewrite psum_last by auto. rewrite A2. lia.
  - intros HL. specialize (v_roomL0 t i s Ht HP HL). lia.
  - intros u Hu. pcase u t; [congruence|auto].
  - intros u i' s' Hu. pcase u t; [congruence|]. intros Hg. exfalso.
    pose proof (Inv_other o h P t u V' Ht Hu) as Ho. rewrite HP in Ho. specialize (Ho eq_refl n).
    rewrite Hg in Ho. cbn in Ho. congruence.
  - intros u Hu. pcase u t; [cbn; congruence|apply v_grow0; auto].
  - intros j Hj. gcase o j t; [|auto]. cbn. auto.
Qed.

(* reserving a row *)
Lemma Inv_ress o h P t : Inv o h P -> 0 <= t < N -> act t = true -> P t = ResS ->
  Inv (o ++ [t]) (Shared (s_lock h) (s_writing h) (s_n h + 1) (s_nz h + ssz t) (s_lnz h) (s_mem h))
    (setpc P t (ChkL (s_n h) (s_nz h))).
Proof.
  intros V Ht Ha HP. pose proof V as V'. pose proof (len_nonneg o).
  assert (Hnin : ~ In t o). { rewrite (v_in _ _ _ V), HP. cbn. intros (_ & _ & ?). congruence. }
  assert (Ho : forall u, 0 <= u < N -> u <> t -> crit (P u) = false).
  { intros u Hu Hne. apply (Inv_other o h P t u); auto. now rewrite HP. }
  destruct V. constructor; cbn [s_lock s_writing s_n s_nz s_lnz s_mem] in *; auto.
  - intros u Hu. rewrite v_lock0 by auto. pcase u t; [rewrite HP|]; cbn; tauto.
  - rewrite (sum_setpc (fun p => b2z (wrt p))) by auto. rewrite v_writing0, HP. cbn. lia.
  - apply NoDup_app; auto. { constructor; [easy|constructor]. } intros a Ha' [->|[]]. auto.
  - intros u. rewrite in_app_iff, v_in0. cbn. pcase u t.
    + rewrite HP. cbn. tauto.
    + split; [intros [?|[?|[]]]; [tauto|congruence]|tauto].
  - intros u Hu Hau. pcase u t; [congruence|auto].
  - intros j Hj. rewrite len_snoc in Hj. unfold soff, loff. rewrite !psum_app by lia.
    destruct (Z.eq_dec j (len o)) as [->|].
    + rewrite get_app_r by lia. rewrite Z.sub_diag. change (get [t] 0) with t. rewrite setpc_eq. cbn. auto.
    + rewrite get_app_l by lia. rewrite setpc_ne. { apply v_loc0. lia. }
      intros Eq. apply Hnin. rewrite <- Eq. apply get_In. lia.
  - rewrite len_snoc. lia.
  - unfold soff. rewrite len_snoc. rewrite psum_S by (rewrite len_snoc; lia). rewrite get_app_r by lia. rewrite Z.sub_diag.
    change (get [t] 0) with t. rewrite psum_app by lia. fold (soff o (len o)). lia.
  - intros u Hu. pcase u t.
    + intros _. rewrite len_snoc. do 2 (split; [try lia|]).
      { replace (len o + 1 - 1) with (len o) by lia. rewrite get_app_r by lia. rewrite Z.sub_diag. reflexivity. }
      replace (len o + 1 - 1) with (len o) by lia. unfold loff. rewrite psum_app by lia. apply v_lnz4.
      intros u Hu'. destruct (Z.eq_dec u t) as [->|]; [now rewrite HP|]. apply crit_preL. auto.
    + intros Hg. exfalso. specialize (Ho u Hu n). apply crit_preL in Ho. congruence.
  - intros Hx. specialize (Hx t Ht). rewrite setpc_eq in Hx. cbn in Hx. congruence.
  - intros u Hu. pcase u t; [congruence|]. intros Hg. specialize (Ho u Hu n). rewrite Hg in Ho. cbn in Ho. congruence.
  - intros u i' s' Hu. pcase u t; [congruence|]. intros Hg. specialize (Ho u Hu n). rewrite Hg in Ho. cbn in Ho. congruence.
  - intros u Hu. pcase u t; [cbn; congruence|apply v_grow0; auto].
  - intros j Hj. rewrite len_snoc in Hj. unfold soff, loff. rewrite !psum_app by lia.
    destruct (Z.eq_dec j (len o)) as [->|].
    + rewrite get_app_r by lia. rewrite Z.sub_diag. change (get [t] 0) with t. rewrite setpc_eq. cbn. auto.
    + rewrite get_app_l by lia. rewrite setpc_ne. { apply v_cont0. lia. }
      intros Eq. apply Hnin. rewrite <- Eq. apply get_In. lia.
Qed.

(* one write *)
Lemma Inv_write o h P t i s l w r : Inv o h P -> 0 <= t < N -> act t = true -> P t = Write i s l (w :: r) ->
  0 <= base (w_buf w) i s l + w_off w < len (s_mem h (w_buf w)) /\
  Inv o (Shared (s_lock h) (s_writing h) (s_n h) (s_nz h) (s_lnz h)
      (setmem (s_mem h) (w_buf w) (upd (s_mem h (w_buf w)) (base (w_buf w) i s l + w_off w) (value w s))))
    (setpc P t (Write i s l r)).
Proof.
  intros V Ht Ha HP.
  assert (Hin : In t o). { apply (v_in _ _ _ V). rewrite HP. auto. }
  apply In_get in Hin. destruct Hin as (k & Hk & Ek).
  assert (Hl : i = k /\ s = soff o k /\ l = loff o k).
  { pose proof (v_loc _ _ _ V k Hk) as Hl. rewrite Ek, HP in Hl. exact Hl. }
  destruct Hl as (-> & -> & ->).
  pose proof (v_cont _ _ _ V k Hk) as Hc. rewrite Ek, HP in Hc. destruct Hc as (d & Hd & Hw).
  assert (Hwin : In w (t_prog (T t))). { rewrite Hd, in_app_iff. cbn. auto. }
  destruct (cell_range o h P k w V Hk) as [Hr Hr2]. { rewrite Ek, HP. auto. } { now rewrite Ek. }
  split; auto.
  set (c := base (w_buf w) k (soff o k) (loff o k) + w_off w) in *.
  set (mem := setmem _ _ _).
  assert (Hlen : forall b, len (mem b) = len (s_mem h b)).
  { intros b. unfold mem, setmem. destruct (buf_eqb (w_buf w) b) eqn:E; auto.
    apply buf_eqb_iff in E. subst b. apply len_upd. }
  assert (Hget : forall b j, (b <> w_buf w \/ j <> c) -> get (mem b) j = get (s_mem h b) j).
  { intros b j Hb. unfold mem, setmem. destruct (buf_eqb (w_buf w) b) eqn:E; auto.
    apply buf_eqb_iff in E. subst b. apply get_upd_ne. destruct Hb; congruence. }
  pose proof (cells_disjoint o h P) as CD. pose proof V as V'.
  destruct V. constructor; cbn [s_lock s_writing s_n s_nz s_lnz s_mem] in *; rewrite ?Hlen; auto.
  - intros u Hu. rewrite v_lock0 by auto. pcase u t; [rewrite HP|]; cbn; tauto.
  - rewrite (sum_setpc (fun p => b2z (wrt p))) by auto. rewrite v_writing0, HP. cbn. lia.
  - intros u. rewrite v_in0. pcase u t; [|tauto]. rewrite HP. cbn. tauto.
  - intros u Hu Hau. pcase u t; [congruence|auto].
  - intros j Hj. gcase o j t; [|auto]. specialize (v_loc0 j Hj). rewrite Eq, HP in v_loc0. auto.
  - intros u Hu. pcase u t; [cbn; congruence|auto].
  - intros H. apply v_lnz4. intros u Hu. specialize (H u Hu). pcase u t; [rewrite HP|]; auto.
  - intros u Hu. pcase u t; [congruence|auto].
  - intros u i' s' Hu. rewrite ?Hlen. pcase u t; [congruence|apply v_roomL0; auto].
  - intros u Hu. pcase u t; [cbn; congruence|apply v_grow0; auto].
  - intros j Hj. gcase o j t.
    + assert (j = k) as ->. { apply (NoDup_get_inj o); auto. congruence. }
      cbn. exists (d ++ [w]). split. { rewrite <- app_assoc. auto. }
      intros w' Hw'. rewrite in_app_iff in Hw'.
      assert (Hcase : (w_buf w' <> w_buf w \/ base (w_buf w') k (soff o k) (loff o k) + w_off w' <> c) \/ w' = w).
      { destruct Hw' as [Hw'|[->|[]]]; auto. left.
        pose proof (ok_cells OK t) as Hn. rewrite Hd, map_app in Hn. cbn in Hn. apply NoDup_remove_2 in Hn.
        destruct (buf_eqb (w_buf w') (w_buf w)) eqn:E.
        - right. apply buf_eqb_iff in E. intros Ec. apply Hn. apply in_app_iff. left. apply in_map_iff.
          exists w'. split; auto. rewrite E in *. f_equal. subst c. lia.
        - left. intros Ew. rewrite Ew, buf_eqb_refl in E. congruence. }
      destruct Hcase as [Hc| ->].
      * rewrite Hget by auto. destruct Hw' as [Hw'|[<-|[]]]; auto. exfalso. destruct Hc as [Hc|Hc]; apply Hc; auto.
      * unfold mem. rewrite setmem_eq. apply get_upd_eq. auto.
    + specialize (v_cont0 j Hj).
      assert (Hx : forall w', In w' (t_prog (T (get o j))) ->
        get (mem (w_buf w')) (base (w_buf w') j (soff o j) (loff o j) + w_off w') =
        get (s_mem h (w_buf w')) (base (w_buf w') j (soff o j) (loff o j) + w_off w')).
      { intros w' Hw'. apply Hget. destruct (buf_eqb (w_buf w') (w_buf w)) eqn:E.
        - right. apply buf_eqb_iff in E. apply CD; auto. { congruence. } now rewrite Ek.
        - left. intros Ew. rewrite Ew, buf_eqb_refl in E. congruence. }
      destruct (P (get o j)); cbn [contents_ok] in *; auto.
      * destruct v_cont0 as (d' & Hd' & Hw'). exists d'. split; auto. intros w' Hin. rewrite Hx; auto.
        rewrite Hd', in_app_iff. auto.
      * intros w' Hin. rewrite Hx; auto.
  - intros b j Hb Hj HL. rewrite Hget; auto. destruct (buf_eqb b (w_buf w)) eqn:E.
    + right. apply buf_eqb_iff in E. subst b. specialize (Hr2 Hb). lia.
    + left. intros ->. rewrite buf_eqb_refl in E. congruence.
  - rewrite Hget; auto. destruct (buf_eqb SP (w_buf w)) eqn:E.
    + right. apply buf_eqb_iff in E. subst c. rewrite <- E. cbn.
      destruct (ok_prog OK t w Ht Ha Hwin) as [Ho _]. lia.
    + left. intros Ew. rewrite Ew, buf_eqb_refl in E. congruence.
Qed.

Lemma realloc_grow b a k : len a <= k -> len (realloc (g b) a k) = k /\
  (forall i, 0 <= i < len a -> get (realloc (g b) a k) i = get a i).
Proof.
  intros H. pose proof (len_nonneg a). split. { apply len_realloc. lia. } intros. apply get_realloc; lia.
Qed.

Theorem step_ok o h P t : Inv o h P -> 0 <= t < N ->
  sat (step g hasL lextra (T t) t (P t) h) (fun r =>
    match r with
    | None => match P t with Start => s_lock h <> None | WaitS | WaitL _ _ => 0 < s_writing h | Fin => True | _ => False end
    | Some (p, h') => (exists o', Inv o' h' (setpc P t p)) /\ P t <> Fin
    end).
Proof.
  intros V Ht.
  assert (Ha : P t = Fin \/ act t = true).
  { destruct (act t) eqn:E; auto. left. apply (v_inact _ _ _ V); auto. }
  destruct Ha as [Hf|Ha]. { rewrite Hf. destruct h. cbn. auto. }
  destruct (ok_sz OK t Ht Ha) as (Z1 & Z2 & Z3). destruct (ok_lextra OK) as [X1 X2]. specialize (X2 t Ht Ha).
  pose proof (v_capS _ _ _ V) as CS. pose proof (v_capL _ _ _ V) as CL.
  pose proof (fun p k => Inv_control o h P t p k V Ht Ha) as IC.
  destruct h as [lock writing n nz lnz mem]. cbn [s_lock s_writing s_n s_nz s_lnz s_mem] in *.
  destruct (P t) as [| | | | |i s|i s|i s|i s|i s l|i s l|i s l ws|] eqn:EP; cbn [step].
  - (* Start *) destruct lock as [u|]; cbn; [congruence|]. split; [|congruence]. exists o.
    apply IC; cbn; auto; congruence.
  - (* ChkS *) cbn. split; [|congruence]. exists o.
    assert (Hlk : lock = Some t). { apply (v_lock _ _ _ V); auto. now rewrite EP. }
    rewrite Hlk. destruct (Z.gtb_spec (nz + t_need (T t)) (len (mem SJ))); apply IC; cbn; auto; try congruence. unfold ssz in *; lia.
  - (* WaitS *) destruct (Z.gtb_spec writing 0); cbn; [lia|]. split; [|congruence]. exists o.
    assert (Hlk : lock = Some t). { apply (v_lock _ _ _ V); auto. now rewrite EP. }
    rewrite Hlk. apply IC; cbn; auto; try congruence. intros _.
    pose proof (v_writing _ _ _ V) as Hw. cbn in Hw. pose proof (sum_nonneg 0 N (fun u => b2z (wrt (P u)))).
    enough (0 <= writing) by lia. rewrite Hw. apply H0. intros u _. unfold b2z. destruct (wrt (P u)); lia.
  - (* GrowS *) cbn [sat]. split; [|congruence]. exists o.
    assert (Hlk : lock = Some t). { apply (v_lock _ _ _ V); auto. now rewrite EP. }
    pose proof (v_SX _ _ _ V) as EX. cbn in EX. pose proof (len_nonneg (mem SJ)).
    set (k := 2 * len (mem SJ) + t_extra (T t)). set (mem' := setmem _ _ _).
    destruct (realloc_grow 3 (mem SJ) k) as [G1 G2]. { unfold ssz in *. lia. }
    destruct (realloc_grow 4 (mem SX) k) as [G3 G4]. { unfold ssz in *. lia. }
    assert (V2 : Inv o (Shared lock writing n nz lnz mem') P).
    { apply (Inv_mem o (Shared lock writing n nz lnz mem) P); auto; cbn [s_mem];
        try (unfold mem'; cbn; rewrite ?G1, ?G3; auto; fail).
      - intros b. unfold mem'. destruct b; cbn; rewrite ?G1, ?G3; unfold k, ssz in *; lia.
      - intros b j Hj. unfold mem'. destruct b; cbn; auto.
      - apply (v_LJ _ _ _ V).
      - apply (v_LX _ _ _ V).
      - apply (v_SP _ _ _ V).
      - apply (v_PO _ _ _ V). }
    pose proof (Inv_control o _ P t ResS (Some t) V2 Ht Ha) as IC2. rewrite EP in IC2. rewrite Hlk.
    apply IC2; cbn; auto; try congruence. intros _. rewrite G1. unfold k, ssz in *. lia.
  - (* ResS *) cbn. split; [|congruence]. exists (o ++ [t]). apply (Inv_ress o _ P t V Ht Ha EP).
  - (* ChkL *) cbn. split; [|congruence]. exists o.
    assert (Hlk : lock = Some t). { apply (v_lock _ _ _ V); auto. now rewrite EP. }
    rewrite Hlk. destruct (hasL && (lnz + t_lsz (T t) >? len (mem LI))) eqn:E; apply IC; cbn; auto; try congruence.
    intros i' s' _ HL. rewrite HL in E. cbn in E. unfold lsz. lia.
  - (* WaitL *) destruct (Z.gtb_spec writing 0); cbn; [lia|]. split; [|congruence]. exists o.
    assert (Hlk : lock = Some t). { apply (v_lock _ _ _ V); auto. now rewrite EP. }
    rewrite Hlk. apply IC; cbn; auto; try congruence. intros _.
    pose proof (v_writing _ _ _ V) as Hw. cbn in Hw. pose proof (sum_nonneg 0 N (fun u => b2z (wrt (P u)))).
    enough (0 <= writing) by lia. rewrite Hw. apply H0. intros u _. unfold b2z. destruct (wrt (P u)); lia.
  - (* GrowL *) cbn [sat]. split; [|congruence]. exists o.
    assert (Hlk : lock = Some t). { apply (v_lock _ _ _ V); auto. now rewrite EP. }
    pose proof (v_LJ _ _ _ V) as EJ. pose proof (v_LX _ _ _ V) as EX. cbn in EJ, EX. pose proof (len_nonneg (mem LI)).
    set (k := 2 * len (mem LI) + lextra). set (mem' := setmem _ _ _).
    destruct (realloc_grow 0 (mem LI) k) as [G1 G2]. { lia. }
    destruct (realloc_grow 1 (mem LJ) k) as [G3 G4]. { lia. }
    destruct (realloc_grow 2 (mem LX) k) as [G5 G6]. { lia. }
    assert (V2 : Inv o (Shared lock writing n nz lnz mem') P).
    { apply (Inv_mem o (Shared lock writing n nz lnz mem) P); auto; cbn [s_mem];
        try (unfold mem'; cbn; rewrite ?G1, ?G3, ?G5; auto; fail).
      - intros b. unfold mem'. destruct b; cbn; try lia; rewrite ?G1, ?G3, ?G5; lia.
      - intros b j Hj. unfold mem'. destruct b; cbn; auto.
      - apply (v_SX _ _ _ V).
      - apply (v_SP _ _ _ V).
      - apply (v_PO _ _ _ V). }
    pose proof (Inv_control o _ P t (ResL i s) (Some t) V2 Ht Ha) as IC2. rewrite EP in IC2. rewrite Hlk.
    apply IC2; cbn; auto; try congruence. intros i' s' _ HL. rewrite G1. specialize (CL HL). unfold lsz in *. lia.
  - (* ResL *) cbn. split; [|congruence]. exists o. apply (Inv_resl o _ P t i s V Ht Ha EP).
  - (* IncW *) cbn. split; [|congruence]. exists o. apply (Inv_incw o _ P t i s l V Ht Ha EP).
  - (* Unlock *) cbn. split; [|congruence]. exists o. apply IC; cbn; auto; try congruence.
  - (* Write *) destruct ws as [|w r].
    + cbn. split; [|congruence]. exists o. apply (Inv_decw o _ P t i s l V Ht Ha EP).
    + destruct (Inv_write o _ P t i s l w r V Ht Ha EP) as [Hr V2]. apply sat_bind, sat_aset; auto. cbn.
      split; [|congruence]. exists o. exact V2.
  - cbn. auto.
Qed.
End par.
