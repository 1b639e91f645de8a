(** Correctness of the Schur complement (Schur.v). *)
From Verif Require Import Base BaseFacts Spec SpecFacts Zp ZpFacts Mat MatFacts RowList Reach TriProofs SolveProofs
  Par ParProofs ParRun ParRows Schur.
From Coq Require Import Permutation ZifyBool.


(* sums over the columns of a pattern *)
Lemma sum_pattern (xj : list Z) top m (f : Z -> Z) :
  (forall l, top <= l < m -> 0 <= get xj l < m) ->
  (forall l l', top <= l < m -> top <= l' < m -> get xj l = get xj l' -> l = l') ->
  (forall c, 0 <= c < m -> (forall l, top <= l < m -> get xj l <> c) -> f c = 0) ->
  sum 0 m f = sum top m (fun l => f (get xj l)).
Proof.
  intros Hr Hi Hz. rewrite <- (sum_columns xj top m f Hr). apply sum_ext. intros c Hc.
  destruct (in_dec Z.eq_dec c (map (get xj) (zseq top m))) as [Hin|Hin].
  - apply in_map_iff in Hin. destruct Hin as (l & <- & Hl). apply In_zseq in Hl.
    rewrite (sum_single top m _ l); auto. { now rewrite Z.eqb_refl. }
    intros l' Hl' Hne. destruct (Z.eqb_spec (get xj l') (get xj l)) as [E|]; [|auto]. exfalso. apply Hne, Hi; auto.
  - assert (Hc' : forall l, top <= l < m -> get xj l <> c).
    { intros l Hl E. apply Hin, in_map_iff. exists l. rewrite In_zseq. auto. }
    rewrite Hz by auto. symmetry. apply sum_zero. intros l Hl. specialize (Hc' l Hl).
    now replace (get xj l =? c) with false by lia.
Qed.

Section schur_task.
Context (A U : csr) (p qinv : list Z) (prime : Z) (hasL : bool) (p_in : option (list Z)) (has_out : bool).
Context (HA : wf A) (HU : wf U) (HpA : cprime A = prime) (HpU : cprime U = prime) (Hp2 : 2 <= prime)
  (HxA : cx A <> None) (HxU : cx U <> None) (Hm : cm A = cm U) (HUp : upper prime U qinv)
  (Hpin : match p_in with Some l => len l = cn A | None => True end).

Definition orig (r : Z) : Z := oapply p_in r.

(* what a task should do for row r of A *)
Definition task_spec (r : Z) (T : task) (sr : list (Z * Z)) (lr : list (Z * Z * Z)) : Prop :=
  let prog := t_prog T in
  let po := if has_out then [Wr PO 0 (orig r)] else [] in
  t_act T = true /\ t_need T = len sr /\ t_extra T = cm A /\ t_ssz T = len sr /\ t_lsz T = len lr /\ len sr + len lr <= cm A /\
  writes_row prog sr /\ (hasL = true -> writes_l prog lr) /\ (forall w, In w po -> In w prog) /\
  NoDup (map (fun w => (w_buf w, w_off w)) prog) /\
  (forall w, In w prog -> match w_buf w with
    | SJ | SX => 0 <= w_off w < len sr | LI | LJ | LX => hasL = true /\ 0 <= w_off w < len lr | SP => w_off w = 0 | PO => In w po end) /\
  (forall c v, In (c, v) sr -> 0 <= c < cm A /\ get qinv c < 0 /\ v <> 0 /\ balanced prime v) /\
  NoDup (map fst sr) /\
  (forall i q v, In (i, q, v) lr -> i = orig r /\ 0 <= q < cn U /\ v <> 0 /\ balanced prime v) /\
  NoDup (map (fun e => snd (fst e)) lr) /\
  (forall j, 0 <= j < cm A ->
    cong prime (entry A r j) (lsum (fun e => snd e * entry U (snd (fst e)) j) lr + lentry j sr)).

Lemma schur_task_ok scr i : scr_ok (cm A) scr -> 0 <= i < len p -> 0 <= get p i < cn A ->
  sat (schur_task A U p qinv hasL p_in has_out scr i) (fun T => exists sr lr, task_spec (get p i) T sr lr).
Proof.
  intros Hs Hi Hr. destruct scr as [[[xj0 ps0] mk0] x0]. destruct Hs as (S1 & S2 & S3 & S4 & S5).
  unfold schur_task. apply sat_bind, sat_aget; [lia|]. set (r := get p i) in *.
  pose proof (up_len _ _ _ HUp) as Hql. rewrite Hm in *.
  apply sat_bind. eapply sat_mono.
  { apply (sparse_triangular_solve_spec U A r qinv xj0 ps0 mk0 x0 prime); auto.
    - apply (upper_qinv_ok prime); auto.
    - apply (upper_acyclic prime); auto.
    - apply (up_unit _ _ _ HUp). }
  cbv beta. intros [[[[top xj] ps] mk] x] (Ht & Lj & _ & _ & _ & Hjr & Hji & _ & Lx & _ & Hbal & X & X1 & X0 & HX).
  set (m := cm U) in *.
  assert (Hin : forall l, top <= l < m -> 0 <= get xj l < len x). { intros l Hl. specialize (Hjr l Hl). lia. }
  (* counting *)
  set (cnt := fun l (b : bool) => if (get x (get xj l) =? 0) then 0 else if (get qinv (get xj l) <? 0) then b2z b else b2z (negb b)).
  apply sat_bind. eapply sat_mono.
  { apply (for_spec (fun px '(a, b) => a = sum top px (fun l => cnt l true) /\ b = sum top px (fun l => cnt l false))).
    - lia.
    - now rewrite !sum_empty by lia.
    - intros px [a b] Hpx [Ha Hb]. specialize (Hjr px Hpx).
      apply sat_bind, sat_aget; [lia|]. apply sat_bind, sat_aget; [lia|].
      rewrite !sum_S by lia. rewrite <- Ha, <- Hb. unfold cnt.
      destruct (get x (get xj px) =? 0); [cbn; lia|]. apply sat_bind, sat_aget; [lia|].
      destruct (get qinv (get xj px) <? 0); cbn; lia.
    - intros s Hs. exact Hs. }
  cbv beta. intros [rs rl] [Hrs Hrl].
  apply sat_bind.
  assert (Ho : sat (operm_get p_in r) (fun o => o = orig r)).
  { unfold operm_get, orig. destruct p_in as [l|]; cbn; auto. apply sat_aget; [lia|auto]. }
  eapply sat_mono; [exact Ho|]. cbv beta. intros io ->. clear Ho.
  set (po := if has_out then [Wr PO 0 (orig r)] else []).
  (* the writes *)
  apply sat_bind. eapply sat_mono.
  { apply (for_spec (fun px '(prog, a, b) => exists sr lr,
      PI prog po sr (if hasL then lr else []) /\ a = len sr /\ (hasL = true -> b = len lr) /\
      len sr = sum top px (fun l => cnt l true) /\ len lr = sum top px (fun l => cnt l false) /\ len sr + len lr <= px - top /\
      (forall c v, In (c, v) sr -> exists l, top <= l < px /\ c = get xj l /\ v = get x c /\ get qinv c < 0 /\ v <> 0) /\
      NoDup (map fst sr) /\
      (forall i q v, In (i, q, v) lr -> i = orig r /\ exists l, top <= l < px /\ q = get qinv (get xj l) /\ v = get x (get xj l) /\ 0 <= q /\ v <> 0) /\
      NoDup (map (fun e => snd (fst e)) lr) /\
      (forall j, lentry j sr = sum top px (fun l => if get qinv (get xj l) <? 0 then if get xj l =? j then get x (get xj l) else 0 else 0)) /\
      (forall j, lsum (fun e => snd e * entry U (snd (fst e)) j) lr =
        sum top px (fun l => if 0 <=? get qinv (get xj l) then get x (get xj l) * entry U (get qinv (get xj l)) j else 0)))).
    - lia.
    - exists [], []. split. { unfold po. destruct has_out, hasL; first [apply PI_po|apply PI_nil]. }
      split; [auto|]. split; [auto|]. rewrite !sum_empty by lia. split; [auto|]. split; [auto|].
      split; [change (len (@nil (Z * Z))) with 0; change (len (@nil (Z * Z * Z))) with 0; lia|].
      split; [easy|]. split; [constructor|]. split; [easy|]. split; [constructor|].
      split; intros j; now rewrite sum_empty by lia.
    - intros px [[prog a] b] Hpx (sr & lr & I1 & Ia & Ib & I2 & I3 & I4 & I5 & I6 & I7 & I8 & I9 & I10).
      pose proof (Hjr px Hpx) as Hj. specialize (Hin px Hpx).
      apply sat_bind, sat_aget; [lia|]. apply sat_bind, sat_aget; [lia|].
      set (j := get xj px) in *. set (v := get x j) in *. 
      destruct (Z.eqb_spec v 0) as [Ev|Ev].
      + cbn. exists sr, lr. rewrite !sum_S by lia. unfold cnt at 2 4. fold j. fold v. rewrite Ev. cbn [Z.eqb].
        split; [auto|]. split; [auto|]. split; [auto|]. split; [lia|]. split; [lia|]. split; [lia|].
        split. { intros c w Hc. destruct (I5 c w Hc) as (l & ? & ?). exists l. split; [lia|auto]. }
        split; [auto|]. split. { intros i' q w Hc. destruct (I7 i' q w Hc) as (? & l & ? & ?). split; auto. exists l. split; [lia|auto]. }
        split; [auto|]. split; intros j'; rewrite sum_S by lia; rewrite <- ?I9, <- ?I10; fold j; fold v; rewrite Ev.
        * destruct (get qinv j <? 0), (j =? j'); lia.
        * destruct (0 <=? get qinv j); lia.
      + apply sat_bind, sat_aget; [lia|]. pose proof (up_rng _ _ _ HUp j ltac:(lia)) as Hq.
        destruct (Z.ltb_spec (get qinv j) 0) as [Hq0|Hq0].
        * cbn. exists (sr ++ [(j, v)]), lr. rewrite !sum_S by lia. unfold cnt at 2 4. fold j. fold v.
          replace (v =? 0) with false by lia. replace (get qinv j <? 0) with true by lia. cbn [b2z negb].
          split. { subst a. apply PI_s. auto. } split; [rewrite len_snoc; lia|]. split; [auto|].
          split; [rewrite len_snoc; lia|]. split; [lia|]. split; [rewrite len_snoc; lia|].
          split. { intros c w Hc. rewrite in_app_iff in Hc. destruct Hc as [Hc|[[= <- <-]|[]]].
            - destruct (I5 c w Hc) as (l & ? & ?). exists l. split; [lia|auto].
            - exists px. split; [lia|]. auto. }
          split. { rewrite map_app. apply NoDup_snoc; auto. cbn [fst]. rewrite in_map_iff. intros ((c & w) & Ec & Hc). cbn in Ec.
            destruct (I5 c w Hc) as (l & Hl & El & _). assert (l = px) by (apply Hji; try lia; congruence). lia. }
          split. { intros i' q w Hc. destruct (I7 i' q w Hc) as (? & l & ? & ?). split; auto. exists l. split; [lia|auto]. }
          split; [auto|]. split; intros j'; rewrite sum_S by lia; rewrite <- ?I9, <- ?I10; fold j; fold v.
          -- rewrite lentry_app, lentry_cons. replace (get qinv j <? 0) with true by lia. unfold lentry at 2. cbn. lia.
          -- replace (0 <=? get qinv j) with false by lia. lia.
        * assert (Hnd : ~ In (get qinv j) (map (fun e : Z * Z * Z => snd (fst e)) lr)).
          { rewrite in_map_iff. intros (((i' & q) & w) & Ec & Hc). cbn in Ec. destruct (I7 i' q w Hc) as (_ & l & Hl & El & _).
            assert (get xj l = j).
            { apply (up_inj _ _ _ HUp); fold m; try lia. apply Hjr. lia. }
            assert (l = px) by (apply Hji; try lia; auto). lia. }
          assert (Hgoal : exists sr' lr', 
            PI (if hasL then prog ++ [Wr LI b (orig r); Wr LJ b (get qinv j); Wr LX b v] else prog) po sr' (if hasL then lr' else []) /\
            a = len sr' /\ (hasL = true -> b + 1 = len lr') /\
            sr' = sr /\ lr' = lr ++ [(orig r, get qinv j, v)]).
          { exists sr, (lr ++ [(orig r, get qinv j, v)]). destruct hasL.
            - rewrite (Ib eq_refl) in *. split; [apply PI_l; auto|]. rewrite len_snoc. auto.
            - split; [auto|]. split; [auto|]. split; [discriminate|]. auto. }
          destruct Hgoal as (sr' & lr' & G1 & G2 & G3 & -> & ->).
          assert (Hsat : forall P : (list wr * Z * Z) -> Prop, P (if hasL then prog ++ [Wr LI b (orig r); Wr LJ b (get qinv j); Wr LX b v] else prog, a, if hasL then b + 1 else b) ->
            sat (if hasL then Ok (prog ++ [Wr LI b (orig r); Wr LJ b (get qinv j); Wr LX b v], a, b + 1) else Ok (prog, a, b)) P).
          { intros P. destruct hasL; auto. }
          apply Hsat. exists sr, (lr ++ [(orig r, get qinv j, v)]). rewrite !sum_S by lia. unfold cnt at 2 4. fold j. fold v.
          replace (v =? 0) with false by lia. replace (get qinv j <? 0) with false by lia. cbn [b2z negb].
          split; [auto|]. split; [auto|]. split. { intros E. rewrite E in *. auto. }
          split; [lia|]. split; [rewrite len_snoc; lia|]. split; [rewrite len_snoc; lia|].
          split. { intros c w Hc. destruct (I5 c w Hc) as (l & ? & ?). exists l. split; [lia|auto]. }
          split; [auto|].
          split. { intros i' q w Hc. rewrite in_app_iff in Hc. destruct Hc as [Hc|[[= <- <- <-]|[]]].
            - destruct (I7 i' q w Hc) as (? & l & ? & ?). split; auto. exists l. split; [lia|auto].
            - split; auto. exists px. split; [lia|]. auto. }
          split. { rewrite map_app. apply NoDup_snoc; auto. }
          split; intros j'; rewrite sum_S by lia; rewrite <- ?I9, <- ?I10; fold j; fold v.
          -- replace (get qinv j <? 0) with false by lia. lia.
          -- rewrite lsum_app. replace (0 <=? get qinv j) with true by lia. cbn. lia.
    - intros s Hs. exact Hs. }
  cbv beta. intros [[prog a] b] (sr & lr & I1 & Ia & Ib & I2 & I3 & I4 & I5 & I6 & I7 & I8 & I9 & I10).
  cbn [sat]. exists sr, lr. unfold task_spec. cbn [t_act t_need t_extra t_ssz t_lsz t_prog]. fold po.
  destruct (PI_close _ _ _ _ I1) as (C1 & C2 & C3 & C4 & C5). subst a.
  split; [auto|]. split; [lia|]. split; [auto|]. split; [lia|]. split; [lia|]. split; [fold m in Hm |- *; lia|].
  split; [auto|]. split; [intros E; rewrite E in *; auto|]. split; [auto|]. split; [auto|].
  split. { intros w Hw. specialize (C5 w Hw). destruct (w_buf w); auto; destruct hasL; auto; change (len (@nil (Z * Z * Z))) with 0 in C5; lia. }
  split. { intros c v Hc. destruct (I5 c v Hc) as (l & Hl & -> & -> & Hq & Hv). rewrite Hm. specialize (Hjr l Hl). auto. }
  split; [auto|].
  split. { intros i' q v Hc. destruct (I7 i' q v Hc) as (-> & l & Hl & -> & -> & Hq & Hv). 
    pose proof (up_rng _ _ _ HUp (get xj l) ltac:(apply Hjr; auto)). repeat (split; auto); try lia; apply Hbal; auto. }
  split; [auto|]. intros j Hj. eapply cong_trans; [apply HX; fold m in Hm; lia|]. apply cong_eq. f_equal.
  - rewrite I10. rewrite (sum_pattern xj top m); auto.
    + apply sum_ext. intros l Hl. destruct (0 <=? get qinv (get xj l)); auto. now rewrite X1.
    + intros c Hc Hn. rewrite X0 by auto. destruct (0 <=? get qinv c); auto.
  - rewrite I9.
    destruct (in_dec Z.eq_dec j (map (get xj) (zseq top m))) as [Hjn|Hjn].
    + apply in_map_iff in Hjn. destruct Hjn as (l & <- & Hl). apply In_zseq in Hl.
      rewrite (sum_single top m _ l); auto.
      * rewrite Z.eqb_refl. rewrite X1 by auto. auto.
      * intros l' Hl' Hne. destruct (Z.eqb_spec (get xj l') (get xj l)) as [E|]; [exfalso; apply Hne; auto|].
        now destruct (get qinv (get xj l') <? 0).
    + assert (Hj' : forall l, top <= l < m -> get xj l <> j).
      { intros l Hl E. apply Hjn, in_map_iff. exists l. rewrite In_zseq. auto. }
      rewrite X0 by auto. rewrite sum_zero; [now destruct (get qinv j <? 0)|].
      intros l Hl. specialize (Hj' l Hl). replace (get xj l =? j) with false by lia. now destruct (get qinv (get xj l) <? 0).
Qed.
End schur_task.

Lemma all_tasks_ok {X} (d : X) N f (Q : Z -> task -> X -> Prop) : 0 <= N ->
  (forall i, 0 <= i < N -> sat (f i) (fun T => exists x, Q i T x)) ->
  sat (all_tasks N f) (fun ts => len ts = N /\ exists xs : list X, len xs = N /\
    forall i, 0 <= i < N -> Q i (getd idle ts i) (getd d xs i)).
Proof.
  intros HN Hf. unfold all_tasks.
  apply (for_spec (fun k ts => len ts = k /\ exists xs : list X, len xs = k /\ forall i, 0 <= i < k -> Q i (getd idle ts i) (getd d xs i))).
  - lia.
  - split; auto. exists []. split; auto. intros i Hi. lia.
  - intros k ts Hk (Hl & xs & Hx & HQ). apply sat_bind. eapply sat_mono; [apply Hf; lia|]. cbv beta. intros T (x & Hq).
    cbn. split; [rewrite len_snoc; lia|]. exists (xs ++ [x]). split; [rewrite len_snoc; lia|].
    intros i Hi. rewrite !getd_snoc by lia. rewrite Hl, Hx. destruct (Z.eqb_spec i k) as [->|]; auto. apply HQ. lia.
  - auto.
Qed.

Lemma Permutation_is_perm n o : Permutation o (zseq 0 n) -> 0 <= n -> is_perm n o.
Proof.
  intros H Hn. assert (Hl : len o = n). { unfold len. rewrite (Permutation_length H). pose proof (len_zseq 0 n). unfold len in *. lia. }
  split; auto. split.
  - intros i Hi. apply In_zseq. apply (Permutation_in _ H). apply get_In. lia.
  - intros i j Hi Hj E. apply (NoDup_get_inj o); try lia; auto.
    apply (Permutation_NoDup (Permutation_sym H)). apply NoDup_zseq.
Qed.

Lemma actives_all T n : (forall t, 0 <= t < n -> t_act (T t) = true) -> actives T n = zseq 0 n.
Proof.
  intros H. unfold actives, act. assert (Hx : forall t, In t (zseq 0 n) -> t_act (T t) = true).
  { intros t Ht. apply In_zseq in Ht. auto. }
  induction (zseq 0 n) as [|a l IH]; auto. cbn. rewrite Hx by (cbn; auto). f_equal. apply IH. intros t Ht. apply Hx. cbn. auto.
Qed.

Lemma lsum_perm_get n (o : list Z) (f : Z -> Z) : len o = n -> lsum f o = sum 0 n (fun k => f (get o k)).
Proof. intros <-. symmetry. apply (sum_lsum 0 f o). Qed.

(* coefficients of row k of L, from the list of entries *)
Definition lcoef (lr : list (Z * Z * Z)) (q : Z) : Z := lsum (fun e => if snd (fst e) =? q then snd e else 0) lr.

Lemma lcoef_In lr i q v : NoDup (map (fun e => snd (fst e)) lr) -> In (i, q, v) lr -> lcoef lr q = v.
Proof.
  unfold lcoef. induction lr as [|[[i' q'] v'] lr IH]; [easy|]. cbn [map fst snd]. intros HN [E|H]; inversion HN as [|? ? H1 H2]; subst; cbn [lsum fold_right fst snd].
  - injection E as -> -> ->. rewrite Z.eqb_refl. fold (lsum (fun e : Z * Z * Z => if snd (fst e) =? q then snd e else 0) lr).
    rewrite (lsum_ext _ (fun _ => 0)). { clear. unfold lsum. induction lr as [|a l IH]; cbn [fold_right]; [|rewrite Z.add_0_l]; lia. }
    intros [[a b] c] He. cbn [fst snd]. destruct (Z.eqb_spec b q) as [->|]; auto. exfalso. apply H1. apply in_map_iff. exists (a, q, c). auto.
  - unfold lsum in IH. rewrite IH by auto. destruct (Z.eqb_spec q' q) as [->|]; [|lia].
    exfalso. apply H1. apply in_map_iff. exists (i, q, v). auto.
Qed.

Lemma lsum_swap {A} lo hi (f : Z -> A -> Z) l : sum lo hi (fun q => lsum (f q) l) = lsum (fun a => sum lo hi (fun q => f q a)) l.
Proof.
  induction l as [|a l IH]; cbn [lsum fold_right]. { now apply sum_zero. }
  rewrite sum_add. unfold lsum in IH. now rewrite IH.
Qed.
Lemma lsum_scale_r {A} (f : A -> Z) l c : lsum f l * c = lsum (fun a => f a * c) l.
Proof. induction l as [|a l IH]; cbn [lsum fold_right]; auto. unfold lsum in IH. rewrite <- IH. ring. Qed.

Lemma lcoef_xA U lr j : (forall i q v, In (i, q, v) lr -> 0 <= q < cn U) ->
  lsum (fun e => snd e * entry U (snd (fst e)) j) lr = xA U (lcoef lr) j.
Proof.
  intros H. unfold xA, lcoef. symmetry.
  rewrite (sum_ext 0 (cn U) _ (fun q => lsum (fun e => (if snd (fst e) =? q then snd e else 0) * entry U q j) lr)).
  2:{ intros q _. apply lsum_scale_r. }
  rewrite lsum_swap. apply lsum_ext. intros [[i q] v] He. specialize (H i q v He). cbn [fst snd].
  rewrite (sum_single 0 (cn U) _ q) by (auto; intros; replace (q =? i0) with false by lia; ring).
  rewrite Z.eqb_refl. ring.
Qed.


(* such tasks can run in parallel *)
Lemma specs_tasks_ok A U qinv prime hasL p_in has_out (r : Z -> Z) n T row lrow l0 m0 :
  0 <= cm A -> 0 <= n ->
  (forall t, 0 <= t < n -> task_spec A U qinv prime hasL p_in has_out (r t) (T t) (row t) (lrow t)) ->
  (forall t, ~ 0 <= t < n -> T t = idle) -> 0 <= l0 -> (has_out = true -> n <= len (m0 PO)) ->
  len (m0 SX) = len (m0 SJ) -> len (m0 LJ) = len (m0 LI) -> len (m0 LX) = len (m0 LI) ->
  (hasL = true -> l0 <= len (m0 LI)) -> len (m0 SP) = n + 1 ->
  tasks_ok hasL (cm A) T n n l0 m0.
Proof.
  intros HmA Hn HTk HTn Hl0 Hpo HSX HLJ HLX HLI HSP. constructor; auto.
  - rewrite (sum_ext 0 n _ (fun _ => 1)). { rewrite sum_const by lia. lia. }
    intros i Hi. unfold act. destruct (HTk i Hi) as [-> _]. reflexivity.
  - split; auto. intros t Ht _. unfold lsz. destruct (HTk t Ht) as (_ & _ & _ & _ & -> & Hs & _). pose proof (len_nonneg (row t)). lia.
  - intros t Ht _. unfold ssz, lsz. destruct (HTk t Ht) as (_ & -> & -> & -> & -> & Hs & _).
    pose proof (len_nonneg (row t)). pose proof (len_nonneg (lrow t)). lia.
  - intros t w Ht _ Hw. destruct (HTk t Ht) as (_ & _ & _ & Es & El & _ & _ & _ & _ & _ & Hin & _). specialize (Hin w Hw).
    unfold area, ssz, lsz. rewrite Es, El. split.
    + destruct (w_buf w) eqn:Eb; try lia; try (destruct Hin as [-> ?]; lia).
      destruct has_out; [|easy]. destruct Hin as [<-|[]]. cbn. lia.
    + intros Eb. rewrite Eb in Hin. apply Hpo. destruct has_out; [auto|easy].
  - intros t. destruct (Z_lt_le_dec t 0); [rewrite HTn by lia; constructor|].
    destruct (Z_lt_le_dec t n); [|rewrite HTn by lia; constructor].
    destruct (HTk t ltac:(lia)) as (_ & _ & _ & _ & _ & _ & _ & _ & _ & H & _). exact H.
Qed.

Theorem schur_ok g ch scr size A p n U qinv prime L p_in p_out :
  wf A -> wf U -> cprime A = prime -> cprime U = prime -> 2 <= prime -> cx A <> None -> cx U <> None -> cm A = cm U ->
  upper prime U qinv -> match p_in with Some l => len l = cn A | None => True end ->
  0 <= n <= len p -> (forall i, 0 <= i < n -> 0 <= get p i < cn A) -> 0 <= size ->
  (forall i, 0 <= i < n -> scr_ok (cm A) (scr i)) ->
  ores L (fun L => twf L /\ tx L <> None /\ cn U <= tm L /\ forall i, 0 <= i < n -> 0 <= oapply p_in (get p i) < tn L) ->
  ores p_out (fun po => n <= len po) ->
  sat (schur g ch scr size A p n U qinv L p_in p_out) (fun '(Sc, L', p_out') =>
    wf Sc /\ cn Sc = n /\ cm Sc = cm A /\ cprime Sc = prime /\ len (cj Sc) = nnz Sc /\
    reduced Sc /\ no_zero Sc /\ nodup_rows Sc /\
    (forall k j, 0 <= k < n -> stored Sc k j -> get qinv j < 0) /\
    exists o lam, is_perm n o /\
      (forall k j, 0 <= k < n -> 0 <= j < cm A ->
        cong prime (entry A (get p (get o k)) j) (xA U (lam k) j + entry Sc k j)) /\
      match p_out, p_out' with
      | Some po, Some po' => len po' = len po /\ forall k, 0 <= k < n -> get po' k = oapply p_in (get p (get o k))
      | None, None => True | _, _ => False end /\
      match L, L' with
      | Some L, Some L' => twf L' /\ tx L' <> None /\ tn L' = tn L /\ tm L' = tm L /\ tprime L' = tprime L /\
          tnz L <= tnz L' /\ (forall k, 0 <= k < tnz L -> get (ti L') k = get (ti L) k /\ get (tj L') k = get (tj L) k /\ tval L' k = tval L k) /\
          (forall k, tnz L <= k < tnz L' -> balanced prime (tval L' k) /\ tval L' k <> 0 /\ 0 <= get (tj L') k < cn U /\
            exists r, 0 <= r < n /\ get (ti L') k = oapply p_in (get p (get o r)) /\ tval L' k = lam r (get (tj L') k)) /\
          (forall i q, tentry L' i q = tentry L i q +
            sum 0 n (fun k => if oapply p_in (get p (get o k)) =? i then lam k q else 0))
      | None, None => True | _, _ => False end).
Proof.
  intros HA HU HpA HpU Hp2 HxA HxU Hm HUp Hpin Hn Hp Hsize Hscr HL Hpo. unfold schur. cbn [csr_alloc cx cj cp deref bind].
  set (hasL := match L with Some _ => true | None => false end).
  set (has_out := match p_out with Some _ => true | None => false end).
  set (Lx := match L with Some L => match tx L with Some x => x | None => [] end | None => [] end).
  assert (HLx : match L with Some L => deref (tx L) | None => Ok [] end = Ok Lx).
  { unfold Lx. destruct L as [L|]; auto. cbn in HL. destruct (tx L); auto. tauto. }
  rewrite HLx. cbn [bind]. set (m0 := fun b : buf => _).
  set (l0 := match L with Some L => tnz L | None => 0 end).
  assert (Hl0 : 0 <= l0). { unfold l0. destruct L as [L|]; [|lia]. cbn in HL. destruct HL as [(_ & _ & H & _) _]. lia. }
  apply sat_bind. eapply sat_mono.
  { apply (all_tasks_ok ([], []) n _ (fun i T x => task_spec A U qinv prime hasL p_in has_out (get p i) T (fst x) (snd x))).
    - lia.
    - intros i Hi. eapply sat_mono.
      + apply (schur_task_ok A U p qinv prime hasL p_in has_out HA HU HpA HpU Hp2 HxA HxU Hm HUp Hpin (scr i) i); auto; lia.
      + cbv beta. intros T (sr & lr & H). exists (sr, lr). exact H. }
  cbv beta. intros ts (Hts & xs & Hxs & HT).
  set (T := getd idle ts) in *. set (row := fun t => fst (getd ([], []) xs t)). set (lrow := fun t => snd (getd ([], []) xs t)).
  assert (HTk : forall t, 0 <= t < n -> task_spec A U qinv prime hasL p_in has_out (get p t) (T t) (row t) (lrow t)) by exact HT.
  assert (HTn : forall t, ~ 0 <= t < n -> T t = idle). { intros t Ht. unfold T. apply getd_out. lia. }
  clear HT. clearbody T row lrow. clear ts Hts xs Hxs.
  assert (Hwf := HA). destruct Hwf as (_ & HmA & _).
  assert (OK : tasks_ok hasL (cm A) T n n l0 m0).
  { apply (specs_tasks_ok A U qinv prime hasL p_in has_out (get p) n T row lrow); auto; try lia.
    - unfold has_out, m0. destruct p_out; [auto|easy].
    - unfold m0. rewrite !len_malloc. lia.
    - unfold m0. destruct L as [L'|]; auto. destruct HL as [(_ & _ & _ & H & _) _]. auto.
    - unfold m0, Lx. destruct L as [L'|]; auto. destruct HL as [(_ & _ & _ & H & H' & _) [HLn _]].
      destruct (tx L'); [lia|]. congruence.
    - intros _. unfold l0, m0. destruct L as [L'|]. 2:{ discriminate || (change (len (@nil Z)) with 0; lia). }
      destruct HL as [(_ & _ & H1 & H & _) _]. lia.
    - unfold m0. rewrite len_upd, len_malloc. lia. }
  apply sat_bind. eapply sat_mono; [apply (par_for_ok g hasL (cm A) T n n l0 m0 OK ch)|].
  cbv beta. intros h (o & Ho & _ & _ & Hsn & Hsz & Hlnz & HW & L1 & L2 & L3 & L4 & L5 & Cs & Cl & Old & Old0).
  rewrite (actives_all T n) in Ho by (intros t Ht; destruct (HTk t Ht); auto).
  assert (Hperm : is_perm n o) by (apply Permutation_is_perm; auto; lia). destruct Hperm as [Pl [Pr Pi]].
  assert (HoT : forall t, In t o -> 0 <= t < n). { intros t Ht. apply In_zseq. apply (Permutation_in _ Ho Ht). }
  set (S0 := Csr n (cm A) (s_mem h SP) (s_mem h SJ) (Some (s_mem h SX)) (cprime A)).
  assert (HR : has_rows S0 (map row o)).
  { apply (final_rows T l0 (s_mem h) o row n (cm A) (cprime A)); auto.
    - intros t Ht. destruct (HTk t (HoT t Ht)) as (_ & _ & _ & E & _ & _ & H & _). auto.
    - rewrite L4. unfold m0. rewrite len_upd, len_malloc. lia.
    - rewrite Old0. unfold m0. apply get_upd_eq. rewrite len_malloc. lia.
    - lia. }
  assert (WS : wf S0).
  { apply (has_rows_wf S0 (map row o) HR); auto. intros r [c v] Hr He. apply in_map_iff in Hr. destruct Hr as (t & <- & Ht).
    destruct (HTk t (HoT t Ht)) as (_ & _ & _ & _ & _ & _ & _ & _ & _ & _ & _ & H & _). cbn. apply (H c v He). }
  assert (Hrow : forall k, 0 <= k < n -> rowl S0 k = row (get o k)).
  { intros k Hk. rewrite (has_rows_rowl S0 _ HR k Hk). rewrite (getd_map row 0) by lia. reflexivity. }
  apply sat_bind. eapply sat_mono; [apply (csr_realloc_ok g S0 (-1) WS); left; lia|].
  cbv beta. intros S1 (WS1 & HS1 & HSl & HSx). cbn [sat].
  assert (Hn1 : cn S1 = n) by (destruct HS1; auto).
  assert (Hrow1 : forall k, 0 <= k < n -> rowl S1 k = row (get o k)).
  { intros k Hk. rewrite (same_rowl S0 S1 k WS HS1 Hk). auto. }
  assert (Hp1 : cprime S1 = prime) by (destruct HS1 as (_ & _ & _ & -> & _); auto).
  assert (Hspec : forall k, 0 <= k < n -> task_spec A U qinv prime hasL p_in has_out (get p (get o k)) (T (get o k)) (row (get o k)) (lrow (get o k))).
  { intros k Hk. apply HTk. auto. }
  split; [auto|]. split; [auto|]. split; [destruct HS1 as (_ & -> & _); auto|]. split; [auto|].
  split. { rewrite HSl. cbn. unfold nnz. destruct HS1 as (E1 & _ & E2 & _). now rewrite E1, E2. }
  split. { apply rows_reduced; auto.
    - rewrite HSx. cbn. congruence.
    - rewrite Hn1, Hp1. intros i c v Hi. rewrite Hrow1 by auto. intros He.
      destruct (Hspec i Hi) as (_ & _ & _ & _ & _ & _ & _ & _ & _ & _ & _ & H & _). apply (H c v He). }
  split. { apply rows_no_zero; auto. rewrite Hn1. intros i c v Hi. rewrite Hrow1 by auto. intros He.
      destruct (Hspec i Hi) as (_ & _ & _ & _ & _ & _ & _ & _ & _ & _ & _ & H & _). apply (H c v He). }
  split. { apply rows_nodup; auto. rewrite Hn1. intros i Hi. rewrite Hrow1 by auto. 
      destruct (Hspec i Hi) as (_ & _ & _ & _ & _ & _ & _ & _ & _ & _ & _ & _ & H & _). exact H. }
  split. { intros k j Hk Hst. rewrite stored_rowl, Hrow1 in Hst by auto. apply in_map_iff in Hst. destruct Hst as ([c v] & <- & He).
      destruct (Hspec k Hk) as (_ & _ & _ & _ & _ & _ & _ & _ & _ & _ & _ & H & _). apply (H c v He). }
  exists o, (fun k => lcoef (lrow (get o k))). split; [split; auto|].
  split. { intros k j Hk Hj. rewrite (entry_rowl S1), Hrow1 by auto.
      destruct (Hspec k Hk) as (_ & _ & _ & _ & _ & _ & _ & _ & _ & _ & _ & _ & _ & Hq & _ & H). rewrite <- lcoef_xA.
      - apply H. auto. - intros i q v He. apply (Hq i q v He). }
  split.
  - destruct p_out as [po|]; auto. split; [exact L5|]. intros k Hk.
    destruct (Hspec k Hk) as (_ & _ & _ & _ & _ & _ & _ & _ & H & _). specialize (H (Wr PO 0 (orig p_in (get p (get o k))))).
    specialize (H (or_introl eq_refl)). apply (HW k ltac:(lia)) in H. cbn in H. rewrite Z.add_0_r in H. exact H.
  - destruct L as [L|]; auto. cbn in HL. destruct HL as (HLw & HLx' & HLm & HLn).
    destruct HLw as (T1 & T2 & T3 & T4 & T5 & T6). specialize (Cl eq_refl).
    assert (HWL : forall t, In t o -> writes_l (t_prog (T t)) (lrow t) /\ t_lsz (T t) = len (lrow t)).
    { intros t Ht. destruct (HTk t (HoT t Ht)) as (_ & _ & _ & _ & E & _ & _ & H & _). auto. }
    assert (Hls : 0 <= lsum (lsz T) o).
    { apply lsum_nonneg. intros a Ha. unfold lsz. destruct (HWL a Ha) as [_ ->]. apply len_nonneg. }
    pose proof (fun f => final_l T l0 (s_mem h) o lrow f HW HWL Hl0) as HF.
    assert (Hold : forall k, 0 <= k < l0 -> get (s_mem h LI) k = get (ti L) k /\ get (s_mem h LJ) k = get (tj L) k /\ get (s_mem h LX) k = tval L k).
    { intros k Hk. rewrite !Old by auto. unfold m0, Lx, tval. destruct (tx L); auto. congruence. }
    (* positions added to L *)
    assert (Hnew : forall k, l0 <= k < s_lnz h -> exists t e, 0 <= t < n /\ In e (lrow (get o t)) /\
      e = (get (s_mem h LI) k, get (s_mem h LJ) k, get (s_mem h LX) k)).
    { intros k Hk. rewrite Hlnz in Hk.
      assert (Hx : forall q, 0 <= q <= len o -> k < l0 + psum (lsz T) o q -> exists t, 0 <= t < q /\ l0 + psum (lsz T) o t <= k < l0 + psum (lsz T) o t + lsz T (get o t)).
      { apply (range_ind (fun q => k < l0 + psum (lsz T) o q -> exists t, 0 <= t < q /\ l0 + psum (lsz T) o t <= k < l0 + psum (lsz T) o t + lsz T (get o t)) 0 (len o)).
        - rewrite psum_0. intros; lia.
        - intros q Hq IH. rewrite psum_S by auto. intros Hlt. destruct (Z_lt_le_dec k (l0 + psum (lsz T) o q)).
          + destruct (IH l) as (t & Ht & Hb). exists t. split; [lia|auto].
          + exists q. split; lia. }
      destruct (Hx (len o) ltac:(pose proof (len_nonneg o); lia) ltac:(rewrite psum_all; lia)) as (t & Ht & Hb).
      assert (Hin : In (get o t) o) by (apply get_In; lia). destruct (HWL _ Hin) as [Hwl Hlen]. unfold lsz in Hb at 3. rewrite Hlen in Hb.
      set (i := k - (l0 + psum (lsz T) o t)) in *.
      assert (Hi : 0 <= i < len (lrow (get o t))) by lia.
      pose proof (HW t Ht _ (wl_i _ _ Hwl i Hi)) as E1. pose proof (HW t Ht _ (wl_j _ _ Hwl i Hi)) as E2.
      pose proof (HW t Ht _ (wl_x _ _ Hwl i Hi)) as E3. cbn in E1, E2, E3. unfold loff in *.
      replace (l0 + psum (lsz T) o t + i) with k in * by lia.
      exists t, (getd (0, 0, 0) (lrow (get o t)) i). split; [lia|]. split.
      - unfold getd. replace (i <? 0) with false by lia. apply nth_In. unfold len in Hi. lia.
      - rewrite E1, E2, E3. now destruct (getd (0, 0, 0) (lrow (get o t)) i) as [[? ?] ?]. }
    set (L' := Triplet _ _ _ _ _ _ _).
    split. { unfold twf, L'. cbn [tn tm tnz ti tj tx]. rewrite L2, L3. split; [auto|]. split; [auto|]. split; [lia|]. split; [auto|]. split; [auto|].
      intros k Hk. destruct (Z_lt_le_dec k l0) as [Hlt|Hge].
      - destruct (Hold k ltac:(lia)) as (-> & -> & _). apply T6. unfold l0 in Hlt. lia.
      - destruct (Hnew k ltac:(lia)) as (t & e & Ht & He & Ee). subst e.
        destruct (Hspec t Ht) as (_ & _ & _ & _ & _ & _ & _ & _ & _ & _ & _ & _ & _ & Hq & _).
        destruct (Hq _ _ _ He) as (-> & Hq' & _). split; [apply HLn; auto|lia]. }
    split; [cbn; congruence|]. split; [auto|]. split; [auto|]. split; [auto|].
    split; [cbn; fold l0; lia|]. split. { intros k Hk. apply Hold. exact Hk. }
    split. { intros k Hk. cbn [tval tx L']. unfold tval. cbn [tx L']. cbn [tnz L'] in Hk. fold l0 in Hk.
      destruct (Hnew k Hk) as (t & e & Ht & He & Ee). subst e.
      destruct (Hspec t Ht) as (_ & _ & _ & _ & _ & _ & _ & _ & _ & _ & _ & _ & _ & Hq & Hnd & _).
      destruct (Hq _ _ _ He) as (H0 & H3 & H1 & H2). split; auto. split; auto. split; auto.
      exists t. split; auto. split; [exact H0|]. symmetry. eapply lcoef_In; eauto. }
    intros i q. unfold tentry. cbn [tnz L']. rewrite Hlnz.
    specialize (HF (fun e => if (fst (fst e) =? i) && (snd (fst e) =? q) then snd e else 0)). cbn [fst snd] in HF.
    etransitivity; [exact HF|]. f_equal.
    + apply sum_ext. intros k Hk. destruct (Hold k Hk) as (-> & -> & ->). reflexivity.
    + rewrite (lsum_perm_get n) by auto. apply sum_ext. intros k Hk.
      destruct (Hspec k Hk) as (_ & _ & _ & _ & _ & _ & _ & _ & _ & _ & _ & _ & _ & Hq & _).
      unfold lcoef. destruct (Z.eqb_spec (oapply p_in (get p (get o k))) i) as [E|E].
      * apply lsum_ext. intros [[i' q'] v] He. destruct (Hq i' q' v He) as (-> & _). unfold orig. rewrite E. cbn. now rewrite Z.eqb_refl.
      * rewrite (lsum_ext _ (fun _ => 0)). { clear. induction (lrow (get o k)) as [|a l IH]; auto. }
        intros [[i' q'] v] He. destruct (Hq i' q' v He) as (-> & _). unfold orig. cbn. replace (oapply p_in (get p (get o k)) =? i) with false by lia. reflexivity.
Qed.
