(** Proofs about spasm_gesv (Gesv.v). *)
From Verif Require Import Base BaseFacts Spec SpecFacts Zp ZpFacts Mat MatFacts RowList CompressProofs TriProofs VecProofs Reach Sched SchedProofs Solve SolveProofs Gesv.
From Coq Require Import ZifyBool Znumtheory.

Section gesv.
Context (p : Z) (Hmod : ok_modulus p) (Hprime : prime p) (A : csr) (f : lu) (L : csr) (F : factors p A f L).
Context (B : csr) (HB : wf B) (HBx : cx B <> None) (HBp : cprime B = p) (HBm : cm A <= cm B).
Context (w : Z -> Z -> Z -> Z).
Let n := cn B. Let Xm := cn L.

(* what iteration i computes *)
Lemma gesv_row_ok i : 0 <= i < n -> sat (gesv_row w f B Xm i) (fun '(ok, x) =>
  len x = Xm /\ (forall k, 0 <= k < Xm -> balanced p (get x k)) /\
  (ok = true <-> in_rowspace p A (entry B i)) /\
  (ok = true -> forall j, 0 <= j < cm A -> cong p (xA A (get x) j) (entry B i j))).
Proof.
  intros Hi. pose proof (wf_m B HB) as Hm. pose proof F as [F1 F2 F3 F4 F5 F6 F7 F8 F9 F10 F11 F12 F13 F14 F15].
  pose proof (wf_n L F3) as HnL. pose proof (wf_n _ F2) as HnU. pose proof (wf_m _ F2) as HmU. unfold gesv_row. apply sat_bind.
  apply (for_spec (fun k b => len b = cm B /\ forall j, 0 <= j < k -> get b j = 0)); [lia|rewrite len_malloc; split; [lia|intros; lia]| |].
  { intros k b Hk (L1 & Z1). apply sat_aset; [lia|]. rewrite len_upd. split; auto. intros j Hj. rewrite get_upd_in by lia.
    destruct (Z.eqb_spec k j); auto. apply Z1. lia. }
  intros b (Lb & Zb). apply sat_bind. unfold ok_modulus in Hmod.
  eapply sat_mono; [apply (scatter_ok' B HB HBx p HBp ltac:(lia) i 1 b Hi); lia|]. cbv beta.
  intros b' (Lb' & Cb & Bb & _).
  assert (Hc : forall j, 0 <= j < cm A -> cong p (get b' j) (entry B i j)).
  { intros j Hj. rewrite (Cb j), Zb by lia. apply cong_eq. ring. }
  eapply sat_mono. { apply (solve_ok p Hmod Hprime A f L F); rewrite ?len_malloc; try lia; [].
    intros j Hj. destruct (Bb j) as [E|]; auto. rewrite E, Zb by lia. apply balanced_0. lia. }
  cbv beta. intros [ok x] (H1 & H2 & _ & H4 & H5). rewrite len_malloc in H1. split; [lia|]. split; [intros; apply H2; lia|]. split.
  - rewrite H4. unfold in_rowspace. split; intros (y & Hy); exists y; intros j Hj; rewrite (Hy j Hj); [|symmetry]; apply Hc; lia.
  - intros E j Hj. rewrite (H5 E j Hj). apply Hc; lia.
Qed.
Definition xs (i : Z) : list Z := match gesv_row w f B Xm i with Ok (_, x) => x | _ => [] end.
Definition oks (i : Z) : Z := match gesv_row w f B Xm i with Ok (true, _) => 1 | _ => 0 end.
Lemma row_eq i : 0 <= i < n -> exists r, gesv_row w f B Xm i = Ok (r, xs i) /\ oks i = (if r then 1 else 0) /\ len (xs i) = Xm /\
  (forall k, 0 <= k < Xm -> balanced p (get (xs i) k)) /\
  (r = true <-> in_rowspace p A (entry B i)) /\
  (r = true -> forall j, 0 <= j < cm A -> cong p (xA A (get (xs i)) j) (entry B i j)).
Proof.
  intros Hi. pose proof (gesv_row_ok i Hi) as H. unfold xs, oks. destruct (gesv_row w f B Xm i) as [[r x]|]; [|easy]. exists r.
  cbn [sat] in H. auto.
Qed.

(* the entries captured by an iteration that is at pc *)
Definition lim (pc : vpc) : Z :=
  match pc with VStart => 0 | VScan _ j => j | VRow _ j _ | VCol _ j _ | VVal _ j _ => j + 1 | VEnd => Xm end.
Definition pending (pc : vpc) : option (Z * Z) :=
  match pc with VRow _ j k | VCol _ j k | VVal _ j k => Some (j, k) | _ => None end.
Definition vtodo (pc : vpc) : Z :=
  match pc with
  | VStart => 4 * Xm + 2
  | VScan _ j => 4 * (Xm - j) + 1
  | VRow _ j _ => 4 * (Xm - j) | VCol _ j _ => 4 * (Xm - j) - 1 | VVal _ j _ => 4 * (Xm - j) - 2
  | VEnd => 0 end.
Definition nzx (i j : Z) : Prop := 0 <= j < Xm /\ get (xs i) j <> 0.
(* log: the entries in the order of captures *)
Definition at_pc (log : list (Z * Z)) (h : vsh) (i : Z) (pc : vpc) : Prop :=
  match pc with
  | VStart => True
  | VScan x j => x = xs i /\ 0 <= j <= Xm
  | VRow x j k => x = xs i /\ nzx i j /\ 0 <= k < len log /\ getd (0, 0) log k = (i, j)
  | VCol x j k => x = xs i /\ nzx i j /\ 0 <= k < len log /\ getd (0, 0) log k = (i, j) /\ get (v_i h) k = i
  | VVal x j k => x = xs i /\ nzx i j /\ 0 <= k < len log /\ getd (0, 0) log k = (i, j) /\ get (v_i h) k = i /\ get (v_j h) k = j
  | VEnd => True
  end.
Definition ok_ok (o0 o : option (list Z)) (P : Z -> vpc) : Prop :=
  match o0, o with
  | None, None => True
  | Some o0, Some o => len o = len o0 /\ (forall i, 0 <= i < n -> P i <> VStart -> get o i = oks i) /\ (forall i, ~ 0 <= i < n -> get o i = get o0 i)
  | _, _ => False end.
Record VInv (o0 : option (list Z)) (log : list (Z * Z)) (h : vsh) (P : Z -> vpc) : Prop := {
  V_nz : v_nz h = len log;
  V_li : len (v_i h) = Xm * n; V_lj : len (v_j h) = Xm * n; V_lx : len (v_x h) = Xm * n;
  V_ok : ok_ok o0 (v_ok h) P;
  V_nd : NoDup log;
  V_in : forall i j, In (i, j) log <-> 0 <= i < n /\ nzx i j /\ j < lim (P i);
  V_pc : forall i, 0 <= i < n -> at_pc log h i (P i);
  V_done : forall k, 0 <= k < len log -> let '(i, j) := getd (0, 0) log k in
    pending (P i) = Some (j, k) \/ get (v_i h) k = i /\ get (v_j h) k = j /\ get (v_x h) k = get (xs i) j
}.
Definition updP (P : Z -> vpc) (t : Z) (pc : vpc) (u : Z) : vpc := if u =? t then pc else P u.
Lemma updP_eq P t pc : updP P t pc t = pc.
Proof. unfold updP. now rewrite Z.eqb_refl. Qed.
Lemma updP_ne P t pc u : u <> t -> updP P t pc u = P u.
Proof. unfold updP. intros. now replace (u =? t) with false by lia. Qed.

Lemma log_len log : NoDup log -> (forall i j, In (i, j) log -> 0 <= i < n /\ 0 <= j < Xm) -> len log <= Xm * n.
Proof.
  intros HN HI. assert (HL : incl log (list_prod (zseq 0 n) (zseq 0 Xm))).
  { intros [i j] H. apply in_prod; apply In_zseq; apply (HI i j H). }
  apply (NoDup_incl_length HN) in HL. rewrite prod_length in HL.
  pose proof (len_zseq 0 n) as E1. pose proof (len_zseq 0 Xm) as E2. unfold len in *.
  pose proof (wf_n B HB). pose proof (wf_n L (fa_wfL _ _ _ _ F)). fold n in H. fold Xm in H0. nia.
Qed.
Lemma nodup_get (log : list (Z * Z)) k l : NoDup log -> 0 <= k < len log -> 0 <= l < len log -> getd (0, 0) log k = getd (0, 0) log l -> k = l.
Proof.
  intros HN Hk Hl. unfold getd, len in *. replace (k <? 0) with false by lia. replace (l <? 0) with false by lia.
  intros E. apply (NoDup_nth log (0, 0)) in E; auto; lia.
Qed.

Lemma vstep_ok o0 t log h P : match o0 with Some o => n <= len o | None => True end -> 0 <= t < n -> VInv o0 log h P ->
  sat (vstep w f B Xm t (P t) h) (fun o => match o with
    | None => P t = VEnd
    | Some (pc, h') => (exists log', VInv o0 log' h' (updP P t pc)) /\ 0 <= vtodo pc < vtodo (P t) end).
Proof.
  intros Ho Ht [V1 V2 V3 V4 V5 V6 V7 V8 V9]. destruct h as [ok nz Xi Xj Xx]. cbn [v_ok v_nz v_i v_j v_x] in *.
  pose proof (V8 t Ht) as Hpc. destruct (row_eq t Ht) as (r & Er & Eo & Hlx & _).
  pose proof (wf_n L (fa_wfL _ _ _ _ F)) as HXm. fold Xm in HXm.
  pose proof (log_len log V6 ltac:(intros i j Hi; apply V7 in Hi; unfold nzx in Hi; tauto)) as Hroom.
  assert (Hcells : forall k, 0 <= k < len log -> pending (P t) = Some (snd (getd (0,0) log k), k) -> fst (getd (0, 0) log k) = t).
  { intros k Hk HP. destruct (P t); try discriminate; cbn in HP; injection HP as -> ->; cbn in Hpc;
    destruct Hpc as (_ & _ & _ & E & _) || destruct Hpc as (_ & _ & _ & E); now rewrite E. }
  (* steps that only change the pc *)
  destruct (P t) as [|x j|x j k|x j k|x j k|] eqn:EP; cbn [vstep at_pc] in *.
  - (* VStart *)
    apply sat_bind. rewrite Er. cbn [sat].
    assert (Fin : forall o', ok_ok o0 o' (updP P t (VScan (xs t) 0)) -> VInv o0 log (Vsh o' nz Xi Xj Xx) (updP P t (VScan (xs t) 0))).
    { intros o' H'. constructor; cbn [v_ok v_nz v_i v_j v_x]; auto.
      - intros i j. rewrite V7. destruct (Z.eq_dec i t) as [->|]; [rewrite updP_eq, EP|rewrite updP_ne by auto]; cbn; tauto.
      - intros i Hi. destruct (Z.eq_dec i t) as [->|]; [rewrite updP_eq|rewrite updP_ne by auto; apply (V8 i Hi)]. cbn. split; auto. lia.
      - intros k Hk. specialize (V9 k Hk). destruct (getd (0, 0) log k) as [i j]. destruct V9 as [H|H]; auto. left.
        rewrite updP_ne; auto. intros ->. rewrite EP in H. discriminate. }
    destruct ok as [o|]; cbn [ok_ok] in V5.
    + destruct o0 as [o0'|]; [|easy]. destruct V5 as (K1 & K2 & K3). apply sat_bind, sat_aset; [lia|]. cbn [sat]. split; [|cbn [vtodo]; lia].
      exists log. apply Fin. cbn [ok_ok]. rewrite len_upd. split; auto. split.
      * intros i Hi. destruct (Z.eq_dec i t) as [->|]; [intros _; rewrite get_upd_eq by lia; congruence|].
        rewrite updP_ne, get_upd_ne by auto. now apply K2.
      * intros i Hi. rewrite get_upd_ne by lia. auto.
    + destruct o0; [easy|]. cbn [sat]. split; [|cbn [vtodo]; lia]. exists log. apply Fin. exact I.
  - (* VScan *)
    destruct Hpc as [-> Hj]. 
    assert (Fin : forall pc', lim pc' = j \/ pc' = VScan (xs t) (j + 1) /\ get (xs t) j = 0 -> pending pc' = None -> pc' <> VStart -> at_pc log (Vsh ok nz Xi Xj Xx) t pc' ->
       VInv o0 log (Vsh ok nz Xi Xj Xx) (updP P t pc')).
    { intros pc' Hl Hp Hs Ha. constructor; cbn [v_ok v_nz v_i v_j v_x]; auto.
      - unfold ok_ok in *. destruct o0, ok; auto. destruct V5 as (K1 & K2 & K3). split; auto. split; auto. intros i Hi Hn. apply K2; auto.
        destruct (Z.eq_dec i t) as [->|]; [rewrite EP; discriminate|now rewrite updP_ne in Hn].
      - intros i c. rewrite V7. destruct (Z.eq_dec i t) as [->|]; [rewrite updP_eq, EP|rewrite updP_ne by auto; tauto]. cbn [lim].
        destruct Hl as [-> | [-> E]]; [tauto|]. cbn [lim]. unfold nzx. split; intros (H1 & H2 & H3); split; auto; split; auto; try lia.
        destruct (Z.eq_dec c j) as [->|]; [tauto|lia].
      - intros i Hi. destruct (Z.eq_dec i t) as [->|]; [now rewrite updP_eq|rewrite updP_ne by auto; apply (V8 i Hi)].
      - intros k Hk. specialize (V9 k Hk). destruct (getd (0, 0) log k) as [i c]. destruct V9 as [H|H]; auto. left.
        rewrite updP_ne; auto. intros ->. rewrite EP in H. discriminate. }
    destruct (Z.ltb_spec j Xm) as [Hlt|Hge].
    + apply sat_bind, sat_aget; [lia|]. destruct (Z.eqb_spec (get (xs t) j) 0) as [E0|E0]; cbn [sat].
      * split; [|cbn [vtodo]; lia]. exists log. apply Fin; auto; [easy|]. cbn. split; auto. lia.
      * split; [|cbn [vtodo]; lia]. exists (log ++ [(t, j)]).
        assert (HN : ~ In (t, j) log). { intros H. apply V7 in H. rewrite EP in H. cbn in H. lia. }
        assert (HG : forall k, 0 <= k < len log -> getd (0, 0) (log ++ [(t, j)]) k = getd (0, 0) log k).
        { intros k Hk. unfold getd, len in *. replace (k <? 0) with false by lia. apply app_nth1. lia. }
        assert (HGl : getd (0, 0) (log ++ [(t, j)]) (len log) = (t, j)).
        { unfold getd, len. replace (Z.of_nat (length log) <? 0) with false by lia. rewrite Nat2Z.id, app_nth2, Nat.sub_diag; auto. }
        assert (Hl1 : len (log ++ [(t, j)]) = len log + 1) by (rewrite len_app; reflexivity).
        pose proof (len_nonneg log) as Hl0.
        constructor; cbn [v_ok v_nz v_i v_j v_x]; auto.
        -- lia.
        -- unfold ok_ok in *. destruct o0, ok; auto. destruct V5 as (K1 & K2 & K3). split; auto. split; auto. intros i Hi Hn. apply K2; auto.
           destruct (Z.eq_dec i t) as [->|]; [rewrite EP; discriminate|now rewrite updP_ne in Hn].
        -- rewrite <- (rev_involutive (log ++ [(t, j)])). apply NoDup_rev. rewrite rev_app_distr. cbn [rev app].
           constructor; [now rewrite <- in_rev|now apply NoDup_rev].
        -- intros i c. rewrite in_app_iff, V7. destruct (Z.eq_dec i t) as [->|].
           ++ rewrite updP_eq, EP. cbn [lim In]. unfold nzx. split.
              ** intros [H|[H|[]]]; [intuition lia|]. injection H as <-. intuition lia.
              ** intros (H1 & H2 & H3). destruct (Z.eq_dec c j) as [->|]; [right; now left|left; intuition lia].
           ++ rewrite updP_ne by auto. cbn [In]. split; [intros [H|[H|[]]]; auto; congruence|tauto].
        -- intros i Hi. destruct (Z.eq_dec i t) as [->|].
           ++ rewrite updP_eq. cbn [at_pc]. split; auto. split; [split; [lia|auto]|]. split; [lia|]. now rewrite V1.
           ++ rewrite updP_ne by auto. specialize (V8 i Hi). unfold at_pc in *. destruct (P i); auto; rewrite Hl1;
              cbn [v_i v_j] in *; (destruct V8 as (? & ? & ? & ? & ?) || destruct V8 as (? & ? & ? & ?)); rewrite HG by auto; intuition lia.
        -- intros k Hk. destruct (Z.eq_dec k (len log)) as [->|].
           ++ rewrite HGl. left. rewrite updP_eq, V1. reflexivity.
           ++ rewrite HG by lia. specialize (V9 k ltac:(lia)). destruct (getd (0, 0) log k) as [i c]. destruct V9 as [H|H]; auto. left.
              rewrite updP_ne; auto. intros ->. rewrite EP in H. discriminate.
    + cbn [sat]. split; [|cbn [vtodo]; lia]. exists log. apply Fin; [left; cbn [lim]; lia|reflexivity|discriminate|exact I].
  - (* VRow *)
    destruct Hpc as (-> & Hj & Hk & Eg). apply sat_bind, sat_aset; [lia|]. cbn [sat]. split; [|unfold nzx in Hj; cbn [vtodo]; lia]. exists log.
    constructor; cbn [v_ok v_nz v_i v_j v_x]; auto; rewrite ?len_upd; auto.
    + unfold ok_ok in *. destruct o0, ok; auto. destruct V5 as (K1 & K2 & K3). split; auto. split; auto. intros i Hi Hn. apply K2; auto.
      destruct (Z.eq_dec i t) as [->|]; [rewrite EP; discriminate|now rewrite updP_ne in Hn].
    + intros i c. rewrite V7. destruct (Z.eq_dec i t) as [->|]; [rewrite updP_eq, EP|rewrite updP_ne by auto]; cbn; tauto.
    + intros i Hi. destruct (Z.eq_dec i t) as [->|].
      * rewrite updP_eq. cbn. rewrite get_upd_eq by lia. auto.
      * rewrite updP_ne by auto. specialize (V8 i Hi). unfold at_pc in *. cbn [v_i v_j] in *.
        destruct (P i) as [| |x' j' k'|x' j' k'|x' j' k'|]; auto; rewrite get_upd_ne; auto; intros <-; destruct V8 as (_ & _ & _ & E & _); congruence.
    + intros l Hl. destruct (Z.eq_dec l k) as [->|].
      * rewrite Eg. left. now rewrite updP_eq.
      * specialize (V9 l Hl). destruct (getd (0, 0) log l) as [i c] eqn:El. rewrite !get_upd_ne by auto. destruct V9 as [H|H]; auto. left.
        destruct (Z.eq_dec i t) as [->|]; [|now rewrite updP_ne]. rewrite EP in H. cbn in H. congruence.
  - (* VCol *)
    destruct Hpc as (-> & Hj & Hk & Eg & E1). apply sat_bind, sat_aset; [lia|]. cbn [sat]. split; [|unfold nzx in Hj; cbn [vtodo]; lia]. exists log.
    constructor; cbn [v_ok v_nz v_i v_j v_x]; auto; rewrite ?len_upd; auto.
    + unfold ok_ok in *. destruct o0, ok; auto. destruct V5 as (K1 & K2 & K3). split; auto. split; auto. intros i Hi Hn. apply K2; auto.
      destruct (Z.eq_dec i t) as [->|]; [rewrite EP; discriminate|now rewrite updP_ne in Hn].
    + intros i c. rewrite V7. destruct (Z.eq_dec i t) as [->|]; [rewrite updP_eq, EP|rewrite updP_ne by auto]; cbn; tauto.
    + intros i Hi. destruct (Z.eq_dec i t) as [->|].
      * rewrite updP_eq. cbn. rewrite get_upd_eq by lia. auto 7.
      * rewrite updP_ne by auto. specialize (V8 i Hi). unfold at_pc in *. cbn [v_i v_j] in *.
        destruct (P i) as [| |x' j' k'|x' j' k'|x' j' k'|]; auto; rewrite get_upd_ne; auto; intros <-; destruct V8 as (_ & _ & _ & E & _); congruence.
    + intros l Hl. destruct (Z.eq_dec l k) as [->|].
      * rewrite Eg. left. now rewrite updP_eq.
      * specialize (V9 l Hl). destruct (getd (0, 0) log l) as [i c] eqn:El. rewrite !get_upd_ne by auto. destruct V9 as [H|H]; auto. left.
        destruct (Z.eq_dec i t) as [->|]; [|now rewrite updP_ne]. rewrite EP in H. cbn in H. congruence.
  - (* VVal *)
    destruct Hpc as (-> & Hj & Hk & Eg & E1 & E2). pose proof Hj as [Hj1 Hj2].
    apply sat_bind, sat_aget; [lia|]. apply sat_bind, sat_aset; [lia|]. cbn [sat]. split; [|cbn [vtodo]; lia]. exists log.
    constructor; cbn [v_ok v_nz v_i v_j v_x]; auto; rewrite ?len_upd; auto.
    + unfold ok_ok in *. destruct o0, ok; auto. destruct V5 as (K1 & K2 & K3). split; auto. split; auto. intros i Hi Hn. apply K2; auto.
      destruct (Z.eq_dec i t) as [->|]; [rewrite EP; discriminate|now rewrite updP_ne in Hn].
    + intros i c. rewrite V7. destruct (Z.eq_dec i t) as [->|]; [rewrite updP_eq, EP|rewrite updP_ne by auto]; cbn; tauto.
    + intros i Hi. destruct (Z.eq_dec i t) as [->|].
      * rewrite updP_eq. cbn. split; auto. lia.
      * rewrite updP_ne by auto. specialize (V8 i Hi). unfold at_pc in *. auto.
    + intros l Hl. destruct (Z.eq_dec l k) as [->|].
      * rewrite Eg. right. rewrite get_upd_eq by lia. auto.
      * specialize (V9 l Hl). destruct (getd (0, 0) log l) as [i c] eqn:El. rewrite !get_upd_ne by auto. destruct V9 as [H|H]; auto. left.
        destruct (Z.eq_dec i t) as [->|]; [|now rewrite updP_ne]. rewrite EP in H. cbn in H. congruence.
  - (* VEnd *)
    cbn. reflexivity.
Qed.

(** ** All the iterations *)
Definition vgood (o0 : option (list Z)) (c : vconfig) : Prop := len (snd c) = n /\ exists log, VInv o0 log (fst c) (getd VEnd (snd c)).
Definition vmu (c : vconfig) : Z := sum 0 n (fun t => vtodo (getd VEnd (snd c) t)).
Lemma VInv_eq o0 log h P P' : (forall t, 0 <= t < n -> P t = P' t) -> VInv o0 log h P -> VInv o0 log h P'.
Proof.
  intros E [V1 V2 V3 V4 V5 V6 V7 V8 V9]. constructor; auto.
  - unfold ok_ok in *. destruct o0, (v_ok h); auto. destruct V5 as (K1 & K2 & K3). split; auto. split; auto. intros i Hi. rewrite <- E by auto. auto.
  - intros i j. rewrite V7. split; intros (H1 & H2 & H3); [rewrite <- E by auto|rewrite E by auto]; auto.
  - intros i Hi. rewrite <- E by auto. auto.
  - intros k Hk. specialize (V9 k Hk). destruct (getd (0, 0) log k) as [i j] eqn:El. rewrite <- E; auto.
    assert (H : In (i, j) log). { rewrite <- El. unfold getd. replace (k <? 0) with false by lia. apply nth_In. unfold len in Hk. lia. }
    apply V7 in H. tauto.
Qed.
Lemma at_todo log h i pc : at_pc log h i pc -> 0 <= vtodo pc.
Proof.
  pose proof (wf_n L (fa_wfL _ _ _ _ F)) as HX. fold Xm in HX.
  destruct pc; cbn [at_pc vtodo]; unfold nzx; intuition lia.
Qed.
Lemma vmu_nonneg o0 c : vgood o0 c -> 0 <= vmu c.
Proof. intros (_ & log & V). apply sum_nonneg. intros t Ht. eapply at_todo. apply (V_pc _ _ _ _ V); auto. Qed.

Section run.
Context (o0 : option (list Z)) (Ho : match o0 with Some o => n <= len o | None => True end).
Local Notation step := (vstep_all w f B Xm).
Lemma vstep_good c t : vgood o0 c -> 0 <= t < n ->
  sat (step t c) (fun o => match o with None => True | Some c' => vgood o0 c' /\ 0 <= vmu c' < vmu c end).
Proof.
  destruct c as [h ps]. intros [HL [log HI]] Ht. cbn [fst snd] in *. unfold vstep_all. apply sat_bind.
  eapply sat_mono; [apply (vstep_ok o0 t log h (getd VEnd ps)); auto|]. cbv beta. intros [[p' h']|]; [|cbn; auto].
  intros [[log' HI'] Hm']. cbn [sat].
  assert (HG : vgood o0 (h', upd ps t p')).
  { split; cbn [fst snd]; [now rewrite len_upd|]. exists log'. eapply VInv_eq; [|exact HI']. intros u Hu. unfold updP.
    rewrite getd_upd. unfold inb. rewrite Z.eqb_sym. destruct (Z.eqb_spec t u); auto.
    replace ((0 <=? t) && (t <? len ps)) with true by lia. reflexivity. }
  split; auto. split; [now apply (vmu_nonneg o0)|]. unfold vmu. cbn [snd].
  rewrite (sum_pick 0 n (fun u => vtodo (getd VEnd (upd ps t p') u)) t) by auto.
  rewrite (sum_pick 0 n (fun u => vtodo (getd VEnd ps u)) t) by auto. cbv beta.
  rewrite getd_upd_eq by lia.
  rewrite (sum_ext _ _ _ (fun u => if u =? t then 0 else vtodo (getd VEnd ps u))); [lia|].
  intros u Hu. destruct (Z.eqb_spec u t); auto. rewrite getd_upd_ne by auto. reflexivity.
Qed.
Lemma vdone_iff c : vdone c = true <-> forall t, 0 <= t < len (snd c) -> getd VEnd (snd c) t = VEnd.
Proof.
  unfold vdone. rewrite forallb_forall. split.
  - intros H t Ht. specialize (H (getd VEnd (snd c) t)). destruct (getd VEnd (snd c) t) eqn:E; try reflexivity;
    (exfalso; enough (false = true) by easy; apply H; rewrite <- E; unfold getd; replace (t <? 0) with false by lia; apply nth_In; unfold len in Ht; lia).
  - intros H q Hq. apply (In_nth _ _ VEnd) in Hq. destruct Hq as (k & Hk & <-).
    specialize (H (Z.of_nat k)). unfold len in H. specialize (H ltac:(lia)). unfold getd in H.
    replace (Z.of_nat k <? 0) with false in H by lia. rewrite Nat2Z.id in H. now rewrite H.
Qed.
Lemma vprog c : vgood o0 c -> vdone c = false -> exists t, 0 <= t < n /\ scan step c t = true.
Proof.
  intros [HL [log HI]] Hd. destruct c as [h ps]. cbn [fst snd] in *.
  destruct (existsb (fun t => match getd VEnd ps t with VEnd => false | _ => true end) (zseq 0 n)) eqn:Ee.
  - apply existsb_exists in Ee. destruct Ee as (t & Ht & E). apply In_zseq in Ht. exists t. split; auto.
    pose proof (vstep_ok o0 t log h (getd VEnd ps) Ho Ht HI) as HS. unfold scan, vstep_all.
    destruct (vstep w f B Xm t (getd VEnd ps t) h) as [[[p' h']|]|]; cbn in *; auto. now rewrite HS in E.
  - exfalso. enough (vdone (h, ps) = true) by congruence. apply vdone_iff. cbn [snd]. intros t Ht.
    destruct (getd VEnd ps t) eqn:E; try reflexivity;
    (exfalso; enough (X : existsb (fun t => match getd VEnd ps t with VEnd => false | _ => true end) (zseq 0 n) = true) by congruence;
     apply existsb_exists; exists t; split; [apply In_zseq; lia|now rewrite E]).
Qed.
Lemma vdone_stop c t : vgood o0 c -> 0 <= t < n -> vdone c = true -> step t c = Ok None.
Proof.
  intros [HL _] Ht Hd. destruct c as [h ps]. pose proof (proj1 (vdone_iff _) Hd t) as E. cbn [snd] in *.
  unfold vstep_all. rewrite E by lia. destruct h. reflexivity.
Qed.

Lemma vstart_len : len (vstart B) = n.
Proof. pose proof (wf_n B HB). pose proof (len_zseq 0 (cn B)) as E. unfold vstart, len in *. rewrite map_length. unfold n. lia. Qed.
Lemma vstart_get t : 0 <= t < n -> getd VEnd (vstart B) t = VStart.
Proof.
  intros Ht. assert (H : In (getd VEnd (vstart B) t) (vstart B)).
  { unfold getd. replace (t <? 0) with false by lia. apply nth_In. pose proof vstart_len as E. unfold len in E. lia. }
  unfold vstart in H at 2. apply in_map_iff in H. destruct H as (? & <- & _). reflexivity.
Qed.
Lemma vmu_start h : vmu (h, vstart B) <= Z.of_nat (vfuel B Xm).
Proof.
  unfold vmu, vfuel. cbn [snd]. pose proof (wf_n B HB) as Hn. fold n in Hn. pose proof (wf_n L (fa_wfL _ _ _ _ F)) as HX. fold Xm in HX.
  rewrite (sum_ext _ _ _ (fun _ => 4 * Xm + 2)) by (intros t Ht; now rewrite vstart_get).
  rewrite sum_const by lia. fold n. nia.
Qed.

Definition c0 (g : Z -> Z -> Z) : vconfig := (Vsh o0 0 (malloc (g 0) (Xm * n)) (malloc (g 1) (Xm * n)) (malloc (g 2) (Xm * n)), vstart B).
Lemma c0_good g : vgood o0 (c0 g).
Proof.
  pose proof (wf_n B HB) as Hn. fold n in Hn. pose proof (wf_n L (fa_wfL _ _ _ _ F)) as HX. fold Xm in HX.
  split; [apply vstart_len|]. exists []. unfold c0. constructor; cbn [fst snd v_ok v_nz v_i v_j v_x]; rewrite ?len_malloc; try nia; auto.
  - unfold ok_ok. destruct o0; auto. split; auto. split; auto. intros i Hi Hs. now rewrite vstart_get in Hs.
  - constructor.
  - intros i j. cbn [In]. split; [easy|]. intros (Hi & Hx & Hl). rewrite vstart_get in Hl by auto. cbn [lim] in Hl. unfold nzx in Hx. lia.
  - intros i Hi. rewrite vstart_get by auto. exact I.
  - intros k Hk. change (len (@nil (Z * Z))) with 0 in Hk. lia.
Qed.

Lemma gesv_sched g : sched_safe step vdone n (vfuel B Xm) (c0 g) /\
  forall ch, sat (spar step vdone n (vfuel B Xm) ch 0 (c0 g)) (fun c => vgood o0 c /\ vdone c = true).
Proof.
  apply (sched_ok step vdone n (vgood o0) vmu vstep_good vprog vdone_stop); [apply c0_good|apply vmu_start].
Qed.

(* the matrix before compression *)
Lemma final_triplet h ps log : len ps = n -> VInv o0 log h (getd VEnd ps) -> vdone (h, ps) = true ->
  let T := Triplet (v_nz h) n Xm (v_i h) (v_j h) (Some (v_x h)) p in
  twf T /\ (forall i j, tstored T i j <-> 0 <= i < n /\ nzx i j) /\ (forall k, 0 <= k < tnz T -> balanced p (tval T k)) /\
  (forall i j, 0 <= i < n -> 0 <= j < Xm -> tentry T i j = get (xs i) j).
Proof.
  intros Hl [V1 V2 V3 V4 V5 V6 V7 V8 V9] Hd T. pose proof (proj1 (vdone_iff _) Hd) as HE. cbn [snd] in HE.
  pose proof (wf_n B HB) as Hn. fold n in Hn. pose proof (wf_n L (fa_wfL _ _ _ _ F)) as HX. fold Xm in HX.
  assert (HI : forall i j, In (i, j) log <-> 0 <= i < n /\ nzx i j).
  { intros i j. rewrite V7. split; [tauto|]. intros [H1 H2]. split; auto. split; auto. rewrite HE by lia. apply H2. }
  assert (HG : forall k, 0 <= k < len log -> In (get (v_i h) k, get (v_j h) k) log /\
     getd (0, 0) log k = (get (v_i h) k, get (v_j h) k) /\ get (v_x h) k = get (xs (get (v_i h) k)) (get (v_j h) k)).
  { intros k Hk. specialize (V9 k Hk). destruct (getd (0, 0) log k) as [i j] eqn:El.
    assert (H : In (i, j) log). { rewrite <- El. unfold getd. replace (k <? 0) with false by lia. apply nth_In. unfold len in Hk. lia. }
    destruct V9 as [Hp|(E1 & E2 & E3)]; [|rewrite E1, E2; auto].
    exfalso. rewrite HE in Hp; [discriminate|]. apply HI in H. lia. }
  pose proof (len_nonneg log) as Hl0.
  pose proof (log_len log V6 ltac:(intros i j Hi; apply HI in Hi; unfold nzx in Hi; tauto)) as Hroom.
  split; [|split; [|split]].
  - split; [cbn [tn T]; lia|]. split; [cbn [tm T]; lia|]. cbn [tnz tj ti tx T]. split; [lia|]. split; [lia|]. split; [lia|].
    intros k Hk. rewrite V1 in Hk. destruct (HG k Hk) as [H _]. apply HI in H. unfold nzx in H. cbn [tn tm T]. lia.
  - intros i j. unfold tstored. cbn [tnz ti tj T]. rewrite <- HI. split.
    + intros (k & Hk & <- & <-). apply HG. lia.
    + intros H. apply (In_nth _ _ (0, 0)) in H. destruct H as (k & Hk & E). exists (Z.of_nat k).
      destruct (HG (Z.of_nat k)) as (_ & E2 & _); [unfold len; lia|]. unfold getd in E2. replace (Z.of_nat k <? 0) with false in E2 by lia.
      rewrite Nat2Z.id, E in E2. injection E2 as -> ->. unfold len in V1. split; [lia|auto].
  - intros k Hk. cbn [tnz T] in Hk. unfold tval. cbn [tx T]. destruct (HG k ltac:(lia)) as (H & _ & ->). apply HI in H. destruct H as [H1 [H2 _]].
    destruct (row_eq _ H1) as (r & _ & _ & _ & Hb & _). now apply Hb.
  - intros i j Hi Hj. unfold tentry. cbn [tnz ti tj T].
    destruct (Z.eq_dec (get (xs i) j) 0) as [E0|E0].
    + rewrite E0. apply sum_zero. intros k Hk. destruct ((get (v_i h) k =? i) && (get (v_j h) k =? j)) eqn:E; auto.
      destruct (HG k ltac:(lia)) as (H & _ & _). apply HI in H. destruct H as [_ [_ H]].
      replace (get (v_i h) k) with i in H by lia. replace (get (v_j h) k) with j in H by lia. easy.
    + assert (H : In (i, j) log) by (apply HI; split; [auto|split; auto]).
      apply (In_nth _ _ (0, 0)) in H. destruct H as (k & Hk & E).
      assert (Hk' : 0 <= Z.of_nat k < len log) by (unfold len; lia).
      assert (E1 : getd (0, 0) log (Z.of_nat k) = (i, j)).
      { unfold getd. replace (Z.of_nat k <? 0) with false by lia. now rewrite Nat2Z.id. }
      rewrite (sum_pick _ _ _ (Z.of_nat k)) by lia. destruct (HG _ Hk') as (_ & E2 & E3). rewrite E1 in E2. injection E2 as E4 E5.
      replace ((get (v_i h) (Z.of_nat k) =? i) && (get (v_j h) (Z.of_nat k) =? j)) with true by lia.
      unfold tval. cbn [tx T]. rewrite E3, <- E4, <- E5. rewrite sum_zero; [lia|].
      intros l Hl'. destruct (Z.eqb_spec l (Z.of_nat k)) as [|Hne]; auto.
      destruct ((get (v_i h) l =? i) && (get (v_j h) l =? j)) eqn:Eb; auto.
      exfalso. apply Hne. apply (nodup_get log); auto; [lia|]. destruct (HG l ltac:(lia)) as (_ & E6 & _). rewrite E6, E1. f_equal; lia.
Qed.
End run.

Theorem gesv_ok g ch o0 : match o0 with Some o => n <= len o | None => True end ->
  sat (gesv g ch w f B o0) (fun '(X, o) =>
    wf X /\ cn X = cn B /\ cm X = cn A /\ cprime X = p /\ reduced X /\ nodup_rows X /\ no_zero X /\
    (forall i j, 0 <= i < cn B -> 0 <= j < cn A -> cong p (entry X i j) (get (xs i) j)) /\
    (forall i, 0 <= i < cn B -> in_rowspace p A (entry B i) -> forall j, 0 <= j < cm A -> cong p (xA A (entry X i) j) (entry B i j)) /\
    match o0, o with
    | None, None => True
    | Some o0, Some o => len o = len o0 /\ (forall i, ~ 0 <= i < cn B -> get o i = get o0 i) /\
        forall i, 0 <= i < cn B -> (in_rowspace p A (entry B i) /\ get o i = 1) \/ (~ in_rowspace p A (entry B i) /\ get o i = 0)
    | _, _ => False
    end).
Proof.
  intros Ho. unfold gesv. rewrite (fa_L _ _ _ _ F). cbn [deref bind].
  pose proof (fa_pL _ _ _ _ F) as HpL. pose proof (fa_n _ _ _ _ F) as HnL.
  apply sat_bind, sat_assert; [lia|]. cbn [triplet_alloc tx tnz ti tj deref bind]. rewrite HBp.
  apply sat_bind. fold n Xm. eapply sat_mono; [apply (proj2 (gesv_sched o0 Ho g) ch)|]. cbv beta.
  intros [h ps] [[HL [log HV]] Hd]. cbn [fst snd] in *.
  destruct (final_triplet o0 h ps log HL HV Hd) as (T1 & T2 & T3 & T4). set (T := Triplet _ _ _ _ _ _ _) in *.
  apply sat_bind. unfold ok_modulus in Hmod.
  eapply sat_mono.
  { apply (compress_exact g T T1); [cbn; lia|discriminate|exact T3|].
    intros i j Hs C. apply T2 in Hs. destruct Hs as [Hi [Hj Hx]]. rewrite T4 in C by auto. apply Hx.
    destruct (row_eq i Hi) as (r & _ & _ & _ & Hb & _). apply (balanced_cong_0 p); auto. lia. }
  cbv beta. intros X (X1 & X2 & X3 & X4 & X5 & X6 & X7 & X8 & X9 & X10 & X11). cbn [sat].
  change (tn T) with n in *. change (tm T) with Xm in *. change (tprime T) with p in *.
  assert (HX : forall i j, 0 <= i < cn B -> 0 <= j < cn A -> cong p (entry X i j) (get (xs i) j)).
  { intros i j Hi Hj. rewrite (X11 i j Hi), T4; auto; [apply cong_refl|]. unfold Xm. lia. }
  split; auto. split; auto. split; [unfold Xm in *; lia|]. split; auto. split. { unfold reduced. rewrite X4. destruct (cx X); [split; auto|easy]. }
  split; auto. split; auto. split; auto. split.
  - intros i Hi Hr j Hj. destruct (row_eq i Hi) as (r & _ & _ & _ & _ & H1 & H2). rewrite <- (H2 (proj2 H1 Hr) j Hj).
    apply xA_cong. intros k Hk. apply HX; auto.
  - pose proof (V_ok _ _ _ _ HV) as Hk. unfold ok_ok in Hk. destruct o0 as [o0|], (v_ok h) as [o|]; auto.
    destruct Hk as (K1 & K2 & K3). split; auto. split; auto. intros i Hi.
    rewrite K2; auto; [|rewrite (proj1 (vdone_iff _) Hd) by (cbn; lia); discriminate].
    destruct (row_eq i Hi) as (r & _ & -> & _ & _ & H1 & _). destruct r; [left|right]; split; auto; [now apply H1|]. intros C. apply H1 in C. discriminate.
Qed.
End gesv.

Lemma gesv_spec p A f L B : ok_modulus p -> prime p -> factors p A f L ->
  wf B -> cx B <> None -> cprime B = p -> cm A <= cm B ->
  forall w, exists xs : Z -> Z -> Z, forall g ch o0, match o0 with Some o => cn B <= len o | None => True end ->
  sat (gesv g ch w f B o0) (fun '(X, o) =>
    wf X /\ cn X = cn B /\ cm X = cn A /\ cprime X = p /\ reduced X /\ nodup_rows X /\ no_zero X /\
    (forall i j, 0 <= i < cn B -> 0 <= j < cn A -> cong p (entry X i j) (xs i j)) /\
    (forall i, 0 <= i < cn B -> in_rowspace p A (entry B i) -> forall j, 0 <= j < cm A -> cong p (xA A (entry X i) j) (entry B i j)) /\
    match o0, o with
    | None, None => True
    | Some o0, Some o => len o = len o0 /\ (forall i, ~ 0 <= i < cn B -> get o i = get o0 i) /\
        forall i, 0 <= i < cn B -> (in_rowspace p A (entry B i) /\ get o i = 1) \/ (~ in_rowspace p A (entry B i) /\ get o i = 0)
    | _, _ => False
    end).
Proof.
  intros Hm Hp F HB Hx Hpb Hmb w. exists (fun i j => get (xs f L B w i) j). intros g ch o0 Ho.
  now apply (gesv_ok p Hm Hp A f L F B HB Hx Hpb Hmb w g ch o0).
Qed.
