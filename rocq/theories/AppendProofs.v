(** Proofs about loops that append triplets (Append.v). *)
From Verif Require Import Base BaseFacts Spec SpecFacts Mat MatFacts RowList Sched SchedProofs Append.
From Coq Require Import ZifyBool Permutation.

Section append.
Context {H : Type} (start : Z -> H -> res (H * list (Z * Z * Z))) (N M : Z) (HN : 0 <= N) (HM : 0 <= M).
(* B: what is always true of h; R t h es: what iteration t has put in h, given its triplets *)
Context (B : H -> Prop) (R : Z -> H -> list (Z * Z * Z) -> Prop).
Context (Hstart : forall t h, 0 <= t < N -> B h -> sat (start t h) (fun '(h', es) => B h' /\ R t h' es /\ len es <= M /\
  forall u es', u <> t -> 0 <= u < N -> R u h es' -> R u h' es')).
(* initial state of the arrays *)
Context (z0 : Z) (I0 J0 X0 : list Z) (Hz0 : 0 <= z0).
Context (Hroom : z0 + N * M <= len I0 /\ z0 + N * M <= len J0 /\ z0 + N * M <= len X0).

Let d0 : Z * Z * Z := (0, 0, 0).
Definition arest (pc : apc) : list (Z * Z * Z) :=
  match pc with ATodo es | ARow _ es _ | ACol _ es _ | AVal _ es _ => es | _ => [] end.
Definition apend (pc : apc) : option Z := match pc with ARow _ _ k | ACol _ _ k | AVal _ _ k => Some k | _ => None end.
Definition atodo (pc : apc) : Z :=
  match pc with
  | AStart => 4 * M + 3
  | ATodo es => 4 * len es + 2
  | ARow _ es _ => 4 * len es + 5 | ACol _ es _ => 4 * len es + 4 | AVal _ es _ => 4 * len es + 3
  | AEnd => 0 end.
Definition a_at (log : list (Z * Z * Z)) (s : ash H) (pc : apc) : Prop :=
  match pc with
  | ARow e es k => z0 <= k < z0 + len log /\ getd d0 log (k - z0) = e
  | ACol e es k => z0 <= k < z0 + len log /\ getd d0 log (k - z0) = e /\ get (a_i s) k = fst (fst e)
  | AVal e es k => z0 <= k < z0 + len log /\ getd d0 log (k - z0) = e /\ get (a_i s) k = fst (fst e) /\ get (a_j s) k = snd (fst e)
  | _ => True
  end.
Record AInv (es : Z -> list (Z * Z * Z)) (log : list (Z * Z * Z)) (s : ash H) (P : Z -> apc) : Prop := {
  A_nz : a_nz s = z0 + len log;
  A_li : len (a_i s) = len I0; A_lj : len (a_j s) = len J0; A_lx : len (a_x s) = len X0;
  A_old : forall k, 0 <= k < z0 -> get (a_i s) k = get I0 k /\ get (a_j s) k = get J0 k /\ get (a_x s) k = get X0 k;
  A_B : B (a_h s);
  A_R : forall t, 0 <= t < N -> P t <> AStart -> R t (a_h s) (es t);
  A_0 : forall t, 0 <= t < N -> P t = AStart -> es t = [];
  A_M : forall t, 0 <= t < N -> len (es t) <= M;
  A_perm : Permutation (log ++ flat_map (fun t => arest (P t)) (zseq 0 N)) (flat_map es (zseq 0 N));
  A_pc : forall t, 0 <= t < N -> a_at log s (P t);
  A_own : forall t u k, 0 <= t < N -> 0 <= u < N -> apend (P t) = Some k -> apend (P u) = Some k -> t = u;
  A_done : forall k, 0 <= k < len log -> (exists t, 0 <= t < N /\ apend (P t) = Some (z0 + k)) \/
    (get (a_i s) (z0 + k), get (a_j s) (z0 + k), get (a_x s) (z0 + k)) = getd d0 log k
}.
Definition aupd (P : Z -> apc) (t : Z) (pc : apc) (u : Z) : apc := if u =? t then pc else P u.
Lemma aupd_eq P t pc : aupd P t pc t = pc.
Proof. unfold aupd. now rewrite Z.eqb_refl. Qed.
Lemma aupd_ne P t pc u : u <> t -> aupd P t pc u = P u.
Proof. unfold aupd. intros. now replace (u =? t) with false by lia. Qed.

Lemma flat_map_pick {A C} (f : A -> list C) (l1 l2 : list A) x : Permutation (flat_map f (l1 ++ x :: l2)) (f x ++ flat_map f (l1 ++ l2)).
Proof.
  rewrite !flat_map_app. cbn [flat_map]. rewrite !app_assoc. apply Permutation_app_tail. apply Permutation_app_comm.
Qed.
Lemma flat_map_eq {A C} (f g : A -> list C) l : (forall x, In x l -> f x = g x) -> flat_map f l = flat_map g l.
Proof. intros E. induction l as [|a l IH]; auto. cbn. rewrite E by now left. f_equal. apply IH. intros x Hx. apply E. now right. Qed.
(* changing one element *)
Lemma flat_map_change {C} (f g : Z -> list C) t : 0 <= t < N -> (forall u, u <> t -> f u = g u) ->
  exists l, Permutation (flat_map f (zseq 0 N)) (f t ++ l) /\ Permutation (flat_map g (zseq 0 N)) (g t ++ l).
Proof.
  intros Ht E. assert (Hin : In t (zseq 0 N)) by (apply In_zseq; auto). destruct (in_split _ _ Hin) as (l1 & l2 & El).
  pose proof (NoDup_zseq 0 N) as HD. rewrite El in *. exists (flat_map g (l1 ++ l2)). split; [|apply flat_map_pick].
  rewrite flat_map_pick. apply Permutation_app_head. rewrite (flat_map_eq f g); auto. intros u Hu. apply E. intros ->.
  now apply NoDup_remove_2 in HD.
Qed.
Lemma len_flat_map {C} (f : Z -> list C) : (forall t, 0 <= t < N -> len (f t) <= M) -> len (flat_map f (zseq 0 N)) <= N * M.
Proof.
  intros HF. assert (G : forall l, (forall t, In t l -> len (f t) <= M) -> len (flat_map f l) <= len l * M).
  { induction l as [|a l IH]; intros HL; [cbn; lia|].
    cbn [flat_map]. rewrite len_app, len_cons. pose proof (HL a (or_introl eq_refl)). specialize (IH ltac:(intros t Ht; apply HL; now right)). nia. }
  specialize (G (zseq 0 N)). rewrite len_zseq in G. replace (Z.max 0 (N - 0)) with N in G by lia. apply G. intros t Ht. apply In_zseq in Ht. auto.
Qed.
Lemma len_perm {C} (l1 l2 : list C) : Permutation l1 l2 -> len l1 = len l2.
Proof. intros HP. unfold len. now rewrite (Permutation_length HP). Qed.

Lemma astep_ok t es log s P : 0 <= t < N -> AInv es log s P ->
  sat (astep start t (P t) s) (fun o => match o with
    | None => P t = AEnd
    | Some (pc, s') => (exists es' log', AInv es' log' s' (aupd P t pc)) /\ 0 <= atodo pc < atodo (P t) end).
Proof.
  intros Ht [V1 V2 V3 V4 V5 V6 V7 V8 V9 V10 V11 V12 V13]. destruct s as [h nz Xi Xj Xx]. cbn [a_h a_nz a_i a_j a_x] in *.
  pose proof (V11 t Ht) as Hpc.
  assert (Hlog : len log <= N * M).
  { pose proof (len_perm _ _ V10) as E. rewrite len_app in E. pose proof (len_flat_map es V9).
    pose proof (len_nonneg (flat_map (fun t => arest (P t)) (zseq 0 N))). lia. }
  pose proof (len_nonneg log) as Hl0.
  (* the rest does not change *)
  assert (Hrest : forall pc, arest pc = arest (P t) ->
    Permutation (log ++ flat_map (fun u => arest (aupd P t pc u)) (zseq 0 N)) (flat_map es (zseq 0 N))).
  { intros pc E. rewrite (flat_map_eq (fun u => arest (aupd P t pc u)) (fun u => arest (P u))); auto. intros u _. unfold aupd. destruct (Z.eqb_spec u t) as [->|]; auto. }
  destruct (P t) as [|[|e rs]|e rs k|e rs k|e rs k|] eqn:EP; cbn [astep a_at] in *.
  - (* AStart *)
    apply sat_bind. eapply sat_mono; [apply Hstart; auto|]. cbv beta. intros [h' es1] (B1 & R1 & L1 & K1). cbn [sat].
    pose proof (len_nonneg es1). split; [|cbn [atodo]; lia].
    exists (fun u => if u =? t then es1 else es u), log. constructor; cbn [a_h a_nz a_i a_j a_x]; auto.
    + intros u Hu Hs. destruct (Z.eqb_spec u t) as [->|Hne]; auto. rewrite aupd_ne in Hs by auto. apply K1; auto.
    + intros u Hu Hs. destruct (Z.eqb_spec u t) as [->|Hne]; [rewrite aupd_eq in Hs; discriminate|]. rewrite aupd_ne in Hs by auto. auto.
    + intros u Hu. destruct (Z.eqb_spec u t); auto.
    + destruct (flat_map_change (fun u => arest (P u)) (fun u => arest (aupd P t (ATodo es1) u)) t Ht) as (l & P1 & P2).
      { intros u Hu. now rewrite aupd_ne. }
      destruct (flat_map_change es (fun u => if u =? t then es1 else es u) t Ht) as (l' & P3 & P4).
      { intros u Hu. now replace (u =? t) with false by lia. }
      rewrite P2, P4. rewrite P1, P3 in V10. rewrite aupd_eq, Z.eqb_refl. rewrite EP, (V8 t Ht EP) in V10. cbn [arest app] in *.
      rewrite Permutation_app_comm, <- app_assoc. apply Permutation_app_head. rewrite Permutation_app_comm. exact V10.
    + intros u Hu. destruct (Z.eq_dec u t) as [->|]; [rewrite aupd_eq; exact I|rewrite aupd_ne by auto; apply (V11 u Hu)].
    + intros u v k Hu Hv. unfold aupd. destruct (Z.eqb_spec u t), (Z.eqb_spec v t); cbn [apend]; try easy. apply V12; auto.
    + intros k Hk. destruct (V13 k Hk) as [(u & Hu & E)|E]; auto. left. exists u. split; auto. rewrite aupd_ne; auto. intros ->. rewrite EP in E. discriminate.
  - (* no more triplets *)
    cbn [sat]. split; [|cbn [atodo]; change (len (@nil (Z*Z*Z))) with 0; lia]. exists es, log. constructor; cbn [a_h a_nz a_i a_j a_x]; auto.
    + intros u Hu Hs. apply V7; auto. intros E. destruct (Z.eq_dec u t) as [->|]; [congruence|]. now rewrite aupd_ne in Hs.
    + intros u Hu Hs. destruct (Z.eq_dec u t) as [->|]; [rewrite aupd_eq in Hs; discriminate|]. rewrite aupd_ne in Hs by auto. auto.
    + intros u Hu. destruct (Z.eq_dec u t) as [->|]; [rewrite aupd_eq; exact I|rewrite aupd_ne by auto; apply (V11 u Hu)].
    + intros u v k Hu Hv. unfold aupd. destruct (Z.eqb_spec u t), (Z.eqb_spec v t); cbn [apend]; try easy. apply V12; auto.
    + intros k Hk. destruct (V13 k Hk) as [(u & Hu & E)|E]; auto. left. exists u. split; auto. rewrite aupd_ne; auto. intros ->. rewrite EP in E. discriminate.
  - (* capture *)
    cbn [sat]. split; [|cbn [atodo]; rewrite len_cons; pose proof (len_nonneg rs); lia]. exists es, (log ++ [e]).
    assert (HG : forall k, 0 <= k < len log -> getd d0 (log ++ [e]) k = getd d0 log k).
    { intros k Hk. unfold getd, len in *. replace (k <? 0) with false by lia. apply app_nth1. lia. }
    assert (HGl : getd d0 (log ++ [e]) (len log) = e).
    { unfold getd, len. replace (Z.of_nat (length log) <? 0) with false by lia. rewrite Nat2Z.id, app_nth2, Nat.sub_diag; auto. }
    assert (Hl1 : len (log ++ [e]) = len log + 1) by (rewrite len_app; reflexivity).
    constructor; cbn [a_h a_nz a_i a_j a_x]; auto.
    + lia.
    + intros u Hu Hs. apply V7; auto. intros E. destruct (Z.eq_dec u t) as [->|]; [congruence|]. now rewrite aupd_ne in Hs.
    + intros u Hu Hs. destruct (Z.eq_dec u t) as [->|]; [rewrite aupd_eq in Hs; discriminate|]. rewrite aupd_ne in Hs by auto. auto.
    + destruct (flat_map_change (fun u => arest (P u)) (fun u => arest (aupd P t (ARow e rs nz) u)) t Ht) as (l & P1 & P2).
      { intros u Hu. now rewrite aupd_ne. }
      rewrite P2, <- V10, P1, aupd_eq, EP. cbn [arest]. rewrite <- app_assoc. reflexivity.
    + intros u Hu. destruct (Z.eq_dec u t) as [->|].
      * rewrite aupd_eq. cbn [a_at]. split; [lia|]. rewrite V1. replace (z0 + len log - z0) with (len log) by lia. auto.
      * rewrite aupd_ne by auto. specialize (V11 u Hu). unfold a_at in *. cbn [a_i a_j] in *. destruct (P u); auto; rewrite HG by lia; intuition lia.
    + intros u v k Hu Hv. assert (Hno : forall w, 0 <= w < N -> apend (P w) <> Some nz).
      { intros w Hw E. specialize (V11 w Hw). unfold a_at in V11. destruct (P w); cbn in E; inversion E; subst; lia. }
      unfold aupd. destruct (Z.eqb_spec u t), (Z.eqb_spec v t); cbn [apend]; subst; auto.
      * intros E1 E2. exfalso. apply (Hno v); congruence.
      * intros E1 E2. exfalso. apply (Hno u); congruence.
      * apply V12; auto.
    + intros k Hk. destruct (Z.eq_dec k (len log)) as [->|].
      * left. exists t. split; auto. rewrite aupd_eq, V1. reflexivity.
      * rewrite HG by lia. destruct (V13 k ltac:(lia)) as [(u & Hu & E)|E]; auto. left. exists u. split; auto. rewrite aupd_ne; auto. intros ->. rewrite EP in E. discriminate.
  - (* ARow *)
    destruct Hpc as (Hk & Eg). apply sat_bind, sat_aset; [nia|]. cbn [sat]. split; [|cbn [atodo]; pose proof (len_nonneg rs); lia]. exists es, log.
    assert (Hno : forall w k', 0 <= w < N -> w <> t -> apend (P w) = Some k' -> k <> k').
    { intros w k' Hw Hne E ->. apply Hne. apply (V12 w t k'); auto. now rewrite EP. }
    constructor; cbn [a_h a_nz a_i a_j a_x]; auto.
    + now rewrite len_upd.
    + intros l Hl. rewrite get_upd_ne by lia. auto.
    + intros u Hu Hs. apply V7; auto. intros E. destruct (Z.eq_dec u t) as [->|]; [congruence|]. now rewrite aupd_ne in Hs.
    + intros u Hu Hs. destruct (Z.eq_dec u t) as [->|]; [rewrite aupd_eq in Hs; discriminate|]. rewrite aupd_ne in Hs by auto. auto.
    + intros u Hu. destruct (Z.eq_dec u t) as [->|].
      * rewrite aupd_eq. cbn [a_at a_i a_j]. rewrite get_upd_eq by nia. auto.
      * rewrite aupd_ne by auto. specialize (V11 u Hu). unfold a_at in *. cbn [a_i a_j] in *.
        destruct (P u) as [| |e' r' k'|e' r' k'|e' r' k'|] eqn:EU; auto; try (rewrite get_upd_ne; [auto|apply (Hno u); auto; now rewrite EU]).
    + intros u v l Hu Hv. unfold aupd. destruct (Z.eqb_spec u t), (Z.eqb_spec v t); cbn [apend]; subst; auto.
      * intros E1 E2. exfalso. injection E1 as <-. now apply (Hno v k).
      * intros E1 E2. exfalso. injection E2 as <-. now apply (Hno u k).
      * apply V12; auto.
    + intros l Hl. destruct (Z.eq_dec (z0 + l) k) as [El|Hne].
      * left. exists t. split; auto. now rewrite aupd_eq, El.
      * rewrite get_upd_ne by auto. destruct (V13 l Hl) as [(u & Hu & E)|E]; auto. left. exists u. split; auto. rewrite aupd_ne; auto.
        intros ->. rewrite EP in E. cbn in E. congruence.
  - (* ACol *)
    destruct Hpc as (Hk & Eg & E1). apply sat_bind, sat_aset; [nia|]. cbn [sat]. split; [|cbn [atodo]; pose proof (len_nonneg rs); lia]. exists es, log.
    assert (Hno : forall w k', 0 <= w < N -> w <> t -> apend (P w) = Some k' -> k <> k').
    { intros w k' Hw Hne E ->. apply Hne. apply (V12 w t k'); auto. now rewrite EP. }
    constructor; cbn [a_h a_nz a_i a_j a_x]; auto.
    + now rewrite len_upd.
    + intros l Hl. rewrite get_upd_ne by lia. auto.
    + intros u Hu Hs. apply V7; auto. intros E. destruct (Z.eq_dec u t) as [->|]; [congruence|]. now rewrite aupd_ne in Hs.
    + intros u Hu Hs. destruct (Z.eq_dec u t) as [->|]; [rewrite aupd_eq in Hs; discriminate|]. rewrite aupd_ne in Hs by auto. auto.
    + intros u Hu. destruct (Z.eq_dec u t) as [->|].
      * rewrite aupd_eq. cbn [a_at a_i a_j]. rewrite get_upd_eq by nia. auto.
      * rewrite aupd_ne by auto. specialize (V11 u Hu). unfold a_at in *. cbn [a_i a_j] in *.
        destruct (P u) as [| |e' r' k'|e' r' k'|e' r' k'|] eqn:EU; auto; try (rewrite get_upd_ne; [auto|apply (Hno u); auto; now rewrite EU]).
    + intros u v l Hu Hv. unfold aupd. destruct (Z.eqb_spec u t), (Z.eqb_spec v t); cbn [apend]; subst; auto.
      * intros Ea Eb. exfalso. injection Ea as <-. now apply (Hno v k).
      * intros Ea Eb. exfalso. injection Eb as <-. now apply (Hno u k).
      * apply V12; auto.
    + intros l Hl. destruct (Z.eq_dec (z0 + l) k) as [El|Hne].
      * left. exists t. split; auto. now rewrite aupd_eq, El.
      * rewrite get_upd_ne by auto. destruct (V13 l Hl) as [(u & Hu & E)|E]; auto. left. exists u. split; auto. rewrite aupd_ne; auto.
        intros ->. rewrite EP in E. cbn in E. congruence.
  - (* AVal *)
    destruct Hpc as (Hk & Eg & E1 & E2). apply sat_bind, sat_aset; [nia|]. cbn [sat]. split; [|cbn [atodo]; pose proof (len_nonneg rs); lia]. exists es, log.
    constructor; cbn [a_h a_nz a_i a_j a_x]; auto.
    + now rewrite len_upd.
    + intros l Hl. rewrite get_upd_ne by lia. auto.
    + intros u Hu Hs. apply V7; auto. intros E. destruct (Z.eq_dec u t) as [->|]; [congruence|]. now rewrite aupd_ne in Hs.
    + intros u Hu Hs. destruct (Z.eq_dec u t) as [->|]; [rewrite aupd_eq in Hs; discriminate|]. rewrite aupd_ne in Hs by auto. auto.
    + intros u Hu. destruct (Z.eq_dec u t) as [->|]; [rewrite aupd_eq; exact I|].
      rewrite aupd_ne by auto. specialize (V11 u Hu). unfold a_at in *. cbn [a_i a_j] in *. auto.
    + intros u v l Hu Hv. unfold aupd. destruct (Z.eqb_spec u t), (Z.eqb_spec v t); cbn [apend]; subst; try easy. apply V12; auto.
    + intros l Hl. destruct (Z.eq_dec (z0 + l) k) as [El|Hne].
      * right. subst k. cbn [a_i a_j] in E1, E2. rewrite get_upd_eq by nia. rewrite E1, E2. replace (z0 + l - z0) with l in Eg by lia. rewrite Eg. now destruct e as [[? ?] ?].
      * rewrite get_upd_ne by auto. destruct (V13 l Hl) as [(u & Hu & E)|E]; auto. left. exists u. split; auto. rewrite aupd_ne; auto.
        intros ->. rewrite EP in E. cbn in E. congruence.
  - (* AEnd *)
    reflexivity.
Qed.

(** ** All the iterations *)
Definition agood (c : @aconfig H) : Prop := len (snd c) = N /\ exists es log, AInv es log (fst c) (getd AEnd (snd c)).
Definition amu (c : @aconfig H) : Z := sum 0 N (fun t => atodo (getd AEnd (snd c) t)).
Lemma AInv_eq es log s P P' : (forall t, 0 <= t < N -> P t = P' t) -> AInv es log s P -> AInv es log s P'.
Proof.
  intros E [V1 V2 V3 V4 V5 V6 V7 V8 V9 V10 V11 V12 V13]. constructor; auto.
  - intros t Ht. rewrite <- E by auto. auto.
  - intros t Ht. rewrite <- E by auto. auto.
  - rewrite (flat_map_eq (fun t => arest (P' t)) (fun t => arest (P t))); auto. intros t Ht. apply In_zseq in Ht. now rewrite E.
  - intros t Ht. rewrite <- E by auto. auto.
  - intros t u k Ht Hu. rewrite <- !E by auto. apply V12; auto.
  - intros k Hk. destruct (V13 k Hk) as [(t & Ht & E')|E']; auto. left. exists t. now rewrite <- E.
Qed.
Lemma atodo_nonneg pc : 0 <= atodo pc.
Proof. destruct pc as [|es|e es k|e es k|e es k|]; cbn [atodo]; try pose proof (len_nonneg es); lia. Qed.
Lemma amu_nonneg c : 0 <= amu c.
Proof. apply sum_nonneg. intros t Ht. apply atodo_nonneg. Qed.

Local Notation step := (astep_all start).
Lemma astep_good c t : agood c -> 0 <= t < N ->
  sat (step t c) (fun o => match o with None => True | Some c' => agood c' /\ 0 <= amu c' < amu c end).
Proof.
  destruct c as [h ps]. intros [HL (es & log & HI)] Ht. cbn [fst snd] in *. unfold astep_all. apply sat_bind.
  eapply sat_mono; [apply (astep_ok t es log h (getd AEnd ps)); auto|]. cbv beta. intros [[p' h']|]; [|cbn; auto].
  intros [(es' & log' & HI') Hm']. cbn [sat].
  split.
  { split; cbn [fst snd]; [now rewrite len_upd|]. exists es', log'. eapply AInv_eq; [|exact HI']. intros u Hu. unfold aupd.
    rewrite getd_upd. unfold inb. rewrite Z.eqb_sym. destruct (Z.eqb_spec t u); auto.
    replace ((0 <=? t) && (t <? len ps)) with true by lia. reflexivity. }
  split; [apply amu_nonneg|]. unfold amu. cbn [snd].
  rewrite (sum_pick 0 N (fun u => atodo (getd AEnd (upd ps t p') u)) t) by auto.
  rewrite (sum_pick 0 N (fun u => atodo (getd AEnd ps u)) t) by auto. cbv beta.
  rewrite getd_upd_eq by lia.
  rewrite (sum_ext _ _ _ (fun u => if u =? t then 0 else atodo (getd AEnd ps u))); [lia|].
  intros u Hu. destruct (Z.eqb_spec u t); auto. rewrite getd_upd_ne by auto. reflexivity.
Qed.
Lemma adone_iff (c : @aconfig H) : adone c = true <-> forall t, 0 <= t < len (snd c) -> getd AEnd (snd c) t = AEnd.
Proof.
  unfold adone. rewrite forallb_forall. split.
  - intros HF t Ht. specialize (HF (getd AEnd (snd c) t)). destruct (getd AEnd (snd c) t) eqn:E; try reflexivity;
    (exfalso; enough (false = true) by easy; apply HF; rewrite <- E; unfold getd; replace (t <? 0) with false by lia; apply nth_In; unfold len in Ht; lia).
  - intros HF q Hq. apply (In_nth _ _ AEnd) in Hq. destruct Hq as (k & Hk & <-).
    specialize (HF (Z.of_nat k)). unfold len in HF. specialize (HF ltac:(lia)). unfold getd in HF.
    replace (Z.of_nat k <? 0) with false in HF by lia. rewrite Nat2Z.id in HF. now rewrite HF.
Qed.
Lemma aprog c : agood c -> adone c = false -> exists t, 0 <= t < N /\ scan step c t = true.
Proof.
  intros [HL (es & log & HI)] Hd. destruct c as [h ps]. cbn [fst snd] in *.
  destruct (existsb (fun t => match getd AEnd ps t with AEnd => false | _ => true end) (zseq 0 N)) eqn:Ee.
  - apply existsb_exists in Ee. destruct Ee as (t & Ht & E). apply In_zseq in Ht. exists t. split; auto.
    pose proof (astep_ok t es log h (getd AEnd ps) Ht HI) as HS. unfold scan, astep_all.
    destruct (astep start t (getd AEnd ps t) h) as [[[p' h']|]|]; cbn in *; auto. now rewrite HS in E.
  - exfalso. enough (adone (h, ps) = true) by congruence. apply adone_iff. cbn [snd]. intros t Ht.
    destruct (getd AEnd ps t) eqn:E; try reflexivity;
    (exfalso; enough (X : existsb (fun t => match getd AEnd ps t with AEnd => false | _ => true end) (zseq 0 N) = true) by congruence;
     apply existsb_exists; exists t; split; [apply In_zseq; lia|now rewrite E]).
Qed.
Lemma adone_stop c t : agood c -> 0 <= t < N -> adone c = true -> step t c = Ok None.
Proof.
  intros [HL _] Ht Hd. destruct c as [h ps]. pose proof (proj1 (adone_iff _) Hd t) as E. cbn [snd] in *.
  unfold astep_all. rewrite E by lia. destruct h. reflexivity.
Qed.
Lemma astart_len : len (astart N) = N.
Proof. unfold astart. rewrite len_map, len_zseq. lia. Qed.
Lemma astart_get t : 0 <= t < N -> getd AEnd (astart N) t = AStart.
Proof.
  intros Ht. assert (HI : In (getd AEnd (astart N) t) (astart N)).
  { unfold getd. replace (t <? 0) with false by lia. apply nth_In. pose proof astart_len as E. unfold len in E. lia. }
  unfold astart in HI at 2. apply in_map_iff in HI. destruct HI as (? & <- & _). reflexivity.
Qed.

Lemma append_sched h : B h ->
  let c0 := (Ash h z0 I0 J0 X0, astart N) in
  sched_safe step adone N (afuel N M) c0 /\
  (forall ch, sat (append_for start ch N M (Ash h z0 I0 J0 X0)) (fun s => exists es log,
     B (a_h s) /\ (forall t, 0 <= t < N -> R t (a_h s) (es t) /\ len (es t) <= M) /\ Permutation log (flat_map es (zseq 0 N)) /\
     a_nz s = z0 + len log /\ len (a_i s) = len I0 /\ len (a_j s) = len J0 /\ len (a_x s) = len X0 /\
     (forall k, 0 <= k < z0 -> get (a_i s) k = get I0 k /\ get (a_j s) k = get J0 k /\ get (a_x s) k = get X0 k) /\
     (forall k, 0 <= k < len log -> (get (a_i s) (z0 + k), get (a_j s) (z0 + k), get (a_x s) (z0 + k)) = getd d0 log k))).
Proof.
  intros HB c0.
  assert (HG : agood c0).
  { split; [apply astart_len|]. exists (fun _ => []), []. unfold c0. constructor; cbn [fst snd a_h a_nz a_i a_j a_x]; auto.
    - change (len (@nil (Z * Z * Z))) with 0. lia.
    - intros t Ht E. now rewrite astart_get in E.
    - cbn [app]. rewrite (flat_map_eq (fun t => arest (getd AEnd (astart N) t)) (fun _ => [])); auto.
      intros t Ht. apply In_zseq in Ht. now rewrite astart_get.
    - intros t Ht. rewrite astart_get by auto. exact I.
    - intros t u k Ht Hu E. rewrite astart_get in E by auto. discriminate.
    - intros k Hk. change (len (@nil (Z * Z * Z))) with 0 in Hk. lia. }
  assert (Hmu : amu c0 <= Z.of_nat (afuel N M)).
  { unfold amu, afuel, c0. cbn [snd]. rewrite (sum_ext _ _ _ (fun _ => 4 * M + 3)) by (intros t Ht; now rewrite astart_get).
    rewrite sum_const by lia. nia. }
  destruct (sched_ok step adone N agood amu astep_good aprog adone_stop (afuel N M) c0 HG Hmu) as [HS HP].
  split; [exact HS|]. intros ch. unfold append_for. apply sat_bind. eapply sat_mono; [apply HP|]. cbv beta.
  intros [s ps] [[HL (es & log & [V1 V2 V3 V4 V5 V6 V7 V8 V9 V10 V11 V12 V13])] Hd]. cbn [fst snd sat] in *.
  pose proof (proj1 (adone_iff _) Hd) as HE. cbn [snd] in HE.
  exists es, log. split; auto. split.
  { intros t Ht. split; auto. apply V7; auto. rewrite HE by lia. discriminate. }
  split.
  { rewrite <- V10, (flat_map_eq (fun t => arest (getd AEnd ps t)) (fun _ => [])).
    - assert (E : forall l : list Z, flat_map (fun _ : Z => @nil (Z * Z * Z)) l = []) by (induction l; auto). rewrite E, app_nil_r. reflexivity.
    - intros t Ht. apply In_zseq in Ht. now rewrite HE by lia. }
  split; auto. split; auto. split; auto. split; auto. split; auto.
  intros k Hk. destruct (V13 k Hk) as [(t & Ht & E)|E]; auto. rewrite HE in E by lia. discriminate.
Qed.
End append.
