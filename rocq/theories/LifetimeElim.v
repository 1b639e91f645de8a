(** Lifetimes: elimination. *)
From Coq Require Import ZifyBool.
From Verif Require Import Base Lifetime LifetimeBase.

Lemma sp_region {T} k (body : H T) P G Q : spec P body G Q -> (forall x, 0 <= P x) -> (forall v, G v -> forall x, 0 <= Q v x) -> spec P (region k body) G Q.
Proof.
  intros B M N. unfold region. eapply gspec_bind; [apply sp_news|exact M|intros v _]. apply gspec_uses; [intros x; specialize (M x); unfold own; cbn; lia|].
  eapply gspec_bind; [exact B|intros x; unfold own; cbn; pose proof (cnt_nn x v); lia|]. intros w Gw.
  apply gspec_frees; [intros x; unfold own; cbn; specialize (N w Gw x); lia|]. apply spec_ret; auto. intros x. unfold own. cbn. lia.
Qed.
Lemma kp_region {T} k (body : H T) P : keeps P body -> (forall x, 0 <= P x) -> keeps P (region k body).
Proof. intros B N. apply sp_region; auto. Qed.
Ltac kreg := eapply gspec_keep; [apply kp_region; [repeat st|side]|side|intros ?].

Lemma kp_density T e A p f : keeps (own (p :: csr_blocks A ++ fact_blocks f)) (o_density T e A p f).
Proof. unfold o_density. destruct e; [st|]. apply kp_region; [repeat st|side]. Qed.
Lemma kp_FL A pinv qinv : keeps (own (pinv :: qinv :: csr_blocks A)) (o_FL_column_pivots A pinv qinv).
Proof. unfold o_FL_column_pivots. repeat st. Qed.
Lemma kp_cycle T A pinv qinv : keeps (own (pinv :: qinv :: csr_blocks A)) (o_cycle_free_pivots T A pinv qinv).
Proof.
  unfold o_cycle_free_pivots. apply gspec_new. intros journal.
  eapply gspec_keep with (P1 := own (journal :: pinv :: qinv :: csr_blocks A)); [apply kp_region; [repeat st|side]|side|intros _]. repeat st.
Qed.
Lemma kp_reorder A pinv qinv p : keeps (own (pinv :: qinv :: p :: csr_blocks A)) (o_reorder A pinv qinv p).
Proof. unfold o_reorder. repeat st. Qed.
#[global] Hint Resolve kp_density kp_FL kp_cycle kp_reorder : sp.
Lemma sp_add_entries l : forall L, spec (own (trip_blocks L)) (o_add_entries l L) (fun _ => True) (fun L => own (trip_blocks L)).
Proof. induction l as [|big l IH]; intros L; cbn [o_add_entries]; repeat st. Qed.
#[global] Hint Resolve sp_add_entries : sp.
Notation tb L := (match L with Some T => trip_blocks T | None => [] end).
(* the form of a factorisation does not change *)
Definition same (f g : ofact) : Prop := of_s g = of_s f /\ has (of_L g) = has (of_L f) /\ of_p g = of_p f.

Lemma sp_extract T gr big adds A p_in f p :
  spec (own (p :: olist p_in ++ csr_blocks A ++ fact_blocks f)) (o_extract T gr big adds A p_in f p)
    (same f) (fun g => own (p :: olist p_in ++ csr_blocks A ++ fact_blocks g)).
Proof.
  unfold o_extract. apply gspec_new. intros qinv. apply gspec_new. intros pinv. do 3 st.
  eapply gspec_keep with (P1 := own (pinv :: qinv :: csr_blocks A)); [destruct gr; repeat st|side|intros _]. do 2 st.
  eapply gspec_bind with (P1 := own (csr_blocks (of_U f))) (G1 := fun U => oc_p U = oc_p (of_U f)) (Q1 := fun U => own (csr_blocks U)); [destruct big; repeat st; tauto|side|intros U HU].
  eapply gspec_bind with (P1 := own (tb (of_L f) ++ olist p_in ++ olist (of_p f))) (G1 := fun L => has L = has (of_L f)) (Q1 := fun L => own (tb L ++ olist p_in ++ olist (of_p f))).
  { destruct (of_L f); repeat st; reflexivity. }
  { side. }
  intros L HL. repeat st. unfold same. auto.
Qed.
#[global] Hint Resolve sp_extract : sp.

Lemma sp_schur_rows rows A p p_in p_out f : forall C L Sp Sj Sx Lijx,
  Sp = oc_p C -> Sj = oc_j C -> Sx = oc_x C -> Lijx = match L with Some L => ot_i L :: ot_j L :: olist (ot_x L) | None => [] end ->
  let F := csr_blocks A ++ p :: p_out :: olist p_in ++ of_s f :: of_q f :: csr_blocks (of_U f) in
  spec (own (F ++ csr_blocks C ++ tb L)) (o_schur_rows rows A p p_in p_out f C Sp Sj Sx L Lijx)
    (fun v => has (snd v) = has L) (fun v => own (F ++ csr_blocks (fst v) ++ tb (snd v))).
Proof.
  induction rows as [|[bS bL] rows IH]; intros C L Sp Sj Sx Lijx -> -> -> -> F; cbn [o_schur_rows]; subst F; [st; reflexivity|].
  do 3 st.
  eapply gspec_bind with (P1 := own (csr_blocks C)) (G1 := fun v => oc_p (fst (fst v)) = oc_p C /\ snd (fst v) = oc_j (fst (fst v)) /\ snd v = oc_x (fst (fst v)))
    (Q1 := fun v => own (csr_blocks (fst (fst v)))).
  { destruct bS; repeat st; cbn; tauto. }
  { side. }
  intros [[C1 Sj1] Sx1] (E1 & E2 & E3). cbn [fst snd] in *. subst Sj1 Sx1.
  eapply gspec_bind with (P1 := own (tb L)) (G1 := fun v => has (fst v) = has L /\ snd v = match fst v with Some L => ot_i L :: ot_j L :: olist (ot_x L) | None => [] end)
    (Q1 := fun v => own (tb (fst v))).
  { destruct L; [destruct bL|]; repeat st; cbn; auto. }
  { side. }
  intros [L1 Lx1] (E4 & E5). cbn [fst snd] in *. subst Lx1.
  apply gspec_uses. { rewrite <- E1. destruct L1; side. }
  eapply spec_conseq; [apply IH; auto|side|cbn; intros; congruence|intros; cbv zeta; side].
Qed.
Lemma sp_schur T rows A p f p_in p_out :
  spec (own (p :: p_out :: olist p_in ++ csr_blocks A ++ fact_blocks f)) (o_schur T rows A p f p_in p_out)
    (fun v => same f (snd v)) (fun v => own (p :: p_out :: olist p_in ++ csr_blocks A ++ fact_blocks (snd v) ++ csr_blocks (fst v))).
Proof.
  unfold o_schur. st. eapply gspec_bind; [apply sp_region; [apply sp_schur_rows; reflexivity| |]| |].
  { intros x. unfold own. apply cnt_nn. }
  { intros v0 _ x. unfold own. apply cnt_nn. }
  { side. }
  intros [C L] HL. cbn [fst snd] in HL. repeat st. unfold same. cbn. auto.
Qed.
#[global] Hint Resolve sp_schur : sp.
Lemma kp_randomized T A p f Sd q : keeps (own (p :: Sd :: q :: csr_blocks A ++ fact_blocks f)) (o_dense_randomized T A p f Sd q).
Proof. unfold o_dense_randomized. apply kp_region; [repeat st|side]. Qed.
#[global] Hint Resolve kp_randomized : sp.
Lemma kp_completion T e A p f : keeps (own (p :: csr_blocks A ++ fact_blocks f)) (o_test_completion T e A p f).
Proof. unfold o_test_completion. st. destruct e; repeat st. Qed.
#[global] Hint Resolve kp_completion : sp.
Lemma same_trans f g k : same f g -> same g k -> same f k. Proof. unfold same. intuition congruence. Qed.
Lemma same_refl f : same f f. Proof. unfold same. auto. Qed.

Lemma sp_gplu_rows T A p p_in ws Up rows : forall f, Up = oc_p (of_U f) ->
  spec (own (p :: olist p_in ++ ws ++ csr_blocks A ++ fact_blocks f)) (o_gplu_rows T rows A p p_in ws Up f)
    (same f) (fun g => own (p :: olist p_in ++ ws ++ csr_blocks A ++ fact_blocks g)).
Proof.
  induction rows as [|[[[test stop] bU] bL] rows IH]; intros f ->; cbn [o_gplu_rows]; [st; apply same_refl|].
  eapply gspec_keep with (P1 := own (p :: csr_blocks A ++ fact_blocks f)); [destruct test; repeat st|side|intros _].
  destruct (match test with Some e => e || stop | None => false end); [st; apply same_refl|].
  st.
  eapply gspec_bind with (P1 := own (csr_blocks (of_U f))) (G1 := fun U => oc_p U = oc_p (of_U f)) (Q1 := fun U => own (csr_blocks U)); [destruct bU; repeat st; tauto|side|intros U HU].
  eapply gspec_bind with (P1 := own (tb (of_L f))) (G1 := fun L => has L = has (of_L f)) (Q1 := fun L => own (tb L)).
  { destruct (of_L f); [|st; reflexivity].
    eapply gspec_bind with (P1 := own (trip_blocks o)) (G1 := fun _ => True) (Q1 := fun L => own (trip_blocks L)); [destruct bL; repeat st|side|intros L _]. st. reflexivity. }
  { side. }
  intros L HL. cbv zeta. st. apply gspec_uses. { rewrite <- HU. side. } st.
  eapply spec_conseq; [apply IH; cbn; auto|side| |intros; side]. intros g Hg. eapply same_trans; [|exact Hg]. unfold same. auto.
Qed.
Lemma sp_GPLU T rows A p p_in f : spec (own (p :: olist p_in ++ csr_blocks A ++ fact_blocks f)) (o_GPLU T rows A p p_in f)
    (same f) (fun g => own (p :: olist p_in ++ csr_blocks A ++ fact_blocks g)).
Proof. unfold o_GPLU. do 3 st. eapply gspec_bind; [apply sp_gplu_rows; reflexivity|side|intros g Hg]. repeat st. exact Hg. Qed.
Lemma sp_update_U Sd Sq q f : spec (own (Sd :: Sq :: q :: fact_blocks f)) (o_update_U Sd Sq q f) (same f) (fun g => own (Sd :: Sq :: q :: fact_blocks g)).
Proof. unfold o_update_U. repeat st. unfold same. auto. Qed.
Lemma sp_update_LU Sd Sp Sq q po pv f L : of_L f = Some L ->
  spec (own (Sd :: Sp :: Sq :: q :: po :: pv :: fact_blocks f)) (o_update_LU Sd Sp Sq q po pv f L) (same f) (fun g => own (Sd :: Sp :: Sq :: q :: po :: pv :: fact_blocks g)).
Proof.
  destruct f as [fs fU fq fL fp]. cbn [of_L]. intros ->. unfold o_update_LU. repeat st. cbv zeta. repeat st. unfold same. auto.
Qed.
#[global] Hint Resolve sp_GPLU sp_update_U sp_update_LU : sp.
Lemma sp_schur_dense T A p p_in f Sd q po :
  spec (own (p :: Sd :: q :: po :: olist p_in ++ csr_blocks A ++ fact_blocks f)) (o_schur_dense T A p p_in f Sd q po)
    (same f) (fun g => own (p :: Sd :: q :: po :: olist p_in ++ csr_blocks A ++ fact_blocks g)).
Proof.
  unfold o_schur_dense. st.
  eapply gspec_bind with (P1 := own (tb (of_L f))) (G1 := fun L => has L = has (of_L f)) (Q1 := fun L => own (tb L)).
  { destruct (of_L f); repeat st; reflexivity. }
  { side. }
  intros L HL. cbv zeta.
  eapply spec_conseq; [eapply sp_region with (P := own (p :: Sd :: q :: po :: olist p_in ++ csr_blocks A ++ fact_blocks (Of (of_s f) (of_U f) (of_q f) L (of_p f))))
     (G := fun g => g = Of (of_s f) (of_U f) (of_q f) L (of_p f)) (Q := fun g => own (p :: Sd :: q :: po :: olist p_in ++ csr_blocks A ++ fact_blocks g))| | |].
  { repeat st. reflexivity. }
  { intros x. apply cnt_nn. }
  { intros ? _ x. apply cnt_nn. }
  { side. }
  { intros g ->. unfold same. auto. }
  { intros g ->. side. }
Qed.
#[global] Hint Resolve sp_schur_dense : sp.
Lemma sp_lowrank_rounds T A p Sd q Sp rounds : forall f,
  spec (own (p :: Sd :: q :: Sp :: csr_blocks A ++ fact_blocks f)) (o_lowrank_rounds T rounds A p Sd q Sp f)
    (same f) (fun g => own (p :: Sd :: q :: Sp :: csr_blocks A ++ fact_blocks g)).
Proof.
  induction rounds as [|[test stop] rounds IH]; intros f; cbn [o_lowrank_rounds]; [st; apply same_refl|].
  do 2 st.
  eapply gspec_keep with (P1 := own (p :: csr_blocks A ++ fact_blocks f)); [destruct test; repeat st|side|intros _].
  destruct (match test with Some e => e || stop | None => false end); [st; apply same_refl|].
  st. eapply spec_conseq; [apply IH|side|intros; eapply same_trans; eassumption|intros; side].
Qed.
Lemma sp_lowrank T rounds A p f : spec (own (p :: csr_blocks A ++ fact_blocks f)) (o_lowrank T rounds A p f) (same f) (fun g => own (p :: csr_blocks A ++ fact_blocks g)).
Proof. unfold o_lowrank. do 3 st. eapply gspec_bind; [apply sp_lowrank_rounds|side|intros g Hg]. repeat st. exact Hg. Qed.
#[global] Hint Resolve sp_lowrank : sp.
Lemma sp_dense_blocks T A p p_in Sd po q Sq Sp pv k : forall f,
  let F := p :: Sd :: po :: q :: Sq :: Sp :: pv :: olist p_in ++ csr_blocks A in
  spec (own (F ++ fact_blocks f)) (o_dense_blocks T k A p p_in Sd po q Sq Sp pv f) (same f) (fun g => own (F ++ fact_blocks g)).
Proof.
  induction k as [|k IH]; intros f F; cbn [o_dense_blocks]; subst F; [st; apply same_refl|].
  do 2 st.
  eapply gspec_bind with (P1 := own (Sd :: Sp :: Sq :: q :: po :: pv :: fact_blocks v)) (G1 := same v) (Q1 := fun g => own (Sd :: Sp :: Sq :: q :: po :: pv :: fact_blocks g)).
  { destruct (of_L v) as [L|] eqn:EL; [st; eapply sp_update_LU; exact EL|]. st. eapply spec_conseq; [apply sp_update_U|side|auto|intros; side]. }
  { side. }
  intros g1 H1. eapply spec_conseq; [apply IH|side| |intros; cbv zeta; side]. intros. repeat (eapply same_trans; [eassumption|]). apply same_refl.
Qed.
Lemma sp_dense T k low A p p_in f : spec (own (p :: olist p_in ++ csr_blocks A ++ fact_blocks f)) (o_dense T k low A p p_in f)
    (same f) (fun g => own (p :: olist p_in ++ csr_blocks A ++ fact_blocks g)).
Proof.
  unfold o_dense. do 8 st. eapply gspec_bind; [apply sp_dense_blocks|side|intros g Hg]. cbv beta zeta in *. do 6 st.
  destruct low; repeat st; eauto using same_trans.
Qed.
#[global] Hint Resolve sp_dense : sp.

(* the matrix of round rd > 0 belongs to the function; the one of round 0 is the argument *)
Definition mine (A : ocsr) (rd : Z) : list Z := if rd >? 0 then csr_blocks A else [].
Lemma mine_0 A : mine A 0 = []. Proof. reflexivity. Qed.
Lemma mine_pos A rd : 0 < rd -> mine A rd = csr_blocks A. Proof. unfold mine. destruct (rd >? 0) eqn:E; [reflexivity|lia]. Qed.
Definition rounds_G (A0 : ocsr) (f : ofact) (v : ocsr * Z * option Z * ofact * bool) : Prop := let '(A, rd, p_in, g, d) := v in 0 <= rd /\ (rd = 0 -> A = A0) /\ same f g.
Definition rounds_Q (A0 : ocsr) (p : Z) (v : ocsr * Z * option Z * ofact * bool) : Z -> Z := let '(A, rd, p_in, g, d) := v in own (p :: olist p_in ++ csr_blocks A0 ++ mine A rd ++ fact_blocks g).
Lemma rounds_G_trans A0 f g v : same f g -> rounds_G A0 g v -> rounds_G A0 f v.
Proof. destruct v as [[[[A rd] pi] k] d]. unfold rounds_G. intros S (H1 & H2 & H3). eauto using same_trans. Qed.
Ltac rret := apply spec_ret; [unfold rounds_G; split; [lia|split; [first [reflexivity|lia]|eauto using same_trans, same_refl]]|unfold rounds_Q; rewrite ?mine_0, ?mine_pos by lia; side].
Lemma sp_rounds T A0 p rs : forall A rd p_in f, 0 <= rd -> (rd = 0 -> A = A0) ->
  spec (own (p :: olist p_in ++ csr_blocks A0 ++ mine A rd ++ fact_blocks f)) (o_rounds T rs A rd p p_in f) (rounds_G A0 f) (rounds_Q A0 p).
Proof.
  induction rs as [|r rs IH]; intros A rd p_in f Hr HA; cbn [o_rounds].
  { apply spec_ret; [cbn; auto using same_refl|reflexivity]. }
  destruct (Z.eq_dec rd 0) as [E|E].
  - subst rd. rewrite mine_0. rewrite (HA eq_refl). clear HA Hr. st. destruct r as [|g b a|g b a e|g b a e rows].
    + rret.
    + st. rret.
    + do 2 st. rret.
    + do 4 st. match goal with v : (ocsr * ofact)%type |- _ => destruct v as [C f1] end. cbn [fst snd] in *. cbn [Z.gtb Z.compare]. eapply gspec_bind with (P1 := own []) (G1 := fun _ => True) (Q1 := fun _ => own []); [st|side|intros _ _].
      st. eapply spec_conseq; [apply IH with (A := C) (rd := 0 + 1); [lia|lia]| | |].
      { rewrite mine_pos by lia. side. }
      { intros vv G1. eapply rounds_G_trans; [|exact G1]. eauto using same_trans. }
      { intros vv _ x. rewrite mine_pos by lia. side. }
  - rewrite mine_pos by lia. clear HA. st. destruct r as [|g b a|g b a e|g b a e rows].
    + rret.
    + st. rret.
    + do 2 st. rret.
    + do 4 st. match goal with v : (ocsr * ofact)%type |- _ => destruct v as [C f1] end. cbn [fst snd] in *. replace (rd >? 0) with true by lia. do 2 st.
      eapply spec_conseq; [apply IH with (A := C) (rd := rd + 1); [lia|lia]| | |].
      { rewrite mine_pos by lia. side. }
      { intros vv G1. eapply rounds_G_trans; [|exact G1]. eauto using same_trans. }
      { intros vv _ x. rewrite mine_pos by lia. side. }
Qed.

Definition lu_G (hasL : bool) (f : olu) : Prop := has (ol_L f) = hasL /\ has (ol_p f) = hasL.
Lemma sp_echelonize T hasL rs fin A :
  spec (own (csr_blocks A)) (o_echelonize T hasL rs fin A) (lu_G hasL) (fun f => own (csr_blocks A ++ lu_blocks f)).
Proof.
  unfold o_echelonize. do 2 st. apply gspec_new. intros Uq. st.
  eapply gspec_bind with (P1 := own []) (G1 := fun v => has (fst v) = hasL /\ has (snd v) = hasL) (Q1 := fun v => own (tb (fst v) ++ olist (snd v))).
  { destruct hasL; repeat st; auto. }
  { side. }
  intros [L Lp] (HL & HLp). cbn [fst snd] in *. apply gspec_new. intros s. apply gspec_new. intros p.
  eapply gspec_bind; [apply sp_rounds with (A0 := A); [lia|reflexivity]| |].
  { rewrite mine_0. side. }
  intros [[[[A1 rd] p_in] f] done] (Hrd & HA & HS). unfold rounds_Q. rewrite mine_0. st.
  eapply gspec_bind with (P1 := own (p :: olist p_in ++ csr_blocks A1 ++ fact_blocks f)) (G1 := same f) (Q1 := fun g => own (p :: olist p_in ++ csr_blocks A1 ++ fact_blocks g)).
  { destruct done; [st; apply same_refl|]. destruct fin; [|repeat st; auto|repeat st; auto|st; apply same_refl]. repeat st. assumption. }
  { destruct (Z.eq_dec rd 0) as [->|E]; [rewrite mine_0; rewrite (HA eq_refl)|rewrite mine_pos by lia]; side. }
  intros gg Hg. assert (HSg : same {| of_s := s; of_U := v; of_q := Uq; of_L := L; of_p := Lp |} gg) by eauto using same_trans. clear HS Hg. destruct HSg as (E1 & E2 & E3). cbn [of_s of_L of_p] in *.
  eapply gspec_ext with (P' := own (p :: olist p_in ++ csr_blocks A ++ mine A1 rd ++ fact_blocks gg)); [|side].
  do 2 st. eapply gspec_bind; [apply sp_csr_resize|side|intros U1 _]. eapply gspec_bind; [apply sp_csr_realloc|side|intros U2 _].
  eapply gspec_ext with (P' := own (csr_blocks U2 ++ of_s gg :: of_q gg :: tb (of_L gg) ++ olist (of_p gg) ++ csr_blocks A ++ mine A1 rd)); [|side].
  eapply gspec_bind with (P1 := own (mine A1 rd)) (G1 := fun _ => True) (Q1 := fun _ => own []).
  { unfold mine. destruct (rd >? 0); repeat st. }
  { side. }
  intros _ _.
  eapply gspec_bind with (P1 := own (tb (of_L gg) ++ olist (of_p gg))) (G1 := fun v => has (fst v) = hasL /\ has (snd v) = hasL)
    (Q1 := fun v => own (match fst v with Some L => csr_blocks L | None => [] end ++ olist (snd v))).
  { rewrite <- E2 in HL. rewrite <- E3 in HLp. destruct (of_L gg) as [L0|].
    - apply gspec_use; [side|]. eapply gspec_bind; [apply sp_orenew|side|intros Lp' H1]. eapply gspec_bind; [apply sp_compress|side|intros C _]. eapply gspec_bind; [apply sp_triplet_free|side|intros ? ?].
      apply spec_ret; [cbn in *; split; congruence|side].
    - apply spec_ret; [cbn in *; split; congruence|side]. }
  { side. }
  intros [L' Lp'] (HL' & HLp'). cbn [fst snd] in *. apply gspec_use; [side|]. apply spec_ret; [split; auto|side].
Qed.
#[global] Hint Resolve sp_echelonize : sp.
