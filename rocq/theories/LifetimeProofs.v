(** Lifetimes: what is done with a factorisation, and whole programs. *)
From Coq Require Import ZifyBool Permutation.
From Verif Require Import Base Lifetime LifetimeSpec LifetimeBase LifetimeElim.

(** ** Using a factorisation *)
Lemma sp_lu_free f : spec (own (lu_blocks f)) (o_lu_free f) (fun _ => True) (fun _ => own []).
Proof.
  unfold o_lu_free. do 4 st.
  eapply gspec_bind with (P1 := own (match ol_L f with Some L => csr_blocks L | None => [] end)) (G1 := fun _ => True) (Q1 := fun _ => own []); [destruct (ol_L f); repeat st|side|intros _ _].
  repeat st.
Qed.
Lemma sp_append_rows rows : forall K Kp Kj Kx, Kp = oc_p K -> Kj = oc_j K -> Kx = oc_x K ->
  spec (own (csr_blocks K)) (o_append_rows rows K Kp Kj Kx) (fun _ => True) (fun K => own (csr_blocks K)).
Proof.
  induction rows as [|big rows IH]; intros K Kp Kj Kx -> -> ->; cbn [o_append_rows]; [st|].
  eapply gspec_bind with (P1 := own (csr_blocks K)) (G1 := fun v => oc_p (fst (fst v)) = oc_p K /\ snd (fst v) = oc_j (fst (fst v)) /\ snd v = oc_x (fst (fst v)))
    (Q1 := fun v => own (csr_blocks (fst (fst v)))).
  { destruct big; repeat st; cbn; tauto. }
  { side. }
  intros [[C1 Sj1] Sx1] (E1 & E2 & E3). cbn [fst snd] in *. subst Sj1 Sx1. rewrite <- E1. st.
  eapply spec_conseq; [apply IH; auto|side|auto|intros; side].
Qed.
Ltac nns := intros; unfold own; apply cnt_nn.
Lemma sp_kernel T rows f : spec (own (lu_blocks f)) (o_kernel T rows f) (fun _ => True) (fun K => own (lu_blocks f ++ csr_blocks K)).
Proof.
  unfold o_kernel. st. eapply gspec_bind; [apply sp_transpose|side|intros Ut _]. eapply gspec_bind; [apply sp_csr_alloc|side|intros K0 _]. apply gspec_new. intros b. st.
  eapply gspec_bind with (G1 := fun _ => True) (P1 := own (b :: csr_blocks Ut ++ csr_blocks K0)) (Q1 := fun K => own (b :: csr_blocks Ut ++ csr_blocks K)); [apply sp_region; [|nns|nns]|side|intros K _].
  { do 2 st. eapply spec_conseq; [apply sp_append_rows; reflexivity|side|auto|intros; side]. }
  repeat st.
Qed.
Lemma sp_kernel_from_rref R q : spec (own (q :: csr_blocks R)) (o_kernel_from_rref R q) (fun _ => True) (fun K => own (q :: csr_blocks R ++ csr_blocks K)).
Proof. unfold o_kernel_from_rref. repeat st. Qed.
Lemma sp_rref T rows f q : spec (own (q :: lu_blocks f)) (o_rref T rows f q) (fun _ => True) (fun R => own (q :: lu_blocks f ++ csr_blocks R)).
Proof.
  unfold o_rref. eapply gspec_bind; [apply sp_csr_alloc|side|intros v _].
  eapply gspec_bind with (G1 := fun _ => True) (P1 := own (lu_blocks f ++ csr_blocks v)) (Q1 := fun K => own (lu_blocks f ++ csr_blocks K)); [apply sp_region; [|nns|nns]|side|intros K _].
  { st. eapply spec_conseq; [apply sp_append_rows; reflexivity|side|auto|intros; side]. }
  repeat st.
Qed.
Lemma gs_need {A T} (o : option A) a (k : A -> H T) P Post : o = Some a -> gspec P (k a) Post -> gspec P (hbind (need o) k) Post.
Proof. intros -> K h R W HR E. destruct (K h R W HR E) as (w & h' & V & E1 & X). exists w, h', V. auto. Qed.
Lemma has_some {A} (o : option A) : has o = true -> exists a, o = Some a. Proof. destruct o; [eauto|discriminate]. Qed.
Ltac needs := repeat (eapply gs_need; [eassumption|]).
Lemma kp_solve f b x : lu_G true f -> keeps (own (b :: x :: lu_blocks f)) (o_solve f b x).
Proof. intros (H1 & H2). apply has_some in H1 as (L & H1), H2 as (q & H2). unfold o_solve, keeps, spec. needs. repeat st. Qed.
#[global] Hint Resolve sp_lu_free sp_kernel sp_kernel_from_rref sp_rref kp_solve : sp.
Lemma kp_times n m P : keeps P m -> keeps P (times n m).
Proof. intros K. induction n as [|n IH]; cbn [times]; [apply spec_ret; auto|]. eapply gspec_keep; [exact K|intros; lia|intros _; exact IH]. Qed.
Lemma sp_gesv T n f B ok : lu_G true f -> (1 <= T)%nat ->
  spec (own (olist ok ++ csr_blocks B ++ lu_blocks f)) (o_gesv T n f B ok) (fun _ => True) (fun X => own (olist ok ++ csr_blocks B ++ lu_blocks f ++ csr_blocks X)).
Proof.
  intros HG HT. unfold o_gesv. pose proof HG as (H1 & _). apply has_some in H1 as (L & H1). do 2 st. needs. eapply gspec_bind; [apply sp_triplet_alloc|side|intros X _]. eapply gspec_bind; [apply sp_news|side|intros w Hw]. st.
  eapply gspec_keep with (P1 := own (olist ok ++ csr_blocks B ++ lu_blocks f ++ w ++ trip_blocks X)); [apply kp_times|side|intros _].
  { destruct w as [|b [|x w]]; cbn [length] in *; try lia. unfold keeps, spec. st. eapply gs_need; [reflexivity|]. eapply gs_need; [reflexivity|]. repeat st. }
  repeat st.
Qed.
Lemma sp_certificate A f : lu_G true f -> spec (own (csr_blocks A ++ lu_blocks f)) (o_certificate A f) (fun l => length l = 5%nat) (fun l => own (csr_blocks A ++ lu_blocks f ++ l)).
Proof. intros HG. pose proof HG as (H1 & H2). apply has_some in H1 as (L & H1), H2 as (q & H2). unfold o_certificate. do 2 st. needs. repeat st. assumption. Qed.
Lemma kp_rank_verify e A l : keeps (own (csr_blocks A ++ l)) (o_rank_verify e A l).
Proof. unfold o_rank_verify. do 2 st. destruct e; repeat st. Qed.
Lemma kp_fact_verify A f : lu_G true f -> keeps (own (csr_blocks A ++ lu_blocks f)) (o_factorization_verify A f).
Proof. intros HG. pose proof HG as (H1 & H2). apply has_some in H1 as (L & H1), H2 as (q & H2). unfold o_factorization_verify, keeps, spec. needs. repeat st. Qed.
#[global] Hint Resolve sp_gesv sp_certificate kp_rank_verify kp_fact_verify : sp.

(** ** Programs *)
Lemma sp_load mm v adds : spec (own []) (o_load mm v adds) (fun _ => True) (fun T => own (trip_blocks T)).
Proof. unfold o_load. do 2 st. destruct mm; repeat st. Qed.
#[global] Hint Resolve sp_load : sp.
Lemma sp_tool_transpose mm adds : spec (own []) (o_tool_transpose mm adds) (fun _ => True) (fun _ => own []).
Proof. unfold o_tool_transpose. repeat st. Qed.
Lemma sp_tool_echelonize T mm adds hasL rs fin rref : spec (own []) (o_tool_echelonize T mm adds hasL rs fin rref) (fun _ => True) (fun _ => own []).
Proof.
  unfold o_tool_echelonize. do 6 st.
  match goal with f : olu |- _ => eapply gspec_keep with (P1 := own (lu_blocks f)) end; [destruct rref; repeat st|side|intros _]. repeat st.
Qed.
(* the certificate is lost *)
Lemma sp_tool_rank T mm adds hasL rs fin cert early : gspec (own []) (o_tool_rank T mm adds hasL rs fin cert early) (leaves (fun _ => []) (if cert then 5 else 0)).
Proof.
  unfold o_tool_rank. eapply gspec_bind; [apply sp_load|side|intros T0 _]. eapply gspec_bind; [apply sp_compress|side|intros A _]. do 2 st.
  eapply gspec_bind; [apply sp_echelonize|side|intros f Hf]. st.
  eapply gspec_ext with (P' := own (csr_blocks A ++ lu_blocks f)); [|side].
  eapply gspec_gbind with (P1 := own (csr_blocks A ++ lu_blocks f)) (Post1 := leaves (fun _ => csr_blocks A ++ lu_blocks f) (if cert then 5 else 0)); [|side|].
  { destruct cert.
    - rewrite orb_true_r in Hf. eapply gspec_keep; [apply kp_times, kp_fact_verify; exact Hf|side|intros _].
      eapply gspec_bind; [apply sp_certificate; exact Hf|side|intros l Hl]. repeat st. apply gspec_ret. exists l. split; [exact Hl|side].
    - apply gspec_ret. exists []. split; [reflexivity|side]. }
  intros [] W (l & Hl & HW). eapply gspec_ext; [|intros x; cbv beta; rewrite HW; reflexivity]. repeat st.
  apply gspec_ret. exists l. split; [exact Hl|side].
Qed.
(* the factorisation and the kernel are lost *)
Lemma sp_tool_kernel T mm adds hasL rs fin rows :
  gspec (own []) (o_tool_kernel T mm adds hasL rs fin rows) (fun _ W => exists f K, forall x, W x = cnt x (lu_blocks f ++ csr_blocks K)).
Proof.
  unfold o_tool_kernel. eapply gspec_bind; [apply sp_load|side|intros T0 _]. eapply gspec_bind; [apply sp_compress|side|intros A _]. st.
  eapply gspec_bind; [apply sp_echelonize|side|intros f Hf]. st. eapply gspec_bind; [apply sp_kernel|side|intros K _]. repeat st. apply gspec_ret. exists f, K. side.
Qed.
Lemma sp_tool_solve T n mm mm' adds adds' rs fin : (1 <= T)%nat ->
  gspec (own []) (o_tool_solve T n mm mm' adds adds' rs fin) (fun _ W => exists A B f ok X, forall x, W x = cnt x (csr_blocks A ++ csr_blocks B ++ lu_blocks f ++ ok :: csr_blocks X)).
Proof.
  intros HT. unfold o_tool_solve. eapply gspec_bind; [apply sp_load|side|intros T0 _]. eapply gspec_bind; [apply sp_compress|side|intros A _]. do 2 st.
  eapply gspec_bind; [apply sp_load|side|intros T1 _]. eapply gspec_bind; [apply sp_compress|side|intros B _]. st.
  eapply gspec_bind; [apply sp_echelonize|side|intros f Hf]. apply gspec_new. intros ok.
  eapply gspec_ext with (P' := own (ok :: csr_blocks A ++ csr_blocks B ++ lu_blocks f)); [|side].
  eapply gspec_bind; [apply sp_gesv; [exact Hf|exact HT]|side|intros X _]. repeat st. apply gspec_ret. exists A, B, f, ok, X. side.
Qed.
Lemma sp_tool_dm mm adds wide empty :
  gspec (own []) (o_tool_dm mm adds wide empty) (fun _ W => exists DM B l, length l = (if empty then 2 else 4)%nat /\ forall x, W x = cnt x (dm_blocks DM ++ csr_blocks B ++ l)).
Proof.
  unfold o_tool_dm. eapply gspec_bind; [apply sp_load|side|intros T0 _]. eapply gspec_bind; [apply sp_compress|side|intros A _]. do 2 st.
  eapply gspec_ext with (P' := own (csr_blocks A)); [|side].
  eapply gspec_gbind; [apply sp_dm|side|]. intros DM W (l & Hl & HW). eapply gspec_ext; [|intros x; cbv beta; rewrite HW; reflexivity].
  eapply gspec_bind; [apply sp_pinv|side|intros q _]. eapply gspec_bind; [apply sp_permute|side|intros B _]. repeat st.
  apply gspec_ret. exists DM, B, l. split; [exact Hl|side].
Qed.

(** ** In terms of lists of blocks *)
Lemma cnt_occ x l : cnt x l = Z.of_nat (count_occ Z.eq_dec l x).
Proof. induction l as [|a l IH]; [reflexivity|]. cbn [cnt count_occ]. unfold ind. destruct (Z.eq_dec a x) as [E|E]; destruct (a =? x) eqn:E'; lia. Qed.
Lemma perm_cnt l k : Permutation l k <-> forall x, cnt x l = cnt x k.
Proof. rewrite (Permutation_count_occ Z.eq_dec). split; intros H x; specialize (H x); rewrite ?cnt_occ in *; lia. Qed.
Lemma good_wf h : good h <-> hwf h.
Proof.
  unfold good, hwf. rewrite (NoDup_count_occ Z.eq_dec), Forall_forall. split; intros (H1 & H2); split.
  - intros x. rewrite cnt_occ. specialize (H1 x). lia.
  - intros x Hx. rewrite cnt_occ. destruct (count_occ Z.eq_dec (h_live h) x) eqn:E; [reflexivity|]. assert (In x (h_live h)) by (apply (count_occ_In Z.eq_dec); lia). specialize (H2 x H). lia.
  - intros x. specialize (H1 x). rewrite cnt_occ in H1. lia.
  - intros x Hx. apply (count_occ_In Z.eq_dec) in Hx. destruct (Z_lt_le_dec x (h_next h)); [assumption|]. specialize (H2 x l). rewrite cnt_occ in H2. lia.
Qed.
Lemma safe_of {T} l (f : H T) G k : spec (own l) f G (fun v => own (k v)) -> safe l f k.
Proof.
  intros S h R W E. destruct (S h (own R)) as (v & h' & V & E1 & W1 & (_ & HV) & C1).
  { apply good_wf, W. } { intros x. apply cnt_nn. } { intros x. rewrite perm_cnt in E. rewrite E, cnt_app. reflexivity. }
  exists v, h'. split; [exact E1|]. split; [apply good_wf, W1|]. apply perm_cnt. intros x. rewrite C1, HV, cnt_app. reflexivity.
Qed.
Lemma loses_of {T} n l (f : H T) k : gspec (own l) f (leaves k n) -> loses n l f k.
Proof.
  intros S h R W E. destruct (S h (own R)) as (v & h' & V & E1 & W1 & (lost & HL & HV) & C1).
  { apply good_wf, W. } { intros x. apply cnt_nn. } { intros x. rewrite perm_cnt in E. rewrite E, cnt_app. reflexivity. }
  exists v, h', lost. split; [exact E1|]. split; [apply good_wf, W1|]. split; [exact HL|]. apply perm_cnt. intros x. rewrite C1, HV, !cnt_app. unfold own. lia.
Qed.
Lemma lost_not_safe {T} n l (f : H T) k h : good h -> Permutation (h_live h) l -> (0 < n)%nat -> loses n l f k -> ~ safe l f k.
Proof.
  intros W E Hn L S. rewrite <- (app_nil_r l) in E. destruct (L h [] W E) as (v & h' & lost & E1 & _ & HL & P1). destruct (S h [] W E) as (v' & h2 & E2 & _ & P2).
  rewrite E1 in E2. inversion E2; subst v' h2. apply Permutation_length in P1, P2. rewrite !app_length in *. cbn in *. lia.
Qed.

Lemma safe_matrices : (forall T, safe (trip_blocks T) (o_compress T) (fun C => trip_blocks T ++ csr_blocks C))
  /\ (forall A keep, safe (csr_blocks A) (o_transpose A keep) (fun C => csr_blocks A ++ csr_blocks C))
  /\ (forall A p q v, safe (p :: q :: csr_blocks A) (o_permute A p q v) (fun C => p :: q :: csr_blocks A ++ csr_blocks C))
  /\ (forall A v, safe (csr_blocks A) (o_submatrix A v) (fun C => csr_blocks A ++ csr_blocks C))
  /\ (forall mm v adds, safe [] (o_load mm v adds) trip_blocks).
Proof.
  repeat split; intros; eapply safe_of.
  - eapply spec_conseq; [apply sp_compress|side|intros v _; exact I|intros; side].
  - eapply spec_conseq; [apply sp_transpose|side|intros v _; exact I|intros; side].
  - eapply spec_conseq; [apply sp_permute|side|intros v0 _; exact I|intros; side].
  - eapply spec_conseq; [apply sp_submatrix|side|intros v0 _; exact I|intros; side].
  - apply sp_load.
Qed.
Lemma safe_echelonize T hasL rs fin A : safe (csr_blocks A) (o_echelonize T hasL rs fin A) (fun f => csr_blocks A ++ lu_blocks f).
Proof. exact (safe_of _ _ _ _ (sp_echelonize T hasL rs fin A)). Qed.
Lemma has_not {A} (o : option A) b : has o = b -> (o <> None <-> b = true).
Proof. intros <-. destruct o; cbn; intuition congruence. Qed.
Lemma echelonize_L T hasL rs fin A h R f h' : good h -> Permutation (h_live h) (csr_blocks A ++ R) -> o_echelonize T hasL rs fin A h = Ok (f, h') ->
  (ol_L f <> None <-> hasL = true) /\ (ol_p f <> None <-> hasL = true).
Proof.
  intros W E F. destruct (sp_echelonize T hasL rs fin A h (own R)) as (v & h2 & V & E1 & _ & ((G1 & G2) & _) & _).
  { apply good_wf, W. } { intros x. apply cnt_nn. } { intros x. rewrite perm_cnt in E. rewrite E, cnt_app. reflexivity. }
  rewrite F in E1. inversion E1; subst v h2. split; apply has_not; assumption.
Qed.
Lemma lu_G_of f : ol_L f <> None -> ol_p f <> None -> lu_G true f.
Proof. unfold lu_G. destruct (ol_L f), (ol_p f); cbn; intuition congruence. Qed.
Lemma safe_solve f b x : ol_L f <> None -> ol_p f <> None -> safe (b :: x :: lu_blocks f) (o_solve f b x) (fun _ => b :: x :: lu_blocks f).
Proof. intros H1 H2. exact (safe_of _ _ _ (fun _ => b :: x :: lu_blocks f) (kp_solve f b x (lu_G_of f H1 H2))). Qed.
Lemma safe_gesv T n f B ok : ol_L f <> None -> ol_p f <> None -> (1 <= T)%nat ->
  safe (olist ok ++ csr_blocks B ++ lu_blocks f) (o_gesv T n f B ok) (fun X => olist ok ++ csr_blocks B ++ lu_blocks f ++ csr_blocks X).
Proof. intros H1 H2 HT. exact (safe_of _ _ _ _ (sp_gesv T n f B ok (lu_G_of f H1 H2) HT)). Qed.
Lemma safe_certificate A f : ol_L f <> None -> ol_p f <> None -> safe (csr_blocks A ++ lu_blocks f) (o_certificate A f) (fun proof => csr_blocks A ++ lu_blocks f ++ proof).
Proof. intros H1 H2. exact (safe_of _ _ _ _ (sp_certificate A f (lu_G_of f H1 H2))). Qed.
Lemma safe_verify early A f proof : ol_L f <> None -> ol_p f <> None ->
  safe (csr_blocks A ++ proof) (o_rank_verify early A proof) (fun _ => csr_blocks A ++ proof)
  /\ safe (csr_blocks A ++ lu_blocks f) (o_factorization_verify A f) (fun _ => csr_blocks A ++ lu_blocks f).
Proof.
  intros H1 H2. split; [exact (safe_of _ _ _ (fun _ => csr_blocks A ++ proof) (kp_rank_verify early A proof))|].
  exact (safe_of _ _ _ (fun _ => csr_blocks A ++ lu_blocks f) (kp_fact_verify A f (lu_G_of f H1 H2))).
Qed.
Lemma good4 : good (Heap 4 [0; 1; 2; 3]). Proof. split; repeat constructor; cbn; intuition lia. Qed.
Lemma scc_lost : exists A, NoDup (csr_blocks A) /\ ~ safe (csr_blocks A) (o_scc A) (fun P => csr_blocks A ++ dm_blocks P).
Proof.
  exists (Oc 0 1 2 (Some 3)). split; [apply good4|]. eapply lost_not_safe with (n := 1%nat) (h := Heap 4 [0; 1; 2; 3]); [apply good4|reflexivity|lia|]. apply loses_of, sp_scc.
Qed.
Lemma dm_lost : exists A, NoDup (csr_blocks A) /\ forall wide empty, ~ safe (csr_blocks A) (o_dulmage_mendelsohn A wide empty) (fun P => csr_blocks A ++ dm_blocks P).
Proof.
  exists (Oc 0 1 2 (Some 3)). split; [apply good4|]. intros wide empty.
  eapply lost_not_safe with (n := if empty then 2%nat else 4%nat) (h := Heap 4 [0; 1; 2; 3]); [apply good4|reflexivity|destruct empty; lia|]. apply loses_of, sp_dm.
Qed.
Lemma safe_programs : (forall mm adds, safe [] (o_tool_transpose mm adds) (fun _ => []))
  /\ (forall T mm adds hasL rs fin rref, safe [] (o_tool_echelonize T mm adds hasL rs fin rref) (fun _ => []))
  /\ (forall T mm adds hasL rs fin early, safe [] (o_tool_rank T mm adds hasL rs fin false early) (fun _ => [])).
Proof.
  repeat split; intros.
  - exact (safe_of _ _ _ (fun _ => []) (sp_tool_transpose mm adds)).
  - exact (safe_of _ _ _ (fun _ => []) (sp_tool_echelonize T mm adds hasL rs fin rref)).
  - intros h R W E. destruct (loses_of _ _ _ _ (sp_tool_rank T mm adds hasL rs fin false early) h R W E) as (v & h' & l & E1 & W1 & HL & P). destruct l; [|discriminate]. exists v, h'. auto.
Qed.
Lemma gs_run (f : H unit) Post : gspec (own []) f Post -> exists h, f (Heap 0 []) = Ok (tt, h).
Proof.
  intros S. destruct (S (Heap 0 []) (fun _ => 0)) as ([] & h & V & E & _).
  { split; cbn; intros; lia. } { intros; lia. } { intros; reflexivity. }
  exists h. exact E.
Qed.
Lemma programs_ok T n mm mm' adds adds' hasL rs fin rows wide empty : (1 <= T)%nat ->
  exists h1 h2 h3, o_tool_kernel T mm adds hasL rs fin rows (Heap 0 []) = Ok (tt, h1)
  /\ o_tool_solve T n mm mm' adds adds' rs fin (Heap 0 []) = Ok (tt, h2) /\ o_tool_dm mm adds wide empty (Heap 0 []) = Ok (tt, h3).
Proof.
  intros HT. destruct (gs_run _ _ (sp_tool_kernel T mm adds hasL rs fin rows)) as (h1 & E1).
  destruct (gs_run _ _ (sp_tool_solve T n mm mm' adds adds' rs fin HT)) as (h2 & E2). destruct (gs_run _ _ (sp_tool_dm mm adds wide empty)) as (h3 & E3). eauto 8.
Qed.
