(** Lifetimes: counting the live blocks; allocation, matrices and graphs. *)
From Coq Require Import ZifyBool.
From Verif Require Import Base Lifetime.

(** ** Counting blocks *)
Definition ind (a x : Z) : Z := if a =? x then 1 else 0.
Fixpoint cnt (x : Z) (l : list Z) : Z := match l with [] => 0 | a :: l => ind a x + cnt x l end.
Definition hwf (h : heap) : Prop := (forall x, cnt x (h_live h) <= 1) /\ (forall x, h_next h <= x -> cnt x (h_live h) = 0).
Lemma ind_nn a x : 0 <= ind a x. Proof. unfold ind. destruct (_ =? _); lia. Qed.
Lemma cnt_nn x l : 0 <= cnt x l. Proof. induction l as [|a l IH]; cbn; [lia|]. pose proof (ind_nn a x). lia. Qed.
Lemma cnt_app x l k : cnt x (l ++ k) = cnt x l + cnt x k. Proof. induction l as [|a l IH]; cbn; lia. Qed.
Lemma ind_self a : ind a a = 1. Proof. unfold ind. rewrite Z.eqb_refl. reflexivity. Qed.
Lemma exb_cnt b l : existsb (Z.eqb b) l = true <-> 0 < cnt b l.
Proof. induction l as [|a l IH]; cbn; [lia|]. pose proof (ind_nn a b). pose proof (cnt_nn b l). unfold ind in *. rewrite orb_true_iff, IH. destruct (a =? b) eqn:E, (b =? a) eqn:E'; lia. Qed.
Lemma cnt_remove1 x b l : 0 < cnt b l -> cnt x (remove1 b l) = cnt x l - ind b x.
Proof.
  induction l as [|a l IH]; cbn; [lia|]. destruct (a =? b) eqn:E; cbn; intros H.
  - replace a with b by lia. lia.
  - rewrite IH; [lia|]. unfold ind in H. rewrite E in H. lia.
Qed.

(** ** Specifications: P is what is owned before, Post says what the result is and what is owned after (W) *)
Definition gspec {T} (P : Z -> Z) (f : H T) (Post : T -> (Z -> Z) -> Prop) : Prop :=
  forall h R, hwf h -> (forall x, 0 <= R x) -> (forall x, cnt x (h_live h) = P x + R x) ->
  exists v h' W, f h = Ok (v, h') /\ hwf h' /\ Post v W /\ forall x, cnt x (h_live h') = W x + R x.
(* G is what is known of the result, Q what is owned after *)
Definition spec {T} (P : Z -> Z) (f : H T) (G : T -> Prop) (Q : T -> Z -> Z) : Prop := gspec P f (fun v W => G v /\ forall x, W x = Q v x).
Definition own (l : list Z) : Z -> Z := fun x => cnt x l.
Definition keeps {T} (P : Z -> Z) (f : H T) : Prop := spec P f (fun _ => True) (fun _ => P).

Lemma gspec_ret {T} (v : T) P (Post : T -> (Z -> Z) -> Prop) : Post v P -> gspec P (hret v) Post.
Proof. intros HG h R W HR E. exists v, h, P. auto. Qed.
Lemma spec_ret {T} (v : T) P (G : T -> Prop) Q : G v -> (forall x, P x = Q v x) -> spec P (hret v) G Q.
Proof. intros HG HQ. apply gspec_ret. auto. Qed.
Lemma gspec_gbind {S T} (f : H S) (k : S -> H T) P P1 Post1 Post :
  gspec P1 f Post1 -> (forall x, P1 x <= P x) -> (forall v W, Post1 v W -> gspec (fun x => W x + (P x - P1 x)) (k v) Post) -> gspec P (hbind f k) Post.
Proof.
  intros F L K h R W HR E.
  destruct (F h (fun x => P x - P1 x + R x)) as (v & h' & V & E1 & W1 & G1 & E1'); auto.
  { intros x. specialize (L x). specialize (HR x). lia. }
  { intros x. rewrite E. lia. }
  destruct (K v V G1 h' R) as (w & h2 & V2 & E2 & W2 & G2 & E2'); auto.
  { intros x. rewrite E1'. lia. }
  exists w, h2, V2. unfold hbind. rewrite E1. cbn [bind fst snd]. auto.
Qed.
Lemma gspec_ext {T} (f : H T) P P' Post : gspec P' f Post -> (forall x, P x = P' x) -> gspec P f Post.
Proof. intros F L h R W HR E. apply F; auto. intros x. rewrite E, L. reflexivity. Qed.
Lemma gspec_bind {S T} (f : H S) (k : S -> H T) P P1 G1 Q1 Post :
  spec P1 f G1 Q1 -> (forall x, P1 x <= P x) -> (forall v, G1 v -> gspec (fun x => Q1 v x + (P x - P1 x)) (k v) Post) -> gspec P (hbind f k) Post.
Proof. intros F L K. eapply gspec_gbind; [exact F|exact L|]. intros v W (HG & HW). eapply gspec_ext; [apply K; auto|]. intros x. cbn. rewrite HW. reflexivity. Qed.
Lemma gspec_keep {S T} (f : H S) (k : S -> H T) P P1 Post :
  keeps P1 f -> (forall x, P1 x <= P x) -> (forall v, gspec P (k v) Post) -> gspec P (hbind f k) Post.
Proof. intros F L K. eapply gspec_bind; [exact F|exact L|]. intros v _. eapply gspec_ext; [apply K|]. intros x. cbn. lia. Qed.
Lemma spec_conseq {T} (f : H T) P P1 (G1 G : T -> Prop) Q1 Q :
  spec P1 f G1 Q1 -> (forall x, P1 x <= P x) -> (forall v, G1 v -> G v) -> (forall v, G1 v -> forall x, Q1 v x + (P x - P1 x) = Q v x) -> spec P f G Q.
Proof.
  intros F L HG HQ h R W HR E.
  destruct (F h (fun x => P x - P1 x + R x)) as (v & h' & V & E1 & W1 & (G1' & HV) & E1'); auto.
  { intros x. specialize (L x). specialize (HR x). lia. }
  { intros x. rewrite E. lia. }
  exists v, h', (Q v). repeat split; auto; try apply W1. intros x. rewrite E1', HV. rewrite <- HQ by auto. lia.
Qed.
Lemma gspec_new {T} (k : Z -> H T) P Post : (forall b, gspec (fun x => ind b x + P x) (k b) Post) -> gspec P (hbind new k) Post.
Proof.
  intros K h R W HR E. destruct W as (W1 & W2).
  destruct (K (h_next h) (Heap (h_next h + 1) (h_next h :: h_live h)) R) as (w & h2 & V & E2 & W2' & G2 & E2'); auto.
  - split; cbn; intros x; pose proof (W1 x); pose proof (W2 x); unfold ind; destruct (h_next h =? x) eqn:Ex; lia.
  - intros x. cbn. rewrite E. lia.
  - exists w, h2, V. auto.
Qed.
Lemma use_ok b h : 0 < cnt b (h_live h) -> use b h = Ok (tt, h).
Proof. intros H. unfold use. apply exb_cnt in H. rewrite H. reflexivity. Qed.
Lemma uses_ok l h : (forall x, 0 < cnt x l -> 0 < cnt x (h_live h)) -> uses l h = Ok (tt, h).
Proof.
  induction l as [|b l IH]; intros H; [reflexivity|]. cbn [uses]. unfold hbind. rewrite use_ok.
  - cbn [bind fst snd]. apply IH. intros x Hx. apply H. cbn. pose proof (ind_nn b x). lia.
  - apply H. cbn. rewrite ind_self. pose proof (cnt_nn b l). lia.
Qed.
Lemma gspec_uses {T} l (k : unit -> H T) P Post : (forall x, 0 < cnt x l -> 0 < P x) -> gspec P (k tt) Post -> gspec P (hbind (uses l) k) Post.
Proof.
  intros L K h R W HR E. destruct (K h R W HR E) as (w & h2 & V & E2 & W2 & G2 & E2'). exists w, h2, V. unfold hbind. rewrite uses_ok; auto.
  intros x Hx. rewrite E. specialize (L x Hx). specialize (HR x). lia.
Qed.
Lemma gspec_use {T} b (k : unit -> H T) P Post : (forall x, 0 < ind b x -> 0 < P x) -> gspec P (k tt) Post -> gspec P (hbind (use b) k) Post.
Proof.
  intros L K h R W HR E. destruct (K h R W HR E) as (w & h2 & V & E2 & W2 & G2 & E2'). exists w, h2, V. unfold hbind. rewrite use_ok; auto.
  rewrite E. specialize (L b). specialize (HR b). rewrite ind_self in L. lia.
Qed.
Lemma free_ok b h : hwf h -> 0 < cnt b (h_live h) -> exists h', free b h = Ok (tt, h') /\ hwf h' /\ forall x, cnt x (h_live h') = cnt x (h_live h) - ind b x.
Proof.
  intros (W1 & W2) H. unfold free. pose proof H as H'. apply exb_cnt in H'. rewrite H'. eexists. split; [reflexivity|]. cbn.
  assert (A : forall x, cnt x (remove1 b (h_live h)) = cnt x (h_live h) - ind b x) by (intros; apply cnt_remove1; auto).
  repeat split; auto; intros x; cbn; intros; rewrite A; pose proof (ind_nn b x); pose proof (W1 x).
  - lia.
  - pose proof (W2 x). pose proof (cnt_nn x (remove1 b (h_live h))) as N. rewrite A in N. lia.
Qed.
Lemma gspec_free {T} b (k : unit -> H T) P Post : (forall x, ind b x <= P x) -> gspec (fun x => P x - ind b x) (k tt) Post -> gspec P (hbind (free b) k) Post.
Proof.
  intros L K h R W HR E. destruct (free_ok b h W) as (h' & E1 & W1 & C1).
  { rewrite E. specialize (L b). rewrite ind_self in L. specialize (HR b). lia. }
  destruct (K h' R) as (w & h2 & V & E2 & W2 & G2 & E2'); auto.
  { intros x. rewrite C1, E. lia. }
  exists w, h2, V. unfold hbind. rewrite E1. auto.
Qed.
(* the last statement *)
Lemma gspec_end {T} (f : H T) P Post : gspec P (hbind f hret) Post -> gspec P f Post.
Proof.
  intros K h R W HR E. destruct (K h R W HR E) as (w & h2 & V & E2 & W2). exists w, h2, V. split; auto.
  unfold hbind in E2. destruct (f h) as [[v h']|e]; cbn in E2; [|discriminate]. exact E2.
Qed.
Lemma gspec_frees {T} l (k : unit -> H T) P Post : (forall x, cnt x l <= P x) -> gspec (fun x => P x - cnt x l) (k tt) Post -> gspec P (hbind (frees l) k) Post.
Proof.
  revert P. induction l as [|b l IH]; intros P L K h R W HR E.
  - destruct (K h R) as (w & h2 & V & E2 & W2); auto. { intros x. rewrite E. cbn. lia. } exists w, h2, V. auto.
  - destruct (gspec_free b (fun _ => hbind (frees l) k) P Post) with (h := h) (R := R) as (w & h2 & V & E2 & W2); auto.
    { intros x. specialize (L x). cbn in L. pose proof (cnt_nn x l). lia. }
    { apply IH. { intros x. specialize (L x). cbn in L. lia. }
      intros h0 R0 W0 HR0 E0. apply K; auto. intros x. rewrite E0. cbn. lia. }
    exists w, h2, V. split; auto. rewrite <- E2. cbn [frees]. unfold hbind. destruct (free b h) as [[[] h']|e]; reflexivity.
Qed.

(** ** Tactics *)
Ltac nn := repeat match goal with
  | |- context [ind ?a ?x] => lazymatch goal with _ : 0 <= ind a x |- _ => fail | _ => pose proof (ind_nn a x) end
  | |- context [cnt ?x ?l] => lazymatch goal with _ : 0 <= cnt x l |- _ => fail | _ => pose proof (cnt_nn x l) end
  end.
Ltac red1 := cbv beta; cbn [own csr_blocks trip_blocks dm_blocks fact_blocks lu_blocks olist cnt app
   oc_s oc_p oc_j oc_x ot_s ot_i ot_j ot_x od_s od_p od_q od_r od_c of_s of_U of_q of_L of_p ol_s ol_U ol_q ol_L ol_p fst snd].
Ltac side := intros; try match goal with H : 0 < _ |- _ => revert H end; unfold own; red1; repeat (rewrite cnt_app; red1); nn; lia.
Create HintDb sp.
Ltac st1 := first
  [ apply gspec_new; intros ?
  | apply gspec_use; [side|]
  | apply gspec_uses; [side|]
  | apply gspec_free; [side|]
  | apply gspec_frees; [side|]
  | eapply gspec_keep; [solve [eauto with sp]|side|intros ?]
  | eapply gspec_bind; [solve [eauto with sp]|side|let v := fresh "v" in let g := fresh "g" in intros v g; cbv beta in g] ].
Ltac st := try unfold keeps; try unfold spec; lazymatch goal with
  | |- gspec _ (hret _) (fun v W => _ /\ forall x, W x = _) => apply spec_ret; [try exact I|side]
  | |- gspec _ (hbind _ _) _ => st1
  | |- gspec _ _ _ => apply gspec_end; st1
  end.

(** ** Allocation *)
Lemma sp_news k : spec (own []) (news k) (fun l => length l = k) (fun l => own l).
Proof.
  induction k as [|k IH]; cbn [news]; [st; reflexivity|].
  st. eapply gspec_bind; [exact IH|side|intros l Hl]. apply spec_ret; [cbn; congruence|side].
Qed.
Lemma sp_onew v : spec (own []) (onew v) (fun o => has o = v) (fun o => own (olist o)).
Proof. destruct v; cbn [onew]; repeat st; reflexivity. Qed.
Lemma sp_ofree o : spec (own (olist o)) (ofree o) (fun _ => True) (fun _ => own []).
Proof. destruct o; cbn [ofree]; repeat st. Qed.
Lemma sp_renew b : spec (own [b]) (renew b) (fun _ => True) (fun b => own [b]).
Proof. unfold renew. repeat st. Qed.
#[global] Hint Resolve sp_news sp_onew sp_ofree sp_renew : sp.
Lemma sp_orenew o : spec (own (olist o)) (orenew o) (fun o' => has o' = has o) (fun o => own (olist o)).
Proof. destruct o; cbn [orenew]; repeat st; reflexivity. Qed.
#[global] Hint Resolve sp_orenew : sp.
Lemma sp_csr_alloc v : spec (own []) (o_csr_alloc v) (fun A => has (oc_x A) = v) (fun A => own (csr_blocks A)).
Proof. unfold o_csr_alloc. repeat st. assumption. Qed.
Lemma sp_triplet_alloc v : spec (own []) (o_triplet_alloc v) (fun A => has (ot_x A) = v) (fun A => own (trip_blocks A)).
Proof. unfold o_triplet_alloc. repeat st. assumption. Qed.
Lemma sp_csr_realloc A : spec (own (csr_blocks A)) (o_csr_realloc A) (fun B => oc_s B = oc_s A /\ oc_p B = oc_p A /\ has (oc_x B) = has (oc_x A)) (fun A => own (csr_blocks A)).
Proof. unfold o_csr_realloc. repeat st. auto. Qed.
Lemma sp_triplet_realloc A : spec (own (trip_blocks A)) (o_triplet_realloc A) (fun B => has (ot_x B) = has (ot_x A)) (fun A => own (trip_blocks A)).
Proof. unfold o_triplet_realloc. repeat st. auto. Qed.
Lemma sp_csr_free A : spec (own (csr_blocks A)) (o_csr_free A) (fun _ => True) (fun _ => own []).
Proof. unfold o_csr_free. repeat st. Qed.
Lemma sp_triplet_free A : spec (own (trip_blocks A)) (o_triplet_free A) (fun _ => True) (fun _ => own []).
Proof. unfold o_triplet_free. repeat st. Qed.
Lemma sp_csr_resize A : spec (own (csr_blocks A)) (o_csr_resize A) (fun B => oc_s B = oc_s A) (fun A => own (csr_blocks A)).
Proof. unfold o_csr_resize. repeat st. auto. Qed.
Lemma sp_dm_alloc : spec (own []) o_dm_alloc (fun _ => True) (fun A => own (dm_blocks A)).
Proof. unfold o_dm_alloc. repeat st. Qed.
Lemma sp_dm_free A : spec (own (dm_blocks A)) (o_dm_free A) (fun _ => True) (fun _ => own []).
Proof. unfold o_dm_free. repeat st. Qed.
Lemma kp_csr A : keeps (own (csr_blocks A)) (use_csr A).
Proof. unfold use_csr. repeat st. Qed.
Lemma kp_trip A : keeps (own (trip_blocks A)) (use_trip A).
Proof. unfold use_trip. repeat st. Qed.
Lemma kp_fact A : keeps (own (fact_blocks A)) (use_fact A).
Proof. unfold use_fact. repeat st. Qed.
Lemma kp_lu A : keeps (own (lu_blocks A)) (use_lu A).
Proof. unfold use_lu. repeat st. Qed.
#[global] Hint Resolve sp_csr_alloc sp_triplet_alloc sp_csr_realloc sp_triplet_realloc sp_csr_free sp_triplet_free sp_csr_resize sp_dm_alloc sp_dm_free kp_csr kp_trip kp_fact kp_lu : sp.

(** ** Matrices *)
Lemma sp_add_entry big T : spec (own (trip_blocks T)) (o_add_entry big T) (fun B => has (ot_x B) = has (ot_x T)) (fun A => own (trip_blocks A)).
Proof.
  unfold o_add_entry. eapply gspec_bind with (G1 := fun B => has (ot_x B) = has (ot_x T)) (Q1 := fun A => own (trip_blocks A)) (P1 := own (trip_blocks T)); [|side|].
  - destruct big; repeat st; auto.
  - intros B HB. repeat st. auto.
Qed.
Lemma sp_deduplicate A : spec (own (csr_blocks A)) (o_deduplicate A) (fun B => has (oc_x B) = has (oc_x A)) (fun A => own (csr_blocks A)).
Proof. unfold o_deduplicate. repeat st. tauto. Qed.
Lemma sp_zeroes A : spec (own (csr_blocks A)) (o_remove_explicit_zeroes A) (fun B => has (oc_x B) = has (oc_x A)) (fun A => own (csr_blocks A)).
Proof. unfold o_remove_explicit_zeroes. st. destruct (oc_x A) eqn:E; repeat st; rewrite ?E in *; tauto || auto. Qed.
#[global] Hint Resolve sp_add_entry sp_deduplicate sp_zeroes : sp.
Lemma sp_compress T : spec (own (trip_blocks T)) (o_compress T) (fun C => has (oc_x C) = has (ot_x T)) (fun C x => cnt x (trip_blocks T) + cnt x (csr_blocks C)).
Proof. unfold o_compress. repeat st. congruence. Qed.
Lemma sp_transpose C keep : spec (own (csr_blocks C)) (o_transpose C keep) (fun T => has (oc_x T) = keep && has (oc_x C)) (fun T x => cnt x (csr_blocks C) + cnt x (csr_blocks T)).
Proof. unfold o_transpose. repeat st. congruence. Qed.
Lemma sp_pinv p : spec (own [p]) (o_pinv p) (fun _ => True) (fun q => own [p; q]).
Proof. unfold o_pinv. repeat st. Qed.
Lemma sp_permute A p q v : spec (own (p :: q :: csr_blocks A)) (o_permute A p q v) (fun T => has (oc_x T) = v && has (oc_x A)) (fun C x => cnt x (p :: q :: csr_blocks A) + cnt x (csr_blocks C)).
Proof. unfold o_permute. repeat st. congruence. Qed.
Lemma sp_submatrix A v : spec (own (csr_blocks A)) (o_submatrix A v) (fun T => has (oc_x T) = has (oc_x A) && v) (fun C x => cnt x (csr_blocks A) + cnt x (csr_blocks C)).
Proof. unfold o_submatrix. repeat st. intuition congruence. Qed.
#[global] Hint Resolve sp_compress sp_transpose sp_pinv sp_permute sp_submatrix : sp.

(** ** Graphs *)
Lemma sp_matching A p q : keeps (own (p :: q :: csr_blocks A)) (o_maximum_matching A p q).
Proof. unfold o_maximum_matching. repeat st. Qed.
#[global] Hint Resolve sp_matching : sp.
(* l is lost *)
Definition leaves {T} (Q : T -> list Z) (n : nat) (v : T) (W : Z -> Z) : Prop := exists l, length l = n /\ forall x, W x = cnt x (Q v) + cnt x l.
(* prev is lost *)
Lemma sp_scc A : gspec (own (csr_blocks A)) (o_scc A) (leaves (fun P => csr_blocks A ++ dm_blocks P) 1).
Proof. unfold o_scc. do 4 st. apply gspec_new. intros prev. repeat st. apply gspec_ret. exists [prev]. split; [reflexivity|side]. Qed.
(* jmatch, imatch, and for the fine decomposition qinv and the block lost above are lost *)
Lemma sp_dm A wide empty : gspec (own (csr_blocks A)) (o_dulmage_mendelsohn A wide empty) (leaves (fun P => csr_blocks A ++ dm_blocks P) (if empty then 2 else 4)).
Proof.
  unfold o_dulmage_mendelsohn. apply gspec_new. intros jmatch. apply gspec_new. intros imatch. st.
  eapply gspec_keep with (P1 := own (jmatch :: imatch :: csr_blocks A ++ csr_blocks v)); [|side|intros _].
  { destruct wide; repeat st. }
  do 6 st. destruct empty; [apply gspec_ret; exists [jmatch; imatch]; split; [reflexivity|side]|].
  eapply gspec_bind; [apply sp_pinv|side|intros qinv _]. do 3 st.
  eapply gspec_gbind; [apply sp_scc|side|]. intros SCC W (l & Hl & HW). destruct l as [|prev [|? ?]]; try discriminate Hl.
  eapply gspec_ext; [|intros x; cbv beta; rewrite HW; reflexivity].
  repeat st. apply gspec_ret. exists [jmatch; imatch; qinv; prev]. split; [reflexivity|side].
Qed.
