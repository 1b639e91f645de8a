(** The parts found by the Dulmage-Mendelsohn decomposition do not depend on the matching it starts from. *)
From Coq Require Import Relation_Operators Operators_Properties.
From Verif Require Import Base BaseFacts Spec SpecFacts Mat MatFacts SpecMatch Counting MatchProofs SpecTools SpecParts SpecScc SpecDm RowList GpluProofs Scc Dm DmMain.

(** ** Paths *)
(* x followed by l is a path of the relation E *)
Fixpoint chain (E : Z -> Z -> Prop) (x : Z) (l : list Z) : Prop :=
  match l with [] => True | z :: l => E x z /\ chain E z l end.
Lemma chain_suffix E l1 : forall x z l2, chain E x (l1 ++ z :: l2) -> chain E z l2.
Proof. induction l1 as [|y l1 IH]; intros x z l2; cbn [app chain]; [tauto|]. intros [_ H]. eapply IH; eauto. Qed.
Lemma last_cons (l : list Z) : forall z d, last (z :: l) d = last l z.
Proof. induction l as [|w l IH]; intros z d; [reflexivity|]. change (last (z :: w :: l) d) with (last (w :: l) d). now rewrite !IH. Qed.
Lemma last_suffix (l1 : list Z) z l2 d : last (l1 ++ z :: l2) d = last l2 z.
Proof.
  induction l1 as [|y l1 IH]; cbn [app]; [apply last_cons|]. rewrite <- IH. destruct (l1 ++ z :: l2) eqn:H; [|reflexivity]. destruct l1; discriminate.
Qed.
Lemma simple_path E x y : clos_refl_trans Z E x y -> exists l, NoDup (x :: l) /\ chain E x l /\ last l x = y.
Proof.
  intros H. apply clos_rt_rt1n in H. induction H as [x|x z y Exz _ (l & N & C & L)].
  - exists []. split; [repeat constructor; auto|]. split; [exact I|reflexivity].
  - destruct (in_dec Z.eq_dec x (z :: l)) as [Hin|Hout].
    + destruct Hin as [->|Hin]; [exists l; auto|]. apply in_split in Hin as (l1 & l2 & ->). exists l2. split; [|split].
      * apply NoDup_cons_iff in N as [_ N]. clear -N. induction l1 as [|w l1 IH]; [exact N|]. apply IH. now apply NoDup_cons_iff in N.
      * eapply chain_suffix; eauto.
      * now rewrite last_suffix in L.
    + exists (z :: l). split; [now constructor|]. split; [split; auto|].
      change (z :: l) with ([] ++ z :: l). now rewrite last_suffix.
Qed.

(** ** Exchanges along a path *)
(* the node before v on the path x, l; v itself if it is not there *)
Fixpoint before (x : Z) (l : list Z) (v : Z) : Z :=
  match l with [] => v | z :: l => if v =? z then x else before z l v end.
Lemma before_out l : forall x v, ~ In v l -> before x l v = v.
Proof. induction l as [|z l IH]; intros x v H; cbn [before]; [auto|]. cbn [In] in H. destruct (Z.eqb_spec v z) as [->|]; [tauto|]. apply IH. tauto. Qed.
Lemma before_in l : forall x v, In v l -> In (before x l v) (removelast (x :: l)).
Proof.
  induction l as [|z l IH]; intros x v H; [destruct H|]. cbn [before]. change (removelast (x :: z :: l)) with (x :: removelast (z :: l)).
  destruct (Z.eqb_spec v z) as [->|N]; [now left|]. right. apply IH. destruct H; [congruence|auto].
Qed.
Lemma before_inj l : forall x u v, NoDup (removelast (x :: l)) -> In u l -> In v l -> before x l u = before x l v -> u = v.
Proof.
  induction l as [|z l IH]; intros x u v N Hu Hv E; [destruct Hu|]. change (removelast (x :: z :: l)) with (x :: removelast (z :: l)) in N.
  apply NoDup_cons_iff in N as [N1 N2]. cbn [before] in E. destruct (Z.eqb_spec u z) as [->|Nu], (Z.eqb_spec v z) as [->|Nv]; auto.
  - destruct Hv as [?|Hv]; [congruence|]. exfalso. apply N1. rewrite E. now apply before_in.
  - destruct Hu as [?|Hu]; [congruence|]. exfalso. apply N1. rewrite <- E. now apply before_in.
  - destruct Hu as [?|Hu]; [congruence|]. destruct Hv as [?|Hv]; [congruence|]. eapply IH; eauto.
Qed.
Lemma before_chain E l : forall x v, chain E x l -> In v l -> E (before x l v) v.
Proof.
  induction l as [|z l IH]; intros x v C H; [destruct H|]. destruct C as [C1 C2]. cbn [before]. destruct (Z.eqb_spec v z) as [->|N]; [auto|]. apply IH; auto. destruct H; [congruence|auto].
Qed.
Lemma In_removelast (l : list Z) v : In v (removelast l) -> In v l.
Proof. induction l as [|a l IH]; [auto|]. destruct l as [|b l]; [intros []|]. intros [->|H]; [now left|]. right. now apply IH. Qed.
Lemma NoDup_removelast (l : list Z) : NoDup l -> NoDup (removelast l).
Proof.
  induction l as [|a l IH]; [auto|]. intros N. apply NoDup_cons_iff in N as [N1 N2]. destruct l as [|b l]; [constructor|]. change (removelast (a :: b :: l)) with (a :: removelast (b :: l)).
  constructor; auto. intros H. apply N1. now apply In_removelast.
Qed.
Lemma last_not_removelast (l : list Z) d : NoDup l -> l <> [] -> ~ In (last l d) (removelast l).
Proof.
  intros N H. rewrite (app_removelast_last d H) in N. apply NoDup_remove_2 in N. rewrite app_nil_r in N. exact N.
Qed.

Section Exchange.
Variables (n m : Z) (R : Z -> Z -> Prop).

Lemma NoDup_map_pair (f : Z -> Z) (l : list (Z * Z)) : NoDup (map fst l) -> (forall u v, In u (map fst l) -> In v (map fst l) -> f u = f v -> u = v) ->
  NoDup (map fst (map (fun '(i, j) => (f i, j)) l)).
Proof.
  intros N H. assert (E : map fst (map (fun '(i, j) => (f i, j)) l) = map f (map fst l)) by (rewrite !map_map; apply map_ext; now intros []).
  rewrite E. apply NoDup_map_in; auto.
Qed.
(* moving the entries of a transversal to other rows *)
Lemma transversal_move f l : transversal n m R l -> (forall u v, In u (map fst l) -> In v (map fst l) -> f u = f v -> u = v) ->
  (forall i j, In (i, j) l -> 0 <= f i < n /\ R (f i) j) -> transversal n m R (map (fun '(i, j) => (f i, j)) l).
Proof.
  intros (T1 & T2 & T3) Hi Hr. split; [now apply NoDup_map_pair|]. split.
  - rewrite map_map. erewrite map_ext; [exact T2|]. now intros [].
  - rewrite Forall_forall in *. intros [a b] H. apply in_map_iff in H as ([i j] & E & H). injection E as <- <-. destruct (Hr i j H). specialize (T3 _ H). cbn in T3. tauto.
Qed.
Lemma largest_same l l' : largest n m R l -> transversal n m R l' -> len l' = len l -> largest n m R l'.
Proof. intros [T M] T' E. split; auto. intros k K. rewrite E. auto. Qed.

(* the entry of row u in the column of row v *)
Definition moves (l : list (Z * Z)) (u v : Z) : Prop := 0 <= u < n /\ exists j, R u j /\ In (v, j) l.
Lemma pair_fun (l : list (Z * Z)) v j j' : NoDup (map fst l) -> In (v, j) l -> In (v, j') l -> j = j'.
Proof.
  induction l as [|[a b] l IH]; intros N H H'; [destruct H|]. cbn [map fst] in N. apply NoDup_cons_iff in N as [N1 N2]. destruct H as [H|H], H' as [H'|H'].
  - congruence.
  - injection H as <- <-. exfalso. apply N1. now apply (in_map fst) in H'.
  - injection H' as <- <-. exfalso. apply N1. now apply (in_map fst) in H.
  - eauto.
Qed.
Lemma pair_fun2 (l : list (Z * Z)) v j j' : NoDup (map snd l) -> In (j, v) l -> In (j', v) l -> j = j'.
Proof.
  induction l as [|[a b] l IH]; intros N H H'; [destruct H|]. cbn [map snd] in N. apply NoDup_cons_iff in N as [N1 N2]. destruct H as [H|H], H' as [H'|H'].
  - congruence.
  - injection H as <- <-. exfalso. apply N1. now apply (in_map snd) in H'.
  - injection H' as <- <-. exfalso. apply N1. now apply (in_map snd) in H.
  - eauto.
Qed.
Lemma move_ok x l w : transversal n m R l -> chain (moves l) x w ->
  forall i j, In (i, j) l -> 0 <= before x w i < n /\ R (before x w i) j.
Proof.
  intros (T1 & T2 & T3) C i j H. destruct (in_dec Z.eq_dec i w) as [Hi|Hi].
  - destruct (before_chain _ _ _ _ C Hi) as (B1 & j' & B2 & B3). rewrite (pair_fun l i j j' T1 H B3). auto.
  - rewrite before_out by auto. rewrite Forall_forall in T3. specialize (T3 _ H). cbn in T3. tauto.
Qed.
Lemma len_moved (f : Z -> Z) (l : list (Z * Z)) : len (map (fun '(i, j) => (f i, j)) l) = len l.
Proof. unfold len. now rewrite map_length. Qed.
Lemma miss_moves l x y : largest n m R l -> ~ In x (map fst l) -> clos_refl_trans Z (moves l) x y ->
  exists l', largest n m R l' /\ ~ In y (map fst l').
Proof.
  intros [T M] Hx H. destruct (simple_path _ _ _ H) as (w & N & C & L).
  set (l' := map (fun '(i, j) => (before x w i, j)) l).
  assert (T' : transversal n m R l').
  { apply transversal_move; auto; [|now apply move_ok]. intros u v Hu Hv E. apply NoDup_cons_iff in N as [Nx Nw].
    destruct (in_dec Z.eq_dec u w) as [Iu|Iu], (in_dec Z.eq_dec v w) as [Iv|Iv].
    - apply (before_inj w x); auto. apply (NoDup_removelast (x :: w)). now constructor.
    - rewrite (before_out w x v Iv) in E. pose proof (before_in w x u Iu) as B. rewrite E in B. apply In_removelast in B. destruct B as [->|B]; tauto.
    - rewrite (before_out w x u Iu) in E. pose proof (before_in w x v Iv) as B. rewrite <- E in B. apply In_removelast in B. destruct B as [->|B]; tauto.
    - rewrite !before_out in E by auto. auto. }
  exists l'. split; [apply (largest_same l); auto; [split; auto|apply len_moved]|]. intros Hy. unfold l' in Hy. rewrite map_map in Hy. apply in_map_iff in Hy as ([i j] & E & Hi). cbn [fst] in E.
  destruct (in_dec Z.eq_dec i w) as [Iw|Iw].
  - pose proof (before_in w x i Iw) as B. rewrite E, <- L in B. destruct w as [|z w]; [destruct Iw|].
    revert B. replace (last (z :: w) x) with (last (x :: z :: w) x) by reflexivity. apply last_not_removelast; [auto|discriminate].
  - rewrite before_out in E by auto. subst i. destruct w as [|z w].
    + cbn [last] in L. subst y. apply Hx. now apply (in_map fst) in Hi.
    + apply Iw. rewrite <- L. assert (G : forall (a : list Z) d, a <> [] -> In (last a d) a). { intros a d Ha. rewrite (app_removelast_last d Ha) at 2. apply in_or_app. right. now left. } apply G. discriminate.
Qed.
Lemma use_moves l x y j : largest n m R l -> 0 <= x < n -> R x j -> In (y, j) l -> clos_refl_trans Z (moves l) y x ->
  exists l', largest n m R l' /\ In (x, j) l'.
Proof.
  intros [T M] Hx Rx Hy H. destruct (simple_path _ _ _ H) as (w & N & C & L).
  assert (C' : chain (moves l) x (y :: w)). { split; [|auto]. split; [auto|]. exists j. auto. }
  set (l' := map (fun '(i, j) => (before x (y :: w) i, j)) l).
  assert (Ix : In x (y :: w)). { rewrite <- L. replace (last w y) with (last (y :: w) y) by (change (y :: w) with ([] ++ y :: w) at 1; apply last_suffix). rewrite (app_removelast_last y (l := y :: w)) at 2 by discriminate. apply in_or_app. right. now left. }
  assert (Nr : NoDup (removelast (x :: y :: w))).
  { change (removelast (x :: y :: w)) with (x :: removelast (y :: w)). constructor; [|now apply NoDup_removelast]. intros B. rewrite <- L in B. revert B.
    replace (last w y) with (last (y :: w) y) by (change (y :: w) with ([] ++ y :: w) at 1; apply last_suffix). apply last_not_removelast; [auto|discriminate]. }
  assert (Sub : forall v, In v (removelast (x :: y :: w)) -> In v (y :: w)). { intros v Hv. apply In_removelast in Hv. destruct Hv as [<-|Hv]; auto. }
  assert (T' : transversal n m R l').
  { apply transversal_move; auto; [|now apply move_ok]. intros u v Hu Hv E.
    destruct (in_dec Z.eq_dec u (y :: w)) as [Iu|Iu], (in_dec Z.eq_dec v (y :: w)) as [Iv|Iv].
    - apply (before_inj (y :: w) x); auto.
    - exfalso. rewrite (before_out (y :: w) x v Iv) in E. apply Iv, Sub. rewrite <- E. now apply before_in.
    - exfalso. rewrite (before_out (y :: w) x u Iu) in E. apply Iu, Sub. rewrite E. now apply before_in.
    - rewrite !before_out in E by auto. auto. }
  exists l'. split; [apply (largest_same l); auto; [split; auto|apply len_moved]|]. unfold l'. apply in_map_iff. exists (y, j). split; auto. cbn [before]. now rewrite Z.eqb_refl.
Qed.
End Exchange.

(** ** A matrix in block form *)
Lemma fills (l : list Z) lo hi : lo <= hi -> NoDup l -> (forall k, In k l -> lo <= k < hi) -> hi - lo <= len l -> forall k, lo <= k < hi -> In k l.
Proof.
  intros H N Hr Hl k Hk. assert (I : incl (zseq lo hi) l); [|apply I, In_zseq; auto]. apply NoDup_length_incl; auto.
  - pose proof (len_zseq lo hi) as E. unfold len in *. lia.
  - intros x Hx. apply In_zseq. auto.
Qed.
Lemma NoDup_map_filter {X} (f : X -> Z) (b : X -> bool) l : NoDup (map f l) -> NoDup (map f (filter b l)).
Proof.
  induction l as [|x l IH]; [auto|]. cbn [map filter]. intros N. apply NoDup_cons_iff in N as [N1 N2]. destruct (b x); [|auto]. cbn [map]. constructor; auto.
  intros H. apply N1. apply in_map_iff in H as (y & <- & Hy). apply filter_In in Hy as [Hy _]. now apply in_map.
Qed.
Lemma fits (l : list Z) lo hi : lo <= hi -> NoDup l -> (forall k, In k l -> lo <= k < hi) -> len l <= hi - lo.
Proof.
  intros H N Hr. pose proof (len_zseq lo hi) as E. unfold len in *. assert (length l <= length (zseq lo hi))%nat; [|lia]. apply NoDup_incl_length; auto. intros k Hk. apply In_zseq. auto.
Qed.
Lemma len_split {X} (b : X -> bool) l : len l = len (filter b l) + len (filter (fun x => negb (b x)) l).
Proof. induction l as [|x l IH]; [reflexivity|]. unfold len in *. cbn [filter]. destruct (b x); cbn [negb length]; lia. Qed.

Section Block.
Variables (n m : Z) (R : Z -> Z -> Prop) (r1 r2 r3 c1 : Z).
Hypothesis Hr : 0 <= r1 /\ r1 <= r2 /\ r2 <= r3 /\ r3 <= n.
Hypothesis Hc : 0 <= c1 /\ m = c1 + r3.
Hypothesis diag : forall a, 0 <= a < r3 -> R a (c1 + a).
Hypothesis tri2 : forall a b, r1 <= a < n -> 0 <= b < m -> R a b -> c1 + r1 <= b.
Hypothesis tri3 : forall a b, r2 <= a < n -> 0 <= b < m -> R a b -> c1 + r2 <= b.

Lemma In_fst (l : list (Z * Z)) a : In a (map fst l) <-> exists b, In (a, b) l.
Proof. rewrite in_map_iff. split; [intros ([x y] & <- & H); eauto|intros (b & H); exists (a, b); auto]. Qed.
Lemma In_snd (l : list (Z * Z)) b : In b (map snd l) <-> exists a, In (a, b) l.
Proof. rewrite in_map_iff. split; [intros ([x y] & <- & H); eauto|intros (a & H); exists (a, b); auto]. Qed.

Definition diagonal : list (Z * Z) := map (fun a => (a, c1 + a)) (zseq 0 r3).
Lemma diagonal_in a b : In (a, b) diagonal <-> 0 <= a < r3 /\ b = c1 + a.
Proof. unfold diagonal. rewrite in_map_iff. split; [intros (x & E & H); injection E as <- <-; apply In_zseq in H; auto|]. intros [H ->]. exists a. split; [auto|now apply In_zseq]. Qed.
Lemma diagonal_ok : transversal n m R diagonal.
Proof.
  split; [|split].
  - unfold diagonal. rewrite map_map. cbn [fst]. rewrite map_id. apply NoDup_zseq.
  - unfold diagonal. rewrite map_map. cbn [snd]. apply NoDup_map_in; [apply NoDup_zseq|]. intros. lia.
  - apply Forall_forall. intros [a b] H. apply diagonal_in in H as [H ->]. split; [lia|]. split; [lia|auto].
Qed.
Lemma len_diagonal : len diagonal = r3.
Proof. unfold len, diagonal. rewrite map_length. fold (len (zseq 0 r3)). rewrite len_zseq. lia. Qed.

Lemma block_form l : transversal n m R l ->
  len l <= r3 /\ (r3 <= len l ->
  (forall a, 0 <= a < r2 -> In a (map fst l)) /\
  (forall b, c1 + r1 <= b < m -> In b (map snd l)) /\
  (forall a b, In (a, b) l -> r1 <= a < r2 <-> c1 + r1 <= b < c1 + r2)).
Proof.
  intros (T1 & T2 & T3). rewrite Forall_forall in T3.
  assert (T : forall a b, In (a, b) l -> 0 <= a < n /\ 0 <= b < m /\ R a b) by (intros a b H; apply (T3 _ H)). clear T3.
  set (hi := filter (fun x => r2 <=? fst x) l). set (lo := filter (fun x => negb (r2 <=? fst x)) l).
  assert (E : len l = len hi + len lo) by apply len_split.
  assert (Hhi : forall a b, In (a, b) hi <-> In (a, b) l /\ r2 <= a) by (intros; unfold hi; rewrite filter_In; cbn [fst]; split; intros []; split; auto; lia).
  assert (Hlo : forall a b, In (a, b) lo <-> In (a, b) l /\ a < r2) by (intros; unfold lo; rewrite filter_In; cbn [fst]; split; intros []; split; auto; lia).
  assert (Chi : forall b, In b (map snd hi) -> c1 + r2 <= b < m). { intros b Hb. apply In_snd in Hb as (a & Hb). apply Hhi in Hb as [Hb1 Hb2]. destruct (T a b Hb1) as (? & ? & ?). split; [|lia]. apply (tri3 a b); auto. lia. }
  assert (Clo : forall a, In a (map fst lo) -> 0 <= a < r2). { intros a Ha. apply In_fst in Ha as (b & Hb). apply Hlo in Hb as [Hb1 Hb2]. destruct (T a b Hb1) as (? & ? & ?). lia. }
  assert (Nhi : NoDup (map snd hi)) by now apply NoDup_map_filter. assert (Nlo : NoDup (map fst lo)) by now apply NoDup_map_filter.
  assert (L1 : len (map snd hi) = len hi) by (unfold len; now rewrite map_length). assert (L2 : len (map fst lo) = len lo) by (unfold len; now rewrite map_length).
  pose proof (fits (map snd hi) (c1 + r2) m ltac:(lia) Nhi Chi) as F1. pose proof (fits (map fst lo) 0 r2 ltac:(lia) Nlo Clo) as F2.
  split; [lia|]. intros HL.
  assert (A1 : forall a, 0 <= a < r2 -> exists b, In (a, b) l). { intros a Ha. pose proof (fills (map fst lo) 0 r2 ltac:(lia) Nlo Clo ltac:(lia) a Ha) as H. apply In_fst in H as (b & H). apply Hlo in H as [H _]. eauto. }
  assert (A2 : forall b, c1 + r2 <= b < m -> exists a, In (a, b) l /\ r2 <= a). { intros b Hb. pose proof (fills (map snd hi) (c1 + r2) m ltac:(lia) Nhi Chi ltac:(lia) b Hb) as H. apply In_snd in H as (a & H). apply Hhi in H. eauto. }
  assert (A3 : forall a b, In (a, b) l -> r1 <= a < r2 -> c1 + r1 <= b < c1 + r2).
  { intros a b H Ha. destruct (T a b H) as (? & ? & Hab). split; [apply (tri2 a b); auto; lia|]. destruct (Z_lt_le_dec b (c1 + r2)); [auto|]. destruct (A2 b ltac:(lia)) as (a' & H' & ?). pose proof (pair_fun2 l b a a' T2 H H'). lia. }
  set (mid := filter (fun x => (r1 <=? fst x) && (fst x <? r2)) l).
  assert (Hmid : forall a b, In (a, b) mid <-> In (a, b) l /\ r1 <= a < r2) by (intros; unfold mid; rewrite filter_In; cbn [fst]; split; intros []; split; auto; lia).
  assert (Nm1 : NoDup (map fst mid)) by now apply NoDup_map_filter. assert (Nm2 : NoDup (map snd mid)) by now apply NoDup_map_filter.
  assert (Lm : r2 - r1 <= len mid).
  { replace (len mid) with (len (map fst mid)) by (unfold len; now rewrite map_length). pose proof (len_zseq r1 r2) as Z1. unfold len in *. assert (length (zseq r1 r2) <= length (map fst mid))%nat; [|lia].
    apply NoDup_incl_length; [apply NoDup_zseq|]. intros a Ha. apply In_zseq in Ha. destruct (A1 a ltac:(lia)) as (b & H). apply In_fst. exists b. apply Hmid. auto. }
  assert (A4 : forall b, c1 + r1 <= b < c1 + r2 -> exists a, In (a, b) l /\ r1 <= a < r2).
  { intros b Hb. assert (H : In b (map snd mid)). { apply (fills (map snd mid) (c1 + r1) (c1 + r2)); auto; [lia| |unfold len in *; rewrite map_length; lia]. intros k Hk. apply In_snd in Hk as (a & Hk). apply Hmid in Hk as [Hk1 Hk2]. apply (A3 a); auto. }
    apply In_snd in H as (a & H). apply Hmid in H. eauto. }
  split; [|split].
  - intros a Ha. apply In_fst. auto.
  - intros b Hb. apply In_snd. destruct (Z_lt_le_dec b (c1 + r2)); [destruct (A4 b ltac:(lia)) as (a & H & _)|destruct (A2 b ltac:(lia)) as (a & H & _)]; eauto.
  - intros a b H. split; [now apply A3|]. intros Hb. destruct (A4 b Hb) as (a' & H' & Ha'). now rewrite (pair_fun2 l b a a' T2 H H').
Qed.
Lemma diagonal_largest : largest n m R diagonal.
Proof. split; [apply diagonal_ok|]. intros l' T. rewrite len_diagonal. now apply block_form. Qed.
Lemma largest_form l : largest n m R l ->
  (forall a, 0 <= a < r2 -> In a (map fst l)) /\ (forall b, c1 + r1 <= b < m -> In b (map snd l)) /\
  (forall a b, In (a, b) l -> r1 <= a < r2 <-> c1 + r1 <= b < c1 + r2).
Proof. intros [T M]. apply block_form; auto. rewrite <- len_diagonal. apply M, diagonal_ok. Qed.
Lemma missed_row_hi a : missed_row n m R a -> r2 <= a.
Proof. intros (Ha & l & Hl & N). destruct (Z_lt_le_dec a r2); [|auto]. exfalso. apply N. apply (largest_form l Hl). lia. Qed.
Lemma missed_col_lo b : missed_col n m R b -> b < c1 + r1.
Proof. intros (Hb & l & Hl & N). destruct (Z_lt_le_dec b (c1 + r1)); [auto|]. exfalso. apply N. apply (largest_form l Hl). lia. Qed.

(** ** The square part *)
(* positions 0, ..., r2 - r1 - 1 *)
Definition sedge (x y : Z) : Prop := 0 <= x < r2 - r1 /\ 0 <= y < r2 - r1 /\ R (r1 + x) (c1 + r1 + y).
Notation sreach := (clos_refl_trans Z sedge).

(* iterating an injective map leads back to the start *)
Fixpoint iter (k : nat) (f : Z -> Z) (x : Z) : Z := match k with O => x | S k => iter k f (f x) end.
Lemma iter_plus f k : forall j x, iter (k + j) f x = iter j f (iter k f x).
Proof. induction k as [|k IH]; intros j x; cbn [iter Nat.add]; [auto|apply IH]. Qed.
Lemma iter_comm f k : forall x, iter k f (f x) = f (iter k f x).
Proof. induction k as [|k IH]; intros x; cbn [iter]; [auto|]. now rewrite IH. Qed.
Lemma comes_back s f x : (forall u, 0 <= u < s -> 0 <= f u < s) -> (forall u v, 0 <= u < s -> 0 <= v < s -> f u = f v -> u = v) -> 0 <= x < s ->
  exists k, iter k f (f x) = x.
Proof.
  intros Hf Hi Hx. assert (HI : forall k u, 0 <= u < s -> 0 <= iter k f u < s) by (induction k as [|k IH]; intros u Hu; cbn [iter]; auto).
  assert (Hii : forall k u v, 0 <= u < s -> 0 <= v < s -> iter k f u = iter k f v -> u = v). { induction k as [|k IH]; intros u v Hu Hv E; cbn [iter] in E; auto. }
  destruct (in_dec Z.eq_dec x (map (fun k => iter k f (f x)) (seq 0 (Z.to_nat s)))) as [H|H]; [apply in_map_iff in H as (k & H & _); eauto|]. exfalso.
  assert (N : NoDup (x :: map (fun k => iter k f (f x)) (seq 0 (Z.to_nat s)))).
  { constructor; auto. apply NoDup_map_in; [apply seq_NoDup|].
    assert (G : forall a b, (a < b)%nat -> In b (seq 0 (Z.to_nat s)) -> iter a f (f x) = iter b f (f x) -> False).
    { intros a b Hab Hb E. replace b with ((b - a) + a)%nat in E by lia. rewrite iter_plus in E. apply Hii in E; auto. rewrite iter_comm in E. apply Hi in E; auto.
      apply H. destruct (b - a)%nat as [|t] eqn:D; [lia|]. cbn [iter] in E. apply in_map_iff. exists t. split; [auto|]. apply in_seq in Hb. apply in_seq. lia. }
    intros a b Ha Hb E. destruct (Nat.lt_trichotomy a b) as [L|[->|L]]; [exfalso; eauto|auto|exfalso; symmetry in E; eauto]. }
  assert (F := fits _ 0 s ltac:(lia) N). unfold len in F. cbn [length] in F. rewrite map_length, seq_length in F. assert (Z.of_nat (S (Z.to_nat s)) <= s - 0); [|lia]. apply F.
  intros k [<-|Hk]; [auto|]. apply in_map_iff in Hk as (t & <- & _). auto.
Qed.
(* an entry of a largest transversal links its row and its column *)
Lemma usable_strong a b : usable n m R a b -> r1 <= a < r2 -> c1 + r1 <= b < c1 + r2 /\ sreach (a - r1) (b - c1 - r1) /\ sreach (b - c1 - r1) (a - r1).
Proof.
  intros (l & Hl & Hab) Ha. destruct (largest_form l Hl) as (F1 & F2 & F3). destruct Hl as [(T1 & T2 & T3) _]. rewrite Forall_forall in T3.
  assert (Hb : c1 + r1 <= b < c1 + r2) by now apply (F3 a). split; [auto|].
  set (f := fun u => match find (fun x => fst x =? r1 + u) l with Some (_, b) => b - c1 - r1 | None => 0 end).
  assert (Hf : forall u, 0 <= u < r2 - r1 -> In (r1 + u, c1 + r1 + f u) l).
  { intros u Hu. pose proof (F1 (r1 + u) ltac:(lia)) as I. apply In_fst in I as (b' & I). unfold f. destruct (find (fun x => fst x =? r1 + u) l) as [[a' b'']|] eqn:E.
    - apply find_some in E as [E1 E2]. cbn [fst] in E2. apply Z.eqb_eq in E2. subst a'. now replace (c1 + r1 + (b'' - c1 - r1)) with b'' by lia.
    - exfalso. apply (find_none _ _ E) in I. cbn [fst] in I. lia. }
  assert (Hf1 : forall u, 0 <= u < r2 - r1 -> 0 <= f u < r2 - r1). { intros u Hu. specialize (Hf u Hu). apply F3 in Hf. lia. }
  assert (He : forall u, 0 <= u < r2 - r1 -> sedge u (f u)). { intros u Hu. split; [auto|]. split; [auto|]. specialize (T3 _ (Hf u Hu)). cbn in T3. tauto. }
  assert (Hf2 : forall u v, 0 <= u < r2 - r1 -> 0 <= v < r2 - r1 -> f u = f v -> u = v).
  { intros u v Hu Hv E. pose proof (Hf u Hu) as I1. pose proof (Hf v Hv) as I2. rewrite E in I1. pose proof (pair_fun2 l _ _ _ T2 I1 I2). lia. }
  assert (Efx : f (a - r1) = b - c1 - r1). { pose proof (Hf (a - r1) ltac:(lia)) as I. replace (r1 + (a - r1)) with a in I by lia. pose proof (pair_fun l _ _ _ T1 Hab I). lia. }
  split; [apply rt_step; rewrite <- Efx; apply He; lia|]. destruct (comes_back (r2 - r1) f (a - r1)) as (k & Ek); auto; [lia|]. rewrite <- Efx.
  assert (G : forall k u, 0 <= u < r2 - r1 -> sreach u (iter k f u)). { clear k Ek. induction k as [|k IH]; intros u Hu; cbn [iter]; [apply rt_refl|]. eapply rt_trans; [apply rt_step; apply He; auto|]. apply IH. auto. }
  pose proof (G k (f (a - r1)) ltac:(apply Hf1; lia)) as G1. now rewrite Ek in G1.
Qed.
Lemma linked_strong a a' : linked n m R a a' -> r1 <= a < r2 -> r1 <= a' < r2 /\ sreach (a - r1) (a' - r1) /\ sreach (a' - r1) (a - r1).
Proof.
  intros H Ha. induction H as [|k j l _ (K1 & K2 & K3) U1 U2]; [split; [auto|split; apply rt_refl]|].
  destruct (usable_strong k j U1 K1) as (J1 & J2 & J3). assert (L : r1 <= l < r2). { destruct U2 as (w & W & I). destruct (largest_form w W) as (_ & _ & F3). now apply (F3 l j I). }
  destruct (usable_strong l j U2 L) as (_ & L2 & L3). split; [auto|]. split; [exact (rt_trans _ _ _ _ _ K2 (rt_trans _ _ _ _ _ J2 L3))|exact (rt_trans _ _ _ _ _ L2 (rt_trans _ _ _ _ _ J3 K3))].
Qed.
Lemma sreach_moves x y : sreach x y -> clos_refl_trans Z (moves n R diagonal) (r1 + x) (r1 + y).
Proof.
  intros H. induction H as [x y (H1 & H2 & H3)|x|x y z _ IH1 _ IH2]; [|apply rt_refl|eapply rt_trans; eauto].
  apply rt_step. split; [lia|]. exists (c1 + r1 + y). split; [auto|]. apply diagonal_in. lia.
Qed.
Lemma strong_linked x y : sreach x y -> sreach y x -> 0 <= x < r2 - r1 -> linked n m R (r1 + x) (r1 + y).
Proof.
  intros H. apply clos_rt_rtn1 in H. induction H as [|y z E H IH]; intros Hzx Hx; [apply linked_refl|].
  assert (Hyz : sreach y z) by now apply rt_step. apply clos_rtn1_rt in H.
  apply (linked_step _ _ _ _ (r1 + y) (c1 + r1 + z)).
  - apply IH; auto. eapply rt_trans; eauto.
  - destruct E as (E1 & E2 & E3). apply (use_moves n m R diagonal (r1 + y) (r1 + z)); auto; [apply diagonal_largest|lia|apply diagonal_in; lia|].
    apply sreach_moves. eapply rt_trans; eauto.
  - destruct E as (E1 & E2 & E3). exists diagonal. split; [apply diagonal_largest|]. apply diagonal_in. lia.
Qed.
End Block.

(** ** Matchings and transversals *)
Lemma len_filter (b : Z -> bool) n : 0 <= n -> len (filter b (zseq 0 n)) = sum 0 n (fun i => if b i then 1 else 0).
Proof.
  revert n. apply (natlike_ind (fun n => len (filter b (zseq 0 n)) = sum 0 n (fun i => if b i then 1 else 0))).
  - now rewrite zseq_empty, sum_empty by lia.
  - intros n Hn IH. rewrite <- Z.add_1_r, zseq_S, sum_S, filter_app, len_app, IH by lia. cbn [filter]. destruct (b n); reflexivity.
Qed.
Lemma matching_transversal A p q (R : Z -> Z -> Prop) : wf A -> (forall i j, 0 <= i < cn A -> 0 <= j < cm A -> stored A i j -> R i j) -> matching A p q ->
  exists l, transversal (cn A) (cm A) R l /\ len l = msize p /\ forall i j, In (i, j) l <-> 0 <= i < cn A /\ 0 <= j /\ get p i = j.
Proof.
  intros W HR M. destruct M as [M1 M2 M3 M4]. pose proof (wf_n A W) as Hn. set (F := filter (fun i => 0 <=? get p i) (zseq 0 (cn A))).
  assert (HF : forall i, In i F -> 0 <= i < cn A /\ 0 <= get p i < cm A /\ stored A i (get p i) /\ get q (get p i) = i).
  { intros i Hi. apply filter_In in Hi as [Hi E]. apply In_zseq in Hi. split; [auto|]. destruct (M3 i Hi) as [?|?]; [lia|tauto]. }
  exists (map (fun i => (i, get p i)) F). split; [split; [|split]|split].
  - rewrite map_map. cbn [fst]. rewrite map_id. apply NoDup_filter, NoDup_zseq.
  - rewrite map_map. cbn [snd]. apply NoDup_map_in; [apply NoDup_filter, NoDup_zseq|]. intros a b Ha Hb E. destruct (HF a Ha) as (_ & _ & _ & <-). destruct (HF b Hb) as (_ & _ & _ & <-). now rewrite E.
  - apply Forall_forall. intros [i j] Hij. apply in_map_iff in Hij as (a & E & Ha). injection E as <- <-. destruct (HF a Ha) as (? & ? & ? & _). auto.
  - unfold len at 1. rewrite map_length. fold (len F). unfold F, msize. rewrite len_filter by auto. now rewrite M1.
  - intros i j. rewrite in_map_iff. split.
    + intros (a & E & Ha). injection E as <- <-. apply HF in Ha. tauto.
    + intros (Hi & Hj & <-). exists i. split; [auto|]. apply filter_In. split; [now apply In_zseq|lia].
Qed.
Lemma transversal_matching A (R : Z -> Z -> Prop) l : wf A -> (forall i j, 0 <= i < cn A -> 0 <= j < cm A -> R i j -> stored A i j) -> transversal (cn A) (cm A) R l ->
  exists p q, matching A p q /\ msize p = len l.
Proof.
  intros W HR T. pose proof (wf_n A W) as Hn. pose proof (wf_m A W) as Hm.
  assert (G : exists p q, matching A p q /\ msize p = len l /\ (forall i, 0 <= i < cn A -> ~ In i (map fst l) -> get p i = -1) /\ (forall j, 0 <= j < cm A -> ~ In j (map snd l) -> get q j = -1)).
  2:{ destruct G as (p & q & G1 & G2 & _). eauto. }
  induction l as [|[i j] l IH].
  - exists (fill (cn A) (-1)), (fill (cm A) (-1)). split; [|split; [|split]].
    + constructor; [rewrite len_fill; lia|rewrite len_fill; lia| |]; intros k Hk; left; now apply get_fill.
    + unfold msize. rewrite len_fill. replace (Z.max 0 (cn A)) with (cn A) by lia. rewrite (sum_ext 0 (cn A) _ (fun _ => 0)); [now rewrite sum_zero|]. intros k Hk. now rewrite get_fill by auto.
    + intros k Hk _. now apply get_fill.
    + intros k Hk _. now apply get_fill.
  - destruct T as (T1 & T2 & T3). cbn [map fst snd] in T1, T2. apply NoDup_cons_iff in T1 as [T1 T1']. apply NoDup_cons_iff in T2 as [T2 T2']. apply Forall_cons_iff in T3 as [(Hi & Hj & Hr) T3'].
    destruct IH as (p & q & M & S & P1 & P2); [split; [auto|split; auto]|]. destruct M as [M1 M2 M3 M4].
    exists (upd p i j), (upd q j i). split; [|split; [|split]].
    + constructor; rewrite ?len_upd; auto.
      * intros k Hk. rewrite get_upd_in by lia. destruct (Z.eqb_spec i k) as [<-|N].
        { right. split; [auto|]. split; [auto|]. apply get_upd_eq. lia. }
        destruct (M3 k Hk) as [?|(A1 & A2 & A3)]; [auto|]. right. split; [auto|]. split; [auto|]. rewrite get_upd_ne; [auto|]. intros E. rewrite <- E in A3. rewrite (P2 j Hj T2) in A3. lia.
      * intros k Hk. rewrite get_upd_in by lia. destruct (Z.eqb_spec j k) as [<-|N].
        { right. split; [auto|]. apply get_upd_eq. lia. }
        destruct (M4 k Hk) as [?|(A1 & A2)]; [auto|]. right. split; [auto|]. rewrite get_upd_ne; [auto|]. intros E. rewrite <- E in A2. rewrite (P1 i Hi T1) in A2. lia.
    + unfold msize in S |- *. rewrite len_upd. rewrite M1 in *. rewrite (sum_ext 0 (cn A) _ (fun k => (if 0 <=? get p k then 1 else 0) + (if k =? i then 1 else 0))).
      * rewrite sum_add, S. rewrite (sum_single 0 (cn A) _ i); [|auto|intros k _ N; now replace (k =? i) with false by lia]. rewrite Z.eqb_refl. unfold len. cbn [length]. lia.
      * intros k Hk. rewrite get_upd_in by lia. destruct (Z.eqb_spec i k) as [<-|N].
        { rewrite Z.eqb_refl. rewrite (P1 i Hi T1). replace (0 <=? j) with true by lia. reflexivity. }
        replace (k =? i) with false by lia. lia.
    + intros k Hk N. cbn [map fst In] in N. rewrite get_upd_ne by tauto. apply P1; tauto.
    + intros k Hk N. cbn [map snd In] in N. rewrite get_upd_ne by tauto. apply P2; tauto.
Qed.

(** ** Renumbering, transposition *)
Lemma use_range n m (S : Z -> Z -> Prop) i j : usable n m S i j -> 0 <= i < n /\ 0 <= j < m.
Proof. intros (l & [(_ & _ & T) _] & I). rewrite Forall_forall in T. specialize (T _ I). cbn in T. tauto. Qed.
Section Renumber.
Variables (n m : Z) (R : Z -> Z -> Prop) (p q : list Z).
Hypothesis Hp : is_perm n p.
Hypothesis Hq : is_perm m q.
Notation R' := (fun a b => R (get p a) (get q b)).
Definition renum (l : list (Z * Z)) : list (Z * Z) := map (fun '(a, b) => (get p a, get q b)) l.
Lemma renum_fst l : map fst (renum l) = map (get p) (map fst l).
Proof. unfold renum. rewrite !map_map. apply map_ext. now intros []. Qed.
Lemma renum_snd l : map snd (renum l) = map (get q) (map snd l).
Proof. unfold renum. rewrite !map_map. apply map_ext. now intros []. Qed.
Lemma len_renum l : len (renum l) = len l.
Proof. unfold len, renum. now rewrite map_length. Qed.
Lemma renum_ok l : transversal n m R' l -> transversal n m R (renum l).
Proof.
  intros (T1 & T2 & T3). rewrite Forall_forall in T3. destruct Hp as (Lp & Rp & Ip). destruct Hq as (Lq & Rq & Iq). split; [|split].
  - rewrite renum_fst. apply NoDup_map_in; auto. intros a b Ha Hb. apply In_fst in Ha as (? & Ha), Hb as (? & Hb). specialize (T3 _ Ha) as TA. specialize (T3 _ Hb) as TB. cbn in TA, TB. apply Ip; tauto.
  - rewrite renum_snd. apply NoDup_map_in; auto. intros a b Ha Hb. apply In_snd in Ha as (? & Ha), Hb as (? & Hb). specialize (T3 _ Ha) as TA. specialize (T3 _ Hb) as TB. cbn in TA, TB. apply Iq; tauto.
  - apply Forall_forall. intros [i j] H. apply in_map_iff in H as ([a b] & E & H). injection E as <- <-. specialize (T3 _ H). cbn in T3. split; [apply Rp; tauto|]. split; [apply Rq; tauto|tauto].
Qed.
Lemma renum_inv l : transversal n m R l -> exists l', l = renum l' /\ transversal n m R' l'.
Proof.
  intros (T1 & T2 & T3).
  assert (E : exists l', l = renum l' /\ Forall (fun '(i, j) => 0 <= i < n /\ 0 <= j < m) l').
  { clear T1 T2. induction l as [|[i j] l IH]; [exists []; split; [reflexivity|constructor]|]. apply Forall_cons_iff in T3 as [(Hi & Hj & _) T3]. destruct (IH T3) as (l' & -> & F).
    destruct (perm_surj n p i Hp Hi) as (a & Ha & <-). destruct (perm_surj m q j Hq Hj) as (b & Hb & <-). exists ((a, b) :: l'). split; [reflexivity|]. constructor; auto. }
  destruct E as (l' & -> & F). exists l'. split; [reflexivity|]. rewrite renum_fst in T1. rewrite renum_snd in T2. apply NoDup_map_inv in T1, T2. split; [auto|]. split; [auto|].
  rewrite Forall_forall in *. intros [a b] H. specialize (F _ H). cbn in F. specialize (T3 (get p a, get q b)). cbn in T3. split; [tauto|]. split; [tauto|]. apply T3. apply in_map_iff. exists (a, b). auto.
Qed.
Lemma renum_largest l : transversal n m R' l -> largest n m R (renum l) <-> largest n m R' l.
Proof.
  intros T. split; intros [_ M]; split; auto using renum_ok.
  - intros k K. rewrite <- (len_renum k), <- (len_renum l). apply M, renum_ok, K.
  - intros k K. destruct (renum_inv k K) as (k' & -> & K'). rewrite !len_renum. auto.
Qed.
Lemma renum_missed_row a : 0 <= a < n -> missed_row n m R (get p a) <-> missed_row n m R' a.
Proof.
  intros Ha. pose proof Hp as (Lp & Rp & Ip). split.
  - intros (_ & l & Hl & N). split; [auto|]. destruct (renum_inv l (proj1 Hl)) as (l' & -> & T). exists l'. split; [now apply renum_largest|]. intros H. apply N. rewrite renum_fst. now apply in_map.
  - intros (_ & l & Hl & N). split; [now apply Rp|]. exists (renum l). split; [apply renum_largest; auto; apply Hl|]. rewrite renum_fst. intros H. apply in_map_iff in H as (a' & E & H). apply N.
    assert (0 <= a' < n). { apply In_fst in H as (b & H). destruct Hl as [(_ & _ & T3) _]. rewrite Forall_forall in T3. apply (T3 _ H). } apply Ip in E; auto. now subst.
Qed.
Lemma renum_missed_col b : 0 <= b < m -> missed_col n m R (get q b) <-> missed_col n m R' b.
Proof.
  intros Hb. pose proof Hq as (Lq & Rq & Iq). split.
  - intros (_ & l & Hl & N). split; [auto|]. destruct (renum_inv l (proj1 Hl)) as (l' & -> & T). exists l'. split; [now apply renum_largest|]. intros H. apply N. rewrite renum_snd. now apply in_map.
  - intros (_ & l & Hl & N). split; [now apply Rq|]. exists (renum l). split; [apply renum_largest; auto; apply Hl|]. rewrite renum_snd. intros H. apply in_map_iff in H as (b' & E & H). apply N.
    assert (0 <= b' < m). { apply In_snd in H as (a & H). destruct Hl as [(_ & _ & T3) _]. rewrite Forall_forall in T3. apply (T3 _ H). } apply Iq in E; auto. now subst.
Qed.
Lemma renum_usable a b : 0 <= a < n -> 0 <= b < m -> usable n m R (get p a) (get q b) <-> usable n m R' a b.
Proof.
  intros Ha Hb. pose proof Hp as (Lp & Rp & Ip). pose proof Hq as (Lq & Rq & Iq). split.
  - intros (l & Hl & I). destruct (renum_inv l (proj1 Hl)) as (l' & -> & T). exists l'. split; [now apply renum_largest|]. apply in_map_iff in I as ([a' b'] & E & I). injection E as E1 E2.
    pose proof T as (_ & _ & T3). rewrite Forall_forall in T3. specialize (T3 _ I). cbn in T3. apply Ip in E1; [|tauto|auto]. apply Iq in E2; [|tauto|auto]. now subst.
  - intros (l & Hl & I). exists (renum l). split; [apply renum_largest; auto; apply Hl|]. apply in_map_iff. exists (a, b). auto.
Qed.
Lemma renum_linked a a' : 0 <= a < n -> 0 <= a' < n -> linked n m R (get p a) (get p a') <-> linked n m R' a a'.
Proof.
  intros Ha Ha'. split.
  - intros H. remember (get p a') as i eqn:E. revert a' Ha' E. induction H as [|k j i H IH U1 U2]; intros a' Ha' E.
    + destruct Hp as (_ & _ & Ip). apply Ip in E; auto. subst. apply linked_refl.
    + subst i. destruct (use_range _ _ _ _ _ U1) as [Hk Hj]. destruct (perm_surj n p k Hp Hk) as (b & Hb & <-). destruct (perm_surj m q j Hq Hj) as (c & Hc & <-).
      apply (linked_step _ _ _ _ b c); [auto|apply renum_usable; auto|apply renum_usable; auto].
  - intros H. clear Ha'. induction H as [|k j i H IH U1 U2]; [apply linked_refl|]. destruct (use_range _ _ _ _ _ U1) as [Hk Hj]. destruct (use_range _ _ _ _ _ U2) as [Hi _].
    apply (linked_step _ _ _ _ (get p k) (get q j)); [auto|apply renum_usable; auto|apply renum_usable; auto].
Qed.
End Renumber.

Definition turn (l : list (Z * Z)) : list (Z * Z) := map (fun '(a, b) => (b, a)) l.
Lemma turn_turn l : turn (turn l) = l.
Proof. unfold turn. rewrite map_map. rewrite <- map_id. apply map_ext. now intros []. Qed.
Lemma turn_ok n m R l : transversal n m R l -> transversal m n (fun j i => R i j) (turn l).
Proof.
  intros (T1 & T2 & T3). unfold turn. split; [|split].
  - rewrite map_map. erewrite map_ext; [exact T2|]. now intros [].
  - rewrite map_map. erewrite map_ext; [exact T1|]. now intros [].
  - rewrite Forall_forall in *. intros [j i] H. apply in_map_iff in H as ([a b] & E & H). injection E as <- <-. specialize (T3 _ H). cbn in T3. tauto.
Qed.
Lemma turn_largest n m R l : largest n m R l -> largest m n (fun j i => R i j) (turn l).
Proof.
  intros [T M]. split; [now apply turn_ok|]. intros k K. apply turn_ok in K. specialize (M _ K). unfold len, turn in *. rewrite !map_length in *. auto.
Qed.

(** ** The decomposition *)
Lemma matching_largest A jm im : wf A -> matching A jm im -> maximum_size A (msize jm) ->
  exists l, largest (cn A) (cm A) (stored A) l /\ forall i j, In (i, j) l <-> 0 <= i < cn A /\ 0 <= j /\ get jm i = j.
Proof.
  intros W M [_ X]. destruct (matching_transversal A jm im (stored A) W) as (l & T & L & I); auto. exists l. split; [|auto]. split; [auto|]. intros l' T'.
  destruct (transversal_matching A (stored A) l' W) as (p' & q' & M' & <-); auto. rewrite L. eapply X; eauto.
Qed.
Lemma alt_row_missed A jm im i : wf A -> matching A jm im -> maximum_size A (msize jm) -> alt_row A jm im i -> missed_row (cn A) (cm A) (stored A) i.
Proof.
  intros W M X H. destruct (matching_largest A jm im W M X) as (l & L & I).
  assert (G : 0 <= i < cn A /\ exists x, ~ In x (map fst l) /\ clos_refl_trans Z (moves (cn A) (stored A) l) x i).
  { induction H as [i Hi N|i j H (Hi & x & Nx & P) St Hj].
    - split; [auto|]. exists i. split; [|apply rt_refl]. intros F. apply In_fst in F as (j & F). apply I in F. lia.
    - pose proof (stored_col A W i j Hi St) as Hjm. destruct (ma_col _ _ _ M j Hjm) as [?|[C1 C2]]; [lia|]. split; [auto|]. exists x. split; [auto|]. eapply rt_trans; [exact P|]. apply rt_step. split; [auto|].
      exists j. split; [auto|]. apply I. split; [auto|]. split; [lia|auto]. }
  destruct G as (Hi & x & Nx & P). split; [auto|]. destruct (miss_moves _ _ _ l x i L Nx P) as (l' & ? & ?). eauto.
Qed.
Lemma alt_col_missed A jm im j : wf A -> matching A jm im -> maximum_size A (msize jm) -> alt_col A jm im j -> missed_col (cn A) (cm A) (stored A) j.
Proof.
  intros W M X H. destruct (matching_largest A jm im W M X) as (l & L & I). apply turn_largest in L.
  assert (I' : forall i j, In (j, i) (turn l) <-> In (i, j) l). { intros a b. unfold turn. rewrite in_map_iff. split; [intros ([u v] & E & Huv); injection E as <- <-; auto|intros Hab; exists (a, b); auto]. }
  assert (G : 0 <= j < cm A /\ exists x, ~ In x (map fst (turn l)) /\ clos_refl_trans Z (moves (cm A) (fun j i => 0 <= i < cn A /\ stored A i j) (turn l)) x j).
  { induction H as [j Hj N|i j H (Hj & x & Nx & P) Hi St Hji].
    - split; [auto|]. exists j. split; [|apply rt_refl]. intros F. apply In_fst in F as (i & F). apply I' in F. apply I in F as (F1 & F2 & F3). destruct (ma_row _ _ _ M i F1) as [?|(_ & _ & ?)]; [lia|]. subst. lia.
    - destruct (ma_row _ _ _ M i Hi) as [?|(C1 & _ & C2)]; [lia|]. split; [auto|]. exists x. split; [auto|]. eapply rt_trans; [exact P|]. apply rt_step. split; [auto|].
      exists i. split; [auto|]. apply I', I. auto. }
  destruct G as (Hj & x & Nx & P). split; [auto|]. destruct (miss_moves (cm A) (cn A) (fun j i => stored A i j) (turn l) x j L Nx) as (l' & L' & N').
  - clear -P. induction P as [u v (U & i & [_ K] & J)|u|u v w _ IH1 _ IH2]; [apply rt_step; split; [auto|exists i; auto]|apply rt_refl|eapply rt_trans; eauto].
  - exists (turn l'). split; [now apply turn_largest in L'|]. intros F. apply N'. apply In_snd in F as (i & F). apply In_fst. exists i. unfold turn in F. apply in_map_iff in F as ([u v] & E & F). now injection E as <- <-.
Qed.

Section Decomposition.
Variables (A : csr) (p q rr cc : list Z).
Hypothesis HA : wf A.
Hypothesis HC : coarse A p q rr cc.
Notation n := (cn A).
Notation m := (cm A).
Notation R := (stored A).
Notation R' := (fun a b => stored A (get p a) (get q b)).
Lemma dims : (0 <= get rr 1 /\ get rr 1 <= get rr 2 /\ get rr 2 <= get rr 3 /\ get rr 3 <= n) /\ (0 <= get cc 1 /\ m = get cc 1 + get rr 3) /\
  get cc 2 = get cc 1 + get rr 1 /\ get cc 3 = get cc 1 + get rr 2.
Proof.
  destruct HC as [_ _ _ (R0 & R4 & Rt) (C0 & C4 & Ct) S _ _ _ _].
  pose proof (Rt 0 ltac:(lia)). pose proof (Rt 1 ltac:(lia)). pose proof (Rt 2 ltac:(lia)). pose proof (Rt 3 ltac:(lia)). pose proof (Ct 0 ltac:(lia)). pose proof (S 0 ltac:(lia)). pose proof (S 1 ltac:(lia)). pose proof (S 2 ltac:(lia)).
  cbn [Z.add Pos.add Pos.succ] in *. lia.
Qed.
Lemma block_diag a : 0 <= a < get rr 3 -> R' a (get cc 1 + a).
Proof.
  intros Ha. pose proof dims as (D1 & D2 & D3 & D4). pose proof (co_diag _ _ _ _ _ HC) as D. pose proof (co_rr _ _ _ _ _ HC) as (R0 & _).
  destruct (Z_lt_le_dec a (get rr 1)) as [L1|L1]; [|destruct (Z_lt_le_dec a (get rr 2)) as [L2|L2]].
  - specialize (D 0 a ltac:(lia)). cbn [Z.add] in D. rewrite R0 in D. apply D. lia.
  - specialize (D 1 (a - get rr 1) ltac:(lia)). cbn [Z.add Pos.add Pos.succ] in D. rewrite D3 in D. replace (get rr 1 + (a - get rr 1)) with a in D by lia. replace (get cc 1 + get rr 1 + (a - get rr 1)) with (get cc 1 + a) in D by lia. apply D. lia.
  - specialize (D 2 (a - get rr 2) ltac:(lia)). cbn [Z.add Pos.add Pos.succ] in D. rewrite D4 in D. replace (get rr 2 + (a - get rr 2)) with a in D by lia. replace (get cc 1 + get rr 2 + (a - get rr 2)) with (get cc 1 + a) in D by lia. apply D. lia.
Qed.
Lemma block_tri2 a b : get rr 1 <= a < n -> 0 <= b < m -> R' a b -> get cc 1 + get rr 1 <= b.
Proof. intros Ha Hb H. pose proof dims as (D1 & D2 & D3 & D4). rewrite <- D3. eapply (co_tri2 _ _ _ _ _ HC); eauto. Qed.
Lemma block_tri3 a b : get rr 2 <= a < n -> 0 <= b < m -> R' a b -> get cc 1 + get rr 2 <= b.
Proof. intros Ha Hb H. pose proof dims as (D1 & D2 & D3 & D4). rewrite <- D4. eapply (co_tri3 _ _ _ _ _ HC); eauto. Qed.
Lemma vrow_ok a : 0 <= a < n -> get rr 2 <= a <-> vrow n m R (get p a).
Proof.
  intros Ha. pose proof dims as (D1 & D2 & D3 & D4). split.
  - intros H. destruct (co_alt _ _ _ _ _ HC) as (jm & im & M & E & X & _ & _ & V & _). rewrite <- E in X. apply V in H; auto. eapply alt_row_missed; eauto.
  - intros H. apply (renum_missed_row n m R p q (co_p _ _ _ _ _ HC) (co_q _ _ _ _ _ HC)) in H; auto.
    apply (missed_row_hi n m R' (get rr 1) (get rr 2) (get rr 3) (get cc 1)) in H; auto; try exact block_diag; try exact block_tri2; try exact block_tri3.
Qed.
Lemma hcol_ok b : 0 <= b < m -> b < get cc 2 <-> hcol n m R (get q b).
Proof.
  intros Hb. pose proof dims as (D1 & D2 & D3 & D4). split.
  - intros H. destruct (co_alt _ _ _ _ _ HC) as (jm & im & M & E & X & _ & _ & _ & V). rewrite <- E in X. apply V in H; auto. eapply alt_col_missed; eauto.
  - intros H. apply (renum_missed_col n m R p q (co_p _ _ _ _ _ HC) (co_q _ _ _ _ _ HC)) in H; auto. rewrite D3.
    apply (missed_col_lo n m R' (get rr 1) (get rr 2) (get rr 3) (get cc 1)) in H; auto; try exact block_diag; try exact block_tri2; try exact block_tri3.
Qed.
Lemma hrow_ok a : 0 <= a < n -> a < get rr 1 <-> hrow n m R (get p a).
Proof.
  intros Ha. pose proof dims as (D1 & D2 & D3 & D4). destruct (co_p _ _ _ _ _ HC) as (_ & Rp & _). split.
  - intros H. split; [now apply Rp|]. exists (get q (get cc 1 + a)). split; [apply hcol_ok; lia|apply block_diag; lia].
  - intros (_ & j & Hj & Hs). destruct (perm_surj m q j (co_q _ _ _ _ _ HC) (proj1 Hj)) as (b & Hb & <-). apply hcol_ok in Hj; auto.
    destruct (Z_lt_le_dec a (get rr 1)) as [|L]; [auto|]. pose proof (block_tri2 a b ltac:(lia) Hb Hs). lia.
Qed.
Lemma vcol_ok b : 0 <= b < m -> get cc 3 <= b <-> vcol n m R (get q b).
Proof.
  intros Hb. pose proof dims as (D1 & D2 & D3 & D4). destruct (co_q _ _ _ _ _ HC) as (_ & Rq & _). split.
  - intros H. split; [now apply Rq|]. exists (get p (b - get cc 1)). split; [apply vrow_ok; lia|]. pose proof (block_diag (b - get cc 1) ltac:(lia)) as D. cbv beta in D. now replace (get cc 1 + (b - get cc 1)) with b in D by lia.
  - intros (_ & i & Hi & Hs). destruct (perm_surj n p i (co_p _ _ _ _ _ HC) (proj1 Hi)) as (a & Ha & <-). apply vrow_ok in Hi; auto.
    rewrite D4. apply (block_tri3 a b); auto. lia.
Qed.
Lemma sreach_dreach x y : clos_refl_trans Z (sedge R' (get rr 1) (get rr 2) (get cc 1)) x y <-> dreach A p q rr cc x y.
Proof.
  pose proof dims as (D1 & D2 & D3 & D4). unfold dreach. split; intros H; induction H as [x y (E1 & E2 & E3)|x|x y z _ IH1 _ IH2]; try apply rt_refl; try (eapply rt_trans; eauto; fail); apply rt_step; unfold dedge, sedge in *.
  - rewrite D3. auto.
  - rewrite <- D3. auto.
Qed.
Lemma blocks_ok r c nb t u a b : fine A p q rr cc r c nb -> 1 <= t < nb - 1 -> 1 <= u < nb - 1 -> in_block r t a -> in_block r u b ->
  linked n m R (get p a) (get p b) <-> t = u.
Proof.
  intros F Ht Hu Ba Bb. pose proof dims as (D1 & D2 & D3 & D4). pose proof F as [F1 F2 (F3a & F3b & F3c & F3d) F4 F5 _ _ F8].
  assert (Inc : forall k, 0 <= k -> forall s, 1 <= s -> s + k <= nb - 1 -> get r s <= get r (s + k)).
  { apply (natlike_ind (fun k => forall s, 1 <= s -> s + k <= nb - 1 -> get r s <= get r (s + k))); [intros s _ _; rewrite Z.add_0_r; lia|]. intros k Hk IH s Hs Hsk. specialize (IH s Hs ltac:(lia)). specialize (F5 (s + k) ltac:(lia)). replace (s + Z.succ k) with (s + k + 1) by lia. lia. }
  assert (Rg : forall t a, 1 <= t < nb - 1 -> in_block r t a -> get rr 1 <= a < get rr 2).
  { intros s x Hs [H1 H2]. pose proof (Inc (s - 1) ltac:(lia) 1 ltac:(lia) ltac:(lia)) as I1. replace (1 + (s - 1)) with s in I1 by lia. pose proof (Inc (nb - 1 - (s + 1)) ltac:(lia) (s + 1) ltac:(lia) ltac:(lia)) as I2. replace (s + 1 + (nb - 1 - (s + 1))) with (nb - 1) in I2 by lia. lia. }
  pose proof (Rg t a Ht Ba) as Ra. pose proof (Rg u b Hu Bb) as Rb.
  rewrite <- (F8 t u (a - get rr 1) (b - get rr 1) Ht Hu); [|now replace (get rr 1 + (a - get rr 1)) with a by lia|now replace (get rr 1 + (b - get rr 1)) with b by lia]. rewrite <- !sreach_dreach.
  rewrite (renum_linked n m R p q (co_p _ _ _ _ _ HC) (co_q _ _ _ _ _ HC)) by lia. split.
  - intros H. apply (linked_strong n m R' (get rr 1) (get rr 2) (get rr 3) (get cc 1)) in H; auto; try exact block_diag; try exact block_tri2; try exact block_tri3. tauto.
  - intros [H1 H2]. pose proof (strong_linked n m R' (get rr 1) (get rr 2) (get rr 3) (get cc 1) D1 D2 block_diag block_tri2 block_tri3 _ _ H1 H2 ltac:(lia)) as H.
    replace (get rr 1 + (a - get rr 1)) with a in H by lia. now replace (get rr 1 + (b - get rr 1)) with b in H by lia.
Qed.
End Decomposition.

Theorem parts_ok gs A : wf A -> let n := cn A in let m := cm A in let R := stored A in
  sat (dulmage_mendelsohn gs A) (fun D =>
    (forall a, 0 <= a < n -> (a < get (dm_rr D) 1 <-> hrow n m R (get (dm_p D) a)) /\ (get (dm_rr D) 2 <= a <-> vrow n m R (get (dm_p D) a))) /\
    (forall b, 0 <= b < m -> (b < get (dm_cc D) 2 <-> hcol n m R (get (dm_q D) b)) /\ (get (dm_cc D) 3 <= b <-> vcol n m R (get (dm_q D) b))) /\
    (get (dm_rr D) 1 < get (dm_rr D) 2 -> forall t u a b, 1 <= t < dm_nb D - 1 -> 1 <= u < dm_nb D - 1 -> in_block (dm_r D) t a -> in_block (dm_r D) u b ->
      (linked n m R (get (dm_p D) a) (get (dm_p D) b) <-> t = u))).
Proof.
  intros W n m R. eapply sat_mono; [apply (dulmage_mendelsohn_ok gs A W)|]. intros D (C & F & _). split; [|split].
  - intros a Ha. split; [now apply (hrow_ok A _ _ _ _ W C)|now apply (vrow_ok A _ _ _ _ W C)].
  - intros b Hb. split; [now apply (hcol_ok A _ _ _ _ W C)|now apply (vcol_ok A _ _ _ _ W C)].
  - intros L t u a b Ht Hu Ba Bb. now apply (blocks_ok A _ _ _ _ C _ _ _ t u a b (F L)).
Qed.
(* P lists the numbers with the property, in two ways *)
Lemma same_count n p p' k k' (P : Z -> Prop) : is_perm n p -> is_perm n p' -> 0 <= k <= n -> 0 <= k' <= n ->
  (forall a, 0 <= a < n -> a < k <-> P (get p a)) -> (forall a, 0 <= a < n -> a < k' <-> P (get p' a)) -> k = k'.
Proof.
  intros Hp Hp' Hk Hk' E E'. cut (forall p p' k k', is_perm n p -> is_perm n p' -> 0 <= k <= n -> 0 <= k' <= n ->
    (forall a, 0 <= a < n -> a < k <-> P (get p a)) -> (forall a, 0 <= a < n -> a < k' <-> P (get p' a)) -> k <= k').
  { intros G. pose proof (G p p' k k' Hp Hp' Hk Hk' E E'). pose proof (G p' p k' k Hp' Hp Hk' Hk E' E). lia. }
  clear. intros p p' k k' Hp Hp' Hk Hk' E E'. pose proof Hp as (_ & Rp & Ip). pose proof Hp' as (_ & Rp' & Ip').
  assert (I : incl (map (get p) (zseq 0 k)) (map (get p') (zseq 0 k'))).
  { intros i Hi. apply in_map_iff in Hi as (a & <- & Ha). apply In_zseq in Ha. destruct (perm_surj n p' (get p a) Hp' ltac:(apply Rp; lia)) as (b & Hb & Eb). apply in_map_iff. exists b. split; [auto|]. apply In_zseq. split; [lia|]. apply E'; auto. rewrite Eb. apply E; lia. }
  apply NoDup_incl_length in I; [|apply NoDup_map_in; [apply NoDup_zseq|]; intros a b Ha Hb; apply In_zseq in Ha, Hb; apply Ip; lia].
  rewrite !map_length in I. pose proof (len_zseq 0 k). pose proof (len_zseq 0 k'). unfold len in *. lia.
Qed.
Theorem parts_same gs gs' A B : wf A -> wf B -> cn B = cn A -> cm B = cm A -> (forall i j, 0 <= i < cn A -> stored A i j <-> stored B i j) ->
  sat (D <- dulmage_mendelsohn gs A ;; D' <- dulmage_mendelsohn gs' B ;; Ok (D, D')) (fun '(D, D') => dm_rr D' = dm_rr D /\ dm_cc D' = dm_cc D).
Proof.
  intros W W' En Em S. apply sat_bind. eapply sat_mono; [apply (dulmage_mendelsohn_ok gs A W)|]. intros D (C & _). apply sat_bind. eapply sat_mono; [apply (dulmage_mendelsohn_ok gs' B W')|]. intros D' (C' & _). cbn [sat].
  assert (TE : forall l, transversal (cn B) (cm B) (stored B) l <-> transversal (cn A) (cm A) (stored A) l).
  { intros l. rewrite En, Em. unfold transversal. rewrite !Forall_forall. split; intros (T1 & T2 & T3); split; auto; split; auto; intros [i j] I; specialize (T3 _ I); cbn in T3; (split; [tauto|split; [tauto|apply S; tauto]]). }
  assert (LE : forall l, largest (cn B) (cm B) (stored B) l <-> largest (cn A) (cm A) (stored A) l). { intros l. unfold largest. rewrite TE. split; intros [T M]; split; auto; intros k K; apply M; now apply TE. }
  assert (ME : forall i, missed_row (cn B) (cm B) (stored B) i <-> missed_row (cn A) (cm A) (stored A) i). { intros i. unfold missed_row. rewrite En at 1. split; intros (H & l & L & N); (split; [auto|]); exists l; (split; [now apply LE|auto]). }
  assert (MC : forall i, missed_col (cn B) (cm B) (stored B) i <-> missed_col (cn A) (cm A) (stored A) i). { intros i. unfold missed_col. rewrite Em at 1. split; intros (H & l & L & N); (split; [auto|]); exists l; (split; [now apply LE|auto]). }
  assert (HE : forall i, hrow (cn B) (cm B) (stored B) i <-> hrow (cn A) (cm A) (stored A) i). { intros i. unfold hrow. rewrite En at 1. split; intros (H & j & M & St); (split; [auto|]); exists j; (split; [now apply MC|now apply S]). }
  pose proof (dims A _ _ _ _ C) as (D1 & D2 & D3 & D4). pose proof (dims B _ _ _ _ C') as (D1' & D2' & D3' & D4').
  pose proof (co_p _ _ _ _ _ C) as Cp. pose proof (co_p _ _ _ _ _ C') as Cp'. pose proof (co_q _ _ _ _ _ C) as Cq. pose proof (co_q _ _ _ _ _ C') as Cq'. rewrite En in Cp'. rewrite Em in Cq'.
  pose proof (hrow_ok A _ _ _ _ W C) as PH. pose proof (vrow_ok A _ _ _ _ W C) as PV. pose proof (hcol_ok A _ _ _ _ W C) as QH.
  pose proof (hrow_ok B _ _ _ _ W' C') as PH'. pose proof (vrow_ok B _ _ _ _ W' C') as PV'. pose proof (hcol_ok B _ _ _ _ W' C') as QH'.
  assert (R1 : get (dm_rr D') 1 = get (dm_rr D) 1). { apply (same_count (cn A) (dm_p D') (dm_p D) _ _ (hrow (cn A) (cm A) (stored A))); auto; try lia. intros a Ha. rewrite (PH' a) by lia. apply HE. }
  assert (R2 : get (dm_rr D') 2 = get (dm_rr D) 2).
  { apply (same_count (cn A) (dm_p D') (dm_p D) _ _ (fun i => ~ vrow (cn A) (cm A) (stored A) i)); auto; try lia; intros a Ha.
    - specialize (PV' a ltac:(lia)). unfold vrow in *. rewrite <- ME, <- PV'. lia.
    - specialize (PV a ltac:(lia)). unfold vrow in *. rewrite <- PV. lia. }
  assert (C2 : get (dm_cc D') 2 = get (dm_cc D) 2). { apply (same_count (cm A) (dm_q D') (dm_q D) _ _ (hcol (cn A) (cm A) (stored A))); auto; try lia. intros a Ha. rewrite (QH' a) by lia. apply MC. }
  pose proof (co_len _ _ _ _ _ C) as [L1 L2]. pose proof (co_len _ _ _ _ _ C') as [L1' L2']. pose proof (co_rr _ _ _ _ _ C) as (R0 & R4 & _). pose proof (co_rr _ _ _ _ _ C') as (R0' & R4' & _). pose proof (co_cc _ _ _ _ _ C) as (C0 & C4 & _). pose proof (co_cc _ _ _ _ _ C') as (C0' & C4' & _).
  split; apply list_ext; try lia; intros t Ht; assert (t = 0 \/ t = 1 \/ t = 2 \/ t = 3 \/ t = 4) as [->|[->|[->|[->| ->]]]] by lia; lia.
Qed.
