(** Lemmas about [Base]: arrays, loop rules, sums, congruences. *)
From Verif Require Import Base.
From Coq Require Export ZifyBool Setoid Morphisms.
From Coq Require Import Permutation.

(** ** sat *)

Lemma sat_Ok {A} (r : res A) (Q : A -> Prop) : sat r Q <-> exists a, r = Ok a /\ Q a.
Proof.
  destruct r; simpl; split; intros H.
  - eauto.
  - destruct H as (b & E & H); congruence.
  - tauto.
  - destruct H as (b & E & H); congruence.
Qed.

Lemma sat_bind {A B} (e : res A) (f : A -> res B) (Q : B -> Prop) :
  sat e (fun a => sat (f a) Q) -> sat (bind e f) Q.
Proof. destruct e; simpl; auto. Qed.

Lemma sat_mono {A} (e : res A) (P Q : A -> Prop) :
  sat e P -> (forall a, P a -> Q a) -> sat e Q.
Proof. destruct e; simpl; auto. Qed.

Lemma sat_and {A} (e : res A) (P Q : A -> Prop) :
  sat e P -> sat e Q -> sat e (fun a => P a /\ Q a).
Proof. destruct e; simpl; auto. Qed.

Lemma sat_elim {A} (e : res A) (P : A -> Prop) a : sat e P -> e = Ok a -> P a.
Proof. intros H ->. exact H. Qed.

Lemma sat_assert b (Q : unit -> Prop) : b = true -> Q tt -> sat (assert_ b) Q.
Proof. intros ->. auto. Qed.

(** ** Arrays *)

Lemma len_nonneg {A} (a : list A) : 0 <= len a.
Proof. unfold len; lia. Qed.

Lemma len_nil {A} : len (@nil A) = 0.
Proof. reflexivity. Qed.
Lemma len_cons {A} (x : A) l : len (x :: l) = 1 + len l.
Proof. unfold len; simpl length; lia. Qed.
Lemma len_app {A} (a b : list A) : len (a ++ b) = len a + len b.
Proof. unfold len; rewrite app_length; lia. Qed.

Lemma len_upd_nat {A} (a : list A) i v : length (upd_nat a i v) = length a.
Proof. revert i; induction a; intros [|i]; simpl; auto. Qed.

Lemma len_upd {A} (a : list A) i v : len (upd a i v) = len a.
Proof. unfold upd, len. destruct (i <? 0); auto. now rewrite len_upd_nat. Qed.

Lemma len_fill {A} k (v : A) : len (fill k v) = Z.max 0 k.
Proof. unfold len, fill; rewrite repeat_length; lia. Qed.

Lemma len_map {A B} (f : A -> B) l : len (map f l) = len l.
Proof. unfold len; now rewrite map_length. Qed.

Lemma nth_upd_nat {A} (a : list A) i j v d :
  nth j (upd_nat a i v) d = if Nat.eqb i j && Nat.ltb i (length a) then v else nth j a d.
Proof.
  revert i j; induction a as [|x a IH]; intros i j; simpl.
  - rewrite andb_false_r. reflexivity.
  - destruct i, j; simpl; auto.
    rewrite IH. destruct (Nat.eqb i j); auto.
Qed.

Lemma getd_upd {A} (d : A) a i j v :
  getd d (upd a i v) j = if (i =? j) && inb a i then v else getd d a j.
Proof.
  unfold getd, upd, inb, len.
  destruct (Z.ltb_spec j 0), (Z.ltb_spec i 0).
  - replace (0 <=? i) with false by lia. now rewrite andb_false_r.
  - replace (i =? j) with false by lia. reflexivity.
  - replace (0 <=? i) with false by lia. now rewrite andb_false_r.
  - rewrite nth_upd_nat.
    destruct (Nat.eqb_spec (Z.to_nat i) (Z.to_nat j)), (Z.eqb_spec i j); try lia; simpl; auto.
    destruct (Nat.ltb_spec (Z.to_nat i) (length a)).
    + replace ((0 <=? i) && (i <? Z.of_nat (length a))) with true by lia. reflexivity.
    + replace ((0 <=? i) && (i <? Z.of_nat (length a))) with false by lia. reflexivity.
Qed.

Lemma getd_upd_eq {A} (d : A) a i v : 0 <= i < len a -> getd d (upd a i v) i = v.
Proof. intros H. rewrite getd_upd. unfold inb. replace (i =? i) with true by lia.
  replace ((0 <=? i) && (i <? len a)) with true by lia. reflexivity. Qed.
Lemma getd_upd_ne {A} (d : A) a i j v : i <> j -> getd d (upd a i v) j = getd d a j.
Proof. intros H. rewrite getd_upd. replace (i =? j) with false by lia. reflexivity. Qed.

Lemma get_upd a i j v :
  get (upd a i v) j = if (i =? j) && inb a i then v else get a j.
Proof. apply getd_upd. Qed.
Lemma get_upd_eq a i v : 0 <= i < len a -> get (upd a i v) i = v.
Proof. apply getd_upd_eq. Qed.
Lemma get_upd_ne a i j v : i <> j -> get (upd a i v) j = get a j.
Proof. apply getd_upd_ne. Qed.
(* one case analysis for "updated in bounds" *)
Lemma get_upd_in a i j v : 0 <= i < len a ->
  get (upd a i v) j = if i =? j then v else get a j.
Proof.
  intros H. rewrite get_upd. unfold inb.
  replace ((0 <=? i) && (i <? len a)) with true by lia. now rewrite andb_true_r.
Qed.

Lemma getd_out {A} (d : A) a i : i < 0 \/ len a <= i -> getd d a i = d.
Proof.
  intros H. unfold getd. destruct (Z.ltb_spec i 0); auto.
  apply nth_overflow. unfold len in H; lia.
Qed.
Lemma get_out a i : i < 0 \/ len a <= i -> get a i = 0.
Proof. apply getd_out. Qed.

Lemma getd_fill {A} (d v : A) k i : 0 <= i < k -> getd d (fill k v) i = v.
Proof.
  intros H. unfold getd, fill. replace (i <? 0) with false by lia.
  assert (forall n m, (m < n)%nat -> nth m (repeat v n) d = v) as G.
  { induction n; intros [|m] Hm; simpl; auto; try lia. apply IHn; lia. }
  apply G. lia.
Qed.
Lemma get_fill v k i : 0 <= i < k -> get (fill k v) i = v.
Proof. apply getd_fill. Qed.
Lemma get_fill0 k i : get (fill k 0) i = 0.
Proof.
  destruct (Z_lt_le_dec i 0). { now rewrite get_out by lia. }
  destruct (Z_lt_le_dec i k). { now rewrite get_fill by lia. }
  rewrite get_out; auto. rewrite len_fill; lia.
Qed.

Lemma getd_app_l {A} (d : A) a b i : i < len a -> getd d (a ++ b) i = getd d a i.
Proof.
  intros H. unfold getd. destruct (Z.ltb_spec i 0); auto.
  apply app_nth1. unfold len in H; lia.
Qed.
Lemma getd_app_r {A} (d : A) a b i : len a <= i -> getd d (a ++ b) i = getd d b (i - len a).
Proof.
  intros H. unfold getd. pose proof (len_nonneg a).
  replace (i <? 0) with false by lia. replace (i - len a <? 0) with false by lia.
  rewrite app_nth2 by (unfold len in *; lia). f_equal. unfold len in *; lia.
Qed.
Lemma get_app_l a b i : i < len a -> get (a ++ b) i = get a i.
Proof. apply getd_app_l. Qed.
Lemma get_app_r a b i : len a <= i -> get (a ++ b) i = get b (i - len a).
Proof. apply getd_app_r. Qed.

Lemma get_cons x l i : get (x :: l) i = if i =? 0 then x else if i <? 0 then 0 else get l (i - 1).
Proof.
  unfold get, getd. destruct (Z.ltb_spec i 0).
  - replace (i =? 0) with false by lia. reflexivity.
  - destruct (Z.eqb_spec i 0); subst; simpl; auto.
    replace (i - 1 <? 0) with false by lia.
    replace (Z.to_nat i) with (S (Z.to_nat (i - 1))) by lia. reflexivity.
Qed.

Lemma get_nth a (i : nat) : get a (Z.of_nat i) = nth i a 0.
Proof. unfold get, getd. replace (Z.of_nat i <? 0) with false by lia. now rewrite Nat2Z.id. Qed.

Lemma get_In a i : 0 <= i < len a -> In (get a i) a.
Proof.
  intros H. unfold get, getd. replace (i <? 0) with false by lia.
  apply nth_In. unfold len in H; lia.
Qed.
Lemma In_get a v : In v a -> exists i, 0 <= i < len a /\ get a i = v.
Proof.
  intros H. destruct (In_nth a v 0 H) as (n & Hn & E).
  exists (Z.of_nat n). split. { unfold len; lia. } now rewrite get_nth.
Qed.

Lemma list_ext (a b : list Z) :
  len a = len b -> (forall i, 0 <= i < len a -> get a i = get b i) -> a = b.
Proof.
  intros Hl H. apply (nth_ext a b 0 0).
  - unfold len in Hl; lia.
  - intros n Hn. specialize (H (Z.of_nat n)). rewrite !get_nth in H. apply H. unfold len; lia.
Qed.

Lemma listd_ext {A} (d : A) (a b : list A) :
  len a = len b -> (forall i, 0 <= i < len a -> getd d a i = getd d b i) -> a = b.
Proof.
  intros Hl H. apply (nth_ext a b d d).
  - unfold len in Hl; lia.
  - intros n Hn. specialize (H (Z.of_nat n)). unfold getd in H.
    replace (Z.of_nat n <? 0) with false in H by lia. rewrite Nat2Z.id in H.
    apply H. unfold len; lia.
Qed.

Lemma sat_aget a i (Q : Z -> Prop) : 0 <= i < len a -> Q (get a i) -> sat (aget a i) Q.
Proof.
  intros H HQ. unfold aget, inb. replace ((0 <=? i) && (i <? len a)) with true by lia. exact HQ.
Qed.
Lemma sat_aset {A} (a : list A) i v (Q : list A -> Prop) :
  0 <= i < len a -> Q (upd a i v) -> sat (aset a i v) Q.
Proof.
  intros H HQ. unfold aset, inb. replace ((0 <=? i) && (i <? len a)) with true by lia. exact HQ.
Qed.

Lemma aget_ok a i : 0 <= i < len a -> aget a i = Ok (get a i).
Proof. intros H. unfold aget, inb. now replace ((0 <=? i) && (i <? len a)) with true by lia. Qed.
Lemma aset_ok {A} (a : list A) i v : 0 <= i < len a -> aset a i v = Ok (upd a i v).
Proof. intros H. unfold aset, inb. now replace ((0 <=? i) && (i <? len a)) with true by lia. Qed.

(** ** Loop rules *)

Lemma for_nat_spec {S} (Inv : Z -> S -> Prop) (body : Z -> S -> res S) k lo s :
  Inv lo s ->
  (forall i s, lo <= i < lo + Z.of_nat k -> Inv i s -> sat (body i s) (Inv (i + 1))) ->
  sat (for_nat k lo body s) (Inv (lo + Z.of_nat k)).
Proof.
  revert lo s; induction k; intros lo s H0 Hs; cbn [for_nat].
  - simpl. now replace (lo + 0) with lo by lia.
  - apply sat_bind. eapply sat_mono. { apply (Hs lo s); auto; lia. }
    intros s' Hs'. replace (lo + Z.of_nat (Datatypes.S k)) with (lo + 1 + Z.of_nat k) by lia.
    apply IHk; auto. intros i t Hi. apply Hs; lia.
Qed.

Lemma for_spec {S} (Inv : Z -> S -> Prop) (body : Z -> S -> res S) lo hi s (Q : S -> Prop) :
  lo <= hi ->
  Inv lo s ->
  (forall i s, lo <= i < hi -> Inv i s -> sat (body i s) (Inv (i + 1))) ->
  (forall s, Inv hi s -> Q s) ->
  sat (for_ lo hi body s) Q.
Proof.
  intros Hle H0 Hs HQ. unfold for_. eapply sat_mono.
  - apply (for_nat_spec Inv body (Z.to_nat (hi - lo)) lo s H0).
    intros i t Hi. apply Hs; lia.
  - intros t. rewrite Z2Nat.id by lia. replace (lo + (hi - lo)) with hi by lia. apply HQ.
Qed.

Lemma for_empty {S} lo hi (body : Z -> S -> res S) s : hi <= lo -> for_ lo hi body s = Ok s.
Proof. intros H. unfold for_. replace (Z.to_nat (hi - lo)) with O by lia. reflexivity. Qed.

Lemma for_down_spec {S} (Inv : Z -> S -> Prop) (body : Z -> S -> res S) lo hi s (Q : S -> Prop) :
  lo <= hi ->
  Inv hi s ->
  (forall i s, lo <= i < hi -> Inv (i + 1) s -> sat (body i s) (Inv i)) ->
  (forall s, Inv lo s -> Q s) ->
  sat (for_down lo hi body s) Q.
Proof.
  intros Hle H0 Hs HQ. unfold for_down.
  apply (for_spec (fun i => Inv (lo + hi - i))); auto.
  - now replace (lo + hi - lo) with hi by lia.
  - intros i t Hi Ht.
    replace (lo + hi - (i + 1)) with (lo + hi - 1 - i) by lia.
    apply Hs. { lia. } now replace (lo + hi - 1 - i + 1) with (lo + hi - i) by lia.
  - intros t. replace (lo + hi - hi) with lo by lia. apply HQ.
Qed.

Lemma loop_spec {S R} (Inv : S -> Prop) (mu : S -> Z) (Q : R -> Prop)
  (body : S -> res (S + R)) fuel s :
  (forall s, Inv s ->
     sat (body s) (fun o => match o with
                            | inl s' => Inv s' /\ 0 <= mu s' < mu s
                            | inr r => Q r end)) ->
  Inv s -> 0 <= mu s < Z.of_nat fuel ->
  sat (loop fuel body s) Q.
Proof.
  intros Hs. revert s. induction fuel; intros s HI Hf; cbn [loop]. { lia. }
  apply sat_bind. eapply sat_mono. { apply Hs, HI. }
  intros [s'|r]; simpl; auto. intros (HI' & Hm). apply IHfuel; auto. lia.
Qed.

Lemma forb_nat_spec {S R} (Inv : Z -> S -> Prop) (Q : S + R -> Prop)
  (body : Z -> S -> res (S + R)) k lo s :
  Inv lo s ->
  (forall i s, lo <= i < lo + Z.of_nat k -> Inv i s ->
     sat (body i s) (fun o => match o with inl s' => Inv (i + 1) s' | inr r => Q (inr r) end)) ->
  (forall s, Inv (lo + Z.of_nat k) s -> Q (inl s)) ->
  sat (forb_nat k lo body s) Q.
Proof.
  revert lo s; induction k; intros lo s H0 Hs HQ; cbn [forb_nat].
  - apply HQ. now replace (lo + Z.of_nat 0) with lo by lia.
  - apply sat_bind. eapply sat_mono. { apply (Hs lo s); auto; lia. }
    intros [s'|r]; simpl; auto. intros Hs'. apply IHk; auto.
    + intros i t Hi. apply Hs; lia.
    + replace (lo + 1 + Z.of_nat k) with (lo + Z.of_nat (Datatypes.S k)) by lia. exact HQ.
Qed.

Lemma forb_spec {S R} (Inv : Z -> S -> Prop) (Q : S + R -> Prop)
  (body : Z -> S -> res (S + R)) lo hi s :
  lo <= hi ->
  Inv lo s ->
  (forall i s, lo <= i < hi -> Inv i s ->
     sat (body i s) (fun o => match o with inl s' => Inv (i + 1) s' | inr r => Q (inr r) end)) ->
  (forall s, Inv hi s -> Q (inl s)) ->
  sat (forb lo hi body s) Q.
Proof.
  intros Hle H0 Hs HQ. unfold forb. apply (forb_nat_spec Inv); auto.
  - intros i t Hi. apply Hs; lia.
  - rewrite Z2Nat.id by lia. now replace (lo + (hi - lo)) with hi by lia.
Qed.

(** ** Tactics *)

Global Hint Rewrite @len_upd @len_app @len_nil @len_cons @len_map : len.
Ltac len := autorewrite with len in *; try rewrite !len_fill in *.

Ltac wp1 :=
  lazymatch goal with
  | |- sat (bind _ _) _ => apply sat_bind
  | |- sat (Ok _) _ => unfold sat at 1; cbv beta iota
  | |- sat (aget _ _) _ => apply sat_aget
  | |- sat (aset _ _ _) _ => apply sat_aset
  | |- sat (assert_ _) _ => apply sat_assert
  | |- sat (if ?b then _ else _) _ => let E := fresh "E" in destruct b eqn:E
  | |- sat (let '(_, _) := ?x in _) _ => destruct x
  end.
Ltac wp := repeat (wp1; cbv beta); cbv beta.

(** ** Sums *)

Lemma sum_empty lo hi f : hi <= lo -> sum lo hi f = 0.
Proof. intros H. unfold sum. now replace (Z.to_nat (hi - lo)) with O by lia. Qed.

Lemma sum_first lo hi f : lo < hi -> sum lo hi f = f lo + sum (lo + 1) hi f.
Proof.
  intros H. unfold sum.
  replace (Z.to_nat (hi - lo)) with (S (Z.to_nat (hi - (lo + 1)))) by lia. reflexivity.
Qed.

Lemma sum_ind (P : Z -> Prop) lo hi :
  (forall k, hi <= k -> P k) ->
  (forall k, lo <= k < hi -> P (k + 1) -> P k) -> P lo.
Proof.
  intros H0 Hs.
  assert (forall n k, Z.of_nat n = Z.max 0 (hi - k) -> lo <= k -> P k) as G.
  { induction n; intros k Hk Hlo.
    - apply H0; lia.
    - apply Hs; try lia. apply IHn; lia. }
  apply (G (Z.to_nat (hi - lo))); lia.
Qed.

Lemma sum_split mid lo hi f : lo <= mid <= hi -> sum lo hi f = sum lo mid f + sum mid hi f.
Proof.
  intros H.
  refine (sum_ind (fun k => k <= mid -> sum k hi f = sum k mid f + sum mid hi f) lo mid _ _ _);
    try lia.
  - intros k Hk Hk'. replace k with mid by lia. rewrite (sum_empty mid mid) by lia. lia.
  - intros k Hk IH _. rewrite (sum_first k hi), (sum_first k mid) by lia. rewrite IH by lia. lia.
Qed.

Lemma sum_last lo hi f : lo < hi -> sum lo hi f = sum lo (hi - 1) f + f (hi - 1).
Proof.
  intros H. rewrite (sum_split (hi - 1)) by lia. rewrite (sum_first (hi - 1)) by lia.
  rewrite (sum_empty (hi - 1 + 1)) by lia. lia.
Qed.
Lemma sum_S lo hi f : lo <= hi -> sum lo (hi + 1) f = sum lo hi f + f hi.
Proof. intros H. rewrite sum_last by lia. now replace (hi + 1 - 1) with hi by lia. Qed.

Lemma sum_ext lo hi f g : (forall i, lo <= i < hi -> f i = g i) -> sum lo hi f = sum lo hi g.
Proof.
  intros H. revert H.
  refine (sum_ind (fun k => (forall i, k <= i < hi -> f i = g i) -> sum k hi f = sum k hi g) lo hi _ _).
  - intros k Hk _. now rewrite !sum_empty by lia.
  - intros k Hk IH H. rewrite !(sum_first k) by lia. rewrite IH, H; auto; try lia.
    intros; apply H; lia.
Qed.

Lemma sum_add lo hi f g : sum lo hi (fun i => f i + g i) = sum lo hi f + sum lo hi g.
Proof.
  refine (sum_ind (fun k => sum k hi _ = sum k hi f + sum k hi g) lo hi _ _).
  - intros k Hk. now rewrite !sum_empty by lia.
  - intros k Hk IH. rewrite !(sum_first k) by lia. lia.
Qed.
Lemma sum_sub lo hi f g : sum lo hi (fun i => f i - g i) = sum lo hi f - sum lo hi g.
Proof.
  refine (sum_ind (fun k => sum k hi _ = sum k hi f - sum k hi g) lo hi _ _).
  - intros k Hk. now rewrite !sum_empty by lia.
  - intros k Hk IH. rewrite !(sum_first k) by lia. lia.
Qed.
Lemma sum_scale lo hi c f : sum lo hi (fun i => c * f i) = c * sum lo hi f.
Proof.
  refine (sum_ind (fun k => sum k hi _ = c * sum k hi f) lo hi _ _).
  - intros k Hk. rewrite !sum_empty by lia. lia.
  - intros k Hk IH. rewrite !(sum_first k) by lia. lia.
Qed.
Lemma sum_scale_r lo hi c f : sum lo hi (fun i => f i * c) = sum lo hi f * c.
Proof.
  rewrite Z.mul_comm, <- sum_scale. apply sum_ext; intros; lia.
Qed.
Lemma sum_zero lo hi f : (forall i, lo <= i < hi -> f i = 0) -> sum lo hi f = 0.
Proof.
  intros H. rewrite (sum_ext lo hi f (fun _ => 0 * 0)) by (intros; rewrite H; lia).
  rewrite sum_scale. lia.
Qed.
Lemma sum_swap a b c d f :
  sum a b (fun i => sum c d (fun j => f i j)) = sum c d (fun j => sum a b (fun i => f i j)).
Proof.
  refine (sum_ind (fun k => sum k b (fun i => sum c d (fun j => f i j))
                         = sum c d (fun j => sum k b (fun i => f i j))) a b _ _).
  - intros k Hk. rewrite sum_empty by lia. symmetry. apply sum_zero.
    intros; apply sum_empty; lia.
  - intros k Hk IH. rewrite sum_first, IH by lia. rewrite <- sum_add.
    apply sum_ext; intros. now rewrite (sum_first k b) by lia.
Qed.
Lemma sum_single lo hi f k :
  lo <= k < hi -> (forall i, lo <= i < hi -> i <> k -> f i = 0) -> sum lo hi f = f k.
Proof.
  intros Hk H. rewrite (sum_split k), (sum_first k) by lia.
  rewrite (sum_zero lo k), (sum_zero (k + 1) hi); try lia; intros; apply H; lia.
Qed.
Lemma sum_pick lo hi f k : lo <= k < hi ->
  sum lo hi f = f k + sum lo hi (fun i => if i =? k then 0 else f i).
Proof.
  intros Hk. replace (f k) with (sum lo hi (fun i => if i =? k then f i else 0)).
  - rewrite <- sum_add. apply sum_ext. intros i Hi. destruct (i =? k); lia.
  - rewrite (sum_single lo hi _ k) by (auto; intros i Hi Hn; replace (i =? k) with false by lia; auto).
    now rewrite Z.eqb_refl.
Qed.
Lemma sum_delta lo hi k c : sum lo hi (fun i => if i =? k then c else 0)
  = if (lo <=? k) && (k <? hi) then c else 0.
Proof.
  destruct ((lo <=? k) && (k <? hi)) eqn:E.
  - rewrite (sum_single lo hi _ k); try lia. { now rewrite Z.eqb_refl. }
    intros i _ Hn. now replace (i =? k) with false by lia.
  - apply sum_zero. intros i Hi. now replace (i =? k) with false by lia.
Qed.
Lemma sum_shift lo hi d f : sum lo hi (fun i => f (i + d)) = sum (lo + d) (hi + d) f.
Proof.
  refine (sum_ind (fun k => sum k hi (fun i => f (i + d)) = sum (k + d) (hi + d) f) lo hi _ _).
  - intros k Hk. now rewrite !sum_empty by lia.
  - intros k Hk IH. rewrite !(sum_first k), (sum_first (k + d)), IH by lia.
    now replace (k + d + 1) with (k + 1 + d) by lia.
Qed.
Lemma sum_nonneg lo hi f : (forall i, lo <= i < hi -> 0 <= f i) -> 0 <= sum lo hi f.
Proof.
  intros H. revert H.
  refine (sum_ind (fun k => (forall i, k <= i < hi -> 0 <= f i) -> 0 <= sum k hi f) lo hi _ _).
  - intros k Hk _. now rewrite sum_empty by lia.
  - intros k Hk IH H. rewrite (sum_first k) by lia. specialize (H k ltac:(lia)) as H1.
    specialize (IH ltac:(intros; apply H; lia)). lia.
Qed.
Lemma sum_le lo hi f g : (forall i, lo <= i < hi -> f i <= g i) -> sum lo hi f <= sum lo hi g.
Proof.
  intros H. assert (0 <= sum lo hi (fun i => g i - f i)).
  { apply sum_nonneg. intros i Hi. specialize (H i Hi). lia. }
  rewrite sum_sub in H0. lia.
Qed.
Lemma sum_pos_exists lo hi f : 0 < sum lo hi f -> exists k, lo <= k < hi /\ 0 < f k.
Proof.
  intros H. destruct (Z_lt_le_dec lo hi) as [Hl|Hl]; [|rewrite sum_empty in H by lia; lia].
  assert (G : forall k : nat, lo + Z.of_nat k <= hi -> 0 < sum lo (lo + Z.of_nat k) f ->
    exists k, lo <= k < hi /\ 0 < f k).
  { induction k; intros Hk Hs.
    - rewrite sum_empty in Hs by lia. lia.
    - replace (lo + Z.of_nat (S k)) with (lo + Z.of_nat k + 1) in * by lia.
      rewrite sum_S in Hs by lia. destruct (Z_lt_le_dec 0 (f (lo + Z.of_nat k))).
      + exists (lo + Z.of_nat k). split; auto. lia.
      + apply IHk; lia. }
  apply (G (Z.to_nat (hi - lo))); rewrite Z2Nat.id by lia;
    replace (lo + (hi - lo)) with hi by lia; auto. lia.
Qed.
Lemma sum_pos lo hi f k : lo <= k < hi -> 0 < f k -> (forall i, lo <= i < hi -> 0 <= f i) ->
  0 < sum lo hi f.
Proof.
  intros Hk Hf Hn. rewrite (sum_pick lo hi f k Hk).
  assert (0 <= sum lo hi (fun i => if i =? k then 0 else f i)); [|lia].
  apply sum_nonneg. intros i Hi. destruct (i =? k); auto. lia.
Qed.
Lemma sum_const lo hi c : lo <= hi -> sum lo hi (fun _ => c) = (hi - lo) * c.
Proof.
  intros Hle.
  refine (sum_ind (fun k => k <= hi -> sum k hi (fun _ => c) = (hi - k) * c) lo hi _ _ Hle).
  - intros k Hk Hk'. replace k with hi by lia. rewrite sum_empty by lia. lia.
  - intros k Hk IH _. rewrite sum_first, IH by lia. lia.
Qed.

(** Sum over a list, used to state properties of unordered collections. *)
Definition lsum {A} (f : A -> Z) (l : list A) : Z := fold_right (fun a s => f a + s) 0 l.
Lemma lsum_app {A} (f : A -> Z) l1 l2 : lsum f (l1 ++ l2) = lsum f l1 + lsum f l2.
Proof. unfold lsum. induction l1; simpl in *; lia. Qed.
Lemma lsum_perm {A} (f : A -> Z) l1 l2 : Permutation l1 l2 -> lsum f l1 = lsum f l2.
Proof. unfold lsum. induction 1; simpl in *; lia. Qed.
Lemma lsum_ext {A} (f g : A -> Z) l : (forall a, In a l -> f a = g a) -> lsum f l = lsum g l.
Proof. unfold lsum. induction l; simpl; intros H; auto. rewrite H, IHl; auto. Qed.

(** ** Congruences *)

Lemma cong_refl p a : cong p a a.
Proof. exists 0. lia. Qed.
Lemma cong_sym p a b : cong p a b -> cong p b a.
Proof. intros [k H]. exists (- k). lia. Qed.
Lemma cong_trans p a b c : cong p a b -> cong p b c -> cong p a c.
Proof. intros [k H] [l H']. exists (k + l). lia. Qed.

Global Instance cong_equiv p : Equivalence (cong p).
Proof. split; red; [apply cong_refl | apply cong_sym | apply cong_trans]. Qed.

Global Instance cong_add p : Proper (cong p ==> cong p ==> cong p) Z.add.
Proof. intros a b [k H] c d [l H']. exists (k + l). lia. Qed.
Global Instance cong_sub p : Proper (cong p ==> cong p ==> cong p) Z.sub.
Proof. intros a b [k H] c d [l H']. exists (k - l). lia. Qed.
Global Instance cong_opp p : Proper (cong p ==> cong p) Z.opp.
Proof. intros a b [k H]. exists (- k). lia. Qed.
Global Instance cong_mul p : Proper (cong p ==> cong p ==> cong p) Z.mul.
Proof. intros a b [k H] c d [l H']. exists (k * c + b * l). nia. Qed.

Lemma cong_eq p a b : a = b -> cong p a b.
Proof. intros ->. reflexivity. Qed.

Lemma cong_mod p a : p <> 0 -> cong p (a mod p) a.
Proof. intros H. exists (- (a / p)). pose proof (Z.div_mod a p H). lia. Qed.

Lemma cong_iff_mod p a b : p <> 0 -> cong p a b <-> a mod p = b mod p.
Proof.
  intros Hp. split.
  - intros [k H]. replace a with (b + k * p) by lia. now apply Z.mod_add.
  - intros H. rewrite <- (cong_mod p a Hp), <- (cong_mod p b Hp), H. reflexivity.
Qed.

Lemma cong_dec p a b : {cong p a b} + {~ cong p a b}.
Proof. unfold cong. apply Znumtheory.Zdivide_dec. Qed.

Lemma cong_small p a b : cong p a b -> Z.abs (a - b) < p -> a = b.
Proof. intros [k H] Hs. assert (k = 0) by nia. lia. Qed.

Lemma cong_mul_p p k : cong p (k * p) 0.
Proof. exists k. lia. Qed.

Lemma sum_cong p lo hi f g :
  (forall i, lo <= i < hi -> cong p (f i) (g i)) -> cong p (sum lo hi f) (sum lo hi g).
Proof.
  intros H. revert H.
  refine (sum_ind (fun k => (forall i, k <= i < hi -> cong p (f i) (g i)) ->
     cong p (sum k hi f) (sum k hi g)) lo hi _ _).
  - intros k Hk _. now rewrite !sum_empty by lia.
  - intros k Hk IH H. rewrite !(sum_first k) by lia. rewrite IH, H; try lia; try reflexivity.
    intros; apply H; lia.
Qed.

(* prime moduli: no zero divisors *)
Lemma cong_0_mul p a b : Znumtheory.prime p -> cong p (a * b) 0 -> cong p a 0 \/ cong p b 0.
Proof.
  intros Hp H. unfold cong in *. rewrite Z.sub_0_r in *.
  rewrite !Z.sub_0_r. now apply Znumtheory.prime_mult.
Qed.

(** ** Induction over an interval *)
Lemma range_ind (P : Z -> Prop) lo hi : P lo -> (forall k, lo <= k < hi -> P k -> P (k + 1)) ->
  forall k, lo <= k <= hi -> P k.
Proof.
  intros H0 HS k Hk. replace k with (lo + Z.of_nat (Z.to_nat (k - lo))) by lia.
  assert (Hn : Z.of_nat (Z.to_nat (k - lo)) <= hi - lo) by lia. revert Hn. generalize (Z.to_nat (k - lo)).
  induction n as [|n IH]; intros Hn.
  - now replace (lo + Z.of_nat 0) with lo by lia.
  - replace (lo + Z.of_nat (S n)) with (lo + Z.of_nat n + 1) by lia. apply HS; [lia|]. apply IH. lia.
Qed.
