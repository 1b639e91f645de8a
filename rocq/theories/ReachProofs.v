(** Proofs about the depth-first search of src/spasm_reach.c. *)
From Verif Require Import Base BaseFacts Spec SpecFacts Zp ZpFacts Mat MatFacts RowList Reach.

Section reach.
Context (A : csr) (HA : wf A) (qinv : list Z) (Hq : qinv_ok A qinv).
Local Notation m := (cm A).
Local Notation edge := (edge A qinv).
Local Notation path := (path A qinv).

Lemma path_trans a b c : path a b -> path b c -> path a c.
Proof. intros H1 H2. induction H2 as [|x y z H2 IH E]; auto. exact (path_step _ _ a y z (IH H1) E). Qed.

Lemma edge_range a b : edge a b -> 0 <= b < m.
Proof.
  intros (Ha & Hi & px & Hpx & <-). destruct Hq as (Hl & Hr). specialize (Hr a ltac:(lia)).
  apply (wf_col A HA). pose proof (wf_row A HA (get qinv a) ltac:(lia)). lia.
Qed.
Lemma path_range a b : 0 <= a < m -> path a b -> 0 <= b < m.
Proof. intros Ha H. inversion H; subst; auto. eapply edge_range; eauto. Qed.

(* indices in use: recursion stack and output *)
Definition V (head top k : Z) : Prop := 0 <= k <= head \/ top <= k < m.
Definition vis (head top : Z) (xj : list Z) (c : Z) : Prop := exists k, V head top k /\ get xj k = c.
Definition rlen (j : Z) : Z := rend A (get qinv j) - rbeg A (get qinv j).

(* xj[top:m] is a set of columns closed under edges, in topological order if there are
   no cycles *)
Record Done (top : Z) (xj : list Z) : Prop := {
  d_top : 0 <= top <= m;
  d_len : len xj = m;
  d_rng : forall k, top <= k < m -> 0 <= get xj k < m;
  d_inj : forall k l, top <= k < m -> top <= l < m -> get xj k = get xj l -> k = l;
  d_clo : forall k c, top <= k < m -> edge (get xj k) c -> exists l, top <= l < m /\ get xj l = c;
  d_topo : acyclic A qinv -> forall k c, top <= k < m -> edge (get xj k) c -> c <> get xj k ->
             exists l, k < l < m /\ get xj l = c
}.
Definition marked (mk : list Z) (top : Z) (xj : list Z) : Prop :=
  len mk = m /\ forall c, 0 <= c < m -> get mk c <> 0 <-> exists k, top <= k < m /\ get xj k = c.

Lemma pigeon l : NoDup l -> (forall c, In c l -> 0 <= c < m) -> len l <= m.
Proof.
  intros HN HI. pose proof (wf_m A HA) as Hm.
  assert (len l <= len (zseq 0 m)).
  { unfold len. apply inj_le. apply NoDup_incl_length; auto. intros c Hc. apply In_zseq. auto. }
  rewrite len_zseq in H. lia.
Qed.

Section dfs.
Context (js top0 : Z) (xj0 : list Z).

Record DI (head top : Z) (xj ps mk : list Z) : Prop := {
  i_head : -1 <= head < top;
  i_top : top <= top0 <= m;
  i_lx : len xj = m; i_lp : len ps = m; i_lm : len mk = m;
  i_rng : forall k, V head top k -> 0 <= get xj k < m;
  i_inj : forall k l, V head top k -> V head top l -> get xj k = get xj l -> k = l;
  i_mk : forall c, 0 <= c < m -> get mk c <> 0 -> vis head top xj c;
  i_km : forall k, V head top k -> k <> head -> get mk (get xj k) <> 0;
  i_ps : forall k, 0 <= k <= head -> get mk (get xj k) <> 0 -> 0 <= get qinv (get xj k) ->
           0 <= get ps k <= rlen (get xj k) /\
           forall u, 0 <= u < get ps k -> vis head top xj (get (cj A) (rbeg A (get qinv (get xj k)) + u));
  i_path : forall k l, 0 <= k <= l -> l <= head -> path (get xj k) (get xj l);
  i_clo : forall k c, top <= k < m -> edge (get xj k) c -> vis head top xj c;
  i_old : forall k, top0 <= k < m -> get xj k = get xj0 k;
  i_new : forall k, V head top k -> ~ top0 <= k < m -> path js (get xj k);
  i_topo : acyclic A qinv -> forall k c, top <= k < m -> edge (get xj k) c -> c <> get xj k ->
             exists l, k < l < m /\ get xj l = c;
  i_js : vis head top xj js
}.

(* count of columns in use *)
Lemma in_use head top xj ps mk : DI head top xj ps mk ->
  forall c, 0 <= c < m -> get mk c = 0 -> 0 <= head -> get mk (get xj head) <> 0 -> head + 1 < top.
Proof.
  intros I c Hc Hmc Hh Hmh.
  pose proof (i_head _ _ _ _ _ I). pose proof (i_top _ _ _ _ _ I).
  assert (Hk : forall k, V head top k -> get xj k <> c).
  { intros k Hk E. destruct (Z.eq_dec k head) as [->|Hne].
    - congruence.
    - apply (i_km _ _ _ _ _ I k Hk Hne). congruence. }
  set (I1 := zseq 0 (head + 1) ++ zseq top m).
  assert (HI1 : forall k, In k I1 -> V head top k).
  { intros k Hk'. apply in_app_or in Hk'. rewrite !In_zseq in Hk'. unfold V. lia. }
  assert (L : len (c :: map (get xj) I1) <= m).
  { apply pigeon.
    - constructor.
      + rewrite in_map_iff. intros (k & E & Hk'). exact (Hk k (HI1 k Hk') E).
      + assert (HN : NoDup I1).
        { apply NoDup_app; try apply NoDup_zseq. intros k H1 H2. apply In_zseq in H1, H2. lia. }
        clear - HN HI1 I. induction I1 as [|a l IH]; simpl; constructor.
        * inversion HN; subst. rewrite in_map_iff. intros (k & E & Hk').
          apply (i_inj _ _ _ _ _ I) in E; [congruence| |]; apply HI1; simpl; auto.
        * inversion HN; subst. apply IH; auto. intros; apply HI1; simpl; auto.
    - intros d [<-|Hd]; auto. apply in_map_iff in Hd. destruct Hd as (k & <- & Hk').
      apply (i_rng _ _ _ _ _ I). auto. }
  rewrite len_cons, len_map in L. unfold I1 in L. rewrite len_app, !len_zseq in L. lia.
Qed.

Lemma DI_mark head top xj ps mk : DI head top xj ps mk -> 0 <= head -> get mk (get xj head) = 0 ->
  DI head top xj (upd ps head 0) (upd mk (get xj head) 1).
Proof.
  intros I Hh Hm. pose proof (i_head _ _ _ _ _ I) as Ih. pose proof (i_top _ _ _ _ _ I) as It.
  pose proof (i_lm _ _ _ _ _ I) as Lm. pose proof (i_lp _ _ _ _ _ I) as Lp.
  assert (Vh : V head top head) by (left; lia).
  pose proof (i_rng _ _ _ _ _ I head Vh) as Rh.
  destruct I as [I1 I2 I3 I4 I5 I6 I7 I8 I9 I10 I11 I12 I13 I14 I15 I16].
  constructor; len; auto.
  - intros c Hc. rewrite get_upd_in by lia. destruct (Z.eqb_spec (get xj head) c) as [<-|]; auto.
    intros _. exists head. auto.
  - intros k Hk Hne. rewrite get_upd_in by lia. destruct (Z.eqb_spec (get xj head) (get xj k)); [lia|auto].
  - intros k Hk. rewrite (get_upd_in mk) by lia. destruct (Z.eqb_spec (get xj head) (get xj k)) as [E|E].
    + apply I7 in E; auto; [|left; lia]. subst k. intros _ Hi. rewrite get_upd_eq by lia. split; [|lia].
      pose proof (wf_row A HA (get qinv (get xj head))) as Hrow. destruct Hq as (_ & Hq2). specialize (Hq2 (get xj head) Rh).
      unfold rlen. lia.
    + intros H1 H2. rewrite get_upd_ne by (intros <-; congruence). apply I10; auto.
Qed.

Lemma DI_pop head top xj ps mk : DI head top xj ps mk -> 0 <= head -> get mk (get xj head) <> 0 ->
  (forall c, edge (get xj head) c -> vis head top xj c) ->
  DI (head - 1) (top - 1) (upd xj (top - 1) (get xj head)) ps mk.
Proof.
  intros I Hh Hm Hv. pose proof (i_head _ _ _ _ _ I) as Ih. pose proof (i_top _ _ _ _ _ I) as It.
  pose proof (i_lx _ _ _ _ _ I) as Lx.
  assert (Vh : V head top head) by (left; lia).
  pose proof (i_rng _ _ _ _ _ I head Vh) as Rh.
  destruct I as [I1 I2 I3 I4 I5 I6 I7 I8 I9 I10 I11 I12 I13 I14 I15 I16].
  set (xj' := upd xj (top - 1) (get xj head)).
  (* the entry moves from position head to position top - 1 *)
  set (old := fun k => if k =? top - 1 then head else k).
  assert (E : forall k, 0 <= k < m -> get xj' k = get xj (old k)).
  { intros k Hk. unfold xj', old. rewrite get_upd_in by lia. rewrite Z.eqb_sym.
    destruct (k =? top - 1); reflexivity. }
  assert (Hold : forall k, V (head - 1) (top - 1) k -> V head top (old k) /\ 0 <= k < m).
  { intros k Hk. unfold old, V in *. destruct (Z.eqb_spec k (top - 1)); lia. }
  assert (Hvis : forall c, vis head top xj c -> vis (head - 1) (top - 1) xj' c).
  { intros c (k & Hk & <-). destruct (Z.eq_dec k head) as [->|].
    - exists (top - 1). split; [right; lia|]. rewrite E by lia. unfold old. now rewrite Z.eqb_refl.
    - exists k. split; [unfold V in *; lia|]. rewrite E by (unfold V in *; lia).
      unfold old. replace (k =? top - 1) with false by (unfold V in *; lia). reflexivity. }
  constructor; auto.
  - lia.
  - lia.
  - unfold xj'. now len.
  - intros k Hk. destruct (Hold k Hk). rewrite E by auto. apply I6. auto.
  - intros k l Hk Hl. destruct (Hold k Hk), (Hold l Hl). rewrite !E by auto. intros HE. apply I7 in HE; auto.
    unfold old, V in *. destruct (Z.eqb_spec k (top - 1)), (Z.eqb_spec l (top - 1)); lia.
  - intros k Hk Hne. destruct (Hold k Hk). rewrite E by auto.
    destruct (Z.eq_dec (old k) head) as [->|]; auto.
  - intros k Hk H1 H2. assert (Ek : get xj' k = get xj k).
    { rewrite E by lia. unfold old. now replace (k =? top - 1) with false by lia. }
    rewrite Ek in *. destruct (I10 k) as [P1 P2]; auto; lia.
  - intros k l Hk Hl.
    rewrite !E by lia. unfold old. replace (k =? top - 1) with false by lia. replace (l =? top - 1) with false by lia.
    apply I11; lia.
  - intros k c Hk. rewrite E by lia. unfold old. destruct (Z.eqb_spec k (top - 1)).
    + intros He. auto.
    + intros He. apply Hvis, (I12 k); auto. lia.
  - intros k Hk. rewrite E by lia. unfold old. replace (k =? top - 1) with false by lia. auto.
  - intros k Hk Hn. destruct (Hold k Hk). rewrite E by auto. apply I14; auto.
    unfold old, V in *. destruct (Z.eqb_spec k (top - 1)); lia.
  - intros Hac k c Hk. rewrite E by lia. unfold old. destruct (Z.eqb_spec k (top - 1)) as [->|].
    + intros He Hne. destruct (Hv c He) as (l & [Hl|Hl] & <-).
      * exfalso. apply (Hac _ _ He). auto. apply I11; lia.
      * exists l. split; [lia|]. rewrite E by lia. unfold old. now replace (l =? top - 1) with false by lia.
    + intros He Hne. destruct (I15 Hac k c) as (l & Hl & <-); auto; [lia|]. exists l. split; auto.
      rewrite E by lia. unfold old. now replace (l =? top - 1) with false by lia.
Qed.

Lemma DI_push head top xj ps mk k c : DI head top xj ps mk -> 0 <= head -> get mk (get xj head) <> 0 ->
  edge (get xj head) c -> get mk c = 0 ->
  0 <= k < rlen (get xj head) -> get (cj A) (rbeg A (get qinv (get xj head)) + k) = c ->
  (forall u, 0 <= u < k -> vis head top xj (get (cj A) (rbeg A (get qinv (get xj head)) + u))) ->
  DI (head + 1) top (upd xj (head + 1) c) (upd ps head (k + 1)) mk.
Proof.
  intros I Hh Hm He Hc Hk Hkc Hu. pose proof (i_head _ _ _ _ _ I) as Ih. pose proof (i_top _ _ _ _ _ I) as It.
  pose proof (i_lx _ _ _ _ _ I) as Lx. pose proof (i_lp _ _ _ _ _ I) as Lp.
  pose proof (edge_range _ _ He) as Rc.
  pose proof (in_use _ _ _ _ _ I c Rc Hc Hh Hm) as Hroom.
  assert (Hnv : ~ vis head top xj c).
  { intros (l & Hl & E). destruct (Z.eq_dec l head) as [->|Hne].
    - congruence.
    - apply (i_km _ _ _ _ _ I l Hl Hne). congruence. }
  destruct I as [I1 I2 I3 I4 I5 I6 I7 I8 I9 I10 I11 I12 I13 I14 I15 I16].
  set (xj' := upd xj (head + 1) c).
  assert (E : forall l, 0 <= l < m -> get xj' l = if l =? head + 1 then c else get xj l).
  { intros l Hl. unfold xj'. rewrite get_upd_in by lia. now rewrite Z.eqb_sym. }
  assert (HV : forall l, V (head + 1) top l -> 0 <= l < m /\ (l = head + 1 \/ (l <> head + 1 /\ V head top l))).
  { intros l Hl. unfold V in *. lia. }
  assert (Hvis : forall d, vis head top xj d -> vis (head + 1) top xj' d).
  { intros d (l & Hl & <-). exists l. split; [unfold V in *; lia|]. rewrite E by (unfold V in *; lia).
    now replace (l =? head + 1) with false by (unfold V in *; lia). }
  assert (Hvc : vis (head + 1) top xj' c).
  { exists (head + 1). split; [left; lia|]. rewrite E by lia. now rewrite Z.eqb_refl. }
  constructor; auto.
  - lia.
  - unfold xj'. now len.
  - now len.
  - intros l Hl. destruct (HV l Hl) as (Hl' & [->|[Hne Hl2]]); rewrite E by auto.
    + rewrite Z.eqb_refl. auto.
    + replace (l =? head + 1) with false by lia. auto.
  - intros l l' Hl Hl'. destruct (HV l Hl) as (Hr & Hl1), (HV l' Hl') as (Hr' & Hl1'). rewrite !E by auto.
    destruct (Z.eqb_spec l (head + 1)), (Z.eqb_spec l' (head + 1)); try lia.
    + intros ->. exfalso. apply Hnv. exists l'. split; auto. tauto.
    + intros <-. exfalso. apply Hnv. exists l. split; auto. tauto.
    + apply I7; tauto.
  - intros l Hl Hne. destruct (HV l Hl) as (Hl' & [->|[Hne' Hl2]]); [lia|]. rewrite E by auto.
    replace (l =? head + 1) with false by lia. destruct (Z.eq_dec l head) as [->|]; auto.
  - intros l Hl. rewrite E by lia. destruct (Z.eqb_spec l (head + 1)).
    + intros H1. congruence.
    + intros H1 H2. rewrite get_upd_in by lia. destruct (Z.eqb_spec head l).
      * subst l. split; [lia|]. intros u Hu'. destruct (Z.eq_dec u k) as [->|]; [now rewrite Hkc|].
        apply Hvis, Hu. lia.
      * destruct (I10 l) as [P1 P2]; auto; lia.
  - intros l l' Hl Hl'. rewrite !E by lia.
    destruct (Z.eqb_spec l (head + 1)), (Z.eqb_spec l' (head + 1)); try lia.
    + constructor.
    + eapply path_step; [|exact He]. apply I11; lia.
    + apply I11; lia.
  - intros l d Hl. rewrite E by lia. replace (l =? head + 1) with false by lia.
    intros He'. apply Hvis, (I12 l); auto.
  - intros l Hl. rewrite E by lia. replace (l =? head + 1) with false by lia. auto.
  - intros l Hl Hn. destruct (HV l Hl) as (Hl' & [->|[Hne' Hl2]]); rewrite E by auto.
    + rewrite Z.eqb_refl. eapply path_step; [|exact He]. apply I14; [left|]; lia.
    + replace (l =? head + 1) with false by lia. auto.
  - intros Hac l d Hl. rewrite E by lia. replace (l =? head + 1) with false by lia. intros He' Hne.
    destruct (I15 Hac l d) as (l' & Hl' & <-); auto. exists l'. split; auto. rewrite E by lia.
    now replace (l' =? head + 1) with false by lia.
Qed.

Definition DIs (st : dfs_state) : Prop :=
  let '(head, top, xj, ps, mk) := st in DI head top xj ps mk.
Definition mu (st : dfs_state) : Z := let '(head, top, xj, ps, mk) := st in 2 * top - head.

Lemma dfs_step_ok st : DIs st -> sat (dfs_step A qinv st) (fun o => match o with
  | inl st' => DIs st' /\ 0 <= mu st' < mu st
  | inr (top, xj, ps, mk) => DI (-1) top xj ps mk
  end).
Proof.
  destruct st as [[[[head top] xj] ps] mk]. intros I. unfold DIs in I. unfold dfs_step.
  pose proof (i_head _ _ _ _ _ I) as Ih. pose proof (i_top _ _ _ _ _ I) as It.
  pose proof (i_lx _ _ _ _ _ I) as Lx. pose proof (i_lp _ _ _ _ _ I) as Lp. pose proof (i_lm _ _ _ _ _ I) as Lm.
  destruct (Z.ltb_spec head 0). { wp. now replace (-1) with head by lia. }
  assert (Vh : V head top head) by (left; lia).
  pose proof (i_rng _ _ _ _ _ I head Vh) as Rh. destruct Hq as (Hq1 & Hq2).
  apply sat_bind, sat_aget; [lia|]. apply sat_bind, sat_aget; [lia|]. apply sat_bind, sat_aget; [lia|].
  apply sat_bind.
  apply (sat_mono _ (fun '(mk', ps') => DI head top xj ps' mk' /\ get mk' (get xj head) <> 0)).
  { destruct (Z.eqb_spec (get mk (get xj head)) 0); wp; try lia; auto.
    split; [now apply DI_mark|]. rewrite get_upd_eq; lia. }
  change (mu (head, top, xj, ps, mk)) with (2 * top - head). clear ps mk I Lp Lm. intros [mk ps] (I & Hmk).
  pose proof (i_lp _ _ _ _ _ I) as Lp. pose proof (i_lm _ _ _ _ _ I) as Lm.
  destruct (Z.ltb_spec (get qinv (get xj head)) 0).
  { wp; [lia|]. split; [|unfold mu; lia]. apply DI_pop; auto.
    intros c (_ & Hc & _). lia. }
  pose proof (Hq2 _ Rh) as Hi. pose proof (wf_row A HA (get qinv (get xj head)) ltac:(lia)) as Hrow.
  pose proof (wf_len A HA) as Hl.
  destruct (i_ps _ _ _ _ _ I head ltac:(lia) Hmk ltac:(lia)) as (P1 & P2).
  apply sat_bind, sat_aget; [lia|]. apply sat_bind, sat_aget; [lia|]. apply sat_bind, sat_aget; [lia|].
  fold (rbeg A (get qinv (get xj head))) (rend A (get qinv (get xj head))).
  set (i := get qinv (get xj head)) in *.
  change (rend A i - rbeg A i) with (rlen (get xj head)).
  assert (Hcol : forall u, 0 <= u < rlen (get xj head) -> 0 <= rbeg A i + u < len (cj A) /\ 0 <= get (cj A) (rbeg A i + u) < m).
  { intros u Hu. unfold rlen in Hu. fold i in Hu. pose proof (wf_nnz A HA). split; [lia|]. apply (wf_col A HA). lia. }
  apply sat_bind.
  apply (forb_spec (fun k _ => forall u, 0 <= u < k -> vis head top xj (get (cj A) (rbeg A i + u)))); auto.
  - lia.
  - intros k _ Hk Hv. destruct (Hcol k ltac:(lia)) as [C1 C2].
    assert (He : edge (get xj head) (get (cj A) (rbeg A i + k))).
    { split; [lia|]. split; [fold i; lia|]. exists (rbeg A i + k). fold i. split; auto. unfold rlen in Hk. fold i in Hk. lia. }
    apply sat_bind, sat_aget; [lia|]. apply sat_bind, sat_aget; [lia|].
    destruct (Z.eqb_spec (get mk (get (cj A) (rbeg A i + k))) 0).
    + (* push *)
      pose proof (in_use _ _ _ _ _ I _ C2 ltac:(lia) ltac:(lia) Hmk).
      wp; try lia.
      split; [|unfold mu; lia]. apply (DI_push head top xj ps mk k _ I); auto; lia.
    + wp. intros u Hu. destruct (Z.eq_dec u k) as [->|]; [|apply Hv; lia].
      apply (i_mk _ _ _ _ _ I); auto.
  - intros _ Hv. cbv beta iota. replace (get ps head <=? rlen (get xj head)) with true by lia.
    wp; [lia|]. split; [|unfold mu; lia]. apply DI_pop; auto.
    intros c (_ & _ & px & Hpx & <-). fold i in Hpx.
    replace px with (rbeg A i + (px - rbeg A i)) by lia. apply Hv. unfold rlen. fold i. lia.
Qed.
End dfs.

(* the search from js adds exactly the unmarked columns reachable from js *)
Theorem dfs_ok js top xj ps mk : Done top xj -> marked mk top xj -> len ps = m ->
  0 <= js < m -> get mk js = 0 ->
  sat (dfs A qinv js top xj ps mk) (fun '(top', xj', ps', mk') =>
    Done top' xj' /\ marked mk' top' xj' /\ len ps' = m /\ top' <= top /\
    (forall k, top <= k < m -> get xj' k = get xj k) /\
    (forall k, top' <= k < top -> path js (get xj' k)) /\
    (exists k, top' <= k < m /\ get xj' k = js)).
Proof.
  intros [D1 D2 D3 D4 D5 D6] [M1 M2] Lp Hjs Hmjs. unfold dfs.
  assert (Htop : 0 < top).
  { assert (L : len (js :: map (get xj) (zseq top m)) <= m).
    { apply pigeon.
      - constructor.
        + rewrite in_map_iff. intros (k & E & Hk). apply In_zseq in Hk.
          apply (M2 js); auto. exists k. auto.
        + assert (G : forall l, NoDup l -> (forall k, In k l -> top <= k < m) -> NoDup (map (get xj) l)).
          { induction l as [|a l IH]; intros HN HI; simpl; constructor; inversion HN; subst.
            - rewrite in_map_iff. intros (k & E & Hk). apply D4 in E; [congruence| |]; apply HI; simpl; auto.
            - apply IH; auto. intros; apply HI; simpl; auto. }
          apply G; [apply NoDup_zseq|]. intros k. apply In_zseq.
      - intros c [<-|Hc]; auto. apply in_map_iff in Hc. destruct Hc as (k & <- & Hk). apply In_zseq in Hk. auto. }
    rewrite len_cons, len_map, len_zseq in L. lia. }
  wp. { lia. }
  assert (E : forall k, 0 <= k < m -> get (upd xj 0 js) k = if k =? 0 then js else get xj k).
  { intros k Hk. rewrite get_upd_in by lia. now rewrite Z.eqb_sym. }
  assert (I : DI js top xj 0 top (upd xj 0 js) ps mk).
  { constructor; len; auto; try lia.
    - intros k [Hk|Hk]; rewrite E by lia; destruct (Z.eqb_spec k 0); auto; lia.
    - intros k l Hk Hl. unfold V in *. rewrite !E by lia.
      destruct (Z.eqb_spec k 0), (Z.eqb_spec l 0); try lia.
      + intros Eq. exfalso. apply (M2 js); auto. exists l. split; [lia|auto].
      + intros Eq. exfalso. apply (M2 js); auto. exists k. split; [lia|auto].
      + apply D4; lia.
    - intros c Hc Hm. apply M2 in Hm; auto. destruct Hm as (k & Hk & <-). exists k. split; [right; auto|].
      rewrite E by lia. now replace (k =? 0) with false by lia.
    - intros k [Hk|Hk] Hne; [lia|]. rewrite E by lia. replace (k =? 0) with false by lia.
      apply M2; auto. exists k. auto.
    - intros k Hk. rewrite E by lia. replace (k =? 0) with true by lia. congruence.
    - intros k l Hk Hl. rewrite !E by lia. replace (k =? 0) with true by lia. replace (l =? 0) with true by lia. constructor.
    - intros k c Hk. rewrite E by lia. replace (k =? 0) with false by lia. intros He.
      destruct (D5 k c Hk He) as (l & Hl & <-). exists l. split; [right; auto|]. rewrite E by lia.
      now replace (l =? 0) with false by lia.
    - intros k Hk. rewrite E by lia. now replace (k =? 0) with false by lia.
    - intros k [Hk|Hk] Hn; [|lia]. rewrite E by lia. replace (k =? 0) with true by lia. constructor.
    - intros Hac k c Hk. rewrite E by lia. replace (k =? 0) with false by lia. intros He Hne.
      destruct (D6 Hac k c Hk He Hne) as (l & Hl & <-). exists l. split; auto. rewrite E by lia.
      now replace (l =? 0) with false by lia.
    - exists 0. split; [left; lia|]. now rewrite E by lia. }
  apply (loop_spec (DIs js top xj) mu); [|exact I|unfold mu; lia].
  intros st Hst. eapply sat_mono; [now apply (dfs_step_ok js top xj)|].
  intros [st'|[[[top' xj'] ps'] mk']]; auto. clear I E. intros I.
  assert (Vk : forall k, V (-1) top' k <-> top' <= k < m) by (unfold V; lia).
  destruct I as [I1 I2 I3 I4 I5 I6 I7 I8 I9 I10 I11 I12 I13 I14 I15 I16].
  assert (Hvis : forall c, vis (-1) top' xj' c -> exists k, top' <= k < m /\ get xj' k = c).
  { intros c (k & Hk & Ec). exists k. rewrite <- Vk. auto. }
  split; [|split; [|split; [auto|split; [lia|split; [auto|split]]]]].
  - constructor; auto; try lia.
    + intros k Hk. apply I6, Vk, Hk.
    + intros k l Hk Hl. apply I7; apply Vk; auto.
    + intros k c Hk He. apply Hvis. eauto.
  - split; auto. intros c Hc. split.
    + intros Hm. apply Hvis. auto.
    + intros (k & Hk & <-). apply I9; [now apply Vk|lia].
  - intros k Hk. apply I14; [apply Vk; lia|lia].
  - apply Hvis, I16.
Qed.

Lemma Done_path top xj k c : Done top xj -> top <= k < m -> path (get xj k) c ->
  exists l, top <= l < m /\ get xj l = c.
Proof.
  intros D Hk H. remember (get xj k) as a eqn:Ea. induction H as [a|a b c H IH He]; [eauto|].
  destruct (IH Ea) as (l & Hl & <-). apply (d_clo _ _ D l); auto.
Qed.

Theorem reach_ok B k xj ps mk : wf B -> cm B = m -> 0 <= k < cn B ->
  len xj = m -> len ps = m -> len mk = m -> (forall c, 0 <= c < m -> get mk c = 0) ->
  sat (reach A B k m qinv xj ps mk) (fun '(top', xj', ps', mk') =>
    Done top' xj' /\ len ps' = m /\ len mk' = m /\ (forall c, 0 <= c < m -> get mk' c = 0) /\
    (forall c, (exists l, top' <= l < m /\ get xj' l = c) <-> exists s, stored B k s /\ path s c)).
Proof.
  intros HB Hm Hk Lx Lp Lm Hz. unfold reach. pose proof (wf_m A HA) as Hm0.
  pose proof (wf_row B HB k Hk) as Hrow. pose proof (wf_len B HB) as Hlen. pose proof (wf_nnz B HB).
  wp; try lia.
  fold (rbeg B k) (rend B k).
  apply (for_spec (fun px '(top, xj, ps, mk) =>
    Done top xj /\ marked mk top xj /\ len ps = m /\
    (forall l, top <= l < m -> exists s, stored B k s /\ path s (get xj l)) /\
    (forall px', rbeg B k <= px' < px -> exists l, top <= l < m /\ get xj l = get (cj B) px'))).
  - lia.
  - split; [constructor; auto; lia|]. split; [split; auto; intros c Hc; split; [intros E; elim E; auto|intros (l & Hl & _); lia]|].
    split; auto. split; intros; lia.
  - intros px [[[top xj1] ps1] mk1] Hpx (D & M & Lp1 & P1 & P2).
    pose proof (wf_col B HB px ltac:(lia)) as Hc. destruct M as (M1 & M2).
    apply sat_bind, sat_aget; [lia|]. apply sat_bind, sat_aget; [lia|].
    set (j := get (cj B) px) in *.
    assert (Hs : stored B k j) by (exists px; auto).
    destruct (Z.eqb_spec (get mk1 j) 0).
    + eapply sat_mono; [apply (dfs_ok j top xj1 ps1 mk1); auto; [split; auto|lia]|].
      intros [[[top' xj'] ps'] mk'] (D' & M' & Lp' & T & Ho & Hn & (l0 & Hl0 & E0)). split; auto. split; auto. split; auto.
      split.
      * intros l Hl. destruct (Z_lt_dec l top).
        -- exists j. split; auto.  apply Hn. lia.
        -- rewrite Ho by lia. apply P1. lia.
      * intros px' Hp'. destruct (Z.eq_dec px' px) as [->|].
        -- exists l0. auto.
        -- destruct (P2 px' ltac:(lia)) as (l & Hl & El). exists l. split; [lia|]. rewrite Ho by lia. auto.
    + wp. split; auto. split; [split; auto|]. split; auto. split; auto.
      intros px' Hp'. destruct (Z.eq_dec px' px) as [->|].
      * apply M2; auto. lia.
      * apply P2. lia.
  - intros [[[top xj1] ps1] mk1] (D & (M1 & M2) & Lp1 & P1 & P2).
    apply sat_bind. pose proof (d_top _ _ D) as Dt. pose proof (d_len _ _ D) as Dl.
    apply (for_spec (fun px mk' => len mk' = m /\ (forall c, 0 <= c < m -> get mk' c <> 0 -> exists l, px <= l < m /\ get xj1 l = c))).
    + lia.
    + split; auto. intros c Hc. apply M2. auto.
    + intros px mk' Hpx (M1' & M2'). pose proof (d_rng _ _ D px ltac:(lia)). wp; try lia.
      len. split; auto. intros c Hc. rewrite get_upd_in by lia. destruct (Z.eqb_spec (get xj1 px) c); [lia|].
      intros Hne. destruct (M2' c Hc Hne) as (l & Hl & <-). exists l. split; auto.
      assert (l <> px) by congruence. lia.
    + intros mk' (M1' & M2'). wp. split; auto. split; auto. split; auto. split.
      * intros c Hc. destruct (Z.eq_dec (get mk' c) 0); auto. destruct (M2' c Hc ltac:(auto)) as (l & Hl & _). lia.
      * intros c. split.
        -- intros (l & Hl & <-). auto.
        -- intros (s & (px & Hpx & <-) & Hp). destruct (P2 px ltac:(lia)) as (l & Hl & El).
           apply (Done_path _ _ l c D Hl). now rewrite El.
Qed.
End reach.
