(** Proofs about interleavings (Sched.v). *)
From Verif Require Import Base BaseFacts Spec Mat MatFacts Sched RowList ParProofs.
From Coq Require Import ZifyBool.

Section sched.
Context {C : Type} (step : Z -> C -> res (option C)) (done : C -> bool) (N : Z).
Context (good : C -> Prop) (mu : C -> Z).
Context (Hstep : forall c t, good c -> 0 <= t < N ->
  sat (step t c) (fun o => match o with None => True | Some c' => good c' /\ 0 <= mu c' < mu c end)).
Context (Hprog : forall c, good c -> done c = false -> exists t, 0 <= t < N /\ scan step c t = true).
Context (Hdone : forall c t, good c -> 0 <= t < N -> done c = true -> step t c = Ok None).
Let run1 := srun1 step.
Let par := spar step done N.

Lemma srun1_ok c t : good c -> 0 <= t < N -> sat (run1 c t) (fun c' => good c' /\
  (c' = c /\ scan step c t = false \/ scan step c t = true /\ 0 <= mu c' < mu c)).
Proof.
  intros HG Ht. pose proof (Hstep c t HG Ht) as HS. unfold run1, srun1, scan.
  destruct (step t c) as [[c'|]|]; cbn in *; auto. destruct HS. auto.
Qed.
Lemma srun_ok sched : forall c, good c -> (forall t, In t sched -> 0 <= t < N) -> sat (srun step sched c) good.
Proof.
  induction sched as [|t sched IH]; intros c HG Hs; cbn [srun]; [exact HG|].
  apply sat_bind. eapply sat_mono; [apply srun1_ok; auto; apply Hs; now left|]. cbv beta. intros c' (HG' & _).
  apply IH; auto. intros u Hu. apply Hs. now right.
Qed.
Lemma filter_scan c t : In t (filter (scan step c) (zseq 0 N)) <-> 0 <= t < N /\ scan step c t = true.
Proof. rewrite filter_In, In_zseq. reflexivity. Qed.

Lemma spar_ok ch fuel : forall k c, good c -> mu c <= Z.of_nat fuel ->
  sat (par fuel ch k c) (fun c' => good c' /\ done c' = true).
Proof.
  induction fuel as [|fuel IH]; intros k c HG Hf; unfold par in *; cbn [spar]; destruct (done c) eqn:Ed.
  - cbn. auto.
  - exfalso. destruct (Hprog c HG Ed) as (t & Ht & He). pose proof (srun1_ok c t HG Ht) as HR.
    destruct (run1 c t); [|easy]. cbn in HR. rewrite He in HR. destruct HR as [_ [[_ ?]|[_ ?]]]; [easy|lia].
  - cbn. auto.
  - destruct (Hprog c HG Ed) as (t & Ht & He).
    destruct (filter (scan step c) (zseq 0 N)) as [|a l] eqn:El.
    { exfalso. assert (Hi : In t []); [|easy]. rewrite <- El. apply filter_scan; auto. }
    rewrite <- El. set (u := getd 0 _ _).
    assert (Hu : In u (filter (scan step c) (zseq 0 N))).
    { unfold u. rewrite El. apply (get_In (a :: l)). rewrite len_cons. apply Z.mod_pos_bound. pose proof (len_nonneg l). lia. }
    apply filter_scan in Hu. destruct Hu as [Hu Hc].
    pose proof (srun1_ok c u HG Hu) as HR. fold (run1 c u). destruct (run1 c u) as [c'|]; [|easy].
    cbn in HR. rewrite Hc in HR. destruct HR as [HG' [[_ ?]|[_ Hlt]]]; [easy|]. cbn [bind].
    apply IH; auto. lia.
Qed.

(* every complete sequence of steps is followed for some ch *)
Lemma spar_complete sched : forall c fuel k c', good c -> mu c <= Z.of_nat fuel -> (forall t, In t sched -> 0 <= t < N) ->
  srun step sched c = Ok c' -> done c' = true -> exists ch, par fuel ch k c = Ok c'.
Proof.
  induction sched as [|t sched IH]; intros c fuel k c' HG Hf Hs Hr Hd; cbn [srun] in Hr.
  - injection Hr as <-. exists (fun _ => 0). destruct fuel; cbn; now rewrite Hd.
  - fold (run1 c t) in Hr. destruct (run1 c t) as [c1|] eqn:E1; [|easy]. cbn [bind] in Hr.
    assert (Ht : 0 <= t < N) by (apply Hs; now left).
    assert (Hs' : forall t, In t sched -> 0 <= t < N) by (intros u Hu; apply Hs; now right).
    pose proof (srun1_ok c t HG Ht) as HR. rewrite E1 in HR. destruct HR as [HG1 [[-> _]|[Hsc Hlt]]]; [eapply IH; eauto|].
    destruct (done c) eqn:Ed.
    { exfalso. unfold scan in Hsc. now rewrite (Hdone c t HG Ht Ed) in Hsc. }
    destruct fuel as [|fuel]; [lia|].
    destruct (IH c1 fuel (k + 1) c' HG1 ltac:(lia) Hs' Hr Hd) as (ch & Hch).
    assert (Hin : In t (filter (scan step c) (zseq 0 N))) by (apply filter_scan; auto).
    apply In_get in Hin. destruct Hin as (x & Hx & Ex).
    exists (fun q => if q =? k then x else ch q). unfold par in *. cbn [spar]. rewrite Ed.
    destruct (filter (scan step c) (zseq 0 N)) as [|a l] eqn:El.
    { change (len (@nil Z)) with 0 in Hx. lia. }
    rewrite Z.eqb_refl, Z.mod_small by lia. unfold get in Ex. rewrite Ex. fold (run1 c t). rewrite E1. cbn [bind].
    rewrite <- Hch. assert (Hk : k < k + 1) by lia. revert Hk. generalize (k + 1) as q. generalize c1 as d.
    clear. induction fuel as [|fuel IH]; intros d q Hq; cbn [spar]; auto.
    destruct (done d); auto. replace (q =? k) with false by lia.
    destruct (filter (scan step d) (zseq 0 N)); auto. destruct (srun1 _ _ _); cbn; auto. apply IH. lia.
Qed.

Theorem sched_ok fuel c0 : good c0 -> mu c0 <= Z.of_nat fuel ->
  sched_safe step done N fuel c0 /\ (forall ch, sat (spar step done N fuel ch 0 c0) (fun c => good c /\ done c = true)).
Proof.
  intros HG Hf. assert (HP : forall ch, sat (spar step done N fuel ch 0 c0) (fun c => good c /\ done c = true)).
  { intros ch. apply spar_ok; auto. }
  split; auto. split.
  - intros sched Hs. pose proof (srun_ok sched c0 HG Hs) as HR. destruct (srun step sched c0) as [c|] eqn:E; [|easy]. cbn in *.
    split; [now apply Hprog|]. intros Hd. eapply spar_complete; eauto.
  - intros ch. specialize (HP ch). destruct (spar step done N fuel ch 0 c0); [eauto|easy].
Qed.
End sched.
