(** Runs of the parallel construction of a matrix: safety, absence of races, progress,
    termination and final result (Par.v, ParProofs.v). *)
From Verif Require Import Base BaseFacts Spec Mat MatFacts RowList Par ParProofs.
From Coq Require Import Permutation ZifyBool.

Section run.
Context (g : Z -> Z -> Z) (hasL : bool) (lextra : Z) (T : Z -> task) (N R l0 : Z) (m0 : buf -> list Z).
Context (OK : tasks_ok hasL lextra T N R l0 m0).
Notation Inv := (Inv hasL T N l0 m0).
Notation act := (act T).
Notation ssz := (ssz T).
Notation lsz := (lsz T).
Notation soff := (soff T).
Notation loff := (loff T l0).
Notation run1 := (run1 g hasL lextra T).
Notation run := (run g hasL lextra T).

Lemma Inv_ext o h P P' : (forall t, P t = P' t) -> Inv o h P -> Inv o h P'.
Proof.
  intros E V. destruct V. constructor; auto; try (intros; rewrite <- E in *; eauto; fail).
  - rewrite v_writing. apply sum_ext. intros. now rewrite E.
  - intros H. apply v_lnz2. intros. rewrite E. auto.
Qed.

Definition good (c : config) : Prop := len (snd c) = N /\ exists o, Inv o (fst c) (getd Fin (snd c)).

Definition c0 : config := (Shared None 0 0 0 l0 m0, start T N).

Lemma len_start : len (start T N) = N.
Proof. unfold start. rewrite len_map, len_zseq. pose proof (ok_N _ _ _ _ _ _ _ OK). lia. Qed.
Lemma get_start t : getd Fin (start T N) t = if (0 <=? t) && (t <? N) && act t then Start else Fin.
Proof.
  destruct ((0 <=? t) && (t <? N)) eqn:E; cbn [andb].
  - unfold start. rewrite (getd_map _ (-1)) by (rewrite len_zseq; lia). rewrite getd_zseq by lia. reflexivity.
  - apply getd_out. rewrite len_start. lia.
Qed.

Lemma good_c0 : good c0.
Proof.
  split. { apply len_start. } exists []. unfold c0.
  assert (HP : forall t, getd Fin (start T N) t = Start \/ getd Fin (start T N) t = Fin).
  { intros t. rewrite get_start. destruct (_ && act t); auto. }
  constructor; cbn [fst snd s_lock s_writing s_n s_nz s_lnz s_mem len length Z.of_nat]; auto; try (intros; lia); try congruence.
  - intros t Ht. destruct (HP t) as [-> | ->]; cbn; split; congruence.
  - symmetry. apply sum_zero. intros i _. destruct (HP i) as [-> | ->]; auto.
  - constructor.
  - intros t. split; [easy|]. intros (Ht & Ha & Hr). rewrite get_start in Hr.
    replace ((0 <=? t) && (t <? N)) with true in Hr by lia. unfold ParProofs.act in *. rewrite Ha in Hr. easy.
  - intros t Ht Ha. rewrite get_start. unfold ParProofs.act in *. rewrite Ha. now rewrite andb_false_r.
  - intros t Ht. destruct (HP t) as [-> | ->]; cbn; congruence.
  - intros _. unfold ParProofs.loff. change (len (@nil Z)) with 0. rewrite psum_0. lia.
  - apply (ok_SX _ _ _ _ _ _ _ OK).
  - apply (ok_LJ _ _ _ _ _ _ _ OK).
  - apply (ok_LX _ _ _ _ _ _ _ OK).
  - apply len_nonneg.
  - apply (ok_LI _ _ _ _ _ _ _ OK).
  - intros t Ht. destruct (HP t) as [-> | ->]; cbn; congruence.
  - intros t i s Ht. destruct (HP t) as [-> | ->]; cbn; congruence.
Qed.

(* the steps still to be done by a task *)
Definition todo_pc (t : Z) (p : pc) : Z :=
  match p with
  | Start => 12 + len (t_prog (T t)) | ChkS => 11 + len (t_prog (T t)) | WaitS => 10 + len (t_prog (T t))
  | GrowS => 9 + len (t_prog (T t)) | ResS => 8 + len (t_prog (T t)) | ChkL _ _ => 7 + len (t_prog (T t))
  | WaitL _ _ => 6 + len (t_prog (T t)) | GrowL _ _ => 5 + len (t_prog (T t)) | ResL _ _ => 4 + len (t_prog (T t))
  | IncW _ _ _ => 3 + len (t_prog (T t)) | Unlock _ _ _ => 2 + len (t_prog (T t))
  | Write _ _ _ r => 1 + len r
  | Fin => 0
  end.
Definition todo (c : config) : Z := sum 0 N (fun t => todo_pc t (getd Fin (snd c) t)).

Lemma todo_nonneg c : 0 <= todo c.
Proof.
  apply sum_nonneg. intros t _. pose proof (len_nonneg (t_prog (T t))).
  destruct (getd Fin (snd c) t) as [| | | | |i1 s1|i1 s1|i1 s1|i1 s1|i1 s1 l1|i1 s1 l1|i1 s1 l1 ws|]; cbn [todo_pc]; try lia. pose proof (len_nonneg ws). lia.
Qed.

Definition enabled (c : config) (t : Z) : Prop := exists c', run1 c t = Ok c' /\ todo c' < todo c.

Lemma step_todo t p h r : step g hasL lextra (T t) t p h = Ok (Some r) -> todo_pc t (fst r) < todo_pc t p.
Proof.
  pose proof (len_nonneg (t_prog (T t))).
  destruct h as [lock w n nz lnz mem]. destruct p as [| | | | |i1 s1|i1 s1|i1 s1|i1 s1|i1 s1 l1|i1 s1 l1|i1 s1 l1 ws|]; cbn [step]; try congruence.
  - destruct lock; [congruence|]. intros [= <-]. cbn [fst todo_pc]. lia.
  - intros [= <-]. cbn [fst todo_pc]. destruct (_ >? _); cbn [todo_pc]; lia.
  - destruct (_ >? _); [congruence|]. intros [= <-]. cbn [fst todo_pc]. lia.
  - intros [= <-]. cbn [fst todo_pc]. lia.
  - intros [= <-]. cbn [fst todo_pc]. lia.
  - intros [= <-]. cbn [fst todo_pc]. destruct (_ && _); cbn [todo_pc]; lia.
  - destruct (_ >? _); [congruence|]. intros [= <-]. cbn [fst todo_pc]. lia.
  - intros [= <-]. cbn [fst todo_pc]. lia.
  - intros [= <-]. cbn [fst todo_pc]. lia.
  - intros [= <-]. cbn [fst todo_pc]. lia.
  - intros [= <-]. cbn [fst todo_pc]. lia.
  - destruct ws as [|x r']. { intros [= <-]. cbn [fst todo_pc]. change (len (@nil wr)) with 0. lia. }
    unfold bind. destruct (aset _ _ _); [|congruence]. intros [= <-]. cbn [fst todo_pc]. rewrite len_cons. lia.
Qed.

Lemma run1_ok c t : good c -> sat (run1 c t) (fun c' => good c' /\ (c' = c \/ todo c' < todo c)).
Proof.
  intros [Hl (o & V)]. destruct c as [h pcs]. cbn [fst snd] in *. unfold Par.run1.
  destruct (inb pcs t) eqn:E; [|cbn; split; auto; split; eauto]. unfold inb in E.
  assert (Ht : 0 <= t < N) by lia.
  pose proof (step_ok g hasL lextra T N R l0 m0 OK o h _ t V Ht) as HS.
  destruct (step g hasL lextra (T t) t (getd Fin pcs t) h) as [[[p h']|]|] eqn:ES; cbn in HS; [| |easy].
  - cbn. destruct HS as [(o' & V') Hn].
    assert (Hg : forall u, getd Fin (upd pcs t p) u = setpc (getd Fin pcs) t p u).
    { intros u. destruct (Z.eq_dec u t) as [->|]. { rewrite getd_upd_eq by lia. now rewrite setpc_eq. }
      rewrite getd_upd_ne by auto. now rewrite setpc_ne. }
    split.
    + split; cbn [fst snd]; len; auto. exists o'. eapply Inv_ext; [|exact V']. intros u. now rewrite Hg.
    + right. unfold todo. cbn [fst snd].
      rewrite (sum_pick 0 N (fun u => todo_pc u (getd Fin (upd pcs t p) u)) t) by lia.
      rewrite (sum_pick 0 N (fun u => todo_pc u (getd Fin pcs u)) t) by lia.
      rewrite getd_upd_eq by lia. apply step_todo in ES. cbn in ES.
      rewrite (sum_ext 0 N (fun i => if i =? t then 0 else todo_pc i (getd Fin (upd pcs t p) i))
        (fun i => if i =? t then 0 else todo_pc i (getd Fin pcs i))). { lia. }
      intros i Hi. destruct (Z.eqb_spec i t); auto. now rewrite getd_upd_ne by auto.
  - cbn. split; auto. split; eauto.
Qed.

(* safety: no schedule leads to an out of bounds access *)
Theorem run_ok sched c : good c -> sat (run sched c) good.
Proof.
  revert c. induction sched as [|t sched IH]; intros c Hc; cbn; auto.
  apply sat_bind. eapply sat_mono; [apply (run1_ok c t Hc)|]. cbv beta. intros c' [Hc' _]. auto.
Qed.

Theorem good_norace c : good c -> ~ race T c.
Proof.
  intros [Hl (o & V)] (t & u & a & b & Hne & Ha & Hb & Hc). destruct c as [h pcs]. cbn [fst snd] in *.
  set (P := getd Fin pcs) in *.
  assert (Hin : forall t a, In a (accesses (T t) (P t) h) -> 0 <= t < N).
  { intros t' a' Ha'. destruct (Z_lt_le_dec t' 0) as [|]; [|destruct (Z_lt_le_dec t' N); [lia|]];
      unfold P in Ha'; rewrite getd_out in Ha' by lia; easy. }
  pose proof (Hin t a Ha) as Ht. pose proof (Hin u b Hb) as Hu. clear Hin.
  assert (Hk : forall t a, 0 <= t < N -> In a (accesses (T t) (P t) h) ->
    crit (P t) = true \/ exists w r k, P t = Write k (soff o k) (loff o k) (w :: r) /\ 0 <= k < len o /\ get o k = t /\
      In w (t_prog (T t)) /\ a = (Cell (w_buf w) (base (w_buf w) k (soff o k) (loff o k) + w_off w), true)).
  { clear - V. intros t a Ht Ha. destruct (P t) as [| | | | |i1 s1|i1 s1|i1 s1|i1 s1|i1 s1 l1|i1 s1 l1|i1 s1 l1 ws|] eqn:E; try (left; reflexivity); try easy. right.
    destruct ws as [|w r]; [easy|]. cbn in Ha. destruct Ha as [<-|[]].
    assert (Hina : act t = true).
    { destruct (act t) eqn:E'; auto. pose proof (v_inact _ _ _ _ _ _ _ _ V t Ht E'). fold P in H. congruence. }
    assert (Hi : In t o). { apply (v_in _ _ _ _ _ _ _ _ V). fold P. rewrite E. auto. }
    apply In_get in Hi. destruct Hi as (k & Hk & Ek).
    pose proof (v_loc _ _ _ _ _ _ _ _ V k Hk) as Hlo. pose proof (v_cont _ _ _ _ _ _ _ _ V k Hk) as Hco.
    fold P in Hlo, Hco. rewrite Ek, E in Hlo, Hco. cbn in Hlo. destruct Hlo as (-> & -> & ->).
    destruct Hco as (d & Hd & _). exists w, r, k. do 4 (split; [auto|]); auto. rewrite Hd, in_app_iff. cbn. auto. }
  pose proof (Hk t a Ht Ha) as Ka. pose proof (Hk u b Hu Hb) as Kb. clear Hk.
  assert (Hx : forall t u a b, 0 <= t < N -> 0 <= u < N -> crit (P t) = true -> In a (accesses (T t) (P t) h) ->
    wrt (P u) = true -> snd b = true -> (exists x k, fst b = Cell x k) -> overlap a b = true \/ overlap b a = true -> False).
  { clear - V. intros t u a b Ht Hu Hcr Ha Hw Hb (x & k & Hbc) Hov.
    assert (0 < s_writing h).
    { rewrite (v_writing _ _ _ _ _ _ _ _ V). fold P. apply (sum_pos 0 N _ u); auto; cbv beta.
      - rewrite Hw. reflexivity.
      - intros j _. unfold b2z. destruct (wrt (P j)); lia. }
    assert (growing (P t) = false).
    { destruct (growing (P t)) eqn:E; auto. pose proof (v_grow _ _ _ _ _ _ _ _ V t Ht E). lia. }
    destruct b as [bl bb]. cbn in Hb, Hbc. subst bl bb.
    destruct (P t); cbn in *; try easy;
      repeat match goal with H : _ \/ _ |- _ => destruct H | H : False |- _ => destruct H end; subst; cbn in *;
      rewrite ?andb_false_r in *; congruence. }
  destruct Ka as [Ka|(w & r & k & E & Hk & Ek & Hw & ->)].
  - destruct Kb as [Kb|(w & r & k & E & Hk & Ek & Hw & ->)].
    + pose proof (Inv_other hasL T N l0 m0 o h P t u V Ht Hu Ka). specialize (H ltac:(auto)). congruence.
    + apply (Hx t u a (Cell (w_buf w) (base (w_buf w) k (soff o k) (loff o k) + w_off w), true) Ht Hu Ka Ha); auto.
      { now rewrite E. } { cbn. eauto. } unfold conflict in Hc. apply andb_prop in Hc. tauto.
  - destruct Kb as [Kb|(w' & r' & k' & E' & Hk' & Ek' & Hw' & ->)].
    + apply (Hx u t b (Cell (w_buf w) (base (w_buf w) k (soff o k) (loff o k) + w_off w), true) Hu Ht Kb Hb); auto.
      { now rewrite E. } { cbn. eauto. } unfold conflict in Hc. apply andb_prop in Hc. tauto.
    + unfold conflict in Hc. cbn in Hc. rewrite andb_true_r in Hc. apply andb_prop in Hc. destruct Hc as [Hc1 Hc2].
      apply buf_eqb_iff in Hc1. revert Hc2. rewrite Z.eqb_eq.
      apply (cells_disjoint hasL lextra T N R l0 m0 OK o h P); auto; try congruence.
Qed.

Lemma all_done_false c : all_done c = false -> exists t, 0 <= t < len (snd c) /\ getd Fin (snd c) t <> Fin.
Proof.
  destruct c as [h pcs]. unfold all_done. cbn [fst snd]. induction pcs as [|p pcs IH]; cbn [forallb]; [congruence|].
  destruct p eqn:E; try (intros _; exists 0; rewrite len_cons; pose proof (len_nonneg pcs); split; [lia|cbn; congruence]).
  cbn [andb]. intros H. destruct (IH H) as (t & Ht & Hp). exists (t + 1). rewrite len_cons. split; [lia|].
  unfold getd in *. replace (t + 1 <? 0) with false by lia. replace (t <? 0) with false in Hp by lia.
  replace (Z.to_nat (t + 1)) with (S (Z.to_nat t)) by lia. exact Hp.
Qed.
Lemma all_done_true c t : all_done c = true -> getd Fin (snd c) t = Fin.
Proof.
  destruct c as [h pcs]. unfold all_done. cbn [fst snd]. rewrite forallb_forall. intros H.
  unfold getd. destruct (t <? 0); auto. destruct (nth_in_or_default (Z.to_nat t) pcs Fin) as [Hi|]; auto.
  apply H in Hi. now destruct (nth (Z.to_nat t) pcs Fin).
Qed.

(* absence of deadlock: until all is done, some task can make a step *)
Theorem good_progress c : good c -> all_done c = false -> exists t, 0 <= t < N /\ enabled c t.
Proof.
  intros HG Hd. pose proof HG as [Hl (o & V)]. apply all_done_false in Hd. destruct Hd as (t & Ht & Hp). rewrite Hl in Ht.
  set (P := getd Fin (snd c)) in *.
  assert (HE : forall u, 0 <= u < N -> match P u with Start => s_lock (fst c) = None | WaitS | WaitL _ _ => s_writing (fst c) <= 0 | Fin => False | _ => True end -> enabled c u).
  { intros u Hu Hm. pose proof (run1_ok c u HG) as HR.
    pose proof (step_ok g hasL lextra T N R l0 m0 OK o (fst c) P u V Hu) as HS.
    unfold enabled. destruct (run1 c u) as [c'|] eqn:ER; [|easy]. cbn in HR. exists c'. split; auto.
    destruct HR as [_ [->|HR]]; auto. exfalso.
    destruct c as [h pcs]. cbn [fst snd] in *. unfold Par.run1 in ER. unfold inb in ER.
    replace ((0 <=? u) && (u <? len pcs)) with true in ER by lia. fold P in ER.
    destruct (step g hasL lextra (T u) u (P u) h) as [[[p h']|]|] eqn:ES; cbn in HS, ER; [| |easy].
    - apply step_todo in ES. cbn in ES. injection ER as _ E2.
      assert (p = P u). { unfold P. rewrite <- E2 at 1. rewrite getd_upd_eq by lia. reflexivity. }
      subst p. lia.
    - destruct (P u); try easy; try lia. }
  destruct (s_lock (fst c)) as [u|] eqn:El.
  - pose proof (v_lockr _ _ _ _ _ _ _ _ V u El) as Hu. pose proof El as Hc. apply (v_lock _ _ _ _ _ _ _ _ V) in Hc; auto. fold P in Hc.
    assert (Hcase : (P u = WaitS \/ exists i s, P u = WaitL i s) \/ match P u with Start | WaitS | WaitL _ _ | Fin => False | _ => True end).
    { destruct (P u); cbn in *; auto; try congruence. left. eauto. }
    destruct Hcase as [Hcase|Hcase].
    2:{ exists u. split; auto. apply HE; auto. destruct (P u); easy. }
    destruct (Z_le_gt_dec (s_writing (fst c)) 0) as [Hw|Hw].
    { exists u. split; auto. apply HE; auto. destruct Hcase as [->|(i & s & ->)]; auto. }
    rewrite (v_writing _ _ _ _ _ _ _ _ V) in Hw. fold P in Hw.
    destruct (sum_pos_exists 0 N (fun t => b2z (wrt (P t))) ltac:(lia)) as (x & Hx & Hb).
    destruct (wrt (P x)) eqn:Ew; [|cbn in Hb; lia].
    destruct (P x) eqn:Ex; cbn in Ew; try congruence.
    + assert (x = u) as ->.
      { assert (s_lock (fst c) = Some x). { apply (v_lock _ _ _ _ _ _ _ _ V); auto. fold P. now rewrite Ex. } congruence. }
      destruct Hcase as [H|(? & ? & H)]; congruence.
    + exists x. split; auto. apply HE; auto. now rewrite Ex.
  - exists t. split; auto. apply HE; auto. destruct (P t) eqn:Ep; auto; try congruence;
      assert (None = Some t) by (rewrite <- El; apply (v_lock _ _ _ _ _ _ _ _ V); auto; fold P; now rewrite Ep); congruence.
Qed.

(* the scheduler *)
Lemma filter_enabled c t : good c -> In t (filter (can_step g hasL lextra T c) (zseq 0 N)) <-> 0 <= t < N /\ enabled c t.
Proof.
  intros HG. rewrite filter_In, In_zseq. split; intros [Ht H]; split; auto.
  - pose proof (run1_ok c t HG) as HR. unfold enabled. destruct HG as [Hl _].
    destruct c as [h pcs]. cbn [fst snd] in *. unfold can_step in H. cbn [fst snd] in H.
    unfold Par.run1, inb in *. replace ((0 <=? t) && (t <? len pcs)) with true in * by lia.
    destruct (step g hasL lextra (T t) t (getd Fin pcs t) h) as [[[p h']|]|] eqn:ES; cbn in *; try easy.
    eexists. split; [reflexivity|]. destruct HR as [_ [HR|HR]]; auto. exfalso.
    apply step_todo in ES. cbn in ES. injection HR as _ E2.
    assert (p = getd Fin pcs t). { rewrite <- E2 at 1. rewrite getd_upd_eq by lia. reflexivity. }
    subst p. lia.
  - destruct H as (c' & HR & Hlt). unfold can_step. destruct HG as [Hl _]. destruct c as [h pcs]. cbn [fst snd] in *.
    unfold Par.run1, inb in HR. replace ((0 <=? t) && (t <? len pcs)) with true in HR by lia.
    destruct (step g hasL lextra (T t) t (getd Fin pcs t) h) as [[[p h']|]|] eqn:ES; cbn in *; auto.
    injection HR as <-. lia.
Qed.

Lemma par_run_ok ch fuel : forall k c, good c -> todo c <= Z.of_nat fuel ->
  sat (par_run g hasL lextra T N fuel ch k c) (fun c' => good c' /\ all_done c' = true /\ exists sched, run sched c = Ok c').
Proof.
  induction fuel as [|fuel IH]; intros k c HG Hf; cbn [par_run]; destruct (all_done c) eqn:Ed.
  - cbn. split; auto. split; auto. now exists [].
  - exfalso. destruct (good_progress c HG Ed) as (t & _ & c' & _ & Hc). pose proof (todo_nonneg c'). lia.
  - cbn. split; auto. split; auto. now exists [].
  - destruct (good_progress c HG Ed) as (t & Ht & He).
    destruct (filter (can_step g hasL lextra T c) (zseq 0 N)) as [|a l] eqn:El.
    { exfalso. assert (Hi : In t []); [|easy]. rewrite <- El. apply filter_enabled; auto. }
    rewrite <- El. set (u := getd 0 _ _).
    assert (Hu : In u (filter (can_step g hasL lextra T c) (zseq 0 N))).
    { unfold u. rewrite El. apply (get_In (a :: l)). rewrite len_cons. apply Z.mod_pos_bound. pose proof (len_nonneg l). lia. }
    apply filter_enabled in Hu; auto. destruct Hu as [Hu (c' & Hr & Hlt)].
    pose proof (run1_ok c u HG) as HR. rewrite Hr in HR |- *. destruct HR as [HG' _]. cbn [bind].
    eapply sat_mono; [apply (IH (k + 1) c' HG' ltac:(lia))|]. cbv beta. intros c2 (H1 & H2 & sched & H3).
    split; auto. split; auto. exists (u :: sched). cbn. rewrite Hr. exact H3.
Qed.

Lemma fuel_ok : todo c0 <= Z.of_nat (par_fuel T N).
Proof.
  unfold par_fuel. enough (todo c0 <= sum 0 N (fun t => 12 + len (t_prog (T t)))) by lia.
  apply sum_le. intros t Ht. unfold c0. cbn [snd]. rewrite get_start. pose proof (len_nonneg (t_prog (T t))).
  destruct (_ && act t); cbn [todo_pc]; lia.
Qed.

(* every complete sequence of steps is followed for some ch *)
Lemma par_run_complete sched : forall c fuel k c', good c -> todo c <= Z.of_nat fuel -> run sched c = Ok c' -> all_done c' = true ->
  exists ch, par_run g hasL lextra T N fuel ch k c = Ok c'.
Proof.
  induction sched as [|t sched IH]; intros c fuel k c' HG Hf Hr Hd; cbn [Par.run] in Hr.
  - injection Hr as <-. exists (fun _ => 0). destruct fuel; cbn; now rewrite Hd.
  - destruct (run1 c t) as [c1|] eqn:E1; [|easy]. cbn [bind] in Hr.
    pose proof (run1_ok c t HG) as HR. rewrite E1 in HR. destruct HR as [HG1 HR].
    destruct (all_done c) eqn:Ed.
    + assert (c1 = c).
      { destruct HR as [|HR]; auto. exfalso. unfold todo in HR at 2. rewrite (sum_zero 0 N) in HR.
        - pose proof (todo_nonneg c1). lia.
        - intros i _. now rewrite (all_done_true c i Ed). }
      subst c1. eapply IH; eauto.
    + destruct (Z_lt_le_dec (todo c1) (todo c)) as [Hlt|Hge]; [|destruct HR as [->|]; [eapply IH; eauto|lia]].
      destruct fuel as [|fuel]. { pose proof (todo_nonneg c1). lia. }
      destruct (IH c1 fuel (k + 1) c' HG1 ltac:(lia) Hr Hd) as (ch & Hch).
      assert (Hin : In t (filter (can_step g hasL lextra T c) (zseq 0 N))).
      { apply filter_enabled; auto. split. 2:{ exists c1. auto. }
        destruct c as [h pcs]. destruct HG as [Hl _]. cbn in Hl. unfold Par.run1, inb in E1.
        destruct ((0 <=? t) && (t <? len pcs)) eqn:Eb; [lia|]. injection E1 as <-. lia. }
      apply In_get in Hin. destruct Hin as (x & Hx & Ex).
      exists (fun q => if q =? k then x else ch q). cbn [par_run]. rewrite Ed.
      destruct (filter (can_step g hasL lextra T c) (zseq 0 N)) as [|a l] eqn:El.
      { change (len (@nil Z)) with 0 in Hx. lia. }
      rewrite Z.eqb_refl, Z.mod_small by lia. unfold get in Ex. rewrite Ex, E1. cbn [bind].
      rewrite <- Hch. assert (Hk : k < k + 1) by lia. revert Hk. generalize (k + 1) as q. generalize c1 as d.
      clear. induction fuel as [|fuel IH]; intros d q Hq; cbn [par_run]; auto.
      destruct (all_done d); auto. replace (q =? k) with false by lia.
      destruct (filter (can_step g hasL lextra T d) (zseq 0 N)); auto. destruct (Par.run1 _ _ _ _ _ _); cbn; auto. apply IH. lia.
Qed.

(* the final state: rows appear in some order o *)
Definition actives : list Z := filter act (zseq 0 N).
Theorem good_final c : good c -> all_done c = true -> exists o, Permutation o actives /\
  let h := fst c in
  s_lock h = None /\ s_writing h = 0 /\ s_n h = len o /\ s_nz h = lsum ssz o /\ s_lnz h = l0 + lsum lsz o /\
  (forall k, 0 <= k < len o -> written (s_mem h) k (soff o k) (loff o k) (t_prog (T (get o k)))) /\
  len (s_mem h SX) = len (s_mem h SJ) /\ len (s_mem h LJ) = len (s_mem h LI) /\ len (s_mem h LX) = len (s_mem h LI) /\
  len (s_mem h SP) = len (m0 SP) /\ len (s_mem h PO) = len (m0 PO) /\
  s_nz h <= len (s_mem h SJ) /\ (hasL = true -> s_lnz h <= len (s_mem h LI)) /\
  (forall b k, b = LI \/ b = LJ \/ b = LX -> 0 <= k < l0 -> hasL = true -> get (s_mem h b) k = get (m0 b) k) /\
  get (s_mem h SP) 0 = get (m0 SP) 0.
Proof.
  intros [Hl (o & V)] Hd. exists o. pose proof (fun t => all_done_true c t Hd) as HF.
  split.
  - apply NoDup_Permutation. { apply (v_nodup _ _ _ _ _ _ _ _ V). } { apply NoDup_filter, NoDup_zseq. }
    intros t. unfold actives. rewrite filter_In, In_zseq, (v_in _ _ _ _ _ _ _ _ V), HF. cbn. tauto.
  - cbv zeta. assert (HPL : s_lnz (fst c) = loff o (len o)).
    { apply (v_lnz2 _ _ _ _ _ _ _ _ V). intros t _. now rewrite HF. }
    destruct V. unfold ParProofs.soff, ParProofs.loff in *. rewrite psum_all in *.
    split. { destruct (s_lock (fst c)) as [t|] eqn:E; auto. exfalso. pose proof (v_lockr t eq_refl) as Ht.
      pose proof (proj1 (v_lock t Ht) eq_refl) as Hc. rewrite HF in Hc. easy. }
    split. { rewrite v_writing. apply sum_zero. intros t _. now rewrite HF. }
    do 3 (split; [auto|]).
    split. { intros k Hk. specialize (v_cont k Hk). rewrite HF in v_cont. exact v_cont. }
    do 7 (split; [auto|]). auto.
Qed.

Theorem par_for_ok ch : sat (par_for g hasL lextra N ch T l0 m0) (fun h => exists o, Permutation o actives /\
  s_lock h = None /\ s_writing h = 0 /\ s_n h = len o /\ s_nz h = lsum ssz o /\ s_lnz h = l0 + lsum lsz o /\
  (forall k, 0 <= k < len o -> written (s_mem h) k (soff o k) (loff o k) (t_prog (T (get o k)))) /\
  len (s_mem h SX) = len (s_mem h SJ) /\ len (s_mem h LJ) = len (s_mem h LI) /\ len (s_mem h LX) = len (s_mem h LI) /\
  len (s_mem h SP) = len (m0 SP) /\ len (s_mem h PO) = len (m0 PO) /\
  s_nz h <= len (s_mem h SJ) /\ (hasL = true -> s_lnz h <= len (s_mem h LI)) /\
  (forall b k, b = LI \/ b = LJ \/ b = LX -> 0 <= k < l0 -> hasL = true -> get (s_mem h b) k = get (m0 b) k) /\
  get (s_mem h SP) 0 = get (m0 SP) 0).
Proof.
  unfold par_for. apply sat_bind. eapply sat_mono; [apply (par_run_ok ch _ 0 c0 good_c0 fuel_ok)|].
  cbv beta. intros c (HG & Hd & _). cbn [sat]. destruct (good_final c HG Hd) as (o & H). exists o. exact H.
Qed.
End run.
