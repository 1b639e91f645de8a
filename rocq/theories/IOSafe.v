(** Loading any sequence of bytes: no access outside of an array, and the loops end. *)
From Verif Require Import Base BaseFacts Spec SpecText SpecAccept Zp Mat MatFacts RowList VecProofs DenseProofs4 CertProofs SpecSha ShaHash Sha ShaCtx Stdio IO TextProofs IOProofs IOHash IOAccept.

(* the program stops with a message, or a number does not fit *)
Definition refused (e : err) : Prop := e = AssertFailed \/ e = Overflow.
Lemma outs_loop_mu {S R} (Inv : S -> Prop) (mu : S -> nat) (Q : R -> Prop) (F : err -> Prop) (body : S -> res (S + R)) fuel s :
  (forall s, Inv s -> outs (body s) (fun o => match o with inl s' => Inv s' /\ (mu s' < mu s)%nat | inr r => Q r end) F) ->
  Inv s -> (mu s < fuel)%nat -> outs (loop fuel body s) Q F.
Proof.
  intros Hs. revert s. induction fuel as [|fuel IH]; intros s HI Hm; [lia|]. cbn [loop]. apply outs_bind. eapply outs_mono; [apply Hs, HI|].
  intros [s'|r]; [|auto]. intros [H1 H2]. apply IH; [auto|lia].
Qed.
Lemma refused_assert (b : bool) : outs (assert_ b) (fun _ => b = true) refused.
Proof. destruct b; cbn; [auto|left; reflexivity]. Qed.
Lemma refused_i32 z : outs (i32 z) (fun _ => True) refused.
Proof. unfold i32. destruct (_ && _); cbn; [auto|right; reflexivity]. Qed.
Lemma refused_int bits s : outs (scan_int bits s) (fun _ => True) refused.
Proof.
  unfold scan_int. destruct (match skip_space s with [] => _ | _ => _ end) as [neg r]. destruct (negb _); [exact I|]. destruct (scan_digits 0 r) as [v r'].
  destruct (_ && _); cbn; [auto|right; reflexivity].
Qed.
Lemma refused_scan3 s : outs (scan3 s) (fun _ => True) refused.
Proof.
  unfold scan3. apply outs_bind. eapply outs_mono; [apply refused_int|]. intros [[a|] r] _; [|exact I]. apply outs_bind. eapply outs_mono; [apply refused_int|]. intros [[b|] r2] _; [|exact I].
  apply outs_bind. eapply outs_mono; [apply refused_int|]. intros [[c|] r3] _; exact I.
Qed.
Lemma refused_sms s : outs (scan_sms s) (fun _ => True) refused.
Proof.
  unfold scan_sms. apply outs_bind. eapply outs_mono; [apply refused_int|]. intros [[a|] r] _; [|exact I]. apply outs_bind. eapply outs_mono; [apply refused_int|]. intros [[b|] r2] _; [|exact I].
  destruct (skip_space r2); exact I.
Qed.
Lemma skip_space_len s : (length (skip_space s) <= length s)%nat.
Proof. induction s as [|c s IH]; cbn; [lia|]. destruct (isspace c); cbn; lia. Qed.
Lemma take_word_len s : (length (fst (take_word s)) + length (snd (take_word s)) <= length s)%nat.
Proof. induction s as [|c s IH]; cbn; [lia|]. destruct (isspace c); cbn; [lia|]. destruct (take_word s); cbn in *. lia. Qed.
Lemma refused_s s : len s <= 1023 -> outs (scan_s s) (fun '(_, r) => len r <= 1023) refused.
Proof.
  intros H. unfold scan_s, scan_word. pose proof (skip_space_len s). pose proof (take_word_len (skip_space s)). destruct (take_word (skip_space s)) as [[|c w] r]; cbn [fst snd] in *; [cbn; unfold len in *; lia|].
  replace (len (c :: w) + 1 <=? 1024) with true by (unfold len in *; lia). cbn. unfold len in *. cbn in *. lia.
Qed.
Lemma prefix_len a s r : prefix a s = Some r -> (length r <= length s)%nat.
Proof. intros E. apply prefix_inv in E. subst. rewrite app_length. lia. Qed.
Lemma refused_header s : len s <= 1023 -> outs (validate_mm_header s) (fun _ => True) refused.
Proof.
  intros H. unfold validate_mm_header. destruct (prefix MM s) as [r|] eqn:E; [|left; reflexivity]. apply prefix_len in E.
  apply outs_bind. eapply outs_mono; [apply refused_s; unfold len in *; lia|]. intros [[w1|] r1] H1; [|left; reflexivity].
  apply outs_bind. eapply outs_mono; [apply refused_s; auto|]. intros [[w2|] r2] H2; [|left; reflexivity].
  apply outs_bind. eapply outs_mono; [apply refused_s; auto|]. intros [[w3|] r3] H3; [|left; reflexivity].
  apply outs_bind. eapply outs_mono; [apply refused_s; auto|]. intros [[w4|] r4] H4; [|left; reflexivity].
  do 3 (apply outs_bind; eapply outs_mono; [apply refused_assert|]; intros [] _). eapply outs_mono; [apply refused_assert|auto].
Qed.

(* the arrays have the same number of cells, at least as many as entries *)
Definition slots (T : triplet) : Prop := 0 <= tnz T <= len (tj T) /\ len (ti T) = len (tj T) /\ match tx T with Some x => len x = len (tj T) | None => True end.
Lemma slots_alloc g n m nz p wv : slots (triplet_alloc g n m nz p wv).
Proof. unfold slots, triplet_alloc. cbn [tnz ti tj tx]. rewrite !len_malloc. destruct wv; [rewrite len_malloc|]; repeat split; lia. Qed.
Lemma slots_realloc g T k : slots T -> tnz T <= k -> slots (triplet_realloc g T k).
Proof.
  intros (H1 & H2 & H3) Hk. unfold slots, triplet_realloc. cbn [tnz ti tj tx]. replace (k <? 0) with false by lia. rewrite !len_realloc by lia. split; [lia|]. split; [auto|].
  destruct (tx T); cbn; [rewrite len_realloc by lia; auto|auto].
Qed.
Lemma slots_add g T i j x : slots T -> outs (add_entry g T i j x) slots refused.
Proof.
  intros H. unfold add_entry. apply outs_bind. eapply outs_mono; [apply refused_assert|]. intros [] _. cbv zeta.
  set (T1 := if tnz T =? len (tj T) then _ else T).
  assert (H1 : slots T1 /\ tnz T1 = tnz T /\ tnz T < len (tj T1)).
  { unfold T1. destruct (Z.eqb_spec (tnz T) (len (tj T))).
    - pose proof (len_nonneg (tj T)). split; [apply slots_realloc; [auto|lia]|]. split; [reflexivity|]. unfold triplet_realloc. cbn [tj]. replace (1 + 2 * len (tj T) <? 0) with false by lia. rewrite len_realloc by lia. lia.
    - split; [auto|]. split; [reflexivity|]. destruct H. lia. }
  clearbody T1. destruct H1 as ((H1 & H2 & H3) & H4 & H5). destruct (tx T1) as [tx0|] eqn:Ex.
  - destruct (_ =? 0); [cbn [outs]; unfold slots; rewrite Ex; auto|]. rewrite !aset_ok by lia. cbn [bind outs]. unfold slots. cbn [tnz ti tj tx]. rewrite !len_upd. repeat split; lia.
  - rewrite !aset_ok by lia. cbn [bind outs]. unfold slots. cbn [tnz ti tj tx]. rewrite !len_upd. repeat split; lia.
Qed.

Section SAFE.
Variables (gs : Z -> Z) (g : Z -> Z -> Z) (bs : list Z) (h : bool).
Hypothesis (Lb : len bs < 2 ^ 61).
Notation hinv := (hinv bs h).
Lemma read_line_safe ctx f : hinv ctx f ->
  outs (read_line gs ctx f) (fun '(l, ctx', f') => hinv ctx' f' /\ match l with None => frest f' = [] | Some s => s <> [] /\ len s <= 1023 /\ (length (frest f') < length (frest f))%nat end) refused.
Proof.
  intros HI. pose proof (read_line_hash gs g bs h Lb ctx f HI) as HH. destruct (read_line gs ctx f) as [[[l c'] f']|er] eqn:Er; cbn [outs] in HH |- *.
  - destruct HH as [H1 H2]. split; [auto|]. destruct l as [s|]; [|auto]. clear H1 H2 HI. unfold read_line, fgets in Er. destruct (feof f); [discriminate|].
    destruct (take_line (Z.to_nat (1024 - 1)) (frest f)) as [[l r] e] eqn:El. destruct (take_line_app _ _ _ _ _ El) as (E1 & E2 & E3). destruct (take_line_len _ _ _ _ _ El) as [L1 _].
    destruct l as [|c l]; [discriminate|]. remember (c :: l) as s0 eqn:Es0. unfold assert_ at 1 in Er. destruct (negb (len (cstr s0) =? 0)) eqn:En; [|discriminate]. cbn [bind] in Er. destruct (assert_ _); [|discriminate]. cbn [bind] in Er.
    destruct (match ctx with None => _ | Some _ => _ end); [|discriminate]. cbn [bind] in Er. injection Er as <- <- <-. cbn [frest]. rewrite cstr_before in *. pose proof (before_nul_len s0).
    split; [intros E; apply (f_equal len) in E; change (len []) with 0 in E; lia|]. split; [unfold len in *; lia|]. rewrite E1, app_length, Es0. cbn [length]. lia.
  - destruct HI as (m & H & E & B & F). unfold read_line, fgets in Er. destruct f as [r e]. cbn [feof frest] in *. destruct e; [discriminate|].
    destruct (take_line (Z.to_nat (1024 - 1)) r) as [[l r'] e'] eqn:El. destruct (take_line_app _ _ _ _ _ El) as (E1 & Ee & E0). destruct l as [|c l']; [discriminate|]. set (l := c :: l') in *. rewrite cstr_before in Er. cbn [feof] in Er. subst r. apply bytes_app_inv in B as [B1 B2].
    unfold assert_ at 1 in Er. destruct (negb (len (before_nul l) =? 0)); [|cbn in Er; inversion Er; left; reflexivity]. cbn [bind] in Er.
    unfold assert_ at 1 in Er. destruct ((get (before_nul l) (len (before_nul l) - 1) =? NL) || e'); [|cbn in Er; inversion Er; left; reflexivity]. cbn [bind] in Er. exfalso.
    assert (Hl : len m + len (before_nul l) < 2 ^ 61).
    { pose proof (before_nul_len bs) as Lbn. rewrite <- E, len_app in Lbn. destruct (in_dec Z.eq_dec 0 l) as [Hi|Hi]; [rewrite before_nul_in in Lbn by auto; lia|]. rewrite before_nul_app in Lbn by auto. rewrite len_app in Lbn.
      pose proof (len_nonneg (before_nul r')). pose proof (before_nul_len l). lia. }
    pose proof (hashed_update h gs ctx m (before_nul l) H (bytes_before _ B1) Hl) as U. destruct (match ctx with None => _ | Some _ => _ end); [discriminate Er|exact U].
Qed.
Lemma skip_comments_safe ctx f : hinv ctx f -> outs (skip_comments gs ctx f) (fun '(s, ctx', f') => hinv ctx' f') refused.
Proof.
  intros H. unfold skip_comments. apply (outs_loop_mu (fun '(c, f) => hinv c f) (fun '(c, f) => length (frest f))); [|exact H|lia]. intros [c f'] H1. apply outs_bind. eapply outs_mono; [now apply read_line_safe|].
  intros [[l c2] f2] (H2 & H3). destruct l as [s|]; [|left; reflexivity]. destruct H3 as (H3 & _ & H4). destruct s as [|a s]; [congruence|]. rewrite aget_ok by (cbn; len; lia). cbn [bind]. destruct (negb _); cbn [outs]; auto.
Qed.
Lemma read_entries_safe mm nnz T ctx f : hinv ctx f -> slots T -> outs (read_entries gs g mm nnz T ctx f) (fun '(T', ctx', f') => hinv ctx' f' /\ frest f' = [] /\ slots T') refused.
Proof.
  intros H HT. unfold read_entries. apply (outs_loop_mu (fun '(T, e, k, c, f) => hinv c f /\ slots T) (fun '(T, e, k, c, f) => length (frest f))); [|auto|lia].
  intros [[[[T' e] k] c] f'] [H1 HT1]. apply outs_bind. eapply outs_mono; [now apply read_line_safe|].
  intros [[l c2] f2] (H2 & H3). destruct l as [s|]; [|destruct e; [cbn [outs]; auto|left; reflexivity]]. destruct H3 as (_ & _ & H3). destruct e; [cbn [outs]; auto|].
  apply outs_bind. eapply outs_mono; [apply refused_scan3|]. intros [[[i j] x]|] _; [|left; reflexivity]. cbv zeta. apply outs_bind. eapply outs_mono; [apply refused_assert|]. intros [] _.
  apply outs_bind. apply (outs_mono _ (fun '(T, k) => slots T)).
  - destruct (_ && _); [exact HT1|]. apply outs_bind. eapply outs_mono; [apply refused_i32|]. intros i' _. apply outs_bind. eapply outs_mono; [apply refused_i32|]. intros j' _.
    apply outs_bind. eapply outs_mono; [apply slots_add; auto|]. intros T2 H4. exact H4.
  - intros [T2 k2] H4. cbn [outs]. auto.
Qed.
End SAFE.
Theorem load_safe gs g bs p hash : bytes bs -> len bs < 2 ^ 61 -> (forall md, hash = Some md -> len md = 32) -> outs (triplet_load gs g bs p hash) (fun '(T, h) => slots T) refused.
Proof.
  intros B L Hm. unfold triplet_load. set (hb := match hash with Some _ => true | None => false end). apply outs_bind. eapply outs_mono.
  { apply (read_line_safe gs g bs hb L). exists []. split; [apply (hashed_init hash)|]. split; [reflexivity|]. split; [exact B|discriminate]. }
  intros [[l c1] f1] (H1 & H1'). destruct l as [s|]; [|left; reflexivity]. destruct H1' as (_ & H1' & _). apply outs_bind. eapply (outs_mono _ (fun '(mm, n, m, nnz, c, f) => hinv bs hb c f)).
  { destruct (is_mm s).
    - apply outs_bind. eapply outs_mono; [apply refused_header; auto|]. intros [] _. apply outs_bind. eapply outs_mono; [now apply (skip_comments_safe gs g bs hb L)|]. intros [[s' c2] f2] H2.
      apply outs_bind. eapply outs_mono; [apply refused_scan3|]. intros [[[? ?] ?]|] _; [exact H2|left; reflexivity].
    - apply outs_bind. eapply outs_mono; [apply refused_sms|]. intros [[[? ?] ?]|] _; [|left; reflexivity]. apply outs_bind. eapply outs_mono; [apply refused_assert|]. intros [] _. exact H1. }
  intros [[[[[mm n] m] nnz] c] f] H2. apply outs_bind. eapply outs_mono; [apply refused_assert|]. intros [] _. apply outs_bind. eapply outs_mono; [apply (read_entries_safe gs g bs hb L); [exact H2|apply slots_alloc]|].
  intros [[T c3] f3] ((msg & G1 & G2 & _) & G3 & G4). rewrite G3 in G2. cbn in G2. rewrite app_nil_r in G2. subst msg. apply outs_bind, sat_outs.
  pose proof (before_nul_len bs). eapply sat_mono; [apply (hashed_final gs hash c3 (before_nul bs)); auto; lia|]. intros h ->. cbn [outs]. destruct mm; [auto|].
  destruct G4 as (K1 & K2 & K3). unfold slots, triplet_realloc. cbn [tnz ti tj tx Z.ltb Z.compare]. rewrite !len_realloc by lia. split; [lia|]. split; [auto|]. destruct (tx T); cbn; [rewrite len_realloc by lia; auto|auto].
Qed.
