(** Boolean checks of the predicates on texts, for the examples; consequences for MatrixMarket files. *)
From Verif Require Import Base BaseFacts Spec SpecText Zp Mat MatFacts RowList VecProofs DenseProofs4 SpecSha ShaHash Sha ShaCtx Stdio IO TextProofs IOProofs IOHash IOTrunc.

Lemma bytesb_ok s : forallb (fun c => (0 <=? c) && (c <? 256)) s = true -> bytes s.
Proof. intros H. apply Forall_forall. intros c Hc. rewrite forallb_forall in H. specialize (H c Hc). unfold byte. lia. Qed.
Lemma nonulb_ok s : forallb (fun c => negb (c =? 0)) s = true -> ~ In 0 s.
Proof. intros H Hc. rewrite forallb_forall in H. specialize (H 0 Hc). discriminate. Qed.
Lemma nonlb_ok s : forallb (fun c => negb (c =? NL)) s = true -> ~ In NL s.
Proof. intros H Hc. rewrite forallb_forall in H. specialize (H NL Hc). discriminate. Qed.
Lemma spacesb_ok s : forallb isspace s = true -> spaces s.
Proof. intros H. apply Forall_forall. intros c Hc. rewrite forallb_forall in H. apply isspace_spec; auto. Qed.
Definition numeralb (s : list Z) : option Z :=
  let d := match s with c :: t => if (c =? 43) || (c =? 45) then t else s | [] => s end in
  if forallb isdigit d && negb (len d =? 0) then Some (if get s 0 =? 45 then - number d else number d) else None.
Lemma numeralb_ok s z : numeralb s = Some z -> numeral s z.
Proof.
  unfold numeralb. destruct s as [|c t]; [cbn; discriminate|]. change (get (c :: t) 0) with c.
  assert (D : forall d, forallb isdigit d && negb (len d =? 0) = true -> d <> [] /\ Forall is_digit d).
  { intros d H. apply andb_prop in H as [H1 H2]. split; [intros ->; discriminate|]. apply Forall_forall. intros x Hx. rewrite forallb_forall in H1. apply isdigit_spec; auto. }
  destruct (Z.eqb_spec c 43) as [->|N1].
  - cbn [orb]. destruct (_ && _) eqn:E; [|discriminate]. destruct (D _ E). intros [= <-]. now constructor.
  - destruct (Z.eqb_spec c 45) as [->|N2].
    + cbn [orb]. destruct (_ && _) eqn:E; [|discriminate]. destruct (D _ E). intros [= <-]. now constructor.
    + cbn [orb]. destruct (_ && _) eqn:E; [|discriminate]. destruct (D _ E). intros [= <-]. now constructor.
Qed.
(* white space, then a word *)
Fixpoint leading (s : list Z) : list Z := match s with c :: t => if isspace c then c :: leading t else [] | [] => [] end.
Lemma leading_skip s : s = leading s ++ skip_space s /\ spaces (leading s).
Proof.
  induction s as [|c s [E H]]; [split; [reflexivity|constructor]|]. cbn [leading skip_space]. destruct (isspace c) eqn:Ec; [|split; [reflexivity|constructor]].
  split; [cbn [app]; now rewrite <- E|]. constructor; [now apply isspace_spec|exact H].
Qed.
Lemma take_word_eq s : s = fst (take_word s) ++ snd (take_word s).
Proof. induction s as [|c s IH]; [reflexivity|]. cbn [take_word]. destruct (isspace c); [reflexivity|]. destruct (take_word s). cbn in *. now rewrite <- IH. Qed.
Definition line3b (s : list Z) : option (Z * Z * Z) :=
  let t0 := skip_space s in let '(sa, r0) := take_word t0 in
  let t1 := skip_space r0 in let '(sb, r1) := take_word t1 in
  let t2 := skip_space r1 in let '(sc, r2) := take_word t2 in
  match numeralb sa, numeralb sb, numeralb sc, leading r0, leading r1, skip_space r2 with
  | Some a, Some b, Some c, _ :: _, _ :: _, [] => Some (a, b, c)
  | _, _, _, _, _, _ => None
  end.
Lemma line3b_ok s a b c : line3b s = Some (a, b, c) -> line3 s a b c.
Proof.
  unfold line3b. destruct (take_word (skip_space s)) as [sa r0] eqn:E0. destruct (take_word (skip_space r0)) as [sb r1] eqn:E1. destruct (take_word (skip_space r1)) as [sc r2] eqn:E2.
  destruct (numeralb sa) as [va|] eqn:Na; [|discriminate]. destruct (numeralb sb) as [vb|] eqn:Nb; [|discriminate]. destruct (numeralb sc) as [vc|] eqn:Nc; [|discriminate].
  destruct (leading r0) eqn:L0; [discriminate|]. destruct (leading r1) eqn:L1; [discriminate|]. destruct (skip_space r2) eqn:L2; [|discriminate]. intros [= <- <- <-].
  destruct (leading_skip s) as [F0 S0]. destruct (leading_skip r0) as [F1 S1]. destruct (leading_skip r1) as [F2 S2]. destruct (leading_skip r2) as [F3 S3].
  pose proof (take_word_eq (skip_space s)) as G0. pose proof (take_word_eq (skip_space r0)) as G1. pose proof (take_word_eq (skip_space r1)) as G2.
  rewrite E0 in G0. rewrite E1 in G1. rewrite E2 in G2. cbn [fst snd] in G0, G1, G2.
  exists (leading s), (leading r0), (leading r1), (leading r2), sa, sb, sc. split; [|].
  - rewrite L2, app_nil_r in F3. rewrite <- F3, <- G2, <- F2, <- G1, <- F1, <- G0. exact F0.
  - rewrite L0 in *. rewrite L1 in *. do 4 (split; [auto|]). do 2 (split; [discriminate|]). auto using numeralb_ok.
Qed.
Definition is_lineb (s : list Z) : bool :=
  (len s <=? 1023) && (match rev s with c :: t => (c =? NL) && forallb (fun c => negb (c =? NL) && negb (c =? 0)) (rev t) | [] => false end).
Lemma is_lineb_ok s : is_lineb s = true -> is_line s.
Proof.
  unfold is_lineb. intros H. apply andb_prop in H as [H1 H2]. destruct (rev s) as [|c t] eqn:E; [discriminate|]. apply andb_prop in H2 as [H2 H3]. rewrite forallb_forall in H3.
  exists (rev t). rewrite <- (rev_involutive s), E. cbn [rev]. split; [do 2 f_equal; lia|]. split; [intros H; specialize (H3 _ H); discriminate|]. split; [intros H; specialize (H3 _ H); discriminate|].
  change (rev t ++ [c]) with (rev (c :: t)). rewrite <- E, rev_involutive. lia.
Qed.
Fixpoint linesb (ls : list (list Z)) : bool :=
  match ls with
  | [] => true
  | [s] => is_lineb s || (negb (len s =? 0) && forallb (fun c => negb (c =? NL)) s && forallb (fun c => negb (c =? 0)) s && (len s <=? 1022))
  | s :: ls => is_lineb s && linesb ls
  end.
Lemma linesb_ok ls : linesb ls = true -> text ls.
Proof.
  induction ls as [|s ls IH]; intros H; [constructor|]. destruct ls as [|s' ls].
  - cbn [linesb] in H. constructor; [|constructor]. apply orb_prop in H as [H|H]; [left; now apply is_lineb_ok|]. apply andb_prop in H as [H H4]. apply andb_prop in H as [H H3]. apply andb_prop in H as [H1 H2].
    right. split; [reflexivity|]. split; [intros ->; discriminate|]. split; [now apply nonlb_ok|]. split; [now apply nonulb_ok|lia].
  - change (is_lineb s && linesb (s' :: ls) = true) in H. apply andb_prop in H as [H1 H2]. constructor; [left; now apply is_lineb_ok|auto].
Qed.

Theorem load_mm_inside gs g f n m es p hash : mm_file f n m es -> Forall (inside n m) es -> es <> [] ->
  bytes f -> len f < 2 ^ 61 -> (forall md, hash = Some md -> len md = 32) ->
  sat (triplet_load gs g f p hash) (fun '(T, h) => reloaded n m p (map from0 es) T /\ h = option_map (fun _ => sha256 f) hash).
Proof.
  intros H Hin He B L Hmd. eapply sat_mono; [now apply (load_mm gs g f n m es p hash)|]. intros [T h] ((A1 & A2 & A3 & A4 & A5 & A6 & A7) & E). split; [|auto]. destruct (A7 Hin). unfold reloaded. auto 10.
Qed.
Theorem load_type gs g f n m c es p hash : sms_file f n m c es -> bytes f -> len f < 2 ^ 61 -> p <> -1 -> c <> 77 -> triplet_load gs g f p hash = Fail AssertFailed.
Proof.
  intros (hd & ls & e & gl & -> & Ht & Hh & Hn & Hm & HL & He) B L Hp Hc. apply fails_eq. unfold triplet_load. set (hb := match hash with Some _ => true | None => false end).
  apply outs_bind, sat_outs. eapply sat_mono; [apply (read_line_lines hb gs (match hash with Some _ => Some SHA256_init | None => None end) [] hd (ls ++ e :: gl)); [apply hashed_init|auto|split; [reflexivity|discriminate]|exact B|exact L]|].
  intros [[l ctx'] f'] (-> & H' & Hf'). destruct (scan_sms_header hd n m c Hh) as [E1 E2]; [unfold int32; lia|unfold int32; lia|]. rewrite E1, E2. cbn [bind]. replace ((p =? -1) || (c =? 77)) with false by lia. reflexivity.
Qed.
Theorem load_mm_empty gs g f n m p hash : mm_file f n m [] -> bytes f -> len f < 2 ^ 61 -> outs (triplet_load gs g f p hash) (fun _ => False) (fun _ => True).
Proof.
  intros (hd & cs & d & ls & gl & -> & Ht & Hh & Hc & Hd & Hn & Hm & Hz & HL) B L. unfold triplet_load. set (hb := match hash with Some _ => true | None => false end).
  apply outs_bind, sat_outs. eapply sat_mono; [apply (read_line_lines hb gs (match hash with Some _ => Some SHA256_init | None => None end) [] hd (cs ++ d :: ls ++ gl)); [apply hashed_init|auto|split; [reflexivity|discriminate]|exact B|exact L]|].
  intros [[l c1] f1] (-> & H1 & Hf1). destruct (header_ok hd Hh) as [E1 E2]. rewrite E1, E2. cbn [bind]. apply outs_bind, outs_bind, sat_outs. unfold skip_comments.
  inversion Ht as [|? ? _ Ht1]; subst. cbn [concat] in B, L. apply bytes_app_inv in B as [B1 B2]. rewrite len_app in L.
  eapply sat_mono; [apply (comments_ok hb gs cs d (ls ++ gl) _ c1 f1 ([] ++ hd)); auto; [apply (line3_head _ _ _ _ Hd)|]|].
  { destruct Hf1 as [-> _]. pose proof (text_length _ Ht1). rewrite app_length in H. cbn in H. lia. }
  intros [[s c2] f2] (-> & H2 & Hf2). rewrite (scan3_line d n m 0) by (auto; unfold int32, int64; lia). cbn [bind outs Z.leb Z.compare assert_].
  apply outs_bind. unfold read_entries. eapply outs_mono; [apply (outs_loop (fun '(T, e, k, c, f) => e = false /\ 0 <= k) (fun _ => False) (fun _ => True)); [exact I| |split; [auto|lia]]|intros a []].
  intros [[[[T' e] k] c] f'] (-> & Hk). destruct (read_line gs c f') as [[[l c3] f3]|]; [|exact I]. cbn [bind]. destruct l as [s|]; [|exact I].
  destruct (scan3 s) as [v|]; [|exact I]. cbn [bind]. destruct v as [[[i j] x]|]; [|exact I]. destruct ((i =? 0) && (j =? 0) && (x =? 0)); [exact I|]. cbn [negb andb orb assert_ bind].
  unfold i32. destruct ((_ <=? i - 1) && _); [|exact I]. cbn [bind]. destruct ((_ <=? j - 1) && _); [|exact I]. cbn [bind]. destruct (add_entry _ _ _ _ _); [|exact I]. cbn [bind outs]. lia.
Qed.
