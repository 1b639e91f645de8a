(** What the files accepted by the loader are. *)
From Coq Require Import String.
From Verif Require Import Base BaseFacts Spec SpecText SpecAccept Zp Mat MatFacts RowList VecProofs DenseProofs4 CertProofs SpecSha ShaHash Sha ShaCtx Stdio IO TextProofs IOProofs IOHash.
Local Open Scope string_scope.
Local Open Scope list_scope.
Local Open Scope Z_scope.

(** ** scanf *)
Lemma skip_space_inv s : exists w, s = w ++ skip_space s /\ spaces w /\ (match skip_space s with [] => True | c :: _ => ~ is_space c end).
Proof.
  induction s as [|c s (w & E & H & N)]; [exists []; repeat constructor|]. cbn [skip_space]. destruct (isspace c) eqn:Ec.
  - exists (c :: w). split; [cbn; now rewrite <- E|]. split; [|exact N]. constructor; [now apply isspace_spec|auto].
  - exists []. split; [reflexivity|]. split; [constructor|]. intros Hc. apply isspace_spec in Hc. congruence.
Qed.
Lemma scan_digits_inv s : forall v v' r, scan_digits v s = (v', r) ->
  exists d, s = d ++ r /\ Forall is_digit d /\ v' = fold_left (fun v c => 10 * v + (c - 48)) d v /\ ends r /\ (starts_digit s = true -> d <> []).
Proof.
  induction s as [|c s IH]; intros v v' r E; cbn [scan_digits] in E.
  - inversion E; subst. exists []. repeat split; [constructor|discriminate].
  - destruct (isdigit c) eqn:Ec.
    + destruct (IH _ _ _ E) as (d & -> & H & -> & N & _). exists (c :: d). split; [reflexivity|]. split; [constructor; [now apply isdigit_spec|auto]|]. split; [reflexivity|]. split; [auto|discriminate].
    + inversion E; subst. exists []. split; [reflexivity|]. split; [constructor|]. split; [reflexivity|]. split; [|cbn; congruence].
      intros Hc. apply isdigit_spec in Hc. congruence.
Qed.
Lemma scan_int_inv bits s v r : scan_int bits s = Ok (Some v, r) -> begins1 s v r /\ - 2 ^ bits <= v < 2 ^ bits.
Proof.
  unfold scan_int. destruct (skip_space_inv s) as (w & E & Hw & _). set (s1 := skip_space s) in *.
  set (sg := match s1 with c :: t => if c =? 45 then (true, t) else if c =? 43 then (false, t) else (false, s1) | [] => (false, s1) end).
  assert (Hs : exists u, s1 = u ++ snd sg /\ ((u = [] /\ fst sg = false) \/ (u = [43] /\ fst sg = false) \/ (u = [45] /\ fst sg = true))).
  { unfold sg. destruct s1 as [|c t]; [exists []; auto|]. destruct (Z.eqb_spec c 45) as [->|]; [exists [45]; cbn; auto|]. destruct (Z.eqb_spec c 43) as [->|]; [exists [43]; cbn; auto|]. exists []. cbn. auto. }
  destruct sg as [neg s2]. cbn [fst snd] in Hs. destruct (starts_digit s2) eqn:Ed; cbn [negb]; [|discriminate].
  destruct (scan_digits 0 s2) as [v0 r0] eqn:E2. destruct (scan_digits_inv _ _ _ _ E2) as (d & Ed2 & Hd & Ev & Hr & Hne). specialize (Hne Ed).
  destruct (_ && _) eqn:Eb; [|discriminate]. intros E3. inversion E3; subst v r. split; [|lia]. clear E3.
  destruct Hs as (u & Es & Hu). exists w, (u ++ d). split; [rewrite E, Es, Ed2, <- !app_assoc; reflexivity|]. split; [auto|]. split; [|auto].
  change (fold_left (fun v c => 10 * v + (c - 48)) d 0) with (number d) in Ev. subst v0.
  destruct Hu as [(-> & ->)|[(-> & ->)|(-> & ->)]]; cbn [app]; constructor; auto.
Qed.
Lemma scan3_inv s a b c : scan3 s = Ok (Some (a, b, c)) -> begins3 s a b c /\ int32 a /\ int32 b /\ int64 c.
Proof.
  unfold scan3. destruct (scan_int 31 s) as [[a' r1]|] eqn:E1; [|discriminate]. cbn [bind]. destruct a' as [a'|]; [|discriminate].
  destruct (scan_int 31 r1) as [[b' r2]|] eqn:E2; [|discriminate]. cbn [bind]. destruct b' as [b'|]; [|discriminate].
  destruct (scan_int 63 r2) as [[c' r3]|] eqn:E3; [|discriminate]. cbn [bind]. destruct c' as [c'|]; [|discriminate]. intros E. inversion E; subst.
  apply scan_int_inv in E1, E2, E3. split; [exists r1, r2, r3; tauto|]. unfold int32, int64. tauto.
Qed.
Lemma scan_sms_inv s n m c : scan_sms s = Ok (Some (n, m, c)) -> begins_sms s n m c /\ int32 n /\ int32 m.
Proof.
  unfold scan_sms. destruct (scan_int 31 s) as [[a' r1]|] eqn:E1; [|discriminate]. cbn [bind]. destruct a' as [a'|]; [|discriminate].
  destruct (scan_int 31 r1) as [[b' r2]|] eqn:E2; [|discriminate]. cbn [bind]. destruct b' as [b'|]; [|discriminate].
  destruct (skip_space_inv r2) as (w & E & Hw & Hc). destruct (skip_space r2) as [|c0 t]; [discriminate|]. intros E0. inversion E0; subst.
  apply scan_int_inv in E1, E2. split; [exists r1, (w ++ c :: t), w, t; tauto|]. unfold int32. tauto.
Qed.
Lemma take_word_inv s : forall w r, take_word s = (w, r) -> s = w ++ r /\ ends_word r /\ Forall (fun c => isspace c = false) w.
Proof.
  induction s as [|c s IH]; intros w r E; cbn [take_word] in E; [inversion E; subst; repeat constructor|]. destruct (isspace c) eqn:Ec.
  - inversion E; subst. split; [reflexivity|]. split; [cbn; now apply isspace_spec|constructor].
  - destruct (take_word s) as [w' r'] eqn:E'. inversion E; subst. destruct (IH _ _ eq_refl) as (-> & H & F). split; [reflexivity|]. split; [auto|]. now constructor.
Qed.
Lemma scan_s_inv s w r : scan_s s = Ok (Some w, r) -> exists u, s = u ++ w ++ r /\ spaces u /\ ends_word r /\ Forall (fun c => isspace c = false) w.
Proof.
  unfold scan_s, scan_word. destruct (skip_space_inv s) as (u & E & Hu & _). destruct (take_word (skip_space s)) as [w' r'] eqn:E'. destruct (take_word_inv _ _ _ E') as (E2 & Hr & F).
  destruct w' as [|c w']; [discriminate|]. destruct (_ <=? _); [|discriminate]. intros E3. inversion E3; subst. exists u. rewrite <- E2. auto.
Qed.
Lemma eqs_inv a b : eqs a b = true -> a = b.
Proof. unfold eqs. destruct (list_eq_dec _ _ _); [auto|discriminate]. Qed.
Lemma prefix_inv a : forall s r, prefix a s = Some r -> s = a ++ r.
Proof. induction a as [|c a IH]; intros s r E; cbn [prefix] in E; [now inversion E|]. destruct s as [|y s]; [discriminate|]. destruct (Z.eqb_spec c y) as [->|]; [|discriminate]. cbn. f_equal. auto. Qed.
Lemma word_break u w r : ends_word (u ++ w ++ r) -> Forall (fun c => isspace c = false) w -> w <> [] -> u <> [].
Proof. intros H F Hw ->. destruct w as [|c w]; [congruence|]. cbn in H. inversion F; subst. apply isspace_spec in H. congruence. Qed.
Lemma validate_inv s : validate_mm_header s = Ok tt -> begins_mm s.
Proof.
  unfold validate_mm_header. destruct (prefix MM s) as [s0|] eqn:E0; [|discriminate]. apply prefix_inv in E0.
  destruct (scan_s s0) as [[a r1]|] eqn:E1; [|discriminate]. cbn [bind]. destruct a as [a|]; [|discriminate].
  destruct (scan_s r1) as [[b r2]|] eqn:E2; [|discriminate]. cbn [bind]. destruct b as [b|]; [|discriminate].
  destruct (scan_s r2) as [[c r3]|] eqn:E3; [|discriminate]. cbn [bind]. destruct c as [c|]; [|discriminate].
  destruct (scan_s r3) as [[d r4]|] eqn:E4; [|discriminate]. cbn [bind]. destruct d as [d|]; [|discriminate].
  unfold assert_. destruct (eqs (map tolower a) s_matrix) eqn:Ea; [|discriminate]. destruct (eqs (map tolower b) s_coordinate) eqn:Eb; [|discriminate].
  destruct (eqs (map tolower c) s_integer) eqn:Ec; [|discriminate]. destruct (eqs (map tolower d) s_general) eqn:Ed; [|discriminate]. intros _.
  apply eqs_inv in Ea, Eb, Ec, Ed. apply scan_s_inv in E1 as (w0 & -> & H0 & N0 & F0), E2 as (w1 & -> & H1 & N1 & F1), E3 as (w2 & -> & H2 & N2 & F2), E4 as (w3 & -> & H3 & N3 & F3).
  exists w0, w1, w2, w3, a, b, c, d, r4. split; [exact E0|]. split; [auto|]. split; [|auto].
  split; [eapply word_break; [exact N0|auto|intros ->; discriminate]|]. split; [eapply word_break; [exact N1|auto|intros ->; discriminate]|eapply word_break; [exact N2|auto|intros ->; discriminate]].
Qed.

(** ** Lines *)
Lemma before_nul_whole s : ~ In 0 s -> before_nul s = s.
Proof. intros H. rewrite <- (app_nil_r s) at 1. rewrite before_nul_app by exact H. apply app_nil_r. Qed.
Lemma take_line_len k : forall s l r e, take_line k s = (l, r, e) -> (length l <= k)%nat /\ (e = true -> (length l < k)%nat /\ ~ In NL l).
Proof.
  induction k as [|k IH]; intros s l r e E; cbn [take_line] in E; [inversion E; subst; split; [auto|discriminate]|].
  destruct s as [|c t]; [inversion E; subst; cbn; split; [lia|intros _; split; [lia|tauto]]|].
  destruct (Z.eqb_spec c NL); [inversion E; subst; cbn; split; [lia|discriminate]|].
  destruct (take_line k t) as [[l' r'] e'] eqn:E'. inversion E; subst. destruct (IH _ _ _ _ E') as [H1 H2]. cbn. split; [lia|]. intros He. destruct (H2 He). split; [lia|]. intros [X|X]; [congruence|auto].
Qed.
Lemma take_line_nl k : forall s l r e, take_line k s = (l, r, e) -> forall t, l = t ++ [NL] -> ~ In NL t.
Proof.
  induction k as [|k IH]; intros s l r e E t Et; cbn [take_line] in E; [inversion E; subst; now destruct t|].
  destruct s as [|c s]; [inversion E; subst; now destruct t|]. destruct (Z.eqb_spec c NL).
  - inversion E; subst. destruct t as [|x [|y t]]; [tauto|discriminate|discriminate].
  - destruct (take_line k s) as [[l' r'] e'] eqn:E'. inversion E; subst l r' e'. destruct t as [|x t]; [inversion H0; congruence|]. inversion H0; subst. intros [X|X]; [congruence|]. revert X. eapply IH; eauto.
Qed.
(* the lines pre have been read from the file bs *)
Definition done (bs : list Z) (pre : list (list Z)) (f : file) : Prop :=
  bs = concat pre ++ frest f /\ (forall ls, text ls -> concat ls = frest f -> text (pre ++ ls)) /\ ~ In 0 (frest f) /\ (feof f = true -> frest f = []).
Lemma done_end bs pre f : done bs pre f -> frest f = [] -> bs = concat pre /\ text pre.
Proof. intros (D1 & D2 & _) E. rewrite E, app_nil_r in D1. split; [auto|]. rewrite <- (app_nil_r pre). apply D2; [constructor|auto]. Qed.
Lemma cstr_whole s : ~ In 0 s -> cstr s = s.
Proof. induction s as [|c s IH]; intros H; [reflexivity|]. cbn [cstr]. destruct (Z.eqb_spec c 0); [subst; exfalso; apply H; now left|]. f_equal. apply IH. intros X. apply H. now right. Qed.
Lemma last_get (s : list Z) c : s <> [] -> get s (len s - 1) = c -> exists t, s = t ++ [c].
Proof.
  intros H E. destruct (exists_last H) as (t & x & ->). exists t. rewrite len_app in E. change (len [x]) with 1 in E. rewrite get_app_r in E by (len; lia).
  replace (len t + 1 - 1 - len t) with 0 in E by lia. change (get [x] 0) with x in E. now subst.
Qed.
Lemma read_line_done gs bs pre ctx f : done bs pre f ->
  outs (read_line gs ctx f) (fun '(l, ctx', f') => match l with None => frest f' = [] /\ done bs pre f' | Some s => s <> [] /\ done bs (pre ++ [s]) f' end) (fun _ => True).
Proof.
  intros (D1 & D2 & D3 & D4). unfold read_line, fgets. destruct (feof f) eqn:Ef; [cbn [outs]; split; [auto|repeat split; auto; congruence]|].
  destruct (take_line (Z.to_nat (1024 - 1)) (frest f)) as [[l r] e] eqn:E. destruct (take_line_app _ _ _ _ _ E) as (E1 & E2 & E3). destruct (take_line_len _ _ _ _ _ E) as [L1 L2].
  assert (El : l = [] -> r = []). { intros ->. specialize (E3 eq_refl). rewrite E3 in E1 by lia. now destruct r. }
  assert (N0 : ~ In 0 l /\ ~ In 0 r) by (rewrite E1 in D3; split; intros X; apply D3, in_or_app; auto).
  destruct l as [|c l]; [specialize (El eq_refl); subst r; cbn [outs frest]; split; [auto|]; rewrite E1 in *; repeat split; auto|]. set (s := c :: l) in *.
  rewrite cstr_whole by tauto. unfold assert_ at 1. destruct (negb _) eqn:En; [|exact I]. cbn [bind]. unfold assert_. destruct (_ || _) eqn:Ee; [|exact I]. cbn [bind feof] in *. apply outs_bind.
  destruct (match ctx with Some _ => _ | None => _ end) as [ctx'|]; [|exact I]. cbn [outs]. split; [discriminate|].
  assert (TL : text_line s r).
  { destruct e; [right; destruct (L2 eq_refl); rewrite E2 by auto; split; [auto|]; split; [discriminate|]; split; [auto|]; split; [tauto|unfold len; lia]|].
    left. destruct (last_get s NL) as (t & Et); [discriminate|lia|]. exists t. split; [auto|]. split; [eapply take_line_nl; eauto|]. split; [|unfold len; lia].
    intros X. apply (proj1 N0). rewrite Et. apply in_or_app. auto. }
  split; [rewrite concat_app, <- app_assoc, D1, E1; cbn [concat]; rewrite app_nil_r; reflexivity|]. split; [|cbn [frest feof]; tauto].
  intros ls Hls Ec. cbn [frest] in Ec. rewrite <- app_assoc. apply D2; [cbn [app]; constructor; [rewrite Ec; auto|auto]|]. cbn [concat app]. rewrite Ec, E1. reflexivity.
Qed.

(** ** The entries *)
Section Load.
  Variables (gs : Z -> Z) (g : Z -> Z -> Z) (mm : bool) (nnz : Z) (bs : list Z) (pre : list (list Z)).

  (* what is known of the matrix when the entries es have been read *)
  Variable LT : list (Z * Z * Z) -> triplet -> Prop.
  Hypothesis LT_add : forall es T i j x T', LT es T -> 1 <= i < 2 ^ 31 -> 1 <= j < 2 ^ 31 -> add_entry g T (i - 1) (j - 1) x = Ok T' -> LT (es ++ [(i, j, x)]) T'.
  Definition finished (f : file) (es : list (Z * Z * Z)) : Prop :=
    if mm then exists ls gl, done bs (pre ++ ls ++ gl) f /\ begin_entries ls es /\ len es = nnz /\ es <> []
    else exists ls e gl, done bs (pre ++ ls ++ e :: gl) f /\ begin_entries ls es /\ begins3 e 0 0 0.
  Definition einv (st : triplet * bool * Z * option sha_ctx * file) : Prop :=
    let '(T, end_, entries, ctx, f) := st in
    exists es, LT es T /\ if (end_ : bool) then finished f es else entries = len es /\ exists ls, done bs (pre ++ ls) f /\ begin_entries ls es.

  Lemma add_entry_ge T i j x T' : add_entry g T i j x = Ok T' -> 0 <= i /\ 0 <= j.
  Proof. unfold add_entry, assert_. destruct (_ && _) eqn:E; [lia|discriminate]. Qed.

  Lemma read_entries_done T ctx f : LT [] T -> done bs pre f ->
    outs (read_entries gs g mm nnz T ctx f) (fun '(T', ctx', f') => frest f' = [] /\ exists es, LT es T' /\ finished f' es) (fun _ => True).
  Proof.
    intros HT Hf. unfold read_entries. apply (outs_loop einv); [exact I| |].
    2: { exists []. split; [auto|]. split; [reflexivity|]. exists []. rewrite app_nil_r. split; [auto|constructor]. }
    clear T ctx f HT Hf. intros [[[[T end_] entries] ctx] f] (es & HT & HI). apply outs_bind.
    assert (exists pre', done bs pre' f /\ (end_ = true -> (forall s f', done bs (pre' ++ [s]) f' -> finished f' es) /\ (forall f', done bs pre' f' -> finished f' es)) /\
      (end_ = false -> entries = len es /\ exists ls, pre' = pre ++ ls /\ begin_entries ls es)) as (pre' & Hf & He & Hn).
    { destruct end_; [|destruct HI as (-> & ls & H1 & H2); exists (pre ++ ls); split; [auto|]; split; [discriminate|]; intros _; split; [auto|exists ls; auto]].
      unfold finished in *. destruct mm.
      - destruct HI as (ls & gl & H1 & H2). exists (pre ++ ls ++ gl). split; [auto|]. split; [|discriminate]. intros _. split; [|intros; exists ls, gl; auto].
        intros s f' D. exists ls, (gl ++ [s]). rewrite <- !app_assoc in D. auto.
      - destruct HI as (ls & e & gl & H1 & H2). exists (pre ++ ls ++ e :: gl). split; [auto|]. split; [|discriminate]. intros _. split; [|intros; exists ls, e, gl; auto].
        intros s f' D. exists ls, e, (gl ++ [s]). rewrite <- !app_assoc in D. auto. }
    eapply outs_mono; [apply (read_line_done gs bs pre' ctx f); auto|]. intros [[l ctx'] f']. destruct l as [s|].
    - intros (_ & Hs). destruct end_; [cbn [outs]; exists es; split; [auto|]; exact (proj1 (He eq_refl) s f' Hs)|]. destruct (Hn eq_refl) as (-> & ls & -> & Hls).
      destruct (scan3 s) as [v|] eqn:E3; [|exact I]. cbn [bind]. destruct v as [[[i j] x]|]; [|exact I]. apply scan3_inv in E3 as (B3 & Hi & Hj & Hx).
      destruct ((i =? 0) && (j =? 0) && (x =? 0)) eqn:Em; cbn [andb orb].
      + unfold assert_. destruct (negb mm) eqn:Emm; [|exact I]. cbn [bind outs]. exists es. split; [auto|]. unfold finished. destruct mm; [discriminate|]. exists ls, s, []. rewrite <- !app_assoc in Hs. split; [exact Hs|]. split; [auto|].
        replace i with 0 in B3 by lia. replace j with 0 in B3 by lia. replace x with 0 in B3 by lia. exact B3.
      + cbn [assert_ negb bind]. unfold i32. destruct ((- 2 ^ 31 <=? i - 1) && _) eqn:Ei; [|exact I]. cbn [bind]. destruct ((- 2 ^ 31 <=? j - 1) && _) eqn:Ej; [|exact I]. cbn [bind].
        destruct (add_entry g T (i - 1) (j - 1) x) as [T'|] eqn:Ea; [|exact I]. destruct (add_entry_ge _ _ _ _ _ Ea). cbn [bind outs].
        assert (HT' : LT (es ++ [(i, j, x)]) T') by (apply (LT_add es T); unfold int32 in *; auto; lia).
        assert (HB : begin_entries (ls ++ [s]) (es ++ [(i, j, x)])). { apply Forall2_app; [auto|]. constructor; [|constructor]. unfold int32 in *. split; [auto|]. split; [lia|]. split; [lia|auto]. }
        exists (es ++ [(i, j, x)]). split; [auto|]. assert (El : len (es ++ [(i, j, x)]) = len es + 1) by (rewrite len_app; reflexivity).
        rewrite <- app_assoc in Hs. destruct mm eqn:Emm; cbn [andb]; [|split; [auto|exists (ls ++ [s]); auto]].
        destruct (Z.eqb_spec (len es + 1) nnz); [|split; [auto|exists (ls ++ [s]); auto]]. unfold finished. rewrite Emm. exists (ls ++ [s]), []. rewrite app_nil_r. split; [auto|]. split; [auto|]. split; [lia|]. destruct es; discriminate.
    - intros (E & D). destruct end_; [|exact I]. cbn [outs]. split; [auto|]. exists es. split; [auto|]. now apply (proj2 (He eq_refl)).
  Qed.
End Load.

Lemma skip_comments_done gs bs pre ctx f : done bs pre f ->
  outs (skip_comments gs ctx f) (fun '(s, ctx', f') => exists cs, done bs (pre ++ cs ++ [s]) f' /\ Forall (fun s => get s 0 = 37) cs /\ get s 0 <> 37) (fun _ => True).
Proof.
  intros Hf. unfold skip_comments. apply (outs_loop (fun '(ctx, f) => exists cs, done bs (pre ++ cs) f /\ Forall (fun s => get s 0 = 37) cs)); [exact I| |exists []; rewrite app_nil_r; auto].
  clear ctx f Hf. intros [ctx f] (cs & D & Hc). apply outs_bind. eapply outs_mono; [apply read_line_done; eauto|]. intros [[l ctx'] f']. destruct l as [s|]; [|intros; exact I].
  intros (Ns & Hs). destruct s as [|c s]; [congruence|]. rewrite aget_ok by (cbn; len; lia). cbn [bind]. change (get ((c :: s) ++ [0]) 0) with c. rewrite <- app_assoc in Hs.
  destruct (Z.eqb_spec c 37) as [->|]; cbn [negb outs]; [exists (cs ++ [37 :: s])|exists cs]; (split; [auto|]); [apply Forall_app; split; [auto|repeat constructor]|split; auto].
Qed.
Section Accepts.
Variables (gs : Z -> Z) (g : Z -> Z -> Z) (p : Z) (P : Z -> Z -> list (Z * Z * Z) -> triplet -> Prop).
Hypothesis P_add : forall n m es T i j x T', P n m es T -> 1 <= i < 2 ^ 31 -> 1 <= j < 2 ^ 31 -> add_entry g T (i - 1) (j - 1) x = Ok T' -> P n m (es ++ [(i, j, x)]) T'.
Hypothesis P_alloc : forall n m nz, 0 <= nz -> P n m [] (triplet_alloc g n m nz p (negb (p =? -1))).
Hypothesis P_realloc : forall n m es T, P n m es T -> P n m es (triplet_realloc g T (-1)).
Theorem load_accepts_inv f hash T h : ~ In 0 f -> triplet_load gs g f p hash = Ok (T, h) ->
  exists n m es, ((exists c, like_sms f n m c es /\ (p = -1 \/ c = 77)) \/ like_mm f n m es) /\ P n m es T.
Proof.
  intros N0 E. enough (O : outs (triplet_load gs g f p hash) (fun '(T, h) => exists n m es, ((exists c, like_sms f n m c es /\ (p = -1 \/ c = 77)) \/ like_mm f n m es) /\ P n m es T) (fun _ => True)) by (rewrite E in O; exact O).
  clear T h E. unfold triplet_load. apply outs_bind.
  eapply outs_mono; [apply (read_line_done gs f []); split; [reflexivity|]; split; [intros; auto|]; split; [exact N0|discriminate]|]. intros [[l c1] f1]. destruct l as [s|]; [|intros; exact I]. intros (_ & D1). cbn [app] in D1.
  apply outs_bind. destruct (is_mm s).
  - destruct (validate_mm_header s) as [[]|] eqn:Ev; [|exact I]. apply validate_inv in Ev. cbn [bind]. apply outs_bind. eapply outs_mono; [apply skip_comments_done; eauto|].
    intros [[d c2] f2] (cs & D2 & Hc & Hd). destruct (scan3 d) as [v|] eqn:E3; [|exact I]. cbn [bind]. destruct v as [[[n m] nnz]|]; [|exact I]. apply scan3_inv in E3 as (B3 & Hn & Hm & _). cbn [outs].
    unfold assert_. destruct (0 <=? nnz) eqn:Ez; [|exact I]. cbn [bind]. apply outs_bind.
    eapply outs_mono; [apply (read_entries_done gs g true nnz f ([s] ++ cs ++ [d]) (P n m) (P_add n m)); [apply P_alloc; lia|exact D2]|].
    intros [[T c3] f3] (E & es & HT & ls & gl & D3 & Hls & El & Hes). apply outs_bind. destruct (match c3 with Some _ => _ | None => _ end) as [h|]; [|exact I]. cbn [outs].
    exists n, m, es. split; [|exact HT]. right. apply done_end in D3 as [D3 D4]; [|auto]. cbn [app] in D3, D4. rewrite <- app_assoc in D3, D4. cbn [app] in D3, D4. subst nnz. exists s, cs, d, ls, gl. repeat (split; [assumption|]). exact Hls.
  - destruct (scan_sms s) as [v|] eqn:E3; [|exact I]. cbn [bind]. destruct v as [[[n m] c]|]; [|exact I]. apply scan_sms_inv in E3 as (B3 & Hn & Hm). unfold assert_ at 1. destruct (_ || _) eqn:Ec; [|exact I]. cbn [bind outs assert_ Z.leb Z.compare].
    apply outs_bind. eapply outs_mono; [apply (read_entries_done gs g false 1 f [s] (P n m) (P_add n m)); [apply P_alloc; lia|exact D1]|].
    intros [[T c3] f3] (E & es & HT & ls & e & gl & D3 & Hls & He). apply outs_bind. destruct (match c3 with Some _ => _ | None => _ end) as [h|]; [|exact I]. cbn [outs].
    exists n, m, es. split; [|now apply P_realloc]. left. exists c. split; [|lia]. apply done_end in D3 as [D3 D4]; [|auto]. cbn [app] in D3, D4. exists s, ls, e, gl. repeat (split; [assumption|]). exact He.
Qed.
End Accepts.
Theorem load_accepts gs g f p hash T h : ~ In 0 f -> triplet_load gs g f p hash = Ok (T, h) ->
  exists n m es, ((exists c, like_sms f n m c es /\ (p = -1 \/ c = 77)) \/ like_mm f n m es) /\ (0 <= n -> 0 <= m -> loaded n m p (negb (p =? -1)) es T).
Proof.
  apply (load_accepts_inv gs g p (fun n m es T => 0 <= n -> 0 <= m -> loaded n m p (negb (p =? -1)) es T)).
  - intros n m es T0 i j x T' H Hi Hj Ea H1 H2. pose proof (loaded_snoc g n m p _ es i j x T0 (H H1 H2) ltac:(lia) ltac:(lia)) as S. rewrite Ea in S. exact S.
  - intros n m nz Hz H1 H2. apply loaded_alloc; lia.
  - intros n m es T0 H H1 H2. apply loaded_realloc. exact (H H1 H2).
Qed.
