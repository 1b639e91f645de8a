(** MatrixMarket files; what is hashed. *)
From Coq Require Import String.
From Verif Require Import Base BaseFacts Spec SpecText Zp Mat MatFacts RowList VecProofs DenseProofs4 CertProofs SpecSha ShaHash Sha ShaCtx Stdio IO TextProofs IOProofs.

Local Open Scope string_scope.
Local Open Scope list_scope.
Local Open Scope Z_scope.

(** ** The header of MatrixMarket files *)
Lemma lower_space c : is_space c -> lower c = c.
Proof. unfold is_space, lower. intros. replace (_ && _) with false by lia. auto. Qed.
Lemma word_spec t s : is_word t s -> Forall (fun c => isspace c = false) (chars s) -> Forall (fun c => isspace c = false) t.
Proof.
  unfold is_word. intros <- H. rewrite Forall_map in H. eapply Forall_impl; [|exact H]. intros c Hc. destruct (isspace c) eqn:E; [|auto].
  cbn beta in Hc. rewrite lower_space in Hc by (now apply isspace_spec). congruence.
Qed.
Lemma take_word_app t r : Forall (fun c => isspace c = false) t -> (r = [] \/ isspace (get r 0) = true) -> take_word (t ++ r) = (t, r).
Proof.
  intros Ht Hr. induction Ht as [|c t Hc _ IH]; cbn [app take_word].
  - destruct r as [|c r]; [reflexivity|]. destruct Hr as [Hr|Hr]; [discriminate|]. change (get (c :: r) 0) with c in Hr. cbn [take_word]. now rewrite Hr.
  - rewrite Hc, IH. reflexivity.
Qed.
Lemma scan_s_word w t s r : spaces w -> is_word t s -> Forall (fun c => isspace c = false) (chars s) -> 0 < len (chars s) < 1000 -> (r = [] \/ isspace (get r 0) = true) ->
  scan_s (w ++ t ++ r) = Ok (Some t, r).
Proof.
  intros Hw Ht Hs Hl Hr. pose proof (word_spec t s Ht Hs) as Ht'. assert (El : len t = len (chars s)) by (rewrite <- Ht; unfold len; now rewrite map_length).
  unfold scan_s, scan_word. rewrite skip_space_app by auto. destruct t as [|c t]; [unfold len in *; cbn in *; lia|].
  cbn [app]. rewrite skip_space_stop by (now inversion Ht'). change (c :: t ++ r) with ((c :: t) ++ r). rewrite take_word_app by auto. cbn beta iota. replace (_ <=? _) with true by lia. reflexivity.
Qed.
Lemma spaces_get w r : spaces w -> w <> [] -> isspace (get (w ++ r) 0) = true.
Proof. intros H Hw. destruct w; [congruence|]. inversion H; subst. now apply isspace_spec. Qed.
Lemma prefix_app a s : prefix a (a ++ s) = Some s.
Proof. induction a as [|c a IH]; [reflexivity|]. cbn [app prefix]. now rewrite Z.eqb_refl. Qed.
Lemma eqs_word t s s' : is_word t s -> chars s = s' -> eqs (map tolower t) s' = true.
Proof. intros H <-. unfold eqs. change (map tolower t) with (map lower t). rewrite H. destruct (list_eq_dec _ _ _); auto. Qed.
Lemma header_ok s : mm_header s -> is_mm s = true /\ validate_mm_header s = Ok tt.
Proof.
  intros (w0 & w1 & w2 & w3 & w4 & a & b & c & d & -> & (H0 & H1 & H2 & H3 & H4) & (N0 & N1 & N2 & N3) & Ha & Hb & Hc & Hd).
  change (chars _) with MM. unfold is_mm, validate_mm_header. rewrite prefix_app. split; [auto|].
  rewrite (scan_s_word w0 a "matrix"); [|auto|auto|repeat constructor|cbn; lia|right; now apply spaces_get]. cbn [bind].
  rewrite (scan_s_word w1 b "coordinate"); [|auto|auto|repeat constructor|cbn; lia|right; now apply spaces_get]. cbn [bind].
  rewrite (scan_s_word w2 c "integer"); [|auto|auto|repeat constructor|cbn; lia|right; now apply spaces_get]. cbn [bind].
  rewrite (scan_s_word w3 d "general"); [|auto|auto|repeat constructor|cbn; lia|]. 2: { destruct w4; [auto|]. right. rewrite <- (app_nil_r (z :: w4)). apply spaces_get; [auto|discriminate]. } cbn [bind].
  rewrite (eqs_word a "matrix"), (eqs_word b "coordinate"), (eqs_word c "integer"), (eqs_word d "general") by auto. reflexivity.
Qed.

Lemma line3_head s a b c : line3 s a b c -> get s 0 <> 37 /\ s <> [].
Proof.
  intros (w0 & w1 & w2 & w3 & sa & sb & sc & -> & H0 & H1 & H2 & H3 & N1 & N2 & Na & Nb & Nc). split; [now apply (spaces_head w0 sa a)|].
  destruct (numeral_head sa a Na) as (x & t & -> & _). destruct w0; discriminate.
Qed.
Lemma comments_ok h gs cs d ls fuel ctx f m : Forall (fun s => get s 0 = 37) cs -> get d 0 <> 37 -> text (cs ++ d :: ls) -> at_lines f (cs ++ d :: ls) -> bytes (concat (cs ++ d :: ls)) -> hashed h ctx m ->
  len m + len (concat (cs ++ d :: ls)) < 2 ^ 61 -> (length cs < fuel)%nat ->
  sat (loop fuel (fun '(ctx, f) =>
    '(l, ctx, f) <- read_line gs ctx f ;;
    match l with
    | None => Fail AssertFailed
    | Some s => c <- aget (s ++ [0]) 0 ;; if negb (c =? 37) then Ok (inr (s, ctx, f)) else Ok (inl (ctx, f))
    end) (ctx, f)) (fun '(s, ctx', f') => s = d /\ hashed h ctx' (m ++ concat (cs ++ [d])) /\ at_lines f' ls).
Proof.
  intros Hc. revert fuel ctx f m. induction Hc as [|s cs E Hc IH]; intros fuel ctx f m Hd Ht Hf B H L Hfu; (destruct fuel as [|fuel]; [lia|]); cbn [loop].
  - apply sat_bind, sat_bind. cbn [app] in *. eapply sat_mono; [apply (read_line_lines h gs ctx m d ls f); auto|]. intros [[l c'] f'] (-> & H' & Hf').
    inversion Ht as [|? ? Hl _]; subst. apply text_line_nonempty in Hl. destruct d as [|x d]; [congruence|]. change (get (x :: d) 0) with x in Hd.
    rewrite aget_ok by (cbn; len; lia). cbn [bind]. change (get ((x :: d) ++ [0]) 0) with x. replace (x =? 37) with false by lia. cbn [negb sat concat app]. rewrite app_nil_r. auto.
  - apply sat_bind, sat_bind. cbn [app] in *. eapply sat_mono; [apply (read_line_lines h gs ctx m s (cs ++ d :: ls) f); auto|]. intros [[l c'] f'] (-> & H' & Hf').
    inversion Ht as [|? ? Hl Ht']; subst. apply text_line_nonempty in Hl. destruct s as [|x s]; [congruence|]. change (get (x :: s) 0) with x in E.
    rewrite aget_ok by (cbn; len; lia). cbn [bind]. change (get ((x :: s) ++ [0]) 0) with x. replace (x =? 37) with true by lia. cbn [negb sat Z.eqb Pos.eqb]. cbn [concat] in *. apply bytes_app_inv in B as [B1 B2]. rewrite len_app in L.
    eapply sat_mono; [apply (IH fuel c' f' (m ++ x :: s)); auto; [rewrite len_app; lia|cbn in Hfu; lia]|]. intros [[s2 c2] f2] (-> & H2 & H3). rewrite <- app_assoc in H2. auto.
Qed.

Theorem load_mm gs g f n m es p hash : mm_file f n m es -> es <> [] -> bytes f -> len f < 2 ^ 61 -> (forall md, hash = Some md -> len md = 32) ->
  sat (triplet_load gs g f p hash) (fun '(T, h) => loaded n m p (negb (p =? -1)) es T /\ h = option_map (fun _ => sha256 f) hash).
Proof.
  intros (hd & cs & d & ls & gl & -> & Ht & Hh & Hc & Hd & Hn & Hm & Hz & HL) Hes B L Hmd. unfold triplet_load. set (fl := concat (hd :: cs ++ d :: ls ++ gl)) in *.
  set (hb := match hash with Some _ => true | None => false end).
  apply sat_bind. eapply sat_mono; [apply (read_line_lines hb gs (match hash with Some _ => Some SHA256_init | None => None end) [] hd (cs ++ d :: ls ++ gl)); [apply hashed_init|auto|split; [reflexivity|discriminate]|exact B|exact L]|].
  intros [[l c1] f1] (-> & H1 & Hf1). destruct (header_ok hd Hh) as [E1 E2]. rewrite E1, E2. cbn [bind]. apply sat_bind, sat_bind. unfold skip_comments.
  inversion Ht as [|? ? _ Ht1]; subst. unfold fl in B, L. cbn [concat] in B, L. apply bytes_app_inv in B as [B1 B2]. rewrite len_app in L.
  eapply sat_mono; [apply (comments_ok hb gs cs d (ls ++ gl) _ c1 f1 ([] ++ hd)); auto; [apply (line3_head _ _ _ _ Hd)|]|].
  { destruct Hf1 as [-> _]. pose proof (text_length _ Ht1). rewrite app_length in H. cbn in H. lia. }
  intros [[s c2] f2] (-> & H2 & Hf2). pose proof (len_nonneg es). rewrite (scan3_line d n m (len es)) by (auto; unfold int32, int64; lia). cbn [bind sat]. replace (0 <=? len es) with true by lia. cbn [assert_ bind].
  apply sat_bind. replace (concat (cs ++ d :: ls ++ gl)) with (concat (cs ++ [d]) ++ concat (ls ++ gl)) in B2, L by (rewrite <- concat_app, <- app_assoc; reflexivity).
  apply bytes_app_inv in B2 as [B2 B3]. rewrite len_app in L. change (cs ++ d :: ls ++ gl) with (cs ++ [d] ++ ls ++ gl) in Ht1. apply text_app_l, text_app_l in Ht1.
  eapply sat_mono; [eapply (mm_entries gs g true (len es) hb n m p (negb (p =? -1)) ls gl es); eauto; [apply loaded_alloc; lia|cbn [app]; rewrite len_app; lia]|].
  intros [[T c3] f3] (LT & HH). replace ((([] ++ hd) ++ concat (cs ++ [d])) ++ concat (ls ++ gl)) with fl in HH.
  2: { unfold fl. cbn [concat app]. rewrite <- app_assoc. f_equal. rewrite <- concat_app, <- app_assoc. reflexivity. }
  apply sat_bind. eapply sat_mono; [apply (hashed_final gs hash c3 fl); auto|]. { unfold fl. cbn [concat]. replace (concat (cs ++ d :: ls ++ gl)) with (concat (cs ++ [d]) ++ concat (ls ++ gl)) by (rewrite <- concat_app, <- app_assoc; reflexivity). rewrite !len_app. lia. }
  intros h ->. split; auto.
Qed.

(** ** What is hashed *)
Lemma cstr_before s : cstr s = before_nul s.
Proof. induction s as [|c s IH]; [reflexivity|]. cbn. now rewrite IH. Qed.
Lemma before_nul_app l r : ~ In 0 l -> before_nul (l ++ r) = l ++ before_nul r.
Proof. induction l as [|c l IH]; intros H; [reflexivity|]. cbn [app before_nul]. destruct (Z.eqb_spec c 0); [subst; exfalso; apply H; left; auto|]. rewrite IH; [auto|]. intros H'. apply H. right. auto. Qed.
Lemma before_nul_in l r : In 0 l -> before_nul (l ++ r) = before_nul l.
Proof. induction l as [|c l IH]; intros H; [destruct H|]. cbn [app before_nul]. destruct (Z.eqb_spec c 0); [auto|]. destruct H as [H|H]; [congruence|]. rewrite IH; auto. Qed.
Lemma before_nul_split l : In 0 l -> exists b, l = before_nul l ++ 0 :: b.
Proof. induction l as [|c l IH]; intros H; [destruct H|]. cbn [before_nul]. destruct (Z.eqb_spec c 0) as [->|]; [exists l; reflexivity|]. destruct H as [H|H]; [congruence|]. destruct (IH H) as [b E]. exists b. cbn [app]. now rewrite <- E. Qed.
Lemma take_line_last k s l r e : take_line k s = (l, r, e) -> forall a b, l = a ++ b -> b <> [] -> ~ In NL a.
Proof.
  revert s l r e. induction k as [|k IH]; intros s l r e E a b El Hb; cbn [take_line] in E.
  - inversion E; subst. symmetry in H0. apply app_eq_nil in H0. destruct H0 as [-> _]. auto.
  - destruct s as [|c t]; [inversion E; subst; symmetry in H0; apply app_eq_nil in H0; destruct H0 as [-> _]; auto|].
    destruct (Z.eqb_spec c NL).
    + inversion E; subst. destruct a as [|x a]; [auto|]. cbn in H0. inversion H0. symmetry in H2. apply app_eq_nil in H2. destruct H2. congruence.
    + destruct (take_line k t) as [[l' r'] e'] eqn:E'. inversion E; subst. destruct a as [|x a]; [auto|]. cbn in H0. inversion H0; subst. intros [H|H]; [congruence|]. eapply IH; eauto.
Qed.
Lemma In_get l i : 0 <= i < len l -> In (get l i) l.
Proof. intros H. unfold get, getd. replace (i <? 0) with false by lia. apply nth_In. unfold len in H. lia. Qed.

Lemma before_nul_len s : len (before_nul s) <= len s.
Proof. induction s as [|c s IH]; [cbn; lia|]. cbn [before_nul]. rewrite len_cons. destruct (c =? 0); [pose proof (len_nonneg s); change (len []) with 0; lia|]. rewrite len_cons. lia. Qed.
Lemma bytes_before s : bytes s -> bytes (before_nul s).
Proof. induction 1; [constructor|]. cbn [before_nul]. destruct (x =? 0); [constructor|]. now constructor. Qed.

Section HASH.
Variables (gs : Z -> Z) (g : Z -> Z -> Z) (bs : list Z) (h : bool).
Hypotheses (Bb : bytes bs) (Lb : len bs < 2 ^ 61).
Definition hinv (ctx : option sha_ctx) (f : file) : Prop :=
  exists m, hashed h ctx m /\ m ++ before_nul (frest f) = before_nul bs /\ bytes (frest f) /\ (feof f = true -> frest f = []).
Lemma read_line_hash ctx f : hinv ctx f ->
  outs (read_line gs ctx f) (fun '(l, ctx', f') => hinv ctx' f' /\ (l = None -> frest f' = [])) (fun _ => True).
Proof.
  intros (m & H & E & B & F). unfold read_line, fgets. destruct f as [r e]. cbn [feof frest] in *. destruct e.
  - specialize (F eq_refl). subst r. cbn [outs]. split; [exists m; auto|auto].
  - destruct (take_line (Z.to_nat (1024 - 1)) r) as [[l r'] e'] eqn:El. destruct (take_line_app _ _ _ _ _ El) as (Er & Ee & E0). destruct l as [|c l'] eqn:Ell.
    + assert (Hr : r = []) by (apply E0; [auto|discriminate]). cbn [app] in Er. rewrite Hr in *. subst r'. cbn [outs frest feof]. split; [exists m; cbn; auto|auto].
    + rewrite <- Ell in *. rewrite cstr_before. cbn [feof]. subst r. apply bytes_app_inv in B as [B1 B2].
      unfold assert_ at 1. destruct (negb (len (before_nul l) =? 0)) eqn:En; [|exact I]. cbn [bind].
      unfold assert_ at 1. destruct ((get (before_nul l) (len (before_nul l) - 1) =? NL) || e') eqn:Ea; [|exact I]. cbn [bind].
      assert (Es : before_nul (l ++ r') = before_nul l ++ before_nul r').
      { destruct (in_dec Z.eq_dec 0 l) as [Hi|Hi].
        - rewrite before_nul_in by auto. destruct e'; [rewrite Ee by auto; cbn; now rewrite app_nil_r|]. exfalso. rewrite orb_false_r in Ea. destruct (before_nul_split l Hi) as [b Eb].
          pose proof (len_nonneg (before_nul l)).
          apply (take_line_last _ _ _ _ _ El (before_nul l) (0 :: b) Eb); [discriminate|]. replace NL with (get (before_nul l) (len (before_nul l) - 1)) by lia. apply In_get. lia.
        - rewrite before_nul_app by auto. f_equal. rewrite <- (app_nil_r l) at 2. rewrite before_nul_app by auto. cbn. now rewrite app_nil_r. }
      apply outs_bind, sat_outs. rewrite Es in E. pose proof (before_nul_len bs) as Lbn. rewrite <- E, !len_app in Lbn. pose proof (len_nonneg (before_nul r')).
      eapply sat_mono; [apply (hashed_update h gs ctx m (before_nul l)); auto; [now apply bytes_before|lia]|].
      intros ctx' H'. cbn [outs frest feof]. split; [|discriminate]. exists (m ++ before_nul l). rewrite <- app_assoc. auto.
Qed.
Lemma skip_comments_hash ctx f : hinv ctx f -> outs (skip_comments gs ctx f) (fun '(s, ctx', f') => hinv ctx' f') (fun _ => True).
Proof.
  intros H. unfold skip_comments. apply (outs_loop (fun '(c, f) => hinv c f)); [exact I| |exact H]. intros [c f'] H1. apply outs_bind. eapply outs_mono; [now apply read_line_hash|].
  intros [[l c2] f2] (H2 & _). destruct l as [s|]; [|exact I]. destruct (aget (s ++ [0]) 0) as [c3|]; [|exact I]. cbn [bind]. destruct (negb _); exact H2.
Qed.
Lemma read_entries_hash mm nnz T ctx f : hinv ctx f -> outs (read_entries gs g mm nnz T ctx f) (fun '(T', ctx', f') => hinv ctx' f' /\ frest f' = []) (fun _ => True).
Proof.
  intros H. unfold read_entries. apply (outs_loop (fun '(T, e, k, c, f) => hinv c f)); [exact I| |exact H]. intros [[[[T' e] k] c] f'] H1. apply outs_bind. eapply outs_mono; [now apply read_line_hash|].
  intros [[l c2] f2] (H2 & H3). destruct l as [s|]; [|destruct e; [cbn [outs]; auto|exact I]]. destruct e; [exact H2|].
  destruct (scan3 s) as [v|]; [|exact I]. cbn [bind]. destruct v as [[[i j] x]|]; [|exact I]. unfold assert_. destruct (negb _); [|exact I]. cbn [bind].
  destruct (_ && _ && _); cbn [bind]; [exact H2|]. unfold i32. destruct (_ && _); [|exact I]. cbn [bind]. destruct (_ && _); [|exact I]. cbn [bind]. destruct (add_entry _ _ _ _ _); [exact H2|exact I].
Qed.
End HASH.
Theorem load_hash gs g bs p md : bytes bs -> len bs < 2 ^ 61 -> len md = 32 ->
  outs (triplet_load gs g bs p (Some md)) (fun '(T, h) => h = Some (sha256 (before_nul bs))) (fun _ => True).
Proof.
  intros B L Hm. unfold triplet_load. apply outs_bind. eapply outs_mono.
  { apply (read_line_hash gs g bs true L (Some SHA256_init)). exists []. split; [apply (hashed_init (Some md))|]. split; [reflexivity|]. split; [exact B|discriminate]. }
  intros [[l c1] f1] (H1 & _). destruct l as [s|]; [|exact I]. apply outs_bind. eapply (outs_mono _ (fun '(mm, n, m, nnz, c, f) => hinv bs true c f)).
  { destruct (is_mm s).
    - destruct (validate_mm_header s); [|exact I]. cbn [bind]. apply outs_bind. eapply outs_mono; [now apply (skip_comments_hash gs g bs true L)|]. intros [[s' c2] f2] H2.
      destruct (scan3 s') as [v|]; [|exact I]. cbn [bind]. destruct v as [[[? ?] ?]|]; [exact H2|exact I].
    - destruct (scan_sms s) as [v|]; [|exact I]. cbn [bind]. destruct v as [[[? ?] ?]|]; [|exact I]. unfold assert_. destruct (_ || _); [exact H1|exact I]. }
  intros [[[[[mm n] m] nnz] c] f] H2. unfold assert_. destruct (0 <=? nnz); [|exact I]. cbn [bind]. apply outs_bind. eapply outs_mono; [now apply (read_entries_hash gs g bs true L)|].
  intros [[T c3] f3] ((msg & G1 & G2 & _) & G3). rewrite G3 in G2. cbn in G2. rewrite app_nil_r in G2. subst msg. apply outs_bind, sat_outs.
  pose proof (before_nul_len bs). eapply sat_mono; [apply (hashed_final gs (Some md) c3 (before_nul bs)); auto; [lia|congruence]|]. intros h ->. reflexivity.
Qed.
