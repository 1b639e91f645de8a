(** Loading matrices from text files. *)
From Verif Require Import Base BaseFacts Spec SpecText Zp Mat MatFacts RowList VecProofs SpecSha ShaHash Sha ShaCtx Stdio IO TextProofs.

Lemma text_app_l a b : text (a ++ b) -> text b.
Proof. induction a as [|s a IH]; [auto|]. intros H. inversion H. auto. Qed.
Lemma text_line_nonempty s r : text_line s r -> s <> [].
Proof. intros [(t & -> & _)|(_ & H & _)]; [destruct t; discriminate|auto]. Qed.
Lemma text_empty ls : text ls -> concat ls = [] -> ls = [].
Proof. intros [|s l T _] E; [auto|]. apply text_line_nonempty in T. cbn in E. apply app_eq_nil in E. tauto. Qed.
Lemma text_length ls : text ls -> (length ls <= length (concat ls))%nat.
Proof. induction 1 as [|s ls T _ IH]; [auto|]. cbn. rewrite app_length. apply text_line_nonempty in T. destruct s; [congruence|]. cbn. lia. Qed.
Lemma bytes_app_inv a b : bytes (a ++ b) -> bytes a /\ bytes b.
Proof. apply Forall_app. Qed.

(* the file f is at the beginning of the lines ls *)
Definition at_lines (f : file) (ls : list (list Z)) : Prop := frest f = concat ls /\ (feof f = true -> ls = []).
Lemma read_line_lines h gs ctx m s ls f : hashed h ctx m -> text (s :: ls) -> at_lines f (s :: ls) -> bytes (concat (s :: ls)) -> len m + len (concat (s :: ls)) < 2 ^ 61 ->
  sat (read_line gs ctx f) (fun '(l, ctx', f') => l = Some s /\ hashed h ctx' (m ++ s) /\ at_lines f' ls).
Proof.
  intros H T (F1 & F2) B L. destruct f as [r e]. cbn in F1, F2. destruct e; [specialize (F2 eq_refl); discriminate|]. subst r. inversion T as [|? ? T1 T2]; subst.
  cbn [concat] in *. apply bytes_app_inv in B as [B1 B2]. rewrite len_app in L. pose proof (len_nonneg (concat ls)).
  eapply sat_mono; [apply (read_line_ok h gs ctx m s (concat ls)); auto; lia|]. intros [[l ctx'] f'] (E1 & E2 & E3 & E4). split; [auto|]. split; [auto|]. split; [auto|]. intros E. apply text_empty; auto.
Qed.
Lemma read_line_end gs ctx f : at_lines f [] -> read_line gs ctx f = Ok (None, ctx, File [] true).
Proof. intros (F1 & _). destruct f as [r e]. cbn in F1. subst r. apply read_line_eof. Qed.

(* the dimension after the insertion of entries in the rows (columns) l *)
Lemma keeps_in p wv e e' : In e' (keeps p wv e) -> fst e' = fst e.
Proof. destruct e as [[i j] x]. unfold keeps. destruct wv; [destruct (bal p x =? 0)|]; cbn; intuition (subst; auto). Qed.

Section LOADED.
Variables (g : Z -> Z -> Z) (n m p : Z) (wv : bool).
Notation loaded := (loaded n m p wv).
Lemma loaded_snoc es i j x T : loaded es T -> 1 <= i -> 1 <= j -> sat (add_entry g T (i - 1) (j - 1) x) (fun T' => loaded (es ++ [(i, j, x)]) T').
Proof.
  intros (A1 & A2 & A3 & A4 & A5 & A6 & A7) Hi Hj. eapply sat_mono; [apply add_entry_ok; [auto|lia|lia]|].
  intros T' (B1 & B2 & B3 & B4 & B5 & B6). rewrite A2, A3 in *. split; [auto|]. split; [auto|]. split; [auto|].
  split; [rewrite B4, A4, map_app, flat_map_app; cbn; now rewrite app_nil_r|].
  destruct (keeps p wv (i - 1, j - 1, x)) as [|k l] eqn:E.
  - destruct (B5 eq_refl) as [-> ->]. split; [auto|]. split; [auto|]. intros F. apply Forall_app in F as [F _]. auto.
  - destruct B6 as [-> ->]; [discriminate|]. split; [lia|]. split; [lia|]. intros F. apply Forall_app in F as [F F']. destruct (A7 F). inversion F' as [|? ? I _]; subst. unfold inside in I. lia.
Qed.

Lemma loaded_alloc nz : 0 <= n -> 0 <= m -> 0 <= nz -> loaded [] (triplet_alloc g n m nz p wv).
Proof.
  intros. unfold loaded, triplet_alloc. cbn [tn tm tprime]. split; [|split; [auto|split; [destruct wv; auto|split; [reflexivity|]]]]; [|repeat split; lia].
  unfold twf. cbn [tn tm tnz tj ti tx]. rewrite !len_malloc. repeat split; try lia. destruct wv; [rewrite len_malloc; lia|auto].
Qed.
Lemma loaded_realloc es T : loaded es T -> loaded es (triplet_realloc g T (-1)).
Proof.
  intros (A1 & A2 & A3 & A4 & A5 & A6 & A7). change (triplet_realloc g T (-1)) with (Triplet (tnz T) (tn T) (tm T) (realloc (g 0) (ti T) (tnz T)) (realloc (g 1) (tj T) (tnz T)) (option_map (fun x => realloc (g 2) x (tnz T)) (tx T)) (tprime T)).
  destruct (triplet_realloc_ok g T (tnz T) A1 (Z.le_refl _)) as (B1 & B2 & B3 & B4 & B5 & B6 & B7 & B8). revert B1 B2 B3 B4 B5 B7 B8. unfold triplet_realloc. replace (tnz T <? 0) with false by (unfold twf in A1; lia).
  set (T' := Triplet _ _ _ _ _ _ _). intros B1 B2 B3 B4 B5 B7 B8. split; [auto|]. split; [congruence|]. split; [unfold has_values in *; destruct (tx T'), (tx T); auto; destruct B7; intuition congruence|].
  rewrite B3, B4. split; [|auto]. rewrite <- A4. unfold tlist. rewrite B2. apply map_ext_in. intros k Hk. apply In_zseq in Hk. destruct (B8 k Hk) as (-> & -> & ->). auto.
Qed.
End LOADED.

Section ENTRIES.
Variables (gs : Z -> Z) (g : Z -> Z -> Z) (mm : bool) (nnz : Z) (h : bool) (n m p : Z) (wv : bool).
Let body := (fun '(T, end_, entries, ctx, f) =>
    '(l, ctx, f) <- read_line gs ctx f ;;
    match l with
    | None => if end_ then Ok (inr (T, ctx, f)) else Fail AssertFailed
    | Some s =>
        if (end_ : bool) then Ok (inl (T, end_, entries, ctx, f)) else
        v <- scan3 s ;;
        match v with
        | None => Fail AssertFailed
        | Some (i, j, x) =>
            let marker := (i =? 0) && (j =? 0) && (x =? 0) in
            _ <- assert_ (negb (marker && mm)) ;;
            '(T, entries) <-
              (if marker then Ok (T, entries) else
               i <- i32 (i - 1) ;;
               j <- i32 (j - 1) ;;
               T <- add_entry g T i j x ;;
               Ok (T, entries + 1)) ;;
            let end_ := marker || (mm && (entries =? nnz)) in
            Ok (inl (T, end_, entries, ctx, f))
        end
    end : res ((triplet * bool * Z * option sha_ctx * file) + (triplet * option sha_ctx * file))).

Lemma garbage_ok gl fuel T e ctx f msg : text gl -> at_lines f gl -> bytes (concat gl) -> hashed h ctx msg -> len msg + len (concat gl) < 2 ^ 61 -> (length gl < fuel)%nat ->
  sat (loop fuel body (T, true, e, ctx, f)) (fun '(T', ctx', f') => T' = T /\ hashed h ctx' (msg ++ concat gl)).
Proof.
  revert fuel ctx f msg. induction gl as [|s gl IH]; intros fuel ctx f msg Ht Hf B H L Hfu; (destruct fuel as [|fuel]; [cbn in Hfu; lia|]); cbn [loop]; unfold body at 1.
  - rewrite (read_line_end _ _ _ Hf). cbn [bind sat concat]. rewrite app_nil_r. auto.
  - apply sat_bind, sat_bind. eapply sat_mono; [apply (read_line_lines h gs ctx msg s gl f); auto|]. intros [[l ctx'] f'] (-> & H' & Hf'). cbn [sat].
    inversion Ht; subst. cbn [concat] in *. apply bytes_app_inv in B as [B1 B2]. rewrite len_app in L.
    eapply sat_mono; [apply (IH fuel ctx' f' (msg ++ s)); auto; try (rewrite len_app; lia); cbn in Hfu; lia|]. intros [[T' c''] f'']. cbn beta. rewrite <- app_assoc. auto.
Qed.

Lemma entries_ok Q ls gl es fuel T es0 flag e ctx f msg : entry_lines ls es -> loaded n m p wv es0 T -> (es <> [] -> flag = false) -> (mm = true -> e + len es <= nnz) ->
  text (ls ++ gl) -> at_lines f (ls ++ gl) -> bytes (concat (ls ++ gl)) -> hashed h ctx msg -> len msg + len (concat (ls ++ gl)) < 2 ^ 61 -> (length (ls ++ gl) < fuel)%nat ->
  (forall T' ctx' f' fuel', loaded n m p wv (es0 ++ es) T' -> at_lines f' gl -> hashed h ctx' (msg ++ concat ls) -> (length gl < fuel')%nat ->
     sat (loop fuel' body (T', match es with [] => flag | _ => mm && (e + len es =? nnz) end, e + len es, ctx', f')) Q) ->
  sat (loop fuel body (T, flag, e, ctx, f)) Q.
Proof.
  intros HL. revert fuel T es0 flag e ctx f msg. induction HL as [|s [[i j] x] ls es (H1 & Hi & Hj & Hx) HL IH]; intros fuel T es0 flag e ctx f msg LT Hfl Hmm Ht Hf B H L Hfu K.
  - cbn [app] in *. replace e with (e + len (@nil (Z * Z * Z))) by (unfold len; cbn; lia). apply K; auto; [now rewrite app_nil_r|now rewrite app_nil_r].
  - rewrite Hfl by discriminate. destruct fuel as [|fuel]; [cbn in Hfu; lia|]. cbn [loop]. unfold body at 1. apply sat_bind, sat_bind.
    eapply sat_mono; [apply (read_line_lines h gs ctx msg s (ls ++ gl) f); auto|]. intros [[l ctx'] f'] (-> & H' & Hf').
    rewrite (scan3_line s i j x) by (auto; unfold int32; lia). cbn [bind]. replace ((i =? 0) && (j =? 0) && (x =? 0)) with false by lia. cbn [negb andb orb assert_ bind].
    unfold i32. replace ((- 2 ^ 31 <=? i - 1) && (i - 1 <? 2 ^ 31)) with true by lia. replace ((- 2 ^ 31 <=? j - 1) && (j - 1 <? 2 ^ 31)) with true by lia. cbn [bind].
    apply sat_bind, sat_bind. eapply sat_mono; [apply loaded_snoc; eauto; lia|]. intros T1 LT1. cbn [sat].
    inversion Ht; subst. cbn [concat app] in *. apply bytes_app_inv in B as [B1 B2]. rewrite len_app in L. rewrite len_cons in *. pose proof (len_nonneg es).
    apply (IH fuel T1 (es0 ++ [(i, j, x)]) _ (e + 1) ctx' f' (msg ++ s)); auto.
    + intros Hes. destruct mm; [|reflexivity]. specialize (Hmm eq_refl). destruct es; [congruence|]. rewrite len_cons in Hmm. pose proof (len_nonneg es). cbn [andb]. lia.
    + intros E. specialize (Hmm E). lia.
    + rewrite len_app. lia.
    + cbn in Hfu. lia.
    + intros T' c' f'' fuel' G1 G2 G3 G4. rewrite <- app_assoc in G1, G3. specialize (K T' c' f'' fuel' G1 G2 G3 G4).
      replace (e + 1 + len es) with (e + (1 + len es)) by lia. destruct es; [|exact K]. change (len []) with 0 in *. replace (e + (1 + 0)) with (e + 1) in K by lia. replace (e + (1 + 0)) with (e + 1) by lia. exact K.
Qed.
Lemma marker_step s gl fuel T e ctx f msg Q : mm = false -> line3 s 0 0 0 -> text (s :: gl) -> at_lines f (s :: gl) -> bytes (concat (s :: gl)) -> hashed h ctx msg -> len msg + len (concat (s :: gl)) < 2 ^ 61 ->
  (forall ctx' f', at_lines f' gl -> hashed h ctx' (msg ++ s) -> sat (loop fuel body (T, true, e, ctx', f')) Q) ->
  sat (loop (S fuel) body (T, false, e, ctx, f)) Q.
Proof.
  intros Em H1 Ht Hf B H L K. cbn [loop]. unfold body at 1. apply sat_bind, sat_bind. eapply sat_mono; [apply (read_line_lines h gs ctx msg s gl f); auto|]. intros [[l ctx'] f'] (-> & H' & Hf').
  rewrite (scan3_line s 0 0 0) by (auto; unfold int32, int64; lia). rewrite Em. cbn [bind Z.eqb andb negb assert_ orb sat]. auto.
Qed.

Lemma sms_entries ls mk gl es T ctx f msg : mm = false -> entry_lines ls es -> line3 mk 0 0 0 -> loaded n m p wv [] T ->
  text (ls ++ mk :: gl) -> at_lines f (ls ++ mk :: gl) -> bytes (concat (ls ++ mk :: gl)) -> hashed h ctx msg -> len msg + len (concat (ls ++ mk :: gl)) < 2 ^ 61 ->
  sat (read_entries gs g mm nnz T ctx f) (fun '(T', ctx', f') => loaded n m p wv es T' /\ hashed h ctx' (msg ++ concat (ls ++ mk :: gl))).
Proof.
  intros Em HL Hk LT Ht Hf B H L. unfold read_entries. change (sat (loop (S (length (frest f))) body (T, false, 0, ctx, f)) (fun '(T', ctx', f') => loaded n m p wv es T' /\ hashed h ctx' (msg ++ concat (ls ++ mk :: gl)))).
  assert (Hfu : (length (ls ++ mk :: gl) < S (length (frest f)))%nat). { destruct Hf as [-> _]. pose proof (text_length _ Ht). lia. }
  eapply (entries_ok _ ls (mk :: gl) es _ T [] false 0 ctx f msg); eauto. { congruence. }
  intros T' ctx' f' fuel' LT' Hf' H' Hfu'. rewrite Em. cbn [app andb] in *. replace (match es with [] => false | _ => false end) with false by (destruct es; auto).
  destruct fuel' as [|fuel']; [lia|]. pose proof (text_app_l _ _ Ht) as Ht'. rewrite concat_app in *. apply bytes_app_inv in B as [B1 B2]. rewrite len_app in L.
  eapply (marker_step mk gl); eauto. { rewrite len_app. lia. }
  intros c2 f2 Hf2 H2. clear Em. inversion Ht'; subst. cbn [concat] in *. apply bytes_app_inv in B2 as [B2 B3]. rewrite len_app in L.
  eapply sat_mono; [eapply (garbage_ok gl); eauto; try (rewrite !len_app; lia); cbn in Hfu'; lia|]. intros [[T2 c3] f3] (-> & HH). rewrite <- !app_assoc in HH. auto.
Qed.
Lemma mm_entries ls gl es T ctx f msg : mm = true -> entry_lines ls es -> nnz = len es -> es <> [] -> loaded n m p wv [] T ->
  text (ls ++ gl) -> at_lines f (ls ++ gl) -> bytes (concat (ls ++ gl)) -> hashed h ctx msg -> len msg + len (concat (ls ++ gl)) < 2 ^ 61 ->
  sat (read_entries gs g mm nnz T ctx f) (fun '(T', ctx', f') => loaded n m p wv es T' /\ hashed h ctx' (msg ++ concat (ls ++ gl))).
Proof.
  intros Em HL En Hes LT Ht Hf B H L. unfold read_entries. change (sat (loop (S (length (frest f))) body (T, false, 0, ctx, f)) (fun '(T', ctx', f') => loaded n m p wv es T' /\ hashed h ctx' (msg ++ concat (ls ++ gl)))).
  assert (Hfu : (length (ls ++ gl) < S (length (frest f)))%nat). { destruct Hf as [-> _]. pose proof (text_length _ Ht). lia. }
  eapply (entries_ok _ ls gl es _ T [] false 0 ctx f msg); eauto. { lia. }
  intros T' ctx' f' fuel' LT' Hf' H' Hfu'. rewrite Em, En, Z.add_0_l, Z.eqb_refl. cbn [app andb] in *. destruct es as [|e es]; [congruence|].
  pose proof (text_app_l _ _ Ht) as Ht'. rewrite concat_app in *. apply bytes_app_inv in B as [B1 B2]. rewrite len_app in L.
  eapply sat_mono; [eapply (garbage_ok gl); eauto; try (rewrite len_app; lia)|]. intros [[T2 c3] f3] (-> & HH). rewrite <- !app_assoc in HH. auto.
Qed.
End ENTRIES.

Lemma hashed_init (hash : option (list Z)) : hashed (match hash with Some _ => true | None => false end) (match hash with Some _ => Some SHA256_init | None => None end) [].
Proof. destruct hash; cbn; [|auto]. split; [auto|]. exists [], []. split; [apply repr_init|auto]. Qed.
Lemma hashed_final gs (hash : option (list Z)) ctx m : hashed (match hash with Some _ => true | None => false end) ctx m -> len m < 2 ^ 61 -> (forall md, hash = Some md -> len md = 32) ->
  sat (match ctx, hash with Some c, Some md => md <- SHA256_final gs md c ;; Ok (Some md) | _, _ => Ok None end) (fun r => r = option_map (fun _ => sha256 m) hash).
Proof.
  intros H L Hm. destruct ctx as [c|]; cbn in H.
  - destruct hash as [md|]; [|destruct H; discriminate]. destruct H as (_ & m1 & m2 & R & <-). apply sat_bind. eapply sat_mono; [apply (final_ok gs md c m1 m2); auto|]. intros md' ->. reflexivity.
  - destruct hash; [discriminate|reflexivity].
Qed.

Lemma numeral_head s z : numeral s z -> exists c t, s = c :: t /\ (is_digit c \/ c = 43 \/ c = 45).
Proof. intros [d H1 H2|d H1 H2|d H1 H2]; [destruct d as [|c d]; [congruence|inversion H2; subst; exists c, d; auto]|exists 43, d; auto|exists 45, d; auto]. Qed.
Lemma spaces_head w s z r : spaces w -> numeral s z -> get (w ++ s ++ r) 0 <> 37.
Proof.
  intros H Hs. destruct w as [|c w]; [|inversion H as [|? ? Hc _]; subst; change (get ((c :: w) ++ s ++ r) 0) with c; unfold is_space in Hc; lia].
  destruct (numeral_head s z Hs) as (c & t & -> & Hc). change (get ([] ++ (c :: t) ++ r) 0) with c. unfold is_digit in Hc. lia.
Qed.
Lemma not_mm s : get s 0 <> 37 -> is_mm s = false.
Proof. intros H. unfold is_mm. destruct s as [|c s]; [reflexivity|]. change (get (c :: s) 0) with c in H. cbn [MM prefix]. replace (37 =? c) with false by lia. reflexivity. Qed.
Lemma scan_sms_header s n m c : sms_header s n m c -> int32 n -> int32 m -> scan_sms s = Ok (Some (n, m, c)) /\ is_mm s = false.
Proof.
  intros (w0 & w1 & w2 & sn & sm & t & -> & H0 & H1 & H2 & N1 & N2 & Nn & Nm & Hc) In Im. split; [|apply not_mm; now apply (spaces_head _ _ n)]. unfold scan_sms.
  rewrite (scan_numeral 31 w0 sn _ n) by (auto using spaces_starts). cbn [bind].
  rewrite (scan_numeral 31 w1 sm _ m) by (auto using spaces_starts). cbn [bind].
  rewrite skip_space_app by auto. rewrite skip_space_stop; [reflexivity|]. destruct (isspace c) eqn:E; [|auto]. apply isspace_spec in E. contradiction.
Qed.

Theorem load_sms gs g f n m c es p hash : sms_file f n m c es -> bytes f -> len f < 2 ^ 61 -> (p = -1 \/ c = 77) -> (forall md, hash = Some md -> len md = 32) ->
  sat (triplet_load gs g f p hash) (fun '(T, h) => loaded n m p (negb (p =? -1)) es T /\ h = option_map (fun _ => sha256 f) hash).
Proof.
  intros (hd & ls & e & gl & -> & Ht & Hh & Hn & Hm & HL & He) B L Hp Hmd. unfold triplet_load. set (fl := concat (hd :: ls ++ e :: gl)) in *.
  apply sat_bind. eapply sat_mono; [apply (read_line_lines (match hash with Some _ => true | None => false end) gs (match hash with Some _ => Some SHA256_init | None => None end) [] hd (ls ++ e :: gl)); [apply hashed_init|auto|split; [reflexivity|discriminate]|exact B|exact L]|].
  intros [[l ctx'] f'] (-> & H' & Hf'). destruct (scan_sms_header hd n m c Hh) as [E1 E2]; [unfold int32; lia|unfold int32; lia|]. rewrite E1, E2. cbn [bind]. replace ((p =? -1) || (c =? 77)) with true by lia. cbn [assert_ bind Z.leb Z.compare].
  apply sat_bind. inversion Ht; subst. unfold fl in B, L. cbn [concat] in B, L. apply bytes_app_inv in B as [B1 B2]. rewrite len_app in L.
  eapply sat_mono; [eapply (sms_entries gs g false 1 _ n m p (negb (p =? -1)) ls e gl es); eauto; try (apply loaded_alloc; lia); cbn [app]; lia|].
  intros [[T c2] f2] (LT & HH). apply sat_bind. eapply sat_mono; [apply (hashed_final gs hash c2 fl); auto; unfold fl; cbn [concat]; rewrite ?len_app; lia|]. intros h ->. split; [apply loaded_realloc; exact LT|reflexivity].
Qed.
