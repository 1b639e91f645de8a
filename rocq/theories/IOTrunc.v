(** Truncated files are rejected. *)
From Verif Require Import Base BaseFacts Spec SpecText Zp Mat MatFacts RowList VecProofs DenseProofs4 CertProofs SpecSha ShaHash Sha ShaCtx Stdio IO TextProofs IOProofs IOHash.

Section TRUNC.
Variables (gs : Z -> Z) (g : Z -> Z -> Z) (mm : bool) (nnz : Z) (h : bool) (n m p : Z) (wv : bool).
Notation fails r := (outs r (fun _ => False) (fun e => e = AssertFailed)).
Lemma trunc_ok ls es T es0 e ctx f msg fuel : entry_lines ls es -> loaded n m p wv es0 T -> (mm = true -> e + len es < nnz) ->
  text ls -> at_lines f ls -> bytes (concat ls) -> hashed h ctx msg -> len msg + len (concat ls) < 2 ^ 61 -> (length ls < fuel)%nat ->
  fails (loop fuel (fun '(T, end_, entries, ctx, f) =>
    '(l, ctx, f) <- read_line gs ctx f ;;
    match l with
    | None => if end_ then Ok (inr (T, ctx, f)) else Fail AssertFailed
    | Some s =>
        if (end_ : bool) then Ok (inl (T, end_, entries, ctx, f)) else
        v <- scan3 s ;;
        match v with
        | None => Fail AssertFailed
        | Some (i, j, x) =>
            let marker := (i =? 0) && (j =? 0) && (x =? 0) in
            _ <- assert_ (negb (marker && mm)) ;;
            '(T, entries) <-
              (if marker then Ok (T, entries) else
               i <- i32 (i - 1) ;;
               j <- i32 (j - 1) ;;
               T <- add_entry g T i j x ;;
               Ok (T, entries + 1)) ;;
            let end_ := marker || (mm && (entries =? nnz)) in
            Ok (inl (T, end_, entries, ctx, f))
        end
    end) (T, false, e, ctx, f)).
Proof.
  intros HL. revert fuel T es0 e ctx f msg. induction HL as [|s [[i j] x] ls es (H1 & Hi & Hj & Hx) HL IH]; intros fuel T es0 e ctx f msg LT Hmm Ht Hf B H L Hfu; (destruct fuel as [|fuel]; [lia|]); cbn [loop]; apply outs_bind.
  - rewrite (read_line_end _ _ _ Hf). reflexivity.
  - apply outs_bind, sat_outs. eapply sat_mono; [apply (read_line_lines h gs ctx msg s ls f); auto|]. intros [[l ctx'] f'] (-> & H' & Hf').
    rewrite (scan3_line s i j x) by (auto; unfold int32; lia). cbn [bind]. replace ((i =? 0) && (j =? 0) && (x =? 0)) with false by lia. cbn [negb andb orb assert_ bind].
    unfold i32. replace ((- 2 ^ 31 <=? i - 1) && (i - 1 <? 2 ^ 31)) with true by lia. replace ((- 2 ^ 31 <=? j - 1) && (j - 1 <? 2 ^ 31)) with true by lia. cbn [bind].
    apply outs_bind, outs_bind, sat_outs. eapply sat_mono; [apply loaded_snoc; eauto; lia|]. intros T1 LT1. cbn [outs].
    inversion Ht; subst. cbn [concat] in *. apply bytes_app_inv in B as [B1 B2]. rewrite len_app in L. rewrite len_cons in *. pose proof (len_nonneg es).
    replace (mm && (e + 1 =? nnz)) with false. 2: { destruct mm; [|reflexivity]. specialize (Hmm eq_refl). cbn [andb]. lia. }
    apply (IH fuel T1 (es0 ++ [(i, j, x)]) (e + 1) ctx' f' (msg ++ s)); auto.
    + intros E. specialize (Hmm E). lia.
    + rewrite len_app. lia.
    + cbn in Hfu. lia.
Qed.
End TRUNC.

Lemma fails_eq {T} (r : res T) : outs r (fun _ => False) (fun e => e = AssertFailed) -> r = Fail AssertFailed.
Proof. destruct r; cbn; [tauto|now intros ->]. Qed.
Theorem sms_truncated gs g f n m c hd ls es p hash : f = concat (hd :: ls) -> text (hd :: ls) -> sms_header hd n m c -> 0 <= n < 2 ^ 31 -> 0 <= m < 2 ^ 31 -> entry_lines ls es ->
  bytes f -> len f < 2 ^ 61 -> triplet_load gs g f p hash = Fail AssertFailed.
Proof.
  intros -> Ht Hh Hn Hm HL B L. apply fails_eq. unfold triplet_load. set (hb := match hash with Some _ => true | None => false end).
  apply outs_bind, sat_outs. eapply sat_mono; [apply (read_line_lines hb gs (match hash with Some _ => Some SHA256_init | None => None end) [] hd ls); [apply hashed_init|auto|split; [reflexivity|discriminate]|exact B|exact L]|].
  intros [[l ctx'] f'] (-> & H' & Hf'). destruct (scan_sms_header hd n m c Hh) as [E1 E2]; [unfold int32; lia|unfold int32; lia|]. rewrite E1, E2. cbn [bind].
  unfold assert_ at 1. destruct (_ || _); [|reflexivity]. cbn [assert_ bind Z.leb Z.compare]. apply outs_bind. inversion Ht; subst. cbn [concat] in B, L. apply bytes_app_inv in B as [B1 B2]. rewrite len_app in L.
  unfold read_entries. eapply outs_mono; [eapply (trunc_ok gs g false 1 hb n m p (negb (p =? -1)) ls es _ []); eauto; try discriminate; try (apply loaded_alloc; lia); cbn [app]; try lia|intros a []].
  destruct Hf' as [-> _]. pose proof (text_length ls). intuition lia.
Qed.
Theorem mm_truncated gs g f n m nnz hd cs d ls es p hash : f = concat (hd :: cs ++ d :: ls) -> text (hd :: cs ++ d :: ls) -> mm_header hd -> Forall (fun s => get s 0 = 37) cs -> line3 d n m nnz ->
  0 <= n < 2 ^ 31 -> 0 <= m < 2 ^ 31 -> nnz < 2 ^ 63 -> entry_lines ls es -> len es < nnz ->
  bytes f -> len f < 2 ^ 61 -> triplet_load gs g f p hash = Fail AssertFailed.
Proof.
  intros -> Ht Hh Hc Hd Hn Hm Hz HL Hlt B L. apply fails_eq. unfold triplet_load. set (hb := match hash with Some _ => true | None => false end).
  apply outs_bind, sat_outs. eapply sat_mono; [apply (read_line_lines hb gs (match hash with Some _ => Some SHA256_init | None => None end) [] hd (cs ++ d :: ls)); [apply hashed_init|auto|split; [reflexivity|discriminate]|exact B|exact L]|].
  intros [[l c1] f1] (-> & H1 & Hf1). destruct (header_ok hd Hh) as [E1 E2]. rewrite E1, E2. cbn [bind]. apply outs_bind, outs_bind, sat_outs. unfold skip_comments.
  inversion Ht as [|? ? _ Ht1]; subst. cbn [concat] in B, L. apply bytes_app_inv in B as [B1 B2]. rewrite len_app in L.
  eapply sat_mono; [apply (comments_ok hb gs cs d ls _ c1 f1 ([] ++ hd)); auto; [apply (line3_head _ _ _ _ Hd)|]|].
  { destruct Hf1 as [-> _]. pose proof (text_length _ Ht1). rewrite app_length in H. cbn in H. lia. }
  intros [[s c2] f2] (-> & H2 & Hf2). pose proof (len_nonneg es). rewrite (scan3_line d n m nnz) by (auto; unfold int32, int64; lia). cbn [bind outs]. replace (0 <=? nnz) with true by lia. cbn [assert_ bind].
  apply outs_bind. replace (concat (cs ++ d :: ls)) with (concat (cs ++ [d]) ++ concat ls) in B2, L by (rewrite <- concat_app, <- app_assoc; reflexivity).
  apply bytes_app_inv in B2 as [B2 B3]. rewrite len_app in L. change (cs ++ d :: ls) with (cs ++ [d] ++ ls) in Ht1. apply text_app_l, text_app_l in Ht1.
  unfold read_entries. eapply outs_mono; [eapply (trunc_ok gs g true nnz hb n m p (negb (p =? -1)) ls es _ []); eauto; try (apply loaded_alloc; lia); cbn [app]; rewrite ?len_app; try lia|intros a []].
  destruct Hf2 as [-> _]. pose proof (text_length ls). intuition lia.
Qed.
