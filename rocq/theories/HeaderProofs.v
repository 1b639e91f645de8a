From Verif Require Import Base BaseFacts Spec SpecText SpecAccept SpecHeader Zp Mat MatFacts RowList VecProofs DenseProofs4 CertProofs SpecSha ShaHash Sha ShaCtx Stdio IO TextProofs IOProofs IOHash IOTrunc IOAccept IOSafe Sizes Header.

(* r stopped, or r' is the same *)
Definition sim {A B} (R : A -> B -> Prop) (r : res A) (r' : res B) : Prop :=
  match r with Fail AssertFailed => True | Fail e => r' = Fail e | Ok a => exists b, r' = Ok b /\ R a b end.
Lemma sim_bind {A B A' B'} (R : A -> B -> Prop) (R' : A' -> B' -> Prop) r r' k k' : sim R r r' -> (forall a b, R a b -> sim R' (k a) (k' b)) -> sim R' (bind r k) (bind r' k').
Proof. destruct r as [a|[]]; cbn; try (intros ->; reflexivity); auto. intros (b & -> & H) Hk. cbn. auto. Qed.
Lemma sim_refl {A} (r : res A) : sim eq r r.
Proof. destruct r as [|[]]; cbn; eauto. Qed.
Lemma sim_same {A A' B'} (R' : A' -> B' -> Prop) (r : res A) k k' : (forall a, r = Ok a -> sim R' (k a) (k' a)) -> sim R' (bind r k) (bind r k').
Proof. destruct r as [a|[]]; cbn; auto. Qed.
Lemma sim_loop {S S' R R'} (P : S -> S' -> Prop) (Q : R -> R' -> Prop) body body' fuel : (forall s s', P s s' -> sim (fun o o' => match o, o' with inl a, inl b => P a b | inr a, inr b => Q a b | _, _ => False end) (body s) (body' s')) ->
  forall s s', P s s' -> sim Q (loop fuel body s) (loop fuel body' s').
Proof.
  intros H. induction fuel as [|fuel IH]; intros s s' Hs; cbn [loop]; [reflexivity|]. eapply sim_bind; [apply H; eauto|].
  intros [a|a] [b|b]; try tauto; [apply IH|]. intros X. cbn. eauto.
Qed.

Lemma cells_eq most z : - 2 ^ 61 <= z < 2 ^ 61 -> cells most z = if (0 <=? z) && (4 * z <=? most) then Ok z else Fail AssertFailed.
Proof.
  intros Hz. unfold cells, argument, i64v, sizeof, sz_int. cbn [eval bind binop join fst snd norm conv]. change (4 mod 2 ^ 64) with 4.
  replace (((z mod 2 ^ 64 * 4) mod 2 ^ 64 + 2 ^ 63) mod 2 ^ 64 - 2 ^ 63) with (4 * z).
  - unfold assert_. replace (0 <=? 4 * z) with (0 <=? z) by lia. destruct (_ && _); cbn [bind]; [|reflexivity]. f_equal. rewrite Z.mul_comm, Z.div_mul; lia.
  - rewrite Zmult_mod_idemp_l, Zplus_mod_idemp_l. rewrite Z.mod_small; lia.
Qed.
(* in general: modulo 2^62 cells *)
Lemma cells_wrap most z : 0 <= most < 2 ^ 63 -> 4 * (z mod 2 ^ 62) <= most -> cells most z = Ok (z mod 2 ^ 62).
Proof.
  intros Hm H. unfold cells, argument, i64v, sizeof, sz_int. cbn [eval bind binop join fst snd norm conv]. change (4 mod 2 ^ 64) with 4.
  rewrite Zmult_mod_idemp_l. replace ((z * 4) mod 2 ^ 64) with (4 * (z mod 2 ^ 62)) by (rewrite (Z.mul_comm z 4); change (2 ^ 64) with (4 * 2 ^ 62); rewrite Z.mul_mod_distr_l by lia; reflexivity).
  assert (0 <= z mod 2 ^ 62) by (apply Z.mod_pos_bound; lia).
  rewrite Z.mod_small by lia. replace (4 * (z mod 2 ^ 62) + 2 ^ 63 - 2 ^ 63) with (4 * (z mod 2 ^ 62)) by lia.
  unfold assert_. replace (_ && _) with true by lia. cbn [bind]. f_equal. rewrite Z.mul_comm, Z.div_mul; lia.
Qed.

Lemma aset_len (l : list Z) i v l' : aset l i v = Ok l' -> len l' = len l.
Proof. unfold aset. destruct (inb l i); [|discriminate]. intros E. inversion E. apply len_upd. Qed.
(* nzmax is the size of the arrays *)
Definition rel most (t : triplet * Z) (T : triplet) : Prop := fst t = T /\ snd t = len (tj T) /\ 4 * snd t <= most /\ 0 <= tnz T <= snd t.
Lemma rel_alloc g most n m nnz p wv : 0 <= most < 2 ^ 61 -> - 2 ^ 61 <= nnz < 2 ^ 61 ->
  sim (rel most) (halloc g most n m nnz p wv) (_ <- assert_ (0 <=? nnz) ;; Ok (triplet_alloc g n m nnz p wv)).
Proof.
  intros Hm Hz. unfold halloc. rewrite cells_eq by auto. destruct (_ && _) eqn:E; [|exact I]. replace (0 <=? nnz) with true by lia. cbn.
  eexists. split; [reflexivity|]. unfold rel, triplet_alloc. cbn [fst snd tj tnz]. rewrite len_malloc by lia. split; [reflexivity|]. lia.
Qed.
Lemma rel_realloc g most T k : 0 <= most < 2 ^ 61 -> 0 <= k < 2 ^ 61 -> 0 <= tnz T <= k -> sim (rel most) (hrealloc g most T k) (Ok (triplet_realloc g T k)).
Proof.
  intros Hm Hk Ht. unfold hrealloc. replace (k <? 0) with false by lia. rewrite cells_eq by lia. destruct (_ && _) eqn:E; [|exact I]. cbn.
  eexists. split; [reflexivity|]. unfold rel, triplet_realloc. cbn [fst snd tj tnz]. replace (k <? 0) with false by lia. rewrite len_realloc by lia. split; [reflexivity|]. lia.
Qed.
Lemma rel_add g most t T i j x : 0 <= most < 2 ^ 61 -> rel most t T -> sim (rel most) (hadd g most t i j x) (add_entry g T i j x).
Proof.
  intros Hm. destruct t as [T0 z]. unfold rel at 1. cbn [fst snd]. intros (-> & -> & Hb & Ht). unfold hadd, add_entry. apply sim_same. intros [] _. cbv zeta.
  set (T1 := if tnz T =? len (tj T) then triplet_realloc g T (1 + 2 * len (tj T)) else T).
  assert (H1 : sim (fun t T' => rel most t T' /\ T' = T1 /\ tnz T' = tnz T /\ tnz T' < snd t) (if tnz T =? len (tj T) then k <- argument (Add (int 1) (Mul (int 2) (i64v (len (tj T))))) ;; hrealloc g most T k else Ok (T, len (tj T))) (Ok T1)).
  { unfold T1. destruct (Z.eqb_spec (tnz T) (len (tj T))).
    - assert (Ea : argument (Add (int 1) (Mul (int 2) (i64v (len (tj T))))) = Ok (1 + 2 * len (tj T))).
      { unfold argument, int, i64v, eval, binop, join, fst, snd, conv, norm. cbn [bind]. replace ((- 2 ^ 63 <=? 2 * _) && _) with true by lia. cbn [bind].
        replace ((- 2 ^ 63 <=? _) && _) with true by lia. cbn [bind]. rewrite Z.mod_small by lia. f_equal. lia. }
      rewrite Ea. cbn [bind]. pose proof (rel_realloc g most T (1 + 2 * len (tj T)) Hm ltac:(lia) ltac:(lia)) as H.
      destruct (hrealloc _ _ _ _) as [t|[]]; cbn [sim] in H |- *; auto; try discriminate. destruct H as (b & E & HR). assert (Eb : b = triplet_realloc g T (1 + 2 * len (tj T))) by congruence; subst b. eexists. split; [reflexivity|]. split; [exact HR|]. split; [reflexivity|].
      split; [reflexivity|]. destruct HR as (_ & -> & _). unfold triplet_realloc. cbn [tnz tj]. replace (1 + 2 * len (tj T) <? 0) with false by lia. cbv iota. rewrite len_realloc by lia. lia.
    - cbn. eexists. split; [reflexivity|]. split; [unfold rel; cbn; auto|]. cbn [snd]. split; [reflexivity|]. split; [reflexivity|]. lia. }
  match goal with |- sim _ _ ?r => change r with (bind (Ok T1) (fun T1 => let xp := zinit (tprime T1) x in
    match tx T1 with
    | Some tx0 => if xp =? 0 then Ok T1 else tx1 <- aset tx0 (tnz T) xp ;; ti1 <- aset (ti T1) (tnz T) i ;; tj1 <- aset (tj T1) (tnz T) j ;;
        Ok (Triplet (tnz T1 + 1) (Z.max (tn T1) (i + 1)) (Z.max (tm T1) (j + 1)) ti1 tj1 (Some tx1) (tprime T1))
    | None => ti1 <- aset (ti T1) (tnz T) i ;; tj1 <- aset (tj T1) (tnz T) j ;;
        Ok (Triplet (tnz T1 + 1) (Z.max (tn T1) (i + 1)) (Z.max (tm T1) (j + 1)) ti1 tj1 None (tprime T1))
    end)) end.
  eapply sim_bind; [exact H1|]. clear H1. clearbody T1. intros [T2 z] T3 ((HR1 & HR2 & HR3 & HR4) & -> & Hn & Hlt). cbn [fst snd] in *. subst T2 z. cbv zeta.
  destruct (tx T1) as [tx0|] eqn:Ex.
  - destruct (_ =? 0); [cbn; eexists; split; [reflexivity|]; unfold rel; cbn; auto|]. apply sim_same. intros a1 _. apply sim_same. intros a2 _. apply sim_same. intros a3 E3.
    cbn [sim]. eexists. split; [reflexivity|]. unfold rel. cbn [fst snd tj tnz]. apply aset_len in E3. split; [reflexivity|]. lia.
  - apply sim_same. intros a2 _. apply sim_same. intros a3 E3. cbn [sim]. eexists. split; [reflexivity|]. unfold rel. cbn [fst snd tj tnz]. apply aset_len in E3. split; [reflexivity|]. lia.
Qed.
Definition relst most (s : triplet * Z * bool * Z * option sha_ctx * file) (s' : triplet * bool * Z * option sha_ctx * file) : Prop :=
  let '(t, e, k, c, f) := s in let '(T, e', k', c', f') := s' in rel most t T /\ e = e' /\ k = k' /\ c = c' /\ f = f'.
Lemma rel_entries gs g most mm nnz t T ctx f : 0 <= most < 2 ^ 61 -> rel most t T ->
  sim (fun a b => let '(t, c, f) := a in let '(T, c', f') := b in rel most t T /\ c = c' /\ f = f') (hentries gs g most mm nnz t ctx f) (read_entries gs g mm nnz T ctx f).
Proof.
  intros Hm HR. unfold hentries, read_entries. apply (sim_loop (relst most)); [|cbn; auto]. clear t T ctx f HR.
  intros [[[[t e] k] c] f] [[[[T e'] k'] c'] f'] (HR & -> & -> & -> & ->). apply sim_same. intros [[l c] f] _. destruct l as [s|].
  - destruct e'; [cbn; eexists; split; [reflexivity|]; cbn; auto|]. apply sim_same. intros [[[i j] x]|] _; [|exact I]. cbv zeta. apply sim_same. intros [] _.
    apply (sim_bind (fun a b => rel most (fst a) (fst b) /\ snd a = snd b)).
    + destruct (_ && _); [cbn; eexists; split; [reflexivity|]; cbn; auto|]. apply sim_same. intros i' _. apply sim_same. intros j' _. eapply sim_bind; [apply rel_add; eauto|].
      intros t1 T1 H1. cbn. eexists. split; [reflexivity|]. cbn; auto.
    + intros [t1 k1] [T1 k2] [H1 H2]. cbn [fst snd] in *. subst. cbn. eexists. split; [reflexivity|]. cbn. auto.
  - destruct e'; [|exact I]. cbn. eexists. split; [reflexivity|]. cbn. auto.
Qed.

Lemma hload_same gs g most f p hash : ~ In 0 f -> (forall nnz, announces f nnz -> - 2 ^ 61 <= nnz < 2 ^ 61) -> 0 <= most < 2 ^ 61 ->
  hload gs g most f p hash = Fail AssertFailed \/ hload gs g most f p hash = triplet_load gs g f p hash.
Proof.
  intros N0 HA Hm. enough (S : sim eq (hload gs g most f p hash) (triplet_load gs g f p hash)).
  { destruct (hload gs g most f p hash) as [r|[]]; cbn in S; try (right; now rewrite S); auto. destruct S as (b & -> & ->). auto. }
  unfold hload, triplet_load. apply sim_same. intros [[l c1] f1] E1. destruct l as [s|]; [|exact I].
  pose proof (read_line_done gs f [] (match hash with Some _ => Some SHA256_init | None => None end) (File f false)) as D1. rewrite E1 in D1. cbn [outs] in D1.
  destruct D1 as [_ D1]; [split; [reflexivity|]; split; [intros; auto|]; split; [exact N0|discriminate]|]. cbn [app] in D1.
  apply sim_same. intros [[[[[mm n] m] nnz] c2] f2] E2.
  assert (Hz : - 2 ^ 61 <= nnz < 2 ^ 61).
  { destruct (is_mm s).
    - destruct (validate_mm_header s) as [[]|] eqn:Ev; [|discriminate]. apply validate_inv in Ev. cbn [bind] in E2. pose proof (skip_comments_done gs f [s] c1 f1 D1) as D2.
      destruct (skip_comments gs c1 f1) as [[[d c3] f3]|]; [|discriminate]. cbn [outs bind] in D2, E2. destruct D2 as (cs & D2 & Hc & Hd).
      destruct (scan3 d) as [[[[a b] z]|]|] eqn:E3; try discriminate. cbn in E2. inversion E2; subst. apply scan3_inv in E3 as (B3 & _ & _ & H64). apply HA.
      destruct D2 as (D2 & _). exists s, cs, d, (frest f2), n, m. cbn [app] in D2. auto.
    - destruct (scan_sms s) as [[[[a b] z]|]|]; try discriminate. cbn [bind] in E2. destruct (assert_ _); [|discriminate]. cbn in E2. inversion E2; subst. lia. }
  pose proof (rel_alloc g most n m nnz p (negb (p =? -1)) Hm Hz) as HR.
  destruct (halloc g most n m nnz p (negb (p =? -1))) as [t|[]]; cbn [sim] in HR; try (exfalso; unfold assert_ in HR; destruct (0 <=? nnz); discriminate HR); [|exact I].
  destruct HR as (T & ET & HR). unfold assert_ in ET |- *. destruct (0 <=? nnz); [|discriminate]. cbn [bind] in ET. inversion ET; subst T. cbn [bind].
  eapply sim_bind; [apply rel_entries; eauto|]. intros [[t1 c3] f3] [[T1 c4] f4] (HR1 & -> & ->).
  assert (H2 : sim (fun a b => fst a = b) (if mm then Ok t1 else hrealloc g most (fst t1) (-1)) (Ok (if mm then T1 else triplet_realloc g T1 (-1)))).
  { destruct mm; [cbn; eexists; split; [reflexivity|]; apply HR1|]. destruct HR1 as (-> & H1 & H2 & H3). unfold hrealloc. cbn [Z.ltb Z.compare]. rewrite cells_eq by lia. destruct (_ && _) eqn:E; [|exact I].
    cbn. eexists. split; [reflexivity|]. unfold triplet_realloc. replace (tnz T1 <? 0) with false by lia. reflexivity. }
  match goal with |- sim _ _ ?r => change r with (bind (Ok (if mm then T1 else triplet_realloc g T1 (-1))) (fun T => h <- match c4, hash with Some c, Some md => md <- SHA256_final gs md c ;; Ok (Some md) | _, _ => Ok None end ;; Ok (T, h))) end.
  eapply sim_bind; [exact H2|]. intros [T2 z] T3 E. cbn in E. subst T3. apply sim_refl.
Qed.

(** Numbers of entries such that the size wraps *)
Definition room (p k e : Z) (T : triplet) : Prop :=
  tnz T = e /\ len (ti T) = k /\ len (tj T) = k /\ tprime T = p /\ match tx T with Some x => p <> -1 /\ len x = k | None => p = -1 end.
Lemma room_add g most p k e T nnz i j x : room p k e T -> 0 <= e <= k -> (nnz < 0 \/ k < nnz) -> 0 <= i -> 0 <= j -> (p = -1 \/ zinit p x <> 0) ->
  if e =? k then hadd g most (T, nnz) i j x = Fail OOB else exists T', hadd g most (T, nnz) i j x = Ok (T', nnz) /\ room p k (e + 1) T'.
Proof.
  intros (H1 & H2 & H3 & H4 & H5) He Hk Hi Hj Hx. unfold hadd, assert_. replace ((0 <=? i) && (0 <=? j)) with true by lia. cbn [bind]. rewrite H1. replace (e =? nnz) with false by lia. cbn [bind].
  rewrite H4. destruct (tx T) as [tx0|].
  - replace (zinit p x =? 0) with false by lia. unfold aset, inb. rewrite H2, H3, (proj2 H5). destruct (Z.eqb_spec e k).
    + replace ((0 <=? e) && (e <? k)) with false by lia. reflexivity.
    + replace ((0 <=? e) && (e <? k)) with true by lia. cbn [bind]. eexists. split; [reflexivity|]. unfold room. cbn [tnz ti tj tx tprime]. rewrite !len_upd. intuition lia.
  - unfold aset, inb. rewrite H2, H3. destruct (Z.eqb_spec e k).
    + replace ((0 <=? e) && (e <? k)) with false by lia. reflexivity.
    + replace ((0 <=? e) && (e <? k)) with true by lia. cbn [bind]. eexists. split; [reflexivity|]. unfold room. cbn [tnz ti tj tx tprime]. rewrite !len_upd. intuition lia.
Qed.
Section WRAP.
Variables (gs : Z -> Z) (g : Z -> Z -> Z) (most nnz : Z) (h : bool) (p k : Z).
Hypothesis Hk : nnz < 0 \/ k < nnz.
Notation stops r := (outs r (fun _ => False) (fun e => e = OOB)).
Lemma wrap_ok ls gl es T e ctx f msg fuel : entry_lines ls es -> Forall (fun '(_, _, x) => p = -1 \/ zinit p x <> 0) es -> room p k e T -> 0 <= e <= k -> k < e + len es ->
  text (ls ++ gl) -> at_lines f (ls ++ gl) -> bytes (concat (ls ++ gl)) -> hashed h ctx msg -> len msg + len (concat (ls ++ gl)) < 2 ^ 61 -> (length ls < fuel)%nat ->
  stops (loop fuel (fun '(t, end_, entries, ctx, f) =>
    '(l, ctx, f) <- read_line gs ctx f ;;
    match l with
    | None => if end_ then Ok (inr (t, ctx, f)) else Fail AssertFailed
    | Some s =>
        if (end_ : bool) then Ok (inl (t, end_, entries, ctx, f)) else
        v <- scan3 s ;;
        match v with
        | None => Fail AssertFailed
        | Some (i, j, x) =>
            let marker := (i =? 0) && (j =? 0) && (x =? 0) in
            _ <- assert_ (negb (marker && true)) ;;
            '(t, entries) <-
              (if marker then Ok (t, entries) else
               i <- i32 (i - 1) ;;
               j <- i32 (j - 1) ;;
               t <- hadd g most t i j x ;;
               Ok (t, entries + 1)) ;;
            let end_ := marker || (true && (entries =? nnz)) in
            Ok (inl (t, end_, entries, ctx, f))
        end
    end) (T, nnz, false, e, ctx, f)).
Proof.
  intros HL. revert fuel T e ctx f msg. induction HL as [|s [[i j] x] ls es (H1 & Hi & Hj & Hx) HL IH]; intros fuel T e ctx f msg HF HR He Hlt Ht Hf B H L Hfu; [change (len []) with 0 in Hlt; lia|].
  destruct fuel as [|fuel]; [lia|]. cbn [loop]. apply outs_bind. apply outs_bind, sat_outs.
  eapply sat_mono; [apply (read_line_lines h gs ctx msg s (ls ++ gl) f); auto|]. intros [[l ctx'] f'] (-> & H' & Hf').
  rewrite (scan3_line s i j x) by (auto; unfold int32; lia). cbn [bind]. replace ((i =? 0) && (j =? 0) && (x =? 0)) with false by lia. cbn [negb andb orb assert_ bind].
  unfold i32. replace ((- 2 ^ 31 <=? i - 1) && (i - 1 <? 2 ^ 31)) with true by lia. replace ((- 2 ^ 31 <=? j - 1) && (j - 1 <? 2 ^ 31)) with true by lia. cbn [bind].
  inversion HF; subst. pose proof (room_add g most p k e T nnz (i - 1) (j - 1) x HR He Hk ltac:(lia) ltac:(lia) ltac:(auto)) as A. destruct (Z.eqb_spec e k); [rewrite A; reflexivity|]. destruct A as (T' & -> & HR'). cbn [bind outs].
  inversion Ht; subst. cbn [concat app] in *. apply bytes_app_inv in B as [B1 B2]. rewrite len_app in L. rewrite len_cons in *. replace (e + 1 =? nnz) with false by lia.
  apply (IH fuel T' (e + 1) ctx' f' (msg ++ s)); auto; try lia; [rewrite len_app; lia|cbn in Hfu; lia].
Qed.
End WRAP.
Lemma oob_eq {T} (r : res T) : outs r (fun _ => False) (fun e => e = OOB) -> r = Fail OOB.
Proof. destruct r; cbn; [tauto|now intros ->]. Qed.
Lemma hload_wraps gs g most f n m nnz hd cs d ls gl es p hash : f = concat (hd :: cs ++ d :: ls ++ gl) -> text (hd :: cs ++ d :: ls ++ gl) -> mm_header hd -> Forall (fun s => get s 0 = 37) cs -> line3 d n m nnz ->
  0 <= n < 2 ^ 31 -> 0 <= m < 2 ^ 31 -> int64 nnz -> (nnz < 0 \/ 2 ^ 62 <= nnz) -> entry_lines ls es -> Forall (fun '(_, _, x) => p = -1 \/ zinit p x <> 0) es -> nnz mod 2 ^ 62 < len es ->
  bytes f -> len f < 2 ^ 61 -> 4 * (nnz mod 2 ^ 62) <= most -> most < 2 ^ 63 -> hload gs g most f p hash = Fail OOB.
Proof.
  intros -> Ht Hh Hc Hd Hn Hm H64 Hz HL HF Hlt B L Hk Hmost. assert (Hp : 0 <= nnz mod 2 ^ 62 < 2 ^ 62) by (apply Z.mod_pos_bound; lia).
  apply oob_eq. unfold hload. set (hb := match hash with Some _ => true | None => false end).
  apply outs_bind, sat_outs. eapply sat_mono; [apply (read_line_lines hb gs (match hash with Some _ => Some SHA256_init | None => None end) [] hd (cs ++ d :: ls ++ gl)); [apply hashed_init|auto|split; [reflexivity|discriminate]|exact B|exact L]|].
  intros [[l c1] f1] (-> & H1 & Hf1). destruct (header_ok hd Hh) as [E1 E2]. rewrite E1, E2. cbn [bind]. apply outs_bind, outs_bind, sat_outs. unfold skip_comments.
  inversion Ht as [|? ? _ Ht1]; subst. cbn [concat] in B, L. apply bytes_app_inv in B as [B1 B2]. rewrite len_app in L.
  eapply sat_mono; [apply (comments_ok hb gs cs d (ls ++ gl) _ c1 f1 ([] ++ hd)); auto; [apply (line3_head _ _ _ _ Hd)|]|].
  { destruct Hf1 as [-> _]. pose proof (text_length _ Ht1). rewrite app_length in H. cbn in H. lia. }
  intros [[s c2] f2] (-> & H2 & Hf2). rewrite (scan3_line d n m nnz) by (auto; unfold int32; lia). cbn [bind outs]. unfold halloc. rewrite cells_wrap by lia. cbn [bind].
  apply outs_bind. replace (concat (cs ++ d :: ls ++ gl)) with (concat (cs ++ [d]) ++ concat (ls ++ gl)) in B2, L by (rewrite <- concat_app, <- app_assoc; reflexivity).
  apply bytes_app_inv in B2 as [B2 B3]. rewrite len_app in L. change (cs ++ d :: ls ++ gl) with (cs ++ [d] ++ ls ++ gl) in Ht1. apply text_app_l, text_app_l in Ht1.
  unfold hentries. eapply outs_mono; [eapply (wrap_ok gs g most nnz hb p (nnz mod 2 ^ 62) ltac:(lia) ls gl es); eauto; try lia|intros a []].
  - unfold room, triplet_alloc. cbn [tnz ti tj tx tprime]. rewrite !len_malloc. split; [reflexivity|]. do 2 (split; [lia|]). split; [reflexivity|]. destruct (Z.eqb_spec p (-1)); cbn [negb]; [auto|]. rewrite len_malloc. split; [auto|lia].
  - cbn [app]. rewrite ?len_app. lia.
  - destruct Hf2 as [-> _]. pose proof (text_length (ls ++ gl)). rewrite app_length in *. intuition lia.
Qed.

Lemma load_orderly gs g f p hash : bytes f -> len f < 2 ^ 61 -> (forall md, hash = Some md -> len md = 32) -> orderly (triplet_load gs g f p hash).
Proof. intros B L Hm. pose proof (load_safe gs g f p hash B L Hm) as H. split; intros E; rewrite E in H; destruct H; discriminate. Qed.
Lemma hload_orderly gs g most f p hash : bytes f -> len f < 2 ^ 61 -> (forall md, hash = Some md -> len md = 32) -> ~ In 0 f -> (forall nnz, announces f nnz -> - 2 ^ 61 <= nnz < 2 ^ 61) -> 0 <= most < 2 ^ 61 ->
  orderly (hload gs g most f p hash).
Proof. intros B L Hm N A Hmo. destruct (hload_same gs g most f p hash N A Hmo) as [-> | ->]; [split; discriminate|apply load_orderly; auto]. Qed.
