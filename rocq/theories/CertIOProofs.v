(** The files of rank certificates. *)
From Verif Require Import Base BaseFacts Spec SpecFacts SpecText Zp Mat MatFacts RowList ElimFacts SpecSha Sha ShaHash Prng Cert Stdio TextProofs CertIO.

(* the numbers get l k, ..., get l (r - 1), each followed by a space *)
Definition nums (l : list Z) (k r : Z) : list Z := concat (map (fun t => print_int (get l t) ++ [SP]) (zseq k r)).
Lemma print_list_ok r l f : 0 <= r <= len l -> print_list r l f = Ok (f ++ nums l 0 r ++ [NL]).
Proof.
  intros Hr. assert (S : sat (print_list r l f) (fun f' => f' = f ++ nums l 0 r ++ [NL])).
  { unfold print_list. apply sat_bind. apply (for_spec (fun k f' => f' = f ++ nums l 0 k)); [lia| | |].
    - unfold nums. rewrite zseq_empty by lia. cbn. now rewrite app_nil_r.
    - intros k f' Hk ->. rewrite aget_ok by lia. cbn [bind sat]. unfold nums. rewrite zseq_S by lia. rewrite map_app, concat_app. cbn [map concat]. rewrite app_nil_r, <- !app_assoc. reflexivity.
    - intros f' ->. cbn [sat]. now rewrite <- app_assoc. }
  destruct (print_list r l f); cbn [sat] in S; [now subst|contradiction].
Qed.
Definition hexes (h : list Z) (k : Z) : list Z := concat (map (fun t => print_02x (get h t)) (zseq 0 k)).
Definition cert_text (c : cert) : list Z :=
  print_int (c_r c) ++ NL :: print_int (c_prime c) ++ NL :: hexes (c_hash c) 32 ++ NL ::
  nums (c_i c) 0 (c_r c) ++ NL :: nums (c_j c) 0 (c_r c) ++ NL :: nums (c_x c) 0 (c_r c) ++ NL :: nums (c_y c) 0 (c_r c) ++ [NL].
Lemma cert_save_ok c : 0 <= c_r c -> len (c_hash c) = 32 -> c_r c <= len (c_i c) -> c_r c <= len (c_j c) -> c_r c <= len (c_x c) -> c_r c <= len (c_y c) -> cert_save c = Ok (cert_text c).
Proof.
  intros Hr Hh Hi Hj Hx Hy. assert (S : sat (cert_save c) (fun f => f = cert_text c)).
  { unfold cert_save. apply sat_bind. apply (for_spec (fun k f => f = (print_int (c_r c) ++ [NL] ++ print_int (c_prime c) ++ [NL]) ++ hexes (c_hash c) k)); [lia| | |].
    - unfold hexes. rewrite zseq_empty by lia. cbn [map concat]. now rewrite app_nil_r.
    - intros k f Hk ->. rewrite aget_ok by lia. cbn [bind sat]. unfold hexes. rewrite zseq_S by lia. rewrite map_app, concat_app. cbn [map concat]. rewrite app_nil_r, <- !app_assoc. reflexivity.
    - intros f ->. do 4 (rewrite print_list_ok by lia; cbn [bind]). cbn [sat]. unfold cert_text. rewrite <- !app_assoc. reflexivity. }
  destruct (cert_save c); cbn [sat] in S; [now subst|contradiction].
Qed.

(** ** Reading numbers *)
Lemma fscan_numeral bits w s r z e : spaces w -> numeral s z -> starts_digit r = false -> - 2 ^ bits <= z < 2 ^ bits ->
  exists e', fscan_int bits (File (w ++ s ++ r) e) = Ok (Some z, File r e').
Proof. intros. unfold fscan_int. cbn [frest feof]. rewrite (scan_numeral bits w s r z) by auto. cbn [bind]. eexists. reflexivity. Qed.
Lemma int32_fits z : int32 z -> numeral (print_int z) z.
Proof. intros H. apply print_int_spec. unfold int32 in H. lia. Qed.
Lemma scan_list_ok r vs l w rest e : 0 <= r -> len l = r -> r <= len vs -> (forall k, 0 <= k < r -> int32 (get vs k)) -> spaces w ->
  sat (scan_list r l (File (w ++ nums vs 0 r ++ rest) e)) (fun '(l', f') => len l' = r /\ (forall k, 0 <= k < r -> get l' k = get vs k) /\ exists w' e', spaces w' /\ f' = File (w' ++ rest) e').
Proof.
  intros Hr Hl Hv Hi Hw. unfold scan_list.
  apply (for_spec (fun k '(l', f') => len l' = r /\ (forall t, 0 <= t < k -> get l' t = get vs t) /\ exists w' e', spaces w' /\ f' = File (w' ++ nums vs k r ++ rest) e')); [lia| | |].
  - split; [auto|]. split; [lia|]. exists w, e. auto.
  - intros k [l' f'] Hk (A & B & w' & e' & C & ->). unfold nums. rewrite zseq_cons by lia. cbn [map concat]. rewrite <- !app_assoc.
    destruct (fscan_numeral 31 w' (print_int (get vs k)) ([SP] ++ concat (map (fun t => print_int (get vs t) ++ [SP]) (zseq (k + 1) r)) ++ rest) (get vs k) e') as [e2 E]; [auto|apply int32_fits; auto|reflexivity|apply Hi; lia|].
    rewrite E. cbn [bind]. rewrite aset_ok by lia. cbn [bind sat]. split; [now rewrite len_upd|]. split.
    + intros t Ht. rewrite get_upd_in by lia. destruct (Z.eqb_spec k t) as [->|]; [auto|apply B; lia].
    + exists [SP], e2. split; [|reflexivity]. repeat constructor.
  - intros [l' f'] (A & B & w' & e' & C & ->). split; [auto|]. split; [auto|]. exists w', e'. split; [auto|]. unfold nums. rewrite zseq_empty by lia. reflexivity.
Qed.

(** ** Reading the hash *)
Lemma hexdigit_val d : 0 <= d < 16 -> hexval (hexdigit d) = Some d /\ isspace (hexdigit d) = false /\ hexdigit d <> 0 /\ hexdigit d <> NL /\ hexdigit d <> 45 /\ hexdigit d <> 43.
Proof.
  intros H. unfold hexval, hexdigit, isdigit, isspace, NL. destruct (Z.ltb_spec d 10).
  - replace ((48 <=? 48 + d) && (48 + d <=? 57)) with true by lia. split; [f_equal; lia|]. lia.
  - replace ((48 <=? 87 + d) && (87 + d <=? 57)) with false by lia. replace ((97 <=? 87 + d) && (87 + d <=? 102)) with true by lia. split; [f_equal; lia|]. lia.
Qed.
Lemma strtoul16_ok b : byte b -> strtoul16 (print_02x b) = b.
Proof.
  unfold byte. intros H. unfold print_02x, strtoul16.
  destruct (hexdigit_val (b / 16)) as (A1 & A2 & A3 & A4 & A5 & A6); [split; [apply Z.div_pos; lia|apply Z.div_lt_upper_bound; lia]|].
  destruct (hexdigit_val (b mod 16)) as (B1 & B2 & B3 & B4 & B5 & B6); [apply Z.mod_pos_bound; lia|].
  cbn [cstr]. replace (hexdigit (b / 16) =? 0) with false by lia. replace (hexdigit (b mod 16) =? 0) with false by lia. rewrite skip_space_stop by auto.
  replace (hexdigit (b / 16) =? 45) with false by lia. replace (hexdigit (b / 16) =? 43) with false by lia.
  cbn [scan_hex]. rewrite A1, B1. pose proof (Z.div_mod b 16). rewrite Z.mod_small; lia.
Qed.
Lemma hexes_len h k : 0 <= k -> len (hexes h k) = 2 * k.
Proof.
  intros Hk. pattern k. apply (range_ind (fun k => len (hexes h k) = 2 * k) 0 k); [|intros i Hi IH|lia].
  - unfold hexes. rewrite zseq_empty by lia. reflexivity.
  - unfold hexes in *. rewrite zseq_S by lia. rewrite map_app, concat_app, len_app, IH. cbn [map concat app print_02x]. change (len [_; _]) with 2. lia.
Qed.
Lemma hexes_get h k i : 0 <= i < k -> get (hexes h k) (2 * i) = hexdigit (get h i / 16) /\ get (hexes h k) (2 * i + 1) = hexdigit (get h i mod 16).
Proof.
  intros Hi. assert (H : forall k', 0 <= k' <= k -> forall i, 0 <= i < k' -> get (hexes h k') (2 * i) = hexdigit (get h i / 16) /\ get (hexes h k') (2 * i + 1) = hexdigit (get h i mod 16)); [|apply (H k); lia].
  clear i Hi. apply (range_ind (fun k => forall i, 0 <= i < k -> get (hexes h k) (2 * i) = hexdigit (get h i / 16) /\ get (hexes h k) (2 * i + 1) = hexdigit (get h i mod 16)) 0 k); [lia|].
  intros j Hj IH i Hi. pose proof (hexes_len h j). unfold hexes in *. rewrite zseq_S by lia. rewrite map_app, concat_app. cbn [map concat app print_02x].
  destruct (Z.eqb_spec i j) as [->|].
  - rewrite !get_app_r by lia. replace (2 * j - _) with 0 by lia. replace (2 * j + 1 - _) with 1 by lia. split; reflexivity.
  - rewrite !get_app_l by lia. apply IH. lia.
Qed.
Lemma hexes_in h k c : bytes h -> k <= len h -> In c (hexes h k) -> isspace c = false /\ c <> NL /\ c <> 0.
Proof.
  intros B Hk H. apply in_concat in H as (s & Hs & Hc). apply in_map_iff in Hs as (t & <- & Ht). apply In_zseq in Ht.
  assert (Hb : byte (get h t)). { unfold bytes in B. rewrite Forall_forall in B. apply B. unfold get, getd. replace (t <? 0) with false by lia. apply nth_In. unfold len in Hk. lia. }
  unfold byte in Hb. destruct Hc as [<-|[<-|[]]].
  - destruct (hexdigit_val (get h t / 16)) as (_ & A & A' & A'' & _); [split; [apply Z.div_pos; lia|apply Z.div_lt_upper_bound; lia]|]. auto.
  - destruct (hexdigit_val (get h t mod 16)) as (_ & A & A' & A'' & _); [apply Z.mod_pos_bound; lia|]. auto.
Qed.
Lemma take_line_full t r : ~ In NL t -> take_line (length t) (t ++ r) = (t, r, false).
Proof.
  induction t as [|c t IH]; intros H; [reflexivity|]. cbn [app length take_line]. destruct (Z.eqb_spec c NL) as [->|]; [exfalso; apply H; left; auto|].
  rewrite IH; [reflexivity|]. intros H'. apply H. right. auto.
Qed.

Theorem cert_load_text g c : 0 <= c_r c < 2 ^ 31 -> int64 (c_prime c) -> len (c_hash c) = 32 -> bytes (c_hash c) ->
  len (c_i c) = c_r c -> len (c_j c) = c_r c -> len (c_x c) = c_r c -> len (c_y c) = c_r c ->
  (forall k, 0 <= k < c_r c -> int32 (get (c_i c) k) /\ int32 (get (c_j c) k) /\ int32 (get (c_x c) k) /\ int32 (get (c_y c) k)) ->
  sat (cert_load g (cert_text c)) (fun o => o = Some (Cert (c_r c) (c_prime c) (c_hash c) (c_j c) (malloc (g 1) (c_r c)) (c_x c) (c_y c))).
Proof.
  intros Hr Hp Hh Hb Li Lj Lx Ly Hv. unfold cert_load, cert_text.
  assert (SN : spaces [NL]) by (repeat constructor; unfold is_space, NL; lia).
  match goal with |- context [fscan_int 31 (File (print_int (c_r c) ++ ?r) false)] => destruct (fscan_numeral 31 [] (print_int (c_r c)) r (c_r c) false) as [e1 E1] end; [constructor|apply int32_fits; unfold int32; lia|reflexivity|lia|]. cbn [app] in E1. rewrite E1. clear E1. cbn [bind].
  match goal with |- context [fscan_int 63 (File (NL :: print_int (c_prime c) ++ ?r) _)] => destruct (fscan_numeral 63 [NL] (print_int (c_prime c)) r (c_prime c) e1) as [e2 E2] end; [exact SN|apply print_int_spec; unfold int64 in Hp; lia|reflexivity|exact Hp|]. cbn [app] in E2. rewrite E2. clear E2. cbn [bind frest].
  set (hx := hexes (c_hash c) 32). assert (Lh : len hx = 64) by (apply (hexes_len (c_hash c) 32); lia).
  assert (Hin : forall x, In x hx -> isspace x = false /\ x <> NL /\ x <> 0) by (intros x Hx; apply (hexes_in (c_hash c) 32 x); auto; lia).
  set (T3 := NL :: nums (c_i c) 0 (c_r c) ++ _).
  assert (Es : skip_space (NL :: hx ++ T3) = hx ++ T3).
  { cbn [skip_space]. replace (isspace NL) with true by reflexivity. destruct hx as [|a t] eqn:Ex; [discriminate|]. cbn [app]. apply skip_space_stop. apply Hin. left. auto. }
  rewrite Es. replace (match hx ++ T3 with [] => true | _ => false end) with false by (destruct hx; reflexivity).
  unfold fgets. cbn [feof frest]. replace (Z.to_nat (65 - 1)) with (length hx) by (unfold len in Lh; lia). rewrite take_line_full by (intros H; apply Hin in H; lia).
  destruct hx as [|a0 t0] eqn:Ex; [discriminate|]. rewrite <- Ex in *. clear Ex a0 t0.
  apply sat_bind. apply (for_spec (fun k h => len h = 32 /\ forall t, 0 <= t < k -> get h t = get (c_hash c) t)); [lia|split; [rewrite len_malloc; lia|lia]| |].
  - intros k h Hk (A & B). assert (Ln : len ((hx ++ [0]) ++ skipn (length hx + 1) (malloc (g 4) 65)) = 65).
    { rewrite !len_app. unfold len at 3. rewrite skipn_length. pose proof (len_malloc (g 4) 65) as Lm. unfold len in Lm, Lh |- *. cbn [length]. lia. }
    rewrite aget_ok by lia. cbn [bind]. rewrite aget_ok by lia. cbn [bind]. rewrite aset_ok by lia. cbn [sat].
    rewrite <- !app_assoc. rewrite !(get_app_l hx) by lia. unfold hx. destruct (hexes_get (c_hash c) 32 k Hk) as [-> ->]. change [hexdigit (get (c_hash c) k / 16); hexdigit (get (c_hash c) k mod 16)] with (print_02x (get (c_hash c) k)).
    rewrite strtoul16_ok. 2: { unfold bytes in Hb. rewrite Forall_forall in Hb. apply Hb. unfold get, getd. replace (k <? 0) with false by lia. apply nth_In. unfold len in Hh. lia. }
    split; [now rewrite len_upd|]. intros t Ht. rewrite get_upd_in by lia. destruct (Z.eqb_spec k t) as [->|]; [auto|apply B; lia].
  - intros h (A & B). assert (h = c_hash c) as -> by (apply list_ext; [lia|intros t Ht; apply B; lia]). clear A B.
    assert (HR : forall vs l w rest e, len vs = c_r c -> len l = c_r c -> (forall k, 0 <= k < c_r c -> int32 (get vs k)) -> spaces w ->
      sat (scan_list (c_r c) l (File (w ++ nums vs 0 (c_r c) ++ rest) e)) (fun '(l', f') => l' = vs /\ exists w' e', spaces w' /\ f' = File (w' ++ rest) e')).
    { intros vs l w rest e Lv Ll Hi Hw. eapply sat_mono; [apply scan_list_ok; auto; lia|]. intros [l' f'] (A & B & C). split; [|exact C]. apply list_ext; [lia|]. intros t Ht. apply B. lia. }
    assert (SA : forall w, spaces w -> spaces (w ++ [NL])) by (intros w Hw; apply Forall_app; auto).
    unfold T3. apply sat_bind. eapply sat_mono; [apply (HR (c_i c) _ [NL]); auto; [rewrite len_malloc; lia|intros k Hk; apply Hv; lia]|]. intros [ii f1] (-> & w1 & e3 & W1 & ->).
    change (NL :: nums (c_j c) 0 (c_r c) ++ ?r) with ([NL] ++ nums (c_j c) 0 (c_r c) ++ r). rewrite (app_assoc w1).
    apply sat_bind. eapply sat_mono; [apply (HR (c_j c) _ (w1 ++ [NL])); auto; intros k Hk; apply Hv; lia|]. intros [jj f2] (-> & w2 & e4 & W2 & ->).
    change (NL :: nums (c_x c) 0 (c_r c) ++ ?r) with ([NL] ++ nums (c_x c) 0 (c_r c) ++ r). rewrite (app_assoc w2).
    apply sat_bind. eapply sat_mono; [apply (HR (c_x c) _ (w2 ++ [NL])); auto; [rewrite len_malloc; lia|intros k Hk; apply Hv; lia]|]. intros [x f3] (-> & w3 & e5 & W3 & ->).
    change (NL :: nums (c_y c) 0 (c_r c) ++ ?r) with ([NL] ++ nums (c_y c) 0 (c_r c) ++ r). rewrite (app_assoc w3).
    apply sat_bind. eapply sat_mono; [apply (HR (c_y c) _ (w3 ++ [NL])); auto; [rewrite len_malloc; lia|intros k Hk; apply Hv; lia]|]. intros [y f4] (-> & _). reflexivity.
Qed.

(* a certificate that fits in the C structure *)
Definition storable (c : cert) : Prop :=
  0 <= c_r c < 2 ^ 31 /\ int64 (c_prime c) /\ len (c_hash c) = 32 /\ bytes (c_hash c) /\
  (forall l, In l [c_i c; c_j c; c_x c; c_y c] -> len l = c_r c /\ Forall int32 l).
Theorem cert_reload g c : storable c ->
  sat (f <- cert_save c ;; cert_load g f) (fun o => exists c', o = Some c' /\
    c_r c' = c_r c /\ c_prime c' = c_prime c /\ c_hash c' = c_hash c /\ c_x c' = c_x c /\ c_y c' = c_y c /\
    c_i c' = c_j c /\ forall k, 0 <= k < c_r c -> get (c_j c') k = g 1 k).
Proof.
  intros (Hr & Hp & Hh & Hb & Hl). pose proof (fun l H => proj1 (Hl l H)) as L. pose proof (fun l H => proj2 (Hl l H)) as F.
  rewrite (cert_save_ok c) by (rewrite ?L by (cbn [In]; auto); lia). cbn [bind]. eapply sat_mono; [apply (cert_load_text g c); auto; try (apply L; cbn [In]; auto; fail)|].
  - assert (G : forall l, In l [c_i c; c_j c; c_x c; c_y c] -> forall k, 0 <= k < c_r c -> int32 (get l k)).
    { intros l Hi k Hk. pose proof (F l Hi) as Fl. rewrite Forall_forall in Fl. apply Fl. apply get_In. rewrite L by auto. lia. }
    intros k Hk. repeat split; apply G; auto; cbn [In]; auto.
  - intros o ->. eexists. split; [reflexivity|]. cbn [c_r c_prime c_hash c_x c_y c_i c_j]. repeat split; auto. intros k Hk. apply MatFacts.get_malloc. lia.
Qed.
