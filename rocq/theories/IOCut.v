(** Matrix files that are cut. *)
From Coq Require Import String.
From Verif Require Import Base BaseFacts Spec SpecText SpecAccept Zp Mat MatFacts RowList VecProofs DenseProofs4 CertProofs SpecSha ShaHash Sha ShaCtx Stdio IO TextProofs IOProofs IOHash IOSave IOAccept.
Local Open Scope string_scope.
Local Open Scope list_scope.
Local Open Scope Z_scope.

(** ** Numbers are read in one way *)
Lemma ends_starts r : ends r -> starts_digit r = false.
Proof. destruct r as [|c r]; [reflexivity|]. cbn. intros H. destruct (isdigit c) eqn:E; [|auto]. apply isdigit_spec in E. tauto. Qed.
Lemma begins1_det s a r a' r' : begins1 s a r -> begins1 s a' r' -> a = a' /\ r = r'.
Proof.
  intros (w & sa & E1 & H1 & H2 & H3) (w' & sa' & E1' & H1' & H2' & H3').
  set (b := Z.abs a + Z.abs a' + 1). assert (Hb : forall z, Z.abs z < b -> - 2 ^ b <= z < 2 ^ b) by (intros z Hz; pose proof (Z.pow_gt_lin_r 2 b); lia).
  pose proof (scan_numeral b w sa r a H1 H2 (ends_starts r H3) (Hb a ltac:(unfold b; lia))) as S1. pose proof (scan_numeral b w' sa' r' a' H1' H2' (ends_starts r' H3') (Hb a' ltac:(unfold b; lia))) as S2.
  rewrite <- E1 in S1. rewrite <- E1' in S2. rewrite S1 in S2. now inversion S2.
Qed.
Lemma begins3_det s a b c a' b' c' : begins3 s a b c -> begins3 s a' b' c' -> a = a' /\ b = b' /\ c = c'.
Proof.
  intros (r1 & r2 & r3 & H1 & H2 & H3) (r1' & r2' & r3' & H1' & H2' & H3'). destruct (begins1_det _ _ _ _ _ H1 H1') as [-> ->]. destruct (begins1_det _ _ _ _ _ H2 H2') as [-> ->].
  destruct (begins1_det _ _ _ _ _ H3 H3') as [-> ->]. auto.
Qed.
Lemma spaces_ends w r : spaces w -> w <> [] -> ends (w ++ r).
Proof. intros H N. destruct w as [|c w]; [congruence|]. inversion H; subst. cbn. unfold is_space, is_digit in *. lia. Qed.
Lemma spaces_ends' w : spaces w -> ends w.
Proof. intros H. destruct w; [exact I|]. rewrite <- (app_nil_r (z :: w)). now apply spaces_ends. Qed.
Lemma line3_begins s a b c : line3 s a b c -> begins3 s a b c.
Proof.
  intros (w0 & w1 & w2 & w3 & sa & sb & sc & -> & H0 & H1 & H2 & H3 & N1 & N2 & Na & Nb & Nc). exists (w1 ++ sb ++ w2 ++ sc ++ w3), (w2 ++ sc ++ w3), w3.
  split; [exists w0, sa; auto using spaces_ends|]. split; [exists w1, sb; auto using spaces_ends|exists w2, sc; auto using spaces_ends'].
Qed.
Lemma header_begins s n m c : sms_header s n m c -> begins_sms s n m c.
Proof.
  intros (w0 & w1 & w2 & sn & sm & t & -> & H0 & H1 & H2 & N1 & N2 & Nn & Nm & Hc). exists (w1 ++ sm ++ w2 ++ c :: t), (w2 ++ c :: t), w2, t.
  split; [exists w0, sn; auto using spaces_ends|]. split; [exists w1, sm; auto using spaces_ends|auto].
Qed.
Lemma begins_sms_det s n m c n' m' c' : begins_sms s n m c -> begins_sms s n' m' c' -> n = n' /\ m = m' /\ c = c'.
Proof.
  intros (r1 & r2 & w & t & H1 & H2 & E & H3 & H4) (r1' & r2' & w' & t' & H1' & H2' & E' & H3' & H4'). destruct (begins1_det _ _ _ _ _ H1 H1') as [-> ->]. destruct (begins1_det _ _ _ _ _ H2 H2') as [-> ->].
  split; [auto|]. split; [auto|]. subst. assert (X : forall w c t, spaces w -> ~ is_space c -> skip_space (w ++ c :: t) = c :: t).
  { intros ? ? ? Hw Hc. rewrite skip_space_app by auto. apply skip_space_stop. destruct (isspace c0) eqn:Es; [apply isspace_spec in Es; tauto|auto]. }
  pose proof (X w c t H3 H4) as X1. rewrite E', X in X1 by auto. now inversion X1.
Qed.
Lemma begins1_37 s a r : begins1 s a r -> get s 0 <> 37.
Proof. intros (w & sa & -> & H1 & H2 & _). now apply (spaces_head w sa a). Qed.
Lemma begins_mm_37 s : begins_mm s -> get s 0 = 37.
Proof. intros (w0 & w1 & w2 & w3 & a & b & c & d & t & -> & _). reflexivity. Qed.
Lemma entry_lines_begin ls es : entry_lines ls es -> begin_entries ls es.
Proof. induction 1 as [|s [[i j] x] ls es (H1 & H2) _ IH]; constructor; [|exact IH]. split; [now apply line3_begins|auto]. Qed.
(* what follows does not change the first number if something follows it *)
Lemma begins1_more s a r u : begins1 s a r -> r <> [] -> begins1 (s ++ u) a (r ++ u).
Proof. intros (w & sa & -> & H1 & H2 & H3) N. exists w, sa. rewrite <- !app_assoc. split; [auto|]. split; [auto|]. split; [auto|]. destruct r; [congruence|exact H3]. Qed.
Lemma begins1_nonempty s a r : begins1 s a r -> s <> [].
Proof. intros (w & sa & -> & _ & H & _). destruct (numeral_head _ _ H) as (c & t & -> & _). destruct w; discriminate. Qed.

(** ** The lines of a prefix *)
(* the lines L' are the first lines of L, the last one may be incomplete *)
Inductive cut : list (list Z) -> list (list Z) -> Prop :=
| cut_nil L : cut [] L
| cut_cons s L' L : cut L' L -> cut (s :: L') (s :: L)
| cut_last s u L : ~ In NL s -> cut [s] ((s ++ u) :: L).
Lemma first_nl t t' a b : ~ In NL t -> ~ In NL t' -> t ++ NL :: a = t' ++ NL :: b -> t = t' /\ a = b.
Proof.
  revert t'. induction t as [|c t IH]; intros [|c' t'] H H' E; cbn [app] in E; inversion E; subst; [auto|exfalso; apply H'; now left|exfalso; apply H; now left|].
  destruct (IH t') as [-> ->]; auto; intros X; [apply H|apply H']; now right.
Qed.
Lemma nl_prefix s t a b : ~ In NL s -> t ++ NL :: a = s ++ b -> exists u, t = s ++ u.
Proof.
  revert t. induction s as [|c s IH]; intros t H E; [exists t; reflexivity|]. destruct t as [|c' t]; cbn [app] in E; inversion E; subst; [exfalso; apply H; now left|].
  destruct (IH t) as (u & ->); [intros X; apply H; now right|auto|]. now exists u.
Qed.
Lemma cut_lines L' : text L' -> forall L suf, text L -> concat L = concat L' ++ suf -> cut L' L.
Proof.
  induction 1 as [|s' L' Hs' HT' IH]; intros L suf HT E; [constructor|]. destruct HT as [|s L Hs HT].
  { symmetry in E. cbn [concat] in E. apply app_eq_nil in E as [E _]. apply app_eq_nil in E as [E _]. apply text_line_nonempty in Hs'. congruence. }
  cbn [concat] in E. rewrite <- app_assoc in E. destruct Hs' as [(t' & -> & N' & _)|(E' & _ & N' & _)].
  - rewrite <- app_assoc in E. destruct Hs as [(t & -> & N & _)|(E0 & _ & N & _)].
    + rewrite <- app_assoc in E. cbn [app] in E. apply first_nl in E as [-> E]; auto. constructor. eapply IH; eauto.
    + exfalso. apply N. rewrite E0, app_nil_r in E. rewrite E. apply in_or_app. right. now left.
  - apply text_empty in E'; [|auto]. subst L'. destruct Hs as [(t & -> & N & _)|(E0 & _ & N & _)].
    + rewrite <- app_assoc in E. cbn [app concat] in E. apply nl_prefix in E as (u & ->); [|auto]. rewrite <- app_assoc. now constructor.
    + rewrite E0, app_nil_r in E. subst s. now constructor.
Qed.
Lemma cut_more s L' L : cut (s :: L') L -> L' <> [] -> exists L2, L = s :: L2 /\ cut L' L2.
Proof. intros H N. inversion H; subst; [eauto|congruence]. Qed.

Lemma text_nonul L : text L -> ~ In 0 (concat L).
Proof.
  induction 1 as [|s L Hs _ IH]; [tauto|]. cbn [concat]. rewrite in_app_iff. intros [X|X]; [|auto]. destruct Hs as [(t & -> & _ & N & _)|(_ & _ & _ & N & _)]; [|auto].
  apply in_app_iff in X as [X|[X|[]]]; [auto|discriminate].
Qed.
Lemma cut_full L' L : cut L' L -> text L' -> (exists t, concat L' = t ++ [NL]) -> exists L2, L = L' ++ L2.
Proof.
  induction 1 as [L|s L' L C IH|s u L N]; intros HT (t & Et); [exists L; reflexivity| |].
  - inversion HT; subst. destruct L' as [|s2 L']; [exists L; reflexivity|]. destruct IH as (L2 & ->); [auto| |exists L2; reflexivity].
    assert (N : concat (s2 :: L') <> []) by (intros X; apply text_empty in X; [discriminate|auto]). destruct (exists_last N) as (t2 & x & E2). exists t2. rewrite E2. f_equal. f_equal.
    change (concat (s :: s2 :: L')) with (s ++ concat (s2 :: L')) in Et. rewrite E2, app_assoc in Et. now apply app_inj_tail in Et.
  - exfalso. apply N. cbn [concat] in Et. rewrite app_nil_r in Et. rewrite Et. apply in_or_app. right. now left.
Qed.

(** ** SMS files *)
Lemma cut_entries ls : forall es e gl ls' es' e' gl', begin_entries ls es -> begin_entries ls' es' -> begins3 e 0 0 0 -> begins3 e' 0 0 0 -> cut (ls' ++ e' :: gl') (ls ++ e :: gl) -> es' = es.
Proof.
  induction ls as [|s ls IH]; intros es e gl ls' es' e' gl' H H' He He' C.
  - inversion H; subst. destruct ls' as [|s' ls']; [now inversion H'|]. inversion H' as [|? [[i j] x] ? ? (B & Hi & _) _]; subst. cbn [app] in C. apply cut_more in C as (L2 & E & _); [|destruct ls'; discriminate].
    inversion E; subst. destruct (begins3_det _ _ _ _ _ _ _ He B). lia.
  - inversion H as [|? [[i j] x] ? ? (B & Hi & _) HL]; subst. destruct ls' as [|s' ls']; cbn [app] in C.
    + exfalso. inversion C; subst; [destruct (begins3_det _ _ _ _ _ _ _ He' B); lia|]. destruct He' as (r1 & r2 & r3 & B1 & B2 & _). destruct B as (q1 & q2 & q3 & D1 & _).
      apply (begins1_more _ _ _ u) in B1; [|exact (begins1_nonempty _ _ _ B2)]. destruct (begins1_det _ _ _ _ _ B1 D1). lia.
    + inversion H' as [|? [[i' j'] x'] ? ? (B' & _) HL']; subst. apply cut_more in C as (L2 & E & C); [|destruct ls'; discriminate]. inversion E; subst.
      destruct (begins3_det _ _ _ _ _ _ _ B B') as (-> & -> & ->). f_equal. exact (IH _ e gl ls' _ e' gl' HL HL' He He' C).
Qed.
Lemma like_sms_det f n m c es n' m' c' es' : like_sms f n m c es -> like_sms f n' m' c' es' -> n = n' /\ m = m' /\ c = c' /\ es = es'.
Proof.
  intros (h & ls & e & gl & -> & Ht & Hh & _ & _ & HL & He) (h' & ls' & e' & gl' & E & Ht' & Hh' & _ & _ & HL' & He').
  rewrite <- (app_nil_r (concat (h' :: ls' ++ e' :: gl'))) in E. apply (cut_lines _ Ht' _ [] Ht) in E. apply cut_more in E as (L2 & E & C); [|destruct ls'; discriminate]. inversion E; subst.
  destruct (begins_sms_det _ _ _ _ _ _ _ Hh Hh') as (-> & -> & ->). repeat (split; [auto|]). symmetry. exact (cut_entries ls es e gl ls' es' e' gl' HL HL' He He' C).
Qed.
Theorem sms_cut gs g f pre suf n m c es p hash T h : sms_file f n m c es -> f = pre ++ suf -> triplet_load gs g pre p hash = Ok (T, h) -> loaded n m p (negb (p =? -1)) es T.
Proof.
  intros (hd & ls & e & gl & -> & Ht & Hh & Hn & Hm & HL & He) E Hload.
  assert (N0 : ~ In 0 pre). { intros X. assert (Y : In 0 (pre ++ suf)) by (apply in_or_app; auto). rewrite <- E in Y. revert Y. apply text_nonul. exact Ht. }
  destruct (load_accepts gs g pre p hash T h N0 Hload) as (n' & m' & es' & [(c' & (h' & ls' & e' & gl' & -> & Ht' & Hh' & _ & _ & HL' & He') & _)|(h' & cs' & d' & ls' & gl' & -> & Ht' & Hh' & _)] & HT).
  - apply (cut_lines _ Ht' _ suf Ht) in E. apply cut_more in E as (L2 & E & C); [|destruct ls'; discriminate]. inversion E; subst.
    destruct (begins_sms_det _ _ _ _ _ _ _ Hh' (header_begins _ _ _ _ Hh)) as (-> & -> & ->).
    rewrite <- (cut_entries ls es e gl ls' es' e' gl'); auto using entry_lines_begin, line3_begins. apply HT; lia.
  - exfalso. apply (cut_lines _ Ht' _ suf Ht) in E. apply cut_more in E as (L2 & E & C); [|destruct cs'; discriminate]. inversion E; subst. apply begins_mm_37 in Hh'.
    apply header_begins in Hh as (r1 & r2 & w & t & B1 & _). apply begins1_37 in B1. congruence.
Qed.

(** ** MatrixMarket files *)
Lemma comments_det cs : forall cs' d d' r r', Forall (fun s => get s 0 = 37) cs -> Forall (fun s => get s 0 = 37) cs' -> get d 0 <> 37 -> get d' 0 <> 37 -> cs ++ d :: r = cs' ++ d' :: r' -> cs = cs' /\ d = d' /\ r = r'.
Proof.
  induction cs as [|s cs IH]; intros [|s' cs'] d d' r r' H H' N N' E; cbn [app] in E; inversion E; subst; [auto|inversion H'; subst; congruence|inversion H; subst; congruence|].
  inversion H; inversion H'; subst. destruct (IH cs' d d' r r') as (-> & -> & ->); auto.
Qed.
Lemma begin_entries_det ls es es' : begin_entries ls es -> begin_entries ls es' -> es = es'.
Proof.
  intros H. revert es'. induction H as [|s [[i j] x] ls es (B & _) _ IH]; intros es' H'; inversion H' as [|? [[i' j'] x'] ? ? (B' & _) HL]; subst; [auto|].
  destruct (begins3_det _ _ _ _ _ _ _ B B') as (-> & -> & ->). f_equal. auto.
Qed.
Lemma begin_entries_len ls es : begin_entries ls es -> length ls = length es.
Proof. induction 1; cbn; lia. Qed.
Theorem mm_cut gs g f pre suf n m es p hash T h : mm_file f n m es -> f = (pre ++ [NL]) ++ suf -> triplet_load gs g (pre ++ [NL]) p hash = Ok (T, h) -> loaded n m p (negb (p =? -1)) es T.
Proof.
  intros (hd & cs & d & ls & gl & -> & Ht & Hh & Hc & Hd & Hn & Hm & Hz & HL) E Hload. set (q := pre ++ [NL]) in *.
  assert (Eq : exists t, q = t ++ [NL]) by (exists pre; reflexivity). clearbody q.
  assert (N0 : ~ In 0 q). { intros X. assert (Y : In 0 (q ++ suf)) by (apply in_or_app; auto). rewrite <- E in Y. revert Y. apply text_nonul. exact Ht. }
  destruct (load_accepts gs g q p hash T h N0 Hload) as (n' & m' & es' & [(c' & (h' & ls' & e' & gl' & -> & Ht' & Hh' & _) & _)|(h' & cs' & d' & ls' & gl' & -> & Ht' & Hh' & Hc' & Nd' & Hd' & _ & _ & _ & HL')] & HT).
  - exfalso. apply (cut_lines _ Ht' _ suf Ht) in E. apply cut_more in E as (L2 & E & C); [|destruct ls'; discriminate]. inversion E; subst.
    destruct Hh' as (r1 & r2 & w & t & B1 & _). apply begins1_37 in B1. destruct Hh as (w0 & w1 & w2 & w3 & w4 & a & b & c & d0 & -> & _). now apply B1.
  - apply (cut_lines _ Ht' _ suf Ht), cut_full in E as (L2 & E); [|auto|auto]. cbn [app] in E. inversion E as [[E1 E2]]; subst h'. rewrite <- app_assoc in E2. cbn [app] in E2.
    apply comments_det in E2 as (<- & <- & E2); [|auto|auto|apply (line3_head _ _ _ _ Hd)|auto].
    destruct (begins3_det _ _ _ _ _ _ _ Hd' (line3_begins _ _ _ _ Hd)) as (-> & -> & El). apply entry_lines_begin in HL.
    pose proof (begin_entries_len _ _ HL) as L1. pose proof (begin_entries_len _ _ HL') as L1'. unfold len in El.
    assert (Els : ls = ls'). { rewrite <- !app_assoc in E2. apply (f_equal (firstn (length ls))) in E2. rewrite firstn_app, Nat.sub_diag, firstn_O, app_nil_r, firstn_all in E2.
      rewrite E2. replace (length ls) with (length ls') by lia. rewrite firstn_app, Nat.sub_diag, firstn_O, app_nil_r, firstn_all. reflexivity. }
    subst ls'. rewrite (begin_entries_det ls es es' HL HL'). apply HT; lia.
Qed.

(** ** Saved files *)
Lemma loaded_reloaded n m p l T : Forall (writable n m) l -> loaded n m p (negb (p =? -1)) (map to1 l) T -> reloaded n m p l T.
Proof. intros Hl (A1 & A2 & A3 & A4 & A5 & A6 & A7). destruct (A7 (inside_to1 _ _ _ Hl)) as [En Em]. rewrite from0_to1 in A4. unfold reloaded. auto 10. Qed.
Theorem csr_cut gs g A p hash pre suf T h : wf A -> cn A < 2 ^ 31 -> cm A < 2 ^ 31 -> (forall px, 0 <= px < nnz A -> int32 (val A px)) ->
  csr_save A = Ok (pre ++ suf) -> triplet_load gs g pre p hash = Ok (T, h) -> reloaded (cn A) (cm A) p (clist A) T.
Proof.
  intros H Hn Hm Hx E Hl. rewrite csr_save_ok in E by auto. inversion E as [E1]. pose proof H as (H1 & H2 & _).
  assert (W : Forall (writable (cn A) (cm A)) (clist A)) by (apply clist_writable; [auto|]; intros px Hp; specialize (Hx px Hp); unfold int32, int64 in *; lia).
  destruct (file_of_ok (cn A) (cm A) (clist A)) as (F & _); [lia|lia|auto|]. pose proof (sms_cut gs g _ pre suf _ _ _ _ p hash T h F E1 Hl) as L. now apply loaded_reloaded.
Qed.
Theorem triplet_cut gs g S p hash pre suf T h : twf S -> tn S < 2 ^ 31 -> tm S < 2 ^ 31 -> (forall k, 0 <= k < tnz S -> int32 (tval S k)) ->
  triplet_save S = Ok (pre ++ suf) -> triplet_load gs g pre p hash = Ok (T, h) -> reloaded (tn S) (tm S) p (tlist S) T.
Proof.
  intros H Hn Hm Hx E Hl. rewrite triplet_save_ok in E by auto. inversion E as [E1]. pose proof H as (H1 & H2 & H3 & H4 & H5 & H6).
  assert (W : Forall (writable (tn S) (tm S)) (tlist S)).
  { apply Forall_forall. intros e He. apply in_map_iff in He as (k & <- & Hk). apply In_zseq in Hk. destruct (H6 k Hk). specialize (Hx k Hk). unfold int32 in Hx. unfold writable, int64. lia. }
  destruct (file_of_ok (tn S) (tm S) (tlist S)) as (F & _); [lia|lia|auto|]. pose proof (sms_cut gs g _ pre suf _ _ _ _ p hash T h F E1 Hl) as L. now apply loaded_reloaded.
Qed.
