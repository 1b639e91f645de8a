(** Saving matrices in text files. *)
From Verif Require Import Base BaseFacts Spec SpecFacts SpecText Zp ZpFacts Mat MatFacts RowList VecProofs SpecSha ShaHash Sha ShaCtx Stdio IO TextProofs IOProofs.

Definition line_of (e : Z * Z * Z) : list Z := let '(i, j, x) := e in print3 (i + 1) (j + 1) x.
Definition to1 (e : Z * Z * Z) : Z * Z * Z := let '(i, j, x) := e in (i + 1, j + 1, x).
(* entries that can be written in a file *)
Definition writable (n m : Z) (e : Z * Z * Z) : Prop := let '(i, j, x) := e in 0 <= i < n /\ 0 <= j < m /\ int64 x.
Lemma from0_to1 l : map from0 (map to1 l) = l.
Proof. rewrite map_map. rewrite <- (map_id l) at 2. apply map_ext. intros [[i j] x]. unfold from0, to1. do 2 f_equal; lia. Qed.

Lemma lines_text ls : Forall is_line ls -> text ls.
Proof. induction 1; constructor; [left|]; auto. Qed.
Lemma header_line n m : fits n -> fits m -> is_line (print_header n m) /\ bytes (print_header n m) /\ sms_header (print_header n m) n m 77 /\ len (print_header n m) <= 66.
Proof.
  intros Hn Hm. destruct (print_int_spec n Hn) as (Nn & Ln & _). destruct (print_int_spec m Hm) as (Nm & Lm & _).
  pose proof (plain_int n Hn) as Pn. pose proof (plain_int m Hm) as Pm.
  assert (P2 : plain [SP; 77]). { repeat split; try (intros [H|[H|[]]]; discriminate). repeat constructor; unfold byte, SP; lia. }
  assert (P : plain (print_int n ++ [SP] ++ print_int m ++ [SP; 77])) by (repeat apply plain_app; auto using plain_sp).
  assert (E : print_header n m = (print_int n ++ [SP] ++ print_int m ++ [SP; 77]) ++ [NL]) by (unfold print_header; rewrite <- !app_assoc; reflexivity).
  assert (Lh : len (print_header n m) <= 66). { rewrite E, !len_app. change (len [_]) with 1. change (len [SP; 77]) with 2. change (len [NL]) with 1. lia. }
  split; [|split; [|split; [|exact Lh]]].
  - eexists. split; [exact E|]. destruct P as (P1 & P3 & _). split; [auto|]. split; [auto|]. lia.
  - rewrite E. apply bytes_app; [apply P|]. repeat constructor; unfold byte, NL; lia.
  - exists [], [SP], [SP], (print_int n), (print_int m), [NL]. split; [reflexivity|].
    assert (S1 : spaces [SP]) by (repeat constructor; unfold is_space, SP; lia).
    split; [constructor|]. do 2 (split; [auto|]). do 2 (split; [discriminate|]). split; [auto|]. split; [auto|]. unfold is_space. lia.
Qed.

(* the file that should be written *)
Definition file_of (n m : Z) (l : list (Z * Z * Z)) : list Z := print_header n m ++ concat (map line_of l) ++ print3 0 0 0.
Lemma fits_i n : - 2 ^ 63 <= n < 2 ^ 63 -> fits n.
Proof. unfold fits. lia. Qed.
Lemma line_of_ok n m e : n < 2 ^ 31 -> m < 2 ^ 31 -> writable n m e -> is_line (line_of e) /\ bytes (line_of e) /\ len (line_of e) <= 66 /\ (let '(i, j, x) := to1 e in line3 (line_of e) i j x /\ 1 <= i < 2 ^ 31 /\ 1 <= j < 2 ^ 31 /\ int64 x).
Proof.
  destruct e as [[i j] x]. intros Hn Hm (Hi & Hj & Hx). unfold int64 in Hx. unfold line_of, to1.
  assert (F1 : fits (i + 1)) by (apply fits_i; lia). assert (F2 : fits (j + 1)) by (apply fits_i; lia). assert (F3 : fits x) by (apply fits_i; lia).
  destruct (print3_line _ _ _ F1 F2 F3) as (A & B & C). split; [auto|]. split; [auto|]. split.
  - destruct (print_int_spec _ F1) as (_ & L1 & _). destruct (print_int_spec _ F2) as (_ & L2 & _). destruct (print_int_spec _ F3) as (_ & L3 & _). unfold print3. rewrite !len_app. change (len [_]) with 1. lia.
  - split; [auto|]. unfold int64. lia.
Qed.
Lemma file_of_ok n m l : 0 <= n < 2 ^ 31 -> 0 <= m < 2 ^ 31 -> Forall (writable n m) l -> sms_file (file_of n m l) n m 77 (map to1 l) /\ bytes (file_of n m l) /\ len (file_of n m l) <= 66 * (2 + len l).
Proof.
  intros Hn Hm Hl. destruct (header_line n m) as (H1 & H2 & H3 & H4); [apply fits_i; lia|apply fits_i; lia|].
  assert (F0 : fits 0) by (apply fits_i; lia). destruct (print3_line 0 0 0 F0 F0 F0) as (M1 & M2 & M3).
  assert (EF : file_of n m l = concat (print_header n m :: map line_of l ++ print3 0 0 0 :: [])). { unfold file_of. cbn [concat]. rewrite concat_app. cbn [concat]. now rewrite app_nil_r. }
  assert (HB : bytes (concat (map line_of l)) /\ len (concat (map line_of l)) <= 66 * len l /\ Forall is_line (map line_of l) /\ entry_lines (map line_of l) (map to1 l)).
  { clear EF. induction Hl as [|e l He _ IH]; [repeat split; try constructor; cbn; lia|]. destruct IH as (I1 & I2 & I3 & I4). destruct (line_of_ok n m e) as (A & B & C & D); [lia|lia|auto|].
    cbn [map concat]. rewrite len_app, len_cons. split; [now apply bytes_app|]. split; [lia|]. split; [now constructor|]. constructor; [|auto]. destruct (to1 e) as [[i j] x]. exact D. }
  destruct HB as (B1 & B2 & B3 & B4). split; [|split].
  - exists (print_header n m), (map line_of l), (print3 0 0 0), []. split; [exact EF|]. split; [|repeat (split; [auto|]); auto].
    apply lines_text. constructor; [auto|]. apply Forall_app. auto.
  - unfold file_of. apply bytes_app; [auto|]. now apply bytes_app.
  - unfold file_of. rewrite !len_app. assert (len (print3 0 0 0) <= 66) by (vm_compute; discriminate). lia.
Qed.
Lemma inside_to1 n m l : Forall (writable n m) l -> Forall (inside n m) (map to1 l).
Proof. intros H. apply Forall_map. eapply Forall_impl; [|exact H]. intros [[i j] x]. unfold writable, inside, to1. lia. Qed.

Theorem load_file_of gs g n m l p hash : 0 <= n < 2 ^ 31 -> 0 <= m < 2 ^ 31 -> Forall (writable n m) l -> len l < 2 ^ 54 -> (forall md, hash = Some md -> len md = 32) ->
  sat (triplet_load gs g (file_of n m l) p hash) (fun '(T, h) => reloaded n m p l T /\ h = option_map (fun _ => sha256 (file_of n m l)) hash).
Proof.
  intros Hn Hm Hl L Hmd. destruct (file_of_ok n m l Hn Hm Hl) as (F1 & F2 & F3).
  eapply sat_mono; [apply (load_sms gs g _ n m 77 (map to1 l) p hash); auto; lia|]. intros [T h] ((A1 & A2 & A3 & A4 & A5 & A6 & A7) & E). split; [|auto].
  destruct (A7 (inside_to1 _ _ _ Hl)) as [En Em]. rewrite from0_to1 in A4. unfold reloaded. auto 10.
Qed.

(** ** csr_save *)
Lemma i32_ok z : int32 z -> i32 z = Ok z.
Proof. unfold i32, int32. intros. replace (_ && _) with true by lia. auto. Qed.
Definition row_entries (A : csr) (i b e : Z) : list (Z * Z * Z) := map (fun px => (i, get (cj A) px, val A px)) (zseq b e).
Definition clist_to (A : csr) (k : Z) : list (Z * Z * Z) := flat_map (fun i => row_entries A i (rbeg A i) (rend A i)) (zseq 0 k).
Lemma clist_eq A : clist A = clist_to A (cn A).
Proof. unfold clist, clist_to, row_entries, rowl. apply flat_map_ext. intros i. now rewrite map_map. Qed.
Lemma csr_save_ok A : wf A -> cn A < 2 ^ 31 -> cm A < 2 ^ 31 -> csr_save A = Ok (file_of (cn A) (cm A) (clist A)).
Proof.
  intros H Hn Hm. pose proof H as (H1 & H2 & H3 & H4 & H5 & H6 & H7 & H8).
  assert (S : sat (csr_save A) (fun f => f = file_of (cn A) (cm A) (clist A))).
  { unfold csr_save. apply sat_bind. apply (for_spec (fun i f => f = print_header (cn A) (cm A) ++ concat (map line_of (clist_to A i)))).
    - lia.
    - unfold clist_to. rewrite zseq_empty by lia. cbn. now rewrite app_nil_r.
    - intros i f Hi ->. rewrite aget_ok by lia. cbn [bind]. rewrite aget_ok by lia. cbn [bind]. change (get (cp A) i) with (rbeg A i). change (get (cp A) (i + 1)) with (rend A i).
      pose proof (wf_row A H i Hi) as R.
      apply (for_spec (fun px f => f = (print_header (cn A) (cm A) ++ concat (map line_of (clist_to A i))) ++ concat (map line_of (row_entries A i (rbeg A i) px)))).
      + lia.
      + unfold row_entries. rewrite zseq_empty by lia. cbn. now rewrite app_nil_r.
      + intros px f Hpx ->. assert (Hc : 0 <= get (cj A) px < cm A) by (apply H7; lia).
        apply sat_bind. apply (sat_mono _ (fun x => x = val A px)). { unfold val. destruct (cx A) as [x|]; [rewrite aget_ok by lia|]; reflexivity. }
        intros x ->. rewrite aget_ok by lia. cbn [bind]. rewrite !i32_ok by (unfold int32; lia). cbn [bind sat].
        unfold row_entries. rewrite zseq_S by lia. rewrite !map_app, concat_app. cbn [map concat line_of]. rewrite app_nil_r, <- !app_assoc. reflexivity.
      + intros f ->. unfold clist_to. rewrite zseq_S by lia. rewrite flat_map_app, map_app, concat_app. cbn [flat_map]. rewrite app_nil_r, <- app_assoc. reflexivity.
    - intros f ->. cbn [sat]. unfold file_of. rewrite clist_eq, <- app_assoc. reflexivity. }
  destruct (csr_save A); cbn [sat] in S; [now subst|contradiction].
Qed.
Lemma clist_writable A : wf A -> (forall px, 0 <= px < nnz A -> int64 (val A px)) -> Forall (writable (cn A) (cm A)) (clist A).
Proof.
  intros H Hx. pose proof H as (H1 & H2 & H3 & H4 & H5 & H6 & H7 & H8). apply Forall_forall. intros e He. rewrite clist_eq in He. apply in_flat_map in He as (i & Hi & He). apply In_zseq in Hi.
  apply in_map_iff in He as (px & <- & Hp). apply In_zseq in Hp. pose proof (wf_row A H i Hi). split; [lia|]. split; [apply H7; lia|apply Hx; lia].
Qed.
Lemma len_clist_to A k : wf A -> 0 <= k <= cn A -> len (clist_to A k) = get (cp A) k.
Proof.
  intros H. pose proof H as (H1 & H2 & H3 & H4 & H5 & H6 & H7 & H8). revert k. apply (range_ind (fun k => len (clist_to A k) = get (cp A) k)).
  - unfold clist_to. rewrite zseq_empty by lia. now rewrite H4.
  - intros i Hi IH. unfold clist_to in *. rewrite zseq_S by lia. rewrite flat_map_app, len_app, IH. cbn [flat_map]. rewrite app_nil_r. unfold row_entries. unfold len at 1. rewrite map_length. fold (len (zseq (rbeg A i) (rend A i))). specialize (H5 i). rewrite len_zseq by lia. unfold rbeg, rend in *. lia.
Qed.
Theorem csr_round_trip gs g A p hash : wf A -> cn A < 2 ^ 31 -> cm A < 2 ^ 31 -> nnz A < 2 ^ 54 -> (forall px, 0 <= px < nnz A -> int32 (val A px)) -> (forall md, hash = Some md -> len md = 32) ->
  exists f, csr_save A = Ok f /\ sat (triplet_load gs g f p hash) (fun '(T, h) => reloaded (cn A) (cm A) p (clist A) T /\ h = option_map (fun _ => sha256 f) hash).
Proof.
  intros H Hn Hm Hz Hx Hmd. eexists. split; [now apply csr_save_ok|]. pose proof H as (H1 & H2 & _). apply load_file_of; auto.
  - apply clist_writable; [auto|]. intros px Hp. specialize (Hx px Hp). unfold int32, int64 in *. lia.
  - rewrite clist_eq, len_clist_to by (auto; lia). exact Hz.
Qed.

(** ** triplet_save *)
Lemma triplet_save_ok T : twf T -> tn T < 2 ^ 31 -> tm T < 2 ^ 31 -> triplet_save T = Ok (file_of (tn T) (tm T) (tlist T)).
Proof.
  intros (H1 & H2 & H3 & H4 & H5 & H6) Hn Hm.
  assert (S : sat (triplet_save T) (fun f => f = file_of (tn T) (tm T) (tlist T))).
  { unfold triplet_save. apply sat_bind. apply (for_spec (fun k f => f = print_header (tn T) (tm T) ++ concat (map line_of (map (fun k => (get (ti T) k, get (tj T) k, tval T k)) (zseq 0 k))))).
    - lia.
    - rewrite zseq_empty by lia. cbn. now rewrite app_nil_r.
    - intros k f Hk ->. destruct (H6 k Hk). rewrite aget_ok by lia. cbn [bind]. rewrite i32_ok by (unfold int32; lia). cbn [bind]. rewrite aget_ok by lia. cbn [bind]. rewrite i32_ok by (unfold int32; lia). cbn [bind].
      apply sat_bind. apply (sat_mono _ (fun x => x = tval T k)). { unfold tval. destruct (tx T) as [x|]; [rewrite aget_ok by lia|]; reflexivity. }
      intros x ->. cbn [sat]. rewrite zseq_S by lia. rewrite !map_app, concat_app. cbn [map concat line_of]. rewrite app_nil_r, <- !app_assoc. reflexivity.
    - intros f ->. cbn [sat]. unfold file_of, tlist. rewrite <- app_assoc. reflexivity. }
  destruct (triplet_save T); cbn [sat] in S; [now subst|contradiction].
Qed.
Theorem triplet_round_trip gs g T p hash : twf T -> tn T < 2 ^ 31 -> tm T < 2 ^ 31 -> tnz T < 2 ^ 54 -> (forall k, 0 <= k < tnz T -> int32 (tval T k)) -> (forall md, hash = Some md -> len md = 32) ->
  exists f, triplet_save T = Ok f /\ sat (triplet_load gs g f p hash) (fun '(T', h) => reloaded (tn T) (tm T) p (tlist T) T' /\ h = option_map (fun _ => sha256 f) hash).
Proof.
  intros H Hn Hm Hz Hx Hmd. eexists. split; [now apply triplet_save_ok|]. destruct H as (H1 & H2 & H3 & H4 & H5 & H6). apply load_file_of; auto.
  - apply Forall_forall. intros e He. apply in_map_iff in He as (k & <- & Hk). apply In_zseq in Hk. destruct (H6 k Hk). specialize (Hx k Hk). unfold int32 in Hx. unfold writable, int64. lia.
  - unfold tlist, len. rewrite map_length. fold (len (zseq 0 (tnz T))). rewrite len_zseq by lia. lia.
Qed.
(* canonical non-zero values are kept *)
Lemma keeps_same p l : ok_modulus p -> Forall (fun '(i, j, x) => balanced p x /\ x <> 0) l -> flat_map (keeps p (negb (p =? -1))) l = l.
Proof.
  intros Hp H. replace (p =? -1) with false by (unfold ok_modulus in Hp; lia). induction H as [|[[i j] x] l (Hx & Hx') _ IH]; [reflexivity|]. cbn [flat_map]. rewrite IH.
  unfold keeps. cbn [negb]. assert (bal p x = x) as ->. { unfold ok_modulus in Hp. apply (balanced_unique p); [lia|apply bal_balanced; lia|exact Hx|apply bal_cong; lia]. }
  replace (x =? 0) with false by lia. reflexivity.
Qed.
Lemma keeps_pattern l : flat_map (keeps (-1) (negb (-1 =? -1))) l = map (fun '(i, j, _) => (i, j, 1)) l.
Proof. induction l as [|[[i j] x] l IH]; [reflexivity|]. cbn [flat_map map]. now rewrite IH. Qed.
