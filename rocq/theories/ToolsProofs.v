(** The tools: loading, saving, transposing. *)
From Verif Require Import Base BaseFacts Spec SpecFacts SpecText SpecTools SpecSha Zp Mat MatFacts RowList SpecCompress CompressProofs Zeroes TransposeProofs MatProofs ParRows ExtractProofs EchInv
  Stdio IO IOProofs IOSave IOHash MatchProofs DmProofs TriProofs TextChecks Tools.

(** ** Entries of files *)
Lemma fentry_app a b i j : fentry (a ++ b) i j = fentry a i j + fentry b i j.
Proof. apply lsum_app. Qed.
Lemma fentry_cons a b x es i j : fentry ((a, b, x) :: es) i j = (if (a =? i) && (b =? j) then x else 0) + fentry es i j.
Proof. reflexivity. Qed.
Lemma fentry_to1 l i j : fentry (map to1 l) (i + 1) (j + 1) = tcoef i j l.
Proof.
  induction l as [|[[a b] x] l IH]; [reflexivity|]. cbn [map to1]. rewrite fentry_cons, IH. unfold tcoef. cbn [lsum fold_right].
  replace (a + 1 =? i + 1) with (a =? i) by lia. now replace (b + 1 =? j + 1) with (b =? j) by lia.
Qed.
Lemma fentry_from0 l i j : tcoef i j (map from0 l) = fentry l (i + 1) (j + 1).
Proof.
  induction l as [|[[a b] x] l IH]; [reflexivity|]. cbn [map from0]. rewrite fentry_cons, <- IH. unfold tcoef. cbn [lsum fold_right].
  replace (a - 1 =? i) with (a =? i + 1) by lia. now replace (b - 1 =? j) with (b =? j + 1) by lia.
Qed.
Lemma tcoef_kept p l i j : 2 <= p -> cong p (tcoef i j (flat_map (keeps p true) l)) (tcoef i j l).
Proof.
  intros Hp. induction l as [|[[a b] x] l IH]; [apply cong_refl|]. cbn [flat_map]. rewrite tcoef_app. change ((a, b, x) :: l) with ([(a, b, x)] ++ l). rewrite tcoef_app.
  apply cong_add; [|exact IH]. unfold keeps, tcoef. pose proof (bal_cong p x Hp) as B. destruct (Z.eqb_spec (bal p x) 0) as [E|E]; cbn [lsum fold_right].
  - destruct (_ && _); [|apply cong_refl]. rewrite E in B. rewrite Z.add_0_r. now apply cong_sym.
  - destruct (_ && _); [|apply cong_refl]. now rewrite !Z.add_0_r.
Qed.
Lemma In_kept p l i j v : In (i, j, v) (flat_map (keeps p true) l) -> exists x, In (i, j, x) l /\ v = bal p x /\ bal p x <> 0.
Proof.
  intros H. apply in_flat_map in H as ([[a b] x] & Hx & H). unfold keeps in H. destruct (Z.eqb_spec (bal p x) 0); [destruct H|].
  destruct H as [H|[]]. injection H as -> -> <-. eauto.
Qed.
Lemma In_tlist T k : 0 <= k < tnz T -> In (get (ti T) k, get (tj T) k, tval T k) (tlist T).
Proof. intros H. unfold tlist. apply in_map_iff. exists k. split; [reflexivity|]. now apply In_zseq. Qed.
Lemma len_tlist T : 0 <= tnz T -> len (tlist T) = tnz T.
Proof. intros H. unfold tlist. rewrite len_map, len_zseq. lia. Qed.

(** ** Loading *)
Lemma load_file gs g f n m es p hash : matrix_file f n m es -> (forall md, hash = Some md -> len md = 32) ->
  sat (triplet_load gs g f p hash) (fun '(T, h) => reloaded n m p (map from0 es) T /\ h = option_map (fun _ => sha256 f) hash).
Proof.
  intros ([F|[F NE]] & I & B & L) Hmd; [|now apply load_mm_inside].
  eapply sat_mono; [apply (load_sms gs g f n m 77 es p hash); auto|]. intros [T h] ((A1 & A2 & A3 & A4 & A5 & A6 & A7) & E). split; [|auto].
  destruct (A7 I) as [En Em]. unfold reloaded. auto 10.
Qed.
Lemma file_dims f n m es : matrix_file f n m es -> 0 <= n < 2 ^ 31 /\ 0 <= m < 2 ^ 31.
Proof.
  intros ([F|[F NE]] & _).
  - destruct F as (? & ? & ? & ? & _ & _ & _ & H1 & H2 & _). auto.
  - destruct F as (? & ? & ? & ? & ? & _ & _ & _ & _ & _ & H1 & H2 & _). auto.
Qed.

(** ** Entries of matrices *)
Lemma In_clist A i j v : In (i, j, v) (clist A) <-> 0 <= i < cn A /\ exists px, rbeg A i <= px < rend A i /\ get (cj A) px = j /\ val A px = v.
Proof.
  unfold clist. rewrite in_flat_map. split.
  - intros (k & Hk & H). apply In_zseq in Hk. apply in_map_iff in H as ([c x] & E & H). injection E as -> -> ->. split; [lia|]. now apply In_rowl.
  - intros (Hi & H). exists i. split; [now apply In_zseq|]. apply in_map_iff. exists (j, v). split; [reflexivity|]. now apply In_rowl.
Qed.
Lemma clist_tcoef A i j : 0 <= i < cn A -> tcoef i j (clist A) = entry A i j.
Proof.
  intros Hi. unfold clist.
  assert (G : forall n, 0 <= n -> tcoef i j (flat_map (fun i => map (fun '(j, x) => (i, j, x)) (rowl A i)) (zseq 0 n)) = if i <? n then entry A i j else 0).
  { apply (natlike_ind (fun n => tcoef i j (flat_map (fun i => map (fun '(j, x) => (i, j, x)) (rowl A i)) (zseq 0 n)) = if i <? n then entry A i j else 0)).
    - rewrite zseq_empty by lia. replace (i <? 0) with false by lia. reflexivity.
    - intros n Hn IH. rewrite <- Z.add_1_r, zseq_S by lia. rewrite flat_map_app, tcoef_app, IH. cbn [flat_map]. rewrite app_nil_r.
      assert (E : tcoef i j (map (fun '(j, x) => (n, j, x)) (rowl A n)) = if n =? i then entry A n j else 0).
      { rewrite entry_rowl. unfold lentry. induction (rowl A n) as [|[c x] l IHl]; [now destruct (n =? i)|]. cbn [map]. unfold tcoef in *. cbn [lsum fold_right]. unfold lsum in IHl. rewrite IHl.
        destruct (n =? i); cbn [andb]; [|lia]. reflexivity. }
      rewrite E. destruct (Z.eqb_spec n i) as [->|]; [replace (i <? i) with false by lia; replace (i <? i + 1) with true by lia; lia|]. destruct (Z.ltb_spec i n); [replace (i <? n + 1) with true by lia|replace (i <? n + 1) with false by lia]; lia. }
  rewrite G by lia. now replace (i <? cn A) with true by lia.
Qed.
Lemma clist_NoDup A : wf A -> nodup_rows A -> NoDup (map fst (clist A)).
Proof.
  intros W D. unfold clist.
  assert (G : forall n, 0 <= n -> n <= cn A -> NoDup (map fst (flat_map (fun i => map (fun '(j, x) => (i, j, x)) (rowl A i)) (zseq 0 n)))).
  { apply (natlike_ind (fun n => n <= cn A -> NoDup (map fst (flat_map (fun i => map (fun '(j, x) => (i, j, x)) (rowl A i)) (zseq 0 n))))).
    - intros _. rewrite zseq_empty by lia. constructor.
    - intros n Hn IH Hle. rewrite <- Z.add_1_r, zseq_S by lia. rewrite flat_map_app, map_app. cbn [flat_map]. rewrite app_nil_r. apply NoDup_app; [apply IH; lia| |].
      + rewrite map_map. unfold rowl. rewrite map_map. cbn [fst]. pose proof (wf_row A W n ltac:(lia)) as R.
        assert (H : forall l, NoDup l -> (forall px, In px l -> rbeg A n <= px < rend A n) -> NoDup (map (fun px => (n, get (cj A) px)) l)).
        { induction l as [|a l IHl]; [constructor|]. intros HN HI. inversion HN as [|? ? H1 H2]; subst. cbn [map]. constructor; [|apply IHl; auto; intros; apply HI; now right].
          intros H. apply in_map_iff in H as (b & E & Hb). injection E as E. apply H1. replace a with b; auto. apply (D n); auto; try lia; apply HI; [now right|now left]. }
        apply H; [apply NoDup_zseq|]. intros px Hp. now apply In_zseq in Hp.
      + intros [a b] H1 H2. apply in_map_iff in H1 as ([[a1 b1] x1] & E1 & H1). apply in_map_iff in H2 as ([[a2 b2] x2] & E2 & H2). cbn [fst] in E1, E2. rewrite E1 in *.
        injection E2 as -> ->. apply in_flat_map in H1 as (k & Hk & H1). apply In_zseq in Hk. apply in_map_iff in H1 as ([c y] & E3 & _). apply in_map_iff in H2 as ([c' y'] & E4 & _).
        injection E3 as -> -> _. injection E4 as <- _ _. injection E1 as E1 _. lia. }
  apply G; [apply (wf_n A W)|lia].
Qed.
Lemma len_clist A : wf A -> len (clist A) = nnz A.
Proof. intros W. rewrite clist_eq, len_clist_to by (auto; pose proof (wf_n A W); lia). reflexivity. Qed.

(** ** Saving *)
Lemma save_file A : wf A -> cn A < 2 ^ 31 -> cm A < 2 ^ 31 -> nnz A < 2 ^ 54 -> (forall px, 0 <= px < nnz A -> int64 (val A px)) ->
  exists f, csr_save A = Ok f /\ matrix_file f (cn A) (cm A) (map to1 (clist A)).
Proof.
  intros W Hn Hm Hz Hx. eexists. split; [now apply csr_save_ok|]. pose proof (wf_n A W). pose proof (wf_m A W). pose proof (clist_writable A W Hx) as Hw.
  destruct (file_of_ok (cn A) (cm A) (clist A)) as (F1 & F2 & F3); auto; try lia. split; [now left|]. split; [now apply inside_to1|]. split; [exact F2|].
  rewrite len_clist in F3 by auto. lia.
Qed.
Lemma tsave_file T : twf T -> tn T < 2 ^ 31 -> tm T < 2 ^ 31 -> tnz T < 2 ^ 54 -> (forall k, 0 <= k < tnz T -> int64 (tval T k)) ->
  exists f, triplet_save T = Ok f /\ matrix_file f (tn T) (tm T) (map to1 (tlist T)).
Proof.
  intros W Hn Hm Hz Hx. eexists. split; [now apply triplet_save_ok|]. destruct W as (H1 & H2 & H3 & H4 & H5 & H6).
  assert (Hw : Forall (writable (tn T) (tm T)) (tlist T)).
  { apply Forall_forall. intros e He. apply in_map_iff in He as (k & <- & Hk). apply In_zseq in Hk. destruct (H6 k Hk). specialize (Hx k Hk). unfold writable. auto. }
  destruct (file_of_ok (tn T) (tm T) (tlist T)) as (F1 & F2 & F3); auto; try lia. split; [now left|]. split; [now apply inside_to1|]. split; [exact F2|].
  rewrite len_tlist in F3 by lia. lia.
Qed.
Lemma balanced_int64 p x : ok_modulus p -> balanced p x -> int64 x.
Proof.
  unfold ok_modulus, balanced, int64. intros. assert (0 <= p / 2 <= p) by (split; [apply Z.div_pos|apply Z.div_le_upper_bound]; lia). lia.
Qed.
Lemma fst_to1_NoDup l : NoDup (map fst l) -> NoDup (map fst (map to1 l)).
Proof.
  intros H. rewrite map_map. induction l as [|[[a b] x] l IH]; [constructor|]. cbn [map fst to1] in *. inversion H as [|? ? H1 H2]; subst. constructor; [|auto].
  intros H3. apply H1. apply in_map_iff in H3 as ([[a' b'] x'] & E & H3). cbn in E. injection E as E1 E2. apply in_map_iff. exists (a', b', x'). split; [|auto]. cbn. f_equal; lia.
Qed.
(* a matrix without duplicates nor zeroes gives a clean file *)
Lemma clean_clist p A : wf A -> nodup_rows A -> cprime A = p -> reduced A -> no_zero A -> clean p (map to1 (clist A)).
Proof.
  intros W D E [_ R] Z0. split; [now apply fst_to1_NoDup, clist_NoDup|]. apply Forall_forall. intros [[i j] x] H. apply in_map_iff in H as ([[a b] y] & E1 & H). cbn in E1. injection E1 as _ _ <-.
  apply In_clist in H as (Hi & px & Hp & _ & <-). pose proof (wf_row A W a Hi). subst p. split; [apply R; lia|apply Z0; lia].
Qed.
Lemma save_clean p A : ok_modulus p -> wf A -> cn A < 2 ^ 31 -> cm A < 2 ^ 31 -> nnz A < 2 ^ 54 -> nodup_rows A -> cprime A = p -> reduced A -> no_zero A ->
  exists f es, csr_save A = Ok f /\ matrix_file f (cn A) (cm A) es /\ clean p es /\ len es = nnz A /\ forall i j, 0 <= i < cn A -> fentry es (i + 1) (j + 1) = entry A i j.
Proof.
  intros Hp W Hn Hm Hz D E R Z0. destruct (save_file A W Hn Hm Hz) as (f & Ef & F).
  { intros px Hpx. apply (balanced_int64 p); auto. subst p. now apply R. }
  exists f, (map to1 (clist A)). split; [exact Ef|]. split; [exact F|]. split; [now apply clean_clist|]. split; [rewrite len_map; now apply len_clist|].
  intros i j Hi. rewrite fentry_to1. now apply clist_tcoef.
Qed.

(** ** The loaded matrix *)
Lemma no_cancel_calm p r es : no_cancel p es -> calm p r es.
Proof. intros H i j x I _ N. now apply (H i j x). Qed.
(* spasm_compress is right when the rows before the last one have no cancellation *)
Lemma compress_calm g T : twf T -> 2 <= tprime T -> tx T <> None -> (forall k, 0 <= k < tnz T -> balanced (tprime T) (tval T k)) ->
  (forall i j, 0 <= i < tn T - 1 -> tstored T i j -> ~ cong (tprime T) (tentry T i j) 0) ->
  sat (compress g T) (fun C => wf C /\ cn C = tn T /\ cm C = tm T /\ cprime C = tprime T /\ reduced C /\ no_zero C /\ nodup_rows C /\
    (forall i j, 0 <= i < tn T -> stored C i j -> tstored T i j) /\ forall i j, 0 <= i < tn T -> cong (tprime T) (entry C i j) (tentry T i j)).
Proof.
  intros W P2 Hx Hb NC. eapply sat_mono; [apply sat_and; [apply (compress_safe g T W P2)|apply sat_and; [apply (compress_rows g T W P2 Hx Hb)|apply (compress_prefix g T W P2 Hx Hb)]]|].
  intros C ((W1 & N1 & M1 & P1 & X1 & Z1) & (R & HR & HC) & HE).
  assert (HC' : forall i, 0 <= i < tn T -> rowl C i = filter nonzero (R i)).
  { intros i Hi. rewrite HC by auto. rewrite carry_none; [reflexivity|]. intros k Hk. destruct (HR k) as (_ & H2 & H3); [lia|]. apply Forall_forall. intros [c v] He E. cbn [snd] in E. subst v.
    destruct (H3 c 0 He) as [_ H4]. apply (NC k c); [lia|apply H2; now apply (in_map fst) in He|]. now apply cong_sym. }
  split; [auto|]. split; [auto|]. split; [auto|]. split; [auto|]. split.
  { apply rows_reduced; auto. { rewrite X1. auto. } intros i c v Hi He. rewrite HC' in He by lia. apply filter_In in He as [He _]. destruct (HR i) as (_ & _ & H3); [lia|]. rewrite P1. now apply (H3 c v). }
  split; [auto|]. split.
  { apply rows_nodup; auto. intros i Hi. rewrite HC' by lia. destruct (HR i) as (H1 & _); [lia|]. clear - H1. induction (R i) as [|[c v] l IH]; [constructor|]. cbn [map fst] in H1. inversion H1 as [|? ? H2 H3]; subst.
    cbn [filter]. destruct (nonzero (c, v)); [|auto]. cbn [map fst]. constructor; [|auto]. intros H. apply H2. apply in_map_iff in H as ([c' v'] & E & H). apply filter_In in H as [H _]. apply in_map_iff. exists (c', v'). auto. }
  split.
  { intros i j Hi S. destruct (HR i Hi) as (_ & H2 & _). apply H2. apply stored_rowl in S. rewrite HC' in S by auto. apply in_map_iff in S as (e & E & H). apply filter_In in H as [H _]. apply in_map_iff. exists e. auto. }
  intros i j Hi. apply (HE (tn T - 1)); [exact NC|lia|lia].
Qed.
Lemma compress_holds g T n m es p : ok_modulus p -> reloaded n m p (map from0 es) T -> calm p n es -> sat (compress g T) (holds p n m es).
Proof.
  intros Hp (W & En & Em & Ep & Hv & TL) NC.
  assert (P2 : 2 <= p) by (unfold ok_modulus in Hp; lia). replace (p =? -1) with false in * by lia. cbn [negb] in *.
  assert (TE : forall i j, cong p (tentry T i j) (fentry es (i + 1) (j + 1))).
  { intros i j. rewrite tentry_tcoef, TL, <- fentry_from0. now apply tcoef_kept. }
  assert (TI : forall i j v, In (i, j, v) (tlist T) -> exists x, In (i + 1, j + 1, x) es /\ v = bal p x /\ bal p x <> 0).
  { intros i j v H. rewrite TL in H. apply In_kept in H as (x & H & E). exists x. split; [|exact E]. apply in_map_iff in H as ([[a b] y] & E1 & H). cbn in E1. injection E1 as <- <- <-.
    now replace (a - 1 + 1) with a by lia; replace (b - 1 + 1) with b by lia. }
  assert (Wz : 0 <= tnz T) by (destruct W as (? & ? & ? & _); lia).
  eapply sat_mono; [apply (compress_calm g T W)|].
  - lia.
  - intros E. unfold has_values in Hv. rewrite E in Hv. discriminate.
  - intros k Hk. rewrite Ep. destruct (TI _ _ _ (In_tlist T k Hk)) as (x & _ & -> & _). now apply bal_balanced.
  - rewrite Ep. intros i j Hi (k & Hk & <- & <-) H. destruct (TI _ _ _ (In_tlist T k Hk)) as (x & Hx & _ & Hb). apply (NC _ _ x Hx).
    + lia.
    + intros E. apply Hb. apply (balanced_unique p); auto; [now apply bal_balanced|apply balanced_0; lia|]. eapply cong_trans; [now apply bal_cong|exact E].
    + eapply cong_trans; [apply cong_sym, TE|exact H].
  - intros C (W1 & N1 & M1 & P1 & R1 & Z1 & D1 & S1 & E1).
    split; [exact W1|]. split; [lia|]. split; [lia|]. split; [lia|]. split; [exact R1|]. split; [exact Z1|]. split; [exact D1|].
    split.
    + rewrite <- len_clist by auto. assert (I : incl (map fst (clist C)) (map (fun '(i, j, _) => (i - 1, j - 1)) es)).
      { intros [i j] H. apply in_map_iff in H as ([[a b] v] & E & H). cbn in E. injection E as -> ->. apply In_clist in H as (Hi & px & Hpx & Hj & _).
        assert (ST : stored C i j) by (exists px; auto). apply S1 in ST; [|lia]. destruct ST as (k & Hk & E1' & E2'). destruct (TI _ _ _ (In_tlist T k Hk)) as (x & Hx & _).
        rewrite E1', E2' in Hx. apply in_map_iff. exists (i + 1, j + 1, x). split; [f_equal; lia|exact Hx]. }
      apply NoDup_incl_length in I; [|now apply clist_NoDup]. rewrite !map_length in I. unfold len. lia.
    + intros i j Hi Hj. rewrite <- Ep. eapply cong_trans; [apply E1; lia|]. rewrite Ep. apply TE.
Qed.
Lemma load_csr_ok gs g f n m es p hash : ok_modulus p -> matrix_file f n m es -> calm p n es -> (forall md, hash = Some md -> len md = 32) ->
  sat (load_csr gs g f p hash) (fun '(A, h) => holds p n m es A /\ h = option_map (fun _ => sha256 f) hash).
Proof.
  intros Hp F NC Hmd. unfold load_csr. apply sat_bind. eapply sat_mono; [apply (load_file gs (g 0) f n m es p hash F Hmd)|]. intros [T h] (R & Eh).
  apply sat_bind. eapply sat_mono; [apply (compress_holds _ T n m es p Hp R NC)|]. intros A HA. cbn [sat]. auto.
Qed.

(** ** Transposition *)
Lemma pattern_nodup A : wf A -> (forall i j, 0 <= i < cn A -> 0 <= j < cm A -> entry (pattern A) i j <= 1) -> nodup_rows A.
Proof.
  intros W H i px py Hi Hx Hy E. destruct (Z.eq_dec px py) as [|N]; [auto|exfalso]. pose proof (wf_row A W i Hi) as R.
  specialize (H i (get (cj A) px) Hi (wf_col A W px ltac:(lia))). unfold entry in H. change (rbeg (pattern A) i) with (rbeg A i) in H. change (rend (pattern A) i) with (rend A i) in H.
  rewrite (sum_pick _ _ _ px) in H by auto. cbn beta in H. rewrite Z.eqb_refl in H. change (val (pattern A) px) with 1 in H.
  assert (0 < sum (rbeg A i) (rend A i) (fun k => if k =? px then 0 else if get (cj (pattern A)) k =? get (cj A) px then val (pattern A) k else 0)); [|lia].
  apply (sum_pos _ _ _ py); auto.
  - replace (py =? px) with false by lia. change (cj (pattern A)) with (cj A). replace (get (cj A) py =? get (cj A) px) with true by lia. reflexivity.
  - intros k Hk. change (val (pattern A) k) with 1. destruct (k =? px); [lia|]. destruct (_ =? _); lia.
Qed.
Lemma nodup_pattern A i j : wf A -> nodup_rows A -> 0 <= i < cn A -> entry (pattern A) i j <= 1.
Proof.
  intros W D Hi. destruct (Z_lt_le_dec 0 (entry (pattern A) i j)) as [H|]; [|lia]. apply stored_pattern in H as (px & Hp & <-).
  change (nodup_rows (pattern A)) in D. change (cj A) with (cj (pattern A)). rewrite (nodup_entry (pattern A) i px); auto; [reflexivity|now apply wf_pattern].
Qed.
(* the values of a matrix without duplicates are its coefficients at stored positions *)
Lemma val_all A (P : Z -> Prop) : wf A -> nodup_rows A -> (forall i j, 0 <= i < cn A -> stored A i j -> P (entry A i j)) -> forall px, 0 <= px < nnz A -> P (val A px).
Proof.
  intros W D H px Hp. destruct (row_exists A W px Hp) as (i & Hi & Hr). rewrite <- (nodup_entry A i px) by auto. apply H; auto. exists px. auto.
Qed.
Lemma stored_val A i j : wf A -> nodup_rows A -> 0 <= i < cn A -> stored A i j -> exists px, 0 <= px < nnz A /\ entry A i j = val A px.
Proof. intros W D Hi (px & Hp & <-). exists px. pose proof (wf_row A W i Hi). split; [lia|]. now apply nodup_entry. Qed.
Lemma transpose_holds g p n m es A : holds p n m es A ->
  sat (transpose g A true) (fun B => wf B /\ cn B = m /\ cm B = n /\ cprime B = p /\ reduced B /\ no_zero B /\ nodup_rows B /\ nnz B = nnz A /\
    (forall i j, 0 <= i < n -> 0 <= j < m -> entry B j i = entry A i j)).
Proof.
  intros (W & En & Em & Ep & [R1 R2] & Z0 & D & Hz & E). eapply sat_mono; [apply (transpose_ok A W g true)|]. intros B (B1 & B2 & B3 & B4 & B5 & B6 & B7 & _ & B9). cbn beta in *.
  assert (DB : nodup_rows B). { apply pattern_nodup; auto. intros j i Hj Hi. rewrite B9 by lia. apply nodup_pattern; auto; lia. }
  assert (V : forall px, 0 <= px < nnz B -> exists py, 0 <= py < nnz A /\ val B px = val A py).
  { apply (val_all B (fun v => exists py, 0 <= py < nnz A /\ v = val A py)); auto. intros j i Hj S. pose proof (MatchProofs.stored_col B B1 j i Hj S) as Hi. rewrite B7 by lia. apply stored_val; auto; [lia|].
    apply stored_pattern. rewrite <- B9 by lia. now apply stored_pattern. }
  split; [auto|]. split; [lia|]. split; [lia|]. split; [lia|]. split.
  { split. - intros H. apply B6 in H as [H|H]; [discriminate|auto]. - intros px Hp. destruct (V px Hp) as (py & Hy & ->). rewrite B4. auto. }
  split. { intros px Hp. destruct (V px Hp) as (py & Hy & ->). auto. }
  split; [auto|]. split; [auto|]. intros i j Hi Hj. apply B7; lia.
Qed.
Theorem tool_transpose_calm gs g f n m es : matrix_file f n m es -> calm 42013 n es -> len es < 2 ^ 54 ->
  sat (tool_transpose gs g f) (fun f' => exists es', matrix_file f' m n es' /\ clean 42013 es' /\
    forall i j, 1 <= i <= n -> 1 <= j <= m -> cong 42013 (fentry es' j i) (fentry es i j)).
Proof.
  intros F NC L. unfold tool_transpose. assert (Hp : ok_modulus 42013) by (unfold ok_modulus; lia). apply sat_bind. eapply sat_mono; [apply (load_csr_ok gs g f n m es 42013 None Hp F NC); discriminate|].
  intros [A h] [H _]. apply sat_bind. eapply sat_mono; [apply (transpose_holds _ _ _ _ _ _ H)|]. intros B (B1 & B2 & B3 & B4 & B5 & B6 & B7 & B8 & B9).
  destruct H as (_ & _ & _ & _ & _ & _ & _ & Hz & E). destruct (file_dims _ _ _ _ F) as [Hn Hm].
  destruct (save_clean 42013 B Hp B1) as (f' & es' & -> & F' & C' & _ & E'); auto; try lia. cbn [sat]. exists es'. split; [now rewrite <- B2, <- B3|]. split; [auto|].
  intros i j Hi Hj. replace j with (j - 1 + 1) by lia. replace i with (i - 1 + 1) by lia. rewrite E', B9 by lia. apply E; lia.
Qed.
Theorem tool_transpose_ok gs g f n m es : matrix_file f n m es -> no_cancel 42013 es -> len es < 2 ^ 54 ->
  sat (tool_transpose gs g f) (fun f' => exists es', matrix_file f' m n es' /\ clean 42013 es' /\
    forall i j, 1 <= i <= n -> 1 <= j <= m -> cong 42013 (fentry es' j i) (fentry es i j)).
Proof. intros F NC. apply tool_transpose_calm; [exact F|now apply no_cancel_calm]. Qed.

(** ** vertical_swap *)
Theorem tool_vertical_swap_ok gs g f n m es : matrix_file f n m es -> len es < 2 ^ 54 ->
  sat (tool_vertical_swap gs g f) (fun f' => matrix_file f' n m (map (fun '(i, j, x) => (i, m + 1 - j, x)) (kept 42013 es))).
Proof.
  intros F L. unfold tool_vertical_swap. apply sat_bind. eapply sat_mono; [apply (load_file gs (g 0) f n m es 42013 None F); discriminate|]. intros [T h] ((W & En & Em & Ep & Hv & TL) & _).
  replace (42013 =? -1) with false in * by lia. cbn [negb] in *. pose proof W as (W1 & W2 & W3 & W4 & W5 & W6). apply sat_bind.
  apply (for_spec (fun k a => len a = len (tj T) /\ (forall t, 0 <= t < k -> get a t = m - get (tj T) t - 1) /\ (forall t, k <= t < tnz T -> get a t = get (tj T) t))); [lia| | |].
  - split; [auto|]. split; intros; [lia|auto].
  - intros k a Hk (A1 & A2 & A3). wp; [lia|lia|]. split; [rewrite len_upd; lia|]. split; intros t Ht.
    + destruct (Z.eq_dec t k) as [->|]; [rewrite get_upd_eq by lia; rewrite A3 by lia; lia|rewrite get_upd_ne by lia; apply A2; lia].
    + rewrite get_upd_ne by lia. apply A3. lia.
  - intros a (A1 & A2 & _). set (T' := Triplet _ _ _ _ _ _ _).
    assert (LT : len (tlist T) <= len es).
    { rewrite TL. clear. unfold len. induction es as [|[[i j] x] es IH]; [reflexivity|]. cbn [map flat_map from0 length]. rewrite app_length. assert (Z.of_nat (length (keeps 42013 true (i - 1, j - 1, x))) <= 1); [|lia]. unfold keeps. destruct (bal _ x =? 0); cbn [length]; lia. }
    rewrite len_tlist in LT by lia. destruct (file_dims _ _ _ _ F).
    destruct (tsave_file T') as (f' & -> & F'); cbn [T' tn tm tnz]; try lia.
    + subst T'. split; [cbn; lia|]. split; [cbn; lia|]. cbn [tnz tj ti tx tn tm]. split; [lia|]. split; [lia|]. split; [destruct (tx T); lia|]. intros k Hk. rewrite A2 by lia. specialize (W6 k Hk). lia.
    + intros k Hk. change (tval T' k) with (tval T k). pose proof (In_tlist T k Hk) as I. rewrite TL in I. apply In_kept in I as (x & _ & -> & _). apply (balanced_int64 42013); [unfold ok_modulus; lia|apply bal_balanced; lia].
    + cbn [sat]. subst T'. cbn [tn tm] in F'. rewrite En, Em in F'. replace (map (fun '(i, j, x) => (i, m + 1 - j, x)) (kept 42013 es)) with (map to1 (tlist (Triplet (tnz T) (tn T) (tm T) (ti T) a (tx T) (tprime T)))); [now rewrite En, Em|].
      transitivity (map (fun '(i, j, x) => (i + 1, m - j, x)) (tlist T)).
      * unfold tlist. rewrite !map_map. apply map_ext_in. intros k Hk. apply In_zseq in Hk. cbn [ti tj to1]. rewrite A2 by auto. f_equal. f_equal. lia.
      * rewrite TL. unfold kept. clear. induction es as [|[[i j] x] es IH]; [reflexivity|]. cbn [map flat_map from0]. rewrite !map_app, IH. f_equal. unfold keeps. destruct (bal _ x =? 0); [reflexivity|]. cbn [map]. do 3 f_equal; lia.
Qed.

(** ** stack *)
Lemma filter_increasing (b : Z -> bool) n : 0 <= n -> forall s t, 0 <= s < t -> t < len (filter b (zseq 0 n)) -> get (filter b (zseq 0 n)) s < get (filter b (zseq 0 n)) t.
Proof.
  revert n. apply (natlike_ind (fun n => forall s t, 0 <= s < t -> t < len (filter b (zseq 0 n)) -> get (filter b (zseq 0 n)) s < get (filter b (zseq 0 n)) t)).
  - intros s t H H'. cbn in H'. lia.
  - intros n Hn IH s t Hs. rewrite <- Z.add_1_r, filter_zseq by lia. rewrite len_app. intros Ht. destruct (b n) eqn:E.
    + change (len [n]) with 1 in Ht. rewrite (get_app_l _ _ s) by lia. destruct (Z_lt_le_dec t (len (filter b (zseq 0 n)))); [rewrite get_app_l by lia; apply IH; lia|].
      rewrite get_app_r by lia. replace (t - len (filter b (zseq 0 n))) with 0 by lia. change (get [n] 0) with n.
      assert (I : In (get (filter b (zseq 0 n)) s) (filter b (zseq 0 n))) by (apply get_In; lia). apply filter_In in I as [I _]. apply In_zseq in I. lia.
    + change (len []) with 0 in Ht. rewrite app_nil_r. apply IH; lia.
Qed.
Lemma filter_get (b : Z -> bool) n t : 0 <= t < n -> b t = true -> get (filter b (zseq 0 n)) (len (filter b (zseq 0 t))) = t.
Proof.
  intros Ht E. rewrite (zseq_split 0 (t + 1) n), filter_app, filter_zseq, E by lia. pose proof (len_nonneg (filter b (zseq 0 t))).
  rewrite get_app_l, get_app_r by (rewrite ?len_app; change (len [t]) with 1; lia). now rewrite Z.sub_diag.
Qed.
Lemma mark_used_ok g n nz a : 0 <= n -> 0 <= nz <= len a -> (forall k, 0 <= k < nz -> 0 <= get a k < n) ->
  sat (mark_used g n nz a) (fun p => len p = n /\ (forall i, 0 <= i < n -> get p i = 0 \/ get p i = 1) /\ forall i, 0 <= i < n -> get p i = 1 <-> exists k, 0 <= k < nz /\ get a k = i).
Proof.
  intros Hn Hz Ha. unfold mark_used. apply sat_bind.
  apply (for_spec (fun k p => len p = n /\ forall i, 0 <= i < k -> get p i = 0)); [lia|split; [rewrite len_malloc; lia|intros; lia]| |].
  - intros k p Hk (P1 & P2). wp; [lia|]. split; [rewrite len_upd; lia|]. intros i Hi. destruct (Z.eq_dec i k) as [->|]; [rewrite get_upd_eq by lia; auto|rewrite get_upd_ne by lia; apply P2; lia].
  - intros p0 (P1 & P2). apply (for_spec (fun k p => len p = n /\ (forall i, 0 <= i < n -> get p i = 0 \/ get p i = 1) /\ forall i, 0 <= i < n -> get p i = 1 <-> exists t, 0 <= t < k /\ get a t = i)); [lia| | |auto].
    + split; [auto|]. split; [auto|]. intros i Hi. rewrite P2 by auto. split; [lia|]. intros (t & Ht & _). lia.
    + intros k p Hk (Q1 & Q2 & Q3). specialize (Ha k Hk). wp; [lia|lia|]. split; [rewrite len_upd; lia|]. split; intros i Hi; (destruct (Z.eq_dec i (get a k)) as [->|]; [rewrite get_upd_eq by lia|rewrite get_upd_ne by lia]); auto.
      * split; [intros _; exists k; split; [lia|auto]|auto].
      * rewrite Q3 by auto. split; intros (t & Ht & E); exists t; (split; [|auto]); [lia|]. assert (t <> k) by congruence. lia.
Qed.
Lemma renumber_ok n p : 0 <= n -> len p = n -> (forall i, 0 <= i < n -> get p i = 0 \/ get p i = 1) ->
  let b := fun i => get p i =? 1 in
  sat (renumber n p) (fun '(q, u) => len q = n /\ u = len (filter b (zseq 0 n)) /\ forall i, 0 <= i < n -> b i = true -> get q i = len (filter b (zseq 0 i))).
Proof.
  intros Hn Hl H b. unfold renumber.
  apply (for_spec (fun k '(q, u) => len q = n /\ u = len (filter b (zseq 0 k)) /\ (forall i, 0 <= i < k -> b i = true -> get q i = len (filter b (zseq 0 i))) /\ forall i, k <= i < n -> get q i = get p i)); [lia| | |].
  - split; [auto|]. split; [reflexivity|]. split; [intros; lia|auto].
  - intros k [q u] Hk (Q1 & -> & Q3 & Q4). rewrite filter_zseq, len_app by lia. apply sat_bind, sat_aget; [lia|]. rewrite Q4 by lia. destruct (Z.ltb_spec 0 (get p k)) as [E|E].
    + assert (B : b k = true) by (unfold b; specialize (H k Hk); lia). rewrite B. change (len [k]) with 1. wp; [lia|]. split; [rewrite len_upd; lia|]. split; [auto|]. split; intros i Hi.
      * destruct (Z.eq_dec i k) as [->|]; [intros _; apply get_upd_eq; lia|]. rewrite get_upd_ne by lia. apply Q3. lia.
      * rewrite get_upd_ne by lia. apply Q4. lia.
    + assert (B : b k = false) by (unfold b; specialize (H k Hk); lia). rewrite B. change (len []) with 0. wp. split; [auto|]. split; [lia|]. split; intros i Hi.
      * intros Bi. apply Q3; auto. destruct (Z.eq_dec i k) as [->|]; [congruence|lia].
      * apply Q4. lia.
  - intros [q u] (Q1 & Q2 & Q3 & _). auto.
Qed.
(* the numbers used in a[0..nz-1], from 1 *)
Lemma lists_used (p a : list Z) n nz : 0 <= n -> (forall i, 0 <= i < n -> get p i = 1 <-> exists k, 0 <= k < nz /\ get a k = i) -> (forall k, 0 <= k < nz -> 0 <= get a k < n) ->
  lists (map (Z.add 1) (filter (fun i => get p i =? 1) (zseq 0 n))) (fun i => exists k, 0 <= k < nz /\ get a k + 1 = i).
Proof.
  intros Hn H Ha. set (L := filter _ _). split.
  - intros s t Hs Ht. rewrite len_map in Ht. assert (G : forall k, 0 <= k < len L -> get (map (Z.add 1) L) k = 1 + get L k) by (intros; unfold get; now rewrite (getd_map (Z.add 1) 0)).
    rewrite !G by lia. pose proof (filter_increasing (fun i => get p i =? 1) n Hn s t Hs Ht). fold L in H0. lia.
  - intros i. rewrite in_map_iff. split.
    + intros (x & <- & Hx). apply filter_In in Hx as [Hx E]. apply In_zseq in Hx. apply Z.eqb_eq in E. apply H in E as (k & Hk & E); auto. exists k. split; [auto|lia].
    + intros (k & Hk & <-). exists (get a k). split; [lia|]. apply filter_In. specialize (Ha k Hk). split; [apply In_zseq; lia|]. apply Z.eqb_eq, H; [lia|]. eauto.
Qed.
Theorem tool_stack_ok gs g f n m es : matrix_file f n m es -> len es < 2 ^ 31 ->
  sat (tool_stack gs g f) (fun f' => exists R C es',
    lists R (fun i => exists j x, In (i, j, x) (kept 42013 es)) /\ lists C (fun j => exists i x, In (i, j, x) (kept 42013 es)) /\
    matrix_file f' (len R) (len C) es' /\ kept 42013 es = map (fun '(i, j, x) => (get R (i - 1), get C (j - 1), x)) es').
Proof.
  intros F L. unfold tool_stack. apply sat_bind. eapply sat_mono; [apply (load_file gs (g 0) f n m es 42013 None F); discriminate|]. intros [T h] ((W & En & Em & Ep & Hv & TL) & _).
  replace (42013 =? -1) with false in * by lia. cbn [negb] in *. pose proof W as (W1 & W2 & W3 & W4 & W5 & W6).
  assert (LT : len (tlist T) <= len es).
  { rewrite TL. clear. unfold len. induction es as [|[[i j] x] es IH]; [reflexivity|]. cbn [map flat_map from0 length]. rewrite app_length. assert (Z.of_nat (length (keeps 42013 true (i - 1, j - 1, x))) <= 1); [|lia]. unfold keeps. destruct (bal _ x =? 0); cbn [length]; lia. }
  rewrite len_tlist in LT by lia. destruct (file_dims _ _ _ _ F) as [Fn Fm].
  assert (KT : kept 42013 es = map to1 (tlist T)).
  { rewrite TL. unfold kept. clear. induction es as [|[[i j] x] es IH]; [reflexivity|]. cbn [map flat_map from0]. rewrite !map_app, IH. f_equal. unfold keeps. destruct (bal _ x =? 0); [reflexivity|]. cbn [map to1]. do 3 f_equal; lia. }
  unfold i32. replace ((- 2 ^ 31 <=? tnz T) && (tnz T <? 2 ^ 31)) with true by lia. cbn [bind]. apply sat_bind. eapply sat_mono; [apply mark_used_ok; [auto|lia|intros k Hk; apply W6, Hk]|]. intros p (P1 & P2 & P3).
  apply sat_bind. eapply sat_mono; [apply mark_used_ok; [auto|lia|intros k Hk; apply W6, Hk]|]. intros q (Q1 & Q2 & Q3).
  apply sat_bind. eapply sat_mono; [apply (renumber_ok (tn T) p); auto|]. intros [p' u] (P'1 & -> & P'2). set (b := fun i => get p i =? 1) in *.
  apply sat_bind. eapply sat_mono; [apply (renumber_ok (tm T) q); auto|]. intros [q' v] (Q'1 & -> & Q'2). set (c := fun i => get q i =? 1) in *.
  assert (B : forall k, 0 <= k < tnz T -> b (get (ti T) k) = true) by (intros k Hk; apply Z.eqb_eq, P3; [apply W6, Hk|eauto]).
  assert (C : forall k, 0 <= k < tnz T -> c (get (tj T) k) = true) by (intros k Hk; apply Z.eqb_eq, Q3; [apply W6, Hk|eauto]).
  set (pos := fun (f : Z -> bool) i => len (filter f (zseq 0 i))).
  apply sat_bind. apply (for_spec (fun k '(Ai, Aj) => len Ai = len (tj T) /\ len Aj = len (tj T) /\
    (forall t, 0 <= t < k -> get Ai t = pos b (get (ti T) t) /\ get Aj t = pos c (get (tj T) t)) /\ (forall t, k <= t < tnz T -> get Ai t = get (ti T) t /\ get Aj t = get (tj T) t))); [lia| | |].
  { split; [auto|]. split; [auto|]. split; [intros; lia|auto]. }
  { intros k [Ai Aj] Hk (A1 & A2 & A3 & A4). destruct (A4 k ltac:(lia)) as [E1 E2]. specialize (W6 k Hk). specialize (B k Hk). specialize (C k Hk).
    apply sat_bind, sat_aget; [lia|]. rewrite E1. apply sat_bind, sat_aget; [lia|]. apply sat_bind, sat_aset; [lia|]. apply sat_bind, sat_aget; [lia|]. rewrite E2. apply sat_bind, sat_aget; [lia|]. apply sat_bind, sat_aset; [lia|].
    cbn [sat]. rewrite !len_upd. split; [auto|]. split; [auto|]. split; intros t Ht.
    - destruct (Z.eq_dec t k) as [->|]; [rewrite !get_upd_eq by lia; split; [apply P'2|apply Q'2]; auto; lia|]. rewrite !get_upd_ne by lia. apply A3. lia.
    - rewrite !get_upd_ne by lia. apply A4. lia. }
  intros [Ai Aj] (A1 & A2 & A3 & _). set (T' := Triplet _ _ _ _ _ _ _).
  assert (Lb : forall (x : Z -> bool) k, 0 <= k -> len (filter x (zseq 0 k)) <= k). { intros x k Hk. etransitivity; [apply DenseProofs.len_filter|]. rewrite len_zseq. lia. }
  destruct (tsave_file T') as (f' & -> & F').
  { subst T'. unfold twf. cbn [tn tm tnz tj ti tx]. split; [apply len_nonneg|]. split; [apply len_nonneg|]. split; [lia|]. split; [lia|]. split; [destruct (tx T); lia|]. intros k Hk. destruct (A3 k Hk) as [-> ->]. specialize (W6 k Hk). unfold pos.
    split; (split; [apply len_nonneg|]); apply filter_lt; auto; lia. }
  { cbn. specialize (Lb b (tn T)). lia. } { cbn. specialize (Lb c (tm T)). lia. } { cbn [T' tnz]. lia. }
  { intros k Hk. change (tval T' k) with (tval T k). change (tnz T') with (tnz T) in Hk. pose proof (In_tlist T k Hk) as I. rewrite TL in I. apply In_kept in I as (x & _ & -> & _). apply (balanced_int64 42013); [unfold ok_modulus; lia|apply bal_balanced; lia]. }
  cbn [sat]. exists (map (Z.add 1) (filter b (zseq 0 (tn T)))), (map (Z.add 1) (filter c (zseq 0 (tm T)))), (map to1 (tlist T')).
  assert (IK : forall i j x, In (i, j, x) (map to1 (tlist T)) <-> exists k, 0 <= k < tnz T /\ i = get (ti T) k + 1 /\ j = get (tj T) k + 1 /\ x = tval T k).
  { intros i j x. unfold tlist. rewrite map_map, in_map_iff. split; [intros (k & E & Hk); apply In_zseq in Hk; cbn in E; injection E as <- <- <-; eauto|intros (k & Hk & -> & -> & ->); exists k; split; [reflexivity|now apply In_zseq]]. }
  split; [|split; [|split; [rewrite !len_map; exact F'|]]].
  - destruct (lists_used p (ti T) (tn T) (tnz T) W1 P3 ltac:(intros; now apply W6)) as [L1 L2]. split; [exact L1|]. intros i. rewrite KT. etransitivity; [apply L2|]. split.
    + intros (k & Hk & <-). exists (get (tj T) k + 1), (tval T k). apply IK. eauto.
    + intros (j & x & H). apply IK in H as (k & Hk & -> & _). eauto.
  - destruct (lists_used q (tj T) (tm T) (tnz T) W2 Q3 ltac:(intros; now apply W6)) as [L1 L2]. split; [exact L1|]. intros i. rewrite KT. etransitivity; [apply L2|]. split.
    + intros (k & Hk & <-). exists (get (ti T) k + 1), (tval T k). apply IK. eauto.
    + intros (j & x & H). apply IK in H as (k & Hk & _ & -> & _). eauto.
  - rewrite KT. unfold tlist. rewrite !map_map. apply map_ext_in. intros k Hk. apply In_zseq in Hk. cbn [T' ti tj to1]. destruct (A3 k Hk) as [-> ->]. specialize (W6 k Hk).
    assert (G : forall x N t, 0 <= t < N -> x t = true -> get (map (Z.add 1) (filter x (zseq 0 N))) (pos x t + 1 - 1) = t + 1).
    { intros x N t Ht E. replace (pos x t + 1 - 1) with (pos x t) by lia. unfold get. rewrite (getd_map (Z.add 1) 0) by (pose proof (len_nonneg (filter x (zseq 0 t))); pose proof (filter_lt x t N Ht E); unfold pos; lia).
      fold (get (filter x (zseq 0 N)) (pos x t)). unfold pos. rewrite filter_get by auto. lia. }
    rewrite !G by (auto; lia). reflexivity.
Qed.

(** ** For the examples *)
Lemma file_of_matrix n m l : 0 <= n < 2 ^ 31 -> 0 <= m < 2 ^ 31 -> Forall (writable n m) l -> len l < 2 ^ 54 -> matrix_file (file_of n m l) n m (map to1 l).
Proof.
  intros Hn Hm Hw L. destruct (file_of_ok n m l) as (F1 & F2 & F3); auto. split; [now left|]. split; [now apply inside_to1|]. split; [exact F2|]. lia.
Qed.
Definition no_cancelb (p : Z) (es : list (Z * Z * Z)) : bool := forallb (fun '(i, j, x) => (x mod p =? 0) || negb (fentry es i j mod p =? 0)) es.
Lemma no_cancelb_ok p es : p <> 0 -> no_cancelb p es = true -> no_cancel p es.
Proof.
  intros Hp H i j x I N. unfold no_cancelb in H. rewrite forallb_forall in H. specialize (H _ I). cbn in H. unfold cong in *. rewrite Z.sub_0_r in *. rewrite <- !Z.mod_divide in * by auto. lia.
Qed.
