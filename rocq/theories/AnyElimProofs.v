(** Proofs about AnyElim.v. *)
From Coq Require Import Znumtheory.
From Verif Require Import Base BaseFacts Spec SpecFacts SpecText SpecAccept SpecTools SpecHeader SpecAny SpecAnyElim Zp Mat MatFacts RowList VecProofs CompressProofs TransposeProofs DenseProofs4 CertProofs
  SpecSha ShaHash Sha Stdio IO TextProofs IOProofs IOHash IOSave IOAccept IOCut IOSafe Sizes Header HeaderProofs Tools ToolsProofs AnyInput AnyProofs
  Par Schur Dense Echelonize EchProofs EchProofs2 Rref PrngProofs Cert ToolsElim ToolsElimProofs AnyElim.

(** ** Dimensions *)
Definition dims (p n m : Z) (es : list (Z * Z * Z)) (T : triplet) : Prop := spans p n m es T /\ tn T = rows p n es /\ tm T = cols p m es.
Lemma rows_snoc p n es i j x : rows p n (es ++ [(i, j, x)]) = if bal p x =? 0 then rows p n es else Z.max i (rows p n es).
Proof.
  unfold rows, kept. rewrite flat_map_app. cbn [flat_map keeps]. destruct (_ =? 0); [now rewrite !app_nil_r|]. rewrite app_nil_r.
  induction (flat_map (keeps p true) es) as [|[[a b] y] l IH]; [reflexivity|]. cbn [app fold_right]. rewrite IH. lia.
Qed.
Lemma cols_snoc p m es i j x : cols p m (es ++ [(i, j, x)]) = if bal p x =? 0 then cols p m es else Z.max j (cols p m es).
Proof.
  unfold cols, kept. rewrite flat_map_app. cbn [flat_map keeps]. destruct (_ =? 0); [now rewrite !app_nil_r|]. rewrite app_nil_r.
  induction (flat_map (keeps p true) es) as [|[[a b] y] l IH]; [reflexivity|]. cbn [app fold_right]. rewrite IH. lia.
Qed.
Lemma dims_add g p n m es T i j x T' : 2 <= p -> dims p n m es T -> 1 <= i < 2 ^ 31 -> 1 <= j < 2 ^ 31 -> add_entry g T (i - 1) (j - 1) x = Ok T' -> dims p n m (es ++ [(i, j, x)]) T'.
Proof.
  intros Hp (S & E1 & E2) Hi Hj Ea. split; [exact (spans_add g p n m es T i j x T' S Hi Hj Ea)|]. rewrite rows_snoc, cols_snoc, <- E1, <- E2.
  destruct S as ((_ & P & V & _) & _). replace (negb (p =? -1)) with true in V by lia. unfold has_values in V. cbn [redim tx tprime] in V, P.
  revert Ea. unfold add_entry. destruct (assert_ _); [|discriminate]. cbn [bind]. cbv zeta.
  set (T1 := if tnz T =? len (tj T) then _ else T). assert (D : tn T1 = tn T /\ tm T1 = tm T /\ tprime T1 = p /\ tx T1 <> None).
  { unfold T1. destruct (tnz T =? len (tj T)); cbn [triplet_realloc tn tm tprime tx]; (split; [reflexivity|]); (split; [reflexivity|]); (split; [exact P|]); destruct (tx T); discriminate. }
  clearbody T1. destruct D as (<- & <- & D3 & D4). destruct (tx T1); [|congruence]. rewrite D3. unfold zinit. destruct (bal p x =? 0).
  - intros E. injection E as <-. auto.
  - destruct (aset _ _ _); [|discriminate]. cbn [bind]. destruct (aset _ _ _); [|discriminate]. cbn [bind]. destruct (aset _ _ _); [|discriminate]. cbn [bind]. intros E. injection E as <-. cbn [tn tm]. lia.
Qed.
Lemma load_dims gs g p f hash T h : 2 <= p -> ~ In 0 f -> triplet_load gs g f p hash = Ok (T, h) -> exists n m es, ((exists c, like_sms f n m c es /\ (p = -1 \/ c = 77)) \/ like_mm f n m es) /\ dims p n m es T.
Proof.
  intros Hp. apply (load_accepts_inv gs g p (dims p)).
  - intros n m es T0 i j x T'. now apply dims_add.
  - intros n m nz Hz. split; [|split; reflexivity]. split; [change (redim (triplet_alloc g n m nz p (negb (p =? -1)))) with (triplet_alloc g (Z.max n 0) (Z.max m 0) nz p (negb (p =? -1))); apply loaded_alloc; lia|]. cbn [triplet_alloc tn tm tnz]. lia.
  - intros n m es T0 ((H & H') & H''). split; [split; [|exact H']|exact H'']. change (redim (triplet_realloc g T0 (-1))) with (triplet_realloc g (redim T0) (-1)). now apply loaded_realloc.
Qed.
Lemma rows_nil p n es : kept p es = [] -> rows p n es = n.
Proof. unfold rows. now intros ->. Qed.
Lemma cols_nil p n es : kept p es = [] -> cols p n es = n.
Proof. unfold cols. now intros ->. Qed.

(** ** Files *)
Lemma text_concat_nil L : text L -> concat L = [] -> L = [].
Proof.
  intros T E. destruct T as [|s L Hs T]; [reflexivity|]. exfalso. cbn [concat] in E. apply app_eq_nil in E as [-> _]. destruct Hs as [(t & E & _)|(_ & H & _)]; [destruct t; discriminate|congruence].
Qed.
Lemma cut_eq L' L : cut L' L -> text L -> concat L = concat L' -> L = L'.
Proof.
  induction 1 as [L|s L' L _ IH|s u L _]; intros T E.
  - now apply text_concat_nil.
  - cbn [concat] in E. apply app_inv_head in E. f_equal. apply IH; [now inversion T|exact E].
  - cbn [concat] in E. rewrite app_nil_r, <- app_assoc in E. rewrite <- (app_nil_r s) in E at 2. apply app_inv_head in E. apply app_eq_nil in E as [-> E]. rewrite app_nil_r. f_equal. apply text_concat_nil; [now inversion T|exact E].
Qed.
Lemma text_det L L' : text L -> text L' -> concat L = concat L' -> L = L'.
Proof. intros T T' E. apply cut_eq; auto. apply (cut_lines L' T' L [] T). now rewrite app_nil_r. Qed.
Lemma app_inj_length {T} (a : list T) : forall b c d, length a = length b -> a ++ c = b ++ d -> a = b /\ c = d.
Proof. induction a as [|x a IH]; intros [|y b] c d L E; cbn in *; try discriminate; [auto|]. injection E as -> E. destruct (IH b c d ltac:(lia) E). subst. auto. Qed.
Lemma like_mm_det f n m es n' m' es' : like_mm f n m es -> like_mm f n' m' es' -> n = n' /\ m = m' /\ es = es'.
Proof.
  intros (h & cs & d & ls & gl & -> & Ht & _ & Hc & Nd & Hd & _ & _ & _ & HL) (h' & cs' & d' & ls' & gl' & E & Ht' & _ & Hc' & Nd' & Hd' & _ & _ & _ & HL').
  apply text_det in E; auto. injection E as <- E. apply comments_det in E as (<- & <- & E); auto. destruct (begins3_det _ _ _ _ _ _ _ Hd Hd') as (-> & -> & El). split; [reflexivity|]. split; [reflexivity|].
  apply app_inj_length in E as [-> _]; [exact (begin_entries_det _ _ _ HL HL')|]. rewrite (begin_entries_len _ _ HL), (begin_entries_len _ _ HL'). unfold len in El. lia.
Qed.
Lemma like_not_both f n m c es n' m' es' : like_sms f n m c es -> like_mm f n' m' es' -> False.
Proof.
  intros (h & ls & e & gl & -> & Ht & (r1 & r2 & w & t & B1 & _) & _) (h' & cs' & d' & ls' & gl' & E & Ht' & Hh' & _). apply text_det in E; auto. injection E as <- _. apply begins1_37 in B1. apply begins_mm_37 in Hh'. congruence.
Qed.
Theorem like_matrix_det f n m es n' m' es' : like_matrix f n m es -> like_matrix f n' m' es' -> n = n' /\ m = m' /\ es = es'.
Proof.
  intros [H|H] [H'|H'].
  - destruct (like_sms_det _ _ _ _ _ _ _ _ _ H H') as (-> & -> & _ & ->). auto.
  - destruct (like_not_both _ _ _ _ _ _ _ _ H H').
  - destruct (like_not_both _ _ _ _ _ _ _ _ H' H).
  - exact (like_mm_det _ _ _ _ _ _ _ H H').
Qed.

(** ** Compression *)
Lemma ncompress_all g most T : (twf T -> exists A, Mat.compress g T = Ok A) -> 0 <= most -> int32 (tn T) -> int32 (tm T) -> 0 <= tnz T < 2 ^ 60 -> slots T -> (0 <= tn T -> 0 <= tm T -> twf T) -> (tnz T = 0 \/ 1 <= tn T /\ 1 <= tm T) ->
  outs (ncompress g most T) (fun A => 0 <= tn T /\ 0 <= tm T /\ twf T /\ Mat.compress g T = Ok A) (fun e => refused e \/ e = OOB /\ tn T = -1 /\ tnz T = 0).
Proof.
  intros HC Hmost Hn Hm Hz (S1 & S2 & S3) W Z0. unfold int32 in *. destruct (Z_lt_le_dec (tn T) 0) as [Ln|Ln].
  - assert (E0 : tnz T = 0) by lia. unfold ncompress, ncompress_raw. cbv zeta. destruct (Z.eq_dec (tn T) (-1)) as [E1|E1].
    + rewrite E1, E0, ncsr_alloc_minus_one by lia. cbn [bind outs]. right. auto.
    + rewrite ncsr_alloc_neg by lia. cbn [bind outs]. left. left. reflexivity.
  - eapply outs_imp; [|intros a Ha; exact Ha|intros e He; left; exact He]. destruct (Z_lt_le_dec (tm T) 0) as [Lm|Lm].
    + unfold ncompress. apply outs_bind. apply (outs_mono _ (fun C => cm C = tm T)).
      * eapply tame_outs; [apply ncompress_raw_tame; lia|]. pose proof (raw_cols g T 0) as R. assert (E0 : tnz T = 0) by lia.
        set (T' := Triplet (tnz T) (tn T) 0 (ti T) (tj T) (tx T) (tprime T)) in *. assert (W' : twf T'). { unfold twf, T'. cbn [tn tm tnz ti tj tx]. rewrite E0. split; [lia|]. split; [lia|]. split; [lia|]. split; [auto|]. split; [auto|]. intros; lia. }
        pose proof (compress_raw_ok g T' W') as OK. rewrite R in OK. assert (M : outs (compress_raw g T) (fun C => cm C = tm T) any).
        { unfold compress_raw. cbv zeta. step. step. apply outs_bind, outs_any. intros [[? ?] ?] _. step. apply outs_bind, outs_any. intros [[? ?] ?] _. reflexivity. }
        destruct (compress_raw g T) as [C|e]; [exact M|destruct OK].
      * intros C E. rewrite ndeduplicate_neg by lia. left. reflexivity.
    + specialize (W ltac:(lia) ltac:(lia)). apply (tame_outs _ (Mat.compress g T)).
      * unfold ncompress, Mat.compress. apply tame_bind; [apply ncompress_raw_tame; lia|]. intros C EC. apply tame_bind; [|intros D _; apply tame_refl]. apply ndeduplicate_tame.
        pose proof (ncompress_raw_tame g most T ltac:(lia) ltac:(lia)) as R. rewrite EC in R. cbn in R. pose proof (compress_raw_ok g T W) as OK. rewrite R in OK. destruct OK as (_ & _ & -> & _). lia.
      * destruct (HC W) as (A & EA). rewrite EA. cbn [outs]. auto.
Qed.
Lemma ncompress_gen g most p T : 2 <= p -> tprime T = p -> 0 <= most -> int32 (tn T) -> int32 (tm T) -> 0 <= tnz T < 2 ^ 60 -> slots T -> (0 <= tn T -> 0 <= tm T -> twf T) -> (tnz T = 0 \/ 1 <= tn T /\ 1 <= tm T) ->
  outs (ncompress g most T) (fun A => 0 <= tn T /\ 0 <= tm T /\ twf T /\ Mat.compress g T = Ok A) (fun e => refused e \/ e = OOB /\ tn T = -1 /\ tnz T = 0).
Proof.
  intros Hp Ep. apply ncompress_all. intros W. pose proof (compress_any g T W ltac:(lia)) as C. destruct (Mat.compress g T) as [A|]; [eauto|destruct C].
Qed.

(** ** Any bytes *)
Section ANY.
Variables (gs : Z -> Z) (g : Z -> Z -> Z -> Z) (most : Z) (f : list Z).
Hypothesis (HB : bytes f) (HL : len f < 2 ^ 60) (H0 : ~ In 0 f) (HA : forall nnz, announces f nnz -> - 2 ^ 61 <= nnz < 2 ^ 61) (Hmost : 0 <= most < 2 ^ 61).
Lemma hload_dims g0 p hash : 2 <= p -> (forall md, hash = Some md -> len md = 32) ->
  outs (hload gs g0 most f p hash) (fun '(T, h) => (exists n m es, like_matrix f n m es /\ dims p n m es T) /\ forall md, hash = Some md -> h = Some (sha256 f)) refused.
Proof.
  intros Hp Hm. destruct (hload_same gs g0 most f p hash H0 HA Hmost) as [-> | ->]; [left; reflexivity|]. pose proof (load_safe gs g0 f p hash HB ltac:(lia) Hm) as S.
  assert (K : outs (triplet_load gs g0 f p hash) (fun '(T, h) => forall md, hash = Some md -> h = Some (sha256 f)) (fun _ => True)).
  { destruct hash as [md|]; [|destruct (triplet_load _ _ _ _ _) as [[T h]|]; cbn [outs]; [discriminate|exact I]]. eapply outs_mono; [apply (load_hash gs g0 f p md HB); [lia|auto]|]. intros [T h] -> md' _.
    rewrite <- (app_nil_r f) at 1. now rewrite before_nul_app, app_nil_r. }
  destruct (triplet_load gs g0 f p hash) as [[T h]|e] eqn:E; [|exact S]. cbn [outs] in *. split; [|exact K]. destruct (load_dims gs g0 p f hash T h Hp H0 E) as (n & m & es & [(c & L & [->| ->])|L] & Sp); [lia| |]; exists n, m, es; (split; [|exact Sp]); [now left|now right].
Qed.
Lemma nload_matrix_holds (flip : Z -> Z -> bool) p hash : ok_modulus p -> quiet p f -> (forall md, hash = Some md -> len md = 32) ->
  outs (nload_matrix gs g most flip f p hash) (fun '(A, h) => (forall md, hash = Some md -> h = Some (sha256 f)) /\ exists n m es, like_matrix f n m es /\ 0 <= rows p n es < 2 ^ 31 /\ 0 <= cols p m es < 2 ^ 31 /\
      if flip (rows p n es) (cols p m es) then holds p (cols p m es) (rows p n es) (swapped es) A else holds p (rows p n es) (cols p m es) es A)
    (fun e => refused e \/ e = OOB /\ minus_one flip f p).
Proof.
  intros Mp Q Hm. assert (Hp : 2 <= p) by (unfold ok_modulus in Mp; lia). unfold nload_matrix. apply outs_bind. eapply outs_imp; [apply (hload_dims (g 0) p hash Hp Hm)| |intros e He; left; exact He]. intros [T h] ((n & m & es & HL' & HS & E1 & E2) & Eh).
  pose proof (Q n m es HL') as NC. destruct (like_len _ _ _ _ HL') as (Le & In & Im). unfold int32 in *. destruct (spans_facts p n m es T Hp HS) as (SL & P & Lz & K & W). pose proof HS as (LD & Z1 & Z2 & Z3 & Z4). pose proof SL as (S1 & S2 & S3).
  assert (R : 0 <= tn T -> 0 <= tm T -> reloaded (rows p n es) (cols p m es) p (map from0 es) T).
  { intros N0 M0. rewrite <- (redim_eq T) by auto. destruct LD as (L1 & L2 & L3 & L4 & _). split; [exact L1|]. rewrite (redim_eq T) in * by auto. auto. }
  rewrite E1, E2 in *. set (N := rows p n es) in *. set (M := cols p m es) in *. apply outs_bind. destruct (flip N M) eqn:Fl.
  - eapply outs_imp; [apply (ncompress_gen (g 1) most p (triplet_transpose T) Hp P)| |].
    all: cbn [triplet_transpose tn tm tnz]; rewrite ?E1, ?E2; unfold int32; try lia.
    + unfold slots, triplet_transpose. cbn [tnz ti tj tx]. rewrite S2. split; [lia|]. split; [lia|]. exact S3.
    + intros N0 M0. apply (reloaded_transpose _ _ _ _ _ (R M0 N0)).
    + intros A (M0 & N0 & _ & EA). cbn [outs]. split; [exact Eh|]. exists n, m, es. split; [exact HL'|]. fold N M. split; [lia|]. split; [lia|]. rewrite Fl.
      pose proof (compress_holds (g 1) _ M N (swapped es) p Mp (reloaded_transpose _ _ _ _ _ (R N0 M0)) (no_cancel_calm _ _ _ (no_cancel_swapped _ _ NC))) as C. rewrite EA in C. exact C.
    + intros e [He|(-> & Em & Ez)]; [left; exact He|]. right. split; [reflexivity|]. exists n, m, es. split; [exact HL'|]. split; [auto|]. unfold N, M in Fl, Em. rewrite (rows_nil p n es), (cols_nil p m es) in Fl by auto. rewrite (cols_nil p m es) in Em by auto. now rewrite Fl.
  - eapply outs_imp; [apply (ncompress_gen (g 1) most p T Hp P)| |].
    all: rewrite ?E1, ?E2; unfold int32; try lia; auto.
    + intros A (N0 & M0 & _ & EA). cbn [outs]. split; [exact Eh|]. exists n, m, es. split; [exact HL'|]. fold N M. split; [lia|]. split; [lia|]. rewrite Fl.
      pose proof (compress_holds (g 1) T N M es p Mp (R N0 M0) (no_cancel_calm _ _ _ NC)) as C. rewrite EA in C. exact C.
    + intros e [He|(-> & En & Ez)]; [left; exact He|]. right. split; [reflexivity|]. exists n, m, es. split; [exact HL'|]. split; [auto|]. unfold N, M in Fl, En. rewrite (rows_nil p n es), (cols_nil p m es) in Fl by auto. rewrite (rows_nil p n es) in En by auto. now rewrite Fl.
Qed.
(** ** The tools *)
Definition stops (flip : Z -> Z -> bool) (o : opts) (p : Z) (e : err) : Prop := refused e \/ e = OOB /\ minus_one flip f p \/ e = OutOfFuel /\ low_rank o = true.
Lemma failures_stops flip o p n m e : failures o n m e -> stops flip o p e.
Proof. intros [(L & [->| ->])|(-> & _)]; [right; right; auto|left; right; reflexivity|left; right; reflexivity]. Qed.
Theorem rank_any X fuel o gc fc (tr : bool) p : ok_modulus p -> prime p -> quiet p f -> (forall m, 0 <= m -> params_ok (X m) p m /\ good_opts (X m) o) ->
  outs (ntool_rank gs g most X fuel o gc fc tr false f p) (fun '(r, c) => c = None /\ exists n m es, like_matrix f n m es /\ 0 <= rows p n es /\ 0 <= cols p m es /\
      (forall r', frank p (rows p n es) (cols p m es) (fmat es) r' -> r <= r') /\ ((forall m, 0 <= m -> full (X m) o) -> frank p (rows p n es) (cols p m es) (fmat es) r))
    (stops (turned tr) o p).
Proof.
  intros Mp Pp Q HX. unfold ntool_rank. apply outs_bind. eapply outs_imp; [apply (nload_matrix_holds (fun n m => tr && (n <? m)) p _ Mp Q); intros md E; injection E as <-; apply len_malloc; lia| |intros e [He|He]; [now left|right; left; exact He]].
  intros [A h] (_ & n & m & es & L & HN & HM & H). set (N := rows p n es) in *. set (M := cols p m es) in *. fold (turned tr N M) in H. destruct (holds_flip p N M es A _ H) as (es1 & H1 & E1).
  pose proof H1 as (_ & _ & Ec & _). rewrite Ec. destruct (HX (if turned tr N M then N else M)) as [X1 X2]; [destruct (turned tr N M); lia|].
  eapply outs_imp; [apply (rank_after _ fuel o N M (turned tr N M) es es1 p A Mp Pp ltac:(lia) ltac:(lia) H1 E1 X1 X2)| |intros e He; eapply failures_stops; exact He].
  intros [r c] (C1 & C2 & C3 & C4). split; [exact C1|]. exists n, m, es. split; [exact L|]. fold N M. split; [lia|]. split; [lia|]. split; [exact C3|]. intros HF. apply C4, HF. destruct (turned tr N M); lia.
Qed.
Theorem certificate_any X fuel o gc fc (tr : bool) p : ok_modulus p -> prime p -> quiet p f -> (forall m, 0 <= m -> params_ok (X m) p m /\ good_opts (X m) (with_L o) /\ finishes (X m) o) ->
  outs (ntool_rank gs g most X fuel o gc fc tr true f p) (fun '(r, c) => exists n m es A proof, like_matrix f n m es /\ 0 <= rows p n es /\ 0 <= cols p m es /\ frank p (rows p n es) (cols p m es) (fmat es) r /\
      c = Some (proof, true) /\ c_r proof = r /\ c_hash proof = sha256 f /\
      (if turned tr (rows p n es) (cols p m es) then holds p (cols p m es) (rows p n es) (swapped es) A else holds p (rows p n es) (cols p m es) es A) /\
      forall gs', rank_verify gs' fc A (sha256 f) proof = Ok true)
    (fun e => refused e \/ e = OOB /\ minus_one (turned tr) f p \/ e = OutOfFuel).
Proof.
  intros Mp Pp Q HX. unfold ntool_rank. apply outs_bind. eapply outs_imp; [apply (nload_matrix_holds (fun n m => tr && (n <? m)) p _ Mp Q); intros md E; injection E as <-; apply len_malloc; lia| |intros e [He|He]; [now left|right; left; exact He]].
  intros [A h] (Eh & n & m & es & L & HN & HM & H). set (N := rows p n es) in *. set (M := cols p m es) in *. fold (turned tr N M) in H. destruct (holds_flip p N M es A _ H) as (es1 & H1 & E1).
  pose proof H1 as (_ & _ & Ec & _). rewrite Ec. destruct (HX (if turned tr N M then N else M)) as (X1 & X2 & X3); [destruct (turned tr N M); lia|].
  eapply outs_imp; [apply (rank_cert_after gc _ fuel o fc N M (turned tr N M) es p A (sha256 f) h Mp Pp); try lia; auto; [apply (Eh _ eq_refl)|apply len_sha256|apply bytes_sha256]| |].
  - intros [r c] (R & proof & C1 & C2 & C3 & C4). exists n, m, es, A, proof. fold N M. split; [exact L|]. split; [lia|]. split; [lia|]. auto 10.
  - intros e [->| ->]; [right; right; reflexivity|left; right; reflexivity].
Qed.
Theorem kernel_any X fuel o ch scr (left : bool) p : ok_modulus p -> prime p -> quiet p f -> (forall m, 0 <= m -> params_ok (X m) p m /\ good_opts (X m) o /\ full (X m) o) -> (forall k t, 0 <= k -> scr_ok k (scr k t)) ->
  outs (ntool_kernel gs g most X fuel o ch scr left f p) (fun f' => exists n m es, like_matrix f n m es /\ 0 <= rows p n es /\ 0 <= cols p m es /\
      let N := if left then cols p m es else rows p n es in let M := if left then rows p n es else cols p m es in
      exists k es', written f' k M es' /\ (3 <= p -> clean p es') /\ frank p N M (flipped left (fmat es)) (M - k) /\ nullbasis p N M (flipped left (fmat es)) k (fmat es'))
    (fun e => refused e \/ e = OOB /\ minus_one (fun _ _ => left) f p).
Proof.
  intros Mp Pp Q HX Hs. unfold ntool_kernel. apply outs_bind. eapply outs_imp; [apply (nload_matrix_holds (fun _ _ => left) p None Mp Q); discriminate| |intros e He; exact He].
  intros [A h] (_ & n & m & es & L & HN & HM & H). set (N := rows p n es) in *. set (M := cols p m es) in *. destruct (holds_flip p N M es A _ H) as (es1 & H1 & E1).
  pose proof H1 as (_ & _ & Ec & _). rewrite Ec. destruct (HX (if left then N else M)) as (X1 & X2 & X3); [destruct left; lia|].
  eapply outs_imp; [apply (kernel_after g (X (if left then N else M)) fuel o ch scr (if left then M else N) (if left then N else M) es1 (flipped left (fmat es)) p A Mp Pp); [| |exact H1|exact E1|exact X1|exact X2|exact X3|exact Hs]; destruct left; lia| |intros e (-> & _); left; right; reflexivity].
  intros f' H'. exists n, m, es. fold N M. split; [exact L|]. split; [lia|]. split; [lia|]. exact H'.
Qed.
Theorem echelonize_any X fuel o ch scr (use_rref : bool) p : ok_modulus p -> prime p -> quiet p f -> (forall m, 0 <= m -> params_ok (X m) p m /\ good_opts (X m) o) -> (forall k t, 0 <= k -> scr_ok k (scr k t)) ->
  (use_rref = true -> forall n m es, like_matrix f n m es -> forall r, 0 <= r <= Z.min (rows p n es) (cols p m es) -> r * (cols p m es - r + 1) < 2 ^ 31) ->
  outs (ntool_echelonize gs g most X fuel o ch scr use_rref f p) (fun f' => exists n m es, like_matrix f n m es /\ 0 <= rows p n es /\ 0 <= cols p m es /\
      let N := rows p n es in let M := cols p m es in
      exists r es', written f' r M es' /\ (use_rref = true -> clean p es') /\
        (exists piv, if use_rref then reduced_rows p M r (fmat es') piv else echelon_rows p M r (fmat es') piv) /\
        (forall k, 0 <= k < r -> rowsp p N M (fmat es) (fmat es' k)) /\
        ((forall m, 0 <= m -> full (X m) o) -> frank p N M (fmat es) r /\ forall i, 0 <= i < N -> rowsp p r M (fmat es') (fmat es i)))
    (stops (fun _ _ => false) o p).
Proof.
  intros Mp Pp Q HX Hs Hbig. unfold ntool_echelonize. apply outs_bind. eapply outs_imp; [apply (nload_matrix_holds (fun _ _ => false) p None Mp Q); discriminate| |intros e [He|He]; [now left|right; left; exact He]].
  intros [A h] (_ & n & m & es & L & HN & HM & H). cbv beta iota in H. specialize (fun E => Hbig E n m es L). set (N := rows p n es) in *. set (M := cols p m es) in *.
  pose proof H as (_ & _ & Ec & _). rewrite Ec. destruct (HX M) as (X1 & X2); [lia|].
  eapply outs_imp; [| |intros e He; eapply failures_stops; exact He].
  - pose proof (echelonize_after g (X M) fuel o ch scr use_rref N M es p A Mp Pp HN HM H X1 X2 Hs Hbig) as EA. rewrite Ec in EA. exact EA.
  - intros f' (r & es' & W1 & W2 & W3 & W4 & W5). exists n, m, es. fold N M. split; [exact L|]. split; [lia|]. split; [lia|]. exists r, es'. do 4 (split; [assumption|]). intros HF. apply W5, HF. lia.
Qed.
End ANY.
