(** Proofs about Wide.v. *)
From Verif Require Import Base BaseFacts Spec SpecFacts Zp ZpFacts Mat MatFacts RowList CompressProofs TransposeProofs Rref RrefProofs KernelProofs DenseProofs4 CertProofs Scc Wide.
From Coq Require Import ZifyBool.

(** ** spasm_compress *)
Lemma compress32_eq g T : tnz T < 2 ^ 31 -> compress32 g T = compress g T.
Proof.
  intros H. unfold compress32, compress. f_equal. unfold compress_raw32, compress_raw, for_i32. cbv zeta. now replace (tnz T <? 2 ^ 31) with true by lia.
Qed.
Lemma compress32_overflow g T : twf T -> 2 ^ 31 <= tnz T -> compress32 g T = Fail Overflow.
Proof.
  intros (H1 & H2 & H3 & H4 & H5 & H6) Hz. enough (E : compress_raw32 g T = Fail Overflow) by (unfold compress32; now rewrite E).
  unfold compress_raw32. cbv zeta.
  assert (S1 : sat (for_ 0 (tn T) (fun i w => aset w i 0) (malloc (g 11) (tn T))) (fun w => len w = tn T)).
  { apply (for_spec (fun _ w => len w = tn T)); [lia|rewrite len_malloc; lia| |auto]. intros i w Hi Hw. apply sat_aset; [lia|]. now rewrite len_upd. }
  destruct (for_ 0 (tn T) (fun i w => aset w i 0) _) as [w|]; [|contradiction]. cbn [sat bind] in *.
  unfold for_i32. replace (tnz T <? 2 ^ 31) with false by lia.
  match goal with |- bind (bind ?r _) _ = _ => assert (S2 : sat r (fun w => len w = tn T)) end.
  { apply (for_spec (fun _ w => len w = tn T)); [lia|auto| |auto]. intros i w' Hi Hw. destruct (H6 i ltac:(lia)) as [R1 R2].
    apply sat_bind, sat_aget; [lia|]. apply sat_bind. replace (get (ti T) i <? tn T) with true by lia. cbn [assert_ sat].
    apply sat_bind, sat_aget; [lia|]. apply sat_aset; [lia|]. now rewrite len_upd. }
  match goal with |- bind (bind ?r _) _ = _ => destruct r; [reflexivity|contradiction] end.
Qed.

(** ** spasm_kernel_from_rref *)
Lemma to_i32_neg x : 2 ^ 31 <= x < 2 ^ 32 -> to_i32 x < 0.
Proof. intros H. unfold to_i32. rewrite <- (Z.mod_unique (x + 2 ^ 31) (2 ^ 32) 1 (x - 2 ^ 31)); lia. Qed.
Lemma kernel_from_rref_wide g R qinv i : wf R -> cn R <= cm R -> 0 <= i < cn R -> 2 ^ 31 <= rbeg R i < 2 ^ 32 -> kernel_from_rref g R qinv = Fail OOB.
Proof.
  intros HR Hnm Hi Hw. unfold kernel_from_rref. cbv zeta. replace (cn R <=? cm R) with true by lia. cbn [assert_ bind].
  pose proof (transpose_ok R HR g true) as HT. destruct (transpose g R true) as [Rt|]; [|contradiction]. cbn [bind sat] in *. clear HT.
  pose proof (wf_len R HR) as Hl. pose proof (wf_nnz R HR) as Hn.
  match goal with |- bind ?r _ = _ => assert (HO : outs r (fun _ => False) (fun e => e = OOB)) end.
  { apply (outs_for (fun k p => len p = cn R /\ k <= i)); [lia|rewrite len_malloc; lia| |intros p [_ H]; lia].
    intros k p Hk [Lp Hki]. pose proof (wf_row R HR k Hk) as Hr.
    apply outs_bind, sat_outs, sat_aget; [lia|]. fold (rbeg R k).
    destruct (Z.eq_dec k i) as [->|].
    - assert (E : to_i32 (rbeg R i) < 0) by (apply to_i32_neg; lia).
      unfold aget, inb. replace (andb _ _) with false by lia. reflexivity.
    - assert (Hm : rbeg R k <= rbeg R i) by (apply (wf_mono R HR); lia).
      pose proof (wf_row R HR i Hi). 
      destruct (Z_lt_le_dec (rbeg R k) (2 ^ 31)) as [Hs|Hs].
      + rewrite to_i32_id by lia. apply outs_bind, sat_outs, sat_aget; [lia|]. apply sat_outs, sat_aset; [lia|]. rewrite len_upd. lia.
      + assert (E : to_i32 (rbeg R k) < 0) by (apply to_i32_neg; lia).
        unfold aget, inb. replace (andb _ _) with false by lia. reflexivity. }
  match goal with |- bind ?r _ = _ => destruct r as [p|e]; cbn [outs] in HO; [contradiction|subst e; reflexivity] end.
Qed.

(* a reduced row echelon form with three rows and 2 * w + 3 entries: the first two rows have w entries besides the pivot *)
Definition wide_R (w : Z) : csr :=
  Csr 3 (w + 3) [0; w + 1; 2 * w + 2; 2 * w + 3] ((0 :: zseq 3 (w + 3)) ++ (1 :: zseq 3 (w + 3)) ++ [2]) (Some (fill (2 * w + 3) 1)) 7.
Definition wide_q (w : Z) : list Z := 0 :: 1 :: 2 :: fill w (-1).
Section wide_R.
Context (w : Z) (Hw : 1 <= w).
Lemma wide_lcj : len (cj (wide_R w)) = 2 * w + 3.
Proof. cbn [cj wide_R]. rewrite !len_app, !len_cons, !len_zseq. change (len (@nil Z)) with 0. lia. Qed.
Lemma wide_cj px : 0 <= px < 2 * w + 3 -> get (cj (wide_R w)) px =
  if px =? 0 then 0 else if px <? w + 1 then px + 2 else if px =? w + 1 then 1 else if px <? 2 * w + 2 then px - w + 1 else 2.
Proof.
  intros H. cbn [cj wide_R]. assert (G : forall k, 0 <= k < w -> get (zseq 3 (w + 3)) k = 3 + k) by (intros k Hk; unfold get; rewrite getd_zseq; lia).
  destruct (Z_lt_le_dec px (w + 1)).
  - rewrite get_app_l by (rewrite len_cons, len_zseq; lia). rewrite get_cons. destruct (Z.eqb_spec px 0); [lia|].
    replace (px <? 0) with false by lia. replace (px <? w + 1) with true by lia. rewrite G; lia.
  - rewrite get_app_r by (rewrite len_cons, len_zseq; lia). replace (px =? 0) with false by lia. replace (px <? w + 1) with false by lia.
    rewrite len_cons, len_zseq. replace (px - (1 + Z.max 0 (w + 3 - 3))) with (px - w - 1) by lia. destruct (Z_lt_le_dec px (2 * w + 2)).
    + rewrite get_app_l by (rewrite len_cons, len_zseq; lia). rewrite get_cons. destruct (Z.eqb_spec px (w + 1)); [now replace (px - w - 1 =? 0) with true by lia|].
      replace (px - w - 1 =? 0) with false by lia. replace (px - w - 1 <? 0) with false by lia. replace (px <? 2 * w + 2) with true by lia. rewrite G; lia.
    + rewrite get_app_r by (rewrite len_cons, len_zseq; lia). rewrite len_cons, len_zseq. replace (px =? w + 1) with false by lia. replace (px <? 2 * w + 2) with false by lia.
      replace (px - w - 1 - _) with 0 by lia. reflexivity.
Qed.
Lemma wide_rb : rbeg (wide_R w) 0 = 0 /\ rbeg (wide_R w) 1 = w + 1 /\ rbeg (wide_R w) 2 = 2 * w + 2 /\
  rend (wide_R w) 0 = w + 1 /\ rend (wide_R w) 1 = 2 * w + 2 /\ rend (wide_R w) 2 = 2 * w + 3.
Proof. repeat split. Qed.
Lemma wide_wf : wf (wide_R w).
Proof.
  destruct wide_rb as (B0 & B1 & B2 & E0 & E1 & E2).
  unfold wf. rewrite wide_lcj. unfold nnz. cbn [cn cm cp cx wide_R]. change (get [0; w + 1; 2 * w + 2; 2 * w + 3] 3) with (2 * w + 3).
  split; [lia|]. split; [lia|]. split; [cbn; lia|]. split; [reflexivity|]. split.
  { intros i Hi. assert (C : i = 0 \/ i = 1 \/ i = 2) by lia. destruct C as [-> | [-> | ->]]; rewrite ?B0, ?B1, ?B2, ?E0, ?E1, ?E2; lia. }
  split; [lia|]. split; [|rewrite len_fill; lia].
  intros px Hpx. rewrite wide_cj by lia. repeat match goal with |- context[if ?b then _ else _] => destruct b eqn:? end; lia.
Qed.
Lemma wide_getq j : 0 <= j < w + 3 -> get (wide_q w) j = if j <? 3 then j else -1.
Proof.
  intros H. unfold wide_q. rewrite !get_cons. repeat match goal with |- context[if ?b then _ else _] => destruct b eqn:? end; try lia. rewrite get_fill; lia.
Qed.
Lemma wide_form : rref_form 7 (wide_R w) (wide_q w).
Proof.
  destruct wide_rb as (B0 & B1 & B2 & E0 & E1 & E2).
  split.
  - unfold wide_q. rewrite !len_cons, len_fill. cbn [cm wide_R]. lia.
  - intros i Hi. cbn [cn wide_R] in Hi. assert (C : i = 0 \/ i = 1 \/ i = 2) by lia.
    destruct C as [-> | [-> | ->]]; rewrite ?B0, ?B1, ?B2, ?E0, ?E1, ?E2; (split; [lia|]); rewrite wide_cj by lia.
    all: repeat match goal with |- context[if ?b then _ else _] => destruct b eqn:? end; try lia; rewrite wide_getq by lia; reflexivity.
  - intros j Hj. cbn [cm cn wide_R] in *. rewrite wide_getq by lia. destruct (Z.ltb_spec j 3); [right|now left]. split; [lia|].
    assert (C : j = 0 \/ j = 1 \/ j = 2) by lia. destruct C as [-> | [-> | ->]]; rewrite ?B0, ?B1, ?B2; rewrite wide_cj by lia.
    all: repeat match goal with |- context[if ?b then _ else _] => destruct b eqn:? end; lia.
  - intros i Hi. cbn [cn wide_R] in Hi. assert (V : val (wide_R w) (rbeg (wide_R w) i) = 1).
    { unfold val. cbn [cx wide_R]. apply get_fill. assert (C : i = 0 \/ i = 1 \/ i = 2) by lia. destruct C as [-> | [-> | ->]]; rewrite ?B0, ?B1, ?B2; lia. }
    rewrite V. apply cong_refl.
  - intros i px Hi Hpx. cbn [cn wide_R] in Hi. assert (C : i = 0 \/ i = 1 \/ i = 2) by lia.
    destruct C as [-> | [-> | ->]]; rewrite ?B0, ?B1, ?B2, ?E0, ?E1, ?E2 in Hpx; rewrite wide_cj by lia.
    all: repeat match goal with |- context[if ?b then _ else _] => destruct b eqn:? end; try lia; rewrite wide_getq by lia.
    all: match goal with |- (if ?b then _ else _) = _ => replace b with false by lia end; reflexivity.
Qed.
End wide_R.
(* the form has two free columns per row and its dimensions fit in 31 bits *)
Lemma kernel_wide_witness : exists R qinv, wf R /\ rref_form 7 R qinv /\ cn R = 3 /\ cm R = 2 ^ 30 + 3 /\ nnz R = 2 ^ 31 + 3 /\
  forall g, kernel_from_rref g R qinv = Fail OOB.
Proof.
  exists (wide_R (2 ^ 30)), (wide_q (2 ^ 30)). pose proof (wide_wf (2 ^ 30) ltac:(lia)) as W.
  split; [exact W|]. split; [apply wide_form; lia|]. split; [reflexivity|]. split; [reflexivity|]. split; [reflexivity|].
  intros g. apply (kernel_from_rref_wide g _ _ 2 W); [cbn [cn cm wide_R]; lia|cbn [cn wide_R]; lia|]. destruct (wide_rb (2 ^ 30)) as (_ & _ & -> & _). lia.
Qed.

(* the least number of triplets that overflows, in a matrix with one entry *)
Definition wide_T : triplet := Triplet (2 ^ 31) 1 1 (fill (2 ^ 31) 0) (fill (2 ^ 31) 0) None 7.
Lemma wide_T_wf : twf wide_T.
Proof.
  unfold twf, wide_T. cbn [tn tm tnz ti tj tx]. rewrite !len_fill. split; [lia|]. split; [lia|]. split; [lia|]. split; [lia|]. split; [exact I|].
  intros k Hk. rewrite !get_fill by lia. lia.
Qed.

(** ** spasm_strongly_connected_components *)
(* r' does what r does when r succeeds *)
Definition le_res {T} (r r' : res T) : Prop := forall a, r = Ok a -> r' = Ok a.
Lemma le_refl {T} (r : res T) : le_res r r.
Proof. intros a H. exact H. Qed.
Lemma le_bind {T T'} (r r' : res T) (k k' : T -> res T') : le_res r r' -> (forall a, le_res (k a) (k' a)) -> le_res (bind r k) (bind r' k').
Proof. intros H Hk a. destruct r as [b|]; [|discriminate]. rewrite (H b eq_refl). apply Hk. Qed.
Lemma le_for {S} lo hi (b b' : Z -> S -> res S) s : (forall i s, le_res (b i s) (b' i s)) -> le_res (for_ lo hi b s) (for_ lo hi b' s).
Proof.
  intros H. unfold for_. generalize (Z.to_nat (hi - lo)). intros k. revert lo s. induction k as [|k IH]; intros lo s; cbn [for_nat]; [apply le_refl|].
  apply le_bind; auto.
Qed.
Lemma le_forb {S R} lo hi (b b' : Z -> S -> res (S + R)) s : (forall i s, le_res (b i s) (b' i s)) -> le_res (forb lo hi b s) (forb lo hi b' s).
Proof.
  intros H. unfold forb. generalize (Z.to_nat (hi - lo)). intros k. revert lo s. induction k as [|k IH]; intros lo s; cbn [forb_nat]; [apply le_refl|].
  apply le_bind; auto. intros [s'|r]; [apply IH|apply le_refl].
Qed.
Lemma le_loop {S R} fuel (b b' : S -> res (S + R)) s : (forall s, le_res (b s) (b' s)) -> le_res (loop fuel b s) (loop fuel b' s).
Proof.
  intros H. revert s. induction fuel as [|fuel IH]; intros s; cbn [loop]; [apply le_refl|]. apply le_bind; auto. intros [s'|r]; [apply IH|apply le_refl].
Qed.
Lemma le_aget l i i' : 0 <= i < len l -> i' = i -> le_res (aget l i) (aget l i').
Proof. intros _ ->. apply le_refl. Qed.
Ltac le_tac := repeat first
  [ apply le_refl
  | apply le_bind; [|let x := fresh in intros x; try (destruct x as [[? ?] ?]); cbv beta iota]
  | apply le_for; let i := fresh in let s := fresh in intros i s
  | apply le_forb; let i := fresh in let s := fresh in intros i s
  | apply le_loop; let s := fresh in intros s
  | match goal with |- le_res (if ?b then _ else _) _ => destruct b
                  | |- le_res (match ?o with inl _ => _ | inr _ => _ end) _ => destruct o end ].
Section SCC.
Context (g : Z -> Z -> Z) (A : csr) (HA : len (cj A) <= 2 ^ 31).
Lemma le_entry i : le_res (aget (cj A) i) (aget (cj A) (to_i32 i)).
Proof.
  intros a H. assert (0 <= i < len (cj A)). { unfold aget, inb in H. destruct (andb _ _) eqn:E in H; [lia|discriminate]. }
  rewrite to_i32_id by lia. exact H.
Qed.
Lemma le_scan s : le_res (scc_scan A s) (scc_scan32 A s).
Proof. unfold scc_scan, scc_scan32. cbv zeta. apply le_bind; [apply le_refl|intros lo]. le_tac. apply le_entry. Qed.
Lemma le_dfs s : le_res (scc_dfs A s) (scc_dfs32 A s).
Proof. unfold scc_dfs, scc_dfs32. apply le_loop. intros s'. destruct (s_j s' <? 0); [apply le_refl|]. apply le_bind; [apply le_refl|intros s2]. apply le_bind; [apply le_scan|intros o]. apply le_refl. Qed.
Lemma scc32_ok P : strongly_connected_components g A = Ok P -> strongly_connected_components32 g A = Ok P.
Proof.
  revert P. match goal with |- forall P, ?r = Ok P -> ?r' = Ok P => change (le_res r r') end.
  unfold strongly_connected_components, strongly_connected_components32. cbv zeta.
  apply le_bind; [apply le_refl|intros _]. apply le_bind; [apply le_refl|intros [[mk prev] ps]]. apply le_bind; [apply le_refl|intros rr].
  apply le_bind; [|intros; apply le_refl]. apply le_for. intros i s. apply le_bind; [apply le_refl|intros m]. destruct (0 <=? m); [apply le_refl|].
  apply le_bind; [apply le_refl|intros stk]. apply le_dfs.
Qed.
End SCC.

(** ** spasm_strongly_connected_components beyond 2^31 entries *)
(* the first entry of row 0 leads to a row that begins at position 2^31 or later *)
Lemma scc32_wide g A k : wf A -> cm A = cn A -> 0 < cn A -> rbeg A 0 < rend A 0 -> get (cj A) 0 = k -> k <> 0 -> 2 ^ 31 <= rbeg A k < 2 ^ 32 -> rbeg A k < rend A k ->
  strongly_connected_components32 g A = Fail OOB.
Proof.
  intros W Hs Hn R0 Ek Hk Hw Rk. pose proof (wf_len A W) as Lp. pose proof (wf_nnz A W) as Lz. pose proof (wf_row A W 0 ltac:(lia)) as Hr0.
  assert (B0 : rbeg A 0 = 0) by (unfold wf in W; unfold rbeg; tauto). pose proof (wf_col A W 0 ltac:(lia)) as Ck. rewrite Ek in Ck. pose proof (wf_row A W k ltac:(lia)) as Hrk.
  unfold strongly_connected_components32. cbv zeta. replace (cn A =? cm A) with true by lia. cbn [assert_ bind].
  match goal with |- bind ?r _ = _ => assert (S1 : sat r (fun '(mk, prev, ps) => len mk = cn A /\ len prev = cn A /\ len ps = cn A /\ forall i, 0 <= i < cn A -> get mk i = -1 /\ get ps i = 0)) end.
  { apply (for_spec (fun i '(mk, prev, ps) => len mk = cn A /\ len prev = cn A /\ len ps = cn A /\ forall j, 0 <= j < i -> get mk j = -1 /\ get ps j = 0)); [lia|rewrite !len_malloc; do 3 (split; [lia|]); intros j Hj; lia| |].
    - intros i [[mk prev] ps] Hi (L1 & L2 & L3 & V). apply sat_bind, sat_aset; [lia|]. apply sat_bind, sat_aset; [lia|]. apply sat_bind, sat_aset; [lia|]. cbn [sat]. rewrite !len_upd. do 3 (split; [auto|]).
      intros j Hj. rewrite !get_upd. destruct (Z.eqb_spec i j) as [<-|]; [|cbn [andb]; apply V; lia]. unfold inb. replace ((0 <=? i) && (i <? len mk)) with true by lia. replace ((0 <=? i) && (i <? len ps)) with true by lia. auto.
    - intros [[mk prev] ps] H. exact H. }
  match type of S1 with sat ?r _ => destruct r as [[[mk prev] ps]|]; [|destruct S1] end. cbn [sat bind] in *. destruct S1 as (L1 & L2 & L3 & V).
  unfold aset at 1. cbn [dm_alloc dm_r]. unfold inb. rewrite len_malloc. replace ((0 <=? 0) && (0 <? Z.max 0 (cn A + 6))) with true by lia. cbn [bind].
  match goal with |- bind ?r _ = _ => assert (HO : outs r (fun _ => False) (fun e => e = OOB)) end.
  { match goal with |- outs (for_ _ _ _ ?s0) _ _ => apply (outs_for (fun i s => i = 0 /\ s = s0)); [lia|auto| |intros s [? _]; lia] end.
    intros i s Hi [-> ->]. cbn [s_mk s_stk s_ptop s_p s_rr s_n s_ps s_prev s_low s_idx]. apply outs_bind, sat_outs, sat_aget; [lia|]. destruct (V 0 ltac:(lia)) as [-> _]. cbn [Z.leb Z.compare].
    apply outs_bind, sat_outs, sat_aset; [rewrite len_malloc; lia|]. unfold scc_dfs32. replace (Z.to_nat (2 * cn A + 1)) with (Datatypes.S (Datatypes.S (Z.to_nat (2 * cn A - 1)))) by lia.
    cbn [loop s_j Z.ltb Z.compare]. apply outs_bind. unfold scc_mark at 1. cbn [s_mk s_j]. apply outs_bind, outs_bind, sat_outs, sat_aget; [lia|]. destruct (V 0 ltac:(lia)) as [-> _]. cbn [Z.ltb Z.compare s_low s_idx].
    apply outs_bind, sat_outs, sat_aset; [rewrite len_malloc; lia|]. apply outs_bind, sat_outs, sat_aset; [lia|]. cbn [outs s_ptop s_p s_rr s_n s_ps s_prev s_stk s_top s_mk].
    apply outs_bind. unfold scc_scan32 at 1. cbn [s_ptop s_p s_rr s_n s_ps s_prev s_stk s_top s_mk s_j s_low]. cbv zeta.
    apply outs_bind, sat_outs, sat_aget; [lia|]. apply outs_bind, sat_outs, sat_aget; [lia|]. apply outs_bind, sat_outs, sat_aget; [lia|]. destruct (V 0 ltac:(lia)) as [_ ->].
    fold (rbeg A 0). fold (rend A 0). rewrite B0. unfold forb. replace (Z.to_nat (rend A 0 - 0 - 0)) with (Datatypes.S (Z.to_nat (rend A 0 - 1))) by lia. cbn [forb_nat].
    apply outs_bind, outs_bind, sat_outs. rewrite to_i32_id by lia. apply sat_aget; [lia|]. cbn [Z.add]. rewrite Ek. apply outs_bind, sat_outs, sat_aget; [rewrite len_upd; lia|].
    rewrite get_upd. replace (0 =? k) with false by lia. cbn [andb]. destruct (V k ltac:(lia)) as [-> _]. cbn [Z.leb Z.compare].
    apply outs_bind, sat_outs, sat_aset; [lia|]. apply outs_bind, sat_outs, sat_aset; [rewrite len_upd, len_malloc; lia|]. apply outs_bind, sat_outs, sat_aset; [lia|]. cbn [outs bind].
    cbn [s_j]. replace (k <? 0) with false by lia. apply outs_bind. unfold scc_mark. cbn [s_mk s_j s_low s_idx]. apply outs_bind, outs_bind, sat_outs, sat_aget; [rewrite len_upd; lia|].
    rewrite get_upd. replace (0 =? k) with false by lia. cbn [andb]. destruct (V k ltac:(lia)) as [-> _]. cbn [Z.ltb Z.compare].
    apply outs_bind, sat_outs, sat_aset; [rewrite len_upd, len_malloc; lia|]. apply outs_bind, sat_outs, sat_aset; [rewrite len_upd; lia|]. cbn [outs].
    apply outs_bind. unfold scc_scan32. cbn [s_ptop s_p s_rr s_n s_ps s_prev s_stk s_top s_mk s_j s_low]. cbv zeta.
    apply outs_bind, sat_outs, sat_aget; [lia|]. apply outs_bind, sat_outs, sat_aget; [lia|]. apply outs_bind, sat_outs, sat_aget; [rewrite len_upd; lia|].
    rewrite get_upd. replace (0 =? k) with false by lia. cbn [andb]. destruct (V k ltac:(lia)) as [_ ->]. fold (rbeg A k). fold (rend A k).
    unfold forb. replace (Z.to_nat (rend A k - rbeg A k - 0)) with (Datatypes.S (Z.to_nat (rend A k - rbeg A k - 1))) by lia. cbn [forb_nat]. rewrite Z.add_0_r.
    pose proof (to_i32_neg (rbeg A k) Hw). unfold aget at 1, inb. replace (andb _ _) with false by lia. reflexivity. }
  match goal with |- bind ?r _ = _ => destruct r as [p|e]; cbn [outs] in HO; [contradiction|subst e; reflexivity] end.
Qed.
(* rows 0 and 3 have one entry, rows 1 and 2 are full, the others are empty *)
Definition wide_S (n : Z) : csr := Csr n n ([0; 1; n + 1; 2 * n + 1] ++ fill (n - 3) (2 * n + 2)) ((3 :: zseq 0 n) ++ zseq 0 n ++ [0]) None 7.
Section wide_S.
Context (n : Z) (Hn : 4 <= n).
Lemma wide_S_len : len (cj (wide_S n)) = 2 * n + 2.
Proof. cbn [cj wide_S]. rewrite !len_app, len_cons, !len_zseq. change (len [0]) with 1. lia. Qed.
Lemma wide_S_cj px : 0 <= px < 2 * n + 2 -> get (cj (wide_S n)) px = if px =? 0 then 3 else if px <? n + 1 then px - 1 else if px <? 2 * n + 1 then px - n - 1 else 0.
Proof.
  intros H. cbn [cj wide_S]. assert (G : forall k, 0 <= k < n -> get (zseq 0 n) k = k) by (intros k Hk; unfold get; rewrite getd_zseq; lia).
  destruct (Z_lt_le_dec px (n + 1)).
  - rewrite get_app_l by (rewrite len_cons, len_zseq; lia). rewrite get_cons. destruct (Z.eqb_spec px 0); [lia|]. replace (px <? 0) with false by lia. replace (px <? n + 1) with true by lia. rewrite G; lia.
  - rewrite get_app_r by (rewrite len_cons, len_zseq; lia). replace (px =? 0) with false by lia. replace (px <? n + 1) with false by lia. rewrite len_cons, len_zseq. destruct (Z_lt_le_dec px (2 * n + 1)).
    + rewrite get_app_l by (rewrite len_zseq; lia). replace (px <? 2 * n + 1) with true by lia. rewrite G; lia.
    + rewrite get_app_r by (rewrite len_zseq; lia). rewrite len_zseq. replace (px <? 2 * n + 1) with false by lia. replace (px - (1 + Z.max 0 (n - 0)) - Z.max 0 (n - 0)) with 0 by lia. reflexivity.
Qed.
Lemma wide_S_cp i : 0 <= i <= n -> get (cp (wide_S n)) i = if i =? 0 then 0 else if i =? 1 then 1 else if i =? 2 then n + 1 else if i =? 3 then 2 * n + 1 else 2 * n + 2.
Proof.
  intros Hi. cbn [cp wide_S]. destruct (Z_lt_le_dec i 4).
  - assert (C : i = 0 \/ i = 1 \/ i = 2 \/ i = 3) by lia. destruct C as [->|[->|[->| ->]]]; reflexivity.
  - rewrite get_app_r by (cbn; lia). change (len [0; 1; n + 1; 2 * n + 1]) with 4. rewrite get_fill by lia. repeat match goal with |- context[if ?b then _ else _] => destruct b eqn:? end; lia.
Qed.
Lemma wide_S_rows i : 0 <= i < n -> rbeg (wide_S n) i = (if i =? 0 then 0 else if i =? 1 then 1 else if i =? 2 then n + 1 else if i =? 3 then 2 * n + 1 else 2 * n + 2) /\
  rend (wide_S n) i = (if i =? 0 then 1 else if i =? 1 then n + 1 else if i =? 2 then 2 * n + 1 else 2 * n + 2).
Proof.
  intros Hi. unfold rbeg, rend. rewrite !wide_S_cp by lia. split; [reflexivity|]. repeat match goal with |- context[if ?b then _ else _] => destruct b eqn:? end; lia.
Qed.
Lemma wide_S_wf : wf (wide_S n).
Proof.
  unfold wf. rewrite wide_S_len. unfold nnz. change (cn (wide_S n)) with n. change (cm (wide_S n)) with n. rewrite (wide_S_cp n), (wide_S_cp 0) by lia.
  replace (n =? 0) with false by lia. replace (n =? 1) with false by lia. replace (n =? 2) with false by lia. replace (n =? 3) with false by lia. change (0 =? 0) with true. cbv iota.
  split; [lia|]. split; [lia|]. split; [cbn [cp wide_S]; rewrite len_app, len_fill; change (len [0; 1; n + 1; 2 * n + 1]) with 4; lia|]. split; [reflexivity|]. split.
  { intros i Hi. destruct (wide_S_rows i Hi) as [-> ->]. repeat match goal with |- context[if ?b then _ else _] => destruct b eqn:? end; lia. }
  split; [lia|]. split; [|exact I]. intros px Hpx. rewrite wide_S_cj by lia. repeat match goal with |- context[if ?b then _ else _] => destruct b eqn:? end; lia.
Qed.
Lemma wide_S_nodup : nodup_rows (wide_S n).
Proof.
  intros i px qx Hi Hp Hq E. change (cn (wide_S n)) with n in Hi. destruct (wide_S_rows i Hi) as [B1 B2]. rewrite B1, B2 in *.
  assert (0 <= px < 2 * n + 2 /\ 0 <= qx < 2 * n + 2) as [Rp Rq] by (repeat match goal with H : context[if ?b then _ else _] |- _ => destruct b eqn:? end; lia).
  rewrite !wide_S_cj in E by lia. repeat match goal with H : context[if ?b then _ else _] |- _ => destruct b eqn:? end; lia.
Qed.
End wide_S.
Lemma scc_wide_witness : exists A, wf A /\ nodup_rows A /\ cm A = cn A /\ cn A = 2 ^ 30 /\ nnz A = 2 ^ 31 + 2 /\ forall g, strongly_connected_components32 g A = Fail OOB.
Proof.
  exists (wide_S (2 ^ 30)). pose proof (wide_S_wf (2 ^ 30) ltac:(lia)) as W. split; [exact W|]. split; [apply wide_S_nodup; lia|]. split; [reflexivity|]. split; [reflexivity|].
  split; [unfold nnz; change (cn (wide_S (2 ^ 30))) with (2 ^ 30); rewrite wide_S_cp by lia; reflexivity|].
  intros g. assert (E : forall i, 0 <= i < 2 ^ 30 -> _) by exact (wide_S_rows (2 ^ 30) ltac:(lia)). destruct (E 0 ltac:(lia)) as [B0 E0]. destruct (E 3 ltac:(lia)) as [B3 E3]. cbn [Z.eqb Pos.eqb] in *.
  apply (scc32_wide g _ 3 W); rewrite ?B0, ?E0, ?B3, ?E3; try lia; try reflexivity.
Qed.
