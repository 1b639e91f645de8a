(** Concrete runs of spasm_echelonize, used in examples and counter-examples. *)
From Verif Require Import Base BaseFacts Spec SpecFacts SpecElim SpecRank Zp Mat MatFacts Reach Pivots Extract Par Schur Gplu Dense DenseProofs3 DenseProofs4 Echelonize EchProofs EchProofs2 EchFinal Rank DenseRef Checks.
From Coq Require Import ZifyBool.

(* the parameters of a run: prime, number of columns, threads one after the other or not (ch), random
   coefficients (rc), random rows (ri, rnd), sparsity threshold in percents (T), whether the remaining rows
   are taken for tall and skinny.  The usual ratios are used: 0.9, 0.5 (low_rank_ratio). *)
Definition run (p m ch : Z) (rc : Z -> Z -> Z) (ri rnd : Z -> Z) (T : Z) (tall : bool) : params :=
  let scr := (fill m 5, fill m 6, fill m 0, fill m 7) in
  Params
    (Env (fun s k => 1000 * s + k) (fun _ _ => scr) (fun _ k => ch * k) rc (fun _ _ i => ri i) (ref_rref p) (ref_plu p) 4
      (fun rr Sn => 2 * rr <? Sn) (fun rr Sn => 10 * rr <? 9 * Sn) (fun _ _ => 1) 2)
    (fun r s k => r + s + k) (fun r k => r + ch * k) (fun r t => (fill m 0, fill m 8)) (fun _ _ => false) (fun r i => rnd r) (fun _ _ => scr)
    (fun nz n m => T * n * m <? 100 * nz) (fun c d => T * d <? c) (fun _ _ _ _ => 1) (fun r k => ch * k) (fun _ _ => scr) (fun _ _ => tall).
Lemma run_ok p m ch rc ri rnd T tall : ok_modulus p -> Znumtheory.prime p -> 0 <= m -> params_ok (run p m ch rc ri rnd T tall) p m.
Proof.
  intros Hmod Hp Hm. assert (Hs : scr_ok m (fill m 5, fill m 6, fill m 0, fill m 7)).
  { unfold scr_ok. rewrite !len_fill. repeat split; try lia. intros; now apply get_fill. }
  split; [now apply ref_ffpack|]. cbn [x_E run e_Sn e_scr x_pscr x_escr x_sscr x_size fst snd]. split; [lia|]. split; [auto|]. split; [|split; [auto|split; [auto|intros; lia]]].
  intros r t. rewrite !len_fill. repeat split; try lia. intros c. apply get_fill0.
Qed.
(* the conditions on the matrix *)
Definition matrixb (A : csr) : bool := wfb A && reducedb A && nodup_rowsb A && allz 0 (nnz A) (fun px => negb (val A px =? 0)).
Lemma matrixb_ok A : matrixb A = true -> wf A /\ reduced A /\ nodup_rows A /\ no_zero A.
Proof.
  unfold matrixb. intros H. apply andb_prop in H; destruct H as [H H0]. apply andb_prop in H; destruct H as [H H1]. apply andb_prop in H; destruct H as [H H2].
  split; [now apply wfb_ok|]. split; [now apply reducedb_ok|]. split; [now apply nodup_rowsb_ok|].
  intros px Hpx. pose proof (allz_spec _ _ _ H0 px Hpx) as G. cbv beta in G. lia.
Qed.
(* the rank of a matrix, by a run that is known to be right *)
Lemma rank_by A r : matrixb A = true -> cprime A = 7 ->
  match echelonize (run 7 (cm A) 0 (fun _ _ => 1) (fun _ => 0) (fun _ => 0) 0 false) 0 (Opts true false false true true false 0 1 0) A with
  | Ok f => cn (lu_U f) = r | Fail _ => False end -> rank_is 7 A r.
Proof.
  intros HA HpA H. destruct (matrixb_ok A HA) as (H1 & H2 & H3 & H4).
  assert (Hmod : ok_modulus 7) by (unfold ok_modulus; lia). assert (Hp : Znumtheory.prime 7) by now apply primeb_ok.
  pose proof (echelonize_rank (run 7 (cm A) 0 (fun _ _ => 1) (fun _ => 0) (fun _ => 0) 0 false) 0 (Opts true false false true true false 0 1 0) A 7 Hmod Hp H1 HpA H2 H4 H3
    (run_ok 7 (cm A) 0 _ _ _ 0 false Hmod Hp (wf_m A H1)) ltac:(reflexivity) ltac:(right; right; left; reflexivity)) as G.
  destruct (echelonize _ _ _ _) as [f|]; [|contradiction]. cbn [outs] in G. destruct G as (pr & n & _ & _ & _ & G). subst r.
  apply G; [reflexivity|right; split; [reflexivity|left; reflexivity]].
Qed.

(* the low-rank mode on a 1x1 matrix, when the first coefficient drawn is zero *)
Definition ex_one : csr := Csr 1 1 [0; 1] [0] (Some [1]) 7.
Definition ex_unlucky : params := run 7 1 0 (fun k _ => if k =? 0 then 0 else 1) (fun _ => 0) (fun _ => 0) 50 true.
Lemma lowrank_diverges fuel : echelonize_dense_lowrank (x_E ex_unlucky) fuel 1 0 ex_one [0] 1 (empty_fact (fun _ _ => 0) false ex_one) = Fail OutOfFuel.
Proof.
  unfold echelonize_dense_lowrank. cbn [assert_ bind Z.ltb Z.compare].
  match goal with |- loop _ ?b ?s = _ => set (body := b); set (s0 := s) end.
  destruct fuel as [|fuel]; [reflexivity|]. cbn [loop].
  pose (f := Fact (Csr 0 1 [0; 0] [] (Some []) 7) [-1] None [-1]).
  assert (E0 : body s0 = Ok (inl (1, 1, 1, 0, f, [0], [0], 1))) by (vm_compute; reflexivity).
  assert (H : forall r, body (1, 1, 1, 0, f, [0], [0], r) = Ok (inl (1, 1, 1, 0, f, [0], [0], r + 1))).
  { intros r. unfold body. generalize (r + 1). generalize (2 * r). intros a b. generalize (a + 1). intros c. vm_compute. reflexivity. }
  rewrite E0. cbn [bind]. clear E0 s0. generalize 1 at 4. induction fuel as [|fuel IH]; intros r; [reflexivity|].
  cbn [loop]. rewrite H. cbn [bind]. apply IH.
Qed.
