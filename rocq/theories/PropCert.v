(** C41, C42, C44: rank certificates and verification of factorizations. *)
From Coq Require Import Znumtheory.
From Verif Require Import Base BaseFacts Spec SpecFacts Mat SpecRank Rank SpecSha ShaHash SpecPrng Prng PrngDraw PrngProofs DenseProofs4 SpecCert Cert CertProofs CertCreate CertSound CertFact
  Checks PropReach.

(** * C41 *)
(* the only failures are those of the generator (see C37): the rejection loop runs out of fuel, or the counter overflows *)
Theorem C41_complete p A f L hash fuel gs gs' : ok_modulus p -> prime p -> wf A -> cprime A = p -> cx A <> None -> factors p A f L ->
  len hash = 32 -> bytes hash ->
  outs (rank_create gs fuel A hash f) (fun c => rank_is p A (c_r c) /\ c_hash c = hash /\ c_prime c = p /\ rank_verify gs' fuel A hash c = Ok true) (fun e => e = OutOfFuel \/ e = Overflow).
Proof. exact (complete_rank p A f L hash fuel gs gs'). Qed.
Print Assumptions C41_complete.
Example C41_example : ok_modulus 7 /\ prime 7 /\ wf ex_S /\ factors 7 ex_S ex_lu ex_SL /\ len (zseq 0 32) = 32 /\ bytes (zseq 0 32) /\
  match rank_create (fun _ _ _ => 5) 20 ex_S (zseq 0 32) ex_lu with
  | Ok c => c = Cert 2 7 (zseq 0 32) [0; 2] [0; 2] [-1; 2] [2; 0] /\
      rank_verify (fun _ _ _ => 6) 20 ex_S (zseq 0 32) c = Ok true /\
      rank_verify (fun _ _ _ => 6) 20 ex_S (zseq 0 32) (Cert 2 7 (zseq 0 32) [0; 2] [0; 2] [-1; 2] [3; 0]) = Ok false
  | Fail _ => False end.
Proof.
  split; [unfold ok_modulus; lia|]. split; [now apply primeb_ok|]. split; [now apply wfb_ok|]. split; [apply factorsb_ok; [reflexivity|vm_compute; reflexivity]|].
  split; [reflexivity|]. split; [apply Forall_forall; intros x Hx; apply RowList.In_zseq in Hx; unfold byte; lia|]. vm_compute. auto.
Qed.

(** * C42 *)
(* Full statement: an accepted certificate claims a rank which is not larger than the rank of A.
   It is false: the rows, the columns, x and y can all be chosen after the challenge, which only depends on the hash of the matrix. *)
Definition ex_flat : csr := Csr 2 3 [0; 2; 2] [1; 2] (Some [1; -1]) 3.
Theorem C42_sound_refuted : exists gs fuel A hash c, ok_modulus (cprime A) /\ prime (cprime A) /\ wf A /\ reduced A /\ rank_is (cprime A) A 1 /\
  len hash = 32 /\ bytes hash /\ cert_wf c /\ NoDup (c_i c) /\ NoDup (c_j c) /\ c_r c = 2 /\ rank_verify gs fuel A hash c = Ok true.
Proof.
  exists (fun _ _ _ => 5), 20%nat, ex_flat, (fill 32 0), (Cert 2 3 (fill 32 0) [0; 1] [0; 1] [1; 0] [0; 0]).
  split; [unfold ok_modulus; cbn; lia|]. split; [now apply primeb_ok|]. split; [now apply wfb_ok|]. split; [now apply reducedb_ok|]. split.
  { split; [lia|]. exists (fun _ j => if j =? 0 then 0 else if j =? 1 then 1 else -1). split; [|split].
    - intros lam H i Hi. specialize (H 1 ltac:(cbn; lia)). change (cong 3 (lam 0 * 1 + 0) 0) in H. replace i with 0 by lia. now rewrite Z.mul_1_r, Z.add_0_r in H.
    - intros k Hk. exists (fun i => if i =? 0 then 1 else 0). intros j Hj. cbn [cm ex_flat] in Hj.
      assert (j = 0 \/ j = 1 \/ j = 2) as [->|[->| ->]] by lia; now apply congb_ok.
    - intros i Hi. exists (fun _ => if i =? 0 then 1 else 0). intros j Hj. cbn [cm cn ex_flat] in Hi, Hj.
      assert (i = 0 \/ i = 1) as [->| ->] by lia; assert (j = 0 \/ j = 1 \/ j = 2) as [->|[->| ->]] by lia; now apply congb_ok. }
  split; [reflexivity|]. split; [apply Forall_fill; unfold byte; lia|]. split; [constructor; reflexivity || (cbn; lia)|].
  split; [repeat constructor; cbn; intuition lia|]. split; [repeat constructor; cbn; intuition lia|]. split; [reflexivity|]. vm_compute. reflexivity.
Qed.
Print Assumptions C42_sound_refuted.
(* For a matrix made of a single row in which every element of the field occurs, certificates of any rank can be forged, for every hash. *)
Theorem C42_forgery_refuted p A : ok_modulus p -> wf A -> cprime A = p -> cx A <> None -> cn A = 1 -> (forall v, exists j, 0 <= j < cm A /\ cong p (entry A 0 j) v) ->
  forall hash fuel r, len hash = 32 -> bytes hash -> 1 <= r ->
  exists c, cert_wf c /\ c_r c = r /\ forall gs, outs (rank_verify gs fuel A hash c) (fun ok => ok = true) (fun e => e = OutOfFuel \/ e = Overflow).
Proof. exact (forgery p A). Qed.
Print Assumptions C42_forgery_refuted.
Example C42_forgery_example : wf (Csr 1 3 [0; 2] [1; 2] (Some [1; -1]) 3) /\ (forall v, exists j, 0 <= j < 3 /\ cong 3 (entry (Csr 1 3 [0; 2] [1; 2] (Some [1; -1]) 3) 0 j) v).
Proof.
  split; [now apply wfb_ok|]. intros v. exists (v mod 3). pose proof (Z.mod_pos_bound v 3). split; [lia|]. eapply cong_trans; [|apply (cong_mod 3 v); lia].
  assert (E : v mod 3 = 0 \/ v mod 3 = 1 \/ v mod 3 = 2) by lia. destruct E as [->|[->| ->]]; now apply congb_ok.
Qed.

(* What is true: once the columns are fixed, and before the hash is known, a claim above the rank is only accepted for the challenges of a fixed hyperplane.
   Missing: the hash does not depend on the columns. *)
Theorem C42_too_large_partial p A R r jj : ok_modulus p -> prime p -> wf A -> cprime A = p -> cx A <> None ->
  rank_is p A R -> R < r -> (forall k, 0 <= k < r -> 0 <= get jj k < cm A) ->
  exists w, (exists k, 0 <= k < r /\ ~ cong p (w k) 0) /\
    forall gs fuel hash c, len hash = 32 -> bytes hash -> cert_wf c -> c_r c = r -> c_j c = jj -> rank_verify gs fuel A hash c = Ok true ->
    exists alpha, (forall k, 0 <= k < r -> is_draw hash p 0 k (alpha k)) /\ cong p (sum 0 r (fun k => w k * alpha k)) 0.
Proof. exact (fun Hp Hq HA HAp HAx => sound_large p Hp Hq A HA HAp HAx R r jj). Qed.
Print Assumptions C42_too_large_partial.
(* once the rows are fixed, a claim below the rank is only accepted for the challenges of a fixed hyperplane *)
Theorem C42_too_small_partial p A R ii : ok_modulus p -> prime p -> wf A -> cprime A = p -> cx A <> None ->
  rank_is p A R -> len ii < R -> (forall k, 0 <= k < len ii -> 0 <= get ii k < cn A) ->
  (forall k k', 0 <= k < k' -> k' < len ii -> get ii k <> get ii k') ->
  exists w, (exists i, 0 <= i < cn A /\ ~ cong p (w i) 0) /\ (forall k, 0 <= k < len ii -> cong p (w (get ii k)) 0) /\
    forall gs fuel hash c, len hash = 32 -> bytes hash -> cert_wf c -> c_i c = ii -> (forall k, 0 <= k < len ii -> get (c_y c) k <> 2 ^ 31 - 1) ->
      rank_verify gs fuel A hash c = Ok true ->
    exists alpha, (forall i, 0 <= i < cn A -> ~ In i ii -> is_draw hash p 0 (len ii + outside ii i) (alpha i)) /\
      (forall i, In i ii -> alpha i = 0) /\ cong p (sum 0 (cn A) (fun i => w i * alpha i)) 0.
Proof. exact (fun Hp Hq HA HAp HAx => sound_small p Hp Hq A HA HAp HAx R ii). Qed.
Print Assumptions C42_too_small_partial.
(* the challenge is a function of the hash, *)
Theorem C42_challenge seed p seq k v v' : is_draw seed p seq k v -> is_draw seed p seq k v' -> v = v'.
Proof. exact (is_draw_unique seed p seq k v v'). Qed.
Print Assumptions C42_challenge.
(* and exactly one in p of the vectors of r elements of the field are in a given hyperplane *)
Theorem C42_hyperplane p r w : prime p -> (exists k, 0 <= k < r /\ ~ cong p (w k) 0) ->
  p * sum 0 (p ^ r) (fun N => if cong_dec p (sum 0 r (fun k => w k * digit p N k)) 0 then 1 else 0) = p ^ r.
Proof. exact (hyperplane p r w). Qed.
Print Assumptions C42_hyperplane.
(* the matrix of C41, of rank 2: false claims, for challenges in the hyperplanes *)
Example C42_example : rank_is 7 ex_S 2 /\
  cert_wf (Cert 3 7 (fill 32 0) [0; 1; 2] [0; 1; 2] [2; 0; -1] [0; 0; 0]) /\
  rank_verify (fun _ _ _ => 5) 20 ex_S (fill 32 0) (Cert 3 7 (fill 32 0) [0; 1; 2] [0; 1; 2] [2; 0; -1] [0; 0; 0]) = Ok true /\
  cert_wf (Cert 1 7 (fill 32 9) [0] [0] [0] [-2]) /\
  rank_verify (fun _ _ _ => 5) 20 ex_S (fill 32 9) (Cert 1 7 (fill 32 9) [0] [0] [0] [-2]) = Ok true.
Proof.
  split. { apply (factors_rank 7 ex_S ex_lu ex_SL); [unfold ok_modulus; lia|now apply primeb_ok|now apply wfb_ok|]. apply factorsb_ok; [reflexivity|vm_compute; reflexivity]. }
  split; [constructor; reflexivity || (cbn; lia)|]. split; [vm_compute; reflexivity|]. split; [constructor; reflexivity || (cbn; lia)|]. vm_compute. reflexivity.
Qed.

(** * C44 *)
Theorem C44_accepts p A f L gs fuel sd : ok_modulus p -> wf A -> cprime A = p -> cx A <> None -> factors p A f L -> 0 <= sd < 2 ^ 64 ->
  outs (factorization_verify gs fuel A f sd) (fun ok => ok = true) (fun e => e = OutOfFuel \/ e = Overflow).
Proof. exact (fact_accepts p A f L gs fuel sd). Qed.
Print Assumptions C44_accepts.
(* shapes: the dimensions of A, L, U and p agree *)
Theorem C44_answer p A L f gs fuel sd : ok_modulus p -> wf A -> cprime A = p -> cx A <> None -> wf L -> cprime L = p -> cx L <> None ->
  wf (lu_U f) -> cprime (lu_U f) = p -> cx (lu_U f) <> None ->
  lu_L f = Some L -> cn L = cn A -> cm (lu_U f) = cm A -> cm L = cn (lu_U f) ->
  cn (lu_U f) <= len (lu_p f) -> (forall k, 0 <= k < cn (lu_U f) -> 0 <= get (lu_p f) k < cn A) -> 0 <= sd < 2 ^ 64 ->
  outs (factorization_verify gs fuel A f sd) (fun ok => exists alpha, (forall i, 0 <= i < cn A -> is_draw (seed_bytes sd) p 0 i (alpha i)) /\
     let x := on_rows (map (get (lu_p f)) (zseq 0 (cn (lu_U f)))) alpha in
     (ok = true <-> forall j, 0 <= j < cm A -> cong p (xA A x j) (sum 0 (cn A) (fun i => x i * lu_entry L (lu_U f) i j)))) (fun e => e = OutOfFuel \/ e = Overflow).
Proof. exact (fact_answer p A L f gs fuel sd). Qed.
Print Assumptions C44_answer.
(* a wrong row among the pivotal ones is only missed for the draws of a fixed hyperplane *)
Theorem C44_wrong p A L f k0 j : ok_modulus p -> wf A -> cprime A = p -> cx A <> None -> wf L -> cprime L = p -> cx L <> None ->
  wf (lu_U f) -> cprime (lu_U f) = p -> cx (lu_U f) <> None ->
  lu_L f = Some L -> cn L = cn A -> cm (lu_U f) = cm A -> cm L = cn (lu_U f) ->
  cn (lu_U f) <= len (lu_p f) -> (forall k, 0 <= k < cn (lu_U f) -> 0 <= get (lu_p f) k < cn A) ->
  0 <= k0 < cn (lu_U f) -> 0 <= j < cm A -> ~ cong p (entry A (get (lu_p f) k0) j) (lu_entry L (lu_U f) (get (lu_p f) k0) j) ->
  exists w, (exists i, 0 <= i < cn A /\ ~ cong p (w i) 0) /\
  forall gs fuel sd, 0 <= sd < 2 ^ 64 -> factorization_verify gs fuel A f sd = Ok true ->
    exists alpha, (forall i, 0 <= i < cn A -> is_draw (seed_bytes sd) p 0 i (alpha i)) /\ cong p (sum 0 (cn A) (fun i => w i * alpha i)) 0.
Proof. exact (fact_missed p A L f k0 j). Qed.
Print Assumptions C44_wrong.
(* the other rows are not checked: whatever the seed, U may miss rows of A *)
Theorem C44_rank_refuted : exists A f L, ok_modulus (cprime A) /\ prime (cprime A) /\ wf A /\ reduced A /\ lu_L f = Some L /\
  upper (cprime A) (lu_U f) (lu_qinv f) /\ lower (cprime A) L (lu_p f) /\ rank_is (cprime A) A 2 /\ cn (lu_U f) = 1 /\
  forall gs fuel sd, 0 <= sd < 2 ^ 64 -> outs (factorization_verify gs fuel A f sd) (fun ok => ok = true) (fun e => e = OutOfFuel \/ e = Overflow).
Proof.
  exists ex_S, (Lu true (Some (Csr 3 1 [0; 1; 2; 2] [0; 0] (Some [2; -3]) 7)) (Csr 1 3 [0; 2] [0; 1] (Some [1; -3]) 7) [0; -1; -1] [0; 1; 2]), (Csr 3 1 [0; 1; 2; 2] [0; 0] (Some [2; -3]) 7).
  split; [unfold ok_modulus; cbn; lia|]. split; [now apply primeb_ok|]. split; [now apply wfb_ok|]. split; [now apply reducedb_ok|]. split; [reflexivity|].
  split; [now apply upperb_ok|]. split; [now apply lowerb_ok|]. split; [apply C42_example|]. split; [reflexivity|].
  intros gs fuel sd Hsd. eapply outs_imp; [apply (C44_answer 7 ex_S (Csr 3 1 [0; 1; 2; 2] [0; 0] (Some [2; -3]) 7)); auto|..].
  all: try (now apply wfb_ok); try discriminate; try reflexivity; try (unfold ok_modulus; lia); try (cbn; lia).
  { intros k Hk. cbn [cn lu_U] in Hk. replace k with 0 by lia. cbn. lia. }
  { intros ok (alpha & _ & E). apply E. intros j Hj. cbn [cm ex_S] in Hj. apply sum_cong. intros i Hi. cbn [cn ex_S] in Hi.
  assert (i = 0 \/ i = 1 \/ i = 2) as [->|[->| ->]] by lia; [|now apply cong_eq|now apply cong_eq].
  apply cong_mul; [apply cong_refl|]. assert (j = 0 \/ j = 1 \/ j = 2) as [->|[->| ->]] by lia; now apply congb_ok. }
  auto.
Qed.
Print Assumptions C44_rank_refuted.
(* the factorization of C41, and the same with a wrong entry in row 2, the second pivotal row *)
Definition ex_bad : csr := Csr 3 3 [0; 2; 4; 5] [0; 1; 0; 1; 2] (Some [2; 1; -3; 2; 2]) 7.
Example C44_example : factors 7 ex_S ex_lu ex_SL /\ factorization_verify (fun _ _ _ => 6) 20 ex_S ex_lu 12345678901234 = Ok true /\
  ~ cong 7 (entry ex_bad (get (lu_p ex_lu) 1) 2) (lu_entry ex_SL (lu_U ex_lu) (get (lu_p ex_lu) 1) 2) /\
  factorization_verify (fun _ _ _ => 6) 20 ex_bad ex_lu 12345678901234 = Ok false.
Proof.
  split; [apply factorsb_ok; [reflexivity|vm_compute; reflexivity]|]. split; [vm_compute; reflexivity|]. split; [now apply ncongb_ok|]. vm_compute. reflexivity.
Qed.
