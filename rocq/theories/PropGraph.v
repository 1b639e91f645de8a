(** C33, C34, C35, C47, C67: matchings, strongly connected components, Dulmage-Mendelsohn decomposition. *)
From Verif Require Import Base BaseFacts Spec SpecFacts Mat SpecMatch Matching MatchProofs MatchPerm SpecScc Scc SccProofs SpecDm Dm DmMain Checks SpecTools SpecParts PartsProofs.

(** ** C33: maximum matching *)
Theorem C33_matching g A p q : wf A -> len p = cn A -> len q = cm A ->
  sat (maximum_matching g A p q) (fun '(k, p, q) => matching A p q /\ msize p = k /\
    forall p' q', matching A p' q' -> msize p' <= k).
Proof. exact (maximum_matching_max g A p q). Qed.
Print Assumptions C33_matching.
(* the size found does not depend on what the arrays contain *)
Theorem C33_size g A p q : wf A -> len p = cn A -> len q = cm A ->
  sat (maximum_matching g A p q) (fun '(k, _, _) => maximum_size A k /\ 0 <= k <= Z.min (cn A) (cm A)).
Proof. exact (maximum_matching_size g A p q). Qed.
Print Assumptions C33_size.
(* rows 0 and 1 compete for column 0; the last row is matched through an augmenting path; column 3 stays alone *)
Definition ex_match : csr := Csr 4 4 [0; 2; 3; 5; 7] [0; 1; 0; 1; 2; 0; 2] None 7.
Example C33_example : wf ex_match /\
  maximum_matching (fun _ _ => 77) ex_match [5; 5; 5; 5] [6; 6; 6; 6] = Ok (3, [1; 0; 2; -1], [1; 0; 2; -1]) /\
  matching ex_match [1; 0; 2; -1] [1; 0; 2; -1].
Proof. split; [now apply wfb_ok|]. split; [vm_compute; reflexivity|]. now apply matchingb_ok. Qed.
Definition ex_match2 : csr := Csr 3 5 [0; 2; 4; 5] [0; 1; 0; 1; 0] None 7.
Example C33_example_rectangular : wf ex_match2 /\
  maximum_matching (fun _ _ => 77) ex_match2 [5; 5; 5] [6; 6; 6; 6; 6] = Ok (2, [0; 1; -1], [0; 1; -1; -1; -1]) /\ maximum_size ex_match2 2.
Proof.
  assert (W : wf ex_match2) by now apply wfb_ok. split; auto.
  assert (E : maximum_matching (fun _ _ => 77) ex_match2 [5; 5; 5] [6; 6; 6; 6; 6] = Ok (2, [0; 1; -1], [0; 1; -1; -1; -1])) by (vm_compute; reflexivity).
  split; [exact E|]. apply (sat_elim _ _ _ (C33_size (fun _ _ => 77) ex_match2 [5; 5; 5] [6; 6; 6; 6; 6] W eq_refl eq_refl) E).
Qed.

(** ** C47: matchings of a permuted matrix and of a submatrix *)
Theorem C47_permute g g1 g2 A jm im p pinv q qinv : wf A -> matching A jm im -> inverse_perms (cn A) p pinv -> inverse_perms (cm A) q qinv ->
  sat (B <- permute g A (Some p) (Some qinv) false ;;
       jj <- permute_row_matching g1 (cn A) jm p qinv ;;
       ii <- permute_column_matching g2 (cm A) im pinv q ;; Ok (B, jj, ii))
    (fun '(B, jj, ii) => matching B jj ii /\ msize jj = msize jm).
Proof. exact (permute_matching g g1 g2 A jm im p pinv q qinv). Qed.
Print Assumptions C47_permute.
(* missing: matchings between the submatrix and the rest of the matrix *)
Theorem C47_submatching_partial g g1 g2 A jm im a b c d : wf A -> matching A jm im -> 0 <= a <= b -> b <= cn A -> 0 <= c <= d -> d <= cm A ->
  (forall i, a <= i < b -> get jm i = -1 \/ c <= get jm i < d) -> (forall j, c <= j < d -> get im j = -1 \/ a <= get im j < b) ->
  sat (B <- submatrix g A a b c d false ;; jj <- submatching g1 jm a b c d ;; ii <- submatching g2 im c d a b ;; Ok (B, jj, ii))
    (fun '(B, jj, ii) => matching B jj ii /\ (forall i, a <= i < b -> 0 <= get jm i -> get jj (i - a) = get jm i - c) /\
       (forall j, c <= j < d -> 0 <= get im j -> get ii (j - c) = get im j - a)).
Proof. exact (submatching_matching g g1 g2 A jm im a b c d). Qed.
Print Assumptions C47_submatching_partial.
(* the test on the right end compares a relative index with an absolute one: a row of the submatrix whose
   column is out of it is accepted, with a column number outside of the submatrix *)
Theorem C47_submatching_refuted : exists A jm im a b c d pm, wf A /\ matching A jm im /\ 0 <= a <= b /\ b <= cn A /\ 0 <= c <= d /\ d <= cm A /\
  (forall g, submatching g jm a b c d = Ok pm) /\ exists i, 0 <= i < b - a /\ d - c <= get pm i.
Proof.
  exists (Csr 1 4 [0; 1] [3] None 7), [3], [-1; -1; -1; 0], 0, 1, 2, 3, [1].
  split; [now apply wfb_ok|]. split; [now apply matchingb_ok|]. cbn [cn cm]. do 4 (split; [lia|]).
  split; [intros g; reflexivity|]. exists 0. split; [lia|]. vm_compute. congruence.
Qed.
Print Assumptions C47_submatching_refuted.
(* exactly what is accepted, and the result: when c = 0 the test is the right one *)
Theorem C47_submatching_result g mt a b c d : 0 <= a <= b -> b <= len mt -> match submatching g mt a b c d with
  | Ok pm => (forall i, a <= i < b -> get mt i = -1 \/ c <= get mt i < c + d) /\ len pm = b - a /\
      forall i, 0 <= i < b - a -> get pm i = if get mt (a + i) =? -1 then -1 else get mt (a + i) - c
  | Fail e => e = AssertFailed /\ exists i, a <= i < b /\ get mt i <> -1 /\ ~ c <= get mt i < c + d end.
Proof. exact (submatching_exact g mt a b c d). Qed.
Print Assumptions C47_submatching_result.
Example C47_result_example : submatching (fun _ _ => 0) [1; 0; 2; -1] 1 3 0 2 = Fail AssertFailed /\ submatching (fun _ _ => 0) [1; 0; 2; -1] 2 4 1 3 = Ok [1; -1].
Proof. split; reflexivity. Qed.
Example C47_example : wf ex_match /\ matching ex_match [1; 0; 2; -1] [1; 0; 2; -1] /\
  inverse_perms 4 [3; 1; 0; 2] [2; 1; 3; 0] /\ inverse_perms 4 [1; 2; 3; 0] [3; 0; 1; 2] /\
  permute_row_matching (fun _ _ => 0) 4 [1; 0; 2; -1] [3; 1; 0; 2] [3; 0; 1; 2] = Ok [-1; 3; 0; 1] /\
  submatching (fun _ _ => 0) [1; 0; 2; -1] 0 2 0 2 = Ok [1; 0].
Proof.
  split; [now apply wfb_ok|]. split; [now apply matchingb_ok|].
  split; [|split; [|split; vm_compute; reflexivity]].
  - split; [now apply is_permb_ok|]. split; [now apply is_permb_ok|]. intros i Hi.
    assert (i = 0 \/ i = 1 \/ i = 2 \/ i = 3) as [->|[->|[->| ->]]] by lia; vm_compute; auto.
  - split; [now apply is_permb_ok|]. split; [now apply is_permb_ok|]. intros i Hi.
    assert (i = 0 \/ i = 1 \/ i = 2 \/ i = 3) as [->|[->|[->| ->]]] by lia; vm_compute; auto.
Qed.

(** ** C34: strongly connected components *)
Theorem C34_scc g A : wf A -> cm A = cn A ->
  sat (strongly_connected_components g A) (fun D => is_perm (cn A) (dm_p D) /\ dm_q D = dm_p D /\
    boundaries (cn A) (dm_nb D) (dm_r D) /\ (forall t, 0 <= t <= dm_nb D -> get (dm_c D) t = get (dm_r D) t) /\
    (forall t u a b, 0 <= t < dm_nb D -> 0 <= u < dm_nb D -> in_block (dm_r D) t a -> in_block (dm_r D) u b ->
      (strong A (get (dm_p D) a) (get (dm_p D) b) <-> t = u)) /\
    (forall t u a b, 0 <= t < dm_nb D -> 0 <= u < dm_nb D -> in_block (dm_r D) t a -> in_block (dm_r D) u b ->
      stored A (get (dm_p D) a) (get (dm_p D) b) -> t <= u)).
Proof. exact (scc_correct g A). Qed.
Print Assumptions C34_scc.
(* two cycles 0 -> 2 -> 0 and 1 -> 3 -> 4 -> 1, an edge from 3 to 0, and a node 5 alone *)
Definition ex_scc : csr := Csr 6 6 [0; 1; 2; 3; 5; 6; 8] [2; 3; 0; 0; 4; 1; 5; 2] None 7.
Example C34_example : wf ex_scc /\ cm ex_scc = cn ex_scc /\
  match strongly_connected_components (fun _ _ => 77) ex_scc with
  | Ok D => (dm_nb D, dm_p D, firstn 4 (dm_r D)) = (3, [5; 1; 3; 4; 0; 2], [0; 1; 4; 6]) | Fail _ => False end.
Proof. split; [now apply wfb_ok|]. split; [reflexivity|]. vm_compute. reflexivity. Qed.

(** ** C35: Dulmage-Mendelsohn decomposition *)
Theorem C35_dm gs A : wf A ->
  sat (dulmage_mendelsohn gs A) (fun D => coarse A (dm_p D) (dm_q D) (dm_rr D) (dm_cc D) /\
    (get (dm_rr D) 1 < get (dm_rr D) 2 -> fine A (dm_p D) (dm_q D) (dm_rr D) (dm_cc D) (dm_r D) (dm_c D) (dm_nb D)) /\
    (get (dm_rr D) 1 = get (dm_rr D) 2 -> dm_nb D = 0)).
Proof. exact (dulmage_mendelsohn_ok gs A). Qed.
Print Assumptions C35_dm.
(* When the square part is empty the function returns early: no block is described although there are rows, and
   the arrays of block boundaries hold the marks of the searches *)
Theorem C35_no_square_refuted : exists A, wf A /\ 0 < cn A /\
  forall gs, sat (dulmage_mendelsohn gs A) (fun D => dm_nb D = 0 /\ get (dm_r D) 0 <> 0).
Proof.
  exists (Csr 1 2 [0; 2] [0; 1] None 7). split; [now apply wfb_ok|]. split; [cbn; lia|].
  intros gs. vm_compute. split; [reflexivity|discriminate].
Qed.
Print Assumptions C35_no_square_refuted.
(* R1 = {0}, with columns 0 and 1; S = {1, 2, 3} is a cycle on two rows followed by a single row; R3 = {4}, R0 = {5} *)
Definition ex_dm : csr := Csr 6 6 [0; 3; 5; 8; 10; 11; 12] [0; 1; 2; 2; 3; 2; 3; 4; 4; 5; 5; 5] None 7.
Example C35_example : wf ex_dm /\
  match dulmage_mendelsohn (fun _ _ _ => 77) ex_dm with
  | Ok D => (dm_p D, dm_q D) = ([0; 1; 2; 3; 4; 5], [1; 0; 2; 3; 4; 5]) /\ (dm_rr D, dm_cc D) = ([0; 1; 4; 5; 6], [0; 1; 2; 5; 6]) /\
      dm_nb D = 4 /\ (firstn 5 (dm_r D), firstn 5 (dm_c D)) = ([0; 1; 3; 4; 6], [0; 2; 4; 5; 6])
  | Fail _ => False end.
Proof. split; [now apply wfb_ok|]. vm_compute. repeat split; reflexivity. Qed.

(** ** C67: the decomposition depends on the matrix only *)
(* the parts are described by the largest transversals of the matrix, whatever the matching found *)
Theorem C67_parts gs A : wf A -> let n := cn A in let m := cm A in let R := stored A in
  sat (dulmage_mendelsohn gs A) (fun D =>
    (forall a, 0 <= a < n -> (a < get (dm_rr D) 1 <-> hrow n m R (get (dm_p D) a)) /\ (get (dm_rr D) 2 <= a <-> vrow n m R (get (dm_p D) a))) /\
    (forall b, 0 <= b < m -> (b < get (dm_cc D) 2 <-> hcol n m R (get (dm_q D) b)) /\ (get (dm_cc D) 3 <= b <-> vcol n m R (get (dm_q D) b))) /\
    (get (dm_rr D) 1 < get (dm_rr D) 2 -> forall t u a b, 1 <= t < dm_nb D - 1 -> 1 <= u < dm_nb D - 1 -> in_block (dm_r D) t a -> in_block (dm_r D) u b ->
      (linked n m R (get (dm_p D) a) (get (dm_p D) b) <-> t = u))).
Proof. exact (parts_ok gs A). Qed.
Print Assumptions C67_parts.
(* the sizes are the same for all matrices with the same pattern: neither the order of the entries, nor the content of the
   memory that is not initialised, have an influence *)
Theorem C67_sizes gs gs' A B : wf A -> wf B -> cn B = cn A -> cm B = cm A -> (forall i j, 0 <= i < cn A -> stored A i j <-> stored B i j) ->
  sat (D <- dulmage_mendelsohn gs A ;; D' <- dulmage_mendelsohn gs' B ;; Ok (D, D')) (fun '(D, D') => dm_rr D' = dm_rr D /\ dm_cc D' = dm_cc D).
Proof. exact (parts_same gs gs' A B). Qed.
Print Assumptions C67_sizes.
(* the same pattern with the entries of each row in both orders: other matchings are found, with the same parts *)
Definition ex_order1 : csr := Csr 3 4 [0; 2; 4; 6] [3; 2; 3; 2; 1; 0] None 7.
Definition ex_order2 : csr := Csr 3 4 [0; 2; 4; 6] [2; 3; 2; 3; 0; 1] None 7.
Example C67_example : wf ex_order1 /\ wf ex_order2 /\ (forall i j, 0 <= i < cn ex_order1 -> stored ex_order1 i j <-> stored ex_order2 i j) /\
  match dulmage_mendelsohn (fun _ _ _ => 3) ex_order1, dulmage_mendelsohn (fun _ _ _ => 4) ex_order2 with
  | Ok D, Ok D' => (dm_p D, dm_q D) = ([2; 1; 0], [0; 1; 2; 3]) /\ (dm_p D', dm_q D') = ([2; 0; 1], [1; 0; 2; 3]) /\ dm_rr D = [0; 1; 3; 3; 3] /\ dm_cc D = [0; 1; 2; 4; 4] /\ dm_nb D = 3
  | _, _ => False end.
Proof.
  split; [now apply wfb_ok|]. split; [now apply wfb_ok|]. split; [|vm_compute; repeat split; reflexivity].
  intros i j Hi. cbn [cn ex_order1] in Hi. assert (i = 0 \/ i = 1 \/ i = 2) as C by lia.
  rewrite !(RowList.stored_rowl _ i). repeat (destruct C as [->|C]); try subst i; vm_compute; tauto.
Qed.
