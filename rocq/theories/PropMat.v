(** C06-C13, C46: construction and elementary operations on sparse matrices.
    [g] is the arbitrary content of uninitialised memory in all statements. *)
From Verif Require Import Base BaseFacts Spec SpecFacts Zp ZpFacts Mat MatFacts Dispatch RowList
  TransposeProofs CompressProofs MatProofs VecProofs SpecCompress Zeroes Checks.

(** * C06 *)
(* Full claim: for every well-formed T with values, spasm_compress returns a
   well-formed matrix C without duplicates or zeroes and with
   entry C i j = tentry T i j modulo p.  It is false (see below) because of
   remove_explicit_zeroes.  Proved here under the extra hypothesis that no position
   carries triplets whose sum vanishes modulo p. *)
Theorem C06_compress_partial g T : twf T -> 2 <= tprime T -> tx T <> None ->
  (forall k, 0 <= k < tnz T -> balanced (tprime T) (tval T k)) ->
  (forall i j, tstored T i j -> ~ cong (tprime T) (tentry T i j) 0) ->
  sat (compress g T) (fun C =>
    wf C /\ cn C = tn T /\ cm C = tm T /\ cprime C = tprime T /\ cx C <> None /\ len (cj C) = nnz C /\
    nodup_rows C /\ no_zero C /\
    (forall px, 0 <= px < nnz C -> balanced (tprime T) (val C px)) /\
    (forall i j, 0 <= i < tn T -> stored C i j <-> tstored T i j) /\
    (forall i j, 0 <= i < tn T -> cong (tprime T) (entry C i j) (tentry T i j))).
Proof. exact (compress_exact g T). Qed.
Print Assumptions C06_compress_partial.

(* pattern-only matrices: no restriction *)
Theorem C06_compress_pattern g T : twf T -> tx T = None ->
  sat (compress g T) (fun C =>
    wf C /\ cn C = tn T /\ cm C = tm T /\ cprime C = tprime T /\ cx C = None /\
    nodup_rows C /\ (forall i j, 0 <= i < tn T -> stored C i j <-> tstored T i j)).
Proof. exact (compress_pattern g T). Qed.
Print Assumptions C06_compress_pattern.

(* in all cases: no undefined behaviour, a well-formed result without zeroes *)
Theorem C06_compress_safe g T : twf T -> 2 <= tprime T ->
  sat (compress g T) (fun C =>
    wf C /\ cn C = tn T /\ cm C = tm T /\ cprime C = tprime T /\ (cx C = None <-> tx T = None) /\
    (tx T <> None -> no_zero C)).
Proof. exact (compress_safe g T). Qed.
Print Assumptions C06_compress_safe.

(* the same matrix is not obtained when entries cancel: 1 - 1 at (0,0), 1 at (0,1), 1 at (1,2) *)
Definition C06_witness : triplet :=
  Triplet 4 2 3 [0; 0; 0; 1] [0; 0; 1; 2] (Some [1; -1; 1; 1]) 7.
Theorem C06_compress_refuted : exists T,
  twf T /\ 2 <= tprime T /\ tx T <> None /\
  (forall k, 0 <= k < tnz T -> balanced (tprime T) (tval T k)) /\
  forall g, sat (compress g T) (fun C => ~ cong (tprime T) (entry C 1 1) (tentry T 1 1)).
Proof.
  exists C06_witness. split; [now apply twfb_ok|]. split; [cbn; lia|]. split; [discriminate|].
  split.
  - intros k Hk. apply balancedb_ok.
    exact (allz_spec 0 4 (fun k => balancedb 7 (tval C06_witness k)) eq_refl k Hk).
  - intros g. set (C := compress g C06_witness). vm_compute in C. subst C. cbn [sat].
    apply ncong_compute; [reflexivity|]. vm_compute. reflexivity.
Qed.
Print Assumptions C06_compress_refuted.

(* what is computed in all cases.  R i: the entries of row i, duplicates summed.  The faulty loop adds to row i what
   [carry] tells, before removing the zeroes *)
Theorem C06_compress_rows g T : twf T -> 2 <= tprime T -> tx T <> None ->
  (forall k, 0 <= k < tnz T -> balanced (tprime T) (tval T k)) ->
  sat (compress g T) (fun C => exists R : Z -> list (Z * Z),
    (forall i, 0 <= i < tn T -> NoDup (map fst (R i)) /\ (forall j, In j (map fst (R i)) <-> tstored T i j) /\
      forall j x, In (j, x) (R i) -> balanced (tprime T) x /\ cong (tprime T) x (tentry T i j)) /\
    forall i, 0 <= i < tn T -> rowl C i = filter nonzero (carry R (Z.to_nat i) ++ R i)).
Proof. exact (compress_rows g T). Qed.
Print Assumptions C06_compress_rows.
(* the rows are right up to the first one with a cancellation, included *)
Theorem C06_compress_first_rows g T : twf T -> 2 <= tprime T -> tx T <> None ->
  (forall k, 0 <= k < tnz T -> balanced (tprime T) (tval T k)) ->
  sat (compress g T) (fun C => forall r, (forall i j, 0 <= i < r -> tstored T i j -> ~ cong (tprime T) (tentry T i j) 0) ->
    forall i j, 0 <= i <= r -> i < tn T -> cong (tprime T) (entry C i j) (tentry T i j)).
Proof. exact (compress_prefix g T). Qed.
Print Assumptions C06_compress_first_rows.
(* row 0 of the witness is right, row 1 also receives the last entry of row 0 *)
Example C06_rows_example :
  match compress (fun _ _ => 0) C06_witness with Ok C => rowl C 0 = [(1, 1)] /\ rowl C 1 = [(1, 1); (2, 1)] | Fail _ => False end /\
  carry (fun i => if i =? 0 then [(0, 0); (1, 1)] else [(2, 1)]) 1 = [(1, 1)].
Proof. vm_compute. repeat split. Qed.

(* duplicates that do not cancel, in the largest supported field *)
Definition C06_ok : triplet :=
  Triplet 5 2 3 [1; 0; 0; 1; 0] [2; 0; 1; 2; 0] (Some [5; 2147483645; 1; -1; 2147483645]) 4294967291.
Example C06_example : twf C06_ok /\ 2 <= tprime C06_ok /\ tx C06_ok <> None /\
  (forall k, 0 <= k < tnz C06_ok -> balanced (tprime C06_ok) (tval C06_ok k)) /\
  (forall i j, tstored C06_ok i j -> ~ cong (tprime C06_ok) (tentry C06_ok i j) 0) /\
  compress (fun _ _ => 0) C06_ok = Ok (Csr 2 3 [0; 2; 3] [0; 1; 2] (Some [-1; 1; 4]) 4294967291).
Proof.
  split; [now apply twfb_ok|]. split; [cbn; lia|]. split; [discriminate|]. split.
  - intros k Hk. apply balancedb_ok.
    exact (allz_spec 0 5 (fun k => balancedb 4294967291 (tval C06_ok k)) eq_refl k Hk).
  - split; [|vm_compute; reflexivity].
    intros i j (k & Hk & <- & <-). apply ncong_compute; [reflexivity|].
    assert (G := allz_spec 0 5 (fun k => negb (tentry C06_ok (get (ti C06_ok) k) (get (tj C06_ok) k) mod 4294967291 =? 0)) eq_refl k Hk).
    cbv beta in G. apply negb_true_iff in G. exact G.
Qed.

(** * C07 *)
Theorem C07_add_entry g T i j x : twf T -> 0 <= i -> 0 <= j ->
  sat (add_entry g T i j x) (fun T' =>
    twf T' /\ tprime T' = tprime T /\ has_values T' = has_values T /\
    tlist T' = tlist T ++ keeps (tprime T) (has_values T) (i, j, x) /\
    (keeps (tprime T) (has_values T) (i, j, x) = [] -> tn T' = tn T /\ tm T' = tm T) /\
    (keeps (tprime T) (has_values T) (i, j, x) <> [] ->
       tn T' = Z.max (tn T) (i + 1) /\ tm T' = Z.max (tm T) (j + 1))).
Proof. exact (add_entry_ok g T i j x). Qed.
Print Assumptions C07_add_entry.
(* whole histories: a fresh matrix filled with l denotes the sum of the entries of l *)
Theorem C07_fill g n m nzmax p wv l : 0 <= n -> 0 <= m -> 0 <= nzmax -> 2 <= p ->
  Forall (fun '(i, j, _) => 0 <= i < n /\ 0 <= j < m) l ->
  sat (add_entries g (triplet_alloc g n m nzmax p wv) l) (fun T =>
    twf T /\ tprime T = p /\ has_values T = wv /\
    (wv = true -> forall k, 0 <= k < tnz T -> balanced p (tval T k) /\ tval T k <> 0) /\
    forall i j, cong p (tentry T i j)
      (lsum (fun '(a, b, x) => if (a =? i) && (b =? j) then (if wv then x else 1) else 0) l)).
Proof. exact (fill_ok g n m nzmax p wv l). Qed.
Print Assumptions C07_fill.
(* starting from an empty array: growth, a reduction, an entry that vanishes *)
Example C07_example :
  twf (triplet_alloc (fun _ _ => 9) 0 0 0 7 true) /\
  (T <- add_entries (fun _ _ => 9) (triplet_alloc (fun _ _ => 9) 0 0 0 7 true) [(1, 2, 10); (0, 5, 14); (0, 0, 6)] ;;
   Ok (tlist T, tn T, tm T)) = Ok ([(1, 2, 3); (0, 0, -1)], 2, 3).
Proof. split; [now apply twfb_ok | vm_compute; reflexivity]. Qed.

(** * C08 *)
Theorem C08_transpose C g kv : wf C ->
  sat (transpose g C kv) (fun T =>
    wf T /\ cn T = cm C /\ cm T = cn C /\ cprime T = cprime C /\ nnz T = nnz C /\
    (cx T = None <-> (kv = false \/ cx C = None)) /\
    (forall i j, 0 <= i < cn C -> 0 <= j < cm C ->
       entry T j i = entry (if kv then C else pattern C) i j) /\
    ascending T /\
    (forall i j, 0 <= i < cn C -> 0 <= j < cm C -> entry (pattern T) j i = entry (pattern C) i j)).
Proof. exact (fun HC => transpose_ok C HC g kv). Qed.
Print Assumptions C08_transpose.
Theorem C08_transpose_twice C g g' : wf C ->
  sat (T <- transpose g C true ;; transpose g' T true) (fun D =>
    wf D /\ cn D = cn C /\ cm D = cm C /\ nnz D = nnz C /\ ascending D /\
    forall i j, 0 <= i < cn C -> 0 <= j < cm C -> entry D i j = entry C i j).
Proof. exact (transpose_twice C g g'). Qed.
Print Assumptions C08_transpose_twice.
Definition ex_mat : csr := Csr 3 4 [0; 2; 2; 5] [3; 0; 2; 3; 1; 8] (Some [1; -2; 3; 3; -1; 8]) 7.
Example C08_example : wf ex_mat /\
  transpose (fun _ _ => 5) ex_mat true = Ok (Csr 4 3 [0; 1; 2; 3; 5] [0; 2; 2; 0; 2] (Some [-2; -1; 3; 1; 3]) 7).
Proof. split; [now apply wfb_ok | vm_compute; reflexivity]. Qed.

(** * C09 *)
Theorem C09_permute g A p qinv values : wf A -> is_operm (cn A) p -> is_operm (cm A) qinv ->
  sat (permute g A p qinv values) (fun C =>
    wf C /\ cn C = cn A /\ cm C = cm A /\ cprime C = cprime A /\ nnz C = nnz A /\
    (cx C = None <-> values = false \/ cx A = None) /\
    (forall i j, 0 <= i < cn A -> 0 <= j < cm A ->
       entry C i (oapply qinv j) = entry (if values then A else pattern A) (oapply p i) j /\
       (stored C i (oapply qinv j) <-> stored A (oapply p i) j))).
Proof. exact (permute_entry g A p qinv values). Qed.
Print Assumptions C09_permute.
Example C09_example : wf ex_mat /\ is_operm (cn ex_mat) (Some [2; 0; 1]) /\ is_operm (cm ex_mat) (Some [1; 2; 3; 0]) /\
  (C <- permute (fun _ _ => 0) ex_mat (Some [2; 0; 1]) (Some [1; 2; 3; 0]) true ;; Ok (cp C, firstn 5 (cj C)))
  = Ok ([0; 3; 5; 5], [3; 0; 2; 0; 1]).
Proof.
  split; [now apply wfb_ok|]. split; [now apply is_permb_ok|]. split; [now apply is_permb_ok|].
  vm_compute. reflexivity.
Qed.

(** * C10 *)
Theorem C10_submatrix g A r0 r1 c0 c1 wv : wf A -> 0 <= r0 <= r1 -> r1 <= cn A ->
  sat (submatrix g A r0 r1 c0 c1 wv) (fun B =>
    wf B /\ cn B = r1 - r0 /\ cm B = Z.max 0 (c1 - c0) /\ cprime B = cprime A /\ len (cj B) = nnz B /\
    (cx B = None <-> wv = false \/ cx A = None) /\
    forall i j, 0 <= i < r1 - r0 -> 0 <= j < c1 - c0 ->
      entry B i j = entry (if wv then A else pattern A) (r0 + i) (c0 + j) /\
      (stored B i j <-> stored A (r0 + i) (c0 + j))).
Proof. exact (submatrix_entry g A r0 r1 c0 c1 wv). Qed.
Print Assumptions C10_submatrix.
(* the claim about reversed ranges is false for rows: every such call writes out of bounds *)
Theorem C10_reversed_rows_refuted g A r0 r1 c0 c1 wv : wf A -> 0 <= r1 < r0 -> r0 <= cn A ->
  submatrix g A r0 r1 c0 c1 wv = Fail OOB.
Proof. exact (submatrix_reversed g A r0 r1 c0 c1 wv). Qed.
Print Assumptions C10_reversed_rows_refuted.
Example C10_example : wf ex_mat /\ 0 <= 0 < 1 /\ 1 <= cn ex_mat /\
  submatrix (fun _ _ => 0) ex_mat 1 3 2 4 true = Ok (Csr 2 2 [0; 0; 2] [0; 1] (Some [3; 3]) 7) /\
  submatrix (fun _ _ => 0) ex_mat 1 0 0 4 true = Fail OOB.
Proof.
  split; [now apply wfb_ok|]. split; [lia|]. split; [cbn; lia|].
  split; vm_compute; reflexivity.
Qed.

(** * C11 *)
Theorem C11_pvec p b x n : 0 <= n -> is_operm n p -> n <= len b -> n <= len x ->
  sat (pvec p b x n) (fun y => len y = len x /\
    forall i, get y i = if (0 <=? i) && (i <? n) then get b (oapply p i) else get x i).
Proof. exact (pvec_ok p b x n). Qed.
Print Assumptions C11_pvec.
Theorem C11_ipvec p b x n : 0 <= n -> is_operm n p -> n <= len b -> n <= len x ->
  sat (ipvec p b x n) (fun y => len y = len x /\
    (forall i, 0 <= i < n -> get y (oapply p i) = get b i) /\
    (forall i, ~ 0 <= i < n -> get y i = get x i)).
Proof. exact (ipvec_ok p b x n). Qed.
Print Assumptions C11_ipvec.
Theorem C11_pinv g p n : 0 <= n -> is_operm n p ->
  sat (pinv g p n) (fun q => (q = None <-> p = None) /\ is_operm n q /\
    forall i, 0 <= i < n -> oapply q (oapply p i) = i /\ oapply p (oapply q i) = i).
Proof. exact (pinv_ok g p n). Qed.
Print Assumptions C11_pinv.
Theorem C11_range_pvec x a b p : 0 <= a <= b -> b <= len x -> is_perm (b - a) p ->
  sat (range_pvec x a b p) (fun '(y, _) => len y = len x /\
    (forall i, 0 <= i < b - a -> get y (a + i) = get x (a + get p i)) /\
    (forall i, ~ a <= i < b -> get y i = get x i)).
Proof. exact (range_pvec_ok x a b p). Qed.
Print Assumptions C11_range_pvec.
Example C11_example : is_perm 3 [2; 0; 1] /\
  pvec (Some [2; 0; 1]) [7; 8; 9] [0; 0; 0; 4] 3 = Ok [9; 7; 8; 4] /\
  ipvec (Some [2; 0; 1]) [9; 7; 8] [0; 0; 0; 4] 3 = Ok [7; 8; 9; 4] /\
  pinv (fun _ _ => 5) (Some [2; 0; 1]) 3 = Ok (Some [1; 2; 0]) /\
  range_pvec [4; 7; 8; 9; 5] 1 4 [2; 0; 1] = Ok ([4; 9; 7; 8; 5], [9; 7; 8]).
Proof. split; [now apply is_permb_ok|]. repeat split; vm_compute; reflexivity. Qed.

(** * C12 *)
Theorem C12_random_permutation g rand n : 0 <= n -> (forall k, 0 <= rand k) ->
  sat (random_permutation g rand n) (is_perm n).
Proof. exact (random_permutation_ok g rand n). Qed.
Print Assumptions C12_random_permutation.
Example C12_example : (forall k, 0 <= (fun k : Z => 5 + k * k) k) /\
  random_permutation (fun _ _ => 0) (fun k => 5 + k * k) 5 = Ok [2; 3; 4; 0; 1].
Proof. split; [intros; nia | vm_compute; reflexivity]. Qed.

(** * C13 *)
Theorem C13_scatter A i beta x : wf A -> 2 <= cprime A -> cx A <> None ->
  0 <= i < cn A -> cm A <= len x ->
  sat (scatter A i beta x) (fun y => len y = len x /\
    (forall j, cong (cprime A) (get y j) (get x j + beta * entry A i j)) /\
    (forall j, get y j = get x j \/ balanced (cprime A) (get y j)) /\
    (forall j, ~ stored A i j -> get y j = get x j)).
Proof. exact (fun H1 H2 H3 => scatter_ok A H1 H2 H3 i beta x). Qed.
Print Assumptions C13_scatter.
Theorem C13_xApy A x y : wf A -> 2 <= cprime A -> cx A <> None ->
  cn A <= len x -> cm A <= len y ->
  sat (xApy x A y) (fun z => len z = len y /\
    (forall j, cong (cprime A) (get z j) (get y j + sum 0 (cn A) (fun i => get x i * entry A i j))) /\
    (forall j, get z j = get y j \/ balanced (cprime A) (get z j)) /\
    (forall j, ~ 0 <= j < cm A -> get z j = get y j)).
Proof. exact (fun H1 H2 H3 => xApy_ok A H1 H2 H3 x y). Qed.
Print Assumptions C13_xApy.
Theorem C13_Axpy A x y : wf A -> 2 <= cprime A -> cx A <> None ->
  cm A <= len x -> cn A <= len y ->
  sat (Axpy A x y) (fun z => len z = len y /\
    (forall i, 0 <= i < cn A ->
       cong (cprime A) (get z i) (get y i + sum 0 (cm A) (fun j => entry A i j * get x j))) /\
    (forall i, get z i = get y i \/ balanced (cprime A) (get z i)) /\
    (forall i, ~ 0 <= i < cn A -> get z i = get y i)).
Proof. exact (fun H1 H2 H3 => Axpy_ok A H1 H2 H3 x y). Qed.
Print Assumptions C13_Axpy.
Example C13_example : wf ex_mat /\ 2 <= cprime ex_mat /\ cx ex_mat <> None /\
  xApy [1; 2; 3] ex_mat [0; 1; 2; 3; 4] = Ok [-2; -2; -3; -1; 4] /\
  Axpy ex_mat [1; 2; 3; -3] [1; 1; 1; 9] = Ok [3; 1; -1; 9] /\
  scatter ex_mat 2 2 [1; 1; 1; 1] = Ok [1; -1; 0; 0].
Proof.
  split; [now apply wfb_ok|]. split; [cbn; lia|]. split; [discriminate|].
  repeat split; vm_compute; reflexivity.
Qed.

(** * C46 *)
Theorem C46_realloc g A k : wf A -> k < 0 \/ nnz A <= k ->
  sat (csr_realloc g A k) (fun B => wf B /\
    (cn B = cn A /\ cm B = cm A /\ cp B = cp A /\ cprime B = cprime A /\
     (forall px, 0 <= px < nnz A -> get (cj B) px = get (cj A) px /\ val B px = val A px)) /\
    len (cj B) = (if k <? 0 then nnz A else k) /\ (cx B = None <-> cx A = None)).
Proof. exact (csr_realloc_ok g A k). Qed.
Print Assumptions C46_realloc.
Theorem C46_resize g A n m : wf A -> cn A <= n -> cm A <= m ->
  sat (csr_resize g A n m) (fun B => wf B /\ cn B = n /\ cm B = m /\
    cj B = cj A /\ cx B = cx A /\ cprime B = cprime A /\ nnz B = nnz A /\
    (forall i, 0 <= i <= cn A -> get (cp B) i = get (cp A) i) /\
    (forall i, cn A <= i <= n -> get (cp B) i = nnz A)).
Proof. exact (csr_resize_ok g A n m). Qed.
Print Assumptions C46_resize.
Example C46_example : wf ex_mat /\
  csr_realloc (fun _ _ => 0) ex_mat (-1) = Ok (Csr 3 4 [0; 2; 2; 5] [3; 0; 2; 3; 1] (Some [1; -2; 3; 3; -1]) 7) /\
  csr_resize (fun _ _ => 0) ex_mat 5 6 = Ok (Csr 5 6 [0; 2; 2; 5; 5; 5] [3; 0; 2; 3; 1; 8] (Some [1; -2; 3; 3; -1; 8]) 7).
Proof. split; [now apply wfb_ok|]. split; vm_compute; reflexivity. Qed.
