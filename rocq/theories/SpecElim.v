(** Specifications for pivot selection and echelonization, independent of the code. *)
From Verif Require Import Base Spec.

(* Structural pivots of A: pinv[i] is the column of the pivot of row i, qinv[j] the row of the
   pivot of column j, -1 if there is none.  Pivots are on existing entries, at most one per row
   and column. *)
Record pivots (A : csr) (pinv qinv : list Z) : Prop := {
  pv_lp : len pinv = cn A;
  pv_lq : len qinv = cm A;
  pv_p : forall i, 0 <= i < cn A -> get pinv i = -1 \/
    0 <= get pinv i < cm A /\ get qinv (get pinv i) = i /\ stored A i (get pinv i);
  pv_q : forall j, 0 <= j < cm A -> get qinv j = -1 \/
    0 <= get qinv j < cn A /\ get pinv (get qinv j) = j
}.
(* number of non-negative elements *)
Definition npos (q : list Z) : Z := sum 0 (len q) (fun j => if 0 <=? get q j then 1 else 0).

(* the leftmost entry of row i is in column j *)
Definition leads (A : csr) (i j : Z) : Prop := stored A i j /\ forall c, stored A i c -> j <= c.
(* the column j is pivotal if and only if it leads a row, and its row is then a sparsest of the rows that it leads *)
Definition fl_choice (A : csr) (n : Z) (qinv : list Z) : Prop :=
  forall j, 0 <= j < cm A ->
    (get qinv j < 0 -> forall i, 0 <= i < n -> ~ leads A i j) /\
    (0 <= get qinv j -> leads A (get qinv j) j /\
       forall i, 0 <= i < n -> leads A i j -> rend A (get qinv j) - rbeg A (get qinv j) <= rend A i - rbeg A i).

(* no pivot can be added without creating a cycle *)
Definition maximal (A : csr) (pinv qinv : list Z) : Prop :=
  forall i c, 0 <= i < cn A -> get pinv i < 0 -> stored A i c -> get qinv c < 0 -> ~ acyclic A (upd qinv c i).
(* every entry of a row without pivot is in the column of some entry of a row with a pivot *)
Definition covered_rows (A : csr) (pinv : list Z) : Prop :=
  forall i c, 0 <= i < cn A -> get pinv i < 0 -> stored A i c ->
    exists k, 0 <= k < cn A /\ 0 <= get pinv k /\ stored A k c.

(* p lists the rows of A, the npiv pivotal rows first, in an order that makes them
   upper-triangular on the pivotal columns *)
Record pivot_order (A : csr) (pinv : list Z) (npiv : Z) (p : list Z) : Prop := {
  po_rng : forall k, 0 <= k < cn A -> 0 <= get p k < cn A;
  po_inj : forall k l, 0 <= k < cn A -> 0 <= l < cn A -> get p k = get p l -> k = l;
  po_piv : forall k, 0 <= k < cn A -> k < npiv <-> 0 <= get pinv (get p k);
  po_topo : forall k l, 0 <= k < l -> l < npiv -> ~ stored A (get p l) (get pinv (get p k))
}.

(* the matrix U while it is being built, with its pivots *)
Record elim (p : Z) (U : csr) (q : list Z) : Prop := {
  el_wf : wf U;
  el_x : cx U <> None;
  el_p : cprime U = p;
  el_up : upper p U q;
  el_first : pivot_first U q;
  el_red : reduced U
}.

(* struct spasm_lu (src/spasm.h:65-73) while factoring: U, qinv, Ltmp, p.  p is only used if
   there is an L. *)
Record fact := Fact { f_U : csr; f_q : list Z; f_L : option triplet; f_p : list Z }.

(* The factorisation f is extended to f' with k pivotal rows of A, pr[0..k-1], scaled to make their
   pivots 1.  L, if any, records the pivots and the numbers (given by p_in) of the rows. *)
Record extracted (p : Z) (A : csr) (p_in : option (list Z)) (f f' : fact) (pinv pr : list Z) (k : Z) : Prop := {
  ex_n : cn (f_U f') = cn (f_U f) + k;
  ex_m : cm (f_U f') = cm (f_U f);
  ex_len : len (cp (f_U f')) = len (cp (f_U f));
  ex_old : forall i, 0 <= i < cn (f_U f) -> rowl (f_U f') i = rowl (f_U f) i;
  ex_row : forall l c, 0 <= l < k ->
    cong p (entry A (get pr l) c) (entry A (get pr l) (get pinv (get pr l)) * entry (f_U f') (cn (f_U f) + l) c);
  ex_q : forall c, get (f_q f') c = get (f_q f) c \/
    get (f_q f) c < 0 /\ exists l, 0 <= l < k /\ c = get pinv (get pr l) /\ get (f_q f') c = cn (f_U f) + l;
  ex_qp : forall l, 0 <= l < k -> get (f_q f') (get pinv (get pr l)) = cn (f_U f) + l;
  ex_lp : len (f_p f') = len (f_p f);
  ex_L : match f_L f, f_L f' with
         | Some L, Some L' => twf L' /\ tx L' <> None /\ tn L' = tn L /\ tm L' = tm L /\ tprime L' = tprime L /\
             tlist L' = tlist L ++ map (fun l => (oapply p_in (get pr l), cn (f_U f) + l, entry A (get pr l) (get pinv (get pr l)))) (zseq 0 k) /\
             (forall c, ~ cn (f_U f) <= c < cn (f_U f) + k -> get (f_p f') c = get (f_p f) c) /\
             (forall l, 0 <= l < k -> get (f_p f') (cn (f_U f) + l) = oapply p_in (get pr l))
         | None, None => f_p f' = f_p f
         | _, _ => False end
}.

(** ** Echelonization *)
(* The random test is right about U: if U contains the Sn combinations, with coefficients rc, of
   the n rows of A listed in pr, then it contains these rows. *)
Definition detects (p : Z) (A : csr) (rc : Z -> Z -> Z) (Sn : Z) (pr : list Z) (n : Z) (U : csr) : Prop :=
  (forall k, 0 <= k < Sn -> in_rowspace p U (fun j => sum 0 n (fun i => rc k i * entry A (get pr i) j))) ->
  forall i, 0 <= i < n -> in_rowspace p U (entry A (get pr i)).
(* f holds a basis U of a subspace of the row space of A, in echelon form up to the order of columns *)
Record echelon_of (p : Z) (A : csr) (f : lu) : Prop := {
  eo_wf : wf (lu_U f);
  eo_red : reduced (lu_U f);
  eo_p : cprime (lu_U f) = p;
  eo_m : cm (lu_U f) = cm A;
  eo_n : cn (lu_U f) <= cn A;
  eo_up : upper p (lu_U f) (lu_qinv f);
  eo_first : pivot_first (lu_U f) (lu_qinv f);
  eo_rows : forall k, 0 <= k < cn (lu_U f) -> in_rowspace p A (entry (lu_U f) k)
}.
(* L and p go with U: A = L*U on the rows listed in p, on which L is lower-triangular *)
Record lower_of (p : Z) (A : csr) (f : lu) (L : csr) : Prop := {
  lo_L : lu_L f = Some L;
  lo_wf : wf L;
  lo_red : reduced L;
  lo_p : cprime L = p;
  lo_n : cn L = cn A;
  lo_m : cm L = cn (lu_U f);
  lo_nodup : nodup_rows L;
  lo_low : lower p L (lu_p f);
  lo_lenp : len (lu_p f) = cn (lu_U f);
  lo_LU : forall k j, 0 <= k < cn (lu_U f) -> 0 <= j < cm A ->
    cong p (entry A (get (lu_p f) k) j) (xA (lu_U f) (entry L (get (lu_p f) k)) j)
}.
