(** What is assumed of FFPACK, the dense linear algebra library that spasm calls
    (src/spasm_ffpack.cpp:21-75), and what a dense Schur complement is. *)
From Verif Require Import Base Spec.

(* entry of a dense matrix with m columns *)
Definition dget (m : Z) (S : list Z) (i j : Z) : Z := get S (i * m + j).

(* Reduced row echelon form of the n x m matrix S: rr is its rank; Q lists the columns, those of
   the pivots first; in the basis of the row space that is obtained, row l is 1 on column Q[l], 0 on
   the other pivotal columns, and S'[l,k] on column Q[k] for k >= rr. *)
Record rref_ok (p n m : Z) (S : list Z) (rr : Z) (S' Q : list Z) : Prop := {
  rk_len : len S' = len S;
  rk_rank : 0 <= rr <= n /\ rr <= m;
  rk_lenQ : len Q = m;
  rk_rng : forall k, 0 <= k < m -> 0 <= get Q k < m;
  rk_inj : forall k l, 0 <= k < m -> 0 <= l < m -> get Q k = get Q l -> k = l;
  rk_bal : forall l k, 0 <= l < rr -> rr <= k < m -> balanced p (dget m S' l k);
  rk_span : exists R C D,
    (forall l k, 0 <= l < rr -> 0 <= k < m -> R l (get Q k) = if k <? rr then (if k =? l then 1 else 0) else dget m S' l k) /\
    (forall i j, 0 <= i < n -> 0 <= j < m -> cong p (dget m S i j) (sum 0 rr (fun l => C i l * R l j))) /\
    (forall l j, 0 <= l < rr -> 0 <= j < m -> cong p (R l j) (sum 0 n (fun i => D l i * dget m S i j)))
}.
(* Factorisation of the n x m matrix S: rr is its rank; P lists the rows and Q the columns, and
   S[P[i], Q[j]] is the product of row i of L and of column j of U, where the lower-triangular L
   (n x rr, non-zero diagonal) and the unit upper-triangular U (rr x m) are packed in S'. *)
Record plu_ok (p n m : Z) (S : list Z) (rr : Z) (S' P Q : list Z) : Prop := {
  lk_len : len S' = len S;
  lk_rank : 0 <= rr <= n /\ rr <= m;
  lk_lenP : len P = n;
  lk_rngP : forall k, 0 <= k < n -> 0 <= get P k < n;
  lk_injP : forall k l, 0 <= k < n -> 0 <= l < n -> get P k = get P l -> k = l;
  lk_lenQ : len Q = m;
  lk_rng : forall k, 0 <= k < m -> 0 <= get Q k < m;
  lk_inj : forall k l, 0 <= k < m -> 0 <= l < m -> get Q k = get Q l -> k = l;
  lk_bal : forall i j, 0 <= i < n -> 0 <= j < m -> balanced p (dget m S' i j);
  lk_diag : forall l, 0 <= l < rr -> dget m S' l l <> 0;
  lk_prod : forall i j, 0 <= i < n -> 0 <= j < m ->
    cong p (dget m S (get P i) (get Q j))
      (sum 0 rr (fun l => (if l <=? i then dget m S' i l else 0) *
                          (if j <? l then 0 else if j =? l then 1 else dget m S' l j)))
}.
