(** What is assumed of the two routines of FFPACK that spasm calls (pReducedRowEchelonForm and
    pPLUQ, called in src/spasm_ffpack.cpp:34 and 65), with permutations written the way the library
    returns them: as sequences of exchanges (the "LAPACK representation"). *)
From Verif Require Import Base Spec DenseSpec.

(* the sequence f after its a-th and b-th elements are exchanged *)
Definition exchange {T} (a b : Z) (f : Z -> T) : Z -> T := fun j => if j =? a then f b else if j =? b then f a else f j.
(* the sequence f after elements 0 and L[0] are exchanged, then 1 and L[1], ..., k exchanges in all *)
Fixpoint exchanges {T} (L : list Z) (k : nat) (f : Z -> T) : Z -> T :=
  match k with
  | O => f
  | S k => exchange (Z.of_nat k) (get L (Z.of_nat k)) (exchanges L k f)
  end.
(* n exchanges of elements of a sequence of length n *)
Definition lapack (n : Z) (L : list Z) : Prop := len L = n /\ forall i, 0 <= i < n -> 0 <= get L i < n.

(* Reduced row echelon form: once the exchanges Q are made in the columns of the basis R of the
   row space, row l is 1 in column l, 0 in the other rr first columns, and S'[l,k] in the others. *)
Record lib_rref_ok (p n m : Z) (S : list Z) (rr : Z) (S' Q : list Z) : Prop := {
  lr_len : len S' = len S;
  lr_rank : 0 <= rr <= n /\ rr <= m;
  lr_perm : lapack m Q;
  lr_bal : forall l k, 0 <= l < rr -> rr <= k < m -> balanced p (dget m S' l k);
  lr_span : exists R C D,
    (forall l k, 0 <= l < rr -> 0 <= k < m ->
       exchanges Q (Z.to_nat m) (R l) k = if k <? rr then (if k =? l then 1 else 0) else dget m S' l k) /\
    (forall i j, 0 <= i < n -> 0 <= j < m -> cong p (dget m S i j) (sum 0 rr (fun l => C i l * R l j))) /\
    (forall l j, 0 <= l < rr -> 0 <= j < m -> cong p (R l j) (sum 0 n (fun i => D l i * dget m S i j)))
}.
(* Factorisation: once the exchanges P are made in the rows of S, and the exchanges Q in its
   columns, it is the product of the matrices L and U that are packed in S'. *)
Record lib_plu_ok (p n m : Z) (S : list Z) (rr : Z) (S' P Q : list Z) : Prop := {
  ll_len : len S' = len S;
  ll_rank : 0 <= rr <= n /\ rr <= m;
  ll_permP : lapack n P;
  ll_perm : lapack m Q;
  ll_bal : forall i j, 0 <= i < n -> 0 <= j < m -> balanced p (dget m S' i j);
  ll_diag : forall l, 0 <= l < rr -> dget m S' l l <> 0;
  ll_prod : forall i j, 0 <= i < n -> 0 <= j < m ->
    cong p (exchanges P (Z.to_nat n) (fun i => exchanges Q (Z.to_nat m) (dget m S i)) i j)
      (sum 0 rr (fun l => (if l <=? i then dget m S' i l else 0) *
                          (if j <? l then 0 else if j =? l then 1 else dget m S' l j)))
}.

(* The routines of the library: they read the matrix and the two arrays that are to receive the
   permutations of the rows and of the columns, and return the rank and the new contents of the
   three arrays. *)
Record library := Library {
  l_rref : Z -> Z -> list Z -> list Z -> list Z -> Z * list Z * list Z * list Z;   (* FFPACK::pReducedRowEchelonForm *)
  l_plu : Z -> Z -> list Z -> list Z -> list Z -> Z * list Z * list Z * list Z     (* FFPACK::pPLUQ *)
}.
(* They do so on every n x m matrix whose coefficients are reduced, when the two arrays are filled with zeros. *)
Definition library_ok (F : library) (p : Z) : Prop :=
  forall n m S P Q, 0 <= n -> 0 <= m -> n * m <= len S -> (forall i j, 0 <= i < n -> 0 <= j < m -> balanced p (dget m S i j)) ->
    len P = n -> len Q = m -> (forall i, 0 <= i < n -> get P i = 0) -> (forall j, 0 <= j < m -> get Q j = 0) ->
    (let '(rr, S', _, Q') := l_rref F n m S P Q in lib_rref_ok p n m S rr S' Q') /\
    (let '(rr, S', P', Q') := l_plu F n m S P Q in lib_plu_ok p n m S rr S' P' Q').
