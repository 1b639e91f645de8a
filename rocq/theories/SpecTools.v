(** Matrix files as a whole: what the command-line tools read and write. *)
From Verif Require Import Base BaseFacts Spec SpecText SpecSha.

(* f is the file of an n x m matrix with the entries es: row and column (from 1) and value *)
Definition matrix_file (f : list Z) (n m : Z) (es : list (Z * Z * Z)) : Prop :=
  (sms_file f n m 77 es \/ mm_file f n m es /\ es <> []) /\ Forall (inside n m) es /\ bytes f /\ len f < 2 ^ 61.
(* coefficient (i, j), from 1: the sum of the entries at this position *)
Definition fentry (es : list (Z * Z * Z)) (i j : Z) : Z := lsum (fun '(a, b, x) => if (a =? i) && (b =? j) then x else 0) es.
(* the entries at a position do not cancel modulo p, unless they all vanish *)
Definition no_cancel (p : Z) (es : list (Z * Z * Z)) : Prop :=
  forall i j x, In (i, j, x) es -> ~ cong p x 0 -> ~ cong p (fentry es i j) 0.
(* the same, for the rows before row r *)
Definition calm (p r : Z) (es : list (Z * Z * Z)) : Prop :=
  forall i j x, In (i, j, x) es -> i < r -> ~ cong p x 0 -> ~ cong p (fentry es i j) 0.
(* no position appears twice, the values are reduced modulo p and do not vanish *)
Definition clean (p : Z) (es : list (Z * Z * Z)) : Prop :=
  NoDup (map fst es) /\ Forall (fun '(_, _, x) => balanced p x /\ x <> 0) es.
(* the entries that do not vanish, reduced modulo p *)
Definition kept (p : Z) (es : list (Z * Z * Z)) : list (Z * Z * Z) := flat_map (keeps p true) es.
(* A, from 0, is the matrix of the entries es *)
Definition holds (p : Z) (n m : Z) (es : list (Z * Z * Z)) (A : csr) : Prop :=
  wf A /\ cn A = n /\ cm A = m /\ cprime A = p /\ reduced A /\ no_zero A /\ nodup_rows A /\ nnz A <= len es /\
  forall i j, 0 <= i < n -> 0 <= j < m -> cong p (entry A i j) (fentry es (i + 1) (j + 1)).
(* R lists in increasing order the numbers with the property P *)
Definition lists (R : list Z) (P : Z -> Prop) : Prop :=
  (forall s t, 0 <= s < t -> t < len R -> get R s < get R t) /\ forall i, In i R <-> P i.

(** ** Linear algebra on the matrix of a file *)
(* the matrix, from 0 *)
Definition fmat (es : list (Z * Z * Z)) (i j : Z) : Z := fentry es (i + 1) (j + 1).
(* v is a combination of the n rows of M modulo p; the vectors have length m *)
Definition rowsp (p n m : Z) (M : Z -> Z -> Z) (v : Z -> Z) : Prop :=
  exists x, forall j, 0 <= j < m -> cong p (sum 0 n (fun i => x i * M i j)) (v j).
(* the k vectors v are linearly independent modulo p *)
Definition indep (p m k : Z) (v : Z -> Z -> Z) : Prop :=
  forall x, (forall j, 0 <= j < m -> cong p (sum 0 k (fun i => x i * v i j)) 0) -> forall i, 0 <= i < k -> cong p (x i) 0.
(* the rows of M have a basis of r vectors *)
Definition frank (p n m : Z) (M : Z -> Z -> Z) (r : Z) : Prop :=
  0 <= r /\ exists v, indep p m r v /\ (forall k, 0 <= k < r -> rowsp p n m M (v k)) /\ forall i, 0 <= i < n -> rowsp p r m v (M i).
(* the rows of K are a basis of the vectors v with M v = 0 *)
Definition nullbasis (p n m : Z) (M : Z -> Z -> Z) (k : Z) (K : Z -> Z -> Z) : Prop :=
  (forall t i, 0 <= t < k -> 0 <= i < n -> cong p (sum 0 m (fun j => M i j * K t j)) 0) /\
  indep p m k K /\
  forall v, (forall i, 0 <= i < n -> cong p (sum 0 m (fun j => M i j * v j)) 0) -> rowsp p k m K v.
(* what the tools write *)
Definition written (f : list Z) (n m : Z) (es : list (Z * Z * Z)) : Prop :=
  sms_file f n m 77 es /\ Forall (inside n m) es /\ bytes f.
(* the entries of the transposed matrix *)
Definition swapped (es : list (Z * Z * Z)) : list (Z * Z * Z) := map (fun '(i, j, x) => (j, i, x)) es.
(* M, or its transpose *)
Definition flipped (b : bool) (M : Z -> Z -> Z) (i j : Z) : Z := if b then M j i else M i j.
(* r rows in echelon form, up to the order of the columns: row k is 1 in column piv k, in which the next rows vanish *)
Definition echelon_rows (p m r : Z) (E : Z -> Z -> Z) (piv : Z -> Z) : Prop :=
  forall k, 0 <= k < r -> 0 <= piv k < m /\ cong p (E k (piv k)) 1 /\ forall l, 0 <= l < k -> cong p (E k (piv l)) 0.
(* r rows in reduced echelon form *)
Definition reduced_rows (p m r : Z) (E : Z -> Z -> Z) (piv : Z -> Z) : Prop :=
  forall k, 0 <= k < r -> 0 <= piv k < m /\ forall l, 0 <= l < r -> cong p (E l (piv k)) (if k =? l then 1 else 0).
(* positions with the property R, no two of them in the same row or column *)
Definition transversal (n m : Z) (R : Z -> Z -> Prop) (l : list (Z * Z)) : Prop :=
  NoDup (map fst l) /\ NoDup (map snd l) /\ Forall (fun '(i, j) => 0 <= i < n /\ 0 <= j < m /\ R i j) l.
(* k is the size of the largest ones *)
Definition srank (n m : Z) (R : Z -> Z -> Prop) (k : Z) : Prop :=
  (exists l, transversal n m R l /\ len l = k) /\ forall l, transversal n m R l -> len l <= k.
