(** Specifications, independent of the code: what the functions should mean. *)
From Verif Require Import Base.

(** ** Integers modulo p *)

(* supported moduli (src/spasm_ZZp.c:10-11, documented limits of the library) *)
Definition ok_modulus (p : Z) : Prop := 2 <= p <= 4294967291.

(* r lies in the balanced interval [p/2 - p + 1, p/2] *)
Definition balanced (p r : Z) : Prop := p / 2 - p + 1 <= r <= p / 2.

(* r is the balanced representative of z modulo p *)
Definition canon (p z r : Z) : Prop := balanced p r /\ cong p r z.

(* the balanced representative, as a function *)
Definition bal (p z : Z) : Z :=
  let r := z mod p in if r >? p / 2 then r - p else r.

(** ** Matrices *)

(* src/spasm.h:39-52, struct spasm_csr.  [nzmax] is the length of cj; the member
   [field] is reduced to the modulus.  cx = None is the NULL pointer (pattern only). *)
Record csr := Csr {
  cn : Z;               (* number of rows *)
  cm : Z;               (* number of columns *)
  cp : list Z;          (* row pointers *)
  cj : list Z;          (* column indices *)
  cx : option (list Z); (* numerical values *)
  cprime : Z            (* modulus *)
}.

(* value of the px-th entry (1 in pattern-only matrices) *)
Definition val (A : csr) (px : Z) : Z :=
  match cx A with Some x => get x px | None => 1 end.
(* range of entries of row i *)
Definition rbeg (A : csr) (i : Z) : Z := get (cp A) i.
Definition rend (A : csr) (i : Z) : Z := get (cp A) (i + 1).
(* number of entries *)
Definition nnz (A : csr) : Z := get (cp A) (cn A).

(* a well-formed compressed-row matrix *)
Definition wf (A : csr) : Prop :=
  0 <= cn A /\ 0 <= cm A /\
  cn A + 1 <= len (cp A) /\ get (cp A) 0 = 0 /\
  (forall i, 0 <= i < cn A -> rbeg A i <= rend A i) /\
  nnz A <= len (cj A) /\
  (forall px, 0 <= px < nnz A -> 0 <= get (cj A) px < cm A) /\
  (match cx A with Some x => len x = len (cj A) | None => True end).

(* coefficient (i, j) of the matrix denoted by A: the sum of the entries stored there *)
Definition entry (A : csr) (i j : Z) : Z :=
  sum (rbeg A i) (rend A i) (fun px => if get (cj A) px =? j then val A px else 0).

(* there is an entry at position (i, j) *)
Definition stored (A : csr) (i j : Z) : Prop :=
  exists px, rbeg A i <= px < rend A i /\ get (cj A) px = j.

(* no column appears twice in a row *)
Definition nodup_rows (A : csr) : Prop :=
  forall i px py, 0 <= i < cn A -> rbeg A i <= px < rend A i -> rbeg A i <= py < rend A i ->
    get (cj A) px = get (cj A) py -> px = py.

(* A without its values *)
Definition pattern (A : csr) : csr := Csr (cn A) (cm A) (cp A) (cj A) None (cprime A).

(* no explicit zero *)
Definition no_zero (A : csr) : Prop := forall px, 0 <= px < nnz A -> val A px <> 0.

(* columns in non-decreasing order in each row *)
Definition ascending (T : csr) : Prop :=
  forall i px py, 0 <= i < cn T -> rbeg T i <= px <= py -> py < rend T i ->
    get (cj T) px <= get (cj T) py.

(* src/spasm.h:54-63, struct spasm_triplet.  [nzmax] is the length of tj. *)
Record triplet := Triplet {
  tnz : Z; tn : Z; tm : Z;
  ti : list Z; tj : list Z; tx : option (list Z);
  tprime : Z
}.
Definition tval (T : triplet) (k : Z) : Z :=
  match tx T with Some x => get x k | None => 1 end.
Definition twf (T : triplet) : Prop :=
  0 <= tn T /\ 0 <= tm T /\ 0 <= tnz T <= len (tj T) /\ len (ti T) = len (tj T) /\
  (match tx T with Some x => len x = len (tj T) | None => True end) /\
  (forall k, 0 <= k < tnz T -> 0 <= get (ti T) k < tn T /\ 0 <= get (tj T) k < tm T).
Definition tentry (T : triplet) (i j : Z) : Z :=
  sum 0 (tnz T) (fun k => if (get (ti T) k =? i) && (get (tj T) k =? j) then tval T k else 0).

(* there is a triplet at (i, j) *)
Definition tstored (T : triplet) (i j : Z) : Prop :=
  exists k, 0 <= k < tnz T /\ get (ti T) k = i /\ get (tj T) k = j.

(* lo, lo + 1, ..., hi - 1 *)
Definition zseq (lo hi : Z) : list Z := map (fun k => lo + Z.of_nat k) (seq 0 (Z.to_nat (hi - lo))).
(* the entries of row i, in order *)
Definition rowl (A : csr) (i : Z) : list (Z * Z) :=
  map (fun px => (get (cj A) px, val A px)) (zseq (rbeg A i) (rend A i)).
(* the entries, in order *)
Definition tlist (T : triplet) : list (Z * Z * Z) :=
  map (fun k => (get (ti T) k, get (tj T) k, tval T k)) (zseq 0 (tnz T)).
(* what inserting an entry adds: the reduced entry, nothing if it is zero *)
Definition keeps (p : Z) (wv : bool) (e : Z * Z * Z) : list (Z * Z * Z) :=
  let '(i, j, x) := e in
  if wv then (if bal p x =? 0 then [] else [(i, j, bal p x)]) else [(i, j, 1)].
Definition has_values (T : triplet) : bool := match tx T with Some _ => true | None => false end.

(** ** Permutations *)
(* a permutation of 0..n-1, as an array *)
Definition is_perm (n : Z) (p : list Z) : Prop :=
  len p = n /\ (forall i, 0 <= i < n -> 0 <= get p i < n) /\
  (forall i j, 0 <= i < n -> 0 <= j < n -> get p i = get p j -> i = j).
(* NULL denotes the identity (src/spasm.h:139) *)
Definition oapply (p : option (list Z)) (i : Z) : Z :=
  match p with Some p => get p i | None => i end.
Definition is_operm (n : Z) (p : option (list Z)) : Prop :=
  match p with Some p => is_perm n p | None => True end.

(** ** Alternating paths *)
(* [qinv j] is the row holding the pivot of column j (negative: none).  There is an edge
   from column j to each column of its pivotal row. *)
Definition edge (A : csr) (qinv : list Z) (j c : Z) : Prop :=
  0 <= j < len qinv /\ 0 <= get qinv j /\ stored A (get qinv j) c.
Inductive path (A : csr) (qinv : list Z) : Z -> Z -> Prop :=
| path_refl a : path A qinv a a
| path_step a b c : path A qinv a b -> edge A qinv b c -> path A qinv a c.
(* no cycle, apart from the loop at each pivotal column *)
Definition acyclic (A : csr) (qinv : list Z) : Prop :=
  forall a b, edge A qinv a b -> a <> b -> ~ path A qinv b a.
(* pivots are on existing rows *)
Definition qinv_ok (A : csr) (qinv : list Z) : Prop :=
  len qinv = cm A /\ forall j, 0 <= j < cm A -> get qinv j < cn A.

(** ** Row spaces and triangular matrices *)
(* coefficient j of x * A *)
Definition xA (A : csr) (x : Z -> Z) (j : Z) : Z := sum 0 (cn A) (fun i => x i * entry A i j).
(* b is a linear combination of the rows of A modulo p *)
Definition in_rowspace (p : Z) (A : csr) (b : Z -> Z) : Prop :=
  exists y, forall j, 0 <= j < cm A -> cong p (xA A y j) (b j).

(* U is upper-triangular with unit diagonal, up to the order of columns: column j holds the
   pivot of row (qinv j), and later rows have no entry there *)
Record upper (p : Z) (U : csr) (qinv : list Z) : Prop := {
  up_len : len qinv = cm U;
  up_rng : forall j, 0 <= j < cm U -> -1 <= get qinv j < cn U;
  up_row : forall i, 0 <= i < cn U -> exists j, 0 <= j < cm U /\ get qinv j = i;
  up_inj : forall j k, 0 <= j < cm U -> 0 <= k < cm U -> 0 <= get qinv j ->
             get qinv j = get qinv k -> j = k;
  up_unit : forall j, 0 <= j < cm U -> 0 <= get qinv j -> cong p (entry U (get qinv j) j) 1;
  up_tri : forall j i, 0 <= j < cm U -> 0 <= get qinv j < i -> i < cn U -> ~ stored U i j
}.

(* the first entry of each row is its pivot *)
Definition pivot_first (U : csr) (qinv : list Z) : Prop :=
  forall i, 0 <= i < cn U -> rbeg U i < rend U i /\ get qinv (get (cj U) (rbeg U i)) = i.

(* R is in reduced row echelon form, up to the order of columns: the first entry of each row is
   its pivot, it is 1, it is the only entry of its column; qinv locates the pivots *)
Record rref_form (p : Z) (R : csr) (qinv : list Z) : Prop := {
  rr_len : len qinv = cm R;
  rr_first : pivot_first R qinv;
  rr_only : forall j, 0 <= j < cm R -> get qinv j = -1 \/
              0 <= get qinv j < cn R /\ get (cj R) (rbeg R (get qinv j)) = j;
  rr_unit : forall i, 0 <= i < cn R -> cong p (val R (rbeg R i)) 1;
  rr_alone : forall i px, 0 <= i < cn R -> rbeg R i < px < rend R i -> get qinv (get (cj R) px) = -1
}.

(** ** Kernels *)
(* coefficient i of A * v *)
Definition Av (A : csr) (v : Z -> Z) (i : Z) : Z := sum 0 (cm A) (fun j => entry A i j * v j).
Definition in_kernel (p : Z) (A : csr) (v : Z -> Z) : Prop :=
  forall i, 0 <= i < cn A -> cong p (Av A v i) 0.
(* the rows of A are linearly independent *)
Definition independent (p : Z) (A : csr) : Prop :=
  forall y, (forall j, 0 <= j < cm A -> cong p (xA A y j) 0) -> forall i, 0 <= i < cn A -> cong p (y i) 0.
(* the rows of K are a basis of the right kernel of A *)
Record kernel_basis (p : Z) (A K : csr) : Prop := {
  kb_m : cm K = cm A;
  kb_in : forall k, 0 <= k < cn K -> in_kernel p A (entry K k);
  kb_indep : independent p K;
  kb_span : forall v, in_kernel p A v -> in_rowspace p K v
}.

(* L is lower-triangular with invertible diagonal on the rows pr[0], pr[1], ... *)
Record lower (p : Z) (L : csr) (pr : list Z) : Prop := {
  lo_len : cm L <= len pr;
  lo_rng : forall j, 0 <= j < cm L -> 0 <= get pr j < cn L;
  lo_diag : forall j, 0 <= j < cm L -> ~ cong p (entry L (get pr j) j) 0;
  lo_tri : forall j k, 0 <= j < k -> k < cm L -> cong p (entry L (get pr j) k) 0
}.

(* the values of A are reduced *)
Definition reduced (A : csr) : Prop :=
  cx A <> None /\ forall px, 0 <= px < nnz A -> balanced (cprime A) (val A px).

(* src/spasm.h:65-73, struct spasm_lu; L = None is NULL.  [r] is the number of rows of U and
   [Ltmp] is only used while factoring. *)
Record lu := Lu {
  lu_complete : bool;
  lu_L : option csr;
  lu_U : csr;
  lu_qinv : list Z;
  lu_p : list Z
}.

(* f is a factorization of A: U spans the rows of A, and A = L*U on the pivotal rows *)
Record factors (p : Z) (A : csr) (f : lu) (L : csr) : Prop := {
  fa_L : lu_L f = Some L;
  fa_wfU : wf (lu_U f);
  fa_wfL : wf L;
  fa_redU : reduced (lu_U f);
  fa_redL : reduced L;
  fa_pU : cprime (lu_U f) = p;
  fa_pL : cprime L = p;
  fa_m : cm (lu_U f) = cm A;
  fa_n : cn L = cn A;
  fa_r : cm L = cn (lu_U f);
  fa_nodup : nodup_rows L;
  fa_upper : upper p (lu_U f) (lu_qinv f);
  fa_lower : lower p L (lu_p f);
  fa_span : forall i, 0 <= i < cn A -> in_rowspace p (lu_U f) (entry A i);
  fa_LU : forall k j, 0 <= k < cn (lu_U f) -> 0 <= j < cm A ->
    cong p (entry A (get (lu_p f) k) j) (xA (lu_U f) (entry L (get (lu_p f) k)) j)
}.
