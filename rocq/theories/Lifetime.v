(** Lifetimes of the blocks of memory: which blocks are allocated, used and freed, and when.

    The contents of the blocks are not modelled here (see the other models): what decides how many
    times a loop runs, and whether an array is enlarged, is given by arguments (lists of booleans).
    [T] is the number of threads; the scratch space of the threads of a parallel region is allocated
    before the region and freed after it.  realloc frees the block and returns another one: the local
    copies of the pointers that the code keeps in variables are kept as such in the model, so that
    using a copy that was not updated after realloc is undefined.  Allocation never fails (the code
    stops if it does); realloc to zero bytes, which may return NULL, is the subject of Null.v. *)
From Verif Require Import Base.

(* the next block, the live blocks *)
Record heap := Heap { h_next : Z; h_live : list Z }.
Definition H (T : Type) : Type := heap -> res (T * heap).
Definition hret {T} (v : T) : H T := fun h => Ok (v, h).
Definition hbind {S T} (m : H S) (k : S -> H T) : H T := fun h => bind (m h) (fun p => k (fst p) (snd p)).
Notation "x <~ m ;; k" := (hbind m (fun x => k)) (at level 61, m at next level, right associativity).
Notation "' p <~ m ;; k" := (hbind m (fun x => let 'p := x in k)) (at level 61, p pattern, m at next level, right associativity).

Fixpoint remove1 (b : Z) (l : list Z) : list Z :=
  match l with [] => [] | a :: l => if a =? b then l else a :: remove1 b l end.
Definition new : H Z := fun h => Ok (h_next h, Heap (h_next h + 1) (h_next h :: h_live h)).
(* reading or writing in a block that is not live, or freeing it, is undefined *)
Definition use (b : Z) : H unit := fun h => if existsb (Z.eqb b) (h_live h) then Ok (tt, h) else Fail OOB.
Definition free (b : Z) : H unit := fun h => if existsb (Z.eqb b) (h_live h) then Ok (tt, Heap (h_next h) (remove1 b (h_live h))) else Fail OOB.
(* free(NULL) does nothing *)
Definition ofree (o : option Z) : H unit := match o with Some b => free b | None => hret tt end.
Fixpoint uses (l : list Z) : H unit := match l with [] => hret tt | b :: l => _ <~ use b ;; uses l end.
Fixpoint frees (l : list Z) : H unit := match l with [] => hret tt | b :: l => _ <~ free b ;; frees l end.
Fixpoint news (k : nat) : H (list Z) := match k with O => hret [] | S k => b <~ new ;; l <~ news k ;; hret (b :: l) end.
Definition olist {A} (o : option A) : list A := match o with Some b => [b] | None => [] end.
(* a pointer that must not be NULL *)
Definition need {A} (o : option A) : H A := match o with Some a => hret a | None => fun _ => Fail OOB end.
Definition renew (b : Z) : H Z := _ <~ free b ;; new.
Definition orenew (o : option Z) : H (option Z) := match o with Some b => b <~ renew b ;; hret (Some b) | None => hret None end.
Definition onew (v : bool) : H (option Z) := if v then b <~ new ;; hret (Some b) else hret None.

(** ** src/spasm_util.c *)
(* struct spasm_csr: the structure, p, j, x *)
Record ocsr := Oc { oc_s : Z; oc_p : Z; oc_j : Z; oc_x : option Z }.
Definition csr_blocks (A : ocsr) : list Z := oc_s A :: oc_p A :: oc_j A :: olist (oc_x A).
(* struct spasm_triplet: the structure, i, j, x *)
Record otrip := Ot { ot_s : Z; ot_i : Z; ot_j : Z; ot_x : option Z }.
Definition trip_blocks (T : otrip) : list Z := ot_s T :: ot_i T :: ot_j T :: olist (ot_x T).
(* struct spasm_dm: the structure, p, q, r, c *)
Record odm := Od { od_s : Z; od_p : Z; od_q : Z; od_r : Z; od_c : Z }.
Definition dm_blocks (P : odm) : list Z := [od_s P; od_p P; od_q P; od_r P; od_c P].
Definition has {A} (o : option A) : bool := match o with Some _ => true | None => false end.

(* 90-102 *)
Definition o_csr_alloc (v : bool) : H ocsr := s <~ new ;; p <~ new ;; j <~ new ;; x <~ onew v ;; _ <~ uses [s; p] ;; hret (Oc s p j x).
(* 105-117 *)
Definition o_triplet_alloc (v : bool) : H otrip := s <~ new ;; i <~ new ;; j <~ new ;; x <~ onew v ;; hret (Ot s i j x).
(* 123-133 *)
Definition o_csr_realloc (A : ocsr) : H ocsr := _ <~ uses [oc_s A; oc_p A] ;; j <~ renew (oc_j A) ;; x <~ orenew (oc_x A) ;; hret (Oc (oc_s A) (oc_p A) j x).
(* 139-150 *)
Definition o_triplet_realloc (T : otrip) : H otrip := _ <~ use (ot_s T) ;; i <~ renew (ot_i T) ;; j <~ renew (ot_j T) ;; x <~ orenew (ot_x T) ;; hret (Ot (ot_s T) i j x).
(* 153-161 *)
Definition o_csr_free (A : ocsr) : H unit := _ <~ use (oc_s A) ;; _ <~ free (oc_p A) ;; _ <~ free (oc_j A) ;; _ <~ ofree (oc_x A) ;; free (oc_s A).
(* 163-169 *)
Definition o_triplet_free (T : otrip) : H unit := _ <~ use (ot_s T) ;; _ <~ free (ot_i T) ;; _ <~ free (ot_j T) ;; _ <~ ofree (ot_x T) ;; free (ot_s T).
(* 171-182 *)
Definition o_csr_resize (A : ocsr) : H ocsr := _ <~ use (oc_s A) ;; p <~ renew (oc_p A) ;; _ <~ use p ;; hret (Oc (oc_s A) p (oc_j A) (oc_x A)).
(* 184-197 *)
Definition o_dm_alloc : H odm := s <~ new ;; p <~ new ;; q <~ new ;; r <~ new ;; c <~ new ;; _ <~ use s ;; hret (Od s p q r c).
(* 199-206 *)
Definition o_dm_free (P : odm) : H unit := _ <~ use (od_s P) ;; frees [od_p P; od_q P; od_r P; od_c P; od_s P].
Definition use_csr (A : ocsr) : H unit := uses (csr_blocks A).
Definition use_trip (T : otrip) : H unit := uses (trip_blocks T).

(** ** src/spasm_triplet.c, spasm_transpose.c, spasm_permutation.c, spasm_submatrix.c *)
(* spasm_triplet.c:7-24; big: the arrays are full *)
Definition o_add_entry (big : bool) (T : otrip) : H otrip := T <~ (if big then o_triplet_realloc T else hret T) ;; _ <~ use_trip T ;; hret T.
(* spasm_triplet.c:60-96 *)
Definition o_deduplicate (A : ocsr) : H ocsr := v <~ new ;; _ <~ use_csr A ;; _ <~ use v ;; _ <~ free v ;; o_csr_realloc A.
(* spasm_triplet.c:36-58 *)
Definition o_remove_explicit_zeroes (A : ocsr) : H ocsr := _ <~ use_csr A ;; match oc_x A with None => hret A | Some _ => o_csr_realloc A end.
(* spasm_triplet.c:99-158 *)
Definition o_compress (T : otrip) : H ocsr :=
  _ <~ use_trip T ;;
  C <~ o_csr_alloc (has (ot_x T)) ;; w <~ new ;;
  _ <~ use_trip T ;; _ <~ use_csr C ;; _ <~ use w ;;
  _ <~ free w ;;
  C <~ o_deduplicate C ;; C <~ o_remove_explicit_zeroes C ;;
  _ <~ use_csr C ;; hret C.
(* spasm_transpose.c:5-52 *)
Definition o_transpose (C : ocsr) (keep : bool) : H ocsr :=
  _ <~ use_csr C ;;
  T <~ o_csr_alloc (keep && has (oc_x C)) ;; w <~ new ;;
  _ <~ use_csr C ;; _ <~ use_csr T ;; _ <~ use w ;;
  _ <~ free w ;; hret T.
(* spasm_permutation.c:49-61 *)
Definition o_pinv (p : Z) : H Z := q <~ new ;; _ <~ uses [p; q] ;; hret q.
(* spasm_permutation.c:68-103 *)
Definition o_permute (A : ocsr) (p qinv : Z) (v : bool) : H ocsr :=
  _ <~ use_csr A ;; C <~ o_csr_alloc (v && has (oc_x A)) ;; _ <~ uses [p; qinv] ;; _ <~ use_csr A ;; _ <~ use_csr C ;; hret C.
(* spasm_submatrix.c:7-43 *)
Definition o_submatrix (A : ocsr) (v : bool) : H ocsr :=
  _ <~ use_csr A ;; B <~ o_csr_alloc (has (oc_x A) && v) ;; _ <~ use_csr A ;; _ <~ use_csr B ;; o_csr_realloc B.

(** ** src/spasm_matching.c, spasm_scc.c, spasm_dm.c *)
(* spasm_matching.c:103-137 *)
Definition o_maximum_matching (A : ocsr) (p qinv : Z) : H unit :=
  w <~ news 5 ;; _ <~ uses (p :: qinv :: w) ;; _ <~ use_csr A ;; frees w.
(* spasm_scc.c:14-117; prev is not freed *)
Definition o_scc (A : ocsr) : H odm :=
  _ <~ use_csr A ;;
  P <~ o_dm_alloc ;;
  pstack <~ new ;; marks <~ new ;; prev <~ new ;; stack <~ new ;; lowlink <~ new ;;
  _ <~ uses (pstack :: marks :: prev :: stack :: lowlink :: dm_blocks P) ;; _ <~ use_csr A ;;
  _ <~ free stack ;; _ <~ free pstack ;; _ <~ free marks ;; _ <~ free lowlink ;;
  hret P.
(* spasm_dm.c:90-176; wide: n < m; empty: S has no row; jmatch, imatch and qinv are not freed *)
Definition o_dulmage_mendelsohn (A : ocsr) (wide empty : bool) : H odm :=
  jmatch <~ new ;; imatch <~ new ;;
  At <~ o_transpose A false ;;
  _ <~ (if wide then o_maximum_matching A jmatch imatch else o_maximum_matching At imatch jmatch) ;;
  DM <~ o_dm_alloc ;;
  _ <~ uses (jmatch :: imatch :: dm_blocks DM) ;; _ <~ use_csr A ;; _ <~ use_csr At ;;
  _ <~ o_csr_free At ;;
  _ <~ uses (imatch :: dm_blocks DM) ;;
  if empty then hret DM else
  qinv <~ o_pinv (od_q DM) ;;
  B <~ o_permute A (od_p DM) qinv false ;;
  C <~ o_submatrix B false ;;
  _ <~ o_csr_free B ;;
  SCC <~ o_scc C ;;
  _ <~ uses (dm_blocks SCC ++ dm_blocks DM) ;;
  _ <~ o_dm_free SCC ;;
  _ <~ o_csr_free C ;;
  hret DM.

(** ** Elimination *)
(* struct spasm_lu: the structure, U, qinv, Ltmp, p *)
Record ofact := Of { of_s : Z; of_U : ocsr; of_q : Z; of_L : option otrip; of_p : option Z }.
Definition fact_blocks (f : ofact) : list Z :=
  of_s f :: of_q f :: csr_blocks (of_U f) ++ match of_L f with Some L => trip_blocks L | None => [] end ++ olist (of_p f).
Definition use_fact (f : ofact) : H unit := uses (fact_blocks f).
(* scratch space for a parallel region *)
Definition region {R} (k : nat) (body : H R) : H R := w <~ news k ;; _ <~ uses w ;; v <~ body ;; _ <~ frees w ;; hret v.

(* spasm_schur.c:11-44 *)
Definition o_density (T : nat) (empty : bool) (A : ocsr) (p : Z) (f : ofact) : H unit :=
  if empty then hret tt else region (2 * T) (_ <~ use_csr A ;; _ <~ use p ;; use_fact f).
(* spasm_pivots.c:76-122 *)
Definition o_FL_column_pivots (A : ocsr) (pinv qinv : Z) : H unit := w <~ new ;; _ <~ use_csr A ;; _ <~ uses [w; pinv; qinv] ;; free w.
(* spasm_pivots.c:146-294 *)
Definition o_cycle_free_pivots (T : nat) (A : ocsr) (pinv qinv : Z) : H unit :=
  journal <~ new ;; _ <~ region (2 * T) (_ <~ use_csr A ;; uses [journal; pinv; qinv]) ;; free journal.
(* spasm_pivots.c:326-362 *)
Definition o_reorder (A : ocsr) (pinv qinv p : Z) : H unit :=
  xj <~ new ;; marks <~ new ;; pstack <~ new ;; _ <~ use_csr A ;; _ <~ uses [xj; marks; pstack; pinv; qinv; p] ;;
  _ <~ free xj ;; _ <~ free marks ;; free pstack.
(* spasm_pivots.c:405-443: one entry per pivot in L *)
Fixpoint o_add_entries (l : list bool) (L : otrip) : H otrip :=
  match l with [] => hret L | big :: l => L <~ o_add_entry big L ;; o_add_entries l L end.
(* spasm_pivots.c:369-448; big: U is too small; adds: for each pivot, L is too small *)
Definition o_extract (T : nat) (greedy big : bool) (adds : list bool) (A : ocsr) (p_in : option Z) (f : ofact) (p : Z) : H ofact :=
  qinv <~ new ;; pinv <~ new ;;
  _ <~ use_csr A ;; _ <~ uses [qinv; pinv] ;;
  _ <~ o_FL_column_pivots A pinv qinv ;;
  _ <~ (if greedy then o_cycle_free_pivots T A pinv qinv else hret tt) ;;
  _ <~ o_reorder A pinv qinv p ;;
  _ <~ use_fact f ;;
  U <~ (if big then o_csr_realloc (of_U f) else hret (of_U f)) ;;
  L <~ match of_L f with Some L => _ <~ uses (olist p_in ++ olist (of_p f)) ;; L <~ o_add_entries adds L ;; hret (Some L) | None => hret None end ;;
  _ <~ use_csr A ;; _ <~ use_csr U ;; _ <~ uses [p; pinv; qinv; of_q f] ;;
  _ <~ free pinv ;; _ <~ free qinv ;;
  hret (Of (of_s f) U (of_q f) L (of_p f)).

(* spasm_schur.c:96-182.  Sj, Sx, Lijx (Li, Lj, Lx): the local copies of the pointers.  For each row: S, then L, are too small *)
Fixpoint o_schur_rows (rows : list (bool * bool)) (A : ocsr) (p : Z) (p_in : option Z) (p_out : Z) (f : ofact) (C : ocsr) (Sp Sj : Z) (Sx : option Z)
  (L : option otrip) (Lijx : list Z) : H (ocsr * option otrip) :=
  match rows with
  | [] => hret (C, L)
  | (bigS, bigL) :: rows =>
    _ <~ use_csr A ;; _ <~ use p ;; _ <~ uses (of_s f :: of_q f :: csr_blocks (of_U f)) ;;
    '(C, Sj, Sx) <~ (if bigS : bool then C <~ o_csr_realloc C ;; hret (C, oc_j C, oc_x C) else hret (C, Sj, Sx)) ;;
    '(L, Lijx) <~ match L with
      | Some L0 => if bigL : bool then L0 <~ o_triplet_realloc L0 ;; hret (Some L0, ot_i L0 :: ot_j L0 :: olist (ot_x L0)) else hret (L, Lijx)
      | None => hret (L, Lijx) end ;;
    _ <~ uses (Sp :: Sj :: olist Sx ++ Lijx ++ p_out :: olist p_in) ;;
    o_schur_rows rows A p p_in p_out f C Sp Sj Sx L Lijx
  end.
(* spasm_schur.c:61-193.  L is the Ltmp of f *)
Definition o_schur (T : nat) (rows : list (bool * bool)) (A : ocsr) (p : Z) (f : ofact) (p_in : option Z) (p_out : Z) : H (ocsr * ofact) :=
  C <~ o_csr_alloc true ;;
  '(C, L) <~ region (2 * T) (o_schur_rows rows A p p_in p_out f C (oc_p C) (oc_j C) (oc_x C) (of_L f)
     match of_L f with Some L => ot_i L :: ot_j L :: olist (ot_x L) | None => [] end) ;;
  C <~ o_csr_realloc C ;;
  hret (C, Of (of_s f) (of_U f) (of_q f) L (of_p f)).
(* spasm_schur.c:346-413 *)
Definition o_dense_randomized (T : nat) (A : ocsr) (p : Z) (f : ofact) (Sd q : Z) : H unit :=
  region T (_ <~ use_csr A ;; _ <~ use_fact f ;; uses [p; Sd; q]).
(* spasm_echelonize.c:30-51; trivial: no row, or no entry *)
Definition o_test_completion (T : nat) (trivial : bool) (A : ocsr) (p : Z) (f : ofact) : H unit :=
  _ <~ use_csr A ;;
  if trivial then hret tt else
  Sd <~ new ;; q <~ new ;; Sp <~ new ;;
  _ <~ o_dense_randomized T A p f Sd q ;;
  _ <~ uses [Sd; Sp] ;;
  _ <~ free Sd ;; _ <~ free Sp ;; free q.
(* spasm_echelonize.c:83-178.  Up: the local copy of the pointer.  For each row: whether the completion is tested (and
   whether the matrix is empty), and is established; U, then L, are too small *)
Fixpoint o_gplu_rows (T : nat) (rows : list (option bool * bool * bool * bool)) (A : ocsr) (p : Z) (p_in : option Z) (ws : list Z) (Up : Z) (f : ofact) : H ofact :=
  match rows with
  | [] => hret f
  | (test, stop, bigU, bigL) :: rows =>
    _ <~ match test with Some e => o_test_completion T e A p f | None => hret tt end ;;
    if match test with Some e => e || stop | None => false end then hret f else
    _ <~ use (of_s f) ;;
    U <~ (if bigU : bool then o_csr_realloc (of_U f) else hret (of_U f)) ;;
    L <~ match of_L f with Some L => L <~ (if bigL : bool then o_triplet_realloc L else hret L) ;; hret (Some L) | None => hret None end ;;
    let f := Of (of_s f) U (of_q f) L (of_p f) in
    _ <~ use_csr A ;; _ <~ uses (Up :: p :: olist p_in ++ ws) ;; _ <~ use_fact f ;;
    o_gplu_rows T rows A p p_in ws Up f
  end.
(* spasm_echelonize.c:54-187 *)
Definition o_GPLU (T : nat) (rows : list (option bool * bool * bool * bool)) (A : ocsr) (p : Z) (p_in : option Z) (f : ofact) : H ofact :=
  _ <~ use_fact f ;;
  x <~ new ;; xj <~ new ;;
  f <~ o_gplu_rows T rows A p p_in [x; xj] (oc_p (of_U f)) f ;;
  _ <~ use_fact f ;;
  _ <~ free x ;; _ <~ free xj ;; hret f.
(* spasm_echelonize.c:192-223 *)
Definition o_update_U (Sd Sqinv q : Z) (f : ofact) : H ofact :=
  U <~ o_csr_realloc (of_U f) ;; _ <~ use_csr U ;; _ <~ uses [of_s f; Sd; Sqinv; q; of_q f] ;; hret (Of (of_s f) U (of_q f) (of_L f) (of_p f)).
(* spasm_echelonize.c:228-313 *)
Definition o_update_LU (Sd Sp Sqinv q p_out pivotal : Z) (f : ofact) (L : otrip) : H ofact :=
  U <~ o_csr_realloc (of_U f) ;; L <~ o_triplet_realloc L ;;
  let f := Of (of_s f) U (of_q f) (Some L) (of_p f) in
  _ <~ uses [Sd; Sp; Sqinv; q; p_out; pivotal] ;; _ <~ use_fact f ;; hret f.
(* spasm_schur.c:257-333 *)
Definition o_schur_dense (T : nat) (A : ocsr) (p : Z) (p_in : option Z) (f : ofact) (Sd q p_out : Z) : H ofact :=
  _ <~ uses [q; of_q f] ;;
  L <~ match of_L f with Some L => L <~ o_triplet_realloc L ;; hret (Some L) | None => hret None end ;;
  let f := Of (of_s f) (of_U f) (of_q f) L (of_p f) in
  region (2 * T) (_ <~ use_csr A ;; _ <~ uses (p :: Sd :: q :: p_out :: olist p_in) ;; _ <~ use_fact f ;; hret f).
(* spasm_echelonize.c:347-375.  For each round: no pivot was found (and whether the matrix is empty), and
   completion is established *)
Fixpoint o_lowrank_rounds (T : nat) (rounds : list (option bool * bool)) (A : ocsr) (p Sd q Sp : Z) (f : ofact) : H ofact :=
  match rounds with
  | [] => hret f
  | (test, stop) :: rounds =>
    _ <~ o_dense_randomized T A p f Sd q ;; _ <~ uses [Sd; Sp] ;;
    _ <~ match test with Some e => o_test_completion T e A p f | None => hret tt end ;;
    if match test with Some e => e || stop | None => false end then hret f else
    f <~ o_update_U Sd Sp q f ;;
    o_lowrank_rounds T rounds A p Sd q Sp f
  end.
(* spasm_echelonize.c:315-379 *)
Definition o_lowrank (T : nat) (rounds : list (option bool * bool)) (A : ocsr) (p : Z) (f : ofact) : H ofact :=
  Sd <~ new ;; q <~ new ;; Sp <~ new ;;
  f <~ o_lowrank_rounds T rounds A p Sd q Sp f ;;
  _ <~ free Sd ;; _ <~ free q ;; _ <~ free Sp ;; hret f.
(* spasm_echelonize.c:412-450.  k: the number of blocks of rows *)
Fixpoint o_dense_blocks (T k : nat) (A : ocsr) (p : Z) (p_in : option Z) (Sd p_out q Sqinv Sp pivotal : Z) (f : ofact) : H ofact :=
  match k with
  | O => hret f
  | S k =>
    _ <~ use_fact f ;;
    f <~ o_schur_dense T A p p_in f Sd q p_out ;;
    f <~ match of_L f with
      | Some L => _ <~ uses [Sd; Sp; Sqinv] ;; o_update_LU Sd Sp Sqinv q p_out pivotal f L
      | None => _ <~ uses [Sd; Sqinv] ;; o_update_U Sd Sqinv q f end ;;
    o_dense_blocks T k A p p_in Sd p_out q Sqinv Sp pivotal f
  end.
(* spasm_echelonize.c:385-463.  low: the rounds of the low-rank mode, if it is entered *)
Definition o_dense (T k : nat) (low : option (list (option bool * bool))) (A : ocsr) (p : Z) (p_in : option Z) (f : ofact) : H ofact :=
  Sd <~ new ;; p_out <~ new ;; q <~ new ;; Sqinv <~ new ;; Sp <~ new ;; pivotal <~ new ;;
  _ <~ use_csr A ;; _ <~ use pivotal ;;
  f <~ o_dense_blocks T k A p p_in Sd p_out q Sqinv Sp pivotal f ;;
  _ <~ free Sd ;; _ <~ free q ;; _ <~ free Sqinv ;; _ <~ free Sp ;; _ <~ free p_out ;; _ <~ free pivotal ;;
  match low with Some rounds => o_lowrank T rounds A p f | None => hret f end.

(* what happens in a round of the main loop *)
Inductive round :=
| Empty                                                                                  (* no entry left: status 1 *)
| Stop (greedy big : bool) (adds : list bool)                                            (* too few pivots: status 2 *)
| Dense (greedy big : bool) (adds : list bool) (norow : bool)                            (* dense Schur complement: status 2 *)
| Next (greedy big : bool) (adds : list bool) (norow : bool) (rows : list (bool * bool)). (* Schur complement *)
(* how the elimination is finished *)
Inductive finish :=
| ByLowrank (rounds : list (option bool * bool)) | ByDense (blocks : nat) (low : option (list (option bool * bool)))
| ByGPLU (rows : list (option bool * bool * bool * bool)) | NoMethod.

(* spasm_echelonize.c:525-565; also returns round and status = 1 *)
Fixpoint o_rounds (T : nat) (rs : list round) (A : ocsr) (rd : Z) (p : Z) (p_in : option Z) (f : ofact) : H (ocsr * Z * option Z * ofact * bool) :=
  match rs with
  | [] => hret (A, rd, p_in, f, false)
  | r :: rs =>
    _ <~ use_csr A ;;
    match r with
    | Empty => hret (A, rd, p_in, f, true)
    | Stop g b a => f <~ o_extract T g b a A p_in f p ;; hret (A, rd, p_in, f, false)
    | Dense g b a e => f <~ o_extract T g b a A p_in f p ;; _ <~ o_density T e A p f ;; hret (A, rd, p_in, f, false)
    | Next g b a e rows =>
      f <~ o_extract T g b a A p_in f p ;; _ <~ o_density T e A p f ;;
      p_out <~ new ;;
      '(C, f) <~ o_schur T rows A p f p_in p_out ;;
      _ <~ (if rd >? 0 then o_csr_free A else hret tt) ;;
      _ <~ ofree p_in ;;
      o_rounds T rs C (rd + 1) p (Some p_out) f
    end
  end.
(* the result: the structure, U, qinv, L, p *)
Record olu := Ol { ol_s : Z; ol_U : ocsr; ol_q : Z; ol_L : option ocsr; ol_p : option Z }.
Definition lu_blocks (f : olu) : list Z :=
  ol_s f :: ol_q f :: csr_blocks (ol_U f) ++ match ol_L f with Some L => csr_blocks L | None => [] end ++ olist (ol_p f).
(* spasm_echelonize.c:473-617 *)
Definition o_echelonize (T : nat) (hasL : bool) (rs : list round) (fin : finish) (A : ocsr) : H olu :=
  _ <~ use_csr A ;;
  U <~ o_csr_alloc true ;;
  Uq <~ new ;; _ <~ use Uq ;;
  '(L, Lp) <~ (if hasL then L <~ o_triplet_alloc true ;; Lp <~ new ;; _ <~ use Lp ;; hret (Some L, Some Lp) else hret (None, None)) ;;
  s <~ new ;;
  p <~ new ;;
  '(A, rd, p_in, f, done) <~ o_rounds T rs A 0 p None (Of s U Uq L Lp) ;;
  _ <~ use p ;;
  f <~ (if done : bool then hret f else match fin with
      | ByLowrank rounds => o_lowrank T rounds A p f
      | ByDense k low => o_dense T k low A p p_in f
      | ByGPLU rows => o_GPLU T rows A p p_in f
      | NoMethod => hret f end) ;;
  _ <~ free p ;; _ <~ ofree p_in ;;
  U <~ o_csr_resize (of_U f) ;; U <~ o_csr_realloc U ;;
  _ <~ (if rd >? 0 then o_csr_free A else hret tt) ;;
  '(L, Lp) <~ match of_L f with
    | Some L => _ <~ use (ot_s L) ;; Lp <~ orenew (of_p f) ;; C <~ o_compress L ;; _ <~ o_triplet_free L ;; hret (Some C, Lp)
    | None => hret (None, of_p f) end ;;
  _ <~ use (of_s f) ;;
  hret (Ol (of_s f) U (of_q f) L Lp).
(* spasm_util.c:208-215 *)
Definition o_lu_free (f : olu) : H unit :=
  _ <~ use (ol_s f) ;; _ <~ free (ol_q f) ;; _ <~ ofree (ol_p f) ;; _ <~ o_csr_free (ol_U f) ;;
  _ <~ match ol_L f with Some L => o_csr_free L | None => hret tt end ;; free (ol_s f).

(** ** Using a factorisation *)
Definition use_lu (f : olu) : H unit := uses (lu_blocks f).
(* spasm_kernel.c:51-116 and spasm_rref.c:56-126: Kp, Kj, Kx are the local copies of the pointers; for each row: K is too small *)
Fixpoint o_append_rows (rows : list bool) (K : ocsr) (Kp Kj : Z) (Kx : option Z) : H ocsr :=
  match rows with
  | [] => hret K
  | big :: rows =>
    '(K, Kj, Kx) <~ (if big : bool then K <~ o_csr_realloc K ;; hret (K, oc_j K, oc_x K) else hret (K, Kj, Kx)) ;;
    _ <~ uses (Kp :: Kj :: olist Kx) ;;
    o_append_rows rows K Kp Kj Kx
  end.
(* spasm_kernel.c:9-127 *)
Definition o_kernel (T : nat) (rows : list bool) (f : olu) : H ocsr :=
  _ <~ use_lu f ;;
  Ut <~ o_transpose (ol_U f) true ;;
  K <~ o_csr_alloc true ;;
  Utqinv <~ new ;; _ <~ uses [ol_q f; Utqinv] ;;
  K <~ region (2 * T) (_ <~ use_csr Ut ;; _ <~ use Utqinv ;; o_append_rows rows K (oc_p K) (oc_j K) (oc_x K)) ;;
  _ <~ free Utqinv ;; _ <~ o_csr_free Ut ;; _ <~ use_csr K ;; hret K.
(* spasm_kernel.c:133-179 *)
Definition o_kernel_from_rref (R : ocsr) (qinv : Z) : H ocsr :=
  Rt <~ o_transpose R true ;;
  p <~ new ;; _ <~ use_csr R ;; _ <~ use p ;;
  K <~ o_csr_alloc true ;; _ <~ use_csr K ;; _ <~ use_csr Rt ;; _ <~ uses [p; qinv] ;;
  _ <~ free p ;; _ <~ o_csr_free Rt ;; hret K.
(* spasm_rref.c:22-147 *)
Definition o_rref (T : nat) (rows : list bool) (f : olu) (Rqinv : Z) : H ocsr :=
  R <~ o_csr_alloc true ;;
  R <~ region (3 * T) (_ <~ use_lu f ;; o_append_rows rows R (oc_p R) (oc_j R) (oc_x R)) ;;
  _ <~ use_csr R ;; _ <~ use Rqinv ;; hret R.
(* spasm_solve.c:13-47 *)
Definition o_solve (f : olu) (b x : Z) : H unit :=
  _ <~ need (ol_L f) ;; _ <~ need (ol_p f) ;;
  y <~ new ;; z <~ new ;; Uq <~ new ;; _ <~ use_lu f ;; _ <~ uses [b; x; y; z; Uq] ;; _ <~ free y ;; _ <~ free z ;; free Uq.
Fixpoint times (k : nat) (m : H unit) : H unit := match k with O => hret tt | S k => _ <~ m ;; times k m end.
(* spasm_solve.c:52-93; n: the number of rows of B *)
Definition o_gesv (T n : nat) (f : olu) (B : ocsr) (ok : option Z) : H ocsr :=
  _ <~ use_csr B ;; _ <~ use_lu f ;; _ <~ need (ol_L f) ;;
  X <~ o_triplet_alloc true ;;
  w <~ news (2 * T) ;; _ <~ uses w ;;
  _ <~ times n (_ <~ use_csr B ;; b <~ need (nth_error w 0) ;; x <~ need (nth_error w 1) ;; _ <~ o_solve f b x ;; _ <~ uses (olist ok) ;; use_trip X) ;;
  _ <~ frees w ;;
  XX <~ o_compress X ;; _ <~ o_triplet_free X ;; hret XX.
(* struct spasm_rank_certificate: the structure, x, y, i, j *)
(* spasm_certificate.c:21-95 *)
Definition o_certificate (A : ocsr) (f : olu) : H (list Z) :=
  _ <~ use_csr A ;; _ <~ use_lu f ;; _ <~ need (ol_L f) ;; _ <~ need (ol_p f) ;;
  proof <~ news 5 ;; _ <~ uses proof ;;
  x <~ new ;; y <~ new ;;
  _ <~ o_solve f y x ;; _ <~ use_csr A ;; _ <~ o_solve f y x ;; _ <~ uses proof ;;
  _ <~ free x ;; _ <~ free y ;; hret proof.
(* spasm_certificate.c:97-161; early: one of the tests of lines 103-115 fails *)
Definition o_rank_verify (early : bool) (A : ocsr) (proof : list Z) : H unit :=
  _ <~ use_csr A ;; _ <~ uses proof ;;
  if early then hret tt else
  x <~ new ;; y <~ new ;; _ <~ uses (x :: y :: proof) ;; _ <~ use_csr A ;; _ <~ free x ;; free y.
(* spasm_certificate.c:164-219 *)
Definition o_factorization_verify (A : ocsr) (f : olu) : H unit :=
  _ <~ need (ol_L f) ;; _ <~ need (ol_p f) ;;
  x <~ new ;; y <~ new ;; z <~ new ;; t <~ new ;; pr <~ new ;;
  _ <~ uses [x; y; z; t; pr] ;; _ <~ use_csr A ;; _ <~ use_lu f ;;
  _ <~ free pr ;; _ <~ free x ;; _ <~ free y ;; _ <~ free z ;; free t.

(** ** Programs *)
(* spasm_io.c:111-147; for each entry: the arrays are full; mm: MatrixMarket; v: prime != -1 *)
Definition o_load (mm v : bool) (adds : list bool) : H otrip :=
  T <~ o_triplet_alloc v ;; T <~ o_add_entries adds T ;; if mm then hret T else o_triplet_realloc T.
(* tools/transpose.c:5-18 *)
Definition o_tool_transpose (mm : bool) (adds : list bool) : H unit :=
  T <~ o_load mm true adds ;; A <~ o_compress T ;; _ <~ o_triplet_free T ;;
  At <~ o_transpose A true ;; _ <~ o_csr_free A ;; _ <~ use_csr At ;; o_csr_free At.
(* tools/echelonize.c:56-82; rref: rows of the reduced form, if it is asked for *)
Definition o_tool_echelonize (nt : nat) (mm : bool) (adds : list bool) (hasL : bool) (rs : list round) (fin : finish) (rref : option (list bool)) : H unit :=
  T <~ o_load mm true adds ;; A <~ o_compress T ;; _ <~ o_triplet_free T ;; _ <~ use (oc_s A) ;;
  f <~ o_echelonize nt hasL rs fin A ;; _ <~ o_csr_free A ;;
  _ <~ match rref with
    | Some rows => Rqinv <~ new ;; R <~ o_rref nt rows f Rqinv ;; _ <~ use_csr R ;; _ <~ o_csr_free R ;; free Rqinv
    | None => use_csr (ol_U f) end ;;
  o_lu_free f.
(* tools/rank.c:75-127; cert: a certificate is asked for *)
Definition o_tool_rank (nt : nat) (mm : bool) (adds : list bool) (hasL : bool) (rs : list round) (fin : finish) (cert early : bool) : H unit :=
  T <~ o_load mm true adds ;; A <~ o_compress T ;; _ <~ o_triplet_free T ;; _ <~ use_csr A ;;
  f <~ o_echelonize nt (hasL || cert) rs fin A ;; _ <~ use_lu f ;;
  _ <~ (if cert then _ <~ times 3 (o_factorization_verify A f) ;; proof <~ o_certificate A f ;; _ <~ o_rank_verify early A proof ;; uses proof else hret tt) ;;
  _ <~ o_lu_free f ;; o_csr_free A.
(* tools/kernel.c:69-93 *)
Definition o_tool_kernel (nt : nat) (mm : bool) (adds : list bool) (hasL : bool) (rs : list round) (fin : finish) (rows : list bool) : H unit :=
  T <~ o_load mm true adds ;; A <~ o_compress T ;; _ <~ o_triplet_free T ;;
  f <~ o_echelonize nt hasL rs fin A ;; _ <~ o_csr_free A ;;
  K <~ o_kernel nt rows f ;; use_csr K.
(* tools/solve.c:69-114; n: the number of rows of B *)
Definition o_tool_solve (nt n : nat) (mm mm' : bool) (adds adds' : list bool) (rs : list round) (fin : finish) : H unit :=
  T <~ o_load mm true adds ;; A <~ o_compress T ;; _ <~ o_triplet_free T ;; _ <~ use_csr A ;;
  T <~ o_load mm' true adds' ;; B <~ o_compress T ;; _ <~ o_triplet_free T ;;
  f <~ o_echelonize nt true rs fin A ;;
  ok <~ new ;; X <~ o_gesv nt n f B (Some ok) ;; _ <~ use ok ;; use_csr X.
(* tools/dm.c:12-109 *)
Definition o_tool_dm (mm : bool) (adds : list bool) (wide empty : bool) : H unit :=
  T <~ o_load mm true adds ;; A <~ o_compress T ;; _ <~ o_triplet_free T ;; _ <~ use_csr A ;;
  DM <~ o_dulmage_mendelsohn A wide empty ;;
  qinv <~ o_pinv (od_q DM) ;; B <~ o_permute A (od_p DM) qinv true ;; _ <~ free qinv ;; _ <~ o_csr_free A ;;
  _ <~ use_csr B ;; uses (dm_blocks DM).
