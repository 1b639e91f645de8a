(** C72: what the functions that call FFPACK make of the permutations that the library returns. *)
From Verif Require Import Base BaseFacts Spec SpecFacts Mat SpecFfpack DenseSpec Dense DenseProofs3 Ffpack FfpackProofs FfpackRef Checks.
From Coq Require Import Znumtheory ZifyBool.

(* n exchanges become an array of the numbers 0 ... n-1, each of them once, that gives the elements
   of any sequence in the order in which the exchanges put them *)
Theorem C72_conversion M L n : 0 <= n <= len M -> lapack n L ->
  sat (lapack_to_math M L n) (fun M' => len M' = len M /\ (forall k, n <= k -> get M' k = get M k) /\
    (forall j, 0 <= j < n -> 0 <= get M' j < n) /\
    (forall i j, 0 <= i < n -> 0 <= j < n -> get M' i = get M' j -> i = j) /\
    (forall T (f : Z -> T) j, 0 <= j < n -> exchanges L (Z.to_nat n) f j = f (get M' j))).
Proof. exact (lapack_to_math_ok M L n). Qed.
Print Assumptions C72_conversion.

Theorem C72_rref g F p n m A qinv : library_ok F p -> 0 <= n -> 0 <= m -> n * m <= len A ->
  (forall i j, 0 <= i < n -> 0 <= j < m -> balanced p (dget m A i j)) -> m <= len qinv ->
  sat (ffpack_rref g F n m A qinv) (fun '(rr, A', q') =>
    len q' = len qinv /\ (forall k, m <= k -> get q' k = get qinv k) /\ rref_ok p n m A rr A' (firstn (Z.to_nat m) q')).
Proof. exact (fun HF Hn Hm HA HB => ffpack_rref_ok g F p n m A HF Hn Hm HA HB qinv). Qed.
Print Assumptions C72_rref.

Theorem C72_LU g F p n m A pp qinv : library_ok F p -> 0 <= n -> 0 <= m -> n * m <= len A ->
  (forall i j, 0 <= i < n -> 0 <= j < m -> balanced p (dget m A i j)) -> n <= len pp -> m <= len qinv ->
  sat (ffpack_LU g F n m A pp qinv) (fun '(rr, A', p', q') =>
    len p' = len pp /\ (forall k, n <= k -> get p' k = get pp k) /\ len q' = len qinv /\ (forall k, m <= k -> get q' k = get qinv k) /\
    plu_ok p n m A rr A' (firstn (Z.to_nat n) p') (firstn (Z.to_nat m) q')).
Proof. exact (fun HF Hn Hm HA HB => ffpack_LU_ok g F p n m A HF Hn Hm HA HB pp qinv). Qed.
Print Assumptions C72_LU.

(* hence the hypothesis on FFPACK of the theorems about the elimination (C20, C26-C29, C48, C49,
   C53-C62) follows from the contract of the library itself *)
Theorem C72_elimination E p g F pv qv : library_ok F p -> (forall n m, n <= len (pv n m)) -> (forall n m, m <= len (qv n m)) ->
  e_rref E = calls_rref g F qv -> e_plu E = calls_plu g F pv qv -> ffpack_ok E p.
Proof. exact (calls_ok E p g F pv qv). Qed.
Print Assumptions C72_elimination.

(* a library that meets the contract, on every matrix and for every prime *)
Theorem C72_library p : ok_modulus p -> prime p -> library_ok (ref_library p) p.
Proof. exact (ref_library_ok p). Qed.
Print Assumptions C72_library.

(* the exchanges 0-2, 1-2 are a rotation of three elements, which is not its own inverse *)
Example C72_rotation : lapack 3 [2; 2; 2] /\ lapack_to_math [9; 9; 9; 9] [2; 2; 2] 3 = Ok [2; 0; 1; 9] /\
  map (exchanges [2; 2; 2] 3 (fun j => 10 + j)) [0; 1; 2] = [12; 10; 11].
Proof.
  split; [|split; reflexivity]. split; [reflexivity|]. intros i Hi. assert (i = 0 \/ i = 1 \/ i = 2) as [-> | [-> | ->]] by lia; change (0 <= 2 < 3); lia.
Qed.
Example C72_run : library_ok (ref_library 7) 7 /\
  ffpack_rref (fun _ _ => 5) (ref_library 7) 2 3 [0; 0; 3; 2; 1; 1] [8; 8; 8; 8] = Ok (2, [1; 0; 0; 0; 1; -3], [2; 0; 1; 8]) /\
  exists S' P, ffpack_LU (fun _ _ => 5) (ref_library 7) 2 3 [0; 0; 3; 2; 1; 1] [8; 8] [8; 8; 8; 8] = Ok (2, S', P, [2; 0; 1; 8]).
Proof.
  split; [apply ref_library_ok; [unfold ok_modulus; lia|now apply primeb_ok]|]. split; [vm_compute; reflexivity|]. eexists. eexists. vm_compute. reflexivity.
Qed.
