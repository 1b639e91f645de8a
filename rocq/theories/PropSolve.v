(** C20: systems with several right-hand sides, in parallel. *)
From Verif Require Import Base BaseFacts Spec Zp Mat MatFacts Checks Sched Solve Gesv GesvProofs.
From Coq Require Import Znumtheory.

(** * C20 *)
(* the solutions xs do not depend on the schedule ch *)
Theorem C20_gesv p A f L B : ok_modulus p -> prime p -> factors p A f L ->
  wf B -> cx B <> None -> cprime B = p -> cm B = cm A ->
  forall w, exists xs : Z -> Z -> Z, forall g ch o0, match o0 with Some o => cn B <= len o | None => True end ->
  sat (gesv g ch w f B o0) (fun '(X, o) =>
    wf X /\ cn X = cn B /\ cm X = cn A /\ cprime X = p /\ reduced X /\ nodup_rows X /\ no_zero X /\
    (forall i j, 0 <= i < cn B -> 0 <= j < cn A -> cong p (entry X i j) (xs i j)) /\
    (forall i, 0 <= i < cn B -> in_rowspace p A (entry B i) -> forall j, 0 <= j < cm A -> cong p (xA A (entry X i) j) (entry B i j)) /\
    match o0, o with
    | None, None => True
    | Some o0, Some o => len o = len o0 /\ (forall i, ~ 0 <= i < cn B -> get o i = get o0 i) /\
        forall i, 0 <= i < cn B -> (in_rowspace p A (entry B i) /\ get o i = 1) \/ (~ in_rowspace p A (entry B i) /\ get o i = 0)
    | _, _ => False
    end).
Proof. exact (fun M P F W X Q E => gesv_spec p A f L B M P F W X Q (Z.eq_le_incl _ _ (eq_sym E))). Qed.
Print Assumptions C20_gesv.
(* no interleaving of the atomic captures and the writes fails or blocks *)
Theorem C20_schedules p A f L B w g o0 : ok_modulus p -> prime p -> factors p A f L ->
  wf B -> cx B <> None -> cprime B = p -> cm B = cm A -> match o0 with Some o => cn B <= len o | None => True end ->
  let k := cn L * cn B in
  sched_safe (vstep_all w f B (cn L)) vdone (cn B) (vfuel B (cn L))
    (Vsh o0 0 (malloc (g 0) k) (malloc (g 1) k) (malloc (g 2) k), vstart B).
Proof. exact (fun M P F W X Q C O => proj1 (gesv_sched p M P A f L F B W X Q (Z.eq_le_incl _ _ (eq_sym C)) w o0 O g)). Qed.
Print Assumptions C20_schedules.
(* a 3x3 matrix of rank 2, right-hand sides in and out of the row space *)
Definition ex_S : csr := Csr 3 3 [0; 2; 4; 5] [0; 1; 0; 1; 2] (Some [2; 1; -3; 2; 3]) 7.
Definition ex_SL : csr := Csr 3 2 [0; 1; 2; 3] [0; 0; 1] (Some [2; -3; 3]) 7.
Definition ex_lu : lu := Lu true (Some ex_SL) (Csr 2 3 [0; 2; 3] [0; 1; 2] (Some [1; -3; 1]) 7) [0; -1; 1] [0; 2].
Definition ex_B : csr := Csr 3 3 [0; 3; 5; 6] [0; 1; 2; 2; 0; 2] (Some [1; -3; 1; 1; 1; 2]) 7.
Example C20_example : factors 7 ex_S ex_lu ex_SL /\ wf ex_B /\
  (* interleaved, and one after the other *)
  gesv (fun _ _ => 77) (fun k => 1 + k) (fun _ _ _ => 55) ex_lu ex_B (Some [8; 8; 8]) =
    Ok (Csr 3 3 [0; 2; 4; 5] [0; 2; 0; 2; 2] (Some [-3; -2; -3; -2; 3]) 7, Some [1; 0; 1]) /\
  gesv (fun _ _ => 77) (fun k => 0) (fun _ _ _ => 55) ex_lu ex_B (Some [8; 8; 8]) =
    Ok (Csr 3 3 [0; 2; 4; 5] [0; 2; 0; 2; 2] (Some [-3; -2; -3; -2; 3]) 7, Some [1; 0; 1]).
Proof.
  split; [apply factorsb_ok; [reflexivity|vm_compute; reflexivity]|]. split; [now apply wfb_ok|]. split; vm_compute; reflexivity.
Qed.
