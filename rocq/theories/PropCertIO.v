(** C43: the files of rank certificates. *)
From Coq Require Import Znumtheory.
From Verif Require Import Base BaseFacts Spec SpecFacts SpecText Mat SpecRank SpecSha ShaHash Prng SpecCert Cert Stdio CertIO CertIOProofs
  CertProofs CertCreate CertSound CertFact Checks PropReach PropCert.

(** * C43 *)
(* Full statement: save and then load gives c.
   It is false: the columns are read in the array of the rows, and the array of the columns is left uninitialised. *)
Theorem C43_reload_partial g c : storable c ->
  sat (f <- cert_save c ;; cert_load g f) (fun o => exists c', o = Some c' /\
    c_r c' = c_r c /\ c_prime c' = c_prime c /\ c_hash c' = c_hash c /\ c_x c' = c_x c /\ c_y c' = c_y c /\
    c_i c' = c_j c /\ forall k, 0 <= k < c_r c -> get (c_j c') k = g 1 k).
Proof. exact (cert_reload g c). Qed.
Print Assumptions C43_reload_partial.
(* an accepted certificate, that is rejected after the round trip *)
Theorem C43_reload_refuted : exists A hash c g, wf A /\ prime (cprime A) /\ storable c /\ cert_wf c /\
  rank_verify (fun _ _ _ => 6) 20 A hash c = Ok true /\
  sat (f <- cert_save c ;; cert_load g f) (fun o => exists c', o = Some c' /\ c' <> c /\ rank_verify (fun _ _ _ => 6) 20 A hash c' = Ok false).
Proof.
  exists ex_S, (zseq 0 32), (Cert 2 7 (zseq 0 32) [0; 2] [0; 2] [-1; 2] [2; 0]), (fun _ _ => 1).
  split; [now apply wfb_ok|]. split; [now apply primeb_ok|]. split.
  { split; [cbn; lia|]. split; [unfold int64; cbn; lia|]. split; [reflexivity|]. split; [apply Forall_forall; intros x Hx; apply RowList.In_zseq in Hx; unfold byte; lia|].
    cbn [In c_i c_j c_x c_y c_r]. intros l Hl. assert (E : l = [0; 2] \/ l = [-1; 2] \/ l = [2; 0]) by intuition.
    destruct E as [->|[->| ->]]; split; try reflexivity; repeat constructor; lia. }
  split; [constructor; reflexivity || (cbn; lia)|]. split; [vm_compute; reflexivity|].
  assert (E : (f <- cert_save (Cert 2 7 (zseq 0 32) [0; 2] [0; 2] [-1; 2] [2; 0]) ;; cert_load (fun _ _ => 1) f) = Ok (Some (Cert 2 7 (zseq 0 32) [0; 2] [1; 1] [-1; 2] [2; 0])))
    by (vm_compute; reflexivity).
  rewrite E. cbn [sat]. eexists. split; [reflexivity|]. split; [discriminate|vm_compute; reflexivity].
Qed.
Print Assumptions C43_reload_refuted.
(* whatever the memory contains, a certificate whose rows and columns differ is not read back *)
Theorem C43_never_refuted g c : storable c -> c_i c <> c_j c -> (f <- cert_save c ;; cert_load g f) <> Ok (Some c).
Proof.
  intros Hc Hd E. pose proof (C43_reload_partial g c Hc) as H. rewrite E in H. destruct H as (c' & H1 & _ & _ & _ & _ & _ & H2 & _). injection H1 as <-. auto.
Qed.
Print Assumptions C43_never_refuted.
Example C43_example : let c := Cert 1 (-7) (fill 32 255) [3] [1] [- 2 ^ 31] [2 ^ 31 - 1] in storable c /\
  (f <- cert_save c ;; cert_load (fun _ _ => 9) f) = Ok (Some (Cert 1 (-7) (fill 32 255) [1] [9] [- 2 ^ 31] [2 ^ 31 - 1])).
Proof.
  split; [|vm_compute; reflexivity].
  split; [cbn; lia|]. split; [unfold int64; cbn; lia|]. split; [reflexivity|]. split; [apply Forall_fill; unfold byte; lia|].
  cbn [In c_i c_j c_x c_y c_r]. intros l Hl. assert (E : l = [3] \/ l = [1] \/ l = [- 2 ^ 31] \/ l = [2 ^ 31 - 1]) by intuition.
  destruct E as [->|[->|[->| ->]]]; split; try reflexivity; repeat constructor; lia.
Qed.
