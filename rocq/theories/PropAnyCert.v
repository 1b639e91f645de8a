(** C82: certificates read from any sequence of bytes, and check_cert. *)
From Coq Require Import String Znumtheory.
From Verif Require Import Base BaseFacts Spec SpecText SpecAccept SpecHeader SpecTools SpecAny SpecAnyElim SpecAnyCert Checks TextChecks Zp Mat SpecSha ShaHash Stdio IO Cert CertProofs CertIO CertIOProofs TextProofs IOSave IOCut
  DenseProofs4 AnyElim AnyElimProofs AnyCert AnyCertProofs PropToolsElim PropAnyElim.
Local Open Scope string_scope.
Local Open Scope list_scope.
Local Open Scope Z_scope.

(** ** C82 *)
(* Full statement: without [too_many], the case of a number for which malloc fails (false, C82_load_refuted) *)
Theorem C82_load_partial g most cf : 0 <= most < 2 ^ 61 ->
  outs (ncert_load g most cf) (fun o => forall c, o = Some c -> (read_cert c \/ too_many most cf /\ most < 4 * c_r c /\ c_i c = []) /\ len (c_hash c) = 32 /\ ((forall k i, int32 (g k i)) -> ints c))
    (fun e => e = Overflow \/ e = OOB /\ too_many most cf).
Proof. exact (ncert_load_any g most cf). Qed.
Print Assumptions C82_load_partial.
(* for the other files, it is the function of C43 *)
Theorem C82_same g most cf : 0 <= most < 2 ^ 61 -> ~ too_many most cf -> ncert_load g most cf = cert_load g cf.
Proof. exact (ncert_load_same g most cf). Qed.
Print Assumptions C82_same.
(* whatever malloc refuses, a short file makes the program write behind a null pointer *)
Theorem C82_load_refuted g most : 0 <= most < 2 ^ 33 - 4 -> exists cf, bytes cf /\ ~ In 0 cf /\ too_many most cf /\ ncert_load g most cf = Fail OOB.
Proof.
  intros Hm. exists (print_int (most / 4 + 1) ++ [NL; 55; NL; 48; NL; 53; NL]). pose proof (Z.div_mod most 4 ltac:(lia)). pose proof (Z.mod_pos_bound most 4 ltac:(lia)).
  assert (N : numeral (print_int (most / 4 + 1)) (most / 4 + 1)) by (apply int32_fits; unfold int32; lia).
  assert (D : forall s v, numeral s v -> Forall (fun c => 1 <= c < 256) s).
  { intros s v [s' _ F|s' _ F|s' _ F]; [|constructor; [lia|]|constructor; [lia|]]; (eapply Forall_impl; [|exact F]; unfold is_digit; intros; lia). }
  specialize (D _ _ N).
  split; [|split; [|split]].
  - apply Forall_app. split; [eapply Forall_impl; [|exact D]; unfold byte; intros; lia|]. repeat constructor; unfold NL; lia.
  - intros E. apply in_app_or in E. destruct E as [E|E]; [|cbn in E; unfold NL in E; intuition discriminate]. rewrite Forall_forall in D. specialize (D _ E). lia.
  - exists (most / 4 + 1), [NL; 55; NL; 48; NL; 53; NL]. split; [|lia]. exists [], (print_int (most / 4 + 1)). split; [reflexivity|]. split; [constructor|]. split; [exact N|]. cbn. unfold is_digit, NL. lia.
  - apply ncert_load_null, Hm.
Qed.
Print Assumptions C82_load_refuted.

(* Full statement: without [minus_one] (C80), without [too_many], without the hypothesis on the memory and without [quiet] (C79) *)
Theorem C82_check_partial gs g most gc fc junk f cf p : bytes f -> len f < 2 ^ 60 -> ~ In 0 f -> (forall nnz, announces f nnz -> - 2 ^ 61 <= nnz < 2 ^ 61) -> 0 <= most < 2 ^ 61 ->
  ok_modulus p -> quiet p f -> len (c_hash junk) = 32 -> c_hash junk <> sha256 f ->
  outs (ntool_check_cert gs g gc fc junk most f cf p) (fun '(said, code) => exists n m es A, like_matrix f n m es /\ holds p (rows p n es) (cols p m es) es A /\
      (said = true /\ code = 0 /\ (ncert_load (g 3) most cf = Ok None \/ exists c, ncert_load (g 3) most cf = Ok (Some c) /\ rank_verify gc fc A (sha256 f) c = Ok false) \/
       said = false /\ code = 1 /\ exists c, ncert_load (g 3) most cf = Ok (Some c) /\ read_cert c /\ rank_verify gc fc A (sha256 f) c = Ok true /\
         c_hash c = sha256 f /\ c_prime c = p /\ forall k, 0 <= k < c_r c -> 0 <= get (c_i c) k < rows p n es /\ 0 <= get (c_j c) k < cols p m es))
    (fun e => (e = AssertFailed \/ e = Overflow) \/ e = OutOfFuel \/ e = OOB /\ (minus_one (fun _ _ => false) f p \/ too_many most cf)).
Proof. intros B L N A M. exact (check_any gs g most f B L N A M gc fc junk cf p). Qed.
Print Assumptions C82_check_partial.
(* a read certificate of non-negative rank meets the hypotheses of C42; *)
Theorem C82_shape c : read_cert c -> 0 <= c_r c -> cert_wf c.
Proof. exact (read_wf c). Qed.
Print Assumptions C82_shape.
(* one of negative rank is not rejected for that *)
Theorem C82_negative gs fuel A hash c : c_r c <= 0 -> rank_verify gs fuel A hash c = rank_verify gs fuel A hash (Cert 0 (c_prime c) (c_hash c) [] [] [] []).
Proof. exact (verify_neg gs fuel A hash c). Qed.
Print Assumptions C82_negative.
(* the zero matrix, and an accepted certificate that its rank is -1 *)
Definition zero_text : list Z := ex_line "2 3 M" ++ ex_line "0 0 0".
Definition minus_cert : cert := Cert (-1) 7 (sha256 zero_text) [] [] [] [].
Theorem C82_negative_refuted : exists f cf c, bytes f /\ bytes cf /\ c_r c = -1 /\ ncert_load (te_g 3) (2 ^ 30) cf = Ok (Some c) /\
  ntool_check_cert (fun _ => 5) te_g te_g 20 (Cert 0 0 [] [] [] [] []) (2 ^ 30) f cf 7 = Ok (false, 1) /\
  exists A, holds 7 2 3 [] A /\ rank_verify te_g 20 A (sha256 f) c = Ok true.
Proof.
  assert (E : exists cf, cert_save minus_cert = Ok cf /\ bytes cf /\ ncert_load (te_g 3) (2 ^ 30) cf = Ok (Some minus_cert) /\ ntool_check_cert (fun _ => 5) te_g te_g 20 (Cert 0 0 [] [] [] [] []) (2 ^ 30) zero_text cf 7 = Ok (false, 1)).
  { eexists. split; [vm_compute; reflexivity|]. split; [apply bytesb_ok; vm_compute; reflexivity|]. split; vm_compute; reflexivity. }
  destruct E as (cf & _ & B & E1 & E2). exists zero_text, cf, minus_cert. split; [apply bytesb_ok; vm_compute; reflexivity|]. split; [exact B|]. split; [reflexivity|]. split; [exact E1|]. split; [exact E2|].
  exists (Csr 2 3 [0; 0; 0] [] (Some []) 7). split; [|vm_compute; reflexivity].
  destruct (EchExamples.matrixb_ok (Csr 2 3 [0; 0; 0] [] (Some []) 7) eq_refl) as (W1 & W2 & W3 & W4). split; [auto|]. do 7 (split; [auto; reflexivity || (vm_compute; discriminate)|]).
  intros i j Hi Hj. apply cong_eq. assert (i = 0 \/ i = 1) as [->| ->] by lia; reflexivity.
Qed.
Print Assumptions C82_negative_refuted.

(* the file of C80, and bytes that are not a certificate, a certificate that stops early, and the beginning of one with too many numbers *)
Example C82_example : bytes odd_text /\ ~ In 0 odd_text /\ (forall nnz, announces odd_text nnz -> - 2 ^ 61 <= nnz < 2 ^ 61) /\ quiet 7 odd_text /\ fill 32 0 <> sha256 odd_text /\
  ntool_check_cert (fun _ => 5) te_g te_g 20 (Cert 0 0 (fill 32 0) [] [] [] []) (2 ^ 30) odd_text (chars "hello") 7 = Ok (true, 0) /\
  ncert_load (fun _ _ => 9) (2 ^ 10) (chars "+2 7 ab" ++ [NL] ++ chars "3 1 x") = Ok (Some (Cert 2 7 (171 :: fill 31 0) [3; 1] [9; 9] [9; 9] [9; 9])) /\
  ncert_load (fun _ _ => 9) (2 ^ 10) (chars "300 7 ab" ++ [NL] ++ chars "3 1 x") = Fail OOB /\
  ncert_load (fun _ _ => 9) (2 ^ 10) (chars "99999999999 7 ab") = Fail Overflow.
Proof.
  destruct C80_example as (H1 & H2 & H3 & H4 & _). do 4 (split; [assumption|]). split; [vm_compute; discriminate|]. do 3 (split; [vm_compute; reflexivity|]). vm_compute. reflexivity.
Qed.
