(** C45, C52: the types of the elements of dense matrices. *)
From Verif Require Import Base BaseFacts Spec SpecFacts ZZp Dense Datatype DatatypeProofs.
From Flocq Require Import BinarySingleNaN.

(** * C45 *)
(* what is written is read back, and the other elements are not modified *)
Theorem C45_roundtrip p A i v : ok_modulus p -> balanced p v -> 0 <= i < len A ->
  sat (datatype_write A i (datatype_choose p) v) (fun A' => len A' = len A /\ datatype_read A' i (datatype_choose p) = Ok v /\
    forall j, j <> i -> getd (Ci 0) A' j = getd (Ci 0) A j).
Proof. exact (write_read p A i v). Qed.
Print Assumptions C45_roundtrip.
(* a row gathered by the dense Schur complement is the one that is read *)
Theorem C45_gather p n xj x A off : ok_modulus p -> 0 <= n -> n <= len xj -> (forall k, 0 <= k < n -> 0 <= get xj k < len x) ->
  (forall j, 0 <= j < len x -> balanced p (get x j)) -> 0 <= off -> off + n <= len A ->
  sat (gather_typed n xj x A off (datatype_choose p)) (fun A' => len A' = len A /\
    (forall k, 0 <= k < n -> datatype_read A' (off + k) (datatype_choose p) = Ok (get x (get xj k))) /\
    forall j, j < off \/ off + n <= j -> getd (Ci 0) A' j = getd (Ci 0) A j).
Proof. exact (gather_read p n xj x A off). Qed.
Print Assumptions C45_gather.
(* the model of the dense Schur complements works with the integers themselves: it does the same *)
Theorem C45_integers n xj x dt S off :
  gather_typed n xj x (map (cell_of dt) S) off dt = match gather n xj x S off with Ok S' => Ok (map (cell_of dt) S') | Fail e => Fail e end.
Proof. exact (gather_sim n xj x dt S off). Qed.
Print Assumptions C45_integers.
Example C45_example : datatype_choose 8191 = SPASM_FLOAT /\ datatype_choose 42013 = SPASM_DOUBLE /\ datatype_choose 4294967291 = SPASM_I64 /\
  balanced 8191 (-4095) /\ balanced 42013 21006 /\ balanced 4294967291 2147483645 /\
  (A <- gather_typed 2 [2; 0] [-7; 3; 9] (map (cell_of SPASM_FLOAT) [1; 2; 3; 4]) 1 SPASM_FLOAT ;; datatype_read A 2 SPASM_FLOAT) = Ok (-7) /\
  (A <- datatype_write (map (cell_of SPASM_DOUBLE) [1; 2]) 1 SPASM_DOUBLE 21006 ;; datatype_read A 1 SPASM_DOUBLE) = Ok 21006 /\
  (A <- datatype_write (map (cell_of SPASM_I64) [1; 2]) 1 SPASM_I64 2147483645 ;; datatype_read A 1 SPASM_I64) = Ok 2147483645.
Proof. unfold balanced. repeat split; reflexivity || (vm_compute; congruence). Qed.
(* a float would not do for all moduli *)
Example C45_float_example : balanced 4294967291 16777217 /\
  (A <- datatype_write (map (cell_of SPASM_FLOAT) [1; 2]) 1 SPASM_FLOAT 16777217 ;; datatype_read A 1 SPASM_FLOAT) = Ok 16777216.
Proof. unfold balanced. repeat split; reflexivity || (vm_compute; congruence). Qed.

(** * C52 *)
(* the integer in an element: its conversion to an integer type that is large enough *)
Definition holds (c : cell) (z : Z) : Prop :=
  match c with Cd d => is_finite d = true /\ Btrunc d = z | Cf f => is_finite f = true /\ Btrunc f = z | Ci v => v = z /\ - 2 ^ 63 <= z < 2 ^ 63 end.
Theorem C52_exact p a x y : ok_modulus p -> balanced p a -> balanced p x -> balanced p y ->
  holds (cell_of (datatype_choose p) (a * x + y)) (a * x + y).
Proof.
  intros Hp Ha Hx Hy. pose proof (choose_axpy p a x y Hp Ha Hx Hy) as H. revert H. unfold fits. generalize (a * x + y). intros z.
  destruct (datatype_choose p); cbn [cell_of holds]; intros H; [exact (d_exact z H)|exact (f_exact z H)|lia].
Qed.
Print Assumptions C52_exact.
(* no larger modulus could use the smaller type *)
Theorem C52_sharp p dt : ok_modulus p -> (datatype_choose p = SPASM_DOUBLE /\ dt = SPASM_FLOAT) \/ (datatype_choose p = SPASM_I64 /\ dt = SPASM_DOUBLE) ->
  exists a x y, balanced p a /\ balanced p x /\ balanced p y /\ ~ holds (cell_of dt (a * x + y)) (a * x + y).
Proof.
  unfold ok_modulus, balanced, datatype_choose. intros Hp H. destruct (Z.leb_spec p 8191); [intuition discriminate|].
  destruct H as [[E ->]|[E ->]].
  - exists 4096, 4096, 1. split; [|split; [|split]]; try (Z.div_mod_to_equations; lia). intros [_ H2]. vm_compute in H2. discriminate.
  - destruct (Z.leb_spec p 189812531); [discriminate|]. exists 94906266, 94906266, 1. split; [|split; [|split]]; try (Z.div_mod_to_equations; lia). intros [_ H2]. vm_compute in H2. discriminate.
Qed.
Print Assumptions C52_sharp.
Example C52_example : holds (cell_of (datatype_choose 8191) (-4095 * 4095 - 4095)) (-16773120) /\ balanced 8191 (-4095) /\ balanced 8191 4095 /\ datatype_choose 8192 = SPASM_DOUBLE.
Proof. unfold balanced. repeat split; reflexivity || (vm_compute; congruence). Qed.
