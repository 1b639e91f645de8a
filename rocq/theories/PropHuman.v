(** C70: sizes printed in messages. *)
From Coq Require Import String ZifyBool.
From Verif Require Import Base BaseFacts Spec SpecText Stdio TextChecks SpecHuman Human HumanProofs.
Local Open Scope string_scope.
Local Open Scope list_scope.
Local Open Scope Z_scope.

Theorem C70_human n target : - 10 ^ 6 < n < 10 ^ 15 -> len (human_format n target) <= 7 /\ exists v, stands (human_format n target) v /\ near n v.
Proof. exact (human_ok n target). Qed.
Print Assumptions C70_human.
Theorem C70_order m n target : 0 <= m <= n -> n < 10 ^ 15 -> exists v w, stands (human_format m target) v /\ stands (human_format n target) w /\ v <= w.
Proof. exact (human_order m n target). Qed.
Print Assumptions C70_order.
(* nothing is written in the buffer *)
Theorem C70_large_refuted : exists n, int64 n /\ forall target, human_format n target = target.
Proof. exists (10 ^ 15). split; [unfold int64; lia|]. intros target. now apply human_large. Qed.
Print Assumptions C70_large_refuted.
(* the text is cut *)
Theorem C70_negative_refuted : exists n target, int64 n /\ numeral (human_format n target) (-123456) /\ n = -1234567.
Proof. exists (-1234567), []. split; [unfold int64; lia|]. split; [apply numeralb_ok|]; reflexivity. Qed.
Print Assumptions C70_negative_refuted.
(* one decimal, rounded; the largest text of each unit fits in the buffer *)
Example C70_example : map (fun n => human_format n []) [0; 999; 1000; 1049; 12345; 999949; 999950; 1000000; 1250000; 999999999999999] =
  map chars ["0"; "999"; "1.0k"; "1.0k"; "12.3k"; "999.9k"; "1000.0k"; "1.0m"; "1.2m"; "1000.0t"].
Proof. vm_compute. reflexivity. Qed.
