(** C53, C54, C55: the tools that rewrite matrix files. *)
From Coq Require Import String.
From Verif Require Import Base BaseFacts Spec SpecText Checks SpecTools Zp Mat SpecSha Stdio IO IOSave Tools ToolsProofs.
Local Open Scope string_scope.
Local Open Scope list_scope.
Local Open Scope Z_scope.

(** ** C53: transpose *)
Theorem C53_transpose gs g f n m es : matrix_file f n m es -> no_cancel 42013 es -> len es < 2 ^ 54 ->
  sat (tool_transpose gs g f) (fun f' => exists es', matrix_file f' m n es' /\ clean 42013 es' /\
    forall i j, 1 <= i <= n -> 1 <= j <= m -> cong 42013 (fentry es' j i) (fentry es i j)).
Proof. exact (tool_transpose_ok gs g f n m es). Qed.
Print Assumptions C53_transpose.
(* 2 x 3; position (2, 1) appears twice, position (1, 1) holds a multiple of 42013 *)
Definition ex_text : list Z := chars "2 3 M" ++ [NL] ++ chars "1 3 42014" ++ [NL] ++ chars "1 1 -42013" ++ [NL] ++ chars "2 1 5" ++ [NL] ++ chars "2 1 -2" ++ [NL] ++ chars "0 0 0" ++ [NL].
Definition ex_es : list (Z * Z * Z) := [(1, 3, 42014); (1, 1, -42013); (2, 1, 5); (2, 1, -2)].
Lemma ex_text_ok : matrix_file ex_text 2 3 ex_es.
Proof.
  assert (E : ex_text = file_of 2 3 [(0, 2, 42014); (0, 0, -42013); (1, 0, 5); (1, 0, -2)]) by (vm_compute; reflexivity). rewrite E.
  change ex_es with (map to1 [(0, 2, 42014); (0, 0, -42013); (1, 0, 5); (1, 0, -2)]). apply file_of_matrix; [lia|lia|repeat constructor; unfold writable, int64; lia|reflexivity].
Qed.
Example C53_example : matrix_file ex_text 2 3 ex_es /\ no_cancel 42013 ex_es /\
  tool_transpose (fun _ => 5) (fun _ _ _ => 5) ex_text = Ok (chars "3 2 M" ++ [NL] ++ chars "1 2 3" ++ [NL] ++ chars "3 1 1" ++ [NL] ++ chars "0 0 0" ++ [NL]).
Proof. split; [exact ex_text_ok|]. split; [apply no_cancelb_ok; [lia|reflexivity]|]. vm_compute. reflexivity. Qed.

(** ** C54: vertical_swap *)
Theorem C54_vertical_swap gs g f n m es : matrix_file f n m es -> len es < 2 ^ 54 ->
  sat (tool_vertical_swap gs g f) (fun f' => matrix_file f' n m (map (fun '(i, j, x) => (i, m + 1 - j, x)) (kept 42013 es))).
Proof. exact (tool_vertical_swap_ok gs g f n m es). Qed.
Print Assumptions C54_vertical_swap.
Example C54_example : matrix_file ex_text 2 3 ex_es /\
  tool_vertical_swap (fun _ => 5) (fun _ _ _ => 5) ex_text = Ok (chars "2 3 M" ++ [NL] ++ chars "1 1 1" ++ [NL] ++ chars "2 3 5" ++ [NL] ++ chars "2 3 -2" ++ [NL] ++ chars "0 0 0" ++ [NL]).
Proof. split; [exact ex_text_ok|]. vm_compute. reflexivity. Qed.

(** ** C55: stack *)
Theorem C55_stack gs g f n m es : matrix_file f n m es -> len es < 2 ^ 31 ->
  sat (tool_stack gs g f) (fun f' => exists R C es',
    lists R (fun i => exists j x, In (i, j, x) (kept 42013 es)) /\ lists C (fun j => exists i x, In (i, j, x) (kept 42013 es)) /\
    matrix_file f' (len R) (len C) es' /\ kept 42013 es = map (fun '(i, j, x) => (get R (i - 1), get C (j - 1), x)) es').
Proof. exact (tool_stack_ok gs g f n m es). Qed.
Print Assumptions C55_stack.
Example C55_example : matrix_file ex_text 2 3 ex_es /\
  tool_stack (fun _ => 5) (fun _ _ _ => 5) ex_text = Ok (chars "2 2 M" ++ [NL] ++ chars "1 2 1" ++ [NL] ++ chars "2 1 5" ++ [NL] ++ chars "2 1 -2" ++ [NL] ++ chars "0 0 0" ++ [NL]).
Proof. split; [exact ex_text_ok|]. vm_compute. reflexivity. Qed.
