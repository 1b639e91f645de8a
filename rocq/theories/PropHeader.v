(** C77: loading any sequence of bytes. *)
From Coq Require Import String.
From Verif Require Import Base Spec SpecText SpecAccept SpecHeader Zp Mat SpecSha Stdio IO ShaHash IOProofs TextChecks Checks Header HeaderProofs.
Local Open Scope string_scope.
Local Open Scope list_scope.
Local Open Scope Z_scope.

(** ** C77 *)
(* whatever the bytes, if the sizes of the arrays do not wrap *)
Theorem C77_bytes gs g f p hash : bytes f -> len f < 2 ^ 61 -> (forall md, hash = Some md -> len md = 32) -> orderly (triplet_load gs g f p hash).
Proof. exact (load_orderly gs g f p hash). Qed.
Print Assumptions C77_bytes.
(* the sizes do not wrap if less than 2^61 entries are announced; malloc may fail *)
Theorem C77_same gs g most f p hash : ~ In 0 f -> (forall nnz, announces f nnz -> - 2 ^ 61 <= nnz < 2 ^ 61) -> 0 <= most < 2 ^ 61 ->
  hload gs g most f p hash = Fail AssertFailed \/ hload gs g most f p hash = triplet_load gs g f p hash.
Proof. exact (hload_same gs g most f p hash). Qed.
Print Assumptions C77_same.
Theorem C77_load_partial gs g most f p hash : bytes f -> len f < 2 ^ 61 -> (forall md, hash = Some md -> len md = 32) -> ~ In 0 f -> (forall nnz, announces f nnz -> - 2 ^ 61 <= nnz < 2 ^ 61) -> 0 <= most < 2 ^ 61 ->
  orderly (hload gs g most f p hash).
Proof. exact (hload_orderly gs g most f p hash). Qed.
Print Assumptions C77_load_partial.
(* if 2^62 entries or more are announced, or a negative number, there are cells for their number modulo 2^62 only, and the next entry is written outside *)
Theorem C77_wraps_all gs g most f n m nnz hd cs d ls gl es p hash : f = concat (hd :: cs ++ d :: ls ++ gl) -> text (hd :: cs ++ d :: ls ++ gl) -> mm_header hd -> Forall (fun s => get s 0 = 37) cs -> line3 d n m nnz ->
  0 <= n < 2 ^ 31 -> 0 <= m < 2 ^ 31 -> int64 nnz -> (nnz < 0 \/ 2 ^ 62 <= nnz) -> entry_lines ls es -> Forall (fun '(_, _, x) => p = -1 \/ zinit p x <> 0) es -> nnz mod 2 ^ 62 < len es ->
  bytes f -> len f < 2 ^ 61 -> 4 * (nnz mod 2 ^ 62) <= most -> most < 2 ^ 63 -> hload gs g most f p hash = Fail OOB.
Proof. exact (hload_wraps gs g most f n m nnz hd cs d ls gl es p hash). Qed.
Print Assumptions C77_wraps_all.

Definition ex_wrap (nnz : string) : list (list Z) := [chars "%%MatrixMarket matrix coordinate integer general" ++ [NL]; chars ("3 3 " ++ nnz) ++ [NL]; chars "1 1 5" ++ [NL]; chars "2 2 6" ++ [NL]; chars "3 3 4" ++ [NL]].
(* a file of less than 100 bytes; the program may use a gigabyte; the other model, with room for any number of entries, stops at the end of the file *)
Theorem C77_wraps_refuted : exists f, bytes f /\ ~ In 0 f /\ hload (fun _ => 5) (fun _ _ => 5) (2 ^ 30) f 7 None = Fail OOB.
Proof.
  exists (concat (ex_wrap "4611686018427387906")). split; [apply bytesb_ok; vm_compute; reflexivity|]. split; [apply nonulb_ok; vm_compute; reflexivity|]. vm_compute. reflexivity.
Qed.
Print Assumptions C77_wraps_refuted.
(* 2^62 + 2 and -2^62 + 2 entries announced, 2 cells, 3 entries *)
Example C77_wraps_example : Forall (fun '(s, nnz) =>
  text (ex_wrap s) /\ line3 (nth 1 (ex_wrap s) []) 3 3 nnz /\ nnz mod 2 ^ 62 = 2 /\ entry_lines (skipn 2 (ex_wrap s)) [(1, 1, 5); (2, 2, 6); (3, 3, 4)]
  /\ hload (fun _ => 5) (fun _ _ => 5) (2 ^ 30) (concat (ex_wrap s)) 7 None = Fail OOB) [("4611686018427387906", 2 ^ 62 + 2); ("-4611686018427387902", - 2 ^ 62 + 2)].
Proof.
  apply Forall_cons; [|apply Forall_cons; [|apply Forall_nil]].
  all: split; [apply linesb_ok; vm_compute; reflexivity|]; split; [apply line3b_ok; vm_compute; reflexivity|]; split; [vm_compute; reflexivity|]; split; [|vm_compute; reflexivity].
  all: repeat (apply Forall2_cons; [split; [apply line3b_ok; vm_compute; reflexivity|unfold int64; lia]|]); apply Forall2_nil.
Qed.
(* the same file with the right number, then two more lines than announced, then 300 millions of entries: malloc fails; bytes that are not a matrix *)
Example C77_load_example :
  match hload (fun _ => 5) (fun _ _ => 5) (2 ^ 30) (concat (ex_wrap "3")) 7 None with Ok (T, _) => tlist T = [(0, 0, -2); (1, 1, -1); (2, 2, -3)] | Fail _ => False end
  /\ match hload (fun _ => 5) (fun _ _ => 5) (2 ^ 30) (concat (ex_wrap "1")) 7 None with Ok (T, _) => tlist T = [(0, 0, -2)] | Fail _ => False end
  /\ hload (fun _ => 5) (fun _ _ => 5) (2 ^ 30) (concat (ex_wrap "300000000")) 7 None = Fail AssertFailed
  /\ triplet_load (fun _ => 5) (fun _ _ => 5) [0; 255; 10; 37; 37] 7 None = Fail AssertFailed.
Proof. vm_compute. repeat split. Qed.
