(** C38, C39, C40, C50, C51, C65, C66: matrix files. *)
From Coq Require Import String.
From Verif Require Import Base BaseFacts Spec SpecText SpecAccept Checks Zp Mat SpecSha ShaHash Sha Stdio IO DenseProofs4 IOProofs IOSave IOHash IOTrunc IOAccept IOCut TextChecks.
Local Open Scope string_scope.
Local Open Scope list_scope.
Local Open Scope Z_scope.

(** ** C38: saving then loading *)
(* int32: the values are 32-bit integers *)
Theorem C38_csr gs g A p hash : wf A -> cn A < 2 ^ 31 -> cm A < 2 ^ 31 -> nnz A < 2 ^ 54 ->
  (forall px, 0 <= px < nnz A -> int32 (val A px)) -> (forall md, hash = Some md -> len md = 32) ->
  exists f, csr_save A = Ok f /\ sat (triplet_load gs g f p hash) (fun '(T, h) => reloaded (cn A) (cm A) p (clist A) T /\ h = option_map (fun _ => sha256 f) hash).
Proof. exact (csr_round_trip gs g A p hash). Qed.
Print Assumptions C38_csr.
Theorem C38_triplet gs g T p hash : twf T -> tn T < 2 ^ 31 -> tm T < 2 ^ 31 -> tnz T < 2 ^ 54 ->
  (forall k, 0 <= k < tnz T -> int32 (tval T k)) -> (forall md, hash = Some md -> len md = 32) ->
  exists f, triplet_save T = Ok f /\ sat (triplet_load gs g f p hash) (fun '(T', h) => reloaded (tn T) (tm T) p (tlist T) T' /\ h = option_map (fun _ => sha256 f) hash).
Proof. exact (triplet_round_trip gs g T p hash). Qed.
Print Assumptions C38_triplet.
(* canonical non-zero values come back unchanged; without values (p = -1), only the positions do *)
Theorem C38_values p l : ok_modulus p -> Forall (fun '(i, j, x) => balanced p x /\ x <> 0) l -> flat_map (keeps p (negb (p =? -1))) l = l.
Proof. exact (keeps_same p l). Qed.
Print Assumptions C38_values.
Theorem C38_pattern l : flat_map (keeps (-1) (negb (-1 =? -1))) l = map (fun '(i, j, _) => (i, j, 1)) l.
Proof. exact (keeps_pattern l). Qed.
Print Assumptions C38_pattern.
(* 2 x 3 modulo 7 with the entries 3, -2 in row 0 and 1 in row 1 *)
Definition ex_A : csr := Csr 2 3 [0; 2; 3] [2; 0; 1] (Some [3; -2; 1]) 7.
Definition ex_f : list Z := chars "2 3 M" ++ [NL] ++ chars "1 3 3" ++ [NL] ++ chars "1 1 -2" ++ [NL] ++ chars "2 2 1" ++ [NL] ++ chars "0 0 0" ++ [NL].
Example C38_example : wf ex_A /\ clist ex_A = [(0, 2, 3); (0, 0, -2); (1, 1, 1)] /\ csr_save ex_A = Ok ex_f /\
  (match triplet_load (fun _ => 5) (fun _ _ => 5) ex_f 7 (Some (fill 32 0)) with
   | Ok (T, h) => tlist T = clist ex_A /\ h = Some (sha256 ex_f) /\ tn T = 2 /\ tm T = 3
   | Fail _ => False end) /\
  (match triplet_load (fun _ => 5) (fun _ _ => 5) ex_f 3 None with
   | Ok (T, h) => tlist T = [(0, 0, 1); (1, 1, 1)] /\ h = None
   | Fail _ => False end).
Proof. split; [apply wfb_ok; vm_compute; reflexivity|]. vm_compute. repeat split. Qed.

(** ** C39: the hash *)
Theorem C39_hash gs g f p md : bytes f -> len f < 2 ^ 61 -> len md = 32 ->
  outs (triplet_load gs g f p (Some md)) (fun '(T, h) => h = Some (sha256 (before_nul f))) (fun _ => True).
Proof. exact (load_hash gs g f p md). Qed.
Print Assumptions C39_hash.
Theorem C39_whole f : ~ In 0 f -> before_nul f = f.
Proof. intros H. rewrite <- (app_nil_r f) at 1. rewrite before_nul_app by exact H. apply app_nil_r. Qed.
Print Assumptions C39_whole.
(* what follows a NUL at the end of the file is not hashed: different files have the same hash *)
Definition accepted (r : res (triplet * option (list Z))) : option (list Z) := match r with Ok (_, h) => h | Fail _ => None end.
Theorem C39_nul_refuted : exists gs g f f' md h, f <> f' /\ bytes f /\ bytes f' /\ len md = 32 /\
  accepted (triplet_load gs g f 7 (Some md)) = Some h /\ accepted (triplet_load gs g f' 7 (Some md)) = Some h.
Proof.
  exists (fun _ => 5), (fun _ _ => 5), (ex_f ++ [65; 0; 66]), (ex_f ++ [65; 0; 67]), (fill 32 0), (sha256 (ex_f ++ [65])).
  split; [intros E; apply app_inv_head in E; discriminate|]. split; [apply bytesb_ok; vm_compute; reflexivity|]. split; [apply bytesb_ok; vm_compute; reflexivity|]. split; [reflexivity|]. split; vm_compute; reflexivity.
Qed.
Print Assumptions C39_nul_refuted.
(* an accepted file: text after the end marker, the last line without a new line *)
Example C39_example : bytes (ex_f ++ [65; 66]) /\ ~ In 0 (ex_f ++ [65; 66]) /\
  accepted (triplet_load (fun _ => 5) (fun _ _ => 5) (ex_f ++ [65; 66]) 7 (Some (fill 32 0))) = Some (sha256 (ex_f ++ [65; 66])).
Proof. split; [apply bytesb_ok; vm_compute; reflexivity|]. split; [apply nonulb_ok; vm_compute; reflexivity|]. vm_compute. reflexivity. Qed.

(** ** C40: MatrixMarket files *)
Theorem C40_load_partial gs g f n m es p hash : mm_file f n m es -> Forall (inside n m) es -> es <> [] ->
  bytes f -> len f < 2 ^ 61 -> (forall md, hash = Some md -> len md = 32) ->
  sat (triplet_load gs g f p hash) (fun '(T, h) => reloaded n m p (map from0 es) T /\ h = option_map (fun _ => sha256 f) hash).
Proof. exact (load_mm_inside gs g f n m es p hash). Qed.
Print Assumptions C40_load_partial.
(* the files without entries are rejected *)
Theorem C40_empty gs g f n m p hash : mm_file f n m [] -> bytes f -> len f < 2 ^ 61 -> outs (triplet_load gs g f p hash) (fun _ => False) (fun _ => True).
Proof. exact (load_mm_empty gs g f n m p hash). Qed.
Print Assumptions C40_empty.
Theorem C40_empty_refuted : exists f, mm_file f 2 3 [] /\ bytes f /\ forall gs g p hash, ~ exists T h, triplet_load gs g f p hash = Ok (T, h).
Proof.
  exists (concat [chars "%%MatrixMarket matrix coordinate integer general" ++ [NL]; chars "2 3 0" ++ [NL]]).
  assert (M : mm_file (concat [chars "%%MatrixMarket matrix coordinate integer general" ++ [NL]; chars "2 3 0" ++ [NL]]) 2 3 []).
  { exists (chars "%%MatrixMarket matrix coordinate integer general" ++ [NL]), [], (chars "2 3 0" ++ [NL]), [], [].
    split; [reflexivity|]. split; [apply linesb_ok; vm_compute; reflexivity|]. split.
    - exists [SP], [SP], [SP], [SP], [NL], (chars "matrix"), (chars "coordinate"), (chars "integer"), (chars "general"). split; [reflexivity|].
      split; [repeat split; apply spacesb_ok; vm_compute; reflexivity|]. repeat split; try discriminate.
    - split; [constructor|]. split; [apply line3b_ok; vm_compute; reflexivity|]. do 2 (split; [lia|]). split; [reflexivity|]. constructor. }
  assert (B : bytes (concat [chars "%%MatrixMarket matrix coordinate integer general" ++ [NL]; chars "2 3 0" ++ [NL]])) by (apply bytesb_ok; vm_compute; reflexivity).
  split; [exact M|]. split; [exact B|]. intros gs g p hash (T & h & E). pose proof (load_mm_empty gs g _ 2 3 p hash M B) as H. rewrite E in H. apply H. vm_compute. reflexivity.
Qed.
Print Assumptions C40_empty_refuted.
(* mixed case, two comments, white space, a value to be reduced, a zero, no new line at the end *)
Definition ex_mm : list (list Z) := [chars "%%MatrixMarket  MATRIX coordinate Integer general" ++ [NL]; chars "% a comment" ++ [NL]; chars "%" ++ [NL];
  chars " 2 3  4" ++ [NL]; chars "1 3 10" ++ [NL]; chars "+1 01 -2 " ++ [NL]; chars "2 1 7" ++ [NL]; chars "2 2 1"].
Definition ex_es : list (Z * Z * Z) := [(1, 3, 10); (1, 1, -2); (2, 1, 7); (2, 2, 1)].
Example C40_example : mm_file (concat ex_mm) 2 3 ex_es /\ Forall (inside 2 3) ex_es /\ bytes (concat ex_mm) /\
  match triplet_load (fun _ => 5) (fun _ _ => 5) (concat ex_mm) 7 (Some (fill 32 0)) with
  | Ok (T, h) => tlist T = [(0, 2, 3); (0, 0, -2); (1, 1, 1)] /\ h = Some (sha256 (concat ex_mm)) /\ tn T = 2 /\ tm T = 3
  | Fail _ => False end.
Proof.
  split; [|split; [repeat constructor; unfold inside; lia|split; [apply bytesb_ok; vm_compute; reflexivity|vm_compute; repeat split]]].
  exists (chars "%%MatrixMarket  MATRIX coordinate Integer general" ++ [NL]), [chars "% a comment" ++ [NL]; chars "%" ++ [NL]],
    (chars " 2 3  4" ++ [NL]), [chars "1 3 10" ++ [NL]; chars "+1 01 -2 " ++ [NL]; chars "2 1 7" ++ [NL]; chars "2 2 1"], [].
  split; [reflexivity|]. split; [apply linesb_ok; vm_compute; reflexivity|]. split.
  - exists [SP; SP], [SP], [SP], [SP], [NL], (chars "MATRIX"), (chars "coordinate"), (chars "Integer"), (chars "general"). split; [reflexivity|].
    split; [repeat split; apply spacesb_ok; vm_compute; reflexivity|]. repeat split; try discriminate.
  - split; [repeat constructor|]. split; [apply line3b_ok; vm_compute; reflexivity|]. do 2 (split; [lia|]). split; [reflexivity|].
    repeat (apply Forall2_cons; [split; [apply line3b_ok; vm_compute; reflexivity|unfold int64; lia]|]). apply Forall2_nil.
Qed.

(** ** C50: SMS files *)
(* c: the type; the dimensions grow if entries are outside, see C07 *)
Theorem C50_sms gs g f n m c es p hash : sms_file f n m c es -> bytes f -> len f < 2 ^ 61 -> (p = -1 \/ c = 77) -> (forall md, hash = Some md -> len md = 32) ->
  sat (triplet_load gs g f p hash) (fun '(T, h) => loaded n m p (negb (p =? -1)) es T /\ h = option_map (fun _ => sha256 f) hash).
Proof. exact (load_sms gs g f n m c es p hash). Qed.
Print Assumptions C50_sms.
(* another type is rejected when the values are loaded *)
Theorem C50_type gs g f n m c es p hash : sms_file f n m c es -> bytes f -> len f < 2 ^ 61 -> p <> -1 -> c <> 77 ->
  triplet_load gs g f p hash = Fail AssertFailed.
Proof. exact (load_type gs g f n m c es p hash). Qed.
Print Assumptions C50_type.
Definition ex_sms (c : string) (gl : list (list Z)) : list (list Z) := (chars "2 3 " ++ chars c ++ [NL]) :: [chars "1 3 10" ++ [NL]; chars "2 4 1" ++ [NL]] ++ (chars "0 0 0" ++ [NL]) :: gl.
Lemma ex_sms_ok c gl : (c = "M" \/ c = "R") -> (gl = [] \/ gl = [chars "x" ++ [NL]; chars "y"]) -> sms_file (concat (ex_sms c gl)) 2 3 (get (chars c) 0) [(1, 3, 10); (2, 4, 1)].
Proof.
  intros Hc Hg. exists (chars "2 3 " ++ chars c ++ [NL]), [chars "1 3 10" ++ [NL]; chars "2 4 1" ++ [NL]], (chars "0 0 0" ++ [NL]), gl.
  split; [reflexivity|]. split; [apply linesb_ok; destruct Hc, Hg; subst; reflexivity|]. split; [|split; [lia|split; [lia|split; [|apply line3b_ok; vm_compute; reflexivity]]]].
  - exists [], [SP], [SP], (chars "2"), (chars "3"), [NL]. split; [destruct Hc; subst; reflexivity|]. do 3 (split; [apply spacesb_ok; vm_compute; reflexivity|]). do 2 (split; [discriminate|]).
    split; [apply (numeralb_ok (chars "2") 2 eq_refl)|]. split; [apply (numeralb_ok (chars "3") 3 eq_refl)|]. destruct Hc; subst; unfold is_space; vm_compute; intuition discriminate.
  - repeat (apply Forall2_cons; [split; [apply line3b_ok; vm_compute; reflexivity|unfold int64; lia]|]). apply Forall2_nil.
Qed.
Example C50_example : let f := concat (ex_sms "M" [chars "x" ++ [NL]; chars "y"]) in sms_file f 2 3 77 [(1, 3, 10); (2, 4, 1)] /\ bytes f /\
  match triplet_load (fun _ => 5) (fun _ _ => 5) f 7 (Some (fill 32 0)) with
  | Ok (T, h) => tlist T = [(0, 2, 3); (1, 3, 1)] /\ h = Some (sha256 f) /\ tn T = 2 /\ tm T = 4
  | Fail _ => False end.
Proof. split; [apply (ex_sms_ok "M"); auto|]. split; [apply bytesb_ok; vm_compute; reflexivity|]. vm_compute. repeat split. Qed.
Example C50_type_example : let f := concat (ex_sms "R" []) in sms_file f 2 3 82 [(1, 3, 10); (2, 4, 1)] /\ bytes f /\ triplet_load (fun _ => 5) (fun _ _ => 5) f 7 None = Fail AssertFailed.
Proof. split; [apply (ex_sms_ok "R"); auto|]. split; [apply bytesb_ok; vm_compute; reflexivity|]. vm_compute. reflexivity. Qed.

(** ** C51: truncated files are rejected *)
Theorem C51_sms gs g f n m c hd ls es p hash : f = concat (hd :: ls) -> text (hd :: ls) -> sms_header hd n m c -> 0 <= n < 2 ^ 31 -> 0 <= m < 2 ^ 31 -> entry_lines ls es ->
  bytes f -> len f < 2 ^ 61 -> triplet_load gs g f p hash = Fail AssertFailed.
Proof. exact (sms_truncated gs g f n m c hd ls es p hash). Qed.
Print Assumptions C51_sms.
Theorem C51_mm gs g f n m nnz hd cs d ls es p hash : f = concat (hd :: cs ++ d :: ls) -> text (hd :: cs ++ d :: ls) -> mm_header hd -> Forall (fun s => get s 0 = 37) cs -> line3 d n m nnz ->
  0 <= n < 2 ^ 31 -> 0 <= m < 2 ^ 31 -> nnz < 2 ^ 63 -> entry_lines ls es -> len es < nnz ->
  bytes f -> len f < 2 ^ 61 -> triplet_load gs g f p hash = Fail AssertFailed.
Proof. exact (mm_truncated gs g f n m nnz hd cs d ls es p hash). Qed.
Print Assumptions C51_mm.
(* the file of C40 without its last line *)
Example C51_example : let f := concat (firstn 7 ex_mm) in text (firstn 7 ex_mm) /\ bytes f /\ triplet_load (fun _ => 5) (fun _ _ => 5) f 7 None = Fail AssertFailed /\
  entry_lines (skipn 4 (firstn 7 ex_mm)) (firstn 3 ex_es) /\ line3 (nth 3 ex_mm []) 2 3 4.
Proof.
  split; [apply linesb_ok; vm_compute; reflexivity|]. split; [apply bytesb_ok; vm_compute; reflexivity|]. split; [vm_compute; reflexivity|]. split; [|apply line3b_ok; vm_compute; reflexivity].
  repeat (apply Forall2_cons; [split; [apply line3b_ok; vm_compute; reflexivity|unfold int64; lia]|]). apply Forall2_nil.
Qed.

(** ** C65: accepted files are well-formed *)
(* like_sms, like_mm: what is required of each line; loaded: the matrix is made of exactly the entries of the file *)
Theorem C65_accepted gs g f p hash T h : ~ In 0 f -> triplet_load gs g f p hash = Ok (T, h) ->
  exists n m es, ((exists c, like_sms f n m c es /\ (p = -1 \/ c = 77)) \/ like_mm f n m es) /\ (0 <= n -> 0 <= m -> loaded n m p (negb (p =? -1)) es T).
Proof. exact (load_accepts gs g f p hash T h). Qed.
Print Assumptions C65_accepted.
(* dimensions and entries are determined by the file *)
Theorem C65_unique f n m c es n' m' c' es' : like_sms f n m c es -> like_sms f n' m' c' es' -> n = n' /\ m = m' /\ c = c' /\ es = es'.
Proof. exact (like_sms_det f n m c es n' m' c' es'). Qed.
Print Assumptions C65_unique.
(* the dimensions are not checked: a file of a matrix with -2 rows is accepted *)
Theorem C65_dimensions_refuted : exists f T h, ~ In 0 f /\ triplet_load (fun _ => 5) (fun _ _ => 5) f 7 None = Ok (T, h) /\ tn T = -2.
Proof.
  exists (chars "-2 3 M" ++ [NL] ++ chars "0 0 0" ++ [NL]). eexists. eexists. split; [apply nonulb_ok; vm_compute; reflexivity|]. split; [vm_compute; reflexivity|reflexivity].
Qed.
Print Assumptions C65_dimensions_refuted.
(* numbers followed by other characters, or not separated, are accepted *)
Definition ex_lax : list Z := chars "2 3Modular" ++ [NL] ++ chars "1+3 10abc" ++ [NL] ++ chars "0-0 0.5" ++ [NL] ++ chars "anything".
Example C65_example : ~ In 0 ex_lax /\ match triplet_load (fun _ => 5) (fun _ _ => 5) ex_lax 7 None with Ok (T, h) => tlist T = [(0, 2, 3)] /\ tn T = 2 /\ tm T = 3 | Fail _ => False end.
Proof. split; [apply nonulb_ok; vm_compute; reflexivity|]. vm_compute. repeat split. Qed.
Example C65_rejected_example : triplet_load (fun _ => 5) (fun _ _ => 5) (chars "2 3 M" ++ [NL] ++ chars "1 3 x" ++ [NL] ++ chars "0 0 0" ++ [NL]) 7 None = Fail AssertFailed.
Proof. vm_compute. reflexivity. Qed.

(** ** C66: files cut at any byte *)
(* the beginning of an SMS file, if it is accepted at all, gives the matrix of the file *)
Theorem C66_sms gs g f pre suf n m c es p hash T h : sms_file f n m c es -> f = pre ++ suf -> triplet_load gs g pre p hash = Ok (T, h) -> loaded n m p (negb (p =? -1)) es T.
Proof. exact (sms_cut gs g f pre suf n m c es p hash T h). Qed.
Print Assumptions C66_sms.
Theorem C66_csr gs g A p hash pre suf T h : wf A -> cn A < 2 ^ 31 -> cm A < 2 ^ 31 -> (forall px, 0 <= px < nnz A -> int32 (val A px)) ->
  csr_save A = Ok (pre ++ suf) -> triplet_load gs g pre p hash = Ok (T, h) -> reloaded (cn A) (cm A) p (clist A) T.
Proof. exact (csr_cut gs g A p hash pre suf T h). Qed.
Print Assumptions C66_csr.
Theorem C66_triplet gs g S p hash pre suf T h : twf S -> tn S < 2 ^ 31 -> tm S < 2 ^ 31 -> (forall k, 0 <= k < tnz S -> int32 (tval S k)) ->
  triplet_save S = Ok (pre ++ suf) -> triplet_load gs g pre p hash = Ok (T, h) -> reloaded (tn S) (tm S) p (tlist S) T.
Proof. exact (triplet_cut gs g S p hash pre suf T h). Qed.
Print Assumptions C66_triplet.
(* MatrixMarket files cut at the end of a line *)
Theorem C66_mm_partial gs g f pre suf n m es p hash T h : mm_file f n m es -> f = (pre ++ [NL]) ++ suf -> triplet_load gs g (pre ++ [NL]) p hash = Ok (T, h) -> loaded n m p (negb (p =? -1)) es T.
Proof. exact (mm_cut gs g f pre suf n m es p hash T h). Qed.
Print Assumptions C66_mm_partial.
(* cut inside the last value, 15, a MatrixMarket file is accepted with the value 1 *)
Definition ex_mm15 : list (list Z) := [chars "%%MatrixMarket matrix coordinate integer general" ++ [NL]; chars "2 2 1" ++ [NL]; chars "2 2 15"].
Theorem C66_mm_refuted : exists f pre suf T h, mm_file f 2 2 [(2, 2, 15)] /\ f = pre ++ suf /\ triplet_load (fun _ => 5) (fun _ _ => 5) pre 101 None = Ok (T, h) /\
  tlist T = [(1, 1, 1)] /\ ~ loaded 2 2 101 true [(2, 2, 15)] T.
Proof.
  exists (concat ex_mm15), (concat (firstn 2 ex_mm15) ++ chars "2 2 1"), (chars "5"). eexists. eexists. split.
  - exists (chars "%%MatrixMarket matrix coordinate integer general" ++ [NL]), [], (chars "2 2 1" ++ [NL]), [chars "2 2 15"], [].
    split; [reflexivity|]. split; [apply linesb_ok; vm_compute; reflexivity|]. split.
    + exists [SP], [SP], [SP], [SP], [NL], (chars "matrix"), (chars "coordinate"), (chars "integer"), (chars "general"). split; [reflexivity|].
      split; [repeat split; apply spacesb_ok; vm_compute; reflexivity|]. repeat split; try discriminate.
    + split; [constructor|]. split; [apply line3b_ok; vm_compute; reflexivity|]. do 2 (split; [lia|]). split; [reflexivity|].
      apply Forall2_cons; [split; [apply line3b_ok; vm_compute; reflexivity|unfold int64; lia]|]. apply Forall2_nil.
  - split; [reflexivity|]. split; [vm_compute; reflexivity|]. split; [reflexivity|]. intros (_ & _ & _ & E & _). vm_compute in E. discriminate.
Qed.
Print Assumptions C66_mm_refuted.
(* the saved file of C38: all its strict beginnings but the one without the last new line are rejected *)
Example C66_example : csr_save ex_A = Ok ex_f /\ len ex_f = 31 /\
  map (fun k => match triplet_load (fun _ => 5) (fun _ _ => 5) (firstn (Z.to_nat k) ex_f) 7 None with Ok (T, _) => len (tlist T) | Fail _ => -1 end) (zseq 0 32) = fill 30 (-1) ++ [3; 3].
Proof. split; [vm_compute; reflexivity|]. split; vm_compute; reflexivity. Qed.
Example C66_mm_example : let f := concat ex_mm in triplet_load (fun _ => 5) (fun _ _ => 5) (concat (firstn 7 ex_mm)) 7 None = Fail AssertFailed /\
  match triplet_load (fun _ => 5) (fun _ _ => 5) (f ++ [NL]) 7 None with Ok (T, _) => tlist T = [(0, 2, 3); (0, 0, -2); (1, 1, 1)] | Fail _ => False end.
Proof. split; vm_compute; [reflexivity|repeat split]. Qed.
