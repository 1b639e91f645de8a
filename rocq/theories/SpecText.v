(** Text: bytes are integers, files are lists of bytes. *)
From Coq Require Import String Ascii.
From Verif Require Import Base Spec.
Local Open Scope string_scope.
Local Open Scope list_scope.
Local Open Scope Z_scope.

Definition NL : Z := 10.
Definition SP : Z := 32.
(* white space of the C locale *)
Definition is_space (c : Z) : Prop := c = 32 \/ 9 <= c <= 13.
Definition spaces (s : list Z) : Prop := Forall is_space s.
Definition is_digit (c : Z) : Prop := 48 <= c <= 57.
(* the number written by decimal digits *)
Definition number (s : list Z) : Z := fold_left (fun v c => 10 * v + (c - 48)) s 0.
(* s is a way to write the integer z: an optional sign and at least one digit *)
Inductive numeral : list Z -> Z -> Prop :=
| num_plain d : d <> [] -> Forall is_digit d -> numeral d (number d)
| num_plus d : d <> [] -> Forall is_digit d -> numeral (43 :: d) (number d)
| num_minus d : d <> [] -> Forall is_digit d -> numeral (45 :: d) (- number d).
(* s is a line with three integers, separated by white space *)
Definition line3 (s : list Z) (a b c : Z) : Prop :=
  exists w0 w1 w2 w3 sa sb sc, s = w0 ++ sa ++ w1 ++ sb ++ w2 ++ sc ++ w3 /\
    spaces w0 /\ spaces w1 /\ spaces w2 /\ spaces w3 /\ w1 <> [] /\ w2 <> [] /\
    numeral sa a /\ numeral sb b /\ numeral sc c.
(* a line of a text file: no new line except at the end, no NUL, fits in a buffer of 1024 bytes *)
Definition is_line (s : list Z) : Prop :=
  exists t, s = t ++ [NL] /\ ~ In NL t /\ ~ In 0 t /\ len s <= 1023.
Definition int32 (z : Z) : Prop := - 2 ^ 31 <= z < 2 ^ 31.
Definition int64 (z : Z) : Prop := - 2 ^ 63 <= z < 2 ^ 63.
(* a line followed by r: the last line of a file may lack the new line *)
Definition text_line (s r : list Z) : Prop := is_line s \/ (r = [] /\ s <> [] /\ ~ In NL s /\ ~ In 0 s /\ len s <= 1022).
(* the lines of a text file *)
Inductive text : list (list Z) -> Prop :=
| text_nil : text []
| text_cons s ls : text_line s (concat ls) -> text ls -> text (s :: ls).
(* the lines ls describe the entries es: row and column (from 1) and value *)
Definition entry_lines (ls : list (list Z)) (es : list (Z * Z * Z)) : Prop :=
  Forall2 (fun s '(i, j, x) => line3 s i j x /\ 1 <= i < 2 ^ 31 /\ 1 <= j < 2 ^ 31 /\ int64 x) ls es.
(* rows and columns numbered from 0 *)
Definition from0 (e : Z * Z * Z) : Z * Z * Z := let '(i, j, x) := e in (i - 1, j - 1, x).
Definition inside (n m : Z) (e : Z * Z * Z) : Prop := let '(i, j, _) := e in 1 <= i <= n /\ 1 <= j <= m.
(* the first line of an SMS file: the dimensions, and a letter *)
Definition sms_header (s : list Z) (n m c : Z) : Prop :=
  exists w0 w1 w2 sn sm t, s = w0 ++ sn ++ w1 ++ sm ++ w2 ++ c :: t /\
    spaces w0 /\ spaces w1 /\ spaces w2 /\ w1 <> [] /\ w2 <> [] /\ numeral sn n /\ numeral sm m /\ ~ is_space c.
(* an SMS file with type c: header, entries, end marker, anything *)
Definition sms_file (f : list Z) (n m c : Z) (es : list (Z * Z * Z)) : Prop :=
  exists h ls e gl, f = concat (h :: ls ++ e :: gl) /\ text (h :: ls ++ e :: gl) /\
    sms_header h n m c /\ 0 <= n < 2 ^ 31 /\ 0 <= m < 2 ^ 31 /\ entry_lines ls es /\ line3 e 0 0 0.
(** MatrixMarket *)
Definition chars (s : String.string) : list Z := map (fun c => Z.of_N (Ascii.N_of_ascii c)) (String.list_ascii_of_string s).
Definition lower (c : Z) : Z := if (65 <=? c) && (c <=? 90) then c + 32 else c.
(* t is the word s, up to the case *)
Definition is_word (t : list Z) (s : String.string) : Prop := map lower t = chars s.
Definition mm_header (s : list Z) : Prop :=
  exists w0 w1 w2 w3 w4 a b c d, s = chars "%%MatrixMarket" ++ w0 ++ a ++ w1 ++ b ++ w2 ++ c ++ w3 ++ d ++ w4 /\
    (spaces w0 /\ spaces w1 /\ spaces w2 /\ spaces w3 /\ spaces w4) /\ (w0 <> [] /\ w1 <> [] /\ w2 <> [] /\ w3 <> []) /\
    is_word a "matrix" /\ is_word b "coordinate" /\ is_word c "integer" /\ is_word d "general".
(* a MatrixMarket file: header, comments, dimensions and number of entries, entries, anything *)
Definition mm_file (f : list Z) (n m : Z) (es : list (Z * Z * Z)) : Prop :=
  exists h cs d ls gl, f = concat (h :: cs ++ d :: ls ++ gl) /\ text (h :: cs ++ d :: ls ++ gl) /\
    mm_header h /\ Forall (fun s => get s 0 = 37) cs /\ line3 d n m (len es) /\
    0 <= n < 2 ^ 31 /\ 0 <= m < 2 ^ 31 /\ len es < 2 ^ 63 /\ entry_lines ls es.
(* the entries of a matrix, row by row *)
Definition clist (A : csr) : list (Z * Z * Z) := flat_map (fun i => map (fun '(j, x) => (i, j, x)) (rowl A i)) (zseq 0 (cn A)).
(* the part of a file before the first NUL *)
Fixpoint before_nul (s : list Z) : list Z := match s with [] => [] | c :: t => if c =? 0 then [] else c :: before_nul t end.
(* T holds the entries es, inserted one after the other in an empty n x m matrix *)
Definition loaded (n m p : Z) (wv : bool) (es : list (Z * Z * Z)) (T : triplet) : Prop :=
  twf T /\ tprime T = p /\ has_values T = wv /\ tlist T = flat_map (keeps p wv) (map from0 es) /\
  n <= tn T /\ m <= tm T /\ (Forall (inside n m) es -> tn T = n /\ tm T = m).
(* T is the n x m matrix with the entries l: reduced modulo p, those that are non-zero; without values if p = -1 *)
Definition reloaded (n m p : Z) (l : list (Z * Z * Z)) (T : triplet) : Prop :=
  twf T /\ tn T = n /\ tm T = m /\ tprime T = p /\ has_values T = negb (p =? -1) /\ tlist T = flat_map (keeps p (negb (p =? -1))) l.
