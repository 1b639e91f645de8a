(** The functions of the C library used to read and write text, in the C locale.  This file models no function of /repo. *)
From Verif Require Import Base Spec SpecText.

Definition isspace (c : Z) : bool := (c =? 32) || ((9 <=? c) && (c <=? 13)).
Definition isdigit (c : Z) : bool := (48 <=? c) && (c <=? 57).
Definition tolower (c : Z) : Z := if (65 <=? c) && (c <=? 90) then c + 32 else c.

(** ** Output: a file open for writing is the list of the bytes written *)
(* the digits of z >= 0, before s; k: at least the number of digits *)
Fixpoint digits (k : nat) (z : Z) (s : list Z) : list Z :=
  match k with
  | O => s
  | S k => let s := (48 + z mod 10) :: s in if z <? 10 then s else digits k (z / 10) s
  end.
(* printf %d and %ld: the arguments have at most 20 digits *)
Definition print_int (z : Z) : list Z := if z <? 0 then 45 :: digits 20 (- z) [] else digits 20 z [].
Definition hexdigit (d : Z) : Z := if d <? 10 then 48 + d else 87 + d.
(* printf %02x of a byte *)
Definition print_02x (b : Z) : list Z := [hexdigit (b / 16); hexdigit (b mod 16)].

(** ** Input *)
Fixpoint skip_space (s : list Z) : list Z :=
  match s with [] => [] | c :: t => if isspace c then skip_space t else s end.
(* the digits at the beginning of s: the number they write, after the digits already read, and what follows *)
Fixpoint scan_digits (v : Z) (s : list Z) : Z * list Z :=
  match s with [] => (v, s) | c :: t => if isdigit c then scan_digits (10 * v + (c - 48)) t else (v, s) end.
Definition starts_digit (s : list Z) : bool := match s with [] => false | c :: _ => isdigit c end.
(* the directives %d (bits = 31) and %ld (bits = 63): None if there is no match; a value that does not fit is undefined behaviour *)
Definition scan_int (bits : Z) (s : list Z) : res (option Z * list Z) :=
  let s := skip_space s in
  let '(neg, s) := match s with c :: t => if c =? 45 then (true, t) else if c =? 43 then (false, t) else (false, s) | [] => (false, s) end in
  if negb (starts_digit s) then Ok (None, s) else
  let '(v, s) := scan_digits 0 s in
  let v := if neg then - v else v in
  if (- 2 ^ bits <=? v) && (v <? 2 ^ bits) then Ok (Some v, s) else Fail Overflow.
(* the directive %s: the bytes up to the next white space *)
Fixpoint take_word (s : list Z) : list Z * list Z :=
  match s with [] => ([], []) | c :: t => if isspace c then ([], s) else let '(w, r) := take_word t in (c :: w, r) end.
Definition scan_word (s : list Z) : option (list Z) * list Z :=
  let s := skip_space s in
  match take_word s with ([], r) => (None, r) | (w, r) => (Some w, r) end.
(* the string in a buffer ends at the first NUL *)
Fixpoint cstr (s : list Z) : list Z := match s with [] => [] | c :: t => if c =? 0 then [] else c :: cstr t end.

(* a file open for reading: what follows, and the end-of-file indicator *)
Record file := File { frest : list Z; feof : bool }.
(* the bytes up to a new line (included) or the end, at most k; true if the end of the file was met *)
Fixpoint take_line (k : nat) (s : list Z) : list Z * list Z * bool :=
  match k with
  | O => ([], s, false)
  | S k => match s with
    | [] => ([], [], true)
    | c :: t => if c =? NL then ([c], t, false) else let '(l, r, e) := take_line k t in (c :: l, r, e)
    end
  end.
(* fgets: None is NULL; otherwise the bytes read, which are followed by a NUL in the buffer *)
Definition fgets (size : Z) (f : file) : option (list Z) * file :=
  if feof f then (None, f) else
  let '(l, r, e) := take_line (Z.to_nat (size - 1)) (frest f) in
  match l with [] => (None, File r e) | _ => (Some l, File r e) end.
(* fscanf %d, %ld *)
Definition fscan_int (bits : Z) (f : file) : res (option Z * file) :=
  '(v, r) <- scan_int bits (frest f) ;; Ok (v, File r (feof f || match r with [] => true | _ => false end)).
