(** Files accepted by the loader: more than the files of SpecText.v, because scanf stops as soon as it has what it wants. *)
From Coq Require Import String.
From Verif Require Import Base Spec SpecText.
Local Open Scope string_scope.
Local Open Scope list_scope.
Local Open Scope Z_scope.

(* r does not continue a number *)
Definition ends (r : list Z) : Prop := match r with [] => True | c :: _ => ~ is_digit c end.
(* r does not continue a word *)
Definition ends_word (r : list Z) : Prop := match r with [] => True | c :: _ => is_space c end.
(* s is made of white space, a number, and r *)
Definition begins1 (s : list Z) (a : Z) (r : list Z) : Prop := exists w sa, s = w ++ sa ++ r /\ spaces w /\ numeral sa a /\ ends r.
(* s starts with three integers; anything may follow *)
Definition begins3 (s : list Z) (a b c : Z) : Prop := exists r1 r2 r3, begins1 s a r1 /\ begins1 r1 b r2 /\ begins1 r2 c r3.
(* s starts with the dimensions and a letter *)
Definition begins_sms (s : list Z) (n m c : Z) : Prop := exists r1 r2 w t, begins1 s n r1 /\ begins1 r1 m r2 /\ r2 = w ++ c :: t /\ spaces w /\ ~ is_space c.
(* s starts with the four words *)
Definition begins_mm (s : list Z) : Prop :=
  exists w0 w1 w2 w3 a b c d t, s = chars "%%MatrixMarket" ++ w0 ++ a ++ w1 ++ b ++ w2 ++ c ++ w3 ++ d ++ t /\
    (spaces w0 /\ spaces w1 /\ spaces w2 /\ spaces w3 /\ ends_word t) /\ (w1 <> [] /\ w2 <> [] /\ w3 <> []) /\
    is_word a "matrix" /\ is_word b "coordinate" /\ is_word c "integer" /\ is_word d "general".
(* the lines ls start with the entries es *)
Definition begin_entries (ls : list (list Z)) (es : list (Z * Z * Z)) : Prop :=
  Forall2 (fun s '(i, j, x) => begins3 s i j x /\ 1 <= i < 2 ^ 31 /\ 1 <= j < 2 ^ 31 /\ int64 x) ls es.
(* header, entries, end marker, anything *)
Definition like_sms (f : list Z) (n m c : Z) (es : list (Z * Z * Z)) : Prop :=
  exists h ls e gl, f = concat (h :: ls ++ e :: gl) /\ text (h :: ls ++ e :: gl) /\
    begins_sms h n m c /\ int32 n /\ int32 m /\ begin_entries ls es /\ begins3 e 0 0 0.
(* header, comments, dimensions, as many entries as announced, anything *)
Definition like_mm (f : list Z) (n m : Z) (es : list (Z * Z * Z)) : Prop :=
  exists h cs d ls gl, f = concat (h :: cs ++ d :: ls ++ gl) /\ text (h :: cs ++ d :: ls ++ gl) /\
    begins_mm h /\ Forall (fun s => get s 0 = 37) cs /\ get d 0 <> 37 /\ begins3 d n m (len es) /\ int32 n /\ int32 m /\ es <> [] /\ begin_entries ls es.
