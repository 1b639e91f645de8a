(** Images in the plain PNM formats, and the picture of a matrix. *)
From Verif Require Import Base Spec SpecText.

(* the words of a text, separated by white space *)
Inductive tokens : list Z -> list (list Z) -> Prop :=
| tokens_nil s : spaces s -> tokens s []
| tokens_cons s t c r ws : spaces s -> t <> [] -> Forall (fun c => ~ is_space c) t -> is_space c -> tokens r ws -> tokens (s ++ t ++ c :: r) (t :: ws).
(* a plain image: the magic number P1, P2 or P3, then decimal numbers *)
Definition plain_image (f : list Z) (magic : Z) (ns : list Z) : Prop :=
  exists ws, tokens f ([80; 48 + magic] :: ws) /\ Forall2 numeral ws ns.
(* the numbers of an image of width x and height y, row after row; pixel i j: those of the pixel in row i and column j *)
Definition raster (x y : Z) (pixel : Z -> Z -> list Z) : list Z := flat_map (fun i => flat_map (pixel i) (zseq 0 x)) (zseq 0 y).
(* a matrix entry (a, b) is drawn in row i and column j of an image of width x and height y *)
Definition drawn (A : csr) (x y i j a b : Z) : Prop := a * y / cn A = i /\ b * x / cm A = j.
(* some entry is drawn there *)
Definition covered (A : csr) (x y i j : Z) : Prop := exists a b, 0 <= a < cn A /\ stored A a b /\ drawn A x y i j a b.
(* number of entries drawn there *)
Definition density (A : csr) (x y i j : Z) : Z :=
  sum 0 (cn A) (fun a => sum (rbeg A a) (rend A a) (fun px => if (a * y / cn A =? i) && (get (cj A) px * x / cm A =? j) then 1 else 0)).
(* M is the largest number of entries drawn in a pixel *)
Definition densest (A : csr) (x y M : Z) : Prop :=
  (forall i j, 0 <= i < y -> 0 <= j < x -> density A x y i j <= M) /\ exists i j, 0 <= i < y /\ 0 <= j < x /\ density A x y i j = M.
(* f is the picture of A in black and white: 1 where some entry is drawn *)
Definition bw_picture (A : csr) (x y : Z) (f : list Z) : Prop :=
  exists bit, plain_image f 1 (x :: y :: raster x y (fun i j => [bit i j])) /\
    forall i j, 0 <= i < y -> 0 <= j < x -> bit i j = 1 /\ covered A x y i j \/ bit i j = 0 /\ ~ covered A x y i j.
(* f is the picture of A in gray: the level depends on the number of entries drawn and on the largest one *)
Definition gray_picture (level : Z -> Z -> Z) (A : csr) (x y : Z) (f : list Z) : Prop :=
  exists M, densest A x y M /\ 0 < M /\ plain_image f 2 (x :: y :: 255 :: raster x y (fun i j => [level (density A x y i j) M])).
(* A, from 0, is the pattern of the entries es *)
Definition pattern_of (n m : Z) (es : list (Z * Z * Z)) (A : csr) : Prop :=
  wf A /\ cn A = n /\ cm A = m /\ nodup_rows A /\ forall i j, 0 <= i < n -> stored A i j <-> exists v, In (i + 1, j + 1, v) es.
(* position of the boundary b of 0..n in an image of size y *)
Definition edge_at (b y n : Z) : Z := b * y / n.
(* the part (0, 1 or 2) of the coordinate i, with two limits *)
Definition part (a b i : Z) : Z := if i <? a then 0 else if i <? b then 1 else 2.
(* red, green and blue of the background of the parts of a Dulmage-Mendelsohn decomposition *)
Definition background (v h : Z) : Z * Z * Z :=
  if v =? 0 then (if h =? 0 then (255, 0, 0) else if h =? 1 then (204, 0, 0) else (153, 0, 0))
  else if v =? 1 then (if h =? 0 then (255, 255, 255) else if h =? 1 then (255, 204, 0) else (204, 153, 0))
  else (if h =? 2 then (51, 204, 0) else (255, 255, 255)).
(* the pixel (i, j): black if some entry is drawn, otherwise depending on the part; in the square part, the
   diagonal block of the row i is the first one that ends below it *)
Definition colour (n m x y : Z) (rr cc r c : list Z) (i j : Z) (rgb : Z * Z * Z) : Prop :=
  let v := part (edge_at (get rr 1) y n) (edge_at (get rr 2) y n) i in
  let h := part (edge_at (get cc 2) x m) (edge_at (get cc 3) x m) j in
  if (v =? 1) && (h =? 1) then
    exists t, 1 <= t /\ i < edge_at (get r t) y n /\ (forall u, 1 <= u < t -> edge_at (get r u) y n <= i) /\
      rgb = (let p := part (edge_at (get c (t - 1)) x m) (edge_at (get c t) x m) j in
             if p =? 0 then (255, 255, 255) else if p =? 1 then (255, 255, 102) else (255, 204, 0))
  else rgb = background v h.
(* f is the picture in colour of a matrix A in block form *)
Definition colour_picture (A : csr) (x y : Z) (rr cc r c : list Z) (f : list Z) : Prop :=
  exists pixel, plain_image f 3 (x :: y :: 255 :: raster x y pixel) /\
    forall i j, 0 <= i < y -> 0 <= j < x ->
      covered A x y i j /\ pixel i j = [0; 0; 0] \/
      ~ covered A x y i j /\ exists R G B, colour (cn A) (cm A) x y rr cc r c i j (R, G, B) /\ pixel i j = [R; G; B].
