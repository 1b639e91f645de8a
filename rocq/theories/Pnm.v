(** Model of the pictures of matrices. *)
From Verif Require Import Base Spec SpecText Zp Mat Sha Stdio IO Scc Dm ToolsElim.

(* C division; by zero: undefined behaviour *)
Definition cdiv (a b : Z) : res Z := if b =? 0 then Fail Overflow else Ok (Z.quot a b).

(* src/spasm_io.c:208-233: the number of entries per pixel.  The products i * y and Aj[px] * x are
   computed on 64 bits.  The counters are assumed to fit in an int (nnz < 2^31). *)
Definition pnm_counts (g : Z -> Z) (A : csr) (x y : Z) : res (list Z) :=
  xy <- i32 (x * y) ;;
  w <- for_ 0 xy (fun i w => aset w i 0) (malloc g xy) ;;
  for_ 0 (cn A) (fun i w =>
    k <- cdiv (i * y) (cn A) ;;
    lo <- aget (cp A) i ;; hi <- aget (cp A) (i + 1) ;;
    for_ lo hi (fun px w =>
      j <- aget (cj A) px ;;
      t <- cdiv (j * x) (cm A) ;;
      c <- aget w (k * x + t) ;; aset w (k * x + t) (c + 1)) w) w.

(* src/spasm_io.c:239-243 *)
Definition bgcolor (v h : Z) : Z :=
  if v =? 0 then (if h =? 0 then 0xFF0000 else if h =? 1 then 0xCC0000 else 0x990000)
  else if v =? 1 then (if h =? 0 then 0xFFFFFF else if h =? 1 then 0xFFCC00 else 0xCC9900)
  else (if h =? 0 then 0xFFFFFF else if h =? 1 then 0xFFFFFF else 0x33CC00).
(* src/spasm_io.c:245-259: limits_v, limits_h, r, c *)
Record limits := Limits { lv0 : Z; lv1 : Z; lh0 : Z; lh1 : Z; l_r : list Z; l_c : list Z }.
Definition pnm_limits (A : csr) (x y : Z) (D : option dm) : res limits :=
  match D with
  | None => Ok (Limits 0 0 0 0 [] [])
  | Some D =>
      cc2 <- aget (dm_cc D) 2 ;; h0 <- cdiv (cc2 * x) (cm A) ;;
      cc3 <- aget (dm_cc D) 3 ;; h1 <- cdiv (cc3 * x) (cm A) ;;
      rr1 <- aget (dm_rr D) 1 ;; v0 <- cdiv (rr1 * y) (cn A) ;;
      rr2 <- aget (dm_rr D) 2 ;; v1 <- cdiv (rr2 * y) (cn A) ;;
      Ok (Limits v0 v1 h0 h1 (dm_r D) (dm_c D))
  end.
(* src/spasm_io.c:263-266, 289-294: scc, scc_left_edge, scc_right_edge, scc_bot_edge *)
Definition edges : Type := (Z * Z * Z * Z)%type.
Definition next_scc (A : csr) (x y : Z) (l : limits) (i : Z) (e : edges) : res edges :=
  loop (S (length (l_r l))) (fun '(scc, le, ri, bo) =>
    if bo <=? i then
      c <- aget (l_c l) (scc + 1) ;; ri' <- cdiv (c * x) (cm A) ;;
      r <- aget (l_r l) (scc + 1) ;; bo' <- cdiv (r * y) (cn A) ;;
      Ok (inl (scc + 1, ri, ri', bo'))
    else Ok (inr (scc, le, ri, bo))) e.
(* src/spasm_io.c:277-302 *)
Definition pnm_colour (A : csr) (x y : Z) (l : limits) (i j cnt : Z) (e : edges) : res (list Z * edges) :=
  let v := if lv0 l <=? i then (if i <? lv1 l then 1 else 2) else 0 in
  let h := if lh0 l <=? j then (if j <? lh1 l then 1 else 2) else 0 in
  let bg := bgcolor v h in
  '(bg, e) <- (if (h =? 1) && (v =? 1) then
      e <- next_scc A x y l i e ;;
      let '(_, le, ri, _) := e in
      Ok (if j <? le then 0xFFFFFF else if j <? ri then bg + 0x003366 else bg, e)
    else Ok (bg, e)) ;;
  let pixel := if 0 <? cnt then 0 else bg in
  Ok (print_int (Z.land (Z.shiftr pixel 16) 255) ++ [SP] ++ print_int (Z.land (Z.shiftr pixel 8) 255) ++ [SP] ++ print_int (Z.land pixel 255) ++ [SP], e).
(* src/spasm_io.c:270-303.  level cnt max is the gray printed for 0 <= cnt <= max and 0 < max: exp, log and
   the rounding are not modelled, and the assertion on the intensity is assumed.  0 / 0 is a NaN, for
   which the assertion fails. *)
Definition pnm_pixel (level : Z -> Z -> Z) (A : csr) (x y mode max : Z) (l : limits) (w : list Z) (i j : Z) (e : edges) : res (list Z * edges) :=
  cnt <- aget w (i * x + j) ;;
  if mode =? 1 then Ok (print_int (if 0 <? cnt then 1 else 0) ++ [SP], e)
  else if mode =? 2 then
    _ <- assert_ (negb (max =? 0)) ;;
    Ok (print_int (level cnt max) ++ [SP], e)
  else pnm_colour A x y l i j cnt e.

(* src/spasm_io.c:203-312 *)
Definition save_pnm (g : Z -> Z) (level : Z -> Z -> Z) (A : csr) (x y mode : Z) (D : option dm) : res (list Z) :=
  let x := Z.min x (cm A) in
  let y := Z.min y (cn A) in
  _ <- assert_ ((mode - 1) * (mode - 2) * (mode - 3) =? 0) ;;
  _ <- assert_ (negb (mode =? 3) || match D with Some _ => true | None => false end) ;;
  w <- pnm_counts g A x y ;;
  let f := 80 :: print_int mode ++ [NL] ++ print_int x ++ [SP] ++ print_int y ++ [NL] ++ (if 1 <? mode then print_int 255 ++ [NL] else []) in
  max <- for_ 0 (x * y) (fun j max => v <- aget w j ;; Ok (Z.max max v)) 0 ;;
  l <- pnm_limits A x y D ;;
  '(f, _, _) <- for_ 0 y (fun i s => for_ 0 x (fun j '(f, t, e) =>
      '(s, e) <- pnm_pixel level A x y mode max l w i j e ;;
      Ok (f ++ s ++ (if Z.land t 31 =? 0 then [NL] else []), t + 1, e)) s) (f, 0, (0, 0, 0, 0)) ;;
  Ok f.

(* tools/bitmap.c:47-64: the dimensions of the image, w and h being -1 when they are not given.  mpix: the sign of
   the number of millions of pixels (-1 when it is not given); target n m: the dimensions computed from it, in
   floating-point arithmetic *)
Definition bitmap_size (target : Z -> Z -> Z * Z) (mpix w h n m : Z) : res (Z * Z) :=
  if (0 <? mpix) && ((0 <? w) || (0 <? h)) then Fail AssertFailed else
  let mpix := if (mpix <? 0) && (w <? 0) && (h <? 0) then 1 else mpix in
  let '(w, h) := if (0 <? mpix) && (w <? 0) && (h <? 0) then target n m else (w, h) in
  w <- (if (mpix <? 0) && (w <? 0) && (0 <? h) then q <- cdiv h n ;; i32 (m * q) else Ok w) ;;
  h <- (if (mpix <? 0) && (0 <? w) && (h <? 0) then q <- cdiv w m ;; i32 (n * q) else Ok h) ;;
  Ok (Z.min w m, Z.min h n).
(* tools/bitmap.c:38-70 *)
Definition tool_bitmap (gs : Z -> Z) (g : Z -> Z -> Z -> Z) (level : Z -> Z -> Z) (target : Z -> Z -> Z * Z) (mpix w h : Z) (gray : bool)
    (input : list Z) : res (list Z) :=
  '(T, _) <- triplet_load gs (g 0) input (-1) None ;;
  A <- compress (g 1) T ;;
  '(w, h) <- bitmap_size target mpix w h (cn A) (cm A) ;;
  save_pnm (g 2 0) level A w h (if gray then 2 else 1) None.

(* tools/dm.c:44-54, 92-98: the picture of the permuted matrix (mode i).  size n m: the dimensions of the image,
   computed in floating-point arithmetic from those of the matrix and from the argument of --image *)
Definition dm_draw (g : Z -> Z -> Z -> Z) (gd : Z -> Z -> Z -> Z) (level : Z -> Z -> Z) (size : Z -> Z -> Z * Z) (A : csr) : res (list Z) :=
  D <- dulmage_mendelsohn gd A ;;
  qinv <- pinv (g 2) (Some (dm_q D)) (cm A) ;;
  B <- permute (g 3) A (Some (dm_p D)) qinv true ;;
  let '(w, h) := size (cn A) (cm A) in
  save_pnm (g 4 0) level B w h 3 (Some D).
(* tools/dm.c:41-54, 92-98: the same, for the matrix of a file *)
Definition tool_dm_image (gs : Z -> Z) (g : Z -> Z -> Z -> Z) (gd : Z -> Z -> Z -> Z) (level : Z -> Z -> Z) (size : Z -> Z -> Z * Z) (input : list Z) : res (list Z) :=
  '(A, _) <- load_matrix gs g (fun _ _ => false) input 42013 None ;;
  dm_draw g gd level size A.
