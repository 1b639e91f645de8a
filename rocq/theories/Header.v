(** Loading a file, with the sizes of the arrays of entries as C computes them.

    In IO.v the arrays of a triplet matrix have as many cells as nzmax says.  Here nzmax is kept
    apart, and the arrays have the size given to malloc, a product of 64-bit integers.  No block has
    more than [most] bytes: malloc fails if more are asked for. *)
From Verif Require Import Base Spec Zp Mat Sha Stdio IO Sizes.

(* src/spasm_util.c:66-72, 83-89: malloc, realloc of nzmax * sizeof(int); the number of cells *)
Definition cells (most nzmax : Z) : res Z :=
  b <- argument (Mul (i64v nzmax) (sizeof sz_int)) ;;
  _ <- assert_ ((0 <=? b) && (b <=? most)) ;;
  Ok (b / sz_int).
(* src/spasm_util.c:105-117; the matrix and nzmax *)
Definition halloc (g : Z -> Z -> Z) (most n m nzmax prime : Z) (with_values : bool) : res (triplet * Z) :=
  k <- cells most nzmax ;; Ok (triplet_alloc g n m k prime with_values, nzmax).
(* src/spasm_util.c:139-150 *)
Definition hrealloc (g : Z -> Z -> Z) (most : Z) (T : triplet) (nzmax : Z) : res (triplet * Z) :=
  let nzmax := if nzmax <? 0 then tnz T else nzmax in
  k <- cells most nzmax ;; Ok (triplet_realloc g T k, nzmax).
(* src/spasm_triplet.c:7-24 *)
Definition hadd (g : Z -> Z -> Z) (most : Z) (t : triplet * Z) (i j x : Z) : res (triplet * Z) :=
  let '(T, nzmax) := t in
  _ <- assert_ ((0 <=? i) && (0 <=? j)) ;;
  let px := tnz T in
  '(T, nzmax) <- (if px =? nzmax then k <- argument (Add (int 1) (Mul (int 2) (i64v nzmax))) ;; hrealloc g most T k else Ok (T, nzmax)) ;;
  let xp := zinit (tprime T) x in
  match tx T with
  | Some tx0 =>
      if xp =? 0 then Ok (T, nzmax) else
      tx1 <- aset tx0 px xp ;;
      ti1 <- aset (ti T) px i ;;
      tj1 <- aset (tj T) px j ;;
      Ok (Triplet (tnz T + 1) (Z.max (tn T) (i + 1)) (Z.max (tm T) (j + 1)) ti1 tj1 (Some tx1) (tprime T), nzmax)
  | None =>
      ti1 <- aset (ti T) px i ;;
      tj1 <- aset (tj T) px j ;;
      Ok (Triplet (tnz T + 1) (Z.max (tn T) (i + 1)) (Z.max (tm T) (j + 1)) ti1 tj1 None (tprime T), nzmax)
  end.
(* src/spasm_io.c:109-141: the entries *)
Definition hentries (gs : Z -> Z) (g : Z -> Z -> Z) (most : Z) (mm : bool) (nnz : Z) (t : triplet * Z) (ctx : option sha_ctx) (f : file)
  : res (triplet * Z * option sha_ctx * file) :=
  loop (S (length (frest f))) (fun '(t, end_, entries, ctx, f) =>
    '(l, ctx, f) <- read_line gs ctx f ;;
    match l with
    | None => if end_ then Ok (inr (t, ctx, f)) else Fail AssertFailed
    | Some s =>
        if (end_ : bool) then Ok (inl (t, end_, entries, ctx, f)) else
        v <- scan3 s ;;
        match v with
        | None => Fail AssertFailed
        | Some (i, j, x) =>
            let marker := (i =? 0) && (j =? 0) && (x =? 0) in
            _ <- assert_ (negb (marker && mm)) ;;
            '(t, entries) <-
              (if marker then Ok (t, entries) else
               i <- i32 (i - 1) ;;
               j <- i32 (j - 1) ;;
               t <- hadd g most t i j x ;;
               Ok (t, entries + 1)) ;;
            let end_ := marker || (mm && (entries =? nnz)) in
            Ok (inl (t, end_, entries, ctx, f))
        end
    end) (t, false, 0, ctx, f).
(* src/spasm_io.c:60-160 *)
Definition hload (gs : Z -> Z) (g : Z -> Z -> Z) (most : Z) (bytes : list Z) (prime : Z) (hash : option (list Z)) : res (triplet * option (list Z)) :=
  let ctx := match hash with Some _ => Some SHA256_init | None => None end in
  '(l, ctx, f) <- read_line gs ctx (File bytes false) ;;
  match l with None => Fail AssertFailed | Some s =>
  '(mm, n, m, nnz, ctx, f) <-
    (if is_mm s then
       _ <- validate_mm_header s ;;
       '(s, ctx, f) <- skip_comments gs ctx f ;;
       v <- scan3 s ;;
       match v with None => Fail AssertFailed | Some (n, m, nnz) => Ok (true, n, m, nnz, ctx, f) end
     else
       v <- scan_sms s ;;
       match v with None => Fail AssertFailed | Some (n, m, type) =>
         _ <- assert_ ((prime =? -1) || (type =? 77)) ;;
         Ok (false, n, m, 1, ctx, f)
       end) ;;
  t <- halloc g most n m nnz prime (negb (prime =? -1)) ;;
  '(t, ctx, f) <- hentries gs g most mm nnz t ctx f ;;
  '(T, _) <- (if mm then Ok t else hrealloc g most (fst t) (-1)) ;;
  h <- match ctx, hash with
       | Some c, Some md => md <- SHA256_final gs md c ;; Ok (Some md)
       | _, _ => Ok None
       end ;;
  Ok (T, h)
  end.
