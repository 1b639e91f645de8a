(** Model of src/spasm_io.c, without the messages and the images. *)
From Verif Require Import Base Spec SpecText Zp Mat SpecSha Sha Stdio.

Definition MM : list Z := [37; 37; 77; 97; 116; 114; 105; 120; 77; 97; 114; 107; 101; 116].  (* "%%MatrixMarket" *)
Definition s_matrix : list Z := [109; 97; 116; 114; 105; 120].
Definition s_coordinate : list Z := [99; 111; 111; 114; 100; 105; 110; 97; 116; 101].
Definition s_integer : list Z := [105; 110; 116; 101; 103; 101; 114].
Definition s_general : list Z := [103; 101; 110; 101; 114; 97; 108].
Definition eqs (a b : list Z) : bool := if list_eq_dec Z.eq_dec a b then true else false.
Fixpoint prefix (a s : list Z) : option (list Z) :=
  match a, s with
  | [], _ => Some s
  | x :: a, y :: s => if x =? y then prefix a s else None
  | _ :: _, [] => None
  end.

(* src/spasm_io.c:11-26, read_line.  None: end of file; otherwise the string in the buffer. ctx is None when no hash is requested *)
Definition read_line (g : Z -> Z) (ctx : option sha_ctx) (f : file) : res (option (list Z) * option sha_ctx * file) :=
  match fgets 1024 f with
  | (None, f) => Ok (None, ctx, f)
  | (Some l, f) =>
      let s := cstr l in
      let n := len s in
      _ <- assert_ (negb (n =? 0)) ;;
      _ <- assert_ ((get s (n - 1) =? NL) || feof f) ;;
      ctx <- match ctx with None => Ok None | Some c => c <- SHA256_update g c s n ;; Ok (Some c) end ;;
      Ok (Some s, ctx, f)
  end.

(* a %s directive that writes in an array of 1024 chars *)
Definition scan_s (s : list Z) : res (option (list Z) * list Z) :=
  match scan_word s with
  | (None, r) => Ok (None, r)
  | (Some w, r) => if len w + 1 <=? 1024 then Ok (Some w, r) else Fail OOB
  end.
(* src/spasm_io.c:28-53, validate_mm_header.  The format starts with "%%MatrixMarket " *)
Definition validate_mm_header (buffer : list Z) : res unit :=
  match prefix MM buffer with None => Fail AssertFailed | Some s =>
  '(w1, s) <- scan_s s ;;
  match w1 with None => Fail AssertFailed | Some w1 =>
  '(w2, s) <- scan_s s ;;
  match w2 with None => Fail AssertFailed | Some w2 =>
  '(w3, s) <- scan_s s ;;
  match w3 with None => Fail AssertFailed | Some w3 =>
  '(w4, s) <- scan_s s ;;
  match w4 with None => Fail AssertFailed | Some w4 =>
    _ <- assert_ (eqs (map tolower w1) s_matrix) ;;
    _ <- assert_ (eqs (map tolower w2) s_coordinate) ;;
    _ <- assert_ (eqs (map tolower w3) s_integer) ;;
    assert_ (eqs (map tolower w4) s_general)
  end end end end end.

(* sscanf "%d %d %ld\n": the three values, if there are three *)
Definition scan3 (s : list Z) : res (option (Z * Z * Z)) :=
  '(a, s) <- scan_int 31 s ;;
  match a with None => Ok None | Some a =>
  '(b, s) <- scan_int 31 s ;;
  match b with None => Ok None | Some b =>
  '(c, s) <- scan_int 63 s ;;
  match c with None => Ok None | Some c => Ok (Some (a, b, c)) end end end.
(* sscanf "%d %d %c\n" *)
Definition scan_sms (s : list Z) : res (option (Z * Z * Z)) :=
  '(a, s) <- scan_int 31 s ;;
  match a with None => Ok None | Some a =>
  '(b, s) <- scan_int 31 s ;;
  match b with None => Ok None | Some b =>
  match skip_space s with [] => Ok None | c :: _ => Ok (Some (a, b, c)) end end end.
Definition is_mm (s : list Z) : bool := match prefix MM s with Some _ => true | None => false end.
Definition i32 (z : Z) : res Z := if (- 2 ^ 31 <=? z) && (z <? 2 ^ 31) then Ok z else Fail Overflow.

(* src/spasm_io.c:86-93: the comments; the first line that is not one *)
Definition skip_comments (gs : Z -> Z) (ctx : option sha_ctx) (f : file) : res (list Z * option sha_ctx * file) :=
  loop (S (length (frest f))) (fun '(ctx, f) =>
    '(l, ctx, f) <- read_line gs ctx f ;;
    match l with
    | None => Fail AssertFailed
    | Some s => c <- aget (s ++ [0]) 0 ;; if negb (c =? 37) then Ok (inr (s, ctx, f)) else Ok (inl (ctx, f))
    end) (ctx, f).
(* src/spasm_io.c:109-141: the entries *)
Definition read_entries (gs : Z -> Z) (g : Z -> Z -> Z) (mm : bool) (nnz : Z) (T : triplet) (ctx : option sha_ctx) (f : file)
  : res (triplet * option sha_ctx * file) :=
  loop (S (length (frest f))) (fun '(T, end_, entries, ctx, f) =>
    '(l, ctx, f) <- read_line gs ctx f ;;
    match l with
    | None => if end_ then Ok (inr (T, ctx, f)) else Fail AssertFailed
    | Some s =>
        if (end_ : bool) then Ok (inl (T, end_, entries, ctx, f)) else
        v <- scan3 s ;;
        match v with
        | None => Fail AssertFailed
        | Some (i, j, x) =>
            let marker := (i =? 0) && (j =? 0) && (x =? 0) in
            _ <- assert_ (negb (marker && mm)) ;;
            '(T, entries) <-
              (if marker then Ok (T, entries) else
               i <- i32 (i - 1) ;;
               j <- i32 (j - 1) ;;
               T <- add_entry g T i j x ;;
               Ok (T, entries + 1)) ;;
            let end_ := marker || (mm && (entries =? nnz)) in
            Ok (inl (T, end_, entries, ctx, f))
        end
    end) (T, false, 0, ctx, f).
(* src/spasm_io.c:60-160.  bytes: the whole file; the result is the matrix and, if requested, the hash *)
Definition triplet_load (gs : Z -> Z) (g : Z -> Z -> Z) (bytes : list Z) (prime : Z) (hash : option (list Z)) : res (triplet * option (list Z)) :=
  let ctx := match hash with Some _ => Some SHA256_init | None => None end in
  '(l, ctx, f) <- read_line gs ctx (File bytes false) ;;
  match l with None => Fail AssertFailed | Some s =>
  '(mm, n, m, nnz, ctx, f) <-
    (if is_mm s then
       _ <- validate_mm_header s ;;
       '(s, ctx, f) <- skip_comments gs ctx f ;;
       v <- scan3 s ;;
       match v with None => Fail AssertFailed | Some (n, m, nnz) => Ok (true, n, m, nnz, ctx, f) end
     else
       v <- scan_sms s ;;
       match v with None => Fail AssertFailed | Some (n, m, type) =>
         _ <- assert_ ((prime =? -1) || (type =? 77)) ;;
         Ok (false, n, m, 1, ctx, f)
       end) ;;
  _ <- assert_ (0 <=? nnz) ;; (* otherwise, malloc fails; see Header.v for |nnz| >= 2^61 *)
  let T := triplet_alloc g n m nnz prime (negb (prime =? -1)) in
  '(T, ctx, f) <- read_entries gs g mm nnz T ctx f ;;
  let T := if mm then T else triplet_realloc g T (-1) in
  h <- match ctx, hash with
       | Some c, Some md => md <- SHA256_final gs md c ;; Ok (Some md)
       | _, _ => Ok None
       end ;;
  Ok (T, h)
  end.

(* "%d %d M\n" and "%d %d %ld\n" *)
Definition print_header (n m : Z) : list Z := print_int n ++ [SP] ++ print_int m ++ [SP; 77; NL].
Definition print3 (a b c : Z) : list Z := print_int a ++ [SP] ++ print_int b ++ [SP] ++ print_int c ++ [NL].
(* src/spasm_io.c:165-184 *)
Definition csr_save (A : csr) : res (list Z) :=
  let f := print_header (cn A) (cm A) in
  f <- for_ 0 (cn A) (fun i f =>
    b <- aget (cp A) i ;; e <- aget (cp A) (i + 1) ;;
    for_ b e (fun px f =>
      x <- match cx A with Some x => aget x px | None => Ok 1 end ;;
      j <- aget (cj A) px ;;
      i' <- i32 (i + 1) ;;
      j' <- i32 (j + 1) ;;
      Ok (f ++ print3 i' j' x)) f) f ;;
  Ok (f ++ print3 0 0 0).
(* src/spasm_io.c:189-201 *)
Definition triplet_save (T : triplet) : res (list Z) :=
  let f := print_header (tn T) (tm T) in
  f <- for_ 0 (tnz T) (fun px f =>
    i <- aget (ti T) px ;;
    i' <- i32 (i + 1) ;;
    j <- aget (tj T) px ;;
    j' <- i32 (j + 1) ;;
    x <- match tx T with Some x => aget x px | None => Ok 1 end ;;
    Ok (f ++ print3 i' j' x)) f ;;
  Ok (f ++ print3 0 0 0).
