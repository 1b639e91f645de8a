(** Certificates read from any sequence of bytes.

    In CertIO.v the four arrays have as many cells as the file says.  Here they have the size given to
    malloc, and no block has more than [most] bytes.  The pointers are not checked. *)
From Verif Require Import Base Spec Zp Mat Sha Stdio IO Sizes Cert CertIO AnyInput AnyElim.

(* src/spasm_certificate.c:249-252: malloc(r * sizeof(int)); there is no cell behind a null pointer *)
Definition unchecked (g : Z -> Z) (most r : Z) : res (list Z) :=
  b <- argument (Mul (int r) (sizeof sz_int)) ;;
  Ok (if (0 <=? b) && (b <=? most) then malloc g (b / sz_int) else []).
(* src/spasm_certificate.c:243-278 *)
Definition ncert_load (g : Z -> Z -> Z) (most : Z) (bytes : list Z) : res (option cert) :=
  '(r, f) <- fscan_int 31 (File bytes false) ;;
  match r with None => Ok None | Some r =>
  ii <- unchecked (g 0) most r ;;
  jj <- unchecked (g 1) most r ;;
  x <- unchecked (g 2) most r ;;
  y <- unchecked (g 3) most r ;;
  '(p, f) <- fscan_int 63 f ;;
  match p with None => Ok None | Some p =>
  let rest := skip_space (frest f) in
  match fgets 65 (File rest (match rest with [] => true | _ => false end)) with
  | (None, _) => Ok None
  | (Some l, f) =>
      let buf := (l ++ [0]) ++ skipn (length l + 1) (malloc (g 4) 65) in
      hash <- for_ 0 32 (fun i hash =>
        a <- aget buf (2 * i) ;; b <- aget buf (2 * i + 1) ;;
        aset hash i (strtoul16 [a; b])) (malloc (g 5) 32) ;;
      '(ii, f) <- scan_list r ii f ;;
      '(ii, f) <- scan_list r ii f ;;
      '(x, f) <- scan_list r x f ;;
      '(y, f) <- scan_list r y f ;;
      Ok (Some (Cert r p hash ii jj x y))
  end end end.
(* tools/check_cert.c:56-83, as in ToolsElim.v *)
Definition ntool_check_cert (gs : Z -> Z) (g : Z -> Z -> Z -> Z) (gc : Z -> Z -> Z -> Z) (fc : nat) (junk : cert) (most : Z)
    (input certificate : list Z) (prime : Z) : res (bool * Z) :=
  '(A, h) <- nload_matrix gs g most (fun _ _ => false) input prime (Some (malloc (g 2 0) 32)) ;;
  o <- ncert_load (g 3) most certificate ;;
  hash <- deref h ;;
  correct <- rank_verify gc fc A hash (match o with Some proof => proof | None => junk end) ;;
  Ok (negb correct, if correct then 1 else 0).
