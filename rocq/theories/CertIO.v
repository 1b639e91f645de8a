(** Model of the files of rank certificates, src/spasm_certificate.c:221-278. *)
From Verif Require Import Base Spec SpecText Zp Mat Sha Prng Cert Stdio.

(* fprintf "%d " of the first r elements, then a new line *)
Definition print_list (r : Z) (l f : list Z) : res (list Z) :=
  f <- for_ 0 r (fun k f => v <- aget l k ;; Ok (f ++ print_int v ++ [SP])) f ;;
  Ok (f ++ [NL]).
(* src/spasm_certificate.c:221-241: the bytes written *)
Definition cert_save (c : cert) : res (list Z) :=
  let r := c_r c in
  let f := print_int r ++ [NL] ++ print_int (c_prime c) ++ [NL] in
  f <- for_ 0 32 (fun i f => b <- aget (c_hash c) i ;; Ok (f ++ print_02x b)) f ;;
  let f := f ++ [NL] in
  f <- print_list r (c_i c) f ;;
  f <- print_list r (c_j c) f ;;
  f <- print_list r (c_x c) f ;;
  print_list r (c_y c) f.

(* the value of a hexadecimal digit *)
Definition hexval (c : Z) : option Z :=
  if isdigit c then Some (c - 48) else
  if (97 <=? c) && (c <=? 102) then Some (c - 87) else
  if (65 <=? c) && (c <=? 70) then Some (c - 55) else None.
Fixpoint scan_hex (v : Z) (s : list Z) : Z :=
  match s with [] => v | c :: t => match hexval c with Some d => scan_hex (16 * v + d) t | None => v end end.
(* strtoul in base 16 of a string of at most two characters ("0x" is 0), truncated to 8 bits *)
Definition strtoul16 (s : list Z) : Z :=
  let s := skip_space (cstr s) in
  let '(neg, s) := match s with c :: t => if c =? 45 then (true, t) else if c =? 43 then (false, t) else (false, s) | [] => (false, s) end in
  let v := scan_hex 0 s in
  (if neg then - v else v) mod 256.
(* for (k = 0; k < r; k++) fscanf("%d", &l[k]): the return value is ignored *)
Definition scan_list (r : Z) (l : list Z) (f : file) : res (list Z * file) :=
  for_ 0 r (fun k '(l, f) =>
    '(v, f) <- fscan_int 31 f ;;
    match v with Some v => l <- aset l k v ;; Ok (l, f) | None => Ok (l, f) end) (l, f).
(* src/spasm_certificate.c:243-278.  g: uninitialised memory; None: it returns 0.  The column indices are read in i, like the row indices *)
Definition cert_load (g : Z -> Z -> Z) (bytes : list Z) : res (option cert) :=
  '(r, f) <- fscan_int 31 (File bytes false) ;;
  match r with None => Ok None | Some r =>
  let ii := malloc (g 0) r in
  let jj := malloc (g 1) r in
  let x := malloc (g 2) r in
  let y := malloc (g 3) r in
  '(p, f) <- fscan_int 63 f ;;
  match p with None => Ok None | Some p =>
  let rest := skip_space (frest f) in
  match fgets 65 (File rest (match rest with [] => true | _ => false end)) with
  | (None, _) => Ok None
  | (Some l, f) =>
      let buf := (l ++ [0]) ++ skipn (length l + 1) (malloc (g 4) 65) in
      hash <- for_ 0 32 (fun i hash =>
        a <- aget buf (2 * i) ;; b <- aget buf (2 * i + 1) ;;
        aset hash i (strtoul16 [a; b])) (malloc (g 5) 32) ;;
      '(ii, f) <- scan_list r ii f ;;
      '(ii, f) <- scan_list r ii f ;;
      '(x, f) <- scan_list r x f ;;
      '(y, f) <- scan_list r y f ;;
      Ok (Some (Cert r p hash ii jj x y))
  end end end.
