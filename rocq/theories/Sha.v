(** Model of src/sha256.c.

    Words (u32, unsigned int) are integers in [0, 2^32); memory seen through u8 pointers is a list of bytes.
    The machine is little-endian (src/sha256.c:285-336; lines 247-284 are for big-endian machines).
    The buffer data[16] of the context is only used through a u8 pointer, hence it is a list of 64 bytes. *)
From Verif Require Import Base Spec SpecSha.

(* memcpy(dst + o, src + so, k) and memset(dst + o, v, k) *)
Definition memcpy (dst : list Z) (o : Z) (src : list Z) (so k : Z) : res (list Z) :=
  if (0 <=? k) && (0 <=? o) && (o + k <=? len dst) && (0 <=? so) && (so + k <=? len src)
  then Ok (firstn (Z.to_nat o) dst ++ slice src so k ++ skipn (Z.to_nat (o + k)) dst) else Fail OOB.
Definition memset (dst : list Z) (o v k : Z) : res (list Z) :=
  if (0 <=? k) && (0 <=? o) && (o + k <=? len dst)
  then Ok (firstn (Z.to_nat o) dst ++ fill k v ++ skipn (Z.to_nat (o + k)) dst) else Fail OOB.

(* src/spasm.h:120-125 *)
Record sha_ctx := Ctx { sh : list Z; sNl : Z; sNh : Z; sdata : list Z; snum : Z; smd_len : Z }.

(* src/sha256.c:40-52; sha256.c:18: SHA256_DIGEST_LENGTH *)
Definition SHA256_init : sha_ctx :=
  Ctx [0x6a09e667; 0xbb67ae85; 0x3c6ef372; 0xa54ff53a; 0x510e527f; 0x9b05688c; 0x1f83d9ab; 0x5be0cd19]
      0 0 (fill 64 0) 0 32.

(* src/sha256.c:81 *)
Definition ROTATE (a n : Z) : Z := Z.lor (w32 (Z.shiftl a n)) (Z.shiftr (Z.land a 0xffffffff) (32 - n)).
(* src/sha256.c:82-85: the word at position o of data, and the next position *)
Definition HOST_c2l (data : list Z) (o : Z) : res (Z * Z) :=
  b0 <- aget data o ;;
  let l := w32 (Z.shiftl b0 24) in
  b1 <- aget data (o + 1) ;;
  let l := w32 (Z.lor l (Z.shiftl b1 16)) in
  b2 <- aget data (o + 2) ;;
  let l := w32 (Z.lor l (Z.shiftl b2 8)) in
  b3 <- aget data (o + 3) ;;
  let l := w32 (Z.lor l b3) in
  Ok (l, o + 4).
(* src/sha256.c:86-90: writes l at position o of c *)
Definition HOST_l2c (l : Z) (c : list Z) (o : Z) : res (list Z * Z) :=
  c <- aset c o (Z.land (Z.shiftr l 24) 0xff) ;;
  c <- aset c (o + 1) (Z.land (Z.shiftr l 16) 0xff) ;;
  c <- aset c (o + 2) (Z.land (Z.shiftr l 8) 0xff) ;;
  c <- aset c (o + 3) (Z.land l 0xff) ;;
  Ok (c, o + 4).

(* src/sha256.c:179-196 *)
Definition K256 : list Z := [
  0x428a2f98; 0x71374491; 0xb5c0fbcf; 0xe9b5dba5;
  0x3956c25b; 0x59f111f1; 0x923f82a4; 0xab1c5ed5;
  0xd807aa98; 0x12835b01; 0x243185be; 0x550c7dc3;
  0x72be5d74; 0x80deb1fe; 0x9bdc06a7; 0xc19bf174;
  0xe49b69c1; 0xefbe4786; 0x0fc19dc6; 0x240ca1cc;
  0x2de92c6f; 0x4a7484aa; 0x5cb0a9dc; 0x76f988da;
  0x983e5152; 0xa831c66d; 0xb00327c8; 0xbf597fc7;
  0xc6e00bf3; 0xd5a79147; 0x06ca6351; 0x14292967;
  0x27b70a85; 0x2e1b2138; 0x4d2c6dfc; 0x53380d13;
  0x650a7354; 0x766a0abb; 0x81c2c92e; 0x92722c85;
  0xa2bfe8a1; 0xa81a664b; 0xc24b8b70; 0xc76c51a3;
  0xd192e819; 0xd6990624; 0xf40e3585; 0x106aa070;
  0x19a4c116; 0x1e376c08; 0x2748774c; 0x34b0bcb5;
  0x391c0cb3; 0x4ed8aa4a; 0x5b9cca4f; 0x682e6ff3;
  0x748f82ee; 0x78a5636f; 0x84c87814; 0x8cc70208;
  0x90befffa; 0xa4506ceb; 0xbef9a3f7; 0xc67178f2 ].

(* src/sha256.c:203-209 *)
Definition Sigma0 (x : Z) : Z := Z.lxor (Z.lxor (ROTATE x 30) (ROTATE x 19)) (ROTATE x 10).
Definition Sigma1 (x : Z) : Z := Z.lxor (Z.lxor (ROTATE x 26) (ROTATE x 21)) (ROTATE x 7).
Definition sigma0 (x : Z) : Z := Z.lxor (Z.lxor (ROTATE x 25) (ROTATE x 14)) (Z.shiftr x 3).
Definition sigma1 (x : Z) : Z := Z.lxor (Z.lxor (ROTATE x 15) (ROTATE x 13)) (Z.shiftr x 10).
Definition Ch (x y z : Z) : Z := Z.lxor (Z.land x y) (Z.land (w32 (Z.lnot x)) z).
Definition Maj (x y z : Z) : Z := Z.lxor (Z.lxor (Z.land x y) (Z.land x z)) (Z.land y z).

(* src/sha256.c:211-214: the new values of d and h *)
Definition ROUND_00_15 (i a b c d e f g h T1 : Z) : res (Z * Z) :=
  k <- aget K256 i ;;
  let T1 := w32 (T1 + w32 (h + Sigma1 e + Ch e f g + k)) in
  let h := w32 (Sigma0 a + Maj a b c) in
  let d := w32 (d + T1) in
  let h := w32 (h + T1) in
  Ok (d, h).
(* src/sha256.c:216-220: the new values of d, h and X *)
Definition ROUND_16_63 (i a b c d e f g h : Z) (X : list Z) : res (Z * Z * list Z) :=
  s0 <- aget X (Z.land (i + 1) 0x0f) ;;
  let s0 := sigma0 s0 in
  s1 <- aget X (Z.land (i + 14) 0x0f) ;;
  let s1 := sigma1 s1 in
  x <- aget X (Z.land i 0x0f) ;;
  y <- aget X (Z.land (i + 9) 0x0f) ;;
  let T1 := w32 (x + w32 (s0 + s1 + y)) in
  X <- aset X (Z.land i 0x0f) T1 ;;
  '(d, h) <- ROUND_00_15 i a b c d e f g h T1 ;;
  Ok (d, h, X).

(* one of the steps of src/sha256.c:287-334: HOST_c2l(data, l); T1 = X[i] = l; ROUND_00_15(i, ...) *)
Definition READ_ROUND (data : list Z) (i a b c d e f g h : Z) (st : Z * list Z) : res (Z * Z * (Z * list Z)) :=
  let '(o, X) := st in
  '(l, o) <- HOST_c2l data o ;;
  X <- aset X i l ;;
  '(d, h) <- ROUND_00_15 i a b c d e f g h l ;;
  Ok (d, h, (o, X)).

(* src/sha256.c:287-310 (i = 0) and 311-334 (i = 8) *)
Definition first_rounds (data : list Z) (i : Z) (s : regs) (st : Z * list Z) : res (regs * (Z * list Z)) :=
  let '(a, b, c, d, e, f, g, h) := s in
  '(d, h, st) <- READ_ROUND data (i + 0) a b c d e f g h st ;;
  '(c, g, st) <- READ_ROUND data (i + 1) h a b c d e f g st ;;
  '(b, f, st) <- READ_ROUND data (i + 2) g h a b c d e f st ;;
  '(a, e, st) <- READ_ROUND data (i + 3) f g h a b c d e st ;;
  '(h, d, st) <- READ_ROUND data (i + 4) e f g h a b c d st ;;
  '(g, c, st) <- READ_ROUND data (i + 5) d e f g h a b c st ;;
  '(f, b, st) <- READ_ROUND data (i + 6) c d e f g h a b st ;;
  '(e, a, st) <- READ_ROUND data (i + 7) b c d e f g h a st ;;
  Ok ((a, b, c, d, e, f, g, h), st).

(* src/sha256.c:338-345: the body of the loop *)
Definition next_rounds (i : Z) (s : regs) (X : list Z) : res (regs * list Z) :=
  let '(a, b, c, d, e, f, g, h) := s in
  '(d, h, X) <- ROUND_16_63 (i + 0) a b c d e f g h X ;;
  '(c, g, X) <- ROUND_16_63 (i + 1) h a b c d e f g X ;;
  '(b, f, X) <- ROUND_16_63 (i + 2) g h a b c d e f X ;;
  '(a, e, X) <- ROUND_16_63 (i + 3) f g h a b c d e X ;;
  '(h, d, X) <- ROUND_16_63 (i + 4) e f g h a b c d X ;;
  '(g, c, X) <- ROUND_16_63 (i + 5) d e f g h a b c X ;;
  '(f, b, X) <- ROUND_16_63 (i + 6) c d e f g h a b X ;;
  '(e, a, X) <- ROUND_16_63 (i + 7) b c d e f g h a X ;;
  Ok ((a, b, c, d, e, f, g, h), X).

(* ctx->h[k] += v *)
Definition hadd (H : list Z) (k v : Z) : res (list Z) := x <- aget H k ;; aset H k (w32 (x + v)).

(* src/sha256.c:222-360, on the num blocks of data from position o; g: the contents of X, which is not initialised.
   The loop for (i = 16; i < 64; i += 8) is written with i = 16 + 8 k. *)
Definition sha256_block_data_order (g : Z -> Z) (H data : list Z) (o num : Z) : res (list Z) :=
  '(H, _) <- for_ 0 num (fun _ '(H, st) =>
    a <- aget H 0 ;; b <- aget H 1 ;; c <- aget H 2 ;; d <- aget H 3 ;;
    e <- aget H 4 ;; f <- aget H 5 ;; g <- aget H 6 ;; h <- aget H 7 ;;
    '(s, st) <- first_rounds data 0 (a, b, c, d, e, f, g, h) st ;;
    '(s, st) <- first_rounds data 8 s st ;;
    let '(o, X) := st in
    '(s, X) <- for_ 0 6 (fun k '(s, X) => next_rounds (16 + 8 * k) s X) (s, X) ;;
    let '(a, b, c, d, e, f, g, h) := s in
    H <- hadd H 0 a ;; H <- hadd H 1 b ;; H <- hadd H 2 c ;; H <- hadd H 3 d ;;
    H <- hadd H 4 e ;; H <- hadd H 5 f ;; H <- hadd H 6 g ;; H <- hadd H 7 h ;;
    Ok (H, (o, X))) (H, (o, map g (zseq 0 16))) ;;
  Ok H.

(* src/sha256.c:94-150; the arithmetic on size_t does not overflow (lengths of objects in memory) *)
Definition SHA256_update (g : Z -> Z) (c : sha_ctx) (data : list Z) (length : Z) : res sha_ctx :=
  if length =? 0 then Ok c else
  let l := w32 (sNl c + w32 (Z.shiftl (w32 length) 3)) in
  let Nh := if l <? sNl c then w32 (sNh c + 1) else sNh c in
  let Nh := w32 (Nh + w32 (Z.shiftr length 29)) in
  let n := snum c in
  (* lines 111-137: Some if the function goes on after the first part *)
  '(H, buf, num, rest) <-
    (if negb (n =? 0) then
       if (64 <=? length) || (64 <=? length + n) then
         buf <- memcpy (sdata c) n data 0 (64 - n) ;;
         H <- sha256_block_data_order g (sh c) buf 0 1 ;;
         let n := 64 - n in
         buf <- memset buf 0 0 64 ;;
         Ok (H, buf, 0, Some (n, length - n))
       else
         buf <- memcpy (sdata c) n data 0 length ;;
         Ok (sh c, buf, w32 (snum c + length), None)
     else Ok (sh c, sdata c, snum c, Some (0, length))) ;;
  match rest with
  | None => Ok (Ctx H l Nh buf num (smd_len c))
  | Some (off, length) =>
    (* lines 139-149 *)
    let n := length / 64 in
    '(H, off, length) <-
      (if 0 <? n then
         H <- sha256_block_data_order g H data off n ;;
         Ok (H, off + 64 * n, length - 64 * n)
       else Ok (H, off, length)) ;;
    if negb (length =? 0) then
      buf <- memcpy buf 0 data off length ;;
      Ok (Ctx H l Nh buf (w32 length) (smd_len c))
    else Ok (Ctx H l Nh buf num (smd_len c))
  end.

(* src/sha256.c:152-176 and HASH_MAKE_STRING, src/sha256.c:67-73; md: the 32 bytes written *)
Definition SHA256_final (g : Z -> Z) (md : list Z) (c : sha_ctx) : res (list Z) :=
  let n := snum c in
  p <- aset (sdata c) n 0x80 ;;
  let n := n + 1 in
  '(H, p, n) <-
    (if 56 <? n then
       p <- memset p n 0 (64 - n) ;;
       H <- sha256_block_data_order g (sh c) p 0 1 ;;
       Ok (H, p, 0)
     else Ok (sh c, p, n)) ;;
  p <- memset p n 0 (56 - n) ;;
  '(p, o) <- HOST_l2c (sNh c) p 56 ;;
  '(p, _) <- HOST_l2c (sNl c) p o ;;
  H <- sha256_block_data_order g H p 0 1 ;;
  p <- memset p 0 0 64 ;;
  _ <- assert_ (smd_len c =? 32) ;;
  '(md, _) <- for_ 0 8 (fun nn '(md, o) => x <- aget H nn ;; HOST_l2c x md o) (md, 0) ;;
  Ok md.

(* a sequence of updates between init and final *)
Fixpoint updates (g : Z -> Z -> Z) (k : Z) (c : sha_ctx) (chunks : list (list Z)) : res sha_ctx :=
  match chunks with
  | [] => Ok c
  | d :: chunks => c <- SHA256_update (g k) c d (len d) ;; updates g (k + 1) c chunks
  end.
Definition hash_chunks (g : Z -> Z -> Z) (chunks : list (list Z)) (md : list Z) : res (list Z) :=
  c <- updates g 0 SHA256_init chunks ;; SHA256_final (g (-1)) md c.
