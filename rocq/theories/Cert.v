(** Model of src/spasm_certificate.c, without the conversions to and from text (see CertIO.v). *)
From Verif Require Import Base Spec Zp Mat Solve SpecSha Sha Prng.

(* src/spasm.h:110-118, struct spasm_rank_certificate *)
Record cert := Cert { c_r : Z; c_prime : Z; c_hash : list Z; c_i : list Z; c_j : list Z; c_x : list Z; c_y : list Z }.

(* spasm_ZZp BOT = 0x7fffffff *)
Definition BOT : Z := 2147483647.

(* an uninitialised context, on the stack *)
Definition junk_ctx (g : Z -> Z -> Z) : prng_ctx :=
  Prng (malloc (g 0) 44) (malloc (g 1) 32) (g 2 0) (g 2 1) (g 2 2) (g 2 3) (g 2 4).

(* gs: uninitialised memory; fuel: for the rejection loop of each draw *)

(* src/spasm_certificate.c:45-46 *)
Definition cert_i (p : list Z) (r : Z) (ii : list Z) : res (list Z) :=
  for_ 0 r (fun k ii => v <- aget p k ;; aset ii k v) ii.
(* src/spasm_certificate.c:47-52 *)
Definition cert_j (qinv : list Z) (m : Z) (jj : list Z) : res (list Z * Z) :=
  for_ 0 m (fun j '(jj, k) =>
    q <- aget qinv j ;;
    if 0 <=? q then jj <- aset jj k j ;; Ok (jj, k + 1) else Ok (jj, k)) (jj, 0).
(* for (i = 0; i < n; i++) x[i] = v *)
Definition set_all (n v : Z) (x : list Z) : res (list Z) := for_ 0 n (fun i x => aset x i v) x.
(* for (k = 0; k < r; k++) x[idx[k]] = v[k] *)
Definition put_at (r : Z) (idx v x : list Z) : res (list Z) :=
  for_ 0 r (fun k x => i <- aget idx k ;; a <- aget v k ;; aset x i a) x.
(* for (k = 0; k < r; k++) v[k] = x[idx[k]] *)
Definition get_at (r : Z) (idx x v : list Z) : res (list Z) :=
  for_ 0 r (fun k v => i <- aget idx k ;; a <- aget x i ;; aset v k a) v.
(* src/spasm_certificate.c:63-66 *)
Definition challenge (gs : Z -> Z -> Z) (fuel : nat) (r : Z) (jj y : list Z) (ctx : prng_ctx) : res (list Z * prng_ctx) :=
  for_ 0 r (fun k '(y, ctx) =>
    j <- aget jj k ;;
    '(v, ctx) <- prng_ZZp (gs k) fuel ctx ;;
    y <- aset y j v ;;
    Ok (y, ctx)) (y, ctx).
(* src/spasm_certificate.c:81-83 and 148-150; f is the opposite or the identity *)
Definition fill_bot (gs : Z -> Z -> Z) (fuel : nat) (f : Z -> Z) (n : Z) (x : list Z) (ctx : prng_ctx) : res (list Z * prng_ctx) :=
  for_ 0 n (fun i '(x, ctx) =>
    a <- aget x i ;;
    if a =? BOT then
      '(v, ctx) <- prng_ZZp (gs i) fuel ctx ;;
      x <- aset x i (f v) ;;
      Ok (x, ctx)
    else Ok (x, ctx)) (x, ctx).

(* src/spasm_certificate.c:21-95; the answers of spasm_solve are ignored *)
Definition rank_create (gs : Z -> Z -> Z -> Z) (fuel : nat) (A : csr) (hash : list Z) (f : lu) : res cert :=
  _ <- assert_ (match lu_L f with Some _ => true | None => false end) ;;
  let U := lu_U f in
  L <- deref (lu_L f) ;;
  let n := cn L in let m := cm U in let r := cn U in
  h <- for_ 0 32 (fun i h => v <- aget hash i ;; aset h i v) (malloc (gs 0 0) 32) ;;
  let prime := cprime A in
  ii <- cert_i (lu_p f) r (malloc (gs 0 1) r) ;;
  '(jj, _) <- cert_j (lu_qinv f) m (malloc (gs 0 2) r) ;;
  ctx <- prng_seed (gs 0 3) hash prime 0 (junk_ctx (gs 1)) ;;
  y <- set_all m 0 (malloc (gs 0 4) m) ;;
  '(y, ctx) <- challenge (gs 2) fuel r jj y ctx ;;
  '(_, x) <- solve (malloc (gs 0 5) m) (malloc (gs 0 6) r) (malloc (gs 0 7) r) f y (malloc (gs 0 8) n) ;;
  xx <- get_at r ii x (malloc (gs 0 9) r) ;;
  x <- set_all n BOT x ;;
  x <- put_at r ii (fill r 0) x ;;
  '(x, ctx) <- fill_bot (gs 3) fuel Z.opp n x ctx ;;
  y <- set_all m 0 y ;;
  y <- xApy x A y ;;
  '(_, x) <- solve (malloc (gs 0 10) m) (malloc (gs 0 11) r) (malloc (gs 0 12) r) f y x ;;
  yy <- get_at r ii x (malloc (gs 0 13) r) ;;
  Ok (Cert r prime h ii jj xx yy).

(* src/spasm_certificate.c:110-115 *)
Definition in_range (n m : Z) (c : cert) : res (unit + bool) :=
  forb 0 (c_r c) (fun k (_ : unit) =>
    i <- aget (c_i c) k ;;
    if (i <? 0) || (n <=? i) then Ok (inr false) else
    j <- aget (c_j c) k ;;
    if (j <? 0) || (m <=? j) then Ok (inr false) else Ok (inl tt)) tt.
(* src/spasm_certificate.c:132-137 *)
Definition check_x (gs : Z -> Z -> Z) (fuel : nat) (r : Z) (jj y : list Z) (ctx : prng_ctx) : res (bool * prng_ctx) :=
  for_ 0 r (fun k '(correct, ctx) =>
    j <- aget jj k ;;
    a <- aget y j ;;
    '(v, ctx) <- prng_ZZp (gs k) fuel ctx ;;
    Ok (if a =? v then correct else false, ctx)) (true, ctx).
(* src/spasm_certificate.c:97-161 *)
Definition rank_verify (gs : Z -> Z -> Z -> Z) (fuel : nat) (A : csr) (hash : list Z) (c : cert) : res bool :=
  let n := cn A in let m := cm A in let r := c_r c in
  o <- forb 0 32 (fun i (_ : unit) =>
    a <- aget hash i ;; b <- aget (c_hash c) i ;;
    if a =? b then Ok (inl tt) else Ok (inr false)) tt ;;
  match o with inr b => Ok b | inl _ =>
  if negb (cprime A =? c_prime c) then Ok false else
  o <- in_range n m c ;;
  match o with inr b => Ok b | inl _ =>
  ctx <- prng_seed (gs 0 0) (c_hash c) (c_prime c) 0 (junk_ctx (gs 1)) ;;
  x <- set_all n 0 (malloc (gs 0 1) n) ;;
  x <- put_at r (c_i c) (c_x c) x ;;
  y <- set_all m 0 (malloc (gs 0 2) m) ;;
  y <- xApy x A y ;;
  '(correct, ctx) <- check_x (gs 2) fuel r (c_j c) y ctx ;;
  x <- set_all n BOT x ;;
  x <- put_at r (c_i c) (c_y c) x ;;
  '(x, ctx) <- fill_bot (gs 3) fuel (fun v => v) n x ctx ;;
  y <- set_all m 0 y ;;
  y <- xApy x A y ;;
  for_ 0 m (fun j correct => a <- aget y j ;; Ok (if a =? 0 then correct else false)) correct
  end end.

(* src/spasm_certificate.c:164-219 *)
Definition factorization_verify (gs : Z -> Z -> Z -> Z) (fuel : nat) (A : csr) (f : lu) (seed : Z) : res bool :=
  _ <- assert_ (match lu_L f with Some _ => true | None => false end) ;;
  let U := lu_U f in
  L <- deref (lu_L f) ;;
  let n := cn A in let m := cm A in let r := cn U in
  pivotal <- set_all n 0 (malloc (gs 0 0) n) ;;
  pivotal <- for_ 0 r (fun j pivotal =>
    i <- aget (lu_p f) j ;;
    _ <- assert_ (0 <=? i) ;;
    aset pivotal i 1) pivotal ;;
  ctx <- prng_seed_simple (gs 0 1) (cprime A) seed 0 (junk_ctx (gs 1)) (malloc (gs 0 2) 32) ;;
  '(z, t) <- for_ 0 m (fun j '(z, t) => z <- aset z j 0 ;; t <- aset t j 0 ;; Ok (z, t)) (malloc (gs 0 3) m, malloc (gs 0 4) m) ;;
  y <- set_all r 0 (malloc (gs 0 5) r) ;;
  '(x, ctx) <- for_ 0 n (fun i '(x, ctx) =>
    '(foo, ctx) <- prng_ZZp (gs 2 i) fuel ctx ;;
    b <- aget pivotal i ;;
    x <- aset x i (if b =? 0 then 0 else foo) ;;
    Ok (x, ctx)) (malloc (gs 0 6) n, ctx) ;;
  t <- xApy x A t ;;
  y <- xApy x L y ;;
  z <- xApy y U z ;;
  for_ 0 m (fun j correct => a <- aget z j ;; b <- aget t j ;; Ok (if a =? b then correct else false)) true.
