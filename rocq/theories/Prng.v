(** Model of src/spasm_prng.c, on a little-endian machine: the arrays of u32 are lists of bytes, in memory order. *)
From Verif Require Import Base Spec SpecSha Sha Zp.

(* u32 number k of an array of u32 *)
Definition get_u32 (mem : list Z) (k : Z) : res Z :=
  if (0 <=? k) && (4 * k + 4 <=? len mem) then Ok (of_be (rev (slice mem (4 * k) 4))) else Fail OOB.
Definition set_u32 (mem : list Z) (k v : Z) : res (list Z) := memcpy mem (4 * k) (rev (be 4 v)) 0 4.
(* <arpa/inet.h>: reverses the four bytes *)
Definition htonl (x : Z) : Z := of_be (rev (be 4 x)).

(* src/spasm.h:127-135; the field is given by its modulus *)
Record prng_ctx := Prng { pblock : list Z; phash : list Z; pprime : Z; pmask : Z; pcounter : Z; pi : Z; pfield : Z }.

(* src/spasm_prng.c:7-16; counter is an int *)
Definition rehash (g : Z -> Z) (ctx : prng_ctx) : res prng_ctx :=
  hctx <- SHA256_update g SHA256_init (pblock ctx) 44 ;;
  hash <- SHA256_final g (phash ctx) hctx ;;
  let counter := pcounter ctx + 1 in
  if 2 ^ 31 <=? counter then Fail Overflow else
  block <- set_u32 (pblock ctx) 9 (htonl (w32 counter)) ;;
  Ok (Prng block hash (pprime ctx) (pmask ctx) counter 0 (pfield ctx)).

(* src/spasm_prng.c:21-28 *)
Definition prng_u32 (g : Z -> Z) (ctx : prng_ctx) : res (Z * prng_ctx) :=
  ctx <- (if pi ctx =? 8 then rehash g ctx else Ok ctx) ;;
  v <- get_u32 (phash ctx) (pi ctx) ;;
  Ok (htonl v, Prng (pblock ctx) (phash ctx) (pprime ctx) (pmask ctx) (pcounter ctx) (pi ctx + 1) (pfield ctx)).

(* src/spasm_prng.c:33-40; how many words are needed depends on the hash function: the loop is bounded by fuel *)
Definition prng_ZZp (g : Z -> Z) (fuel : nat) (ctx : prng_ctx) : res (Z * prng_ctx) :=
  loop fuel (fun ctx =>
    '(x, ctx) <- prng_u32 g ctx ;;
    let x := Z.land x (pmask ctx) in
    if x <? pprime ctx then Ok (inr (zinit (pfield ctx) x, ctx)) else Ok (inl ctx)) ctx.

(* src/spasm_prng.c:45-61; ctx0: the context before the call (it is not initialised) *)
Definition prng_seed (g : Z -> Z) (seed : list Z) (prime seq : Z) (ctx0 : prng_ctx) : res prng_ctx :=
  block <- for_ 0 32 (fun i block => x <- aget seed i ;; aset block i x) (pblock ctx0) ;;
  mask <- loop 64 (fun mask => if mask <? prime then m <- i64 (2 * mask) ;; Ok (inl m) else Ok (inr mask)) 1 ;;
  block <- set_u32 block 8 (htonl (w32 prime)) ;;
  block <- set_u32 block 9 0 ;;
  block <- set_u32 block 10 (htonl seq) ;;
  rehash g (Prng block (phash ctx0) (w32 prime) (w32 (mask - 1)) 0 (pi ctx0) prime).

(* src/spasm_prng.c:66-74; seed is a u64 *)
Definition prng_seed_simple (g : Z -> Z) (prime seed seq : Z) (ctx0 : prng_ctx) (junk : list Z) : res prng_ctx :=
  block <- set_u32 junk 0 (htonl (Z.land seed 0xffffffff)) ;;
  block <- set_u32 block 1 (htonl (w32 (Z.shiftr seed 32))) ;;
  block <- for_ 2 8 (fun i block => set_u32 block i 0) block ;;
  prng_seed g block prime seq ctx0.

(* n draws in a row *)
Fixpoint draw_u32 (g : Z -> Z) (n : nat) (ctx : prng_ctx) : res (list Z * prng_ctx) :=
  match n with
  | O => Ok ([], ctx)
  | S n => '(x, ctx) <- prng_u32 g ctx ;; '(l, ctx) <- draw_u32 g n ctx ;; Ok (x :: l, ctx)
  end.
Fixpoint draw_ZZp (g : Z -> Z) (fuel n : nat) (ctx : prng_ctx) : res (list Z * prng_ctx) :=
  match n with
  | O => Ok ([], ctx)
  | S n => '(x, ctx) <- prng_ZZp g fuel ctx ;; '(l, ctx) <- draw_ZZp g fuel n ctx ;; Ok (x :: l, ctx)
  end.
