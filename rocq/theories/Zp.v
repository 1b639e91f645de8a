(** Exact arithmetic modulo p on balanced representatives.

    The other model files use these operations wherever the C code calls
    spasm_ZZp_init/add/sub/mul/axpy/inverse.  That the C functions (with their
    floating-point quotients, see ZZp.v) compute exactly these values on balanced
    operands is the content of C01-C05 and of the bridge lemmas of PropField.v. *)
From Verif Require Import Base Spec.

(* a signed 64-bit result; signed overflow is undefined behaviour *)
Definition i64 (x : Z) : res Z :=
  if (- 2 ^ 63 <=? x) && (x <? 2 ^ 63) then Ok x else Fail Overflow.
(* src/spasm_ZZp.c:48-65; the loop state is (t, u, r, s).  [Z.quot] is C's division. *)
Definition gcdext (fuel : nat) (a p : Z) : res Z :=
  _ <- assert_ (0 <=? a) ;;
  loop fuel (fun '(t, u, r, s) =>
    if s =? 0 then Ok (inr t) else
    let q := Z.quot r s in
    qu <- i64 (q * u) ;; u' <- i64 (t - qu) ;;
    qs <- i64 (q * s) ;; s' <- i64 (r - qs) ;;
    Ok (inl (u, u', s, s'))) (0, 1, p, a).


(* src/spasm_ZZp.c:26-46 and 77-84: the values computed, see C01-C04 *)
Definition zinit (p x : Z) : Z := bal p x.
Definition zadd (p a b : Z) : Z := bal p (a + b).
Definition zsub (p a b : Z) : Z := bal p (a - b).
Definition zmul (p a b : Z) : Z := bal p (a * b).
Definition zaxpy (p a x y : Z) : Z := bal p (a * x + y).
(* src/spasm_ZZp.c:67-74: the value computed, see C05 (0 when there is no inverse:
   the C function then returns a meaningless value) *)
Definition zinv (p a : Z) : Z :=
  let aa := if a <? 0 then a + p else a in
  match gcdext (S (S (Z.to_nat aa))) aa p with Ok t => bal p t | Fail _ => 0 end.
