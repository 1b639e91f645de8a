(** Model of src/spasm_ZZp.c: arithmetic modulo p on balanced representatives,
    with the quotient estimated in IEEE-754 double precision. *)
From Verif Require Import Base Spec Zp.
From Flocq Require Import FLX BinarySingleNaN.

(** C [double]: IEEE-754 binary64 (Flocq), rounding to nearest even. *)
Definition double := binary_float 53 1024.
Definition Hprec : Prec_gt_0 53 := eq_refl.
Definition Hemax : Prec_lt_emax 53 1024 := eq_refl.
(* (double) x, for an integer x *)
Definition d_of_int (x : Z) : double := binary_normalize 53 1024 Hprec Hemax mode_NE x 0 false.
Definition d_mul : double -> double -> double := @Bmult 53 1024 Hprec Hemax mode_NE.
Definition d_add : double -> double -> double := @Bplus 53 1024 Hprec Hemax mode_NE.
Definition d_div : double -> double -> double := @Bdiv 53 1024 Hprec Hemax mode_NE.
Definition d_fma : double -> double -> double -> double := @Bfma 53 1024 Hprec Hemax mode_NE.

(* (i64) d: truncation towards zero, undefined when not finite or out of range *)
Definition d_to_i64 (d : double) : res Z :=
  if is_finite d then i64 (Btrunc d) else Fail Overflow.

(* src/spasm.h:31-37, struct spasm_field_struct *)
Record field := mkfield { fp : Z; fhalfp : Z; fmhalfp : Z; fdinvp : double }.

(* src/spasm_ZZp.c:5-15.  The "no field" case p < 0 (which leaves the other members
   uninitialised) is not modelled: it fails here. *)
Definition field_init (p : Z) : res field :=
  _ <- assert_ (2 <=? p) ;;
  _ <- assert_ (p <=? 0xfffffffb) ;;
  Ok (mkfield p (Z.quot p 2) (Z.quot p 2 - p + 1) (d_div (d_of_int 1) (d_of_int p))).

(* src/spasm_ZZp.c:17-24 *)
Definition NORMALISE (F : field) (x : Z) : res Z :=
  if x <? fmhalfp F then (x <- i64 (x + fp F) ;; Ok (to_i32 x))
  else if x >? fhalfp F then (x <- i64 (x - fp F) ;; Ok (to_i32 x))
  else Ok (to_i32 x).

(* src/spasm_ZZp.c:26-30 *)
Definition ZZp_init (F : field) (x : Z) : res Z := NORMALISE F (Z.rem x (fp F)).

(* src/spasm_ZZp.c:32-35 *)
Definition ZZp_add (F : field) (a b : Z) : res Z :=
  s <- i64 (a + b) ;; NORMALISE F s.

(* src/spasm_ZZp.c:37-40 *)
Definition ZZp_sub (F : field) (a b : Z) : res Z :=
  s <- i64 (a - b) ;; NORMALISE F s.

(* src/spasm_ZZp.c:42-46 *)
Definition ZZp_mul (F : field) (a b : Z) : res Z :=
  q <- d_to_i64 (d_mul (d_mul (d_of_int a) (d_of_int b)) (fdinvp F)) ;;
  ab <- i64 (a * b) ;;
  qp <- i64 (q * fp F) ;;
  v <- i64 (ab - qp) ;;
  NORMALISE F v.

(* src/spasm_ZZp.c:67-74 *)
Definition ZZp_inverse (F : field) (a : Z) : res Z :=
  let aa := if a <? 0 then a + fp F else a in
  inva <- gcdext (S (S (Z.to_nat aa))) aa (fp F) ;;
  NORMALISE F inva.

(* src/spasm_ZZp.c:77-84.  [contract] says whether the compiler fuses the
   multiplication and the addition (-ffp-contract=fast, the default of gcc). *)
Definition ZZp_axpy (contract : bool) (F : field) (a x y : Z) : res Z :=
  let da := d_of_int a in let dx := d_of_int x in let dy := d_of_int y in
  let s := if contract then d_fma da dx dy else d_add (d_mul da dx) dy in
  q <- d_to_i64 (d_mul s (fdinvp F)) ;;
  ax <- i64 (a * x) ;;
  axy <- i64 (ax + y) ;;
  qp <- i64 (q * fp F) ;;
  v <- i64 (axy - qp) ;;
  NORMALISE F v.
