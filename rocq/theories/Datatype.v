(** Model of the run-time types of dense matrices: src/spasm_ffpack.cpp:100-140, src/spasm_schur.c:205-243. *)
From Verif Require Import Base Spec Zp ZZp.
From Flocq Require Import FLX BinarySingleNaN.

(* C [float]: IEEE-754 binary32 *)
Definition float := binary_float 24 128.
Definition Hprec32 : Prec_gt_0 24 := eq_refl.
Definition Hemax32 : Prec_lt_emax 24 128 := eq_refl.
Definition f_of_int (x : Z) : float := binary_normalize 24 128 Hprec32 Hemax32 mode_NE x 0 false.

(* src/spasm.h:137 *)
Inductive datatype := SPASM_DOUBLE | SPASM_FLOAT | SPASM_I64.
(* an element of an array of doubles, floats or i64 *)
Inductive cell := Cd (d : double) | Cf (f : float) | Ci (z : Z).
(* the conversion of an integer to the type of the elements *)
Definition cell_of (dt : datatype) (v : Z) : cell :=
  match dt with SPASM_DOUBLE => Cd (d_of_int v) | SPASM_FLOAT => Cf (f_of_int v) | SPASM_I64 => Ci v end.
(* the conversion of a floating-point number to a 32-bit integer: truncation; out of range, it is undefined *)
Definition i32_of (z : Z) : res Z := if (- 2 ^ 31 <=? z) && (z <? 2 ^ 31) then Ok z else Fail Overflow.

(* src/spasm_ffpack.cpp:100-108.  Reading elements of another type than the one written is not modelled *)
Definition datatype_read (A : list cell) (i : Z) (dt : datatype) : res Z :=
  if inb A i then
    match dt, getd (Ci 0) A i with
    | SPASM_DOUBLE, Cd d => if is_finite d then i32_of (Btrunc d) else Fail Overflow
    | SPASM_FLOAT, Cf f => if is_finite f then i32_of (Btrunc f) else Fail Overflow
    | SPASM_I64, Ci z => Ok (to_i32 z)
    | _, _ => Fail AssertFailed
    end
  else Fail OOB.
(* src/spasm_ffpack.cpp:110-118 *)
Definition datatype_write (A : list cell) (i : Z) (dt : datatype) (v : Z) : res (list cell) := aset A i (cell_of dt v).
(* src/spasm_ffpack.cpp:120-128: bytes *)
Definition datatype_size (dt : datatype) : Z := match dt with SPASM_DOUBLE => 8 | SPASM_FLOAT => 4 | SPASM_I64 => 8 end.
(* src/spasm_ffpack.cpp:130-140 *)
Definition datatype_choose (p : Z) : datatype :=
  if p <=? 8191 then SPASM_FLOAT else if p <=? 189812531 then SPASM_DOUBLE else SPASM_I64.
(* src/spasm_schur.c:205-243: gather into a row of the dense matrix S; off: where row_pointer puts the row *)
Definition gather_typed (n : Z) (xj x : list Z) (S : list cell) (off : Z) (dt : datatype) : res (list cell) :=
  for_ 0 n (fun k S => j <- aget xj k ;; v <- aget x j ;; datatype_write S (off + k) dt v) S.
