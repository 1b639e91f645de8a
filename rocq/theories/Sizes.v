(** The sizes of the arrays, as C computes them (int: 32 bits, i64 and size_t: 64 bits). *)
From Coq Require Import String.
From Verif Require Import Base IO Datatype.
Local Open Scope string_scope.
Local Open Scope list_scope.
Local Open Scope Z_scope.

(* the types of the operands, by increasing conversion rank *)
Inductive cty := Cint | Ci64 | Csize.
Inductive cexp :=
| Num (t : cty) (v : Z)            (* a constant, a variable or sizeof, of type t *)
| Add (a b : cexp) | Sub (a b : cexp) | Mul (a b : cexp)
| Half (a : cexp)                  (* a / 2 *)
| Cast (t : cty) (a : cexp).

(* the value of type t obtained from v by an operation, or by a conversion for which overflow is not possible *)
Definition norm (t : cty) (v : Z) : res Z :=
  match t with
  | Cint => if (- 2 ^ 31 <=? v) && (v <? 2 ^ 31) then Ok v else Fail Overflow
  | Ci64 => if (- 2 ^ 63 <=? v) && (v <? 2 ^ 63) then Ok v else Fail Overflow
  | Csize => Ok (v mod 2 ^ 64)
  end.
(* the usual arithmetic conversions *)
Definition join (s t : cty) : cty :=
  match s, t with Csize, _ | _, Csize => Csize | Ci64, _ | _, Ci64 => Ci64 | Cint, Cint => Cint end.
Definition conv (t : cty) (v : Z) : Z := match t with Csize => v mod 2 ^ 64 | _ => v end.
Definition binop (f : Z -> Z -> Z) (x y : cty * Z) : res (cty * Z) :=
  let t := join (fst x) (fst y) in
  v <- norm t (f (conv t (snd x)) (conv t (snd y))) ;;
  Ok (t, v).
Fixpoint eval (e : cexp) : res (cty * Z) :=
  match e with
  | Num t v => Ok (t, v)
  | Add a b => x <- eval a ;; y <- eval b ;; binop Z.add x y
  | Sub a b => x <- eval a ;; y <- eval b ;; binop Z.sub x y
  | Mul a b => x <- eval a ;; y <- eval b ;; binop Z.mul x y
  | Half a => x <- eval a ;; v <- norm (fst x) (Z.quot (snd x) 2) ;; Ok (fst x, v)
  | Cast t a => x <- eval a ;;
      match t with
      | Csize => Ok (Csize, snd x mod 2 ^ 64)
      | Ci64 => Ok (Ci64, (snd x + 2 ^ 63) mod 2 ^ 64 - 2 ^ 63)
      | Cint => Ok (Cint, to_i32 (snd x))
      end
  end.
(* argument of spasm_malloc, spasm_realloc, spasm_csr_alloc, ...: an i64 *)
Definition argument (e : cexp) : res Z := x <- eval (Cast Ci64 e) ;; Ok (snd x).

Definition int (v : Z) : cexp := Num Cint v.
Definition i64v (v : Z) : cexp := Num Ci64 v.
Definition sizeof (k : Z) : cexp := Num Csize k.
(* sizeof(int), sizeof(spasm_ZZp), sizeof(i64), sizeof(size_t), sizeof(bool), sizeof(char) *)
Definition sz_int := 4. Definition sz_zzp := 4. Definition sz_i64 := 8. Definition sz_size := 8. Definition sz_bool := 1. Definition sz_char := 1.

(* the variables; the last ones are of type i64 *)
Record vars := Vars {
  v_n : Z; v_m : Z; v_r : Z;                (* rows, columns, rank *)
  v_Sm : Z; v_blk : Z; v_Xm : Z;            (* dense elimination: columns, block of rows; gesv: columns of X *)
  v_a : Z; v_b : Z;                         (* bounds of an interval of rows *)
  v_x : Z; v_y : Z;                         (* dimensions of a picture *)
  v_dt : datatype;
  v_Sn : Z; v_nz : Z; v_nzmax : Z           (* completion test: rows; entries; size of the arrays of entries *)
}.

(* width of the cells of the dense matrices: binary64, binary32 and 64-bit integers *)
Definition cell_bits (dt : datatype) : Z := match dt with SPASM_DOUBLE => 64 | SPASM_FLOAT => 32 | SPASM_I64 => 64 end.

Section sites.
Context (e : vars).
Notation n := (v_n e). Notation m := (v_m e). Notation r := (v_r e).
Notation Sm := (v_Sm e). Notation blk := (v_blk e). Notation nz := (v_nz e). Notation nzmax := (v_nzmax e).

(* where; size in bytes, as computed; number of cells; bytes per cell *)
Definition byte_sites : list (string * cexp * Z * Z) := [
  ("util.c:97 csr_alloc A->p, util.c:175 csr_resize", Mul (Add (int n) (int 1)) (sizeof sz_i64), n + 1, 8);
  ("util.c:98 csr_alloc A->j, util.c:113-114 triplet_alloc, util.c:129, 144-145 realloc", Mul (i64v nzmax) (sizeof sz_int), nzmax, 4);
  ("util.c:99 csr_alloc A->x, util.c:115 triplet_alloc, util.c:131, 147 realloc", Mul (i64v nzmax) (sizeof sz_zzp), nzmax, 4);
  ("util.c:187 dm_alloc P->p", Mul (int n) (sizeof sz_int), n, 4);
  ("util.c:188 dm_alloc P->q", Mul (int m) (sizeof sz_int), m, 4);
  ("util.c:189 dm_alloc P->r", Mul (Add (int n) (int 6)) (sizeof sz_int), n + 6, 4);
  ("util.c:190 dm_alloc P->c", Mul (Add (int m) (int 6)) (sizeof sz_int), m + 6, 4);
  ("certificate.c:35-36 xx, yy; solve.c:24 z; certificate.c:176 y", Mul (int r) (sizeof sz_zzp), r, 4);
  ("certificate.c:37-38 ii, jj; certificate.c:249-252; solve.c:27 Uq", Mul (int r) (sizeof sz_int), r, 4);
  ("certificate.c:59, 119, 175 x", Mul (int n) (sizeof sz_zzp), n, 4);
  ("certificate.c:60, 120 y, 177-178 z, t; echelonize.c:76, kernel.c:44, rref.c:46, schur.c:23, 89, 284 x; schur.c:364, solve.c:23 y; solve.c:67 b", Mul (int m) (sizeof sz_zzp), m, 4);
  ("certificate.c:182 pivotal_row; echelonize.c:399 pivotal", Mul (int n) (sizeof sz_bool), n, 1);
  ("dm.c:96; echelonize.c:503, 517; kernel.c:32, 145; matching.c:110-114, 147; permutation.c:56, 107; pivots.c:156, 375; scc.c:27-31; stack.c:27", Mul (int n) (sizeof sz_int), n, 4);
  ("dm.c:97; echelonize.c:494; matching.c:162; pivots.c:83, 166, 333-335, 374; rref.c:51; tools/echelonize.c:72; stack.c:28", Mul (int m) (sizeof sz_int), m, 4);
  ("echelonize.c:40 test_completion S", Mul (Mul (i64v (v_Sn e)) (i64v Sm)) (sizeof (datatype_size (v_dt e))), v_Sn e * Sm, cell_bits (v_dt e) / 8);
  ("echelonize.c:41 test_completion q", Mul (i64v Sm) (sizeof sz_int), Sm, 4);
  ("echelonize.c:42 test_completion Sp", Mul (i64v Sm) (sizeof sz_size), Sm, 8);
  ("echelonize.c:77, rref.c:47, schur.c:24, 90, 285 xj", Mul (Mul (int 3) (int m)) (sizeof sz_int), 3 * m, 4);
  ("kernel.c:45 xj", Mul (Mul (int 3) (int n)) (sizeof sz_int), 3 * n, 4);
  ("echelonize.c:325 dense_lowrank S (through an i64)", Cast Ci64 (Mul (Mul (Cast Ci64 (int blk)) (Cast Ci64 (int Sm))) (sizeof (datatype_size (v_dt e)))), blk * Sm, cell_bits (v_dt e) / 8);
  ("echelonize.c:327, 396 q", Mul (int Sm) (sizeof sz_int), Sm, 4);
  ("echelonize.c:328 Sp, 397 Sqinv", Mul (int Sm) (sizeof sz_size), Sm, 8);
  ("echelonize.c:394 dense S", Mul (Mul (Cast Ci64 (int blk)) (int Sm)) (sizeof (datatype_size (v_dt e))), blk * Sm, cell_bits (v_dt e) / 8);
  ("echelonize.c:395 p_out", Mul (int blk) (sizeof sz_int), blk, 4);
  ("echelonize.c:398 Sp", Mul (int blk) (sizeof sz_size), blk, 8);
  ("echelonize.c:557 p_out", Mul (Sub (int n) (int r)) (sizeof sz_int), n - r, 4);
  ("echelonize.c:609 fact->p", Mul (int r) (sizeof sz_int), r, 4);
  ("io.c:211 save_pnm w", Mul (Mul (int (v_x e)) (int (v_y e))) (sizeof sz_int), v_x e * v_y e, 4);
  ("matching.c:182 submatching", Mul (Sub (int (v_b e)) (int (v_a e))) (sizeof sz_int), v_b e - v_a e, 4);
  ("pivots.c:165 w", Mul (int m) (sizeof sz_char), m, 1);
  ("solve.c:68 x", Mul (int (v_Xm e)) (sizeof sz_zzp), v_Xm e, 4);
  ("triplet.c:68 v", Mul (int m) (sizeof sz_i64), m, 8);
  ("triplet.c:116 w", Mul (int n) (sizeof sz_i64), n, 8);
  ("tools/solve.c:103 ok", Mul (int n) (sizeof sz_bool), n, 1) ].

(* where; number of entries given to csr_alloc, triplet_alloc or realloc, as computed; what it stands for *)
Definition entry_sites : list (string * cexp * Z) := [
  ("triplet.c:12 add_entry", Add (int 1) (Mul (int 2) (i64v nzmax)), 2 * nzmax + 1);
  ("echelonize.c:100, 104, rref.c:90, schur.c:123, 139", Add (Mul (int 2) (i64v nzmax)) (int m), 2 * nzmax + m);
  ("echelonize.c:197-200 update_U_after_rref", Add (i64v nz) (Mul (Cast Ci64 (Sub (Add (int 1) (int Sm)) (int r))) (int r)), nz + r * (Sm - r + 1));
  ("echelonize.c:236-240 update_fact_after_LU U", Add (i64v nz) (Mul (Cast Ci64 (Sub (Add (int 1) (Mul (int 2) (int Sm))) (int r))) (int r)), nz + r * (2 * Sm - r + 1));
  ("echelonize.c:237-241 update_fact_after_LU L", Add (i64v nz) (Half (Mul (Cast Ci64 (Add (Sub (Mul (int 2) (int blk)) (int r)) (int 1))) (int r))), nz + r * (2 * blk - r + 1) / 2);
  ("kernel.c:153 kernel_from_rref", Sub (Add (Sub (i64v nz) (int n)) (int m)) (int n), nz - n + (m - n));
  ("schur.c:270-275 schur_dense", Add (i64v nz) (Add (int 1) (Mul (Cast Ci64 (int n)) (int r))), nz + n * r + 1);
  ("solve.c:60 gesv", Mul (Cast Ci64 (int (v_Xm e))) (int n), v_Xm e * n) ].
End sites.
