(** The Dulmage-Mendelsohn decomposition of a matrix. *)
From Verif Require Import Base Spec SpecMatch SpecScc.
From Coq Require Import Relation_Operators.

(* rows that can be reached from an unmatched row by an alternating path *)
Inductive alt_row (A : csr) (jm im : list Z) : Z -> Prop :=
| alt_row0 i : 0 <= i < cn A -> get jm i < 0 -> alt_row A jm im i
| alt_row1 i j : alt_row A jm im i -> stored A i j -> 0 <= get im j -> alt_row A jm im (get im j).
(* columns that can be reached from an unmatched column by an alternating path *)
Inductive alt_col (A : csr) (jm im : list Z) : Z -> Prop :=
| alt_col0 j : 0 <= j < cm A -> get im j < 0 -> alt_col A jm im j
| alt_col1 i j : alt_col A jm im j -> 0 <= i < cn A -> stored A i j -> 0 <= get jm i -> alt_col A jm im (get jm i).

(* The rows p[rr0:rr1], p[rr1:rr2], p[rr2:rr3], p[rr3:rr4] are R1, R2, R3, R0;
   the columns q[cc0:cc1], ..., q[cc3:cc4] are C0, C1, C2, C3. *)
Record coarse (A : csr) (p q rr cc : list Z) : Prop := {
  co_p : is_perm (cn A) p;
  co_q : is_perm (cm A) q;
  co_len : len rr = 5 /\ len cc = 5;
  co_rr : get rr 0 = 0 /\ get rr 4 = cn A /\ forall t, 0 <= t < 4 -> get rr t <= get rr (t + 1);
  co_cc : get cc 0 = 0 /\ get cc 4 = cm A /\ forall t, 0 <= t < 4 -> get cc t <= get cc (t + 1);
  (* C1, C2, C3 have the size of R1, R2, R3, with a zero-free diagonal *)
  co_square : forall t, 0 <= t < 3 -> get cc (t + 2) - get cc (t + 1) = get rr (t + 1) - get rr t;
  co_diag : forall t x, 0 <= t < 3 -> 0 <= x < get rr (t + 1) - get rr t -> stored A (get p (get rr t + x)) (get q (get cc (t + 1) + x));
  (* the entries of R2 are in C2 and C3; those of R3 and R0 are in C3 *)
  co_tri2 : forall a b, get rr 1 <= a < cn A -> 0 <= b < cm A -> stored A (get p a) (get q b) -> get cc 2 <= b;
  co_tri3 : forall a b, get rr 2 <= a < cn A -> 0 <= b < cm A -> stored A (get p a) (get q b) -> get cc 3 <= b;
  (* R0, R3, C0, C1 are what is reached from the unmatched rows and columns of a maximum matching *)
  co_alt : exists jm im, matching A jm im /\ msize jm = get rr 3 /\ maximum_size A (get rr 3) /\
    (forall a, 0 <= a < cn A -> (get rr 3 <= a <-> get jm (get p a) = -1)) /\
    (forall b, 0 <= b < cm A -> (b < get cc 1 <-> get im (get q b) = -1)) /\
    (forall a, 0 <= a < cn A -> (get rr 2 <= a <-> alt_row A jm im (get p a))) /\
    (forall b, 0 <= b < cm A -> (b < get cc 2 <-> alt_col A jm im (get q b)))
}.

(* the graph of the square part S, on the positions 0, ..., k - 1, k = rr2 - rr1 *)
Definition dedge (A : csr) (p q rr cc : list Z) (x y : Z) : Prop :=
  0 <= x < get rr 2 - get rr 1 /\ 0 <= y < get rr 2 - get rr 1 /\ stored A (get p (get rr 1 + x)) (get q (get cc 2 + y)).
Definition dreach A p q rr cc := clos_refl_trans Z (dedge A p q rr cc).

(* Fine decomposition: block 0 holds R1 and C0, C1; the last one R3, R0 and C3; the others are the irreducible blocks of S *)
Record fine (A : csr) (p q rr cc r c : list Z) (nb : Z) : Prop := {
  fi_nb : 3 <= nb;
  fi_len : nb < len r /\ nb < len c;
  fi_r : get r 0 = 0 /\ get r 1 = get rr 1 /\ get r (nb - 1) = get rr 2 /\ get r nb = cn A;
  fi_c : get c 0 = 0 /\ get c 1 = get cc 2 /\ get c (nb - 1) = get cc 3 /\ get c nb = cm A;
  fi_inc : forall t, 1 <= t < nb - 1 -> get r t < get r (t + 1);
  fi_square : forall t, 1 <= t < nb -> get c t - get cc 2 = get r t - get rr 1;
  fi_tri : forall t u a b, 0 <= t < nb -> 0 <= u < nb -> in_block r t a -> in_block c u b -> stored A (get p a) (get q b) -> t <= u;
  fi_irr : forall t u x y, 1 <= t < nb - 1 -> 1 <= u < nb - 1 -> in_block r t (get rr 1 + x) -> in_block r u (get rr 1 + y) ->
    (dreach A p q rr cc x y /\ dreach A p q rr cc y x <-> t = u)
}.
