(** The parts of a matrix, described by its largest transversals; R i j: the entry (i, j) does not vanish. *)
From Verif Require Import Base Spec SpecTools.

Section Parts.
Variables (n m : Z) (R : Z -> Z -> Prop).

Definition largest (l : list (Z * Z)) : Prop := transversal n m R l /\ forall l', transversal n m R l' -> len l' <= len l.
(* rows and columns missed by some largest transversal *)
Definition missed_row (i : Z) : Prop := 0 <= i < n /\ exists l, largest l /\ ~ In i (map fst l).
Definition missed_col (j : Z) : Prop := 0 <= j < m /\ exists l, largest l /\ ~ In j (map snd l).
(* the horizontal part: the columns that some largest transversal misses, and the rows that meet them *)
Definition hrow (i : Z) : Prop := 0 <= i < n /\ exists j, missed_col j /\ R i j.
Definition hcol (j : Z) : Prop := missed_col j.
(* the vertical part: the rows that some largest transversal misses, and the columns that meet them *)
Definition vrow (i : Z) : Prop := missed_row i.
Definition vcol (j : Z) : Prop := 0 <= j < m /\ exists i, missed_row i /\ R i j.
(* the square part: the other rows and columns *)
Definition sqrow (i : Z) : Prop := 0 <= i < n /\ ~ hrow i /\ ~ vrow i.
Definition sqcol (j : Z) : Prop := 0 <= j < m /\ ~ hcol j /\ ~ vcol j.
(* the entry (i, j) is in some largest transversal *)
Definition usable (i j : Z) : Prop := exists l, largest l /\ In (i, j) l.
(* rows connected by entries that are in some largest transversal *)
Inductive linked (i : Z) : Z -> Prop :=
| linked_refl : linked i i
| linked_step k j l : linked i k -> usable k j -> usable l j -> linked i l.
End Parts.
