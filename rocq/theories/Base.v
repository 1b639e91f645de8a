(** Result monad, bounds-checked arrays and loops used by every model file.

    This file models no particular function of /repo: it fixes how the C
    language is read (see DESIGN.md, "Modelling conventions"). *)
From Coq Require Export ZArith List Lia Bool.
From Coq Require Import ZifyBool.
Export ListNotations.
Open Scope Z_scope.

(** ** Outcomes of a C computation *)

Inductive err :=
| OOB          (* out of bounds access, or NULL dereference: undefined behaviour *)
| AssertFailed (* assert() or errx()/err(): the process stops *)
| Overflow     (* value does not fit where the C code stores it *)
| OutOfFuel.   (* the model's loop bound was too small: excluded by theorems *)

Inductive res (A : Type) :=
| Ok (a : A)
| Fail (e : err).
Arguments Ok {A} a.
Arguments Fail {A} e.

Definition bind {A B} (r : res A) (f : A -> res B) : res B :=
  match r with Ok a => f a | Fail e => Fail e end.

Notation "x <- e ;; f" := (bind e (fun x => f))
  (at level 61, e at next level, right associativity).
Notation "' p <- e ;; f" := (bind e (fun p => f))
  (at level 61, p pattern, e at next level, right associativity).

(** ** Arrays *)

Definition len {A} (a : list A) : Z := Z.of_nat (length a).

Definition getd {A} (d : A) (a : list A) (i : Z) : A :=
  if i <? 0 then d else nth (Z.to_nat i) a d.
Definition get (a : list Z) (i : Z) : Z := getd 0 a i.

Fixpoint upd_nat {A} (a : list A) (i : nat) (v : A) : list A :=
  match a, i with
  | [], _ => []
  | _ :: t, O => v :: t
  | h :: t, S i => h :: upd_nat t i v
  end.
Definition upd {A} (a : list A) (i : Z) (v : A) : list A :=
  if i <? 0 then a else upd_nat a (Z.to_nat i) v.

Definition inb {A} (a : list A) (i : Z) : bool := (0 <=? i) && (i <? len a).

(* a[i] as an rvalue *)
Definition aget (a : list Z) (i : Z) : res Z :=
  if inb a i then Ok (get a i) else Fail OOB.
(* a[i] = v *)
Definition aset {A} (a : list A) (i : Z) (v : A) : res (list A) :=
  if inb a i then Ok (upd a i v) else Fail OOB.
(* assert(b) *)
Definition assert_ (b : bool) : res unit := if b then Ok tt else Fail AssertFailed.
(* dereferencing a pointer that may be NULL *)
Definition deref {A} (o : option A) : res A :=
  match o with Some a => Ok a | None => Fail OOB end.

(* an array of k copies of v; zero-initialised memory is [fill k 0] *)
Definition fill {A} (k : Z) (v : A) : list A := repeat v (Z.to_nat k).

(* conversion of a 64-bit integer to a 32-bit one (int, spasm_ZZp): wraps around *)
Definition to_i32 (x : Z) : Z := (x + 2 ^ 31) mod 2 ^ 32 - 2 ^ 31.

(** ** Loops *)

(* for (i = lo; i < lo + k; i++) body *)
Fixpoint for_nat {S} (k : nat) (i : Z) (body : Z -> S -> res S) (s : S) : res S :=
  match k with
  | O => Ok s
  | Datatypes.S k => s <- body i s ;; for_nat k (i + 1) body s
  end.

(* for (i = lo; i < hi; i++) body *)
Definition for_ {S} (lo hi : Z) (body : Z -> S -> res S) (s : S) : res S :=
  for_nat (Z.to_nat (hi - lo)) lo body s.

(* for (i = hi - 1; i >= lo; i--) body *)
Definition for_down {S} (lo hi : Z) (body : Z -> S -> res S) (s : S) : res S :=
  for_ lo hi (fun i => body (lo + hi - 1 - i)) s.

(* unbounded loop; the body says "continue with s" (inl) or "leave with r" (inr) *)
Fixpoint loop {S R} (fuel : nat) (body : S -> res (S + R)) (s : S) : res R :=
  match fuel with
  | O => Fail OutOfFuel
  | Datatypes.S fuel =>
      o <- body s ;;
      match o with inl s => loop fuel body s | inr r => Ok r end
  end.

(* for (i = lo; i < hi; i++) with break/return: the body says inl (go on) or inr (leave) *)
Fixpoint forb_nat {S R} (k : nat) (i : Z) (body : Z -> S -> res (S + R)) (s : S)
  : res (S + R) :=
  match k with
  | O => Ok (inl s)
  | Datatypes.S k =>
      o <- body i s ;;
      match o with inl s => forb_nat k (i + 1) body s | inr r => Ok (inr r) end
  end.
Definition forb {S R} (lo hi : Z) (body : Z -> S -> res (S + R)) (s : S) : res (S + R) :=
  forb_nat (Z.to_nat (hi - lo)) lo body s.

(** ** Total correctness *)

Definition sat {A} (r : res A) (Q : A -> Prop) : Prop :=
  match r with Ok a => Q a | Fail _ => False end.

(** ** Sums of integers over an interval *)

Fixpoint sum_nat (k : nat) (lo : Z) (f : Z -> Z) : Z :=
  match k with
  | O => 0
  | S k => f lo + sum_nat k (lo + 1) f
  end.
Definition sum (lo hi : Z) (f : Z -> Z) : Z := sum_nat (Z.to_nat (hi - lo)) lo f.

(** ** Congruences *)

Definition cong (p a b : Z) : Prop := (p | a - b).
