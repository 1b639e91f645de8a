(** Parallel loops whose iterations append triplets to a shared array.

    Used for src/spasm_schur.c:290-328: an iteration first writes things of its own in shared
    memory, then for each of its triplets it gets an index with an atomic capture (lines 313-314)
    and writes the triplet there (lines 315-317).  What the iteration does before its first
    triplet is one step: it only touches memory that no other iteration accesses (this is part
    of what is proved).  The triplets are computed from private memory, so they are known from
    the start.  As in Sched.v any number of iterations can be in progress. *)
From Verif Require Import Base Spec Sched.

(* what the threads share: h, nz, i, j, x *)
Record ash (H : Type) := Ash { a_h : H; a_nz : Z; a_i : list Z; a_j : list Z; a_x : list Z }.
Arguments Ash {H}. Arguments a_h {H}. Arguments a_nz {H}. Arguments a_i {H}. Arguments a_j {H}. Arguments a_x {H}.
(* where an iteration is: not started; about to capture; about to write the three fields of the
   triplet e at index k; finished.  es: the triplets that come next *)
Inductive apc :=
| AStart
| ATodo (es : list (Z * Z * Z))
| ARow (e : Z * Z * Z) (es : list (Z * Z * Z)) (k : Z)
| ACol (e : Z * Z * Z) (es : list (Z * Z * Z)) (k : Z)
| AVal (e : Z * Z * Z) (es : list (Z * Z * Z)) (k : Z)
| AEnd.

Section append.
Context {H : Type} (start : Z -> H -> res (H * list (Z * Z * Z))).

Definition astep (t : Z) (pc : apc) (s : ash H) : res (option (apc * ash H)) :=
  let '(Ash h nz Xi Xj Xx) := s in
  match pc with
  | AStart => '(h, es) <- start t h ;; Ok (Some (ATodo es, Ash h nz Xi Xj Xx))
  | ATodo [] => Ok (Some (AEnd, s))
  | ATodo (e :: es) => Ok (Some (ARow e es nz, Ash h (nz + 1) Xi Xj Xx))
  | ARow e es k => Xi <- aset Xi k (fst (fst e)) ;; Ok (Some (ACol e es k, Ash h nz Xi Xj Xx))
  | ACol e es k => Xj <- aset Xj k (snd (fst e)) ;; Ok (Some (AVal e es k, Ash h nz Xi Xj Xx))
  | AVal e es k => Xx <- aset Xx k (snd e) ;; Ok (Some (ATodo es, Ash h nz Xi Xj Xx))
  | AEnd => Ok None
  end.
Definition aconfig : Type := ash H * list apc.
Definition astep_all (t : Z) (c : aconfig) : res (option aconfig) :=
  let '(h, ps) := c in
  o <- astep t (getd AEnd ps t) h ;;
  Ok (match o with None => None | Some (p, h) => Some (h, upd ps t p) end).
Definition adone (c : aconfig) : bool := forallb (fun p => match p with AEnd => true | _ => false end) (snd c).
Definition astart (n : Z) : list apc := map (fun _ => AStart) (zseq 0 n).
(* bound on the number of steps; m: bound on the number of triplets of an iteration *)
Definition afuel (n m : Z) : nat := Z.to_nat (n * (4 * m + 3)).
Definition append_for (ch : Z -> Z) (n m : Z) (s : ash H) : res (ash H) :=
  c <- spar astep_all adone n (afuel n m) ch 0 (s, astart n) ;; Ok (fst c).
End append.
