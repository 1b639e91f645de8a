(** Interleaving of the steps of parallel tasks, in general.

    Used for the parallel loops whose tasks do not follow the protocol of Par.v:
    src/spasm_pivots.c:163-289 (Pivots.v) and src/spasm_solve.c:66-92 (Solve.v).  As in Par.v any
    number of iterations of the parallel loop can be in progress at any time, one step is one
    access to shared data, and memory is sequentially consistent. *)
From Verif Require Import Base Spec.

Section sched.
Context {C : Type} (step : Z -> C -> res (option C)) (done : C -> bool) (N : Z).

(* task t makes a step, if it can: None means that it is waiting, or that it has ended *)
Definition srun1 (c : C) (t : Z) : res C :=
  o <- step t c ;; match o with None => Ok c | Some c => Ok c end.
(* a schedule is the sequence of tasks that are given a chance to make one step *)
Fixpoint srun (sched : list Z) (c : C) : res C :=
  match sched with
  | [] => Ok c
  | t :: sched => c <- srun1 c t ;; srun sched c
  end.
Definition scan (c : C) (t : Z) : bool :=
  match step t c with Ok None => false | _ => true end.
(* the scheduler: [ch k] tells which of the tasks that can make a step is the next one; if no
   task can make a step before the end (deadlock), the outcome is an error *)
Fixpoint spar (fuel : nat) (ch : Z -> Z) (k : Z) (c : C) : res C :=
  if done c then Ok c else
  match fuel with
  | O => Fail OutOfFuel
  | S fuel =>
      match filter (scan c) (zseq 0 N) with
      | [] => Fail OutOfFuel
      | l => c <- srun1 c (getd 0 l (ch k mod len l)) ;; spar fuel ch (k + 1) c
      end
  end.

(* what is expected from a parallel loop started from c: whatever the schedule, no step fails
   and as long as there is work left some task can make a step; if all is done then the outcome
   is one of those of [spar]; and spar never fails: there is no infinite execution *)
Definition sched_safe (fuel : nat) (c0 : C) : Prop :=
  (forall sched, (forall t, In t sched -> 0 <= t < N) -> sat (srun sched c0) (fun c =>
     (done c = false -> exists t, 0 <= t < N /\ scan c t = true) /\
     (done c = true -> exists ch, spar fuel ch 0 c0 = Ok c))) /\
  (forall ch, exists c, spar fuel ch 0 c0 = Ok c).

End sched.
