(** Model of the parallel construction of a sparse matrix, shared by
    src/spasm_schur.c:90-188, src/spasm_rref.c:45-125 and src/spasm_kernel.c:43-109.

    Each iteration of the parallel loop is a task: it first computes a row using only
    private memory and read-only data (this part is sequential, see Schur.v, Rref.v,
    Kernel.v), then runs the protocol modelled here.  Any number of tasks can be in
    progress at any time, which includes all behaviours of any number of threads under any
    OpenMP schedule.  One step below is one access to shared data; steps of different
    tasks interleave arbitrarily.  Memory is sequentially consistent; this is justified by
    the absence of data races (C25).  Progress reports on stderr are not modelled. *)
From Verif Require Import Base Spec Mat.

(* the shared arrays: Sj, Sx (columns and values of the new matrix), Li, Lj, Lx (entries added
   to L), Sp (row pointers of the new matrix), Po (p_out) *)
Inductive buf := SJ | SX | LI | LJ | LX | SP | PO.
Definition buf_eqb (a b : buf) : bool :=
  match a, b with
  | SJ, SJ | SX, SX | LI, LI | LJ, LJ | LX, LX | SP, SP | PO, PO => true
  | _, _ => false
  end.

(* a write to [array][base + off]; in row pointers the value is relative to the start of the row *)
Record wr := Wr { w_buf : buf; w_off : Z; w_val : Z }.

Record shared := Shared {
  s_lock : option Z;   (* the task inside the critical section *)
  s_writing : Z;       (* number of registered writers *)
  s_n : Z;             (* Sn: number of rows *)
  s_nz : Z;            (* snz: number of entries of S *)
  s_lnz : Z;           (* lnz: number of entries of L *)
  s_mem : buf -> list Z
}.

(* program counter of a task, with its local variables local_i, local_snz, local_lnz *)
Inductive pc :=
| Start | ChkS | WaitS | GrowS | ResS
| ChkL (i s : Z) | WaitL (i s : Z) | GrowL (i s : Z) | ResL (i s : Z)
| IncW (i s l : Z) | Unlock (i s l : Z) | Write (i s l : Z) (todo : list wr)
| Fin.

(* what distinguishes the tasks *)
Record task := Task {
  t_act : bool;        (* does the iteration produce a row? (kernel.c:51-52) *)
  t_need : Z;          (* room asked for in S (schur.c:117, rref.c:84, kernel.c:70) *)
  t_extra : Z;         (* S grows to 2*nzmax + t_extra *)
  t_ssz : Z;           (* entries added to S *)
  t_lsz : Z;           (* entries added to L *)
  t_prog : list wr     (* the writes, in program order *)
}.

Section par.
Context (g : Z -> Z -> Z) (hasL : bool) (lextra : Z).

Definition setmem (m : buf -> list Z) (b : buf) (a : list Z) : buf -> list Z :=
  fun c => if buf_eqb b c then a else m c.
Definition base (b : buf) (i s l : Z) : Z :=
  match b with SJ | SX => s | LI | LJ | LX => l | SP => i + 1 | PO => i end.
Definition value (w : wr) (s : Z) : Z := match w_buf w with SP => s + w_val w | _ => w_val w end.

(* one step of a task; None: it is waiting (for the critical section, or for the writers) *)
Definition step (T : task) (t : Z) (p : pc) (h : shared) : res (option (pc * shared)) :=
  let '(Shared lock writing n nz lnz mem) := h in
  match p with
  | Start => Ok (match lock with
                 | None => Some (ChkS, Shared (Some t) writing n nz lnz mem)
                 | Some _ => None end)
  | ChkS => Ok (Some (if nz + t_need T >? len (mem SJ) then WaitS else ResS, h))
  | WaitS => Ok (if writing >? 0 then None else Some (GrowS, h))
  | GrowS =>
      let k := 2 * len (mem SJ) + t_extra T in
      Ok (Some (ResS, Shared lock writing n nz lnz
        (setmem (setmem mem SJ (realloc (g 3) (mem SJ) k)) SX (realloc (g 4) (mem SX) k))))
  | ResS => Ok (Some (ChkL n nz, Shared lock writing (n + 1) (nz + t_ssz T) lnz mem))
  | ChkL i s => Ok (Some (if hasL && (lnz + t_lsz T >? len (mem LI)) then WaitL i s else ResL i s, h))
  | WaitL i s => Ok (if writing >? 0 then None else Some (GrowL i s, h))
  | GrowL i s =>
      let k := 2 * len (mem LI) + lextra in
      Ok (Some (ResL i s, Shared lock writing n nz lnz
        (setmem (setmem (setmem mem LI (realloc (g 0) (mem LI) k)) LJ (realloc (g 1) (mem LJ) k))
           LX (realloc (g 2) (mem LX) k))))
  | ResL i s => Ok (Some (IncW i s lnz, Shared lock writing n nz (lnz + t_lsz T) mem))
  | IncW i s l => Ok (Some (Unlock i s l, Shared lock (writing + 1) n nz lnz mem))
  | Unlock i s l => Ok (Some (Write i s l (t_prog T), Shared None writing n nz lnz mem))
  | Write i s l (w :: r) =>
      a <- aset (mem (w_buf w)) (base (w_buf w) i s l + w_off w) (value w s) ;;
      Ok (Some (Write i s l r, Shared lock writing n nz lnz (setmem mem (w_buf w) a)))
  | Write i s l [] => Ok (Some (Fin, Shared lock (writing - 1) n nz lnz mem))
  | Fin => Ok None
  end.

(* all the tasks *)
Definition config : Type := shared * list pc.
Definition run1 (T : Z -> task) (c : config) (t : Z) : res config :=
  let '(h, pcs) := c in
  if inb pcs t then
    o <- step (T t) t (getd Fin pcs t) h ;;
    match o with None => Ok c | Some (p, h) => Ok (h, upd pcs t p) end
  else Ok c.
(* a schedule is the sequence of tasks that are given a chance to make one step *)
Fixpoint run (T : Z -> task) (sched : list Z) (c : config) : res config :=
  match sched with
  | [] => Ok c
  | t :: sched => c <- run1 T c t ;; run T sched c
  end.
Definition start (T : Z -> task) (N : Z) : list pc :=
  map (fun t => if t_act (T t) then Start else Fin) (zseq 0 N).
Definition all_done (c : config) : bool :=
  forallb (fun p => match p with Fin => true | _ => false end) (snd c).

(* The scheduler: [ch k] tells which of the tasks that can make a step is the next one.  Every
   sequence of steps of the tasks is obtained for some [ch] (C25_every_interleaving).  If no task
   can make a step before the end (deadlock), the outcome is an error. *)
Definition can_step (T : Z -> task) (c : config) (t : Z) : bool :=
  match step (T t) t (getd Fin (snd c) t) (fst c) with Ok None => false | _ => true end.
Fixpoint par_run (T : Z -> task) (N : Z) (fuel : nat) (ch : Z -> Z) (k : Z) (c : config) : res config :=
  if all_done c then Ok c else
  match fuel with
  | O => Fail OutOfFuel
  | S fuel =>
      match filter (can_step T c) (zseq 0 N) with
      | [] => Fail OutOfFuel
      | l => c <- run1 T c (getd 0 l (ch k mod len l)) ;; par_run T N fuel ch (k + 1) c
      end
  end.
(* the number of steps of a task is at most 12 plus the number of writes *)
Definition par_fuel (T : Z -> task) (N : Z) : nat :=
  Z.to_nat (sum 0 N (fun t => 12 + len (t_prog (T t)))).
(* the whole parallel loop: N iterations; l0 is the initial number of entries of L *)
Definition par_for (N : Z) (ch : Z -> Z) (T : Z -> task) (l0 : Z) (m0 : buf -> list Z) : res shared :=
  c <- par_run T N (par_fuel T N) ch 0 (Shared None 0 0 0 l0 m0, start T N) ;;
  Ok (fst c).

(* data accessed by the next step of a task: memory cells, or whole arrays, or the counters
   Sn, snz, lnz; [true] marks modifications.  The lock and the counter [writing] are
   synchronisation variables. *)
Inductive loc := Cell (b : buf) (k : Z) | Array (b : buf) | Counters.
Definition accesses (T : task) (p : pc) (h : shared) : list (loc * bool) :=
  match p with
  | ChkS => [(Counters, false); (Array SJ, false)]
  | GrowS => [(Array SJ, true); (Array SX, true)]
  | ResS => [(Counters, true)]
  | ChkL _ _ => [(Counters, false); (Array LI, false)]
  | GrowL _ _ => [(Array LI, true); (Array LJ, true); (Array LX, true)]
  | ResL _ _ => [(Counters, true)]
  | Write i s l (w :: _) => [(Cell (w_buf w) (base (w_buf w) i s l + w_off w), true)]
  | _ => []
  end.
(* accesses to the same data; (Array _, false) only reads its size *)
Definition overlap (a b : loc * bool) : bool :=
  match fst a, fst b with
  | Cell x k, Cell y l => buf_eqb x y && (k =? l)
  | Cell x _, Array y => buf_eqb x y && snd b
  | Array x, Cell y _ => buf_eqb x y && snd a
  | Array x, Array y => buf_eqb x y
  | Counters, Counters => true
  | _, _ => false
  end.
Definition conflict (a b : loc * bool) : bool := overlap a b && (snd a || snd b).
Definition race (T : Z -> task) (c : config) : Prop :=
  exists t u a b, t <> u /\ In a (accesses (T t) (getd Fin (snd c) t) (fst c)) /\
    In b (accesses (T u) (getd Fin (snd c) u) (fst c)) /\ conflict a b = true.

(* what is expected from the parallel loop: whatever the schedule, no step fails (in particular
   no access out of bounds), no two tasks are about to make conflicting accesses, and as long as
   there is work left some task can make a step; if all is done then the outcome is one of those
   of [par_for]; and par_for never fails: there is no infinite execution. *)
Definition par_safe (N : Z) (T : Z -> task) (l0 : Z) (m0 : buf -> list Z) : Prop :=
  (forall sched, sat (run T sched (Shared None 0 0 0 l0 m0, start T N)) (fun c =>
     ~ race T c /\
     (all_done c = false -> exists t, 0 <= t < N /\ can_step T c t = true) /\
     (all_done c = true -> exists ch, par_for N ch T l0 m0 = Ok (fst c)))) /\
  (forall ch, exists h, par_for N ch T l0 m0 = Ok h).
End par.
