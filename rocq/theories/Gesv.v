(** Model of spasm_gesv (src/spasm_solve.c:50-96). *)
From Verif Require Import Base Spec Zp Mat Reach Sched Solve.

(* what the threads share: ok, X->nz, Xi, Xj, Xx *)
Record vsh := Vsh { v_ok : option (list Z); v_nz : Z; v_i : list Z; v_j : list Z; v_x : list Z }.
(* where an iteration is: before line 72; at line 80 with j; at lines 84, 85, 86 after
   capturing xnz = k; finished *)
Inductive vpc :=
| VStart
| VScan (x : list Z) (j : Z)
| VRow (x : list Z) (j k : Z)
| VCol (x : list Z) (j k : Z)
| VVal (x : list Z) (j k : Z)
| VEnd.

Section gesv.
(* [w i s]: arbitrary content of the workspaces used by iteration i: b, x (left by previous
   iterations), and y, z, Uq (allocated by spasm_solve) *)
Context (w : Z -> Z -> Z -> Z) (f : lu) (B : csr) (Xm : Z).
(* src/spasm_solve.c:72-76 *)
Definition gesv_row (i : Z) : res (bool * list Z) :=
  let m := cm B in
  b <- for_ 0 m (fun j b => aset b j 0) (malloc (w i 0) m) ;;
  b <- scatter B i 1 b ;;
  solve (malloc (w i 2) (cm (lu_U f))) (malloc (w i 3) (cn (lu_U f))) (malloc (w i 4) (cn (lu_U f))) f b (malloc (w i 1) Xm).

(* one step of iteration i; everything it reads apart from the vsh is private or constant *)
Definition vstep (i : Z) (pc : vpc) (h : vsh) : res (option (vpc * vsh)) :=
  let '(Vsh ok nz Xi Xj Xx) := h in
  match pc with
  | VStart =>
      '(r, x) <- gesv_row i ;;
      match ok with
      | None => Ok (Some (VScan x 0, h))
      | Some o => o <- aset o i (if r then 1 else 0) ;; Ok (Some (VScan x 0, Vsh (Some o) nz Xi Xj Xx))
      end
  | VScan x j =>
      if j <? Xm then
        v <- aget x j ;;
        if v =? 0 then Ok (Some (VScan x (j + 1), h))
        else Ok (Some (VRow x j nz, Vsh ok (nz + 1) Xi Xj Xx))
      else Ok (Some (VEnd, h))
  | VRow x j k => Xi <- aset Xi k i ;; Ok (Some (VCol x j k, Vsh ok nz Xi Xj Xx))
  | VCol x j k => Xj <- aset Xj k j ;; Ok (Some (VVal x j k, Vsh ok nz Xi Xj Xx))
  | VVal x j k => v <- aget x j ;; Xx <- aset Xx k v ;; Ok (Some (VScan x (j + 1), Vsh ok nz Xi Xj Xx))
  | VEnd => Ok None
  end.

Definition vconfig : Type := vsh * list vpc.
Definition vstep_all (t : Z) (c : vconfig) : res (option vconfig) :=
  let '(h, ps) := c in
  o <- vstep t (getd VEnd ps t) h ;;
  Ok (match o with None => None | Some (p, h) => Some (h, upd ps t p) end).
Definition vdone (c : vconfig) : bool := forallb (fun p => match p with VEnd => true | _ => false end) (snd c).
Definition vstart : list vpc := map (fun _ => VStart) (zseq 0 (cn B)).
(* bound on the number of steps *)
Definition vfuel : nat := Z.to_nat (cn B * (4 * Xm + 2)).
End gesv.

(* src/spasm_solve.c:53-96; ch decides the interleaving of the iterations *)
Definition gesv (g : Z -> Z -> Z) (ch : Z -> Z) (w : Z -> Z -> Z -> Z) (f : lu) (B : csr) (ok : option (list Z))
  : res (csr * option (list Z)) :=
  let prime := cprime B in
  L <- deref (lu_L f) ;;
  _ <- assert_ (prime =? cprime L) ;;
  let n := cn B in let Xm := cn L in
  let X := triplet_alloc g n Xm (Xm * n) prime true in
  Xx <- deref (tx X) ;;
  c <- spar (vstep_all w f B Xm) vdone n (vfuel B Xm) ch 0 (Vsh ok (tnz X) (ti X) (tj X) Xx, vstart B) ;;
  let h := fst c in
  XX <- compress g (Triplet (v_nz h) n Xm (v_i h) (v_j h) (Some (v_x h)) prime) ;;
  Ok (XX, v_ok h).
