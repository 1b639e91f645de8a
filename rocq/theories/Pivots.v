(** Model of src/spasm_pivots.c: selection of structural pivots.

    Row weights and positions in a row (int) are assumed to fit.  [char] is signed
    (spasm_pivots.c:133 stores -1 in one: on platforms where it is unsigned, the search does not
    work).  The counter [processed] and the messages are not modelled. *)
From Verif Require Import Base Spec Zp Mat Reach Par Schur Sched.

(* src/spasm_pivots.c:11-28: all of register_pivot but the write of qinv[j] *)
Definition register_pivot1 (i j : Z) (pinv qinv : list Z) : res (Z * list Z * list Z) :=
  pinvi <- aget pinv i ;;
  qinvj <- aget qinv j ;;
  _ <- assert_ ((pinvi <? 0) || (qinvj <? 0)) ;;
  '(r, qinv) <- (if pinvi =? -1 then Ok (1, qinv) else
      q <- aget qinv pinvi ;;
      _ <- assert_ (q =? i) ;; _ <- assert_ (negb (pinvi =? j)) ;;
      qinv <- aset qinv pinvi (-1) ;; Ok (0, qinv)) ;;
  '(r, pinv) <- (if qinvj =? -1 then Ok (r, pinv) else
      q <- aget pinv qinvj ;;
      _ <- assert_ (q =? j) ;; _ <- assert_ (negb (qinvj =? i)) ;;
      pinv <- aset pinv qinvj (-1) ;; Ok (0, pinv)) ;;
  pinv <- aset pinv i j ;;
  Ok (r, pinv, qinv).
(* src/spasm_pivots.c:11-32 *)
Definition register_pivot (i j : Z) (pinv qinv : list Z) : res (Z * list Z * list Z) :=
  '(r, pinv, qinv) <- register_pivot1 i j pinv qinv ;;
  qinv <- aset qinv j i ;;
  Ok (r, pinv, qinv).

(* src/spasm.h, spasm_row_weight *)
Definition row_weight (A : csr) (i : Z) : res Z :=
  hi <- aget (cp A) (i + 1) ;; lo <- aget (cp A) i ;; Ok (hi - lo).

(* src/spasm_pivots.c:41-65 *)
Definition find_FL_pivots (A : csr) (pinv qinv : list Z) : res (Z * list Z * list Z) :=
  let m := cm A in
  for_ 0 (cn A) (fun i '(npiv, pinv, qinv) =>
    lo <- aget (cp A) i ;; hi <- aget (cp A) (i + 1) ;;
    j <- for_ lo hi (fun px j =>
        Ax <- deref (cx A) ;; v <- aget Ax px ;;
        _ <- assert_ (negb (v =? 0)) ;;
        c <- aget (cj A) px ;;
        Ok (if c <? j then c else j)) (m + 1) ;;
    if j =? m + 1 then Ok (npiv, pinv, qinv) else
    q <- aget qinv j ;;
    better <- (if q =? -1 then Ok true else
               wi <- row_weight A i ;; wq <- row_weight A q ;; Ok (wi <? wq)) ;;
    if (better : bool) then
      '(r, pinv, qinv) <- register_pivot i j pinv qinv ;; Ok (npiv + r, pinv, qinv)
    else Ok (npiv, pinv, qinv)) (0, pinv, qinv).

(* src/spasm_pivots.c:76-121; [w0] is the uninitialised workspace *)
Definition find_FL_column_pivots (w0 : list Z) (A : csr) (pinv qinv : list Z) : res (Z * list Z * list Z) :=
  let n := cn A in
  w <- for_ 0 (cm A) (fun j w => aset w j 1) w0 ;;
  w <- for_ 0 n (fun i w =>
      pi <- aget pinv i ;;
      if pi <? 0 then Ok w else
      lo <- aget (cp A) i ;; hi <- aget (cp A) (i + 1) ;;
      for_ lo hi (fun px w => j <- aget (cj A) px ;; aset w j 0) w) w ;;
  '(npiv, pinv, qinv, _) <- for_ 0 n (fun i '(npiv, pinv, qinv, w) =>
      pi <- aget pinv i ;;
      if 0 <=? pi then Ok (npiv, pinv, qinv, w) else
      lo <- aget (cp A) i ;; hi <- aget (cp A) (i + 1) ;;
      o <- forb lo hi (fun px _ =>
          j <- aget (cj A) px ;;
          wj <- aget w j ;;
          if wj =? 0 then Ok (inl tt) else
          qj <- aget qinv j ;;
          if 0 <=? qj then Ok (inl tt) else
          '(r, pinv, qinv) <- register_pivot i j pinv qinv ;;
          w <- for_ lo hi (fun px w => j <- aget (cj A) px ;; aset w j 0) w ;;
          Ok (inr (npiv + r, pinv, qinv, w))) tt ;;
      match o with inl _ => Ok (npiv, pinv, qinv, w) | inr st => Ok st end) (0, pinv, qinv, w) ;;
  Ok (npiv, pinv, qinv).

(** ** Greedy search (src/spasm_pivots.c:129-294) *)

(* local variables of an iteration *)
Record bfs := Bfs {
  b_w : list Z;      (* marks *)
  b_q : list Z;      (* queue *)
  b_surv : Z;        (* surviving *)
  b_head : Z;
  b_tail : Z;
  b_k : Z            (* npiv_local *)
}.
(* src/spasm_pivots.c:129-134 *)
Definition bfs_enqueue (l : bfs) (j : Z) : res bfs :=
  q <- aset (b_q l) (b_tail l) j ;;
  wj <- aget (b_w l) j ;;
  w <- aset (b_w l) j (-1) ;;
  Ok (Bfs w q (b_surv l - wj) (b_head l) (b_tail l + 1) (b_k l)).
(* src/spasm_pivots.c:136-144 *)
Definition bfs_enqueue_row (A : csr) (l : bfs) (i : Z) : res bfs :=
  lo <- aget (cp A) i ;; hi <- aget (cp A) (i + 1) ;;
  for_ lo hi (fun px l =>
    j <- aget (cj A) px ;;
    wj <- aget (b_w l) j ;;
    if 0 <=? wj then bfs_enqueue l j else Ok l) l.
(* src/spasm_pivots.c:231-238 *)
Definition locate (A : csr) (i : Z) (w : list Z) : res Z :=
  lo <- aget (cp A) i ;; hi <- aget (cp A) (i + 1) ;;
  o <- forb lo hi (fun px _ =>
      j <- aget (cj A) px ;; wj <- aget w j ;;
      if wj =? 1 then Ok (inr j) else Ok (inl j)) (-1) ;;
  let j := match o with inl j => j | inr j => j end in
  _ <- assert_ (negb (j =? -1)) ;;
  Ok j.
(* src/spasm_pivots.c:276-285 *)
Definition clean (A : csr) (i : Z) (l : bfs) : res (list Z) :=
  lo <- aget (cp A) i ;; hi <- aget (cp A) (i + 1) ;;
  w <- for_ lo hi (fun px w => j <- aget (cj A) px ;; aset w j 0) (b_w l) ;;
  for_ 0 (b_tail l) (fun px w => j <- aget (b_q l) px ;; aset w j 0) w.

(* where an iteration is; each step makes one access to shared data, or none *)
Inductive gpc :=
| GStart (w q : list Z)            (* 192: test pinv[i] *)
| GReadN (w q : list Z)            (* 201: read npiv *)
| GScat (px : Z) (l : bfs)         (* 204-215: read qinv[Aj[px]] *)
| GBfs (l : bfs)                   (* 219-238: read qinv[queue[head]], or move on *)
| GLock (l : bfs) (j : Z)          (* 242: enter the critical section *)
| GTest (l : bfs) (j : Z)          (* 244, 253: compare npiv, read it *)
| GReg (l : bfs) (j : Z)           (* 246: register_pivot, up to the last write *)
| GSet (l : bfs) (j r : Z)         (* 246: last write of register_pivot *)
| GLog (l : bfs) (j r : Z)         (* 247: write the journal *)
| GInc (l : bfs) (r : Z)           (* 249: increment npiv *)
| GOut (l : bfs)                   (* 255: leave, success *)
| GFail (l : bfs) (target : Z)     (* 255: leave, failure *)
| GLearn (l : bfs) (target : Z)    (* 261-273: read journal[npiv_local], maybe qinv *)
| GFin (w q : list Z).             (* the end: what is left in the workspace *)

(* shared data *)
Record gsh := Gsh {
  g_lock : option Z;
  g_npiv : Z;
  g_pinv : list Z;
  g_qinv : list Z;
  g_log : list Z      (* journal *)
}.

Definition gstep (A : csr) (i : Z) (p : gpc) (h : gsh) : res (option (gpc * gsh)) :=
  let '(Gsh lock npiv pinv qinv log) := h in
  match p with
  | GStart w q =>
      pi <- aget pinv i ;;
      Ok (Some (if 0 <=? pi then GFin w q else GReadN w q, h))
  | GReadN w q =>
      lo <- aget (cp A) i ;;
      Ok (Some (GScat lo (Bfs w q 0 0 0 npiv), h))
  | GScat px l =>
      hi <- aget (cp A) (i + 1) ;;
      if px <? hi then
        j <- aget (cj A) px ;;
        qj <- aget qinv j ;;
        l <- (if qj <? 0 then
                w <- aset (b_w l) j 1 ;;
                Ok (Bfs w (b_q l) (b_surv l + 1) (b_head l) (b_tail l) (b_k l))
              else bfs_enqueue l j) ;;
        Ok (Some (GScat (px + 1) l, h))
      else Ok (Some (GBfs l, h))
  | GBfs l =>
      if (b_head l <? b_tail l) && (0 <? b_surv l) then
        j <- aget (b_q l) (b_head l) ;;
        let l := Bfs (b_w l) (b_q l) (b_surv l) (b_head l + 1) (b_tail l) (b_k l) in
        I <- aget qinv j ;;
        if I =? -1 then Ok (Some (GBfs l, h)) else
        l <- bfs_enqueue_row A l I ;; Ok (Some (GBfs l, h))
      else if b_surv l =? 0 then w <- clean A i l ;; Ok (Some (GFin w (b_q l), h))
      else j <- locate A i (b_w l) ;; Ok (Some (GLock l j, h))
  | GLock l j =>
      match lock with
      | None => Ok (Some (GTest l j, Gsh (Some i) npiv pinv qinv log))
      | Some _ => Ok None
      end
  | GTest l j => Ok (Some (if npiv =? b_k l then GReg l j else GFail l npiv, h))
  | GReg l j =>
      '(r, pinv, qinv) <- register_pivot1 i j pinv qinv ;;
      Ok (Some (GSet l j r, Gsh lock npiv pinv qinv log))
  | GSet l j r =>
      qinv <- aset qinv j i ;;
      Ok (Some (GLog l j r, Gsh lock npiv pinv qinv log))
  | GLog l j r =>
      log <- aset log npiv j ;;
      Ok (Some (GInc l r, Gsh lock npiv pinv qinv log))
  | GInc l r => Ok (Some (GOut l, Gsh lock (npiv + r) pinv qinv log))
  | GOut l => w <- clean A i l ;; Ok (Some (GFin w (b_q l), Gsh None npiv pinv qinv log))
  | GFail l target =>
      (* a negative target would mean success (line 257) *)
      if target <? 0 then w <- clean A i l ;; Ok (Some (GFin w (b_q l), Gsh None npiv pinv qinv log))
      else Ok (Some (GLearn l target, Gsh None npiv pinv qinv log))
  | GLearn l target =>
      if b_k l <? target then
        j <- aget log (b_k l) ;;
        wj <- aget (b_w l) j ;;
        l <- (if wj =? 0 then Ok l
              else if wj =? 1 then bfs_enqueue l j
              else i' <- aget qinv j ;; bfs_enqueue_row A l i') ;;
        Ok (Some (GLearn (Bfs (b_w l) (b_q l) (b_surv l) (b_head l) (b_tail l) (b_k l + 1)) target, h))
      else Ok (Some (GBfs l, h))
  | GFin _ _ => Ok None
  end.

(* all the iterations *)
Definition gconfig : Type := gsh * list gpc.
Definition gfin : gpc := GFin [] [].
Definition gstep_all (A : csr) (t : Z) (c : gconfig) : res (option gconfig) :=
  let '(h, ps) := c in
  o <- gstep A t (getd gfin ps t) h ;;
  Ok (match o with None => None | Some (p, h) => Some (h, upd ps t p) end).
Definition gdone (c : gconfig) : bool :=
  forallb (fun p => match p with GFin _ _ => true | _ => false end) (snd c).
(* [scr i] is the content of the workspaces w and queue of the thread that runs iteration i,
   when it starts.  The theorems only assume that w is zero, which each iteration restores *)
Definition gstart (A : csr) (scr : Z -> list Z * list Z) : list gpc :=
  map (fun i => GStart (fst (scr i)) (snd (scr i))) (zseq 0 (cn A)).
(* bound on the number of steps *)
Definition gfuel (A : csr) : nat := Z.to_nat (cn A * (14 + nnz A + 2 * cm A + 8 * cn A)).

(* src/spasm_pivots.c:146-294; ch decides the interleaving of the iterations *)
Definition find_cycle_free_pivots (g : Z -> Z -> Z) (ch : Z -> Z) (scr : Z -> list Z * list Z)
  (A : csr) (pinv qinv : list Z) : res (Z * list Z * list Z) :=
  let journal := malloc (g 10) (cn A) in
  c <- spar (gstep_all A) gdone (cn A) (gfuel A) ch 0 (Gsh None 0 pinv qinv journal, gstart A scr) ;;
  Ok (g_npiv (fst c), g_pinv (fst c), g_qinv (fst c)).

(* src/spasm_pivots.c:305-319 *)
Definition pivots_find (g : Z -> Z -> Z) (ch : Z -> Z) (scr : Z -> list Z * list Z) (greedy : bool)
  (A : csr) (pinv qinv : list Z) : res (Z * list Z * list Z) :=
  qinv <- for_ 0 (cm A) (fun j qinv => aset qinv j (-1)) qinv ;;
  pinv <- for_ 0 (cn A) (fun i pinv => aset pinv i (-1)) pinv ;;
  '(npiv, pinv, qinv) <- find_FL_pivots A pinv qinv ;;
  '(k, pinv, qinv) <- find_FL_column_pivots (malloc (g 11) (cm A)) A pinv qinv ;;
  let npiv := npiv + k in
  if greedy then
    '(k, pinv, qinv) <- find_cycle_free_pivots g ch scr A pinv qinv ;;
    Ok (npiv + k, pinv, qinv)
  else Ok (npiv, pinv, qinv).

(* src/spasm_pivots.c:325-362 *)
Definition pivots_reorder (g : Z -> Z -> Z) (A : csr) (pinv qinv : list Z) (npiv : Z) (p : list Z) : res (list Z) :=
  let n := cn A in let m := cm A in
  let xj := malloc (g 12) m in let ps := malloc (g 13) m in
  mk <- for_ 0 m (fun j mk => aset mk j 0) (malloc (g 14) m) ;;
  '(top, xj, _, _) <- for_ 0 m (fun j '(top, xj, ps, mk) =>
      q <- aget qinv j ;;
      if q =? -1 then Ok (top, xj, ps, mk) else
      mj <- aget mk j ;;
      if mj =? 0 then dfs A qinv j top xj ps mk else Ok (top, xj, ps, mk)) (m, xj, ps, mk) ;;
  '(k, p) <- for_ top m (fun px '(k, p) =>
      j <- aget xj px ;;
      i <- aget qinv j ;;
      if i =? -1 then Ok (k, p) else
      pi <- aget pinv i ;;
      _ <- assert_ (pi =? j) ;;
      p <- aset p k i ;; Ok (k + 1, p)) (0, p) ;;
  _ <- assert_ (k =? npiv) ;;
  '(k, p) <- for_ 0 n (fun i '(k, p) =>
      pi <- aget pinv i ;;
      if pi =? -1 then p <- aset p k i ;; Ok (k + 1, p) else Ok (k, p)) (k, p) ;;
  _ <- assert_ (k =? n) ;;
  Ok p.
