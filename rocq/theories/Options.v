(** Model of the command lines of rank, kernel and solve: tools/common.c, the options of
    tools/rank.c, tools/kernel.c and tools/solve.c, and the default options
    (src/spasm_echelonize.c:9-28).

    argp is not part of the repository.  It is taken to cut the command line into items, to look for
    each option in the tables of the program and of its children, in this order, and to call the
    parser that goes with the table; it stops the program when an option is unknown, or has an
    argument that it should not have, or lacks its argument.  (It also accepts abbreviations of the
    names and --help: not modelled.)  The thresholds, read by atof, are in the parameters of
    Echelonize.v. *)
From Coq Require Import String.
From Verif Require Import Base Spec SpecText Stdio SpecCert Mat Sha IO Pivots Extract Par Schur Dense Echelonize Gesv Cert ToolsElim.
Local Open Scope string_scope.
Local Open Scope list_scope.
Local Open Scope Z_scope.

(* --name or --name=arg; -c or -c arg; an argument that is not an option *)
Inductive item := Long (name : string) (arg : option (list Z)) | Short (c : Z) (arg : option (list Z)) | Plain (arg : list Z).

(* struct argp_option: name, key, whether there is an argument *)
Record argp_option := AO { ao_name : string; ao_key : Z; ao_arg : bool }.
(* a key is a one-letter option when it can be printed *)
Definition isprint (c : Z) : bool := (32 <=? c) && (c <? 127).
Definition find_option (it : item) (os : list argp_option) : option argp_option :=
  match it with
  | Long s _ => find (fun o => String.eqb (ao_name o) s) os
  | Short c _ => find (fun o => (ao_key o =? c) && isprint c) os
  | Plain _ => None
  end.
Definition item_arg (it : item) : option (list Z) := match it with Long _ a | Short _ a => a | Plain a => Some a end.

(* the arguments: struct input_matrix (tools/common.h:7-10), struct echelonize_opts, and what is
   specific to the program *)
Record args (T : Type) := Args { a_file : option (list Z); a_prime : Z; a_opts : opts; a_own : T }.
Arguments Args {T}. Arguments a_file {T}. Arguments a_prime {T}. Arguments a_opts {T}. Arguments a_own {T}.
(* a parser: key, argument, state.  None: ARGP_ERR_UNKNOWN *)
Definition parser (T : Type) : Type := Z -> list Z -> args T -> res (option (args T)).

(* argp_parse; None: the program stops with an error message.  The three programs exit in the case
   ARGP_KEY_ARG (tools/rank.c:48-50, tools/kernel.c:44-46, tools/solve.c:43-45). *)
Fixpoint dispatch {T} (groups : list (list argp_option * parser T)) (it : item) (st : args T) : res (option (args T)) :=
  match groups with
  | [] => Ok None
  | (os, parse) :: groups =>
      match find_option it os with
      | None => dispatch groups it st
      | Some o =>
          match item_arg it, ao_arg o with
          | Some a, true => parse (ao_key o) a st
          | None, false => parse (ao_key o) [] st
          | _, _ => Ok None
          end
      end
  end.
Fixpoint argp_parse {T} (groups : list (list argp_option * parser T)) (cmd : list item) (st : args T) : res (option (args T)) :=
  match cmd with
  | [] => Ok (Some st)
  | it :: cmd => r <- dispatch groups it st ;; match r with Some st => argp_parse groups cmd st | None => Ok None end
  end.

(* atoi (bits = 31), atoll (bits = 63): 0 when there is no number, undefined when it does not fit *)
Definition atoi (bits : Z) (s : list Z) : res Z :=
  '(v, _) <- scan_int bits (cstr s) ;; Ok (match v with Some v => v | None => 0 end).

(* src/spasm_echelonize.c:9-28 *)
Definition init_opts : opts := Opts true true true true false false 3 1000 (-1).

(* tools/common.c:12-17, 20-38 *)
Definition input_options : list argp_option := [AO "matrix" 109 true; AO "modulus" 112 true].
Definition parse_input_opt {T} : parser T := fun key arg st =>
  if key =? 109 then Ok (Some (Args (Some arg) (a_prime st) (a_opts st) (a_own st)))
  else if key =? 112 then v <- atoi 63 arg ;; Ok (Some (Args (a_file st) v (a_opts st) (a_own st)))
  else Ok None.

(* tools/common.c:44-48 *)
Definition NO_LOW_RANK := 0. Definition NO_DENSE := 1. Definition NO_GPLU := 2.
Definition MAX_ITER := 3. Definition DENSE_THR := 4. Definition MIN_PIV_RATIO := 5.
Definition DENSE_BLKSZ := 6. Definition MIN_RANK_RATIO := 7. Definition MAX_ASPECT_RATIO := 8.
(* tools/common.c:50-67 *)
Definition echelonize_options : list argp_option :=
  [AO "no-low-rank-mode" NO_LOW_RANK false; AO "no-dense-mode" NO_DENSE false; AO "no-GPLU" NO_GPLU false;
   AO "max-iterations" MAX_ITER true; AO "dense-threshold" DENSE_THR true; AO "min-pivot-proportion" MIN_PIV_RATIO true;
   AO "dense-block-size" DENSE_BLKSZ true; AO "min-rank-ratio" MIN_RANK_RATIO true; AO "max-aspect-ratio" MAX_ASPECT_RATIO true].
(* tools/common.c:70-108 *)
Definition parse_ech_opt {T} : parser T := fun key arg st =>
  let o := a_opts st in
  let set o := Ok (Some (Args (a_file st) (a_prime st) o (a_own st))) in
  if key =? NO_LOW_RANK then set (Opts (o_greedy o) false (o_dense o) (o_GPLU o) (o_L o) (o_complete o) (o_rounds o) (o_blk o) (o_w0 o))
  else if key =? NO_DENSE then set (Opts (o_greedy o) (o_tall o) false (o_GPLU o) (o_L o) (o_complete o) (o_rounds o) (o_blk o) (o_w0 o))
  else if key =? NO_GPLU then set (Opts (o_greedy o) (o_tall o) (o_dense o) false (o_L o) (o_complete o) (o_rounds o) (o_blk o) (o_w0 o))
  else if key =? MAX_ITER then v <- atoi 31 arg ;; set (Opts (o_greedy o) (o_tall o) (o_dense o) (o_GPLU o) (o_L o) (o_complete o) v (o_blk o) (o_w0 o))
  else if key =? DENSE_THR then Ok (Some st)
  else if key =? MIN_PIV_RATIO then Ok (Some st)
  else if key =? DENSE_BLKSZ then v <- atoi 31 arg ;; set (Opts (o_greedy o) (o_tall o) (o_dense o) (o_GPLU o) (o_L o) (o_complete o) (o_rounds o) v (o_w0 o))
  else if key =? MIN_RANK_RATIO then Ok (Some st)
  else if key =? MAX_ASPECT_RATIO then Ok (Some st)
  else Ok None.

Definition own {T} (st : args T) (x : T) : res (option (args T)) := Ok (Some (Args (a_file st) (a_prime st) (a_opts st) x)).
(* the children come after the program itself; the defaults: ARGP_KEY_INIT in tools/common.c:24-27, 74-76 *)
Definition parse_args {T} (os : list argp_option) (parse : parser T) (x : T) (cmd : list item) : res (option (args T)) :=
  argp_parse [(os, parse); (input_options, parse_input_opt); (echelonize_options, parse_ech_opt)] cmd (Args None 42013 init_opts x).

(* tools/rank.c:26-32, 35-62: allow_transpose, certificate, cert_file *)
Definition rank_options : list argp_option := [AO "no-transpose" 116 false; AO "certificate" 99 false; AO "output" 111 true].
Definition parse_rank_opt : parser (bool * bool * option (list Z)) := fun key arg st =>
  let '(tr, ce, out) := a_own st in
  if key =? 116 then own st (false, ce, out) else if key =? 99 then own st (tr, true, out) else if key =? 111 then own st (tr, ce, Some arg) else Ok None.
Definition parse_rank (cmd : list item) : res (option (args (bool * bool * option (list Z)))) := parse_args rank_options parse_rank_opt (true, false, None) cmd.
(* tools/kernel.c:26-31, 34-57: left, output_filename *)
Definition kernel_options : list argp_option := [AO "left" 108 false; AO "output" 111 true].
Definition parse_ker_opt : parser (bool * option (list Z)) := fun key arg st =>
  let '(lf, out) := a_own st in
  if key =? 108 then own st (true, out) else if key =? 111 then own st (lf, Some arg) else Ok None.
Definition parse_kernel (cmd : list item) : res (option (args (bool * option (list Z)))) := parse_args kernel_options parse_ker_opt (false, None) cmd.
(* tools/solve.c:25-30, 33-56: rhs_filename, output_filename *)
Definition solve_options : list argp_option := [AO "rhs" 114 true; AO "output" 111 true].
Definition parse_solve_opt : parser (option (list Z) * option (list Z)) := fun key arg st =>
  let '(rhs, out) := a_own st in
  if key =? 114 then own st (Some arg, out) else if key =? 111 then own st (rhs, Some arg) else Ok None.
Definition parse_solve (cmd : list item) : res (option (args (option (list Z) * option (list Z)))) := parse_args solve_options parse_solve_opt (None, None) cmd.

(* what is read: tools/common.c:113-123.  fs: the files that can be opened; None: exit *)
Definition read_from (fs : list Z -> option (list Z)) (stdin : list Z) (name : option (list Z)) : option (list Z) :=
  match name with None => Some stdin | Some n => fs n end.

(* main() of the three programs.  None: the program stops before the computation.  Where the output
   goes is returned with it: None is the standard output (kernel, solve), or no output (rank). *)
(* tools/rank.c:74-125 *)
Definition main_rank (gs : Z -> Z) (g : Z -> Z -> Z -> Z) (X : params) (fuel : nat) (gc : Z -> Z -> Z -> Z -> Z) (fc : nat)
    (fs : list Z -> option (list Z)) (stdin : list Z) (cmd : list item) : res (option (Z * option (cert * bool) * option (list Z))) :=
  a <- parse_rank cmd ;;
  match a with
  | None => Ok None
  | Some a =>
      let '(tr, ce, out) := a_own a in
      match read_from fs stdin (a_file a) with
      | None => Ok None
      | Some input => '(r, c) <- tool_rank gs g X fuel (a_opts a) gc fc tr ce input (a_prime a) ;; Ok (Some (r, c, out))
      end
  end.
(* tools/kernel.c:69-95 *)
Definition main_kernel (gs : Z -> Z) (g : Z -> Z -> Z -> Z) (X : params) (fuel : nat) (ch : Z -> Z) (scr : Z -> Z -> scratch)
    (fs : list Z -> option (list Z)) (stdin : list Z) (cmd : list item) : res (option (list Z * option (list Z))) :=
  a <- parse_kernel cmd ;;
  match a with
  | None => Ok None
  | Some a =>
      let '(lf, out) := a_own a in
      match read_from fs stdin (a_file a) with
      | None => Ok None
      | Some input => f <- tool_kernel gs g X fuel (a_opts a) ch scr lf input (a_prime a) ;; Ok (Some (f, out))
      end
  end.
(* tools/solve.c:68-114.  When neither file is named, the second matrix is what follows the first on
   the standard input: [rest] is the part of stdin left unread by the first. *)
Definition main_solve (gs : Z -> Z) (g g' : Z -> Z -> Z -> Z) (X : params) (fuel : nat) (ch : Z -> Z) (w : Z -> Z -> Z -> Z)
    (fs : list Z -> option (list Z)) (stdin rest : list Z) (cmd : list item) : res (option (list Z * list Z * option (list Z))) :=
  a <- parse_solve cmd ;;
  match a with
  | None => Ok None
  | Some a =>
      let '(rhs, out) := a_own a in
      match read_from fs stdin (a_file a), read_from fs (match a_file a with None => rest | Some _ => stdin end) rhs with
      | Some input, Some b => '(f, warn) <- tool_solve gs g g' X fuel (a_opts a) ch w input b (a_prime a) ;; Ok (Some (f, warn, out))
      | _, _ => Ok None
      end
  end.
