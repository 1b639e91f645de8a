(** Model of the command lines of echelonize, check_cert, dm and bitmap.

    check_cert uses argp (see Options.v).  The others call getopt_long, without one-letter options.
    getopt_long is not part of the repository: it is taken to return the options in their order, '?'
    for an option that is unknown or has not the right number of arguments, and to skip the other
    arguments, which the programs do not look at.  (It also accepts abbreviations of the names: not
    modelled.)  The end of the options is signalled by -1, that echelonize.c compares to a char: char
    is taken to be signed. *)
From Coq Require Import String.
From Verif Require Import Base Spec SpecText Stdio SpecCert Mat Reach Par Schur Dense Echelonize Cert ToolsElim Pnm Options.
Local Open Scope string_scope.
Local Open Scope list_scope.
Local Open Scope Z_scope.

(* None: the program stops with an error message (tools/echelonize.c:51, tools/dm.c:39, tools/bitmap.c:39) *)
Definition getopt_step {T} (os : list argp_option) (parse : Z -> list Z -> T -> res T) (it : item) (st : T) : res (option T) :=
  match it with
  | Plain _ => Ok (Some st)
  | Short _ _ => Ok None
  | Long s a =>
      match find (fun o => String.eqb (ao_name o) s) os with
      | None => Ok None
      | Some o =>
          match a, ao_arg o with
          | Some a, true => st <- parse (ao_key o) a st ;; Ok (Some st)
          | None, false => st <- parse (ao_key o) [] st ;; Ok (Some st)
          | _, _ => Ok None
          end
      end
  end.
Fixpoint getopt_parse {T} (os : list argp_option) (parse : Z -> list Z -> T -> res T) (cmd : list item) (st : T) : res (option T) :=
  match cmd with
  | [] => Ok (Some st)
  | it :: cmd => r <- getopt_step os parse it st ;; match r with Some st => getopt_parse os parse cmd st | None => Ok None end
  end.

(* tools/echelonize.c:9-54: prime, rref, opts.  The threshold, read by atof, is in the
   parameters of Echelonize.v *)
Definition ech_options : list argp_option :=
  [AO "modulus" 112 true; AO "rref" 114 false; AO "no-greedy-pivot-search" 103 false; AO "no-low-rank-mode" 108 false;
   AO "dense-block-size" 100 true; AO "low-rank-start-weight" 119 true; AO "sparsity-threshold" 115 true].
Definition parse_ech (key : Z) (arg : list Z) (st : Z * bool * opts) : res (Z * bool * opts) :=
  let '(p, rr, o) := st in
  if key =? 112 then v <- atoi 31 arg ;; Ok (v, rr, o)
  else if key =? 114 then Ok (p, true, o)
  else if key =? 103 then Ok (p, rr, Opts false (o_tall o) (o_dense o) (o_GPLU o) (o_L o) (o_complete o) (o_rounds o) (o_blk o) (o_w0 o))
  else if key =? 100 then v <- atoi 31 arg ;; Ok (p, rr, Opts (o_greedy o) (o_tall o) (o_dense o) (o_GPLU o) (o_L o) (o_complete o) (o_rounds o) v (o_w0 o))
  else if key =? 108 then Ok (p, rr, Opts (o_greedy o) false (o_dense o) (o_GPLU o) (o_L o) (o_complete o) (o_rounds o) (o_blk o) (o_w0 o))
  else if key =? 115 then Ok st
  else if key =? 119 then v <- atoi 31 arg ;; Ok (p, rr, Opts (o_greedy o) (o_tall o) (o_dense o) (o_GPLU o) (o_L o) (o_complete o) (o_rounds o) (o_blk o) v)
  else Fail AssertFailed.
Definition parse_echelonize (cmd : list item) : res (option (Z * bool * opts)) := getopt_parse ech_options parse_ech cmd (42013, false, init_opts).
(* tools/echelonize.c:56-82 *)
Definition main_echelonize (gs : Z -> Z) (g : Z -> Z -> Z -> Z) (X : params) (fuel : nat) (ch : Z -> Z) (scr : Z -> Z -> scratch) (stdin : list Z) (cmd : list item) : res (option (list Z)) :=
  a <- parse_echelonize cmd ;;
  match a with
  | None => Ok None
  | Some (p, rr, o) => f <- tool_echelonize gs g X fuel o ch scr rr stdin p ;; Ok (Some f)
  end.

(* tools/dm.c:16-41: the mode, and the argument of --image *)
Definition dm_options : list argp_option := [AO "permuted" 112 false; AO "verbose" 118 false; AO "tabulated" 116 false; AO "image" 105 true].
Definition parse_dm_opt (key : Z) (arg : list Z) (st : Z * list Z) : res (Z * list Z) :=
  let '(mode, mpix) := st in
  if key =? 105 then Ok (key, arg) else if (key =? 112) || (key =? 118) || (key =? 116) then Ok (key, mpix) else Fail AssertFailed.
Definition parse_dm (cmd : list item) : res (option (Z * list Z)) := getopt_parse dm_options parse_dm_opt cmd (112, []).
(* tools/dm.c:43-109; size: the dimensions of the image, computed from the argument of --image *)
Definition main_dm (gs : Z -> Z) (g : Z -> Z -> Z -> Z) (gd : Z -> Z -> Z -> Z) (level : Z -> Z -> Z) (size : list Z -> Z -> Z -> Z * Z) (stdin : list Z) (cmd : list item) : res (option (list Z)) :=
  a <- parse_dm cmd ;;
  match a with
  | None => Ok None
  | Some (mode, mpix) =>
      f <- (if mode =? 116 then _ <- dm_matrix gs g gd stdin ;; Ok []
            else if mode =? 118 then tool_dm_report gs g gd stdin
            else if mode =? 112 then tool_dm gs g gd stdin
            else tool_dm_image gs g gd level (size mpix) stdin) ;;
      Ok (Some f)
  end.

(* tools/bitmap.c:12-41: w, h, the argument of --mpixels and whether --gray is given *)
Definition bitmap_options : list argp_option := [AO "gray" 103 false; AO "width" 119 true; AO "height" 104 true; AO "mpixels" 109 true].
Definition parse_bitmap_opt (key : Z) (arg : list Z) (st : Z * Z * option (list Z) * bool) : res (Z * Z * option (list Z) * bool) :=
  let '(w, h, mpix, gray) := st in
  if key =? 103 then Ok (w, h, mpix, true)
  else if key =? 119 then v <- atoi 31 arg ;; Ok (v, h, mpix, gray)
  else if key =? 104 then v <- atoi 31 arg ;; Ok (w, v, mpix, gray)
  else if key =? 109 then Ok (w, h, Some arg, gray)
  else Fail AssertFailed.
Definition parse_bitmap (cmd : list item) : res (option (Z * Z * option (list Z) * bool)) := getopt_parse bitmap_options parse_bitmap_opt cmd (-1, -1, None, false).
(* tools/bitmap.c:43-75; sgn: the sign of the number read by atof; size: the dimensions computed from this number (from
   one million of pixels when --mpixels is not given) *)
Definition main_bitmap (gs : Z -> Z) (g : Z -> Z -> Z -> Z) (level : Z -> Z -> Z) (sgn : list Z -> Z) (size : option (list Z) -> Z -> Z -> Z * Z) (stdin : list Z) (cmd : list item) : res (option (list Z)) :=
  a <- parse_bitmap cmd ;;
  match a with
  | None => Ok None
  | Some (w, h, mpix, gray) =>
      f <- tool_bitmap gs g level (size mpix) (match mpix with Some a => sgn a | None => -1 end) w h gray stdin ;; Ok (Some f)
  end.

(* tools/check_cert.c:21-46: the file of the matrix and the modulus (tools/common.c:12-38), the file of
   the certificate; the options of the elimination are not accepted *)
Definition check_options : list argp_option := [AO "certificate" 99 true].
Definition parse_check_opt : parser (option (list Z)) := fun key arg st =>
  if key =? 99 then own st (Some arg) else Ok None.
Definition parse_check (cmd : list item) : res (option (args (option (list Z)))) :=
  argp_parse [(check_options, parse_check_opt); (input_options, parse_input_opt)] cmd (Args None 42013 init_opts None).
(* tools/check_cert.c:57-82; rest: what follows the matrix on the standard input *)
Definition main_check (gs : Z -> Z) (g : Z -> Z -> Z -> Z) (gc : Z -> Z -> Z -> Z) (fc : nat) (junk : cert)
    (fs : list Z -> option (list Z)) (stdin rest : list Z) (cmd : list item) : res (option (bool * Z)) :=
  a <- parse_check cmd ;;
  match a with
  | None => Ok None
  | Some a =>
      match read_from fs stdin (a_file a), read_from fs (match a_file a with None => rest | Some _ => stdin end) (a_own a) with
      | Some input, Some cf => r <- tool_check_cert gs g gc fc junk input cf (a_prime a) ;; Ok (Some r)
      | _, _ => Ok None
      end
  end.
