(** Command lines: the documented options and what a command line asks for. *)
From Coq Require Import String.
From Verif Require Import Base Spec SpecText Echelonize Options.
Local Open Scope string_scope.
Local Open Scope list_scope.
Local Open Scope Z_scope.

(* an option: its name, its letter, whether it has an argument *)
Definition opt : Type := (string * option Z * bool)%type.
Definition letter (s : string) : option Z := hd_error (chars s).
Definition o_matrix : opt := ("matrix", letter "m", true).
Definition o_modulus : opt := ("modulus", letter "p", true).
Definition o_nolow : opt := ("no-low-rank-mode", None, false).
Definition o_nodense : opt := ("no-dense-mode", None, false).
Definition o_noGPLU : opt := ("no-GPLU", None, false).
Definition o_iter : opt := ("max-iterations", None, true).
Definition o_block : opt := ("dense-block-size", None, true).
Definition o_output : opt := ("output", letter "o", true).
(* the options of the three programs *)
Definition common : list opt :=
  [o_matrix; o_modulus; o_nolow; o_nodense; o_noGPLU; o_iter; ("dense-threshold", None, true); ("min-pivot-proportion", None, true);
   o_block; ("min-rank-ratio", None, true); ("max-aspect-ratio", None, true); o_output].
Definition o_notrans : opt := ("no-transpose", letter "t", false).
Definition o_cert : opt := ("certificate", letter "c", false).
Definition o_left : opt := ("left", letter "l", false).
Definition o_rhs : opt := ("rhs", letter "r", true).

(* the item is this option *)
Definition isopt (o : opt) (it : item) : bool :=
  let '(name, c, _) := o in
  match it with Long s _ => String.eqb s name | Short c' _ => match c with Some c => c =? c' | None => false end | Plain _ => false end.
(* the item is one of these options, with an argument if there must be one *)
Definition proper (os : list opt) (it : item) : Prop := exists o, In o os /\ isopt o it = true /\ (snd o = true <-> exists a, item_arg it = Some a).
Definition given (o : opt) (cmd : list item) : Prop := exists it, In it cmd /\ isopt o it = true.
(* the argument of the last occurrence *)
Fixpoint last_arg (o : opt) (cmd : list item) : option (list Z) :=
  match cmd with
  | [] => None
  | it :: cmd => match last_arg o cmd with Some a => Some a | None => if isopt o it then item_arg it else None end
  end.
(* v is the value of a numerical option: the default value, or the number that is the argument *)
Definition value (o : opt) (cmd : list item) (dflt v : Z) : Prop := match last_arg o cmd with None => v = dflt | Some a => numeral a v end.
(* the arguments that should be integers are integers that fit *)
Definition numeric (cmd : list item) : Prop := forall it a, In it cmd -> item_arg it = Some a ->
  (isopt o_modulus it = true -> exists z, numeral a z /\ int64 z) /\ (isopt o_iter it = true \/ isopt o_block it = true -> exists z, numeral a z /\ int32 z).
(* f is the file to read: the standard input, or the file of this name *)
Definition reads (o : opt) (fs : list Z -> option (list Z)) (stdin : list Z) (cmd : list item) (f : list Z) : Prop :=
  match last_arg o cmd with None => f = stdin | Some name => fs name = Some f end.
(* the arguments a are what the command line asks for: common part *)
Definition asked {T} (cmd : list item) (a : args T) : Prop :=
  a_file a = last_arg o_matrix cmd /\ value o_modulus cmd 42013 (a_prime a) /\
  (let o := a_opts a in
   (o_tall o = false <-> given o_nolow cmd) /\ (o_dense o = false <-> given o_nodense cmd) /\ (o_GPLU o = false <-> given o_noGPLU cmd) /\
   value o_iter cmd 3 (o_rounds o) /\ value o_block cmd 1000 (o_blk o) /\ o_greedy o = true /\ o_L o = false /\ o_complete o = false /\ o_w0 o = -1).
