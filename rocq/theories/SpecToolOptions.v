(** Command lines of echelonize, check_cert, dm and bitmap: what they ask for. *)
From Coq Require Import String.
From Verif Require Import Base Spec SpecText Echelonize Options SpecOptions.
Local Open Scope string_scope.
Local Open Scope list_scope.
Local Open Scope Z_scope.

(* the item is not an option, or one of these options, with an argument if there must be one *)
Definition allowed (os : list opt) (it : item) : Prop := match it with Plain _ => True | _ => proper os it end.
(* the arguments of these options are integers that fit *)
Definition ints (os : list opt) (cmd : list item) : Prop :=
  forall it o a, In it cmd -> In o os -> isopt o it = true -> item_arg it = Some a -> exists z, numeral a z /\ int32 z.

(* echelonize: no letters *)
Definition e_modulus : opt := ("modulus", None, true).
Definition e_rref : opt := ("rref", None, false).
Definition e_nogreedy : opt := ("no-greedy-pivot-search", None, false).
Definition e_weight : opt := ("low-rank-start-weight", None, true).
Definition e_opts : list opt := [e_modulus; e_rref; e_nogreedy; o_nolow; o_block; e_weight; ("sparsity-threshold", None, true)].

(* dm: the mode is the last one given *)
Definition d_permuted : opt := ("permuted", None, false).
Definition d_verbose : opt := ("verbose", None, false).
Definition d_tabulated : opt := ("tabulated", None, false).
Definition d_image : opt := ("image", None, true).
Definition d_opts : list opt := [d_permuted; d_verbose; d_tabulated; d_image].
Definition chosen (cmd : list item) (o : opt) : Prop :=
  exists before it after, cmd = before ++ it :: after /\ isopt o it = true /\ forall it' o', In it' after -> In o' d_opts -> isopt o' it' = false.

(* bitmap *)
Definition b_gray : opt := ("gray", None, false).
Definition b_width : opt := ("width", None, true).
Definition b_height : opt := ("height", None, true).
Definition b_mpixels : opt := ("mpixels", None, true).
Definition b_opts : list opt := [b_gray; b_width; b_height; b_mpixels].

(* check_cert *)
Definition k_cert : opt := ("certificate", letter "c", true).
Definition k_opts : list opt := [k_cert; o_matrix; o_modulus].
