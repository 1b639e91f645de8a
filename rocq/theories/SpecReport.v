(** The description of the parts of a matrix that the dm tool prints. *)
From Coq Require Import String.
From Verif Require Import Base Spec SpecText SpecTools SpecParts.
Local Open Scope string_scope.
Local Open Scope list_scope.
Local Open Scope Z_scope.

(* a piece of text: characters, a number, the end of a line *)
Inductive piece := Chars (s : string) | Number (z : Z) | EndLine.
Inductive renders : list piece -> list Z -> Prop :=
| renders_nil : renders [] []
| renders_chars s ps f : renders ps f -> renders (Chars s :: ps) (chars s ++ f)
| renders_number z t ps f : numeral t z -> renders ps f -> renders (Number z :: ps) (t ++ f)
| renders_end ps f : renders ps f -> renders (EndLine :: ps) (NL :: f).
(* a line with the dimensions of a part, unless it has no row or no column *)
Definition dims_line (name : string) (a b : Z) (tail : string) : list piece :=
  if (0 <? a) && (0 <? b) then [Chars "*) "; Chars name; Chars " ("; Number a; Chars " x "; Number b; Chars ")"; Chars tail; EndLine] else [].
(* the sizes of the blocks, except those of size 1, which are counted *)
Definition block_lines (sizes : list Z) : list piece :=
  flat_map (fun z => if z =? 1 then [] else [Chars "    *) SCC of size "; Number z; EndLine]) sizes ++
  (let t := len (filter (fun z => z =? 1) sizes) in if 0 <? t then [Chars "    -> plus "; Number t; Chars " SCC of size 1"; EndLine] else []).
(* structural rank k; the parts have dimensions hn x hm, s x s and vn x vm; sizes of the blocks of the square part *)
Definition report (k hn hm s : Z) (sizes : list Z) (vn vm : Z) : list piece :=
  [Chars "structural rank = "; Number k; EndLine] ++ dims_line "H" hn hm "" ++ dims_line "S" s s " : " ++ block_lines sizes ++ dims_line "V" vn vm "".
(* exactly k numbers have the property P *)
Definition many (k : Z) (P : Z -> Prop) : Prop := exists l, NoDup l /\ len l = k /\ forall i, In i l <-> P i.
(* the blocks partition the rows of the square part: rows are in the same block when they are linked; the rows of
   a block do not meet the columns of the previous ones *)
Definition blocks_of (n m : Z) (R : Z -> Z -> Prop) (bs : list (list Z)) : Prop :=
  Forall (fun b => b <> []) bs /\ NoDup (concat bs) /\ (forall i, In i (concat bs) <-> sqrow n m R i) /\
  (forall i i', sqrow n m R i -> (linked n m R i i' <-> exists b, In b bs /\ In i b /\ In i' b)) /\
  (forall t u i i' j, (t < u)%nat -> In i (nth t bs []) -> In i' (nth u bs []) -> usable n m R i j -> ~ R i' j).
