(** The programs rank, kernel and solve, from the command line to the result. *)
From Coq Require Import String Znumtheory ZifyBool.
From Verif Require Import Base BaseFacts Spec SpecFacts SpecText SpecElim SpecRank SpecSha SpecCert SpecTools TextChecks Checks Zp Mat Reach Par Schur DenseProofs Dense DenseProofs4 Echelonize EchProofs EchProofs2 Cert ToolsElim ToolsElimProofs Options SpecOptions OptionsProofs.
Local Open Scope string_scope.
Local Open Scope list_scope.
Local Open Scope Z_scope.

Lemma numeral_fun s a b : numeral s a -> numeral s b -> a = b.
Proof.
  intros H1 H2. assert (D : forall c d, Forall is_digit (c :: d) -> c <> 43 /\ c <> 45). { intros c d F. inversion F as [|? ? Hc]; subst. unfold is_digit in Hc. lia. }
  inversion H1 as [d N1 F1|d N1 F1|d N1 F1]; subst; inversion H2 as [d' N2 F2|d' N2 F2|d' N2 F2]; subst; auto;
  match goal with F : Forall is_digit (43 :: _) |- _ => apply D in F; tauto | F : Forall is_digit (45 :: _) |- _ => apply D in F; tauto | _ => auto end.
Qed.
Lemma value_fun o cmd d a b : value o cmd d a -> value o cmd d b -> a = b.
Proof. unfold value. destruct (last_arg o cmd); [apply numeral_fun|congruence]. Qed.
Lemma reads_ok fs stdin cmd o f : reads o fs stdin cmd f -> read_from fs stdin (last_arg o cmd) = Some f.
Proof. unfold reads, read_from. destruct (last_arg o cmd); [auto|congruence]. Qed.

(* checks, for the examples *)
Definition fitsb (bits : Z) (a : list Z) : bool := match numeralb a with Some z => (- 2 ^ bits <=? z) && (z <? 2 ^ bits) | None => false end.
Definition numericb (cmd : list item) : bool := forallb (fun it => match item_arg it with None => true | Some a =>
  (negb (isopt o_modulus it) || fitsb 63 a) && (negb (isopt o_iter it || isopt o_block it) || fitsb 31 a) end) cmd.
Lemma numericb_ok cmd : numericb cmd = true -> numeric cmd.
Proof.
  intros H i a I E. unfold numericb in H. rewrite forallb_forall in H. specialize (H i I). rewrite E in H. apply andb_prop in H. destruct H as [H1 H2].
  assert (F : forall bits, fitsb bits a = true -> exists z, numeral a z /\ - 2 ^ bits <= z < 2 ^ bits).
  { intros bits F. unfold fitsb in F. destruct (numeralb a) as [z|] eqn:Ez; [|discriminate]. exists z. split; [now apply numeralb_ok|lia]. }
  split.
  - intros M. rewrite M in H1. apply (F 63), H1.
  - intros M. replace (isopt o_iter i || isopt o_block i) with true in H2 by (destruct M as [-> | ->]; [reflexivity|now rewrite orb_true_r]). apply (F 31), H2.
Qed.
Lemma prime_sqrt p s : 1 < p -> 0 <= s -> p < (s + 1) * (s + 1) -> allz 2 (s + 1) (fun d => negb (p mod d =? 0)) = true -> prime p.
Proof.
  intros Hp H0 Hs H. apply prime_alt. split; [lia|]. intros n Hn (q & Hq). assert (D : forall d, 2 <= d < s + 1 -> ~ (d | p)).
  { intros d Hd Dd. pose proof (allz_spec _ _ _ H d Hd) as G. cbv beta in G. apply Z.mod_divide in Dd; [|lia]. rewrite Dd in G. discriminate G. }
  destruct (Z_lt_le_dec n (s + 1)) as [L|L]; [apply (D n); [lia|now exists q]|]. assert (q < s + 1) by nia. assert (1 < q) by nia. apply (D q); [lia|]. exists n. lia.
Qed.
Lemma given_dec o cmd : existsb (isopt o) cmd = false -> ~ given o cmd.
Proof. intros H G. apply given_ok in G. congruence. Qed.

Section tools.
Context (fs : list Z -> option (list Z)) (stdin : list Z) (cmd : list item) (p blk it : Z).
Context (HN : numeric cmd) (Hv : value o_modulus cmd 42013 p) (Hmod : ok_modulus p) (Hp : prime p) (Hb : value o_block cmd 1000 blk) (Hblk : 0 < blk) (Hi : value o_iter cmd 3 it).

Lemma asked_opts {T} (a : args T) : asked cmd a -> a_file a = last_arg o_matrix cmd /\ a_prime a = p /\ o_blk (a_opts a) = blk /\ o_rounds (a_opts a) = it /\
  (o_tall (a_opts a) = false <-> given o_nolow cmd) /\ (o_dense (a_opts a) = false <-> given o_nodense cmd) /\ (o_GPLU (a_opts a) = false <-> given o_noGPLU cmd) /\
  o_L (a_opts a) = false /\ o_complete (a_opts a) = false.
Proof.
  intros (A1 & A2 & A3 & A4 & A5 & A6 & A7 & _ & A8 & A9 & _). split; [auto|]. split; [now apply (value_fun o_modulus cmd 42013)|]. split; [now apply (value_fun o_block cmd 1000)|]. split; [now apply (value_fun o_iter cmd 3)|]. tauto.
Qed.

(* without certificate *)
Theorem main_rank_ok gs g X fuel gc fc f n m es (tr : bool) : Forall (proper ([o_notrans; o_cert] ++ common)) cmd -> ~ given o_cert cmd -> (tr = false <-> given o_notrans cmd) ->
  reads o_matrix fs stdin cmd f -> matrix_file f n m es -> no_cancel p es ->
  let N := if turned tr n m then m else n in let M := if turned tr n m then n else m in params_ok X p M ->
  outs (main_rank gs g X fuel gc fc fs stdin cmd) (fun x => exists r, x = Some (r, None, last_arg o_output cmd) /\ 0 <= r /\ (forall r', frank p n m (fmat es) r' -> r <= r') /\
      (given o_nolow cmd -> ~ given o_nodense cmd -> always_dense X -> frank p n m (fmat es) r))
    (fun e => ~ given o_nolow cmd /\ (e = OutOfFuel \/ e = Overflow) \/ e = Overflow /\ 0 < it /\ M < N).
Proof.
  intros HF HC Htr HR HM HNC N M HX. unfold main_rank. pose proof (parse_rank_ok cmd HN) as P. destruct (parse_rank cmd) as [[a|]|e]; [| |contradiction]; cbn [bind]; [|contradiction].
  destruct P as (_ & A & tr' & ce & -> & Htr' & Hce). assert (tr' = tr) as -> by (destruct tr, tr'; intuition congruence). assert (ce = false) as -> by (destruct ce; intuition congruence).
  destruct (asked_opts a A) as (E1 & E2 & E3 & E4 & E5 & E6 & E7 & E8 & E9). rewrite E1, E2, (reads_ok _ _ _ _ _ HR).
  assert (Hw : wantsL (a_opts a) = false) by (unfold wantsL; rewrite E8, E9; reflexivity).
  apply outs_bind. pose proof (tool_rank_ok gs g X fuel (a_opts a) gc fc tr f n m es p Hmod Hp HM HNC HX) as S. cbv zeta in S. fold N M in S.
  assert (Hgood : good_opts X (a_opts a)) by (split; [lia|auto]). specialize (S Hgood). destruct (tool_rank _ _ _ _ _ _ _ _ _ _ _) as [[r c]|e]; cbn [outs] in S |- *.
  - destruct S as (-> & S1 & S2 & S3). exists r. split; [auto|]. split; [auto|]. split; [auto|]. intros G1 G2 G3. apply S3. split; [unfold low_rank; apply E5 in G1; now rewrite G1|].
    left. split; [|auto]. destruct (o_dense (a_opts a)); [auto|]. exfalso. apply G2, E6. auto.
  - destruct S as [[S1 S2]|(-> & S1 & S2)]; [left|right]. { split; [|auto]. rewrite <- E5. unfold low_rank in S1. destruct (o_tall (a_opts a)); [congruence|discriminate S1]. } rewrite <- E4. auto.
Qed.
(* with a certificate *)
Theorem main_rank_cert gs g X fuel gc fc f n m es (tr : bool) : Forall (proper ([o_notrans; o_cert] ++ common)) cmd -> given o_cert cmd -> (tr = false <-> given o_notrans cmd) ->
  reads o_matrix fs stdin cmd f -> matrix_file f n m es -> no_cancel p es -> given o_nodense cmd -> ~ given o_noGPLU cmd ->
  let M := if turned tr n m then n else m in params_ok X p M ->
  outs (main_rank gs g X fuel gc fc fs stdin cmd) (fun x => exists r proof A, x = Some (r, Some (proof, true), last_arg o_output cmd) /\ frank p n m (fmat es) r /\
      c_r proof = r /\ c_hash proof = sha256 f /\ (if turned tr n m then holds p m n (swapped es) A else holds p n m es A) /\ forall gs', rank_verify gs' fc A (sha256 f) proof = Ok true)
    (fun e => e = OutOfFuel \/ e = Overflow).
Proof.
  intros HF HC Htr HR HM HNC HD HG M HX. unfold main_rank. pose proof (parse_rank_ok cmd HN) as P. destruct (parse_rank cmd) as [[a|]|e]; [| |contradiction]; cbn [bind]; [|contradiction].
  destruct P as (_ & A & tr' & ce & -> & Htr' & Hce). assert (tr' = tr) as -> by (destruct tr, tr'; intuition congruence). assert (ce = true) as -> by intuition.
  destruct (asked_opts a A) as (E1 & E2 & E3 & E4 & E5 & E6 & E7 & E8 & E9). rewrite E1, E2, (reads_ok _ _ _ _ _ HR).
  apply outs_bind. pose proof (tool_rank_cert gs g X fuel (a_opts a) gc fc tr f n m es p Hmod Hp HM HNC HX) as S.
  assert (Hgood : good_opts X (with_L (a_opts a))). { split; [cbn [with_L o_blk]; lia|]. right; right; left. now apply E6. }
  assert (Hfin : finishes X (a_opts a)). { right. destruct (o_GPLU (a_opts a)); [auto|exfalso; apply HG, E7; auto]. }
  specialize (S Hgood Hfin).
  destruct (tool_rank _ _ _ _ _ _ _ _ _ _ _) as [[r c]|e]; cbn [outs] in S |- *; [|auto].
  destruct S as (S1 & proof & B & -> & S2). exists r, proof, B. split; [auto|]. split; auto.
Qed.

Theorem main_kernel_ok gs g X fuel ch scr f n m es (lf : bool) : Forall (proper (o_left :: common)) cmd -> (lf = true <-> given o_left cmd) ->
  reads o_matrix fs stdin cmd f -> matrix_file f n m es -> no_cancel p es -> given o_nolow cmd -> ~ given o_nodense cmd -> always_dense X ->
  let N := if lf then m else n in let M := if lf then n else m in params_ok X p M -> (forall k t, 0 <= k -> scr_ok k (scr k t)) ->
  outs (main_kernel gs g X fuel ch scr fs stdin cmd) (fun x => exists f' k es', x = Some (f', last_arg o_output cmd) /\ written f' k M es' /\ (3 <= p -> clean p es') /\
      frank p N M (flipped lf (fmat es)) (M - k) /\ nullbasis p N M (flipped lf (fmat es)) k (fmat es'))
    (fun e => e = Overflow /\ 0 < it /\ M < N).
Proof.
  intros HF Hlf HR HM HNC HL HD HA N M HX HS. unfold main_kernel. pose proof (parse_kernel_ok cmd HN) as P. destruct (parse_kernel cmd) as [[a|]|e]; [| |contradiction]; cbn [bind]; [|contradiction].
  destruct P as (_ & A & lf' & -> & Hlf'). assert (lf' = lf) as -> by (destruct lf, lf'; intuition congruence).
  destruct (asked_opts a A) as (E1 & E2 & E3 & E4 & E5 & E6 & E7 & E8 & E9). rewrite E1, E2, (reads_ok _ _ _ _ _ HR).
  assert (Hw : wantsL (a_opts a) = false) by (unfold wantsL; rewrite E8, E9; reflexivity).
  assert (Hgood : good_opts X (a_opts a)) by (split; [lia|auto]).
  apply outs_bind. pose proof (tool_kernel_ok gs g X fuel (a_opts a) ch scr lf f n m es p Hmod Hp HM HNC HX Hgood) as S. cbv zeta in S. fold N M in S.
  assert (Hfull : full X (a_opts a)). { split; [unfold low_rank; apply E5 in HL; now rewrite HL|]. left. split; [|auto]. destruct (o_dense (a_opts a)); [auto|]. exfalso. apply HD, E6. auto. }
  specialize (S Hfull HS). destruct (tool_kernel _ _ _ _ _ _ _ _ _ _) as [f'|e]; cbn [outs] in S |- *.
  - destruct S as (k & es' & S). exists f', k, es'. split; [auto|exact S].
  - destruct S as (-> & S1 & S2). rewrite <- E4. auto.
Qed.

Theorem main_solve_ok gs g g' X fuel ch w rest f n m es fb nb esb : Forall (proper (o_rhs :: common)) cmd ->
  reads o_matrix fs stdin cmd f -> matrix_file f n m es -> no_cancel p es ->
  reads o_rhs fs (match last_arg o_matrix cmd with None => rest | Some _ => stdin end) cmd fb -> matrix_file fb nb m esb -> no_cancel p esb ->
  given o_nodense cmd -> ~ given o_noGPLU cmd -> params_ok X p m ->
  outs (main_solve gs g g' X fuel ch w fs stdin rest cmd) (fun x => exists f' warn es', x = Some (f', warn, last_arg o_output cmd) /\ written f' nb n es' /\ clean p es' /\
      lists warn (fun i => 0 <= i < nb /\ ~ rowsp p n m (fmat es) (fmat esb i)) /\
      forall i, 0 <= i < nb -> rowsp p n m (fmat es) (fmat esb i) -> forall j, 0 <= j < m -> cong p (sum 0 n (fun k => fmat es' i k * fmat es k j)) (fmat esb i j))
    (fun e => e = Overflow /\ 0 < it /\ m < n).
Proof.
  intros HF HR HM HNC HRb HMb HNCb HD HG HX. unfold main_solve. pose proof (parse_solve_ok cmd HN) as P. destruct (parse_solve cmd) as [[a|]|e]; [| |contradiction]; cbn [bind]; [|contradiction].
  destruct P as (_ & A & ->). destruct (asked_opts a A) as (E1 & E2 & E3 & E4 & E5 & E6 & E7 & E8 & E9). rewrite E1, E2, (reads_ok _ _ _ _ _ HR), (reads_ok _ _ _ _ _ HRb).
  apply outs_bind. pose proof (tool_solve_ok gs g g' X fuel (a_opts a) ch w f n m es fb nb esb p Hmod Hp HM HNC HMb HNCb HX) as S.
  assert (Hgood : good_opts X (with_L (a_opts a))). { split; [cbn [with_L o_blk]; lia|]. right; right; left. now apply E6. }
  assert (Hfin : finishes X (a_opts a)). { right. destruct (o_GPLU (a_opts a)); [auto|exfalso; apply HG, E7; auto]. }
  specialize (S Hgood Hfin).
  destruct (tool_solve _ _ _ _ _ _ _ _ _ _ _) as [[f' warn]|e]; cbn [outs] in S |- *.
  - destruct S as (es' & S). exists f', warn, es'. split; [auto|exact S].
  - destruct S as (-> & S1 & S2). rewrite <- E4. auto.
Qed.
End tools.
