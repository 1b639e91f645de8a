(** The types of dense matrices hold the elements of the field exactly. *)
From Verif Require Import Base BaseFacts Spec SpecFacts Zp ZpFacts ZZp ZZpFacts RowList Mat Dense Datatype.
From Flocq Require Import Core BinarySingleNaN.
From Coq Require Import Reals Lra.
Local Open Scope Z_scope.

(* integers below 2^prec are exact *)
Section EXACT.
Variables prec emax : Z.
Context (Hp : Prec_gt_0 prec) (He : Prec_lt_emax prec emax).
Hypothesis H2 : 2 <= prec.
Lemma int_exact x : Z.abs x < 2 ^ prec ->
  let f := binary_normalize prec emax Hp He mode_NE x 0 false in is_finite f = true /\ Btrunc f = x.
Proof.
  intros Hx f. pose proof (binary_normalize_correct prec emax Hp He mode_NE x 0 false) as H. fold f in H. cbv zeta in H.
  assert (E : F2R (Float radix2 x 0) = IZR x) by (unfold F2R; simpl; lra). rewrite E in H.
  assert (G : generic_format radix2 (SpecFloat.fexp prec emax) (IZR x)).
  { change (SpecFloat.fexp prec emax) with (FLT_exp (3 - emax - prec) prec). apply generic_format_FLT. exists (Float radix2 x 0); [unfold F2R; simpl; lra|exact Hx|]. assert (He2 : prec < emax) by exact He. cbn [Fexp]. clear - H2 He2. lia. }
  rewrite round_generic in H; [|typeclasses eauto|exact G].
  rewrite Rlt_bool_true in H.
  - destruct H as (H3 & H4 & _). split; [exact H4|]. pose proof (Btrunc_correct prec emax He f) as Ht.
    assert (E' : IZR (Btrunc f) = IZR x). { rewrite Ht, H3. rewrite round_generic; [reflexivity|typeclasses eauto|]. apply generic_format_FIX. exists (Float radix2 x 0); [unfold F2R; simpl; lra|reflexivity]. }
    now apply eq_IZR.
  - rewrite <- abs_IZR. apply Rlt_trans with (IZR (2 ^ prec)); [now apply IZR_lt|].
    change (2 ^ prec) with (Zpower radix2 prec). rewrite IZR_Zpower by lia. apply bpow_lt. exact He.
Qed.
End EXACT.
Lemma f_exact x : Z.abs x < 2 ^ 24 -> is_finite (f_of_int x) = true /\ Btrunc (f_of_int x) = x.
Proof. apply (int_exact 24 128 Hprec32 Hemax32). lia. Qed.
Lemma d_exact x : Z.abs x < 2 ^ 53 -> is_finite (d_of_int x) = true /\ Btrunc (d_of_int x) = x.
Proof. apply (int_exact 53 1024 Hprec Hemax). lia. Qed.

Definition fits (dt : datatype) (z : Z) : Prop :=
  Z.abs z < match dt with SPASM_FLOAT => 2 ^ 24 | SPASM_DOUBLE => 2 ^ 53 | SPASM_I64 => 2 ^ 63 end.
Lemma fits_read A i dt v : 0 <= i < len A -> getd (Ci 0) A i = cell_of dt v -> fits dt v -> - 2 ^ 31 <= v < 2 ^ 31 ->
  datatype_read A i dt = Ok v.
Proof.
  intros Hi E Hf Hv. unfold datatype_read, inb. replace ((0 <=? i) && (i <? len A)) with true by lia. rewrite E.
  destruct dt; cbn [cell_of fits] in *.
  - destruct (d_exact v Hf) as [-> ->]. unfold i32_of. replace ((- 2 ^ 31 <=? v) && (v <? 2 ^ 31)) with true by lia. reflexivity.
  - destruct (f_exact v Hf) as [-> ->]. unfold i32_of. replace ((- 2 ^ 31 <=? v) && (v <? 2 ^ 31)) with true by lia. reflexivity.
  - unfold to_i32. rewrite Z.mod_small by lia. f_equal. lia.
Qed.
Lemma choose_axpy p a x y : ok_modulus p -> balanced p a -> balanced p x -> balanced p y -> fits (datatype_choose p) (a * x + y).
Proof.
  unfold ok_modulus, balanced, datatype_choose. intros Hp Ha Hx Hy.
  assert (Hh : forall h, p / 2 <= h -> Z.abs (a * x + y) <= h * h + h).
  { intros h Hh. assert (Z.abs a <= h /\ Z.abs x <= h /\ Z.abs y <= h) by (Z.div_mod_to_equations; lia).
    pose proof (Z.abs_triangle (a * x) y). rewrite Z.abs_mul in *.
    assert (Z.abs a * Z.abs x <= h * h) by (apply Z.mul_le_mono_nonneg; lia). lia. }
  destruct (Z.leb_spec p 8191); [|destruct (Z.leb_spec p 189812531)]; unfold fits.
  - specialize (Hh 4095 ltac:(Z.div_mod_to_equations; lia)). lia.
  - specialize (Hh 94906265 ltac:(Z.div_mod_to_equations; lia)). lia.
  - specialize (Hh (2 ^ 31) ltac:(Z.div_mod_to_equations; lia)). lia.
Qed.

Lemma balanced_fits p v : ok_modulus p -> balanced p v -> fits (datatype_choose p) v /\ - 2 ^ 31 <= v < 2 ^ 31.
Proof.
  intros Hp Hv. pose proof (choose_axpy p 0 0 v Hp) as H. unfold ok_modulus, balanced in *. replace (0 * 0 + v) with v in H by lia.
  split; [apply H|]; Z.div_mod_to_equations; lia.
Qed.
Lemma map_upd {A B} (f : A -> B) l i v : map f (upd l i v) = upd (map f l) i (f v).
Proof.
  unfold upd. destruct (i <? 0); [reflexivity|]. generalize (Z.to_nat i). intros k. clear i. revert k. induction l as [|a l IH]; intros [|k]; cbn; try reflexivity. now rewrite IH.
Qed.
Lemma len_map' {A B} (f : A -> B) l : len (map f l) = len l.
Proof. unfold len. now rewrite map_length. Qed.
(* the typed matrix is the matrix of integers, written in its type *)
Lemma gather_sim n xj x dt S off : 
  gather_typed n xj x (map (cell_of dt) S) off dt = match gather n xj x S off with Ok S' => Ok (map (cell_of dt) S') | Fail e => Fail e end.
Proof.
  unfold gather_typed, gather, for_. generalize (Z.to_nat (n - 0)). intros k. generalize 0. revert S. induction k as [|k IH]; intros S lo; cbn [for_nat]; [reflexivity|].
  destruct (aget xj lo) as [j|]; [|reflexivity]. cbn [bind]. destruct (aget x j) as [v|]; [|reflexivity]. cbn [bind].
  unfold datatype_write, aset, inb. rewrite len_map'. destruct ((0 <=? off + lo) && (off + lo <? len S)); [|reflexivity]. cbn [bind].
  rewrite <- map_upd. apply IH.
Qed.
Lemma write_read p A i v : ok_modulus p -> balanced p v -> 0 <= i < len A ->
  sat (datatype_write A i (datatype_choose p) v) (fun A' => len A' = len A /\ datatype_read A' i (datatype_choose p) = Ok v /\
    forall j, j <> i -> getd (Ci 0) A' j = getd (Ci 0) A j).
Proof.
  intros Hp Hv Hi. destruct (balanced_fits p v Hp Hv) as [Hf Hr]. unfold datatype_write. rewrite aset_ok by lia. cbn [sat]. rewrite len_upd. split; [lia|]. split.
  - apply fits_read; auto; [rewrite len_upd; lia|]. now apply getd_upd_eq.
  - intros j Hj. apply getd_upd_ne. lia.
Qed.
Lemma gather_read p n xj x A off : ok_modulus p -> 0 <= n -> n <= len xj -> (forall k, 0 <= k < n -> 0 <= get xj k < len x) ->
  (forall j, 0 <= j < len x -> balanced p (get x j)) -> 0 <= off -> off + n <= len A ->
  sat (gather_typed n xj x A off (datatype_choose p)) (fun A' => len A' = len A /\
    (forall k, 0 <= k < n -> datatype_read A' (off + k) (datatype_choose p) = Ok (get x (get xj k))) /\
    forall j, j < off \/ off + n <= j -> getd (Ci 0) A' j = getd (Ci 0) A j).
Proof.
  intros Hp Hn Hxj Hj Hx Ho HA. unfold gather_typed.
  apply (for_spec (fun n A' => len A' = len A /\ (forall k, 0 <= k < n -> getd (Ci 0) A' (off + k) = cell_of (datatype_choose p) (get x (get xj k))) /\
    forall j, j < off \/ off + n <= j -> getd (Ci 0) A' j = getd (Ci 0) A j)); [lia|split; [auto|split; [lia|auto]]| |].
  - intros k A' Hk (I1 & I2 & I3). specialize (Hj k Hk) as Hjk. rewrite aget_ok by lia. cbn [bind]. rewrite aget_ok by lia. cbn [bind].
    unfold datatype_write. rewrite aset_ok by lia. cbn [sat]. rewrite len_upd. split; [lia|]. split.
    + intros k' Hk'. destruct (Z.eq_dec k' k) as [->|]; [apply getd_upd_eq; lia|]. rewrite getd_upd_ne by lia. apply I2. lia.
    + intros j' Hj'. rewrite getd_upd_ne by lia. apply I3. lia.
  - intros A' (I1 & I2 & I3). split; [auto|]. split; [|auto]. intros k Hk. specialize (Hj k Hk). specialize (Hx _ Hj).
    destruct (balanced_fits p _ Hp Hx) as [Hf Hr]. apply fits_read; auto; lia.
Qed.
