(** The successive draws of the generator. *)
From Verif Require Import Base BaseFacts Spec SpecFacts Zp ZpFacts SpecSha Sha SpecPrng Prng PrngProofs DenseProofs4 RowList TriProofs EchInv.

Section draws.
Context (seed : list Z) (p seq b : Z) (Hp : ok_modulus p) (Hs : len seed = 32 /\ bytes seed) (Hb : mask_bits p b).
Local Notation wd := (prng_word seed p seq).
Local Notation at_ := (at_ seed p seq b).

(* the value drawn after n words, and the new number of words *)
Fixpoint next (fuel : nat) (n : Z) : res (Z * Z) :=
  match fuel with
  | O => Fail OutOfFuel
  | S fuel => if n <? 8 * (2 ^ 31 - 1) then
      let x := wd n mod 2 ^ b in if x <? p then Ok (bal p x, n + 1) else next fuel (n + 1)
    else Fail Overflow
  end.
Lemma next_ok g fuel n ctx : at_ n ctx -> match next fuel n with
  | Ok (v, n') => sat (prng_ZZp g fuel ctx) (fun '(v', ctx') => v' = v /\ at_ n' ctx')
  | Fail e => prng_ZZp g fuel ctx = Fail e end.
Proof.
  unfold prng_ZZp. revert n ctx. induction fuel as [|fuel IH]; intros n ctx A; cbn [next loop]; [reflexivity|].
  pose proof (u32_gen seed p seq b Hs g n ctx A) as G.
  destruct (prng_u32 g ctx) as [[x c]|e]; cbn [outs bind] in *.
  - destruct G as (Hn & -> & A'). replace (n <? _) with true by lia.
    rewrite (at_mask _ _ _ _ _ _ A'), (at_prime _ _ _ _ _ _ A'), (at_field _ _ _ _ _ _ A'), (land_mask p b Hb).
    cbv zeta. destruct (Z.ltb_spec (wd n mod 2 ^ b) p); cbn [bind].
    + cbn [sat]. split; [reflexivity|exact A'].
    + apply IH, A'.
  - destruct G as [-> ->]. rewrite Z.ltb_irrefl. reflexivity.
Qed.
Lemma next_acc fuel n v n' : next fuel n = Ok (v, n') -> n < n' /\ exists x, acc seed p seq b n n' = [x] /\ v = bal p x.
Proof.
  revert n. induction fuel as [|fuel IH]; intros n E; cbn [next] in E; [discriminate|].
  destruct (n <? _); [|discriminate]. cbv zeta in E. destruct (wd n mod 2 ^ b <? p) eqn:C.
  - injection E as <- <-. split; [lia|]. exists (wd n mod 2 ^ b). rewrite acc_one, C. auto.
  - destruct (IH _ E) as (Hn & x & Ex & ->). split; [lia|]. exists x. rewrite (acc_split seed p seq b n (n + 1)), acc_one, C by lia. auto.
Qed.
Lemma next_err fuel n e : next fuel n = Fail e -> e = OutOfFuel \/ e = Overflow.
Proof.
  revert n. induction fuel as [|fuel IH]; intros n E; cbn [next] in E; [injection E; auto|].
  destruct (n <? _); [|injection E; auto]. cbv zeta in E. destruct (wd n mod 2 ^ b <? p); [discriminate|eauto].
Qed.

Context (fuel : nat).
Fixpoint posn (k : nat) : Z :=
  match k with O => 0 | S k => match next fuel (posn k) with Ok (_, n) => n | Fail _ => posn k end end.
Definition pos (k : Z) : Z := posn (Z.to_nat k).
Definition al (k : Z) : Z := match next fuel (pos k) with Ok (v, _) => v | Fail _ => 0 end.
Definition good (k : Z) : Prop := exists r, next fuel (pos k) = Ok r.
Lemma pos_0 : pos 0 = 0.
Proof. reflexivity. Qed.
Lemma pos_S k : 0 <= k -> pos (k + 1) = match next fuel (pos k) with Ok (_, n) => n | Fail _ => pos k end.
Proof. intros. unfold pos. replace (Z.to_nat (k + 1)) with (S (Z.to_nat k)) by lia. reflexivity. Qed.

Lemma al_balanced k : balanced p (al k).
Proof.
  unfold ok_modulus in Hp. unfold al. destruct (next fuel (pos k)) as [[v n]|] eqn:E; [|apply balanced_0; lia].
  destruct (next_acc _ _ _ _ E) as (_ & x & _ & ->). apply bal_balanced. lia.
Qed.

Lemma draw_al g k ctx : 0 <= k -> at_ (pos k) ctx ->
  outs (prng_ZZp g fuel ctx) (fun '(v, ctx') => good k /\ v = al k /\ at_ (pos (k + 1)) ctx') (fun e => ~ good k /\ (e = OutOfFuel \/ e = Overflow)).
Proof.
  intros Hk A. pose proof (next_ok g fuel (pos k) ctx A) as G. rewrite pos_S by auto. unfold al, good.
  destruct (next fuel (pos k)) as [[v n]|e] eqn:E.
  - apply sat_outs. eapply sat_mono; [exact G|]. intros [v' c'] [-> A']. cbv beta. eauto.
  - rewrite G. cbn [outs]. split; [intros [r Er]; discriminate|]. eapply next_err, E.
Qed.

(* what is drawn is what is accepted in the stream *)
Lemma pos_acc k : 0 <= k -> (forall i, 0 <= i < k -> good i) -> 0 <= pos k /\ map (bal p) (acc seed p seq b 0 (pos k)) = map al (zseq 0 k).
Proof.
  intros H. pattern k. apply (range_ind _ 0 k); [| |lia].
  - intros _. split; [rewrite pos_0; lia|]. rewrite pos_0. unfold acc. rewrite !zseq_empty by lia. reflexivity.
  - intros i Hi IH G. destruct IH as [P E]; [intros; apply G; lia|]. rewrite pos_S by lia. destruct (G i) as [[v n] Ei]; [lia|]. rewrite Ei.
    destruct (next_acc _ _ _ _ Ei) as (L & x & Ex & ->). split; [lia|]. rewrite (acc_split seed p seq b 0 (pos i)) by lia. rewrite map_app, E, Ex.
    rewrite zseq_S, map_app by lia. cbn [map app]. assert (Ea : al i = bal p x) by (unfold al; now rewrite Ei). now rewrite Ea.
Qed.
Lemma acc_prefix N N' i x : 0 <= N <= N' -> nth_error (acc seed p seq b 0 N) i = Some x -> nth_error (acc seed p seq b 0 N') i = Some x.
Proof.
  intros H E. rewrite (acc_split seed p seq b 0 N) by lia. rewrite nth_error_app1; [exact E|]. apply nth_error_Some. congruence.
Qed.
Lemma al_accepted k N x : 0 <= k -> (forall i, 0 <= i <= k -> good i) ->
  nth_error (prng_accepted seed p seq b N) (Z.to_nat k) = Some x -> al k = bal p x.
Proof.
  intros Hk G E. destruct (pos_acc (k + 1)) as [P1 E1]; [lia|intros; apply G; lia|].
  change (prng_accepted seed p seq b N) with (acc seed p seq b 0 N) in E.
  assert (HN : 0 <= N). { destruct (Z_lt_le_dec N 0); [|auto]. unfold acc in E. rewrite zseq_empty in E by lia. destruct (Z.to_nat k); discriminate. }
  assert (E' : nth_error (map (bal p) (acc seed p seq b 0 (pos (k + 1)))) (Z.to_nat k) = Some (al k)).
  { rewrite E1. rewrite zseq_S, map_app, nth_error_app2 by (rewrite ?map_length; unfold zseq; rewrite ?map_length, ?seq_length; lia).
    rewrite map_length. unfold zseq. rewrite map_length, seq_length. replace (Z.to_nat k - Z.to_nat (k - 0))%nat with O by lia. reflexivity. }
  rewrite nth_error_map in E'. destruct (nth_error (acc seed p seq b 0 (pos (k + 1))) (Z.to_nat k)) as [y|] eqn:Ey; [|discriminate].
  injection E' as <-. f_equal.
  destruct (Z_le_gt_dec N (pos (k + 1))).
  - rewrite (acc_prefix N (pos (k + 1))) with (x := x) in Ey by (auto; lia). congruence.
  - rewrite (acc_prefix (pos (k + 1)) N) with (x := y) in E by (auto; lia). congruence.
Qed.
End draws.
