(** Reading and writing text. *)
From Verif Require Import Base BaseFacts Spec SpecText Zp Mat SpecSha ShaHash Sha ShaCtx Stdio IO.

Lemma isspace_spec c : isspace c = true <-> is_space c.
Proof. unfold isspace, is_space. lia. Qed.
Lemma isdigit_spec c : isdigit c = true <-> is_digit c.
Proof. unfold isdigit, is_digit. lia. Qed.
Lemma digit_space c : is_digit c -> isspace c = false.
Proof. unfold is_digit, isspace. lia. Qed.

(** ** Scanning *)
Lemma skip_space_app w s : spaces w -> skip_space (w ++ s) = skip_space s.
Proof. induction 1 as [|c w Hc _ IH]; [reflexivity|]. cbn [app skip_space]. apply isspace_spec in Hc. now rewrite Hc. Qed.
Lemma skip_space_stop c s : isspace c = false -> skip_space (c :: s) = c :: s.
Proof. intros H. cbn [skip_space]. now rewrite H. Qed.
Lemma scan_digits_app v d r : Forall is_digit d -> starts_digit r = false -> scan_digits v (d ++ r) = (fold_left (fun v c => 10 * v + (c - 48)) d v, r).
Proof.
  intros Hd Hr. revert v. induction Hd as [|c d Hc _ IH]; intros v; cbn [app scan_digits fold_left].
  - destruct r as [|c r]; [reflexivity|]. cbn [scan_digits]. cbn [starts_digit] in Hr. now rewrite Hr.
  - apply isdigit_spec in Hc. rewrite Hc. apply IH.
Qed.
Lemma scan_numeral bits w s r z : spaces w -> numeral s z -> starts_digit r = false -> - 2 ^ bits <= z < 2 ^ bits ->
  scan_int bits (w ++ s ++ r) = Ok (Some z, r).
Proof.
  intros Hw Hs Hr Hz. unfold scan_int. rewrite skip_space_app by auto. destruct Hs as [d Hd Hd'|d Hd Hd'|d Hd Hd'].
  - destruct d as [|c d]; [congruence|]. inversion Hd' as [|? ? Hc _]; subst. cbn [app]. rewrite skip_space_stop by (now apply digit_space).
    replace (c =? 45) with false by (unfold is_digit in Hc; lia). replace (c =? 43) with false by (unfold is_digit in Hc; lia).
    change (starts_digit (c :: d ++ r)) with (isdigit c). rewrite (proj2 (isdigit_spec c) Hc). cbn [negb].
    change (c :: d ++ r) with ((c :: d) ++ r). rewrite scan_digits_app by auto. fold (number (c :: d)). replace (_ && _) with true by lia. reflexivity.
  - cbn [app]. rewrite skip_space_stop by reflexivity. change (43 =? 45) with false. change (43 =? 43) with true. cbn iota.
    destruct d as [|c d]; [congruence|]. inversion Hd' as [|? ? Hc _]; subst.
    change (starts_digit ((c :: d) ++ r)) with (isdigit c). rewrite (proj2 (isdigit_spec c) Hc). cbn [negb].
    rewrite scan_digits_app by auto. fold (number (c :: d)). replace (_ && _) with true by lia. reflexivity.
  - cbn [app]. rewrite skip_space_stop by reflexivity. change (45 =? 45) with true. cbn iota.
    destruct d as [|c d]; [congruence|]. inversion Hd' as [|? ? Hc _]; subst.
    change (starts_digit ((c :: d) ++ r)) with (isdigit c). rewrite (proj2 (isdigit_spec c) Hc). cbn [negb].
    rewrite scan_digits_app by auto. fold (number (c :: d)). replace (_ && _) with true by lia. reflexivity.
Qed.
Lemma spaces_starts w s : spaces w -> w <> [] -> starts_digit (w ++ s) = false.
Proof. intros H Hw. destruct w as [|c w]; [congruence|]. inversion H as [|? ? Hc _]; subst. cbn. destruct (isdigit c) eqn:E; [|auto]. apply isdigit_spec, digit_space in E. apply isspace_spec in Hc. congruence. Qed.
Lemma spaces_starts' w : spaces w -> starts_digit w = false.
Proof. intros H. destruct w; [reflexivity|]. rewrite <- (app_nil_r (z :: w)). apply spaces_starts; [auto|discriminate]. Qed.
Lemma scan3_line s a b c : line3 s a b c -> int32 a -> int32 b -> int64 c -> scan3 s = Ok (Some (a, b, c)).
Proof.
  intros (w0 & w1 & w2 & w3 & sa & sb & sc & -> & H0 & H1 & H2 & H3 & N1 & N2 & Na & Nb & Nc) Ia Ib Ic. unfold scan3.
  rewrite (scan_numeral 31 w0 sa _ a) by (auto using spaces_starts). cbn [bind].
  rewrite (scan_numeral 31 w1 sb _ b) by (auto using spaces_starts). cbn [bind].
  rewrite (scan_numeral 63 w2 sc _ c) by (auto using spaces_starts'). reflexivity.
Qed.

(** ** Printing *)
Lemma digits_spec k z s : 0 <= z < 10 ^ Z.of_nat k -> k <> O -> exists d, digits k z s = d ++ s /\ d <> [] /\ Forall is_digit d /\ (length d <= k)%nat /\ forall v, fold_left (fun v c => 10 * v + (c - 48)) d v = 10 ^ len d * v + z.
Proof.
  revert z s. induction k as [|k IH]; intros z s Hz Hk; [congruence|]. cbn [digits]. pose proof (Z.mod_pos_bound z 10). destruct (Z.ltb_spec z 10).
  - exists [48 + z mod 10]. split; [reflexivity|]. split; [discriminate|]. split; [repeat constructor; unfold is_digit; lia|]. split; [cbn; lia|]. intros v. cbn [fold_left]. rewrite Z.mod_small by lia. change (len [_]) with 1. lia.
  - rewrite Nat2Z.inj_succ, Z.pow_succ_r in Hz by lia.
    assert (k <> O). { intros ->. cbn in Hz. lia. }
    destruct (IH (z / 10) ((48 + z mod 10) :: s)) as (d & E & Nd & Dd & Ld & Vd); [split; [apply Z.div_pos; lia|apply Z.div_lt_upper_bound; lia]|auto|].
    exists (d ++ [48 + z mod 10]). rewrite <- app_assoc. split; [exact E|]. split; [destruct d; discriminate|]. split; [apply Forall_app; split; [auto|repeat constructor; unfold is_digit; lia]|].
    split; [rewrite app_length; cbn; lia|]. intros v. rewrite fold_left_app, Vd. cbn [fold_left]. rewrite len_app. change (len [_]) with 1. rewrite Z.pow_add_r by (unfold len; lia). pose proof (Z.div_mod z 10). lia.
Qed.
Lemma print_int_spec z : - 10 ^ 20 < z < 10 ^ 20 -> numeral (print_int z) z /\ len (print_int z) <= 21 /\ Forall (fun c => c = 45 \/ is_digit c) (print_int z).
Proof.
  intros Hz. unfold print_int. destruct (Z.ltb_spec z 0).
  - destruct (digits_spec 20 (- z) []) as (d & E & Nd & Dd & Ld & Vd); [change (Z.of_nat 20) with 20; lia|discriminate|]. rewrite E, app_nil_r.
    split; [|split].
    + assert (Ez : z = - number d) by (unfold number; rewrite Vd; lia). rewrite Ez. now constructor.
    + rewrite len_cons. unfold len. lia.
    + constructor; [auto|]. eapply Forall_impl; [|exact Dd]. auto.
  - destruct (digits_spec 20 z []) as (d & E & Nd & Dd & Ld & Vd); [change (Z.of_nat 20) with 20; lia|discriminate|]. rewrite E, app_nil_r.
    split; [|split].
    + assert (Ez : z = number d) by (unfold number; rewrite Vd; lia). rewrite Ez. now constructor.
    + unfold len. lia.
    + eapply Forall_impl; [|exact Dd]. auto.
Qed.
(* neither new lines nor NULs *)
Definition plain (s : list Z) : Prop := ~ In NL s /\ ~ In 0 s /\ bytes s.
Lemma plain_app a b : plain a -> plain b -> plain (a ++ b).
Proof. intros (A1 & A2 & A3) (B1 & B2 & B3). repeat split; [rewrite in_app_iff; tauto|rewrite in_app_iff; tauto|now apply bytes_app]. Qed.
Lemma plain_int z : - 10 ^ 20 < z < 10 ^ 20 -> plain (print_int z).
Proof.
  intros Hz. destruct (print_int_spec z Hz) as (_ & _ & F). rewrite Forall_forall in F. repeat split.
  - intros H. apply F in H. unfold NL, is_digit in H. lia.
  - intros H. apply F in H. unfold is_digit in H. lia.
  - apply Forall_forall. intros c H. apply F in H. unfold is_digit in H. unfold byte. lia.
Qed.
Lemma plain_sp : plain [SP].
Proof. repeat split; try (intros [H|[]]; discriminate). repeat constructor; unfold byte, SP; lia. Qed.
Definition fits (z : Z) : Prop := - 10 ^ 20 < z < 10 ^ 20.
Lemma print3_line a b c : fits a -> fits b -> fits c -> is_line (print3 a b c) /\ bytes (print3 a b c) /\ line3 (print3 a b c) a b c.
Proof.
  intros Ha Hb Hc. destruct (print_int_spec a Ha) as (Na & La & _). destruct (print_int_spec b Hb) as (Nb & Lb & _). destruct (print_int_spec c Hc) as (Nc & Lc & _).
  pose proof (plain_int a Ha) as Pa. pose proof (plain_int b Hb) as Pb. pose proof (plain_int c Hc) as Pc.
  assert (P : plain (print_int a ++ [SP] ++ print_int b ++ [SP] ++ print_int c)) by (repeat apply plain_app; auto using plain_sp).
  assert (E : print3 a b c = (print_int a ++ [SP] ++ print_int b ++ [SP] ++ print_int c) ++ [NL]) by (unfold print3; now rewrite <- !app_assoc).
  split; [|split].
  - eexists. split; [exact E|]. destruct P as (P1 & P2 & _). split; [auto|]. split; [auto|]. unfold print3. rewrite !len_app. change (len [_]) with 1. lia.
  - rewrite E. apply bytes_app; [apply P|]. repeat constructor; unfold byte, NL; lia.
  - exists [], [SP], [SP], [NL], (print_int a), (print_int b), (print_int c). split; [reflexivity|].
    assert (S1 : spaces [SP]) by (repeat constructor; unfold is_space, SP; lia). assert (S2 : spaces [NL]) by (repeat constructor; unfold is_space, NL; lia).
    split; [constructor|]. do 3 (split; [auto|]). do 2 (split; [discriminate|]). auto.
Qed.

(** ** Lines *)
Lemma cstr_id s : ~ In 0 s -> cstr s = s.
Proof. induction s as [|c s IH]; intros H; [reflexivity|]. cbn [cstr]. destruct (Z.eqb_spec c 0) as [->|]; [exfalso; apply H; left; auto|]. f_equal. apply IH. intros H'. apply H. right. auto. Qed.
Lemma take_line_nl k t r : ~ In NL t -> (length t < k)%nat -> take_line k (t ++ NL :: r) = (t ++ [NL], r, false).
Proof.
  revert k. induction t as [|c t IH]; intros k Ht Hk; (destruct k as [|k]; [cbn in Hk; lia|]); cbn [app take_line].
  - rewrite Z.eqb_refl. reflexivity.
  - destruct (Z.eqb_spec c NL) as [->|]; [exfalso; apply Ht; left; auto|]. rewrite IH; [reflexivity| |cbn in Hk; lia]. intros H. apply Ht. right. auto.
Qed.
Lemma take_line_end k t : ~ In NL t -> (length t < k)%nat -> take_line k t = (t, [], true).
Proof.
  revert k. induction t as [|c t IH]; intros k Ht Hk; (destruct k as [|k]; [cbn in Hk; lia|]); cbn [take_line]; [reflexivity|].
  destruct (Z.eqb_spec c NL) as [->|]; [exfalso; apply Ht; left; auto|]. rewrite IH; [reflexivity| |cbn in Hk; lia]. intros H. apply Ht. right. auto.
Qed.
Lemma take_line_app k s l r e : take_line k s = (l, r, e) -> s = l ++ r /\ (e = true -> r = []) /\ (l = [] -> k <> O -> s = []).
Proof.
  revert s l r e. induction k as [|k IH]; intros s l r e E; cbn [take_line] in E.
  - inversion E. subst. split; [reflexivity|]. split; [discriminate|congruence].
  - destruct s as [|c t]; [inversion E; subst; auto|]. destruct (Z.eqb_spec c NL); [inversion E; subst; split; [reflexivity|]; split; discriminate|].
    destruct (take_line k t) as [[l' r'] e'] eqn:E'. inversion E. subst. destruct (IH _ _ _ _ E') as (-> & H2 & _). split; [reflexivity|]. split; [auto|discriminate].
Qed.

(** ** Hashing *)
(* the message hashed so far, if a hash is requested *)
Definition hashed (wanted : bool) (ctx : option sha_ctx) (m : list Z) : Prop :=
  match ctx with None => wanted = false | Some c => wanted = true /\ exists m1 m2, repr c m1 m2 /\ m1 ++ m2 = m end.
Lemma hashed_update h gs ctx m s : hashed h ctx m -> bytes s -> len m + len s < 2 ^ 61 ->
  sat (match ctx with None => Ok None | Some c => c <- SHA256_update gs c s (len s) ;; Ok (Some c) end) (fun ctx' => hashed h ctx' (m ++ s)).
Proof.
  intros H Bs L. destruct ctx as [c|]; [|exact H]. destruct H as (-> & m1 & m2 & R & <-). apply sat_bind. eapply sat_mono; [apply (update_ok gs c m1 m2 s R Bs L)|].
  intros c' (m1' & m2' & E & R'). cbn [sat]. split; [auto|]. exists m1', m2'. rewrite <- app_assoc. auto.
Qed.
Lemma read_line_ok h gs ctx m s r : hashed h ctx m -> text_line s r -> bytes s -> len m + len s < 2 ^ 61 ->
  sat (read_line gs ctx (File (s ++ r) false)) (fun '(l, ctx', f') => l = Some s /\ hashed h ctx' (m ++ s) /\ frest f' = r /\ (feof f' = true -> r = [])).
Proof.
  intros H T Bs L. unfold read_line, fgets. cbn [feof frest].
  assert (E : exists e, take_line (Z.to_nat (1024 - 1)) (s ++ r) = (s, r, e) /\ (e = true -> r = []) /\ s <> [] /\ cstr s = s /\ (get s (len s - 1) =? NL) || e = true).
  { destruct T as [(t & -> & T1 & T2 & T3)|(-> & T0 & T1 & T2 & T3)].
    - exists false. rewrite <- app_assoc. cbn [app]. rewrite len_app in *. change (len [NL]) with 1 in *. rewrite take_line_nl; [|auto|unfold len in T3; lia].
      split; [reflexivity|]. split; [discriminate|]. split; [destruct t; discriminate|]. split; [apply cstr_id; rewrite in_app_iff; intros [?|[?|[]]]; [auto|discriminate]|].
      rewrite get_app_r by lia. replace (len t + 1 - 1 - len t) with 0 by lia. reflexivity.
    - exists true. rewrite app_nil_r. rewrite take_line_end; [|auto|unfold len in T3; lia]. split; [reflexivity|]. split; [auto|]. split; [auto|]. split; [now apply cstr_id|]. apply orb_true_r. }
  destruct E as (e & -> & E1 & E2 & E3 & E4). destruct s as [|c s]; [congruence|]. rewrite E3. cbn [feof].
  assert (0 < len (c :: s)) by (rewrite len_cons; pose proof (len_nonneg s); lia).
  apply sat_bind, sat_assert; [replace (len (c :: s) =? 0) with false by lia; reflexivity|]. apply sat_bind, sat_assert; [exact E4|].
  apply sat_bind. eapply sat_mono; [apply (hashed_update h gs ctx m (c :: s)); auto|]. intros ctx' H'. cbn [sat frest feof]. auto.
Qed.
Lemma read_line_eof gs ctx e : read_line gs ctx (File [] e) = Ok (None, ctx, File [] true).
Proof. unfold read_line, fgets. cbn [feof]. destruct e; reflexivity. Qed.
