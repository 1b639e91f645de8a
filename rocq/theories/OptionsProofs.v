(** Command lines. *)
From Coq Require Import String ZifyBool.
From Verif Require Import Base BaseFacts Spec SpecFacts SpecText Stdio TextProofs SpecCert Mat Dense Echelonize Options SpecOptions.
Local Open Scope string_scope.
Local Open Scope list_scope.
Local Open Scope Z_scope.

Lemma cstr_id s : ~ In 0 s -> cstr s = s.
Proof.
  induction s as [|c s IH]; intros H; [reflexivity|]. cbn [cstr]. destruct (Z.eqb_spec c 0) as [->|N]; [exfalso; apply H; now left|].
  f_equal. apply IH. intros I. apply H. now right.
Qed.
Lemma atoi_numeral bits a z : numeral a z -> - 2 ^ bits <= z < 2 ^ bits -> atoi bits a = Ok z.
Proof.
  intros H Hz. unfold atoi. rewrite cstr_id.
  - pose proof (scan_numeral bits [] a [] z (Forall_nil _) H eq_refl Hz) as E. cbn [app] in E. rewrite app_nil_r in E. rewrite E. reflexivity.
  - assert (D : forall d, Forall is_digit d -> ~ In 0 d). { intros d Hd I. rewrite Forall_forall in Hd. specialize (Hd 0 I). unfold is_digit in Hd. lia. }
    destruct H as [d _ Hd|d _ Hd|d _ Hd]; [now apply D| |]; intros [E|I]; try discriminate E; now apply (D d).
Qed.

(* what one item changes *)
Definition changes (o : opt) (it : item) (v v' : Z) : Prop := if isopt o it then exists a, item_arg it = Some a /\ numeral a v' else v' = v.
Definition step {T} (upd : item -> T -> T) (it : item) (st st' : args T) : Prop :=
  (if isopt o_matrix it then exists a, item_arg it = Some a /\ a_file st' = Some a else a_file st' = a_file st) /\ changes o_modulus it (a_prime st) (a_prime st') /\
  (let o := a_opts st in let o' := a_opts st' in
   o_greedy o' = o_greedy o /\ o_tall o' = o_tall o && negb (isopt o_nolow it) /\ o_dense o' = o_dense o && negb (isopt o_nodense it) /\ o_GPLU o' = o_GPLU o && negb (isopt o_noGPLU it) /\
   o_L o' = o_L o /\ o_complete o' = o_complete o /\ changes o_iter it (o_rounds o) (o_rounds o') /\ changes o_block it (o_blk o) (o_blk o') /\ o_w0 o' = o_w0 o) /\
  a_own st' = upd it (a_own st).
Definition handles {T} (groups : list (list argp_option * parser T)) (os : list opt) (upd : item -> T -> T) : Prop :=
  forall it st, numeric [it] -> proper os it /\ (exists st', dispatch groups it st = Ok (Some st') /\ step upd it st st') \/ ~ proper os it /\ dispatch groups it st = Ok None.

(* a whole command line *)
Definition flows {T} (upd : item -> T -> T) (cmd : list item) (st st' : args T) : Prop :=
  a_file st' = (match last_arg o_matrix cmd with Some a => Some a | None => a_file st end) /\ value o_modulus cmd (a_prime st) (a_prime st') /\
  (let o := a_opts st in let o' := a_opts st' in
   o_greedy o' = o_greedy o /\ o_tall o' = o_tall o && negb (existsb (isopt o_nolow) cmd) /\ o_dense o' = o_dense o && negb (existsb (isopt o_nodense) cmd) /\
   o_GPLU o' = o_GPLU o && negb (existsb (isopt o_noGPLU) cmd) /\
   o_L o' = o_L o /\ o_complete o' = o_complete o /\ value o_iter cmd (o_rounds o) (o_rounds o') /\ value o_block cmd (o_blk o) (o_blk o') /\ o_w0 o' = o_w0 o) /\
  a_own st' = fold_left (fun x it => upd it x) cmd (a_own st).
Lemma value_cons o it cmd v0 v1 v : changes o it v0 v1 -> value o cmd v1 v -> value o (it :: cmd) v0 v.
Proof.
  unfold changes, value. cbn [last_arg]. destruct (last_arg o cmd); [auto|]. intros C ->. destruct (isopt o it); [|auto]. destruct C as (a & -> & C). exact C.
Qed.
Lemma argp_parse_ok {T} (groups : list (list argp_option * parser T)) os upd : handles groups os upd -> forall cmd st, numeric cmd ->
  Forall (proper os) cmd /\ (exists st', argp_parse groups cmd st = Ok (Some st') /\ flows upd cmd st st') \/ ~ Forall (proper os) cmd /\ argp_parse groups cmd st = Ok None.
Proof.
  intros H cmd. induction cmd as [|it cmd IH]; intros st N.
  - left. split; [constructor|]. exists st. split; [reflexivity|]. unfold flows, value. cbn [last_arg existsb negb fold_left]. rewrite !andb_true_r. repeat split; reflexivity.
  - destruct (H it st) as [[P (st' & E & S)]|[P E]]; [intros i a [<-|[]]; apply N; now left| |].
    + destruct (IH st') as [[Q (st2 & E2 & F)]|[Q E2]]; [intros i a I; apply N; now right| |].
      * left. split; [now constructor|]. exists st2. cbn [argp_parse]. rewrite E. cbn [bind]. split; [auto|].
        destruct S as (S1 & S2 & (S3 & S4 & S5 & S6 & S7 & S8 & S9 & S10 & S11) & S12). destruct F as (F1 & F2 & (F3 & F4 & F5 & F6 & F7 & F8 & F9 & F10 & F11) & F12).
        unfold flows. cbn [existsb fold_left]. rewrite F3, F4, F5, F6, F7, F8, F11, F12, S3, S4, S5, S6, S7, S8, S11, S12, !negb_orb, !andb_assoc. repeat split.
        -- cbn [last_arg]. rewrite F1. destruct (last_arg o_matrix cmd) as [a|]; [auto|]. destruct (isopt o_matrix it); [|auto]. destruct S1 as (a & -> & ->). reflexivity.
        -- now apply (value_cons _ _ _ _ (a_prime st')).
        -- now apply (value_cons _ _ _ _ (o_rounds (a_opts st'))).
        -- now apply (value_cons _ _ _ _ (o_blk (a_opts st'))).
      * right. split; [intros F; inversion F; auto|]. cbn [argp_parse]. rewrite E. cbn [bind]. auto.
    + right. split; [intros F; inversion F; auto|]. cbn [argp_parse]. rewrite E. reflexivity.
Qed.

(** ** The three programs *)
Definition has (it : item) : bool := match item_arg it with Some _ => true | None => false end.
Definition properb (os : list opt) (it : item) : bool := existsb (fun o => isopt o it && Bool.eqb (snd o) (has it)) os.
Lemma properb_ok os it : properb os it = true <-> proper os it.
Proof.
  unfold properb, proper, has. rewrite existsb_exists. split; intros (o & I & H); exists o; (split; [auto|]).
  - apply andb_prop in H. destruct H as [H1 H2]. apply Bool.eqb_prop in H2. split; [auto|]. rewrite H2. destruct (item_arg it) as [a|]; split; try discriminate; eauto. intros (a & E). discriminate E.
  - destruct H as [H1 H2]. rewrite H1. cbn [andb]. apply Bool.eqb_true_iff. destruct (item_arg it) as [a|]; [apply H2; eauto|]. destruct (snd o); [|auto]. destruct (proj1 H2 eq_refl) as (a & E). discriminate E.
Qed.
(* the same as handles, computed *)
Definition handlesb {T} (groups : list (list argp_option * parser T)) (os : list opt) (upd : item -> T -> T) : Prop :=
  forall it st, numeric [it] -> if properb os it then exists st', dispatch groups it st = Ok (Some st') /\ step upd it st st' else dispatch groups it st = Ok None.
Lemma handlesb_ok {T} (groups : list (list argp_option * parser T)) os upd : handlesb groups os upd -> handles groups os upd.
Proof.
  intros H it st N. specialize (H it st N). destruct (properb os it) eqn:E; [left|right]; (split; [|auto]).
  - now apply properb_ok.
  - rewrite <- properb_ok. congruence.
Qed.

(* each name, then each letter *)
Ltac tidy := unfold step, changes; cbn; rewrite ?andb_true_r, ?andb_false_r, ?orb_false_r, ?orb_true_r; repeat split; eauto.
Ltac finish N := lazymatch goal with
  | |- if properb ?os ?it then _ else _ => let b := eval vm_compute in (properb os it) in change (properb os it) with b; cbv iota end;
  lazymatch goal with
  | |- exists _, _ => first
     [ first [destruct (proj1 (N _ _ (or_introl eq_refl) eq_refl) eq_refl) as (? & ? & ?)
         |destruct (proj2 (N _ _ (or_introl eq_refl) eq_refl) (or_introl eq_refl)) as (? & ? & ?)
         |destruct (proj2 (N _ _ (or_introl eq_refl) eq_refl) (or_intror eq_refl)) as (? & ? & ?)];
       eexists; split; [cbn -[atoi]; erewrite atoi_numeral by eassumption; reflexivity|tidy]
     | eexists; split; [reflexivity|tidy] ]
  | |- _ => reflexivity
  end.
Ltac names s k := lazymatch k with
  | ?n :: ?r => destruct (String.eqb_spec s n) as [->|?]; [|names s r]
  | _ => idtac end.
Ltac letters c k := lazymatch k with
  | ?n :: ?r => destruct (Z.eqb_spec c n) as [->|?]; [|letters c r]
  | _ => idtac end.
(* an item that is none of the options *)
Lemma not_named {T} (groups : list (list argp_option * parser T)) os upd it st :
  (forall o, In o os -> isopt o it = false) -> (forall os f, In (os, f) groups -> find_option it os = None) ->
  if properb os it then exists st', dispatch groups it st = Ok (Some st') /\ step upd it st st' else dispatch groups it st = Ok None.
Proof.
  intros H G. replace (properb os it) with false.
  - induction groups as [|[os' f] groups IH]; [reflexivity|]. cbn [dispatch]. rewrite (G os' f) by now left. apply IH. intros os2 f' I. apply (G os2 f'). now right.
  - symmetry. unfold properb. induction os as [|o os IH]; [reflexivity|]. cbn [existsb]. rewrite (H o) by now left. apply IH. intros o' I. apply H. now right.
Qed.
Lemma unprintable k c : isprint k = false -> (k =? c) && isprint c = false.
Proof. intros H. destruct (Z.eqb_spec k c) as [->|]; [|reflexivity]. now rewrite H. Qed.
Ltac unknown := apply not_named; [intros o I; cbn in I; decompose [or] I; try contradiction; subst o; cbn [isopt letter chars o_matrix]; first [now apply String.eqb_neq | apply Z.eqb_neq; cbn; congruence | reflexivity]
  |intros os f I; cbn in I; decompose [or] I; try contradiction; match goal with E : (_, _) = (os, f) |- _ => injection E as <- <- end;
   unfold find_option, rank_options, kernel_options, solve_options, input_options, echelonize_options; cbn [find ao_name ao_key];
   repeat (rewrite (proj2 (String.eqb_neq _ _)) by congruence); rewrite ?(fun x y H => proj2 (Z.eqb_neq x y) (not_eq_sym H)) by assumption; cbn [andb];
   repeat (rewrite unprintable by reflexivity); reflexivity].
Definition orelse (o : opt) (it : item) (x : option (list Z)) : option (list Z) := match (if isopt o it then item_arg it else None) with Some a => Some a | None => x end.
Definition upd_rank (it : item) (x : bool * bool * option (list Z)) : bool * bool * option (list Z) :=
  let '(tr, ce, out) := x in (tr && negb (isopt o_notrans it), ce || isopt o_cert it, orelse o_output it out).
Lemma rank_handles : handles [(rank_options, parse_rank_opt); (input_options, parse_input_opt); (echelonize_options, parse_ech_opt)] ([o_notrans; o_cert] ++ common) upd_rank.
Proof.
  apply handlesb_ok. intros it [fl pr [o1 o2 o3 o4 o5 o6 o7 o8 o9] [[tr ce] out]] N. destruct it as [s a|c a|a].
  - names s ["no-transpose"; "certificate"; "output"; "matrix"; "modulus"; "no-low-rank-mode"; "no-dense-mode"; "no-GPLU"; "max-iterations"; "dense-threshold"; "min-pivot-proportion"; "dense-block-size"; "min-rank-ratio"; "max-aspect-ratio"].
    1-14: destruct a as [a|]; finish N.
    unknown.
  - letters c [116; 99; 111; 109; 112]. 1-5: destruct a as [a|]; finish N.
    unknown.
  - reflexivity.
Qed.
Definition upd_kernel (it : item) (x : bool * option (list Z)) : bool * option (list Z) := let '(lf, out) := x in (lf || isopt o_left it, orelse o_output it out).
Lemma kernel_handles : handles [(kernel_options, parse_ker_opt); (input_options, parse_input_opt); (echelonize_options, parse_ech_opt)] (o_left :: common) upd_kernel.
Proof.
  apply handlesb_ok. intros it [fl pr [o1 o2 o3 o4 o5 o6 o7 o8 o9] [lf out]] N. destruct it as [s a|c a|a].
  - names s ["left"; "output"; "matrix"; "modulus"; "no-low-rank-mode"; "no-dense-mode"; "no-GPLU"; "max-iterations"; "dense-threshold"; "min-pivot-proportion"; "dense-block-size"; "min-rank-ratio"; "max-aspect-ratio"].
    1-13: destruct a as [a|]; finish N.
    unknown.
  - letters c [108; 111; 109; 112]. 1-4: destruct a as [a|]; finish N.
    unknown.
  - reflexivity.
Qed.
Definition upd_solve (it : item) (x : option (list Z) * option (list Z)) : option (list Z) * option (list Z) := let '(rhs, out) := x in (orelse o_rhs it rhs, orelse o_output it out).
Lemma solve_handles : handles [(solve_options, parse_solve_opt); (input_options, parse_input_opt); (echelonize_options, parse_ech_opt)] (o_rhs :: common) upd_solve.
Proof.
  apply handlesb_ok. intros it [fl pr [o1 o2 o3 o4 o5 o6 o7 o8 o9] [rhs out]] N. destruct it as [s a|c a|a].
  - names s ["rhs"; "output"; "matrix"; "modulus"; "no-low-rank-mode"; "no-dense-mode"; "no-GPLU"; "max-iterations"; "dense-threshold"; "min-pivot-proportion"; "dense-block-size"; "min-rank-ratio"; "max-aspect-ratio"].
    1-13: destruct a as [a|]; finish N.
    unknown.
  - letters c [114; 111; 109; 112]. 1-4: destruct a as [a|]; finish N.
    unknown.
  - reflexivity.
Qed.

(** ** What a command line asks for *)
Lemma given_ok o cmd : existsb (isopt o) cmd = true <-> given o cmd.
Proof. apply existsb_exists. Qed.
Lemma given_not o cmd : negb (existsb (isopt o) cmd) = false <-> given o cmd.
Proof. rewrite negb_false_iff. apply given_ok. Qed.
Lemma flows_asked {T} (upd : item -> T -> T) cmd x a : flows upd cmd (Args None 42013 init_opts x) a -> asked cmd a /\ a_own a = fold_left (fun x it => upd it x) cmd x.
Proof.
  intros (F1 & F2 & (F3 & F4 & F5 & F6 & F7 & F8 & F9 & F10 & F11) & F12). cbn [a_file a_prime a_opts a_own init_opts o_greedy o_tall o_dense o_GPLU o_L o_complete o_rounds o_blk o_w0 andb] in *.
  split; [|auto]. unfold asked. rewrite F1, F4, F5, F6, !given_not. destruct (last_arg o_matrix cmd); tauto.
Qed.
Lemma orelse_fold o cmd x : fold_left (fun x it => orelse o it x) cmd x = match last_arg o cmd with Some a => Some a | None => x end.
Proof.
  revert x. induction cmd as [|it cmd IH]; intros x; [reflexivity|]. cbn [fold_left last_arg]. rewrite IH. destruct (last_arg o cmd); [auto|]. unfold orelse. destruct (isopt o it); [|auto]. destruct (item_arg it); auto.
Qed.
Theorem parse_rank_ok cmd : numeric cmd -> match parse_rank cmd with
  | Ok (Some a) => Forall (proper ([o_notrans; o_cert] ++ common)) cmd /\ asked cmd a /\
      exists tr ce, a_own a = (tr, ce, last_arg o_output cmd) /\ (tr = false <-> given o_notrans cmd) /\ (ce = true <-> given o_cert cmd)
  | Ok None => ~ Forall (proper ([o_notrans; o_cert] ++ common)) cmd
  | Fail _ => False end.
Proof.
  intros N. unfold parse_rank, parse_args. destruct (argp_parse_ok _ _ _ rank_handles cmd (Args None 42013 init_opts (true, false, None)) N) as [[P (a & -> & F)]|[P ->]]; [|auto].
  split; [auto|]. apply flows_asked in F. destruct F as [F E]. split; [auto|]. exists (negb (existsb (isopt o_notrans) cmd)), (existsb (isopt o_cert) cmd). rewrite given_not, given_ok. split; [|tauto].
  rewrite E. clear. assert (H : forall tr ce out, fold_left (fun x it => upd_rank it x) cmd (tr, ce, out) =
    (tr && negb (existsb (isopt o_notrans) cmd), ce || existsb (isopt o_cert) cmd, fold_left (fun x it => orelse o_output it x) cmd out)).
  { induction cmd as [|it cmd IH]; intros tr ce out; [now cbn; rewrite andb_true_r, orb_false_r|]; cbn [fold_left existsb]. unfold upd_rank at 2. rewrite IH, negb_orb, andb_assoc, orb_assoc. reflexivity. }
  rewrite H, orelse_fold. cbn [andb orb]. destruct (last_arg o_output cmd); reflexivity.
Qed.
Theorem parse_kernel_ok cmd : numeric cmd -> match parse_kernel cmd with
  | Ok (Some a) => Forall (proper (o_left :: common)) cmd /\ asked cmd a /\ exists lf, a_own a = (lf, last_arg o_output cmd) /\ (lf = true <-> given o_left cmd)
  | Ok None => ~ Forall (proper (o_left :: common)) cmd
  | Fail _ => False end.
Proof.
  intros N. unfold parse_kernel, parse_args. destruct (argp_parse_ok _ _ _ kernel_handles cmd (Args None 42013 init_opts (false, None)) N) as [[P (a & -> & F)]|[P ->]]; [|auto].
  split; [auto|]. apply flows_asked in F. destruct F as [F E]. split; [auto|]. exists (existsb (isopt o_left) cmd). rewrite given_ok. split; [|tauto].
  rewrite E. clear. assert (H : forall lf out, fold_left (fun x it => upd_kernel it x) cmd (lf, out) = (lf || existsb (isopt o_left) cmd, fold_left (fun x it => orelse o_output it x) cmd out)).
  { induction cmd as [|it cmd IH]; intros lf out; [now cbn; rewrite orb_false_r|]; cbn [fold_left existsb]. unfold upd_kernel at 2. rewrite IH, orb_assoc. reflexivity. }
  rewrite H, orelse_fold. cbn [orb]. destruct (last_arg o_output cmd); reflexivity.
Qed.
Theorem parse_solve_ok cmd : numeric cmd -> match parse_solve cmd with
  | Ok (Some a) => Forall (proper (o_rhs :: common)) cmd /\ asked cmd a /\ a_own a = (last_arg o_rhs cmd, last_arg o_output cmd)
  | Ok None => ~ Forall (proper (o_rhs :: common)) cmd
  | Fail _ => False end.
Proof.
  intros N. unfold parse_solve, parse_args. destruct (argp_parse_ok _ _ _ solve_handles cmd (Args None 42013 init_opts (None, None)) N) as [[P (a & -> & F)]|[P ->]]; [|auto].
  split; [auto|]. apply flows_asked in F. destruct F as [F E]. split; [auto|].
  rewrite E. clear. assert (H : forall rhs out, fold_left (fun x it => upd_solve it x) cmd (rhs, out) = (fold_left (fun x it => orelse o_rhs it x) cmd rhs, fold_left (fun x it => orelse o_output it x) cmd out)).
  { induction cmd as [|it cmd IH]; intros rhs out; cbn [fold_left]; [reflexivity|]. unfold upd_solve at 2. rewrite IH. reflexivity. }
  rewrite H, !orelse_fold. destruct (last_arg o_rhs cmd), (last_arg o_output cmd); reflexivity.
Qed.
