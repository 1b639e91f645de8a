(** Command lines of echelonize, check_cert, dm and bitmap. *)
From Coq Require Import String ZifyBool.
From Verif Require Import Base BaseFacts Spec SpecFacts SpecText Stdio TextProofs SpecCert Mat Dense Echelonize Options SpecOptions OptionsProofs ToolOptions SpecToolOptions.
Local Open Scope string_scope.
Local Open Scope list_scope.
Local Open Scope Z_scope.

(** ** getopt_long *)
(* what a command line changes, R being what an item changes *)
Fixpoint flow {T} (R : item -> T -> T -> Prop) (cmd : list item) (st st' : T) : Prop :=
  match cmd with [] => st' = st | it :: cmd => exists s, R it st s /\ flow R cmd s st' end.
Lemma flow_value {T} (R : item -> T -> T -> Prop) o (v : T -> Z) : (forall it st st', R it st st' -> changes o it (v st) (v st')) ->
  forall cmd st st', flow R cmd st st' -> value o cmd (v st) (v st').
Proof.
  intros H cmd. induction cmd as [|it cmd IH]; intros st st' F; cbn [flow] in F.
  - subst. reflexivity.
  - destruct F as (s & F1 & F2). apply (value_cons _ _ _ _ (v s)); auto.
Qed.
Lemma flow_flag {T} (R : item -> T -> T -> Prop) o (b : T -> bool) : (forall it st st', R it st st' -> b st' = b st || isopt o it) ->
  forall cmd st st', flow R cmd st st' -> b st' = b st || existsb (isopt o) cmd.
Proof.
  intros H cmd. induction cmd as [|it cmd IH]; intros st st' F; cbn [flow] in F.
  - subst. cbn. now rewrite orb_false_r.
  - destruct F as (s & F1 & F2). cbn [existsb]. rewrite (IH _ _ F2), (H _ _ _ F1). now rewrite orb_assoc.
Qed.
Lemma flow_same {T U} (R : item -> T -> T -> Prop) (c : T -> U) : (forall it st st', R it st st' -> c st' = c st) ->
  forall cmd st st', flow R cmd st st' -> c st' = c st.
Proof.
  intros H cmd. induction cmd as [|it cmd IH]; intros st st' F; cbn [flow] in F; [now subst|].
  destruct F as (s & F1 & F2). rewrite (IH _ _ F2). exact (H _ _ _ F1).
Qed.
Lemma flow_arg {T} (R : item -> T -> T -> Prop) o (v : T -> option (list Z)) :
  (forall it st st', R it st st' -> if isopt o it then exists a, item_arg it = Some a /\ v st' = Some a else v st' = v st) ->
  forall cmd st st', flow R cmd st st' -> v st' = match last_arg o cmd with Some a => Some a | None => v st end.
Proof.
  intros H cmd. induction cmd as [|it cmd IH]; intros st st' F; cbn [flow] in F; [now subst|].
  destruct F as (s & F1 & F2). rewrite (IH _ _ F2). cbn [last_arg]. destruct (last_arg o cmd); [auto|]. specialize (H _ _ _ F1). destruct (isopt o it); [|auto]. destruct H as (a & -> & E). auto.
Qed.

Definition treats {T} (os : list argp_option) (parse : Z -> list Z -> T -> res T) (ns ds : list opt) (R : item -> T -> T -> Prop) : Prop :=
  forall it st, ints ns [it] -> allowed ds it /\ (exists st', getopt_step os parse it st = Ok (Some st') /\ R it st st') \/ ~ allowed ds it /\ getopt_step os parse it st = Ok None.
Lemma getopt_ok {T} (os : list argp_option) (parse : Z -> list Z -> T -> res T) ns ds R : treats os parse ns ds R -> forall cmd st, ints ns cmd ->
  match getopt_parse os parse cmd st with Ok (Some st') => Forall (allowed ds) cmd /\ flow R cmd st st' | Ok None => ~ Forall (allowed ds) cmd | Fail _ => False end.
Proof.
  intros H cmd. induction cmd as [|it cmd IH]; intros st N; cbn [getopt_parse].
  - split; [constructor|reflexivity].
  - destruct (H it st) as [[P (s & E & S)]|[P E]]; [intros i o a [<-|[]]; apply N; now left| |]; rewrite E; cbn [bind].
    + specialize (IH s). destruct (getopt_parse os parse cmd s) as [[st'|]|e].
      * destruct IH as [Q F]; [intros i o a I; apply N; now right|]. split; [now constructor|]. exists s. auto.
      * intros F. inversion F; subst. apply IH; [intros i o a I; apply N; now right|auto].
      * apply IH. intros i o a I; apply N; now right.
    + intros F. inversion F; auto.
Qed.
Definition allowedb (ds : list opt) (it : item) : bool := match it with Plain _ => true | _ => properb ds it end.
Lemma allowedb_ok ds it : allowedb ds it = true <-> allowed ds it.
Proof. unfold allowedb, allowed. destruct it; try apply properb_ok. tauto. Qed.
Lemma treats_ok {T} (os : list argp_option) (parse : Z -> list Z -> T -> res T) ns ds R :
  (forall it st, ints ns [it] -> if allowedb ds it then exists st', getopt_step os parse it st = Ok (Some st') /\ R it st st' else getopt_step os parse it st = Ok None) -> treats os parse ns ds R.
Proof.
  intros H it st N. specialize (H it st N). destruct (allowedb ds it) eqn:E; [left|right]; (split; [|auto]).
  - now apply allowedb_ok.
  - rewrite <- allowedb_ok. congruence.
Qed.
(* a name that is none of the options *)
Lemma no_name ds s a : (forall o, In o ds -> fst (fst o) <> s) -> properb ds (Long s a) = false.
Proof.
  intros H. unfold properb. induction ds as [|[[n c] b] ds IH]; [reflexivity|]. cbn [existsb isopt]. rewrite (proj2 (String.eqb_neq s n)) by (intros E; apply (H (n, c, b)); [now left|auto]).
  apply IH. intros o I. apply H. now right.
Qed.
Lemma no_letter ds c a : (forall o, In o ds -> snd (fst o) = None) -> properb ds (Short c a) = false.
Proof.
  intros H. unfold properb. induction ds as [|[[n c'] b] ds IH]; [reflexivity|]. cbn [existsb isopt]. pose proof (H (n, c', b) (or_introl eq_refl)) as E. cbn in E. subst c'.
  apply IH. intros o I. apply H. now right.
Qed.
Lemma find_none s (os : list argp_option) : (forall o, In o os -> ao_name o <> s) -> find (fun o => String.eqb (ao_name o) s) os = None.
Proof.
  intros H. induction os as [|o os IH]; [reflexivity|]. cbn [find]. rewrite (proj2 (String.eqb_neq _ _)) by (apply H; now left). apply IH. intros o' I. apply H. now right.
Qed.
Ltac none_of I := cbn in I; decompose [or] I; try contradiction; subst; cbn; congruence.
Ltac strange := cbn [allowedb getopt_step]; rewrite no_name by (intros o I; none_of I); rewrite find_none by (intros o I; none_of I); reflexivity.
Ltac fields := cbn; rewrite ?andb_true_r, ?andb_false_r, ?orb_false_r, ?orb_true_r; repeat split; eauto.
Ltac settle N := lazymatch goal with
  | |- if allowedb ?os ?it then _ else _ => let b := eval vm_compute in (allowedb os it) in change (allowedb os it) with b; cbv iota end;
  lazymatch goal with
  | |- exists _, _ => first
     [ destruct (N _ _ _ (or_introl eq_refl) (or_introl eq_refl) eq_refl eq_refl) as (? & ? & ?); eexists; split; [cbn -[atoi]; erewrite atoi_numeral by eassumption; reflexivity|fields]
     | destruct (N _ _ _ (or_introl eq_refl) (or_intror (or_introl eq_refl)) eq_refl eq_refl) as (? & ? & ?); eexists; split; [cbn -[atoi]; erewrite atoi_numeral by eassumption; reflexivity|fields]
     | destruct (N _ _ _ (or_introl eq_refl) (or_intror (or_intror (or_introl eq_refl))) eq_refl eq_refl) as (? & ? & ?); eexists; split; [cbn -[atoi]; erewrite atoi_numeral by eassumption; reflexivity|fields]
     | eexists; split; [reflexivity|fields] ]
  | |- _ => reflexivity
  end.

(** ** echelonize *)
Definition ech_change (it : item) (st st' : Z * bool * opts) : Prop :=
  let o := snd st in let o' := snd st' in
  changes e_modulus it (fst (fst st)) (fst (fst st')) /\ snd (fst st') = snd (fst st) || isopt e_rref it /\
  negb (o_greedy o') = negb (o_greedy o) || isopt e_nogreedy it /\ negb (o_tall o') = negb (o_tall o) || isopt o_nolow it /\
  changes o_block it (o_blk o) (o_blk o') /\ changes e_weight it (o_w0 o) (o_w0 o') /\
  (o_dense o', o_GPLU o', o_L o', o_complete o', o_rounds o') = (o_dense o, o_GPLU o, o_L o, o_complete o, o_rounds o).
Lemma ech_treats : treats ech_options parse_ech [e_modulus; o_block; e_weight] e_opts ech_change.
Proof.
  apply treats_ok. intros it [[pr rr] [o1 o2 o3 o4 o5 o6 o7 o8 o9]] N. unfold ech_change, changes. destruct it as [s a|c a|a].
  - names s ["modulus"; "rref"; "no-greedy-pivot-search"; "no-low-rank-mode"; "dense-block-size"; "low-rank-start-weight"; "sparsity-threshold"].
    1-7: destruct a as [a|]; settle N.
    strange.
  - cbn [allowedb getopt_step]. rewrite no_letter by (intros o I; none_of I). reflexivity.
  - settle N.
Qed.
Lemma negb_flag a b c : negb a = negb b || c -> b = true -> (a = false <-> c = true).
Proof. destruct a, b, c; cbn; intuition congruence. Qed.
Theorem parse_echelonize_ok cmd : ints [e_modulus; o_block; e_weight] cmd -> match parse_echelonize cmd with
  | Ok (Some (p, rr, o)) => Forall (allowed e_opts) cmd /\ value e_modulus cmd 42013 p /\ (rr = true <-> given e_rref cmd) /\
      (o_greedy o = false <-> given e_nogreedy cmd) /\ (o_tall o = false <-> given o_nolow cmd) /\ value o_block cmd 1000 (o_blk o) /\ value e_weight cmd (-1) (o_w0 o) /\
      o_dense o = true /\ o_GPLU o = true /\ o_L o = false /\ o_complete o = false /\ o_rounds o = 3
  | Ok None => ~ Forall (allowed e_opts) cmd
  | Fail _ => False end.
Proof.
  intros N. pose proof (getopt_ok _ _ _ _ _ ech_treats cmd (42013, false, init_opts) N) as H. fold (parse_echelonize cmd) in H.
  destruct (parse_echelonize cmd) as [[[[p rr] o]|]|e]; [|auto|auto]. destruct H as [H F]. split; [auto|].
  assert (V := flow_value ech_change e_modulus (fun s => fst (fst s)) ltac:(intros it s s' R; apply R) _ _ _ F). cbn in V. split; [exact V|].
  assert (B := flow_flag ech_change e_rref (fun s => snd (fst s)) ltac:(intros it s s' R; apply R) _ _ _ F). cbn in B. split; [rewrite B; apply given_ok|].
  assert (G := flow_flag ech_change e_nogreedy (fun s => negb (o_greedy (snd s))) ltac:(intros it s s' R; apply R) _ _ _ F). cbn [snd] in G. apply negb_flag in G; [|reflexivity]. split; [rewrite G; apply given_ok|].
  assert (W := flow_flag ech_change o_nolow (fun s => negb (o_tall (snd s))) ltac:(intros it s s' R; apply R) _ _ _ F). cbn [snd] in W. apply negb_flag in W; [|reflexivity]. split; [rewrite W; apply given_ok|].
  assert (K := flow_value ech_change o_block (fun s => o_blk (snd s)) ltac:(intros it s s' R; apply R) _ _ _ F). cbn in K. split; [exact K|].
  assert (L := flow_value ech_change e_weight (fun s => o_w0 (snd s)) ltac:(intros it s s' R; apply R) _ _ _ F). cbn in L. split; [exact L|].
  assert (C := flow_same ech_change (fun s => (o_dense (snd s), o_GPLU (snd s), o_L (snd s), o_complete (snd s), o_rounds (snd s))) ltac:(intros it s s' R; apply R) _ _ _ F). cbn in C. injection C as -> -> -> -> ->. repeat split.
Qed.

(** ** dm *)
Definition dm_change (it : item) (st st' : Z * list Z) : Prop :=
  if isopt d_permuted it then fst st' = 112 else if isopt d_verbose it then fst st' = 118 else if isopt d_tabulated it then fst st' = 116
  else if isopt d_image it then exists a, item_arg it = Some a /\ st' = (105, a) else st' = st.
Lemma dm_treats : treats dm_options parse_dm_opt [] d_opts dm_change.
Proof.
  apply treats_ok. intros it [mode mpix] N. unfold dm_change. destruct it as [s a|c a|a].
  - names s ["permuted"; "verbose"; "tabulated"; "image"].
    1-4: destruct a as [a|]; settle N.
    strange.
  - cbn [allowedb getopt_step]. rewrite no_letter by (intros o I; none_of I). reflexivity.
  - settle N.
Qed.

Lemma flow_snoc {T} (R : item -> T -> T -> Prop) it : forall cmd st st', flow R (cmd ++ [it]) st st' -> exists s, flow R cmd st s /\ R it s st'.
Proof.
  induction cmd as [|i cmd IH]; intros st st' F; cbn [app flow] in F |- *.
  - destruct F as (s & F1 & ->). eauto.
  - destruct F as (s & F1 & F2). destruct (IH _ _ F2) as (s' & F3 & F4). exists s'. split; [|auto]. exists s. auto.
Qed.
Lemma chosen_nil o : ~ chosen [] o.
Proof. intros (b & it & a & E & _). destruct b; discriminate E. Qed.
Lemma chosen_snoc cmd it o : chosen (cmd ++ [it]) o <-> isopt o it = true \/ (forall o', In o' d_opts -> isopt o' it = false) /\ chosen cmd o.
Proof.
  split.
  - intros (b & i & a & E & H & L). destruct a as [|x a _] using rev_ind.
    + apply app_inj_tail in E as [-> ->]. auto.
    + rewrite app_comm_cons, app_assoc in E. apply app_inj_tail in E as [-> ->]. right. split; [intros o' I; apply L; [apply in_or_app; right; now left|auto]|].
      exists b, i, a. split; [auto|]. split; [auto|]. intros it' o' I. apply L. apply in_or_app. now left.
  - intros [H|[H (b & i & a & -> & H1 & H2)]].
    + exists cmd, it, []. split; [auto|]. split; [auto|]. intros it' o' [].
    + exists b, i, (a ++ [it]). split; [now rewrite <- app_assoc|]. split; [auto|]. intros it' o' I I'. apply in_app_or in I as [I|[<-|[]]]; auto.
Qed.
Lemma last_arg_snoc o it cmd : last_arg o (cmd ++ [it]) = match (if isopt o it then item_arg it else None) with Some a => Some a | None => last_arg o cmd end.
Proof.
  induction cmd as [|i cmd IH]; cbn [app last_arg]; [destruct (isopt o it); [|auto]; destruct (item_arg it); auto|].
  rewrite IH. destruct (if isopt o it then item_arg it else None); auto.
Qed.
Lemma d_distinct it o o' : In o d_opts -> In o' d_opts -> isopt o it = true -> isopt o' it = true -> o = o'.
Proof.
  intros I I' H H'. destruct it as [s a|c a|a].
  - cbn in I, I'. decompose [or] I; try contradiction; subst o; decompose [or] I'; try contradiction; subst o'; cbn in H, H'; try reflexivity; apply String.eqb_eq in H, H'; subst; discriminate H'.
  - cbn in I. decompose [or] I; try contradiction; subst o; discriminate H.
  - cbn in I. decompose [or] I; try contradiction; subst o; discriminate H.
Qed.
Lemma dm_flow cmd : forall st', flow dm_change cmd (112, []) st' ->
  (fst st' = 118 <-> chosen cmd d_verbose) /\ (fst st' = 116 <-> chosen cmd d_tabulated) /\ (fst st' = 105 <-> chosen cmd d_image) /\
  (fst st' = 112 <-> chosen cmd d_permuted \/ forall o, In o d_opts -> ~ given o cmd) /\ (fst st' = 105 -> last_arg d_image cmd = Some (snd st')).
Proof.
  induction cmd as [|it cmd IH] using rev_ind; intros st' F.
  - cbn in F. subst st'. cbn [fst snd]. repeat split; intros H; try discriminate H; try (exfalso; now apply chosen_nil in H); auto. right. intros o _ (i & [] & _).
  - destruct (flow_snoc _ _ _ _ _ F) as (s & F1 & F2). specialize (IH _ F1). rewrite !chosen_snoc, last_arg_snoc. clear F F1. unfold dm_change in F2.
    assert (D : forall o o', In o d_opts -> In o' d_opts -> isopt o it = true -> o <> o' -> isopt o' it = false).
    { intros o o' I I' H NE. destruct (isopt o' it) eqn:E; [|auto]. exfalso. apply NE. now apply (d_distinct it). }
    assert (G : forall o, In o d_opts -> isopt o it = true -> ~ forall o, In o d_opts -> ~ given o (cmd ++ [it])).
    { intros o I H X. apply (X o I). exists it. split; [apply in_or_app; right; now left|auto]. }
    assert (Ip : In d_permuted d_opts) by (cbn; tauto). assert (Iv : In d_verbose d_opts) by (cbn; tauto). assert (It : In d_tabulated d_opts) by (cbn; tauto). assert (Ii : In d_image d_opts) by (cbn; tauto).
    assert (K : forall o, In o d_opts -> isopt o it = true -> ~ forall o', In o' d_opts -> isopt o' it = false) by (intros o I H X; rewrite (X o I) in H; discriminate).
    destruct (isopt d_permuted it) eqn:Ep; [|destruct (isopt d_verbose it) eqn:Ev; [|destruct (isopt d_tabulated it) eqn:Et; [|destruct (isopt d_image it) eqn:Ei]]].
    + specialize (K _ Ip Ep). specialize (G _ Ip Ep). rewrite (D _ d_verbose Ip Iv Ep), (D _ d_tabulated Ip It Ep), (D _ d_image Ip Ii Ep) by discriminate. rewrite F2. intuition congruence.
    + specialize (K _ Iv Ev). specialize (G _ Iv Ev). rewrite (D _ d_tabulated Iv It Ev), (D _ d_image Iv Ii Ev) by discriminate. rewrite F2. intuition congruence.
    + specialize (K _ It Et). specialize (G _ It Et). rewrite (D _ d_image It Ii Et) by discriminate. rewrite F2. intuition congruence.
    + specialize (K _ Ii Ei). specialize (G _ Ii Ei). destruct F2 as (a & Ea & ->). rewrite Ea. cbn [fst snd]. intuition congruence.
    + subst st'. assert (Nn : forall o', In o' d_opts -> isopt o' it = false) by (intros o' I; cbn in I; decompose [or] I; try contradiction; subst o'; auto).
      assert (GG : (forall o, In o d_opts -> ~ given o (cmd ++ [it])) <-> (forall o, In o d_opts -> ~ given o cmd)).
      { split; intros X o I (i & J & H); apply (X o I); [exists i; split; [apply in_or_app; now left|auto]|]. apply in_app_or in J as [J|[<-|[]]]; [exists i; auto|]. rewrite (Nn o I) in H. discriminate H. }
      rewrite GG. intuition congruence.
Qed.
Theorem parse_dm_ok cmd : match parse_dm cmd with
  | Ok (Some (mode, mpix)) => Forall (allowed d_opts) cmd /\ (mode = 118 <-> chosen cmd d_verbose) /\ (mode = 116 <-> chosen cmd d_tabulated) /\ (mode = 105 <-> chosen cmd d_image) /\
      (mode = 112 <-> chosen cmd d_permuted \/ forall o, In o d_opts -> ~ given o cmd) /\ (mode = 105 -> last_arg d_image cmd = Some mpix)
  | Ok None => ~ Forall (allowed d_opts) cmd
  | Fail _ => False end.
Proof.
  assert (N : ints [] cmd) by (intros it o a _ []). pose proof (getopt_ok _ _ _ _ _ dm_treats cmd (112, []) N) as H. fold (parse_dm cmd) in H.
  destruct (parse_dm cmd) as [[[mode mpix]|]|e]; [|auto|auto]. destruct H as [H F]. split; [auto|]. exact (dm_flow cmd (mode, mpix) F).
Qed.

(** ** bitmap *)
Definition bitmap_change (it : item) (st st' : Z * Z * option (list Z) * bool) : Prop :=
  changes b_width it (fst (fst (fst st))) (fst (fst (fst st'))) /\ changes b_height it (snd (fst (fst st))) (snd (fst (fst st'))) /\
  (if isopt b_mpixels it then exists a, item_arg it = Some a /\ snd (fst st') = Some a else snd (fst st') = snd (fst st)) /\ snd st' = snd st || isopt b_gray it.
Lemma bitmap_treats : treats bitmap_options parse_bitmap_opt [b_width; b_height] b_opts bitmap_change.
Proof.
  apply treats_ok. intros it [[[w h] mpix] gray] N. unfold bitmap_change, changes. destruct it as [s a|c a|a].
  - names s ["gray"; "width"; "height"; "mpixels"].
    1-4: destruct a as [a|]; settle N.
    strange.
  - cbn [allowedb getopt_step]. rewrite no_letter by (intros o I; none_of I). reflexivity.
  - settle N.
Qed.
Theorem parse_bitmap_ok cmd : ints [b_width; b_height] cmd -> match parse_bitmap cmd with
  | Ok (Some (w, h, mpix, gray)) => Forall (allowed b_opts) cmd /\ value b_width cmd (-1) w /\ value b_height cmd (-1) h /\ mpix = last_arg b_mpixels cmd /\ (gray = true <-> given b_gray cmd)
  | Ok None => ~ Forall (allowed b_opts) cmd
  | Fail _ => False end.
Proof.
  intros N. pose proof (getopt_ok _ _ _ _ _ bitmap_treats cmd (-1, -1, None, false) N) as H. fold (parse_bitmap cmd) in H.
  destruct (parse_bitmap cmd) as [[[[[w h] mpix] gray]|]|e]; [|auto|auto]. destruct H as [H F]. split; [auto|].
  assert (V := flow_value bitmap_change b_width (fun s => fst (fst (fst s))) ltac:(intros it s s' R; apply R) _ _ _ F). cbn in V. split; [exact V|].
  assert (W := flow_value bitmap_change b_height (fun s => snd (fst (fst s))) ltac:(intros it s s' R; apply R) _ _ _ F). cbn in W. split; [exact W|].
  assert (A := flow_arg bitmap_change b_mpixels (fun s => snd (fst s)) ltac:(intros it s s' R; apply R) _ _ _ F). cbn in A. split; [rewrite A; now destruct (last_arg b_mpixels cmd)|].
  assert (B := flow_flag bitmap_change b_gray snd ltac:(intros it s s' R; apply R) _ _ _ F). cbn in B. rewrite B. apply given_ok.
Qed.

(** ** check_cert *)
Definition upd_check (it : item) (x : option (list Z)) : option (list Z) := orelse k_cert it x.
Definition chk_change (it : item) (st st' : args (option (list Z))) : Prop :=
  (if isopt o_matrix it then exists a, item_arg it = Some a /\ a_file st' = Some a else a_file st' = a_file st) /\ changes o_modulus it (a_prime st) (a_prime st') /\
  (if isopt k_cert it then exists a, item_arg it = Some a /\ a_own st' = Some a else a_own st' = a_own st).
Lemma chk_step it st : numeric [it] -> if properb k_opts it then exists st', dispatch [(check_options, parse_check_opt); (input_options, parse_input_opt)] it st = Ok (Some st') /\ chk_change it st st'
  else dispatch [(check_options, parse_check_opt); (input_options, parse_input_opt)] it st = Ok None.
Proof.
  intros N. destruct st as [fl pr o own0]. destruct it as [s a|c a|a].
  - names s ["certificate"; "matrix"; "modulus"]. 1-3: destruct a as [a|]; unfold chk_change; finish N.
    rewrite no_name by (intros o' I; none_of I). unfold dispatch, find_option, check_options, input_options. cbn [find ao_name]. repeat (rewrite (proj2 (String.eqb_neq _ _)) by congruence). reflexivity.
  - letters c [99; 109; 112]. 1-3: destruct a as [a|]; unfold chk_change; finish N.
    unfold dispatch, find_option, check_options, input_options. cbn [find ao_key]. rewrite !(fun x y H => proj2 (Z.eqb_neq x y) (not_eq_sym H)) by assumption. cbn [andb].
    unfold properb, k_opts, k_cert, o_matrix, o_modulus. cbn -[Z.eqb]. rewrite !(proj2 (Z.eqb_neq _ c)) by congruence. reflexivity.
  - reflexivity.
Qed.
Theorem parse_check_ok cmd : numeric cmd -> match parse_check cmd with
  | Ok (Some a) => Forall (proper k_opts) cmd /\ a_file a = last_arg o_matrix cmd /\ value o_modulus cmd 42013 (a_prime a) /\ a_own a = last_arg k_cert cmd
  | Ok None => ~ Forall (proper k_opts) cmd
  | Fail _ => False end.
Proof.
  intros N. assert (H : match parse_check cmd with Ok (Some a) => Forall (proper k_opts) cmd /\ flow chk_change cmd (Args None 42013 init_opts None) a | Ok None => ~ Forall (proper k_opts) cmd | Fail _ => False end).
  { unfold parse_check. generalize (Args None 42013 init_opts (@None (list Z))). induction cmd as [|it cmd IH]; intros st; cbn [argp_parse].
    - split; [constructor|reflexivity].
    - pose proof (chk_step it st) as S. assert (Ni : numeric [it]) by (intros i a [<-|[]]; apply N; now left). assert (Nc : numeric cmd) by (intros i a I; apply N; now right). specialize (S Ni).
      destruct (properb k_opts it) eqn:E.
      + destruct S as (s & -> & S). cbn [bind]. specialize (IH Nc s). destruct (argp_parse _ cmd s) as [[a|]|e]; [| |auto].
        * destruct IH as [Q F]. split; [constructor; [now apply properb_ok|auto]|]. exists s. auto.
        * intros F. inversion F; auto.
      + rewrite S. cbn [bind]. intros F. inversion F as [|? ? P]; subst. apply properb_ok in P. congruence. }
  destruct (parse_check cmd) as [[a|]|e]; [|auto|auto]. destruct H as [H F]. split; [auto|].
  assert (A := flow_arg chk_change o_matrix a_file ltac:(intros it s s' R; apply R) _ _ _ F). cbn in A. split; [rewrite A; now destruct (last_arg o_matrix cmd)|].
  assert (V := flow_value chk_change o_modulus a_prime ltac:(intros it s s' R; apply R) _ _ _ F). cbn in V. split; [exact V|].
  assert (B := flow_arg chk_change k_cert a_own ltac:(intros it s s' R; apply R) _ _ _ F). cbn in B. rewrite B. now destruct (last_arg k_cert cmd).
Qed.
