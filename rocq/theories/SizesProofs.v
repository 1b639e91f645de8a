(** Proofs about Sizes.v. *)
From Verif Require Import Base BaseFacts IO Datatype Sizes.
From Coq Require Import ZifyBool.

(* dimensions for which no size overflows *)
Record fits (e : vars) : Prop := {
  f_n : 0 <= v_n e /\ 3 * v_n e < 2 ^ 31;
  f_m : 0 <= v_m e /\ 3 * v_m e < 2 ^ 31;
  f_Sm : 0 <= v_Sm e <= v_m e;
  f_blk : 0 <= v_blk e < 2 ^ 30;
  f_r : 0 <= v_r e <= v_n e /\ v_r e <= v_Sm e /\ v_r e <= v_blk e;
  f_Xm : 0 <= v_Xm e < 2 ^ 31;
  f_ab : 0 <= v_a e <= v_b e /\ v_b e < 2 ^ 31;
  f_xy : 0 <= v_x e < 2 ^ 31 /\ 0 <= v_y e < 2 ^ 31 /\ v_x e * v_y e < 2 ^ 31;
  f_Sn : 0 <= v_Sn e <= 128;
  f_nz : 0 <= v_nz e < 2 ^ 60;
  f_nzmax : 0 <= v_nzmax e < 2 ^ 60 }.

(* v is a value of type t *)
Definition okv (t : cty) (v : Z) : Prop :=
  match t with Cint => - 2 ^ 31 <= v < 2 ^ 31 | Ci64 => - 2 ^ 63 <= v < 2 ^ 63 | Csize => 0 <= v < 2 ^ 64 end.
Lemma norm_ok t v : okv t v -> norm t v = Ok v.
Proof. destruct t; cbn [okv norm]; intros H; [now replace ((- 2 ^ 31 <=? v) && (v <? 2 ^ 31)) with true by lia|now replace ((- 2 ^ 63 <=? v) && (v <? 2 ^ 63)) with true by lia|now rewrite Z.mod_small]. Qed.
Lemma conv_ok t v : okv t v -> conv t v = v.
Proof. destruct t; cbn [okv conv]; intros H; auto. now rewrite Z.mod_small. Qed.
Lemma binop_ok f s t x y : okv (join s t) x -> okv (join s t) y -> okv (join s t) (f x y) -> binop f (s, x) (t, y) = Ok (join s t, f x y).
Proof. intros H1 H2 H3. unfold binop. cbn [fst snd]. rewrite (conv_ok _ x H1), (conv_ok _ y H2), (norm_ok _ _ H3). reflexivity. Qed.
Lemma num_ok t v : eval (Num t v) = Ok (t, v).
Proof. reflexivity. Qed.
Lemma add_ok a b s t x y : eval a = Ok (s, x) -> eval b = Ok (t, y) -> okv (join s t) x /\ okv (join s t) y /\ okv (join s t) (x + y) -> eval (Add a b) = Ok (join s t, x + y).
Proof. intros Ha Hb (H1 & H2 & H3). cbn [eval]. rewrite Ha, Hb. cbn [bind]. now apply binop_ok. Qed.
Lemma sub_ok a b s t x y : eval a = Ok (s, x) -> eval b = Ok (t, y) -> okv (join s t) x /\ okv (join s t) y /\ okv (join s t) (x - y) -> eval (Sub a b) = Ok (join s t, x - y).
Proof. intros Ha Hb (H1 & H2 & H3). cbn [eval]. rewrite Ha, Hb. cbn [bind]. now apply binop_ok. Qed.
Lemma mul_ok a b s t x y : eval a = Ok (s, x) -> eval b = Ok (t, y) -> okv (join s t) x /\ okv (join s t) y /\ okv (join s t) (x * y) -> eval (Mul a b) = Ok (join s t, x * y).
Proof. intros Ha Hb (H1 & H2 & H3). cbn [eval]. rewrite Ha, Hb. cbn [bind]. now apply binop_ok. Qed.
Lemma half_ok a s x : eval a = Ok (s, x) -> 0 <= x /\ okv s x -> eval (Half a) = Ok (s, x / 2).
Proof.
  intros Ha [H0 H]. cbn [eval]. rewrite Ha. cbn [bind fst snd]. rewrite Z.quot_div_nonneg by lia. rewrite norm_ok; [reflexivity|].
  assert (0 <= x / 2 <= x). { split; [apply Z.div_pos; lia|apply Z.div_le_upper_bound; lia]. } destruct s; cbn [okv] in *; lia.
Qed.
Lemma cast_ok a s x : eval a = Ok (s, x) -> okv Ci64 x -> eval (Cast Ci64 a) = Ok (Ci64, x).
Proof. intros Ha H. cbn [eval]. rewrite Ha. cbn [bind snd okv] in *. rewrite Z.mod_small by lia. f_equal. f_equal. lia. Qed.
Lemma argument_ok a s x y : eval a = Ok (s, x) -> okv Ci64 x -> x = y -> argument a = Ok y.
Proof. intros Ha H <-. unfold argument. rewrite (cast_ok a s x Ha H). reflexivity. Qed.
Lemma dt_size d : datatype_size d = cell_bits d / 8 /\ (cell_bits d / 8 = 4 \/ cell_bits d / 8 = 8).
Proof. destruct d; cbn; auto. Qed.
Ltac side := cbn [okv join]; unfold sz_int, sz_zzp, sz_i64, sz_size, sz_bool, sz_char in *; repeat split; lia.
Ltac ev := lazymatch goal with |- eval ?a = _ => lazymatch a with
  | Num _ _ => apply num_ok | Add _ _ => eapply add_ok; [ev|ev|side] | Sub _ _ => eapply sub_ok; [ev|ev|side] | Mul _ _ => eapply mul_ok; [ev|ev|side]
  | Cast _ _ => eapply cast_ok; [ev|side] | Half _ => eapply half_ok; [ev|side] end end.
Ltac site := unfold int, i64v, sizeof; eapply argument_ok; [ev|side|side].

Theorem byte_sites_ok e : fits e -> Forall (fun '(_, s, cells, width) => argument s = Ok (cells * width)) (byte_sites e).
Proof.
  intros [[Hn0 Hn] [Hm0 Hm] HSm Hblk (Hr & HrS & Hrb) HX Hab (Hx & Hy & Hxy) HSn Hnz Hnx].
  assert (Pxy : 0 <= v_x e * v_y e) by nia. assert (PSn : 0 <= v_Sn e * v_Sm e <= 128 * 2 ^ 30) by nia. assert (Pb : 0 <= v_blk e * v_Sm e <= 2 ^ 30 * 715827882) by nia.
  unfold byte_sites. repeat apply Forall_cons; try apply Forall_nil; try (site; fail).
  all: destruct (dt_size (v_dt e)) as [E [D|D]]; rewrite E, D; site.
Qed.

Theorem entry_sites_ok e : fits e -> Forall (fun '(_, s, k) => argument s = Ok k) (entry_sites e).
Proof.
  intros [[Hn0 Hn] [Hm0 Hm] HSm Hblk (Hr & HrS & Hrb) HX Hab _ HSn Hnz Hnx].
  assert (P1 : 0 <= v_n e * v_r e <= 2 ^ 60) by nia. assert (P2 : 0 <= v_Xm e * v_n e <= 2 ^ 61) by nia.
  assert (P3 : 0 <= (1 + v_Sm e - v_r e) * v_r e <= 2 ^ 61) by nia. assert (P4 : 0 <= (1 + 2 * v_Sm e - v_r e) * v_r e <= 2 ^ 62) by nia.
  assert (P5 : 0 <= (2 * v_blk e - v_r e + 1) * v_r e <= 2 ^ 62) by nia.
  assert (P6 : 0 <= (2 * v_blk e - v_r e + 1) * v_r e / 2 <= 2 ^ 62) by (split; [apply Z.div_pos; lia|apply Z.div_le_upper_bound; lia]).
  unfold entry_sites. repeat apply Forall_cons; try apply Forall_nil; try (site; fail).
  replace (v_r e * (2 * v_blk e - v_r e + 1)) with ((2 * v_blk e - v_r e + 1) * v_r e) by ring. site.
Qed.

Theorem workspace_overflow e : 715827883 <= v_m e -> v_m e < 2 ^ 31 -> exists w s cells width, In (w, s, cells, width) (byte_sites e) /\ cells = 3 * v_m e /\ width = 4 /\ argument s = Fail Overflow.
Proof.
  intros H1 H2. eexists _, (Mul (Mul (int 3) (int (v_m e))) (sizeof sz_int)), (3 * v_m e), 4.
  split; [unfold byte_sites; do 17 right; left; reflexivity|]. split; [reflexivity|]. split; [reflexivity|].
  unfold argument, int, sizeof. cbn [eval bind binop join fst snd conv norm]. unfold binop. cbn [join fst snd conv norm].
  replace ((- 2 ^ 31 <=? 3 * v_m e) && (3 * v_m e <? 2 ^ 31)) with false by lia. reflexivity.
Qed.
