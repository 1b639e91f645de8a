(** Files in which the entries at a position cancel. *)
From Verif Require Import Base BaseFacts Spec SpecFacts SpecElim SpecRank SpecText SpecTools SpecSha ShaHash Zp Mat MatFacts RowList CompressProofs TransposeProofs MatProofs ExtractProofs EchInv Zeroes
  Stdio IO IOProofs IOSave IOHash TextChecks Tools ToolsProofs AnyProofs TriProofs.

(* the rows of the loaded matrix, up to the first one with a cancellation *)
Lemma compress_upto g T n m es p : ok_modulus p -> reloaded n m p (map from0 es) T ->
  sat (Mat.compress g T) (fun A => wf A /\ cn A = n /\ cm A = m /\ cprime A = p /\ no_zero A /\ nnz A <= len es /\
    forall r, calm p r es -> forall i j, 1 <= i <= Z.min r n -> 1 <= j <= m -> cong p (entry A (i - 1) (j - 1)) (fentry es i j)).
Proof.
  intros Hp (W & En & Em & Ep & Hv & TL).
  assert (P2 : 2 <= p) by (unfold ok_modulus in Hp; lia). replace (p =? -1) with false in * by lia. cbn [negb] in *.
  assert (TE : forall i j, cong p (tentry T i j) (fentry es (i + 1) (j + 1))).
  { intros i j. rewrite tentry_tcoef, TL, <- fentry_from0. now apply tcoef_kept. }
  assert (TI : forall i j v, In (i, j, v) (tlist T) -> exists x, In (i + 1, j + 1, x) es /\ v = bal p x /\ bal p x <> 0).
  { intros i j v H. rewrite TL in H. apply In_kept in H as (x & H & E). exists x. split; [|exact E]. apply in_map_iff in H as ([[a b] y] & E1 & H). cbn in E1. injection E1 as <- <- <-.
    now replace (a - 1 + 1) with a by lia; replace (b - 1 + 1) with b by lia. }
  assert (Wz : 0 <= tnz T) by (destruct W as (? & ? & ? & _); lia).
  assert (LT : tnz T <= len es). { rewrite <- (len_tlist T) by lia. rewrite TL. rewrite <- (len_map from0 es). apply keeps_len. }
  assert (Hx : tx T <> None) by (intros E; unfold has_values in Hv; rewrite E in Hv; discriminate).
  assert (Hb : forall k, 0 <= k < tnz T -> balanced (tprime T) (tval T k)).
  { intros k Hk. rewrite Ep. destruct (TI _ _ _ (In_tlist T k Hk)) as (x & _ & -> & _). now apply bal_balanced. }
  eapply sat_mono; [apply sat_and; [apply (compress_any g T W); lia|apply sat_and; [apply (compress_safe g T W); lia|apply (compress_prefix g T W); auto; lia]]|].
  intros C ((W1 & N1 & M1 & P1 & Z1) & (_ & _ & _ & _ & _ & NZ) & HE). split; [auto|]. split; [lia|]. split; [lia|]. split; [lia|]. split; [auto|]. split; [lia|].
  intros r NC i j Hi Hj. replace (fentry es i j) with (fentry es (i - 1 + 1) (j - 1 + 1)) by (f_equal; lia). rewrite <- Ep. eapply cong_trans; [apply (HE (r - 1))|rewrite Ep; apply TE]; try lia.
  rewrite Ep. intros a b Ha (k & Hk & <- & <-) H. destruct (TI _ _ _ (In_tlist T k Hk)) as (x & Hx' & _ & Hb'). apply (NC _ _ x Hx').
  - lia.
  - intros E. apply Hb'. apply (balanced_unique p); auto; [now apply bal_balanced|apply balanced_0; lia|]. eapply cong_trans; [now apply bal_cong|exact E].
  - eapply cong_trans; [apply cong_sym, TE|exact H].
Qed.
Lemma load_upto gs g f n m es p hash : ok_modulus p -> matrix_file f n m es -> (forall md, hash = Some md -> len md = 32) ->
  sat (load_csr gs g f p hash) (fun '(A, h) => h = option_map (fun _ => sha256 f) hash /\ wf A /\ cn A = n /\ cm A = m /\ cprime A = p /\ no_zero A /\ nnz A <= len es /\
    forall r, calm p r es -> forall i j, 1 <= i <= Z.min r n -> 1 <= j <= m -> cong p (entry A (i - 1) (j - 1)) (fentry es i j)).
Proof.
  intros Hp F Hmd. unfold load_csr. apply sat_bind. eapply sat_mono; [apply (load_file gs (g 0) f n m es p hash F Hmd)|]. intros [T h] (R & Eh).
  apply sat_bind. eapply sat_mono; [apply (compress_upto _ T n m es p Hp R)|]. intros A HA. cbn [sat]. split; auto.
Qed.

(** ** Checking a rank by hand *)
Lemma frank_1 p n m M i0 j0 (c : Z -> Z) : 2 <= p -> 0 <= i0 < n -> 0 <= j0 < m -> M i0 j0 = 1 -> (forall i j, 0 <= i < n -> 0 <= j < m -> M i j = c i * M i0 j) -> frank p n m M 1.
Proof.
  intros Hp Hi Hj E1 HM. split; [lia|]. exists (fun _ => M i0). assert (S1 : forall f : Z -> Z, sum 0 1 f = f 0) by (intros f; change 1 with (0 + 1); rewrite sum_S by lia; rewrite sum_empty by lia; lia). split; [|split].
  - intros x Hx i Hi1. assert (i = 0) as -> by lia. specialize (Hx j0 Hj). rewrite S1, E1, Z.mul_1_r in Hx. exact Hx.
  - intros k Hk. exists (fun i => if i =? i0 then 1 else 0). intros j Hj1. rewrite (sum_pick _ _ _ i0), sum_zero by (auto; intros k' _; destruct (k' =? i0); lia). rewrite Z.eqb_refl. apply cong_eq. lia.
  - intros i Hi1. exists (fun _ => c i). intros j Hj1. rewrite S1. apply cong_eq. symmetry. auto.
Qed.
Lemma one_row (l : list (Z * Z)) : NoDup (map fst l) -> Forall (fun e => fst e = 0) l -> len l <= 1.
Proof.
  intros N H. destruct l as [|[a b] [|[c d] l]]; [cbn; lia|cbn; lia|exfalso]. inversion H as [|? ? H1 H2]; subst. inversion H2 as [|? ? H3 H4]; subst. cbn [map fst] in *. inversion N as [|? ? N1 N2]; subst. apply N1. now left.
Qed.
