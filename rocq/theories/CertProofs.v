(** Proofs about src/spasm_certificate.c. *)
From Verif Require Import Base BaseFacts Spec SpecFacts Zp ZpFacts Mat MatFacts RowList VecProofs TriProofs LinAlg Solve SolveProofs Counting
  SpecSha ShaHash SpecPrng Prng PrngProofs PrngDraw DenseProofs4 Cert.

Lemma outs_for {S} (Inv : Z -> S -> Prop) (Q : S -> Prop) (F : err -> Prop) (body : Z -> S -> res S) lo hi s : lo <= hi -> Inv lo s ->
  (forall i s, lo <= i < hi -> Inv i s -> outs (body i s) (fun s' => Inv (i + 1) s') F) ->
  (forall s, Inv hi s -> Q s) -> outs (for_ lo hi body s) Q F.
Proof.
  intros Hle H0 Hs HQ. unfold for_.
  assert (G : forall k i s, lo <= i -> i + Z.of_nat k = hi -> Inv i s -> outs (for_nat k i body s) Q F).
  { induction k as [|k IH]; intros i t Hi E HI; cbn [for_nat].
    - cbn [outs]. apply HQ. now replace hi with i by lia.
    - apply outs_bind. eapply outs_mono; [apply Hs; [lia|exact HI]|]. intros t' HI'. apply IH; auto; lia. }
  apply G; auto; lia.
Qed.

Lemma outs_imp {T} (r : res T) (Q Q' : T -> Prop) (F F' : err -> Prop) : outs r Q F -> (forall a, Q a -> Q' a) -> (forall e, F e -> F' e) -> outs r Q' F'.
Proof. destruct r; cbn; auto. Qed.

Lemma set_all_ok n v x : 0 <= n <= len x -> sat (set_all n v x) (fun x' => len x' = len x /\ forall i, 0 <= i < n -> get x' i = v).
Proof.
  intros Hn. unfold set_all. apply (for_spec (fun k x' => len x' = len x /\ forall i, 0 <= i < k -> get x' i = v)); [lia|split; [auto|lia]| |auto].
  intros k x' Hk (L & E). apply sat_aset; [lia|]. len. split; [auto|]. intros i Hi. rewrite get_upd_in by lia. destruct (Z.eqb_spec k i); [auto|apply E; lia].
Qed.
(* what a cell holds after x[idx[k]] = v[k] for k = 0, ..., r - 1 *)
Fixpoint putn (idx v : list Z) (d : Z -> Z) (r : nat) (i : Z) : Z :=
  match r with O => d i | S r => if get idx (Z.of_nat r) =? i then get v (Z.of_nat r) else putn idx v d r i end.
Definition putf (r : Z) (idx v : list Z) (d : Z -> Z) (i : Z) : Z := putn idx v d (Z.to_nat r) i.
Lemma putf_S r idx v d i : 0 <= r -> putf (r + 1) idx v d i = if get idx r =? i then get v r else putf r idx v d i.
Proof. intros. unfold putf. replace (Z.to_nat (r + 1)) with (S (Z.to_nat r)) by lia. cbn [putn]. rewrite Z2Nat.id by lia. reflexivity. Qed.
Lemma putf_out r idx v d i : 0 <= r -> (forall k, 0 <= k < r -> get idx k <> i) -> putf r idx v d i = d i.
Proof.
  intros Hr. pattern r. apply (range_ind _ 0 r); [reflexivity| |lia]. intros k Hk IH H. rewrite putf_S by lia.
  destruct (Z.eqb_spec (get idx k) i) as [E|E]; [exfalso; apply (H k); auto; lia|]. apply IH. intros; apply H; lia.
Qed.
Lemma putf_in r idx v d k : 0 <= k < r -> (forall k', k < k' < r -> get idx k' <> get idx k) -> putf r idx v d (get idx k) = get v k.
Proof.
  intros Hk. pattern r. apply (range_ind _ (k + 1) r); [| |lia].
  - intros _. rewrite putf_S, Z.eqb_refl by lia. reflexivity.
  - intros t Ht IH H. rewrite putf_S by lia. destruct (Z.eqb_spec (get idx t) (get idx k)) as [E|E]; [exfalso; apply (H t); auto; lia|]. apply IH. intros; apply H; lia.
Qed.
Lemma putf_ext r idx v d d' i : 0 <= r -> d i = d' i -> putf r idx v d i = putf r idx v d' i.
Proof. intros Hr E. pattern r. apply (range_ind _ 0 r); [exact E| |lia]. intros k Hk IH. now rewrite !putf_S, IH by lia. Qed.
Lemma put_at_ok r idx v x : 0 <= r -> r <= len idx -> r <= len v -> (forall k, 0 <= k < r -> 0 <= get idx k < len x) ->
  sat (put_at r idx v x) (fun x' => len x' = len x /\ forall i, get x' i = putf r idx v (get x) i).
Proof.
  intros Hr Li Lv Hx. unfold put_at. apply (for_spec (fun t x' => len x' = len x /\ forall i, get x' i = putf t idx v (get x) i)); [lia|split; auto| |auto].
  intros t x' Ht (L & E). pose proof (Hx t Ht). wp; try lia. len. split; [auto|]. intros i. rewrite putf_S, get_upd_in, E by lia. reflexivity.
Qed.
Lemma get_at_ok r idx x v : 0 <= r -> r <= len idx -> r <= len v -> (forall k, 0 <= k < r -> 0 <= get idx k < len x) ->
  sat (get_at r idx x v) (fun v' => len v' = len v /\ forall k, 0 <= k < r -> get v' k = get x (get idx k)).
Proof.
  intros Hr Li Lv Hx. unfold get_at. apply (for_spec (fun t v' => len v' = len v /\ forall k, 0 <= k < t -> get v' k = get x (get idx k))); [lia|split; [auto|lia]| |auto].
  intros t v' Ht (L & E). pose proof (Hx t Ht). wp; try lia. len. split; [auto|]. intros k Hk. rewrite get_upd_in by lia. destruct (Z.eqb_spec t k); [congruence|apply E; lia].
Qed.
Lemma cert_i_ok pr r ii : 0 <= r <= len pr -> r <= len ii -> sat (cert_i pr r ii) (fun ii' => len ii' = len ii /\ forall k, 0 <= k < r -> get ii' k = get pr k).
Proof.
  intros Hr Li. unfold cert_i. apply (for_spec (fun t v' => len v' = len ii /\ forall k, 0 <= k < t -> get v' k = get pr k)); [lia|split; [auto|lia]| |auto].
  intros t v' Ht (L & E). wp; try lia. len. split; [auto|]. intros k Hk. rewrite get_upd_in by lia. destruct (Z.eqb_spec t k); [congruence|apply E; lia].
Qed.
Lemma cert_j_ok p U qinv jj : wf U -> upper p U qinv -> cn U <= len jj ->
  sat (cert_j qinv (cm U) jj) (fun '(jj', k) => k = cn U /\ len jj' = len jj /\
    (forall t, 0 <= t < cn U -> 0 <= get jj' t < cm U /\ 0 <= get qinv (get jj' t)) /\
    (forall t t', 0 <= t < t' -> t' < cn U -> get jj' t < get jj' t')).
Proof.
  intros HU Hup Lj. pose proof (wf_m U HU) as Hm. pose proof (up_len _ _ _ Hup) as Lq. unfold cert_j.
  pose proof (count_pivots p U qinv HU Hup) as Hc.
  set (cnt := fun j => sum 0 j (fun j => if 0 <=? get qinv j then 1 else 0)).
  assert (Hcnt : forall j, 0 <= j <= cm U -> cnt j <= cn U).
  { intros j Hj. rewrite <- Hc, (sum_split j 0 (cm U)) by lia. fold (cnt j). assert (0 <= sum j (cm U) (fun j => if 0 <=? get qinv j then 1 else 0)); [|lia].
    apply sum_nonneg. intros i Hi. destruct (_ <=? _); lia. }
  apply (for_spec (fun j '(jj', k) => k = cnt j /\ 0 <= k /\ len jj' = len jj /\
    (forall t, 0 <= t < k -> 0 <= get jj' t < j /\ 0 <= get qinv (get jj' t)) /\
    (forall t t', 0 <= t < t' -> t' < k -> get jj' t < get jj' t'))).
  - lia.
  - unfold cnt. rewrite sum_empty by lia. do 3 (split; [auto; lia|]). split; intros; lia.
  - intros j [jj' k] Hj (Ek & Hk & L & R & M). apply sat_bind, sat_aget; [lia|].
    assert (Es : cnt (j + 1) = cnt j + if 0 <=? get qinv j then 1 else 0) by (unfold cnt; now rewrite sum_S by lia).
    pose proof (Hcnt (j + 1) ltac:(lia)). destruct (Z.leb_spec 0 (get qinv j)) as [C|C].
    + apply sat_bind, sat_aset; [lia|]. wp. split; [lia|]. split; [lia|]. len. split; [auto|]. split.
      * intros t Ht. rewrite get_upd_in by lia. destruct (Z.eqb_spec k t); [lia|]. destruct (R t); lia.
      * intros t t' Ht Ht'. rewrite !get_upd_in by lia. destruct (Z.eqb_spec k t); [lia|]. destruct (Z.eqb_spec k t'); [apply R; lia|apply M; lia].
    + wp. split; [lia|]. split; [lia|]. split; [auto|]. split; [intros t Ht; destruct (R t); lia|auto].
  - intros [jj' k] (Ek & Hk & L & R & M). unfold cnt in Ek. rewrite Hc in Ek. subst k. auto.
Qed.

Section draws.
Context (seed : list Z) (p b : Z) (Hp : ok_modulus p) (Hs : len seed = 32 /\ bytes seed) (Hb : mask_bits p b) (fuel : nat).
Local Notation at_ := (at_ seed p 0 b).
Local Notation pos := (pos seed p 0 b fuel).
Local Notation al := (al seed p 0 b fuel).
Local Notation good := (good seed p 0 b fuel).
Definition prng_err (e : err) : Prop := e = OutOfFuel \/ e = Overflow.

Lemma challenge_ok gs r jj y ctx : 0 <= r <= len jj -> (forall t, 0 <= t < r -> 0 <= get jj t < len y) ->
  (forall t t', 0 <= t < t' -> t' < r -> get jj t <> get jj t') -> at_ (pos 0) ctx ->
  outs (challenge gs fuel r jj y ctx) (fun '(y', ctx') => len y' = len y /\ at_ (pos r) ctx' /\ (forall k, 0 <= k < r -> good k) /\
    (forall k, 0 <= k < r -> get y' (get jj k) = al k) /\
    (forall j, (forall k, 0 <= k < r -> get jj k <> j) -> get y' j = get y j)) prng_err.
Proof.
  intros Hr Hj Hd A. unfold challenge.
  apply (outs_for (fun r '(y', ctx') => len y' = len y /\ at_ (pos r) ctx' /\ (forall k, 0 <= k < r -> good k) /\
    (forall k, 0 <= k < r -> get y' (get jj k) = al k) /\
    (forall j, (forall k, 0 <= k < r -> get jj k <> j) -> get y' j = get y j))); [lia| | |intros [? ?]; auto].
  - split; [auto|]. split; [auto|]. split; [lia|]. split; [lia|auto].
  - intros k [y' c] Hk (L & A' & G & E1 & E2). pose proof (Hj k Hk). rewrite aget_ok by lia. cbn [bind].
    apply outs_bind. eapply outs_imp; [apply (draw_al seed p 0 b Hs Hb fuel _ k c ltac:(lia) A')| |]; [|intros e [_ He]; exact He].
    intros [v c'] (Gk & -> & A''). rewrite aset_ok by lia. cbn [bind outs]. len. split; [auto|]. split; [auto|]. split.
    { intros t Ht. destruct (Z.eq_dec t k) as [->|]; [auto|apply G; lia]. }
    split.
    + intros t Ht. rewrite get_upd_in by lia. destruct (Z.eqb_spec (get jj k) (get jj t)) as [E|E].
      * destruct (Z.eq_dec t k) as [->|]; [auto|]. exfalso. apply (Hd t k); auto; lia.
      * apply E1. assert (t <> k) by congruence. lia.
    + intros j Hj'. rewrite get_upd_in by lia. destruct (Z.eqb_spec (get jj k) j) as [E|E]; [exfalso; apply (Hj' k); auto; lia|].
      apply E2. intros t Ht. apply Hj'. lia.
Qed.

(* the number of elements to draw before cell i *)
Definition bots (x : Z -> Z) (i : Z) : Z := sum 0 i (fun t => b1 (x t =? BOT)).
Lemma bots_nonneg x i : 0 <= bots x i.
Proof. apply sum_nonneg. intros t Ht. destruct (_ =? _); cbn; lia. Qed.
Lemma bots_S x i : 0 <= i -> bots x (i + 1) = bots x i + b1 (x i =? BOT).
Proof. intros. unfold bots. now rewrite sum_S by lia. Qed.
Lemma bots_ext x x' n i : 0 <= i <= n -> (forall t, 0 <= t < n -> (x t =? BOT) = (x' t =? BOT)) -> bots x i = bots x' i.
Proof. intros Hi H. apply sum_ext. intros t Ht. rewrite H by lia. reflexivity. Qed.

Lemma fill_bot_gen gs f n x ctx K : 0 <= n <= len x -> 0 <= K -> at_ (pos K) ctx ->
  outs (fill_bot gs fuel f n x ctx) (fun '(x', ctx') => len x' = len x /\ at_ (pos (K + bots (get x) n)) ctx' /\
     (forall k, K <= k < K + bots (get x) n -> good k) /\
     (forall i, 0 <= i < n -> get x' i = if get x i =? BOT then f (al (K + bots (get x) i)) else get x i))
    (fun e => prng_err e /\ exists k, K <= k < K + bots (get x) n /\ ~ good k).
Proof.
  intros Hn HK A. unfold fill_bot.
  apply (outs_for (fun i '(x', ctx') => len x' = len x /\ at_ (pos (K + bots (get x) i)) ctx' /\
     (forall k, K <= k < K + bots (get x) i -> good k) /\
     (forall t, i <= t < n -> get x' t = get x t) /\
     (forall t, 0 <= t < i -> get x' t = if get x t =? BOT then f (al (K + bots (get x) t)) else get x t))); [lia| | |].
  - assert (E : bots (get x) 0 = 0) by (unfold bots; now rewrite sum_empty by lia). rewrite E, Z.add_0_r. split; [auto|]. split; [auto|]. split; [lia|]. split; [auto|lia].
  - intros i [x' c] Hi (L & A' & G & E1 & E2). rewrite aget_ok by lia. cbn [bind]. rewrite (E1 i) by lia. pose proof (bots_S (get x) i ltac:(lia)) as ES. pose proof (bots_nonneg (get x) i).
    destruct (Z.eqb_spec (get x i) BOT) as [C|C].
    + replace (get x i =? BOT) with true in ES by lia. cbn [b1] in ES. apply outs_bind. eapply outs_imp; [apply (draw_al seed p 0 b Hs Hb fuel _ (K + bots (get x) i) c ltac:(lia) A')| |].
      * intros [v c'] (Gk & -> & A''). rewrite aset_ok by lia. cbn [bind outs]. len. split; [auto|]. rewrite ES. split; [now rewrite Z.add_assoc|]. split.
        { intros t Ht. destruct (Z.eq_dec t (K + bots (get x) i)) as [->|]; [auto|apply G; lia]. }
        split.
        -- intros t Ht. rewrite get_upd_in by lia. destruct (Z.eqb_spec i t); [lia|apply E1; lia].
        -- intros t Ht. rewrite get_upd_in by lia. destruct (Z.eqb_spec i t) as [<-|]; [|apply E2; lia].
           destruct (Z.eqb_spec (get x i) BOT); [reflexivity|congruence].
      * intros e [Gk He]. split; [exact He|]. exists (K + bots (get x) i). split; [|exact Gk].
        assert (bots (get x) (i + 1) <= bots (get x) n). { unfold bots. rewrite (sum_split (i + 1) 0 n) by lia. assert (0 <= sum (i + 1) n (fun t => b1 (get x t =? BOT))); [|lia]. apply sum_nonneg. intros t Ht. destruct (_ =? _); cbn; lia. }
        lia.
    + replace (get x i =? BOT) with false in ES by lia. cbn [b1] in ES. rewrite ES, Z.add_0_r. cbn [outs]. split; [auto|]. split; [auto|]. split; [auto|]. split; [intros; apply E1; lia|].
      intros t Ht. destruct (Z.eq_dec t i) as [->|]; [|apply E2; lia]. rewrite E1 by lia. destruct (Z.eqb_spec (get x i) BOT); [congruence|reflexivity].
  - intros [x' c] (L & A' & G & E1 & E2). auto.
Qed.

Lemma check_x_ok gs r jj y ctx : 0 <= r <= len jj -> (forall t, 0 <= t < r -> 0 <= get jj t < len y) -> at_ (pos 0) ctx ->
  outs (check_x gs fuel r jj y ctx) (fun '(correct, ctx') => at_ (pos r) ctx' /\ (forall k, 0 <= k < r -> good k) /\
    (correct = true <-> forall k, 0 <= k < r -> get y (get jj k) = al k)) (fun e => prng_err e /\ exists k, 0 <= k < r /\ ~ good k).
Proof.
  intros Hr Hj A. unfold check_x.
  apply (outs_for (fun r '(correct, ctx') => at_ (pos r) ctx' /\ (forall k, 0 <= k < r -> good k) /\
    (correct = true <-> forall k, 0 <= k < r -> get y (get jj k) = al k))); [lia| | |intros [? ?]; auto].
  - split; [auto|]. split; [lia|]. split; [intros; lia|auto].
  - intros k [co c] Hk (A' & G & E). pose proof (Hj k Hk). rewrite !aget_ok by lia. cbn [bind]. rewrite aget_ok by lia. cbn [bind].
    apply outs_bind. eapply outs_imp; [apply (draw_al seed p 0 b Hs Hb fuel _ k c ltac:(lia) A')| |]; [|intros e [Gk He]; split; [exact He|exists k; auto]].
    intros [v c'] (Gk & -> & A''). cbn [outs]. split; [auto|]. split.
    { intros t Ht. destruct (Z.eq_dec t k) as [->|]; [auto|apply G; lia]. }
    destruct (Z.eqb_spec (get y (get jj k)) (al k)) as [C|C].
    + rewrite E. split; intros H0 t Ht; [|apply H0; lia]. destruct (Z.eq_dec t k) as [->|]; [auto|apply H0; lia].
    + split; [discriminate|]. intros H0. exfalso. apply C, H0. lia.
Qed.
End draws.

Section verify.
Context (p : Z) (Hp : ok_modulus p) (A : csr) (HA : wf A) (HAp : cprime A = p) (HAx : cx A <> None).
Context (hash : list Z) (Hs : len hash = 32 /\ bytes hash) (b : Z) (Hb : mask_bits p b) (fuel : nat).
Local Notation pos := (pos hash p 0 b fuel).
Local Notation al := (al hash p 0 b fuel).
Local Notation good := (good hash p 0 b fuel).
Local Notation n := (cn A). Local Notation m := (cm A).

(* the arrays of a certificate have the sizes declared in src/spasm.h:110-118 *)
Record cert_wf (c : cert) : Prop := {
  cw_r : 0 <= c_r c; cw_hash : len (c_hash c) = 32; cw_i : len (c_i c) = c_r c; cw_j : len (c_j c) = c_r c; cw_x : len (c_x c) = c_r c; cw_y : len (c_y c) = c_r c }.
(* the vectors rebuilt by the verifier *)
Definition vx (c : cert) : Z -> Z := putf (c_r c) (c_i c) (c_x c) (fun _ => 0).
Definition vy0 (c : cert) : Z -> Z := putf (c_r c) (c_i c) (c_y c) (fun _ => BOT).
Definition vy (c : cert) (i : Z) : Z := if vy0 c i =? BOT then al (c_r c + bots (vy0 c) i) else vy0 c i.
Definition ranges (c : cert) : Prop := forall k, 0 <= k < c_r c -> 0 <= get (c_i c) k < n /\ 0 <= get (c_j c) k < m.

Lemma spmv_0 x y : n <= len x -> m <= len y -> sat (y <- set_all m 0 y ;; xApy x A y) (fun z => len z = len y /\
  forall j, 0 <= j < m -> cong p (get z j) (xA A (get x) j) /\ balanced p (get z j)).
Proof.
  intros Lx Ly. pose proof (wf_m A HA) as Hm. unfold ok_modulus in Hp. apply sat_bind. eapply sat_mono; [apply set_all_ok; lia|]. intros y0 (L0 & Z0).
  eapply sat_mono. { apply (xApy_ok A HA); try lia; auto. }
  rewrite HAp. intros z (L & C & B & _). split; [lia|]. intros j Hj. split.
  - rewrite C, Z0 by auto. apply cong_eq. unfold xA. ring.
  - destruct (B j) as [E|]; [|auto]. rewrite E, Z0 by auto. apply balanced_0. lia.
Qed.

Lemma in_range_ok c : cert_wf c -> sat (in_range n m c) (fun o => match o with inl _ => ranges c | inr ok => ok = false /\ ~ ranges c end).
Proof.
  intros W. pose proof (cw_r _ W). pose proof (cw_i _ W). pose proof (cw_j _ W). unfold in_range.
  apply (forb_spec (fun k _ => forall t, 0 <= t < k -> 0 <= get (c_i c) t < n /\ 0 <= get (c_j c) t < m)); [lia|lia| |auto].
  intros k _ Hk HI. apply sat_bind, sat_aget; [lia|]. destruct ((get (c_i c) k <? 0) || (n <=? get (c_i c) k)) eqn:E.
  { cbn [sat]. split; [reflexivity|]. intros R. specialize (R k Hk). lia. }
  apply sat_bind, sat_aget; [lia|]. destruct ((get (c_j c) k <? 0) || (m <=? get (c_j c) k)) eqn:E'.
  { cbn [sat]. split; [reflexivity|]. intros R. specialize (R k Hk). lia. }
  cbn [sat]. intros t Ht. destruct (Z.eq_dec t k) as [->|]; [lia|apply HI; lia].
Qed.
Lemma hash_eq_ok c : cert_wf c -> sat (forb 0 32 (fun i (_ : unit) =>
    a <- aget hash i ;; b <- aget (c_hash c) i ;; if a =? b then Ok (inl tt) else Ok (inr false)) tt) (fun o => match o with inl _ => c_hash c = hash | inr ok => ok = false /\ c_hash c <> hash end).
Proof.
  intros W. pose proof (cw_hash _ W) as Lh. destruct Hs as [Ls _].
  apply (forb_spec (fun k _ => forall t, 0 <= t < k -> get hash t = get (c_hash c) t)); [lia|lia| |].
  - intros k _ Hk HI. wp; try lia.
    + intros t Ht. destruct (Z.eq_dec t k) as [->|]; [lia|apply HI; lia].
    + split; [reflexivity|]. intros E'. rewrite E' in *. lia.
  - intros _ HI. apply list_ext; [lia|]. intros i Hi. symmetry. apply HI. lia.
Qed.

Definition needed (c : cert) : Z := c_r c + bots (vy0 c) n.
Theorem verify_full gs c : cert_wf c ->
  outs (rank_verify gs fuel A hash c) (fun ok =>
      (c_hash c = hash -> c_prime c = p -> ranges c -> forall k, 0 <= k < needed c -> good k) /\ (ok = true <-> c_hash c = hash /\ c_prime c = p /\ ranges c /\ (forall k, 0 <= k < needed c -> good k) /\
        (forall k, 0 <= k < c_r c -> cong p (xA A (vx c) (get (c_j c) k)) (al k)) /\
        (forall j, 0 <= j < m -> cong p (xA A (vy c) j) 0)))
    (fun e => prng_err e /\ exists k, 0 <= k < needed c /\ ~ good k).
Proof.
  intros W. pose proof (cw_r _ W) as Hr. pose proof (cw_i _ W). pose proof (cw_j _ W). pose proof (cw_x _ W). pose proof (cw_y _ W).
  pose proof (wf_n A HA) as Hn. pose proof (wf_m A HA) as Hm. pose proof Hp as Hp'. unfold ok_modulus in Hp'.
  unfold rank_verify. apply outs_bind, sat_outs. eapply sat_mono; [apply hash_eq_ok; auto|]. intros [u|ok].
  2:{ intros [-> E]. cbn [outs]. split; [congruence|]. split; [discriminate|]. intros (E' & _). congruence. }
  intros Eh. rewrite HAp. destruct (Z.eqb_spec p (c_prime c)) as [Ep|Ep]; cbn [negb].
  2:{ cbn [outs]. split; [congruence|]. split; [discriminate|]. intros (_ & E' & _). congruence. }
  rewrite <- Ep, Eh. apply outs_bind, sat_outs. eapply sat_mono; [apply in_range_ok; auto|]. intros [u'|ok].
  2:{ intros [-> E]. cbn [outs]. split; [tauto|]. split; [discriminate|]. tauto. }
  intros R. apply outs_bind, sat_outs. eapply sat_mono; [apply (seed_ok hash p 0 b); auto|]. intros ctx A0.
  apply outs_bind, sat_outs. eapply sat_mono; [apply set_all_ok; rewrite len_malloc; lia|]. intros x0 (L0 & Z0). rewrite len_malloc in L0.
  apply outs_bind, sat_outs. eapply sat_mono; [apply put_at_ok; try lia; intros k Hk; specialize (R k Hk); lia|]. intros x1 (L1 & E1).
  assert (V1 : forall i, 0 <= i < n -> get x1 i = vx c i). { intros i Hi. rewrite E1. apply putf_ext; auto. }
  pose proof (spmv_0 x1 (malloc (gs 0 2) m)) as S1. rewrite len_malloc in S1. specialize (S1 ltac:(lia) ltac:(lia)).
  apply outs_bind, sat_outs. eapply sat_mono; [exact (sat_bind_inv _ _ _ S1)|]. clear S1. intros y0 S1.
  apply outs_bind, sat_outs. eapply sat_mono; [exact S1|]. clear S1. intros y1 (Ly1 & Hy1).
  apply outs_bind. eapply outs_imp; [apply (check_x_ok hash p b Hs Hb fuel _ (c_r c) (c_j c) y1 ctx); auto; try lia| |].
  { intros t Ht. specialize (R t Ht). lia. }
  2:{ intros e (He & k & Hk & Gk). split; [exact He|]. exists k. split; [|exact Gk]. unfold needed. pose proof (bots_nonneg (vy0 c) n). lia. }
  intros [correct ctx1] (A1 & G1 & C1).
  apply outs_bind, sat_outs. eapply sat_mono; [apply (set_all_ok n BOT x1); lia|]. intros x2 (L2 & Z2).
  apply outs_bind, sat_outs. eapply sat_mono; [apply put_at_ok; try lia; intros k Hk; specialize (R k Hk); lia|]. intros x3 (L3 & E3).
  assert (V3 : forall i, 0 <= i < n -> get x3 i = vy0 c i). { intros i Hi. rewrite E3. apply putf_ext; auto. }
  assert (Bn : forall i, 0 <= i <= n -> bots (get x3) i = bots (vy0 c) i). { intros i Hi. apply (bots_ext _ _ n); auto. intros t Ht. now rewrite V3. }
  apply outs_bind. eapply outs_imp; [apply (fill_bot_gen hash p b Hs Hb fuel _ (fun v => v) n x3 ctx1 (c_r c)); auto; lia| |].
  2:{ rewrite Bn by lia. intros e (He & k & Hk & Gk). split; [exact He|]. exists k. split; [|exact Gk]. unfold needed. lia. }
  intros [x4 ctx2] (L4 & _ & G2 & E4). rewrite Bn in G2 by lia.
  assert (V4 : forall i, 0 <= i < n -> get x4 i = vy c i). { intros i Hi. rewrite E4, V3, Bn by lia. reflexivity. }
  pose proof (spmv_0 x4 y1 ltac:(lia) ltac:(lia)) as S2.
  apply outs_bind, sat_outs. eapply sat_mono; [exact (sat_bind_inv _ _ _ S2)|]. clear S2. intros y2 S2.
  apply outs_bind, sat_outs. eapply sat_mono; [exact S2|]. clear S2. intros y3 (Ly3 & Hy3).
  apply sat_outs. apply (for_spec (fun t ok => ok = true <-> correct = true /\ forall j, 0 <= j < t -> get y3 j = 0)).
  - lia.
  - split; [intros ->; split; [auto|lia]|tauto].
  - intros t ok Ht I. apply sat_bind, sat_aget; [lia|]. cbn [sat]. destruct (Z.eqb_spec (get y3 t) 0) as [E|E].
    + rewrite I. split; intros [H3 H4]; (split; [auto|]); intros j Hj; [|apply H4; lia]. destruct (Z.eq_dec j t) as [->|]; [auto|apply H4; lia].
    + split; [discriminate|]. intros [_ H3]. exfalso. apply E, H3. lia.
  - intros ok I.
    assert (GG : forall k, 0 <= k < needed c -> good k).
    { intros k Hk. unfold needed in Hk. destruct (Z_lt_le_dec k (c_r c)); [apply G1; lia|apply G2; lia]. }
    split; [auto|]. rewrite I, C1.
    assert (X1 : forall j, xA A (get x1) j = xA A (vx c) j) by (intros j; apply sum_ext; intros i Hi; now rewrite V1).
    assert (X2 : forall j, xA A (get x4) j = xA A (vy c) j) by (intros j; apply sum_ext; intros i Hi; now rewrite V4).
    split.
    + intros [H3 H4]. do 3 (split; [auto|]). split; [|split].
      * exact GG.
      * intros k Hk. destruct (R k Hk) as [_ Rj]. rewrite <- X1, <- H3 by auto. symmetry. apply Hy1, Rj.
      * intros j Hj. rewrite <- X2, <- (H4 j Hj). symmetry. apply Hy3, Hj.
    + intros (_ & _ & _ & _ & H3 & H4). split.
      * intros k Hk. destruct (R k Hk) as [_ Rj]. destruct (Hy1 _ Rj) as [Cy By]. apply (balanced_unique p); [lia|exact By|apply al_balanced; auto|].
        rewrite Cy, X1. auto.
      * intros j Hj. destruct (Hy3 j Hj) as [Cy By]. apply (balanced_cong_0 p); [lia|exact By|]. rewrite Cy, X2. auto.
Qed.
Corollary verify_gen gs c : cert_wf c ->
  outs (rank_verify gs fuel A hash c) (fun ok =>
      ok = true <-> c_hash c = hash /\ c_prime c = p /\ ranges c /\ (forall k, 0 <= k < needed c -> good k) /\
        (forall k, 0 <= k < c_r c -> cong p (xA A (vx c) (get (c_j c) k)) (al k)) /\
        (forall j, 0 <= j < m -> cong p (xA A (vy c) j) 0))
    (fun e => prng_err e /\ exists k, 0 <= k < needed c /\ ~ good k).
Proof. intros W. eapply outs_imp; [apply verify_full, W|intros ok [_ H]; exact H|auto]. Qed.
End verify.
