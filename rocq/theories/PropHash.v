(** C36, C37: SHA-256 and the pseudo-random generator. *)
From Verif Require Import Base BaseFacts Spec Counting SpecSha Sha ShaCtx SpecPrng Prng PrngProofs DenseProofs4.

(** ** C36: SHA-256 for any chunking *)
Theorem C36_sha256 g chunks md : Forall bytes chunks -> len (concat chunks) < 2 ^ 61 -> len md = 32 ->
  sat (hash_chunks g chunks md) (fun digest => digest = sha256 (concat chunks)).
Proof. exact (hash_chunks_ok g chunks md). Qed.
Print Assumptions C36_sha256.
(* the constants of the specification have the values given in FIPS 180-4, and the digest of "abc" is the published one *)
Example C36_vectors : len sha_K = 64 /\ get sha_K 0 = 0x428a2f98 /\ get sha_K 63 = 0xc67178f2 /\ get sha_H0 7 = 0x5be0cd19 /\
  of_be (sha256 [97; 98; 99]) = 0xba7816bf8f01cfea414140de5dae2223b00361a396177a9cb410ff61f20015ad /\
  of_be (sha256 []) = 0xe3b0c44298fc1c149afbf4c8996fb92427ae41e4649b934ca495991b7852b855.
Proof. vm_compute. repeat split. Qed.
Example C36_roots : Forall (fun p => let r := cbrt (p * 2 ^ 96) in r ^ 3 <= p * 2 ^ 96 < (r + 1) ^ 3) primes.
Proof. repeat constructor; vm_compute; congruence. Qed.
(* 203 bytes in four pieces, one of them empty; the second one crosses a block and the third has several blocks *)
Example C36_example : let chunks := [[97; 98; 99]; fill 70 7; []; fill 130 200] in
  Forall bytes chunks /\ len (concat chunks) = 203 /\ hash_chunks (fun _ _ => 77) chunks (fill 32 5) = Ok (sha256 (concat chunks)).
Proof.
  split; [|split; [reflexivity|vm_compute; reflexivity]].
  apply Forall_cons; [repeat (apply Forall_cons; [unfold byte; lia|]); apply Forall_nil|].
  apply Forall_cons; [apply ShaHash.Forall_fill; unfold byte; lia|]. apply Forall_cons; [apply Forall_nil|].
  apply Forall_cons; [apply ShaHash.Forall_fill; unfold byte; lia|]. apply Forall_nil.
Qed.

(** ** C37: the generator *)
(* the words drawn do not depend on anything else than the seed, the modulus and the sequence number *)
Theorem C37_stream g g' seed p seq ctx0 (n : nat) : ok_modulus p -> len seed = 32 -> bytes seed -> word seq ->
  len (pblock ctx0) = 44 -> len (phash ctx0) = 32 -> Z.of_nat n <= 8 * (2 ^ 31 - 1) ->
  sat (ctx <- prng_seed g seed p seq ctx0 ;; draw_u32 g' n ctx) (fun '(l, _) => l = map (prng_word seed p seq) (zseq 0 (Z.of_nat n))).
Proof. exact (prng_u32_stream g g' seed p seq ctx0 n). Qed.
Print Assumptions C37_stream.
Theorem C37_simple g g' p seq sd ctx0 junk (n : nat) : ok_modulus p -> word seq -> 0 <= sd < 2 ^ 64 ->
  len (pblock ctx0) = 44 -> len (phash ctx0) = 32 -> len junk = 32 -> Z.of_nat n <= 8 * (2 ^ 31 - 1) ->
  sat (ctx <- prng_seed_simple g p sd seq ctx0 junk ;; draw_u32 g' n ctx) (fun '(l, _) =>
    l = map (prng_word (be 4 (sd mod 2 ^ 32) ++ be 4 (sd / 2 ^ 32) ++ fill 24 0) p seq) (zseq 0 (Z.of_nat n))).
Proof. exact (prng_simple g g' p seq sd ctx0 junk n). Qed.
Print Assumptions C37_simple.
(* the counter is an int: one more word than the bound above is undefined behaviour *)
Theorem C37_counter_refuted : exists n : nat, forall g g' seed p seq ctx0, ok_modulus p -> len seed = 32 -> bytes seed -> word seq ->
  len (pblock ctx0) = 44 -> len (phash ctx0) = 32 ->
  (ctx <- prng_seed g seed p seq ctx0 ;; draw_u32 g' n ctx) = Fail Overflow.
Proof.
  exists (Z.to_nat (8 * (2 ^ 31 - 1) + 1)). intros g g' seed p seq ctx0 H1 H2 H3 H4 H5 H6.
  apply prng_u32_overflow; auto. rewrite Z2Nat.id; lia.
Qed.
Print Assumptions C37_counter_refuted.
(* distinct blocks are hashed *)
Theorem C37_blocks s p c q s' p' c' q' : len s = 32 -> len s' = 32 -> word p -> word p' -> word c -> word c' -> word q -> word q' ->
  prng_block s p c q = prng_block s' p' c' q' -> s = s' /\ p = p' /\ c = c' /\ q = q'.
Proof. exact (prng_block_inj s p c q s' p' c' q'). Qed.
Print Assumptions C37_blocks.
(* the field elements returned are the balanced representatives of the accepted words, in order, none being skipped *)
Theorem C37_field g g' fuel seed p seq ctx0 (n : nat) : ok_modulus p -> len seed = 32 -> bytes seed -> word seq ->
  len (pblock ctx0) = 44 -> len (phash ctx0) = 32 ->
  outs (ctx <- prng_seed g seed p seq ctx0 ;; draw_ZZp g' fuel n ctx)
    (fun '(l, _) => exists b N, mask_bits p b /\ 0 <= N /\ l = map (bal p) (prng_accepted seed p seq b N) /\ length l = n /\
      (n <> O -> prng_word seed p seq (N - 1) mod 2 ^ b < p) /\ (n = O -> N = 0) /\ Forall (balanced p) l)
    (fun e => e = OutOfFuel \/ e = Overflow).
Proof. exact (prng_ZZp_stream g g' fuel seed p seq ctx0 n). Qed.
Print Assumptions C37_field.
(* each residue has one accepted masked word, more than half of them are accepted, and each is the image of as many words *)
Theorem C37_unbiased p : ok_modulus p -> exists b, mask_bits p b /\ b <= 32 /\
  (forall v, balanced p v -> exists! x, 0 <= x < p /\ bal p x = v) /\
  (forall x, 0 <= x < 2 ^ b -> sum 0 (2 ^ 32) (fun w => b1 (w mod 2 ^ b =? x)) = 2 ^ (32 - b)).
Proof. exact (prng_unbiased p). Qed.
Print Assumptions C37_unbiased.
Definition ex_prng : prng_ctx := Prng (fill 44 9) (fill 32 7) 1 2 3 4 5.
Example C37_example : ok_modulus 42013 /\ len (zseq 0 32) = 32 /\ bytes (zseq 0 32) /\ word 5 /\ len (pblock ex_prng) = 44 /\ len (phash ex_prng) = 32 /\
  match (ctx <- prng_seed (fun _ => 3) (zseq 0 32) 42013 5 ex_prng ;; draw_u32 (fun _ => 2) 9 ctx) with
  | Ok (l, _) => l = map (prng_word (zseq 0 32) 42013 5) (zseq 0 9) /\ get l 8 = 684988593 | Fail _ => False end /\
  match (ctx <- prng_seed (fun _ => 3) (zseq 0 32) 42013 5 ex_prng ;; draw_ZZp (fun _ => 2) 10 9 ctx) with
  | Ok (l, _) => l = [8987; -20860; 5718; -5786; -3327; 6321; 3140; 7584; -2571] | Fail _ => False end.
Proof.
  split; [unfold ok_modulus; lia|]. split; [reflexivity|]. split; [apply Forall_forall; intros x Hx; apply RowList.In_zseq in Hx; unfold byte; lia|].
  split; [unfold word; lia|]. split; [reflexivity|]. split; [reflexivity|]. split; vm_compute; [split|]; reflexivity.
Qed.
