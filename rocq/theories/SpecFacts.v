(** Lemmas about the specifications of Spec.v. *)
From Verif Require Import Base BaseFacts Spec.
From Coq Require Import Znumtheory.

#[local] Ltac zlia := intros; Z.div_mod_to_equations; lia.

Lemma bal_balanced p z : 2 <= p -> balanced p (bal p z).
Proof.
  intros Hp. unfold balanced, bal. pose proof (Z.mod_pos_bound z p ltac:(zlia)).
  destruct (z mod p >? p / 2) eqn:E; zlia.
Qed.
Lemma bal_cong p z : 2 <= p -> cong p (bal p z) z.
Proof.
  intros Hp. unfold bal.
  destruct (z mod p >? p / 2).
  - rewrite cong_mod by zlia. exists (-1). zlia.
  - now rewrite cong_mod by zlia.
Qed.
Lemma bal_canon p z : 2 <= p -> canon p z (bal p z).
Proof. split; [now apply bal_balanced | now apply bal_cong]. Qed.
Lemma balanced_unique p a b : 2 <= p -> balanced p a -> balanced p b -> cong p a b -> a = b.
Proof. unfold balanced. intros Hp Ha Hb H. apply (cong_small p); auto. zlia. Qed.
Lemma canon_bal p z r : 2 <= p -> canon p z r -> r = bal p z.
Proof.
  intros Hp [Hb Hc]. apply (balanced_unique p); auto.
  - now apply bal_balanced.
  - rewrite Hc. symmetry. now apply bal_cong.
Qed.
Lemma canon_unique p z a b : 2 <= p -> canon p z a -> canon p z b -> a = b.
Proof. intros Hp Ha Hb. rewrite (canon_bal p z a), (canon_bal p z b); auto. Qed.
Lemma bal_id p z : 2 <= p -> balanced p z -> bal p z = z.
Proof. intros Hp Hz. symmetry. apply canon_bal; auto. split; auto. reflexivity. Qed.
Lemma bal_eq p a b : 2 <= p -> cong p a b -> bal p a = bal p b.
Proof.
  intros Hp H. apply canon_bal; auto. split; [now apply bal_balanced|].
  now rewrite bal_cong.
Qed.
