(** Shared imports and arithmetic automation.  No model content. *)
From Coq Require Export ZArith List Lia Bool Znumtheory Zpow_facts Permutation.
From Coq Require Export ZifyBool ZifyNat.
Export ListNotations.
Global Open Scope Z_scope.

Ltac zdm := Z.div_mod_to_equations; nia.

Lemma Zmod_unique_pos : forall a b q r, 0 <= r < b -> a = b * q + r -> a mod b = r.
Proof. intros a b q r Hr E. symmetry. apply Zmod_unique with q; auto. Qed.

Lemma Zmod_eq_iff : forall a b m, m <> 0 -> (a mod m = b mod m <-> (m | a - b)).
Proof.
  intros a b m Hm; split; intro H.
  - exists (a / m - b / m).
    rewrite (Z.div_mod a m Hm), (Z.div_mod b m Hm) at 1. rewrite H. ring.
  - destruct H as [k Hk]. replace a with (b + k * m) by lia.
    now rewrite Z_mod_plus_full.
Qed.

Lemma Zmod_small_unique : forall a b m,
  0 <= a < m -> 0 <= b < m -> a mod m = b mod m -> a = b.
Proof. intros a b m Ha Hb H. rewrite !Z.mod_small in H; auto. Qed.
