(** * Facts about the specification vocabulary (value, digits_ok, canonical) *)
From Verif Require Import Base Spec.

Section Value.
Context (B : Z) (HB : 2 <= B).

Lemma value_app a b : value B (a ++ b) = value B a + B ^ Z.of_nat (length a) * value B b.
Proof.
  induction a as [|x a IH].
  - cbn [app value length]. rewrite Z.pow_0_r; lia.
  - cbn [app value]. rewrite IH. cbn [length].
    rewrite Nat2Z.inj_succ, Z.pow_succ_r by lia. ring.
Qed.

Lemma pow_pos n : 0 < B ^ Z.of_nat n.
Proof. apply Z.pow_pos_nonneg; lia. Qed.

Lemma pow_S n : B ^ Z.of_nat (S n) = B * B ^ Z.of_nat n.
Proof. rewrite Nat2Z.inj_succ, Z.pow_succ_r by lia; reflexivity. Qed.

Lemma value_bounds a : digits_ok B a -> 0 <= value B a < B ^ Z.of_nat (length a).
Proof.
  induction 1 as [|x a Hx Ha IH]; cbn [value length].
  - rewrite Z.pow_0_r; lia.
  - rewrite pow_S. nia.
Qed.

Lemma digits_ok_app a b : digits_ok B (a ++ b) <-> digits_ok B a /\ digits_ok B b.
Proof. apply Forall_app. Qed.

Lemma value_snoc a x : value B (a ++ [x]) = value B a + B ^ Z.of_nat (length a) * x.
Proof. rewrite value_app; cbn [value]; ring. Qed.

Lemma canonical_nil : canonical [].
Proof. unfold canonical; cbn; lia. Qed.

Lemma canonical_snoc a x : canonical (a ++ [x]) <-> x <> 0.
Proof. unfold canonical. rewrite last_last. reflexivity. Qed.

Lemma list_snoc_case {A} (v : list A) : v = [] \/ exists u x, v = u ++ [x].
Proof.
  destruct v as [|y v] using rev_ind; [left; auto|right; eauto].
Qed.

Lemma value_canonical_lb a : digits_ok B a -> canonical a -> a <> [] ->
  B ^ (Z.of_nat (length a) - 1) <= value B a.
Proof.
  intros Hd Hc Hn. destruct (list_snoc_case a) as [->|(u & x & ->)]; [congruence|].
  apply canonical_snoc in Hc. apply digits_ok_app in Hd as [Hu Hx].
  inversion_clear Hx as [|? ? Hx' _].
  rewrite value_snoc, app_length. cbn [length].
  replace (Z.of_nat (length u + 1) - 1) with (Z.of_nat (length u)) by lia.
  pose proof (value_bounds u Hu). pose proof (pow_pos (length u)). nia.
Qed.

Lemma value_canonical_pos a : digits_ok B a -> canonical a -> a <> [] -> 0 < value B a.
Proof.
  intros Hd Hc Hn. pose proof (value_canonical_lb a Hd Hc Hn).
  assert (0 < B ^ (Z.of_nat (length a) - 1)); [|lia].
  apply Z.pow_pos_nonneg; [lia|]. destruct a; [congruence|cbn [length]; lia].
Qed.

Lemma length_lt_value a b : digits_ok B a -> digits_ok B b -> canonical b ->
  (length a < length b)%nat -> value B a < value B b.
Proof.
  intros Ha Hb Hc Hl.
  pose proof (value_bounds a Ha).
  assert (b <> []) as Hn by (destruct b; cbn in Hl; [lia|congruence]).
  pose proof (value_canonical_lb b Hb Hc Hn).
  assert (B ^ Z.of_nat (length a) <= B ^ (Z.of_nat (length b) - 1)).
  { apply Z.pow_le_mono_r; lia. }
  lia.
Qed.

Lemma value_inj_len a : forall b, digits_ok B a -> digits_ok B b -> length a = length b ->
  value B a = value B b -> a = b.
Proof.
  induction a as [|x a IH]; intros [|y b] Ha Hb Hl Hv; try discriminate; auto.
  inversion_clear Ha as [|? ? Hx Ha']; inversion_clear Hb as [|? ? Hy Hb'].
  cbn [value] in Hv. cbn in Hl.
  assert (x = y).
  { assert (x mod B = y mod B).
    { rewrite <- (Z_mod_plus_full x (value B a) B), <- (Z_mod_plus_full y (value B b) B). f_equal. lia. }
    rewrite !Z.mod_small in * by lia. auto. }
  subst. f_equal. apply IH; auto. nia.
Qed.

Lemma value_inj a b : digits_ok B a -> digits_ok B b -> canonical a -> canonical b ->
  value B a = value B b -> a = b.
Proof.
  intros Ha Hb Ca Cb Hv. apply value_inj_len; auto.
  destruct (lt_eq_lt_dec (length a) (length b)) as [[H|H]|H]; auto.
  - pose proof (length_lt_value a b Ha Hb Cb H); lia.
  - pose proof (length_lt_value b a Hb Ha Ca H); lia.
Qed.

Lemma value_zero_canonical a : digits_ok B a -> canonical a -> (value B a = 0 <-> a = []).
Proof.
  intros Hd Hc; split; intros H.
  - destruct a as [|x a]; auto. pose proof (value_canonical_pos (x :: a) Hd Hc ltac:(congruence)); lia.
  - subst; reflexivity.
Qed.

Lemma firstn_S_nth {A} (v : list A) i d : nth_error v i = Some d -> firstn (S i) v = firstn i v ++ [d].
Proof.
  revert v; induction i as [|i IH]; intros [|y v] H; try discriminate.
  - cbn in H |- *. congruence.
  - cbn in H. cbn [firstn app]. f_equal. apply IH; auto.
Qed.

Lemma digits_ok_firstn i a : digits_ok B a -> digits_ok B (firstn i a).
Proof. intros H; rewrite <- (firstn_skipn i a) in H. apply digits_ok_app in H; tauto. Qed.

Lemma digits_ok_skipn i a : digits_ok B a -> digits_ok B (skipn i a).
Proof. intros H; rewrite <- (firstn_skipn i a) in H. apply digits_ok_app in H; tauto. Qed.

Lemma digits_ok_nth i a d : digits_ok B a -> nth_error a i = Some d -> 0 <= d < B.
Proof. intros H E. apply nth_error_In in E. eapply Forall_forall in H; eauto. Qed.

Lemma weak_canonical_0 : weak_canonical [0].
Proof. right; auto. Qed.

Lemma weak_canonical_nil : weak_canonical [].
Proof. left; apply canonical_nil. Qed.

End Value.
