(** * Proofs about isPow2, nextPow2 and the size of the transform *)
From Verif Require Import Base Limits Fourier.

(** the [w] bits of [n] from position [t] down are set, and none above *)
Definition top (w n t : Z) : Prop :=
  (forall i, t < i -> Z.testbit n i = false) /\ (forall i, t - w < i <= t -> 0 <= i -> Z.testbit n i = true).

Lemma top_smear w n t : 0 < w -> top w n t -> top (2 * w) (smear w n) t.
Proof.
  intros Hw [H1 H2]. unfold smear. split; intros i Hi; [|intros Hi0];
    (destruct (Z.neg_nonneg_cases i) as [N|N]; [try (rewrite Z.testbit_neg_r by lia; reflexivity); lia|]);
    rewrite Z.lor_spec, Z.shiftr_spec by lia.
  - rewrite !H1 by lia. reflexivity.
  - destruct (Z.lt_ge_cases (t - w) i).
    + rewrite H2 by lia. reflexivity.
    + rewrite (H2 (i + w)) by lia. apply orb_true_r.
Qed.

Lemma smear_0 k : smear k 0 = 0.
Proof. unfold smear. rewrite Z.shiftr_0_l. reflexivity. Qed.

Lemma top_ones n t : 0 <= t < 32 -> top 32 n t -> n = 2 ^ (t + 1) - 1.
Proof.
  intros Ht [H1 H2]. replace (2 ^ (t + 1) - 1) with (Z.ones (t + 1)) by (rewrite Z.ones_equiv; lia).
  apply Z.bits_inj'. intros i Hi. destruct (Z.lt_ge_cases t i).
  - rewrite H1 by lia. rewrite Z.ones_spec_high by lia. reflexivity.
  - rewrite H2 by lia. rewrite Z.ones_spec_low by lia. reflexivity.
Qed.

Lemma nextPow2_eq n : 1 < n <= 2 ^ 32 -> nextPow2 n = 2 ^ (Z.log2 (n - 1) + 1).
Proof.
  intros Hn. unfold nextPow2. rewrite (proj2 (Z.eqb_neq n 0)) by lia.
  assert (wrap 64 (n - 1) = n - 1) as -> by (unfold wrap; apply Z.mod_small; lia).
  set (t := Z.log2 (n - 1)). assert (0 <= t < 32) as Ht.
  { split; [apply Z.log2_nonneg|]. apply Z.log2_lt_pow2; lia. }
  assert (top 1 (n - 1) t) as T.
  { split; intros i Hi; [apply Z.bits_above_log2; unfold t in Hi; lia|]. intros _. replace i with t by lia.
    apply Z.bit_log2. lia. }
  apply (top_smear 1) in T; [|lia]. apply (top_smear 2) in T; [|lia]. apply (top_smear 4) in T; [|lia].
  apply (top_smear 8) in T; [|lia]. apply (top_smear 16) in T; [|lia].
  rewrite (top_ones _ t Ht T). rewrite Z.sub_add. unfold wrap. apply Z.mod_small.
  split; [apply Z.pow_nonneg; lia|apply Z.pow_lt_mono_r; lia].
Qed.

Lemma nextPow2_1 : nextPow2 1 = 1.
Proof. reflexivity. Qed.

Lemma nextPow2_spec n : 1 <= n <= 2 ^ 32 ->
  exists k, 0 <= k /\ nextPow2 n = 2 ^ k /\ n <= 2 ^ k /\ (forall j, 0 <= j -> n <= 2 ^ j -> 2 ^ k <= 2 ^ j).
Proof.
  intros Hn. destruct (Z.eq_dec n 1) as [->|N].
  - exists 0. rewrite nextPow2_1. split; [lia|]. split; [reflexivity|]. split; [lia|]. intros j Hj _. pose proof (Z.pow_pos_nonneg 2 j ltac:(lia) Hj). lia.
  - exists (Z.log2 (n - 1) + 1). pose proof (Z.log2_nonneg (n - 1)). split; [lia|]. split; [apply nextPow2_eq; lia|].
    pose proof (Z.log2_spec (n - 1) ltac:(lia)) as [S1 S2]. rewrite Z.add_1_r. split; [lia|].
    intros j Hj Hle. apply Z.pow_le_mono_r; [lia|].
    assert (Z.log2 (n - 1) < j); [|lia]. apply Z.log2_lt_pow2; lia.
Qed.

Lemma isPow2_spec n : 0 <= n < 2 ^ 64 -> (isPow2 n = true <-> exists k, 0 <= k /\ n = 2 ^ k).
Proof.
  intros Hn. unfold isPow2. destruct (Z.eqb_spec n 0) as [->|N].
  - cbn [negb andb]. split; [discriminate|]. intros (k & Hk & E). pose proof (Z.pow_pos_nonneg 2 k ltac:(lia) Hk). lia.
  - cbn [negb andb]. assert (wrap 64 (n - 1) = n - 1) as -> by (unfold wrap; apply Z.mod_small; lia).
    rewrite Z.eqb_eq. split.
    + intros H. exists (Z.log2 n). pose proof (Z.log2_nonneg n). split; [lia|].
      pose proof (Z.log2_spec n ltac:(lia)) as [S1 S2].
      destruct (Z.eq_dec n (2 ^ Z.log2 n)) as [E|E]; [exact E|]. exfalso.
      assert (Z.testbit (Z.land n (n - 1)) (Z.log2 n) = true) as K; [|rewrite H, Z.testbit_0_l in K; discriminate].
      rewrite Z.land_spec, Z.bit_log2 by lia. cbn [andb].
      assert (Z.log2 (n - 1) = Z.log2 n) as <- by (apply Z.log2_unique; lia). apply Z.bit_log2.
      assert (1 <= 2 ^ Z.log2 n) by (change 1 with (2 ^ 0); apply Z.pow_le_mono_r; lia). lia.
    + intros (k & Hk & ->). replace (2 ^ k - 1) with (Z.ones k) by (rewrite Z.ones_equiv; lia).
      rewrite Z.land_ones by lia. apply Z_mod_same_full.
Qed.

(** the size of the transform: a power of two with room for the product *)
Lemma fft_size_spec la lb : (0 < la + lb)%nat -> Z.of_nat (la + lb) <= 2 ^ 32 ->
  exists k, fft_size la lb = Z.of_nat (2 ^ k) /\ (la + lb <= 2 ^ k)%nat /\ (k <= 32)%nat /\ (2 ^ k < 2 * (la + lb))%nat.
Proof.
  intros H1 H2. unfold fft_size. assert (wrap 64 (Z.of_nat la + Z.of_nat lb) = Z.of_nat (la + lb)) as ->.
  { unfold wrap. rewrite Z.mod_small by lia. lia. }
  set (n := Z.of_nat (la + lb)) in *. assert (1 <= n) by lia.
  assert (forall k, 0 <= k -> n <= 2 ^ k -> (forall j, 0 <= j -> n <= 2 ^ j -> 2 ^ k <= 2 ^ j) ->
    exists k', 2 ^ k = Z.of_nat (2 ^ k') /\ (la + lb <= 2 ^ k')%nat /\ (k' <= 32)%nat /\ (2 ^ k' < 2 * (la + lb))%nat) as K.
  { intros k Hk Hn Hmin. exists (Z.to_nat k).
    assert (2 ^ k = Z.of_nat (2 ^ Z.to_nat k)) as E by (rewrite Nat2Z.inj_pow, Z2Nat.id by lia; reflexivity).
    split; [exact E|]. split; [lia|]. split.
    - pose proof (Hmin 32 ltac:(lia) H2). assert (k <= 32); [|lia]. apply (Z.pow_le_mono_r_iff 2); lia.
    - destruct (Z.eq_dec k 0) as [->|Nk]; [cbn; lia|].
      assert (2 ^ (k - 1) < n).
      { destruct (Z.lt_ge_cases (2 ^ (k - 1)) n); auto. specialize (Hmin (k - 1) ltac:(lia) H0).
        assert (2 ^ (k - 1) < 2 ^ k) by (apply Z.pow_lt_mono_r; lia). lia. }
      assert (2 ^ k = 2 * 2 ^ (k - 1)) by (rewrite <- Z.pow_succ_r by lia; f_equal; lia). lia. }
  destruct (isPow2 n) eqn:E.
  - apply isPow2_spec in E; [|lia]. destruct E as (k & Hk & E). rewrite E. apply K; auto; try lia.
  - destruct (nextPow2_spec n ltac:(lia)) as (k & Hk & -> & Hle & Hmin). apply K; auto.
Qed.

Lemma fft_size_0 : fft_size 0 0 = 0.
Proof. reflexivity. Qed.
