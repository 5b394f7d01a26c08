(** * Properties C19, C22, C23: non-termination of 0 * 0, nextPow2, schoolbook multiplication *)
From Verif Require Import Base Spec Conv Limits Fourier Multiplication Bignum Outcome Wp ValueProof BignumProof
  NaiveProof Pow2Proof.

(** ** C19 *)
Lemma fft_nil P fuel : fft_complex P fuel [] = None.
Proof. induction fuel as [|f IH]; [reflexivity|]. cbn. rewrite IH. reflexivity. Qed.

Lemma mul_strassen_nil L P fuel al n :
  mul_strassen L P fuel [] [] al n = if al n then NoFuel else Throw ExBadAlloc (S n).
Proof.
  unfold mul_strassen, bind, alloc. destruct (al n); [|reflexivity].
  unfold convolute_fft. change (create_fft_table P [] []) with (@nil (cplx P)). rewrite fft_nil. reflexivity.
Qed.

(** Whatever the floating-point arithmetic does: the transform of an empty list recurses forever. *)
Theorem C19_zero_times_zero : forall L P x y, finite x -> data x = [] -> data y = [] ->
  never_completes (fun fuel => op_mul_assign L P fuel x (Other y)) (infinity_for (desc y)) /\
  never_completes (fun fuel => op_mul_assign L P fuel x Self) (infinity_for (desc x)) /\
  never_returns (fun fuel => op_mul L P fuel x y).
Proof.
  assert (forall L P x y fuel al n, finite x -> data x = [] -> adata x y = [] ->
    op_mul_assign L P fuel x y al n =
      if al n then NoFuel else Ret (infinity_for (adesc x y), Some ExStd) (S n)) as K.
  { intros L P x y fuel al n F E1 E2. unfold op_mul_assign. rewrite E1, E2.
    assert (isComputable (desc x) = true) as -> by (destruct F as [-> | ->]; reflexivity). cbn [negb].
    unfold guarded, bind. rewrite mul_strassen_nil. destruct (al n); [reflexivity|].
    rewrite <- failed_infinity. reflexivity. }
  intros L P x y F Ex Ey. split; [|split].
  - intros fuel al n. rewrite (K L P x (Other y) fuel al n F Ex Ey). destruct (al n) eqn:E; [exact I|].
    repeat split. exists n. split; auto.
  - intros fuel al n. rewrite (K L P x Self fuel al n F Ex Ex). destruct (al n) eqn:E; [exact I|].
    repeat split. exists n. split; auto.
  - intros fuel al n. unfold op_mul. rewrite binary_eq. destruct (al n) eqn:E.
    + rewrite (K L P x (Other y) fuel al (S n) F Ex Ey). destruct (al (S n)) eqn:E2; [exact I|].
      exists (S n). split; auto.
    + exists n. split; auto.
Qed.
Print Assumptions C19_zero_times_zero.

(** The zeros users write are such: {0}, {} and the result of x - x. *)
Example C19_case : finite (mkBN BN_POS []) /\ run (bn_make base10 BN_POS [0]) = Ret (mkBN BN_POS []) 1%nat /\
  run (op_sub base10 false (mkBN BN_POS [7]) (mkBN BN_POS [7])) = Ret (mkBN BN_POS []) 1%nat.
Proof. repeat split. left; reflexivity. Qed.

(** ** C22 *)
Theorem C22_next_pow2 : forall n, 1 <= n <= 2 ^ 32 ->
  exists k, 0 <= k /\ nextPow2 n = 2 ^ k /\ n <= 2 ^ k /\ (forall j, 0 <= j -> n <= 2 ^ j -> 2 ^ k <= 2 ^ j).
Proof. exact nextPow2_spec. Qed.
Print Assumptions C22_next_pow2.

Theorem C22_next_pow2_zero : nextPow2 0 = 0.
Proof. reflexivity. Qed.
Print Assumptions C22_next_pow2_zero.

Definition C22_full_statement : Prop :=
  forall n, 1 <= n < 2 ^ 64 -> exists k, 0 <= k /\ nextPow2 n = 2 ^ k mod 2 ^ 64.

(** There is no shift by 32: beyond 2^32 the result need not be a power of two. *)
Theorem C22_next_pow2_refuted : ~ C22_full_statement.
Proof.
  intros H. destruct (H (2 ^ 32 + 1) ltac:(lia)) as (k & Hk & E).
  assert (nextPow2 (2 ^ 32 + 1) = 2 ^ 33 - 1) as E2 by (vm_compute; reflexivity).
  rewrite E2 in E. clear E2 H. destruct (Z.eq_dec k 0) as [->|N]; [discriminate|].
  assert ((2 ^ k mod 2 ^ 64) mod 2 = 0) as K.
  { rewrite <- (Znumtheory.Zmod_div_mod 2 (2 ^ 64)) by (try lia; exists (2 ^ 63); reflexivity).
    replace k with (Z.succ (k - 1)) by lia. rewrite Z.pow_succ_r by lia. rewrite Z.mul_comm. apply Z_mod_mult. }
  rewrite <- E in K. discriminate.
Qed.
Print Assumptions C22_next_pow2_refuted.

Theorem C22_is_pow2 : forall n, 0 <= n < 2 ^ 64 -> (isPow2 n = true <-> exists k, 0 <= k /\ n = 2 ^ k).
Proof. exact isPow2_spec. Qed.
Print Assumptions C22_is_pow2.

Example C22_cases : nextPow2 1 = 1 /\ nextPow2 5 = 8 /\ nextPow2 8 = 8 /\ nextPow2 1000000 = 1048576.
Proof. vm_compute. auto. Qed.

(** ** C23 *)
Theorem C23_mul_naive : forall L a b, limits_ok L = true -> ws L <= 64 -> base L * base L <= 2 ^ ws L ->
  digits_ok (base L) a -> digits_ok (base L) b -> Z.of_nat (length a + length b) < 2 ^ 32 ->
  returns (mul_naive L a b) (fun r =>
    value (base L) r = value (base L) a * value (base L) b /\ digits_ok (base L) r /\
    length r = (length a + length b)%nat).
Proof.
  intros L a b HL H64 Hsq Da Db Hlen. apply yields_returns.
  eapply yields_mono; [apply (mul_naive_fits L HL Hsq H64 a b Da Db); lia|]. cbn. tauto.
Qed.
Print Assumptions C23_mul_naive.

(** Full-width types: each digit is a coefficient of the polynomial product reduced modulo the base, and no
    carry is propagated. *)
Theorem C23_mul_naive_full_width : forall L a b, full_width L = true ->
  (ws L < 32 -> forall x y, In x a -> In y b -> x * y < 2 ^ 31) ->
  Z.of_nat (length a + length b) < 2 ^ 32 ->
  returns (mul_naive L a b) (fun r => length r = (length a + length b)%nat /\
    forall k, (k < length r)%nat -> nth k r 0 = conv a b k mod base L).
Proof.
  intros L a b HL Ho Hlen. apply yields_returns.
  eapply yields_mono; [apply (mul_naive_full L HL a b Ho); lia|]. cbn. intros r ->.
  rewrite map_length, seq_length. split; [reflexivity|]. intros k Hk.
  set (f := fun k => conv a b k mod base L). rewrite (nth_indep _ 0 (f 0%nat)) by (rewrite map_length, seq_length; auto).
  rewrite map_nth, seq_nth by auto. reflexivity.
Qed.
Print Assumptions C23_mul_naive_full_width.

Definition C23_full_statement : Prop :=
  forall L a b, In L shipped -> digits_ok (base L) a -> digits_ok (base L) b -> Z.of_nat (length a + length b) < 2 ^ 32 ->
  returns (mul_naive L a b) (fun r => value (base L) r = value (base L) a * value (base L) b).

(** 255 * 255 = 1 for bignum_lowp *)
Theorem C23_mul_naive_refuted : ~ C23_full_statement.
Proof.
  intros H. specialize (H lowp [255] [255] (or_introl eq_refl)).
  assert (digits_ok (base lowp) [255]) as D by (repeat constructor; cbn; lia).
  specialize (H D D ltac:(cbn; lia) never_fails 0%nat). vm_compute in H. destruct H as [H _]. discriminate.
Qed.
Print Assumptions C23_mul_naive_refuted.

Example C23_cases :
  Forall (fun L => limits_ok L = true /\ ws L <= 64 /\ base L * base L <= 2 ^ ws L) base_n_types /\
  Forall (fun L => full_width L = true) full_width_types /\
  run (mul_naive base10 [9; 9] [9; 9]) = Ret [1; 0; 8; 9] 1%nat /\
  run (mul_naive lowp [255] [255]) = Ret [1; 0] 1%nat /\
  run (mul_naive medp [65535] [65535]) = Undef UB_signed_overflow.
Proof. repeat split; repeat constructor; vm_compute; congruence. Qed.
