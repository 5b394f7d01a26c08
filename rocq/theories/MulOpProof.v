(** * The multiplication operators, from what mul_strassen does *)
From Coq Require Import ZArith Reals Lra Lia List Arith.
From Flocq Require Import Core.Raux IEEE754.BinarySingleNaN.
From Verif Require Import Base Spec Limits Fourier Multiplication Bignum Outcome Wp ValueProof AddSubProof BignumProof
  DivOpProof Conv Pow2Proof FloatModel FftError MulProof Ieee IeeeProof Exact ExactProof.
Import ListNotations.
Open Scope Z_scope.

(** what a product must be *)
Definition is_product (B : Z) (a b r : list Z) : Prop :=
  digits_ok B r /\ canonical r /\ value B r = value B a * value B b.

(** what the multiplication does, by cases on the column totals *)
Definition multiplies (L : limits) (P : flops) (fuel : nat) (a b : list Z) : Prop :=
  ((forall k, column_total (base L) a b k < 2 ^ wd L) ->
     yields (mul_strassen L P fuel a b) (is_product (base L) a b)) /\
  ((exists k, 2 ^ wd L <= column_total (base L) a b k) ->
   forall al n, mul_strassen L P fuel a b al n = if al n then Undef UB_float_to_int else Throw ExBadAlloc (S n)).

Lemma mul_assign_yields L P fuel x y Q : finite x -> yields (mul_strassen L P fuel (data x) (adata x y)) Q ->
  assigns (op_mul_assign L P fuel x y) (fun z => desc z = product_desc (desc x) (adesc x y) /\ Q (data z))
    (infinity_for (adesc x y)).
Proof.
  intros Fx H. unfold op_mul_assign. rewrite (finite_computable x Fx). cbn [negb]. rewrite failed_infinity.
  apply guarded_yields. eapply yields_bind; [exact H|]. intros v Hv. apply yields_ret. auto.
Qed.

Lemma mul_assign_undef L P fuel x y : finite x ->
  (forall al n, mul_strassen L P fuel (data x) (adata x y) al n = if al n then Undef UB_float_to_int else Throw ExBadAlloc (S n)) ->
  undefined_assign (op_mul_assign L P fuel x y) UB_float_to_int (infinity_for (adesc x y)).
Proof.
  intros Fx H al n. unfold op_mul_assign. rewrite (finite_computable x Fx). cbn [negb]. rewrite failed_infinity.
  unfold guarded, bind. rewrite H. destruct (al n) eqn:E; [reflexivity|]. repeat split. exists n. split; [lia|exact E].
Qed.

Lemma product_signed B d1 d2 a b v : (d1 = BN_POS \/ d1 = BN_NEG) -> (d2 = BN_POS \/ d2 = BN_NEG) ->
  value B v = value B a * value B b ->
  signed_value B (mkBN (product_desc d1 d2) v) = signed_value B (mkBN d1 a) * signed_value B (mkBN d2 b).
Proof. intros [-> | ->] [-> | ->] E; unfold signed_value; cbn; lia. Qed.

Lemma product_desc_iff d1 d2 : (d1 = BN_POS \/ d1 = BN_NEG) -> (d2 = BN_POS \/ d2 = BN_NEG) ->
  (product_desc d1 d2 = BN_POS \/ product_desc d1 d2 = BN_NEG) /\ (product_desc d1 d2 = BN_POS <-> d1 = d2).
Proof. intros [-> | ->] [-> | ->]; cbn; intuition congruence. Qed.

Lemma mul_assign_product L P fuel x y : finite x -> (adesc x y = BN_POS \/ adesc x y = BN_NEG) ->
  yields (mul_strassen L P fuel (data x) (adata x y)) (is_product (base L) (data x) (adata x y)) ->
  assigns (op_mul_assign L P fuel x y)
    (fun z => good (base L) z /\ canonical (data z) /\
       signed_value (base L) z = signed_value (base L) x * signed_value (base L) (mkBN (adesc x y) (adata x y)) /\
       (desc z = BN_POS <-> desc x = adesc x y))
    (infinity_for (adesc x y)).
Proof.
  intros Fx Fy H. eapply assigns_mono; [apply (mul_assign_yields _ _ _ _ _ _ Fx H)|].
  intros [d v] [E (D & C & V)]. cbn [desc data] in *. subst d.
  destruct (product_desc_iff _ _ Fx Fy) as [Hf Hp]. split; [|split; [|split]]; auto.
  - split; [exact Hf|]. split; [exact D|]. left. exact C.
  - rewrite (product_signed _ _ _ (data x) (adata x y) v Fx Fy V). destruct x. reflexivity.
Qed.

(** ** Exact arithmetic *)
Lemma mul_exact L fuel a b : limits_ok L = true -> digits_ok (base L) a -> digits_ok (base L) b ->
  (0 < length a + length b)%nat -> Z.of_nat (length a + length b) <= 2 ^ 32 ->
  Z.log2_up (Z.of_nat (length a + length b)) < Z.of_nat fuel -> multiplies L exact fuel a b.
Proof.
  intros HL Ha Hb Hpos Hlen Hf.
  set (l := Z.to_nat (Z.log2_up (Z.of_nat (length a + length b)))).
  set (Q := sum_squares a + sum_squares b).
  set (K := Z.max (2 * Q) (Z.of_nat (2 ^ l))).
  set (Om := Rmax (IZR K) (301 * (INR (2 ^ l) * (IZR Q + 1)))).
  pose proof (mul_strassen_cases exact (fun x => x) (fun _ => True) (fun x => x) 0 Om K
    (exact_rounding Om K (Rmax_l _ _)) L HL fuel a b) as H. cbv zeta in H.
  apply H; auto; clear H.
  - pose proof (Z.log2_up_nonneg (Z.of_nat (length a + length b))). lia.
  - unfold K. fold Q. lia.
  - unfold K. fold l. lia.
  - apply Rmax_r.
  - rewrite !Rmult_0_r. lra.
Qed.

(** ** IEEE binary64 *)
Definition enough_precision (a b : list Z) : Prop :=
  103 * ((Z.log2_up (Z.of_nat (length a + length b)) + 1) * (sum_squares a + sum_squares b + 1)) <= 2 ^ 53.

Lemma mul_ieee ct cosf sinf L fuel a b : accurate cosf sinf -> limits_ok L = true ->
  digits_ok (base L) a -> digits_ok (base L) b ->
  (0 < length a + length b)%nat -> Z.of_nat (length a + length b) <= 2 ^ 32 ->
  Z.log2_up (Z.of_nat (length a + length b)) < Z.of_nat fuel -> enough_precision a b ->
  multiplies L (ieee ct cosf sinf) fuel a b.
Proof.
  intros HA HL Ha Hb Hpos Hlen Hf Hp. unfold enough_precision in Hp.
  pose proof (Z.log2_up_nonneg (Z.of_nat (length a + length b))) as Hl0.
  set (lz := Z.log2_up (Z.of_nat (length a + length b))) in *.
  pose proof (mul_strassen_cases (ieee ct cosf sinf) _ _ _ _ _ _ (ieee_rounding ct cosf sinf HA) L HL fuel a b) as H. cbv zeta in H.
  fold lz in H. set (l := Z.to_nat lz) in *.
  assert (Z.of_nat l = lz) as El by (unfold l; lia).
  assert (Z.of_nat (2 ^ l) = 2 ^ lz) as Ep by (rewrite Nat2Z.inj_pow, El; reflexivity).
  assert (lz <= 32) as H32.
  { unfold lz. rewrite <- (Z.log2_up_pow2 32) by lia. apply Z.log2_up_le_mono. exact Hlen. }
  assert (2 ^ lz <= 2 ^ 32) as Hn by (apply Z.pow_le_mono_r; lia).
  assert (0 < 2 ^ lz) as Hn0 by (apply Z.pow_pos_nonneg; lia).
  pose proof (sum_squares_nonneg a) as Qa. pose proof (sum_squares_nonneg b) as Qb.
  set (Q := sum_squares a + sum_squares b) in *. assert (0 <= Q) as HQ by (unfold Q; lia).
  assert (103 * (Q + 1) <= 2 ^ 53) as Hq by nia.
  apply H; auto; clear H.
  - unfold l. lia.
  - unfold K64. lia.
  - rewrite Ep. unfold K64. lia.
  - rewrite INR_IZR_INZ, Ep, <- (plus_IZR Q 1), <- !mult_IZR. unfold Om64. apply IZR_le.
    apply Z.le_trans with (301 * (2 ^ 32 * 2 ^ 53)); [|vm_compute; discriminate].
    apply Z.mul_le_mono_nonneg_l; [lia|]. apply Z.mul_le_mono_nonneg; lia.
  - rewrite !INR_IZR_INZ, <- (plus_IZR Q 1), <- !mult_IZR. unfold u64.
    replace (Z.of_nat (l + 1)) with (lz + 1) by lia.
    apply (Rmult_le_reg_r 9007199254740992); [lra|].
    rewrite Rmult_assoc, Rinv_l, Rmult_1_r, Rmult_1_l by lra. apply IZR_le. exact Hp.
Qed.

(** ** Columns *)
Lemma columns_fit L a b : limits_ok L = true -> digits_ok (base L) a -> digits_ok (base L) b ->
  Z.of_nat (Nat.min (length a) (length b)) * (bmax L * base L) <= 2 ^ wd L ->
  forall k, column_total (base L) a b k < 2 ^ wd L.
Proof.
  intros HL Ha Hb H k. pose proof (column_total_lt (base L) a b k (AddSubProof.HB L HL) Ha Hb) as [_ C].
  replace (bmax L) with (base L - 1) in H by (unfold base; lia).
  pose proof HL as H0. unfold limits_ok in H0. rewrite !andb_true_iff, !Z.leb_le in H0. pose proof (AddSubProof.HB L HL). lia.
Qed.

(** maximal digits: m of them times p > m of them *)
Lemma columns_overflow L m p : limits_ok L = true -> (m < p)%nat -> 2 ^ wd L < Z.of_nat m * (bmax L * base L) ->
  exists k, 2 ^ wd L <= column_total (base L) (repeat (bmax L) m) (repeat (bmax L) p) k.
Proof.
  intros HL Hm H. exists m. replace (bmax L) with (base L - 1) in * by (unfold base; lia).
  assert (0 <= 2 ^ wd L) by (apply Z.pow_nonneg; lia).
  rewrite column_total_maximal; [lia|apply (AddSubProof.HB L HL)|].
  destruct m; [cbn in H; lia|lia].
Qed.

Lemma maximal_ok L m : limits_ok L = true -> digits_ok (base L) (repeat (bmax L) m).
Proof.
  intros HL. apply Forall_forall. intros d Hd. apply repeat_spec in Hd. subst d. pose proof (AddSubProof.HB L HL) as H. unfold base in *. lia.
Qed.

(** a bound on the lengths that is enough *)
Lemma length_precision L a b N : 1 <= base L -> digits_ok (base L) a -> digits_ok (base L) b ->
  Z.of_nat (length a + length b) <= N ->
  103 * ((Z.log2_up N + 1) * (N * (bmax L * bmax L) + 1)) <= 2 ^ 53 -> enough_precision a b.
Proof.
  intros HB Ha Hb HN H. unfold enough_precision.
  pose proof (sum_squares_le (base L) a HB Ha) as Qa. pose proof (sum_squares_le (base L) b HB Hb) as Qb.
  pose proof (sum_squares_nonneg a). pose proof (sum_squares_nonneg b).
  replace (base L - 1) with (bmax L) in * by (unfold base; lia).
  pose proof (Z.log2_up_le_mono _ _ HN) as Hl. pose proof (Z.log2_up_nonneg (Z.of_nat (length a + length b))).
  set (M := bmax L * bmax L) in *. assert (0 <= M) by (unfold M; nia).
  assert (sum_squares a + sum_squares b <= N * M).
  { apply Z.le_trans with (Z.of_nat (length a + length b) * M); [nia|]. apply Z.mul_le_mono_nonneg_r; lia. }
  eapply Z.le_trans; [|exact H]. apply Z.mul_le_mono_nonneg_l; [lia|]. apply Z.mul_le_mono_nonneg; lia.
Qed.

(** two adjacent maximal digits in both operands *)
Lemma zsum_ge_two f : forall n i j, (i < j < n)%nat -> (forall k, 0 <= f k) -> f i + f j <= zsum n f.
Proof.
  assert (forall n g, (forall k, 0 <= g k) -> 0 <= zsum n g) as P0.
  { induction n as [|n IH]; intros g Hg; [cbn; lia|]. cbn [zsum]. pose proof (Hg O). specialize (IH (fun i => g (S i)) (fun k => Hg (S k))). cbn beta in IH. lia. }
  assert (forall n g j, (j < n)%nat -> (forall k, 0 <= g k) -> g j <= zsum n g) as P1.
  { induction n as [|n IH]; intros g j Hj Hg; [lia|]. cbn [zsum]. destruct j as [|j].
    - pose proof (P0 n (fun i => g (S i)) (fun k => Hg (S k))). lia.
    - pose proof (IH (fun i => g (S i)) j ltac:(lia) (fun k => Hg (S k))). cbn beta in *. pose proof (Hg O). lia. }
  intros n. revert f. induction n as [|n IH]; intros f i j Hij Hf; [lia|]. cbn [zsum]. destruct j as [|j]; [lia|]. destruct i as [|i].
  - pose proof (P1 n (fun i => f (S i)) j ltac:(lia) (fun k => Hf (S k))). cbn beta in *. lia.
  - pose proof (IH (fun i => f (S i)) i j ltac:(lia) (fun k => Hf (S k))). cbn beta in *. pose proof (Hf O). lia.
Qed.

Lemma value_nonneg_all B v : 0 <= B -> Forall (fun d => 0 <= d) v -> 0 <= value B v.
Proof. intros HB H. induction H; cbn [value]; nia. Qed.

Lemma column_overflow B a b i j : 4 <= B -> digits_ok B a -> digits_ok B b ->
  nth i a 0 = B - 1 -> nth (S i) a 0 = B - 1 -> nth j b 0 = B - 1 -> nth (S j) b 0 = B - 1 ->
  B * B <= column_total B a b (S (i + j)).
Proof.
  intros HB Ha Hb A0 A1 B0 B1. unfold column_total.
  assert (forall k, 0 <= conv a b k) as Hc by (intros k; apply (conv_nonneg B); auto; lia).
  assert (0 <= value B (map (conv a b) (seq 0 (S (i + j)))) / B ^ Z.of_nat (S (i + j))).
  { apply Z.div_pos; [|apply Z.pow_pos_nonneg; lia]. apply value_nonneg_all; [lia|]. apply Forall_forall.
    intros x Hx. apply in_map_iff in Hx. destruct Hx as (k & <- & _). apply Hc. }
  assert ((B - 1) * (B - 1) + (B - 1) * (B - 1) <= conv a b (S (i + j))); [|nia].
  unfold conv. set (f := fun k => nth k a 0 * nth (S (i + j) - k) b 0).
  pose proof (zsum_ge_two f (S (S (i + j))) i (S i) ltac:(lia)) as Z2.
  assert (f i = (B - 1) * (B - 1)) as E1. { unfold f. replace (S (i + j) - i)%nat with (S j) by lia. rewrite A0, B1. reflexivity. }
  assert (f (S i) = (B - 1) * (B - 1)) as E2. { unfold f. replace (S (i + j) - S i)%nat with j by lia. rewrite A1, B0. reflexivity. }
  rewrite E1, E2 in Z2. apply Z2. intros k. unfold f.
  pose proof (digits_nth B a k ltac:(lia) Ha). pose proof (digits_nth B b (S (i + j) - k) ltac:(lia) Hb). nia.
Qed.
