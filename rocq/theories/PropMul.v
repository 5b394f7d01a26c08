(** * Properties C16-C18: multiplication

    [exact]: the floating-point operations are exact.  [ieee ct cosf sinf]: they are IEEE binary64, rounding to
    nearest even, with std::cos and std::sin given by [cosf] and [sinf], and with the multiply-adds that [ct] selects
    fused; [accurate cosf sinf] says that on [-4, 4] the cosine and sine are within 2^-52 of the true values.  [column_total B a b k] (Conv.v) is column k of the
    product a * b together with what lower columns carry into it.  [fuel] bounds the depth of the recursion. *)
From Coq Require Import ZArith Reals Lia List Arith.
From Flocq Require Import IEEE754.BinarySingleNaN.
From Verif Require Import Base Spec Limits Fourier Multiplication Bignum Outcome Wp ValueProof AddSubProof BignumProof Conv
  MulProof Ieee IeeeProof Exact MulOpProof.
Import ListNotations.
Open Scope Z_scope.

(** ** C16 *)
Theorem C16_product : forall L fuel x y, limits_ok L = true -> finite x -> finite y ->
  digits_ok (base L) (data x) -> digits_ok (base L) (data y) ->
  (0 < length (data x) + length (data y))%nat -> Z.of_nat (length (data x) + length (data y)) <= 2 ^ 32 ->
  Z.log2_up (Z.of_nat (length (data x) + length (data y))) < Z.of_nat fuel ->
  (forall k, column_total (base L) (data x) (data y) k < 2 ^ wd L) ->
  assigns (op_mul_assign L exact fuel x (Other y))
    (fun z => good (base L) z /\ canonical (data z) /\
       signed_value (base L) z = signed_value (base L) x * signed_value (base L) y /\
       (desc z = BN_POS <-> desc x = desc y))
    (infinity_for (desc y)).
Proof.
  intros L fuel x [dy vy] HL Fx Fy Dx Dy Hp Hl Hf Hc. apply (mul_assign_product L exact fuel x (Other (mkBN dy vy)) Fx Fy).
  apply (proj1 (mul_exact L fuel _ _ HL Dx Dy Hp Hl Hf)). exact Hc.
Qed.
Print Assumptions C16_product.

Theorem C16_product_binary : forall L fuel x y, limits_ok L = true -> finite x -> finite y ->
  digits_ok (base L) (data x) -> digits_ok (base L) (data y) ->
  (0 < length (data x) + length (data y))%nat -> Z.of_nat (length (data x) + length (data y)) <= 2 ^ 32 ->
  Z.log2_up (Z.of_nat (length (data x) + length (data y))) < Z.of_nat fuel ->
  (forall k, column_total (base L) (data x) (data y) k < 2 ^ wd L) ->
  returns (op_mul L exact fuel x y)
    (fun z => good (base L) z /\ canonical (data z) /\
       signed_value (base L) z = signed_value (base L) x * signed_value (base L) y /\
       (desc z = BN_POS <-> desc x = desc y)).
Proof.
  intros L fuel x y HL Fx Fy Dx Dy Hp Hl Hf Hc. exact (binary_returns _ _ _ _ _ (C16_product L fuel x y HL Fx Fy Dx Dy Hp Hl Hf Hc)).
Qed.
Print Assumptions C16_product_binary.

(** x *= x on one object *)
Theorem C16_square : forall L fuel x, limits_ok L = true -> finite x -> digits_ok (base L) (data x) ->
  (0 < length (data x) + length (data x))%nat -> Z.of_nat (length (data x) + length (data x)) <= 2 ^ 32 ->
  Z.log2_up (Z.of_nat (length (data x) + length (data x))) < Z.of_nat fuel ->
  (forall k, column_total (base L) (data x) (data x) k < 2 ^ wd L) ->
  assigns (op_mul_assign L exact fuel x Self)
    (fun z => good (base L) z /\ canonical (data z) /\ desc z = BN_POS /\
       signed_value (base L) z = signed_value (base L) x * signed_value (base L) x)
    (infinity_for (desc x)).
Proof.
  intros L fuel x HL Fx Dx Hp Hl Hf Hc.
  eapply assigns_mono; [apply (mul_assign_product L exact fuel x Self Fx Fx), (proj1 (mul_exact L fuel _ _ HL Dx Dx Hp Hl Hf)), Hc|].
  intros z (G & C & V & S). cbn [adesc adata] in *. destruct x as [d v]. cbn [desc data] in *. repeat split; try tauto; apply G.
Qed.
Print Assumptions C16_square.

(** A condition on the lengths alone: (shorter length) * (B-1) * B at most the number of values of the double type. *)
Theorem C16_columns_fit : forall L x y, limits_ok L = true ->
  digits_ok (base L) (data x) -> digits_ok (base L) (data y) ->
  Z.of_nat (Nat.min (length (data x)) (length (data y))) * (bmax L * base L) <= 2 ^ wd L ->
  forall k, column_total (base L) (data x) (data y) k < 2 ^ wd L.
Proof. intros L x y HL. exact (columns_fit L (data x) (data y) HL). Qed.
Print Assumptions C16_columns_fit.

(** The condition of C16_product is exact: otherwise a double out of range is converted to an integer. *)
Theorem C16_column_overflow : forall L fuel x y, limits_ok L = true -> finite x ->
  digits_ok (base L) (data x) -> digits_ok (base L) (data y) ->
  (0 < length (data x) + length (data y))%nat -> Z.of_nat (length (data x) + length (data y)) <= 2 ^ 32 ->
  Z.log2_up (Z.of_nat (length (data x) + length (data y))) < Z.of_nat fuel ->
  (exists k, 2 ^ wd L <= column_total (base L) (data x) (data y) k) ->
  undefined_assign (op_mul_assign L exact fuel x (Other y)) UB_float_to_int (infinity_for (desc y)).
Proof.
  intros L fuel x y HL Fx Dx Dy Hp Hl Hf Hc. apply (mul_assign_undef L exact fuel x (Other y) Fx).
  apply (proj2 (mul_exact L fuel _ _ HL Dx Dy Hp Hl Hf)). exact Hc.
Qed.
Print Assumptions C16_column_overflow.

(** It is the best one: with maximal digits, anything longer overflows. *)
Theorem C16_lengths_sharp : forall L fuel m p, limits_ok L = true -> (m < p)%nat -> Z.of_nat (m + p) <= 2 ^ 32 ->
  2 ^ wd L < Z.of_nat m * (bmax L * base L) -> Z.log2_up (Z.of_nat (m + p)) < Z.of_nat fuel ->
  let x := mkBN BN_POS (repeat (bmax L) m) in let y := mkBN BN_POS (repeat (bmax L) p) in
  undefined_assign (op_mul_assign L exact fuel x (Other y)) UB_float_to_int (infinity_for BN_POS).
Proof.
  intros L fuel m p HL Hm Hl Hc Hf x y.
  refine (C16_column_overflow L fuel x y HL (or_introl eq_refl) (maximal_ok L m HL) (maximal_ok L p HL) _ _ _
    (columns_overflow L m p HL Hm Hc)); cbn [data x y]; rewrite ?repeat_length; auto; lia.
Qed.
Print Assumptions C16_lengths_sharp.

(** -12 * 34 in base 10 *)
Example C16_case : let x := mkBN BN_NEG [2; 1] in let y := mkBN BN_POS [4; 3] in
  finite x /\ finite y /\ digits_ok 10 (data x) /\ digits_ok 10 (data y) /\
  Z.of_nat (Nat.min (length (data x)) (length (data y))) * (bmax base10 * base base10) <= 2 ^ wd base10 /\
  exists z n, run (op_mul base10 exact 3 x y) = Ret z n /\ signed_value 10 z = -408.
Proof.
  intros x y. assert (finite x) as Fx by (right; reflexivity). assert (finite y) as Fy by (left; reflexivity).
  assert (digits_ok (base base10) (data x)) as Dx by (repeat constructor; cbn; lia).
  assert (digits_ok (base base10) (data y)) as Dy by (repeat constructor; cbn; lia).
  assert (Z.of_nat (Nat.min (length (data x)) (length (data y))) * (bmax base10 * base base10) <= 2 ^ wd base10) as H by (vm_compute; discriminate).
  repeat (split; [assumption|]).
  destruct (returns_run _ _ (C16_product_binary base10 3 x y eq_refl Fx Fy Dx Dy ltac:(cbn; lia) ltac:(cbn; lia) ltac:(cbn; lia)
    (C16_columns_fit base10 x y eq_refl Dx Dy H))) as (z & n & E & _ & _ & V & _).
  exists z, n. split; [exact E|exact V].
Qed.

(** ** C17 *)
(** With l the rounded-up logarithm of the total length and Q the sum of the squares of all the digits: every
    coefficient comes out of the transforms with an error below 52 (l+1) (Q+1) 2^-53, so that rounding is right. *)
Theorem C17_product : forall ct cosf sinf L fuel x y, accurate cosf sinf -> limits_ok L = true ->
  let l := Z.log2_up (Z.of_nat (length (data x) + length (data y))) in
  finite x -> finite y -> digits_ok (base L) (data x) -> digits_ok (base L) (data y) ->
  (0 < length (data x) + length (data y))%nat -> Z.of_nat (length (data x) + length (data y)) <= 2 ^ 32 ->
  l < Z.of_nat fuel -> 103 * ((l + 1) * (sum_squares (data x) + sum_squares (data y) + 1)) <= 2 ^ 53 ->
  (forall k, column_total (base L) (data x) (data y) k < 2 ^ wd L) ->
  assigns (op_mul_assign L (ieee ct cosf sinf) fuel x (Other y))
    (fun z => good (base L) z /\ canonical (data z) /\
       signed_value (base L) z = signed_value (base L) x * signed_value (base L) y /\
       (desc z = BN_POS <-> desc x = desc y))
    (infinity_for (desc y)).
Proof.
  intros ct cosf sinf L fuel x [dy vy] HA HL l Fx Fy Dx Dy Hp Hl Hf Hq Hc.
  apply (mul_assign_product L (ieee ct cosf sinf) fuel x (Other (mkBN dy vy)) Fx Fy).
  apply (proj1 (mul_ieee ct cosf sinf L fuel _ _ HA HL Dx Dy Hp Hl Hf Hq)). exact Hc.
Qed.
Print Assumptions C17_product.

Theorem C17_square : forall ct cosf sinf L fuel x, accurate cosf sinf -> limits_ok L = true ->
  let l := Z.log2_up (Z.of_nat (length (data x) + length (data x))) in
  finite x -> digits_ok (base L) (data x) ->
  (0 < length (data x) + length (data x))%nat -> Z.of_nat (length (data x) + length (data x)) <= 2 ^ 32 ->
  l < Z.of_nat fuel -> 103 * ((l + 1) * (sum_squares (data x) + sum_squares (data x) + 1)) <= 2 ^ 53 ->
  (forall k, column_total (base L) (data x) (data x) k < 2 ^ wd L) ->
  assigns (op_mul_assign L (ieee ct cosf sinf) fuel x Self)
    (fun z => good (base L) z /\ canonical (data z) /\ desc z = BN_POS /\
       signed_value (base L) z = signed_value (base L) x * signed_value (base L) x)
    (infinity_for (desc x)).
Proof.
  intros ct cosf sinf L fuel x HA HL l Fx Dx Hp Hl Hf Hq Hc.
  eapply assigns_mono; [apply (mul_assign_product L (ieee ct cosf sinf) fuel x Self Fx Fx), (proj1 (mul_ieee ct cosf sinf L fuel _ _ HA HL Dx Dx Hp Hl Hf Hq)), Hc|].
  intros z (G & C & V & S). cbn [adesc adata] in *. destruct x as [d v]. cbn [desc data] in *. repeat split; try tauto; apply G.
Qed.
Print Assumptions C17_square.

Theorem C17_column_overflow : forall ct cosf sinf L fuel x y, accurate cosf sinf -> limits_ok L = true ->
  let l := Z.log2_up (Z.of_nat (length (data x) + length (data y))) in
  finite x -> digits_ok (base L) (data x) -> digits_ok (base L) (data y) ->
  (0 < length (data x) + length (data y))%nat -> Z.of_nat (length (data x) + length (data y)) <= 2 ^ 32 ->
  l < Z.of_nat fuel -> 103 * ((l + 1) * (sum_squares (data x) + sum_squares (data y) + 1)) <= 2 ^ 53 ->
  (exists k, 2 ^ wd L <= column_total (base L) (data x) (data y) k) ->
  undefined_assign (op_mul_assign L (ieee ct cosf sinf) fuel x (Other y)) UB_float_to_int (infinity_for (desc y)).
Proof.
  intros ct cosf sinf L fuel x y HA HL l Fx Dx Dy Hp Hl Hf Hq Hc. apply (mul_assign_undef L (ieee ct cosf sinf) fuel x (Other y) Fx).
  apply (proj2 (mul_ieee ct cosf sinf L fuel _ _ HA HL Dx Dy Hp Hl Hf Hq)). exact Hc.
Qed.
Print Assumptions C17_column_overflow.

(** Per type: (limits, N, m): the product is right if the total length is at most N digits and the shorter operand
    has at most m digits. *)
Definition safe_lengths : list (limits * Z * Z) :=
  [(base2, 2 ^ 32, 128); (base8, 2 ^ 32, 1170); (base10, 2 ^ 32, 47721858); (base16, 2 ^ 32, 17895697);
   (base256, 2 ^ 25, 1); (lowp, 2 ^ 25, 1); (medp, 1696, 1)].

Lemma safe_lengths_numbers L N m : In (L, N, m) safe_lengths ->
  limits_ok L = true /\ 2 * m + 3 <= N <= 2 ^ 32 /\ 103 * ((Z.log2_up N + 1) * (N * (bmax L * bmax L) + 1)) <= 2 ^ 53 /\
  0 <= bmax L /\ 0 <= m /\ m * (bmax L * base L) <= 2 ^ wd L < (m + 1) * (bmax L * base L).
Proof.
  intros Hin. unfold safe_lengths in Hin. cbn [In] in Hin.
  repeat (destruct Hin as [E|Hin]; [injection E as <- <- <-; repeat split; vm_compute; congruence|]). contradiction.
Qed.

Theorem C17_per_type : forall ct cosf sinf L N m fuel x y, accurate cosf sinf -> In (L, N, m) safe_lengths ->
  finite x -> finite y -> digits_ok (base L) (data x) -> digits_ok (base L) (data y) ->
  (0 < length (data x) + length (data y))%nat -> Z.of_nat (length (data x) + length (data y)) <= N ->
  Z.of_nat (Nat.min (length (data x)) (length (data y))) <= m -> Z.log2_up N < Z.of_nat fuel ->
  returns (op_mul L (ieee ct cosf sinf) fuel x y)
    (fun z => good (base L) z /\ canonical (data z) /\
       signed_value (base L) z = signed_value (base L) x * signed_value (base L) y /\
       (desc z = BN_POS <-> desc x = desc y)).
Proof.
  intros ct cosf sinf L N m fuel x y HA Hin Fx Fy Dx Dy Hpos Hlen Hm Hf.
  destruct (safe_lengths_numbers L N m Hin) as (HL & HN & Hq & HM & Hm0 & Hc & _).
  refine (binary_returns _ _ _ _ _ (C17_product ct cosf sinf L fuel x y HA HL Fx Fy Dx Dy Hpos _ _ _ _)).
  - lia.
  - pose proof (Z.log2_up_le_mono _ _ Hlen). lia.
  - apply (length_precision L _ _ N); auto. unfold base. lia.
  - apply C16_columns_fit; auto. eapply Z.le_trans; [|exact Hc]. apply Z.mul_le_mono_nonneg_r; [unfold base; nia|exact Hm].
Qed.
Print Assumptions C17_per_type.

(** The bound m cannot be raised: m+1 maximal digits times m+2 maximal digits is undefined behaviour, whatever accurate
    mathematical library is used. *)
Theorem C17_lengths_sharp : forall ct cosf sinf L N m fuel, accurate cosf sinf -> In (L, N, m) safe_lengths ->
  Z.log2_up N < Z.of_nat fuel ->
  let x := mkBN BN_POS (repeat (bmax L) (Z.to_nat (m + 1))) in let y := mkBN BN_POS (repeat (bmax L) (Z.to_nat (m + 2))) in
  undefined_assign (op_mul_assign L (ieee ct cosf sinf) fuel x (Other y)) UB_float_to_int (infinity_for BN_POS).
Proof.
  intros ct cosf sinf L N m fuel HA Hin Hf. destruct (safe_lengths_numbers L N m Hin) as (HL & HN & Hq & HM & Hm0 & _ & Hc).
  assert (Z.of_nat (Z.to_nat (m + 1)) = m + 1) as E1 by lia. assert (Z.of_nat (Z.to_nat (m + 2)) = m + 2) as E2 by lia.
  revert E1 E2. generalize (Z.to_nat (m + 1)) (Z.to_nat (m + 2)). intros p q E1 E2 x y.
  assert (length (data x) = p /\ length (data y) = q) as [Lx Ly] by (split; apply repeat_length).
  assert (Z.of_nat (length (data x) + length (data y)) <= N) as Hlen by lia.
  refine (C17_column_overflow ct cosf sinf L fuel x y HA HL (or_introl eq_refl) (maximal_ok L p HL) (maximal_ok L q HL) _ _ _ _ _).
  - lia.
  - lia.
  - pose proof (Z.log2_up_le_mono _ _ Hlen). lia.
  - apply (length_precision L _ _ N); [unfold base; lia|exact (maximal_ok L p HL)|exact (maximal_ok L q HL)|exact Hlen|exact Hq].
  - apply (columns_overflow L p q HL); [lia|]. rewrite E1. lia.
Qed.
Print Assumptions C17_lengths_sharp.

(** The documented meaning without a bound on the length, and that it is false: for bignum_base2 a square of 129
    one digits is undefined behaviour, whatever accurate mathematical library is used. *)
Definition C17_full_statement : Prop := forall ct cosf sinf L x y, accurate cosf sinf -> In L base_n_types ->
  finite x -> finite y -> digits_ok (base L) (data x) -> digits_ok (base L) (data y) ->
  (0 < length (data x) + length (data y))%nat -> Z.of_nat (length (data x) + length (data y)) <= 2 ^ 32 ->
  returns (op_mul L (ieee ct cosf sinf) 40 x y)
    (fun z => signed_value (base L) z = signed_value (base L) x * signed_value (base L) y).

Lemma base2_overflow : forall ct cosf sinf fuel, accurate cosf sinf -> (9 < fuel)%nat ->
  let x := mkBN BN_POS (repeat 1 129) in
  undefined_assign (op_mul_assign base2 (ieee ct cosf sinf) fuel x (Other x)) UB_float_to_int (infinity_for BN_POS).
Proof.
  intros ct cosf sinf fuel HA Hf x. assert (digits_ok (base base2) (data x)) as D by (apply Forall_forall; intros d Hd; apply repeat_spec in Hd; subst d; cbn; lia).
  assert (enough_precision (data x) (data x)) as Hq by (vm_compute; discriminate).
  assert (2 ^ wd base2 <= column_total (base base2) (data x) (data x) 128) as Hc by (vm_compute; discriminate).
  refine (C17_column_overflow ct cosf sinf base2 fuel x x HA eq_refl (or_introl eq_refl) D D _ _ _ Hq (ex_intro _ 128%nat Hc)).
  - cbn. lia.
  - cbn. lia.
  - change (Z.log2_up (Z.of_nat (length (data x) + length (data x)))) with 9. lia.
Qed.

Lemma undefined_not_returns f x y u bad Q : undefined_assign (f x (Other y)) u bad -> ~ returns (binary f x y) Q.
Proof.
  intros U H. specialize (U never_fails 1%nat). specialize (H never_fails 0%nat). rewrite binary_eq in H.
  change (never_fails 0%nat) with true in H. cbv iota in H.
  destruct (f x (Other y) never_fails 1%nat) as [[z [e|]] n'|e n'|v|]; auto.
  destruct U as (_ & _ & k & Hk & Hal). discriminate.
Qed.

Theorem C17_product_refuted : ~ C17_full_statement.
Proof.
  intros H. pose proof (base2_overflow unfused libm_cos libm_sin 40 libm_accurate ltac:(lia)) as U. cbv zeta in U.
  revert U. assert (digits_ok (base base2) (data (mkBN BN_POS (repeat 1 129)))) as D
    by (apply Forall_forall; intros d Hd; apply repeat_spec in Hd; subst d; cbn; lia).
  assert (length (data (mkBN BN_POS (repeat 1 129))) = 129%nat) as Ln by apply repeat_length.
  assert (finite (mkBN BN_POS (repeat 1 129))) as Fx by (left; reflexivity).
  revert D Ln Fx. generalize (mkBN BN_POS (repeat 1 129)). intros x D Ln Fx U.
  refine (undefined_not_returns _ _ _ _ _ _ U (H unfused libm_cos libm_sin base2 x x libm_accurate _ Fx Fx D D _ _)).
  - cbn. auto.
  - lia.
  - rewrite Ln. cbn. lia.
Qed.
Print Assumptions C17_product_refuted.

(** A correctly rounded library is accurate; the literal of fourier_impl.h:42 is the double used. *)
Theorem C17_accurate_exists : accurate libm_cos libm_sin.
Proof. exact libm_accurate. Qed.
Print Assumptions C17_accurate_exists.

(** Fusing does change results: with x = 1 + 2^-52, x*x - x*x is 0 when every operation rounds, and is the rounding
    error of x*x when the first product is fused.  The theorems hold for every choice nevertheless. *)
Example C17_fusing_matters : let x := mk_double (2 ^ 52 + 1) (-52) in
  det64 Separate x x x x = mk_double 0 0 /\ det64 FuseFirst x x x x = mk_double 1 (-104) /\ det64 FuseSecond x x x x = mk_double (-1) (-104).
Proof. cbv zeta. repeat split; apply B2SF_inj; vm_compute; reflexivity. Qed.

(** 99...9 times 99...9 in base 10: the shorter one up to 47721858 digits, the longer one up to 4 billion *)
Example C17_case : forall p q, (0 < p)%nat -> Z.of_nat p <= 47721858 -> Z.of_nat (p + q) <= 2 ^ 32 ->
  let x := mkBN BN_POS (repeat 9 p) in let y := mkBN BN_POS (repeat 9 q) in
  digits_ok (base base10) (data x) /\ digits_ok (base base10) (data y) /\
  returns (op_mul base10 (ieee unfused libm_cos libm_sin) 33 x y)
    (fun z => signed_value 10 z = value 10 (data x) * value 10 (data y)).
Proof.
  intros p q Hp0 Hp Hq x y.
  assert (forall n, digits_ok (base base10) (repeat 9 n)) as D by (intros n; apply (maximal_ok base10 n); reflexivity).
  split; [apply D|]. split; [apply D|].
  assert (length (data x) = p /\ length (data y) = q) as [Lx Ly] by (split; apply repeat_length).
  eapply returns_mono.
  - refine (C17_per_type unfused libm_cos libm_sin base10 (2 ^ 32) 47721858 33 x y libm_accurate _ _ _ (D p) (D q) _ _ _ _).
    + unfold safe_lengths. cbn [In]. auto.
    + left. reflexivity.
    + left. reflexivity.
    + lia.
    + lia.
    + lia.
    + vm_compute. reflexivity.
  - intros z (_ & _ & V & _). exact V.
Qed.

(** 32-bit digits: the precision depends on the digits, not on their type.  Both operands of at most 1000 digits below
    2^16, one of them of a single digit. *)
Example C17_case_highp : forall d v, 0 <= d < 2 ^ 16 -> digits_ok (2 ^ 16) v -> Z.of_nat (length v) <= 1000 ->
  let x := mkBN BN_POS [d] in let y := mkBN BN_POS v in
  returns (op_mul highp (ieee unfused libm_cos libm_sin) 11 x y)
    (fun z => signed_value (2 ^ 32) z = d * value (2 ^ 32) v).
Proof.
  intros d v Hd Hv Hl x y.
  assert (digits_ok (2 ^ 16) [d]) as Dd by (repeat constructor; lia).
  assert (forall w, digits_ok (2 ^ 16) w -> digits_ok (base highp) w) as DD.
  { intros w Hw. eapply Forall_impl; [|exact Hw]. intros e He. cbn beta in *. change (base highp) with (2 ^ 32). lia. }
  eapply returns_mono.
  - refine (binary_returns _ _ _ _ _ (C17_product unfused libm_cos libm_sin highp 11 x y libm_accurate eq_refl (or_introl eq_refl)
      (or_introl eq_refl) (DD _ Dd) (DD _ Hv) _ _ _ _ _)); cbn [data x y length].
    + lia.
    + lia.
    + assert (Z.log2_up (Z.of_nat (1 + length v)) <= Z.log2_up 1024) as E by (apply Z.log2_up_le_mono; lia).
      change (Z.log2_up 1024) with 10 in E. lia.
    + assert (Z.log2_up (Z.of_nat (1 + length v)) <= Z.log2_up 1024) as E by (apply Z.log2_up_le_mono; lia).
      change (Z.log2_up 1024) with 10 in E. pose proof (Z.log2_up_nonneg (Z.of_nat (1 + length v))).
      pose proof (sum_squares_le (2 ^ 16) v ltac:(lia) Hv). pose proof (sum_squares_le (2 ^ 16) [d] ltac:(lia) Dd) as Q1.
      pose proof (sum_squares_nonneg v). pose proof (sum_squares_nonneg [d]). cbn [length] in Q1.
      apply Z.le_trans with (103 * (11 * (1001 * ((2 ^ 16 - 1) * (2 ^ 16 - 1)) + 1))); [|vm_compute; discriminate].
      apply Z.mul_le_mono_nonneg_l; [lia|]. apply Z.mul_le_mono_nonneg; lia.
    + apply (C16_columns_fit highp x y eq_refl (DD _ Dd) (DD _ Hv)). cbn [data x y length].
      apply Z.le_trans with (1 * (bmax highp * base highp)); [|vm_compute; discriminate].
      apply Z.mul_le_mono_nonneg_r; [vm_compute; discriminate|]. lia.
  - intros z (_ & _ & V & _). change (base highp) with (2 ^ 32) in V. rewrite V. cbn. ring.
Qed.

(** ** C18 *)
(** Full-width types: wherever both operands have two adjacent maximal digits, a column does not fit the double
    type, even in exact arithmetic. *)
Theorem C18_two_maximal_digits : forall L fuel x y i j, full_width L = true -> wd L = 2 * ws L -> 2 <= ws L -> finite x ->
  digits_ok (base L) (data x) -> digits_ok (base L) (data y) ->
  nth i (data x) 0 = bmax L -> nth (S i) (data x) 0 = bmax L -> nth j (data y) 0 = bmax L -> nth (S j) (data y) 0 = bmax L ->
  Z.of_nat (length (data x) + length (data y)) <= 2 ^ 32 ->
  Z.log2_up (Z.of_nat (length (data x) + length (data y))) < Z.of_nat fuel ->
  undefined_assign (op_mul_assign L exact fuel x (Other y)) UB_float_to_int (infinity_for (desc y)).
Proof.
  intros L fuel x y i j HF Hw Hs Fx Dx Dy A0 A1 B0 B1 Hl Hf. unfold full_width in HF. apply andb_true_iff in HF. destruct HF as [HL HB].
  apply Z.eqb_eq in HB.
  assert (4 <= base L) as H4 by (rewrite HB; change 4 with (2 ^ 2); apply Z.pow_le_mono_r; lia).
  assert (data x <> []) as Nx by (intros E; rewrite E in A0; destruct i; cbn in A0; unfold base in H4; lia).
  apply C16_column_overflow; auto.
  - destruct (data x); [congruence|cbn; lia].
  - exists (S (i + j)). rewrite Hw. replace (2 ^ (2 * ws L)) with (base L * base L).
    + apply column_overflow; auto; rewrite ?A0, ?A1, ?B0, ?B1; unfold base; lia.
    + rewrite HB, <- Z.pow_add_r by lia. f_equal. lia.
Qed.
Print Assumptions C18_two_maximal_digits.

(** the same under IEEE arithmetic for 8- and 16-bit digits *)
Theorem C18_two_maximal_digits_ieee : forall ct cosf sinf L N fuel x y i j, accurate cosf sinf ->
  (L = lowp /\ N = 2 ^ 25 \/ L = medp /\ N = 1696) -> finite x ->
  digits_ok (base L) (data x) -> digits_ok (base L) (data y) ->
  nth i (data x) 0 = bmax L -> nth (S i) (data x) 0 = bmax L -> nth j (data y) 0 = bmax L -> nth (S j) (data y) 0 = bmax L ->
  Z.of_nat (length (data x) + length (data y)) <= N -> Z.log2_up N < Z.of_nat fuel ->
  undefined_assign (op_mul_assign L (ieee ct cosf sinf) fuel x (Other y)) UB_float_to_int (infinity_for (desc y)).
Proof.
  intros ct cosf sinf L N fuel x y i j HA HLp Fx Dx Dy A0 A1 B0 B1 Hlen Hf.
  assert (limits_ok L = true /\ 4 <= base L /\ N <= 2 ^ 32 /\ 103 * ((Z.log2_up N + 1) * (N * (bmax L * bmax L) + 1)) <= 2 ^ 53 /\
          2 ^ wd L = base L * base L) as (HL & H4 & HN & Hq & Hw).
  { destruct HLp as [[-> ->]|[-> ->]]; repeat split; vm_compute; congruence. }
  assert (data x <> []) as Nx by (intros E; rewrite E in A0; destruct i; cbn in A0; unfold base in H4; lia).
  apply C17_column_overflow; auto.
  - destruct (data x); [congruence|cbn; lia].
  - lia.
  - pose proof (Z.log2_up_le_mono _ _ Hlen). lia.
  - apply (length_precision L _ _ N); auto. lia.
  - exists (S (i + j)). rewrite Hw. apply column_overflow; auto; rewrite ?A0, ?A1, ?B0, ?B1; unfold base; lia.
Qed.
Print Assumptions C18_two_maximal_digits_ieee.

(** bignum, one digit each: (2^32-1)^2 comes out as (2^32-2) * 2^32 instead of (2^32-2) * 2^32 + 1, for every
    mathematical library with cos(0) = 1 and sin(-0) = -0. *)
Lemma double_pair (e1 e2 d1 d2 : double) : B2SF e1 = B2SF d1 -> B2SF e2 = B2SF d2 -> (e1, e2) = (d1, d2).
Proof. intros H1 H2. apply B2SF_inj in H1. apply B2SF_inj in H2. congruence. Qed.

Theorem C18_single_digits : forall ct cosf sinf fuel,
  cosf (B754_zero true) = mk_double 1 0 -> sinf (B754_zero true) = B754_zero true -> (2 <= fuel)%nat ->
  let x := mkBN BN_POS [4294967295] in
  run (op_mul highp (ieee ct cosf sinf) fuel x x) = Ret (mkBN BN_POS [0; 4294967294]) 2%nat.
Proof.
  intros ct cosf sinf fuel Hc Hs Hf x. destruct fuel as [|[|f]]; try lia.
  set (P := ieee ct cosf sinf).
  set (zero := mk_double 0 0). set (mzero := B754_zero true : double). set (a := mk_double 4294967295 0).
  set (sq := mk_double (2 ^ 64 - 2 ^ 33) 0).
  assert (twiddle P 2 0 = (mk_double 1 0, mzero)) as T.
  { unfold twiddle. match goal with |- (fcos _ ?w, _) = _ => assert (w = mzero) as -> end.
    - apply B2SF_inj. vm_compute. reflexivity.
    - change ((cosf mzero, sinf mzero) = (mk_double 1 0, mzero)). unfold mzero. rewrite Hc, Hs. reflexivity. }
  assert (forall p q : cplx P, fft_complex P (S (S f)) [p; q] =
    Some [cadd P p (cmul P (SumSite 2 0) (twiddle P 2 0) q); csub P p (cmul P (DifferenceSite 2 0) (twiddle P 2 0) q)]) as F2 by reflexivity.
  assert (forall s, cmul P s (mk_double 1 0, mzero) (zero, zero) = (zero, zero)) as M0.
  { intros s. unfold cmul, P. cbn [fdet fdot fnan ieee fst snd]. destruct (fusing_at ct s) as [[] []]; apply double_pair; vm_compute; reflexivity. }
  assert (forall s, cmul P s (mk_double 1 0, mzero) (sq, zero) = (sq, zero)) as M1.
  { intros s. unfold cmul, P. cbn [fdet fdot fnan ieee fst snd]. destruct (fusing_at ct s) as [[] []]; apply double_pair; vm_compute; reflexivity. }
  assert (fft_complex P (S (S f)) (create_fft_table P [4294967295] [4294967295]) = Some [(a, a); (a, a)]) as E1.
  { change (create_fft_table P [4294967295] [4294967295]) with [(a, a); (zero, zero)]. rewrite F2, T, !M0. reflexivity. }
  assert (forall i, neg_index i 2 = i -> @nth (cplx P) i [(a, a); (a, a)] (czero P) = (a, a) -> convolve_entry P [(a, a); (a, a)] i = (sq, mzero)) as E2.
  { intros i Hi Hn. unfold convolve_entry. cbn [length]. rewrite Hi, Hn. unfold cmul, cadd, csub, cconj, cscale. unfold P.
    cbn [fdet fdot fadd fsub fnan fneg ieee fst snd]. destruct (fusing_at ct (PointSite i)) as [[] []]; apply double_pair; vm_compute; reflexivity. }
  assert (convolute_fft P (S (S f)) (create_fft_table P [4294967295] [4294967295]) = Some [(sq, mzero); (sq, mzero)]) as E3.
  { unfold convolute_fft. rewrite E1. change (length (create_fft_table P [4294967295] [4294967295])) with 2%nat. cbn [seq map].
    rewrite !E2 by reflexivity. reflexivity. }
  assert (ifft_complex P (S (S f)) [(sq, mzero); (sq, mzero)] = Some [(sq, mzero); (zero, mzero)]) as E4.
  { unfold ifft_complex. cbn [map]. change (cconj P (sq, mzero)) with (sq, B754_zero false : double).
    replace (B754_zero false : double) with zero by (apply B2SF_inj; vm_compute; reflexivity).
    rewrite F2, T, !M1. cbn [map length]. repeat (apply f_equal2; [apply double_pair; vm_compute; reflexivity|] || apply f_equal || reflexivity). }
  unfold run, op_mul. rewrite !binary_eq. change (never_fails 0%nat) with true. cbv iota.
  unfold op_mul_assign. cbn [isComputable desc negb data adata adesc x]. unfold mul_strassen. rewrite E3, E4.
  vm_compute. reflexivity.
Qed.
Print Assumptions C18_single_digits.

Example C18_cases :
  (full_width lowp = true /\ wd lowp = 2 * ws lowp /\ full_width medp = true /\ wd medp = 2 * ws medp /\
   full_width highp = true /\ wd highp = 2 * ws highp) /\
  (let x := mkBN BN_POS [255; 255] in finite x /\ digits_ok (base lowp) (data x) /\ nth 0 (data x) 0 = bmax lowp /\
     nth 1 (data x) 0 = bmax lowp) /\
  libm_cos (B754_zero true) = mk_double 1 0 /\ libm_sin (B754_zero true) = B754_zero true.
Proof. repeat split; try (left; reflexivity); repeat constructor; cbn; lia. Qed.
