(** * Property C89: products of 32-bit digits that are never right *)
From Coq Require Import ZArith Reals Lra Lia List Bool Arith.
From Flocq Require Import Core IEEE754.BinarySingleNaN.
From Verif Require Import Base Spec Limits Fourier Multiplication Bignum Outcome Wp ValueProof AddSubProof BignumProof Conv
  DivOpProof HistoryProof Ieee IeeeProof FloatModel MulProof MulOpProof PropMul Environment EnvironmentProof WideProof.
Import ListNotations.
Open Scope Z_scope.

(** A compound assignment that never gives [v]: if it returns normally the object holds a number, and another one; it may
    instead be undefined behaviour, or be refused memory. *)
Definition never_gives (B : Z) (m : M assigned) (v : Z) (bad : bignum) : Prop :=
  forall al n, match m al n with
               | Ret (z, None) n' => good B z /\ canonical (data z) /\ signed_value B z <> v
               | Ret (z, Some e) n' => e = ExStd /\ z = bad /\ refused al n n'
               | Undef u => u = UB_float_to_int
               | Throw _ _ | NoFuel => False
               end.
(** The same for an operator that makes a new number. *)
Definition never_makes (B : Z) (m : M bignum) (v : Z) : Prop :=
  forall al n, match m al n with
               | Ret z n' => good B z /\ canonical (data z) /\ signed_value B z <> v
               | Throw e n' => (e = ExStd \/ e = ExBadAlloc) /\ refused al n n'
               | Undef u => u = UB_float_to_int
               | NoFuel => False
               end.

Lemma signed_divide B d v k : (2 ^ k | signed_value B (mkBN d v)) <-> (2 ^ k | value B v).
Proof. unfold signed_value. cbn [desc data]. destruct d; try reflexivity; apply Z.divide_opp_r. Qed.

Lemma wide_assign E ct cosf sinf L fuel x y k : accurate cosf sinf -> limits_ok L = true -> base L <= 2 ^ 53 ->
  0 <= k -> (2 ^ k | base L) -> finite x -> (adesc x y = BN_POS \/ adesc x y = BN_NEG) ->
  digits_ok (base L) (data x) -> digits_ok (base L) (adata x y) ->
  (0 < length (data x) + length (adata x y))%nat -> Z.of_nat (length (data x) + length (adata x y)) <= 2 ^ 32 ->
  let l := Z.log2_up (Z.of_nat (length (data x) + length (adata x y))) in
  let c := nth 0 (data x) 0 * nth 0 (adata x y) 0 in
  l < Z.of_nat fuel ->
  52 * ((l + 1) * (sum_squares (data x) + sum_squares (adata x y) + 1)) <= 2 ^ 52 * (c - 2 ^ (52 + k)) -> ~ (2 ^ k | c) ->
  forall al n, match op_mul_assign L (ieee_in E ct cosf sinf) fuel x y al n with
               | Ret (z, None) n' => (good (base L) z /\ canonical (data z) /\ (2 ^ k | signed_value (base L) z) /\
                   signed_value (base L) z <> signed_value (base L) x * signed_value (base L) (mkBN (adesc x y) (adata x y)))
               | Ret (z, Some e) n' => e = ExStd /\ z = infinity_for (adesc x y) /\ refused al n n'
               | Undef u => u = UB_float_to_int
               | Throw _ _ | NoFuel => False
               end.
Proof.
  intros HA HL HB Hk Hd Fx Fy Dx Dy Hp Hlen l c Hf Hbig Hc al n.
  unfold op_mul_assign. rewrite (finite_computable x Fx). cbn [negb]. rewrite failed_infinity. unfold guarded, bind.
  pose proof (mul_ends E ct cosf sinf HA L fuel _ _ al n HL HB Dx Dy Hp Hlen Hf) as He.
  pose proof (fun r n' => wide_multiple E ct cosf sinf HA L fuel _ _ k al n r n' HL HB Hk Hd Dx Dy Hp Hlen Hf Hbig) as Hw.
  destruct (mul_strassen L (ieee_in E ct cosf sinf) fuel (data x) (adata x y) al n) as [r n'|e n'|w|].
  - unfold ret. destruct He as (Dr & Cr & _). specialize (Hw r n' eq_refl).
    destruct (product_desc_iff _ _ Fx Fy) as [Hf2 _].
    assert (2 ^ k | signed_value (base L) (mkBN (product_desc (desc x) (adesc x y)) r)) as Hs by (apply signed_divide; exact Hw).
    split; [split; [exact Hf2|]; split; [exact Dr|left; exact Cr]|]. split; [exact Cr|]. split; [exact Hs|]. intros Ev.
    apply (product_not_multiple (base L) (data x) (adata x y) k Hd Hc).
    rewrite Ev in Hs.
    assert (signed_value (base L) x * signed_value (base L) (mkBN (adesc x y) (adata x y)) =
      signed_value (base L) (mkBN (product_desc (desc x) (adesc x y)) [value (base L) (data x) * value (base L) (adata x y)])) as Es.
    { symmetry. rewrite (product_signed (base L) _ _ (data x) (adata x y) _ Fx Fy); [destruct x; reflexivity|]. cbn [value]. ring. }
    rewrite Es in Hs. apply signed_divide in Hs. cbn [value] in Hs. replace (value (base L) (data x) * value (base L) (adata x y) + base L * 0)
      with (value (base L) (data x) * value (base L) (adata x y)) in Hs by ring. exact Hs.
  - destruct He as (-> & Hal & ->). split; [reflexivity|]. split; [reflexivity|]. exists n. split; [lia|exact Hal].
  - exact He.
  - exact He.
Qed.

(** ** The general statement *)

(** The lowest digits alone decide: if their product is large, compared with the error of the transform, and is not a
    multiple of 2^k, then whatever number the operation stores is a multiple of 2^k, and so is not the product. *)
Theorem C89_multiple : forall E ct cosf sinf L fuel x y k, accurate cosf sinf -> limits_ok L = true -> base L <= 2 ^ 53 ->
  0 <= k -> (2 ^ k | base L) -> finite x -> finite y -> digits_ok (base L) (data x) -> digits_ok (base L) (data y) ->
  (0 < length (data x) + length (data y))%nat -> Z.of_nat (length (data x) + length (data y)) <= 2 ^ 32 ->
  let l := Z.log2_up (Z.of_nat (length (data x) + length (data y))) in
  let c := nth 0 (data x) 0 * nth 0 (data y) 0 in
  l < Z.of_nat fuel ->
  52 * ((l + 1) * (sum_squares (data x) + sum_squares (data y) + 1)) <= 2 ^ 52 * (c - 2 ^ (52 + k)) -> ~ (2 ^ k | c) ->
  never_gives (base L) (op_mul_assign L (ieee_in E ct cosf sinf) fuel x (Other y))
    (signed_value (base L) x * signed_value (base L) y) (infinity_for (desc y)) /\
  (forall al n z n', op_mul_assign L (ieee_in E ct cosf sinf) fuel x (Other y) al n = Ret (z, None) n' ->
     (2 ^ k | signed_value (base L) z)).
Proof.
  intros E ct cosf sinf L fuel x [dy vy] k HA HL HB Hk Hd Fx Fy Dx Dy Hp Hlen l c Hf Hbig Hc.
  pose proof (wide_assign E ct cosf sinf L fuel x (Other (mkBN dy vy)) k HA HL HB Hk Hd Fx Fy Dx Dy Hp Hlen Hf Hbig Hc) as H.
  cbn [adesc adata] in H. split.
  - intros al n. specialize (H al n). destruct (op_mul_assign _ _ _ _ _ al n) as [[z [e|]] n'|e n'|w|]; tauto.
  - intros al n z n' Er. specialize (H al n). rewrite Er in H. tauto.
Qed.
Print Assumptions C89_multiple.

(** ** 32-bit digits *)

Lemma wide_bound (a b : list Z) k : digits_ok (2 ^ 32) a -> digits_ok (2 ^ 32) b -> Z.of_nat (length a + length b) <= 2 ^ 32 -> 1 <= k ->
  2 ^ (55 + k) <= nth 0 a 0 * nth 0 b 0 ->
  52 * ((Z.log2_up (Z.of_nat (length a + length b)) + 1) * (sum_squares a + sum_squares b + 1)) <= 2 ^ 52 * (nth 0 a 0 * nth 0 b 0 - 2 ^ (52 + k)).
Proof.
  intros Ha Hb Hlen Hk Hc. set (c := nth 0 a 0 * nth 0 b 0) in *. set (l := Z.log2_up _).
  assert (0 <= l <= 32) as Hl.
  { split; [apply Z.log2_up_nonneg|]. unfold l. rewrite <- (Z.log2_up_pow2 32) by lia. apply Z.log2_up_le_mono. exact Hlen. }
  pose proof (sum_squares_le (2 ^ 32) a ltac:(lia) Ha) as Qa. pose proof (sum_squares_le (2 ^ 32) b ltac:(lia) Hb) as Qb.
  pose proof (sum_squares_nonneg a). pose proof (sum_squares_nonneg b).
  change ((2 ^ 32 - 1) * (2 ^ 32 - 1)) with 18446744065119617025 in Qa, Qb.
  set (Q := sum_squares a + sum_squares b) in *. assert (0 <= Q) as HQ0 by (unfold Q; lia).
  assert (Q + 1 <= 2 ^ 96) as HQ by (unfold Q; lia).
  assert ((l + 1) * (Q + 1) <= 33 * 2 ^ 96) as H1 by (apply Z.mul_le_mono_nonneg; lia).
  rewrite !Z.pow_add_r in * by lia. assert (2 <= 2 ^ k) as Hp by (change 2 with (2 ^ 1) at 1; apply Z.pow_le_mono_r; lia).
  set (w := 2 ^ k) in *. change (2 ^ 55) with (8 * 2 ^ 52) in Hc. lia.
Qed.

Lemma power_divides k : 0 <= k <= 32 -> (2 ^ k | 2 ^ 32).
Proof. intros H. exists (2 ^ (32 - k)). rewrite <- Z.pow_add_r by lia. f_equal. lia. Qed.

Lemma wide_power (a b : list Z) k : digits_ok (2 ^ 32) a -> digits_ok (2 ^ 32) b -> 0 <= k -> 2 ^ (55 + k) <= nth 0 a 0 * nth 0 b 0 ->
  k <= 32 /\ a <> [].
Proof.
  intros Ha Hb Hk Hc.
  assert (forall v, digits_ok (2 ^ 32) v -> 0 <= nth 0 v 0 < 2 ^ 32) as Hn.
  { intros v Hv. destruct v as [|d v]; [cbn; lia|]. inversion Hv; subst. cbn [nth]. lia. }
  pose proof (Hn a Ha). pose proof (Hn b Hb).
  assert (0 < 2 ^ (55 + k)) as Hp by (apply Z.pow_pos_nonneg; lia).
  assert (nth 0 a 0 * nth 0 b 0 < 2 ^ 64) as Hu by (change (2 ^ 64) with (2 ^ 32 * 2 ^ 32); apply Z.mul_lt_mono_nonneg; lia).
  split.
  - destruct (Z_le_gt_dec k 32) as [|Hg]; [assumption|]. assert (2 ^ 64 <= 2 ^ (55 + k)) by (apply Z.pow_le_mono_r; lia). lia.
  - intros ->. cbn [nth] in Hc. lia.
Qed.

(** Operands of any sign and of up to 2^32 digits in all, in any environment, with any way of evaluating the expressions and
    any accurate library: if the product of the two lowest digits is at least 2^(55+k) and is not a multiple of 2^k, the
    product is never right. *)
Theorem C89_never_right : forall E ct cosf sinf fuel x y k, accurate cosf sinf -> 1 <= k -> finite x -> finite y ->
  digits_ok (2 ^ 32) (data x) -> digits_ok (2 ^ 32) (data y) -> Z.of_nat (length (data x) + length (data y)) <= 2 ^ 32 ->
  Z.log2_up (Z.of_nat (length (data x) + length (data y))) < Z.of_nat fuel ->
  let c := nth 0 (data x) 0 * nth 0 (data y) 0 in 2 ^ (55 + k) <= c -> c mod 2 ^ k <> 0 ->
  never_gives (2 ^ 32) (op_mul_assign highp (ieee_in E ct cosf sinf) fuel x (Other y))
    (signed_value (2 ^ 32) x * signed_value (2 ^ 32) y) (infinity_for (desc y)).
Proof.
  intros E ct cosf sinf fuel x y k HA Hk Fx Fy Dx Dy Hlen Hf c Hc Hm.
  destruct (wide_power _ _ k Dx Dy ltac:(lia) Hc) as [Hk2 Nx].
  apply (C89_multiple E ct cosf sinf highp fuel x y k); auto; try reflexivity; try lia.
  - vm_compute. discriminate.
  - apply power_divides. lia.
  - destruct (data x); [congruence|cbn; lia].
  - apply wide_bound; auto.
  - intros Hd. apply Hm. apply Z.mod_divide; [apply Z.pow_nonzero; lia|exact Hd].
Qed.
Print Assumptions C89_never_right.

(** The same for squares by way of x *= x, *)
Theorem C89_square : forall E ct cosf sinf fuel x k, accurate cosf sinf -> 1 <= k -> finite x ->
  digits_ok (2 ^ 32) (data x) -> Z.of_nat (length (data x) + length (data x)) <= 2 ^ 32 ->
  Z.log2_up (Z.of_nat (length (data x) + length (data x))) < Z.of_nat fuel ->
  let c := nth 0 (data x) 0 * nth 0 (data x) 0 in 2 ^ (55 + k) <= c -> c mod 2 ^ k <> 0 ->
  never_gives (2 ^ 32) (op_mul_assign highp (ieee_in E ct cosf sinf) fuel x Self)
    (signed_value (2 ^ 32) x * signed_value (2 ^ 32) x) (infinity_for (desc x)).
Proof.
  intros E ct cosf sinf fuel x k HA Hk Fx Dx Hlen Hf c Hc Hm.
  destruct (wide_power _ _ k Dx Dx ltac:(lia) Hc) as [Hk2 Nx].
  assert (~ (2 ^ k | c)) as Hnd.
  { intros Hd. apply Hm. apply Z.mod_divide; [apply Z.pow_nonzero; lia|exact Hd]. }
  intros al n.
  pose proof (wide_assign E ct cosf sinf highp fuel x Self k HA eq_refl ltac:(vm_compute; discriminate) ltac:(lia) (power_divides k ltac:(lia))
    Fx Fx Dx Dx ltac:(cbn [adata]; destruct (data x); [congruence|cbn; lia]) Hlen Hf (wide_bound _ _ k Dx Dx Hlen Hk Hc) Hnd al n) as H.
  cbn [adesc adata] in H. change (base highp) with (2 ^ 32) in H. destruct x as [dx vx]. cbn [desc data] in *.
  destruct (op_mul_assign _ _ _ _ _ al n) as [[z [e|]] n'|e n'|w|]; tauto.
Qed.
Print Assumptions C89_square.

(** and for the operator. *)
Theorem C89_operator : forall E ct cosf sinf fuel x y k, accurate cosf sinf -> 1 <= k -> finite x -> finite y ->
  digits_ok (2 ^ 32) (data x) -> digits_ok (2 ^ 32) (data y) -> Z.of_nat (length (data x) + length (data y)) <= 2 ^ 32 ->
  Z.log2_up (Z.of_nat (length (data x) + length (data y))) < Z.of_nat fuel ->
  let c := nth 0 (data x) 0 * nth 0 (data y) 0 in 2 ^ (55 + k) <= c -> c mod 2 ^ k <> 0 ->
  never_makes (2 ^ 32) (op_mul highp (ieee_in E ct cosf sinf) fuel x y) (signed_value (2 ^ 32) x * signed_value (2 ^ 32) y).
Proof.
  intros E ct cosf sinf fuel x y k HA Hk Fx Fy Dx Dy Hlen Hf c Hc Hm al n. unfold op_mul, binary, bind.
  assert (yields (bn_copy x) (fun r => r = x)) as Hcp.
  { unfold bn_copy. eapply yields_bind with (Q := fun v => v = data x); [apply yields_vcopy; reflexivity|]. intros v ->. apply yields_ret. destruct x; reflexivity. }
  specialize (Hcp al n). destruct (bn_copy x al n) as [r n1|e n1| |]; try contradiction.
  - destruct Hcp as [-> Hn]. pose proof (C89_never_right E ct cosf sinf fuel x y k HA Hk Fx Fy Dx Dy Hlen Hf Hc Hm al n1) as H.
    destruct (op_mul_assign _ _ _ _ _ al n1) as [[z [e|]] n'|e n'|w|]; cbn [snd fst]; unfold throw, ret; try tauto.
    destruct H as (-> & _ & j & Hj & Ej). split; [tauto|]. exists j. split; [lia|exact Ej].
  - destruct Hcp as [He Hr]. split; [|exact Hr]. subst. tauto.
Qed.
Print Assumptions C89_operator.

(** In particular no product of two odd numbers whose lowest digits are both at least 2^28 is ever right. *)
Theorem C89_odd : forall E ct cosf sinf fuel x y, accurate cosf sinf -> finite x -> finite y ->
  digits_ok (2 ^ 32) (data x) -> digits_ok (2 ^ 32) (data y) -> Z.of_nat (length (data x) + length (data y)) <= 2 ^ 32 ->
  Z.log2_up (Z.of_nat (length (data x) + length (data y))) < Z.of_nat fuel ->
  Z.odd (signed_value (2 ^ 32) x) = true -> Z.odd (signed_value (2 ^ 32) y) = true ->
  2 ^ 28 <= Z.abs (signed_value (2 ^ 32) x) mod 2 ^ 32 -> 2 ^ 28 <= Z.abs (signed_value (2 ^ 32) y) mod 2 ^ 32 ->
  never_makes (2 ^ 32) (op_mul highp (ieee_in E ct cosf sinf) fuel x y) (signed_value (2 ^ 32) x * signed_value (2 ^ 32) y).
Proof.
  intros E ct cosf sinf fuel x y HA Fx Fy Dx Dy Hlen Hf Ox Oy Lx Ly.
  assert (forall v, finite v -> digits_ok (2 ^ 32) (data v) -> Z.odd (signed_value (2 ^ 32) v) = true ->
    2 ^ 28 <= Z.abs (signed_value (2 ^ 32) v) mod 2 ^ 32 -> 2 ^ 28 <= nth 0 (data v) 0 /\ Z.odd (nth 0 (data v) 0) = true) as Hv.
  { intros v Fv Dv Ov Lv. pose proof (value_bounds (2 ^ 32) ltac:(lia) (data v) Dv) as Hb.
    assert (Z.abs (signed_value (2 ^ 32) v) = value (2 ^ 32) (data v)) as Ea by (unfold signed_value; destruct Fv as [-> | ->]; lia).
    assert (Z.odd (value (2 ^ 32) (data v)) = true) as Ov2.
    { unfold signed_value in Ov. destruct Fv as [Ed|Ed]; rewrite Ed in Ov; [exact Ov|rewrite Z.odd_opp in Ov; exact Ov]. }
    rewrite Ea in Lv. destruct (data v) as [|d r]; [cbn in Ov2; discriminate|]. inversion Dv; subst. cbn [value nth] in *.
    rewrite (Z.mul_comm (2 ^ 32)), Z.mod_add, Z.mod_small in Lv by lia. split; [exact Lv|].
    rewrite Z.odd_add, Z.odd_mul in Ov2. change (Z.odd (2 ^ 32)) with false in Ov2. cbn [andb] in Ov2. rewrite xorb_false_r in Ov2. exact Ov2. }
  destruct (Hv x Fx Dx Ox Lx) as [Lx0 Ox0]. destruct (Hv y Fy Dy Oy Ly) as [Ly0 Oy0].
  apply (C89_operator E ct cosf sinf fuel x y 1); auto; [lia| |].
  - change (2 ^ (55 + 1)) with (2 ^ 28 * 2 ^ 28). apply Z.mul_le_mono_nonneg; lia.
  - change (2 ^ 1) with 2. rewrite Zmod_odd, Z.odd_mul, Ox0, Oy0. discriminate.
Qed.
Print Assumptions C89_odd.

(** ** One digit each *)

(** Numbers of one digit: here the operation does end, unless memory is refused, and ends with a wrong number.  The
    threshold is lower: 2^(52+k) + 2^20. *)
Theorem C89_single_digits : forall E ct cosf sinf fuel x y d e k, accurate cosf sinf -> 1 <= k -> finite x -> finite y ->
  data x = [d] -> data y = [e] -> 0 <= d < 2 ^ 32 -> 0 <= e < 2 ^ 32 -> (1 < fuel)%nat ->
  2 ^ (52 + k) + 2 ^ 20 <= d * e -> (d * e) mod 2 ^ k <> 0 ->
  assigns (op_mul_assign highp (ieee_in E ct cosf sinf) fuel x (Other y))
    (fun z => good (2 ^ 32) z /\ canonical (data z) /\ signed_value (2 ^ 32) z <> signed_value (2 ^ 32) x * signed_value (2 ^ 32) y)
    (infinity_for (desc y)).
Proof.
  intros E ct cosf sinf fuel x y d e k HA Hk Fx Fy Ex Ey Hd He Hf Hc Hm al n.
  assert (2 ^ 53 <= 2 ^ (52 + k)) as Hp by (apply Z.pow_le_mono_r; lia).
  assert (d * e < 2 ^ 64) as Hu by (change (2 ^ 64) with (2 ^ 32 * 2 ^ 32); apply Z.mul_lt_mono_nonneg; lia).
  assert (k <= 32) as Hk2.
  { destruct (Z_le_gt_dec k 32) as [|Hg]; [assumption|]. assert (2 ^ 64 <= 2 ^ (52 + k)) by (apply Z.pow_le_mono_r; lia). lia. }
  assert (digits_ok (2 ^ 32) (data x)) as Dx by (rewrite Ex; repeat constructor; lia).
  assert (digits_ok (2 ^ 32) (data y)) as Dy by (rewrite Ey; repeat constructor; lia).
  pose proof (single_returns E ct cosf sinf HA fuel d e Hd He ltac:(lia) Hf) as Hy.
  assert (yields (mul_strassen highp (ieee_in E ct cosf sinf) fuel (data x) (adata x (Other y))) (fun _ => True)) as Hy2
    by (cbn [adata]; rewrite Ex, Ey; eapply yields_mono; [exact Hy|auto]).
  pose proof (mul_assign_yields highp (ieee_in E ct cosf sinf) fuel x (Other y) _ Fx Hy2 al n) as H1.
  destruct (C89_multiple E ct cosf sinf highp fuel x y k) as [H2 _]; auto; try lia; try reflexivity.
  - vm_compute. discriminate.
  - apply power_divides. lia.
  - rewrite Ex, Ey. cbn. lia.
  - rewrite Ex, Ey. cbn. lia.
  - rewrite Ex, Ey. cbn [length Nat.add]. change (Z.log2_up (Z.of_nat 2)) with 1. lia.
  - rewrite Ex, Ey. cbn [length Nat.add nth]. change (Z.log2_up (Z.of_nat 2)) with 1. unfold sum_squares. cbn [length zsum nth].
    assert (d * d <= (2 ^ 32 - 1) * (2 ^ 32 - 1)) by (apply Z.mul_le_mono_nonneg; lia).
    assert (e * e <= (2 ^ 32 - 1) * (2 ^ 32 - 1)) by (apply Z.mul_le_mono_nonneg; lia). lia.
  - rewrite Ex, Ey. cbn [nth]. intros Hv. apply Hm. apply Z.mod_divide; [apply Z.pow_nonzero; lia|exact Hv].
  - specialize (H2 al n). destruct (op_mul_assign _ _ _ _ _ al n) as [[z [e0|]] n'|e0 n'|w|]; tauto.
Qed.
Print Assumptions C89_single_digits.

(** Not vacuous: the largest digit, and two longer odd numbers of either sign; and the threshold matters, the product of two
    lowest digits below it may be right (C17). *)
Example C89_cases :
  let x := mkBN BN_POS [4294967295] in let y := mkBN BN_NEG [268435457; 7; 1] in let z := mkBN BN_POS [3000000001; 5] in
  accurate libm_cos libm_sin /\ finite x /\ finite y /\ finite z /\
  digits_ok (2 ^ 32) (data x) /\ digits_ok (2 ^ 32) (data y) /\ digits_ok (2 ^ 32) (data z) /\
  (2 ^ (55 + 1) <= 4294967295 * 4294967295 /\ (4294967295 * 4294967295) mod 2 ^ 1 <> 0) /\
  (2 ^ (55 + 8) <= 4294967295 * 4294967294 /\ (4294967295 * 4294967294) mod 2 ^ 8 <> 0) /\
  Z.odd (signed_value (2 ^ 32) y) = true /\ Z.odd (signed_value (2 ^ 32) z) = true /\
  2 ^ 28 <= Z.abs (signed_value (2 ^ 32) y) mod 2 ^ 32 /\ 2 ^ 28 <= Z.abs (signed_value (2 ^ 32) z) mod 2 ^ 32 /\
  Z.log2_up (Z.of_nat (length (data y) + length (data z))) < Z.of_nat 10.
Proof.
  cbv zeta. split; [exact C17_accurate_exists|]. repeat split; try (left; reflexivity); try (right; reflexivity);
    try (repeat constructor; cbn; lia); vm_compute; congruence.
Qed.
