(** * Property C91: products with excess precision *)
From Coq Require Import ZArith Reals Lra Lia List Bool Arith.
From Flocq Require Import Core IEEE754.BinarySingleNaN.
From Verif Require Import Base Spec Limits Compare AddSub Division Bignum Fourier Multiplication Machine While Clients Calculator Outcome Wp ValueProof
  AddSubProof BignumProof Conv DivisionProof HistoryProof Ieee IeeeProof FloatModel MulProof MulOpProof PropMul PropProgram PropCompare Exact CalculatorProof PropCalculator
  Environment EnvironmentProof PropEnvironment Formats FormatProof Excess ExcessProof.
Import ListNotations.
Open Scope Z_scope.

(** registers at least as wide as those of the x87 unit *)
Definition wide_registers (g : binary_format) : Prop := 64 <= bprec g /\ 1100 <= bemax g.

Lemma precision_excess l Q : 103 * (l * Q) <= 2 ^ 52 -> 104 * (l * Q) <= 2 ^ 53.
Proof. lia. Qed.

Lemma mul_with_excess g ct cosf sinf L fuel a b : wide_registers g -> accurate cosf sinf -> limits_ok L = true ->
  digits_ok (base L) a -> digits_ok (base L) b ->
  (0 < length a + length b)%nat -> Z.of_nat (length a + length b) <= 2 ^ 32 ->
  let l := Z.log2_up (Z.of_nat (length a + length b)) in
  l < Z.of_nat fuel -> 104 * ((l + 1) * (sum_squares a + sum_squares b + 1)) <= 2 ^ 53 ->
  multiplies L (flops_excess g ct cosf sinf) fuel a b.
Proof.
  intros [W1 W2] HA HL Ha Hb Hpos Hlen lz Hf Hp.
  pose proof (Z.log2_up_nonneg (Z.of_nat (length a + length b))) as Hl0. fold lz in Hl0.
  pose proof (mul_strassen_cases (flops_excess g ct cosf sinf) _ _ _ _ _ _ (rounding_excess g W1 W2 ct cosf sinf HA) L HL fuel a b) as H. cbv zeta in H.
  fold lz in H. set (l := Z.to_nat lz) in *.
  assert (Z.of_nat l = lz) as El by (unfold l; lia).
  assert (Z.of_nat (2 ^ l) = 2 ^ lz) as Ep by (rewrite Nat2Z.inj_pow, El; reflexivity).
  assert (lz <= 32) as H32.
  { unfold lz. rewrite <- (Z.log2_up_pow2 32) by lia. apply Z.log2_up_le_mono. exact Hlen. }
  assert (2 ^ lz <= 2 ^ 32) as Hn by (apply Z.pow_le_mono_r; lia).
  assert (0 < 2 ^ lz) as Hn0 by (apply Z.pow_pos_nonneg; lia).
  pose proof (sum_squares_nonneg a) as Qa. pose proof (sum_squares_nonneg b) as Qb.
  set (Q := sum_squares a + sum_squares b) in *. assert (0 <= Q) as HQ by (unfold Q; lia).
  assert (104 * (Q + 1) <= 2 ^ 53) as Hq by nia.
  apply H; auto; clear H.
  - unfold l. lia.
  - lia.
  - rewrite Ep. lia.
  - rewrite INR_IZR_INZ, Ep, <- (plus_IZR Q 1), <- !mult_IZR. unfold Omx. apply IZR_le.
    apply Z.le_trans with (301 * (2 ^ 32 * 2 ^ 53)); [|vm_compute; discriminate].
    apply Z.mul_le_mono_nonneg_l; [lia|]. apply Z.mul_le_mono_nonneg; lia.
  - rewrite !INR_IZR_INZ, <- (plus_IZR Q 1), <- !mult_IZR. unfold u_excess.
    replace (Z.of_nat (l + 1)) with (lz + 1) by lia. apply IZR_le in Hp. rewrite !mult_IZR in *.
    replace (IZR (2 ^ 53)) with 9007199254740992%R in Hp by (apply f_equal; reflexivity). 
    assert (0 <= IZR (lz + 1) * IZR (Q + 1))%R by (rewrite <- mult_IZR; apply IZR_le; nia). lra.
Qed.

(** ** Excess precision is not without effect *)

(** Every operation is the exact result, rounded to the wider format and then to double. *)
Theorem C91_operations : forall g x y, wide_registers g -> is_finite x = true -> is_finite y = true ->
  let wide := round radix2 (FLT_exp (3 - bemax g - bprec g) (bprec g)) ZnearestE in
  let stored := round radix2 (FLT_exp (-1074) 53) ZnearestE in
  ((Rabs (B2R x + B2R y) <= IZR (2 ^ 99))%R -> B2R (add_excess g x y) = stored (wide (B2R x + B2R y)%R)) /\
  ((Rabs (B2R x - B2R y) <= IZR (2 ^ 99))%R -> B2R (sub_excess g x y) = stored (wide (B2R x - B2R y)%R)) /\
  ((Rabs (B2R x * B2R y) <= IZR (2 ^ 99))%R -> B2R (mul_excess g x y) = stored (wide (B2R x * B2R y)%R)) /\
  (B2R y <> 0%R -> (Rabs (B2R x / B2R y) <= IZR (2 ^ 99))%R -> B2R (div_excess g x y) = stored (wide (B2R x / B2R y)%R)).
Proof.
  intros g x y [W1 W2] Fx Fy wide stored.
  pose proof (add_excess_spec g W1 W2 x y Fx Fy) as A1. pose proof (sub_excess_spec g W1 W2 x y Fx Fy) as A2.
  pose proof (mul_excess_spec g W1 W2 x y Fx Fy) as A3. pose proof (div_excess_spec g W1 W2 x y Fx Fy) as A4.
  repeat split; intros; [apply A1|apply A2|apply A3|apply A4]; assumption.
Qed.
Print Assumptions C91_operations.

(** In a complex product a product that stays in the registers is rounded once, a stored one twice, before the difference or sum is rounded twice. *)
Theorem C91_complex_parts : forall g i j a b c d, wide_registers g ->
  is_finite a = true -> is_finite b = true -> is_finite c = true -> is_finite d = true ->
  let wide := round radix2 (FLT_exp (3 - bemax g - bprec g) (bprec g)) ZnearestE in
  let stored := round radix2 (FLT_exp (-1074) 53) ZnearestE in
  let part k z := match k with Kept => wide z | Stored => stored (wide z) end in
  let p := part i (B2R a * B2R b)%R in let q := part j (B2R c * B2R d)%R in
  (Rabs (B2R a * B2R b) <= IZR (2 ^ 99))%R -> (Rabs (B2R c * B2R d) <= IZR (2 ^ 99))%R ->
  ((Rabs (p - q) <= IZR (2 ^ 99))%R -> B2R (det_excess g (i, j) a b c d) = stored (wide (p - q)%R)) /\
  ((Rabs (p + q) <= IZR (2 ^ 99))%R -> B2R (dot_excess g (i, j) a b c d) = stored (wide (p + q)%R)).
Proof.
  intros g i j a b c d [W1 W2] Fa Fb Fc Fd wide stored part p q H1 H2.
  assert (24 <= bprec g) as G1 by lia. assert (128 <= bemax g) as G2 by lia.
  assert (forall k x y, is_finite x = true -> is_finite y = true -> (Rabs (B2R x * B2R y) <= IZR (2 ^ 99))%R ->
    is_finite (product_excess g k x y) = true /\ B2R (product_excess g k x y) = part k (B2R x * B2R y)%R) as Hpart.
  { intros k x y Fx Fy H. split; [apply (product_spec g W1 W2 k x y Fx Fy H)|]. destruct k; cbn [product_excess part].
    - destruct (widen_spec g W1 W2 x Fx) as [F1 V1]. destruct (widen_spec g W1 W2 y Fy) as [F2 V2].
      destruct (mul_at_spec g G1 G2 (widen g x) (widen g y) F1 F2) as [_ V3]; rewrite V1, V2 in *; [apply Omx_le, H|exact V3].
    - destruct (mul_excess_spec g W1 W2 x y Fx Fy H) as [F1 V1]. destruct (widen_spec g W1 W2 _ F1) as [_ V2]. rewrite V2. exact V1. }
  destruct (Hpart i a b Fa Fb H1) as [F1 V1]. destruct (Hpart j c d Fc Fd H2) as [F2 V2]. fold p in V1. fold q in V2.
  split; intros H; rewrite <- V1, <- V2 in *.
  - destruct (sub_at_spec g G1 G2 _ _ F1 F2 (Omx_le _ H)) as [F3 V3]. apply (narrow_spec g W1 W2 _ _ F3 V3 H).
  - destruct (add_at_spec g G1 G2 _ _ F1 F2 (Omx_le _ H)) as [F3 V3]. apply (narrow_spec g W1 W2 _ _ F3 V3 H).
Qed.
Print Assumptions C91_complex_parts.

(** 1 + (2^-53 + 2^-73): rounded once, the sum is 1 + 2^-52, rounded twice, it is 1.  A product that stays in the wider format: x * x - y * y *)
Example C91_excess_matters :
  let one := mk_double 1 0 in let y := mk_double (2 ^ 20 + 1) (-73) in let x := mk_double (2 ^ 30 + 1) 0 in let z := mk_double (2 ^ 30) 0 in
  add_in default_fenv one y = mk_double (2 ^ 52 + 1) (-52) /\ add_excess extended80 one y = one /\
  det_excess extended80 (Kept, Kept) x x z z = mk_double (2 ^ 31 + 1) 0 /\ det_excess extended80 (Stored, Stored) x x z z = mk_double (2 ^ 31) 0.
Proof. cbv zeta. repeat split; apply B2SF_inj; vm_compute; reflexivity. Qed.

(** ** Products *)

(** As [C17_product]: the bound on the digits is 104 instead of 103. *)
Theorem C91_product : forall g ct cosf sinf L fuel x y, wide_registers g -> accurate cosf sinf -> limits_ok L = true ->
  let l := Z.log2_up (Z.of_nat (length (data x) + length (data y))) in
  finite x -> finite y -> digits_ok (base L) (data x) -> digits_ok (base L) (data y) ->
  (0 < length (data x) + length (data y))%nat -> Z.of_nat (length (data x) + length (data y)) <= 2 ^ 32 ->
  l < Z.of_nat fuel -> 104 * ((l + 1) * (sum_squares (data x) + sum_squares (data y) + 1)) <= 2 ^ 53 ->
  (forall k, column_total (base L) (data x) (data y) k < 2 ^ wd L) ->
  assigns (op_mul_assign L (flops_excess g ct cosf sinf) fuel x (Other y))
    (fun z => good (base L) z /\ canonical (data z) /\
       signed_value (base L) z = signed_value (base L) x * signed_value (base L) y /\
       (desc z = BN_POS <-> desc x = desc y))
    (infinity_for (desc y)).
Proof.
  intros g ct cosf sinf L fuel x [dy vy] HW HA HL l Fx Fy Dx Dy Hp Hl Hf Hq Hc.
  apply (mul_assign_product L (flops_excess g ct cosf sinf) fuel x (Other (mkBN dy vy)) Fx Fy).
  apply (proj1 (mul_with_excess g ct cosf sinf L fuel _ _ HW HA HL Dx Dy Hp Hl Hf Hq)). exact Hc.
Qed.
Print Assumptions C91_product.

Theorem C91_square : forall g ct cosf sinf L fuel x, wide_registers g -> accurate cosf sinf -> limits_ok L = true ->
  let l := Z.log2_up (Z.of_nat (length (data x) + length (data x))) in
  finite x -> digits_ok (base L) (data x) ->
  (0 < length (data x) + length (data x))%nat -> Z.of_nat (length (data x) + length (data x)) <= 2 ^ 32 ->
  l < Z.of_nat fuel -> 104 * ((l + 1) * (sum_squares (data x) + sum_squares (data x) + 1)) <= 2 ^ 53 ->
  (forall k, column_total (base L) (data x) (data x) k < 2 ^ wd L) ->
  assigns (op_mul_assign L (flops_excess g ct cosf sinf) fuel x Self)
    (fun z => good (base L) z /\ canonical (data z) /\ desc z = BN_POS /\
       signed_value (base L) z = signed_value (base L) x * signed_value (base L) x)
    (infinity_for (desc x)).
Proof.
  intros g ct cosf sinf L fuel x HW HA HL l Fx Dx Hp Hl Hf Hq Hc.
  eapply assigns_mono; [apply (mul_assign_product L (flops_excess g ct cosf sinf) fuel x Self Fx Fx), (proj1 (mul_with_excess g ct cosf sinf L fuel _ _ HW HA HL Dx Dx Hp Hl Hf Hq)), Hc|].
  intros z (G & C & V & S). cbn [adesc adata] in *. destruct x as [d v]. cbn [desc data] in *. repeat split; try tauto; apply G.
Qed.
Print Assumptions C91_square.

(** A column that does not fit the wider type is undefined behaviour with excess precision. *)
Theorem C91_column_overflow : forall g ct cosf sinf L fuel x y, wide_registers g -> accurate cosf sinf -> limits_ok L = true ->
  let l := Z.log2_up (Z.of_nat (length (data x) + length (data y))) in
  finite x -> digits_ok (base L) (data x) -> digits_ok (base L) (data y) ->
  (0 < length (data x) + length (data y))%nat -> Z.of_nat (length (data x) + length (data y)) <= 2 ^ 32 ->
  l < Z.of_nat fuel -> 104 * ((l + 1) * (sum_squares (data x) + sum_squares (data y) + 1)) <= 2 ^ 53 ->
  (exists k, 2 ^ wd L <= column_total (base L) (data x) (data y) k) ->
  undefined_assign (op_mul_assign L (flops_excess g ct cosf sinf) fuel x (Other y)) UB_float_to_int (infinity_for (desc y)).
Proof.
  intros g ct cosf sinf L fuel x y HW HA HL l Fx Dx Dy Hp Hl Hf Hq Hc. apply (mul_assign_undef L (flops_excess g ct cosf sinf) fuel x (Other y) Fx).
  apply (proj2 (mul_with_excess g ct cosf sinf L fuel _ _ HW HA HL Dx Dy Hp Hl Hf Hq)). exact Hc.
Qed.
Print Assumptions C91_column_overflow.

(** Per type: [lengths_anywhere], as in C88 *)
Theorem C91_per_type : forall g ct cosf sinf L N m fuel x y, wide_registers g -> accurate cosf sinf -> In (L, N, m) lengths_anywhere ->
  finite x -> finite y -> digits_ok (base L) (data x) -> digits_ok (base L) (data y) ->
  (0 < length (data x) + length (data y))%nat -> Z.of_nat (length (data x) + length (data y)) <= N ->
  Z.of_nat (Nat.min (length (data x)) (length (data y))) <= m -> Z.log2_up N < Z.of_nat fuel ->
  returns (op_mul L (flops_excess g ct cosf sinf) fuel x y)
    (fun z => good (base L) z /\ canonical (data z) /\
       signed_value (base L) z = signed_value (base L) x * signed_value (base L) y /\
       (desc z = BN_POS <-> desc x = desc y)).
Proof.
  intros g ct cosf sinf L N m fuel x y HW HA Hin Fx Fy Dx Dy Hpos Hlen Hm Hf.
  destruct (anywhere_numbers L N m Hin) as (HL & HN & Hq & HM & Hm0 & Hc & _).
  refine (binary_returns _ _ _ _ _ (C91_product g ct cosf sinf L fuel x y HW HA HL Fx Fy Dx Dy Hpos _ _ _ _)).
  - lia.
  - pose proof (Z.log2_up_le_mono _ _ Hlen). lia.
  - apply precision_excess, (precision_anywhere L _ _ N); auto. unfold base. lia.
  - apply C16_columns_fit; auto. eapply Z.le_trans; [|exact Hc]. apply Z.mul_le_mono_nonneg_r; [unfold base; nia|exact Hm].
Qed.
Print Assumptions C91_per_type.

(** The bound m cannot be raised with excess precision. *)
Theorem C91_lengths_sharp : forall g ct cosf sinf L N m fuel, wide_registers g -> accurate cosf sinf -> In (L, N, m) lengths_anywhere ->
  Z.log2_up N < Z.of_nat fuel ->
  let x := mkBN BN_POS (repeat (bmax L) (Z.to_nat (m + 1))) in let y := mkBN BN_POS (repeat (bmax L) (Z.to_nat (m + 2))) in
  undefined_assign (op_mul_assign L (flops_excess g ct cosf sinf) fuel x (Other y)) UB_float_to_int (infinity_for BN_POS).
Proof.
  intros g ct cosf sinf L N m fuel HW HA Hin Hf. destruct (anywhere_numbers L N m Hin) as (HL & HN & Hq & HM & Hm0 & _ & Hc).
  assert (Z.of_nat (Z.to_nat (m + 1)) = m + 1) as E1 by lia. assert (Z.of_nat (Z.to_nat (m + 2)) = m + 2) as E2 by lia.
  revert E1 E2. generalize (Z.to_nat (m + 1)) (Z.to_nat (m + 2)). intros p q E1 E2 x y.
  assert (length (data x) = p /\ length (data y) = q) as [Lx Ly] by (split; apply repeat_length).
  assert (Z.of_nat (length (data x) + length (data y)) <= N) as Hlen by lia.
  refine (C91_column_overflow g ct cosf sinf L fuel x y HW HA HL (or_introl eq_refl) (maximal_ok L p HL) (maximal_ok L q HL) _ _ _ _ _).
  - lia.
  - lia.
  - pose proof (Z.log2_up_le_mono _ _ Hlen). lia.
  - apply precision_excess, (precision_anywhere L _ _ N); [unfold base; lia|exact (maximal_ok L p HL)|exact (maximal_ok L q HL)|exact Hlen|exact Hq].
  - apply (columns_overflow L p q HL); [lia|]. rewrite E1. lia.
Qed.
Print Assumptions C91_lengths_sharp.

(** An execution with excess precision and one without, in any environment: the same object. *)
Theorem C91_same_product : forall g ct cosf sinf E' ct' cosf' sinf' L N m fuel fuel' x y al n al' n',
  wide_registers g -> accurate cosf sinf -> accurate cosf' sinf' -> In (L, N, m) lengths_anywhere ->
  finite x -> finite y -> digits_ok (base L) (data x) -> digits_ok (base L) (data y) ->
  (0 < length (data x) + length (data y))%nat -> Z.of_nat (length (data x) + length (data y)) <= N ->
  Z.of_nat (Nat.min (length (data x)) (length (data y))) <= m -> Z.log2_up N < Z.of_nat fuel -> Z.log2_up N < Z.of_nat fuel' ->
  (forall k, al k = true) -> (forall k, al' k = true) ->
  exists z k k', op_mul L (flops_excess g ct cosf sinf) fuel x y al n = Ret z k /\ op_mul L (ieee_in E' ct' cosf' sinf') fuel' x y al' n' = Ret z k'.
Proof.
  intros g ct cosf sinf E' ct' cosf' sinf' L N m fuel fuel' x y al n al' n' HW HA HA' Hin Fx Fy Dx Dy Hp Hl Hm Hf Hf' Hal Hal'.
  pose proof (C91_per_type g ct cosf sinf L N m fuel x y HW HA Hin Fx Fy Dx Dy Hp Hl Hm Hf al n) as K.
  pose proof (C88_per_type E' ct' cosf' sinf' L N m fuel' x y HA' Hin Fx Fy Dx Dy Hp Hl Hm Hf' al' n') as K'.
  destruct (anywhere_numbers L N m Hin) as (HL & _). pose proof (AddSubProof.HB L HL) as HB.
  destruct (op_mul L (flops_excess g ct cosf sinf) fuel x y al n) as [z k|e k| |]; try contradiction.
  2:{ destruct K as (_ & j & _ & K). rewrite Hal in K. discriminate. }
  destruct (op_mul L (ieee_in E' ct' cosf' sinf') fuel' x y al' n') as [z' k'|e k'| |]; try contradiction.
  2:{ destruct K' as (_ & j & _ & K'). rewrite Hal' in K'. discriminate. }
  exists z, k, k'. split; [reflexivity|]. destruct K as [(G & C & V & S) _], K' as [(G' & C' & V' & S') _]. repeat f_equal.
  destruct z as [d v], z' as [d' v'], G as (F & D & _), G' as (F' & D' & _). unfold finite, signed_value in *. cbn [desc data] in *.
  assert (d' = d) as -> by (destruct F as [-> | ->], F' as [-> | ->]; intuition congruence).
  f_equal. apply (value_inj (base L) HB); auto. rewrite <- V in V'. destruct d; lia.
Qed.
Print Assumptions C91_same_product.

(** ** Programs *)

Lemma within_excess g ct cosf sinf L N m : wide_registers g -> accurate cosf sinf -> In (L, N, m) lengths_anywhere -> multiplies_within L (flops_excess g ct cosf sinf) N m.
Proof.
  intros HW HA Hin. destruct (anywhere_numbers L N m Hin) as (HL & HN & Hq & HM & Hm0 & Hc & _). split; [exact HM|]. split; [exact Hc|].
  intros fuel a b Da Db P F1 Hf. apply mul_with_excess; auto; [lia| |].
  - pose proof (Z.log2_up_le_mono _ _ F1). lia.
  - apply precision_excess, (precision_anywhere L _ _ N); auto. unfold base. lia.
Qed.

(** As [C77_programs], with excess precision. *)
Theorem C91_programs : forall g ct cosf sinf L N m k p s al, wide_registers g -> accurate cosf sinf -> In (L, N, m) lengths_anywhere -> can_double L = true ->
  (forall j, al j = true) -> (forall r, tidy (base L) (s r)) ->
  exists enough : nat, forall fuel keep n, (enough <= fuel)%nat ->
  as_predicted (fun s' v => forall r, tidy (base L) (s' r) /\ seen (base L) (s' r) = v r)
    (crun (base L) N m k p (all_seen (base L) s))
    (srun (mkEnv L false (flops_excess g ct cosf sinf) fuel keep) k p s al n).
Proof.
  intros g ct cosf sinf L N m k p s al HW HA Hin HD Hal Ht.
  destruct (crun_run _ L N m (within_excess g ct cosf sinf L N m HW HA Hin) HD al Hal k p (all_seen (base L) s)) as [e K]. exists e. intros fuel keep n Hf.
  refine (agrees_mono _ _ _ _ (K fuel keep s n Hf _) _).
  - intros r. split; [apply Ht|]. symmetry. apply seen_shown.
  - intros s' v H r. rewrite seen_shown. apply H.
Qed.
Print Assumptions C91_programs.

(** ** Cases *)
(** the x87 unit and registers of binary128 *)
Example C91_registers : wide_registers extended80 /\ wide_registers binary128.
Proof. repeat split; vm_compute; discriminate. Qed.

(** the hypotheses of the others: numbers of up to 47721858 digits *)
Example C91_case : forall g ct p q, wide_registers g -> (0 < p)%nat -> Z.of_nat p <= 47721858 -> Z.of_nat (p + q) <= 2 ^ 32 ->
  returns (op_mul base10 (flops_excess g ct libm_cos libm_sin) 33 (mkBN BN_POS (repeat 9 p)) (mkBN BN_NEG (repeat 9 q)))
    (fun z => signed_value 10 z = - (value 10 (repeat 9 p) * value 10 (repeat 9 q))).
Proof.
  intros g ct p q HW Hp0 Hp Hq. set (x := mkBN BN_POS (repeat 9 p)). set (y := mkBN BN_NEG (repeat 9 q)).
  assert (forall n, digits_ok (base base10) (repeat 9 n)) as D by (intros n; apply (maximal_ok base10 n); reflexivity).
  assert (length (data x) = p /\ length (data y) = q) as [Lx Ly] by (split; apply repeat_length).
  eapply returns_mono.
  - refine (C91_per_type g ct libm_cos libm_sin base10 (2 ^ 32) 47721858 33 x y HW libm_accurate _ _ _ (D p) (D q) _ _ _ _).
    + unfold lengths_anywhere. cbn [In]. auto.
    + left. reflexivity.
    + right. reflexivity.
    + lia.
    + lia.
    + lia.
    + vm_compute. reflexivity.
  - intros z (_ & _ & V & _). change (base base10) with 10 in V. rewrite V. unfold x, y, signed_value. cbn [desc data]. lia.
Qed.
