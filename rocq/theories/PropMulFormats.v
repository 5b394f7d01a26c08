(** * Property C92: multiplication with float or long double in place of double

    bn_multiplication_impl.h:17, 18: "Default type is double. Use floats if they perform well enough."  What mul_strassen does with the
    typedef changed, for the types of C90 ([float_type]: PropFormats.v). *)
From Coq Require Import ZArith Reals Lra Lia List Bool Arith.
From Flocq Require Import Core IEEE754.BinarySingleNaN.
From Verif Require Import Base Spec Limits Fourier Multiplication Bignum Outcome Wp ValueProof AddSubProof BignumProof HistoryProof Conv FloatModel FftError
  ConvError MulProof MulOpProof Ieee IeeeProof Formats FormatProof WideProof PropFormats MulFormats MulFormatProof.
Import ListNotations.
Open Scope Z_scope.

Lemma type_facts f u lmax : float_type f u lmax -> 24 <= bprec f /\ 128 <= bemax f /\ (bprec f < 53 -> bemax f <= 1024) /\
  (unit_at (wider f) <= u)%R /\ (/ 72057594037927936 <= u)%R.
Proof.
  intros T.  destruct T; (split; [vm_compute; discriminate|]); (split; [vm_compute; discriminate|]); (split; [vm_compute; congruence|]); unfold unit_at; cbn [wider bprec binary32 binary64 extended80 binary128 Z.ltb Z.compare Pos.compare Pos.compare_cont].
  - split; [|lra]. change (/ 16777216)%R with (bpow radix2 (- 24)). apply bpow_le. vm_compute. discriminate.
  - split; [|lra]. change (/ 9007199254740992)%R with (bpow radix2 (- 53)). apply bpow_le. vm_compute. discriminate.
  - split; [|lra]. change (/ 72057594037927936)%R with (bpow radix2 (- 56)). apply bpow_le. vm_compute. discriminate.
  - split; [|lra]. change (/ 72057594037927936)%R with (bpow radix2 (- 56)). apply bpow_le. vm_compute. discriminate.
Qed.

Lemma mul_with_type f u lmax ct cosf sinf L fuel a b : float_type f u lmax -> accurate_at f (2 * u) cosf sinf -> limits_ok L = true ->
  let l := Z.to_nat (Z.log2_up (Z.of_nat (length a + length b))) in let Q := sum_squares a + sum_squares b in
  digits_ok (base L) a -> digits_ok (base L) b -> (0 < length a + length b)%nat -> Z.of_nat (length a + length b) <= 2 ^ 32 ->
  (l <= lmax)%nat -> (l < fuel)%nat -> (106 * ((INR l + 1) * (IZR Q + 1)) * u <= 1)%R ->
  ((forall k, column_total (base L) a b k < 2 ^ wd L) -> yields (mul_strassen_at L f ct cosf sinf fuel a b) (is_product (base L) a b)) /\
  ((exists k, 2 ^ wd L <= column_total (base L) a b k) ->
   forall al n, mul_strassen_at L f ct cosf sinf fuel a b al n = if al n then Undef UB_float_to_int else Throw ExBadAlloc (S n)).
Proof.
  intros T HA HL l Q Ha Hb Hpos Hlen Hl Hf Hp.
  destruct (type_facts f u lmax T) as (F1 & F2 & F3 & F4 & F5).
  destruct (type_rounding f u lmax ct cosf sinf T HA) as (K & HK & H49 & HR).
  apply (mul_at_cases f F1 F2 F3 ct cosf sinf u K HR F4 F5 L HL); auto.
  - rewrite Nat2Z.inj_pow. eapply Z.le_trans; [|exact HK]. apply Z.pow_le_mono_r; [lia|]. fold l. lia.
  - pose proof (sum_squares_nonneg a) as Qa. pose proof (sum_squares_nonneg b) as Qb.
    assert (0 <= IZR Q)%R as Q0 by (apply IZR_le; unfold Q; lia). pose proof (pos_INR l) as L0.
    intros d Hd. eapply Z.le_trans; [|exact HK].
    assert (d * d <= Q) as HdQ.
    { apply in_app_or in Hd. unfold Q. destruct Hd as [Hd|Hd]; [pose proof (sum_squares_digit a d Hd)|pose proof (sum_squares_digit b d Hd)]; lia. }
    assert (106 * (IZR Q + 1) * u <= 1)%R as Hq.
    { eapply Rle_trans; [|exact Hp]. apply Rmult_le_compat_r; [lra|]. apply Rmult_le_compat_l; [lra|].
      rewrite <- (Rmult_1_l (IZR Q + 1)) at 1. apply Rmult_le_compat_r; lra. }
    destruct T.
    + assert (Q <= 2 ^ 24) by (apply le_IZR; replace (IZR (2 ^ 24)) with 16777216%R by (apply (f_equal IZR); reflexivity); lra). cbn [Z.of_nat]. nia.
    + assert (Q <= 2 ^ 53) by (apply le_IZR; replace (IZR (2 ^ 53)) with 9007199254740992%R by (apply (f_equal IZR); reflexivity); lra). change (Z.of_nat 49) with 49. nia.
    + assert (Q <= 2 ^ 56) by (apply le_IZR; replace (IZR (2 ^ 56)) with 72057594037927936%R by (apply (f_equal IZR); reflexivity); lra). change (Z.of_nat 49) with 49. nia.
    + assert (Q <= 2 ^ 56) by (apply le_IZR; replace (IZR (2 ^ 56)) with 72057594037927936%R by (apply (f_equal IZR); reflexivity); lra). change (Z.of_nat 49) with 49. nia.
Qed.

(** ** Products *)
Theorem C92_product : forall f u lmax ct cosf sinf L fuel a b, float_type f u lmax -> accurate_at f (2 * u) cosf sinf -> limits_ok L = true ->
  let l := Z.to_nat (Z.log2_up (Z.of_nat (length a + length b))) in let Q := sum_squares a + sum_squares b in
  digits_ok (base L) a -> digits_ok (base L) b -> (0 < length a + length b)%nat -> Z.of_nat (length a + length b) <= 2 ^ 32 ->
  (l <= lmax)%nat -> (l < fuel)%nat -> (106 * ((INR l + 1) * (IZR Q + 1)) * u <= 1)%R ->
  (forall k, column_total (base L) a b k < 2 ^ wd L) ->
  yields (mul_strassen_at L f ct cosf sinf fuel a b)
    (fun r => digits_ok (base L) r /\ canonical r /\ Spec.value (base L) r = Spec.value (base L) a * Spec.value (base L) b).
Proof. intros f u lmax ct cosf sinf L fuel a b T HA HL l Q Ha Hb Hpos Hlen Hl Hf Hp. apply (mul_with_type f u lmax ct cosf sinf L fuel a b); assumption. Qed.
Print Assumptions C92_product.

(** No type makes a column fit the wider digit type. *)
Theorem C92_column_overflow : forall f u lmax ct cosf sinf L fuel a b, float_type f u lmax -> accurate_at f (2 * u) cosf sinf -> limits_ok L = true ->
  let l := Z.to_nat (Z.log2_up (Z.of_nat (length a + length b))) in let Q := sum_squares a + sum_squares b in
  digits_ok (base L) a -> digits_ok (base L) b -> (0 < length a + length b)%nat -> Z.of_nat (length a + length b) <= 2 ^ 32 ->
  (l <= lmax)%nat -> (l < fuel)%nat -> (106 * ((INR l + 1) * (IZR Q + 1)) * u <= 1)%R ->
  (exists k, 2 ^ wd L <= column_total (base L) a b k) ->
  forall al n, mul_strassen_at L f ct cosf sinf fuel a b al n = if al n then Undef UB_float_to_int else Throw ExBadAlloc (S n).
Proof. intros f u lmax ct cosf sinf L fuel a b T HA HL l Q Ha Hb Hpos Hlen Hl Hf Hp. apply (mul_with_type f u lmax ct cosf sinf L fuel a b); assumption. Qed.
Print Assumptions C92_column_overflow.

(** ** Per digit type: the total length N and the length m of the shorter operand *)
Definition lengths_float : list (limits * Z * Z) :=
  [(base2, 10550, 128); (base8, 322, 1170); (base10, 217, 47721858); (base16, 87, 17895697)].
Definition lengths_long_double : list (limits * Z * Z) :=
  [(base2, 2 ^ 32, 128); (base8, 2 ^ 32, 1170); (base10, 2 ^ 32, 47721858); (base16, 2 ^ 32, 17895697);
   (base256, 2 ^ 28, 1); (lowp, 2 ^ 28, 1); (medp, 10552, 1)].

Inductive long_double : binary_format -> Prop := long_double_x87 : long_double extended80 | long_double_quad : long_double binary128.

(** [e]: the precision 2^-e *)
Lemma precision_type L a b N e : 1 <= base L -> digits_ok (base L) a -> digits_ok (base L) b -> 0 <= e ->
  Z.of_nat (length a + length b) <= N ->
  106 * ((Z.log2_up N + 1) * (N * (bmax L * bmax L) + 1)) <= 2 ^ e ->
  (106 * ((INR (Z.to_nat (Z.log2_up (Z.of_nat (length a + length b)))) + 1) * (IZR (sum_squares a + sum_squares b) + 1)) * / IZR (2 ^ e) <= 1)%R.
Proof.
  intros HB Ha Hb He HN H.
  pose proof (sum_squares_le (base L) a HB Ha) as Qa. pose proof (sum_squares_le (base L) b HB Hb) as Qb.
  pose proof (sum_squares_nonneg a). pose proof (sum_squares_nonneg b).
  replace (base L - 1) with (bmax L) in * by (unfold base; lia).
  pose proof (Z.log2_up_le_mono _ _ HN) as Hl. pose proof (Z.log2_up_nonneg (Z.of_nat (length a + length b))).
  set (M := bmax L * bmax L) in *. assert (0 <= M) by (unfold M; nia).
  assert (sum_squares a + sum_squares b <= N * M).
  { apply Z.le_trans with (Z.of_nat (length a + length b) * M); [nia|]. apply Z.mul_le_mono_nonneg_r; lia. }
  assert (0 < 2 ^ e) as Hpe by (apply Z.pow_pos_nonneg; lia). apply IZR_lt in Hpe.
  apply Rmult_le_reg_r with (IZR (2 ^ e)); [exact Hpe|]. rewrite Rmult_assoc, Rinv_l, Rmult_1_r, Rmult_1_l by lra.
  rewrite INR_IZR_INZ, Z2Nat.id by lia. rewrite <- (plus_IZR _ 1), <- (plus_IZR _ 1), <- !mult_IZR. apply IZR_le.
  eapply Z.le_trans; [|exact H]. apply Z.mul_le_mono_nonneg_l; [lia|]. apply Z.mul_le_mono_nonneg; lia.
Qed.

Lemma float_numbers L N m : In (L, N, m) lengths_float ->
  limits_ok L = true /\ N <= 2 ^ 14 /\ 106 * ((Z.log2_up N + 1) * (N * (bmax L * bmax L) + 1)) <= 2 ^ 24 /\
  0 <= bmax L /\ m * (bmax L * base L) <= 2 ^ wd L.
Proof.
  intros Hin. unfold lengths_float in Hin. cbn [In] in Hin.
  repeat (destruct Hin as [E|Hin]; [injection E as <- <- <-; repeat split; vm_compute; congruence|]). contradiction.
Qed.

Lemma long_double_numbers L N m : In (L, N, m) lengths_long_double ->
  limits_ok L = true /\ 2 * m + 3 <= N <= 2 ^ 32 /\ 106 * ((Z.log2_up N + 1) * (N * (bmax L * bmax L) + 1)) <= 2 ^ 56 /\
  0 <= bmax L /\ 0 <= m /\ m * (bmax L * base L) <= 2 ^ wd L < (m + 1) * (bmax L * base L).
Proof.
  intros Hin. unfold lengths_long_double in Hin. cbn [In] in Hin.
  repeat (destruct Hin as [E|Hin]; [injection E as <- <- <-; repeat split; vm_compute; congruence|]). contradiction.
Qed.

Lemma log_le x N e : x <= N -> N <= 2 ^ e -> 0 <= e -> (Z.to_nat (Z.log2_up x) <= Z.to_nat e)%nat.
Proof.
  intros H1 H2 He. assert (Z.log2_up x <= Z.log2_up (2 ^ e)) as H by (apply Z.log2_up_le_mono; lia). rewrite Z.log2_up_pow2 in H by exact He. lia.
Qed.

Theorem C92_float : forall ct cosf sinf L N m fuel a b, accurate_at binary32 (/ 8388608) cosf sinf -> In (L, N, m) lengths_float ->
  digits_ok (base L) a -> digits_ok (base L) b -> (0 < length a + length b)%nat -> Z.of_nat (length a + length b) <= N ->
  Z.of_nat (Nat.min (length a) (length b)) <= m -> Z.log2_up N < Z.of_nat fuel ->
  yields (mul_strassen_at L binary32 ct cosf sinf fuel a b)
    (fun r => digits_ok (base L) r /\ canonical r /\ Spec.value (base L) r = Spec.value (base L) a * Spec.value (base L) b).
Proof.
  intros ct cosf sinf L N m fuel a b HA Hin Ha Hb Hpos Hlen Hm Hf.
  destruct (float_numbers L N m Hin) as (HL & HN & Hq & HM & Hc).
  apply (C92_product binary32 (/ 16777216) 24); auto.
  - apply type_float.
  - replace (2 * / 16777216)%R with (/ 8388608)%R by lra. exact HA.
  - lia.
  - pose proof (log_le _ _ 14 Hlen HN ltac:(lia)). lia.
  - pose proof (Z.log2_up_le_mono _ _ Hlen). pose proof (Z.log2_up_nonneg (Z.of_nat (length a + length b))). lia.
  - apply (precision_type L a b N 24); auto; [unfold base; lia|lia].
  - apply columns_fit; auto. eapply Z.le_trans; [|exact Hc]. apply Z.mul_le_mono_nonneg_r; [unfold base; nia|exact Hm].
Qed.
Print Assumptions C92_float.

Theorem C92_long_double : forall f ct cosf sinf L N m fuel a b, long_double f -> accurate_at f (/ 36028797018963968) cosf sinf ->
  In (L, N, m) lengths_long_double ->
  digits_ok (base L) a -> digits_ok (base L) b -> (0 < length a + length b)%nat -> Z.of_nat (length a + length b) <= N ->
  Z.of_nat (Nat.min (length a) (length b)) <= m -> Z.log2_up N < Z.of_nat fuel ->
  yields (mul_strassen_at L f ct cosf sinf fuel a b)
    (fun r => digits_ok (base L) r /\ canonical r /\ Spec.value (base L) r = Spec.value (base L) a * Spec.value (base L) b).
Proof.
  intros f ct cosf sinf L N m fuel a b HD HA Hin Ha Hb Hpos Hlen Hm Hf.
  destruct (long_double_numbers L N m Hin) as (HL & HN & Hq & HM & Hm0 & Hc & _).
  apply (C92_product f (/ 72057594037927936) 49); auto.
  - destruct HD; [apply type_extended|apply type_quadruple].
  - replace (2 * / 72057594037927936)%R with (/ 36028797018963968)%R by lra. exact HA.
  - lia.
  - pose proof (log_le _ _ 32 Hlen ltac:(lia) ltac:(lia)). lia.
  - pose proof (Z.log2_up_le_mono _ _ Hlen). pose proof (Z.log2_up_nonneg (Z.of_nat (length a + length b))). lia.
  - apply (precision_type L a b N 56); auto; [unfold base; lia|lia].
  - apply columns_fit; auto. eapply Z.le_trans; [|exact Hc]. apply Z.mul_le_mono_nonneg_r; [unfold base; nia|exact Hm].
Qed.
Print Assumptions C92_long_double.

(** long double does not raise the length of the shorter operand. *)
Theorem C92_long_double_sharp : forall f ct cosf sinf L N m fuel, long_double f -> accurate_at f (/ 36028797018963968) cosf sinf ->
  In (L, N, m) lengths_long_double -> Z.log2_up N < Z.of_nat fuel ->
  forall al n, mul_strassen_at L f ct cosf sinf fuel (repeat (bmax L) (Z.to_nat (m + 1))) (repeat (bmax L) (Z.to_nat (m + 2))) al n =
    if al n then Undef UB_float_to_int else Throw ExBadAlloc (S n).
Proof.
  intros f ct cosf sinf L N m fuel HD HA Hin Hf. destruct (long_double_numbers L N m Hin) as (HL & HN & Hq & HM & Hm0 & _ & Hc).
  assert (Z.of_nat (Z.to_nat (m + 1)) = m + 1) as E1 by lia. assert (Z.of_nat (Z.to_nat (m + 2)) = m + 2) as E2 by lia.
  revert E1 E2. generalize (Z.to_nat (m + 1)) (Z.to_nat (m + 2)). intros p q E1 E2.
  set (x := repeat (bmax L) p). set (y := repeat (bmax L) q).
  assert (length x = p /\ length y = q) as [Lx Ly] by (split; apply repeat_length).
  assert (Z.of_nat (length x + length y) <= N) as Hlen by lia.
  apply (C92_column_overflow f (/ 72057594037927936) 49); auto.
  - destruct HD; [apply type_extended|apply type_quadruple].
  - replace (2 * / 72057594037927936)%R with (/ 36028797018963968)%R by lra. exact HA.
  - exact (maximal_ok L p HL).
  - exact (maximal_ok L q HL).
  - lia.
  - lia.
  - pose proof (log_le _ _ 32 Hlen ltac:(lia) ltac:(lia)). lia.
  - pose proof (Z.log2_up_le_mono _ _ Hlen). pose proof (Z.log2_up_nonneg (Z.of_nat (length x + length y))). lia.
  - apply (precision_type L x y N 56); auto; [unfold base; lia|exact (maximal_ok L p HL)|exact (maximal_ok L q HL)|lia].
  - apply (columns_overflow L p q HL); [lia|]. rewrite E1. lia.
Qed.
Print Assumptions C92_long_double_sharp.

(** ** The digits do not depend on the type *)

(** Where the guarantee of the code holds and that of the type, the digits are those that the code computes with doubles. *)
Theorem C92_same_product : forall f u lmax ct cosf sinf ct' cosf' sinf' L fuel fuel' a b al n al' n', float_type f u lmax ->
  accurate_at f (2 * u) cosf sinf -> accurate cosf' sinf' -> limits_ok L = true ->
  let l := Z.to_nat (Z.log2_up (Z.of_nat (length a + length b))) in let Q := sum_squares a + sum_squares b in
  digits_ok (base L) a -> digits_ok (base L) b -> (0 < length a + length b)%nat -> Z.of_nat (length a + length b) <= 2 ^ 32 ->
  (l <= lmax)%nat -> (l < fuel)%nat -> (l < fuel')%nat -> (106 * ((INR l + 1) * (IZR Q + 1)) * u <= 1)%R ->
  103 * ((Z.of_nat l + 1) * (Q + 1)) <= 2 ^ 53 -> (forall k, column_total (base L) a b k < 2 ^ wd L) ->
  (forall k, al k = true) -> (forall k, al' k = true) ->
  exists r k k', mul_strassen_at L f ct cosf sinf fuel a b al n = Ret r k /\ mul_strassen L (ieee ct' cosf' sinf') fuel' a b al' n' = Ret r k'.
Proof.
  intros f u lmax ct cosf sinf ct' cosf' sinf' L fuel fuel' a b al n al' n' T HA HA' HL l Q Ha Hb Hpos Hlen Hl Hf Hf' Hp Hp' Hc Hal Hal'.
  pose proof (Z.log2_up_nonneg (Z.of_nat (length a + length b))) as Hl0.
  pose proof (C92_product f u lmax ct cosf sinf L fuel a b T HA HL Ha Hb Hpos Hlen Hl Hf Hp Hc) as Y.
  assert (multiplies L (ieee ct' cosf' sinf') fuel' a b) as [Y' _].
  { apply mul_ieee; auto; [lia|]. unfold enough_precision. replace (Z.log2_up (Z.of_nat (length a + length b))) with (Z.of_nat l) by (unfold l; lia). exact Hp'. }
  specialize (Y al n). specialize (Y' Hc al' n').
  destruct (mul_strassen_at L f ct cosf sinf fuel a b al n) as [r k|e k| |]; try contradiction.
  2:{ destruct Y as (_ & j & _ & Y). rewrite Hal in Y. discriminate. }
  destruct (mul_strassen L (ieee ct' cosf' sinf') fuel' a b al' n') as [r' k'|e k'| |]; try contradiction.
  2:{ destruct Y' as (_ & j & _ & Y'). rewrite Hal' in Y'. discriminate. }
  exists r, k, k'. split; [reflexivity|]. destruct Y as [(D & C & V) _], Y' as [(D' & C' & V') _].
  f_equal. symmetry. apply (value_inj (base L) (AddSubProof.HB L HL)); auto. congruence.
Qed.
Print Assumptions C92_same_product.

(** ** float is not enough for digits of 16 bits *)

(** The product of two odd digits is odd; what a float says of it is even as soon as it is above 2^24. *)
Theorem C92_float_wrong : forall ct cosf sinf L fuel d e al n r n', accurate_at binary32 (/ 8388608) cosf sinf ->
  limits_ok L = true -> Z.even (base L) = true -> 0 <= d < base L -> 0 <= e < base L -> d <= 2 ^ 24 -> e <= 2 ^ 24 -> (1 < fuel)%nat ->
  Z.odd d = true -> Z.odd e = true -> 104 * (d * d + e * e + 1) <= 2 ^ 24 * (d * e - 2 ^ 24) ->
  mul_strassen_at L binary32 ct cosf sinf fuel [d] [e] al n = Ret r n' -> Spec.value (base L) r <> d * e.
Proof.
  intros ct cosf sinf L fuel d e al n r n' HA HL HB Hd He Hd24 He24 Hf Od Oe Hbig Hret E.
  assert (2 | d * e) as Hdiv.
  { rewrite <- E. apply (float_even ct cosf sinf L fuel d e al n r n'); auto.
    - apply rounding_float. replace (2 * / 16777216)%R with (/ 8388608)%R by lra. exact HA.
    - apply Z.even_spec in HB. destruct HB as [k Hk]. exists k. lia. }
  destruct Hdiv as [k Hk]. apply Z.odd_spec in Od. apply Z.odd_spec in Oe. destruct Od as [i Hi]. destruct Oe as [j Hj]. subst d e. nia.
Qed.
Print Assumptions C92_float_wrong.

(** With the type of the code, and with long double, it is right: every pair of 16-bit digits. *)
Theorem C92_digits_right : forall f u lmax ct cosf sinf fuel d e, float_type f u lmax -> f <> binary32 -> accurate_at f (2 * u) cosf sinf ->
  0 <= d < 65536 -> 0 <= e < 65536 -> (1 < fuel)%nat ->
  yields (mul_strassen_at medp f ct cosf sinf fuel [d] [e]) (fun r => digits_ok 65536 r /\ canonical r /\ Spec.value 65536 r = d * e).
Proof.
  intros f u lmax ct cosf sinf fuel d e T Nf HA Hd He Hf.
  assert (digits_ok (base medp) [d] /\ digits_ok (base medp) [e]) as [Dd De] by (split; (constructor; [assumption|constructor])).
  assert (u <= / 9007199254740992)%R as Hu by (destruct T; [congruence|lra|lra|lra]).
  assert (2 <= lmax)%nat as Hlm by (destruct T; lia).
  destruct (type_facts f u lmax T) as (_ & _ & _ & _ & F5).
  pose proof (C92_product f u lmax ct cosf sinf medp fuel [d] [e] T HA eq_refl Dd De) as H. cbv zeta in H. cbn [length Nat.add] in H.
  change (Z.to_nat (Z.log2_up (Z.of_nat 2))) with 1%nat in H. change (base medp) with 65536 in H.
  assert (Spec.value 65536 [d] * Spec.value 65536 [e] = d * e) as E by (cbn [Spec.value]; ring). rewrite E in H. apply H; clear H; try lia.
  - assert (sum_squares [d] + sum_squares [e] = d * d + e * e) as -> by (unfold sum_squares; cbn; ring).
    assert (0 <= d * d + e * e <= 8589934592) as Hs by nia. assert (0 <= IZR (d * d + e * e) <= 8589934592)%R by (split; apply IZR_le; lia).
    change (INR 1) with 1%R. assert (106 * ((1 + 1) * (IZR (d * d + e * e) + 1)) * u <= 106 * ((1 + 1) * (8589934592 + 1)) * / 9007199254740992)%R; [|lra].
    apply Rmult_le_compat; lra.
  - apply (columns_fit medp); auto. vm_compute. discriminate.
Qed.
Print Assumptions C92_digits_right.

(** ** Cases *)
Notation near32 := (fun x : number binary32 => nearest_at binary32 (cos (B2R x))).
Notation near32s := (fun x : number binary32 => nearest_at binary32 (sin (B2R x))).
Lemma near32_accurate : accurate_at binary32 (/ 8388608) near32 near32s.
Proof.
  assert (/ 8388608 = 2 * unit_at binary32)%R as -> by (unfold unit_at; change (bpow radix2 (- bprec binary32)) with (/ 16777216)%R; lra).
  apply nearest_accurate; vm_compute; discriminate.
Qed.

(** 100 nines times 100 nines, with floats: the number 10^200 - 2 * 10^100 + 1 *)
Example C92_float_case : forall ct, yields (mul_strassen_at base10 binary32 ct near32 near32s 40 (repeat 9 100) (repeat 9 100))
  (fun r => canonical r /\ Spec.value 10 r = 10 ^ 200 - 2 * 10 ^ 100 + 1).
Proof.
  intros ct. assert (digits_ok (base base10) (repeat 9 100)) as D by (apply (maximal_ok base10 100); reflexivity).
  eapply yields_mono; [apply (C92_float ct near32 near32s base10 217 47721858 40); [exact near32_accurate|right; right; left; reflexivity|exact D|exact D| | | |]|].
  - rewrite repeat_length. lia.
  - rewrite repeat_length. lia.
  - rewrite repeat_length. lia.
  - vm_compute. reflexivity.
  - intros r (_ & C & V). split; [exact C|]. change (base base10) with 10 in V. rewrite V. vm_compute. reflexivity.
Qed.

(** 65535 * 65535 with 16-bit digits: wrong with float, whatever the compiler does *)
Example C92_wrong_case : forall ct al n r n', mul_strassen_at medp binary32 ct near32 near32s 40 [65535] [65535] al n = Ret r n' ->
  Spec.value 65536 r <> 4294836225.
Proof.
  intros ct al n r n' H. change 65536 with (base medp). change 4294836225 with (65535 * 65535).
  apply (C92_float_wrong ct near32 near32s medp 40 65535 65535 al n r n'); try exact H; try reflexivity; try lia; try exact near32_accurate;
    try (split; [lia|reflexivity]).
Qed.

(** the same digits with float and with double *)
Example C92_same_case : forall ct ct' cosf' sinf', accurate cosf' sinf' ->
  exists r k k', mul_strassen_at base10 binary32 ct near32 near32s 40 (repeat 9 100) (repeat 9 100) (fun _ => true) 0%nat = Ret r k /\
    mul_strassen base10 (ieee ct' cosf' sinf') 40 (repeat 9 100) (repeat 9 100) (fun _ => true) 0%nat = Ret r k'.
Proof.
  intros ct ct' cosf' sinf' HA'. assert (digits_ok (base base10) (repeat 9 100)) as D by (apply (maximal_ok base10 100); reflexivity).
  assert (Z.to_nat (Z.log2_up (Z.of_nat (length (repeat 9 100) + length (repeat 9 100)))) = 8%nat) as El by (rewrite repeat_length; vm_compute; reflexivity).
  assert (sum_squares (repeat 9 100) + sum_squares (repeat 9 100) = 16200) as EQ by (vm_compute; reflexivity).
  apply (C92_same_product binary32 (/ 16777216) 24); auto; rewrite ?El, ?EQ, ?repeat_length; try lia.
  - apply type_float.
  - replace (2 * / 16777216)%R with (/ 8388608)%R by lra. exact near32_accurate.
  - replace (INR 8) with 8%R by (rewrite INR_IZR_INZ; reflexivity). lra.
  - apply (columns_fit base10); auto. rewrite repeat_length. vm_compute. discriminate.
Qed.
