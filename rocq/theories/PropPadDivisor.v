(** * Property C53: dividing by a number with a superfluous high-order zero *)
From Verif Require Import Base Spec Limits Compare AddSub Division Bignum Outcome Wp ValueProof AddSubProof DivisionProof BignumProof DivOpProof PadDivisorProof.

(** With v the value of the dividend, y > 0 that of the divisor and T = B^n, where n is the number of digits of the divisor
    without its zero: if v < T the result is 0; otherwise the quotient without its binary digits below 2^j, where j is the
    largest number for which the rest, v mod (y 2^j), is below T. *)
Theorem C53_padded_divisor : forall L fuel x y u, can_double L = true -> good (base L) x -> finite y ->
  data y = u ++ [0] -> digits_ok (base L) u -> 0 < value (base L) u -> enough_fuel (value (base L) (data x)) fuel ->
  assigns (op_div_assign L false fuel x (Other y))
    (fun z => good (base L) z /\ (desc z = BN_POS <-> desc x = desc y) /\
       let v := value (base L) (data x) in let d := value (base L) u in let T := base L ^ Z.of_nat (length u) in
       (v < T /\ value (base L) (data z) = 0) \/
       (T <= v /\ exists j, 0 <= j /\ value (base L) (data z) = 2 ^ j * (v / (d * 2 ^ j)) /\
                            v mod (d * 2 ^ j) < T <= v mod (d * 2 ^ (j + 1))))
    (infinity_for (desc y)).
Proof.
  intros L fuel x y u HD Gx Fy Ey Du Hu Hf.
  eapply assigns_mono; [exact (div_assign_pad_divisor L HD fuel x y u Gx Fy Ey Du Hu Hf)|].
  intros z (G & Dz & S). split; [exact G|]. split; [|exact S].
  rewrite Dz. destruct (proj1 Gx) as [-> | ->], Fy as [-> | ->]; cbn; split; congruence.
Qed.
Print Assumptions C53_padded_divisor.

(** never too large, and short by less than T / y + 1 *)
Theorem C53_bounds : forall L fuel x y u, can_double L = true -> good (base L) x -> finite y ->
  data y = u ++ [0] -> digits_ok (base L) u -> 0 < value (base L) u -> enough_fuel (value (base L) (data x)) fuel ->
  assigns (op_div_assign L false fuel x (Other y))
    (fun z => let q := value (base L) (data z) in
       0 <= q <= value (base L) (data x) / value (base L) (data y) /\
       value (base L) (data x) - q * value (base L) (data y) < base L ^ Z.of_nat (length u))
    (infinity_for (desc y)).
Proof.
  intros L fuel x y u HD Gx Fy Ey Du Hu Hf.
  assert (2 <= base L) as HB by (apply can_double_facts in HD; destruct HD as [HD _]; apply (limits_ok_facts L HD)).
  eapply assigns_mono; [exact (div_assign_pad_divisor L HD fuel x y u Gx Fy Ey Du Hu Hf)|].
  intros z (G & Dz & S). cbv zeta. rewrite Ey, value_snoc, Z.mul_0_r, Z.add_0_r.
  pose proof (value_bounds (base L) ltac:(lia) _ (proj1 (proj2 Gx))) as Bx.
  destruct (stopped_bounds L HD _ _ _ _ Hu (proj1 Bx) S) as [K1 K2]. lia.
Qed.
Print Assumptions C53_bounds.

(** Where the true quotient is not 0 and 2^l is the largest power of two that divides it, the result is right exactly if
    T <= v mod y + y 2^l (in particular it is wrong for every v < T, and whenever the quotient is odd and v mod y + y < T). *)
Theorem C53_right_iff : forall L fuel x y u l, can_double L = true -> good (base L) x -> finite y ->
  data y = u ++ [0] -> digits_ok (base L) u -> 0 < value (base L) u -> enough_fuel (value (base L) (data x)) fuel ->
  let v := value (base L) (data x) in let d := value (base L) u in
  0 <= l -> (v / d) mod 2 ^ l = 0 -> (v / d) mod 2 ^ (l + 1) = 2 ^ l ->
  assigns (op_div_assign L false fuel x (Other y))
    (fun z => value (base L) (data z) = value (base L) (data x) / value (base L) (data y) <->
              base L ^ Z.of_nat (length u) <= v mod d + d * 2 ^ l)
    (infinity_for (desc y)).
Proof.
  intros L fuel x y u l HD Gx Fy Ey Du Hu Hf v d Hl E0 E1.
  assert (2 <= base L) as HB by (apply can_double_facts in HD; destruct HD as [HD _]; apply (limits_ok_facts L HD)).
  eapply assigns_mono; [exact (div_assign_pad_divisor L HD fuel x y u Gx Fy Ey Du Hu Hf)|].
  intros z (G & Dz & S). rewrite Ey, value_snoc, Z.mul_0_r, Z.add_0_r. fold v d in S |- *. fold d in Hu.
  pose proof (value_bounds (base L) ltac:(lia) _ (proj1 (proj2 Gx))) as Bx. fold v in Bx.
  assert (0 < 2 ^ l) as Pl by (apply Z.pow_pos_nonneg; lia).
  destruct (Z.le_gt_cases (base L ^ Z.of_nat (length u)) v) as [HT|HT].
  - apply (stopped_right L HD v d _ _ l); auto.
  - destruct S as [[_ S]|[S _]]; [|lia]. rewrite S.
    assert (0 < 2 ^ (l + 1)) as Pl1 by (apply Z.pow_pos_nonneg; lia).
    assert (0 <= v / d) as Pq by (apply Z.div_pos; lia).
    pose proof (Z.mod_le (v / d) (2 ^ (l + 1)) Pq Pl1) as K. rewrite E1 in K.
    pose proof (Z.div_mod v d ltac:(lia)). nia.
Qed.
Print Assumptions C53_right_iff.

(** Zero written with two or more digits is not recognised as a zero divisor: *)
Theorem C53_zeros_diverge : forall L x y m, can_double L = true -> good (base L) x -> value (base L) (data x) <> 0 ->
  data y = repeat 0 (S (S m)) -> (S (S m) <= length (data x))%nat ->
  never_completes (fun fuel => op_div_assign L false fuel x (Other y)) (infinity_for (desc y)).
Proof. intros L x y m HD. exact (div_assign_zeros L HD x y m). Qed.
Print Assumptions C53_zeros_diverge.

Theorem C53_zeros_short : forall L fuel x y m, can_double L = true -> good (base L) x -> finite y ->
  data y = repeat 0 (S (S m)) -> (length (data x) < S (S m))%nat ->
  assigns (op_div_assign L false fuel x (Other y))
    (fun z => good (base L) z /\ (desc z = BN_POS <-> desc x = desc y) /\ value (base L) (data z) = 0)
    (infinity_for (desc y)).
Proof.
  intros L fuel x y m HD Gx Fy Ey Hm.
  eapply assigns_mono; [exact (div_assign_zeros_short L HD fuel x y m Gx Fy Ey Hm)|].
  intros z (G & Dz & V). split; [exact G|]. split; [|exact V].
  rewrite Dz. destruct (proj1 Gx) as [-> | ->], Fy as [-> | ->]; cbn; split; congruence.
Qed.
Print Assumptions C53_zeros_short.

(** 6 / 02 is 0. *)
Theorem C53_quotient_refuted : ~ forall L fuel x y, can_double L = true -> good (base L) x -> finite y ->
  digits_ok (base L) (data y) -> 0 < value (base L) (data y) -> value (base L) (data x) <> value (base L) (data y) ->
  enough_fuel (value (base L) (data x)) fuel ->
  assigns (op_div_assign L false fuel x (Other y))
    (fun z => value (base L) (data z) = value (base L) (data x) / value (base L) (data y)) (infinity_for (desc y)).
Proof.
  intros H. specialize (H base10 20%nat (mkBN BN_POS [6]) (mkBN BN_POS [2; 0]) eq_refl).
  specialize (H ltac:(split; [left; reflexivity|split; [repeat constructor; cbn; lia|left; unfold canonical; cbn; lia]])).
  specialize (H (or_introl eq_refl) ltac:(repeat constructor; cbn; lia) ltac:(cbn; lia) ltac:(cbn; lia)).
  specialize (H ltac:(vm_compute; discriminate) never_fails 0%nat).
  vm_compute in H. destruct H as [H _]. discriminate.
Qed.
Print Assumptions C53_quotient_refuted.

(** 30 / 02 = 12 (j = 2), and 96 / 02 = 48 *)
Example C53_wrong : exists n, run (op_div base10 false 20 (mkBN BN_POS [0; 3]) (mkBN BN_POS [2; 0])) = Ret (mkBN BN_POS [2; 1]) n /\
  2 ^ 2 * (30 / (2 * 2 ^ 2)) = 12 /\ 30 mod (2 * 2 ^ 2) < 10 ^ 1 <= 30 mod (2 * 2 ^ 3) /\
  (30 / 2) mod 2 ^ 0 = 0 /\ (30 / 2) mod 2 ^ 1 = 2 ^ 0 /\ ~ 10 ^ 1 <= 30 mod 2 + 2 * 2 ^ 0.
Proof. eexists. split; [vm_compute; reflexivity|]. cbn. lia. Qed.
Example C53_right : exists n, run (op_div base10 false 20 (mkBN BN_POS [6; 9]) (mkBN BN_NEG [2; 0])) = Ret (mkBN BN_NEG [8; 4]) n /\
  (96 / 2) mod 2 ^ 4 = 0 /\ (96 / 2) mod 2 ^ 5 = 2 ^ 4 /\ 10 ^ 1 <= 96 mod 2 + 2 * 2 ^ 4.
Proof. eexists. split; [vm_compute; reflexivity|]. cbn. lia. Qed.
Example C53_zeros : run (op_div base10 false 200 (mkBN BN_POS [6; 9]) (mkBN BN_POS [0; 0])) = NoFuel /\
  exists n, run (op_div base10 false 20 (mkBN BN_POS [6]) (mkBN BN_POS [0; 0])) = Ret (mkBN BN_POS [0]) n.
Proof. split; [vm_compute; reflexivity|eexists; vm_compute; reflexivity]. Qed.
