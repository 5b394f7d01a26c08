(** * Property C45: dividing a number with a superfluous high-order zero *)
From Verif Require Import Base Spec Limits Compare AddSub Division Bignum Outcome Wp ValueProof AddSubProof DivisionProof BignumProof DivOpProof PaddedProof.

(** With v the value of the dividend, n its number of digits without the zero, y the divisor and 2^k the largest power
    of two with y 2^k < B^n: the quotient is that of v if y 2^k <= v, and that of v + B^(n+1) otherwise. *)
Theorem C45_padded_dividend : forall L fuel x y u k, can_double L = true -> finite x -> finite y ->
  data x = u ++ [0] -> digits_ok (base L) u -> digits_ok (base L) (data y) -> canonical (data y) ->
  data y <> [1] -> data y <> [] -> (length (data y) <= length u)%nat -> 0 <= k ->
  value (base L) (data y) * 2 ^ k < base L ^ Z.of_nat (length u) <= value (base L) (data y) * 2 ^ (k + 1) ->
  Z.log2 (base L ^ Z.of_nat (S (length u))) + 3 <= Z.of_nat fuel ->
  assigns (op_div_assign L false fuel x (Other y))
    (fun z => good (base L) z /\ (desc z = BN_POS <-> desc x = desc y) /\
       value (base L) (data z) =
         (if value (base L) u <? value (base L) (data y) * 2 ^ k
          then value (base L) u + base L ^ Z.of_nat (S (length u)) else value (base L) u) / value (base L) (data y))
    (infinity_for (desc y)).
Proof.
  intros L fuel x y u k HD Fx Fy Ex Du Dy Cy N1 N0 Hl Hk Hb Hf.
  eapply assigns_mono; [exact (div_assign_padded L HD fuel x y u k Fx Fy Ex Du Dy Cy N1 N0 Hl Hk Hb Hf)|].
  intros z (G & Dz & V). split; [exact G|]. split; [|exact V].
  rewrite Dz. destruct Fx as [-> | ->], Fy as [-> | ->]; cbn; split; congruence.
Qed.
Print Assumptions C45_padded_dividend.

(** the power of two meant above exists whenever the theorem applies *)
Theorem C45_power_exists : forall L y (u : list Z), can_double L = true -> digits_ok (base L) (data y) -> canonical (data y) ->
  data y <> [] -> (length (data y) <= length u)%nat ->
  exists k, 0 <= k /\ value (base L) (data y) * 2 ^ k < base L ^ Z.of_nat (length u) <= value (base L) (data y) * 2 ^ (k + 1).
Proof.
  intros L y u HD Dy Cy N0 Hl.
  assert (2 <= base L) as HB by (apply can_double_facts in HD; destruct HD as [HD _]; apply (limits_ok_facts L HD)).
  pose proof (value_bounds (base L) ltac:(lia) _ Dy) as Hb.
  apply (bracket_exists L HD).
  - destruct (exists_last N0) as (v & t & E). rewrite E in *. unfold canonical in Cy. rewrite last_last in Cy.
    apply Forall_app in Dy. destruct Dy as [Dv Dt]. inversion Dt; subst. rewrite value_app in *. cbn [value] in *.
    pose proof (value_bounds (base L) ltac:(lia) v Dv).
    assert (0 < base L ^ Z.of_nat (length v)) by (apply Z.pow_pos_nonneg; lia). nia.
  - eapply Z.lt_le_trans; [apply Hb|]. apply Z.pow_le_mono_r; lia.
Qed.
Print Assumptions C45_power_exists.

(** So the quotient has the right magnitude exactly if y 2^k <= v. *)
Theorem C45_right_iff : forall L fuel x y u k, can_double L = true -> finite x -> finite y ->
  data x = u ++ [0] -> digits_ok (base L) u -> digits_ok (base L) (data y) -> canonical (data y) ->
  data y <> [1] -> data y <> [] -> (length (data y) <= length u)%nat -> 0 <= k ->
  value (base L) (data y) * 2 ^ k < base L ^ Z.of_nat (length u) <= value (base L) (data y) * 2 ^ (k + 1) ->
  Z.log2 (base L ^ Z.of_nat (S (length u))) + 3 <= Z.of_nat fuel ->
  assigns (op_div_assign L false fuel x (Other y))
    (fun z => value (base L) (data z) = value (base L) (data x) / value (base L) (data y) <->
              value (base L) (data y) * 2 ^ k <= value (base L) (data x))
    (infinity_for (desc y)).
Proof.
  intros L fuel x y u k HD Fx Fy Ex Du Dy Cy N1 N0 Hl Hk Hb Hf.
  assert (2 <= base L) as HB by (apply can_double_facts in HD; destruct HD as [HD _]; apply (limits_ok_facts L HD)).
  eapply assigns_mono; [exact (div_assign_padded L HD fuel x y u k Fx Fy Ex Du Dy Cy N1 N0 Hl Hk Hb Hf)|].
  intros z (G & Dz & V). rewrite V, Ex. rewrite value_app. cbn [value]. rewrite Z.mul_0_r, Z.add_0_r, Z.mul_0_r, Z.add_0_r.
  apply padded_quotient_right; auto.
  - pose proof (value_bounds (base L) ltac:(lia) _ Dy) as Hv.
    assert (0 < 2 ^ k) by (apply Z.pow_pos_nonneg; lia).
    assert (0 < base L ^ Z.of_nat (length u)) by (apply Z.pow_pos_nonneg; lia). split; nia.
  - apply (value_bounds (base L) ltac:(lia)); auto.
Qed.
Print Assumptions C45_right_iff.

(** A divisor with more digits than the dividend has without its zero: the quotient is 0, as it should be. *)
Theorem C45_short_dividend : forall L fuel x y u, can_double L = true -> finite x -> finite y ->
  data x = u ++ [0] -> digits_ok (base L) u -> digits_ok (base L) (data y) -> canonical (data y) -> u <> [] ->
  (length u < length (data y))%nat -> (1 <= fuel)%nat ->
  assigns (op_div_assign L false fuel x (Other y))
    (fun z => data z = [0] /\ (desc z = BN_POS <-> desc x = desc y) /\
              value (base L) (data x) / value (base L) (data y) = 0)
    (infinity_for (desc y)).
Proof.
  intros L fuel x y u HD Fx Fy Ex Du Dy Cy Nu Hl Hf.
  assert (2 <= base L) as HB by (apply can_double_facts in HD; destruct HD as [HD _]; apply (limits_ok_facts L HD)).
  eapply assigns_mono; [exact (div_assign_padded_short L HD fuel x y u Fx Fy Ex Du Dy Cy Nu Hl Hf)|].
  intros z (Dz & Ez & V). split; [exact Ez|]. split.
  - rewrite Dz. destruct Fx as [-> | ->], Fy as [-> | ->]; cbn; split; congruence.
  - rewrite Ex, value_app. cbn [value]. rewrite !Z.mul_0_r, !Z.add_0_r, ?Z.mul_0_r, ?Z.add_0_r. apply Z.div_small.
    pose proof (value_bounds (base L) ltac:(lia) _ Du). lia.
Qed.
Print Assumptions C45_short_dividend.

(** 06 / 2 is 53 in base 10, 96 / 2 (written 096) is 48. *)
Theorem C45_quotient_refuted : ~ forall L fuel x y, can_double L = true -> finite x -> finite y ->
  digits_ok (base L) (data x) -> digits_ok (base L) (data y) -> canonical (data y) -> 2 <= value (base L) (data y) ->
  value (base L) (data y) < value (base L) (data x) ->
  Z.log2 (base L ^ Z.of_nat (length (data x))) + 3 <= Z.of_nat fuel ->
  assigns (op_div_assign L false fuel x (Other y))
    (fun z => value (base L) (data z) = value (base L) (data x) / value (base L) (data y)) (infinity_for (desc y)).
Proof.
  intros H. specialize (H base10 20%nat (mkBN BN_POS [6; 0]) (mkBN BN_POS [2]) eq_refl).
  specialize (H (or_introl eq_refl) (or_introl eq_refl)).
  specialize (H ltac:(repeat constructor; cbn; lia) ltac:(repeat constructor; cbn; lia) ltac:(unfold canonical; cbn; lia)).
  specialize (H ltac:(cbn; lia) ltac:(cbn; lia) ltac:(vm_compute; discriminate) never_fails 0%nat).
  vm_compute in H. destruct H as [H _]. discriminate.
Qed.
Print Assumptions C45_quotient_refuted.

(** the formula on both kinds of dividends *)
Example C45_wrong : exists n, run (op_div base10 false 20 (mkBN BN_POS [6; 0]) (mkBN BN_POS [2])) = Ret (mkBN BN_POS [3; 5]) n /\
  value 10 [2] * 2 ^ 2 < 10 ^ 1 <= value 10 [2] * 2 ^ 3 /\ value 10 [6] < value 10 [2] * 2 ^ 2 /\ (6 + 10 ^ 2) / 2 = 53.
Proof. eexists. split; [vm_compute; reflexivity|]. cbn. lia. Qed.
Example C45_right : exists n, run (op_div base10 false 20 (mkBN BN_POS [6; 9; 0]) (mkBN BN_POS [2])) = Ret (mkBN BN_POS [8; 4]) n /\
  value 10 [2] * 2 ^ 5 < 10 ^ 2 <= value 10 [2] * 2 ^ 6 /\ value 10 [2] * 2 ^ 5 <= value 10 [6; 9].
Proof. eexists. split; [vm_compute; reflexivity|]. cbn. lia. Qed.
