(** * Properties C24-C27: division (release build) *)
From Verif Require Import Base Spec Limits AddSub Division Bignum Outcome Wp ValueProof CompareProof AddSubProof
  DivisionProof BignumProof OperatorProof DivOpProof PropAddSub.

(** ** C24 *)

(** [fuel] bounds the number of rounds of each loop; the bound asked for is the one of C25. *)
Theorem C24_division : forall L fuel x y, can_double L = true ->
  good (base L) x -> good (base L) y -> canonical (data y) -> data y <> [] ->
  Z.log2 (value (base L) (data x)) + 2 <= Z.of_nat fuel ->
  (value (base L) (data x) <> value (base L) (data y) \/ value (base L) (data y) = 1) ->
  assigns (op_div_assign L false fuel x (Other y))
    (fun z => good (base L) z /\
       signed_value (base L) z = Z.quot (signed_value (base L) x) (signed_value (base L) y))
    (infinity_for (desc y)).
Proof. intros L fuel x y HD. exact (div_assign_quot L HD fuel x y). Qed.
Print Assumptions C24_division.

Theorem C24_division_binary : forall L fuel x y, can_double L = true ->
  good (base L) x -> good (base L) y -> canonical (data y) -> data y <> [] ->
  Z.log2 (value (base L) (data x)) + 2 <= Z.of_nat fuel ->
  (value (base L) (data x) <> value (base L) (data y) \/ value (base L) (data y) = 1) ->
  returns (op_div L false fuel x y)
    (fun z => good (base L) z /\
       signed_value (base L) z = Z.quot (signed_value (base L) x) (signed_value (base L) y)).
Proof.
  intros L fuel x y HD Gx Gy Cy Ny Hf Hn.
  exact (binary_returns _ _ _ _ _ (div_assign_quot L HD fuel x y Gx Gy Cy Ny Hf Hn)).
Qed.
Print Assumptions C24_division_binary.

(** Equal magnitudes other than 0 and 1: the quotient is 0 (one digit), not 1 or -1.  No condition on the
    number type or the fuel: the quotient loop is not entered. *)
Theorem C24_equal_magnitudes : forall L fuel x y, can_double L = true ->
  finite x -> finite y -> data x = data y -> canonical (data x) -> data x <> [] -> data x <> [1] ->
  assigns (op_div_assign L false fuel x (Other y))
    (fun z => data z = [0] /\ (desc x = desc y -> desc z = BN_POS) /\ (desc x <> desc y -> desc z = BN_NEG))
    (infinity_for (desc y)).
Proof.
  intros L fuel x y HD Fx Fy E Cx N1 N2.
  eapply assigns_mono; [exact (div_assign_same_magnitude L HD fuel x y Fx Fy E Cx N1 N2)|].
  intros z ->. cbn [data desc]. destruct Fx as [-> | ->], Fy as [-> | ->]; repeat split; congruence.
Qed.
Print Assumptions C24_equal_magnitudes.

(** x /= x on one object *)
Theorem C24_divide_by_itself : forall L fuel x, limits_ok L = true -> finite x ->
  data x <> [] -> data x <> [0] -> data x <> [1] ->
  assigns (op_div_assign L false fuel x Self) (fun z => z = mkBN BN_POS [0]) (infinity_for BN_POS).
Proof.
  intros L fuel x HL Fx N1 N2 N3 al n. rewrite (div_self_eq L HL false fuel x al n Fx N1 N2 N3).
  refine (guarded_yields _ (fun z => z = mkBN BN_POS [0]) _ _ al n).
  eapply yields_bind with (Q := fun v => v = [0]); [apply yields_vcopy; reflexivity|].
  intros ? ->. apply yields_ret. reflexivity.
Qed.
Print Assumptions C24_divide_by_itself.

(** The documented meaning, and that it is false: 7 / 7 is 0. *)
Definition C24_full_statement : Prop :=
  forall L fuel x y, can_double L = true ->
  good (base L) x -> good (base L) y -> canonical (data y) -> data y <> [] ->
  Z.log2 (value (base L) (data x)) + 2 <= Z.of_nat fuel ->
  returns (op_div L false fuel x y)
    (fun z => signed_value (base L) z = Z.quot (signed_value (base L) x) (signed_value (base L) y)).
Theorem C24_division_refuted : ~ C24_full_statement.
Proof.
  intros H. specialize (H base10 20%nat (dec BN_POS [7]) (dec BN_POS [7]) eq_refl).
  assert (good 10 (dec BN_POS [7])) as G.
  { unfold good, finite, digits_ok, weak_canonical, canonical; cbn.
    repeat split; auto; try (repeat constructor; lia); left; lia. }
  specialize (H G G ltac:(unfold canonical; cbn; lia) ltac:(discriminate) ltac:(cbn; lia) never_fails 0%nat).
  vm_compute in H. destruct H as [H _]. discriminate.
Qed.
Print Assumptions C24_division_refuted.

(** -1995 / 19 = -105 *)
Example C24_case :
  good 10 (dec BN_NEG [5; 9; 9; 1]) /\ good 10 (dec BN_POS [9; 1]) /\
  Z.log2 (value 10 [5; 9; 9; 1]) + 2 <= Z.of_nat 12 /\
  match run (op_div base10 false 12 (dec BN_NEG [5; 9; 9; 1]) (dec BN_POS [9; 1])) with
  | Ret z _ => z = dec BN_NEG [5; 0; 1] | _ => False end.
Proof.
  split; [|split; [|split; [cbn; lia|vm_compute; reflexivity]]];
  unfold good, finite, digits_ok, weak_canonical, canonical; cbn;
  repeat split; auto; try (repeat constructor; lia); left; lia.
Qed.

(** ** C25 *)

(** A loop with fuel k+1 evaluates its condition at most k+1 times, i.e. makes at most k rounds.  So the
    following says that floor(log2|x|)+1 rounds of each loop are enough (release build, any base-N type). *)
Theorem C25_rounds : forall L dividend divisor, can_double L = true ->
  digits_ok (base L) dividend -> canonical dividend -> digits_ok (base L) divisor -> canonical divisor ->
  divisor <> [] ->
  let rounds := Z.to_nat (Z.log2 (value (base L) dividend) + 1) in
  returns (abs_val_div L false (S rounds) dividend divisor)
    (fun q => digits_ok (base L) q /\ weak_canonical q /\
              value (base L) q = value (base L) dividend / value (base L) divisor).
Proof.
  intros L dividend divisor HD Dd Cd Ds Cs Ns rounds.
  apply yields_returns, (abs_val_div_spec L HD).
  - split; assumption.
  - split; assumption.
  - apply value_canonical_pos; auto. exact (AddSubProof.HB L (DivisionProof.HL L HD)).
  - unfold enough_fuel, rounds. pose proof (Z.log2_nonneg (value (base L) dividend)). lia.
Qed.
Print Assumptions C25_rounds.

(** The outer loop alone needs only log2 of the quotient, rounded up. *)
Theorem C25_outer_rounds : forall L fi dividend divisor k, can_double L = true ->
  digits_ok (base L) dividend -> canonical dividend -> digits_ok (base L) divisor -> canonical divisor ->
  divisor <> [] -> (1 <= fi)%nat ->
  value (base L) dividend < value (base L) divisor * 2 ^ Z.of_nat k ->
  value (base L) dividend < value (base L) divisor * 2 ^ Z.of_nat fi ->
  returns (div_outer L false fi (S k) dividend divisor [0])
    (fun q => value (base L) q = value (base L) dividend / value (base L) divisor).
Proof.
  intros L fi dividend divisor k HD Dd Cd Ds Cs Ns Hfi Hk Hi.
  pose proof (AddSubProof.HB L (DivisionProof.HL L HD)) as HB.
  apply yields_returns. eapply yields_mono.
  - apply (div_outer_spec L HD divisor fi); try (split; assumption); auto.
    + apply value_canonical_pos; auto.
    + constructor; [lia|constructor].
    + apply weak_canonical_0.
    + lia.
    + replace (Z.of_nat (S k) - 1) with (Z.of_nat k) by lia. exact Hk.
  - intros q (_ & _ & Vq). cbn [value] in Vq. lia.
Qed.
Print Assumptions C25_outer_rounds.

Example C25_case : match run (abs_val_div base2 false 4 [1; 1; 1] [1; 1]) with
  | Ret q _ => q = [0; 1] | _ => False end.
Proof. vm_compute. reflexivity. Qed.

(** ** C26 *)
Theorem C26_lone_zero_divisor : forall L fuel x y, limits_ok L = true -> finite x -> finite y -> data y = [0] ->
  forall al n, op_div_assign L false fuel x (Other y) al n =
    Ret (mkBN (if desc_eqb (desc x) (desc y) then BN_POS_INF else BN_NEG_INF) [], None) n.
Proof.
  intros L fuel x y HL Fx Fy Ey al n. rewrite (div_by_lone_zero L HL false fuel x y Fx Ey al n).
  destruct Fx as [-> | ->], Fy as [-> | ->]; reflexivity.
Qed.
Print Assumptions C26_lone_zero_divisor.

Theorem C26_digitless_divisor_never_returns : forall L x y, can_double L = true ->
  finite x -> data y = [] -> data x <> [] -> data x <> [0] ->
  never_completes (fun fuel => op_div_assign L false fuel x (Other y)) (infinity_for (desc y)).
Proof. intros L x y HD. exact (div_assign_nil L HD x y). Qed.
Print Assumptions C26_digitless_divisor_never_returns.

Theorem C26_zero_dividend : forall L fuel x y, limits_ok L = true -> finite x -> finite y ->
  data y <> [0] -> (data x = [] \/ data x = [0]) ->
  forall al n, op_div_assign L false fuel x (Other y) al n =
    Ret (mkBN (if desc_eqb (desc x) (desc y) then BN_POS else BN_NEG) (data x), None) n.
Proof.
  intros L fuel x y HL Fx Fy Ny Ex al n. rewrite (div_of_zero L HL false fuel x y Fx Ny Ex al n).
  destruct Fx as [-> | ->], Fy as [-> | ->]; reflexivity.
Qed.
Print Assumptions C26_zero_dividend.

(** 5 / 0 is +INF if the zero holds one 0 digit, but never ends if the zero was written Bignum(BN_POS, {0}),
    which holds no digit; 200 rounds as an illustration. *)
Example C26_cases :
  run (op_div base10 false 10 (dec BN_POS [5]) (dec BN_POS [0])) = Ret (dec BN_POS_INF []) 1%nat /\
  run (z <- bn_make base10 BN_POS [0] ;; op_div base10 false 200 (dec BN_POS [5]) z) = NoFuel.
Proof. split; vm_compute; reflexivity. Qed.

(** ** C27 *)
(** With full-width digits, dividing by anything smaller than |x| other than 1 is undefined behaviour (a
    digit-less divisor included), however many rounds are allowed. *)
Theorem C27_full_width_division_undefined : forall L fuel x y, full_width L = true -> (2 <= fuel)%nat ->
  good (base L) x -> finite y -> digits_ok (base L) (data y) -> canonical (data y) -> data y <> [1] ->
  value (base L) (data y) < value (base L) (data x) ->
  undefined_assign (op_div_assign L false fuel x (Other y)) UB_div_zero (infinity_for (desc y)).
Proof. intros L fuel x y HF. exact (div_assign_full L HF fuel x y). Qed.
Print Assumptions C27_full_width_division_undefined.

Theorem C27_full_width_division_defined : forall L fuel x y, full_width L = true -> (1 <= fuel)%nat ->
  good (base L) x -> finite y -> digits_ok (base L) (data y) -> canonical (data y) -> data y <> [] ->
  value (base L) (data x) < value (base L) (data y) \/ data y = [1] ->
  assigns (op_div_assign L false fuel x (Other y))
    (fun z => good (base L) z /\
       signed_value (base L) z = Z.quot (signed_value (base L) x) (signed_value (base L) y))
    (infinity_for (desc y)).
Proof. intros L fuel x y HF. exact (div_assign_full_defined L HF fuel x y). Qed.
Print Assumptions C27_full_width_division_defined.

(** 6 / 2 with 8-, 16- and 32-bit digits *)
Example C27_cases :
  run (op_div lowp false 50 (dec BN_POS [6]) (dec BN_POS [2])) = Undef UB_div_zero /\
  run (op_div medp false 50 (dec BN_POS [6]) (dec BN_POS [2])) = Undef UB_div_zero /\
  run (op_div highp false 50 (dec BN_POS [6]) (dec BN_POS [2])) = Undef UB_div_zero.
Proof. repeat split; vm_compute; reflexivity. Qed.
