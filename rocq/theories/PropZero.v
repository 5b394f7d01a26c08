(** * C68: results that are zero, and the test  result == zero *)
From Verif Require Import Base Spec Limits Compare AddSub Division Fourier Multiplication Bignum Outcome.
From Verif Require Import Wp ValueProof CompareProof AddSubProof DivisionProof BignumProof OperatorProof DivOpProof ZeroProof.
From Verif Require Import Ieee IeeeProof PropAddSub PropMul.

(** Throughout: operands as the constructors leave them (no superfluous zeros), and [bn_default] is Bignum(), equal to
    Bignum(BN_POS, {0}) (C30). *)
Definition plain (B : Z) (x : bignum) : Prop := finite x /\ digits_ok B (data x) /\ canonical (data x).

Lemma plain_good B x : plain B x -> good B x.
Proof. intros (F & D & C). split; [exact F|]. split; [exact D|left; exact C]. Qed.

Lemma is_zero B z : 2 <= B -> plain B z -> (z = bn_default <-> desc z = BN_POS /\ value B (data z) = 0).
Proof.
  intros HB (F & D & C). rewrite (value_zero_canonical B HB _ D C). destruct z as [d v]. unfold bn_default. cbn [desc data]. split.
  - intros E. injection E. auto.
  - intros [-> ->]. reflexivity.
Qed.

(** x - y == zero, both of one sign: it is the test x == y on positive numbers, and always false on negative ones. *)
Theorem C68_difference : forall L x y, limits_ok L = true -> plain (base L) x -> plain (base L) y -> desc x = desc y ->
  (data x <> [] \/ data y <> []) ->
  returns (d <- op_sub L false x y ;; op_eq d bn_default) (fun b => b = true <-> desc x = BN_POS /\ value (base L) (data x) = value (base L) (data y)).
Proof.
  intros L x y HL Px Py Hd Hn. pose proof (AddSubProof.HB L HL) as HB.
  eapply zero_test; [refine (binary_returns (op_sub_assign L false) _ _ _ _ _); apply (sub_shape L HL x y (plain_good _ _ Px) (plain_good _ _ Py) Hd Hn)|].
  intros z ((Fz & Dz & _) & Cz & V & K1 & K2). fold (base L) in *. rewrite (is_zero (base L) z HB (conj Fz (conj Dz Cz))).
  destruct Px as (Fx & Dx & Cx), Py as (Fy & Dy & Cy). specialize (K1 Cy).
  unfold signed_value in V. rewrite <- Hd in V. split.
  - intros [Ez Vz]. rewrite Ez in V.
    assert (value (base L) (data x) = value (base L) (data y)) as E by (destruct Fx as [F|F]; rewrite F in V; lia).
    split; [|exact E]. rewrite <- Ez. symmetry. apply K1. lia.
  - intros [Ex E]. rewrite K1 in * by lia. split; [exact Ex|]. rewrite Ex in V. lia.
Qed.
Print Assumptions C68_difference.

(** x + y == zero, signs different: true for a positive x and its negation, false for a negative one and its. *)
Theorem C68_sum : forall L x y, limits_ok L = true -> plain (base L) x -> plain (base L) y -> desc x <> desc y ->
  (data x <> [] \/ data y <> []) ->
  returns (d <- op_add L false x y ;; op_eq d bn_default) (fun b => b = true <-> desc x = BN_POS /\ value (base L) (data x) = value (base L) (data y)).
Proof.
  intros L x y HL Px Py Hd Hn. pose proof (AddSubProof.HB L HL) as HB. pose proof Px as (Fx & Dx & Cx). pose proof Py as (Fy & Dy & Cy).
  eapply zero_test; [refine (binary_returns (op_add_assign L false) _ _ _ _ _); apply (add_shape L HL x y (plain_good _ _ Px) (plain_good _ _ Py) Cx Cy (or_intror Hn))|].
  intros z ((Fz & Dz & _) & V & _ & K). fold (base L) in *. destruct (K Hd) as [Cz Ed]. clear K. rewrite (is_zero (base L) z HB (conj Fz (conj Dz Cz))).
  unfold signed_value in V. destruct (Z.leb_spec (value (base L) (data y)) (value (base L) (data x))) as [Hle|Hlt]; rewrite Ed in *.
  - split; intros [E1 E2]; (split; [exact E1|]); rewrite E1 in *; destruct Fy as [F|F]; rewrite F in *; try congruence; lia.
  - split; intros [E1 E2]; [|lia]. rewrite E1 in *. destruct Fx as [F|F]; rewrite F in *; try congruence; lia.
Qed.
Print Assumptions C68_sum.

(** x + y == zero, one sign: false for every x and y, zero and zero included. *)
Theorem C68_sum_one_sign : forall L x y, limits_ok L = true -> plain (base L) x -> plain (base L) y -> desc x = desc y ->
  returns (d <- op_add L false x y ;; op_eq d bn_default) (fun b => b = false).
Proof.
  intros L x y HL Px Py Hd. pose proof Px as (Fx & Dx & Cx). pose proof Py as (Fy & Dy & Cy).
  eapply returns_mono.
  - apply (zero_test (op_add L false x y) (fun z => data z <> []) False).
    + eapply returns_mono; [refine (binary_returns (op_add_assign L false) _ _ _ _ _); apply (add_shape L HL x y (plain_good _ _ Px) (plain_good _ _ Py) Cx Cy (or_introl Hd))|].
      intros z (_ & _ & K & _). apply K. exact Hd.
    + intros z Nz. split; [intros ->; apply Nz; reflexivity|contradiction].
  - intros [|] H; [destruct (proj1 H eq_refl)|reflexivity].
Qed.
Print Assumptions C68_sum_one_sign.

(** x * y == zero: true when one of them is zero and the signs agree. *)
Theorem C68_product : forall ct cosf sinf L N m fuel x y, accurate cosf sinf -> In (L, N, m) safe_lengths ->
  plain (base L) x -> plain (base L) y ->
  (0 < length (data x) + length (data y))%nat -> Z.of_nat (length (data x) + length (data y)) <= N ->
  Z.of_nat (Nat.min (length (data x)) (length (data y))) <= m -> Z.log2_up N < Z.of_nat fuel ->
  returns (d <- op_mul L (ieee ct cosf sinf) fuel x y ;; op_eq d bn_default)
    (fun b => b = true <-> desc x = desc y /\ (value (base L) (data x) = 0 \/ value (base L) (data y) = 0)).
Proof.
  intros ct cosf sinf L N m fuel x y HA Hin (Fx & Dx & Cx) (Fy & Dy & Cy) Hp Hl Hm Hf.
  destruct (safe_lengths_numbers L N m Hin) as (HL & _). pose proof (AddSubProof.HB L HL) as HB.
  eapply zero_test; [apply (C17_per_type ct cosf sinf L N m fuel x y); auto|].
  intros z ((Fz & Dz & _) & Cz & V & S). rewrite (is_zero (base L) z HB (conj Fz (conj Dz Cz))), S.
  assert (value (base L) (data z) = value (base L) (data x) * value (base L) (data y)) as E.
  { pose proof (value_bounds (base L) HB _ Dz). pose proof (value_bounds (base L) HB _ Dx). pose proof (value_bounds (base L) HB _ Dy).
    unfold signed_value in V. destruct Fz as [F|F], Fx as [G|G], Fy as [K|K]; rewrite F, G, K in V; nia. }
  rewrite E, Z.mul_eq_0. reflexivity.
Qed.
Print Assumptions C68_product.

(** x / y == zero: false whenever x is not zero, even if x is the smaller; a true answer means that x is Bignum() or its negation. *)
Theorem C68_quotient : forall L fuel x y, can_double L = true -> plain (base L) x -> plain (base L) y -> data y <> [] ->
  Z.log2 (value (base L) (data x)) + 2 <= Z.of_nat fuel ->
  returns (d <- op_div L false fuel x y ;; op_eq d bn_default) (fun b => b = true <-> desc x = desc y /\ value (base L) (data x) = 0).
Proof.
  intros L fuel x y HD Px Py Ny Hf. pose proof (DivisionProof.HL L HD) as HL. pose proof (AddSubProof.HB L HL) as HB.
  pose proof Px as (Fx & Dx & Cx). pose proof Py as (Fy & Dy & Cy).
  assert (data y <> [0]) as N0 by (intros E; rewrite E in Cy; unfold canonical in Cy; cbn in Cy; lia).
  destruct (list_eq_dec Z.eq_dec (data x) []) as [Ex|Nx].
  - eapply zero_test with (Q := fun z => z = mkBN (product_desc (desc x) (desc y)) (data x)).
    + apply (binary_returns (op_div_assign L false fuel) x y _ (infinity_for (desc y))). intros al n.
      rewrite (div_of_zero L HL false fuel x y Fx N0 (or_introl Ex)). split; [reflexivity|lia].
    + intros z ->. rewrite Ex. cbn [value]. unfold bn_default. destruct Fx as [-> | ->], Fy as [-> | ->]; cbn; split; intros H; try (split; congruence); try (destruct H; congruence).
  - assert (value (base L) (data x) <> 0) as NV by (intros E; apply Nx, (value_zero_canonical (base L) HB); auto).
    eapply zero_test with (Q := fun z => data z <> []).
    + destruct (list_eq_dec Z.eq_dec (data x) (data y)) as [E|NE].
      * destruct (list_eq_dec Z.eq_dec (data x) [1]) as [E1|N1].
        -- apply (binary_returns (op_div_assign L false fuel) x y _ (infinity_for (desc y))). intros al n.
           rewrite (div_by_one L HL false fuel x y Fx) by congruence. split; [exact Nx|lia].
        -- eapply returns_mono; [refine (binary_returns (op_div_assign L false fuel) _ _ _ _ _); apply (div_assign_same_magnitude L HD fuel x y Fx Fy E Cx Nx N1)|].
           intros z ->. discriminate.
      * eapply returns_mono.
        -- refine (binary_returns (op_div_assign L false fuel) _ _ _ _ _). eapply assigns_may_and with (R := fun z => data z <> [] /\ desc z = product_desc (desc x) (desc y)).
           ++ apply (div_assign_quot L HD fuel x y (plain_good _ _ Px) (plain_good _ _ Py) Cy Ny); [exact Hf|]. left. intros E. apply NE.
              apply (value_inj (base L) HB); auto.
           ++ apply div_assign_shape; auto.
        -- cbn. intros z (_ & Nz & _). exact Nz.
    + intros z Nz. split; [intros ->; destruct (Nz eq_refl)|intros [_ E]; contradiction].
Qed.
Print Assumptions C68_quotient.

(** What the tests look as if they meant. *)
Definition C68_full_statement : Prop := forall x y n,
  plain 10 x -> plain 10 y -> desc x = desc y -> (data x <> [] \/ data y <> []) ->
  exists b, (d <- op_sub base10 false x y ;; op_eq d bn_default) never_fails n = Ret b n /\ (b = true <-> signed_value 10 x - signed_value 10 y = 0).

Theorem C68_refuted : ~ C68_full_statement.
Proof.
  intros H. specialize (H (dec BN_NEG [5]) (dec BN_NEG [5]) 0%nat).
  assert (plain 10 (dec BN_NEG [5])) as P.
  { split; [right; reflexivity|]. split; [repeat constructor; lia|discriminate]. }
  destruct (H P P eq_refl ltac:(left; discriminate)) as (b & E & K). vm_compute in E. injection E as <-. discriminate (proj2 K eq_refl).
Qed.
Print Assumptions C68_refuted.

(** 12 - 12 is zero; 0 + 0 is not; 3 / 5 is not; (-4) + 4 is not; 0 * 7 is, 0 / 7 is *)
Example C68_cases :
  plain 10 (dec BN_POS [2; 1]) /\ plain 10 (dec BN_POS []) /\
  run (d <- op_sub base10 false (dec BN_POS [2; 1]) (dec BN_POS [2; 1]) ;; op_eq d bn_default) = Ret true 1%nat /\
  (exists n, run (d <- op_add base10 false (dec BN_POS []) (dec BN_POS []) ;; op_eq d bn_default) = Ret false n) /\
  (exists n, run (d <- op_div base10 false 9 (dec BN_POS [3]) (dec BN_POS [5]) ;; op_eq d bn_default) = Ret false n) /\
  (exists n, run (d <- op_add base10 false (dec BN_NEG [4]) (dec BN_POS [4]) ;; op_eq d bn_default) = Ret false n) /\
  (exists n, run (d <- op_div base10 false 9 (dec BN_POS []) (dec BN_POS [7]) ;; op_eq d bn_default) = Ret true n).
Proof.
  repeat (split; [solve [split; [left; reflexivity|split; [repeat constructor; lia|discriminate]]]|]). split; [reflexivity|].
  repeat split; try (eexists; vm_compute; reflexivity).
Qed.
