(** * Property C15: NaN and infinity on the right of an operator (release build)

    In this file y is NaN or an infinity and holds no digits, which is what the library itself produces. *)
From Verif Require Import Base Spec Limits AddSub Division Fourier Multiplication Bignum Outcome Wp ValueProof CompareProof AddSubProof
  DivisionProof BignumProof OperatorProof DivOpProof Conv PropNaive Ieee Exact MulOpProof.

Definition special (y : bignum) : Prop := ~ finite y /\ data y = [].

Section C15.
Context (L : limits) (HLk : limits_ok L = true).
Let B := base L.
Let HBk : 2 <= B := AddSubProof.HB L HLk.

Lemma special_desc y : special y -> desc y <> BN_POS /\ desc y <> BN_NEG.
Proof. intros [H _]. unfold finite in H. tauto. Qed.

Lemma add_special x y : good B x -> special y ->
  assigns (op_add_assign L false x (Other y)) (fun z => (data x <> [] -> z = x) /\ (data x = [] -> z = mkBN (desc x) [0]))
    (infinity_for (desc y)).
Proof.
  intros (Fx & Dx & Cx) Sy. destruct (special_desc y Sy) as [N1 N2]. destruct Sy as [_ Ey].
  unfold op_add_assign. rewrite (finite_computable x Fx). cbn [negb adesc adata aview]. rewrite failed_infinity.
  apply guarded_yields.
  assert (desc_eqb (desc y) BN_POS = false /\ desc_eqb (desc y) BN_NEG = false) as [-> ->]
    by (destruct (desc y); try congruence; split; reflexivity).
  rewrite !andb_false_r, Ey.
  eapply yields_mono; [apply (add_step_yields L HLk (data x) [] (desc x) Dx); constructor|].
  intros [dz vz] (Ed & Dz & Vz & Nz & Wz). cbn [desc data value] in *. subst dz.
  specialize (Wz Cx weak_canonical_nil). replace (value (base L) (data x) + 0) with (value (base L) (data x)) in Vz by lia.
  split; intros E.
  - destruct x as [dx vx]. cbn [desc data] in *. f_equal.
    exact (weak_inj L HLk vz vx Dz Dx Wz Cx Nz E Vz).
  - rewrite E in Vz. cbn [value] in Vz. destruct (weak_zero L HLk vz Dz Wz Vz) as [->| ->]; [contradiction|reflexivity].
Qed.

Lemma sub_special x y : good B x -> special y -> data x <> [] ->
  assigns (op_sub_assign L false x (Other y)) (fun z => (data x <> [0] -> z = x) /\ (data x = [0] -> z = mkBN (desc x) []))
    (infinity_for (desc y)).
Proof.
  intros (Fx & Dx & Cx) Sy Nx. destruct (special_desc y Sy) as [N1 N2]. destruct Sy as [_ Ey].
  unfold op_sub_assign. rewrite (finite_computable x Fx). cbn [negb adesc adata aview]. rewrite failed_infinity.
  apply guarded_yields.
  assert (desc_eqb (desc y) BN_POS = false /\ desc_eqb (desc y) BN_NEG = false) as [-> ->]
    by (destruct (desc y); try congruence; split; reflexivity).
  rewrite !andb_false_r, Ey. cbn [orb].
  eapply yields_bind with (Q := fun c => c = true); [eapply yields_pure; [apply ge_nil|reflexivity]|]. intros ? ->.
  pose proof (value_bounds B HBk _ Dx) as Bx.
  eapply yields_bind; [apply (sub_yields L HLk (data x) []); auto; [constructor|cbn; lia|apply Bx]|].
  intros v (Dv & Cv & Vv). apply yields_ret. cbn [value] in Vv. rewrite Z.sub_0_r in Vv. fold B in Vv, Dv.
  destruct x as [dx vx]. cbn [desc data] in *. split; intros E; f_equal.
  - apply (value_inj B HBk); auto. destruct Cx; [assumption|contradiction].
  - subst vx. cbn [value] in Vv. apply (value_zero_canonical B HBk); auto. lia.
Qed.

Lemma sub_special_nil x y : finite x -> data x = [] -> special y ->
  is_undefined (op_sub_assign L false x (Other y)) UB_index.
Proof.
  intros Fx Ex Sy. destruct (special_desc y Sy) as [N1 N2]. destruct Sy as [_ Ey].
  unfold op_sub_assign. rewrite (finite_computable x Fx). cbn [negb adesc adata aview].
  assert (desc_eqb (desc y) BN_POS = false /\ desc_eqb (desc y) BN_NEG = false) as [-> ->]
    by (destruct (desc y); try congruence; split; reflexivity).
  rewrite !andb_false_r, Ex, Ey. cbn [orb]. apply guarded_undef. intros al n. reflexivity.
Qed.

Lemma product_special x y : special y -> product_desc (desc x) (desc y) = BN_POS.
Proof.
  intros Sy. destruct (special_desc y Sy) as [N1 N2]. unfold product_desc.
  assert (desc_eqb (desc y) BN_POS = false /\ desc_eqb (desc y) BN_NEG = false) as [-> ->]
    by (destruct (desc y); try congruence; split; reflexivity).
  rewrite !andb_false_r. reflexivity.
Qed.

Lemma mul_special P fuel x y : finite x -> special y -> digits_ok B (data x) -> multiplies L P fuel (data x) [] ->
  assigns (op_mul_assign L P fuel x (Other y)) (fun z => z = mkBN BN_POS []) (infinity_for (desc y)).
Proof.
  intros Fx Sy Dx [H _].
  assert (forall k, column_total (base L) (data x) [] k < 2 ^ wd L) as Hc.
  { apply columns_fit; auto; [constructor|]. rewrite Nat.min_0_r. cbn [length Z.of_nat Z.mul].
    destruct (limits_ok_facts L HLk) as (? & ? & _). apply Z.pow_nonneg; lia. }
  specialize (H Hc). eapply assigns_mono; [apply (mul_assign_yields L P fuel x (Other y) (is_product (base L) (data x) []) Fx); cbn [adata]; destruct Sy as [_ ->]; exact H|].
  intros [dz vz] [Ed (Dz & Cz & Vz)]. cbn [desc data adesc] in *. rewrite (product_special x y Sy) in Ed. subst dz. f_equal.
  apply (value_zero_canonical B HBk); auto. cbn [value] in Vz. rewrite Z.mul_0_r in Vz. exact Vz.
Qed.
End C15.

Theorem C15_add : forall L x y, limits_ok L = true -> good (base L) x -> special y ->
  assigns (op_add_assign L false x (Other y))
    (fun z => (data x <> [] -> z = x) /\ (data x = [] -> z = mkBN (desc x) [0])) (infinity_for (desc y)).
Proof. intros L x y HL. exact (add_special L HL x y). Qed.
Print Assumptions C15_add.

Theorem C15_sub : forall L x y, limits_ok L = true -> good (base L) x -> special y -> data x <> [] ->
  assigns (op_sub_assign L false x (Other y))
    (fun z => (data x <> [0] -> z = x) /\ (data x = [0] -> z = mkBN (desc x) [])) (infinity_for (desc y)).
Proof. intros L x y HL. exact (sub_special L HL x y). Qed.
Print Assumptions C15_sub.

Theorem C15_sub_digitless : forall L x y, finite x -> data x = [] -> special y ->
  is_undefined (op_sub_assign L false x (Other y)) UB_index.
Proof. intros L x y. exact (sub_special_nil L x y). Qed.
Print Assumptions C15_sub_digitless.

(** The product is +0 (no digits): in exact arithmetic, and in IEEE arithmetic up to the length for which C17
    holds. *)
Theorem C15_mul : forall L fuel x y, limits_ok L = true -> finite x -> special y -> digits_ok (base L) (data x) ->
  data x <> [] -> Z.of_nat (length (data x)) <= 2 ^ 32 -> Z.log2_up (Z.of_nat (length (data x))) < Z.of_nat fuel ->
  assigns (op_mul_assign L exact fuel x (Other y)) (fun z => z = mkBN BN_POS []) (infinity_for (desc y)).
Proof.
  intros L fuel x y HL Fx Sy Dx Nx Hl Hf. apply mul_special; auto.
  apply mul_exact; auto; cbn [length]; rewrite ?Nat.add_0_r; auto; [constructor|]. destruct (data x); [congruence|cbn; lia].
Qed.
Print Assumptions C15_mul.

Theorem C15_mul_ieee : forall ct cosf sinf L fuel x y, accurate cosf sinf -> limits_ok L = true -> finite x -> special y ->
  let l := Z.log2_up (Z.of_nat (length (data x))) in
  digits_ok (base L) (data x) -> data x <> [] -> Z.of_nat (length (data x)) <= 2 ^ 32 ->
  l < Z.of_nat fuel -> 103 * ((l + 1) * (sum_squares (data x) + 1)) <= 2 ^ 53 ->
  assigns (op_mul_assign L (ieee ct cosf sinf) fuel x (Other y)) (fun z => z = mkBN BN_POS []) (infinity_for (desc y)).
Proof.
  intros ct cosf sinf L fuel x y HA HL Fx Sy l Dx Nx Hl Hf Hq. apply mul_special; auto.
  apply mul_ieee; auto; unfold enough_precision; cbn [length]; rewrite ?Nat.add_0_r; auto; [constructor| |].
  - destruct (data x); [congruence|cbn; lia].
  - change (sum_squares []) with 0. rewrite Z.add_0_r. exact Hq.
Qed.
Print Assumptions C15_mul_ieee.

Theorem C15_mul_digitless : forall L P x y, finite x -> data x = [] -> special y ->
  never_completes (fun fuel => op_mul_assign L P fuel x (Other y)) (infinity_for (desc y)).
Proof. intros L P x y Fx Ex [_ Ey]. exact (proj1 (C19_zero_times_zero L P x y Fx Ex Ey)). Qed.
Print Assumptions C15_mul_digitless.

Theorem C15_div : forall L x y, can_double L = true -> finite x -> special y -> data x <> [] -> data x <> [0] ->
  never_completes (fun fuel => op_div_assign L false fuel x (Other y)) (infinity_for (desc y)).
Proof. intros L x y HD Fx [_ Ey]. exact (div_assign_nil L HD x y Fx Ey). Qed.
Print Assumptions C15_div.

Theorem C15_div_full_width : forall L fuel x y, full_width L = true -> (2 <= fuel)%nat -> finite x -> special y ->
  data x <> [] -> data x <> [0] ->
  undefined_assign (op_div_assign L false fuel x (Other y)) UB_div_zero (infinity_for (desc y)).
Proof.
  intros L fuel x y HF Hf Fx [_ Ey] N1 N2 al n. destruct (full_width_facts L HF) as [HL _].
  rewrite (div_assign_main L HL false fuel x y) by (rewrite ?Ey; auto; split; discriminate).
  rewrite failed_infinity, Ey. unfold guarded. unfold bind at 1. rewrite abs_val_is_gt_pure.
  assert (gtb (data x) [] = true) as -> by (destruct (data x); [congruence|reflexivity]).
  unfold bind. pose proof (abs_val_div_full L HF (data x) [] fuel Hf (ge_nil _) al n) as K.
  destruct (abs_val_div L false fuel (data x) [] al n) as [v n5|e n5|u|]; try contradiction; auto.
  destruct K as [-> K]. auto.
Qed.
Print Assumptions C15_div_full_width.

(** dividing a zero *)
Theorem C15_div_zero : forall L fuel x y, limits_ok L = true -> finite x -> special y -> (data x = [] \/ data x = [0]) ->
  forall al n, op_div_assign L false fuel x (Other y) al n = Ret (mkBN BN_POS (data x), None) n.
Proof.
  intros L fuel x y HL Fx Sy Ex al n. rewrite (div_of_zero L HL false fuel x y Fx) by (auto; destruct Sy as [_ ->]; discriminate).
  rewrite (product_special x y Sy). reflexivity.
Qed.
Print Assumptions C15_div_zero.

Example C15_cases : let nan := mkBN BN_NAN [] in let x := mkBN BN_NEG [2; 4] in
  special nan /\ special (mkBN BN_POS_INF []) /\ good 10 x /\
  run (op_add base10 false x nan) = Ret x 1%nat /\ run (op_sub base10 false x nan) = Ret x 1%nat /\
  run (op_sub base10 false (mkBN BN_POS []) nan) = Undef UB_index /\
  run (op_div base10 false 50 x nan) = NoFuel /\ run (op_div lowp false 50 x nan) = Undef UB_div_zero.
Proof.
  intros nan x. unfold special, finite, good, digits_ok, weak_canonical, canonical. cbn [desc data nan x].
  repeat split; try (intros [H|H]; discriminate); auto; try (repeat constructor; lia). left. cbn. lia.
Qed.
