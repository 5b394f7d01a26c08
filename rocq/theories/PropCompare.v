(** * Properties C08-C13: comparison *)
From Verif Require Import Base Spec Limits Bignum Outcome Wp ValueProof CompareProof OperatorProof PropAddSub.

(** [answers m b]: the call returns the boolean [b], without asking for memory. *)
Definition answers (m : M bool) (b : bool) : Prop := forall al n, m al n = Ret b n.

(** ** C08 *)
Theorem C08_eq_is_representation_equality : forall x y, exists b,
  answers (op_eq x y) b /\ answers (op_ne x y) (negb b) /\ (b = true <-> x = y).
Proof.
  intros x y. exists (desc_eqb (desc x) (desc y) && eqb (data x) (data y)).
  exact (conj (op_eq_pure x y) (conj (op_ne_pure x y) (same_bignum x y))).
Qed.
Print Assumptions C08_eq_is_representation_equality.

(** On finite numbers without high-order zeros: same sign and same value. *)
Theorem C08_eq_is_value_equality : forall B x y, 2 <= B ->
  digits_ok B (data x) -> digits_ok B (data y) -> canonical (data x) -> canonical (data y) ->
  finite x -> finite y ->
  (x = y <-> signed_value B x = signed_value B y /\
             (value B (data x) = 0 -> desc x = desc y)).
Proof.
  intros B x y HB Dx Dy Cx Cy Fx Fy. split; [intros ->; auto|]. intros [Hv Hz].
  pose proof (value_bounds B HB _ Dx). pose proof (value_bounds B HB _ Dy).
  assert (desc x = desc y /\ value B (data x) = value B (data y)) as [Ed Ev].
  { unfold signed_value in Hv. destruct Fx as [Fx|Fx], Fy as [Fy|Fy]; rewrite Fx, Fy in *; try (split; [reflexivity|lia]);
    specialize (Hz ltac:(lia)); discriminate. }
  pose proof (value_inj B HB _ _ Dx Dy Cx Cy Ev). destruct x, y; cbn in *; congruence.
Qed.
Print Assumptions C08_eq_is_value_equality.

(** +0 is not == -0; a lone 0 digit is not == to no digits; the malformed 05 is not == 5 *)
Example C08_cases :
  run (op_eq (dec BN_POS []) (dec BN_NEG [])) = Ret false 0%nat /\
  run (op_eq (dec BN_POS [0]) (dec BN_POS [])) = Ret false 0%nat /\
  run (op_eq (dec BN_POS [5; 0]) (dec BN_POS [5])) = Ret false 0%nat /\
  run (op_eq (dec BN_NAN []) (dec BN_NAN [])) = Ret true 0%nat.
Proof. repeat split. Qed.

(** ** C09 *)
Theorem C09_ge_le : forall B x y, 2 <= B -> desc x = BN_POS -> desc y = BN_POS ->
  digits_ok B (data x) -> digits_ok B (data y) -> canonical (data x) -> canonical (data y) ->
  answers (op_ge x y) (value B (data y) <=? value B (data x)) /\
  answers (op_le x y) (value B (data x) <=? value B (data y)).
Proof.
  intros B x y HB Px Py Dx Dy Cx Cy.
  rewrite <- (geb_canonical B HB (data x) (data y)), <- (geb_canonical B HB (data y) (data x)) by assumption.
  exact (conj (op_ge_pos B HB x y Px Py Dx Dy) (op_le_pos B HB x y Px Py Dx Dy)).
Qed.
Print Assumptions C09_ge_le.

Example C09_case : canonical [0; 2] /\ canonical [9; 1] /\
  run (op_ge (dec BN_POS [9; 1]) (dec BN_POS [0; 2])) = Ret false 0%nat /\
  run (op_le (dec BN_POS [9; 1]) (dec BN_POS [0; 2])) = Ret true 0%nat.
Proof. unfold canonical; cbn. repeat split; lia. Qed.

(** The restriction to numbers without superfluous zeros is needed: the zero [] is not >= the zero [0]. *)
Example C09_lone_zero : run (op_ge (dec BN_POS []) (dec BN_POS [0])) = Ret false 0%nat.
Proof. reflexivity. Qed.

(** ** C10 *)
Theorem C10_gt_lt : forall x y, desc x = BN_POS -> desc y = BN_POS -> exists g l,
  answers (op_gt x y) g /\ (g = true <-> looks_greater (data x) (data y)) /\
  answers (op_lt x y) l /\ (l = true <-> looks_greater (data y) (data x)).
Proof.
  intros x y Px Py. exists (gtb (data x) (data y)), (gtb (data y) (data x)).
  exact (conj (op_gt_pos x y Px Py) (conj (gtb_iff (data x) (data y))
        (conj (op_lt_pos x y Px Py) (gtb_iff (data y) (data x))))).
Qed.
Print Assumptions C10_gt_lt.

(** Complete: a greater number is always reported greater. *)
Theorem C10_complete : forall B x y, 2 <= B -> desc x = BN_POS -> desc y = BN_POS ->
  digits_ok B (data x) -> digits_ok B (data y) -> canonical (data x) -> canonical (data y) ->
  value B (data y) < value B (data x) ->
  answers (op_gt x y) true /\ answers (op_lt y x) true.
Proof.
  intros B x y HB Px Py Dx Dy Cx Cy Hlt.
  rewrite <- (gtb_complete B HB (data x) (data y) Dx Dy Cy Hlt).
  exact (conj (op_gt_pos x y Px Py) (op_lt_pos y x Py Px)).
Qed.
Print Assumptions C10_complete.

(** The documented meaning (bn_type.h:324-333), and that it is false: 19 > 20. *)
Definition C10_full_statement : Prop :=
  forall B x y, 2 <= B -> desc x = BN_POS -> desc y = BN_POS ->
  digits_ok B (data x) -> digits_ok B (data y) -> canonical (data x) -> canonical (data y) ->
  answers (op_gt x y) (value B (data y) <? value B (data x)).
Theorem C10_gt_refuted : ~ C10_full_statement.
Proof.
  intros H. specialize (H 10 (dec BN_POS [9; 1]) (dec BN_POS [0; 2]) ltac:(lia) eq_refl eq_refl).
  assert (answers (op_gt (dec BN_POS [9; 1]) (dec BN_POS [0; 2])) false) as K.
  { apply H; unfold canonical, digits_ok; cbn; repeat constructor; lia. }
  specialize (K never_fails 0%nat). discriminate.
Qed.
Print Assumptions C10_gt_refuted.

(** ** C11 *)
Theorem C11_negative : forall B x y, 2 <= B -> desc x = BN_NEG -> desc y = BN_NEG ->
  digits_ok B (data x) -> digits_ok B (data y) -> canonical (data x) -> canonical (data y) ->
  exists ge lt,
  answers (op_gt x y) (signed_value B y <=? signed_value B x) /\
  answers (op_ge x y) ge /\ (ge = true <-> looks_greater (data y) (data x)) /\
  answers (op_lt x y) lt /\ (lt = true <-> looks_greater (data x) (data y)) /\
  answers (op_le x y) lt.
Proof.
  intros B x y HB Nx Ny Dx Dy Cx Cy.
  exists (gtb (data y) (data x)), (gtb (data x) (data y)).
  assert ((signed_value B y <=? signed_value B x) = geb B (data y) (data x)) as ->.
  { rewrite (geb_canonical B HB) by assumption. unfold signed_value. rewrite Nx, Ny.
    apply eq_iff_eq_true. rewrite !Z.leb_le. lia. }
  exact (conj (op_gt_neg B HB x y Nx Ny Dx Dy) (conj (op_ge_neg x y Nx Ny) (conj (gtb_iff _ _)
        (conj (op_lt_neg x y Nx Ny) (conj (gtb_iff _ _) (op_le_neg x y Nx Ny)))))).
Qed.
Print Assumptions C11_negative.

(** On one and the same negative number every comparison gives the opposite of its documented answer except <. *)
Theorem C11_reflexive : forall B x, 2 <= B -> desc x = BN_NEG -> digits_ok B (data x) ->
  answers (op_gt x x) true /\ answers (op_ge x x) false /\ answers (op_lt x x) false /\ answers (op_le x x) false.
Proof.
  intros B x HB Nx Dx.
  pose proof (op_gt_neg B HB x x Nx Nx Dx Dx) as K1. pose proof (op_ge_neg x x Nx Nx) as K2.
  pose proof (op_lt_neg x x Nx Nx) as K3. pose proof (op_le_neg x x Nx Nx) as K4.
  rewrite gtb_refl in K2, K3, K4.
  assert (geb B (data x) (data x) = true) as E.
  { unfold geb. rewrite Nat.ltb_irrefl. apply Z.leb_le. lia. }
  rewrite E in K1. exact (conj K1 (conj K2 (conj K3 K4))).
Qed.
Print Assumptions C11_reflexive.

(** -20 >= -19, -19 >= -20 are both true; -7 > -7; -7 <= -7 is false *)
Example C11_cases :
  run (op_ge (dec BN_NEG [0; 2]) (dec BN_NEG [9; 1])) = Ret true 0%nat /\
  run (op_ge (dec BN_NEG [9; 1]) (dec BN_NEG [0; 2])) = Ret true 0%nat /\
  run (op_gt (dec BN_NEG [7]) (dec BN_NEG [7])) = Ret true 0%nat /\
  run (op_le (dec BN_NEG [7]) (dec BN_NEG [7])) = Ret false 0%nat.
Proof. repeat split. Qed.

(** ** C12 *)
Theorem C12_across_signs : forall x y, finite x -> finite y -> desc x <> desc y ->
  answers (op_gt x y) (desc_eqb (desc x) BN_POS) /\ answers (op_ge x y) (desc_eqb (desc x) BN_POS) /\
  answers (op_lt x y) (desc_eqb (desc x) BN_NEG) /\ answers (op_le x y) (desc_eqb (desc x) BN_NEG).
Proof.
  intros [dx vx] [dy vy] Fx Fy Hd. unfold finite in *. cbn [desc] in *.
  destruct Fx as [-> | ->], Fy as [-> | ->]; try congruence; repeat split.
Qed.
Print Assumptions C12_across_signs.

(** which is the order of the values unless both are zero *)
Theorem C12_agrees_with_values : forall B x y, 2 <= B -> finite x -> finite y -> desc x <> desc y ->
  digits_ok B (data x) -> digits_ok B (data y) -> signed_value B x <> 0 \/ signed_value B y <> 0 ->
  answers (op_gt x y) (signed_value B y <? signed_value B x) /\
  answers (op_ge x y) (signed_value B y <=? signed_value B x) /\
  answers (op_lt x y) (signed_value B x <? signed_value B y) /\
  answers (op_le x y) (signed_value B x <=? signed_value B y).
Proof.
  intros B x y HB Fx Fy Hd Dx Dy Hn. pose proof (C12_across_signs x y Fx Fy Hd) as (K1 & K2 & K3 & K4).
  pose proof (value_bounds B HB _ Dx). pose proof (value_bounds B HB _ Dy). unfold signed_value in *.
  destruct Fx as [Fx|Fx], Fy as [Fy|Fy]; rewrite Fx, Fy in *; try congruence; cbn [desc_eqb] in *;
  repeat match goal with
  | |- context [?a <? ?b] => destruct (Z.ltb_spec a b); try lia
  | |- context [?a <=? ?b] => destruct (Z.leb_spec a b); try lia
  end; auto.
Qed.
Print Assumptions C12_agrees_with_values.

Example C12_case : run (op_lt (dec BN_NEG []) (dec BN_POS [])) = Ret true 0%nat.
Proof. reflexivity. Qed.

(** ** C13 *)
(** In every base there are positive numbers with x > y and y > x both true (for example 101 and 110). *)
Theorem C13_not_a_strict_order : forall B, 2 <= B -> exists x y,
  desc x = BN_POS /\ desc y = BN_POS /\ digits_ok B (data x) /\ digits_ok B (data y) /\
  canonical (data x) /\ canonical (data y) /\
  answers (op_gt x y) true /\ answers (op_gt y x) true /\ answers (op_lt x y) true /\ answers (op_lt y x) true.
Proof.
  intros B HB. exists (mkBN BN_POS [1; 0; 1]), (mkBN BN_POS [0; 1; 1]).
  unfold canonical, digits_ok; cbn. repeat split; try (repeat constructor; lia); lia.
Qed.
Print Assumptions C13_not_a_strict_order.

(** >= is a total order on the non-negative canonical numbers: reflexive, transitive, antisymmetric, total. *)
Definition ge_holds (x y : bignum) : Prop := answers (op_ge x y) true.
Definition pos_ok (B : Z) (x : bignum) : Prop := desc x = BN_POS /\ digits_ok B (data x) /\ canonical (data x).
Theorem C13_ge_total_order : forall B, 2 <= B ->
  (forall x, pos_ok B x -> ge_holds x x) /\
  (forall x y z, pos_ok B x -> pos_ok B y -> pos_ok B z -> ge_holds x y -> ge_holds y z -> ge_holds x z) /\
  (forall x y, pos_ok B x -> pos_ok B y -> ge_holds x y -> ge_holds y x -> x = y) /\
  (forall x y, pos_ok B x -> pos_ok B y -> ge_holds x y \/ ge_holds y x).
Proof.
  intros B HB.
  assert (forall x y, pos_ok B x -> pos_ok B y -> (ge_holds x y <-> value B (data y) <= value B (data x))) as K.
  { intros x y (Px & Dx & Cx) (Py & Dy & Cy).
    destruct (C09_ge_le B x y HB Px Py Dx Dy Cx Cy) as [K _]. unfold ge_holds, answers in *. split.
    - intros H. specialize (H never_fails 0%nat). rewrite K in H. injection H. apply Z.leb_le.
    - intros H. apply Z.leb_le in H. rewrite H in K. exact K. }
  repeat split.
  - intros x Gx. apply K; auto; lia.
  - intros x y z Gx Gy Gz. rewrite !K by auto. lia.
  - intros x y Gx Gy. rewrite !K by auto. intros H1 H2.
    destruct Gx as (Px & Dx & Cx), Gy as (Py & Dy & Cy).
    pose proof (value_inj B HB _ _ Dx Dy Cx Cy ltac:(lia)). destruct x, y; cbn in *; congruence.
  - intros x y Gx Gy. rewrite !K by auto. lia.
Qed.
Print Assumptions C13_ge_total_order.
