(** * Property C33: the fixed-width integer wrapper BNIntType *)
From Verif Require Import Base Limits BNInt Outcome Wp.

(** the four instances bn_int_type.h:139-153 *)
Definition width (W : Z) : Prop := W = 8 \/ W = 16 \/ W = 32 \/ W = 64.
Definition fits (W x : Z) : Prop := 0 <= x < 2 ^ W.
(** [m] is defined, allocates nothing and gives [z] modulo 2^W *)
Definition gives (W : Z) (m : M Z) (z : Z) : Prop := forall al n, m al n = Ret (z mod 2 ^ W) n.

Lemma width_pow W : width W -> 0 < W /\ 256 <= 2 ^ W.
Proof. intros [->|[->|[->| ->]]]; split; cbn; lia. Qed.

Lemma arith_gives W z : width W -> (W < 32 -> - 2 ^ 31 <= z < 2 ^ 31) -> gives W (arith W z) z.
Proof.
  intros HW Hz al n. unfold arith. destruct (Z.ltb_spec W 32).
  - specialize (Hz H). rewrite (proj2 (Z.leb_le _ _)), (proj2 (Z.ltb_lt _ _)) by lia. reflexivity.
  - reflexivity.
Qed.

Ltac small W := intros; repeat match goal with K : width _ |- _ => destruct K as [->|[->|[->| ->]]] end;
  unfold fits in *; cbn [Z.pow Z.pow_pos Pos.iter Z.mul Pos.mul] in *; lia.

Theorem C33_sums : forall W x y, width W -> fits W x -> fits W y ->
  gives W (bni_add W x y) (x + y) /\ gives W (bni_sub W x y) (x - y) /\
  gives W (bni_inc W x) (x + 1) /\ gives W (bni_dec W x) (x - 1) /\ gives W (bni_neg W x) (- x) /\
  gives W (bni_plus W x) x.
Proof. intros W x y HW Hx Hy. repeat split; apply arith_gives; auto; small W. Qed.
Print Assumptions C33_sums.

Theorem C33_post_forms : forall W x, width W -> fits W x ->
  (forall al n, bni_post_inc W x al n = Ret (x, (x + 1) mod 2 ^ W) n) /\
  (forall al n, bni_post_dec W x al n = Ret (x, (x - 1) mod 2 ^ W) n).
Proof.
  intros W x HW Hx. destruct (C33_sums W x x HW Hx Hx) as (_ & _ & A & B & _).
  split; intros al n; unfold bni_post_inc, bni_post_dec, bind; rewrite ?A, ?B; reflexivity.
Qed.
Print Assumptions C33_post_forms.

(** Products: always defined except that two 16-bit operands are promoted to int and may overflow it. *)
Theorem C33_product : forall W x y, width W -> fits W x -> fits W y ->
  (W <> 16 \/ x * y < 2 ^ 31 -> gives W (bni_mul W x y) (x * y)) /\
  (W = 16 -> 2 ^ 31 <= x * y -> is_undefined (bni_mul W x y) UB_signed_overflow).
Proof.
  intros W x y HW Hx Hy. split.
  - intros H. apply arith_gives; auto. intros. unfold fits in *.
    assert (x * y < 2 ^ 31); [|nia]. destruct H; auto. destruct HW as [->|[->|[->| ->]]]; try lia.
    cbn in *. nia.
  - intros -> H al n. unfold bni_mul, arith. cbn [Z.ltb]. rewrite (proj2 (Z.ltb_ge (x * y) (2 ^ 31))) by lia.
    rewrite andb_false_r. reflexivity.
Qed.
Print Assumptions C33_product.

Theorem C33_quotient : forall W x y, width W -> fits W x -> fits W y ->
  (y <> 0 -> (forall al n, bni_div W x y al n = Ret (x / y) n) /\ (forall al n, bni_mod W x y al n = Ret (x mod y) n)) /\
  (y = 0 -> is_undefined (bni_div W x y) UB_div_zero /\ is_undefined (bni_mod W x y) UB_div_zero).
Proof.
  intros W x y HW Hx Hy. unfold fits in *. split.
  - intros H. unfold bni_div, bni_mod. rewrite (proj2 (Z.eqb_neq _ _) H).
    rewrite Z.quot_div_nonneg, Z.rem_mod_nonneg by lia.
    assert (0 <= x / y <= x) by (split; [apply Z.div_pos; lia|apply Z.div_le_upper_bound; nia]).
    assert (0 <= x mod y < y) by (apply Z.mod_pos_bound; lia).
    split; intros al n.
    + rewrite (arith_gives W (x / y) HW); [rewrite Z.mod_small by lia; reflexivity|small W].
    + rewrite (arith_gives W (x mod y) HW); [rewrite Z.mod_small by lia; reflexivity|small W].
  - intros ->. split; intros al n; reflexivity.
Qed.
Print Assumptions C33_quotient.

Theorem C33_shift_right : forall W x y, width W -> fits W x -> 0 <= y ->
  (y < Z.max 32 W -> forall al n, bni_shr W x y al n = Ret (x / 2 ^ y) n) /\
  (Z.max 32 W <= y -> is_undefined (bni_shr W x y) UB_shift).
Proof.
  intros W x y HW Hx Hy. assert (promoted W = Z.max 32 W) as E.
  { unfold promoted. destruct (Z.ltb_spec W 32); lia. }
  unfold bni_shr. rewrite E. split; intros H al n.
  - rewrite (proj2 (Z.leb_gt _ _)) by lia. rewrite Z.shiftr_div_pow2 by lia. unfold fits in Hx.
    assert (0 <= x / 2 ^ y <= x).
    { assert (0 < 2 ^ y) by (apply Z.pow_pos_nonneg; lia).
      split; [apply Z.div_pos; lia|apply Z.div_le_upper_bound; nia]. }
    rewrite (arith_gives W _ HW); [rewrite Z.mod_small by lia; reflexivity|small W].
  - rewrite (proj2 (Z.leb_le _ _)) by lia. reflexivity.
Qed.
Print Assumptions C33_shift_right.

Theorem C33_shift_left : forall W x y, width W -> fits W x -> 0 <= y ->
  (y < Z.max 32 W -> (W < 32 -> x * 2 ^ y < 2 ^ 32) -> gives W (bni_shl W x y) (x * 2 ^ y)) /\
  (Z.max 32 W <= y \/ W < 32 /\ 2 ^ 32 <= x * 2 ^ y -> is_undefined (bni_shl W x y) UB_shift).
Proof.
  intros W x y HW Hx Hy. assert (promoted W = Z.max 32 W) as E.
  { unfold promoted. destruct (Z.ltb_spec W 32); lia. }
  unfold bni_shl. rewrite E. split.
  - intros H K al n. rewrite (proj2 (Z.leb_gt _ _)) by lia. destruct (Z.ltb_spec W 32); cbn [andb]; [|reflexivity].
    rewrite (proj2 (Z.leb_gt _ _)) by (apply K; lia). reflexivity.
  - intros H al n. destruct (Z.leb_spec (Z.max 32 W) y); [reflexivity|]. destruct H as [H|[H K]]; [lia|].
    rewrite (proj2 (Z.ltb_lt _ _)), (proj2 (Z.leb_le _ _)) by lia. reflexivity.
Qed.
Print Assumptions C33_shift_left.

Lemma bit_bound W z : 0 <= W -> 0 <= z -> (forall i, W <= i -> Z.testbit z i = false) -> z < 2 ^ W.
Proof.
  intros HW Hz H. destruct (Z.eq_dec z 0) as [->|N]; [apply Z.pow_pos_nonneg; lia|].
  apply Z.log2_lt_pow2; [lia|]. destruct (Z.lt_ge_cases (Z.log2 z) W); auto.
  pose proof (Z.bit_log2 z ltac:(lia)). rewrite H in H1 by lia. discriminate.
Qed.

Lemma high_bits W x i : fits W x -> 0 <= W <= i -> Z.testbit x i = false.
Proof.
  intros [H K] Hi. destruct (Z.eq_dec x 0) as [->|]; [apply Z.testbit_0_l|].
  apply Z.bits_above_log2; [lia|]. apply Z.log2_lt_pow2; [lia|].
  eapply Z.lt_le_trans; [exact K|apply Z.pow_le_mono_r; lia].
Qed.

(** Bitwise operators act on each of the W bits. *)
Definition bitwise (W : Z) (m : M Z) (f : Z -> bool) : Prop :=
  exists z, (forall al n, m al n = Ret z n) /\ fits W z /\ forall i, 0 <= i < W -> Z.testbit z i = f i.

Lemma bitwise_intro W z f : width W -> 0 <= z -> (forall i, W <= i -> Z.testbit z i = false) ->
  (forall i, 0 <= i < W -> Z.testbit z i = f i) -> bitwise W (arith W z) f.
Proof.
  intros HW Hz Hh Hb. pose proof (bit_bound W z ltac:(destruct (width_pow W HW); lia) Hz Hh). exists z. split; [|split].
  - intros al n. rewrite (arith_gives W z HW) by small W. rewrite Z.mod_small by lia. reflexivity.
  - split; lia.
  - exact Hb.
Qed.

Theorem C33_bitwise : forall W x y, width W -> fits W x -> fits W y ->
  bitwise W (bni_and W x y) (fun i => Z.testbit x i && Z.testbit y i) /\
  bitwise W (bni_or W x y) (fun i => Z.testbit x i || Z.testbit y i) /\
  bitwise W (bni_xor W x y) (fun i => xorb (Z.testbit x i) (Z.testbit y i)) /\
  bitwise W (bni_compl W x) (fun i => negb (Z.testbit x i)).
Proof.
  intros W x y HW Hx Hy. pose proof (proj1 (width_pow W HW)) as W0. repeat split.
  - apply bitwise_intro; auto.
    + apply Z.land_nonneg. left. apply Hx.
    + intros i Hi. rewrite Z.land_spec, (high_bits W x i) by (auto; lia). reflexivity.
    + intros i Hi. apply Z.land_spec.
  - apply bitwise_intro; auto.
    + apply Z.lor_nonneg. split; [apply Hx|apply Hy].
    + intros i Hi. rewrite Z.lor_spec, (high_bits W x i), (high_bits W y i) by (auto; lia). reflexivity.
    + intros i Hi. apply Z.lor_spec.
  - apply bitwise_intro; auto.
    + apply Z.lxor_nonneg. split; intros; [apply Hy|apply Hx].
    + intros i Hi. rewrite Z.lxor_spec, (high_bits W x i), (high_bits W y i) by (auto; lia). reflexivity.
    + intros i Hi. apply Z.lxor_spec.
  - exists (Z.lnot x mod 2 ^ W). split; [|split].
    + apply arith_gives; auto. unfold Z.lnot. small W.
    + apply Z.mod_pos_bound. apply Z.pow_pos_nonneg; lia.
    + intros i Hi. rewrite Z.mod_pow2_bits_low, Z.lnot_spec by lia. reflexivity.
Qed.
Print Assumptions C33_bitwise.

(** operator ! on a wrapped value *)
Theorem C33_not : forall W x, width W -> forall al n,
  (x = 0 -> bni_not W x al n = Ret 1 n) /\ (x <> 0 -> bni_not W x al n = Ret 0 n).
Proof.
  intros W x HW al n. destruct (width_pow W HW). unfold bni_not, ret, wrap. split.
  - intros ->. rewrite Z.mod_small by (cbn; lia). reflexivity.
  - intros H1. rewrite (proj2 (Z.eqb_neq _ _) H1). rewrite Z.mod_0_l by lia. reflexivity.
Qed.
Print Assumptions C33_not.

Theorem C33_comparisons : forall x y,
  (bni_eq x y = true <-> x = y) /\ (bni_ne x y = true <-> x <> y) /\
  (bni_gt x y = true <-> x > y) /\ (bni_ge x y = true <-> x >= y) /\
  (bni_lt x y = true <-> x < y) /\ (bni_le x y = true <-> x <= y).
Proof.
  intros x y. unfold bni_eq, bni_ne, bni_gt, bni_ge, bni_lt, bni_le.
  rewrite negb_true_iff, Z.eqb_eq, Z.eqb_neq, !Z.ltb_lt, !Z.leb_le. repeat split; lia.
Qed.
Print Assumptions C33_comparisons.

(** 65535 * 65535 in uint16_t is undefined; 255 * 255 in uint8_t is 1; 200 << 24 in uint8_t is 0 *)
Example C33_cases :
  (fits 16 65535 /\ run (bni_mul 16 65535 65535) = Undef UB_signed_overflow) /\
  run (bni_mul 8 255 255) = Ret 1 0%nat /\ run (bni_shl 8 200 24) = Ret 0 0%nat /\
  run (bni_shl 16 65535 17) = Undef UB_shift /\ run (bni_shl 32 1 32) = Undef UB_shift /\
  run (bni_shr 8 200 31) = Ret 0 0%nat.
Proof. unfold fits. repeat split; cbn; lia. Qed.
