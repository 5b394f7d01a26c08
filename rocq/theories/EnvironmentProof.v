(** * IEEE binary64 in any floating-point environment satisfies the assumptions of FloatModel.v *)
From Coq Require Import ZArith Reals Lra Lia Psatz Bool.
From Flocq Require Import Core Relative IEEE754.BinarySingleNaN.
From Coquelicot Require Import Complex.
From Verif Require Import Base Fourier FloatModel Ieee IeeeProof Environment Dft FftError.
Open Scope R_scope.

Definition u52 : R := / 4503599627370496.

Lemma default_env ct cosf sinf : ieee_in default_fenv ct cosf sinf = ieee ct cosf sinf.
Proof. reflexivity. Qed.

(** ** Flushing, on reals *)
Definition least_normal : R := bpow radix2 (-1022).
Definition flush_real (on : bool) (r : R) : R := if on then if Rlt_bool (Rabs r) least_normal then 0 else r else r.

Lemma least_normal_pos : 0 < least_normal.
Proof. apply bpow_gt_0. Qed.

Lemma least_normal_tiny : least_normal <= / 1000000 * (u52 * tiny).
Proof.
  unfold least_normal. apply Rle_trans with (bpow radix2 (-136)); [apply bpow_le; lia|].
  replace (bpow radix2 (-136)) with (/ 87112285931760246646623899502532662132736) by reflexivity. unfold u52, tiny. lra.
Qed.

Lemma flush_real_err on r : Rabs (flush_real on r - r) <= least_normal.
Proof.
  pose proof least_normal_pos. unfold flush_real. destruct on; [|replace (r - r) with 0 by ring; rewrite Rabs_R0; lra].
  destruct (Rlt_bool_spec (Rabs r) least_normal) as [H1|H1]; [|replace (r - r) with 0 by ring; rewrite Rabs_R0; lra].
  replace (0 - r) with (- r) by ring. rewrite Rabs_Ropp. lra.
Qed.

Lemma flush_real_id on r : r = 0 \/ least_normal <= Rabs r -> flush_real on r = r.
Proof.
  intros H. unfold flush_real. destruct on; [|reflexivity]. destruct (Rlt_bool_spec (Rabs r) least_normal); [|reflexivity].
  destruct H; [auto|lra].
Qed.

Lemma flush_real_int on z : flush_real on (IZR z) = IZR z.
Proof.
  apply flush_real_id. destruct (Z.eq_dec z 0) as [->|H]; [left; reflexivity|]. right.
  apply Rle_trans with 1; [change 1 with (bpow radix2 0); apply bpow_le; lia|]. rewrite <- abs_IZR. apply IZR_le. lia.
Qed.

Lemma flush_real_opp on r : flush_real on (- r) = - flush_real on r.
Proof. unfold flush_real. rewrite Rabs_Ropp. destruct on; [|reflexivity]. destruct (Rlt_bool _ _); [ring|reflexivity]. Qed.

Lemma flush_real_twice a b r : flush_real a (flush_real b r) = flush_real (a || b) r.
Proof.
  pose proof least_normal_pos. unfold flush_real. destruct a, b; cbn [orb]; try reflexivity.
  destruct (Rlt_bool_spec (Rabs r) least_normal) as [H1|H1].
  - rewrite Rabs_R0. rewrite Rlt_bool_true by lra. reflexivity.
  - rewrite Rlt_bool_false by lra. reflexivity.
Qed.

(** a double with fewer than 53 bits is below 2^-1022, and no other is *)
Lemma subnormal_small (s : bool) (m : positive) (e : Z) (H : SpecFloat.bounded 53 1024 m e = true) :
  (Zpos m <? 2 ^ 52)%Z = Rlt_bool (Rabs (F2R (Float radix2 (cond_Zopp s (Zpos m)) e))) least_normal.
Proof.
  unfold SpecFloat.bounded in H. apply andb_true_iff in H. destruct H as [H1 H2]. unfold SpecFloat.canonical_mantissa in H1. apply Zeq_bool_eq in H1.
  unfold SpecFloat.fexp, SpecFloat.emin in H1. change (3 - 1024 - 53)%Z with (-1074)%Z in H1.
  rewrite <- F2R_Zabs, abs_cond_Zopp. cbn [Z.abs]. rewrite Digits.Zpos_digits2_pos in H1.
  unfold least_normal. destruct (Z.ltb_spec (Zpos m) (2 ^ 52)) as [Hm|Hm]; symmetry.
  - apply Rlt_bool_true.
    assert (Digits.Zdigits radix2 (Zpos m) <= 52)%Z as Hd by (apply Digits.Zdigits_le_Zpower; exact Hm).
    assert (e = -1074)%Z as -> by lia. unfold F2R. cbn [Fnum Fexp].
    replace (bpow radix2 (-1022)) with (IZR (2 ^ 52) * bpow radix2 (-1074)).
    + apply Rmult_lt_compat_r; [apply bpow_gt_0|]. apply IZR_lt. exact Hm.
    + rewrite <- (bpow_IZR 52) by lia. rewrite <- bpow_plus. reflexivity.
  - apply Rlt_bool_false.
    assert (-1074 <= e)%Z as He by lia. unfold F2R. cbn [Fnum Fexp].
    replace (bpow radix2 (-1022)) with (IZR (2 ^ 52) * bpow radix2 (-1074)) by (rewrite <- (bpow_IZR 52) by lia; rewrite <- bpow_plus; reflexivity).
    apply Rmult_le_compat; [apply IZR_le; lia|apply bpow_ge_0|apply IZR_le; exact Hm|apply bpow_le; exact He].
Qed.

Lemma flushed_real on x : B2R (flushed on x) = flush_real on (B2R x).
Proof.
  unfold flushed, flush_real. destruct on; [|reflexivity]. pose proof least_normal_pos.
  destruct x as [s|s| |s m e H1]; cbn [B2R]; try (rewrite Rabs_R0, Rlt_bool_true by lra; reflexivity).
  rewrite <- (subnormal_small s m e H1). destruct (Zpos m <? 2 ^ 52)%Z; reflexivity.
Qed.

Lemma flushed_finite on x : is_finite (flushed on x) = is_finite x.
Proof. unfold flushed. destruct on; [|reflexivity]. destruct x; try reflexivity. destruct (_ <? _)%Z; reflexivity. Qed.

Lemma subnormal_below (x : double) : is_finite x = true -> (subnormal x = true <-> (0 < Rabs (B2R x) < least_normal)%R).
Proof.
  intros Fx. pose proof least_normal_pos. destruct x as [s|s| |s m e H1]; try discriminate; cbn [subnormal B2R].
  - rewrite Rabs_R0. split; [discriminate|lra].
  - rewrite (subnormal_small s m e H1). set (r := F2R _). split.
    + intros Hr. destruct (Rlt_bool_spec (Rabs r) least_normal) as [Hl|]; [|discriminate]. split; [|exact Hl]. apply Rabs_pos_lt. unfold r.
      destruct s; cbn [cond_Zopp]; [apply Rlt_not_eq, F2R_lt_0|apply Rgt_not_eq, F2R_gt_0]; cbn [Fnum]; lia.
    + intros [_ Hl]. apply Rlt_bool_true. exact Hl.
Qed.

(** ** Rounding *)
Section In.
Context (E : fenvironment).
Notation md := (direction E).
Notation rnd_dir := (round radix2 fe (round_mode md)).
Definition flushing : bool := flush_operands E || flush_results E.
Definition rnd_in (z : R) : R := flush_real flushing (rnd_dir z).
Definition val_in (x : double) : R := B2R (operand_of E x).

Lemma rnd_dir_err z : Rabs (rnd_dir z - z) <= u52 * Rabs z + bpow radix2 (-1074).
Proof.
  pose proof (bpow_gt_0 radix2 (-1074)) as P0. destruct (Rle_lt_dec (bpow radix2 (-1022)) (Rabs z)) as [H|H].
  - pose proof (relative_error_FLT radix2 (-1074) 53 eq_refl (round_mode md) z H) as R. 
    replace (bpow radix2 (- (53) + 1)) with u52 in R by reflexivity. lra.
  - assert (Rabs (rnd_dir z - z) <= ulp radix2 fe z) as R by (apply error_le_ulp; [apply FLT_exp_valid; reflexivity|apply valid_rnd_round_mode]).
    assert (ulp radix2 fe z = bpow radix2 (-1074)) as U.
    { apply ulp_FLT_small; [reflexivity|]. eapply Rlt_le_trans; [exact H|]. apply bpow_le. lia. }
    rewrite U in R. assert (0 <= u52) by (unfold u52; lra). pose proof (Rabs_pos z). nra.
Qed.

Lemma rnd_in_err z : Rabs (rnd_in z - z) <= u52 * (Rabs z + tiny).
Proof.
  unfold rnd_in. pose proof (flush_real_err flushing (rnd_dir z)) as E1. pose proof (rnd_dir_err z) as E2.
  replace (flush_real flushing (rnd_dir z) - z) with ((flush_real flushing (rnd_dir z) - rnd_dir z) + (rnd_dir z - z)) by ring.
  eapply Rle_trans; [apply Rabs_triang|].
  assert (bpow radix2 (-1074) <= least_normal) by (apply bpow_le; lia). pose proof least_normal_tiny. unfold u52, tiny in *. lra.
Qed.

Lemma rnd_dir_int z : (Z.abs z <= 2 ^ 53)%Z -> rnd_dir (IZR z) = IZR z.
Proof.
  intros H. pose proof (rnd64_int z H) as G. apply round_generic; [apply valid_rnd_round_mode|].
  rewrite <- G. apply generic_format_round; [apply FLT_exp_valid; reflexivity|apply valid_rnd_N].
Qed.

Lemma dir_big z : Rabs z <= Om64 -> Rlt_bool (Rabs (round radix2 (SpecFloat.fexp 53 1024) (round_mode md) z)) (bpow radix2 1024) = true.
Proof.
  intros H. apply Rlt_bool_true. rewrite fexp_eq.
  assert (Rabs (rnd_dir z) <= 3 * Om64).
  { pose proof (rnd_dir_err z) as E1. assert (bpow radix2 (-1074) <= 1) by (change 1 with (bpow radix2 0); apply bpow_le; lia).
    assert (1 <= Om64) by (unfold Om64; apply IZR_le; lia). unfold u52 in E1.
    replace (rnd_dir z) with (z + (rnd_dir z - z)) by ring. eapply Rle_trans; [apply Rabs_triang|]. pose proof (Rabs_pos z). lra. }
  eapply Rle_lt_trans; [exact H0|]. apply Rle_lt_trans with (bpow radix2 202).
  - rewrite bpow_IZR by lia. unfold Om64. rewrite <- mult_IZR. apply IZR_le. vm_compute. discriminate.
  - apply bpow_lt. lia.
Qed.

Lemma val_result x : val_in (result_of E x) = flush_real flushing (B2R x).
Proof. unfold val_in, operand_of, result_of, flushing. rewrite !flushed_real. apply flush_real_twice. Qed.

Lemma operand_finite x : is_finite (operand_of E x) = is_finite x.
Proof. apply flushed_finite. Qed.
Lemma result_finite x : is_finite (result_of E x) = is_finite x.
Proof. apply flushed_finite. Qed.

Lemma val_opp x : val_in (Bopp x) = - val_in x.
Proof. unfold val_in, operand_of. rewrite !flushed_real, B2R_Bopp. apply flush_real_opp. Qed.

Lemma val_real x : B2R x = 0 \/ least_normal <= Rabs (B2R x) -> val_in x = B2R x.
Proof. intros H. unfold val_in, operand_of. rewrite flushed_real. apply flush_real_id. exact H. Qed.

Lemma add_in_spec x y : is_finite x = true -> is_finite y = true -> Rabs (val_in x + val_in y) <= Om64 ->
  is_finite (add_in E x y) = true /\ val_in (add_in E x y) = rnd_in (val_in x + val_in y).
Proof.
  intros Fx Fy H. unfold add_in. rewrite val_result, result_finite. rewrite <- operand_finite in Fx, Fy.
  pose proof (Bplus_correct 53 1024 prec64 emax64 md _ _ Fx Fy) as C. fold (val_in x) (val_in y) in C.
  rewrite (dir_big _ H) in C. destruct C as (C1 & C2 & _). split; [exact C2|]. rewrite C1. reflexivity.
Qed.

Lemma sub_in_spec x y : is_finite x = true -> is_finite y = true -> Rabs (val_in x - val_in y) <= Om64 ->
  is_finite (sub_in E x y) = true /\ val_in (sub_in E x y) = rnd_in (val_in x - val_in y).
Proof.
  intros Fx Fy H. unfold sub_in. rewrite val_result, result_finite. rewrite <- operand_finite in Fx, Fy.
  pose proof (Bminus_correct 53 1024 prec64 emax64 md _ _ Fx Fy) as C. fold (val_in x) (val_in y) in C.
  rewrite (dir_big _ H) in C. destruct C as (C1 & C2 & _). split; [exact C2|]. rewrite C1. reflexivity.
Qed.

Lemma mul_in_spec x y : is_finite x = true -> is_finite y = true -> Rabs (val_in x * val_in y) <= Om64 ->
  is_finite (mul_in E x y) = true /\ val_in (mul_in E x y) = rnd_in (val_in x * val_in y).
Proof.
  intros Fx Fy H. unfold mul_in. rewrite val_result, result_finite. rewrite <- operand_finite in Fx, Fy.
  pose proof (Bmult_correct 53 1024 prec64 emax64 md (operand_of E x) (operand_of E y)) as C. fold (val_in x) (val_in y) in C.
  rewrite (dir_big _ H), Fx, Fy in C. destruct C as (C1 & C2 & _). split; [exact C2|]. rewrite C1. reflexivity.
Qed.

Lemma div_in_spec x y : is_finite x = true -> is_finite y = true -> val_in y <> 0 -> Rabs (val_in x / val_in y) <= Om64 ->
  is_finite (div_in E x y) = true /\ val_in (div_in E x y) = rnd_in (val_in x / val_in y).
Proof.
  intros Fx Fy Hy H. unfold div_in. rewrite val_result, result_finite. rewrite <- operand_finite in Fx.
  pose proof (Bdiv_correct 53 1024 prec64 emax64 md (operand_of E x) (operand_of E y) Hy) as C. fold (val_in x) (val_in y) in C.
  rewrite (dir_big _ H), Fx in C. destruct C as (C1 & C2 & _). split; [exact C2|]. rewrite C1. reflexivity.
Qed.

Lemma fma_in_spec x y z : is_finite x = true -> is_finite y = true -> is_finite z = true -> Rabs (val_in x * val_in y + val_in z) <= Om64 ->
  is_finite (fma_in E x y z) = true /\ val_in (fma_in E x y z) = rnd_in (val_in x * val_in y + val_in z).
Proof.
  intros Fx Fy Fz H. unfold fma_in. rewrite val_result, result_finite. rewrite <- operand_finite in Fx, Fy, Fz.
  pose proof (Bfma_correct 53 1024 prec64 emax64 md _ _ _ Fx Fy Fz) as C. cbv zeta in C. fold (val_in x) (val_in y) (val_in z) in C.
  rewrite (dir_big _ H) in C. destruct C as (C1 & C2 & _). split; [exact C2|]. rewrite C1. reflexivity.
Qed.

Lemma ofZ_in z : (Z.abs z <= 2 ^ 53)%Z -> let x := @binary_normalize 53 1024 prec64 emax64 md z 0 false in is_finite x = true /\ val_in x = IZR z.
Proof.
  intros H x. pose proof (binary_normalize_correct 53 1024 prec64 emax64 md z 0 false) as C. cbv zeta in C. rewrite F2R_int in C.
  rewrite (dir_big _ (abs_int_Om z H)) in C. destruct C as (C1 & C2 & _). fold x in C1, C2. split; [exact C2|].
  unfold val_in, operand_of. rewrite flushed_real, C1, fexp_eq, rnd_dir_int by exact H. apply flush_real_int.
Qed.

Lemma constant_in x : is_finite x = true -> / 4 <= Rabs (B2R x) -> val_in x = B2R x.
Proof.
  intros _ H. apply val_real. right. eapply Rle_trans; [|exact H]. unfold least_normal.
  apply Rle_trans with (bpow radix2 (-2)); [apply bpow_le; lia|]. replace (bpow radix2 (-2)) with (/ 4) by reflexivity. lra.
Qed.

Lemma library_in (f : double -> double) (g : R -> R) x : (forall s t, Rabs (g s - g t) <= Rabs (s - t)) ->
  Rabs (B2R (f x) - g (B2R x)) <= / 4503599627370496 -> Rabs (val_in (f x) - g (val_in x)) <= 2 * u52.
Proof.
  intros Hg H. pose proof (flush_real_err (flush_operands E) (B2R (f x))) as E1. pose proof (flush_real_err (flush_operands E) (B2R x)) as E2.
  unfold val_in, operand_of. rewrite !flushed_real. pose proof (Hg (B2R x) (flush_real (flush_operands E) (B2R x))) as E3. rewrite Rabs_minus_sym in E2.
  set (a := flush_real _ (B2R (f x))) in *. set (b := flush_real _ (B2R x)) in *.
  replace (a - g b) with ((a - B2R (f x)) + (B2R (f x) - g (B2R x)) + (g (B2R x) - g b)) by ring.
  eapply Rle_trans; [apply Rabs_triang|]. pose proof (Rabs_triang (a - B2R (f x)) (B2R (f x) - g (B2R x))).
  pose proof least_normal_tiny. unfold u52, tiny in *. lra.
Qed.

Lemma cos_near s t : Rabs (cos s - cos t) <= Rabs (s - t).
Proof. eapply Rle_trans; [|apply cis_lipschitz]. exact (re_le_Cmod (Cminus (cis s) (cis t))). Qed.
Lemma sin_near s t : Rabs (sin s - sin t) <= Rabs (s - t).
Proof. eapply Rle_trans; [|apply cis_lipschitz]. exact (im_le_Cmod (Cminus (cis s) (cis t))). Qed.

Lemma argument_small x : Rabs (val_in x) <= 4 -> Rabs (B2R x) <= 4.
Proof.
  unfold val_in, operand_of. rewrite flushed_real. unfold flush_real. destruct (flush_operands E); [|auto].
  destruct (Rlt_bool_spec (Rabs (B2R x)) least_normal) as [H|H]; [|auto]. intros _. apply Rlt_le. eapply Rlt_le_trans; [exact H|].
  change 4 with (bpow radix2 2). apply bpow_le. lia.
Qed.

Theorem rounding_in ct cosf sinf : accurate cosf sinf ->
  rounding (ieee_in E ct cosf sinf) val_in (fun x => is_finite x = true) rnd_in u52 Om64 K64.
Proof.
  intros HA. split; cbn [fofZ fadd fsub fmul fdiv fdet fdot fnan fneg fcos fsin ffloor ftrunc fangle c_half c_quarter ieee_in F].
  - unfold u52. lra.
  - unfold K64, Om64. apply IZR_le. vm_compute. discriminate.
  - intros z _. apply rnd_in_err.
  - intros z Hz. unfold rnd_in. rewrite rnd_dir_int by exact Hz. apply flush_real_int.
  - intros z Hz. apply ofZ_in. unfold K64 in Hz. lia.
  - intros x y Fx Fy H. apply add_in_spec; assumption.
  - intros x y Fx Fy H. apply sub_in_spec; assumption.
  - intros x y Fx Fy H. apply mul_in_spec; assumption.
  - intros x y Fx Fy Hy H. apply div_in_spec; assumption.
  - intros s a b c d Fa Fb Fc Fd H1 H2. destruct (mul_in_spec a b Fa Fb H1) as [G1 V1]. destruct (mul_in_spec c d Fc Fd H2) as [G2 V2].
    destruct (fst (fusing_at ct s)); cbn [det_in].
    + exists (rnd_in (val_in a * val_in b)), (rnd_in (val_in c * val_in d)). split; [unfold maybe_rounded; auto|]. split; [unfold maybe_rounded; auto|]. intros H. rewrite <- V1, <- V2 in *.
      apply sub_in_spec; assumption.
    + exists (val_in a * val_in b), (rnd_in (val_in c * val_in d)). split; [unfold maybe_rounded; auto|]. split; [unfold maybe_rounded; auto|]. intros H. rewrite <- V2 in *. unfold Rminus in *.
      rewrite <- val_opp in *. apply fma_in_spec; auto. rewrite is_finite_Bopp. exact G2.
    + exists (rnd_in (val_in a * val_in b)), (val_in c * val_in d). split; [unfold maybe_rounded; auto|]. split; [unfold maybe_rounded; auto|]. intros H. rewrite <- V1 in *.
      set (m := mul_in E a b) in *. replace (val_in m - val_in c * val_in d) with (val_in (Bopp c) * val_in d + val_in m) in * by (rewrite val_opp; ring).
      apply fma_in_spec; auto. rewrite is_finite_Bopp. exact Fc.
  - intros s a b c d Fa Fb Fc Fd H1 H2. destruct (mul_in_spec a b Fa Fb H1) as [G1 V1]. destruct (mul_in_spec c d Fc Fd H2) as [G2 V2].
    destruct (snd (fusing_at ct s)); cbn [dot_in].
    + exists (rnd_in (val_in a * val_in b)), (rnd_in (val_in c * val_in d)). split; [unfold maybe_rounded; auto|]. split; [unfold maybe_rounded; auto|]. intros H. rewrite <- V1, <- V2 in *.
      apply add_in_spec; assumption.
    + exists (val_in a * val_in b), (rnd_in (val_in c * val_in d)). split; [unfold maybe_rounded; auto|]. split; [unfold maybe_rounded; auto|]. intros H. rewrite <- V2 in *.
      apply fma_in_spec; auto.
    + exists (rnd_in (val_in a * val_in b)), (val_in c * val_in d). split; [unfold maybe_rounded; auto|]. split; [unfold maybe_rounded; auto|]. intros H. rewrite <- V1 in *.
      rewrite Rplus_comm in *. apply fma_in_spec; auto.
  - intros x Fx. destruct x; [reflexivity|discriminate|discriminate|reflexivity].
  - intros x Fx. rewrite is_finite_Bopp. split; [exact Fx|]. apply val_opp.
  - intros x Fx H. destruct (HA x Fx (argument_small x H)) as [[H1 H2] _]. split; [exact H1|]. apply library_in; [exact cos_near|exact H2].
  - intros x Fx H. destruct (HA x Fx (argument_small x H)) as [_ [H1 H2]]. split; [exact H1|]. apply library_in; [exact sin_near|exact H2].
  - intros x Fx. destruct (Bnearbyint_correct 53 1024 emax64 mode_DN (operand_of E x)) as (C1 & C2 & _).
    rewrite C2, operand_finite. split; [exact Fx|]. rewrite round_FIX0 in C1. cbn [round_mode] in C1. rewrite val_real; rewrite C1; [reflexivity|].
    destruct (Z.eq_dec (Zfloor (B2R (operand_of E x))) 0) as [->|Hz]; [left; reflexivity|]. right.
    apply Rle_trans with 1; [change 1 with (bpow radix2 0); apply bpow_le; lia|]. rewrite <- abs_IZR. apply IZR_le. lia.
  - intros x Fx. unfold val_in. rewrite <- operand_finite in Fx. destruct (operand_of E x) as [| | |] eqn:Eo; try discriminate; cbn [trunc64];
    rewrite <- Eo; pose proof (Btrunc_correct 53 1024 emax64 (operand_of E x)) as C; rewrite round_FIX0 in C; apply eq_IZR in C; rewrite C; reflexivity.
  - intros n k Hk Hn HO. unfold K64 in Hn.
    destruct (ofZ_in (Z.of_nat k) ltac:(lia)) as [Gk Vk]. destruct (ofZ_in (Z.of_nat n) ltac:(lia)) as [Gn Vn].
    assert (is_finite pi_double = true /\ Rabs (val_in pi_double - PI) <= 2 * u64) as [Gp Vp].
    { destruct pi64 as [H1 H2]. split; [exact H1|]. rewrite constant_in; [exact H2|exact H1|].
      pose proof PI_tight. apply Rabs_le_inv in H2. unfold u64 in H2. rewrite Rabs_right by lra. lra. }
    assert (is_finite (mk_double (-2) 0) = true /\ val_in (mk_double (-2) 0) = -2) as [Gm Vm].
    { destruct (ofZ64 (-2) ltac:(lia)) as [H1 H2]. split; [exact H1|]. rewrite constant_in; [exact H2|exact H1|]. rewrite H2, <- abs_IZR. cbn. lra. }
    assert (0 <= u52 <= / 1048576) as Hu by (unfold u52; lra).
    assert (IZR K64 <= Om64) as HKO by (unfold K64, Om64; apply IZR_le; vm_compute; discriminate).
    destruct (angle_near val_in (fun x => is_finite x = true) rnd_in u52 Om64 K64 (mul_in E) (div_in E) Hu HKO (fun z _ => rnd_in_err z)
      (fun z Hz => eq_trans (f_equal (flush_real flushing) (rnd_dir_int z Hz)) (flush_real_int flushing z)) mul_in_spec div_in_spec
      (mk_double (-2) 0) _ pi_double _ n k (2 * u64) Hk Hn HO Gm Vm Gk Vk Gn Vn Gp Vp) as [H1 H2]; [unfold u64; lra|].
    split; [exact H1|]. unfold u64, u52 in *. lra.
  - destruct (exact_double 1 (-1)) as [H1 H2]; [lia|lia|]. assert (B2R (mk_double 1 (-1)) = / 2) as V by (rewrite H2; unfold F2R; cbn; lra).
    split; [exact H1|]. rewrite constant_in; [exact V|exact H1|]. rewrite V, Rabs_right by lra. lra.
  - destruct (exact_double 1 (-2)) as [H1 H2]; [lia|lia|]. assert (B2R (mk_double 1 (-2)) = / 4) as V by (rewrite H2; unfold F2R; cbn; lra).
    split; [exact H1|]. rewrite constant_in; [exact V|exact H1|]. rewrite V, Rabs_right by lra. lra.
Qed.
End In.
