(** * Double arithmetic with excess precision satisfies the assumptions of FloatModel.v *)
From Coq Require Import ZArith Reals Lra Lia Psatz.
From Flocq Require Import Core Relative IEEE754.BinarySingleNaN.
From Verif Require Import Base Fourier FloatModel AngleProof Ieee IeeeProof Formats FormatProof Excess.
Open Scope R_scope.

Lemma p64 : (24 <= bprec binary64)%Z. Proof. vm_compute. discriminate. Qed.
Lemma e64 : (128 <= bemax binary64)%Z. Proof. vm_compute. discriminate. Qed.

Definition Omx : R := IZR (2 ^ 99).

Lemma Omx_Omf : 2 * Omx = Omf /\ 16 <= Omx.
Proof. unfold Omx, Omf. split; [rewrite <- mult_IZR; apply f_equal; reflexivity|apply IZR_le; vm_compute; discriminate]. Qed.

Section Excess.
Context (g : binary_format) (Hprec : (64 <= bprec g)%Z) (Hemax : (1100 <= bemax g)%Z).
Let G1 : (24 <= bprec g)%Z. Proof. lia. Qed.
Let G2 : (128 <= bemax g)%Z. Proof. lia. Qed.

(** rounded twice *)
Definition rnd_twice (z : R) : R := rnd_at binary64 (rnd_at g z).
Definition u_excess : R := 1025 / 1024 * / 9007199254740992.

Lemma unit_g : 0 < unit_at g <= / 18446744073709551616.
Proof using Hprec.
  split; [apply unit_pos|]. change (/ 18446744073709551616) with (bpow radix2 (-64)). apply bpow_le. lia.
Qed.

(** every double is a number of the wider format *)
Lemma double_wide (x : number binary64) : rnd_at g (B2R x) = B2R x.
Proof using Hprec Hemax.
  apply round_generic; [apply valid_rnd_N|]. rewrite fexp_flt.
  apply generic_inclusion_mag with (fexp1 := FLT_exp (-1074) 53); [|exact (generic_format_B2R 53 1024 x)].
  intros _. unfold FLT_exp. lia.
Qed.

Lemma widen_spec x : is_finite x = true -> is_finite (widen g x) = true /\ B2R (widen g x) = B2R x.
Proof using Hprec Hemax.
  intros Fx. unfold widen. pose proof (double_wide x) as D. pose proof (abs_B2R_lt_emax 53 1024 x) as L.
  destruct x as [s| | |s m e Hb]; try discriminate; cbn [convert]; [split; reflexivity|].
  pose proof (binary_normalize_correct (bprec g) (bemax g) (bprec_pos g) (bprec_lt g) mode_NE (cond_Zopp s (Zpos m)) e s) as C. cbv zeta in C.
  change (F2R (Float radix2 (cond_Zopp s (Zpos m)) e)) with (@B2R 53 1024 (B754_finite s m e Hb)) in C.
  change (round radix2 (SpecFloat.fexp (bprec g) (bemax g)) (round_mode mode_NE) (@B2R 53 1024 (B754_finite s m e Hb)))
    with (rnd_at g (@B2R 53 1024 (B754_finite s m e Hb))) in C.
  change (@B2R (bprec binary64) (bemax binary64) (B754_finite s m e Hb)) with (@B2R 53 1024 (B754_finite s m e Hb)) in D. rewrite D in C.
  rewrite Rlt_bool_true in C.
  - destruct C as (C1 & C2 & _). split; [exact C2|exact C1].
  - eapply Rlt_le_trans; [exact L|]. apply bpow_le. lia.
Qed.

Lemma rnd_g_size z : Rabs z <= Omx -> Rabs (rnd_at g z) <= Omf.
Proof using Hprec Hemax.
  intros H. pose proof (rnd_at_err g G1 G2 z) as E. destruct Omx_Omf as [O1 O2]. pose proof unit_g as U.
  replace (rnd_at g z) with (z + (rnd_at g z - z)) by ring. eapply Rle_trans; [apply Rabs_triang|].
  assert (unit_at g * (Rabs z + tiny) <= / 18446744073709551616 * (Omx + 1)); [|lra].
  pose proof (Rabs_pos z). apply Rmult_le_compat; unfold tiny; lra.
Qed.

Lemma narrow_spec x z : is_finite x = true -> B2R x = rnd_at g z -> Rabs z <= Omx ->
  is_finite (narrow g x) = true /\ B2R (narrow g x) = rnd_twice z.
Proof using Hprec Hemax.
  intros Fx Ex Hz. unfold rnd_twice. rewrite <- Ex. apply (convert_spec binary64 p64 e64 g x Fx). rewrite Ex. apply rnd_g_size, Hz.
Qed.

Lemma Omx_le z : Rabs z <= Omx -> Rabs z <= Omf.
Proof. destruct Omx_Omf. lra. Qed.

Lemma twice_err z : Rabs (rnd_twice z - z) <= u_excess * (Rabs z + tiny).
Proof using Hprec Hemax.
  unfold rnd_twice, u_excess. pose proof (rnd_at_err g G1 G2 z) as E. set (r := rnd_at g z) in *.
  pose proof (rnd_at_err binary64 p64 e64 r) as E'. change (unit_at binary64) with (/ 9007199254740992) in E'. pose proof unit_g as U.
  pose proof (Rabs_pos z) as Pz. assert (0 < tiny) as Pt by (unfold tiny; lra).
  assert (Rabs (r - z) <= / 18446744073709551616 * (Rabs z + tiny)) as E2.
  { eapply Rle_trans; [exact E|]. apply Rmult_le_compat_r; lra. }
  assert (Rabs r <= Rabs z + / 18446744073709551616 * (Rabs z + tiny)) as E3.
  { replace r with (z + (r - z)) by ring. eapply Rle_trans; [apply Rabs_triang|]. lra. }
  replace (rnd_at binary64 r - z) with ((rnd_at binary64 r - r) + (r - z)) by ring. eapply Rle_trans; [apply Rabs_triang|]. lra.
Qed.

Lemma twice_int z : (Z.abs z <= 2 ^ 53)%Z -> rnd_twice (IZR z) = IZR z.
Proof using Hprec Hemax.
  intros H. assert (2 ^ 53 <= 2 ^ bprec g)%Z by (apply Z.pow_le_mono_r; lia). unfold rnd_twice. rewrite (rnd_at_int g G1 G2) by lia.
  apply (rnd_at_int binary64 p64 e64). exact H.
Qed.

Lemma add_excess_spec x y : is_finite x = true -> is_finite y = true -> Rabs (B2R x + B2R y) <= Omx ->
  is_finite (add_excess g x y) = true /\ B2R (add_excess g x y) = rnd_twice (B2R x + B2R y).
Proof using Hprec Hemax.
  intros Fx Fy H. destruct (widen_spec x Fx) as [F1 V1]. destruct (widen_spec y Fy) as [F2 V2].
  destruct (add_at_spec g G1 G2 (widen g x) (widen g y) F1 F2) as [F3 V3]; rewrite V1, V2 in *; [apply Omx_le, H|].
  apply narrow_spec; assumption.
Qed.
Lemma sub_excess_spec x y : is_finite x = true -> is_finite y = true -> Rabs (B2R x - B2R y) <= Omx ->
  is_finite (sub_excess g x y) = true /\ B2R (sub_excess g x y) = rnd_twice (B2R x - B2R y).
Proof using Hprec Hemax.
  intros Fx Fy H. destruct (widen_spec x Fx) as [F1 V1]. destruct (widen_spec y Fy) as [F2 V2].
  destruct (sub_at_spec g G1 G2 (widen g x) (widen g y) F1 F2) as [F3 V3]; rewrite V1, V2 in *; [apply Omx_le, H|].
  apply narrow_spec; assumption.
Qed.
Lemma mul_excess_spec x y : is_finite x = true -> is_finite y = true -> Rabs (B2R x * B2R y) <= Omx ->
  is_finite (mul_excess g x y) = true /\ B2R (mul_excess g x y) = rnd_twice (B2R x * B2R y).
Proof using Hprec Hemax.
  intros Fx Fy H. destruct (widen_spec x Fx) as [F1 V1]. destruct (widen_spec y Fy) as [F2 V2].
  destruct (mul_at_spec g G1 G2 (widen g x) (widen g y) F1 F2) as [F3 V3]; rewrite V1, V2 in *; [apply Omx_le, H|].
  apply narrow_spec; assumption.
Qed.
Lemma div_excess_spec x y : is_finite x = true -> is_finite y = true -> B2R y <> 0 -> Rabs (B2R x / B2R y) <= Omx ->
  is_finite (div_excess g x y) = true /\ B2R (div_excess g x y) = rnd_twice (B2R x / B2R y).
Proof using Hprec Hemax.
  intros Fx Fy Hy H. destruct (widen_spec x Fx) as [F1 V1]. destruct (widen_spec y Fy) as [F2 V2].
  destruct (div_at_spec g G1 G2 (widen g x) (widen g y) F1 F2) as [F3 V3]; rewrite ?V1, ?V2 in *; [exact Hy|apply Omx_le, H|].
  apply narrow_spec; assumption.
Qed.

Lemma product_spec i a b : is_finite a = true -> is_finite b = true -> Rabs (B2R a * B2R b) <= Omx ->
  is_finite (product_excess g i a b) = true /\ maybe_rounded rnd_twice u_excess (B2R (product_excess g i a b)) (B2R a * B2R b).
Proof using Hprec Hemax.
  intros Fa Fb H. destruct i; cbn [product_excess].
  - destruct (widen_spec a Fa) as [F1 V1]. destruct (widen_spec b Fb) as [F2 V2].
    destruct (mul_at_spec g G1 G2 (widen g a) (widen g b) F1 F2) as [F3 V3]; rewrite V1, V2 in *; [apply Omx_le, H|].
    split; [exact F3|]. right. right. rewrite V3. eapply Rle_trans; [apply (rnd_at_err g G1 G2)|]. pose proof unit_g as U.
    pose proof (Rabs_pos (B2R a * B2R b)). apply Rmult_le_compat_r; unfold u_excess, tiny; lra.
  - destruct (mul_excess_spec a b Fa Fb H) as [F1 V1]. destruct (widen_spec _ F1) as [F2 V2]. split; [exact F2|]. right. left. rewrite V2. exact V1.
Qed.

Lemma angle_excess_near n k : (2 * k < n)%nat -> (Z.of_nat n <= 2 ^ 53)%Z ->
  is_finite (angle_excess g n k) = true /\ Rabs (B2R (angle_excess g n k) - -2 * PI * INR k / INR n) <= 9 * u_excess.
Proof using Hprec Hemax.
  intros Hk Hn. unfold angle_excess. assert (2 ^ 53 <= 2 ^ bprec g)%Z as Hpow by (apply Z.pow_le_mono_r; lia).
  rewrite (length_at_id binary64 n p64 e64 Hn ltac:(lia)).
  pose proof PI_close as Hpi. pose proof pi_double_near as Hd. destruct pi_double_val as [Fp _].
  destruct (widen_spec (mk_double (-2) 0)) as [Fm Vm]; [reflexivity|].
  destruct (ofZ_at binary64 p64 e64 (Z.of_nat k) ltac:(change (2 ^ bprec binary64)%Z with (2 ^ 53)%Z; lia) ltac:(lia)) as [Fk Vk].
  destruct (widen_spec _ Fk) as [Fk' Vk']. rewrite Vk in Vk'.
  destruct (ofZ_at g G1 G2 (Z.of_nat n) ltac:(lia) ltac:(lia)) as [Fn Vn].
  destruct (widen_spec pi_double Fp) as [Fp' Vp'].
  assert (@B2R (bprec binary64) (bemax binary64) (mk_double (-2) 0) = -2) as V2 by (apply (ofZ64 (-2)); lia). rewrite V2 in Vm.
  assert (is_finite (angle_of (mul_at g) (div_at g) (widen g (mk_double (-2) 0)) (widen g (mk_number binary64 (Z.of_nat k) 0)) (widen g pi_double)
      (mk_number g (Z.of_nat n) 0)) = true /\
    Rabs (B2R (angle_of (mul_at g) (div_at g) (widen g (mk_double (-2) 0)) (widen g (mk_number binary64 (Z.of_nat k) 0)) (widen g pi_double)
      (mk_number g (Z.of_nat n) 0)) - -2 * PI * INR k / INR n) <= 6.62 * unit_at g + pi_gap) as [Fa Va].
  { refine (angle_near (@B2R (bprec g) (bemax g)) (fun x => is_finite x = true) (rnd_at g) (unit_at g) Omf (2 ^ 53) (mul_at g) (div_at g)
      _ _ _ _ _ _ _ _ _ _ n k pi_gap Hk Hn _ Fm Vm Fk' Vk' Fn Vn Fp' _ _).
    - pose proof unit_g. lra.
    - unfold Omf. apply IZR_le. lia.
    - intros z _. apply rnd_at_err; assumption.
    - intros z Hz. apply rnd_at_int; lia.
    - apply mul_at_spec; assumption.
    - apply div_at_spec; assumption.
    - rewrite INR_IZR_INZ. unfold Omf. rewrite <- mult_IZR. apply IZR_le. lia.
    - rewrite Vp'. change (@B2R (bprec binary64) (bemax binary64) pi_double) with (@B2R 53 1024 pi_double). apply abs_le. unfold pi_gap in *. lra.
    - unfold pi_gap. lra. }
  set (x := angle_of _ _ _ _ _ _) in *. pose proof (angle_size n k Hk) as As. set (t := -2 * PI * INR k / INR n) in *. pose proof unit_g as U.
  assert (Rabs (B2R x) <= 3.21) as Sx by (apply abs_elim in Va; apply abs_elim in As; apply abs_le; unfold pi_gap in Va; lra).
  destruct (convert_spec binary64 p64 e64 g x Fa) as [Fx Vx]; [pose proof four_Omf; lra|].
  split; [exact Fx|]. unfold narrow. rewrite Vx. pose proof (rnd_at_err binary64 p64 e64 (B2R x)) as E. change (unit_at binary64) with (/ 9007199254740992) in E.
  apply abs_elim in E. apply abs_elim in Va. apply abs_le. unfold tiny, pi_gap, u_excess in *. lra.
Qed.

Theorem rounding_excess ct cosf sinf : accurate_at binary64 (/ 4503599627370496) cosf sinf ->
  rounding (flops_excess g ct cosf sinf) (@B2R (bprec binary64) (bemax binary64)) (fun x => is_finite x = true) rnd_twice u_excess Omx (2 ^ 53).
Proof using Hprec Hemax.
  intros HA. split; cbn [fofZ fadd fsub fmul fdiv fdet fdot fnan fneg fcos fsin ffloor ftrunc fangle c_half c_quarter flops_excess F].
  - unfold u_excess. lra.
  - unfold Omx. apply IZR_le. vm_compute. discriminate.
  - intros z _. apply twice_err.
  - apply twice_int.
  - intros z Hz. apply (ofZ_at binary64 p64 e64); [change (2 ^ bprec binary64)%Z with (2 ^ 53)%Z; lia|lia].
  - apply add_excess_spec.
  - apply sub_excess_spec.
  - apply mul_excess_spec.
  - apply div_excess_spec.
  - intros s a b c d Fa Fb Fc Fd H1 H2. destruct (product_spec (fst (real_part ct s)) a b Fa Fb H1) as [F1 V1].
    destruct (product_spec (snd (real_part ct s)) c d Fc Fd H2) as [F2 V2]. eexists _, _. split; [exact V1|]. split; [exact V2|].
    intros H. destruct (sub_at_spec g G1 G2 _ _ F1 F2 (Omx_le _ H)) as [F3 V3]. apply (narrow_spec _ _ F3 V3 H).
  - intros s a b c d Fa Fb Fc Fd H1 H2. destruct (product_spec (fst (imaginary_part ct s)) a b Fa Fb H1) as [F1 V1].
    destruct (product_spec (snd (imaginary_part ct s)) c d Fc Fd H2) as [F2 V2]. eexists _, _. split; [exact V1|]. split; [exact V2|].
    intros H. destruct (add_at_spec g G1 G2 _ _ F1 F2 (Omx_le _ H)) as [F3 V3]. apply (narrow_spec _ _ F3 V3 H).
  - intros x Fx. destruct x; [reflexivity|discriminate|discriminate|reflexivity].
  - intros x Fx. rewrite is_finite_Bopp. split; [exact Fx|]. apply B2R_Bopp.
  - intros x Fx H. destruct (HA x Fx H) as [[A1 A2] _]. split; [exact A1|]. unfold u_excess. lra.
  - intros x Fx H. destruct (HA x Fx H) as [_ [A1 A2]]. split; [exact A1|]. unfold u_excess. lra.
  - intros x Fx. destruct (Bnearbyint_correct (bprec binary64) (bemax binary64) (bprec_lt binary64) mode_DN x) as (C1 & C2 & _).
    rewrite C2. split; [exact Fx|]. rewrite C1, round_FIX0. reflexivity.
  - intros x Fx. pose proof (Btrunc_correct (bprec binary64) (bemax binary64) (bprec_lt binary64) x) as C. rewrite round_FIX0 in C. apply eq_IZR in C.
    destruct x; try discriminate; rewrite C; reflexivity.
  - intros n k Hk Hn _. apply angle_excess_near; assumption.
  - destruct (half_at binary64 p64 e64 1 ltac:(lia)) as [H1 H2]. split; [exact H1|]. change (-1)%Z with (- (1))%Z. rewrite H2. reflexivity.
  - destruct (half_at binary64 p64 e64 2 ltac:(lia)) as [H1 H2]. split; [exact H1|]. change (-2)%Z with (- (2))%Z. rewrite H2. reflexivity.
Qed.
End Excess.
