(** * IEEE binary64 satisfies the assumptions of FloatModel.v *)
From Coq Require Import ZArith Reals Lra Lia Psatz.
From Flocq Require Import Core Relative IEEE754.BinarySingleNaN.
From Verif Require Import Base Fourier FloatModel AngleProof Ieee.
Open Scope R_scope.

Notation fe := (FLT_exp (-1074) 53).
Notation rnd64 := (round radix2 fe ZnearestE).
Definition u64 : R := / 9007199254740992.
Definition Om64 : R := IZR (2 ^ 200).
Definition K64 : Z := (2 ^ 53)%Z.

Lemma fexp_eq : SpecFloat.fexp 53 1024 = fe.
Proof. reflexivity. Qed.

Lemma bpow_IZR e : (0 <= e)%Z -> bpow radix2 e = IZR (2 ^ e).
Proof. intros H. rewrite <- IZR_Zpower by exact H. reflexivity. Qed.

Lemma rnd64_err z : Rabs (rnd64 z - z) <= u64 * (Rabs z + tiny).
Proof.
  destruct (error_N_FLT radix2 (-1074) 53 eq_refl (fun x => negb (Z.even x)) z) as (eps & eta & He & Hn & _ & E).
  assert (rnd64 z = z * (1 + eps) + eta) as E2 by exact E. rewrite E2. replace (z * (1 + eps) + eta - z) with (z * eps + eta) by ring.
  eapply Rle_trans; [apply Rabs_triang|]. rewrite Rabs_mult.
  assert (Rabs eps <= u64) as He2.
  { eapply Rle_trans; [exact He|]. unfold u64. change (- (53) + 1)%Z with (-52)%Z. replace (bpow radix2 (-52)) with (/ 4503599627370496) by reflexivity. lra. }
  assert (Rabs eta <= u64 * tiny) as Hn2.
  { eapply Rle_trans; [exact Hn|].
    apply Rle_trans with (bpow radix2 (-117)).
    - apply Rle_trans with (bpow radix2 (-1074)); [pose proof (bpow_gt_0 radix2 (-1074)); lra|]. apply bpow_le. lia.
    - unfold u64, tiny. replace (bpow radix2 (-117)) with (/ 166153499473114484112975882535043072) by reflexivity. lra. }
  pose proof (Rabs_pos z). nra.
Qed.

Lemma rnd64_int z : (Z.abs z <= 2 ^ 53)%Z -> rnd64 (IZR z) = IZR z.
Proof.
  intros H. apply round_generic; [apply valid_rnd_N|].
  assert (forall y, (0 <= y <= 2 ^ 53)%Z -> generic_format radix2 fe (IZR y)) as Hp.
  { intros y Hy. destruct (Z.eq_dec y (2 ^ 53)) as [->|N].
    - rewrite <- (bpow_IZR 53) by lia. apply generic_format_bpow. unfold FLT_exp. lia.
    - apply generic_format_FLT. exists (Float radix2 y 0); cbn [Fnum Fexp]; [|rewrite Z.abs_eq; [|lia]; change (Zpower radix2 53) with (2 ^ 53)%Z; lia|lia].
      unfold F2R. cbn [Fnum Fexp bpow]. ring. }
  destruct (Z_le_dec 0 z) as [Hz|Hz]; [apply Hp; lia|].
  replace (IZR z) with (- IZR (- z)) by (rewrite opp_IZR; ring). apply generic_format_opp, Hp. lia.
Qed.

Lemma Om64_big z : Rabs z <= Om64 -> Rlt_bool (Rabs (round radix2 (SpecFloat.fexp 53 1024) (round_mode mode_NE) z)) (bpow radix2 1024) = true.
Proof.
  intros H. apply Rlt_bool_true. rewrite fexp_eq. cbn [round_mode].
  assert (Rabs (rnd64 z) <= 3 * Om64).
  { pose proof (rnd64_err z) as E. unfold u64, tiny in E. assert (1 <= Om64) by (unfold Om64; apply IZR_le; lia).
    replace (rnd64 z) with (z + (rnd64 z - z)) by ring. eapply Rle_trans; [apply Rabs_triang|]. pose proof (Rabs_pos z). lra. }
  eapply Rle_lt_trans; [exact H0|]. apply Rle_lt_trans with (bpow radix2 202).
  - rewrite bpow_IZR by lia. unfold Om64. rewrite <- mult_IZR. apply IZR_le. vm_compute. discriminate.
  - apply bpow_lt. lia.
Qed.

Lemma mk_double_spec m e : Rabs (F2R (Float radix2 m e)) <= Om64 ->
  is_finite (mk_double m e) = true /\ B2R (mk_double m e) = rnd64 (F2R (Float radix2 m e)).
Proof.
  intros H. pose proof (binary_normalize_correct 53 1024 prec64 emax64 mode_NE m e false) as C. cbv zeta in C.
  rewrite (Om64_big _ H) in C. destruct C as (C1 & C2 & _). split; [exact C2|]. exact C1.
Qed.

Lemma F2R_int z : F2R (Float radix2 z 0) = IZR z.
Proof. unfold F2R. cbn [Fnum Fexp bpow]. ring. Qed.

Lemma abs_int_Om z : (Z.abs z <= 2 ^ 53)%Z -> Rabs (IZR z) <= Om64.
Proof. intros H. rewrite <- abs_IZR. unfold Om64. apply IZR_le. eapply Z.le_trans; [exact H|]. vm_compute. discriminate. Qed.

Lemma ofZ64 z : (Z.abs z <= 2 ^ 53)%Z -> is_finite (mk_double z 0) = true /\ B2R (mk_double z 0) = IZR z.
Proof.
  intros H. destruct (mk_double_spec z 0) as [H1 H2]; [rewrite F2R_int; apply abs_int_Om; exact H|].
  split; [exact H1|]. rewrite H2, F2R_int. apply rnd64_int, H.
Qed.

Lemma exact_double m e : (Z.abs m < 2 ^ 53)%Z -> (-1074 <= e <= 0)%Z ->
  is_finite (mk_double m e) = true /\ B2R (mk_double m e) = F2R (Float radix2 m e).
Proof.
  intros Hm He.
  assert (Rabs (F2R (Float radix2 m e)) <= Om64) as HO.
  { unfold F2R. cbn [Fnum Fexp]. rewrite Rabs_mult, (Rabs_right (bpow radix2 e)) by (apply Rle_ge, bpow_ge_0).
    apply Rle_trans with (Rabs (IZR m) * 1); [|rewrite Rmult_1_r; apply abs_int_Om; lia].
    apply Rmult_le_compat_l; [apply Rabs_pos|]. change 1 with (bpow radix2 0). apply bpow_le. lia. }
  destruct (mk_double_spec m e HO) as [H1 H2]. split; [exact H1|]. rewrite H2. apply round_generic; [apply valid_rnd_N|].
  apply generic_format_FLT. exists (Float radix2 m e); auto. cbn [Fexp]. lia.
Qed.

(** |pi64 - pi| <= 2^-52 *)
Lemma PI_tight : 3.1415926535897931 <= PI <= 3.1415926535897933.
Proof.
  pose proof (PI_2_3_7_ineq 9) as [H1 H2].
  unfold PI_2_3_7_tg, tg_alt, Ratan_seq in H1, H2. cbn [sum_f_R0 Nat.mul Nat.add] in H1, H2.
  generalize dependent PI. intros p H1 H2. 
  assert (forall q, q / 4 <= p / 4 -> q <= p) as K1 by (intros; lra).
  assert (forall q, p / 4 <= q / 4 -> p <= q) as K2 by (intros; lra).
  rewrite !INR_IZR_INZ in H1. rewrite !INR_IZR_INZ in H2. 
  cbn [Z.of_nat Pos.of_succ_nat Pos.succ] in H1, H2.
  split; [clear H2; apply K1; eapply Rle_trans; [|exact H1]|clear H1; apply K2; eapply Rle_trans; [exact H2|]];
  match goal with |- context [(-1) ^ 0] => field_simplify end; lra.
Qed.

Lemma pi64 : is_finite pi_double = true /\ Rabs (B2R pi_double - PI) <= 2 * u64.
Proof.
  unfold pi_double.
  destruct (exact_double 884279719003555 (-48)) as [H1 H2]; [vm_compute; reflexivity|lia|]. split; [exact H1|]. rewrite H2.
  unfold F2R. cbn [Fnum Fexp]. replace (bpow radix2 (-48)) with (/ 281474976710656) by reflexivity.
  pose proof PI_tight. apply Rabs_le. unfold u64. lra.
Qed.

Lemma round_FIX0 (f : R -> Z) x : round radix2 (FIX_exp 0) f x = IZR (f x).
Proof.
  unfold round, F2R, scaled_mantissa, cexp, FIX_exp. cbn [Fnum Fexp Z.opp bpow]. rewrite !Rmult_1_r. reflexivity.
Qed.

Lemma fma64 a b c : is_finite a = true -> is_finite b = true -> is_finite c = true -> Rabs (B2R a * B2R b + B2R c) <= Om64 ->
  let r := @Bfma 53 1024 prec64 emax64 mode_NE a b c in is_finite r = true /\ B2R r = rnd64 (B2R a * B2R b + B2R c).
Proof.
  intros Fa Fb Fc H. pose proof (Bfma_correct 53 1024 prec64 emax64 mode_NE a b c Fa Fb Fc) as C. cbv zeta in C.
  rewrite (Om64_big _ H) in C. destruct C as (C1 & C2 & _). split; [exact C2|exact C1].
Qed.

Lemma mul64 a b : is_finite a = true -> is_finite b = true -> Rabs (B2R a * B2R b) <= Om64 ->
  let r := @Bmult 53 1024 prec64 emax64 mode_NE a b in is_finite r = true /\ B2R r = rnd64 (B2R a * B2R b).
Proof.
  intros Fa Fb H. pose proof (Bmult_correct 53 1024 prec64 emax64 mode_NE a b) as C.
  rewrite (Om64_big _ H), Fa, Fb in C. destruct C as (C1 & C2 & _). split; [exact C2|exact C1].
Qed.

Lemma div64 a b : is_finite a = true -> is_finite b = true -> B2R b <> 0 -> Rabs (B2R a / B2R b) <= Om64 ->
  let r := @Bdiv 53 1024 prec64 emax64 mode_NE a b in is_finite r = true /\ B2R r = rnd64 (B2R a / B2R b).
Proof.
  intros Fa Fb Hb H. pose proof (Bdiv_correct 53 1024 prec64 emax64 mode_NE a b Hb) as C.
  rewrite (Om64_big _ H), Fa in C. destruct C as (C1 & C2 & _). split; [exact C2|exact C1].
Qed.

Theorem ieee_rounding ct cosf sinf : accurate cosf sinf ->
  rounding (ieee ct cosf sinf) (@B2R 53 1024) (fun x => is_finite x = true) rnd64 u64 Om64 K64.
Proof.
  intros HA. split; cbn [fofZ fadd fsub fmul fdiv fdet fdot fnan fneg fcos fsin ffloor ftrunc fangle c_half c_quarter ieee F].
  - unfold u64. lra.
  - unfold K64, Om64. apply IZR_le. vm_compute. discriminate.
  - intros z _. apply rnd64_err.
  - intros z Hz. apply rnd64_int, Hz.
  - intros z Hz. apply ofZ64. unfold K64 in Hz. lia.
  - intros x y Fx Fy H. pose proof (Bplus_correct 53 1024 prec64 emax64 mode_NE x y Fx Fy) as C.
    rewrite (Om64_big _ H) in C. destruct C as (C1 & C2 & _). split; [exact C2|exact C1].
  - intros x y Fx Fy H. pose proof (Bminus_correct 53 1024 prec64 emax64 mode_NE x y Fx Fy) as C.
    rewrite (Om64_big _ H) in C. destruct C as (C1 & C2 & _). split; [exact C2|exact C1].
  - intros x y Fx Fy H. pose proof (Bmult_correct 53 1024 prec64 emax64 mode_NE x y) as C.
    rewrite (Om64_big _ H), Fx, Fy in C. destruct C as (C1 & C2 & _). split; [exact C2|exact C1].
  - intros x y Fx Fy Hy H. pose proof (Bdiv_correct 53 1024 prec64 emax64 mode_NE x y Hy) as C.
    rewrite (Om64_big _ H), Fx in C. destruct C as (C1 & C2 & _). split; [exact C2|exact C1].
  - intros s a b c d Fa Fb Fc Fd H1 H2. destruct (mul64 a b Fa Fb H1) as [G1 V1]. destruct (mul64 c d Fc Fd H2) as [G2 V2].
    destruct (fst (fusing_at ct s)); cbn [det64].
    + exists (rnd64 (B2R a * B2R b)), (rnd64 (B2R c * B2R d)). split; [unfold maybe_rounded; auto|]. split; [unfold maybe_rounded; auto|]. intros H. rewrite <- V1, <- V2 in *.
      pose proof (Bminus_correct 53 1024 prec64 emax64 mode_NE _ _ G1 G2) as C.
      rewrite (Om64_big _ H) in C. destruct C as (C1 & C2 & _). split; [exact C2|exact C1].
    + exists (B2R a * B2R b), (rnd64 (B2R c * B2R d)). split; [unfold maybe_rounded; auto|]. split; [unfold maybe_rounded; auto|]. intros H. rewrite <- V2 in *. unfold Rminus in *.
      rewrite <- B2R_Bopp in *. apply fma64; auto. rewrite is_finite_Bopp. exact G2.
    + exists (rnd64 (B2R a * B2R b)), (B2R c * B2R d). split; [unfold maybe_rounded; auto|]. split; [unfold maybe_rounded; auto|]. intros H. rewrite <- V1 in *.
      set (m := Bmult mode_NE a b) in *. replace (B2R m - B2R c * B2R d) with (B2R (Bopp c) * B2R d + B2R m) in * by (rewrite B2R_Bopp; ring).
      apply fma64; auto. rewrite is_finite_Bopp. exact Fc.
  - intros s a b c d Fa Fb Fc Fd H1 H2. destruct (mul64 a b Fa Fb H1) as [G1 V1]. destruct (mul64 c d Fc Fd H2) as [G2 V2].
    destruct (snd (fusing_at ct s)); cbn [dot64].
    + exists (rnd64 (B2R a * B2R b)), (rnd64 (B2R c * B2R d)). split; [unfold maybe_rounded; auto|]. split; [unfold maybe_rounded; auto|]. intros H. rewrite <- V1, <- V2 in *.
      pose proof (Bplus_correct 53 1024 prec64 emax64 mode_NE _ _ G1 G2) as C.
      rewrite (Om64_big _ H) in C. destruct C as (C1 & C2 & _). split; [exact C2|exact C1].
    + exists (B2R a * B2R b), (rnd64 (B2R c * B2R d)). split; [unfold maybe_rounded; auto|]. split; [unfold maybe_rounded; auto|]. intros H. rewrite <- V2 in *.
      apply fma64; auto.
    + exists (rnd64 (B2R a * B2R b)), (B2R c * B2R d). split; [unfold maybe_rounded; auto|]. split; [unfold maybe_rounded; auto|]. intros H. rewrite <- V1 in *.
      rewrite Rplus_comm in *. apply fma64; auto.
  - intros x Fx. destruct x; [reflexivity|discriminate|discriminate|reflexivity].
  - intros x Fx. rewrite is_finite_Bopp. split; [exact Fx|]. apply B2R_Bopp.
  - intros x Fx H. destruct (HA x Fx H) as [[H1 H2] _]. split; [exact H1|]. unfold u64. lra.
  - intros x Fx H. destruct (HA x Fx H) as [_ [H1 H2]]. split; [exact H1|]. unfold u64. lra.
  - intros x Fx. destruct (Bnearbyint_correct 53 1024 emax64 mode_DN x) as (C1 & C2 & _).
    rewrite C2. split; [exact Fx|]. rewrite C1, round_FIX0. reflexivity.
  - intros x Fx. pose proof (Btrunc_correct 53 1024 emax64 x) as C. rewrite round_FIX0 in C. apply eq_IZR in C.
    destruct x; try discriminate; cbn [trunc64]; rewrite C; reflexivity.
  - intros n k Hk Hn HO. destruct (ofZ64 (-2) ltac:(lia)) as [Gm Vm]. unfold K64 in Hn.
    destruct (ofZ64 (Z.of_nat k) ltac:(lia)) as [Gk Vk]. destruct (ofZ64 (Z.of_nat n) ltac:(lia)) as [Gn Vn].
    destruct pi64 as [Gp Vp].
    assert (0 <= u64 <= / 1048576) as Hu by (unfold u64; lra).
    assert (IZR K64 <= Om64) as HKO by (unfold K64, Om64; apply IZR_le; vm_compute; discriminate).
    destruct (angle_near (@B2R 53 1024) (fun x => is_finite x = true) rnd64 u64 Om64 K64 (@Bmult 53 1024 prec64 emax64 mode_NE)
      (@Bdiv 53 1024 prec64 emax64 mode_NE) Hu HKO (fun z _ => rnd64_err z) rnd64_int mul64 div64
      (mk_double (-2) 0) (mk_double (Z.of_nat k) 0) pi_double (mk_double (Z.of_nat n) 0) n k (2 * u64)) as [H1 H2]; auto; [unfold u64; lra|].
    split; [exact H1|]. lra.
  - destruct (exact_double 1 (-1)) as [H1 H2]; [lia|lia|]. split; [exact H1|]. rewrite H2. unfold F2R. cbn. lra.
  - destruct (exact_double 1 (-2)) as [H1 H2]; [lia|lia|]. split; [exact H1|]. rewrite H2. unfold F2R. cbn. lra.
Qed.

(** The correctly rounded library is accurate. *)
Lemma nearest_spec r : Rabs r <= 1 -> is_finite (nearest r) = true /\ B2R (nearest r) = rnd64 r.
Proof.
  intros H. unfold nearest. cbv zeta. set (s := rnd64 r).
  assert (generic_format radix2 fe s) as G by (apply generic_format_round; [apply FLT_exp_valid; reflexivity|apply valid_rnd_N]).
  assert (F2R (Float radix2 (Ztrunc (scaled_mantissa radix2 fe s)) (cexp radix2 fe s)) = s) as E by (symmetry; exact G).
  assert (Rabs s <= Om64) as HO.
  { pose proof (rnd64_err r) as Er. fold s in Er. unfold u64, tiny in Er. replace s with (r + (s - r)) by ring.
    eapply Rle_trans; [apply Rabs_triang|]. pose proof (Rabs_pos r). apply Rle_trans with 2; [lra|]. apply IZR_le. vm_compute. discriminate. }
  destruct (mk_double_spec (Ztrunc (scaled_mantissa radix2 fe s)) (cexp radix2 fe s)) as [H1 H2]; [rewrite E; exact HO|].
  split; [exact H1|]. rewrite H2, E. apply round_generic; [apply valid_rnd_N|exact G].
Qed.

Lemma nearest_err r : Rabs r <= 1 -> is_finite (nearest r) = true /\ Rabs (B2R (nearest r) - r) <= / 4503599627370496.
Proof.
  intros H. destruct (nearest_spec r H) as [H1 H2]. split; [exact H1|]. rewrite H2.
  pose proof (rnd64_err r) as E. unfold u64, tiny in E. lra.
Qed.

Theorem libm_accurate : accurate libm_cos libm_sin.
Proof.
  intros x Fx _.
  assert (Rabs (cos (B2R x)) <= 1) as Hc by (apply Rabs_le, COS_bound).
  assert (Rabs (sin (B2R x)) <= 1) as Hs by (apply Rabs_le, SIN_bound).
  destruct x as [s| | |s m e Hb]; try discriminate; cbn [unfused libm_cos libm_sin].
  - destruct (ofZ64 1 ltac:(lia)) as [O1 O2]. cbn [B2R]. rewrite cos_0, sin_0, O2.
    replace (1 - 1) with 0 by ring. replace (0 - 0) with 0 by ring. rewrite Rabs_R0. repeat split; auto; lra.
  - split; apply nearest_err; assumption.
Qed.

(** The literal in fourier_impl.h:42 rounds to the double used in [ieee]. *)
Lemma pi_literal : rnd64 3.1415926535897932384626433832795 = B2R pi_double.
Proof.
  destruct (exact_double 884279719003555 (-48)) as [H1 H2]; [vm_compute; reflexivity|lia|]. unfold pi_double. rewrite H2.
  assert (cexp radix2 fe 3.1415926535897932384626433832795 = (-51)%Z) as Ec.
  { unfold cexp. rewrite (mag_unique radix2 _ 2); [reflexivity|]. cbn [bpow Z.pow_pos Pos.iter radix_val radix2 Z.sub Z.add Z.opp Z.pos_sub Pos.pred_double].
    rewrite Rabs_right by lra. cbn. lra. }
  unfold round, F2R, scaled_mantissa. rewrite Ec. cbn [Fnum Fexp].
  replace (bpow radix2 (- -51)) with 2251799813685248 by reflexivity. 
  replace (bpow radix2 (-51)) with (/ 2251799813685248) by reflexivity.
  replace (bpow radix2 (-48)) with (/ 281474976710656) by reflexivity.
  rewrite (Znearest_imp _ _ 7074237752028440); [lra|]. apply Rabs_lt. lra.
Qed.
