(** * Every binary format with at least 24 bits satisfies the assumptions of FloatModel.v *)
From Coq Require Import ZArith Reals Lra Lia Psatz.
From Flocq Require Import Core Relative IEEE754.BinarySingleNaN.
From Verif Require Import Base Fourier FloatModel AngleProof Ieee IeeeProof Formats.
Open Scope R_scope.

Definition Omf : R := IZR (2 ^ 100).

Section Format.
Context (f : binary_format) (Hprec : (24 <= bprec f)%Z) (Hemax : (128 <= bemax f)%Z).
Notation fexpf := (SpecFloat.fexp (bprec f) (bemax f)).
Definition rnd_at : R -> R := round radix2 fexpf ZnearestE.
Definition unit_at : R := bpow radix2 (- bprec f).
Notation finf := (fun x : number f => is_finite x = true).

Instance prec_pos_f : Prec_gt_0 (bprec f) := bprec_pos f.

Lemma fexp_flt : fexpf = FLT_exp (3 - bemax f - bprec f) (bprec f).
Proof. reflexivity. Qed.

Lemma unit_pos : 0 < unit_at.
Proof. apply bpow_gt_0. Qed.
Lemma unit_le : unit_at <= / 16777216.
Proof. unfold unit_at. replace (/ 16777216) with (bpow radix2 (-24)) by reflexivity. apply bpow_le. lia. Qed.

Lemma rnd_at_err z : Rabs (rnd_at z - z) <= unit_at * (Rabs z + tiny).
Proof using Hprec Hemax.
  destruct (error_N_FLT radix2 (3 - bemax f - bprec f) (bprec f) (bprec_pos f) (fun x => negb (Z.even x)) z) as (eps & eta & He & Hn & _ & E).
  assert (rnd_at z = z * (1 + eps) + eta) as E2 by exact E. rewrite E2. replace (z * (1 + eps) + eta - z) with (z * eps + eta) by ring.
  eapply Rle_trans; [apply Rabs_triang|]. rewrite Rabs_mult.
  assert (Rabs eps <= unit_at) as He2.
  { eapply Rle_trans; [exact He|]. unfold unit_at. rewrite bpow_plus. change (bpow radix2 1) with 2. lra. }
  assert (Rabs eta <= unit_at * tiny) as Hn2.
  { eapply Rle_trans; [exact Hn|]. apply Rle_trans with (bpow radix2 (3 - bemax f - bprec f)).
    - pose proof (bpow_gt_0 radix2 (3 - bemax f - bprec f)). lra.
    - unfold unit_at. replace tiny with (bpow radix2 (-64)) by reflexivity. rewrite <- bpow_plus. apply bpow_le. lia. }
  pose proof (Rabs_pos z). nra.
Qed.

Lemma rnd_at_int z : (Z.abs z <= 2 ^ bprec f)%Z -> rnd_at (IZR z) = IZR z.
Proof using Hprec Hemax.
  intros H. apply round_generic; [apply valid_rnd_N|]. rewrite fexp_flt.
  assert (forall y, (0 <= y <= 2 ^ bprec f)%Z -> generic_format radix2 (FLT_exp (3 - bemax f - bprec f) (bprec f)) (IZR y)) as Hp.
  { intros y Hy. destruct (Z.eq_dec y (2 ^ bprec f)) as [->|N].
    - rewrite <- (bpow_IZR (bprec f)) by lia. apply generic_format_bpow. unfold FLT_exp. lia.
    - apply generic_format_FLT. exists (Float radix2 y 0); cbn [Fnum Fexp]; [unfold F2R; cbn [Fnum Fexp bpow]; ring| |lia].
      rewrite Z.abs_eq by lia. change (Zpower radix2 (bprec f)) with (2 ^ bprec f)%Z. lia. }
  destruct (Z_le_dec 0 z) as [Hz|Hz]; [apply Hp; lia|].
  replace (IZR z) with (- IZR (- z)) by (rewrite opp_IZR; ring). apply generic_format_opp, Hp. lia.
Qed.

Lemma Omf_big z : Rabs z <= Omf -> Rlt_bool (Rabs (round radix2 fexpf (round_mode mode_NE) z)) (bpow radix2 (bemax f)) = true.
Proof.
  intros H. apply Rlt_bool_true. cbn [round_mode]. change (round radix2 fexpf ZnearestE z) with (rnd_at z).
  assert (Rabs (rnd_at z) <= 3 * Omf) as H0.
  { pose proof (rnd_at_err z) as E. pose proof unit_le. pose proof unit_pos. assert (1 <= Omf) by (unfold Omf; apply IZR_le; lia).
    replace (rnd_at z) with (z + (rnd_at z - z)) by ring. eapply Rle_trans; [apply Rabs_triang|]. pose proof (Rabs_pos z).
    assert (0 < tiny < 1) by (unfold tiny; lra). nra. }
  eapply Rle_lt_trans; [exact H0|]. apply Rle_lt_trans with (bpow radix2 102).
  - rewrite bpow_IZR by lia. unfold Omf. rewrite <- mult_IZR. apply IZR_le. vm_compute. discriminate.
  - apply bpow_lt. lia.
Qed.

Lemma normalize_at m e s : Rabs (F2R (Float radix2 m e)) <= Omf ->
  let x := @binary_normalize (bprec f) (bemax f) (bprec_pos f) (bprec_lt f) mode_NE m e s in
  is_finite x = true /\ B2R x = rnd_at (F2R (Float radix2 m e)).
Proof.
  intros H. pose proof (binary_normalize_correct (bprec f) (bemax f) (bprec_pos f) (bprec_lt f) mode_NE m e s) as C. cbv zeta in C.
  rewrite (Omf_big _ H) in C. destruct C as (C1 & C2 & _). split; [exact C2|]. exact C1.
Qed.

Lemma ofZ_at z : (Z.abs z <= 2 ^ bprec f)%Z -> (Z.abs z <= 2 ^ 100)%Z -> is_finite (mk_number f z 0) = true /\ B2R (mk_number f z 0) = IZR z.
Proof using Hprec Hemax.
  intros H H'. destruct (normalize_at z 0 false) as [H1 H2].
  - rewrite F2R_int, <- abs_IZR. unfold Omf. apply IZR_le. exact H'.
  - split; [exact H1|]. unfold mk_number. rewrite H2, F2R_int. apply rnd_at_int, H.
Qed.

Lemma half_at k : (0 <= k <= 60)%Z -> is_finite (mk_number f 1 (- k)) = true /\ B2R (mk_number f 1 (- k)) = bpow radix2 (- k).
Proof.
  intros Hk. assert (F2R (Float radix2 1 (- k)) = bpow radix2 (- k)) as E by (unfold F2R; cbn [Fnum Fexp]; ring).
  destruct (normalize_at 1 (- k) false) as [H1 H2].
  - rewrite E, Rabs_right by (apply Rle_ge, bpow_ge_0). unfold Omf. rewrite <- (bpow_IZR 100) by lia. apply bpow_le. lia.
  - split; [exact H1|]. unfold mk_number. rewrite H2, E. apply round_generic; [apply valid_rnd_N|]. apply generic_format_bpow.
    rewrite fexp_flt. unfold FLT_exp. lia.
Qed.

Lemma mul_at_spec a b : is_finite a = true -> is_finite b = true -> Rabs (B2R a * B2R b) <= Omf ->
  is_finite (mul_at f a b) = true /\ B2R (mul_at f a b) = rnd_at (B2R a * B2R b).
Proof using Hprec Hemax.
  intros Fa Fb H. pose proof (Bmult_correct (bprec f) (bemax f) (bprec_pos f) (bprec_lt f) mode_NE a b) as C.
  rewrite (Omf_big _ H), Fa, Fb in C. destruct C as (C1 & C2 & _). split; [exact C2|exact C1].
Qed.
Lemma div_at_spec a b : is_finite a = true -> is_finite b = true -> B2R b <> 0 -> Rabs (B2R a / B2R b) <= Omf ->
  is_finite (div_at f a b) = true /\ B2R (div_at f a b) = rnd_at (B2R a / B2R b).
Proof using Hprec Hemax.
  intros Fa Fb Hb H. pose proof (Bdiv_correct (bprec f) (bemax f) (bprec_pos f) (bprec_lt f) mode_NE a b Hb) as C.
  rewrite (Omf_big _ H), Fa in C. destruct C as (C1 & C2 & _). split; [exact C2|exact C1].
Qed.
Lemma add_at_spec a b : is_finite a = true -> is_finite b = true -> Rabs (B2R a + B2R b) <= Omf ->
  is_finite (add_at f a b) = true /\ B2R (add_at f a b) = rnd_at (B2R a + B2R b).
Proof.
  intros Fa Fb H. pose proof (Bplus_correct (bprec f) (bemax f) (bprec_pos f) (bprec_lt f) mode_NE a b Fa Fb) as C.
  rewrite (Omf_big _ H) in C. destruct C as (C1 & C2 & _). split; [exact C2|exact C1].
Qed.
Lemma sub_at_spec a b : is_finite a = true -> is_finite b = true -> Rabs (B2R a - B2R b) <= Omf ->
  is_finite (sub_at f a b) = true /\ B2R (sub_at f a b) = rnd_at (B2R a - B2R b).
Proof.
  intros Fa Fb H. pose proof (Bminus_correct (bprec f) (bemax f) (bprec_pos f) (bprec_lt f) mode_NE a b Fa Fb) as C.
  rewrite (Omf_big _ H) in C. destruct C as (C1 & C2 & _). split; [exact C2|exact C1].
Qed.
Lemma fma_at_spec a b c : is_finite a = true -> is_finite b = true -> is_finite c = true -> Rabs (B2R a * B2R b + B2R c) <= Omf ->
  is_finite (fma_at f a b c) = true /\ B2R (fma_at f a b c) = rnd_at (B2R a * B2R b + B2R c).
Proof.
  intros Fa Fb Fc H. pose proof (Bfma_correct (bprec f) (bemax f) (bprec_pos f) (bprec_lt f) mode_NE a b c Fa Fb Fc) as C. cbv zeta in C.
  rewrite (Omf_big _ H) in C. destruct C as (C1 & C2 & _). split; [exact C2|exact C1].
Qed.

Lemma det_at_spec v a b c d : is_finite a = true -> is_finite b = true -> is_finite c = true -> is_finite d = true ->
  Rabs (B2R a * B2R b) <= Omf -> Rabs (B2R c * B2R d) <= Omf ->
  exists p q, (p = B2R a * B2R b \/ p = rnd_at (B2R a * B2R b)) /\ (q = B2R c * B2R d \/ q = rnd_at (B2R c * B2R d)) /\
    (Rabs (p - q) <= Omf -> is_finite (det_at f v a b c d) = true /\ B2R (det_at f v a b c d) = rnd_at (p - q)).
Proof using Hprec Hemax.
  intros Fa Fb Fc Fd H1 H2. destruct (mul_at_spec a b Fa Fb H1) as [G1 V1]. destruct (mul_at_spec c d Fc Fd H2) as [G2 V2].
  destruct v; cbn [det_at].
  - exists (rnd_at (B2R a * B2R b)), (rnd_at (B2R c * B2R d)). split; [auto|]. split; [auto|]. intros H. rewrite <- V1, <- V2 in *.
    apply sub_at_spec; assumption.
  - exists (B2R a * B2R b), (rnd_at (B2R c * B2R d)). split; [auto|]. split; [auto|]. intros H. rewrite <- V2 in *. unfold Rminus in *.
    rewrite <- B2R_Bopp in *. apply fma_at_spec; auto. rewrite is_finite_Bopp. exact G2.
  - exists (rnd_at (B2R a * B2R b)), (B2R c * B2R d). split; [auto|]. split; [auto|]. intros H. rewrite <- V1 in *.
    set (m := mul_at f a b) in *. replace (B2R m - B2R c * B2R d) with (B2R (Bopp c) * B2R d + B2R m) in * by (rewrite B2R_Bopp; ring).
    apply fma_at_spec; auto. rewrite is_finite_Bopp. exact Fc.
Qed.
Lemma dot_at_spec v a b c d : is_finite a = true -> is_finite b = true -> is_finite c = true -> is_finite d = true ->
  Rabs (B2R a * B2R b) <= Omf -> Rabs (B2R c * B2R d) <= Omf ->
  exists p q, (p = B2R a * B2R b \/ p = rnd_at (B2R a * B2R b)) /\ (q = B2R c * B2R d \/ q = rnd_at (B2R c * B2R d)) /\
    (Rabs (p + q) <= Omf -> is_finite (dot_at f v a b c d) = true /\ B2R (dot_at f v a b c d) = rnd_at (p + q)).
Proof using Hprec Hemax.
  intros Fa Fb Fc Fd H1 H2. destruct (mul_at_spec a b Fa Fb H1) as [G1 V1]. destruct (mul_at_spec c d Fc Fd H2) as [G2 V2].
  destruct v; cbn [dot_at].
  - exists (rnd_at (B2R a * B2R b)), (rnd_at (B2R c * B2R d)). split; [auto|]. split; [auto|]. intros H. rewrite <- V1, <- V2 in *.
    apply add_at_spec; assumption.
  - exists (B2R a * B2R b), (rnd_at (B2R c * B2R d)). split; [auto|]. split; [auto|]. intros H. rewrite <- V2 in *.
    apply fma_at_spec; auto.
  - exists (rnd_at (B2R a * B2R b)), (B2R c * B2R d). split; [auto|]. split; [auto|]. intros H. rewrite <- V1 in *.
    rewrite Rplus_comm in *. apply fma_at_spec; auto.
Qed.

Theorem rounding_at ct cosf sinf u K : accurate_at f (2 * u) cosf sinf -> unit_at <= u <= / 1048576 ->
  (K <= 2 ^ bprec f)%Z -> (K <= 2 ^ 100)%Z ->
  (forall n k, (2 * k < n)%nat -> (Z.of_nat n <= K)%Z -> 16 * INR n <= Omf ->
     is_finite (angle_at f n k) = true /\ Rabs (B2R (angle_at f n k) - -2 * PI * INR k / INR n) <= 9 * u) ->
  rounding (flops_at f ct cosf sinf) (@B2R (bprec f) (bemax f)) finf rnd_at u Omf K.
Proof.
  intros HA Hu HK HK' Hangle. pose proof unit_pos as Hpos.
  split; cbn [fofZ fadd fsub fmul fdiv fdet fdot fnan fneg fcos fsin ffloor ftrunc fangle c_half c_quarter flops_at F].
  - lra.
  - unfold Omf. apply IZR_le. exact HK'.
  - intros z _. pose proof (rnd_at_err z) as E. assert (0 < tiny) by (unfold tiny; lra). pose proof (Rabs_pos z). nra.
  - intros z Hz. apply rnd_at_int. lia.
  - intros z Hz. apply ofZ_at; lia.
  - apply add_at_spec.
  - apply sub_at_spec.
  - apply mul_at_spec.
  - apply div_at_spec.
  - intros s a b c d Fa Fb Fc Fd H1 H2. destruct (det_at_spec (fst (fusing_of f ct s)) a b c d Fa Fb Fc Fd H1 H2) as (p & q & Hp & Hq & H).
    exists p, q. unfold maybe_rounded. split; [tauto|]. split; [tauto|]. exact H.
  - intros s a b c d Fa Fb Fc Fd H1 H2. destruct (dot_at_spec (snd (fusing_of f ct s)) a b c d Fa Fb Fc Fd H1 H2) as (p & q & Hp & Hq & H).
    exists p, q. unfold maybe_rounded. split; [tauto|]. split; [tauto|]. exact H.
  - intros x Fx. destruct x; [reflexivity|discriminate|discriminate|reflexivity].
  - intros x Fx. rewrite is_finite_Bopp. split; [exact Fx|]. apply B2R_Bopp.
  - intros x Fx H. destruct (HA x Fx H) as [H1 _]. exact H1.
  - intros x Fx H. destruct (HA x Fx H) as [_ H1]. exact H1.
  - intros x Fx. destruct (Bnearbyint_correct (bprec f) (bemax f) (bprec_lt f) mode_DN x) as (C1 & C2 & _).
    rewrite C2. split; [exact Fx|]. rewrite C1, round_FIX0. reflexivity.
  - intros x Fx. pose proof (Btrunc_correct (bprec f) (bemax f) (bprec_lt f) x) as C. rewrite round_FIX0 in C. apply eq_IZR in C.
    destruct x; try discriminate; rewrite C; reflexivity.
  - exact Hangle.
  - destruct (half_at 1 ltac:(lia)) as [H1 H2]. split; [exact H1|]. change (-1)%Z with (- (1))%Z. rewrite H2. reflexivity.
  - destruct (half_at 2 ltac:(lia)) as [H1 H2]. split; [exact H1|]. change (-2)%Z with (- (2))%Z. rewrite H2. reflexivity.
Qed.

(** conversion to this format *)
Lemma convert_spec (g : binary_format) (x : number g) : is_finite x = true -> Rabs (B2R x) <= Omf ->
  is_finite (convert g f x) = true /\ B2R (convert g f x) = rnd_at (B2R x).
Proof using Hprec Hemax.
  intros Fx H. destruct x as [s| | |s m e Hb]; try discriminate; cbn [convert B2R].
  - split; [reflexivity|]. symmetry. apply (rnd_at_int 0). pose proof (Z.pow_nonneg 2 (bprec f)). lia.
  - apply normalize_at. exact H.
Qed.
End Format.

Lemma bpow_small k : bpow radix2 (- k) = / bpow radix2 k.
Proof. apply bpow_opp. Qed.

(** the literal *)
Lemma PI_close : 3.1415926535897932384 <= PI <= 3.1415926535897932385.
Proof.
  pose proof (PI_2_3_7_ineq 10) as [H1 H2].
  unfold PI_2_3_7_tg, tg_alt, Ratan_seq in H1, H2. cbn [sum_f_R0 Nat.mul Nat.add] in H1, H2.
  generalize dependent PI. intros p H1 H2.
  assert (forall q, q / 4 <= p / 4 -> q <= p) as K1 by (intros; lra).
  assert (forall q, p / 4 <= q / 4 -> p <= q) as K2 by (intros; lra).
  rewrite !INR_IZR_INZ in H1. rewrite !INR_IZR_INZ in H2.
  cbn [Z.of_nat Pos.of_succ_nat Pos.succ] in H1, H2.
  split; [clear H2; apply K1; eapply Rle_trans; [|exact H1]|clear H1; apply K2; eapply Rle_trans; [exact H2|]];
  match goal with |- context [(-1) ^ 0] => field_simplify end; lra.
Qed.

Lemma pi_double_val : is_finite pi_double = true /\ B2R pi_double = F2R (Float radix2 884279719003555 (-48)).
Proof. apply exact_double; [vm_compute; reflexivity|lia]. Qed.

Definition pi_gap : R := 1.2251e-16.
Lemma pi_double_near : 1.224e-16 <= PI - B2R pi_double <= pi_gap.
Proof.
  rewrite (proj2 pi_double_val). unfold F2R. cbn [Fnum Fexp]. replace (bpow radix2 (-48)) with (/ 281474976710656) by reflexivity.
  pose proof PI_close. unfold pi_gap. lra.
Qed.

Lemma pi_at_narrow : is_finite (pi_at binary32) = true /\ Rabs (B2R (pi_at binary32) - PI) <= 1.9e-7.
Proof.
  destruct pi_double_val as [F1 V1]. pose proof pi_double_near as N1. pose proof PI_close as Hpi. unfold pi_gap in N1.
  assert (Rabs (B2R pi_double) <= 3.15) as H by (apply abs_le; lra).
  destruct (convert_spec binary32 ltac:(vm_compute; discriminate) ltac:(vm_compute; discriminate) binary64 pi_double F1) as [F2 V2].
  { eapply Rle_trans; [exact H|]. apply Rle_trans with 4; [lra|]. unfold Omf. apply IZR_le. lia. }
  split; [exact F2|]. unfold pi_at. rewrite V2.
  pose proof (rnd_at_err binary32 ltac:(vm_compute; discriminate) ltac:(vm_compute; discriminate) (B2R pi_double)) as E.
  assert (unit_at binary32 = / 16777216) as Eu by reflexivity. rewrite Eu in E.
  change (@B2R (bprec binary64) (bemax binary64) pi_double) with (@B2R 53 1024 pi_double) in *.
  apply abs_elim in E. apply abs_le. unfold tiny in E. lra.
Qed.

Lemma pi_at_wide f (Hp : (53 <= bprec f)%Z) (He : (128 <= bemax f)%Z) : is_finite (pi_at f) = true /\ B2R (pi_at f) = B2R pi_double.
Proof.
  destruct pi_double_val as [F1 V1]. pose proof pi_double_near as N1. pose proof PI_close as Hpi. unfold pi_gap in N1.
  assert (Rabs (B2R pi_double) <= 4) as H by (apply abs_le; lra).
  destruct (convert_spec f ltac:(lia) He binary64 pi_double F1) as [F2 V2].
  { eapply Rle_trans; [exact H|]. unfold Omf. apply IZR_le. lia. }
  split; [exact F2|]. unfold pi_at. rewrite V2.
  change (@B2R (bprec binary64) (bemax binary64) pi_double) with (@B2R 53 1024 pi_double). rewrite V1. apply round_generic; [apply valid_rnd_N|]. rewrite fexp_flt.
  apply generic_format_FLT. exists (Float radix2 884279719003555 (-48)); [reflexivity| |cbn [Fexp]; lia].
  cbn [Fnum]. eapply Z.lt_le_trans with (2 ^ 53)%Z; [reflexivity|]. change (Zpower radix2 (bprec f)) with (2 ^ bprec f)%Z. apply Z.pow_le_mono_r; lia.
Qed.

Lemma m2_at g : (24 <= bprec g)%Z -> (128 <= bemax g)%Z ->
  is_finite (convert binary64 g (mk_double (-2) 0)) = true /\ B2R (convert binary64 g (mk_double (-2) 0)) = -2.
Proof.
  intros H1 H2. destruct (ofZ64 (-2) ltac:(lia)) as [F1 V1].
  change (@B2R 53 1024 (mk_double (-2) 0)) with (@B2R (bprec binary64) (bemax binary64) (mk_double (-2) 0)) in V1.
  destruct (convert_spec g H1 H2 binary64 (mk_double (-2) 0) F1) as [F2 V2].
  - rewrite V1. apply abs_le. assert (2 <= Omf) by (unfold Omf; apply IZR_le; lia). lra.
  - split; [exact F2|]. rewrite V2, V1. apply (rnd_at_int g H1 H2 (-2)). apply Z.le_trans with (2 ^ 24)%Z; [lia|apply Z.pow_le_mono_r; lia].
Qed.

Lemma int_at f g k : (24 <= bprec f)%Z -> (128 <= bemax f)%Z -> (24 <= bprec g)%Z -> (128 <= bemax g)%Z -> (0 <= k)%Z ->
  (k <= 2 ^ bprec f)%Z -> (k <= 2 ^ bprec g)%Z -> (k <= 2 ^ 100)%Z ->
  is_finite (convert f g (mk_number f k 0)) = true /\ B2R (convert f g (mk_number f k 0)) = IZR k.
Proof.
  intros H1 H2 H3 H4 H5 H6 H7 H8. destruct (ofZ_at f H1 H2 k ltac:(lia) ltac:(lia)) as [F1 V1].
  destruct (convert_spec g H3 H4 f _ F1) as [F2 V2].
  - rewrite V1, <- abs_IZR. unfold Omf. apply IZR_le. lia.
  - split; [exact F2|]. rewrite V2, V1. apply (rnd_at_int g H3 H4). lia.
Qed.

Lemma wider_big f : (24 <= bprec f)%Z -> (128 <= bemax f)%Z -> (53 <= bprec (wider f))%Z /\ (128 <= bemax (wider f))%Z.
Proof. intros H1 H2. unfold wider. destruct (Z.ltb_spec (bprec f) 53); cbn [bprec bemax binary64]; lia. Qed.

Lemma length_at_id f n : (24 <= bprec f)%Z -> (128 <= bemax f)%Z -> (Z.of_nat n <= 2 ^ bprec f)%Z -> (Z.of_nat n <= 2 ^ 100)%Z ->
  length_at f n = Z.of_nat n.
Proof.
  intros H1 H2 H3 H4. destruct (ofZ_at f H1 H2 (Z.of_nat n) ltac:(lia) ltac:(lia)) as [_ V]. unfold length_at.
  pose proof (Btrunc_correct (bprec f) (bemax f) (bprec_lt f) (mk_number f (Z.of_nat n) 0)) as C. rewrite round_FIX0, V in C.
  apply eq_IZR in C. rewrite C. apply Ztrunc_IZR.
Qed.

(** the angle before it is converted to flt_t *)
Lemma angle_wide f n k e : (24 <= bprec f)%Z -> (128 <= bemax f)%Z -> (2 * k < n)%nat ->
  (Z.of_nat n <= 2 ^ bprec f)%Z -> (Z.of_nat n <= 2 ^ 53)%Z ->
  is_finite (convert f (wider f) (pi_at f)) = true -> Rabs (B2R (convert f (wider f) (pi_at f)) - PI) <= e -> e <= 0.01 ->
  let g := wider f in
  let x := angle_of (mul_at g) (div_at g) (convert binary64 g (mk_double (-2) 0)) (convert f g (mk_number f (Z.of_nat k) 0))
                 (convert f g (pi_at f)) (mk_number g (length_at f n) 0) in
  is_finite x = true /\ Rabs (B2R x - -2 * PI * INR k / INR n) <= 6.62 * unit_at g + e.
Proof.
  intros H1 H2 Hk Hn Hn' Fp Vp He g. rewrite (length_at_id f n H1 H2 Hn ltac:(lia)). intros x. destruct (wider_big f H1 H2) as [G1 G2]. fold g in G1, G2, Fp, Vp.
  assert (24 <= bprec g)%Z as G1' by lia.
  assert (2 ^ 53 <= 2 ^ bprec g)%Z as Hpow by (apply Z.pow_le_mono_r; lia).
  destruct (m2_at g G1' G2) as [Fm Vm].
  destruct (int_at f g (Z.of_nat k) H1 H2 G1' G2 ltac:(lia) ltac:(lia) ltac:(lia) ltac:(lia)) as [Fk Vk].
  destruct (ofZ_at g G1' G2 (Z.of_nat n) ltac:(lia) ltac:(lia)) as [Fn Vn].
  refine (angle_near (@B2R (bprec g) (bemax g)) (fun x => is_finite x = true) (rnd_at g) (unit_at g) Omf (2 ^ 53) (mul_at g) (div_at g)
    _ _ _ _ _ _ _ _ _ _ n k e Hk Hn' _ Fm Vm Fk Vk Fn Vn Fp Vp He).
  - pose proof (unit_pos g). pose proof (unit_le g G1'). lra.
  - unfold Omf. apply IZR_le. lia.
  - intros z _. apply rnd_at_err; assumption.
  - intros z Hz. apply rnd_at_int; lia.
  - apply mul_at_spec; assumption.
  - apply div_at_spec; assumption.
  - rewrite INR_IZR_INZ. unfold Omf. rewrite <- mult_IZR. apply IZR_le. lia.
Qed.

Lemma convert_same f (x : number f) : (24 <= bprec f)%Z -> (128 <= bemax f)%Z -> is_finite x = true -> Rabs (B2R x) <= Omf ->
  is_finite (convert f f x) = true /\ B2R (convert f f x) = B2R x.
Proof.
  intros H1 H2 Fx Hx. destruct (convert_spec f H1 H2 f x Fx Hx) as [F1 V1]. split; [exact F1|]. rewrite V1.
  apply round_generic; [apply valid_rnd_N|]. apply generic_format_B2R.
Qed.

Lemma angle_size n k : (2 * k < n)%nat -> Rabs (-2 * PI * INR k / INR n) <= 3.2.
Proof.
  intros H. assert (0 < INR n) by (apply lt_0_INR; lia). assert (0 <= INR k) by apply pos_INR.
  assert (2 * INR k <= INR n) by (replace (2 * INR k) with (INR (2 * k)) by (rewrite mult_INR; reflexivity); apply le_INR; lia).
  pose proof PI_close. set (q := 2 * INR k / INR n).
  assert (0 <= q <= 1).
  { unfold q. split; [apply Rmult_le_pos; [lra|left; apply Rinv_0_lt_compat; lra]|].
    apply (Rmult_le_reg_r (INR n)); auto. unfold Rdiv. rewrite Rmult_assoc, Rinv_l by lra. lra. }
  replace (-2 * PI * INR k / INR n) with (- (q * PI)) by (unfold q; field; lra). rewrite Rabs_Ropp, Rabs_right by nra. nra.
Qed.

Lemma four_Omf : 4 <= Omf.
Proof. unfold Omf. apply IZR_le. lia. Qed.

Lemma angle_at_wide f n k : (53 <= bprec f)%Z -> (128 <= bemax f)%Z -> (2 * k < n)%nat -> (Z.of_nat n <= 2 ^ 53)%Z ->
  is_finite (angle_at f n k) = true /\ Rabs (B2R (angle_at f n k) - -2 * PI * INR k / INR n) <= 6.62 * unit_at f + pi_gap.
Proof.
  intros H1 H2 Hk Hn. assert (wider f = f) as W by (unfold wider; destruct (Z.ltb_spec (bprec f) 53); [lia|reflexivity]).
  pose proof (angle_wide f n k pi_gap ltac:(lia) H2 Hk) as A. unfold angle_at. rewrite W in A |- *. cbv zeta in A |- *.
  pose proof four_Omf as HO. pose proof PI_close as Hpi. pose proof pi_double_near as Hd.
  destruct (pi_at_wide f H1 H2) as [Fp Vp].
  destruct (convert_same f (pi_at f) ltac:(lia) H2 Fp) as [Fq Vq].
  { rewrite Vp. apply abs_le. unfold pi_gap in Hd. lra. }
  assert (2 ^ 53 <= 2 ^ bprec f)%Z by (apply Z.pow_le_mono_r; lia).
  destruct A as [Fa Va]; [lia|lia|exact Fq| |unfold pi_gap; lra|].
  { rewrite Vq, Vp. apply abs_le. unfold pi_gap in *. lra. }
  set (x := angle_of _ _ _ _ _ _) in *.
  destruct (convert_same f x ltac:(lia) H2 Fa) as [Fx Vx].
  { pose proof (angle_size n k Hk) as As. apply abs_elim in Va. apply abs_elim in As. pose proof (unit_le f ltac:(lia)). pose proof (unit_pos f).
    apply abs_le. unfold pi_gap in Va. lra. }
  split; [exact Fx|]. rewrite Vx. exact Va.
Qed.

Lemma angle_at_float n k : (2 * k < n)%nat -> (Z.of_nat n <= 2 ^ 24)%Z ->
  is_finite (angle_at binary32 n k) = true /\ Rabs (B2R (angle_at binary32 n k) - -2 * PI * INR k / INR n) <= 9 * / 16777216.
Proof.
  intros Hk Hn. pose proof (angle_wide binary32 n k 1.91e-7 ltac:(vm_compute; discriminate) ltac:(vm_compute; discriminate) Hk) as A. unfold angle_at.
  change (wider binary32) with binary64 in *. cbv zeta in A |- *.
  pose proof four_Omf as HO. pose proof PI_close as Hpi. destruct pi_at_narrow as [Fp Vp].
  assert (Rabs (B2R (pi_at binary32)) <= 3.2) as Sp by (apply abs_elim in Vp; apply abs_le; lra).
  destruct (convert_spec binary64 ltac:(vm_compute; discriminate) ltac:(vm_compute; discriminate) binary32 _ Fp ltac:(lra)) as [Fq Vq].
  assert (unit_at binary64 = / 9007199254740992) as U64 by reflexivity.
  destruct A as [Fa Va]; [exact Hn|lia|exact Fq| |lra|].
  { rewrite Vq. pose proof (rnd_at_err binary64 ltac:(vm_compute; discriminate) ltac:(vm_compute; discriminate) (B2R (pi_at binary32))) as E. rewrite U64 in E.
    apply abs_elim in E. apply abs_elim in Vp. apply abs_le. unfold tiny in E. lra. }
  set (x := angle_of _ _ _ _ _ _) in *. rewrite U64 in Va. pose proof (angle_size n k Hk) as As.
  set (t := -2 * PI * INR k / INR n) in *.
  assert (Rabs (B2R x) <= 3.21) as Sx by (apply abs_elim in Va; apply abs_elim in As; apply abs_le; lra).
  destruct (convert_spec binary32 ltac:(vm_compute; discriminate) ltac:(vm_compute; discriminate) binary64 x Fa ltac:(lra)) as [Fx Vx].
  split; [exact Fx|]. rewrite Vx. pose proof (rnd_at_err binary32 ltac:(vm_compute; discriminate) ltac:(vm_compute; discriminate) (B2R x)) as E.
  assert (unit_at binary32 = / 16777216) as Eu by reflexivity. rewrite Eu in E.
  apply abs_elim in E. apply abs_elim in Va. apply abs_le. unfold tiny in E. lra.
Qed.

(** ** the formats *)
Theorem rounding_float ct cosf sinf : accurate_at binary32 (2 * / 16777216) cosf sinf ->
  rounding (flops_at binary32 ct cosf sinf) (@B2R 24 128) (fun x => is_finite x = true) (rnd_at binary32) (/ 16777216) Omf (2 ^ 24).
Proof.
  intros HA. apply (rounding_at binary32 ltac:(vm_compute; discriminate) ltac:(vm_compute; discriminate)); [exact HA| |vm_compute; discriminate|lia|].
  - assert (unit_at binary32 = / 16777216) as -> by reflexivity. lra.
  - intros n k Hk Hn _. apply angle_at_float; assumption.
Qed.

Theorem rounding_wide f ct cosf sinf u : (53 <= bprec f)%Z -> (128 <= bemax f)%Z -> accurate_at f (2 * u) cosf sinf ->
  unit_at f <= u <= / 1048576 -> 6.62 * unit_at f + pi_gap <= 9 * u ->
  rounding (flops_at f ct cosf sinf) (@B2R (bprec f) (bemax f)) (fun x => is_finite x = true) (rnd_at f) u Omf (2 ^ 53).
Proof.
  intros H1 H2 HA Hu Hu'. assert (2 ^ 53 <= 2 ^ bprec f)%Z by (apply Z.pow_le_mono_r; lia).
  apply (rounding_at f ltac:(lia) H2); [exact HA|exact Hu|lia|lia|].
  intros n k Hk Hn _. destruct (angle_at_wide f n k H1 H2 Hk Hn) as [G V]. split; [exact G|]. lra.
Qed.

(** a correctly rounded library *)
Theorem nearest_accurate f : (24 <= bprec f)%Z -> (128 <= bemax f)%Z ->
  accurate_at f (2 * unit_at f) (fun x => nearest_at f (cos (B2R x))) (fun x => nearest_at f (sin (B2R x))).
Proof.
  intros Hprec Hemax.
  assert (forall r, Rabs r <= 1 -> is_finite (nearest_at f r) = true /\ Rabs (B2R (nearest_at f r) - r) <= 2 * unit_at f) as N.
  { intros r H. unfold nearest_at. cbv zeta. change (round radix2 (FLT_exp (3 - bemax f - bprec f) (bprec f)) ZnearestE r) with (rnd_at f r).
    set (s := rnd_at f r). set (fexp := FLT_exp (3 - bemax f - bprec f) (bprec f)).
    assert (generic_format radix2 fexp s) as G by (apply generic_format_round; [apply FLT_exp_valid; exact (bprec_pos f)|apply valid_rnd_N]).
    assert (F2R (Float radix2 (Ztrunc (scaled_mantissa radix2 fexp s)) (cexp radix2 fexp s)) = s) as E by (symmetry; exact G).
    pose proof (rnd_at_err f Hprec Hemax r) as Er. fold s in Er. pose proof (unit_le f Hprec). pose proof (unit_pos f).
    assert (0 < tiny < 1) by (unfold tiny; lra). pose proof (Rabs_pos r).
    assert (unit_at f * (Rabs r + tiny) <= unit_at f * 2) by (apply Rmult_le_compat_l; lra).
    destruct (normalize_at f Hprec Hemax (Ztrunc (scaled_mantissa radix2 fexp s)) (cexp radix2 fexp s) false) as [N1 N2].
    - rewrite E. pose proof four_Omf. replace s with (r + (s - r)) by ring. eapply Rle_trans; [apply Rabs_triang|]. lra.
    - split; [exact N1|]. unfold mk_number. rewrite N2, E.
      replace (rnd_at f s) with s by (symmetry; apply round_generic; [apply valid_rnd_N|exact G]). lra. }
  intros x Fx _. split; apply N, Rabs_le; [apply COS_bound|apply SIN_bound].
Qed.
