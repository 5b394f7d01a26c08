(** * Property C90: the transforms of fourier_impl.h at float and long double

    fft_complex, ifft_complex and create_fft_table are templates over the floating-point type.  C51 is about double; here the type
    is any of binary32 (float), binary64 (double) and the two formats of long double that are wider.  The results are compared with the
    discrete Fourier transform of the numbers that the arguments stand for ([norm1], [norm2], [transform], [inverse]: PropTransform.v). *)
From Coq Require Import ZArith Reals Lra Lia List Arith.
From Coquelicot Require Import Complex.
From Flocq Require Import Core IEEE754.BinarySingleNaN.
From Verif Require Import Base Spec Conv Fourier Dft Norm FloatModel FftError ConvError MulProof Ieee IeeeProof Formats FormatProof
  TransformProof WideProof PropFourier PropTransform.
Import ListNotations.
Open Scope R_scope.

(** the complex number a pair of numbers stands for *)
Definition entry_at (f : binary_format) (e : number f * number f) : C := (B2R (fst e), B2R (snd e)).
Definition entries_at (f : binary_format) (x : list (number f * number f)) (k : nat) : C := nth k (map (entry_at f) x) (RtoC 0).
Definition all_finite_at (f : binary_format) (x : list (number f * number f)) : Prop :=
  forall e, In e x -> is_finite (fst e) = true /\ is_finite (snd e) = true.

(** the types: the precision of the results and the binary logarithm of the greatest length *)
Inductive float_type : binary_format -> R -> nat -> Prop :=
| type_float : float_type binary32 (/ 16777216) 24                  (* 2^-24 *)
| type_double : float_type binary64 (/ 9007199254740992) 49         (* 2^-53 *)
| type_extended : float_type extended80 (/ 72057594037927936) 49    (* 2^-56, although the format has 2^-64 *)
| type_quadruple : float_type binary128 (/ 72057594037927936) 49.   (* 2^-56, although the format has 2^-113 *)

Lemma type_rounding f u lmax ct cosf sinf : float_type f u lmax -> accurate_at f (2 * u) cosf sinf ->
  exists K, (2 ^ Z.of_nat lmax <= K)%Z /\ (lmax <= 49)%nat /\
  rounding (flops_at f ct cosf sinf) (@B2R (bprec f) (bemax f)) (fun x => is_finite x = true) (rnd_at f) u Omf K.
Proof.
  intros T HA. destruct T.
  - exists (2 ^ 24)%Z. split; [lia|]. split; [lia|]. apply rounding_float, HA.
  - exists (2 ^ 53)%Z. split; [vm_compute; discriminate|]. split; [lia|]. apply rounding_wide; [vm_compute; discriminate|vm_compute; discriminate|exact HA| |].
    + assert (unit_at binary64 = / 9007199254740992) as -> by reflexivity. lra.
    + assert (unit_at binary64 = / 9007199254740992) as -> by reflexivity. unfold pi_gap. lra.
  - exists (2 ^ 53)%Z. split; [vm_compute; discriminate|]. split; [lia|]. apply rounding_wide; [vm_compute; discriminate|vm_compute; discriminate|exact HA| |].
    + assert (unit_at extended80 = / 18446744073709551616) as -> by reflexivity. lra.
    + assert (unit_at extended80 = / 18446744073709551616) as -> by reflexivity. unfold pi_gap. lra.
  - assert (0 < unit_at binary128 <= / 18446744073709551616) as Hu.
    { split; [apply unit_pos|]. change (/ 18446744073709551616) with (bpow radix2 (-64)). apply bpow_le. vm_compute. discriminate. }
    exists (2 ^ 53)%Z. split; [vm_compute; discriminate|]. split; [lia|]. apply rounding_wide; [vm_compute; discriminate|vm_compute; discriminate|exact HA| |].
    + lra.
    + unfold pi_gap. lra.
Qed.

Section At.
Context (f : binary_format) (ct : evaluation_at f) (cosf sinf : number f -> number f) (u : R) (K : Z).
Notation P := (flops_at f ct cosf sinf).
Notation vals := (FftError.vcs P (@B2R (bprec f) (bemax f))).
Hypothesis HR : rounding P (@B2R (bprec f) (bemax f)) (fun x => is_finite x = true) (rnd_at f) u Omf K.
Context (lmax : nat) (HK : (2 ^ Z.of_nat lmax <= K)%Z) (H49 : (lmax <= 49)%nat).

Lemma finite_all_at x : all_finite_at f x <-> FftError.allfin P (fun d : number f => is_finite d = true) x.
Proof.
  split.
  - intros H k Hk. apply H, nth_In, Hk.
  - intros H e He. destruct (In_nth _ _ (czero P) He) as (k & Hk & <-). apply H, Hk.
Qed.

Lemma dft_transform_at x k : dft (map (entry_at f) x) k = transform (length x) (entries_at f x) k.
Proof. unfold dft, transform. rewrite map_length. reflexivity. Qed.

Lemma idft_inverse_at x k : idft (map (entry_at f) x) k = inverse (length x) (entries_at f x) k.
Proof.
  unfold idft, inverse, dft. rewrite !map_length. f_equal.
  rewrite Cconj_csum. apply csum_ext. intros j Hj. rewrite nth_conj, Cconj_mult, Cconj_conj. f_equal.
  unfold omega. rewrite <- cis_opp. f_equal. unfold Rdiv. ring.
Qed.

Lemma size_ok_at l : (l <= lmax)%nat -> (Z.of_nat (2 ^ l) <= K)%Z /\ INR (2 ^ l) <= IZR (2 ^ 49).
Proof.
  intros H. assert (Z.of_nat (2 ^ l) <= 2 ^ Z.of_nat lmax)%Z as Hz.
  { rewrite Nat2Z.inj_pow. apply Z.pow_le_mono_r; lia. }
  assert (2 ^ Z.of_nat lmax <= 2 ^ 49)%Z by (apply Z.pow_le_mono_r; lia).
  split; [lia|]. rewrite INR_IZR_INZ. apply IZR_le. lia.
Qed.

Lemma grow_at m : (m <= 100)%nat -> grow u m <= 17.1 * INR m * u.
Proof. intros H. eapply Rle_trans; [apply (grow_linear P _ _ _ _ _ _ HR); exact H|]. lra. Qed.

Lemma grow_at_le1 l : (l <= 49)%nat -> grow u l <= 1.
Proof.
  intros H. eapply Rle_trans; [apply grow_at; lia|].
  assert (INR l <= 49) by (replace 49 with (INR 49) by (rewrite INR_IZR_INZ; reflexivity); apply le_INR; exact H).
  pose proof (r_u _ _ _ _ _ _ _ HR) as Hu. pose proof (pos_INR l). nra.
Qed.

Lemma nth_entries y n k : length y = n -> (k < n)%nat -> entries_at f y k = entry_at f (nth k y (czero P)).
Proof.
  intros Ly Hk. unfold entries_at.
  rewrite nth_indep with (d' := entry_at f (czero P)) by (rewrite map_length; rewrite Ly; exact Hk). apply map_nth.
Qed.

Lemma transform_at l fuel x : (l < fuel)%nat -> (l <= lmax)%nat -> length x = (2 ^ l)%nat -> all_finite_at f x ->
  let n := (2 ^ l)%nat in let v := entries_at f x in norm1 n v <= IZR (2 ^ 90) ->
  exists y, fft_complex P fuel x = Some y /\ length y = n /\ all_finite_at f y /\
    (forall k, (k < n)%nat -> Cmod (entries_at f y k - transform n v k)%C <= 17.1 * INR l * u * (norm1 n v + INR n / 18446744073709551616)) /\
    norm2 n (fun k => entries_at f y k - transform n v k)%C <= 17.1 * INR l * u * (sqrt (INR n) * (norm2 n v + sqrt (INR n) / 18446744073709551616)).
Proof.
  intros Hf Hl Lx Fx n v H1.
  destruct (size_ok_at l Hl) as [HKn HN]. fold n in HKn, HN. pose proof (norm1_nonneg n v) as P1.
  assert (0 <= INR n) as PN by apply pos_INR.
  assert (exists o q, o = IZR (2 ^ 49) /\ q = IZR (2 ^ 90) /\ o <= Omf / 64 /\ q <= Omf / 64 /\ 64 <= Omf) as (o & q & Eo & Eq & O1 & O2 & O3).
  { exists (IZR (2 ^ 49)), (IZR (2 ^ 90)). split; [reflexivity|]. split; [reflexivity|]. unfold Omf.
    assert (64 * IZR (2 ^ 90) <= IZR (2 ^ 100)) by (rewrite <- mult_IZR; apply IZR_le; vm_compute; discriminate).
    assert (64 * IZR (2 ^ 49) <= IZR (2 ^ 100)) by (rewrite <- mult_IZR; apply IZR_le; vm_compute; discriminate).
    assert (64 <= IZR (2 ^ 100)) by (apply IZR_le; vm_compute; discriminate). repeat split; lra. }
  rewrite <- Eo in HN. rewrite <- Eq in H1.
  assert (s1 n v = norm1 n v + INR n / 18446744073709551616) as Es1 by (unfold s1, norm1, tiny, Rdiv; ring).
  assert (s2 n v = norm2 n v + sqrt (INR n) / 18446744073709551616) as Es2 by (unfold s2, norm2, nrm, tiny, Rdiv; ring).
  pose proof (fft_near _ _ _ _ _ _ _ HR l fuel x Hf Lx (proj1 (finite_all_at x) Fx)) as FN. cbv zeta in FN. fold n in FN.
  change (vals x) with (map (entry_at f) x) in FN. change (fun k => nth k (map (entry_at f) x) (RtoC 0)) with v in FN.
  destruct FN as (y & Ey & Ly & Ny & Dy); [exact HKn|lra|apply grow_at_le1; lia|rewrite Es1; lra|].
  exists y. split; [exact Ey|]. split; [exact Ly|].
  pose proof (grow_at l ltac:(lia)) as Hg.
  assert (forall k, dft (map (entry_at f) x) k = transform n v k) as Tk.
  { intros k. rewrite dft_transform_at, Lx. reflexivity. }
  assert (0 <= s1 n v) as P1' by apply s1_nonneg. assert (0 <= s2 n v) as P2' by apply s2_nonneg.
  split; [|split].
  - apply finite_all_at. intros k Hk. apply Ny. lia.
  - intros k Hk. rewrite <- Es1, <- Tk, (nth_entries y n k Ly Hk). destruct (Ny k Hk) as [_ D].
    eapply Rle_trans; [exact D|]. apply Rmult_le_compat_r; assumption.
  - rewrite <- Es2. unfold norm2. change (sqrt (rsum n (fun k => Cmod (entries_at f y k - transform n v k)%C * Cmod (entries_at f y k - transform n v k)%C)))
      with (nrm n (fun k => Cmod (entries_at f y k - transform n v k)%C)).
    rewrite (nrm_ext n _ (fun k => Cmod (vc P (@B2R (bprec f) (bemax f)) (nth k y (czero P)) - dft (map (entry_at f) x) k)%C)).
    + eapply Rle_trans; [exact Dy|]. apply Rmult_le_compat_r; [|exact Hg]. apply Rmult_le_pos; [apply sqrt_pos|assumption].
    + intros k Hk. rewrite Tk, (nth_entries y n k Ly Hk). reflexivity.
Qed.

Lemma inverse_at l fuel y : (l < fuel)%nat -> (l <= lmax)%nat -> length y = (2 ^ l)%nat -> all_finite_at f y ->
  let n := (2 ^ l)%nat in let v := entries_at f y in norm1 n v <= IZR (2 ^ 90) ->
  exists z, ifft_complex P fuel y = Some z /\ length z = n /\ all_finite_at f z /\
    norm2 n (fun k => entries_at f z k - inverse n v k)%C <=
       17.1 * (INR l + 1) * u * (norm2 n v / sqrt (INR n) + (1 + sqrt (INR n)) / 18446744073709551616).
Proof.
  intros Hf Hl Ly Fy n v H1.
  destruct (size_ok_at l Hl) as [HKn HN]. fold n in HKn, HN. pose proof (norm1_nonneg n v) as P1.
  assert (0 < INR n) as PN by (apply lt_0_INR; unfold n; pose proof (Nat.pow_nonzero 2 l); lia).
  assert (exists o q, o = IZR (2 ^ 49) /\ q = IZR (2 ^ 90) /\ o <= Omf / 64 /\ q <= Omf / 64 /\ 64 <= Omf) as (o & q & Eo & Eq & O1 & O2 & O3).
  { exists (IZR (2 ^ 49)), (IZR (2 ^ 90)). split; [reflexivity|]. split; [reflexivity|]. unfold Omf.
    assert (64 * IZR (2 ^ 90) <= IZR (2 ^ 100)) by (rewrite <- mult_IZR; apply IZR_le; vm_compute; discriminate).
    assert (64 * IZR (2 ^ 49) <= IZR (2 ^ 100)) by (rewrite <- mult_IZR; apply IZR_le; vm_compute; discriminate).
    assert (64 <= IZR (2 ^ 100)) by (apply IZR_le; vm_compute; discriminate). repeat split; lra. }
  rewrite <- Eo in HN. rewrite <- Eq in H1.
  assert (s1 n v = norm1 n v + INR n / 18446744073709551616) as Es1 by (unfold s1, norm1, tiny, Rdiv; ring).
  pose proof (sqrt_lt_R0 (INR n) PN) as Prt.
  assert (s2 n v / sqrt (INR n) + tiny * sqrt (INR n) = norm2 n v / sqrt (INR n) + (1 + sqrt (INR n)) / 18446744073709551616) as Es2.
  { unfold s2, norm2, nrm, tiny. field. lra. }
  pose proof (ifft_near _ _ _ _ _ _ _ HR l fuel y Hf Ly (proj1 (finite_all_at y) Fy)) as FN. cbv zeta in FN. fold n in FN.
  change (vals y) with (map (entry_at f) y) in FN. change (fun k => nth k (map (entry_at f) y) (RtoC 0)) with v in FN.
  destruct FN as (z & Ez & Lz & Fz & Dz); [exact HKn|lra|apply grow_at_le1; lia|rewrite Es1; lra|].
  exists z. split; [exact Ez|]. split; [exact Lz|]. split; [apply finite_all_at; exact Fz|].
  pose proof (grow_at (S l) ltac:(lia)) as Hg. rewrite S_INR in Hg.
  assert (forall k, idft (map (entry_at f) y) k = inverse n v k) as Tk.
  { intros k. rewrite idft_inverse_at, Ly. reflexivity. }
  rewrite <- Es2. unfold norm2. change (sqrt (rsum n (fun k => Cmod (entries_at f z k - inverse n v k)%C * Cmod (entries_at f z k - inverse n v k)%C)))
    with (nrm n (fun k => Cmod (entries_at f z k - inverse n v k)%C)).
  rewrite (nrm_ext n _ (fun k => Cmod (vc P (@B2R (bprec f) (bemax f)) (nth k z (czero P)) - idft (map (entry_at f) y) k)%C)).
  - eapply Rle_trans; [exact Dz|]. apply Rmult_le_compat_r; [|exact Hg].
    assert (0 <= s2 n v / sqrt (INR n)) by (unfold Rdiv; apply Rmult_le_pos; [apply s2_nonneg|left; apply Rinv_0_lt_compat; exact Prt]).
    assert (0 <= tiny * sqrt (INR n)) by (apply Rmult_le_pos; [unfold tiny; lra|lra]). lra.
  - intros k Hk. rewrite Tk, (nth_entries z n k Lz Hk). reflexivity.
Qed.

Lemma round_trip_at l fuel x : (l < fuel)%nat -> (l <= lmax)%nat -> length x = (2 ^ l)%nat -> all_finite_at f x ->
  let n := (2 ^ l)%nat in let v := entries_at f x in INR n * norm1 n v <= IZR (2 ^ 90) ->
  exists y z, fft_complex P fuel x = Some y /\ ifft_complex P fuel y = Some z /\ length z = n /\ all_finite_at f z /\
    norm2 n (fun k => entries_at f z k - v k)%C <= 17.1 * (2 * INR l + 1) * u * (norm2 n v + 2 * sqrt (INR n) / 18446744073709551616).
Proof.
  intros Hf Hl Lx Fx n v H1.
  destruct (size_ok_at l Hl) as [HKn HN]. fold n in HKn, HN. pose proof (norm1_nonneg n v) as P1. pose proof (norm2_le1 n v) as P12.
  assert (1 <= INR n) as PN by (change 1 with (INR 1); apply le_INR; apply pow2_pos).
  assert (exists o q, o = IZR (2 ^ 49) /\ q = IZR (2 ^ 90) /\ 1 <= o /\ 64 * q + 64 * o + 64 * (o * (o / 18446744073709551616)) <= Omf) as (o & q & Eo & Eq & O1 & O3).
  { exists (IZR (2 ^ 49)), (IZR (2 ^ 90)). split; [reflexivity|]. split; [reflexivity|]. unfold Omf.
    split; [apply IZR_le; vm_compute; discriminate|].
    replace (IZR (2 ^ 49)) with 562949953421312 by (apply (f_equal IZR); vm_compute; reflexivity).
    replace (IZR (2 ^ 90)) with 1237940039285380274899124224 by (apply (f_equal IZR); vm_compute; reflexivity).
    replace (IZR (2 ^ 100)) with 1267650600228229401496703205376 by (apply (f_equal IZR); vm_compute; reflexivity). lra. }
  rewrite <- Eo in HN. rewrite <- Eq in H1.
  pose proof (sqrt_lt_R0 (INR n) ltac:(lra)) as Prt. pose proof (sqrt_sqrt (INR n) ltac:(lra)) as Ert.
  assert (sqrt (INR n) <= INR n) as Hrt.
  { assert (1 <= sqrt (INR n)) by (rewrite <- sqrt_1; apply sqrt_le_1_alt; exact PN). nra. }
  assert (s2 n v = norm2 n v + sqrt (INR n) / 18446744073709551616) as Es2 by (unfold s2, norm2, nrm, tiny, Rdiv; ring).
  assert (s2 n v + tiny * sqrt (INR n) = norm2 n v + 2 * sqrt (INR n) / 18446744073709551616) as Es3.
  { rewrite Es2. unfold tiny, Rdiv. ring. }
  assert (32 * (INR n * (s2 n v + 1)) <= Omf) as HO.
  { rewrite Es2. assert (0 <= norm2 n v) by apply sqrt_pos.
    assert (INR n * norm2 n v <= INR n * norm1 n v) by (apply Rmult_le_compat_l; lra).
    assert (INR n * (sqrt (INR n) / 18446744073709551616) <= o * (o / 18446744073709551616)) by (apply Rmult_le_compat; lra).
    replace (INR n * (norm2 n v + sqrt (INR n) / 18446744073709551616 + 1)) with (INR n * norm2 n v + INR n * (sqrt (INR n) / 18446744073709551616) + INR n) by ring.
    assert (0 <= q) by (apply Rle_trans with (INR n * norm1 n v); [nra|lra]).
    assert (0 <= o * (o / 18446744073709551616)) by (apply Rmult_le_pos; lra). lra. }
  pose proof (round_trip_near _ _ _ _ _ _ _ HR l fuel x Hf Lx (proj1 (finite_all_at x) Fx)) as FN. cbv zeta in FN. fold n in FN.
  change (vals x) with (map (entry_at f) x) in FN. change (fun k => nth k (map (entry_at f) x) (RtoC 0)) with v in FN.
  destruct (FN HKn (grow_at_le1 l ltac:(lia)) HO) as (y & z & Ey & Ez & Lz & Fz & Dz). clear FN.
  exists y, z. split; [exact Ey|]. split; [exact Ez|]. split; [exact Lz|]. split; [apply finite_all_at; exact Fz|].
  pose proof (grow_at (2 * l + 1) ltac:(lia)) as Hg.
  replace (INR (2 * l + 1)) with (2 * INR l + 1) in Hg by (rewrite plus_INR, mult_INR; reflexivity).
  rewrite <- Es3. unfold norm2. change (sqrt (rsum n (fun k => Cmod (entries_at f z k - v k)%C * Cmod (entries_at f z k - v k)%C)))
    with (nrm n (fun k => Cmod (entries_at f z k - v k)%C)).
  rewrite (nrm_ext n _ (fun k => Cmod (vc P (@B2R (bprec f) (bemax f)) (nth k z (czero P)) - nth k (map (entry_at f) x) (RtoC 0))%C)).
  - eapply Rle_trans; [exact Dz|]. apply Rmult_le_compat_r; [|exact Hg].
    assert (0 <= s2 n v) by apply s2_nonneg.
    assert (0 <= tiny * sqrt (INR n)) by (apply Rmult_le_pos; [unfold tiny; lra|lra]). lra.
  - intros k Hk. rewrite (nth_entries z n k Lz Hk). reflexivity.
Qed.
End At.

(** ** C90 *)
(** The forward transform of 2^l pairs of finite numbers of any of the types, by a library accurate to 2u: every entry of the
    result is finite and its error is at most 17.1 l u times the sum of the absolute values of the arguments (2^-64 for every
    argument is added for underflow); the Euclidean length of the error is at most 17.1 l u times that of the exact result. *)
Theorem C90_transform : forall f u lmax ct cosf sinf l fuel x, float_type f u lmax -> accurate_at f (2 * u) cosf sinf ->
  (l < fuel)%nat -> (l <= lmax)%nat -> length x = (2 ^ l)%nat -> all_finite_at f x ->
  let n := (2 ^ l)%nat in let v := entries_at f x in norm1 n v <= IZR (2 ^ 90) ->
  exists y, fft_complex (flops_at f ct cosf sinf) fuel x = Some y /\ length y = n /\ all_finite_at f y /\
    (forall k, (k < n)%nat -> Cmod (entries_at f y k - transform n v k)%C <= 17.1 * INR l * u * (norm1 n v + INR n / 18446744073709551616)) /\
    norm2 n (fun k => entries_at f y k - transform n v k)%C <= 17.1 * INR l * u * (sqrt (INR n) * (norm2 n v + sqrt (INR n) / 18446744073709551616)).
Proof.
  intros f u lmax ct cosf sinf l fuel x T HA. destruct (type_rounding f u lmax ct cosf sinf T HA) as (K & HK & H49 & HR).
  exact (transform_at f ct cosf sinf u K HR lmax HK H49 l fuel x).
Qed.
Print Assumptions C90_transform.

(** The inverse transform *)
Theorem C90_inverse : forall f u lmax ct cosf sinf l fuel y, float_type f u lmax -> accurate_at f (2 * u) cosf sinf ->
  (l < fuel)%nat -> (l <= lmax)%nat -> length y = (2 ^ l)%nat -> all_finite_at f y ->
  let n := (2 ^ l)%nat in let v := entries_at f y in norm1 n v <= IZR (2 ^ 90) ->
  exists z, ifft_complex (flops_at f ct cosf sinf) fuel y = Some z /\ length z = n /\ all_finite_at f z /\
    norm2 n (fun k => entries_at f z k - inverse n v k)%C <=
       17.1 * (INR l + 1) * u * (norm2 n v / sqrt (INR n) + (1 + sqrt (INR n)) / 18446744073709551616).
Proof.
  intros f u lmax ct cosf sinf l fuel x T HA. destruct (type_rounding f u lmax ct cosf sinf T HA) as (K & HK & H49 & HR).
  exact (inverse_at f ct cosf sinf u K HR lmax HK H49 l fuel x).
Qed.
Print Assumptions C90_inverse.

(** Forward and back *)
Theorem C90_round_trip : forall f u lmax ct cosf sinf l fuel x, float_type f u lmax -> accurate_at f (2 * u) cosf sinf ->
  (l < fuel)%nat -> (l <= lmax)%nat -> length x = (2 ^ l)%nat -> all_finite_at f x ->
  let n := (2 ^ l)%nat in let v := entries_at f x in INR n * norm1 n v <= IZR (2 ^ 90) ->
  exists y z, fft_complex (flops_at f ct cosf sinf) fuel x = Some y /\ ifft_complex (flops_at f ct cosf sinf) fuel y = Some z /\
    length z = n /\ all_finite_at f z /\
    norm2 n (fun k => entries_at f z k - v k)%C <= 17.1 * (2 * INR l + 1) * u * (norm2 n v + 2 * sqrt (INR n) / 18446744073709551616).
Proof.
  intros f u lmax ct cosf sinf l fuel x T HA. destruct (type_rounding f u lmax ct cosf sinf T HA) as (K & HK & H49 & HR).
  exact (round_trip_at f ct cosf sinf u K HR lmax HK H49 l fuel x).
Qed.
Print Assumptions C90_round_trip.

(** ** The convolution *)
(** create_fft_table, convolute_fft and ifft_complex, the three steps of a product, at any of the types: coefficient k comes out with an error
    of at most 51.9 (l+1) (Q+1) u, where 2^l is the length of the table and Q the sum of the squares of the digits. *)
Theorem C90_convolution : forall f u lmax ct cosf sinf fuel a b, float_type f u lmax -> accurate_at f (2 * u) cosf sinf ->
  let P := flops_at f ct cosf sinf in
  let l := Z.to_nat (Z.log2_up (Z.of_nat (length a + length b))) in let Q := (sum_squares a + sum_squares b)%Z in
  (forall d, In d (a ++ b) -> (0 <= d <= 2 ^ Z.of_nat lmax)%Z) -> (0 < length a + length b)%nat -> (Z.of_nat (length a + length b) <= 2 ^ 32)%Z ->
  (l <= lmax)%nat -> (l < fuel)%nat -> (Q < 2 ^ 58)%Z ->
  exists table inverses, convolute_fft P fuel (create_fft_table P a b) = Some table /\ ifft_complex P fuel table = Some inverses /\
    length inverses = (2 ^ l)%nat /\
    forall k, (k < 2 ^ l)%nat -> Rabs (fst (entries_at f inverses k) - IZR (conv a b k)) <= 51.9 * (INR l + 1) * (IZR Q + 1) * u.
Proof.
  intros f u lmax ct cosf sinf fuel a b T HA P l Q Hd Hpos H32 Hl Hf HQ.
  destruct (type_rounding f u lmax ct cosf sinf T HA) as (K & HK & H49 & HR).
  assert (Z.of_nat (2 ^ l) <= 2 ^ Z.of_nat lmax)%Z as HlK by (rewrite Nat2Z.inj_pow; apply Z.pow_le_mono_r; lia).
  assert (Z.of_nat (2 ^ l) <= 2 ^ 32)%Z as Hl32.
  { rewrite Nat2Z.inj_pow. apply Z.pow_le_mono_r; [lia|]. unfold l.
    assert (Z.log2_up (Z.of_nat (length a + length b)) <= Z.log2_up (2 ^ 32))%Z as H by (apply Z.log2_up_le_mono; exact H32).
    rewrite Z.log2_up_pow2 in H by lia. pose proof (Z.log2_up_nonneg (Z.of_nat (length a + length b))). lia. }
  pose proof (coefficients_near P _ _ _ _ _ _ HR fuel a b) as N. cbv zeta in N. fold l Q in N.
  destruct N as (_ & table & inv & E1 & E2 & L & V).
  - intros d H. specialize (Hd d (in_or_app _ _ _ (or_introl H))). lia.
  - intros d H. specialize (Hd d (in_or_app _ _ _ (or_intror H))). lia.
  - exact Hpos.
  - exact H32.
  - exact Hf.
  - lia.
  - rewrite INR_IZR_INZ. rewrite <- plus_IZR, <- !mult_IZR. unfold Omf. apply IZR_le.
    assert (0 <= Q)%Z by (unfold Q; pose proof (sum_squares_nonneg a); pose proof (sum_squares_nonneg b); lia).
    apply Z.le_trans with (301 * (2 ^ 32 * 2 ^ 58))%Z; [|vm_compute; discriminate].
    apply Z.mul_le_mono_nonneg_l; [lia|]. apply Z.mul_le_mono_nonneg; lia.
  - exists table, inv. split; [exact E1|]. split; [exact E2|]. split; [exact L|]. intros k Hk. destruct (V k Hk) as [_ D].
    rewrite (nth_entries f ct cosf sinf inv (2 ^ l) k L Hk). unfold entry_at. cbn [fst].
    eapply Rle_trans; [exact D|]. rewrite plus_INR. apply Req_le. cbn [INR]. ring.
Qed.
Print Assumptions C90_convolution.

(** So the coefficients are the nearest integers while 104 (l+1) (Q+1) u <= 1; *)
Theorem C90_coefficients : forall f u lmax ct cosf sinf fuel a b, float_type f u lmax -> accurate_at f (2 * u) cosf sinf ->
  let P := flops_at f ct cosf sinf in
  let l := Z.to_nat (Z.log2_up (Z.of_nat (length a + length b))) in let Q := (sum_squares a + sum_squares b)%Z in
  (forall d, In d (a ++ b) -> (0 <= d <= 2 ^ Z.of_nat lmax)%Z) -> (0 < length a + length b)%nat -> (Z.of_nat (length a + length b) <= 2 ^ 32)%Z ->
  (l <= lmax)%nat -> (l < fuel)%nat -> 104 * (INR l + 1) * (IZR Q + 1) * u <= 1 ->
  exists table inverses, convolute_fft P fuel (create_fft_table P a b) = Some table /\ ifft_complex P fuel table = Some inverses /\
    length inverses = (2 ^ l)%nat /\ forall k, (k < 2 ^ l)%nat -> Zfloor (fst (entries_at f inverses k) + / 2) = conv a b k.
Proof.
  intros f u lmax ct cosf sinf fuel a b T HA P l Q Hd Hpos H32 Hl Hf HQ.
  assert (/ 72057594037927936 <= u) as Hu by (destruct T; lra).
  assert (0 <= Q)%Z as Q0 by (unfold Q; pose proof (sum_squares_nonneg a); pose proof (sum_squares_nonneg b); lia).
  assert (0 <= IZR Q) as Q1 by (apply IZR_le; exact Q0). pose proof (pos_INR l) as L0.
  assert (1 * (IZR Q + 1) <= (INR l + 1) * (IZR Q + 1)) as Hm by (apply Rmult_le_compat_r; lra).
  assert (0 <= (INR l + 1) * (IZR Q + 1) - 1) as Hm' by lra.
  destruct (C90_convolution f u lmax ct cosf sinf fuel a b T HA Hd Hpos H32 Hl Hf) as (table & inv & E1 & E2 & L & V).
  { apply lt_IZR. fold Q. assert ((IZR Q + 1) * / 72057594037927936 <= (INR l + 1) * (IZR Q + 1) * u) as H by (apply Rmult_le_compat; lra).
    replace (IZR (2 ^ 58)) with 288230376151711744 by (apply (f_equal IZR); vm_compute; reflexivity). lra. }
  exists table, inv. split; [exact E1|]. split; [exact E2|]. split; [exact L|]. intros k Hk. specialize (V k Hk). fold l Q in V.
  assert (0 < (INR l + 1) * (IZR Q + 1) * u) as Hp by (apply Rmult_lt_0_compat; lra).
  apply abs_elim in V. apply Zfloor_imp. rewrite plus_IZR. lra.
Qed.
Print Assumptions C90_coefficients.

(** at float, for example, those of all products of decimal numbers of up to 221 digits in all. *)
Theorem C90_float_decimal : forall ct cosf sinf fuel a b, accurate_at binary32 (/ 8388608) cosf sinf ->
  let P := flops_at binary32 ct cosf sinf in let l := Z.to_nat (Z.log2_up (Z.of_nat (length a + length b))) in
  (forall d, In d (a ++ b) -> (0 <= d < 10)%Z) -> (0 < length a + length b <= 221)%nat -> (8 < fuel)%nat ->
  exists table inverses, convolute_fft P fuel (create_fft_table P a b) = Some table /\ ifft_complex P fuel table = Some inverses /\
    length inverses = (2 ^ l)%nat /\ (forall k, (k < 2 ^ l)%nat -> Zfloor (fst (entries_at binary32 inverses k) + / 2) = conv a b k) /\
    Spec.value 10 (map (fun k => Zfloor (fst (entries_at binary32 inverses k) + / 2)) (seq 0 (2 ^ l))) = (Spec.value 10 a * Spec.value 10 b)%Z.
Proof.
  intros ct cosf sinf fuel a b HA P l Hd Hlen Hf.
  assert (l <= 8)%nat as Hl.
  { unfold l. assert (Z.log2_up (Z.of_nat (length a + length b)) <= Z.log2_up 221)%Z as H by (apply Z.log2_up_le_mono; lia).
    change (Z.log2_up 221) with 8%Z in H. lia. }
  assert (forall c, (forall d, In d c -> (0 <= d < 10)%Z) -> (sum_squares c <= 81 * Z.of_nat (length c))%Z) as S.
  { intros c H. assert (digits_ok 10 c) as Hc by (apply Forall_forall; exact H). pose proof (sum_squares_le 10 c ltac:(lia) Hc). lia. }
  assert (sum_squares a + sum_squares b <= 17901)%Z as HQ.
  { pose proof (S a (fun d H => Hd d (in_or_app _ _ _ (or_introl H)))). pose proof (S b (fun d H => Hd d (in_or_app _ _ _ (or_intror H)))). lia. }
  pose proof (sum_squares_nonneg a) as Qa. pose proof (sum_squares_nonneg b) as Qb.
  destruct (C90_coefficients binary32 (/ 16777216) 24 ct cosf sinf fuel a b type_float) as (table & inv & E1 & E2 & L & V).
  - intros x Fx Hx. destruct (HA x Fx Hx) as [[A1 A2] [A3 A4]]. split; split; auto; lra.
  - intros d H. specialize (Hd d H). lia.
  - lia.
  - lia.
  - fold l. lia.
  - fold l. lia.
  - fold l. assert (INR l <= 8) by (replace 8 with (INR 8) by (rewrite INR_IZR_INZ; reflexivity); apply le_INR; exact Hl). pose proof (pos_INR l).
    apply IZR_le in HQ. assert (0 <= IZR (sum_squares a + sum_squares b)) by (apply IZR_le; lia).
    assert ((INR l + 1) * (IZR (sum_squares a + sum_squares b) + 1) <= 9 * 17902) by (apply Rmult_le_compat; lra). lra.
  - fold l in L, V. exists table, inv. split; [exact E1|]. split; [exact E2|]. split; [exact L|]. split; [exact V|].
    rewrite <- (proj2 (C21_complete a b ltac:(lia) ltac:(lia)) 10%Z). fold l. f_equal. apply map_ext_in. intros k Hk. apply in_seq in Hk. apply V. lia.
Qed.
Print Assumptions C90_float_decimal.

(** ** The precision of long double is not reached *)
(** The literal of line 42 has no suffix: it is a double, and the angles inherit its error of 2^-53, whatever flt_t is. *)
Lemma angle_quarter f : (64 <= bprec f)%Z -> (128 <= bemax f)%Z ->
  is_finite (angle_at f 4 1) = true /\ B2R (angle_at f 4 1) = - B2R pi_double / 2.
Proof.
  intros H1 H2. assert (wider f = f) as W by (unfold wider; destruct (Z.ltb_spec (bprec f) 53); [lia|reflexivity]).
  assert (24 <= bprec f)%Z as H1' by lia.
  assert (2 ^ 64 <= 2 ^ bprec f)%Z as Hpow by (apply Z.pow_le_mono_r; lia).
  unfold angle_at. rewrite W. cbv zeta. rewrite (length_at_id f 4 H1' H2) by lia.
  pose proof four_Omf as HO. pose proof PI_close as Hpi. pose proof pi_double_near as Hd. unfold pi_gap in Hd.
  destruct (m2_at f H1' H2) as [Fm Vm]. destruct (int_at f f 1 H1' H2 H1' H2) as [Fk Vk]; try lia.
  destruct (ofZ_at f H1' H2 4 ltac:(lia) ltac:(lia)) as [Fn Vn].
  destruct (pi_at_wide f ltac:(lia) H2) as [Fp Vp].
  destruct (convert_same f (pi_at f) H1' H2 Fp) as [Fq Vq]; [rewrite Vp; apply abs_le; lra|]. rewrite Vp in Vq.
  assert (forall e, (-50 <= e <= 0)%Z -> rnd_at f (- (IZR 884279719003555 * bpow radix2 e)) = - (IZR 884279719003555 * bpow radix2 e)) as Hex.
  { intros e He. apply round_generic; [apply valid_rnd_N|]. apply generic_format_opp. rewrite fexp_flt.
    apply generic_format_FLT. exists (Float radix2 884279719003555 e); [reflexivity| |cbn [Fexp]; lia].
    cbn [Fnum]. change (Zpower radix2 (bprec f)) with (2 ^ bprec f)%Z. eapply Z.lt_le_trans; [|exact Hpow]. reflexivity. }
  assert (B2R pi_double = IZR 884279719003555 * bpow radix2 (-48)) as Epi by (rewrite (proj2 pi_double_val); reflexivity).
  set (pd := @B2R 53 1024 pi_double) in *.
  unfold angle_of. set (k := convert f f (mk_number f (Z.of_nat 1) 0)) in *. change (B2R k = 1) in Vk.
  destruct (mul_at_spec f H1' H2 _ k Fm Fk) as [F1 V1]; [rewrite Vm, Vk; apply abs_le; lra|].
  rewrite Vm, Vk, Rmult_1_r in V1. rewrite (rnd_at_int f H1' H2 (-2)) in V1 by lia.
  destruct (mul_at_spec f H1' H2 _ _ F1 Fq) as [F2 V2]; [rewrite V1, Vq; apply abs_le|].
  { assert (8 <= Omf) by (unfold Omf; apply IZR_le; lia). lra. }
  rewrite V1, Vq in V2.
  assert (rnd_at f (-2 * pd) = -2 * pd) as E1.
  { replace (-2 * pd) with (- (IZR 884279719003555 * bpow radix2 (-47))); [apply Hex; lia|].
    rewrite Epi. change (-47)%Z with (1 + -48)%Z. rewrite bpow_plus. change (bpow radix2 1) with 2. ring. }
  rewrite E1 in V2.
  destruct (div_at_spec f H1' H2 _ _ F2 Fn) as [F3 V3].
  { rewrite Vn. lra. }
  { rewrite V2, Vn. apply abs_le. lra. }
  rewrite V2, Vn in V3.
  assert (rnd_at f (-2 * pd / 4) = - pd / 2) as E2.
  { replace (-2 * pd / 4) with (- (IZR 884279719003555 * bpow radix2 (-49))).
    - rewrite Hex by lia. rewrite Epi. change (-48)%Z with (1 + -49)%Z. rewrite bpow_plus. change (bpow radix2 1) with 2. field.
    - rewrite Epi. change (-48)%Z with (1 + -49)%Z. rewrite bpow_plus. change (bpow radix2 1) with 2. field. }
  rewrite E2 in V3.
  destruct (convert_same f _ H1' H2 F3) as [F4 V4]; [rewrite V3; apply abs_le; lra|].
  split; [exact F4|]. exact (eq_trans V4 V3).
Qed.

Lemma sin_lower d : 0 < d < 1 -> d / 2 <= sin d.
Proof.
  intros Hd. destruct (MVT_cor2 sin cos 0 d (proj1 Hd) (fun c _ => derivable_pt_lim_sin c)) as (c & Ec & Hc).
  rewrite sin_0, !Rminus_0_r in Ec. pose proof PI_close. assert (cos (PI / 3) < cos c) as H0 by (apply cos_decreasing_1; lra).
  rewrite cos_PI3 in H0. rewrite Ec. nra.
Qed.

(** 2^-55 *)
Lemma cos_quarter : 3.05e-17 <= cos (- B2R pi_double / 2).
Proof.
  pose proof pi_double_near as Hd. unfold pi_gap in Hd. set (pd := B2R pi_double) in *.
  replace (- pd / 2) with (- (pd / 2)) by field. rewrite cos_neg, <- sin_shift.
  assert (0 < PI / 2 - pd / 2 < 1) as Hb by lra. pose proof (sin_lower _ Hb). lra.
Qed.

(** The transform of 0, 1, 0, 0 at a type of 64 bits or more: the second entry, which is -i, is wrong by at least 2^-55, even if the
    library is accurate to 2^-60. *)
Theorem C90_long_double : forall f ct cosf sinf, (64 <= bprec f)%Z -> (128 <= bemax f)%Z -> accurate_at f (/ 1152921504606846976) cosf sinf ->
  let zero := (mk_number f 0 0, mk_number f 0 0) in let one := (mk_number f 1 0, mk_number f 0 0) in
  let x := [zero; one; zero; zero] in
  all_finite_at f x /\ transform 4 (entries_at f x) 1 = (0, -1) /\
  exists y, fft_complex (flops_at f ct cosf sinf) 3 x = Some y /\ length y = 4%nat /\
    / 36028797018963968 <= Cmod (entries_at f y 1 - transform 4 (entries_at f x) 1)%C.
Proof.
  intros f ct cosf sinf H1 H2 HA zero one x. assert (24 <= bprec f)%Z as H1' by lia.
  assert (2 ^ 64 <= 2 ^ bprec f)%Z as Hpow by (apply Z.pow_le_mono_r; lia).
  destruct (ofZ_at f H1' H2 0 ltac:(lia) ltac:(lia)) as [F0 V0]. destruct (ofZ_at f H1' H2 1 ltac:(lia) ltac:(lia)) as [F1 V1].
  assert (unit_at f <= / 18446744073709551616) as Hu.
  { change (/ 18446744073709551616) with (bpow radix2 (-64)). apply bpow_le. lia. }
  pose proof (unit_pos f) as Hu0.
  assert (rounding (flops_at f ct cosf sinf) (@B2R (bprec f) (bemax f)) (fun x => is_finite x = true) (rnd_at f) (/ 72057594037927936) Omf (2 ^ 53)) as HR.
  { apply rounding_wide; [lia|exact H2| |lra|unfold pi_gap; lra].
    intros t Ft Ht. destruct (HA t Ft Ht) as [[A1 A2] [A3 A4]]. split; split; auto; lra. }
  set (P := flops_at f ct cosf sinf) in *.
  assert (transform 4 (entries_at f x) 1 = (0, -1)) as T.
  { unfold transform, entries_at, x, zero, one. cbn [csum map nth entry_at fst snd]. unfold entry_at. cbn [fst snd]. rewrite V0, V1.
    replace (-2 * PI * INR (1 * 1) / INR 4) with (- (PI / 2)) by (cbn [INR Nat.mul Nat.add]; field).
    unfold cis. rewrite cos_neg, sin_neg, cos_PI2, sin_PI2. unfold Cmult, Cplus, RtoC. cbn [fst snd]. f_equal; ring. }
  split; [|split; [exact T|]].
  { intros e [<-|[<-|[<-|[<-|[]]]]]; cbn [fst snd zero one]; auto. }
  assert (0 <= Omf) as HO by (pose proof four_Omf; lra).
  assert (rnd_at f 0 = 0) as R0 by (apply (rnd_at_int f H1' H2 0); lia).
  assert (rnd_at f 1 = 1) as R1 by (apply (rnd_at_int f H1' H2 1); lia).
  assert (forall d : number f, rnd_at f (B2R d) = B2R d) as Rd.
  { intros d. apply round_generic; [apply valid_rnd_N|]. apply generic_format_B2R. }
  (* a product with a pair of real value *)
  assert (forall s w z (r : R), is_finite (fst w) = true -> is_finite (snd w) = true -> is_finite (fst z) = true -> is_finite (snd z) = true ->
    (r = 0 \/ r = 1) -> B2R (fst z) = r -> B2R (snd z) = 0 -> Rabs (B2R (fst w)) <= 4 -> Rabs (B2R (snd w)) <= 4 ->
    let p := cmul P s w z in is_finite (fst p) = true /\ is_finite (snd p) = true /\ B2R (fst p) = B2R (fst w) * r /\ B2R (snd p) = B2R (snd w) * r) as Hprod.
  { intros s [wr wi] [zr zi] r Fwr Fwi Fzr Fzi Hr Ezr Ezi Bw1 Bw2. cbn [fst snd] in *. pose proof four_Omf as H4.
    assert (forall d : number f, Rabs (B2R d) <= 4 -> rnd_at f (B2R d * r) = B2R d * r /\ Rabs (B2R d * r) <= Omf) as Hd.
    { intros d Hd. destruct Hr as [->| ->]; [rewrite Rmult_0_r, Rabs_R0|rewrite Rmult_1_r]; (split; [auto|lra]). }
    destruct (Hd wr Bw1) as [D1 D1']. destruct (Hd wi Bw2) as [D2 D2'].
    destruct (det_at_spec f H1' H2 (fst (fusing_of f ct s)) wr zr wi zi Fwr Fzr Fwi Fzi) as (p1 & q1 & Hp1 & Hq1 & Hdet);
      [rewrite Ezr; exact D1'|rewrite Ezi, Rmult_0_r, Rabs_R0; exact HO|].
    destruct (dot_at_spec f H1' H2 (snd (fusing_of f ct s)) wr zi wi zr Fwr Fzi Fwi Fzr) as (p2 & q2 & Hp2 & Hq2 & Hdot);
      [rewrite Ezi, Rmult_0_r, Rabs_R0; exact HO|rewrite Ezr; exact D2'|].
    rewrite Ezr, D1 in Hp1. rewrite Ezi, Rmult_0_r, R0 in Hq1. rewrite Ezi, Rmult_0_r, R0 in Hp2. rewrite Ezr, D2 in Hq2.
    assert (p1 = B2R wr * r) as -> by (destruct Hp1; assumption). assert (q1 = 0) as -> by (destruct Hq1; assumption).
    assert (p2 = 0) as -> by (destruct Hp2; assumption). assert (q2 = B2R wi * r) as -> by (destruct Hq2; assumption).
    rewrite Rminus_0_r in Hdet. rewrite Rplus_0_l in Hdot. destruct (Hdet D1') as [Fdet Vdet]. destruct (Hdot D2') as [Fdot Vdot].
    unfold cmul. cbn [fst snd]. change (fdet P s) with (det_at f (fst (fusing_of f ct s))). change (fdot P s) with (dot_at f (snd (fusing_of f ct s))).
    rewrite (r_nan _ _ _ _ _ _ _ HR _ Fdet). cbn [andb fst snd].
    split; [exact Fdet|]. split; [exact Fdot|]. rewrite Vdet, Vdot. split; assumption. }
  assert (forall n k, (2 * k < n)%nat -> (Z.of_nat n <= 2 ^ 53)%Z -> let w := twiddle P n k in
    is_finite (fst w) = true /\ is_finite (snd w) = true /\ Rabs (B2R (fst w)) <= 4 /\ Rabs (B2R (snd w)) <= 4) as Htw.
  { intros n k Hk Hn. destruct (angle_at_wide f n k ltac:(lia) H2 Hk Hn) as [Fa Va]. pose proof (angle_size n k Hk) as As.
    assert (Rabs (B2R (angle_at f n k)) <= 4) as Sa.
    { apply abs_elim in Va. apply abs_elim in As. apply abs_le. unfold pi_gap in Va. lra. }
    destruct (HA _ Fa Sa) as [[A1 A2] [A3 A4]]. cbn [twiddle fst snd fcos fsin fangle P flops_at].
    pose proof (COS_bound (B2R (angle_at f n k))). pose proof (SIN_bound (B2R (angle_at f n k))).
    apply abs_elim in A2. apply abs_elim in A4. split; [exact A1|]. split; [exact A3|]. split; apply abs_le; lra. }
  destruct (Htw 2%nat 0%nat ltac:(lia) ltac:(lia)) as (T1 & T2 & T3 & T4). destruct (Htw 4%nat 1%nat ltac:(lia) ltac:(lia)) as (U1 & U2 & U3 & U4).
  set (m := cmul P (DifferenceSite 2 0) (twiddle P 2 0) zero).
  destruct (Hprod (DifferenceSite 2 0) (twiddle P 2 0) zero 0 T1 T2 F0 F0 (or_introl eq_refl) V0 V0 T3 T4) as (M1 & M2 & M3 & M4).
  fold m in M1, M2, M3, M4. rewrite Rmult_0_r in M3, M4.
  set (e := csub P zero m). set (o := csub P one m).
  assert (is_finite (fst e) = true /\ B2R (fst e) = 0) as [E1 E2].
  { destruct (r_sub _ _ _ _ _ _ _ HR (mk_number f 0 0) (fst m) F0 M1) as [A B].
    - rewrite V0, M3, Rminus_0_r, Rabs_R0. exact HO.
    - rewrite V0, M3, Rminus_0_r, R0 in B. split; assumption. }
  assert (is_finite (fst o) = true /\ B2R (fst o) = 1) as [O1 O2].
  { destruct (r_sub _ _ _ _ _ _ _ HR (mk_number f 1 0) (fst m) F1 M1) as [A B].
    - rewrite V1, M3, Rminus_0_r, Rabs_R1. pose proof four_Omf. lra.
    - rewrite V1, M3, Rminus_0_r, R1 in B. split; assumption. }
  assert (is_finite (snd o) = true /\ B2R (snd o) = 0) as [O3 O4].
  { destruct (r_sub _ _ _ _ _ _ _ HR (mk_number f 0 0) (snd m) F0 M2) as [A B].
    - rewrite V0, M4, Rminus_0_r, Rabs_R0. exact HO.
    - rewrite V0, M4, Rminus_0_r, R0 in B. split; assumption. }
  set (q := cmul P (SumSite 4 1) (twiddle P 4 1) o).
  destruct (Hprod (SumSite 4 1) (twiddle P 4 1) o 1 U1 U2 O1 O3 (or_intror eq_refl) O2 O4 U3 U4) as (Q1 & Q2 & Q3 & Q4).
  fold q in Q1, Q2, Q3, Q4. rewrite Rmult_1_r in Q3.
  eexists. split; [reflexivity|]. split; [reflexivity|].
  match goal with |- _ <= Cmod (entries_at f ?y 1 - _)%C => assert (entries_at f y 1 = entry_at f (cadd P e q)) as -> by reflexivity end.
  destruct (r_add _ _ _ _ _ _ _ HR (fst e) (fst q) E1 Q1) as [_ S2].
  { rewrite E2, Q3, Rplus_0_l. exact (Rle_trans _ _ _ U3 four_Omf). }
  rewrite E2, Q3, Rplus_0_l, Rd in S2.
  rewrite T. eapply Rle_trans; [|apply (Rmax_Cmod)]. eapply Rle_trans; [|apply Rmax_l].
  cbn [Cminus Cplus Copp fst snd entry_at]. change (fst (cadd P e q)) with (fadd P (fst e) (fst q)). rewrite S2, Ropp_0, Rplus_0_r.
  destruct (angle_quarter f H1 H2) as [G1 G2].
  assert (Rabs (B2R (angle_at f 4 1)) <= 4) as G3.
  { rewrite G2. pose proof PI_close. pose proof pi_double_near as Hd. unfold pi_gap in Hd. apply abs_le. lra. }
  destruct (HA _ G1 G3) as [[_ A2] _]. pose proof cos_quarter as Hc. rewrite G2 in A2.
  change (fst (twiddle P 4 1)) with (cosf (angle_at f 4 1)). apply abs_elim in A2.
  eapply Rle_trans; [|apply Rle_abs]. lra.
Qed.
Print Assumptions C90_long_double.

(** ** create_fft_table at float *)
(** Digits up to 2^24 are stored exactly, *)
Theorem C90_table : forall ct cosf sinf a b i,
  (forall d, In d (a ++ b) -> (0 <= d <= 2 ^ 24)%Z) -> (Z.of_nat i < fft_size (length a) (length b))%Z ->
  let t := create_fft_table (flops_at binary32 ct cosf sinf) a b in
  entries_at binary32 t i = (IZR (nth i a 0%Z), IZR (nth i b 0%Z)) /\ Z.of_nat (length t) = fft_size (length a) (length b).
Proof.
  intros ct cosf sinf a b i H Hi t.
  assert (length t = Z.to_nat (fft_size (length a) (length b))) as L by (unfold t, create_fft_table; rewrite map_length, seq_length; reflexivity).
  split; [|rewrite L; lia].
  assert (forall c, (forall d, In d c -> In d (a ++ b)) -> B2R (mk_number binary32 (nth i c 0%Z) 0) = IZR (nth i c 0%Z)) as E.
  { intros c Hc. destruct (ofZ_at binary32 ltac:(vm_compute; discriminate) ltac:(vm_compute; discriminate) (nth i c 0%Z)) as [_ V]; [| |exact V];
      (destruct (nth_in_or_default i c 0%Z) as [Hin|Hd]; [specialize (H _ (Hc _ Hin))|rewrite Hd]; change (bprec binary32) with 24%Z; lia). }
  unfold entries_at, t, create_fft_table. rewrite map_map.
  set (g := fun i : nat => entry_at binary32 _).
  rewrite nth_indep with (d' := g 0%nat) by (rewrite map_length, seq_length; lia). rewrite map_nth, seq_nth by lia.
  unfold g, entry_at. cbn [fst snd Nat.add fofZ flops_at]. rewrite !E; [reflexivity| |]; intros d Hd; apply in_or_app; auto.
Qed.
Print Assumptions C90_table.

(** but not every greater one: a 32-bit digit need not survive. *)
Theorem C90_table_refuted : forall ct cosf sinf,
  entries_at binary32 (create_fft_table (flops_at binary32 ct cosf sinf) [16777217%Z] [0%Z]) 0 = RtoC 16777216.
Proof.
  intros ct cosf sinf. unfold entries_at, create_fft_table. 
  change (Z.to_nat (fft_size (length [16777217%Z]) (length [0%Z]))) with 2%nat. cbn [seq map nth].
  unfold entry_at, RtoC. cbn [fst snd fofZ flops_at].
  replace (mk_number binary32 16777217 0) with (mk_number binary32 16777216 0) by (apply B2SF_inj; vm_compute; reflexivity).
  destruct (ofZ_at binary32 ltac:(vm_compute; discriminate) ltac:(vm_compute; discriminate) 16777216 ltac:(vm_compute; discriminate) ltac:(lia)) as [_ ->].
  destruct (ofZ_at binary32 ltac:(vm_compute; discriminate) ltac:(vm_compute; discriminate) 0 ltac:(vm_compute; discriminate) ltac:(lia)) as [_ ->].
  reflexivity.
Qed.
Print Assumptions C90_table_refuted.

(** ** Cases *)
(** A correctly rounded library is accurate enough for all of these, *)
Example C90_library : forall f, let cosf := fun x : number f => nearest_at f (cos (B2R x)) in let sinf := fun x : number f => nearest_at f (sin (B2R x)) in
  (forall u lmax, float_type f u lmax -> accurate_at f (2 * u) cosf sinf) /\
  ((64 <= bprec f)%Z -> (128 <= bemax f)%Z -> accurate_at f (/ 1152921504606846976) cosf sinf).
Proof.
  intros f cosf sinf.
  assert (forall e e' : R, e <= e' -> accurate_at f e cosf sinf -> accurate_at f e' cosf sinf) as Mono.
  { intros e e' He H x Fx Hx. destruct (H x Fx Hx) as [[A1 A2] [A3 A4]]. split; split; auto; lra. }
  split.
  - intros u lmax T. assert ((24 <= bprec f)%Z /\ (128 <= bemax f)%Z /\ unit_at f <= u) as (H1 & H2 & H3).
    { destruct T; (split; [vm_compute; discriminate|]); (split; [vm_compute; discriminate|]).
      - apply Rle_refl.
      - apply Rle_refl.
      - change (/ 72057594037927936) with (bpow radix2 (-56)). apply bpow_le. vm_compute. discriminate.
      - change (/ 72057594037927936) with (bpow radix2 (-56)). apply bpow_le. vm_compute. discriminate. }
    apply (Mono (2 * unit_at f)); [lra|]. apply nearest_accurate; assumption.
  - intros H1 H2. apply (Mono (2 * unit_at f)); [|apply nearest_accurate; lia].
    assert (unit_at f <= / 18446744073709551616) as Hu.
    { change (/ 18446744073709551616) with (bpow radix2 (-64)). apply bpow_le. lia. }
    lra.
Qed.

(** and 2^l integers of at most 24 bits, l at most 24, meet the other hypotheses at float. *)
Example C90_case : forall l (a : list Z), (l <= 24)%nat -> length a = (2 ^ l)%nat -> (forall z, In z a -> (Z.abs z <= 2 ^ 24)%Z) ->
  let x := map (fun z => (mk_number binary32 z 0, mk_number binary32 0 0)) a in let v := entries_at binary32 x in
  length x = (2 ^ l)%nat /\ all_finite_at binary32 x /\ norm1 (2 ^ l) v <= IZR (2 ^ 90) /\ INR (2 ^ l) * norm1 (2 ^ l) v <= IZR (2 ^ 90) /\
  forall k, (k < 2 ^ l)%nat -> v k = RtoC (IZR (nth k a 0%Z)).
Proof.
  intros l a Hl La Ha x v. assert (length x = (2 ^ l)%nat) as Lx by (unfold x; rewrite map_length; exact La).
  assert (forall z, (Z.abs z <= 2 ^ 24)%Z -> is_finite (mk_number binary32 z 0) = true /\ B2R (mk_number binary32 z 0) = IZR z) as O.
  { intros z Hz. apply ofZ_at; [vm_compute; discriminate|vm_compute; discriminate|exact Hz|lia]. }
  destruct (O 0%Z ltac:(lia)) as [F0 V0].
  assert (forall k, (k < 2 ^ l)%nat -> v k = RtoC (IZR (nth k a 0%Z))) as E.
  { intros k Hk. unfold v, entries_at, x. rewrite map_map.
    rewrite nth_indep with (d' := entry_at binary32 (mk_number binary32 0 0, mk_number binary32 0 0)) by (rewrite map_length, La; exact Hk).
    rewrite (map_nth (fun z => entry_at binary32 (mk_number binary32 z 0, mk_number binary32 0 0)) a 0%Z k). unfold entry_at. cbn [fst snd].
    destruct (O (nth k a 0%Z) (Ha _ (nth_In a 0%Z (eq_ind_r (fun m => (k < m)%nat) Hk La)))) as [_ ->]. rewrite V0. reflexivity. }
  assert (1 <= INR (2 ^ l) <= IZR (2 ^ 24)) as HN.
  { rewrite INR_IZR_INZ, Nat2Z.inj_pow. split; apply IZR_le; [|apply Z.pow_le_mono_r; lia].
    change 1%Z with (2 ^ 0)%Z. apply Z.pow_le_mono_r; lia. }
  assert (norm1 (2 ^ l) v <= IZR (2 ^ 24) * IZR (2 ^ 24)) as HB.
  { apply Rle_trans with (rsum (2 ^ l) (fun _ => IZR (2 ^ 24))).
    - apply rsum_le. intros k Hk. rewrite E by exact Hk. rewrite Cmod_R, <- abs_IZR. apply IZR_le, Ha, nth_In. rewrite La. exact Hk.
    - rewrite rsum_const. apply Rmult_le_compat_r; [apply IZR_le; lia|lra]. }
  pose proof (norm1_nonneg (2 ^ l) v) as HP.
  split; [exact Lx|]. split; [|split; [|split; [|exact E]]].
  - intros e He. unfold x in He. apply in_map_iff in He. destruct He as (z & <- & Hz). cbn [fst snd].
    split; [apply (O z (Ha z Hz))|exact F0].
  - eapply Rle_trans; [exact HB|]. rewrite <- mult_IZR. apply IZR_le. vm_compute. discriminate.
  - apply Rle_trans with (IZR (2 ^ 24) * (IZR (2 ^ 24) * IZR (2 ^ 24))); [apply Rmult_le_compat; lra|].
    rewrite <- !mult_IZR. apply IZR_le. vm_compute. discriminate.
Qed.

(** 110 nines times 110 nines at float *)
Example C90_decimal_case : let a := repeat 9%Z 110 in let l := Z.to_nat (Z.log2_up (Z.of_nat (length a + length a))) in
  (forall d, In d (a ++ a) -> (0 <= d < 10)%Z) /\ (0 < length a + length a <= 221)%nat /\ l = 8%nat /\
  104 * (INR l + 1) * (IZR (sum_squares a + sum_squares a) + 1) * / 16777216 <= 1.
Proof.
  intros a l. assert (l = 8%nat) as El by (vm_compute; reflexivity).
  split; [|split; [|split; [exact El|]]].
  - intros d H. apply in_app_or in H. assert (In d a) as H' by tauto. apply repeat_spec in H'. lia.
  - assert (length a = 110%nat) as -> by apply repeat_length. lia.
  - rewrite El. replace (sum_squares a + sum_squares a)%Z with 17820%Z by (vm_compute; reflexivity). rewrite INR_IZR_INZ. change (Z.of_nat 8) with 8%Z. lra.
Qed.
