(** * Property C51: the transforms of fourier_impl.h in IEEE binary64 arithmetic

    C20 is about real arithmetic.  Here fft_complex and ifft_complex run on doubles: the results are compared with
    the discrete Fourier transform of the numbers the doubles stand for.  [accurate] (Ieee.v) bounds the errors of
    the library's cosine and sine by 2^-52. *)
From Coq Require Import ZArith Reals Lra Lia List Arith.
From Coquelicot Require Import Complex.
From Flocq Require Import Core.Zaux Core.Raux Core.Defs IEEE754.BinarySingleNaN.
From Verif Require Import Base Fourier Dft Norm FloatModel FftError ConvError MulProof Ieee IeeeProof TransformProof.
Import ListNotations.
Open Scope R_scope.

(** the complex number a pair of doubles stands for *)
Definition entry (e : double * double) : C := (B2R (fst e), B2R (snd e)).
Definition entries (x : list (double * double)) (k : nat) : C := nth k (map entry x) (RtoC 0).
Definition all_finite (x : list (double * double)) : Prop :=
  forall e, In e x -> is_finite (fst e) = true /\ is_finite (snd e) = true.

(** the sum of the absolute values and the Euclidean length of the first n entries *)
Definition norm1 (n : nat) (v : nat -> C) : R := rsum n (fun k => Cmod (v k)).
Definition norm2 (n : nat) (v : nat -> C) : R := sqrt (rsum n (fun k => Cmod (v k) * Cmod (v k))).

(** the transform and the inverse transform of n complex numbers *)
Definition transform (n : nat) (v : nat -> C) (k : nat) : C :=
  csum n (fun j => v j * cis (- 2 * PI * INR (j * k) / INR n))%C.
Definition inverse (n : nat) (v : nat -> C) (k : nat) : C :=
  (csum n (fun j => v j * cis (2 * PI * INR (j * k) / INR n)) / RtoC (INR n))%C.

Lemma norm1_nonneg n v : 0 <= norm1 n v.
Proof. apply rsum_nonneg. intros. apply Cmod_ge_0. Qed.

Lemma norm2_le1 n v : norm2 n v <= norm1 n v.
Proof.
  unfold norm2, norm1. set (a := fun k => Cmod (v k)). assert (forall k, 0 <= a k) as Ha by (intros; apply Cmod_ge_0).
  change (sqrt (rsum n (fun k => a k * a k)) <= rsum n a). generalize dependent a. clear v. intros a Ha.
  assert (0 <= rsum n a) as H0 by (apply rsum_nonneg; auto).
  rewrite <- (sqrt_square (rsum n a)) by exact H0. apply sqrt_le_1_alt. clear H0.
  revert a Ha. induction n as [|n IH]; intros a Ha; cbn [rsum]; [lra|].
  pose proof (IH (fun i => a (S i)) (fun i => Ha (S i))). pose proof (Ha O).
  assert (0 <= rsum n (fun i => a (S i))) by (apply rsum_nonneg; auto). nra.
Qed.

Section Ieee.
Context (ct : evaluation) (cosf sinf : double -> double) (HA : accurate cosf sinf).
Let HR := ieee_rounding ct cosf sinf HA.
Notation P := (ieee ct cosf sinf).
Notation vals := (FftError.vcs P (@B2R 53 1024)).

Lemma vals_entries x : vals x = map entry x.
Proof. reflexivity. Qed.

Lemma finite_all x : all_finite x <-> FftError.allfin P (fun d : double => is_finite d = true) x.
Proof.
  split.
  - intros H k Hk. apply H, nth_In, Hk.
  - intros H e He. destruct (In_nth _ _ (czero P) He) as (k & Hk & <-). apply H, Hk.
Qed.

Lemma dft_transform x k : dft (map entry x) k = transform (length x) (entries x) k.
Proof. unfold dft, transform. rewrite map_length. reflexivity. Qed.

Lemma idft_inverse x k : idft (map entry x) k = inverse (length x) (entries x) k.
Proof.
  unfold idft, inverse, dft. rewrite !map_length. f_equal.
  rewrite Cconj_csum. apply csum_ext. intros j Hj. rewrite nth_conj, Cconj_mult, Cconj_conj. f_equal.
  unfold omega. rewrite <- cis_opp. f_equal. unfold Rdiv. ring.
Qed.

Lemma size_ok l : (l <= 49)%nat -> (Z.of_nat (2 ^ l) <= K64)%Z /\ INR (2 ^ l) <= IZR (2 ^ 49).
Proof.
  intros H. assert (Z.of_nat (2 ^ l) <= 2 ^ 49)%Z as Hz.
  { rewrite Nat2Z.inj_pow. apply Z.pow_le_mono_r; lia. }
  split; [unfold K64; eapply Z.le_trans; [exact Hz|]; vm_compute; discriminate|].
  rewrite INR_IZR_INZ. apply IZR_le. exact Hz.
Qed.

Lemma grow_ieee m : (m <= 100)%nat -> grow u64 m <= 17.1 * INR m / 9007199254740992.
Proof. intros H. eapply Rle_trans; [apply (grow_linear P _ _ _ _ _ _ HR); exact H|]. unfold u64, Rdiv. lra. Qed.

Lemma grow_le1 l : (l <= 49)%nat -> grow u64 l <= 1.
Proof.
  intros H. eapply Rle_trans; [apply grow_ieee; lia|]. assert (INR l <= 49) by (replace 49 with (INR 49) by (rewrite INR_IZR_INZ; reflexivity); apply le_INR; exact H). lra.
Qed.
End Ieee.

(** ** C51 *)
(** The forward transform of 2^l pairs of finite doubles: every entry of the result is finite and its error is at most
    17.1 l 2^-53 times the sum of the absolute values of the arguments (2^-64 for every argument is added for
    underflow); the Euclidean length of the error is at most 17.1 l 2^-53 times that of the exact result. *)
Theorem C51_transform : forall ct cosf sinf l fuel x, accurate cosf sinf -> (l < fuel)%nat -> (l <= 49)%nat ->
  length x = (2 ^ l)%nat -> all_finite x ->
  let n := (2 ^ l)%nat in let v := entries x in norm1 n v <= IZR (2 ^ 140) ->
  exists y, fft_complex (ieee ct cosf sinf) fuel x = Some y /\ length y = n /\ all_finite y /\
    (forall k, (k < n)%nat -> Cmod (entries y k - transform n v k)%C <=
       17.1 * INR l / 9007199254740992 * (norm1 n v + INR n / 18446744073709551616)) /\
    norm2 n (fun k => entries y k - transform n v k)%C <=
       17.1 * INR l / 9007199254740992 * (sqrt (INR n) * (norm2 n v + sqrt (INR n) / 18446744073709551616)).
Proof.
  intros ct cosf sinf l fuel x HA Hf Hl Lx Fx n v H1. pose proof (ieee_rounding ct cosf sinf HA) as HR.
  destruct (size_ok l Hl) as [HK HN]. fold n in HK, HN. pose proof (norm1_nonneg n v) as P1.
  assert (0 <= INR n) as PN by apply pos_INR.
  assert (exists o q, o = IZR (2 ^ 49) /\ q = IZR (2 ^ 140) /\ o <= Om64 / 64 /\ q <= Om64 / 64 /\ 64 <= Om64) as (o & q & Eo & Eq & O1 & O2 & O3).
  { exists (IZR (2 ^ 49)), (IZR (2 ^ 140)). split; [reflexivity|]. split; [reflexivity|]. unfold Om64.
    assert (64 * IZR (2 ^ 140) <= IZR (2 ^ 200)) by (rewrite <- mult_IZR; apply IZR_le; vm_compute; discriminate).
    assert (64 * IZR (2 ^ 49) <= IZR (2 ^ 200)) by (rewrite <- mult_IZR; apply IZR_le; vm_compute; discriminate).
    assert (64 <= IZR (2 ^ 200)) by (apply IZR_le; vm_compute; discriminate). repeat split; lra. }
  rewrite <- Eo in HN. rewrite <- Eq in H1.
  assert (s1 n v = norm1 n v + INR n / 18446744073709551616) as Es1 by (unfold s1, norm1, tiny, Rdiv; ring).
  assert (s2 n v = norm2 n v + sqrt (INR n) / 18446744073709551616) as Es2 by (unfold s2, norm2, nrm, tiny, Rdiv; ring).
  pose proof (fft_near _ _ _ _ _ _ _ HR l fuel x Hf Lx (proj1 (finite_all ct cosf sinf x) Fx)) as FN. cbv zeta in FN. fold n in FN.
  rewrite (vals_entries ct cosf sinf) in FN. change (fun k => nth k (map entry x) (RtoC 0)) with v in FN.
  destruct FN as (y & Ey & Ly & Ny & Dy); [exact HK|lra|apply (grow_le1 ct cosf sinf HA l Hl)|rewrite Es1; lra|].
  exists y. split; [exact Ey|]. split; [exact Ly|].
  pose proof (grow_ieee ct cosf sinf HA l ltac:(lia)) as Hg.
  assert (forall k, (k < n)%nat -> entries y k = entry (nth k y (czero (ieee ct cosf sinf)))) as Yk.
  { intros k Hk. unfold entries. rewrite nth_indep with (d' := entry (czero (ieee ct cosf sinf))) by (rewrite map_length; exact (eq_ind_r (fun m => (k < m)%nat) Hk Ly)). apply map_nth. }
  assert (forall k, dft (map entry x) k = transform n v k) as Tk.
  { intros k. rewrite dft_transform, Lx. reflexivity. }
  assert (0 <= s1 n v) as P1' by apply s1_nonneg. assert (0 <= s2 n v) as P2' by apply s2_nonneg.
  split; [|split].
  - apply (finite_all ct cosf sinf). intros k Hk. apply Ny. lia.
  - intros k Hk. rewrite <- Es1, <- Tk, Yk by exact Hk. destruct (Ny k Hk) as [_ D].
    eapply Rle_trans; [exact D|]. apply Rmult_le_compat_r; assumption.
  - rewrite <- Es2. unfold norm2. change (sqrt (rsum n (fun k => Cmod (entries y k - transform n v k)%C * Cmod (entries y k - transform n v k)%C)))
      with (nrm n (fun k => Cmod (entries y k - transform n v k)%C)).
    rewrite (nrm_ext n _ (fun k => Cmod (vc (ieee ct cosf sinf) (@B2R 53 1024) (nth k y (czero (ieee ct cosf sinf))) - dft (map entry x) k)%C)).
    + eapply Rle_trans; [exact Dy|]. apply Rmult_le_compat_r; [|exact Hg]. apply Rmult_le_pos; [apply sqrt_pos|assumption].
    + intros k Hk. rewrite Tk, Yk by exact Hk. reflexivity.
Qed.
Print Assumptions C51_transform.

(** The inverse transform *)
Theorem C51_inverse : forall ct cosf sinf l fuel y, accurate cosf sinf -> (l < fuel)%nat -> (l <= 49)%nat ->
  length y = (2 ^ l)%nat -> all_finite y ->
  let n := (2 ^ l)%nat in let v := entries y in norm1 n v <= IZR (2 ^ 140) ->
  exists z, ifft_complex (ieee ct cosf sinf) fuel y = Some z /\ length z = n /\ all_finite z /\
    norm2 n (fun k => entries z k - inverse n v k)%C <=
       17.1 * (INR l + 1) / 9007199254740992 * (norm2 n v / sqrt (INR n) + (1 + sqrt (INR n)) / 18446744073709551616).
Proof.
  intros ct cosf sinf l fuel y HA Hf Hl Ly Fy n v H1. pose proof (ieee_rounding ct cosf sinf HA) as HR.
  destruct (size_ok l Hl) as [HK HN]. fold n in HK, HN. pose proof (norm1_nonneg n v) as P1.
  assert (0 < INR n) as PN by (apply lt_0_INR; unfold n; pose proof (Nat.pow_nonzero 2 l); lia).
  assert (exists o q, o = IZR (2 ^ 49) /\ q = IZR (2 ^ 140) /\ o <= Om64 / 64 /\ q <= Om64 / 64 /\ 64 <= Om64) as (o & q & Eo & Eq & O1 & O2 & O3).
  { exists (IZR (2 ^ 49)), (IZR (2 ^ 140)). split; [reflexivity|]. split; [reflexivity|]. unfold Om64.
    assert (64 * IZR (2 ^ 140) <= IZR (2 ^ 200)) by (rewrite <- mult_IZR; apply IZR_le; vm_compute; discriminate).
    assert (64 * IZR (2 ^ 49) <= IZR (2 ^ 200)) by (rewrite <- mult_IZR; apply IZR_le; vm_compute; discriminate).
    assert (64 <= IZR (2 ^ 200)) by (apply IZR_le; vm_compute; discriminate). repeat split; lra. }
  rewrite <- Eo in HN. rewrite <- Eq in H1.
  assert (s1 n v = norm1 n v + INR n / 18446744073709551616) as Es1 by (unfold s1, norm1, tiny, Rdiv; ring).
  pose proof (sqrt_lt_R0 (INR n) PN) as Prt.
  assert (s2 n v / sqrt (INR n) + tiny * sqrt (INR n) = norm2 n v / sqrt (INR n) + (1 + sqrt (INR n)) / 18446744073709551616) as Es2.
  { unfold s2, norm2, nrm, tiny. field. lra. }
  pose proof (ifft_near _ _ _ _ _ _ _ HR l fuel y Hf Ly (proj1 (finite_all ct cosf sinf y) Fy)) as FN. cbv zeta in FN. fold n in FN.
  rewrite (vals_entries ct cosf sinf) in FN. change (fun k => nth k (map entry y) (RtoC 0)) with v in FN.
  destruct FN as (z & Ez & Lz & Fz & Dz); [exact HK|lra|apply (grow_le1 ct cosf sinf HA l Hl)|rewrite Es1; lra|].
  exists z. split; [exact Ez|]. split; [exact Lz|]. split; [apply (finite_all ct cosf sinf); exact Fz|].
  pose proof (grow_ieee ct cosf sinf HA (S l) ltac:(lia)) as Hg. rewrite S_INR in Hg.
  assert (forall k, (k < n)%nat -> entries z k = entry (nth k z (czero (ieee ct cosf sinf)))) as Zk.
  { intros k Hk. unfold entries. rewrite nth_indep with (d' := entry (czero (ieee ct cosf sinf))) by (rewrite map_length; exact (eq_ind_r (fun m => (k < m)%nat) Hk Lz)). apply map_nth. }
  assert (forall k, idft (map entry y) k = inverse n v k) as Tk.
  { intros k. rewrite idft_inverse, Ly. reflexivity. }
  rewrite <- Es2. unfold norm2. change (sqrt (rsum n (fun k => Cmod (entries z k - inverse n v k)%C * Cmod (entries z k - inverse n v k)%C)))
    with (nrm n (fun k => Cmod (entries z k - inverse n v k)%C)).
  rewrite (nrm_ext n _ (fun k => Cmod (vc (ieee ct cosf sinf) (@B2R 53 1024) (nth k z (czero (ieee ct cosf sinf))) - idft (map entry y) k)%C)).
  - eapply Rle_trans; [exact Dz|]. apply Rmult_le_compat_r; [|exact Hg].
    assert (0 <= s2 n v / sqrt (INR n)) by (unfold Rdiv; apply Rmult_le_pos; [apply s2_nonneg|left; apply Rinv_0_lt_compat; exact Prt]).
    assert (0 <= tiny * sqrt (INR n)) by (apply Rmult_le_pos; [unfold tiny; lra|lra]). lra.
  - intros k Hk. rewrite Tk, Zk by exact Hk. reflexivity.
Qed.
Print Assumptions C51_inverse.

(** Forward and back: the Euclidean distance from the start is at most 17.1 (2l+1) 2^-53 times the Euclidean length. *)
Theorem C51_round_trip : forall ct cosf sinf l fuel x, accurate cosf sinf -> (l < fuel)%nat -> (l <= 49)%nat ->
  length x = (2 ^ l)%nat -> all_finite x ->
  let n := (2 ^ l)%nat in let v := entries x in norm1 n v <= IZR (2 ^ 140) ->
  exists y z, fft_complex (ieee ct cosf sinf) fuel x = Some y /\ ifft_complex (ieee ct cosf sinf) fuel y = Some z /\
    length z = n /\ all_finite z /\
    norm2 n (fun k => entries z k - v k)%C <=
       17.1 * (2 * INR l + 1) / 9007199254740992 * (norm2 n v + 2 * sqrt (INR n) / 18446744073709551616).
Proof.
  intros ct cosf sinf l fuel x HA Hf Hl Lx Fx n v H1. pose proof (ieee_rounding ct cosf sinf HA) as HR.
  destruct (size_ok l Hl) as [HK HN]. fold n in HK, HN. pose proof (norm1_nonneg n v) as P1. pose proof (norm2_le1 n v) as P12.
  assert (1 <= INR n) as PN by (change 1 with (INR 1); apply le_INR; apply pow2_pos).
  assert (exists o q, o = IZR (2 ^ 49) /\ q = IZR (2 ^ 140) /\ 1 <= o /\ o <= q /\ 128 * (o * q) <= Om64) as (o & q & Eo & Eq & O1 & O2 & O3).
  { exists (IZR (2 ^ 49)), (IZR (2 ^ 140)). split; [reflexivity|]. split; [reflexivity|]. unfold Om64.
    split; [apply IZR_le; vm_compute; discriminate|]. split; [apply IZR_le; vm_compute; discriminate|].
    rewrite <- !mult_IZR. apply IZR_le. vm_compute. discriminate. }
  rewrite <- Eo in HN. rewrite <- Eq in H1.
  pose proof (sqrt_lt_R0 (INR n) ltac:(lra)) as Prt. pose proof (sqrt_sqrt (INR n) ltac:(lra)) as Ert.
  assert (sqrt (INR n) <= INR n) as Hrt.
  { assert (1 <= sqrt (INR n)) by (rewrite <- sqrt_1; apply sqrt_le_1_alt; exact PN). nra. }
  assert (s2 n v = norm2 n v + sqrt (INR n) / 18446744073709551616) as Es2 by (unfold s2, norm2, nrm, tiny, Rdiv; ring).
  assert (s2 n v + tiny * sqrt (INR n) = norm2 n v + 2 * sqrt (INR n) / 18446744073709551616) as Es3.
  { rewrite Es2. unfold tiny, Rdiv. ring. }
  assert (32 * (INR n * (s2 n v + 1)) <= Om64) as HO.
  { rewrite Es2. assert (norm2 n v + sqrt (INR n) / 18446744073709551616 + 1 <= 3 * q) as H3 by lra.
    assert (0 <= norm2 n v) by apply sqrt_pos.
    assert (INR n * (norm2 n v + sqrt (INR n) / 18446744073709551616 + 1) <= o * (3 * q)) by (apply Rmult_le_compat; lra). nra. }
  pose proof (round_trip_near _ _ _ _ _ _ _ HR l fuel x Hf Lx (proj1 (finite_all ct cosf sinf x) Fx)) as FN. cbv zeta in FN. fold n in FN.
  rewrite (vals_entries ct cosf sinf) in FN. change (fun k => nth k (map entry x) (RtoC 0)) with v in FN.
  destruct (FN HK (grow_le1 ct cosf sinf HA l Hl) HO) as (y & z & Ey & Ez & Lz & Fz & Dz). clear FN.
  exists y, z. split; [exact Ey|]. split; [exact Ez|]. split; [exact Lz|]. split; [apply (finite_all ct cosf sinf); exact Fz|].
  pose proof (grow_ieee ct cosf sinf HA (2 * l + 1) ltac:(lia)) as Hg.
  replace (INR (2 * l + 1)) with (2 * INR l + 1) in Hg by (rewrite plus_INR, mult_INR; reflexivity).
  assert (forall k, (k < n)%nat -> entries z k = entry (nth k z (czero (ieee ct cosf sinf)))) as Zk.
  { intros k Hk. unfold entries. rewrite nth_indep with (d' := entry (czero (ieee ct cosf sinf))) by (rewrite map_length; exact (eq_ind_r (fun m => (k < m)%nat) Hk Lz)). apply map_nth. }
  rewrite <- Es3. unfold norm2. change (sqrt (rsum n (fun k => Cmod (entries z k - v k)%C * Cmod (entries z k - v k)%C)))
    with (nrm n (fun k => Cmod (entries z k - v k)%C)).
  rewrite (nrm_ext n _ (fun k => Cmod (vc (ieee ct cosf sinf) (@B2R 53 1024) (nth k z (czero (ieee ct cosf sinf))) - nth k (map entry x) (RtoC 0))%C)).
  - eapply Rle_trans; [exact Dz|]. apply Rmult_le_compat_r; [|exact Hg].
    assert (0 <= s2 n v) by apply s2_nonneg.
    assert (0 <= tiny * sqrt (INR n)) by (apply Rmult_le_pos; [unfold tiny; lra|lra]). lra.
  - intros k Hk. rewrite Zk by exact Hk. reflexivity.
Qed.
Print Assumptions C51_round_trip.

(** Any 2^l integers of at most 53 bits, l at most 49, meet the hypotheses. *)
Example C51_case : forall l (a : list Z), (l <= 49)%nat -> length a = (2 ^ l)%nat -> (forall z, In z a -> (Z.abs z <= 2 ^ 53)%Z) ->
  let x := map (fun z => (mk_double z 0, mk_double 0 0)) a in
  length x = (2 ^ l)%nat /\ all_finite x /\ norm1 (2 ^ l) (entries x) <= IZR (2 ^ 140) /\
  forall k, (k < 2 ^ l)%nat -> entries x k = RtoC (IZR (nth k a 0%Z)).
Proof.
  intros l a Hl La Ha x. assert (length x = (2 ^ l)%nat) as Lx by (unfold x; rewrite map_length; exact La).
  destruct (ofZ64 0 ltac:(lia)) as [F0 V0].
  assert (forall k, (k < 2 ^ l)%nat -> entries x k = RtoC (IZR (nth k a 0%Z))) as E.
  { intros k Hk. unfold entries, x. rewrite map_map.
    rewrite nth_indep with (d' := entry (mk_double 0 0, mk_double 0 0)) by (rewrite map_length, La; exact Hk).
    rewrite (map_nth (fun z => entry (mk_double z 0, mk_double 0 0)) a 0%Z k). unfold entry. cbn [fst snd].
    destruct (ofZ64 (nth k a 0%Z) (Ha _ (nth_In a 0%Z (eq_ind_r (fun m => (k < m)%nat) Hk La)))) as [_ ->]. rewrite V0. reflexivity. }
  split; [exact Lx|]. split; [|split; [|exact E]].
  - intros e He. unfold x in He. apply in_map_iff in He. destruct He as (z & <- & Hz). cbn [fst snd].
    split; [apply (ofZ64 z (Ha z Hz))|exact F0].
  - apply Rle_trans with (rsum (2 ^ l) (fun _ => IZR (2 ^ 53))).
    + apply rsum_le. intros k Hk. rewrite E by exact Hk. rewrite Cmod_R, <- abs_IZR. apply IZR_le, Ha, nth_In. rewrite La. exact Hk.
    + rewrite rsum_const. destruct (size_ok l Hl) as [_ HN]. apply Rle_trans with (IZR (2 ^ 49) * IZR (2 ^ 53)).
      * apply Rmult_le_compat_r; [apply IZR_le; lia|exact HN].
      * rewrite <- mult_IZR. apply IZR_le. vm_compute. discriminate.
Qed.

(** The round trip is not exact, and the error is relative to the whole sequence, not to each entry: with a library
    whose cosine of minus zero is 1 and whose sine is minus zero (as C requires), 2^53, 1 comes back as 2^53, 1/2. *)
Definition minus_zero : double := B754_zero true.

Lemma fft_two P (a b : cplx P) : fft_complex P 2 [a; b] =
  Some [cadd P a (cmul P (SumSite 2 0) (twiddle P 2 0) b); csub P a (cmul P (DifferenceSite 2 0) (twiddle P 2 0) b)].
Proof. reflexivity. Qed.
Lemma ifft_two P (a b : cplx P) : ifft_complex P 2 [a; b] =
  Some (map (fun e => cdivr P (cconj P e) (fofZ P 2))
    [cadd P (cconj P a) (cmul P (SumSite 2 0) (twiddle P 2 0) (cconj P b));
     csub P (cconj P a) (cmul P (DifferenceSite 2 0) (twiddle P 2 0) (cconj P b))]).
Proof. reflexivity. Qed.

Theorem C51_exact_refuted : forall ct cosf sinf, cosf minus_zero = mk_double 1 0 -> sinf minus_zero = minus_zero ->
  let zero := mk_double 0 0 in
  let x := [(mk_double (2 ^ 53) 0, zero); (mk_double 1 0, zero)] in
  all_finite x /\ exists y z, fft_complex (ieee ct cosf sinf) 2 x = Some y /\ ifft_complex (ieee ct cosf sinf) 2 y = Some z /\
    entries z 0 = entries x 0 /\ entries x 1 = RtoC 1 /\ entries z 1 = RtoC (/ 2).
Proof.
  intros ct cosf sinf Hc Hs zero x.
  destruct (ofZ64 0 ltac:(lia)) as [F0 V0]. destruct (ofZ64 1 ltac:(lia)) as [F1 V1]. destruct (ofZ64 (2 ^ 53) ltac:(lia)) as [F2 V2].
  split.
  { intros e [<-|[<-|[]]]; cbn [fst snd]; auto. }
  assert (twiddle (ieee ct cosf sinf) 2 0 = (mk_double 1 0, minus_zero)) as T.
  { unfold twiddle. match goal with |- (fcos _ ?w, _) = _ => assert (w = minus_zero) as -> end.
    - apply B2SF_inj. vm_compute. reflexivity.
    - cbn [fcos fsin ieee]. rewrite Hc, Hs. reflexivity. }
  assert (forall e1 e2 d1 d2 : double, B2SF e1 = B2SF d1 -> B2SF e2 = B2SF d2 -> (e1, e2) = (d1, d2)) as Eq.
  { intros e1 e2 d1 d2 H1 H2. apply B2SF_inj in H1. apply B2SF_inj in H2. congruence. }
  exists [(mk_double (2 ^ 53) 0, zero); (mk_double (2 ^ 53 - 1) 0, zero)], [(mk_double (2 ^ 53) 0, zero); (mk_double 1 (-1), minus_zero)].
  split; [|split; [|split; [|split]]].
  - assert (forall s, cmul (ieee ct cosf sinf) s (mk_double 1 0, minus_zero) (mk_double 1 0, zero) = (mk_double 1 0, zero)) as M1.
    { intros s. unfold cmul. cbn [fdet fdot fnan ieee fst snd]. destruct (fusing_at ct s) as [[] []]; apply Eq; vm_compute; reflexivity. }
    unfold x. rewrite fft_two, T, !M1. f_equal. f_equal; [|f_equal].
    + apply Eq; vm_compute; reflexivity.
    + apply Eq; vm_compute; reflexivity.
  - assert (forall s, cmul (ieee ct cosf sinf) s (mk_double 1 0, minus_zero) (cconj (ieee ct cosf sinf) (mk_double (2 ^ 53 - 1) 0, zero)) =
      (mk_double (2 ^ 53 - 1) 0, minus_zero)) as M2.
    { intros s. unfold cmul. cbn [fdet fdot fnan ieee fst snd cconj fneg]. destruct (fusing_at ct s) as [[] []]; apply Eq; vm_compute; reflexivity. }
    rewrite ifft_two, T, !M2. cbn [map]. f_equal. f_equal; [|f_equal].
    + apply Eq; vm_compute; reflexivity.
    + apply Eq; vm_compute; reflexivity.
  - reflexivity.
  - unfold entries, x. cbn [map nth]. unfold entry. cbn [fst snd]. rewrite V1. unfold zero. rewrite V0. reflexivity.
  - unfold entries. cbn [map nth]. unfold entry. cbn [fst snd minus_zero B2R].
    destruct (exact_double 1 (-1) ltac:(lia) ltac:(lia)) as [_ ->]. unfold F2R, RtoC. cbn [Fnum Fexp]. f_equal.
    replace (bpow radix2 (-1)) with (/ 2) by reflexivity. ring.
Qed.
Print Assumptions C51_exact_refuted.
