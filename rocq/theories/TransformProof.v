(** * The transforms in rounded arithmetic: inverse and round trip *)
From Coq Require Import ZArith Reals Lra Lia List Arith.
From Coquelicot Require Import Complex.
From Verif Require Import Base Fourier Dft Norm FloatModel FftError ConvError.
Import ListNotations.
Open Scope R_scope.

(** the inverse transform *)
Definition idft (y : list C) (k : nat) : C := (Cconj (dft (map Cconj y) k) / RtoC (INR (length y)))%C.

Lemma idft_dft x k : (k < length x)%nat -> idft (dft_list x) k = nth k x (RtoC 0).
Proof.
  intros Hk. unfold idft. rewrite dft_inverse, dft_list_length by exact Hk. field.
  intros E. apply RtoC_inj in E. assert (0 < INR (length x)) by (apply lt_0_INR; lia). lra.
Qed.

Definition ldiff (x y : list C) : list C := map (fun j => nth j x (RtoC 0) - nth j y (RtoC 0))%C (seq 0 (length x)).
Lemma ldiff_length x y : length (ldiff x y) = length x.
Proof. unfold ldiff. rewrite map_length. apply seq_length. Qed.
Lemma ldiff_nth x y k : (k < length x)%nat -> nth k (ldiff x y) (RtoC 0) = (nth k x (RtoC 0) - nth k y (RtoC 0))%C.
Proof. intros H. unfold ldiff. rewrite nth_map_seq by exact H. reflexivity. Qed.

Lemma dft_ldiff x y k : length x = length y -> dft (ldiff x y) k = (dft x k - dft y k)%C.
Proof.
  intros L. unfold dft. rewrite ldiff_length, <- L. set (n := length x).
  replace (csum n (fun j => nth j x (RtoC 0) * omega n (j * k)) - csum n (fun j => nth j y (RtoC 0) * omega n (j * k)))%C
    with (csum n (fun j => nth j x (RtoC 0) * omega n (j * k) + - RtoC 1 * (nth j y (RtoC 0) * omega n (j * k))))%C
    by (rewrite csum_add, csum_scale; ring).
  apply csum_ext. intros j Hj. rewrite ldiff_nth by exact Hj. ring.
Qed.

Lemma Cmod_minus_conj (a b : C) : Cmod (Cconj a - Cconj b)%C = Cmod (a - b)%C.
Proof. rewrite <- (Cmod_conj (a - b)%C). f_equal. unfold Cconj, Cminus, Cplus, Copp. cbn [fst snd]. f_equal; ring. Qed.

Lemma Cconj_minus (a b : C) : (Cconj a - Cconj b = Cconj (a - b))%C.
Proof. unfold Cconj, Cminus, Cplus, Copp. cbn [fst snd]. f_equal; ring. Qed.

Lemma map_conj_ldiff x y : length x = length y -> map Cconj (ldiff x y) = ldiff (map Cconj x) (map Cconj y).
Proof.
  intros L. unfold ldiff. rewrite map_map, map_length. apply map_ext. intros j. rewrite !nth_conj. symmetry. apply Cconj_minus.
Qed.

(** Parseval for differences of inverse transforms *)
Lemma idft_diff_nrm l x y : length x = (2 ^ l)%nat -> length y = (2 ^ l)%nat -> let n := (2 ^ l)%nat in
  nrm n (fun k => Cmod (idft x k - idft y k)%C) = / sqrt (INR n) * nrm n (fun k => Cmod (nth k x (RtoC 0) - nth k y (RtoC 0))%C).
Proof.
  intros Lx Ly n. assert (0 < INR n) as Hn by (apply lt_0_INR; unfold n; pose proof (Nat.pow_nonzero 2 l); lia).
  pose proof (sqrt_sqrt (INR n) ltac:(lra)) as Ert. pose proof (sqrt_lt_R0 (INR n) Hn) as Hrt.
  assert (RtoC (INR n) <> RtoC 0) as Hn0 by (intros E; apply RtoC_inj in E; lra).
  rewrite (nrm_ext n _ (fun k => / INR n * Cmod (dft (map Cconj (ldiff x y)) k))).
  - rewrite nrm_scale by (left; apply Rinv_0_lt_compat; exact Hn).
    unfold n. rewrite (dft_parseval l) by (rewrite map_length, ldiff_length; exact Lx). fold n.
    rewrite (nrm_ext n (fun k => Cmod (nth k (map Cconj (ldiff x y)) (RtoC 0))) (fun k => Cmod (nth k x (RtoC 0) - nth k y (RtoC 0))%C)).
    + rewrite <- Ert at 1. field. lra.
    + intros k Hk. rewrite nth_conj, Cmod_conj, ldiff_nth by (rewrite Lx; exact Hk). reflexivity.
  - intros k Hk. unfold idft. rewrite Lx, Ly. fold n. rewrite map_conj_ldiff by congruence.
    rewrite dft_ldiff by (rewrite !map_length; congruence).
    replace (Cconj (dft (map Cconj x) k) / RtoC (INR n) - Cconj (dft (map Cconj y) k) / RtoC (INR n))%C
      with ((Cconj (dft (map Cconj x) k) - Cconj (dft (map Cconj y) k)) / RtoC (INR n))%C by (field; exact Hn0).
    rewrite Cmod_div by exact Hn0. rewrite Cmod_minus_conj, Cmod_R, Rabs_right by lra. field. lra.
Qed.

Lemma s1_s2 n x : s1 n x <= sqrt (INR n) * s2 n x.
Proof.
  unfold s1, s2. pose proof (sqrt_sqrt (INR n) (pos_INR n)) as E.
  assert (rsum n (fun k => Cmod (x k)) <= sqrt (INR n) * nrm n (fun k => Cmod (x k))) as H.
  { rewrite (rsum_ext n _ (fun k => Cmod (x k) * 1)) by (intros; ring).
    eapply Rle_trans; [apply (rsum_prod n (fun k => Cmod (x k)) (fun _ => 1))|]. rewrite nrm_const by lra. lra. }
  replace (tiny * INR n) with (sqrt (INR n) * (tiny * sqrt (INR n))) by (rewrite <- E at 3; ring). lra.
Qed.

Section Error.
Context (P : flops) (val : F P -> R) (fin : F P -> Prop) (rnd : R -> R) (u Om : R) (K : Z).
Hypothesis HR : rounding P val fin rnd u Om K.
Notation vc := (vc P val).
Notation vcs := (vcs P val).
Notation cfin := (cfin P fin).
Notation allfin := (allfin P fin).
Notation grow := (grow u).
Let Hu : 0 <= u <= / 1048576 := FftError.Hu P val fin rnd u Om K HR.
Let Ht : 0 < tiny < / 1000.
Proof. unfold tiny. lra. Qed.

(** one entry of the inverse transform: conjugate and divide by n *)
Lemma divide_near n w : (1 <= n)%nat -> (Z.of_nat n <= K)%Z -> cfin w -> Cmod (vc w) <= Om ->
  let z := cdivr P (cconj P w) (fofZ P (Z.of_nat n)) in
  cfin z /\ Cmod (vc z - Cconj (vc w) / RtoC (INR n))%C <= u * (Cmod (vc w) / INR n) + u * (1.4143 * tiny).
Proof.
  intros Hn HK Fw HO z. destruct (cconj_val P val fin rnd u Om K HR w Fw) as [[F1 F2] Vc].
  destruct (r_ofZ _ _ _ _ _ _ _ HR (Z.of_nat n) ltac:(lia)) as [Gn Vn]. rewrite <- INR_IZR_INZ in Vn.
  assert (1 <= INR n) as HN by (change 1 with (INR 1); apply le_INR; exact Hn). set (N := INR n) in *.
  assert (0 < / N <= 1) as HiN by (split; [apply Rinv_0_lt_compat; lra|rewrite <- Rinv_1; apply Rinv_le_contravar; lra]).
  set (a := val (fst (cconj P w))) in *. set (b := val (snd (cconj P w))) in *.
  assert (Cconj (vc w) = (a, b)) as Eab by (rewrite <- Vc; reflexivity).
  assert (Cmod (vc w) = Cmod (a, b)) as EM by (rewrite <- Cmod_conj, Eab; reflexivity).
  assert (Rabs a <= Cmod (vc w)) as Ha by (rewrite EM; exact (re_le_Cmod (a, b))).
  assert (Rabs b <= Cmod (vc w)) as Hb by (rewrite EM; exact (im_le_Cmod (a, b))).
  assert (forall t, Rabs t <= Cmod (vc w) -> Rabs (t / N) <= Om) as Bd.
  { intros t Htt. unfold Rdiv. rewrite Rabs_mult, (Rabs_right (/ N)) by lra. pose proof (Rabs_pos t). nra. }
  destruct (r_div _ _ _ _ _ _ _ HR _ _ F1 Gn ltac:(rewrite Vn; lra) ltac:(rewrite Vn; apply Bd; exact Ha)) as [G1 V1].
  destruct (r_div _ _ _ _ _ _ _ HR _ _ F2 Gn ltac:(rewrite Vn; lra) ltac:(rewrite Vn; apply Bd; exact Hb)) as [G2 V2].
  rewrite Vn in V1, V2. fold a in V1. fold b in V2.
  split; [split; assumption|].
  pose proof (r_err _ _ _ _ _ _ _ HR _ (Bd a Ha)) as E1. pose proof (r_err _ _ _ _ _ _ _ HR _ (Bd b Hb)) as E2.
  assert ((vc z - Cconj (vc w) / RtoC N)%C = (rnd (a / N) - a / N, rnd (b / N) - b / N)) as ->.
  { rewrite Eab. unfold FftError.vc, z, cdivr. cbn [fst snd]. fold a b. rewrite V1, V2.
    unfold Cdiv, Cinv, RtoC, Cminus, Cplus, Copp, Cmult. cbn [fst snd]. f_equal; field; lra. }
  eapply Rle_trans; [apply (Cmod_le_comp _ _ _ _ E1 E2)|].
  replace (u * (Rabs (a / N) + tiny)) with (u * Rabs (a / N) + u * tiny) by ring.
  replace (u * (Rabs (b / N) + tiny)) with (u * Rabs (b / N) + u * tiny) by ring.
  eapply Rle_trans; [apply Cmod_pair_add|]. rewrite Cmod_scale_abs by lra. apply Rplus_le_compat.
  - apply Rmult_le_compat_l; [lra|]. rewrite EM. apply Req_le.
    assert ((a / N, b / N) = ((a, b) / RtoC N)%C) as ->.
    { unfold Cdiv, Cinv, RtoC, Cmult. cbn [fst snd]. f_equal; field; lra. }
    rewrite Cmod_div by (intros E; apply RtoC_inj in E; lra). rewrite Cmod_R, Rabs_right by lra. reflexivity.
  - assert (0 <= u * tiny) as Hut by nra. eapply Rle_trans; [apply (Cmod_pair_le _ _ (u * tiny)); rewrite Rabs_right; lra|]. lra.
Qed.

(** the inverse transform of the same doubles *)
Lemma ifft_near l fuel yh : (l < fuel)%nat -> length yh = (2 ^ l)%nat -> allfin yh ->
  let n := (2 ^ l)%nat in let y := fun k => nth k (vcs yh) (RtoC 0) in
  (Z.of_nat n <= K)%Z -> 16 * INR n <= Om -> grow l <= 1 -> 16 * (s1 n y + 1) <= Om ->
  exists zh, ifft_complex P fuel yh = Some zh /\ length zh = n /\ allfin zh /\
    nrm n (fun k => Cmod (vc (nth k zh (czero P)) - idft (vcs yh) k)%C) <=
      grow (S l) * (s2 n y / sqrt (INR n) + tiny * sqrt (INR n)).
Proof.
  intros Hf Ly Fy n y HK HO Hg H16.
  assert (1 <= n)%nat as Hn0 by apply pow2_pos.
  assert (1 <= INR n) as Hn1 by (change 1 with (INR 1); apply le_INR; exact Hn0).
  pose proof (sqrt_sqrt (INR n) ltac:(lra)) as Ert.
  assert (1 <= sqrt (INR n)) as Hrt by (rewrite <- sqrt_1; apply sqrt_le_1_alt; exact Hn1).
  destruct (conj_vcs P val fin rnd u Om K HR yh Fy) as [Fc Vc].
  set (ch := map (cconj P) yh) in *. assert (length ch = n) as Lc by (unfold ch; rewrite map_length; exact Ly).
  assert (forall k, Cmod (nth k (vcs ch) (RtoC 0)) = Cmod (y k)) as Ec.
  { intros k. rewrite Vc, nth_conj, Cmod_conj. reflexivity. }
  assert (s1 n (fun k => nth k (vcs ch) (RtoC 0)) = s1 n y) as Es1 by (unfold s1; f_equal; apply rsum_ext; intros; apply Ec).
  assert (s2 n (fun k => nth k (vcs ch) (RtoC 0)) = s2 n y) as Es2 by (unfold s2; f_equal; apply nrm_ext; intros; apply Ec).
  pose proof (fft_near P val fin rnd u Om K HR l fuel ch Hf Lc Fc) as FN. cbv zeta in FN. fold n in FN. rewrite Es1, Es2 in FN.
  destruct (FN HK HO Hg H16) as (wh & Ew & Lw & Nw & Dw). clear FN.
  unfold ifft_complex. fold ch. rewrite Ew. eexists. split; [reflexivity|]. split; [rewrite map_length; exact Lw|].
  rewrite Lw. set (h := fun e : cplx P => cdivr P (cconj P e) (fofZ P (Z.of_nat n))).
  assert (forall k, (k < n)%nat -> nth k (map h wh) (czero P) = h (nth k wh (czero P))) as Eh.
  { intros k Hk. rewrite nth_indep with (d' := h (czero P)) by (rewrite map_length; lia). apply map_nth. }
  pose proof (grow_pos P val fin rnd u Om K HR l) as Pg. set (g := grow l) in *.
  assert (forall k, (k < n)%nat -> Cmod (vc (nth k wh (czero P))) <= Om) as Bw.
  { intros k Hk. destruct (Nw k Hk) as [_ D]. pose proof (Cmod_via (vc (nth k wh (czero P))) (dft (vcs ch) k)) as H1.
    pose proof (dft_rsum (vcs ch) k) as H2. rewrite vcs_length, Lc in H2.
    assert (rsum n (fun i => Cmod (nth i (vcs ch) (RtoC 0))) <= s1 n y) as H3.
    { rewrite <- Es1. unfold s1. nra. }
    pose proof (s1_nonneg n y). nra. }
  pose proof (fun k Hk => divide_near n (nth k wh (czero P)) Hn0 HK (proj1 (Nw k Hk)) (Bw k Hk)) as Dv. cbv zeta in Dv.
  split.
  { intros k Hk. rewrite map_length, Lw in Hk. rewrite Eh by exact Hk. apply Dv, Hk. }
  set (W := fun k => vc (nth k wh (czero P))) in *. set (D := dft (vcs ch)) in *. set (N := INR n) in *. set (rt := sqrt N) in *.
  assert (0 < / N) as HiN by (apply Rinv_0_lt_compat; lra). assert (0 < / rt) as Hir by (apply Rinv_0_lt_compat; lra).
  assert (RtoC N <> RtoC 0) as HN0 by (intros E; apply RtoC_inj in E; lra).
  assert (nrm n (fun k => Cmod (W k)) <= rt * nrm n (fun k => Cmod (y k)) + g * (rt * s2 n y)) as HW.
  { eapply Rle_trans; [apply (nrm_bound2 n _ (fun k => Cmod (D k)) (fun k => Cmod (W k - D k)%C))|].
    - intros k Hk. split; [apply Cmod_ge_0|apply Cmod_via].
    - apply Rplus_le_compat; [|exact Dw]. unfold D, n. rewrite (dft_parseval l) by (rewrite vcs_length; exact Lc). fold n.
      apply Req_le. fold N rt. f_equal. apply nrm_ext. intros; apply Ec. }
  assert (nrm n (fun k => Cmod (vc (nth k (map h wh) (czero P)) - idft (vcs yh) k)%C) <=
    nrm n (fun k => u / N * Cmod (W k)) + nrm n (fun _ => u * (1.4143 * tiny)) + nrm n (fun k => / N * Cmod (W k - D k)%C)) as HB.
  { apply nrm_bound3. intros k Hk. split; [apply Cmod_ge_0|]. rewrite Eh by exact Hk.
    destruct (Dv k Hk) as [_ E1]. fold (W k) in E1.
    eapply Rle_trans; [apply (Cmod_tri3 _ (Cconj (W k) / RtoC N)%C)|]. apply Rplus_le_compat.
    - eapply Rle_trans; [exact E1|]. apply Req_le. unfold Rdiv. ring.
    - unfold idft. rewrite vcs_length, Ly. fold n N. rewrite <- Vc. fold D.
      replace (Cconj (W k) / RtoC N - Cconj (D k) / RtoC N)%C with ((Cconj (W k) - Cconj (D k)) / RtoC N)%C by (field; exact HN0).
      rewrite Cmod_div by exact HN0. rewrite Cmod_minus_conj, Cmod_R, Rabs_right by lra. apply Req_le. unfold Rdiv. ring. }
  eapply Rle_trans; [exact HB|]. clear HB.
  rewrite nrm_scale by (unfold Rdiv; nra). rewrite nrm_const by nra. rewrite nrm_scale by lra. fold N rt.
  rewrite grow_S. fold g.
  assert (nrm n (fun k => Cmod (y k)) <= s2 n y) as H2.
  { unfold s2. fold N rt. nra. }
  pose proof (s2_nonneg n y) as H3. pose proof (nrm_nonneg n (fun k => Cmod (y k))) as H4.
  assert (/ N * rt = / rt) as ENr by (rewrite <- Ert; field; lra).
  assert (u / N * nrm n (fun k => Cmod (W k)) <= u * ((1 + g) * (s2 n y * / rt))) as K1.
  { unfold Rdiv. rewrite Rmult_assoc. apply Rmult_le_compat_l; [lra|].
    eapply Rle_trans; [apply Rmult_le_compat_l; [lra|exact HW]|].
    replace (/ N * (rt * nrm n (fun k => Cmod (y k)) + g * (rt * s2 n y))) with ((/ N * rt) * (nrm n (fun k => Cmod (y k)) + g * s2 n y)) by ring.
    rewrite ENr. assert (nrm n (fun k => Cmod (y k)) + g * s2 n y <= (1 + g) * s2 n y) as H5 by lra.
    eapply Rle_trans; [apply Rmult_le_compat_l; [lra|exact H5]|]. lra. }
  assert (/ N * nrm n (fun k => Cmod (W k - D k)%C) <= g * (s2 n y * / rt)) as K3.
  { eapply Rle_trans; [apply Rmult_le_compat_l; [lra|exact Dw]|]. fold N rt.
    replace (/ N * (g * (rt * s2 n y))) with ((/ N * rt) * (g * s2 n y)) by ring. rewrite ENr. lra. }
  set (A := s2 n y * / rt) in *. assert (0 <= A) as HA by (unfold A; nra).
  unfold Rdiv. fold A. assert (0 <= u * (tiny * rt)) as K4 by (apply Rmult_le_pos; nra).
  assert (0 <= u * (g * (tiny * rt))) as K5 by (apply Rmult_le_pos; [lra|]; apply Rmult_le_pos; nra).
  assert (0 <= g * (tiny * rt)) as K6 by (apply Rmult_le_pos; nra).
  assert (0 <= u * ((1 + g) * A)) as K7 by (apply Rmult_le_pos; [lra|]; apply Rmult_le_pos; nra).
  lra.
Qed.

(** forward, then back *)
Lemma round_trip_near l fuel xh : (l < fuel)%nat -> length xh = (2 ^ l)%nat -> allfin xh ->
  let n := (2 ^ l)%nat in let x := fun k => nth k (vcs xh) (RtoC 0) in
  (Z.of_nat n <= K)%Z -> grow l <= 1 -> 32 * (INR n * (s2 n x + 1)) <= Om ->
  exists yh zh, fft_complex P fuel xh = Some yh /\ ifft_complex P fuel yh = Some zh /\ length zh = n /\ allfin zh /\
    nrm n (fun k => Cmod (vc (nth k zh (czero P)) - x k)%C) <= grow (2 * l + 1) * (s2 n x + tiny * sqrt (INR n)).
Proof.
  intros Hf Lx Fx n x HK Hg HO.
  assert (1 <= n)%nat as Hn0 by apply pow2_pos.
  assert (1 <= INR n) as Hn1 by (change 1 with (INR 1); apply le_INR; exact Hn0).
  pose proof (sqrt_sqrt (INR n) ltac:(lra)) as Ert.
  assert (1 <= sqrt (INR n)) as Hrt by (rewrite <- sqrt_1; apply sqrt_le_1_alt; exact Hn1).
  pose proof (s2_nonneg n x) as P2. pose proof (s1_s2 n x) as H12.
  set (N := INR n) in *. set (rt := sqrt N) in *.
  assert (rt <= N) as HrN by nra.
  pose proof (fft_near P val fin rnd u Om K HR l fuel xh Hf Lx Fx) as FN. cbv zeta in FN. fold n x N in FN.
  destruct FN as (yh & Ey & Ly & Ny & Dy); [exact HK|nra|exact Hg|nra|].
  assert (allfin yh) as Fy by (intros k Hk; apply Ny; lia).
  pose proof (grow_pos P val fin rnd u Om K HR l) as Pg. set (g := grow l) in *.
  set (y := fun k => nth k (vcs yh) (RtoC 0)).
  assert (forall k, (k < n)%nat -> y k = vc (nth k yh (czero P))) as Yk by (intros k Hk; apply vcs_nth; lia).
  assert (nrm n (fun k => Cmod (x k)) + tiny * rt = s2 n x) as E2 by reflexivity.
  assert (nrm n (fun k => Cmod (y k)) <= rt * nrm n (fun k => Cmod (x k)) + g * (rt * s2 n x)) as Hny.
  { eapply Rle_trans; [apply (nrm_bound2 n _ (fun k => Cmod (dft (vcs xh) k)) (fun k => Cmod (vc (nth k yh (czero P)) - dft (vcs xh) k)%C))|].
    - intros k Hk. split; [apply Cmod_ge_0|]. rewrite Yk by exact Hk. apply Cmod_via.
    - apply Rplus_le_compat; [|exact Dy]. unfold n. rewrite (dft_parseval l) by (rewrite vcs_length; exact Lx). fold n. apply Rle_refl. }
  assert (s2 n y <= rt * ((1 + g) * s2 n x)) as H2y.
  { unfold s2 at 1. fold N rt. set (nx := nrm n (fun k => Cmod (x k))) in *. set (sx := s2 n x) in *.
    assert (0 <= tiny * rt) by nra. assert (0 <= (rt - 1) * (tiny * rt)) by (apply Rmult_le_pos; lra).
    replace (rt * ((1 + g) * sx)) with (rt * (nx + tiny * rt) + g * (rt * sx)) by (rewrite <- E2; ring). lra. }
  assert (s1 n y <= N * (2 * s2 n x)) as H1y.
  { eapply Rle_trans; [apply s1_s2|]. fold N rt.
    eapply Rle_trans; [apply Rmult_le_compat_l; [lra|exact H2y]|]. rewrite <- Rmult_assoc, Ert. apply Rmult_le_compat_l; [lra|]. nra. }
  pose proof (ifft_near l fuel yh Hf Ly Fy) as FN. cbv zeta in FN. fold n y N rt in FN.
  destruct FN as (zh & Ez & Lz & Fz & Dz); [exact HK|nra|exact Hg|nra|].
  exists yh, zh. split; [exact Ey|]. split; [exact Ez|]. split; [exact Lz|]. split; [exact Fz|].
  assert (nrm n (fun k => Cmod (idft (vcs yh) k - x k)%C) <= g * s2 n x) as Dx.
  { rewrite (nrm_ext n _ (fun k => Cmod (idft (vcs yh) k - idft (dft_list (vcs xh)) k)%C)).
    - unfold n. rewrite (idft_diff_nrm l) by (rewrite ?vcs_length, ?dft_list_length, ?vcs_length; assumption). fold n N rt.
      rewrite (nrm_ext n _ (fun k => Cmod (vc (nth k yh (czero P)) - dft (vcs xh) k)%C)).
      + apply (Rmult_le_reg_l rt); [lra|]. rewrite <- Rmult_assoc, Rinv_r, Rmult_1_l by lra.
        replace (rt * (g * s2 n x)) with (g * (rt * s2 n x)) by ring. exact Dy.
      + intros k Hk. fold (y k). rewrite Yk by exact Hk. rewrite dft_list_nth by (rewrite vcs_length; lia). reflexivity.
    - intros k Hk. rewrite idft_dft by (rewrite vcs_length; lia). reflexivity. }
  eapply Rle_trans; [apply (nrm_bound2 n _ (fun k => Cmod (vc (nth k zh (czero P)) - idft (vcs yh) k)%C) (fun k => Cmod (idft (vcs yh) k - x k)%C))|].
  { intros k Hk. split; [apply Cmod_ge_0|apply Cmod_tri3]. }
  eapply Rle_trans; [apply Rplus_le_compat; [exact Dz|exact Dx]|].
  pose proof (grow_add u l (S l)) as Eg. replace (l + S l)%nat with (2 * l + 1)%nat in Eg by lia. fold g in Eg.
  pose proof (grow_pos P val fin rnd u Om K HR (S l)) as Pg1. set (g1 := grow (S l)) in *.
  replace (grow (2 * l + 1)) with ((1 + g) * (1 + g1) - 1) by lra.
  assert (s2 n y / rt <= (1 + g) * s2 n x) as H5.
  { unfold Rdiv. apply (Rmult_le_reg_r rt); [lra|]. rewrite Rmult_assoc, Rinv_l, Rmult_1_r by lra. lra. }
  assert (0 <= tiny * rt) as H6 by nra.
  assert (g1 * (s2 n y / rt + tiny * rt) <= g1 * ((1 + g) * s2 n x + tiny * rt)) as H7 by (apply Rmult_le_compat_l; lra).
  assert (0 <= (g + g * g1) * (tiny * rt)) as H8 by (apply Rmult_le_pos; nra).
  nra.
Qed.
End Error.
