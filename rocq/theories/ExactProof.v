(** * The transforms in exact arithmetic *)
From Coq Require Import ZArith Reals Lra Lia List Arith.
From Coquelicot Require Import Complex.
From Flocq Require Import Core.Raux.
From Verif Require Import Base Spec Limits Fourier Multiplication Conv Pow2Proof Dft FloatModel FftError ConvError Exact.
Import ListNotations.
Open Scope R_scope.

Lemma exact_rounding Om K : IZR K <= Om -> rounding exact (fun x => x) (fun _ => True) (fun x => x) 0 Om K.
Proof.
  intros HK. split; cbn; auto; try (intros; split; auto; fail).
  - lra.
  - intros z _. replace (z - z) with 0 by ring. rewrite Rabs_R0. lra.
  - intros s a b c d _ _ _ _ _ _. exists (a * b), (c * d). unfold maybe_rounded. auto 10.
  - intros s a b c d _ _ _ _ _ _. exists (a * b), (c * d). unfold maybe_rounded. auto 10.
  - intros x _ _. split; auto. replace (cos x - cos x) with 0 by ring. rewrite Rabs_R0. lra.
  - intros x _ _. split; auto. replace (sin x - sin x) with 0 by ring. rewrite Rabs_R0. lra.
  - intros n k Hk _ _. split; auto. unfold angle_of. rewrite <- !INR_IZR_INZ.
    replace (-2 * INR k * PI / INR n - -2 * PI * INR k / INR n) with 0 by (field; apply not_0_INR; lia). rewrite Rabs_R0. lra.
Qed.

Lemma grow0 l : grow 0 l = 0.
Proof. unfold grow. replace (1 + 17 * 0) with 1 by ring. rewrite pow1. ring. Qed.

Notation near0 := (near exact (fun x => x) (fun _ => True)).
Notation vcs0 := (vcs exact (fun x => x)).

Lemma Cminus_eq (x y : C) : (x - y)%C = RtoC 0 -> x = y.
Proof. intros E. replace x with ((x - y) + y)%C by ring. rewrite E. ring. Qed.

Lemma Cminus_same (x : C) : (x - x)%C = RtoC 0.
Proof. ring. Qed.

Lemma near0_eq (x : R * R) (y : C) e : e = 0 -> near0 e x y -> x = y.
Proof.
  intros -> [_ H]. destruct x as [x1 x2]. change (vc exact (fun x => x) (x1, x2)) with ((x1, x2) : C) in H.
  pose proof (Cmod_ge_0 ((x1, x2) - y)%C) as H0.
  assert (Cmod ((x1, x2) - y)%C = 0) as E by lra. apply Cmod_eq_0 in E.
  exact (Cminus_eq _ _ E).
Qed.

Lemma vcs0_eq (x : list (R * R)) : vcs0 x = x.
Proof. unfold vcs. rewrite <- (map_id x) at 2. apply map_ext. intros [a b]. reflexivity. Qed.

Lemma allfin0 (x : list (R * R)) : allfin exact (fun _ => True) x.
Proof. intros k _. split; exact I. Qed.

Theorem fft_exact l fuel (x : list C) : (l < fuel)%nat -> length x = (2 ^ l)%nat ->
  fft_complex exact fuel x = Some (dft_list x).
Proof.
  intros Hf Hl. set (K := Z.of_nat (2 ^ l)). set (s := s1 (2 ^ l) (fun k => nth k (vcs0 x) (RtoC 0))).
  assert (0 <= s) as Hs by apply s1_nonneg.
  set (Om := 16 * (s + 1) + 16 * INR (2 ^ l)).
  assert (1 <= INR (2 ^ l)) as HI by (change 1 with (INR 1); apply le_INR, pow2_pos).
  assert (IZR K <= Om) as HK by (unfold Om, K; rewrite <- INR_IZR_INZ; lra).
  destruct (fft_near exact (fun x => x) (fun _ => True) (fun x => x) 0 Om K (exact_rounding Om K HK)
    l fuel x Hf Hl (allfin0 x)) as (y & E & L & N & _).
  - unfold K. lia.
  - unfold Om. lra.
  - rewrite grow0. lra.
  - fold s. unfold Om. lra.
  - rewrite E. f_equal. rewrite vcs0_eq in N.
    apply nth_ext with (d := czero exact) (d' := RtoC 0); [rewrite dft_list_length, L; symmetry; exact Hl|].
    intros k Hk. rewrite L in Hk. rewrite dft_list_nth by (rewrite Hl; exact Hk).
    refine (near0_eq _ _ _ _ (N k Hk)). rewrite grow0. ring.
Qed.

(** ** The inverse transform *)
Lemma dft_scale c x k : dft (map (fun e => c * e)%C x) k = (c * dft x k)%C.
Proof.
  unfold dft. rewrite map_length, <- csum_scale. apply csum_ext. intros i Hi.
  rewrite nth_indep with (d' := (c * RtoC 0)%C) by (rewrite map_length; exact Hi).
  rewrite (map_nth (fun e => (c * e)%C)). ring.
Qed.

Lemma map_conj_conj (x : list C) : map Cconj (map Cconj x) = x.
Proof. rewrite map_map. rewrite <- (map_id x) at 2. apply map_ext. intros [a b]. unfold Cconj. cbn. f_equal. ring. Qed.

Lemma cdivr_exact n (e : C) : (0 < n)%nat -> cdivr exact (cconj exact e) (fofZ exact (Z.of_nat n)) = (RtoC (/ INR n) * Cconj e)%C.
Proof.
  intros Hn. destruct e as [a b]. unfold cdivr, cconj, Cconj, RtoC, Cmult. cbn. rewrite <- INR_IZR_INZ. f_equal; field; apply not_0_INR; lia.
Qed.

Lemma ifft_unfold l fuel (y : list C) : (l < fuel)%nat -> length y = (2 ^ l)%nat ->
  ifft_complex exact fuel y = Some (map (fun e => RtoC (/ INR (length y)) * Cconj e)%C (dft_list (map Cconj y))).
Proof.
  intros Hf Hl. unfold ifft_complex. change (map (cconj exact) y) with (map Cconj y).
  rewrite (fft_exact l fuel (map Cconj y) Hf) by (rewrite map_length; exact Hl). f_equal.
  rewrite dft_list_length, map_length. apply map_ext. intros e. apply cdivr_exact. rewrite Hl. apply pow2_pos.
Qed.

Theorem ifft_of_dft l fuel (x : list C) : (l < fuel)%nat -> length x = (2 ^ l)%nat ->
  ifft_complex exact fuel (dft_list x) = Some x.
Proof.
  intros Hf Hl. rewrite (ifft_unfold l) by (rewrite ?dft_list_length; auto). f_equal. rewrite dft_list_length.
  pose proof (pow2_pos l) as Hp.
  apply nth_ext with (d := (RtoC (/ INR (length x)) * Cconj (RtoC 0))%C) (d' := RtoC 0).
  - rewrite map_length, dft_list_length, map_length, dft_list_length. reflexivity.
  - intros k Hk. rewrite map_length, dft_list_length, map_length, dft_list_length in Hk.
    rewrite (map_nth (fun e => RtoC (/ INR (length x)) * Cconj e)%C).
    rewrite dft_list_nth by (rewrite map_length, dft_list_length; exact Hk).
    rewrite dft_inverse by exact Hk. rewrite Cmult_assoc, <- RtoC_mult, Rinv_l by (apply not_0_INR; lia). ring.
Qed.

Theorem dft_of_ifft l fuel (y : list C) : (l < fuel)%nat -> length y = (2 ^ l)%nat ->
  exists x, ifft_complex exact fuel y = Some x /\ length x = length y /\ dft_list x = y.
Proof.
  intros Hf Hl. rewrite (ifft_unfold l) by auto. eexists. split; [reflexivity|].
  split; [rewrite map_length, dft_list_length, map_length; reflexivity|].
  pose proof (pow2_pos l) as Hp.
  apply nth_ext with (d := RtoC 0) (d' := RtoC 0).
  - rewrite dft_list_length, map_length, dft_list_length, map_length. reflexivity.
  - intros k Hk. rewrite dft_list_length, map_length, dft_list_length, map_length in Hk.
    rewrite dft_list_nth by (rewrite map_length, dft_list_length, map_length; exact Hk).
    rewrite <- (map_map Cconj (fun e => (RtoC (/ INR (length y)) * e)%C)), dft_scale.
    pose proof (dft_inverse (map Cconj y) k ltac:(rewrite map_length; exact Hk)) as D. rewrite map_length in D.
    apply (f_equal Cconj) in D. rewrite Cconj_conj, nth_conj in D. rewrite D.
    assert (Cconj (RtoC (INR (length y)) * Cconj (nth k y (RtoC 0))) = RtoC (INR (length y)) * nth k y (RtoC 0))%C as ->.
    { destruct (nth k y (RtoC 0)) as [a b]. unfold Cconj, RtoC, Cmult. cbn. f_equal; ring. }
    rewrite Cmult_assoc, <- RtoC_mult, Rinv_l by (apply not_0_INR; lia). ring.
Qed.

(** ** Convolution *)
Lemma fft_size_log la lb : (0 < la + lb)%nat -> (Z.of_nat (la + lb) <= 2 ^ 32)%Z ->
  let l := Z.to_nat (Z.log2_up (Z.of_nat (la + lb))) in
  fft_size la lb = Z.of_nat (2 ^ l) /\ (la + lb <= 2 ^ l)%nat /\ (l <= 32)%nat.
Proof.
  intros Hpos Hlen l. destruct (fft_size_spec la lb Hpos Hlen) as (k & Ek & Hk1 & Hk32 & Hk2).
  assert (k = l) as <-; [|auto].
  unfold l. assert (Z.log2_up (Z.of_nat (la + lb)) = Z.of_nat k) as ->; [|lia].
  assert (Z.of_nat (2 ^ k) = (2 ^ Z.of_nat k)%Z) as Ep by (rewrite Nat2Z.inj_pow; reflexivity).
  destruct k as [|k].
  - cbn [Nat.pow] in Hk1, Hk2. assert (la + lb = 1)%nat as -> by lia. reflexivity.
  - apply Z.log2_up_unique; [lia|]. rewrite <- Ep. split; [|lia].
    rewrite Nat2Z.inj_succ, Z.pred_succ. assert (2 * Z.of_nat (2 ^ k) = Z.of_nat (2 ^ S k))%Z by (rewrite Nat.pow_succ_r'; lia).
    assert (Z.of_nat (2 ^ k) = (2 ^ Z.of_nat k)%Z) as Ep2 by (rewrite Nat2Z.inj_pow; reflexivity). lia.
Qed.

Theorem convolute_exact fuel (a b : list Z) :
  let l := Z.to_nat (Z.log2_up (Z.of_nat (length a + length b))) in
  (0 < length a + length b)%nat -> (Z.of_nat (length a + length b) <= 2 ^ 32)%Z -> (l < fuel)%nat ->
  convolute_fft exact fuel (create_fft_table exact a b) = Some (dft_list (convs (2 ^ l) a b)).
Proof.
  intros l Hpos Hlen Hf. destruct (fft_size_log (length a) (length b) Hpos Hlen) as (Ek & Hk1 & Hk32). fold l in Ek, Hk1, Hk32.
  assert (create_fft_table exact a b = packed (2 ^ l) a b) as Et.
  { unfold create_fft_table, packed. rewrite Ek, Nat2Z.id. reflexivity. }
  unfold convolute_fft. rewrite Et, (fft_exact l) by (auto; apply packed_length). f_equal. rewrite packed_length.
  set (n := (2 ^ l)%nat) in *. set (S := Cmod (len2 a, len2 b) + tiny * sqrt (INR n) + 1).
  assert (1 <= S) as HS.
  { unfold S. pose proof (Cmod_ge_0 (len2 a, len2 b)). pose proof (sqrt_pos (INR n)). assert (0 < tiny) by (unfold tiny; lra). nra. }
  set (tr := dft_list (packed n a b)).
  destruct (convolve_near exact (fun x => x) (fun _ => True) (fun x => x) 0 (300 * (INR n * (S * S))) 0
    (exact_rounding (300 * (INR n * (S * S))) 0 ltac:(apply Rmult_le_pos; [lra|apply Rmult_le_pos; [apply pos_INR|nra]])) l a b tr S) as [_ D].
  - lia.
  - exact Hk1.
  - exact HS.
  - unfold S, n. lra.
  - rewrite grow0. lra.
  - fold n. lra.
  - unfold tr. rewrite dft_list_length. apply packed_length.
  - apply allfin0.
  - apply Req_le. rewrite grow0, Rmult_0_l. fold n. rewrite (Norm.nrm_ext n _ (fun _ => 0)).
    + rewrite Norm.nrm_const by lra. ring.
    + intros k Hk. unfold tr. rewrite nth_indep with (d' := RtoC 0) by (rewrite dft_list_length, packed_length; exact Hk).
      rewrite dft_list_nth by (rewrite packed_length; exact Hk).
      destruct (dft (packed n a b) k) as [p q]. rewrite <- Cmod_0. f_equal. exact (Cminus_same (p, q)).
  - fold n in D. rewrite grow0, Rmult_0_r in D. cbv zeta in D.
    set (table := map (convolve_entry exact tr) (seq 0 n)) in *.
    apply nth_ext with (d := czero exact) (d' := RtoC 0).
    + unfold table. rewrite map_length, seq_length, dft_list_length. symmetry. apply convs_length.
    + intros k Hk. unfold table in Hk. rewrite map_length, seq_length in Hk. rewrite dft_list_nth by (rewrite convs_length; exact Hk).
      apply (near0_eq _ _ 0 eq_refl). split; [split; exact I|]. eapply Rle_trans; [|exact D].
      apply (Norm.rsum_term n (fun k => Cmod (vc exact (fun x => x) (nth k table (czero exact)) - dft (convs n a b) k)%C)); [exact Hk|].
      intros i Hi. apply Cmod_ge_0.
Qed.

Theorem coefficients_exact fuel (a b : list Z) :
  let l := Z.to_nat (Z.log2_up (Z.of_nat (length a + length b))) in
  (0 < length a + length b)%nat -> (Z.of_nat (length a + length b) <= 2 ^ 32)%Z -> (l < fuel)%nat ->
  exists table, convolute_fft exact fuel (create_fft_table exact a b) = Some table /\
    ifft_complex exact fuel table = Some (map (fun k => (IZR (conv a b k), 0)) (seq 0 (2 ^ l))).
Proof.
  intros l Hpos Hlen Hf. eexists. split; [apply convolute_exact; assumption|]. fold l.
  exact (ifft_of_dft l fuel (convs (2 ^ l) a b) Hf (convs_length _ _ _)).
Qed.
