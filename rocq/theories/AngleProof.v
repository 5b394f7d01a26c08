(** * The angles of the transform in rounded arithmetic *)
From Coq Require Import ZArith Reals Lra Lia Psatz.
From Verif Require Import Base Fourier FloatModel.
Open Scope R_scope.

Lemma PI_bounds : 3 < PI < 3.29.
Proof.
  split.
  - pose proof PI2_3_2. lra.
  - pose proof (PI_ineq 3) as [_ H]. unfold PI_tg, tg_alt in H. cbn in H. lra.
Qed.

Lemma abs_le x y : - y <= x <= y -> Rabs x <= y.
Proof. intros H. apply Rabs_le. exact H. Qed.
Lemma abs_elim x y : Rabs x <= y -> - y <= x <= y.
Proof. intros H. pose proof (Rle_abs x). pose proof (Rle_abs (- x)). rewrite Rabs_Ropp in *. lra. Qed.

Section Angle.
Context {D : Type} (val : D -> R) (fin : D -> Prop) (rnd : R -> R) (u Om : R) (K : Z) (mul div : D -> D -> D).
Hypothesis Hu : 0 <= u <= / 1048576.
Hypothesis HKO : IZR K <= Om.
Hypothesis Herr : forall z, Rabs z <= Om -> Rabs (rnd z - z) <= u * (Rabs z + tiny).
Hypothesis Hint : forall z, (Z.abs z <= K)%Z -> rnd (IZR z) = IZR z.
Hypothesis Hmul : forall x y, fin x -> fin y -> Rabs (val x * val y) <= Om -> fin (mul x y) /\ val (mul x y) = rnd (val x * val y).
Hypothesis Hdiv : forall x y, fin x -> fin y -> val y <> 0 -> Rabs (val x / val y) <= Om -> fin (div x y) /\ val (div x y) = rnd (val x / val y).

Lemma angle_near m2 kf pid nf n k e : (2 * k < n)%nat -> (Z.of_nat n <= K)%Z -> 16 * INR n <= Om ->
  fin m2 -> val m2 = -2 -> fin kf -> val kf = IZR (Z.of_nat k) -> fin nf -> val nf = IZR (Z.of_nat n) ->
  fin pid -> Rabs (val pid - PI) <= e -> e <= 0.01 ->
  fin (angle_of mul div m2 kf pid nf) /\ Rabs (val (angle_of mul div m2 kf pid nf) - -2 * PI * INR k / INR n) <= 6.62 * u + e.
Proof.
  intros Hk HK HO Gm Vm Gk Vk Gn Vn Gp Vp He. pose proof PI_bounds as HPI.
  rewrite <- INR_IZR_INZ in Vn.
  assert (-2 * IZR (Z.of_nat k) = IZR (-2 * Z.of_nat k)) as EE by (rewrite mult_IZR; reflexivity).
  assert (Rabs (val m2 * val kf) <= Om) as B1.
  { rewrite Vm, Vk, EE, <- abs_IZR. eapply Rle_trans; [|exact HKO]. apply IZR_le. lia. }
  destruct (Hmul _ _ Gm Gk B1) as [G1 V1].
  rewrite Vm, Vk, EE, Hint in V1 by lia.
  set (m := val (mul m2 kf)) in *.
  assert (m = - (2 * INR k)) as Em by (rewrite V1, <- EE, <- INR_IZR_INZ; ring).
  set (pi := val pid) in *. set (N := INR n) in *.
  assert (0 < N) as HN by (apply lt_0_INR; lia).
  assert (0 <= 2 * INR k < N) as Hkn.
  { split; [pose proof (pos_INR k); lra|]. unfold N. replace (2 * INR k) with (INR (2 * k)) by (rewrite mult_INR; reflexivity). apply lt_INR. lia. }
  assert (1 <= N) as HN1 by (unfold N; change 1 with (INR 1); apply le_INR; lia).
  set (q := 2 * INR k / N).
  assert (0 <= q < 1) as Hq.
  { unfold q. split; [apply Rmult_le_pos; [lra|left; apply Rinv_0_lt_compat; lra]|].
    apply (Rmult_lt_reg_r N); auto. unfold Rdiv. rewrite Rmult_assoc, Rinv_l by lra. lra. }
  assert (m = - (q * N)) as Em2 by (rewrite Em; unfold q; field; lra).
  assert (Rabs (pi - PI) <= e) as Vp' by exact Vp. apply abs_elim in Vp'.
  assert (2.9 < pi < 3.3) as Hpi by lra.
  assert (Rabs (m * pi) = q * N * pi) as Eab.
  { rewrite Em2. replace (- (q * N) * pi) with (- (q * N * pi)) by ring. rewrite Rabs_Ropp. apply Rabs_right. apply Rle_ge. apply Rmult_le_pos; [nra|lra]. }
  assert (q * N * pi <= 3.3 * N) as Hub by nra.
  assert (Rabs (m * pi) <= Om) as B2 by (rewrite Eab; lra).
  destruct (Hmul _ _ G1 Gp B2) as [G2 V2]. fold m pi in V2.
  pose proof (Herr _ B2) as E2. rewrite <- V2, Eab in E2.
  set (z1 := val (mul (mul m2 kf) pid)) in *.
  assert (0 < tiny < / 1000) as Ht by (unfold tiny; lra).
  (* z1 / N versus - q pi *)
  assert (Rabs (z1 / N - - (q * pi)) <= u * (3.3 + tiny)) as E3.
  { replace (z1 / N - - (q * pi)) with ((z1 - m * pi) / N) by (rewrite Em2; field; lra).
    unfold Rdiv. rewrite Rabs_mult, (Rabs_right (/ N)) by (left; apply Rinv_0_lt_compat; lra).
    apply (Rmult_le_reg_r N); auto. rewrite Rmult_assoc, Rinv_l, Rmult_1_r by lra.
    eapply Rle_trans; [exact E2|]. rewrite (Rmult_assoc u). apply Rmult_le_compat_l; [lra|]. nra. }
  assert (Rabs (z1 / N) <= 3.31) as E4.
  { apply abs_elim in E3. apply abs_le. assert (u * (3.3 + tiny) <= 0.001) by nra. nra. }
  assert (Rabs (z1 / val nf) <= Om) as B3 by (rewrite Vn; fold N; lra).
  destruct (Hdiv _ _ G2 Gn ltac:(rewrite Vn; fold N; lra) B3) as [G3 V3].
  fold z1 in V3. rewrite Vn in V3, B3. fold N in V3, B3. pose proof (Herr _ B3) as E5. rewrite <- V3 in E5.
  set (wh := div _ _) in *. set (w := val wh) in *.
  assert (Rabs (w - - (q * PI)) <= 6.62 * u + e) as E6.
  { replace (w - - (q * PI)) with ((w - z1 / N) + (z1 / N - - (q * pi)) + q * (PI - pi)) by ring.
    eapply Rle_trans; [apply Rabs_triang|]. eapply Rle_trans; [apply Rplus_le_compat_r, Rabs_triang|].
    rewrite (Rabs_mult q), (Rabs_right q) by lra. rewrite (Rabs_minus_sym PI pi).
    assert (u * (Rabs (z1 / N) + tiny) <= u * 3.312) by (apply Rmult_le_compat_l; lra).
    assert (q * Rabs (pi - PI) <= e) by (pose proof (Rabs_pos (pi - PI)); nra).
    assert (u * (3.3 + tiny) <= u * 3.302) by (apply Rmult_le_compat_l; lra). lra. }
  unfold angle_of. split; [exact G3|].
  replace (-2 * PI * INR k / N) with (- (q * PI)) by (unfold q; field; lra). exact E6.
Qed.
End Angle.
