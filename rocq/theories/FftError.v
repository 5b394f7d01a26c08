(** * Forward error of the FFT *)
From Coq Require Import ZArith Reals Lra Lia List Arith.
From Coquelicot Require Import Complex.
From Flocq Require Import Core.Raux.
From Verif Require Import Base Fourier Dft Norm FloatModel.
From Verif Require Export AngleProof.
Import ListNotations.
Open Scope R_scope.

(** ** Real and complex preliminaries *)
Lemma Cmod_le_comp (d1 d2 p1 p2 : R) : Rabs d1 <= p1 -> Rabs d2 <= p2 -> Cmod (d1, d2) <= Cmod (p1, p2).
Proof.
  intros H1 H2. unfold Cmod. cbn [fst snd]. apply sqrt_le_1_alt.
  pose proof (Rabs_pos d1). pose proof (Rabs_pos d2).
  replace (d1 ^ 2) with (Rabs d1 ^ 2) by (rewrite pow2_abs; ring).
  replace (d2 ^ 2) with (Rabs d2 ^ 2) by (rewrite pow2_abs; ring). cbn [pow]. nra.
Qed.

Lemma Cmod_scale_abs u a b : 0 <= u -> Cmod (u * Rabs a, u * Rabs b) = u * Cmod (a, b).
Proof.
  intros Hu. unfold Cmod. cbn [fst snd].
  replace ((u * Rabs a) ^ 2 + (u * Rabs b) ^ 2) with (u ^ 2 * (a ^ 2 + b ^ 2)).
  - rewrite sqrt_mult_alt by (cbn; nra). f_equal. cbn [pow]. rewrite Rmult_1_r. apply sqrt_square, Hu.
  - replace (a ^ 2) with (Rabs a ^ 2) by (rewrite pow2_abs; ring).
    replace (b ^ 2) with (Rabs b ^ 2) by (rewrite pow2_abs; ring). ring.
Qed.

Lemma sqrt2_ub : sqrt 2 <= 1.4143.
Proof. rewrite <- (sqrt_square 1.4143) by lra. apply sqrt_le_1_alt. lra. Qed.

Lemma Cmod_pair_le a b m : Rabs a <= m -> Rabs b <= m -> Cmod (a, b) <= 1.4143 * m.
Proof.
  intros Ha Hb. pose proof (Cmod_2Rmax (a, b)) as H. cbn [fst snd] in H. pose proof sqrt2_ub. pose proof (sqrt_pos 2).
  pose proof (Rmax_lub _ _ _ Ha Hb). pose proof (Rabs_pos a). pose proof (Rmax_l (Rabs a) (Rabs b)). nra.
Qed.

Lemma re_le_Cmod (z : C) : Rabs (fst z) <= Cmod z.
Proof. eapply Rle_trans; [apply Rmax_l|apply Rmax_Cmod]. Qed.
Lemma im_le_Cmod (z : C) : Rabs (snd z) <= Cmod z.
Proof. eapply Rle_trans; [apply Rmax_r|apply Rmax_Cmod]. Qed.
Arguments re_le_Cmod _%C_scope.
Arguments im_le_Cmod _%C_scope.

Lemma Cmod_minus_sym (x y : C) : Cmod (x - y) = Cmod (y - x).
Proof. replace (y - x)%C with (- (x - y))%C by ring. symmetry. apply Cmod_opp. Qed.

Lemma Cmod_sub (x y : C) : Cmod (x - y) <= Cmod x + Cmod y.
Proof. unfold Cminus. rewrite <- (Cmod_opp y). apply Cmod_triangle. Qed.

Lemma Cmod_via (x y : C) : Cmod x <= Cmod y + Cmod (x - y).
Proof. replace x with (y + (x - y))%C at 1 by ring. apply Cmod_triangle. Qed.

Lemma Cmod_tri3 (x y z : C) : Cmod (x - z) <= Cmod (x - y) + Cmod (y - z).
Proof. replace (x - z)%C with ((x - y) + (y - z))%C by ring. apply Cmod_triangle. Qed.

(** |ac| + |bd| <= |x||y| *)
Lemma cauchy_schwarz a b c d : Rabs (a * c) + Rabs (b * d) <= Cmod (a, b) * Cmod (c, d).
Proof.
  rewrite !Rabs_mult. unfold Cmod. cbn [fst snd]. rewrite <- sqrt_mult_alt by nra.
  pose proof (Rabs_pos a). pose proof (Rabs_pos b). pose proof (Rabs_pos c). pose proof (Rabs_pos d).
  rewrite <- (sqrt_square (Rabs a * Rabs c + Rabs b * Rabs d)) by nra. apply sqrt_le_1_alt.
  rewrite <- (pow2_abs a), <- (pow2_abs b), <- (pow2_abs c), <- (pow2_abs d). cbn [pow]. rewrite !Rmult_1_r.
  pose proof (Rle_0_sqr (Rabs a * Rabs d - Rabs b * Rabs c)) as Hs. unfold Rsqr in Hs. nra.
Qed.

Lemma sin_le_abs t : Rabs (sin t) <= Rabs t.
Proof.
  assert (forall s, 0 <= s -> Rabs (sin s) <= s) as H.
  { intros s Hs. destruct (Rle_lt_dec 1 s).
    - pose proof (SIN_bound s). apply Rabs_le. lra.
    - destruct (Req_dec s 0) as [->|N]; [rewrite sin_0, Rabs_R0; lra|].
      pose proof (sin_lt_x s ltac:(lra)). pose proof PI2_1. pose proof PI_RGT_0.
      assert (0 < sin s) by (apply sin_gt_0; lra). rewrite Rabs_right; lra. }
  destruct (Rle_lt_dec 0 t).
  - rewrite (Rabs_right t) by lra. apply H. lra.
  - rewrite (Rabs_left t) by lra. rewrite <- (Ropp_involutive t), sin_neg, Rabs_Ropp. rewrite Ropp_involutive. apply H. lra.
Qed.

Lemma cis_lipschitz s t : Cmod (cis s - cis t) <= Rabs (s - t).
Proof.
  assert (cis s - cis t = cis ((s + t) / 2) * (0, (2 * sin ((s - t) / 2))%R))%C as ->.
  { set (p := (s + t) / 2). set (q := (s - t) / 2). replace s with (p + q) by (unfold p, q; field).
    replace t with (p - q) by (unfold p, q; field). unfold cis, Cminus, Cplus, Copp, Cmult. cbn [fst snd].
    rewrite cos_plus, sin_plus, cos_minus, sin_minus. f_equal; ring. }
  rewrite Cmod_mult, Cmod_cis, Rmult_1_l.
  assert (Cmod (0, 2 * sin ((s - t) / 2)) = Rabs (2 * sin ((s - t) / 2))) as ->.
  { unfold Cmod. cbn [fst snd]. rewrite <- sqrt_Rsqr_abs. f_equal. unfold Rsqr. ring. }
  rewrite Rabs_mult, (Rabs_right 2) by lra. pose proof (sin_le_abs ((s - t) / 2)) as H.
  unfold Rdiv in *. rewrite (Rabs_mult _ (/ 2)), (Rabs_right (/ 2)) in H by lra. lra.
Qed.

(** ** List helpers *)
Lemma evens_odds_length {A} (x : list A) : forall h, length x = (2 * h)%nat -> length (evens x) = h /\ length (odds x) = h.
Proof.
  intros h. revert x. induction h as [|h IH]; intros x Hx.
  - destruct x; [auto|discriminate].
  - destruct x as [|a [|b x]]; cbn in Hx; try lia. destruct (IH x ltac:(lia)) as [E1 E2].
    cbn [evens odds length]. rewrite E1, E2. auto.
Qed.

Lemma evens_nth {A} (d : A) : forall h x j, length x = (2 * h)%nat -> (j < h)%nat -> nth j (evens x) d = nth (2 * j) x d.
Proof.
  induction h as [|h IH]; intros x j Hx Hj; [lia|]. destruct x as [|a [|b x]]; cbn in Hx; try lia.
  destruct j as [|j]; [reflexivity|]. replace (2 * S j)%nat with (S (S (2 * j))) by lia.
  cbn [evens nth]. apply IH; lia.
Qed.

Lemma odds_nth {A} (d : A) : forall h x j, length x = (2 * h)%nat -> (j < h)%nat -> nth j (odds x) d = nth (2 * j + 1) x d.
Proof.
  induction h as [|h IH]; intros x j Hx Hj; [lia|]. destruct x as [|a [|b x]]; cbn in Hx; try lia.
  destruct j as [|j]; [reflexivity|]. replace (2 * S j + 1)%nat with (S (S (2 * j + 1))) by lia.
  cbn [odds nth]. apply IH; lia.
Qed.

Lemma nth_combine {A B} (da : A) (db : B) : forall (a : list A) (b : list B) k, length a = length b ->
  nth k (combine a b) (da, db) = (nth k a da, nth k b db).
Proof. intros. apply combine_nth. assumption. Qed.

Section Error.
Context (P : flops) (val : F P -> R) (fin : F P -> Prop) (rnd : R -> R) (u Om : R) (K : Z).
Hypothesis HR : rounding P val fin rnd u Om K.

Definition vc (x : cplx P) : C := (val (fst x), val (snd x)).
Definition cfin (x : cplx P) : Prop := fin (fst x) /\ fin (snd x).

(** the computed [xh] is within [e] of [x] *)
Definition near (e : R) (xh : cplx P) (x : C) : Prop := cfin xh /\ Cmod (vc xh - x) <= e.

Lemma near_mono e e' xh x : e <= e' -> near e xh x -> near e' xh x.
Proof. intros H [H1 H2]. split; auto. lra. Qed.

Lemma Hu : 0 <= u <= / 1048576.
Proof. apply HR. Qed.

Lemma cadd_near x y : cfin x -> cfin y -> Cmod (vc x + vc y) <= Om ->
  near (u * (Cmod (vc x + vc y) + 2 * tiny)) (cadd P x y) (vc x + vc y)%C.
Proof.
  intros [Fx1 Fx2] [Fy1 Fy2] H. pose proof Hu as Hu.
  pose proof (re_le_Cmod (vc x + vc y)) as H1. pose proof (im_le_Cmod (vc x + vc y)) as H2. cbn [vc Cplus fst snd] in H1, H2.
  destruct (r_add _ _ _ _ _ _ _ HR _ _ Fx1 Fy1 ltac:(lra)) as [G1 V1].
  destruct (r_add _ _ _ _ _ _ _ HR _ _ Fx2 Fy2 ltac:(lra)) as [G2 V2].
  split; [split; assumption|]. unfold cadd, vc. cbn [fst snd]. rewrite V1, V2. unfold Cminus, Copp, Cplus. cbn [fst snd].
  pose proof (r_err _ _ _ _ _ _ _ HR _ (Rle_trans _ _ _ H1 H)) as E1. pose proof (r_err _ _ _ _ _ _ _ HR _ (Rle_trans _ _ _ H2 H)) as E2.
  eapply Rle_trans; [apply (Cmod_le_comp _ _ _ _ E1 E2)|].
  replace ((u * (Rabs (val (fst x) + val (fst y)) + tiny), u * (Rabs (val (snd x) + val (snd y)) + tiny)))
    with (Cplus (u * Rabs (val (fst x) + val (fst y)), u * Rabs (val (snd x) + val (snd y))) (u * tiny, u * tiny))
    by (unfold Cplus; cbn [fst snd]; f_equal; ring).
  eapply Rle_trans; [apply Cmod_triangle|]. rewrite Cmod_scale_abs by lra.
  assert (0 <= u * tiny) by (unfold tiny; nra).
  pose proof (Cmod_pair_le (u * tiny) (u * tiny) (u * tiny)) as H3. rewrite Rabs_right in H3 by lra.
  specialize (H3 (Rle_refl _) (Rle_refl _)). unfold vc, Cplus. cbn [fst snd]. nra.
Qed.

Lemma csub_near x y : cfin x -> cfin y -> Cmod (vc x - vc y) <= Om ->
  near (u * (Cmod (vc x - vc y) + 2 * tiny)) (csub P x y) (vc x - vc y)%C.
Proof.
  intros [Fx1 Fx2] [Fy1 Fy2] H. pose proof Hu as Hu.
  assert (Rabs (val (fst x) - val (fst y)) <= Cmod (vc x - vc y)) as H1 by exact (re_le_Cmod (vc x - vc y)).
  assert (Rabs (val (snd x) - val (snd y)) <= Cmod (vc x - vc y)) as H2 by exact (im_le_Cmod (vc x - vc y)).
  destruct (r_sub _ _ _ _ _ _ _ HR _ _ Fx1 Fy1 ltac:(lra)) as [G1 V1].
  destruct (r_sub _ _ _ _ _ _ _ HR _ _ Fx2 Fy2 ltac:(lra)) as [G2 V2].
  split; [split; assumption|]. unfold csub, vc. cbn [fst snd]. rewrite V1, V2. unfold Cminus, Copp, Cplus. cbn [fst snd].
  pose proof (r_err _ _ _ _ _ _ _ HR _ (Rle_trans _ _ _ H1 H)) as E1. pose proof (r_err _ _ _ _ _ _ _ HR _ (Rle_trans _ _ _ H2 H)) as E2.
  eapply Rle_trans; [apply (Cmod_le_comp _ _ _ _ E1 E2)|].
  replace ((u * (Rabs (val (fst x) - val (fst y)) + tiny), u * (Rabs (val (snd x) - val (snd y)) + tiny)))
    with (Cplus (u * Rabs (val (fst x) - val (fst y)), u * Rabs (val (snd x) - val (snd y))) (u * tiny, u * tiny))
    by (unfold Cplus; cbn [fst snd]; f_equal; ring).
  eapply Rle_trans; [apply Cmod_triangle|]. rewrite Cmod_scale_abs by lra.
  assert (0 <= u * tiny) by (unfold tiny; nra).
  pose proof (Cmod_pair_le (u * tiny) (u * tiny) (u * tiny)) as H3. rewrite Rabs_right in H3 by lra.
  specialize (H3 (Rle_refl _) (Rle_refl _)). unfold vc. cbn [fst snd]. unfold Rminus. nra.
Qed.

Lemma prod_err a : Rabs a <= Om -> Rabs (rnd a - a) <= u * (Rabs a + tiny).
Proof. apply HR. Qed.

Lemma maybe_err p a : Rabs a <= Om -> maybe_rounded rnd u p a -> Rabs (p - a) <= u * (Rabs a + tiny).
Proof.
  intros H [-> | [-> |Hn]]; [|apply prod_err, H|exact Hn]. replace (a - a) with 0 by ring. rewrite Rabs_R0.
  pose proof Hu. pose proof (Rabs_pos a). assert (0 < tiny) by (unfold tiny; lra). nra.
Qed.

Lemma comp_err S a b p q (sg : R) : (sg = 1 \/ sg = -1) -> Rabs a + Rabs b <= S -> 4 * (S + 1) <= Om ->
  maybe_rounded rnd u p a -> maybe_rounded rnd u q b ->
  Rabs (p + sg * q) <= Om /\ Rabs (rnd (p + sg * q) - (a + sg * b)) <= u * (2.01 * S + 3.01 * tiny).
Proof.
  intros Hsg HS HO Hp Hq. pose proof Hu as Hu. pose proof (Rabs_pos a). pose proof (Rabs_pos b).
  assert (Rabs a <= Om) as H1 by lra. assert (Rabs b <= Om) as H2 by lra.
  pose proof (maybe_err p a H1 Hp) as E1. pose proof (maybe_err q b H2 Hq) as E2.
  assert (0 < tiny < / 1000) as Ht by (unfold tiny; lra).
  set (s := p + sg * q).
  assert (Rabs (s - (a + sg * b)) <= u * (S + 2 * tiny)) as E3.
  { unfold s. replace (p + sg * q - (a + sg * b)) with ((p - a) + sg * (q - b)) by ring.
    eapply Rle_trans; [apply Rabs_triang|]. rewrite Rabs_mult.
    assert (Rabs sg = 1) as ->. { destruct Hsg as [-> | ->]; [apply Rabs_R1|]. rewrite Rabs_left; lra. }
    nra. }
  assert (Rabs (a + sg * b) <= S) as E4.
  { eapply Rle_trans; [apply Rabs_triang|]. rewrite Rabs_mult.
    assert (Rabs sg = 1) as ->. { destruct Hsg as [-> | ->]; [apply Rabs_R1|]. rewrite Rabs_left; lra. }
    lra. }
  assert (Rabs s <= S + u * (S + 2 * tiny)) as E5.
  { replace s with ((a + sg * b) + (s - (a + sg * b))) by ring. eapply Rle_trans; [apply Rabs_triang|]. lra. }
  assert (Rabs s <= Om) as H3 by nra.
  split; auto. pose proof (prod_err s H3) as E6.
  replace (rnd s - (a + sg * b)) with ((rnd s - s) + (s - (a + sg * b))) by ring.
  eapply Rle_trans; [apply Rabs_triang|].
  assert (u * (Rabs s + tiny) <= u * (S + u * (S + 2 * tiny) + tiny)) by (apply Rmult_le_compat_l; lra).
  assert (u * (S + u * (S + 2 * tiny) + tiny) + u * (S + 2 * tiny) <= u * (2.01 * S + 3.01 * tiny)); [|lra].
  rewrite <- Rmult_plus_distr_l. apply Rmult_le_compat_l; [lra|]. nra.
Qed.

Lemma cmul_near st x y S : cfin x -> cfin y -> Cmod (vc x) * Cmod (vc y) <= S -> 4 * (S + 1) <= Om ->
  near (u * (3 * S + 5 * tiny)) (cmul P st x y) (vc x * vc y)%C.
Proof.
  intros [Fx1 Fx2] [Fy1 Fy2] HS HO. pose proof Hu as Hu. destruct x as [xa xb], y as [yc yd]. unfold vc in HS. cbn [fst snd] in *.
  set (a := val xa) in *. set (b := val xb) in *. set (c := val yc) in *. set (d := val yd) in *.
  pose proof (cauchy_schwarz a b c d) as CS1.
  pose proof (cauchy_schwarz a b d c) as CS2.
  replace (Cmod (d, c)) with (Cmod (c, d)) in CS2 by (unfold Cmod; cbn [fst snd]; f_equal; ring).
  pose proof (Rabs_pos (a * c)). pose proof (Rabs_pos (b * d)). pose proof (Rabs_pos (a * d)). pose proof (Rabs_pos (b * c)).
  destruct (r_det _ _ _ _ _ _ _ HR st xa yc xb yd Fx1 Fy1 Fx2 Fy2) as (p1 & q1 & Hp1 & Hq1 & D1); [fold a c; lra|fold b d; lra|].
  destruct (r_dot _ _ _ _ _ _ _ HR st xa yd xb yc Fx1 Fy2 Fx2 Fy1) as (p2 & q2 & Hp2 & Hq2 & D2); [fold a d; lra|fold b c; lra|].
  fold a b c d in Hp1, Hq1, Hp2, Hq2.
  destruct (comp_err S (a * c) (b * d) p1 q1 (-1)) as (A3 & A4); auto; [lra|].
  destruct (comp_err S (a * d) (b * c) p2 q2 1) as (B3 & B4); auto; [lra|].
  replace (p1 + -1 * q1) with (p1 - q1) in A3, A4 by ring. replace (p2 + 1 * q2) with (p2 + q2) in B3, B4 by ring.
  destruct (D1 A3) as [G5 V5]. destruct (D2 B3) as [G6 V6].
  unfold cmul. cbn [fst snd]. rewrite (r_nan _ _ _ _ _ _ _ HR _ G5). cbn [andb].
  split; [split; assumption|]. unfold vc. cbn [fst snd]. rewrite V5, V6. fold a b c d. unfold Cminus, Cplus, Copp, Cmult. cbn [fst snd].
  eapply Rle_trans; [apply (Cmod_pair_le _ _ (u * (2.01 * S + 3.01 * tiny)))|].
  - replace (rnd (p1 - q1) + - (a * c - b * d)) with (rnd (p1 - q1) - (a * c + -1 * (b * d))) by ring. exact A4.
  - replace (rnd (p2 + q2) + - (a * d + b * c)) with (rnd (p2 + q2) - (a * d + 1 * (b * c))) by ring. exact B4.
  - assert (0 <= S) by (pose proof (Cmod_ge_0 (a, b)); pose proof (Cmod_ge_0 (c, d)); nra).
    assert (0 < tiny) by (unfold tiny; lra).
    rewrite (Rmult_comm 1.4143), Rmult_assoc. apply Rmult_le_compat_l; [lra|]. lra.
Qed.

(** ** Twiddle factors *)
Lemma twiddle_near n k : (2 * k < n)%nat -> (Z.of_nat n <= K)%Z -> 16 * INR n <= Om ->
  near (12 * u) (twiddle P n k) (omega n k).
Proof.
  intros Hk HK HO. pose proof Hu as Hu. pose proof PI_bounds as HPI.
  destruct (r_angle _ _ _ _ _ _ _ HR n k Hk HK HO) as [G3 E6].
  unfold twiddle. cbv zeta. set (wh := fangle P n k) in *. set (w := val wh) in *.
  assert (0 < INR n) as HN by (apply lt_0_INR; lia).
  assert (Rabs w <= 4) as E7.
  { set (q := 2 * INR k / INR n). assert (0 <= q < 1) as Hq.
    { unfold q. assert (0 <= 2 * INR k < INR n) as Hkn.
      { split; [pose proof (pos_INR k); lra|]. replace (2 * INR k) with (INR (2 * k)) by (rewrite mult_INR; reflexivity). apply lt_INR. lia. }
      split; [apply Rmult_le_pos; [lra|left; apply Rinv_0_lt_compat; lra]|].
      apply (Rmult_lt_reg_r (INR n)); auto. unfold Rdiv. rewrite Rmult_assoc, Rinv_l by lra. lra. }
    replace (-2 * PI * INR k / INR n) with (- (q * PI)) in E6 by (unfold q; field; lra).
    apply abs_elim in E6. apply abs_le. nra. }
  destruct (r_cos _ _ _ _ _ _ _ HR wh G3 E7) as [Gc Vc]. destruct (r_sin _ _ _ _ _ _ _ HR wh G3 E7) as [Gs Vs].
  split; [split; assumption|]. unfold vc. cbn [fst snd]. fold w in Vc, Vs.
  eapply Rle_trans; [apply (Cmod_tri3 _ (cis w))|].
  assert (Cmod ((val (fcos P wh), val (fsin P wh)) - cis w) <= 1.4143 * (2 * u)) as H1.
  { unfold cis, Cminus, Cplus, Copp. cbn [fst snd]. apply Cmod_pair_le; assumption. }
  assert (Cmod (cis w - omega n k) <= 9 * u) as H2; [|lra].
  unfold omega. eapply Rle_trans; [apply cis_lipschitz|]. exact E6.
Qed.

(** ** One butterfly *)
Lemma butterfly_near n k W eh oh : (2 * k < n)%nat -> (Z.of_nat n <= K)%Z -> 16 * INR n <= Om ->
  cfin eh -> cfin oh -> Cmod (vc eh) + Cmod (vc oh) <= W -> 8 * (W + 1) <= Om ->
  let r := u * (17 * Cmod (Cmod (vc eh), Cmod (vc oh)) + 8 * tiny) in
  near r (fst (butterfly P n (k, (eh, oh)))) (vc eh + omega n k * vc oh)%C /\
  near r (snd (butterfly P n (k, (eh, oh)))) (vc eh - omega n k * vc oh)%C.
Proof.
  intros Hk HK HO Fe Fo HW HOW. pose proof Hu as Hu.
  destruct (twiddle_near n k Hk HK HO) as [Fw Ew]. unfold butterfly. cbn [fst snd]. cbv zeta.
  assert (0 < tiny < / 1000) as Ht by (unfold tiny; lra).
  set (w := omega n k) in *. assert (Cmod w = 1) as Mw by apply Cmod_omega.
  set (wh := twiddle P n k) in *.
  assert (Cmod (vc wh) <= 1 + 12 * u) as Mwh by (pose proof (Cmod_via (vc wh) w); lra).
  pose proof (Cmod_ge_0 (vc wh)) as P0. pose proof (Cmod_ge_0 (vc oh)) as P1. pose proof (Cmod_ge_0 (vc eh)) as P2.
  set (O := Cmod (vc oh)) in *. set (E := Cmod (vc eh)) in *.
  set (p := (w * vc oh)%C) in *.
  assert (Cmod p = O) as Mp by (unfold p; rewrite Cmod_mult, Mw; unfold O; ring).
  assert (forall st, cfin (cmul P st wh oh) /\ Cmod (vc (cmul P st wh oh) - p) <= u * (15.1 * O + 5 * tiny)) as Epp.
  { intros st. destruct (cmul_near st wh oh ((1 + 12 * u) * O) Fw Fo ltac:(fold O; nra) ltac:(nra)) as [Fp Ep]. split; [exact Fp|].
    eapply Rle_trans; [apply (Cmod_tri3 _ (vc wh * vc oh)%C)|].
    assert (Cmod (vc wh * vc oh - p)%C <= 12 * u * O) as H1.
    { unfold p. replace (vc wh * vc oh - w * vc oh)%C with ((vc wh - w) * vc oh)%C by ring.
      rewrite Cmod_mult. fold O. apply Rmult_le_compat_r; lra. }
    assert (u * (3 * ((1 + 12 * u) * O) + 5 * tiny) <= u * (3.1 * O + 5 * tiny)) as H2.
    { apply Rmult_le_compat_l; [lra|]. nra. }
    lra. }
  assert (u * (15.1 * O + 5 * tiny) <= 0.01 * O + 0.01 * tiny) as Hsm by nra.
  assert (E <= Cmod (E, O)) as C1.
  { apply sq_le; [apply Cmod_ge_0|]. rewrite Cmod_pair_sq. nra. }
  assert (16.11 * O + E <= 17 * Cmod (E, O)) as C2.
  { apply sq_le; [pose proof (Cmod_ge_0 (E, O)); lra|].
    replace (17 * Cmod (E, O) * (17 * Cmod (E, O))) with (289 * (Cmod (E, O) * Cmod (E, O))) by ring.
    rewrite Cmod_pair_sq. pose proof (Rle_0_sqr (O - 16.11 * E)) as Hs. unfold Rsqr in Hs. nra. }
  assert (forall S : R, S <= E + (O + u * (15.1 * O + 5 * tiny)) ->
    u * (S + 2 * tiny) + u * (15.1 * O + 5 * tiny) <= u * (17 * Cmod (E, O) + 8 * tiny)) as HS.
  { intros S HS. rewrite <- Rmult_plus_distr_l. apply Rmult_le_compat_l; [lra|]. lra. }
  split.
  - destruct (Epp (SumSite n k)) as [Fp Ep]. set (ph := cmul P (SumSite n k) wh oh) in *.
    assert (Cmod (vc ph) <= O + u * (15.1 * O + 5 * tiny)) as Mph by (pose proof (Cmod_via (vc ph) p); lra).
    pose proof (Cmod_triangle (vc eh) (vc ph)) as MT. fold E in MT.
    destruct (cadd_near eh ph Fe Fp ltac:(lra)) as [Fs Es]. split; [exact Fs|].
    eapply Rle_trans; [apply (Cmod_tri3 _ (vc eh + vc ph)%C)|].
    specialize (HS (Cmod (vc eh + vc ph)) ltac:(lra)).
    replace (vc eh + vc ph - (vc eh + p))%C with (vc ph - p)%C by ring. lra.
  - destruct (Epp (DifferenceSite n k)) as [Fp Ep]. set (ph := cmul P (DifferenceSite n k) wh oh) in *.
    assert (Cmod (vc ph) <= O + u * (15.1 * O + 5 * tiny)) as Mph by (pose proof (Cmod_via (vc ph) p); lra).
    pose proof (Cmod_sub (vc eh) (vc ph)) as MT. fold E in MT.
    destruct (csub_near eh ph Fe Fp ltac:(lra)) as [Fs Es]. split; [exact Fs|].
    eapply Rle_trans; [apply (Cmod_tri3 _ (vc eh - vc ph)%C)|].
    specialize (HS (Cmod (vc eh - vc ph)) ltac:(lra)).
    replace (vc eh - vc ph - (vc eh - p))%C with (- (vc ph - p))%C by ring. rewrite Cmod_opp. lra.
Qed.

(** ** The whole transform *)

(** relative error after l levels *)
Definition grow (l : nat) : R := (1 + 17 * u) ^ l - 1.

Lemma grow_S l : grow (S l) = grow l + 17 * u * (1 + grow l).
Proof. unfold grow. cbn [pow]. ring. Qed.

Lemma grow_pos l : 0 <= grow l.
Proof. unfold grow. assert (1 <= (1 + 17 * u) ^ l) by (apply pow_R1_Rle; pose proof Hu; lra). lra. Qed.

Lemma grow_mono l : grow l <= grow (S l).
Proof. rewrite grow_S. pose proof (grow_pos l). pose proof Hu. nra. Qed.

Lemma pow2_INR l : INR (2 ^ S l) = 2 * INR (2 ^ l).
Proof. rewrite Nat.pow_succ_r by lia. rewrite mult_INR. reflexivity. Qed.

Lemma pow2_pos l : (1 <= 2 ^ l)%nat.
Proof. pose proof (Nat.pow_nonzero 2 l). lia. Qed.

(** the reals a list of doubles stands for *)
Definition vcs (xh : list (cplx P)) : list C := map vc xh.
Lemma vcs_length xh : length (vcs xh) = length xh.
Proof. apply map_length. Qed.
Definition allfin (xh : list (cplx P)) : Prop := forall k, (k < length xh)%nat -> cfin (nth k xh (czero P)).

Lemma vcs_nth xh k : (k < length xh)%nat -> nth k (vcs xh) (RtoC 0) = vc (nth k xh (czero P)).
Proof.
  intros H. unfold vcs. rewrite nth_indep with (d' := vc (czero P)) by (rewrite map_length; exact H). apply map_nth.
Qed.

(** sum of the absolute values and Euclidean length, with an allowance for underflow *)
Definition s1 (n : nat) (x : nat -> C) : R := rsum n (fun k => Cmod (x k)) + tiny * INR n.
Definition s2 (n : nat) (x : nat -> C) : R := nrm n (fun k => Cmod (x k)) + tiny * sqrt (INR n).

Lemma s1_split h x : s1 (2 * h) x = s1 h (fun j => x (2 * j)%nat) + s1 h (fun j => x (2 * j + 1)%nat).
Proof. unfold s1. rewrite rsum_even_odd, mult_INR. change (INR 2) with 2. ring. Qed.

Lemma s2_split h x : Cmod (s2 h (fun j => x (2 * j)%nat), s2 h (fun j => x (2 * j + 1)%nat)) <= s2 (2 * h) x.
Proof.
  unfold s2. eapply Rle_trans; [apply Cmod_pair_add|]. rewrite (nrm_even_odd h). apply Rplus_le_compat_l.
  apply sq_le.
  - apply Rmult_le_pos; [unfold tiny; lra|apply sqrt_pos].
  - rewrite Cmod_pair_sq. pose proof (sqrt_sqrt (INR h) (pos_INR h)) as E1. pose proof (sqrt_sqrt (INR (2 * h)) (pos_INR _)) as E2.
    set (a := sqrt (INR h)) in *. set (b := sqrt (INR (2 * h))) in *. rewrite mult_INR in E2. change (INR 2) with 2 in E2.
    replace (tiny * a * (tiny * a) + tiny * a * (tiny * a)) with (tiny * tiny * (2 * (a * a))) by ring.
    replace (tiny * b * (tiny * b)) with (tiny * tiny * (b * b)) by ring. rewrite E1, E2. lra.
Qed.

Lemma s1_nonneg n x : 0 <= s1 n x.
Proof.
  unfold s1. assert (0 <= rsum n (fun k => Cmod (x k))) by (apply rsum_nonneg; intros; apply Cmod_ge_0).
  pose proof (pos_INR n). assert (0 < tiny) by (unfold tiny; lra). nra.
Qed.
Lemma s2_nonneg n x : 0 <= s2 n x.
Proof.
  unfold s2. pose proof (nrm_nonneg n (fun k => Cmod (x k))). pose proof (sqrt_pos (INR n)). assert (0 < tiny) by (unfold tiny; lra). nra.
Qed.

Lemma evens_map {A B} (f : A -> B) (x : list A) : evens (map f x) = map f (evens x).
Proof.
  enough (forall n x, (length x <= n)%nat -> evens (map f x) = map f (evens x)) as H by (apply (H (length x)); lia).
  induction n as [|n IH]; intros [|a [|b y]] Hy; cbn in *; try reflexivity; try lia. rewrite IH by lia. reflexivity.
Qed.
Lemma odds_map {A B} (f : A -> B) (x : list A) : odds (map f x) = map f (odds x).
Proof.
  enough (forall n x, (length x <= n)%nat -> odds (map f x) = map f (odds x)) as H by (apply (H (length x)); lia).
  induction n as [|n IH]; intros [|a [|b y]] Hy; cbn in *; try reflexivity; try lia. rewrite IH by lia. reflexivity.
Qed.

Lemma sqrt2_sq : sqrt 2 * sqrt 2 = 2.
Proof. apply sqrt_sqrt. lra. Qed.

(** The computed transform against the exact transform of the same doubles: every entry is off by at most
    [grow l] times the sum of the absolute values, and all entries together by at most [grow l] times the
    Euclidean length of the exact transform. *)
Lemma fft_near : forall l fuel xh, (l < fuel)%nat -> length xh = (2 ^ l)%nat -> allfin xh ->
  let n := (2 ^ l)%nat in let x := fun k => nth k (vcs xh) (RtoC 0) in
  (Z.of_nat n <= K)%Z -> 16 * INR n <= Om -> grow l <= 1 -> 16 * (s1 n x + 1) <= Om ->
  exists yh, fft_complex P fuel xh = Some yh /\ length yh = n /\
    (forall k, (k < n)%nat -> near (grow l * s1 n x) (nth k yh (czero P)) (dft (vcs xh) k)) /\
    nrm n (fun k => Cmod (vc (nth k yh (czero P)) - dft (vcs xh) k)%C) <= grow l * (sqrt (INR n) * s2 n x).
Proof.
  assert (0 < tiny < / 1000) as Ht by (unfold tiny; lra). pose proof Hu as Hu.
  intros l. induction l as [|l IH]; intros fuel xh Hf Lx Fx n x HK HO Hg H16.
  - destruct fuel as [|fuel]; [lia|]. cbn [fft_complex]. rewrite Lx. cbn [Nat.pow Nat.eqb].
    exists xh. split; [reflexivity|]. split; [exact Lx|]. unfold grow. cbn [pow]. replace (1 - 1) with 0 by ring. rewrite !Rmult_0_l.
    assert (forall k, (k < n)%nat -> (vc (nth k xh (czero P)) - dft (vcs xh) k)%C = RtoC 0) as E.
    { intros k Hk. cbn [Nat.pow] in n, Lx. unfold n in Hk. assert (k = 0)%nat as -> by lia.
      unfold dft. rewrite vcs_length, Lx. cbn [csum]. rewrite Nat.mul_0_l, omega_0, vcs_nth by lia. ring. }
    split.
    + intros k Hk. split; [apply Fx; unfold n in Hk; lia|]. rewrite E by exact Hk. rewrite Cmod_0. lra.
    + rewrite (nrm_ext n _ (fun _ => 0)) by (intros; rewrite E by assumption; apply Cmod_0). rewrite nrm_const by lra. lra.
  - destruct fuel as [|fuel]; [lia|]. cbn [fft_complex].
    pose proof (pow2_pos l) as Hp. set (h := (2 ^ l)%nat) in *.
    assert (n = 2 * h)%nat as En by reflexivity.
    assert (length xh = 2 * h)%nat as Lx2 by (rewrite Lx; reflexivity).
    replace (length xh =? 1)%nat with false by (symmetry; apply Nat.eqb_neq; lia).
    destruct (evens_odds_length xh h ltac:(lia)) as [Le Lo].
    pose proof (pow2_INR l) as EI. fold h in EI. pose proof (grow_mono l) as Hgm. pose proof (grow_pos l) as Hg0.
    assert (1 <= INR h) as HI1 by (change 1 with (INR 1); apply le_INR; lia).
    set (xe := fun k => nth k (vcs (evens xh)) (RtoC 0)). set (xo := fun k => nth k (vcs (odds xh)) (RtoC 0)).
    assert (forall j, (j < h)%nat -> xe j = x (2 * j)%nat) as Ee.
    { intros j Hj. unfold xe, x. rewrite !vcs_nth by lia. rewrite (evens_nth _ h) by lia. reflexivity. }
    assert (forall j, (j < h)%nat -> xo j = x (2 * j + 1)%nat) as Eo.
    { intros j Hj. unfold xo, x. rewrite !vcs_nth by lia. rewrite (odds_nth _ h) by lia. reflexivity. }
    assert (s1 n x = s1 h xe + s1 h xo) as Es1.
    { rewrite En, s1_split. unfold s1. f_equal; f_equal; apply rsum_ext; intros j Hj; [rewrite Ee by exact Hj|rewrite Eo by exact Hj]; reflexivity. }
    assert (Cmod (s2 h xe, s2 h xo) <= s2 n x) as Es2.
    { rewrite En. eapply Rle_trans; [|apply s2_split]. apply Req_le. unfold s2. f_equal. f_equal; f_equal; apply nrm_ext; intros j Hj; [rewrite Ee by exact Hj|rewrite Eo by exact Hj]; reflexivity. }
    pose proof (s1_nonneg h xe) as Ne. pose proof (s1_nonneg h xo) as No.
    fold n in EI.
    destruct (IH fuel (evens xh) ltac:(lia) Le) as (eh & Eeh & Leh & He1 & He2); fold xe; try lra; try lia.
    { intros j Hj. rewrite Le in Hj. rewrite (evens_nth _ h) by lia. apply Fx. lia. }
    destruct (IH fuel (odds xh) ltac:(lia) Lo) as (oh & Eoh & Loh & Ho1 & Ho2); fold xo; try lra; try lia.
    { intros j Hj. rewrite Lo in Hj. rewrite (odds_nth _ h) by lia. apply Fx. lia. }
    clear IH. fold h in Leh, Loh, He1, He2, Ho1, Ho2. fold xe in He1, He2. fold xo in Ho1, Ho2.
    rewrite Eeh, Eoh. rewrite Lx2. replace (2 * h / 2)%nat with h by (rewrite Nat.mul_comm, Nat.div_mul; lia).
    set (bf := map (butterfly P (2 * h)) (combine (seq 0 h) (combine eh oh))).
    assert (length bf = h) as Lbf.
    { unfold bf. rewrite map_length, !combine_length, seq_length. lia. }
    rewrite (skipn_all2 xh) by lia. rewrite app_nil_r.
    eexists. split; [reflexivity|]. split; [rewrite app_length, !map_length; lia|].
    set (yh := map fst bf ++ map snd bf).
    set (E := fun k => vc (nth k eh (czero P))). set (O := fun k => vc (nth k oh (czero P))).
    set (e := dft (vcs (evens xh))) in *. set (o := dft (vcs (odds xh))) in *. set (w := omega (2 * h)).
    set (g := grow l) in *.
    assert (forall k, (k < h)%nat -> Cmod (E k) <= (1 + g) * s1 h xe - tiny) as ME.
    { intros k Hk. destruct (He1 k Hk) as [_ D]. pose proof (Cmod_via (E k) (e k)). fold (E k) in D.
      pose proof (dft_rsum (vcs (evens xh)) k) as Db. rewrite vcs_length, Le in Db. fold e in Db. fold xe in Db.
      assert (rsum h (fun i => Cmod (xe i)) <= s1 h xe - tiny) as H0 by (unfold s1; nra). unfold xe in H0 at 1. lra. }
    assert (forall k, (k < h)%nat -> Cmod (O k) <= (1 + g) * s1 h xo - tiny) as MO.
    { intros k Hk. destruct (Ho1 k Hk) as [_ D]. pose proof (Cmod_via (O k) (o k)). fold (O k) in D.
      pose proof (dft_rsum (vcs (odds xh)) k) as Db. rewrite vcs_length, Lo in Db. fold o in Db. fold xo in Db.
      assert (rsum h (fun i => Cmod (xo i)) <= s1 h xo - tiny) as H0 by (unfold s1; nra). unfold xo in H0 at 1. lra. }
    assert (forall k, (k < h)%nat ->
       near (u * (17 * Cmod (Cmod (E k), Cmod (O k)) + 8 * tiny)) (nth k yh (czero P)) (E k + w k * O k)%C /\
       near (u * (17 * Cmod (Cmod (E k), Cmod (O k)) + 8 * tiny)) (nth (h + k) yh (czero P)) (E k - w k * O k)%C) as Key.
    { intros k Hk. unfold yh.
      rewrite app_nth1 by (rewrite map_length; lia). rewrite app_nth2 by (rewrite map_length; lia). rewrite map_length, Lbf.
      replace (h + k - h)%nat with k by lia.
      set (d := (czero P, czero P)).
      change (nth k (map fst bf) (czero P)) with (nth k (map fst bf) (fst d)).
      change (nth k (map snd bf) (czero P)) with (nth k (map snd bf) (snd d)). rewrite !map_nth.
      assert (nth k bf d = butterfly P (2 * h) (k, (nth k eh (czero P), nth k oh (czero P)))) as ->.
      { unfold bf. rewrite nth_indep with (d' := butterfly P (2 * h) (0%nat, (czero P, czero P))).
        - rewrite map_nth. rewrite nth_combine by (rewrite seq_length, combine_length; lia).
          rewrite nth_combine by lia. rewrite seq_nth by lia. reflexivity.
        - fold bf. lia. }
      pose proof (ME k Hk). pose proof (MO k Hk).
      apply (butterfly_near (2 * h) k ((1 + g) * s1 n x)); try lia.
      - rewrite <- En. exact HO.
      - apply He1, Hk.
      - apply Ho1, Hk.
      - fold (E k) (O k). rewrite Es1. lra.
      - rewrite Es1. rewrite Es1 in H16. nra. }
    assert (forall j, (j < h)%nat -> nth j (vcs (evens xh)) (RtoC 0) = nth (2 * j) (vcs xh) (RtoC 0)) as Ne2 by exact Ee.
    assert (forall j, (j < h)%nat -> nth j (vcs (odds xh)) (RtoC 0) = nth (2 * j + 1) (vcs xh) (RtoC 0)) as No2 by exact Eo.
    assert (forall k, dft (vcs xh) k = e k + w k * o k)%C as D1.
    { intros k. apply (dft_split (vcs xh) (vcs (evens xh)) (vcs (odds xh)) h); rewrite ?vcs_length; auto; lia. }
    assert (forall k, dft (vcs xh) (h + k) = e k - w k * o k)%C as D2.
    { intros k. apply (dft_split_hi (vcs xh) (vcs (evens xh)) (vcs (odds xh)) h); rewrite ?vcs_length; auto; lia. }
    assert (forall k, Cmod (w k) = 1) as Mw by (intros; apply Cmod_omega).
    split.
    + assert (forall k, (k < h)%nat -> Cmod (E k - e k)%C + Cmod (O k - o k)%C +
        u * (17 * Cmod (Cmod (E k), Cmod (O k)) + 8 * tiny) <= grow (S l) * s1 n x) as Hb.
      { intros k Hk. destruct (He1 k Hk) as [_ De]. destruct (Ho1 k Hk) as [_ Do]. fold (E k) in De. fold (O k) in Do.
        assert (Cmod (Cmod (E k), Cmod (O k)) <= Cmod (E k) + Cmod (O k)) as Hs.
        { pose proof (Cmod_ge_0 (E k)). pose proof (Cmod_ge_0 (O k)). apply sq_le; [lra|]. rewrite Cmod_pair_sq. nra. }
        pose proof (ME k Hk) as H1. pose proof (MO k Hk) as H2. rewrite grow_S, Es1. fold g.
        assert (u * (17 * Cmod (Cmod (E k), Cmod (O k)) + 8 * tiny) <= 17 * u * ((1 + g) * (s1 h xe + s1 h xo))) as H3; [|lra].
        rewrite (Rmult_comm 17 u), Rmult_assoc. apply Rmult_le_compat_l; [lra|].
        lra. }
      intros k0 Hk0. destruct (Nat.lt_ge_cases k0 h) as [Hlt|Hge].
      * destruct (Key k0 Hlt) as [[F1 B1] _]. split; [exact F1|]. rewrite D1. eapply Rle_trans; [apply (Cmod_tri3 _ (E k0 + w k0 * O k0)%C)|].
        assert (Cmod (E k0 + w k0 * O k0 - (e k0 + w k0 * o k0))%C <= Cmod (E k0 - e k0)%C + Cmod (O k0 - o k0)%C) as H1.
        { replace (E k0 + w k0 * O k0 - (e k0 + w k0 * o k0))%C with ((E k0 - e k0) + w k0 * (O k0 - o k0))%C by ring.
          eapply Rle_trans; [apply Cmod_triangle|]. rewrite Cmod_mult, Mw. lra. }
        specialize (Hb k0 Hlt). lra.
      * assert (k0 - h < h)%nat as Hlt by lia. replace k0 with (h + (k0 - h))%nat by lia. set (k := (k0 - h)%nat) in *.
        destruct (Key k Hlt) as [_ [F1 B1]]. split; [exact F1|]. rewrite D2. eapply Rle_trans; [apply (Cmod_tri3 _ (E k - w k * O k)%C)|].
        assert (Cmod (E k - w k * O k - (e k - w k * o k))%C <= Cmod (E k - e k)%C + Cmod (O k - o k)%C) as H1.
        { replace (E k - w k * O k - (e k - w k * o k))%C with ((E k - e k) - w k * (O k - o k))%C by ring.
          eapply Rle_trans; [apply Cmod_sub|]. rewrite Cmod_mult, Mw. lra. }
        specialize (Hb k Hlt). lra.
    + (* the Euclidean estimate *)
      set (De := nrm h (fun k => Cmod (E k - e k)%C)) in *. set (Do := nrm h (fun k => Cmod (O k - o k)%C)) in *.
      change (De <= g * (sqrt (INR h) * s2 h xe)) in He2. change (Do <= g * (sqrt (INR h) * s2 h xo)) in Ho2.
      assert (0 <= De) as De0 by apply nrm_nonneg. assert (0 <= Do) as Do0 by apply nrm_nonneg.
      set (rt := sqrt (INR h)) in *. assert (0 <= rt) as Hrt by apply sqrt_pos.
      assert (sqrt (INR n) = sqrt 2 * rt) as Ert by (rewrite EI; apply sqrt_mult_alt; lra).
      assert (Cmod (De, Do) <= g * (rt * s2 n x)) as HD.
      { eapply Rle_trans; [apply (Cmod_pair_mono De Do (g * rt * s2 h xe) (g * rt * s2 h xo)); lra|].
        rewrite Cmod_pair_scale by (apply Rmult_le_pos; lra). rewrite Rmult_assoc. apply Rmult_le_compat_l; [lra|].
        apply Rmult_le_compat_l; [lra|]. exact Es2. }
      (* what is carried over from the two halves *)
      set (f1 := fun k => if (k <? h)%nat then Cmod ((E k - e k) + w k * (O k - o k))%C
                          else Cmod ((E (k - h)%nat - e (k - h)%nat) - w (k - h)%nat * (O (k - h)%nat - o (k - h)%nat))%C).
      assert (nrm n f1 = sqrt 2 * Cmod (De, Do)) as N1.
      { rewrite En. apply (nrm_butterfly h (fun k => E k - e k)%C (fun k => O k - o k)%C w); auto.
        - intros k Hk. unfold f1. rewrite (proj2 (Nat.ltb_lt _ _) Hk). reflexivity.
        - intros k Hk. unfold f1. rewrite (proj2 (Nat.ltb_ge _ _)) by lia. replace (h + k - h)%nat with k by lia. reflexivity. }
      (* what this level adds *)
      set (t := fun k => u * (17 * Cmod (Cmod (E k), Cmod (O k)) + 8 * tiny)).
      set (f2 := fun k => if (k <? h)%nat then t k else t (k - h)%nat).
      assert (forall k, 0 <= t k) as Ht0 by (intros k; unfold t; pose proof (Cmod_ge_0 (Cmod (E k), Cmod (O k))); nra).
      assert (nrm n f2 = sqrt 2 * nrm h t) as N2.
      { rewrite En, nrm_halves. rewrite (nrm_ext h f2 t), (nrm_ext h (fun i => f2 (h + i)%nat) t).
        - apply Rsqr_inj; [apply Cmod_ge_0|apply Rmult_le_pos; [apply sqrt_pos|apply nrm_nonneg]|]. unfold Rsqr.
          rewrite Cmod_pair_sq. pose proof sqrt2_sq as E2. set (a := nrm h t). replace (sqrt 2 * a * (sqrt 2 * a)) with ((sqrt 2 * sqrt 2) * (a * a)) by ring.
          rewrite E2. ring.
        - intros i Hi. unfold f2. rewrite (proj2 (Nat.ltb_ge _ _)) by lia. f_equal. lia.
        - intros i Hi. unfold f2. rewrite (proj2 (Nat.ltb_lt _ _)) by lia. reflexivity. }
      assert (nrm n (fun k => Cmod (vc (nth k yh (czero P)) - dft (vcs xh) k)%C) <= nrm n f1 + nrm n f2) as Hsum.
      { apply nrm_bound2. intros k Hk. split; [apply Cmod_ge_0|]. unfold f1, f2. destruct (Nat.ltb_spec k h) as [Hlt|Hge].
        - destruct (Key k Hlt) as [[_ B1] _]. rewrite D1. fold (t k) in B1.
          eapply Rle_trans; [apply (Cmod_tri3 _ (E k + w k * O k)%C)|].
          replace (E k + w k * O k - (e k + w k * o k))%C with ((E k - e k) + w k * (O k - o k))%C by ring. lra.
        - assert (k - h < h)%nat as Hlt by lia. destruct (Key _ Hlt) as [_ [_ B1]].
          replace (h + (k - h))%nat with k in B1 by lia. replace (dft (vcs xh) k) with (e (k - h)%nat - w (k - h)%nat * o (k - h)%nat)%C
            by (rewrite <- D2; f_equal; lia).
          fold (t (k - h)%nat) in B1. set (j := (k - h)%nat) in *.
          eapply Rle_trans; [apply (Cmod_tri3 _ (E j - w j * O j)%C)|].
          replace (E j - w j * O j - (e j - w j * o j))%C with ((E j - e j) - w j * (O j - o j))%C by ring. lra. }
      (* the size of the computed halves *)
      set (nx := nrm n (fun k => Cmod (x k))) in *.
      assert (Cmod (nrm h (fun k => Cmod (e k)), nrm h (fun k => Cmod (o k))) = rt * nx) as Hpar.
      { pose proof (dft_parseval l (vcs (evens xh)) ltac:(rewrite vcs_length; exact Le)) as P1.
        pose proof (dft_parseval l (vcs (odds xh)) ltac:(rewrite vcs_length; exact Lo)) as P2.
        fold h in P1, P2. fold rt in P1, P2. unfold e, o. rewrite P1, P2. rewrite Cmod_pair_scale by exact Hrt. f_equal. unfold nx. rewrite En, nrm_even_odd.
        f_equal. f_equal; apply nrm_ext; intros j Hj; f_equal; [apply Ee|apply Eo]; exact Hj. }
      assert (Cmod (nrm h (fun k => Cmod (E k)), nrm h (fun k => Cmod (O k))) <= rt * nx + Cmod (De, Do)) as Hsz.
      { rewrite <- Hpar. eapply Rle_trans; [|apply Cmod_pair_add].
        apply Cmod_pair_mono; (split; [apply nrm_nonneg|]); apply nrm_bound2; intros k Hk; (split; [apply Cmod_ge_0|apply Cmod_via]). }
      assert (nrm h t <= 17 * u * (rt * nx + Cmod (De, Do)) + 8 * u * tiny * rt) as Ht1.
      { eapply Rle_trans; [apply (nrm_bound2 h t (fun k => 17 * u * Cmod (Cmod (E k), Cmod (O k))) (fun _ => 8 * u * tiny))|].
        - intros k Hk. split; [apply Ht0|]. unfold t. lra.
        - rewrite nrm_scale by lra. rewrite nrm_const by nra. rewrite nrm_pair. fold rt.
          apply Rplus_le_compat_r, Rmult_le_compat_l; lra. }
      rewrite N1, N2 in Hsum. eapply Rle_trans; [exact Hsum|]. rewrite <- Rmult_plus_distr_l, Ert.
      replace (grow (S l) * (sqrt 2 * rt * s2 n x)) with (sqrt 2 * (grow (S l) * (rt * s2 n x))) by ring.
      apply Rmult_le_compat_l; [apply sqrt_pos|]. rewrite grow_S. fold g.
      assert (s2 n x = nx + tiny * (sqrt 2 * rt)) as Es2n by (unfold s2; fold nx; rewrite Ert; reflexivity).
      assert (1 <= rt) as Hrt1 by (unfold rt; rewrite <- sqrt_1; apply sqrt_le_1_alt; exact HI1).
      assert (1 <= sqrt 2) as Hs2 by (rewrite <- sqrt_1 at 1; apply sqrt_le_1_alt; lra).
      assert (nx + tiny <= s2 n x) as Hle by (rewrite Es2n; assert (1 <= sqrt 2 * rt) by nra; nra).
      assert (17 * u * (rt * nx) + 8 * u * tiny * rt <= 17 * u * (rt * s2 n x)) as H5.
      { assert (rt * nx + rt * tiny <= rt * s2 n x) by (rewrite <- Rmult_plus_distr_l; apply Rmult_le_compat_l; lra).
        assert (0 <= u * (rt * tiny)) by (apply Rmult_le_pos; nra). nra. }
      assert (17 * u * Cmod (De, Do) <= 17 * u * (g * (rt * s2 n x))) as H6 by (apply Rmult_le_compat_l; lra).
      lra.
Qed.
End Error.
