(** * Forward error of the FFT-based convolution *)
From Coq Require Import ZArith Reals Lra Lia List Arith.
From Coquelicot Require Import Complex.
From Flocq Require Import Core.Raux.
From Verif Require Import Base Spec Limits Fourier Conv Dft Norm FloatModel FftError.
Import ListNotations.
Open Scope R_scope.

(** ** The index -i modulo the length *)
Lemma neg_index_spec l i : (l <= 63)%nat -> (i < 2 ^ l)%nat -> neg_index i (2 ^ l) = ((2 ^ l - i) mod 2 ^ l)%nat.
Proof.
  intros Hl Hi. unfold neg_index, wrap. pose proof (pow2_pos l) as Hp.
  assert (Z.of_nat (2 ^ l) = 2 ^ Z.of_nat l)%Z as E by (rewrite Nat2Z.inj_pow; reflexivity).
  assert (2 ^ 64 = 2 ^ Z.of_nat l * 2 ^ (64 - Z.of_nat l))%Z as E64 by (rewrite <- Z.pow_add_r by lia; f_equal; lia).
  assert (0 < 2 ^ Z.of_nat l)%Z as Hpz by (apply Z.pow_pos_nonneg; lia).
  assert (0 < 2 ^ (64 - Z.of_nat l))%Z as Hqz by (apply Z.pow_pos_nonneg; lia).
  rewrite E. rewrite E64.
  assert (forall z, (z mod (2 ^ Z.of_nat l * 2 ^ (64 - Z.of_nat l))) mod 2 ^ Z.of_nat l = z mod 2 ^ Z.of_nat l)%Z as HM.
  { intros z. rewrite Z.rem_mul_r by lia. rewrite (Z.mul_comm (2 ^ Z.of_nat l) (_ mod _)), Z.mod_add by lia. apply Z.mod_mod. lia. }
  rewrite HM. apply Nat2Z.inj. rewrite Z2Nat.id by (apply Z.mod_pos_bound; lia).
  rewrite Nat2Z.inj_mod, Nat2Z.inj_sub, E by lia.
  replace (2 ^ Z.of_nat l - Z.of_nat i)%Z with (- Z.of_nat i + 1 * 2 ^ Z.of_nat l)%Z by ring. rewrite Z.mod_add by lia. reflexivity.
Qed.

(** ** The packed table and its transform *)
Definition packed (n : nat) (a b : list Z) : list C := map (fun j => (IZR (nth j a 0%Z), IZR (nth j b 0%Z))) (seq 0 n).

Lemma nth_map_seq {A} (f : nat -> A) d n k : (k < n)%nat -> nth k (map f (seq 0 n)) d = f k.
Proof.
  intros H. rewrite nth_indep with (d' := f 0%nat) by (rewrite map_length, seq_length; exact H).
  rewrite map_nth, seq_nth by exact H. reflexivity.
Qed.

Lemma packed_length n a b : length (packed n a b) = n.
Proof. unfold packed. rewrite map_length. apply seq_length. Qed.
Lemma padded_length n a : length (padded n a) = n.
Proof. unfold padded. rewrite map_length. apply seq_length. Qed.

Lemma dft_packed n a b k : dft (packed n a b) k = (dft (padded n a) k + Ci * dft (padded n b) k)%C.
Proof.
  unfold dft. rewrite packed_length, !padded_length, <- csum_scale, <- csum_add. apply csum_ext. intros j Hj.
  unfold packed, padded. rewrite !nth_map_seq by exact Hj.
  assert ((IZR (nth j a 0%Z), IZR (nth j b 0%Z)) = (cz (nth j a 0%Z) + Ci * cz (nth j b 0%Z))%C) as ->.
  { unfold cz, Ci, RtoC, Cplus, Cmult. cbn [fst snd]. f_equal; ring. }
  ring.
Qed.

Lemma dft_packed_conj n a b k : (k < n)%nat ->
  Cconj (dft (packed n a b) ((n - k) mod n)) = (dft (padded n a) k - Ci * dft (padded n b) k)%C.
Proof.
  intros Hk. rewrite <- (packed_length n a b) at 3. rewrite dft_mod by (rewrite packed_length; lia).
  rewrite <- (packed_length n a b) at 2. rewrite <- dft_conj by (rewrite packed_length; lia).
  unfold dft. rewrite map_length, packed_length, !padded_length.
  assert (forall X Y : C, (X - Ci * Y = X + (- Ci) * Y)%C) as -> by (intros; ring).
  rewrite <- csum_scale, <- csum_add. apply csum_ext. intros j Hj.
  rewrite nth_conj. unfold packed, padded. rewrite !nth_map_seq by exact Hj.
  assert (Cconj (IZR (nth j a 0%Z), IZR (nth j b 0%Z)) = (cz (nth j a 0%Z) + (- Ci) * cz (nth j b 0%Z))%C) as ->.
  { unfold Cconj, cz, Ci, RtoC, Cplus, Cmult, Copp. cbn [fst snd]. f_equal; ring. }
  ring.
Qed.

Lemma Cmod_Ci : Cmod Ci = 1.
Proof. unfold Cmod, Ci. cbn [fst snd]. replace (0 ^ 2 + 1 ^ 2) with 1 by ring. apply sqrt_1. Qed.

(** the exact coefficients of the product *)
Definition convs (n : nat) (a b : list Z) : list C := map (fun k => cz (conv a b k)) (seq 0 n).
Lemma convs_length n a b : length (convs n a b) = n.
Proof. unfold convs. rewrite map_length. apply seq_length. Qed.

Lemma dft_convs n a b k : (length a + length b <= n)%nat -> dft (convs n a b) k = (dft (padded n a) k * dft (padded n b) k)%C.
Proof.
  intros H. rewrite !dft_peval, convs_length, !padded_length. apply peval_conv. exact H.
Qed.

(** ** Norms of the digit sequences *)
Lemma rsum_IZR n f : rsum n (fun k => IZR (f k)) = IZR (zsum n f).
Proof.
  revert f. induction n as [|n IH]; intros f; [reflexivity|]. cbn [rsum zsum]. rewrite (IH (fun i => f (S i))), plus_IZR. reflexivity.
Qed.

(** Euclidean length of a digit sequence *)
Definition len2 (a : list Z) : R := sqrt (IZR (sum_squares a)).

Lemma len2_sq a : len2 a * len2 a = IZR (sum_squares a).
Proof. apply sqrt_sqrt. apply IZR_le, sum_squares_nonneg. Qed.

Lemma len2_nonneg a : 0 <= len2 a.
Proof. apply sqrt_pos. Qed.

Lemma padded_nrm n a : (length a <= n)%nat -> nrm n (fun k => Cmod (nth k (padded n a) (RtoC 0))) = len2 a.
Proof.
  intros H. unfold nrm, len2. f_equal. rewrite <- (sum_squares_pad n) by exact H. rewrite <- rsum_IZR.
  apply rsum_ext. intros k Hk. unfold padded. rewrite nth_tab by exact Hk. unfold cz. rewrite Cmod_R, mult_IZR.
  rewrite <- Rabs_mult. apply Rabs_pos_eq. nra.
Qed.

Lemma packed_nrm n a b : (length a <= n)%nat -> (length b <= n)%nat ->
  nrm n (fun k => Cmod (nth k (packed n a b) (RtoC 0))) = Cmod (len2 a, len2 b).
Proof.
  intros Ha Hb. rewrite (nrm_ext n _ (fun k => Cmod (IZR (nth k a 0%Z), IZR (nth k b 0%Z)))).
  - rewrite nrm_pair. f_equal. unfold nrm, len2. f_equal; f_equal; rewrite <- (sum_squares_pad n), <- rsum_IZR by assumption;
      apply rsum_ext; intros; rewrite mult_IZR; reflexivity.
  - intros k Hk. unfold packed. rewrite nth_tab by exact Hk. reflexivity.
Qed.

(** twice a coefficient is at most the sum of all squares *)
Section Error.
Context (P : flops) (val : F P -> R) (fin : F P -> Prop) (rnd : R -> R) (u Om : R) (K : Z).
Hypothesis HR : rounding P val fin rnd u Om K.
Notation near := (near P val fin).
Notation vc := (vc P val).
Notation vcs := (vcs P val).
Notation cfin := (cfin P fin).
Notation allfin := (allfin P fin).
Notation grow := (grow u).
Let Hu : 0 <= u <= / 1048576 := Hu P val fin rnd u Om K HR.
Let Ht : 0 < tiny < / 1000.
Proof. unfold tiny. lra. Qed.

Lemma cconj_val xh : cfin xh -> cfin (cconj P xh) /\ vc (cconj P xh) = Cconj (vc xh).
Proof.
  intros [F1 F2]. destruct (r_neg _ _ _ _ _ _ _ HR _ F2) as [G V]. split; [split; assumption|].
  unfold FftError.vc, cconj, Cconj. cbn [fst snd]. rewrite V. reflexivity.
Qed.

Lemma conj_vcs xh : allfin xh -> allfin (map (cconj P) xh) /\ vcs (map (cconj P) xh) = map Cconj (vcs xh).
Proof.
  intros H. split.
  - intros k Hk. rewrite map_length in Hk. rewrite nth_indep with (d' := cconj P (czero P)) by (rewrite map_length; lia).
    rewrite map_nth. apply cconj_val, H, Hk.
  - unfold FftError.vcs. rewrite !map_map. induction xh as [|x xh IH]; [reflexivity|]. cbn [map]. f_equal.
    + apply cconj_val. apply (H O). cbn. lia.
    + apply IH. intros k Hk. apply (H (S k)). cbn. lia.
Qed.

(** rotation by -i and division by four *)
Lemma rot_near xh : cfin xh -> Cmod (vc xh) <= Om ->
  near (u * (Cmod (vc xh) / 4 + 2 * tiny)) (cscale P (snd xh, fneg P (fst xh)) (c_quarter P)) (- Ci * vc xh * RtoC (/ 4))%C.
Proof.
  intros [F1 F2] HO. destruct (r_neg _ _ _ _ _ _ _ HR _ F1) as [G V].
  destruct (r_quarter _ _ _ _ _ _ _ HR) as [Gq Vq].
  pose proof (re_le_Cmod (vc xh)) as R1. pose proof (im_le_Cmod (vc xh)) as R2.
  unfold FftError.vc at 1 in R1. unfold FftError.vc at 1 in R2. cbn [fst snd] in R1, R2.
  set (a := val (fst xh)) in *. set (b := val (snd xh)) in *.
  assert (Rabs (b * / 4) = / 4 * Rabs b) as Ab by (rewrite Rabs_mult, (Rabs_right (/ 4)) by lra; ring).
  assert (Rabs (- a * / 4) = / 4 * Rabs a) as Aa by (rewrite Rabs_mult, Rabs_Ropp, (Rabs_right (/ 4)) by lra; ring).
  pose proof (Rabs_pos a). pose proof (Rabs_pos b).
  assert (Rabs (val (snd xh) * val (c_quarter P)) <= Om) as B1 by (rewrite Vq; fold b; lra).
  assert (Rabs (val (fneg P (fst xh)) * val (c_quarter P)) <= Om) as B2 by (rewrite Vq, V; fold a; lra).
  destruct (r_mul _ _ _ _ _ _ _ HR _ _ F2 Gq B1) as [G1 V1]. destruct (r_mul _ _ _ _ _ _ _ HR _ _ G Gq B2) as [G2 V2].
  rewrite Vq in V1, V2, B1, B2. rewrite V in V2, B2. fold a in V2, B2. fold b in V1, B1.
  pose proof (r_err _ _ _ _ _ _ _ HR _ B1) as E1. pose proof (r_err _ _ _ _ _ _ _ HR _ B2) as E2.
  split; [split; assumption|]. unfold cscale. cbn [fst snd].
  unfold FftError.vc at 1. cbn [fst snd]. rewrite V1, V2.
  assert ((- Ci * vc xh * RtoC (/ 4))%C = (b * / 4, - a * / 4)) as EE.
  { unfold FftError.vc. fold a b. unfold Ci, RtoC, Cmult, Copp. cbn [fst snd]. f_equal; ring. }
  rewrite EE. unfold Cminus, Cplus, Copp. cbn [fst snd].
  eapply Rle_trans; [apply (Cmod_le_comp _ _ _ _ E1 E2)|].
  replace (u * (Rabs (b * / 4) + tiny), u * (Rabs (- a * / 4) + tiny))
    with (Cplus (u * Rabs (b * / 4), u * Rabs (- a * / 4)) (u * tiny, u * tiny)) by (unfold Cplus; cbn [fst snd]; f_equal; ring).
  eapply Rle_trans; [apply Cmod_triangle|]. rewrite Cmod_scale_abs by lra. rewrite <- EE.
  rewrite !Cmod_mult, Cmod_opp, Cmod_Ci, Cmod_R, (Rabs_right (/ 4)) by lra.
  pose proof (Cmod_pair_le (u * tiny) (u * tiny) (u * tiny)) as H3.
  assert (0 <= u * tiny) by nra. rewrite Rabs_right in H3 by lra. specialize (H3 (Rle_refl _) (Rle_refl _)). lra.
Qed.

(** ** One entry of the pointwise product *)
Definition combine_entry (st : site) (th ch : cplx P) : cplx P :=
  let x3 := cmul P st (cadd P th ch) (csub P th ch) in cscale P (snd x3, fneg P (fst x3)) (c_quarter P).

Lemma combine_near st W th ch : cfin th -> cfin ch -> Cmod (vc th) + Cmod (vc ch) <= W -> 9 * ((W + 1) * (W + 1)) <= Om ->
  let x1 := (vc th + vc ch)%C in let x2 := (vc th - vc ch)%C in
  near (u * (1.6 * ((Cmod x1 + 2 * tiny) * (Cmod x2 + 2 * tiny)) + 4 * tiny)) (combine_entry st th ch) (- Ci * (x1 * x2) * RtoC (/ 4))%C.
Proof.
  intros F1 F2 HW HO x1 x2.
  pose proof (Cmod_triangle (vc th) (vc ch)) as M1. fold x1 in M1. pose proof (Cmod_sub (vc th) (vc ch)) as M2. fold x2 in M2.
  pose proof (Cmod_ge_0 x1) as P1. pose proof (Cmod_ge_0 x2) as P2.
  assert (0 <= W) as HW0 by (pose proof (Cmod_ge_0 (vc th)); pose proof (Cmod_ge_0 (vc ch)); lra).
  assert (W <= Om) as HWO by nra.
  destruct (cadd_near P val fin rnd u Om K HR th ch F1 F2 ltac:(fold x1; lra)) as [G1 E1]. fold x1 in E1.
  destruct (csub_near P val fin rnd u Om K HR th ch F1 F2 ltac:(fold x2; lra)) as [G2 E2]. fold x2 in E2.
  unfold combine_entry. cbv zeta. set (x1h := cadd P th ch) in *. set (x2h := csub P th ch) in *.
  set (a := Cmod x1 + 2 * tiny) in *. set (b := Cmod x2 + 2 * tiny) in *.
  assert (0 <= a <= W + 1) as Ha by (unfold a; lra). assert (0 <= b <= W + 1) as Hb by (unfold b; lra).
  assert (Cmod (vc x1h) <= (1 + u) * a) as N1 by (pose proof (Cmod_via (vc x1h) x1); unfold a in *; nra).
  assert (Cmod (vc x2h) <= (1 + u) * b) as N2 by (pose proof (Cmod_via (vc x2h) x2); unfold b in *; nra).
  assert (0 <= a * b <= (W + 1) * (W + 1)) as Hab by (split; [apply Rmult_le_pos; lra|apply Rmult_le_compat; lra]).
  set (q := (1 + u) * (1 + u)) in *. assert (1 <= q <= 1.001) as Hq by (unfold q; nra).
  assert (Cmod (vc x1h) * Cmod (vc x2h) <= q * (a * b)) as N3.
  { replace (q * (a * b)) with ((1 + u) * a * ((1 + u) * b)) by (unfold q; ring). apply Rmult_le_compat; auto using Cmod_ge_0. }
  assert (1 <= (W + 1) * (W + 1)) as HW1 by nra.
  assert (q * (a * b) <= 1.001 * ((W + 1) * (W + 1))) as Hqab by (apply Rmult_le_compat; lra).
  assert (4 * (q * (a * b) + 1) <= Om) as HO2 by lra.
  destruct (cmul_near P val fin rnd u Om K HR st x1h x2h (q * (a * b)) G1 G2 N3 HO2) as [G3 E3].
  set (x3h := cmul P st x1h x2h) in *.
  assert (Cmod (vc x1h * vc x2h - x1 * x2)%C <= (q - 1) * (a * b)) as D1.
  { replace (vc x1h * vc x2h - x1 * x2)%C with ((vc x1h - x1) * vc x2h + x1 * (vc x2h - x2))%C by ring.
    eapply Rle_trans; [apply Cmod_triangle|]. rewrite !Cmod_mult.
    assert (Cmod (vc x1h - x1)%C * Cmod (vc x2h) <= u * a * ((1 + u) * b)) by (apply Rmult_le_compat; auto using Cmod_ge_0).
    assert (Cmod x1 * Cmod (vc x2h - x2)%C <= a * (u * b)) by (apply Rmult_le_compat; auto using Cmod_ge_0; unfold a; lra).
    unfold q. lra. }
  assert (Cmod (vc x3h - x1 * x2)%C <= u * (5.1 * (a * b) + 5 * tiny)) as D2.
  { eapply Rle_trans; [apply (Cmod_tri3 _ (vc x1h * vc x2h)%C)|].
    assert ((q - 1) * (a * b) <= u * (2.01 * (a * b))).
    { unfold q. replace ((1 + u) * (1 + u) - 1) with (u * (2 + u)) by ring. rewrite Rmult_assoc. apply Rmult_le_compat_l; [lra|]. nra. }
    assert (q * (a * b) <= 1.001 * (a * b)) as Hz by (apply Rmult_le_compat_r; lra).
    assert (u * (3 * (q * (a * b)) + 5 * tiny) <= u * (3.01 * (a * b) + 5 * tiny)) by (apply Rmult_le_compat_l; lra).
    assert (0 <= u * (a * b)) by (apply Rmult_le_pos; lra). lra. }
  assert (Cmod (x1 * x2)%C <= a * b) as M3.
  { rewrite Cmod_mult. apply Rmult_le_compat; unfold a, b; lra. }
  assert (Cmod (vc x3h) <= 1.01 * (a * b) + 0.1 * tiny) as M4.
  { pose proof (Cmod_via (vc x3h) (x1 * x2)%C). assert (u * (5.1 * (a * b) + 5 * tiny) <= / 1048576 * (5.1 * (a * b) + 5 * tiny)) by (apply Rmult_le_compat_r; lra). lra. }
  destruct (rot_near x3h G3 ltac:(lra)) as [G4 E4]. split; [exact G4|].
  eapply Rle_trans; [apply (Cmod_tri3 _ (- Ci * vc x3h * RtoC (/ 4))%C)|].
  assert (Cmod (- Ci * vc x3h * RtoC (/ 4) - - Ci * (x1 * x2) * RtoC (/ 4))%C <= u * (5.1 * (a * b) + 5 * tiny) / 4) as D3.
  { replace (- Ci * vc x3h * RtoC (/ 4) - - Ci * (x1 * x2) * RtoC (/ 4))%C with (- Ci * (vc x3h - x1 * x2) * RtoC (/ 4))%C by ring.
    rewrite !Cmod_mult, Cmod_opp, Cmod_Ci, Cmod_R, Rabs_right by lra. lra. }
  assert (u * (Cmod (vc x3h) / 4 + 2 * tiny) + u * (5.1 * (a * b) + 5 * tiny) / 4 <= u * (1.6 * (a * b) + 4 * tiny)); [|lra].
  replace (u * (5.1 * (a * b) + 5 * tiny) / 4) with (u * ((5.1 * (a * b) + 5 * tiny) / 4)) by (unfold Rdiv; ring).
  rewrite <- Rmult_plus_distr_l. apply Rmult_le_compat_l; [lra|]. lra.
Qed.

(** ** The pointwise product of the two packed transforms *)
Lemma grow_add m m' : 1 + grow (m + m') = (1 + grow m) * (1 + grow m').
Proof. unfold FftError.grow. rewrite pow_add. ring. Qed.

Lemma grow_pos m : 0 <= grow m.
Proof. exact (FftError.grow_pos P val fin rnd u Om K HR m). Qed.

Lemma grow_le m m' : (m <= m')%nat -> grow m <= grow m'.
Proof.
  intros H. replace m' with (m + (m' - m))%nat by lia. pose proof (grow_add m (m' - m)). pose proof (grow_pos m). pose proof (grow_pos (m' - m)). nra.
Qed.

Lemma two_C : (RtoC 2 = RtoC 1 + RtoC 1)%C.
Proof. rewrite <- RtoC_plus. f_equal; lra. Qed.

Lemma Ci_Ci : (Ci * Ci = - RtoC 1)%C.
Proof. unfold Ci, RtoC, Cmult, Copp. cbn [fst snd]. f_equal; ring. Qed.

(** what the errors of the first transform become *)
Lemma product_identity (A B al be : C) :
  (- Ci * ((RtoC 2 * A + al) * (RtoC 2 * (Ci * B) + be)) * RtoC (/ 4) - A * B =
   RtoC (/ 4) * (- Ci) * (al * (RtoC 2 * (Ci * B) + be) + RtoC 2 * A * be))%C.
Proof.
  assert (RtoC 2 * RtoC 2 * RtoC (/ 4) = RtoC 1)%C as E by (rewrite <- !RtoC_mult; f_equal; lra).
  replace (- Ci * ((RtoC 2 * A + al) * (RtoC 2 * (Ci * B) + be)) * RtoC (/ 4) - A * B)%C
    with (- (Ci * Ci) * (RtoC 2 * RtoC 2 * RtoC (/ 4)) * (A * B) - A * B +
          RtoC (/ 4) * (- Ci) * (al * (RtoC 2 * (Ci * B) + be) + RtoC 2 * A * be))%C by ring.
  rewrite E, Ci_Ci. ring.
Qed.

Lemma convolve_near l a b tr S : (l <= 63)%nat -> let n := (2 ^ l)%nat in (length a + length b <= n)%nat ->
  1 <= S -> Cmod (len2 a, len2 b) + tiny * sqrt (INR n) <= S -> grow l <= 1 -> 300 * (INR n * (S * S)) <= Om ->
  length tr = n -> allfin tr ->
  nrm n (fun k => Cmod (vc (nth k tr (czero P)) - dft (packed n a b) k)%C) <= grow l * (sqrt (INR n) * S) ->
  let table := map (convolve_entry P tr) (seq 0 n) in
  allfin table /\
  rsum n (fun k => Cmod (vc (nth k table (czero P)) - dft (convs n a b) k)%C) <= INR n * (S * S) * grow (2 * l + 1).
Proof.
  intros Hl n Hlen HS HH Hg HO Lt Ft Hn table.
  assert (1 <= n)%nat as Hn1 by apply pow2_pos. assert (1 <= INR n) as HN by (change 1 with (INR 1); apply le_INR; exact Hn1).
  pose proof (grow_pos l) as Hg0. set (g := grow l) in *.
  pose proof (sqrt_sqrt (INR n) ltac:(lra)) as Ert. set (rt := sqrt (INR n)) in *.
  assert (1 <= rt) as Hrt by (unfold rt; rewrite <- sqrt_1; apply sqrt_le_1_alt; exact HN).
  set (e := fun k => (vc (nth k tr (czero P)) - dft (packed n a b) k)%C) in *.
  set (m := fun k => ((n - k) mod n)%nat).
  assert (forall k, (m k < n)%nat) as Hm by (intros k; apply Nat.mod_upper_bound; lia).
  set (A := dft (padded n a)) in *. set (B := dft (padded n b)) in *.
  set (al := fun k => (e k + Cconj (e (m k)))%C). set (be := fun k => (e k - Cconj (e (m k)))%C).
  set (eps := nrm n (fun k => Cmod (e k))) in *. assert (0 <= eps) as He0 by apply nrm_nonneg. assert (eps <= g * (rt * S)) as He by exact Hn.
  assert (0 <= rt * S) as HrS by nra.
  (* norms *)
  pose proof (len2_nonneg a) as La0. pose proof (len2_nonneg b) as Lb0.
  assert (0 < tiny <= / 1000) as Hti by (unfold tiny; lra).
  assert (tiny <= tiny * rt) as Htr by nra.
  assert (len2 a <= Cmod (len2 a, len2 b)) as Hla by (apply sq_le; [apply Cmod_ge_0|]; rewrite Cmod_pair_sq; nra).
  assert (len2 b <= Cmod (len2 a, len2 b)) as Hlb by (apply sq_le; [apply Cmod_ge_0|]; rewrite Cmod_pair_sq; nra).
  assert (nrm n (fun k => Cmod (A k)) = rt * len2 a) as NA.
  { unfold A, n. rewrite (dft_parseval l) by apply padded_length. fold n. fold rt. rewrite padded_nrm by lia. reflexivity. }
  assert (nrm n (fun k => Cmod (B k)) = rt * len2 b) as NB.
  { unfold B, n. rewrite (dft_parseval l) by apply padded_length. fold n. fold rt. rewrite padded_nrm by lia. reflexivity. }
  assert (nrm n (fun k => Cmod (e (m k))) = eps) as Nem by (apply (nrm_negated n (fun k => Cmod (e k))); lia).
  assert (nrm n (fun k => Cmod (al k)) <= 2 * eps) as Nal.
  { eapply Rle_trans; [apply (nrm_bound2 n _ (fun k => Cmod (e k)) (fun k => Cmod (e (m k))))|].
    - intros k Hk. split; [apply Cmod_ge_0|]. unfold al. eapply Rle_trans; [apply Cmod_triangle|]. rewrite Cmod_conj. lra.
    - rewrite Nem. fold eps. lra. }
  assert (nrm n (fun k => Cmod (be k)) <= 2 * eps) as Nbe.
  { eapply Rle_trans; [apply (nrm_bound2 n _ (fun k => Cmod (e k)) (fun k => Cmod (e (m k))))|].
    - intros k Hk. split; [apply Cmod_ge_0|]. unfold be. eapply Rle_trans; [apply Cmod_sub|]. rewrite Cmod_conj. lra.
    - rewrite Nem. fold eps. lra. }
  (* the two sums *)
  set (x1 := fun k => (vc (nth k tr (czero P)) + Cconj (vc (nth (m k) tr (czero P))))%C).
  set (x2 := fun k => (vc (nth k tr (czero P)) - Cconj (vc (nth (m k) tr (czero P))))%C).
  assert (forall k, (k < n)%nat -> x1 k = RtoC 2 * A k + al k)%C as Ex1.
  { intros k Hk. unfold x1, al, e. pose proof (dft_packed n a b k) as D1. pose proof (dft_packed_conj n a b k Hk) as D2.
    fold A B in D1, D2. fold (m k) in D2. unfold Cminus at 2. rewrite Cconj_plus.
    assert (Cconj (- dft (packed n a b) (m k)) = - (A k - Ci * B k))%C as ->.
    { rewrite <- D2. unfold Cconj, Copp. cbn [fst snd]. f_equal; ring. }
    rewrite D1, two_C. ring. }
  assert (forall k, (k < n)%nat -> x2 k = RtoC 2 * (Ci * B k) + be k)%C as Ex2.
  { intros k Hk. unfold x2, be, e. pose proof (dft_packed n a b k) as D1. pose proof (dft_packed_conj n a b k Hk) as D2.
    fold A B in D1, D2. fold (m k) in D2. unfold Cminus at 4. rewrite Cconj_plus.
    assert (Cconj (- dft (packed n a b) (m k)) = - (A k - Ci * B k))%C as ->.
    { rewrite <- D2. unfold Cconj, Copp. cbn [fst snd]. f_equal; ring. }
    rewrite D1, two_C. ring. }
  assert (Cmod (RtoC 2) = 2) as M2 by (rewrite Cmod_R, Rabs_right; lra).
  assert (nrm n (fun k => Cmod (x1 k) + 2 * tiny) <= 2 * (rt * S) * (1 + g)) as N1.
  { eapply Rle_trans; [apply (nrm_bound3 n _ (fun k => 2 * Cmod (A k)) (fun k => Cmod (al k)) (fun _ => 2 * tiny))|].
    - intros k Hk. pose proof (Cmod_ge_0 (x1 k)). split; [lra|]. apply Rplus_le_compat_r. rewrite Ex1 by exact Hk.
      eapply Rle_trans; [apply Cmod_triangle|]. rewrite Cmod_mult, M2. lra.
    - rewrite nrm_scale, nrm_const, NA by lra. fold rt. assert (rt * len2 a + rt * tiny <= rt * S) by (rewrite <- Rmult_plus_distr_l; apply Rmult_le_compat_l; lra). nra. }
  assert (nrm n (fun k => Cmod (x2 k) + 2 * tiny) <= 2 * (rt * S) * (1 + g)) as N2.
  { eapply Rle_trans; [apply (nrm_bound3 n _ (fun k => 2 * Cmod (B k)) (fun k => Cmod (be k)) (fun _ => 2 * tiny))|].
    - intros k Hk. pose proof (Cmod_ge_0 (x2 k)). split; [lra|]. apply Rplus_le_compat_r. rewrite Ex2 by exact Hk.
      eapply Rle_trans; [apply Cmod_triangle|]. rewrite !Cmod_mult, M2, Cmod_Ci. lra.
    - rewrite nrm_scale, nrm_const, NB by lra. fold rt. assert (rt * len2 b + rt * tiny <= rt * S) by (rewrite <- Rmult_plus_distr_l; apply Rmult_le_compat_l; lra). nra. }
  assert (nrm n (fun k => Cmod (x2 k)) <= 2 * (rt * S) * (1 + g)) as N2'.
  { eapply Rle_trans; [|exact N2]. apply nrm_mono. intros k Hk. pose proof (Cmod_ge_0 (x2 k)). lra. }
  (* size of the entries *)
  assert (forall k, (k < n)%nat -> Cmod (vc (nth k tr (czero P))) <= 2 * (rt * S)) as Mtr.
  { intros k Hk. pose proof (nrm_entry n (fun k => Cmod (e k)) k Hk (Cmod_ge_0 _)) as H1. cbn beta in H1. fold eps in H1.
    pose proof (nrm_entry n (fun k => Cmod (dft (packed n a b) k)) k Hk (Cmod_ge_0 _)) as H2. cbn beta in H2.
    pose proof (dft_parseval l (packed n a b) (packed_length _ _ _)) as Pv. fold n in Pv. fold rt in Pv. rewrite packed_nrm in Pv by lia. rewrite Pv in H2.
    pose proof (Cmod_via (vc (nth k tr (czero P))) (dft (packed n a b) k)) as H3. unfold e in H1.
    assert (rt * Cmod (len2 a, len2 b) <= rt * S) by (apply Rmult_le_compat_l; lra). assert (g * (rt * S) <= 1 * (rt * S)) by (apply Rmult_le_compat_r; lra). lra. }
  assert (forall k, (k < n)%nat ->
    near (u * (1.6 * ((Cmod (x1 k) + 2 * tiny) * (Cmod (x2 k) + 2 * tiny)) + 4 * tiny)) (nth k table (czero P))
      (- Ci * (x1 k * x2 k) * RtoC (/ 4))%C) as Hloc.
  { intros k Hk. unfold table. rewrite nth_tab by exact Hk. 
    change (convolve_entry P tr k) with (combine_entry (PointSite k) (nth k tr (czero P)) (cconj P (nth (neg_index k (length tr)) tr (czero P)))).
    rewrite Lt. unfold n at 1. rewrite neg_index_spec by assumption. fold n. fold (m k).
    destruct (cconj_val (nth (m k) tr (czero P)) (Ft (m k) ltac:(rewrite Lt; apply Hm))) as [Gc Vc].
    pose proof (combine_near (PointSite k) (4 * (rt * S)) (nth k tr (czero P)) (cconj P (nth (m k) tr (czero P))) (Ft k ltac:(rewrite Lt; exact Hk)) Gc) as H.
    rewrite Vc in H. apply H; clear H.
    - rewrite Cmod_conj. pose proof (Mtr k Hk). pose proof (Mtr (m k) (Hm k)). lra.
    - assert (1 <= rt * S) by nra. apply Rle_trans with (9 * ((5 * (rt * S)) * (5 * (rt * S)))).
      + apply Rmult_le_compat_l; [lra|]. apply Rmult_le_compat; lra.
      + replace (9 * (5 * (rt * S) * (5 * (rt * S)))) with (225 * ((rt * rt) * (S * S))) by ring. rewrite Ert. 
        assert (0 <= INR n * (S * S)) by (apply Rmult_le_pos; nra). lra. }
  split.
  { intros k Hk. unfold table in Hk. rewrite map_length, seq_length in Hk. apply Hloc, Hk. }
  set (p := fun k => (Cmod (x1 k) + 2 * tiny) * (Cmod (x2 k) + 2 * tiny)).
  apply Rle_trans with (rsum n (fun k => u * 1.6 * p k + u * (4 * tiny) + (/ 4 * (Cmod (al k) * Cmod (x2 k)) + / 2 * (Cmod (A k) * Cmod (be k))))).
  { apply rsum_le. intros k Hk. destruct (Hloc k Hk) as [_ D]. eapply Rle_trans; [apply (Cmod_tri3 _ (- Ci * (x1 k * x2 k) * RtoC (/ 4))%C)|].
    rewrite dft_convs by exact Hlen. fold A B. fold (p k) in D.
    assert (Cmod (- Ci * (x1 k * x2 k) * RtoC (/ 4) - A k * B k)%C <= / 4 * (Cmod (al k) * Cmod (x2 k)) + / 2 * (Cmod (A k) * Cmod (be k))) as H; [|lra].
    rewrite Ex1 by exact Hk. rewrite (Ex2 k) at 1 by exact Hk. rewrite product_identity. rewrite <- Ex2 by exact Hk.
    rewrite !Cmod_mult, Cmod_R, Rabs_right by lra. rewrite Cmod_opp, Cmod_Ci, Rmult_1_r.
    apply Rle_trans with (/ 4 * (Cmod (al k) * Cmod (x2 k) + 2 * (Cmod (A k) * Cmod (be k)))); [|lra].
    apply Rmult_le_compat_l; [lra|]. eapply Rle_trans; [apply Cmod_triangle|]. rewrite !Cmod_mult, M2. lra. }
  rewrite !rsum_add, !rsum_scale, rsum_const.
  pose proof (rsum_prod n (fun k => Cmod (x1 k) + 2 * tiny) (fun k => Cmod (x2 k) + 2 * tiny)) as R1. fold p in R1. cbn beta in R1.
  pose proof (rsum_prod n (fun k => Cmod (al k)) (fun k => Cmod (x2 k))) as R2.
  pose proof (rsum_prod n (fun k => Cmod (A k)) (fun k => Cmod (be k))) as R3. rewrite NA in R3.
  set (X := rt * S) in *. assert (X * X = INR n * (S * S)) as EX by (unfold X; rewrite <- Ert; ring).
  assert (rsum n p <= 2 * X * (1 + g) * (2 * X * (1 + g))) as R1'.
  { eapply Rle_trans; [exact R1|]. apply Rmult_le_compat; auto using nrm_nonneg. }
  assert (rsum n (fun k => Cmod (al k) * Cmod (x2 k)) <= 2 * (g * X) * (2 * X * (1 + g))) as R2'.
  { eapply Rle_trans; [exact R2|]. apply Rmult_le_compat; auto using nrm_nonneg. lra. }
  assert (rsum n (fun k => Cmod (A k) * Cmod (be k)) <= X * (2 * (g * X))) as R3'.
  { eapply Rle_trans; [exact R3|]. apply Rmult_le_compat; auto using nrm_nonneg; try lra; unfold X; [apply Rmult_le_pos|apply Rmult_le_compat_l]; lra. }
  rewrite <- EX. assert (1 <= X) as HX1 by (unfold X; nra). assert (1 <= X * X) as HXX by nra.
  assert (INR n <= X * X) as HnX by (rewrite EX; assert (1 <= S * S) by nra; nra).
  assert (grow (2 * l + 1) = (1 + g) * (1 + g) * (1 + 17 * u) - 1) as ->.
  { pose proof (grow_add (l + l) 1) as E1. rewrite (grow_add l l) in E1. fold g in E1.
    assert (1 + grow 1 = 1 + 17 * u) as E2 by (unfold FftError.grow; ring). rewrite E2 in E1.
    replace (2 * l + 1)%nat with (l + l + 1)%nat by lia. lra. }
  assert (u * 1.6 * rsum n p <= u * 1.6 * (2 * X * (1 + g) * (2 * X * (1 + g)))) as T1 by (apply Rmult_le_compat_l; lra).
  assert (INR n * (u * (4 * tiny)) <= X * X * (u * 0.01)) as T2.
  { apply Rmult_le_compat; try lra. - apply Rmult_le_pos; lra. - apply Rmult_le_compat_l; lra. }
  assert (0 <= u * (X * X)) as T3 by (apply Rmult_le_pos; lra).
  assert (1 <= (1 + g) * (1 + g)) as T4 by nra.
  assert (u * (X * X) <= u * (X * X) * ((1 + g) * (1 + g))) as T5 by nra.
  replace (u * 1.6 * (2 * X * (1 + g) * (2 * X * (1 + g)))) with (6.4 * (u * (X * X) * ((1 + g) * (1 + g)))) in T1 by lra.
  replace (X * X * ((1 + g) * (1 + g) * (1 + 17 * u) - 1)) with (X * X * (g * (2 + g)) + 17 * (u * (X * X) * ((1 + g) * (1 + g)))) by ring.
  assert (0 <= u * (X * X) * ((1 + g) * (1 + g))) as T6 by lra.
  lra.
Qed.

(** ** The packed table *)
Lemma table_vcs n a b : (0 <= K)%Z -> (forall d, In d a -> (0 <= d <= K)%Z) -> (forall d, In d b -> (0 <= d <= K)%Z) ->
  fft_size (length a) (length b) = Z.of_nat n ->
  length (create_fft_table P a b) = n /\ allfin (create_fft_table P a b) /\ vcs (create_fft_table P a b) = packed n a b.
Proof.
  intros HK Ha Hb En. unfold create_fft_table. rewrite En, Nat2Z.id.
  assert (forall (x : list Z) k, (forall d, In d x -> (0 <= d <= K)%Z) -> (0 <= nth k x 0 <= K)%Z) as Hd.
  { intros x k Hx. destruct (Nat.lt_ge_cases k (length x)); [apply Hx, nth_In; assumption|]. rewrite nth_overflow by assumption. lia. }
  split; [rewrite map_length; apply seq_length|]. split.
  - intros k Hk. rewrite map_length, seq_length in Hk. rewrite nth_tab by exact Hk.
    split; cbn [fst snd]; apply (r_ofZ _ _ _ _ _ _ _ HR); apply Hd; assumption.
  - unfold FftError.vcs, packed. rewrite map_map. apply map_ext. intros k. unfold FftError.vc. cbn [fst snd].
    f_equal; apply (r_ofZ _ _ _ _ _ _ _ HR); apply Hd; assumption.
Qed.

Lemma dft_diff (x y : list C) k : length x = length y ->
  Cmod (dft x k - dft y k)%C <= rsum (length x) (fun i => Cmod (nth i x (RtoC 0) - nth i y (RtoC 0))%C).
Proof.
  intros L. unfold dft. rewrite <- L. set (n := length x).
  replace (csum n (fun j => nth j x (RtoC 0) * omega n (j * k)) - csum n (fun j => nth j y (RtoC 0) * omega n (j * k)))%C
    with (csum n (fun j => nth j x (RtoC 0) * omega n (j * k) + - RtoC 1 * (nth j y (RtoC 0) * omega n (j * k))))%C
    by (rewrite csum_add, csum_scale; ring).
  eapply Rle_trans; [apply csum_rsum|]. apply rsum_le. intros i Hi.
  replace (nth i x (RtoC 0) * omega n (i * k) + - RtoC 1 * (nth i y (RtoC 0) * omega n (i * k)))%C
    with ((nth i x (RtoC 0) - nth i y (RtoC 0)) * omega n (i * k))%C by ring.
  rewrite Cmod_mult, Cmod_omega. lra.
Qed.

(** the product of the two transforms, in the sum of the moduli *)
Lemma convs_rsum l a b : let n := (2 ^ l)%nat in (length a + length b <= n)%nat ->
  rsum n (fun k => Cmod (dft (convs n a b) k)) <= INR n * (len2 a * len2 b).
Proof.
  intros n H. rewrite (rsum_ext n _ (fun k => Cmod (dft (padded n a) k) * Cmod (dft (padded n b) k))).
  2: { intros k Hk. rewrite dft_convs by exact H. apply Cmod_mult. }
  eapply Rle_trans; [apply rsum_prod|].
  unfold n. rewrite !(dft_parseval l) by apply padded_length. fold n. rewrite !padded_nrm by lia.
  rewrite <- (sqrt_sqrt (INR n)) at 3 by apply pos_INR. apply Req_le. ring.
Qed.

(** ** The real parts that come out of the inverse transform *)
Lemma inverse_near l fuel a b S :
  let n := (2 ^ l)%nat in
  (forall d, In d a -> (0 <= d <= K)%Z) -> (forall d, In d b -> (0 <= d <= K)%Z) ->
  fft_size (length a) (length b) = Z.of_nat n -> (length a + length b <= n)%nat -> (l <= 63)%nat -> (l < fuel)%nat ->
  (Z.of_nat n <= K)%Z -> 1 <= S -> Cmod (len2 a, len2 b) + tiny * sqrt (INR n) <= S ->
  300 * (INR n * (S * S)) <= Om -> grow (3 * l + 1) <= 1 ->
  exists table inv, convolute_fft P fuel (create_fft_table P a b) = Some table /\ ifft_complex P fuel table = Some inv /\
    length inv = n /\
    forall k, (k < n)%nat -> fin (fst (nth k inv (czero P))) /\
      Rabs (val (fst (nth k inv (czero P))) - IZR (conv a b k)) <= S * S * grow (3 * l + 2).
Proof.
  intros n Ha Hb En Hlen Hl Hf HnK HS HH HO Hg.
  assert (1 <= n)%nat as Hn0 by apply pow2_pos.
  assert (1 <= INR n) as Hn1 by (change 1 with (INR 1); apply le_INR; exact Hn0).
  assert (grow l <= 1) as Hgl by (eapply Rle_trans; [apply grow_le|exact Hg]; lia).
  assert (grow (2 * l + 1) <= 1) as Hg2 by (eapply Rle_trans; [apply grow_le|exact Hg]; lia).
  pose proof (sqrt_sqrt (INR n) ltac:(lra)) as Ert.
  assert (1 <= sqrt (INR n)) as Hrt by (rewrite <- sqrt_1; apply sqrt_le_1_alt; exact Hn1).
  set (H := Cmod (len2 a, len2 b)) in *. assert (0 <= H) as HH0 by apply Cmod_ge_0.
  set (Q := S * S) in *. assert (1 <= Q) as HQ by (unfold Q; nra). assert (S <= Q) as HSQ by (unfold Q; nra).
  assert (INR n <= INR n * Q) as HnQ by nra. assert (Q <= INR n * Q) as HQn by nra.
  assert (H * H = len2 a * len2 a + len2 b * len2 b) as EH by (unfold H; apply Cmod_pair_sq).
  assert (0 <= tiny * sqrt (INR n)) as Htr by nra.
  assert (H * H <= Q) as HHQ by (unfold Q; apply Rmult_le_compat; lra).
  destruct (table_vcs n a b ltac:(lia) Ha Hb En) as (Ltab & Ftab & Vtab).
  (* the forward transform *)
  assert (s1 n (fun k => nth k (packed n a b) (RtoC 0)) <= INR n * Q) as Hs1.
  { unfold s1.
    assert (rsum n (fun k => Cmod (nth k (packed n a b) (RtoC 0))) <= sqrt (INR n) * H) as H1.
    { rewrite (rsum_ext n _ (fun k => Cmod (nth k (packed n a b) (RtoC 0)) * 1)) by (intros; ring).
      eapply Rle_trans; [apply (rsum_prod n (fun k => Cmod (nth k (packed n a b) (RtoC 0))) (fun _ => 1))|].
      rewrite packed_nrm, nrm_const by (lia || lra). fold H. lra. }
    assert (tiny * INR n = sqrt (INR n) * (tiny * sqrt (INR n))) as H0.
    { transitivity (tiny * (sqrt (INR n) * sqrt (INR n))); [rewrite Ert|]; ring. }
    assert (sqrt (INR n) <= INR n) as H4 by nra.
    assert (sqrt (INR n) * (H + tiny * sqrt (INR n)) <= sqrt (INR n) * S) as H2 by (apply Rmult_le_compat_l; lra).
    assert (sqrt (INR n) * S <= INR n * Q) as H3 by (apply Rmult_le_compat; lra).
    lra. }
  pose proof (fft_near P val fin rnd u Om K HR l fuel (create_fft_table P a b) Hf Ltab Ftab) as FN. cbv zeta in FN. rewrite Vtab in FN. fold n in FN.
  destruct FN as (tr & Etr & Ltr & Ntr & Dtr); [exact HnK|lra|exact Hgl|lra|].
  assert (allfin tr) as Ftr by (intros k Hk; apply Ntr; lia).
  unfold convolute_fft. rewrite Etr, Ltab. exists (map (convolve_entry P tr) (seq 0 n)).
  destruct (convolve_near l a b tr S Hl Hlen HS HH Hgl HO Ltr Ftr) as [Fcv Dcv].
  { fold n. eapply Rle_trans; [exact Dtr|]. apply Rmult_le_compat_l; [apply grow_pos|]. apply Rmult_le_compat_l; [lra|].
    unfold s2. rewrite packed_nrm by lia. exact HH. }
  fold n in Fcv, Dcv. cbv zeta in Fcv, Dcv. fold Q in Dcv.
  set (table := map (convolve_entry P tr) (seq 0 n)) in *.
  assert (length table = n) as Lcv by (unfold table; rewrite map_length; apply seq_length).
  (* the inverse transform *)
  destruct (conj_vcs table Fcv) as [Fcc Vcc].
  set (xh := map (cconj P) table) in *. assert (length xh = n) as Lxh by (unfold xh; rewrite map_length; exact Lcv).
  set (y := map Cconj (dft_list (convs n a b))).
  assert (length y = n) as Ly0 by (unfold y; rewrite map_length, dft_list_length; apply convs_length).
  assert (forall k, (k < n)%nat -> nth k (vcs xh) (RtoC 0) = Cconj (vc (nth k table (czero P)))) as Vx.
  { intros k Hk. rewrite Vcc. rewrite nth_indep with (d' := Cconj (RtoC 0)) by (rewrite map_length, vcs_length; lia).
    rewrite map_nth. f_equal. apply vcs_nth. lia. }
  assert (forall k, (k < n)%nat -> nth k y (RtoC 0) = Cconj (dft (convs n a b) k)) as Vy.
  { intros k Hk. unfold y. rewrite nth_indep with (d' := Cconj (RtoC 0)) by (rewrite map_length, dft_list_length, convs_length; lia).
    rewrite map_nth. f_equal. apply dft_list_nth. rewrite convs_length. exact Hk. }
  assert (rsum n (fun k => Cmod (nth k (vcs xh) (RtoC 0) - nth k y (RtoC 0))%C) <= INR n * Q * grow (2 * l + 1)) as Dx.
  { eapply Rle_trans; [|exact Dcv]. apply rsum_le. intros k Hk. rewrite Vx, Vy by exact Hk. apply Req_le.
    rewrite <- Cmod_conj. f_equal. unfold Cconj, Cminus, Cplus, Copp. cbn [fst snd]. f_equal; ring. }
  assert (s1 n (fun k => nth k (vcs xh) (RtoC 0)) <= INR n * Q * (1 + grow (2 * l + 1))) as Hs1'.
  { unfold s1. pose proof (convs_rsum l a b Hlen) as CR. fold n in CR. cbv zeta in CR.
    assert (rsum n (fun k => Cmod (nth k (vcs xh) (RtoC 0))) <=
            rsum n (fun k => Cmod (dft (convs n a b) k)) + rsum n (fun k => Cmod (nth k (vcs xh) (RtoC 0) - nth k y (RtoC 0))%C)) as H1.
    { rewrite <- rsum_add. apply rsum_le. intros k Hk. eapply Rle_trans; [apply (Cmod_via _ (nth k y (RtoC 0)))|].
      rewrite (Vy k Hk) at 1. rewrite Cmod_conj. lra. }
    assert (2 * (len2 a * len2 b) <= H * H) as H2.
    { rewrite EH. pose proof (Rle_0_sqr (len2 a - len2 b)) as S2. unfold Rsqr in S2. lra. }
    assert (len2 a * len2 b + tiny <= Q) as H3 by lra.
    assert (INR n * (len2 a * len2 b + tiny) <= INR n * Q) as H4 by (apply Rmult_le_compat_l; lra). lra. }
  assert (INR n * Q * grow (2 * l + 1) <= INR n * Q * 1) as Hc1 by (apply Rmult_le_compat_l; lra).
  pose proof (fft_near P val fin rnd u Om K HR l fuel xh Hf Lxh Fcc) as FN. cbv zeta in FN. fold n in FN.
  destruct FN as (yh & Ey & Ly & Ny & _); [exact HnK|lra|exact Hgl|lra|].
  unfold ifft_complex. fold xh. rewrite Ey. eexists. split; [reflexivity|]. split; [reflexivity|]. split; [rewrite map_length; exact Ly|].
  intros k Hk. destruct (Ny k Hk) as [[G1 _] E1]. clear Ny.
  rewrite Ly. set (h := fun e : cplx P => cdivr P (cconj P e) (fofZ P (Z.of_nat n))).
  rewrite nth_indep with (d' := h (czero P)) by (rewrite map_length; lia). rewrite map_nth. unfold h, cdivr, cconj. cbn [fst snd].
  set (zh := nth k yh (czero P)) in *.
  pose proof (grow_pos l) as Pl. pose proof (grow_pos (2 * l + 1)) as P2.
  assert (grow (3 * l + 1) = grow l * (1 + grow (2 * l + 1)) + grow (2 * l + 1)) as E3l.
  { pose proof (grow_add l (2 * l + 1)) as E. replace (l + (2 * l + 1))%nat with (3 * l + 1)%nat in E by lia. lra. }
  assert (Cmod (vc zh - dft y k)%C <= INR n * Q * grow (3 * l + 1)) as Ez.
  { eapply Rle_trans; [apply (Cmod_tri3 _ (dft (vcs xh) k))|].
    pose proof (dft_diff (vcs xh) y k ltac:(rewrite vcs_length; lia)) as DD. rewrite vcs_length, Lxh in DD.
    assert (grow l * s1 n (fun k => nth k (vcs xh) (RtoC 0)) <= grow l * (INR n * Q * (1 + grow (2 * l + 1)))) by (apply Rmult_le_compat_l; assumption).
    rewrite E3l. lra. }
  assert (Rabs (val (fst zh) - INR n * IZR (conv a b k)) <= INR n * Q * grow (3 * l + 1)) as E2.
  { eapply Rle_trans; [|exact Ez].
    eapply Rle_trans; [|apply re_le_Cmod]. unfold FftError.vc, Cminus, Cplus, Copp. cbn [fst snd].
    apply Req_le. f_equal. unfold Rminus. f_equal. f_equal.
    pose proof (dft_inverse (convs n a b) k) as DI. rewrite convs_length in DI. specialize (DI Hk). fold y in DI.
    unfold convs in DI. rewrite nth_map_seq in DI by exact Hk.
    set (D := dft _ k) in *. apply (f_equal fst) in DI. unfold Cconj, cz, RtoC, Cmult in DI. cbn [fst snd] in DI. rewrite DI. ring. }
  destruct (r_ofZ _ _ _ _ _ _ _ HR (Z.of_nat n) ltac:(lia)) as [Gn Vn]. rewrite <- INR_IZR_INZ in Vn.
  set (N := INR n) in *. set (v := val (fst zh)) in *. set (c := IZR (conv a b k)) in *.
  pose proof (grow_pos (3 * l + 1)) as Hgp. set (g := grow (3 * l + 1)) in *.
  assert (Rabs (v / N - c) <= Q * g) as E3.
  { replace (v / N - c) with ((v - N * c) * / N) by (field; lra).
    rewrite Rabs_mult, (Rabs_right (/ N)) by (left; apply Rinv_0_lt_compat; lra).
    apply (Rmult_le_reg_r N); [lra|]. rewrite Rmult_assoc, Rinv_l, Rmult_1_r by lra. lra. }
  assert (2 * Rabs c <= Q) as Ec.
  { unfold c. rewrite <- abs_IZR, <- mult_IZR. eapply Rle_trans; [apply IZR_le, conv_squares|].
    rewrite plus_IZR, <- !len2_sq. lra. }
  assert (Rabs (v / N) <= (/ 2 + g) * Q) as E4.
  { replace (v / N) with (c + (v / N - c)) by ring. eapply Rle_trans; [apply Rabs_triang|]. lra. }
  assert (Rabs (v / val (fofZ P (Z.of_nat n))) <= Om) as BO by (rewrite Vn; fold N; nra).
  destruct (r_div _ _ _ _ _ _ _ HR _ _ G1 Gn ltac:(rewrite Vn; fold N; lra) BO) as [G2 V2]. fold v in V2.
  rewrite Vn in V2, BO. fold N in V2, BO. split; [exact G2|]. rewrite V2.
  pose proof (r_err _ _ _ _ _ _ _ HR _ BO) as E5.
  replace (rnd (v / N) - c) with ((rnd (v / N) - v / N) + (v / N - c)) by ring.
  eapply Rle_trans; [apply Rabs_triang|].
  replace (3 * l + 2)%nat with ((3 * l + 1) + 1)%nat by lia. pose proof (grow_add (3 * l + 1) 1) as Eg. fold g in Eg.
  assert (1 + grow 1 = 1 + 17 * u) as Eg1 by (unfold FftError.grow; ring). rewrite Eg1 in Eg.
  replace (grow (3 * l + 1 + 1)) with ((1 + g) * (1 + 17 * u) - 1) by lra.
  assert (u * (Rabs (v / N) + tiny) <= u * (2 * ((1 + g) * Q))) by (apply Rmult_le_compat_l; nra).
  assert (0 <= u * ((1 + g) * Q)) by (apply Rmult_le_pos; nra). lra.
Qed.

(** Adding one half and rounding down recovers the integer. *)
Lemma round_near T m x c : fin x -> (0 <= c)%Z -> IZR c <= T -> 1 <= T -> 8 * T <= Om -> grow m <= 1 ->
  Rabs (val x - IZR c) <= T * grow m -> T * grow (S m) < / 2 ->
  fin (ffloor P (fadd P x (c_half P))) /\ val (ffloor P (fadd P x (c_half P))) = IZR c.
Proof.
  intros Fx Hc HT H1 HO Hg E Hs. destruct (r_half _ _ _ _ _ _ _ HR) as [Gh Vh].
  pose proof (grow_pos m) as Hg0. pose proof (grow_add m 1) as Eg.
  assert (1 + grow 1 = 1 + 17 * u) as Eg1 by (unfold FftError.grow; ring). rewrite Eg1, Nat.add_1_r in Eg.
  replace (grow (S m)) with ((1 + grow m) * (1 + 17 * u) - 1) in Hs by lra. set (g := grow m) in *.
  assert (0 <= IZR c) as Hc0 by (apply IZR_le; exact Hc).
  assert (T * g < / 2) as Hs2 by nra.
  assert (Rabs (val x + val (c_half P)) <= T + 1) as B.
  { rewrite Vh. apply abs_elim in E. apply abs_le. lra. }
  destruct (r_add _ _ _ _ _ _ _ HR _ _ Fx Gh ltac:(lra)) as [G V].
  destruct (r_floor _ _ _ _ _ _ _ HR _ G) as [G2 V2]. split; [exact G2|]. rewrite V2. f_equal.
  pose proof (r_err _ _ _ _ _ _ _ HR _ ltac:(eapply Rle_trans; [exact B|lra])) as E2. rewrite <- V in E2.
  set (w := val (fadd P x (c_half P))) in *. rewrite Vh in *.
  assert (u * (Rabs (val x + / 2) + tiny) <= T * (9 * u * (1 + g))) as E3.
  { replace (T * (9 * u * (1 + g))) with (u * (9 * T * (1 + g))) by ring. apply Rmult_le_compat_l; [lra|]. nra. }
  assert (0 <= T * (u * (1 + g))) as E4 by (apply Rmult_le_pos; [lra|]; apply Rmult_le_pos; lra).
  apply Zfloor_imp. rewrite plus_IZR. apply abs_elim in E. apply abs_elim in E2. lra.
Qed.
End Error.
