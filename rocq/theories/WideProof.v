(** * Products of digits that are too wide for a double *)
From Coq Require Import ZArith Reals Lra Lia Psatz List Arith Bool.
From Flocq Require Import Core IEEE754.BinarySingleNaN.
From Coquelicot Require Import Complex.
From Verif Require Import Base Spec Limits Fourier Multiplication Bignum Outcome Wp ValueProof AddSubProof BignumProof
  Conv Pow2Proof HistoryProof Dft FloatModel FftError ConvError MulProof MulOpProof Ieee IeeeProof Environment EnvironmentProof.
Import ListNotations.
Open Scope Z_scope.

(** ** The coefficients, however inexact *)
Section Near.
Context (P : flops) (val : F P -> R) (fin : F P -> Prop) (rnd : R -> R) (u Om : R) (K : Z).
Hypothesis HR : rounding P val fin rnd u Om K.

Lemma coefficients_near fuel a b :
  let l := Z.to_nat (Z.log2_up (Z.of_nat (length a + length b))) in
  let n := INR (2 ^ l) in let Q := sum_squares a + sum_squares b in
  (forall d, In d a -> 0 <= d <= K) -> (forall d, In d b -> 0 <= d <= K) ->
  (0 < length a + length b)%nat -> Z.of_nat (length a + length b) <= 2 ^ 32 ->
  (l < fuel)%nat -> Z.of_nat (2 ^ l) <= K -> (301 * (n * (IZR Q + 1)) <= Om)%R ->
  (length a + length b <= 2 ^ l)%nat /\
  exists table inv, convolute_fft P fuel (create_fft_table P a b) = Some table /\ ifft_complex P fuel table = Some inv /\
    length inv = (2 ^ l)%nat /\
    forall k, (k < 2 ^ l)%nat -> fin (fst (nth k inv (czero P))) /\
      (Rabs (val (fst (nth k inv (czero P))) - IZR (conv a b k)) <= 51.9 * (INR (l + 1) * (IZR Q + 1)) * u)%R.
Proof.
  intros l n Q Ha Hb Hpos Hlen Hf HnK HOm.
  destruct (fft_size_spec (length a) (length b) Hpos Hlen) as (k & Ek & Hk1 & Hk32 & Hk2).
  assert (k = l) as ->.
  { unfold l. assert (Z.log2_up (Z.of_nat (length a + length b)) = Z.of_nat k) as ->; [|lia].
    assert (Z.of_nat (2 ^ k) = 2 ^ Z.of_nat k) as Ep by (rewrite Nat2Z.inj_pow; reflexivity).
    destruct k as [|k].
    - cbn [Nat.pow] in Hk1, Hk2. assert (length a + length b = 1)%nat as -> by lia. reflexivity.
    - apply Z.log2_up_unique; [lia|]. rewrite <- Ep. split; [|lia].
      rewrite Nat2Z.inj_succ, Z.pred_succ. assert (2 * Z.of_nat (2 ^ k) = Z.of_nat (2 ^ S k)) by (rewrite Nat.pow_succ_r'; lia).
      assert (Z.of_nat (2 ^ k) = 2 ^ Z.of_nat k) as Ep2 by (rewrite Nat2Z.inj_pow; reflexivity). lia. }
  split; [exact Hk1|].
  pose proof (FftError.Hu P val fin rnd u Om K HR) as Hu.
  pose proof (sum_squares_nonneg a) as Qa. pose proof (sum_squares_nonneg b) as Qb.
  assert (0 <= IZR Q)%R as HQ0 by (apply IZR_le; unfold Q; lia).
  assert (1 <= n)%R as Hn1 by (change 1%R with (INR 1); apply le_INR; apply pow2_pos).
  assert (n <= 4294967296)%R as Hn32.
  { unfold n. rewrite INR_IZR_INZ. apply IZR_le. rewrite Nat2Z.inj_pow. change 4294967296 with (2 ^ 32). apply Z.pow_le_mono_r; lia. }
  set (rq := sqrt (IZR Q + 1)). set (t := (tiny * sqrt n)%R).
  assert (rq * rq = IZR Q + 1)%R as Erq by (apply sqrt_sqrt; lra).
  assert (1 <= rq)%R as Hr by (unfold rq; rewrite <- sqrt_1 at 1; apply sqrt_le_1_alt; lra).
  assert (0 <= t <= / 1000000)%R as Ht.
  { unfold t. pose proof (sqrt_pos n). assert (sqrt n <= 65536)%R.
    { rewrite <- (sqrt_square 65536) by lra. apply sqrt_le_1_alt. lra. }
    unfold tiny. split; [apply Rmult_le_pos; lra|]. lra. }
  set (S0 := (rq + t)%R). assert (1 <= S0)%R as HS by (unfold S0; lra).
  assert (S0 * S0 <= 1.001 * (IZR Q + 1))%R as HSQ.
  { rewrite <- Erq. unfold S0. assert (t * rq <= / 1000000 * rq)%R by (apply Rmult_le_compat_r; lra). assert (rq <= rq * rq)%R by nra.
    assert (t * t <= / 1000000 * 1)%R by (apply Rmult_le_compat; lra). lra. }
  assert (1 <= S0 * S0)%R as HSS by nra.
  assert (Complex.Cmod (len2 a, len2 b) + tiny * sqrt (INR (2 ^ l)) <= S0)%R as HH.
  { fold n t. unfold S0. apply Rplus_le_compat_r. apply Norm.sq_le; [lra|]. rewrite Norm.Cmod_pair_sq, !len2_sq, <- plus_IZR, Erq. fold Q. lra. }
  assert (forall j, (j <= 3 * l + 3)%nat -> (grow u j <= 51.3 * (INR (l + 1) * u))%R) as Hg.
  { intros j Hj. eapply Rle_trans; [apply (grow_linear P val fin rnd u Om K HR); lia|]. assert (INR j <= 3 * INR (l + 1))%R.
    { replace 3%R with (INR 3) by (cbn; lra). rewrite <- mult_INR. apply le_INR. lia. }
    assert (INR j * u <= 3 * INR (l + 1) * u)%R by (apply Rmult_le_compat_r; lra). lra. }
  assert (INR (l + 1) <= 33)%R as Hl33.
  { replace 33%R with (INR 33) by (rewrite INR_IZR_INZ; reflexivity). apply le_INR. lia. }
  assert (0 <= INR (l + 1) * u)%R as Hlu by (apply Rmult_le_pos; [apply pos_INR|lra]).
  assert (INR (l + 1) * u <= 33 * / 1048576)%R as Hlu2 by (apply Rmult_le_compat; try lra; apply pos_INR).
  assert (n * (S0 * S0) <= n * (1.001 * (IZR Q + 1)))%R as HnS by (apply Rmult_le_compat_l; lra).
  assert (300 * (INR (2 ^ l) * (S0 * S0)) <= Om)%R as HO.
  { fold n. assert (0 <= n * (IZR Q + 1))%R by (apply Rmult_le_pos; lra). lra. }
  destruct (inverse_near P val fin rnd u Om K HR l fuel a b S0 Ha Hb Ek Hk1 ltac:(lia) Hf HnK HS HH HO)
    as (table & inv & E1 & E2 & Linv & Hinv).
  { specialize (Hg (3 * l + 1)%nat ltac:(lia)). lra. }
  exists table, inv. repeat (split; [assumption|]). intros k Hk. destruct (Hinv k Hk) as [F1 E]. split; [exact F1|].
  eapply Rle_trans; [exact E|]. pose proof (grow_pos P val fin rnd u Om K HR (3 * l + 2)) as Hp0.
  specialize (Hg (3 * l + 2)%nat ltac:(lia)).
  apply Rle_trans with (1.001 * (IZR Q + 1) * (51.3 * (INR (l + 1) * u)))%R; [apply Rmult_le_compat; lra|].
  set (X := (INR (l + 1) * u)%R) in *. replace (51.9 * (INR (l + 1) * (IZR Q + 1)) * u)%R with (51.9 * ((IZR Q + 1) * X))%R by (unfold X; ring).
  assert (0 <= (IZR Q + 1) * X)%R by (apply Rmult_le_pos; lra). lra.
Qed.
End Near.

(** ** Large doubles are multiples of powers of two *)
Lemma large_double (x : double) k : 0 <= k -> is_finite x = true -> (IZR (2 ^ (52 + k)) <= B2R x)%R ->
  exists q, Ztrunc (B2R x) = 2 ^ k * q.
Proof.
  intros Hk Fx H. assert (0 < 2 ^ (52 + k)) as Hp by (apply Z.pow_pos_nonneg; lia).
  apply IZR_lt in Hp. destruct x as [s|s| |s m e Hb]; try discriminate; cbn [B2R] in *; [lra|].
  destruct s; [|cbn [cond_Zopp] in *].
  { pose proof (F2R_lt_0 radix2 (Float radix2 (cond_Zopp true (Zpos m)) e)) as Hn. cbn [Fnum cond_Zopp] in Hn. specialize (Hn ltac:(reflexivity)).
    cbn [cond_Zopp] in H. lra. }
  assert (Zpos m < 2 ^ 53) as Hm.
  { pose proof Hb as Hb2. unfold SpecFloat.bounded in Hb2. apply andb_true_iff in Hb2. destruct Hb2 as [H1 _]. unfold SpecFloat.canonical_mantissa in H1.
    apply Zeq_bool_eq in H1. unfold SpecFloat.fexp, SpecFloat.emin in H1. rewrite Digits.Zpos_digits2_pos in H1.
    apply (Digits.Zpower_gt_Zdigits radix2 53 (Zpos m)). lia. }
  assert (k <= e) as He.
  { destruct (Z_lt_le_dec e k) as [Hlt|]; [|assumption]. exfalso. unfold F2R in H. cbn [Fnum Fexp] in H.
    change (2 ^ (52 + k)) with (radix2 ^ (52 + k)) in H. rewrite IZR_Zpower in H by lia.
    assert (IZR (Zpos m) * bpow radix2 e < bpow radix2 53 * bpow radix2 (k - 1))%R as Hlt2.
    { apply Rlt_le_trans with (bpow radix2 53 * bpow radix2 e)%R.
      - apply Rmult_lt_compat_r; [apply bpow_gt_0|]. rewrite <- IZR_Zpower by lia. apply IZR_lt. exact Hm.
      - apply Rmult_le_compat_l; [apply bpow_ge_0|]. apply bpow_le. lia. }
    rewrite <- bpow_plus in Hlt2. replace (53 + (k - 1)) with (52 + k) in Hlt2 by ring. lra. }
  exists (Zpos m * 2 ^ (e - k)). unfold F2R. cbn [Fnum Fexp]. rewrite <- IZR_Zpower by lia. rewrite <- mult_IZR, Ztrunc_IZR.
  change (radix2 ^ e) with (2 ^ e). replace e with (k + (e - k)) at 1 by ring. rewrite Z.pow_add_r by lia. ring.
Qed.

Section Wide.
Context (E : fenvironment) (ct : evaluation) (cosf sinf : double -> double) (HA : accurate cosf sinf).
Let P := ieee_in E ct cosf sinf.
Let HR := rounding_in E ct cosf sinf HA.
Notation val := (val_in E).
Notation rnd := (rnd_in E).

Lemma rnd_above T z : 1 <= T -> rnd (IZR T) = IZR T -> (IZR T <= z)%R -> (IZR T <= rnd z)%R.
Proof.
  intros HT Hg Hz. apply IZR_le in HT.
  assert (least_normal <= 1)%R as Hl by (change 1%R with (bpow radix2 0); apply bpow_le; lia).
  assert (round radix2 fe (round_mode (direction E)) (IZR T) = IZR T) as Ht.
  { unfold rnd_in, flush_real in Hg. destruct (flushing E); [|exact Hg].
    destruct (Rlt_bool _ least_normal); [lra|exact Hg]. }
  assert (IZR T <= round radix2 fe (round_mode (direction E)) z)%R as Hr.
  { rewrite <- Ht. apply round_le; [apply FLT_exp_valid; reflexivity|apply valid_rnd_round_mode|exact Hz]. }
  unfold rnd_in. rewrite flush_real_id; [exact Hr|]. right. rewrite Rabs_right by lra. lra.
Qed.

Lemma rnd_pow2 k : 0 <= k -> k <= 900 -> rnd (IZR (2 ^ k)) = IZR (2 ^ k).
Proof.
  intros Hk Hk2. unfold rnd_in. rewrite round_generic; [apply flush_real_int|apply valid_rnd_round_mode|].
  change (2 ^ k) with (radix2 ^ k). rewrite IZR_Zpower by lia. apply generic_format_bpow. unfold FLT_exp. lia.
Qed.

(** one coefficient, turned into an integer *)
Definition entry (c : Z) (x : cplx P) : double := fadd P (fofZ P c) (ffloor P (fadd P (fst x) (c_half P))).

Lemma entry_bounds c x w e : 0 <= c <= K64 -> is_finite (fst x) = true -> (Rabs (val (fst x) - w) <= e)%R ->
  (Rabs w + e + 2 <= IZR (2 ^ 150))%R ->
  is_finite (entry c x) = true /\
  (Rabs (val (entry c x) - (IZR c + w)) <= e + 2 + 3 * u52 * (Rabs w + e + IZR c + 3))%R /\
  (forall k, 0 <= k <= 145 -> c = 0 -> (IZR (2 ^ k) <= w - e)%R -> (IZR (2 ^ k) <= val (entry c x))%R).
Proof.
  intros Hc Fx He Hw. destruct (r_half _ _ _ _ _ _ _ HR) as [Gh Vh]. fold P in Gh, Vh.
  assert (0 <= e)%R as He0 by (eapply Rle_trans; [apply Rabs_pos|exact He]).
  assert (0 <= IZR c <= IZR K64)%R as HcR by (split; apply IZR_le; lia).
  assert (IZR (2 ^ 150) + IZR K64 + 10 <= Om64 / 4)%R as HOm.
  { unfold Om64, K64. replace (IZR (2 ^ 200)) with (IZR (4 * 2 ^ 198)) by (f_equal; reflexivity).
    rewrite mult_IZR. replace (4 * IZR (2 ^ 198) / 4)%R with (IZR (2 ^ 198)) by field. rewrite <- !plus_IZR. apply IZR_le. vm_compute. discriminate. }
  assert (Rabs (val (fst x)) <= Rabs w + e)%R as Hx.
  { replace (val (fst x)) with (w + (val (fst x) - w))%R by ring. eapply Rle_trans; [apply Rabs_triang|]. lra. }
  assert (0 <= Rabs w)%R as Hw0 by apply Rabs_pos.
  assert (Rabs (val (fst x) + val (c_half P)) <= Rabs w + e + / 2)%R as B1.
  { rewrite Vh. eapply Rle_trans; [apply Rabs_triang|]. rewrite (Rabs_right (/ 2)) by lra. lra. }
  assert (0 < IZR K64)%R as HK0 by (unfold K64; apply IZR_lt; reflexivity).
  destruct (r_add _ _ _ _ _ _ _ HR (fst x) (c_half P) Fx Gh ltac:(lra)) as [G1 V1].
  pose proof (r_err _ _ _ _ _ _ _ HR _ ltac:(eapply Rle_trans; [exact B1|lra])) as Er1. rewrite <- V1 in Er1. fold P in Er1, V1, G1.
  destruct (r_floor _ _ _ _ _ _ _ HR _ G1) as [G2 V2]. fold P in G2, V2.
  set (s := fadd P (fst x) (c_half P)) in *. set (f := ffloor P s) in *.
  assert (Rabs (val f - val s) <= 1)%R as Ef.
  { rewrite V2. pose proof (Zfloor_lb (val s)). pose proof (Zfloor_ub (val s)). apply Rabs_le. lra. }
  destruct (r_ofZ _ _ _ _ _ _ _ HR c Hc) as [G3 V3]. fold P in G3, V3.
  assert (u52 = / 4503599627370496)%R as Hu52 by reflexivity.
  assert (0 <= u52 <= / 1000)%R as Hu by (rewrite Hu52; lra).
  assert (tiny <= / 2)%R as Ht by (unfold tiny; lra). assert (0 <= tiny)%R as Ht0 by (unfold tiny; lra).
  assert (Rabs (val s - (val (fst x) + val (c_half P))) <= u52 * (Rabs w + e + 1))%R as Er1b.
  { eapply Rle_trans; [exact Er1|]. apply Rmult_le_compat_l; lra. }
  set (T := (Rabs w + e + 1)%R) in *. assert (0 <= T)%R as HT0 by (unfold T; lra).
  assert (u52 * T <= T / 1000)%R as HuT by nra. assert (0 <= u52 * T)%R by nra.
  apply Rabs_le_inv in He, Er1b, Ef. rewrite Vh in *.
  pose proof (Rle_abs w) as Hw1. pose proof (Rle_abs (- w)) as Hw2. rewrite Rabs_Ropp in Hw2.
  assert (Rabs (val (fofZ P c) + val f) <= 2 * T + IZR c)%R as B2.
  { rewrite V3. apply Rabs_le. unfold T in *. lra. }
  assert (Rabs (val (fofZ P c) + val f) <= Om64)%R as B2b by (unfold T in *; lra).
  destruct (r_add _ _ _ _ _ _ _ HR _ _ G3 G2 B2b) as [G4 V4].
  pose proof (r_err _ _ _ _ _ _ _ HR _ B2b) as Er2. rewrite <- V4 in Er2. fold P in G4, V4, Er2. change (fadd P (fofZ P c) f) with (entry c x) in *.
  split; [exact G4|]. split.
  - assert (Rabs (val (entry c x) - (val (fofZ P c) + val f)) <= u52 * (2 * T + IZR c + 1))%R as Er2b.
    { eapply Rle_trans; [exact Er2|]. apply Rmult_le_compat_l; lra. }
    apply Rabs_le_inv in Er2b. rewrite V3 in Er2b. apply Rabs_le. 
    replace (3 * u52 * (Rabs w + e + IZR c + 3))%R with (u52 * T + u52 * (2 * T + IZR c + 1) + u52 * (2 * IZR c + 5))%R by (unfold T; ring).
    assert (0 <= u52 * (2 * IZR c + 5))%R by (apply Rmult_le_pos; lra). lra.
  - intros k Hk Ec Hlow. rewrite V4, V3, Ec, Rplus_0_l.
    assert (1 <= 2 ^ k) as Hk1 by (pose proof (Z.pow_pos_nonneg 2 k); lia).
    apply rnd_above; [exact Hk1|apply rnd_pow2; lia|]. rewrite V2. apply IZR_le. apply Zfloor_lub. rewrite V1.
    apply rnd_above; [exact Hk1|apply rnd_pow2; lia|]. lra.
Qed.

Lemma carry_loop_extends L : forall inv c acc al n v n', carry_loop L P inv c acc al n = Ret v n' -> exists ds, v = acc ++ ds.
Proof.
  induction inv as [|x inv IH]; intros c acc al n v n' H; cbn [carry_loop] in H.
  - unfold ret in H. injection H as <- _. exists []. rewrite app_nil_r. reflexivity.
  - unfold bind in H. destruct (to_uint _ _ _ _ _) as [ci n1| | |]; try discriminate. destruct (_ =? 0); [discriminate|].
    apply IH in H. destruct H as [ds ->]. rewrite <- app_assoc. eexists. reflexivity.
Qed.

Lemma to_uint_returns w (x : double) al n z n' : to_uint P w x al n = Ret z n' -> is_finite x = true ->
  z = Ztrunc (val x) /\ 0 <= z < 2 ^ w.
Proof.
  unfold to_uint. intros H Fx. rewrite (r_trunc _ _ _ _ _ _ _ HR x Fx : ftrunc P x = _) in H. destruct (Z.leb_spec 0 (Ztrunc (val x))); [|discriminate].
  destruct (Z.ltb_spec (Ztrunc (val x)) (2 ^ w)); [|discriminate]. unfold ret in H. cbn in H. injection H as <- _. split; [reflexivity|lia].
Qed.

Lemma entry_multiple c x k : 0 <= k -> is_finite (entry c x) = true -> (IZR (2 ^ (52 + k)) <= val (entry c x))%R ->
  exists q, Ztrunc (val (entry c x)) = 2 ^ k * q.
Proof.
  intros Hk Fx H. apply large_double; auto. rewrite operand_finite. exact Fx.
Qed.

(** ** What comes out is a multiple of a power of two *)
Lemma digits_le_K B a : digits_ok B a -> B <= 2 ^ 53 -> forall d, In d a -> 0 <= d <= K64.
Proof. intros Ha HB d Hd. unfold digits_ok in Ha. rewrite Forall_forall in Ha. specialize (Ha d Hd). unfold K64. lia. Qed.

Lemma near_in L fuel a b : limits_ok L = true -> base L <= 2 ^ 53 -> digits_ok (base L) a -> digits_ok (base L) b ->
  (0 < length a + length b)%nat -> Z.of_nat (length a + length b) <= 2 ^ 32 ->
  let l := Z.log2_up (Z.of_nat (length a + length b)) in
  let Q := sum_squares a + sum_squares b in
  l < Z.of_nat fuel ->
  0 <= l <= 32 /\ 0 <= Q <= 2 ^ 138 /\ Z.of_nat (length a + length b) <= 2 ^ l /\
  exists table inv, convolute_fft P fuel (create_fft_table P a b) = Some table /\ ifft_complex P fuel table = Some inv /\
    length inv = (2 ^ Z.to_nat l)%nat /\
    forall k, (k < 2 ^ Z.to_nat l)%nat -> is_finite (fst (nth k inv (czero P))) = true /\
      (Rabs (val (fst (nth k inv (czero P))) - IZR (conv a b k)) <= 51.9 * (IZR (l + 1) * (IZR Q + 1)) * u52)%R.
Proof.
  intros HL HB Ha Hb Hpos Hlen l Q Hf.
  assert (2 <= base L) as HB2 by (apply AddSubProof.HB; exact HL).
  assert (0 <= l <= 32) as Hl.
  { split; [apply Z.log2_up_nonneg|]. unfold l. rewrite <- (Z.log2_up_pow2 32) by lia. apply Z.log2_up_le_mono. exact Hlen. }
  assert (0 <= Q <= 2 ^ 138) as HQ.
  { pose proof (sum_squares_le (base L) a ltac:(lia) Ha). pose proof (sum_squares_le (base L) b ltac:(lia) Hb).
    pose proof (sum_squares_nonneg a). pose proof (sum_squares_nonneg b). unfold Q. split; [lia|].
    assert ((base L - 1) * (base L - 1) <= 2 ^ 106) as Hm by (change (2 ^ 106) with (2 ^ 53 * 2 ^ 53); apply Z.mul_le_mono_nonneg; lia).
    assert (0 <= (base L - 1) * (base L - 1)) as Hm0 by nia.
    change (2 ^ 138) with (2 ^ 32 * 2 ^ 106). set (M := (base L - 1) * (base L - 1)) in *.
    apply Z.le_trans with (Z.of_nat (length a + length b) * M); [nia|]. apply Z.mul_le_mono_nonneg; lia. }
  pose proof (coefficients_near P _ _ _ _ _ _ HR fuel a b) as H. cbv zeta in H. fold l Q in H.
  assert (Z.of_nat (2 ^ Z.to_nat l) = 2 ^ l) as Ep by (rewrite Nat2Z.inj_pow; f_equal; lia).
  assert (0 < 2 ^ l <= 2 ^ 32) as Hn by (split; [apply Z.pow_pos_nonneg; lia|apply Z.pow_le_mono_r; lia]).
  destruct H as (H1 & table & inv & E1 & E2 & Li & H).
  - exact (digits_le_K _ a Ha HB).
  - exact (digits_le_K _ b Hb HB).
  - exact Hpos.
  - exact Hlen.
  - lia.
  - rewrite Ep. unfold K64. lia.
  - rewrite INR_IZR_INZ, Ep, <- (plus_IZR Q 1), <- !mult_IZR. unfold Om64. apply IZR_le.
    apply Z.le_trans with (301 * (2 ^ 32 * (2 ^ 138 + 1))); [|vm_compute; discriminate].
    apply Z.mul_le_mono_nonneg_l; [lia|]. apply Z.mul_le_mono_nonneg; lia.
  - split; [exact Hl|]. split; [exact HQ|]. split; [rewrite <- Ep; lia|]. exists table, inv. repeat (split; [assumption|]).
    intros k Hk. destruct (H k Hk) as [F1 N1]. split; [exact F1|]. rewrite INR_IZR_INZ in N1.
    replace (Z.of_nat (Z.to_nat l + 1)) with (l + 1) in N1 by lia. exact N1.
Qed.

Lemma conv_0 a b : conv a b 0 = nth 0 a 0 * nth 0 b 0.
Proof. unfold conv. cbn [zsum]. rewrite Nat.sub_0_r. lia. Qed.

Lemma nth_nonneg B a i : digits_ok B a -> 0 <= nth i a 0.
Proof.
  intros Ha. unfold digits_ok in Ha. rewrite Forall_forall in Ha.
  destruct (Nat.lt_ge_cases i (length a)) as [H|H]; [apply (Ha (nth i a 0)), nth_In; exact H|rewrite nth_overflow by lia; lia].
Qed.

Lemma low_digit_value B r k : (2 ^ k | B) -> exists q, value B r = nth 0 r 0 + 2 ^ k * q.
Proof.
  intros [m Hm]. destruct r as [|d r]; cbn [value nth]; [exists 0; ring|]. exists (m * value B r). rewrite Hm. ring.
Qed.

Theorem wide_multiple L fuel a b k al n r n' : limits_ok L = true -> base L <= 2 ^ 53 -> 0 <= k -> (2 ^ k | base L) ->
  digits_ok (base L) a -> digits_ok (base L) b ->
  (0 < length a + length b)%nat -> Z.of_nat (length a + length b) <= 2 ^ 32 ->
  let l := Z.log2_up (Z.of_nat (length a + length b)) in
  let Q := sum_squares a + sum_squares b in
  l < Z.of_nat fuel -> 52 * ((l + 1) * (Q + 1)) <= 2 ^ 52 * (nth 0 a 0 * nth 0 b 0 - 2 ^ (52 + k)) ->
  mul_strassen L P fuel a b al n = Ret r n' -> (2 ^ k | value (base L) r).
Proof.
  intros HL HB Hk Hdiv Ha Hb Hpos Hlen l Q Hf Hbig Hret.
  destruct (near_in L fuel a b HL HB Ha Hb Hpos Hlen Hf) as (Hl & HQ & _ & table & inv & E1 & E2 & Li & Hi).
  fold l in Li. fold l Q in Hl, HQ, Hi. assert (1 <= 2 ^ Z.to_nat l)%nat as Hn1 by apply pow2_pos.
  destruct (Hi 0%nat ltac:(lia)) as [F0 N0]. rewrite conv_0 in N0.
  set (c := nth 0 a 0 * nth 0 b 0) in *.
  assert (0 <= c) as Hc0 by (unfold c; apply Z.mul_nonneg_nonneg; eapply nth_nonneg; eassumption).
  assert (2 * c <= Q) as HcQ by (pose proof (conv_squares a b 0) as Hs; rewrite conv_0 in Hs; fold c Q in Hs; lia).
  assert (0 < 2 ^ (52 + k)) as Hp by (apply Z.pow_pos_nonneg; lia).
  assert (k <= 90) as Hk2.
  { destruct (Z_le_gt_dec k 90) as [|Hgt]; [assumption|]. assert (2 ^ 142 <= 2 ^ (52 + k)) as Hx by (apply Z.pow_le_mono_r; lia).
    change (2 ^ 142) with (16 * 2 ^ 138) in Hx. assert (0 <= (l + 1) * (Q + 1)) by nia. lia. }
  set (e := (51.9 * (IZR (l + 1) * (IZR Q + 1)) * u52)%R) in *.
  assert (e <= IZR (c - 2 ^ (52 + k)))%R as He.
  { unfold e, u52. apply IZR_le in Hbig. rewrite !mult_IZR, (plus_IZR Q) in Hbig.
    assert (0 <= IZR (l + 1) * (IZR Q + 1))%R as Hz by (apply Rmult_le_pos; [apply IZR_le; lia|pose proof (IZR_le 0 Q ltac:(lia)); lra]).
    set (Y := (IZR (l + 1) * (IZR Q + 1))%R) in *. replace (IZR (2 ^ 52)) with 4503599627370496%R in Hbig by (f_equal; reflexivity). lra. }
  destruct inv as [|x inv]; [exfalso; rewrite <- Li in Hn1; cbn in Hn1; lia|]. cbn [nth] in F0, N0.
  assert (0 <= IZR c)%R as Hc0R by (apply IZR_le; exact Hc0).
  destruct (entry_bounds 0 x (IZR c) e ltac:(unfold K64; lia) F0 N0) as (Fe & _ & Hlow).
  { rewrite Rabs_right by lra. apply Rle_trans with (IZR (2 * c + 2)).
    - rewrite minus_IZR in He. rewrite plus_IZR, mult_IZR. apply IZR_lt in Hp. lra.
    - apply IZR_le. apply Z.le_trans with (2 ^ 138 + 2); [lia|vm_compute; discriminate]. }
  specialize (Hlow (52 + k) ltac:(lia) eq_refl). rewrite minus_IZR in He. specialize (Hlow ltac:(lra)).
  destruct (entry_multiple 0 x k Hk Fe Hlow) as [q Hq].
  unfold mul_strassen, bind, alloc in Hret. destruct (al n); [|discriminate]. rewrite E1, E2 in Hret.
  destruct (carry_loop L P (x :: inv) 0 [] al (S n)) as [v n1| | |] eqn:Ec; try discriminate.
  cbn [carry_loop] in Ec. unfold bind in Ec. change (fadd P (fofZ P 0) (ffloor P (fadd P (fst x) (c_half P)))) with (entry 0 x) in Ec.
  destruct (to_uint P (wd L) (entry 0 x) al (S n)) as [z n2| | |] eqn:Eu; try discriminate.
  destruct (to_uint_returns _ _ _ _ _ _ Eu Fe) as [-> Hz]. rewrite (nb_eq L HL) in Ec.
  assert (2 <= base L) as HB2 by (apply AddSubProof.HB; exact HL). destruct (Z.eqb_spec (base L) 0); [lia|].
  set (z := Ztrunc (val (entry 0 x))) in *.
  assert (wrap (ws L) (z mod base L) = z mod base L) as Ew.
  { unfold wrap. apply Z.mod_small. pose proof (Z.mod_pos_bound z (base L) ltac:(lia)).
    pose proof HL as H0. unfold limits_ok in H0. rewrite !andb_true_iff, !Z.leb_le in H0. lia. }
  rewrite Ew in Ec. apply carry_loop_extends in Ec. destruct Ec as [ds ->]. cbn [app] in Hret.
  destruct (trim_pure (z mod base L :: ds)) as (r0 & j & Er & _ & Hpr). pose proof (Hpr al n1) as Hpr2. unfold bind in Hpr2. cbn [app] in *.
  rewrite Hpr2 in Hret. injection Hret as <- _.
  destruct (low_digit_value (base L) r0 k Hdiv) as [q2 ->]. apply Z.divide_add_r; [|exists q2; ring].
  destruct r0 as [|d r0]; [exists 0; reflexivity|]. cbn [app] in Er. injection Er as <- _. cbn [nth].
  rewrite Z.mod_eq by lia. apply Z.divide_sub_r; [exists q; rewrite Hq; ring|]. apply Z.divide_mul_l. exact Hdiv.
Qed.

Lemma product_not_multiple B a b k : (2 ^ k | B) -> ~ (2 ^ k | nth 0 a 0 * nth 0 b 0) -> ~ (2 ^ k | value B a * value B b).
Proof.
  intros Hd Hn Hm. apply Hn. destruct (low_digit_value B a k Hd) as [p Ea]. destruct (low_digit_value B b k Hd) as [q Eb].
  rewrite Ea, Eb in Hm. destruct Hm as [m Hm]. exists (m - p * nth 0 b 0 - q * nth 0 a 0 - 2 ^ k * (p * q)).
  set (x := nth 0 a 0) in *. set (y := nth 0 b 0) in *. set (w := 2 ^ k) in *.
  replace (x * y) with ((x + w * p) * (y + w * q) - w * (p * y + q * x + w * (p * q))) by ring. rewrite Hm. ring.
Qed.

(** ** One digit each: the operation does return *)
Lemma to_uint_pure w (x : double) : is_finite x = true -> 0 <= Ztrunc (val x) < 2 ^ w -> pure (to_uint P w x) (Ztrunc (val x)).
Proof.
  intros Fx H. unfold to_uint. rewrite (r_trunc _ _ _ _ _ _ _ HR x Fx : ftrunc P x = _).
  rewrite (proj2 (Z.leb_le _ _)), (proj2 (Z.ltb_lt _ _)) by lia. apply pure_ret.
Qed.

Lemma trunc_bounds z (r : R) lo : (0 <= lo)%Z -> (IZR lo <= r)%R -> (r < IZR z)%R -> lo <= Ztrunc r < z.
Proof.
  intros H0 Hl Hu. apply IZR_le in H0. rewrite Ztrunc_floor by lra. split; [apply Zfloor_lub; exact Hl|].
  apply lt_IZR. eapply Rle_lt_trans; [apply Zfloor_lb|exact Hu].
Qed.

Theorem single_returns fuel d e : 0 <= d < 2 ^ 32 -> 0 <= e < 2 ^ 32 -> 2 ^ 53 + 2 ^ 20 <= d * e -> (1 < fuel)%nat ->
  yields (mul_strassen highp P fuel [d] [e]) (fun r => digits_ok (2 ^ 32) r /\ canonical r).
Proof.
  intros Hd He Hde Hf. change (2 ^ 32) with (base highp) in Hd, He |- *.
  assert (digits_ok (base highp) [d]) as Dd by (repeat constructor; lia). assert (digits_ok (base highp) [e]) as De by (repeat constructor; lia).
  destruct (near_in highp fuel [d] [e] eq_refl ltac:(vm_compute; discriminate) Dd De ltac:(cbn; lia) ltac:(cbn; lia)) as (_ & HQ & _ & table & inv & E1 & E2 & Li & Hi);
    [cbn; lia|].
  cbn [length Nat.add] in Li, Hi. change (Z.log2_up (Z.of_nat 2)) with 1 in Li, Hi. change (2 ^ Z.to_nat 1)%nat with 2%nat in Li, Hi.
  change (base highp) with (2 ^ 32) in Hd, He.
  set (Q := sum_squares [d] + sum_squares [e]) in *. change (IZR (1 + 1)) with 2%R in Hi.
  set (er := (51.9 * (2 * (IZR Q + 1)) * u52)%R) in *.
  assert (0 <= er <= 1048000)%R as Her.
  { assert (Q <= 2 ^ 65 - 1) as Hq.
    { unfold Q, sum_squares. cbn [length zsum nth]. assert (d * d <= (2 ^ 32 - 1) * (2 ^ 32 - 1)) by (apply Z.mul_le_mono_nonneg; lia).
      assert (e * e <= (2 ^ 32 - 1) * (2 ^ 32 - 1)) by (apply Z.mul_le_mono_nonneg; lia). lia. }
    destruct HQ as [HQ0 _]. apply IZR_le in Hq, HQ0. rewrite minus_IZR in Hq. replace (IZR (2 ^ 65)) with 36893488147419103232%R in Hq by (f_equal; reflexivity).
    unfold er, u52. lra. }
  destruct inv as [|x0 [|x1 [|]]]; cbn [length] in Li; try lia. clear Li.
  destruct (Hi 0%nat ltac:(lia)) as [F0 N0]. destruct (Hi 1%nat ltac:(lia)) as [F1 N1]. clear Hi. cbn [nth] in F0, N0, F1, N1.
  assert (conv [d] [e] 1 = 0) as C1 by (unfold conv; cbn [zsum nth Nat.sub]; lia).
  rewrite conv_0 in N0. cbn [nth] in N0. rewrite C1 in N1.
  set (c := d * e) in *. assert (c <= (2 ^ 32 - 1) * (2 ^ 32 - 1)) as Hc by (unfold c; apply Z.mul_le_mono_nonneg; lia).
  pose proof (IZR_le _ _ Hde) as HdeR. rewrite plus_IZR in HdeR. replace (IZR (2 ^ 20)) with 1048576%R in HdeR by (f_equal; reflexivity).
  pose proof (IZR_le _ _ Hc) as HcR. replace (IZR ((2 ^ 32 - 1) * (2 ^ 32 - 1))) with 18446744065119617025%R in HcR by (f_equal; reflexivity).
  assert (0 < IZR (2 ^ 53))%R as H53 by (apply IZR_lt; reflexivity).
  assert (18446744073709551616 * 4 <= IZR (2 ^ 150))%R as H150 by (rewrite <- mult_IZR; apply IZR_le; vm_compute; discriminate).
  destruct (entry_bounds 0 x0 (IZR c) er ltac:(unfold K64; lia) F0 N0) as (Fe0 & B0 & L0); [rewrite Rabs_right by lra; lra|].
  specialize (L0 53 ltac:(lia) eq_refl ltac:(lra)).
  assert (u52 = / 4503599627370496)%R as Hu52 by reflexivity.
  assert (2 ^ 53 <= Ztrunc (val (entry 0 x0)) < 2 ^ 64) as T0.
  { apply trunc_bounds; [lia|exact L0|]. apply Rabs_le_inv in B0. rewrite Rabs_right in B0 by lra. change (IZR 0) with 0%R in B0.
    replace (IZR (2 ^ 64)) with 18446744073709551616%R by (f_equal; reflexivity).
    assert (3 * u52 * (IZR c + er + 0 + 3) <= 100000)%R as Hs by (rewrite Hu52; lra). lra. }
  set (z0 := Ztrunc (val (entry 0 x0))) in *.
  assert (2 ^ 21 <= z0 / 2 ^ 32 < 2 ^ 32) as Hq.
  { split; [apply Z.div_le_lower_bound; lia|apply Z.div_lt_upper_bound; lia]. }
  set (q := z0 / 2 ^ 32) in *. pose proof (IZR_le (2 ^ 21) q ltac:(lia)) as Hq1. pose proof (IZR_lt q (2 ^ 32) ltac:(lia)) as Hq2.
  replace (IZR (2 ^ 21)) with 2097152%R in Hq1 by (f_equal; reflexivity). replace (IZR (2 ^ 32)) with 4294967296%R in Hq2 by (f_equal; reflexivity).
  destruct (entry_bounds q x1 0 er ltac:(unfold K64; lia) F1 N1) as (Fe1 & B1 & _); [rewrite Rabs_R0; lra|].
  assert (0 <= Ztrunc (val (entry q x1)) < 2 ^ 64) as T1.
  { apply trunc_bounds; [lia| |]; apply Rabs_le_inv in B1; rewrite Rabs_R0 in B1;
    assert (3 * u52 * (0 + er + IZR q + 3) <= 1)%R as Hs by (rewrite Hu52; lra); [lra|].
    replace (IZR (2 ^ 64)) with 18446744073709551616%R by (f_equal; reflexivity). lra. }
  set (z1 := Ztrunc (val (entry q x1))) in *.
  unfold mul_strassen. eapply yields_bind; [apply (yields_alloc (fun _ => True)); exact I|]. intros _ _. rewrite E1, E2.
  assert (pure (carry_loop highp P [x0; x1] 0 []) [z0 mod 2 ^ 32; z1 mod 2 ^ 32]) as Hcl.
  { cbn [carry_loop]. eapply pure_bind; [exact (to_uint_pure 64 (entry 0 x0) Fe0 ltac:(fold z0; lia))|].
    fold z0. rewrite (nb_eq highp eq_refl). change (base highp) with (2 ^ 32). cbn [Z.eqb]. change (2 ^ 32 =? 0) with false. cbv iota.
    fold q. eapply pure_bind; [exact (to_uint_pure 64 (entry q x1) Fe1 T1)|]. fold z1. change (2 ^ 32 =? 0) with false. cbv iota.
    change (ws highp) with 32. unfold wrap. rewrite !Zmod_mod. apply pure_ret. }
  eapply yields_bind with (Q := fun v => v = [z0 mod 2 ^ 32; z1 mod 2 ^ 32]); [apply (yields_pure _ _ _ Hcl); reflexivity|]. intros ? ->.
  destruct (trim_pure [z0 mod 2 ^ 32; z1 mod 2 ^ 32]) as (r & j & Er & Cr & Hpr). apply (yields_pure _ _ _ Hpr). split; [|exact Cr].
  assert (digits_ok (base highp) (r ++ repeat 0 j)) as Hd2.
  { rewrite <- Er. change (base highp) with (2 ^ 32). repeat constructor; apply Z.mod_pos_bound; lia. }
  apply Forall_app in Hd2. apply Hd2.
Qed.

(** ** Every way the operation can end *)
Lemma carry_loop_ends L : limits_ok L = true -> forall inv c acc al n,
  (exists v, carry_loop L P inv c acc al n = Ret v n) \/ carry_loop L P inv c acc al n = Undef UB_float_to_int.
Proof.
  intros HL. induction inv as [|x inv IH]; intros c acc al n; cbn [carry_loop]; [left; eexists; reflexivity|].
  unfold bind, to_uint. destruct (ftrunc P _) as [z|]; [|right; reflexivity]. destruct (_ && _)%bool; [|right; reflexivity].
  unfold ret. rewrite (nb_eq L HL). pose proof (AddSubProof.HB L HL). destruct (Z.eqb_spec (base L) 0); [lia|]. apply IH.
Qed.

Lemma mul_ends L fuel a b al n : limits_ok L = true -> base L <= 2 ^ 53 -> digits_ok (base L) a -> digits_ok (base L) b ->
  (0 < length a + length b)%nat -> Z.of_nat (length a + length b) <= 2 ^ 32 ->
  Z.log2_up (Z.of_nat (length a + length b)) < Z.of_nat fuel ->
  match mul_strassen L P fuel a b al n with
  | Ret r n' => digits_ok (base L) r /\ canonical r /\ n' = S n
  | Throw e n' => e = ExBadAlloc /\ al n = false /\ n' = S n
  | Undef w => w = UB_float_to_int
  | NoFuel => False
  end.
Proof.
  intros HL HB Ha Hb Hpos Hlen Hf. pose proof (may_mul_strassen L HL P fuel a b al n) as Hm.
  destruct (near_in L fuel a b HL HB Ha Hb Hpos Hlen Hf) as (_ & _ & _ & table & inv & E1 & E2 & _).
  unfold mul_strassen, bind, alloc in *. destruct (al n); [|tauto]. rewrite E1, E2 in *.
  destruct (carry_loop_ends L HL inv 0 [] al (S n)) as [[v Ev]|Ev]; rewrite Ev in *; [|reflexivity].
  destruct (trim_pure v) as (r & j & _ & _ & Hp). pose proof (Hp al (S n)) as Hp2. unfold bind in Hp2. rewrite Hp2 in *. tauto.
Qed.
End Wide.
