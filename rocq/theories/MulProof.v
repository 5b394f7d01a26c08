(** * Multiplication: from the rounded coefficients to the product *)
From Coq Require Import ZArith Reals Lra Lia List Arith.
From Flocq Require Import Core.Raux.
From Verif Require Import Base Spec Limits Fourier Multiplication Bignum Outcome Wp ValueProof AddSubProof BignumProof
  Conv Pow2Proof HistoryProof Dft FloatModel FftError ConvError.
Import ListNotations.

Open Scope Z_scope.

Lemma value_congr_unique B n ds q p : 2 <= B -> digits_ok B ds -> length ds = n -> 0 <= p < B ^ Z.of_nat n ->
  p = value B ds + B ^ Z.of_nat n * q -> value B ds = p.
Proof.
  intros HB Hd Hl Hp E. pose proof (value_bounds B HB ds Hd) as Hv. rewrite Hl in Hv.
  assert (q = 0) as -> by nia. lia.
Qed.

Section Mul.
Context (P : flops) (val : F P -> R) (fin : F P -> Prop) (rnd : R -> R) (u Om : R) (K : Z).
Hypothesis HR : rounding P val fin rnd u Om K.
Context (L : limits) (HLk : limits_ok L = true).
Let B := base L.
Let HBk : 2 <= B := AddSubProof.HB L HLk.

(** a table entry that rounds to the integer c *)
Definition rounds_to (x : cplx P) (c : Z) : Prop :=
  fin (ffloor P (fadd P (fst x) (c_half P))) /\ val (ffloor P (fadd P (fst x) (c_half P))) = IZR c.

(** every value converted to base_double fits it *)
Fixpoint run_ok (c : Z) (cs : list Z) : Prop :=
  match cs with [] => True | c1 :: r => c + c1 < 2 ^ wd L /\ run_ok ((c + c1) / B) r end.

Lemma run_ok_dec : forall cs c, run_ok c cs \/ ~ run_ok c cs.
Proof.
  induction cs as [|c1 cs IH]; intros c; cbn [run_ok]; [left; exact I|].
  destruct (Z_lt_dec (c + c1) (2 ^ wd L)); [|right; tauto]. destruct (IH ((c + c1) / B)); tauto.
Qed.

(** one round: the double computed from the carry and the coefficient is exact *)
Lemma carry_step M c c1 x : 2 * M <= K -> rounds_to x c1 -> 0 <= c1 <= M -> 0 <= c -> c * (B - 1) <= M ->
  to_uint P (wd L) (fadd P (fofZ P c) (ffloor P (fadd P (fst x) (c_half P)))) =
    (if c + c1 <? 2 ^ wd L then ret (c + c1) else undef UB_float_to_int) /\
  0 <= (c + c1) / B /\ (c + c1) / B * (B - 1) <= M.
Proof.
  intros HK [Gx Vx] Hc1 Hc0 Hc.
  assert (c <= M) as HcM by nia.
  assert (0 <= c + c1 <= 2 * M) as Hs by lia.
  destruct (r_ofZ _ _ _ _ _ _ _ HR c ltac:(lia)) as [Gc Vc].
  pose proof (r_K _ _ _ _ _ _ _ HR) as HKO.
  set (f := ffloor P (fadd P (fst x) (c_half P))) in *.
  assert (val (fofZ P c) + val f = IZR (c + c1))%R as Esum by (rewrite Vc, Vx, plus_IZR; reflexivity).
  assert (Rabs (val (fofZ P c) + val f) <= Om)%R as HB0.
  { rewrite Esum, <- abs_IZR. eapply Rle_trans; [|exact HKO]. apply IZR_le. lia. }
  destruct (r_add _ _ _ _ _ _ _ HR _ _ Gc Gx HB0) as [Gs Vs].
  rewrite Esum, (r_int _ _ _ _ _ _ _ HR) in Vs by lia. split.
  - unfold to_uint. rewrite (r_trunc _ _ _ _ _ _ _ HR _ Gs), Vs, Ztrunc_IZR.
    rewrite (proj2 (Z.leb_le _ _)) by lia. cbn [andb]. reflexivity.
  - split; [apply Z.div_pos; lia|]. pose proof (Z.mul_div_le (c + c1) B ltac:(lia)) as Hd.
    set (q := (c + c1) / B) in *. assert (B * (q * (B - 1)) <= B * M); [|nia].
    assert (B * q * (B - 1) <= (c + c1) * (B - 1)) by (apply Z.mul_le_mono_nonneg_r; lia).
    assert (c1 * (B - 1) <= M * (B - 1)) by (apply Z.mul_le_mono_nonneg_r; lia). nia.
Qed.

Lemma nb_eq : wrap (wd L) (bmax L + 1) = B.
Proof.
  unfold wrap. fold (base L). apply Z.mod_small. pose proof HLk as H0. unfold limits_ok in H0.
  rewrite !andb_true_iff, !Z.leb_le in H0. fold B in H0 |- *. lia.
Qed.

(** the carries stay below M / (B-1) if every coefficient is at most M *)
Lemma carry_loop_spec M : 2 * M <= K ->
  forall inv cs c acc, Forall2 rounds_to inv cs -> Forall (fun x => 0 <= x <= M) cs ->
  0 <= c -> c * (B - 1) <= M -> run_ok c cs ->
  exists ds q, pure (carry_loop L P inv c acc) (acc ++ ds) /\ digits_ok B ds /\ length ds = length cs /\
    c + value B cs = value B ds + B ^ Z.of_nat (length cs) * q.
Proof.
  intros HK inv. induction inv as [|x inv IH]; intros cs c acc Hi Hcs Hc0 Hc Hok.
  - inversion Hi; subst. exists [], c. rewrite app_nil_r. split; [apply pure_ret|]. split; [constructor|]. split; [reflexivity|].
    cbn [value length Z.of_nat]. rewrite Z.pow_0_r. lia.
  - inversion Hi as [|? c1 ? cs1 Hx Hi2]; subst. inversion Hcs as [|? ? Hc1 Hcs2]; subst.
    cbn [carry_loop]. destruct Hok as [Hlt Hok].
    destruct (carry_step M c c1 x HK Hx Hc1 Hc0 Hc) as (Eu & Hq0 & Hq). rewrite Eu, (proj2 (Z.ltb_lt _ _)) by exact Hlt.
    assert (wrap (ws L) ((c + c1) mod B) = (c + c1) mod B) as Ew.
    { unfold wrap. apply Z.mod_small. pose proof (Z.mod_pos_bound (c + c1) B ltac:(lia)).
      pose proof HLk as H0. unfold limits_ok in H0. rewrite !andb_true_iff, !Z.leb_le in H0. fold B in H0. lia. }
    destruct (IH cs1 ((c + c1) / B) (acc ++ [(c + c1) mod B]) Hi2 Hcs2 Hq0 Hq Hok) as (ds & q & Hp & Hd & Hl & Hv).
    exists ((c + c1) mod B :: ds), q. split; [|split; [|split]].
    + eapply pure_bind; [apply pure_ret|]. rewrite nb_eq. destruct (Z.eqb_spec B 0); [lia|]. rewrite Ew.
      replace (acc ++ (c + c1) mod B :: ds) with ((acc ++ [(c + c1) mod B]) ++ ds) by (rewrite <- app_assoc; reflexivity).
      exact Hp.
    + constructor; auto. apply Z.mod_pos_bound. lia.
    + cbn [length]. lia.
    + cbn [value length]. rewrite Nat2Z.inj_succ, Z.pow_succ_r by lia.
      pose proof (Z.div_mod (c + c1) B ltac:(lia)) as Ed. nia.
Qed.

Lemma carry_loop_undef M : 2 * M <= K ->
  forall inv cs c acc, Forall2 rounds_to inv cs -> Forall (fun x => 0 <= x <= M) cs ->
  0 <= c -> c * (B - 1) <= M -> ~ run_ok c cs -> forall al n, carry_loop L P inv c acc al n = Undef UB_float_to_int.
Proof.
  intros HK inv. induction inv as [|x inv IH]; intros cs c acc Hi Hcs Hc0 Hc Hok al n.
  - inversion Hi; subst. elim Hok. exact I.
  - inversion Hi as [|? c1 ? cs1 Hx Hi2]; subst. inversion Hcs as [|? ? Hc1 Hcs2]; subst. cbn [run_ok] in Hok.
    cbn [carry_loop]. destruct (carry_step M c c1 x HK Hx Hc1 Hc0 Hc) as (Eu & Hq0 & Hq). rewrite Eu.
    destruct (Z.ltb_spec (c + c1) (2 ^ wd L)) as [Hlt|Hge]; [|reflexivity].
    unfold bind, ret. rewrite nb_eq. destruct (Z.eqb_spec B 0); [lia|].
    apply (IH cs1); auto; tauto.
Qed.

(** [run_ok] in terms of the columns *)
Lemma run_ok_columns cs : forall c V k0, c = V / B ^ Z.of_nat k0 ->
  (run_ok c cs <-> forall k, (k < length cs)%nat ->
     nth k cs 0 + (V + B ^ Z.of_nat k0 * value B (firstn k cs)) / B ^ Z.of_nat (k0 + k) < 2 ^ wd L).
Proof.
  induction cs as [|c1 cs IH]; intros c V k0 Ec; cbn [run_ok length].
  - split; [intros _ k Hk; lia|auto].
  - assert (0 < B ^ Z.of_nat k0) as Hp by (apply Z.pow_pos_nonneg; lia).
    assert ((c + c1) / B = (V + B ^ Z.of_nat k0 * c1) / B ^ Z.of_nat (S k0)) as Ed.
    { rewrite Nat2Z.inj_succ, Z.pow_succ_r, (Z.mul_comm B), <- Z.div_div by lia.
      rewrite (Z.mul_comm _ c1), Z.div_add, Ec by lia. reflexivity. }
    assert (forall k, V + B ^ Z.of_nat k0 * (c1 + B * value B (firstn k cs)) =
      V + B ^ Z.of_nat k0 * c1 + B ^ Z.of_nat (S k0) * value B (firstn k cs)) as Ek.
    { intros k. rewrite Nat2Z.inj_succ, Z.pow_succ_r by lia. ring. }
    rewrite (IH _ _ (S k0) Ed). split.
    + intros [H0 H] k Hk. destruct k as [|k].
      * cbn [nth firstn value]. rewrite Z.mul_0_r, !Z.add_0_r, Nat.add_0_r, <- Ec. lia.
      * cbn [nth firstn value]. rewrite Ek. replace (k0 + S k)%nat with (S k0 + k)%nat by lia. apply H. lia.
    + intros H. split.
      * specialize (H O ltac:(lia)). cbn [nth firstn value] in H. rewrite Z.mul_0_r, !Z.add_0_r, Nat.add_0_r, <- Ec in H. lia.
      * intros k Hk. specialize (H (S k) ltac:(lia)). cbn [nth firstn value] in H. rewrite Ek in H.
        replace (k0 + S k)%nat with (S k0 + k)%nat in H by lia. exact H.
Qed.

Lemma firstn_seq k s n : (k <= n)%nat -> firstn k (seq s n) = seq s k.
Proof.
  revert k s. induction n as [|n IH]; intros [|k] s H; try reflexivity; [lia|]. cbn [seq firstn]. f_equal. apply IH. lia.
Qed.

Lemma run_ok_total a b n : digits_ok B a -> digits_ok B b -> (length a + length b <= n)%nat ->
  (run_ok 0 (map (conv a b) (seq 0 n)) <-> forall k, column_total B a b k < 2 ^ wd L).
Proof.
  intros Ha Hb Hn. rewrite (run_ok_columns _ 0 0 0) by reflexivity. rewrite map_length, seq_length. cbn [Z.of_nat].
  assert (forall k, (k < n)%nat ->
    nth k (map (conv a b) (seq 0 n)) 0 + (0 + B ^ 0 * value B (firstn k (map (conv a b) (seq 0 n)))) / B ^ Z.of_nat (0 + k)
    = column_total B a b k) as E.
  { intros k Hk. unfold column_total. rewrite nth_map_seq by exact Hk. rewrite firstn_map, firstn_seq by lia.
    rewrite Z.pow_0_r, Z.mul_1_l. reflexivity. }
  split; intros H k; [|intros Hk; rewrite E by exact Hk; apply H].
  destruct (Nat.lt_ge_cases k n) as [Hk|Hk]; [rewrite <- E by exact Hk; apply H; exact Hk|].
  unfold column_total. rewrite conv_above, value_conv_n by lia.
  rewrite Z.div_small.
  - pose proof HLk as H0. unfold limits_ok in H0. rewrite !andb_true_iff, !Z.leb_le in H0. fold B in H0. lia.
  - pose proof (value_bounds B HBk a Ha). pose proof (value_bounds B HBk b Hb). split; [nia|].
    apply Z.lt_le_trans with (B ^ Z.of_nat (length a) * B ^ Z.of_nat (length b)); [apply Z.mul_lt_mono_nonneg; lia|].
    rewrite <- Z.pow_add_r by lia. apply Z.pow_le_mono_r; lia.
Qed.

(** (1+x)^m <= 1 + mx + (mx)^2 *)
Lemma pow_one_plus (x : R) m : (0 <= x)%R -> (INR m * x <= 1)%R -> ((1 + x) ^ m <= 1 + INR m * x + (INR m * x) * (INR m * x))%R.
Proof.
  intros Hx. induction m as [|m IH]; intros Hm; [cbn; lra|]. rewrite S_INR in *. cbn [pow].
  assert (0 <= INR m)%R by apply pos_INR. assert (INR m * x <= 1)%R as Hm2 by nra. specialize (IH Hm2).
  set (M := INR m) in *.
  apply Rle_trans with ((1 + x) * (1 + M * x + M * x * (M * x)))%R; [apply Rmult_le_compat_l; lra|].
  assert (M * x * (M * x) * x <= (M * x) * x)%R by (assert (0 <= M * x * x)%R by (apply Rmult_le_pos; nra); nra).
  nra.
Qed.

Lemma grow_linear m : (m <= 100)%nat -> (grow u m <= 17.1 * (INR m * u))%R.
Proof.
  intros Hm. pose proof (FftError.Hu P val fin rnd u Om K HR) as Hu. unfold grow.
  assert (INR m <= 100)%R as HI by (replace 100%R with (INR 100) by (rewrite INR_IZR_INZ; reflexivity); apply le_INR; exact Hm).
  pose proof (pos_INR m). assert (0 <= INR m * u <= / 10000)%R as Hmu by nra.
  pose proof (pow_one_plus (17 * u) m ltac:(lra) ltac:(nra)) as Hp.
  replace (INR m * (17 * u))%R with (17 * (INR m * u))%R in Hp by ring. set (t := (INR m * u)%R) in *. nra.
Qed.

(** the size of the transform: 2^l is the least power of two not below the total length *)
Theorem mul_strassen_cases fuel a b :
  let l := Z.to_nat (Z.log2_up (Z.of_nat (length a + length b))) in
  let n := INR (2 ^ l) in let Q := sum_squares a + sum_squares b in
  digits_ok B a -> digits_ok B b -> (0 < length a + length b)%nat -> Z.of_nat (length a + length b) <= 2 ^ 32 ->
  (l < fuel)%nat ->
  2 * Q <= K -> Z.of_nat (2 ^ l) <= K ->
  (301 * (n * (IZR Q + 1)) <= Om)%R ->
  (103 * (INR (l + 1) * (IZR Q + 1)) * u <= 1)%R ->
  ((forall k, column_total B a b k < 2 ^ wd L) ->
   yields (mul_strassen L P fuel a b) (fun r => digits_ok B r /\ canonical r /\ value B r = value B a * value B b)) /\
  ((exists k, 2 ^ wd L <= column_total B a b k) ->
   forall al n, mul_strassen L P fuel a b al n = if al n then Undef UB_float_to_int else Throw ExBadAlloc (S n)).
Proof.
  intros l n Q Ha Hb Hpos Hlen Hf HQK HnK HOm Hprec.
  destruct (fft_size_spec (length a) (length b) Hpos Hlen) as (k & Ek & Hk1 & Hk32 & Hk2).
  assert (k = l) as ->.
  { unfold l. assert (Z.log2_up (Z.of_nat (length a + length b)) = Z.of_nat k) as ->; [|lia].
    assert (Z.of_nat (2 ^ k) = 2 ^ Z.of_nat k) as Ep by (rewrite Nat2Z.inj_pow; reflexivity).
    destruct k as [|k].
    - cbn [Nat.pow] in Hk1, Hk2. assert (length a + length b = 1)%nat as -> by lia. reflexivity.
    - apply Z.log2_up_unique; [lia|]. rewrite <- Ep. split; [|lia].
      rewrite Nat2Z.inj_succ, Z.pred_succ. assert (2 * Z.of_nat (2 ^ k) = Z.of_nat (2 ^ S k)) by (rewrite Nat.pow_succ_r'; lia).
      assert (Z.of_nat (2 ^ k) = 2 ^ Z.of_nat k) as Ep2 by (rewrite Nat2Z.inj_pow; reflexivity). lia. }
  pose proof (FftError.Hu P val fin rnd u Om K HR) as Hu.
  pose proof (sum_squares_nonneg a) as Qa. pose proof (sum_squares_nonneg b) as Qb.
  assert (0 <= IZR Q)%R as HQ0 by (apply IZR_le; unfold Q; lia).
  assert (1 <= n)%R as Hn1 by (change 1%R with (INR 1); apply le_INR; apply pow2_pos).
  assert (n <= 4294967296)%R as Hn32.
  { unfold n. rewrite INR_IZR_INZ. apply IZR_le. rewrite Nat2Z.inj_pow. change 4294967296 with (2 ^ 32). apply Z.pow_le_mono_r; lia. }
  (* the size S *)
  set (rq := sqrt (IZR Q + 1)). set (t := (tiny * sqrt n)%R).
  assert (rq * rq = IZR Q + 1)%R as Erq by (apply sqrt_sqrt; lra).
  assert (1 <= rq)%R as Hr by (unfold rq; rewrite <- sqrt_1 at 1; apply sqrt_le_1_alt; lra).
  assert (0 <= t <= / 1000000)%R as Ht.
  { unfold t. pose proof (sqrt_pos n). assert (sqrt n <= 65536)%R.
    { rewrite <- (sqrt_square 65536) by lra. apply sqrt_le_1_alt. lra. }
    unfold tiny. split; [apply Rmult_le_pos; lra|]. lra. }
  set (S0 := (rq + t)%R). assert (1 <= S0)%R as HS by (unfold S0; lra).
  assert (S0 * S0 <= 1.001 * (IZR Q + 1))%R as HSQ.
  { rewrite <- Erq. unfold S0. assert (t * rq <= / 1000000 * rq)%R by (apply Rmult_le_compat_r; lra). assert (rq <= rq * rq)%R by nra.
    assert (t * t <= / 1000000 * 1)%R by (apply Rmult_le_compat; lra). lra. }
  assert (1 <= S0 * S0)%R as HSS by nra.
  assert (Complex.Cmod (len2 a, len2 b) + tiny * sqrt (INR (2 ^ l)) <= S0)%R as HH.
  { fold n t. unfold S0. apply Rplus_le_compat_r. apply Norm.sq_le; [lra|]. rewrite Norm.Cmod_pair_sq, !len2_sq, <- plus_IZR, Erq. fold Q. lra. }
  assert (forall j, (j <= 3 * l + 3)%nat -> (S0 * S0 * grow u j < / 2)%R) as Hsmall.
  { intros j Hj. assert (grow u j <= 51.3 * (INR (l + 1) * u))%R as Hg.
    { eapply Rle_trans; [apply grow_linear; lia|]. assert (INR j <= 3 * INR (l + 1))%R.
      { replace 3%R with (INR 3) by (cbn; lra). rewrite <- mult_INR. apply le_INR. lia. }
      assert (INR j * u <= 3 * INR (l + 1) * u)%R by (apply Rmult_le_compat_r; lra). lra. }
    assert (0 <= INR (l + 1) * u)%R as Hlu by (apply Rmult_le_pos; [apply pos_INR|lra]).
    pose proof (grow_pos P val fin rnd u Om K HR j) as Hp0.
    apply Rle_lt_trans with (1.001 * (IZR Q + 1) * (51.3 * (INR (l + 1) * u)))%R; [apply Rmult_le_compat; lra|].
    set (X := (INR (l + 1) * u)%R) in *. replace (103 * (INR (l + 1) * (IZR Q + 1)) * u)%R with (103 * ((IZR Q + 1) * X))%R in Hprec by (unfold X; ring).
    assert (0 <= (IZR Q + 1) * X)%R by (apply Rmult_le_pos; lra). lra. }
  assert (forall j, (j <= 3 * l + 3)%nat -> (grow u j <= 1)%R) as Hg1.
  { intros j Hj. specialize (Hsmall j Hj). pose proof (grow_pos P val fin rnd u Om K HR j). nra. }
  assert (n * (S0 * S0) <= n * (1.001 * (IZR Q + 1)))%R as HnS by (apply Rmult_le_compat_l; lra).
  assert (S0 * S0 <= n * (S0 * S0))%R as HnS2 by nra.
  assert (300 * (INR (2 ^ l) * (S0 * S0)) <= Om)%R as HO.
  { fold n. assert (0 <= n * (IZR Q + 1))%R by (apply Rmult_le_pos; lra). lra. }
  assert (forall x, digits_ok B x -> sum_squares x <= Q -> forall d, In d x -> 0 <= d <= K) as Hdk.
  { intros x Hx Hq d Hd. pose proof (sum_squares_digit x d Hd) as H1.
    unfold digits_ok in Hx. rewrite Forall_forall in Hx. specialize (Hx d Hd). nia. }
  destruct (inverse_near P val fin rnd u Om K HR l fuel a b S0 (Hdk a Ha ltac:(unfold Q; lia)) (Hdk b Hb ltac:(unfold Q; lia))
      Ek Hk1 ltac:(lia) Hf HnK HS HH HO (Hg1 (3 * l + 1)%nat ltac:(lia)))
    as (table & inv & E1 & E2 & Linv & Hinv).
  set (cs := map (conv a b) (seq 0 (2 ^ l))).
  assert (forall j, 0 <= conv a b j /\ 2 * conv a b j <= Q) as Hcv.
  { intros j. pose proof (conv_nonneg B a b j ltac:(lia) Ha Hb). pose proof (conv_squares a b j). unfold Q. lia. }
  assert (Forall2 rounds_to inv cs) as HF2.
  { assert (forall (f : nat -> cplx P) (g : nat -> Z) s N, (forall j, (s <= j < s + N)%nat -> rounds_to (f j) (g j)) ->
      Forall2 rounds_to (map f (seq s N)) (map g (seq s N))) as HF.
    { intros f g s N. revert s. induction N as [|N IH]; intros s H; [constructor|]. cbn [seq map]. constructor.
      - apply H. lia.
      - apply IH. intros j Hj. apply H. lia. }
    assert (inv = map (fun j => nth j inv (czero P)) (seq 0 (2 ^ l))) as ->.
    { apply nth_ext with (d := czero P) (d' := czero P); [rewrite map_length, seq_length; exact Linv|].
      intros j Hj. rewrite nth_map_seq by lia. reflexivity. }
    apply HF. intros j Hj. destruct (Hinv j ltac:(lia)) as [Fj Ej].
    destruct (Hcv j) as [Hc0 Hc1].
    assert (IZR (conv a b j) <= S0 * S0)%R as Hc2.
    { apply Rle_trans with (IZR Q + 1)%R.
      - apply Rle_trans with (IZR Q); [apply IZR_le; lia|lra].
      - rewrite <- Erq. unfold S0. apply Rmult_le_compat; lra. }
    apply (round_near P val fin rnd u Om K HR (S0 * S0) (3 * l + 2)); auto.
    - fold n in HO. lra.
    - apply Hg1. lia.
    - replace (S (3 * l + 2)) with (3 * l + 3)%nat by lia. apply Hsmall. lia. }
  assert (Forall (fun x => 0 <= x <= Q) cs) as Hcs.
  { apply Forall_forall. intros x Hx. unfold cs in Hx. apply in_map_iff in Hx. destruct Hx as (j & <- & _). specialize (Hcv j). lia. }
  split; intros Hcol.
  2:{ intros al n0. unfold mul_strassen, bind, alloc. destruct (al n0); [|reflexivity]. rewrite E1, E2.
      rewrite (carry_loop_undef Q HQK inv cs 0 [] HF2 Hcs ltac:(lia) ltac:(lia)); [reflexivity|].
      intros Hok. pose proof (proj1 (run_ok_total a b (2 ^ l) Ha Hb Hk1) Hok) as Hok2. destruct Hcol as [j Hj]. specialize (Hok2 j). lia. }
  unfold mul_strassen. eapply yields_bind; [apply (yields_alloc (fun _ => True)); exact I|]. intros _ _.
  rewrite E1, E2.
  apply (run_ok_total a b (2 ^ l) Ha Hb Hk1) in Hcol.
  destruct (carry_loop_spec Q HQK inv cs 0 [] HF2 Hcs ltac:(lia) ltac:(lia) Hcol) as (ds & q & Hp & Hd & Hl & Hv).
  cbn [app] in Hp. eapply yields_bind with (Q := fun v => v = ds); [apply (yields_pure _ _ _ Hp); reflexivity|]. intros ? ->.
  destruct (trim_pure ds) as (r & z & Er & Cr & Hpr). apply (yields_pure _ _ _ Hpr).
  assert (length cs = (2 ^ l)%nat) as Lcs by (unfold cs; rewrite map_length; apply seq_length).
  assert (value B cs = value B a * value B b) as Vcs by (apply value_conv_n; exact Hk1).
  assert (value B ds = value B a * value B b) as Vds.
  { apply (value_congr_unique B (2 ^ l) ds q); auto; [lia| |].
    - pose proof (value_bounds B HBk a Ha). pose proof (value_bounds B HBk b Hb). split; [nia|].
      apply Z.lt_le_trans with (B ^ Z.of_nat (length a) * B ^ Z.of_nat (length b)); [apply Z.mul_lt_mono_nonneg; lia|].
      rewrite <- Z.pow_add_r by lia. apply Z.pow_le_mono_r; lia.
    - rewrite <- Vcs, <- Lcs. lia. }
  rewrite Er in Vds, Hd. split; [|split]; auto.
  - apply Forall_app in Hd. apply Hd.
  - rewrite value_app in Vds. assert (forall j, value B (repeat 0 j) = 0) as Hz by (intros j; induction j as [|j IHj]; cbn [repeat value]; [reflexivity|rewrite IHj; ring]). rewrite Hz in Vds. lia.
Qed.
End Mul.
