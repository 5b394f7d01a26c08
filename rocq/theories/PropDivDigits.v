(** * C86: the digits that a division doubles *)
From Verif Require Import Base Spec Limits Compare AddSub Division Outcome DivWork DivDigits.
From Verif Require Import Wp ValueProof BignumProof DivisionProof DivWorkProof PropDivWork DivDigitsProof.

(** Counting changes nothing: whatever the memory does, the counted division ends as the division does. *)
Theorem C86_counting : forall L dbg fuel dividend divisor al n,
  match abs_val_div_digits L dbg fuel dividend divisor al n with
  | Ret (r, _) n' => abs_val_div L dbg fuel dividend divisor al n = Ret r n'
  | Throw e n' => abs_val_div L dbg fuel dividend divisor al n = Throw e n'
  | Undef u => abs_val_div L dbg fuel dividend divisor al n = Undef u
  | NoFuel => abs_val_div L dbg fuel dividend divisor al n = NoFuel
  end.
Proof.
  intros. rewrite <- (division_digits_erases L dbg fuel dividend divisor al n).
  destruct (abs_val_div_digits L dbg fuel dividend divisor al n) as [[r c] n'|e n'|u|]; reflexivity.
Qed.
Print Assumptions C86_counting.

(** [width B v] is the number of digits of v in base B *)
Theorem C86_width : forall B v n, 2 <= B -> 0 < v -> (1 <= n)%nat ->
  (width B v = n <-> B ^ Z.of_nat (n - 1) <= v < B ^ Z.of_nat n).
Proof.
  intros B v n HB Hv Hn. split; [intros <-; apply width_spec; assumption|apply width_unique; assumption].
Qed.
Print Assumptions C86_width.

(** For each one bit of the quotient, at position j, the divisor is doubled j + 1 times and 1 is doubled j times, digit by digit: *)
Theorem C86_digits : forall L fuel dividend divisor m, can_double L = true ->
  digits_ok (base L) dividend -> canonical dividend -> digits_ok (base L) divisor -> canonical divisor -> divisor <> [] ->
  Z.log2 (value (base L) dividend) + 2 <= Z.of_nat fuel ->
  let s := value (base L) divisor in
  let q := value (base L) dividend / s in
  let doubled x k := list_sum (map (fun i => width (base L) (x * 2 ^ Z.of_nat i)) (seq 0 k)) in
  q < 2 ^ Z.of_nat m ->
  returns (abs_val_div_digits L false fuel dividend divisor)
    (fun p => value (base L) (fst p) = q /\
              snd p = list_sum (map (fun j => doubled s (S j) + doubled 1%Z j)%nat (one_bits q m))).
Proof.
  intros L fuel dividend divisor m HD Dd Cd Ds Cs Ns Hf s q doubled Hm.
  pose proof (AddSubProof.HB L (DivisionProof.HL L HD)) as HB.
  assert (0 < s) as Hpos by (apply value_canonical_pos; auto).
  apply yields_returns. eapply yields_mono.
  - apply (division_digits L HD dividend divisor fuel (conj Dd Cd) (conj Ds Cs) Hpos Hf).
  - intros [r c] [V E]. cbn [fst snd] in *. unfold one_bits.
    pose proof (value_bounds (base L) HB dividend Dd).
    rewrite (ones_any q m); [|apply Z.div_pos; lia|exact Hm]. rewrite E. split; [exact V|].
    f_equal. apply map_ext. intros j. unfold cost, doubled. f_equal. f_equal. apply map_ext. intros i. rewrite Z.mul_1_l. reflexivity.
Qed.
Print Assumptions C86_digits.

Lemma sum_bound (f : nat -> nat) b l : (forall i, In i l -> (f i <= b)%nat) -> (list_sum (map f l) <= b * length l)%nat.
Proof.
  induction l as [|x l IH]; intros H; [cbn; lia|]. cbn [map length]. change (list_sum (f x :: map f l)) with (f x + list_sum (map f l))%nat.
  specialize (H x (or_introl eq_refl)) as Hx. specialize (IH (fun i Hi => H i (or_intror Hi))). nia.
Qed.

Lemma sum_le (f g : nat -> nat) l : (forall i, In i l -> (f i <= g i)%nat) -> (list_sum (map f l) <= list_sum (map g l))%nat.
Proof.
  induction l as [|x l IH]; intros H; [reflexivity|]. cbn [map].
  change (f x + list_sum (map f l) <= g x + list_sum (map g l))%nat.
  specialize (H x (or_introl eq_refl)) as Hx. specialize (IH (fun i Hi => H i (or_intror Hi))). lia.
Qed.

Lemma filter_map_sum (f : nat -> nat) p l : (list_sum (map f (filter p l)) <= list_sum (map f l))%nat.
Proof.
  induction l as [|x l IH]; [reflexivity|]. cbn [filter map]. destruct (p x); cbn [map];
    change (list_sum (f x :: map f l)) with (f x + list_sum (map f l))%nat; [change (list_sum (f x :: map f (filter p l))) with (f x + list_sum (map f (filter p l)))%nat|]; lia.
Qed.

Lemma sum_S (f : nat -> nat) m : list_sum (map f (seq 0 (S m))) = (list_sum (map f (seq 0 m)) + f m)%nat.
Proof. rewrite seq_S, map_app. apply sum_snoc. Qed.

Lemma sum_odd k : list_sum (map (fun j => S (2 * j)) (seq 0 k)) = (k * k)%nat.
Proof. induction k as [|k IH]; [reflexivity|]. rewrite sum_S, IH. lia. Qed.

Lemma sum_upto k : (2 * list_sum (map S (seq 0 k)) = k * (k + 1))%nat.
Proof. induction k as [|k IH]; [reflexivity|]. rewrite sum_S. lia. Qed.

Lemma sum_squares_upto k : (6 * list_sum (map (fun j => S j * S j) (seq 0 k)) = k * (k + 1) * (2 * k + 1))%nat.
Proof. induction k as [|k IH]; [reflexivity|]. rewrite sum_S. nia. Qed.

(** A dividend of n digits with a quotient of k bits: at most n k^2 digits are doubled. *)
Theorem C86_bound : forall L fuel dividend divisor k, can_double L = true ->
  digits_ok (base L) dividend -> canonical dividend -> digits_ok (base L) divisor -> canonical divisor -> divisor <> [] ->
  Z.log2 (value (base L) dividend) + 2 <= Z.of_nat fuel ->
  value (base L) dividend < value (base L) divisor * 2 ^ Z.of_nat k ->
  returns (abs_val_div_digits L false fuel dividend divisor) (fun p => (snd p <= length dividend * (k * k))%nat).
Proof.
  intros L fuel dividend divisor k HD Dd Cd Ds Cs Ns Hf Hk.
  pose proof (AddSubProof.HB L (DivisionProof.HL L HD)) as HB.
  assert (0 < value (base L) divisor) as Hpos by (apply value_canonical_pos; auto).
  pose proof (value_bounds (base L) HB dividend Dd) as Vd.
  eapply returns_mono.
  - apply (C86_digits L fuel dividend divisor k HD Dd Cd Ds Cs Ns Hf). apply Z.div_lt_upper_bound; lia.
  - intros [r c] [_ E]. cbn [fst snd] in *. rewrite E. clear E.
    set (s := value (base L) divisor) in *. set (x := value (base L) dividend) in *. set (n := length dividend).
    assert (forall v, 0 < v <= x -> (width (base L) v <= n)%nat) as W.
    { intros v Hv. transitivity (width (base L) x); [apply width_mono; assumption|].
      unfold n. rewrite (length_width L HD dividend (conj Dd Cd)) by (fold x; lia). reflexivity. }
    transitivity (list_sum (map (fun j => (n * S (2 * j))%nat) (one_bits (x / s) k))).
    + apply sum_le. intros j Hj. unfold one_bits in Hj. apply filter_In in Hj. destruct Hj as [_ Hj].
      assert (2 ^ Z.of_nat j <= x / s) as Pj.
      { destruct (Z.le_gt_cases (2 ^ Z.of_nat j) (x / s)) as [|G]; [assumption|]. exfalso.
        assert (0 <= x / s) by (apply Z.div_pos; lia). rewrite <- (Z.mod_small (x / s) (2 ^ Z.of_nat j)) in Hj by lia.
        rewrite Z.mod_pow2_bits_high in Hj by lia. discriminate. }
      assert (s * 2 ^ Z.of_nat j <= x) as Pj' by (pose proof (Z.mul_div_le x s ltac:(lia)); nia).
      assert (forall i, (i <= j)%nat -> 0 < 2 ^ Z.of_nat i <= 2 ^ Z.of_nat j) as P2.
      { intros i Hi. split; [apply Z.pow_pos_nonneg; lia|apply Z.pow_le_mono_r; lia]. }
      assert (list_sum (map (fun i => width (base L) (s * 2 ^ Z.of_nat i)) (seq 0 (S j))) <= n * S j)%nat as A1.
      { rewrite <- (seq_length (S j) 0) at 2. apply sum_bound. intros i Hi. apply in_seq in Hi. apply W. specialize (P2 i ltac:(lia)). nia. }
      assert (list_sum (map (fun i => width (base L) (1 * 2 ^ Z.of_nat i)) (seq 0 j)) <= n * j)%nat as A2.
      { rewrite <- (seq_length j 0) at 2. apply sum_bound. intros i Hi. apply in_seq in Hi. apply W. specialize (P2 i ltac:(lia)). nia. }
      nia.
    + unfold one_bits. etransitivity; [apply filter_map_sum|]. rewrite <- sum_odd. clear.
      generalize (seq 0 k). intros l. induction l as [|y l IH]; [cbn; lia|]. cbn [map].
      change (n * S (2 * y) + list_sum (map (fun j => n * S (2 * j)) l) <= n * (S (2 * y) + list_sum (map (fun j => S (2 * j)) l)))%nat. nia.
Qed.
Print Assumptions C86_bound.

(** In a base 2^w dividing the largest number of n digits by one doubles a number of digits of the order of n^3: with K = n w bits,
    at least K (K + 1) (2 K + 1) / (6 w), and in base 2 exactly n (n + 1) (2 n + 1) / 6.  The result is the dividend. *)
Theorem C86_cubic : forall L fuel w n, can_double L = true -> (1 <= w)%nat -> base L = 2 ^ Z.of_nat w ->
  let dividend := repeat (bmax L) n in let K := (n * w)%nat in
  Z.of_nat K + 2 <= Z.of_nat fuel ->
  returns (abs_val_div_digits L false fuel dividend [1])
    (fun p => value (base L) (fst p) = value (base L) dividend /\
              (K * (K + 1) * (2 * K + 1) <= 6 * w * snd p)%nat /\ (snd p <= n * (K * K))%nat /\
              (w = 1%nat -> (6 * snd p = n * (n + 1) * (2 * n + 1))%nat)).
Proof.
  intros L fuel w n HD Hw Ew dividend K Hf.
  pose proof (AddSubProof.HB L (DivisionProof.HL L HD)) as HB.
  assert (bmax L = base L - 1) as Emax by (unfold base; lia).
  assert (value (base L) dividend = 2 ^ Z.of_nat K - 1) as V.
  { unfold dividend. rewrite Emax, full_value, Ew, <- Z.pow_mul_r by lia. unfold K. do 2 f_equal. lia. }
  assert (0 < 2 ^ Z.of_nat K) by (apply Z.pow_pos_nonneg; lia).
  assert (digits_ok (base L) dividend) as Dd.
  { unfold dividend. apply Forall_forall. intros d Hd. apply repeat_spec in Hd. lia. }
  assert (canonical dividend) as Cd.
  { unfold canonical, dividend. rewrite Emax. clear -HB. induction n as [|n IH]; [cbn; lia|]. cbn [repeat]. destruct n; [cbn; lia|exact IH]. }
  assert (digits_ok (base L) [1]) as D1 by (constructor; [lia|constructor]).
  assert (canonical [1]) as C1 by (unfold canonical; cbn; lia).
  assert (Z.log2 (value (base L) dividend) + 2 <= Z.of_nat fuel) as Hf'.
  { rewrite V. destruct (Z.eq_dec (2 ^ Z.of_nat K - 1) 0) as [->|N]; [cbn; lia|].
    assert (Z.log2 (2 ^ Z.of_nat K - 1) < Z.of_nat K) by (apply Z.log2_lt_pow2; lia). lia. }
  assert (value (base L) [1] = 1) as V1 by (cbn [value]; lia).
  pose proof (C86_bound L fuel dividend [1] K HD Dd Cd D1 C1 ltac:(discriminate) Hf' ltac:(lia)) as U.
  assert (value (base L) dividend / value (base L) [1] < 2 ^ Z.of_nat K) as HQ by (rewrite V1, Z.div_1_r; lia).
  pose proof (C86_digits L fuel dividend [1] K HD Dd Cd D1 C1 ltac:(discriminate) Hf' HQ) as R.
  intros al m. specialize (U al m). specialize (R al m).
  destruct (abs_val_div_digits L false fuel dividend [1] al m) as [[r c] m'|e m'|u|]; try exact U. cbn [fst snd] in *.
  destruct U as [U _], R as [[R Ec] Hm]. split; [|exact Hm]. split; [rewrite R, V1; apply Z.div_1_r|].
  rewrite V1, Z.div_1_r, V in Ec. unfold one_bits in Ec. rewrite filter_all in Ec.
  2:{ intros j Hj. apply in_seq in Hj. rewrite Z.sub_1_r, <- Z.ones_equiv. apply Z.ones_spec_low. lia. }
  set (W := fun i : nat => width (base L) (1 * 2 ^ Z.of_nat i)) in Ec.
  assert (forall i, (S i <= w * W i)%nat) as Wlow.
  { intros i. unfold W. rewrite Z.mul_1_l. destruct (width_spec (base L) (2 ^ Z.of_nat i) HB) as (_ & _ & W3); [apply Z.pow_pos_nonneg; lia|].
    set (wd := width (base L) (2 ^ Z.of_nat i)) in *. rewrite Ew, <- Z.pow_mul_r in W3 by lia. apply Z.pow_lt_mono_r_iff in W3; lia. }
  assert (w = 1%nat -> forall i, W i = S i) as Wone.
  { intros E i. unfold W. rewrite Z.mul_1_l. apply width_unique; [exact HB|apply Z.pow_pos_nonneg; lia|lia|].
    rewrite Ew, E. change (2 ^ Z.of_nat 1) with 2. replace (S i - 1)%nat with i by lia. rewrite double_pow. assert (0 < 2 ^ Z.of_nat i) by (apply Z.pow_pos_nonneg; lia). lia. }
  pose proof (sum_squares_upto K) as Sq.
  assert (forall k, (k * (k + 1) <= 2 * (w * list_sum (map W (seq 0 k))))%nat) as Tri.
  { intros k. rewrite <- sum_upto. apply Nat.mul_le_mono_l. clear -Wlow. generalize (seq 0 k). intros l. induction l as [|y l IH]; [cbn; lia|]. cbn [map].
    change (S y + list_sum (map S l) <= w * (W y + list_sum (map W l)))%nat. specialize (Wlow y). nia. }
  split; [|split].
  - rewrite <- Sq, Ec. rewrite <- Nat.mul_assoc. apply Nat.mul_le_mono_l. clear -Tri.
    generalize (seq 0 K). intros l. induction l as [|y l IH]; [cbn; lia|]. cbn [map].
    change (S y * S y + list_sum (map (fun j => S j * S j) l) <=
            w * ((list_sum (map W (seq 0 (S y))) + list_sum (map W (seq 0 y))) +
                 list_sum (map (fun j => list_sum (map W (seq 0 (S j))) + list_sum (map W (seq 0 j))) l)))%nat.
    pose proof (Tri (S y)). pose proof (Tri y). nia.
  - unfold dividend in U. rewrite repeat_length in U. exact U.
  - intros E. specialize (Wone E). assert (K = n) as EK by (unfold K; lia). rewrite EK in *. rewrite <- Sq. f_equal. rewrite Ec. f_equal.
    apply map_ext. intros j.
    assert (forall k, map W (seq 0 k) = map S (seq 0 k)) as Em by (intros k; apply map_ext; exact Wone). rewrite !Em.
    pose proof (sum_upto (S j)). pose proof (sum_upto j). nia.
Qed.
Print Assumptions C86_cubic.

(** The division of 1000 by 3 in base 8 doubles 75 digits, and that of 511 by 1 in base 2 doubles 9 * 10 * 19 / 6 = 285. *)
Example C86_case :
  match run (abs_val_div_digits base8 false 20 [0; 5; 7; 1] [3]) with Ret p _ => p = ([5; 1; 5], 75%nat) | _ => False end /\ match run (abs_val_div_digits base2 false 20 (repeat 1 9) [1]) with Ret p _ => p = (repeat 1 9, 285%nat) | _ => False end /\
  can_double base2 = true /\ base base2 = 2 ^ Z.of_nat 1 /\ width 8 1000 = 4%nat.
Proof. vm_compute. repeat split; reflexivity. Qed.
