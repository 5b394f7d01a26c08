(** * C74: the work of a division *)
From Verif Require Import Base Spec Limits Compare AddSub Division Outcome DivWork.
From Verif Require Import Wp ValueProof BignumProof DivisionProof DivWorkProof.

(** Counting changes nothing: whatever the memory does, the counted division ends as the division does, with the
    same digits and the same number of requests. *)
Theorem C74_counting : forall L dbg fuel dividend divisor al n,
  match abs_val_div_counted L dbg fuel dividend divisor al n with
  | Ret (r, _) n' => abs_val_div L dbg fuel dividend divisor al n = Ret r n'
  | Throw e n' => abs_val_div L dbg fuel dividend divisor al n = Throw e n'
  | Undef u => abs_val_div L dbg fuel dividend divisor al n = Undef u
  | NoFuel => abs_val_div L dbg fuel dividend divisor al n = NoFuel
  end.
Proof.
  intros. rewrite <- (division_erases L dbg fuel dividend divisor al n).
  destruct (abs_val_div_counted L dbg fuel dividend divisor al n) as [[r c] n'|e n'|u|]; reflexivity.
Qed.
Print Assumptions C74_counting.

(** the positions of the one bits of [q] below [2 ^ m], from the lowest *)
Definition one_bits (q : Z) (m : nat) : list nat := filter (fun i => Z.testbit q (Z.of_nat i)) (seq 0 m).

(** The outer loop makes one round for each one bit of the quotient, and the inner loop makes, for each of these bits,
    as many rounds as the position of the bit: it starts again at the divisor each time. *)
Theorem C74_rounds : forall L fuel dividend divisor m, can_double L = true ->
  digits_ok (base L) dividend -> canonical dividend -> digits_ok (base L) divisor -> canonical divisor -> divisor <> [] ->
  Z.log2 (value (base L) dividend) + 2 <= Z.of_nat fuel ->
  let q := value (base L) dividend / value (base L) divisor in
  q < 2 ^ Z.of_nat m ->
  returns (abs_val_div_counted L false fuel dividend divisor)
    (fun p => value (base L) (fst p) = q /\
              fst (snd p) = length (one_bits q m) /\ snd (snd p) = list_sum (one_bits q m)).
Proof.
  intros L fuel dividend divisor m HD Dd Cd Ds Cs Ns Hf q Hm.
  pose proof (AddSubProof.HB L (DivisionProof.HL L HD)) as HB.
  assert (0 < value (base L) divisor) as Hpos by (apply value_canonical_pos; auto).
  apply yields_returns. eapply yields_mono.
  - apply (division_counted L HD dividend divisor fuel (conj Dd Cd) (conj Ds Cs) Hpos Hf).
  - intros [r c] [V E]. cbn [fst snd] in *. unfold one_bits.
    pose proof (value_bounds (base L) HB dividend Dd).
    rewrite (ones_any q m); [|apply Z.div_pos; lia|exact Hm]. rewrite E. auto.
Qed.
Print Assumptions C74_rounds.

(** A quotient of at most [k] bits costs at most [k] outer rounds and [k (k - 1) / 2] inner rounds. *)
Theorem C74_bound : forall L fuel dividend divisor k, can_double L = true ->
  digits_ok (base L) dividend -> canonical dividend -> digits_ok (base L) divisor -> canonical divisor -> divisor <> [] ->
  Z.log2 (value (base L) dividend) + 2 <= Z.of_nat fuel ->
  value (base L) dividend < value (base L) divisor * 2 ^ Z.of_nat k ->
  returns (abs_val_div_counted L false fuel dividend divisor)
    (fun p => (fst (snd p) <= k)%nat /\ (2 * snd (snd p) <= k * (k - 1))%nat).
Proof.
  intros L fuel dividend divisor k HD Dd Cd Ds Cs Ns Hf Hk.
  pose proof (AddSubProof.HB L (DivisionProof.HL L HD)) as HB.
  assert (0 < value (base L) divisor) as Hpos by (apply value_canonical_pos; auto).
  eapply returns_mono.
  - apply (C74_rounds L fuel dividend divisor k HD Dd Cd Ds Cs Ns Hf). apply Z.div_lt_upper_bound; lia.
  - intros [r [o i]] (_ & Eo & Ei). cbn [fst snd] in *. unfold one_bits in *. rewrite Eo, Ei.
    pose proof (filter_le (fun j => Z.testbit (value (base L) dividend / value (base L) divisor) (Z.of_nat j)) (seq 0 k)) as F.
    pose proof (filter_sum (fun j => Z.testbit (value (base L) dividend / value (base L) divisor) (Z.of_nat j)) (seq 0 k)).
    pose proof (sum_seq k). rewrite seq_length in F. lia.
Qed.
Print Assumptions C74_bound.

(** Both are reached: when the quotient is [2 ^ k - 1]. *)
Theorem C74_worst : forall L fuel dividend divisor k, can_double L = true ->
  digits_ok (base L) dividend -> canonical dividend -> digits_ok (base L) divisor -> canonical divisor -> divisor <> [] ->
  Z.log2 (value (base L) dividend) + 2 <= Z.of_nat fuel ->
  value (base L) dividend / value (base L) divisor = 2 ^ Z.of_nat k - 1 ->
  returns (abs_val_div_counted L false fuel dividend divisor)
    (fun p => fst (snd p) = k /\ (2 * snd (snd p) = k * (k - 1))%nat).
Proof.
  intros L fuel dividend divisor k HD Dd Cd Ds Cs Ns Hf Hq.
  assert (0 < 2 ^ Z.of_nat k) by (apply Z.pow_pos_nonneg; lia).
  eapply returns_mono.
  - apply (C74_rounds L fuel dividend divisor k HD Dd Cd Ds Cs Ns Hf). lia.
  - intros [r [o i]] (_ & Eo & Ei). cbn [fst snd] in *. unfold one_bits in *.
    rewrite filter_all in Eo, Ei.
    + rewrite seq_length in Eo. rewrite Ei. split; [exact Eo|apply sum_seq].
    + intros j Hj. apply in_seq in Hj. rewrite Hq. rewrite Z.sub_1_r, <- Z.ones_equiv. apply Z.ones_spec_low. lia.
    + intros j Hj. apply in_seq in Hj. rewrite Hq. rewrite Z.sub_1_r, <- Z.ones_equiv. apply Z.ones_spec_low. lia.
Qed.
Print Assumptions C74_worst.

(** A power of two is the cheapest quotient of its length: one outer round. *)
Theorem C74_power : forall L fuel dividend divisor k, can_double L = true ->
  digits_ok (base L) dividend -> canonical dividend -> digits_ok (base L) divisor -> canonical divisor -> divisor <> [] ->
  Z.log2 (value (base L) dividend) + 2 <= Z.of_nat fuel ->
  value (base L) dividend / value (base L) divisor = 2 ^ Z.of_nat k ->
  returns (abs_val_div_counted L false fuel dividend divisor) (fun p => snd p = (1%nat, k)).
Proof.
  intros L fuel dividend divisor k HD Dd Cd Ds Cs Ns Hf Hq.
  assert (0 < 2 ^ Z.of_nat k) by (apply Z.pow_pos_nonneg; lia).
  eapply returns_mono.
  - apply (C74_rounds L fuel dividend divisor (S k) HD Dd Cd Ds Cs Ns Hf). rewrite Hq, double_pow. lia.
  - intros [r [o i]] (_ & Eo & Ei). cbn [fst snd] in *. unfold one_bits in *. rewrite Hq in Eo, Ei.
    rewrite seq_S, filter_app in Eo, Ei. cbn [filter] in Eo, Ei. rewrite Nat.add_0_l in Eo, Ei.
    rewrite Z.pow2_bits_true in Eo, Ei by lia.
    rewrite filter_none in Eo, Ei; cycle 1.
    { intros j Hj. apply in_seq in Hj. apply Z.pow2_bits_false. lia. }
    { intros j Hj. apply in_seq in Hj. apply Z.pow2_bits_false. lia. }
    cbn in Eo, Ei. subst. f_equal. lia.
Qed.
Print Assumptions C74_power.

Lemma full_value B n : value B (repeat (B - 1) n) = B ^ Z.of_nat n - 1.
Proof.
  induction n as [|n IH]; [reflexivity|]. cbn [repeat value]. rewrite IH, Nat2Z.inj_succ, Z.pow_succ_r by lia. ring.
Qed.

(** So for every power-of-two base and every length there is a dividend of [n] digits whose division by one takes
    [n w] outer and [n w (n w - 1) / 2] inner rounds: the number of rounds, each of which doubles two numbers, is quadratic
    in the length, for a division that returns its dividend. *)
Theorem C74_quadratic : forall L fuel w n, can_double L = true -> base L = 2 ^ Z.of_nat w ->
  let dividend := repeat (bmax L) n in let k := (n * w)%nat in
  Z.of_nat k + 2 <= Z.of_nat fuel ->
  returns (abs_val_div_counted L false fuel dividend [1])
    (fun p => value (base L) (fst p) = value (base L) dividend /\ fst (snd p) = k /\ (2 * snd (snd p) = k * (k - 1))%nat).
Proof.
  intros L fuel w n HD Hw dividend k Hf.
  pose proof (AddSubProof.HB L (DivisionProof.HL L HD)) as HB.
  assert (bmax L = base L - 1) as Emax by (unfold base; lia).
  assert (value (base L) dividend = 2 ^ Z.of_nat k - 1) as V.
  { unfold dividend. rewrite Emax, full_value, Hw, <- Z.pow_mul_r by lia. unfold k. do 2 f_equal. lia. }
  assert (0 < 2 ^ Z.of_nat k) by (apply Z.pow_pos_nonneg; lia).
  assert (digits_ok (base L) dividend) as Dd.
  { unfold dividend. apply Forall_forall. intros d Hd. apply repeat_spec in Hd. lia. }
  assert (canonical dividend) as Cd.
  { unfold canonical, dividend. rewrite Emax. clear -HB. induction n as [|n IH]; [cbn; lia|]. cbn [repeat]. destruct n; [cbn; lia|exact IH]. }
  assert (digits_ok (base L) [1]) as D1 by (constructor; [lia|constructor]).
  assert (canonical [1]) as C1 by (unfold canonical; cbn; lia).
  assert (Z.log2 (value (base L) dividend) + 2 <= Z.of_nat fuel) as Hf'.
  { rewrite V. destruct (Z.eq_dec (2 ^ Z.of_nat k - 1) 0) as [->|N]; [cbn; lia|].
    assert (Z.log2 (2 ^ Z.of_nat k - 1) < Z.of_nat k) by (apply Z.log2_lt_pow2; lia). lia. }
  assert (value (base L) dividend / value (base L) [1] = 2 ^ Z.of_nat k - 1) as Q.
  { cbn [value]. rewrite Z.mul_0_r, Z.add_0_r, Z.div_1_r. exact V. }
  pose proof (C74_worst L fuel dividend [1] k HD Dd Cd D1 C1 ltac:(discriminate) Hf' Q) as W.
  pose proof (C74_rounds L fuel dividend [1] k HD Dd Cd D1 C1 ltac:(discriminate) Hf' ltac:(lia)) as R.
  intros al m. specialize (W al m). specialize (R al m).
  destruct (abs_val_div_counted L false fuel dividend [1] al m); try exact W.
  destruct R as [(R & _) _], W as [W ?]. repeat split; try apply W; try assumption. rewrite R, Q, V. reflexivity.
Qed.
Print Assumptions C74_quadratic.

(** The division of 1000 by 3 in base 8: the quotient is 333 = 256 + 64 + 8 + 4 + 1, so there are 5 outer rounds and
    8 + 6 + 3 + 2 + 0 = 19 inner rounds; 1000 by 2 with the quotient 500 = 256 + 128 + 64 + 32 + 16 + 4. *)
Example C74_case : run (abs_val_div_counted base8 false 20 [0; 5; 7; 1] [3]) = Ret ([5; 1; 5], (5, 19)%nat) 47 /\
  one_bits 333 9 = [0; 2; 3; 6; 8]%nat /\
  match run (abs_val_div_counted base8 false 20 [0; 5; 7; 1] [2]) with Ret (r, c) _ => r = [4; 6; 7] /\ c = (6, 8 + 7 + 6 + 5 + 4 + 2)%nat | _ => False end.
Proof. vm_compute. repeat split; reflexivity. Qed.

(** the hypotheses of C74_quadratic: base 8, three digits *)
Example C74_quadratic_case : can_double base8 = true /\ base base8 = 2 ^ Z.of_nat 3 /\
  match run (abs_val_div_counted base8 false 20 [7; 7; 7] [1]) with Ret (r, c) _ => r = [7; 7; 7] /\ c = (9, 36)%nat | _ => False end.
Proof. vm_compute. repeat split; reflexivity. Qed.

(** a power of two: 512 / 2 *)
Example C74_power_case :
  match run (abs_val_div_counted base8 false 20 [0; 0; 0; 1] [2]) with Ret (r, c) _ => r = [0; 0; 4] /\ c = (1, 8)%nat | _ => False end.
Proof. vm_compute. repeat split; reflexivity. Qed.
