(** * Property C85: factors and divisors, computed by a client *)
From Coq Require Import ZArith Znumtheory Lia List Arith.
From Verif Require Import Base Spec Limits Compare AddSub Division Bignum Fourier Multiplication Machine While Strict Clients Factor Outcome Wp ValueProof
  AddSubProof CompareProof BignumProof OperatorProof DivisionProof DivOpProof PropCompare PropDivision HistoryProof PropHistory Ieee IeeeProof PropMul PropProgram
  EuclidProof PropLoop PropObject PropAddSub PropClients FailProof MemoryProof PropMemory HandlersProof PropHandlers PropModPower.
Import ListNotations.
Open Scope Z_scope.

(** ** Specification *)

(** the least divisor above one *)
Definition is_least_factor (n f : Z) : Prop := 1 < f /\ (f | n) /\ forall k, 1 < k -> (k | n) -> f <= k.

(** the divisors from 1 to k, and their sum *)
Definition divisors (n : Z) (k : nat) : list Z := filter (fun d => n mod d =? 0) (map Z.of_nat (seq 1 k)).
Definition total (l : list Z) : Z := fold_right Z.add 0 l.
Definition sigma (n : Z) : Z := total (divisors n (Z.to_nat n)).

(** ** Proofs *)

Lemma total_app a b : total (a ++ b) = total a + total b.
Proof. induction a as [|x a IH]; cbn; [reflexivity|]. fold (total (a ++ b)) (total a). rewrite IH. ring. Qed.

Lemma divisors_step n k : divisors n (S k) = divisors n k ++ (if n mod Z.of_nat (S k) =? 0 then [Z.of_nat (S k)] else []).
Proof. unfold divisors. rewrite seq_S, map_app, filter_app. reflexivity. Qed.

Lemma total_nonneg n k : 0 <= total (divisors n k).
Proof.
  induction k as [|k IH]; [cbn; lia|]. rewrite divisors_step, total_app. destruct (_ =? 0); cbn [total fold_right]; lia.
Qed.

Lemma divides_test n d : 0 < d -> (n / d * d =? n) = (n mod d =? 0).
Proof.
  intros Hd. pose proof (Z.div_mod n d ltac:(lia)) as E.
  destruct (Z.eqb_spec (n / d * d) n), (Z.eqb_spec (n mod d) 0); auto; lia.
Qed.

Section Run.
Context (L : limits) (N m p n : Z).
Hypothesis Hin : In (L, N, m) safe_lengths.
Hypothesis Hp : 1 <= p.
Hypothesis Hpm : p <= m.
Hypothesis Hn : 2 <= n.
Hypothesis Hfit : n < base L ^ p.

Lemma set_other v r x b i : i <> r -> val (set v r x b) i = val v i.
Proof. intros H. cbn. unfold iupd. rewrite (proj2 (Nat.eqb_neq i r) H). reflexivity. Qed.
Lemma set_same v r x b : val (set v r x b) r = x.
Proof. cbn. unfold iupd. rewrite Nat.eqb_refl. reflexivity. Qed.

Lemma multiple_run v d : val v 0%nat = n -> val v 1%nat = d -> 1 <= d <= n ->
  exists v', lib_run (base L) N m multiple_below v v' /\ val v' 4%nat = quotient n d * d /\ forall r, r <> 4%nat -> val v' r = val v r.
Proof.
  intros V0 V1 Hd. assert (0 <= quotient n d <= n) as Q.
  { unfold quotient. destruct (_ && _); [lia|]. pose proof (Z.div_pos n d ltac:(lia) ltac:(lia)). split; [lia|]. apply Z.div_le_upper_bound; nia. }
  set (w1 := set v 4 (quotient n d) false). exists (set w1 4 (quotient n d * d) true). split; [|split].
  - apply (lib_block _ _ _ _ _ _ w1); [discriminate| |].
    { exists (quotient n d), false. rewrite V0, V1. split; [|reflexivity]. repeat split; lia. }
    apply LDo. exists (quotient n d * d), true. split; [|reflexivity]. unfold w1. rewrite set_same, set_other, V1 by discriminate.
    split; [right; lia|]. split; [|auto]. apply (fits_square L N m Hin p); lia.
  - apply set_same.
  - intros r Hr. unfold w1. rewrite !set_other by exact Hr. reflexivity.
Qed.

Lemma multiple_test v : val v 0%nat = n -> lib_test CEq v 4 0 (val v 4%nat =? n).
Proof. intros V0. split; [right; left; lia|]. rewrite V0. reflexivity. Qed.

(** nothing from 2 to d - 1 divides n *)
Lemma trial_loop : forall k d v, 0 <= k -> n - d = k -> 2 <= d -> (forall j, 1 < j < d -> ~ (j | n)) ->
  val v 0%nat = n -> val v 1%nat = d -> val v 2%nat = 1 -> val v 3%nat = d * d -> val v 5%nat = n ->
  exists v', lib_run (base L) N m (While CLe 3 0 trial_round) v v' /\ is_least_factor n (val v' 5%nat).
Proof.
  intros k d v Hk. revert d v. pattern k. apply Zlt_0_ind; [|exact Hk]. clear k Hk.
  intros k IH _ d v Ek Hd Hno V0 V1 V2 V3 V5.
  assert (forall b, b = (d * d <=? n) -> lib_test CLe v 3 0 b) as T.
  { intros b ->. split; [right; left; lia|]. rewrite V3, V0. reflexivity. }
  destruct (Z.leb_spec (d * d) n) as [Q|Q].
  2:{ exists v. split; [apply LStop, T; reflexivity|]. rewrite V5. split; [lia|]. split; [exists 1; lia|].
      intros j Hj [i Ei]. assert (0 < i) by nia. destruct (Z.eq_dec i 1) as [->|Hi]; [lia|]. exfalso.
      destruct (Z.lt_ge_cases j d) as [K|K]; [exact (Hno j (conj Hj K) (ex_intro _ i Ei))|].
      destruct (Z.lt_ge_cases i d) as [K'|K']; [apply (Hno i); [lia|exists j; lia]|]. nia. }
  assert (d < n) as Dn by nia.
  destruct (multiple_run v d V0 V1 ltac:(lia)) as (w & R & W4 & W).
  rewrite quotient_right in W4 by (left; lia).
  assert (val w 0%nat = n) as W0 by (rewrite W by discriminate; exact V0).
  pose proof (multiple_test w W0) as T'. rewrite W4, divides_test in T' by lia.
  destruct (Z.eqb_spec (n mod d) 0) as [Z0|Z0].
  - set (w1 := set w 5 d (clean w 1%nat)). set (w2 := set w1 3 (n + 1) false).
    exists w2. split.
    + apply (LAgain _ _ _ _ _ _ _ _ w2); [apply T; reflexivity| |].
      * apply (LSeq _ _ _ _ _ _ w); [exact R|]. apply (LIf _ _ _ _ _ _ _ _ _ _ _ T').
        apply (lib_block _ _ _ _ _ _ w1); [discriminate| |].
        { cbn [lib_instr]. rewrite (W 1%nat), V1 by discriminate. reflexivity. }
        apply LDo. exists (n + 1), false. split; [|reflexivity]. unfold w1. rewrite !set_other, W0, (W 2%nat), V2 by discriminate. split; reflexivity.
      * apply LStop. split; [left; change (0 < n + 1); lia|]. change (val w2 3%nat) with (n + 1). unfold w2, w1. rewrite !set_other, W0 by discriminate.
        symmetry. apply Z.leb_gt. lia.
    + change (val w2 5%nat) with d. split; [lia|]. split; [apply Z.mod_divide; lia|].
      intros j Hj Dj. destruct (Z.lt_ge_cases j d) as [K|K]; [exfalso; exact (Hno j (conj Hj K) Dj)|exact K].
  - set (w1 := set w 1 (d + 1) false). set (w2 := set w1 3 ((d + 1) * (d + 1)) true).
    assert (forall i, i <> 1%nat -> i <> 3%nat -> i <> 4%nat -> val w2 i = val v i) as X.
    { intros i H1 H3 H4. unfold w2, w1. rewrite !set_other, W by assumption. reflexivity. }
    destruct (IH (n - (d + 1)) ltac:(lia) (d + 1) w2) as (v' & R' & F); try reflexivity; try lia.
    + intros j Hj Dj. destruct (Z.eq_dec j d) as [->|]; [|apply (Hno j); [lia|exact Dj]]. apply Z0. apply Z.mod_divide; [lia|exact Dj].
    + rewrite X by discriminate. exact V0.
    + rewrite X by discriminate. exact V2.
    + rewrite X by discriminate. exact V5.
    + exists v'. split; [|exact F]. apply (LAgain _ _ _ _ _ _ _ _ w2); [apply T; reflexivity| |exact R'].
      apply (LSeq _ _ _ _ _ _ w); [exact R|]. apply (LIf _ _ _ _ _ _ _ _ _ _ _ T').
      apply (lib_block _ _ _ _ _ _ w1); [discriminate| |].
      { exists (d + 1), false. split; [|reflexivity]. rewrite (W 1%nat), (W 2%nat), V1, V2 by discriminate. split; reflexivity. }
      apply LDo. exists ((d + 1) * (d + 1)), true. split; [|reflexivity]. change (val w1 1%nat) with (d + 1).
      split; [left; lia|]. split; [|auto]. apply (fits_square L N m Hin p); lia.
Qed.

Lemma divisor_loop : forall k j v, Z.of_nat k = n - Z.of_nat j ->
  val v 0%nat = n -> val v 1%nat = Z.of_nat (S j) -> val v 2%nat = 1 -> val v 6%nat = total (filter (fun d => negb (d =? n)) (divisors n j)) ->
  exists v', lib_run (base L) N m (While CLe 1 0 divisor_round) v v' /\ val v' 6%nat = total (filter (fun d => negb (d =? n)) (divisors n (Z.to_nat n))).
Proof.
  induction k as [|k IH]; intros j v Ek V0 V1 V2 V6.
  - exists v. split.
    + apply LStop. split; [right; left; lia|]. rewrite V0, V1. symmetry. apply Z.leb_gt. lia.
    + rewrite V6. replace (Z.to_nat n) with j by lia. reflexivity.
  - set (d := Z.of_nat (S j)) in *. destruct (multiple_run v d V0 V1 ltac:(lia)) as (w & R & W4 & W).
    assert (val w 0%nat = n) as W0 by (rewrite W by discriminate; exact V0).
    pose proof (multiple_test w W0) as T'.
    assert (divisors n (S j) = divisors n j ++ (if n mod d =? 0 then [d] else [])) as Ds by apply divisors_step.
    set (s := val v 6%nat) in *.
    set (s' := if val w 4%nat =? n then s + d else s).
    assert (s' = total (filter (fun d => negb (d =? n)) (divisors n (S j)))) as Es.
    { rewrite Ds, filter_app, total_app, <- V6. unfold s'. rewrite W4. unfold quotient.
      assert ((d =? 1) = false \/ n <> d) as G by (destruct (Z.eqb_spec d 1); [right; lia|auto]).
      destruct (Z.eqb_spec n d) as [<-|Nd]; cbn [andb].
      - destruct G as [->|]; [|congruence]. cbn [negb]. rewrite (proj2 (Z.eqb_neq (0 * n) n)) by lia.
        destruct (n mod n =? 0); cbn [filter]; rewrite ?Z.eqb_refl; cbn [negb total fold_right]; lia.
      - rewrite divides_test by lia. destruct (n mod d =? 0); cbn [filter]; rewrite ?(proj2 (Z.eqb_neq d n)) by congruence; cbn [negb total fold_right]; lia. }
    assert (exists w1, lib_run (base L) N m (If CEq 4 0 (Do (IAssign OAdd 6 1)) (Do (ICopy 6 6))) w w1 /\ val w1 6%nat = s' /\
              forall i, i <> 6%nat -> val w1 i = val w i) as (w1 & R1 & X6 & X).
    { unfold s'. destruct (val w 4%nat =? n).
      - exists (set w 6 (s + d) false). split; [|split; [apply set_same|intros; apply set_other; assumption]].
        apply (LIf _ _ _ _ _ _ _ _ _ _ _ T'). apply LDo. exists (s + d), false. split; [|reflexivity].
        rewrite (W 6%nat), (W 1%nat), V1 by discriminate. split; reflexivity.
      - exists (set w 6 (val w 6%nat) (clean w 6%nat)). split; [|split; [rewrite set_same; apply W; discriminate|intros; apply set_other; assumption]].
        apply (LIf _ _ _ _ _ _ _ _ _ _ _ T'). apply LDo. reflexivity. }
    set (w2 := set w1 1 (d + 1) false).
    assert (forall i, i <> 1%nat -> i <> 4%nat -> i <> 6%nat -> val w2 i = val v i) as Y.
    { intros i H1 H4 H6. unfold w2. rewrite set_other, X, W by assumption. reflexivity. }
    destruct (IH (S j) w2) as (v' & R' & F).
    + lia.
    + rewrite Y by discriminate. exact V0.
    + unfold w2. rewrite set_same. lia.
    + rewrite Y by discriminate. exact V2.
    + unfold w2. rewrite set_other, X6 by discriminate. exact Es.
    + exists v'. split; [|exact F]. apply (LAgain _ _ _ _ _ _ _ _ w2); [| |exact R'].
      * split; [right; left; lia|]. rewrite V0, V1. symmetry. apply Z.leb_le. lia.
      * apply (LSeq _ _ _ _ _ _ w); [exact R|]. apply (LSeq _ _ _ _ _ _ w1); [exact R1|].
        apply LDo. exists (d + 1), false. split; [|reflexivity]. rewrite (X 1%nat), (X 2%nat), (W 1%nat), (W 2%nat), V1, V2 by discriminate. split; reflexivity.
Qed.

Definition begun : nstate := mkNS (fun r => match r with O => n | _ => 0 end) (fun _ => true).

Lemma least_factor_run : limits_ok L = true -> exists v', lib_run (base L) N m least_factor begun v' /\ is_least_factor n (val v' 5%nat).
Proof.
  intros HL. pose proof (written_one (base L)) as W1. pose proof (AddSubProof.HB L HL) as HB.
  set (w1 := set begun 2 (written_value (base L) [1]) true). set (w2 := set w1 1 2 false).
  set (w3 := set w2 5 n true). set (w4 := set w3 3 (2 * 2) true).
  destruct (trial_loop (n - 2) 2 w4) as (v' & R & F); try reflexivity; try lia.
  exists v'. split; [|exact F]. apply (LSeq _ _ _ _ _ _ w4); [|exact R].
  apply (lib_block _ _ _ _ _ _ w1); [discriminate|split; [reflexivity|split; [apply one_digits, HL|reflexivity]]|].
  apply (lib_block _ _ _ _ _ _ w2); [discriminate| |].
  { exists 2, false. split; [|reflexivity]. change (val w1 2%nat) with (written_value (base L) [1]). rewrite W1. split; reflexivity. }
  apply (lib_block _ _ _ _ _ _ w3); [discriminate|reflexivity|].
  apply LDo. exists (2 * 2), true. split; [|reflexivity]. change (val w3 1%nat) with 2. split; [left; lia|]. split; [|auto].
  apply (fits_square L N m Hin p); lia.
Qed.

Lemma divisor_sum_run : limits_ok L = true -> exists v', lib_run (base L) N m divisor_sum begun v' /\ val v' 6%nat = sigma n - n.
Proof.
  intros HL. pose proof (written_one (base L)) as W1.
  set (w1 := set begun 2 (written_value (base L) [1]) true). set (w2 := set w1 1 (written_value (base L) [1]) true). set (w3 := set w2 6 0 true).
  destruct (divisor_loop (Z.to_nat n) 0 w3) as (v' & R & F); try reflexivity; try lia.
  exists v'. split.
  - apply (LSeq _ _ _ _ _ _ w3); [|exact R].
    apply (lib_block _ _ _ _ _ _ w1); [discriminate|split; [reflexivity|split; [apply one_digits, HL|reflexivity]]|].
    apply (lib_block _ _ _ _ _ _ w2); [discriminate|split; [reflexivity|split; [apply one_digits, HL|reflexivity]]|].
    apply LDo. reflexivity.
  - rewrite F. unfold sigma. replace (Z.to_nat n) with (S (Z.to_nat (n - 1))) by lia. rewrite divisors_step.
    replace (Z.of_nat (S (Z.to_nat (n - 1)))) with n by lia. rewrite Z.mod_same by lia. cbn [Z.eqb].
    rewrite filter_app, !total_app. cbn [filter]. rewrite Z.eqb_refl. cbn [negb total fold_right].
    assert (forall k, (Z.of_nat k < n) -> filter (fun d => negb (d =? n)) (divisors n k) = divisors n k) as K.
    { induction k as [|k IHk]; [reflexivity|]. intros Hk. rewrite divisors_step, filter_app, IHk by lia. f_equal.
      destruct (_ =? 0); [|reflexivity]. cbn [filter]. rewrite (proj2 (Z.eqb_neq _ n)) by lia. reflexivity. }
    rewrite K by lia. lia.
Qed.
End Run.

Lemma least_factor_prime n f : is_least_factor n f -> prime f.
Proof.
  intros (H1 & H2 & H3). apply prime_alt. split; [exact H1|]. intros k Hk Dk. specialize (H3 k ltac:(lia) (Z.divide_trans _ _ _ Dk H2)). lia.
Qed.
Lemma least_factor_self n f : 2 <= n -> is_least_factor n f -> (f = n <-> prime n).
Proof.
  intros Hn H. split; [intros <-; exact (least_factor_prime f f H)|]. intros Pn. destruct H as (H1 & H2 & _).
  destruct (prime_divisors n Pn f H2) as [|[|[|]]]; lia.
Qed.

(** ** Statements *)

(** n in variable 0, all other variables zero *)
Definition holds (B : Z) (s : regs) (n : Z) : Prop := forall r, is_nat B (s r) (match r with O => n | _ => 0 end).

Lemma from_lib ct cosf sinf L N m n (q : stmt) r v' : accurate cosf sinf -> In (L, N, m) safe_lengths -> can_double L = true ->
  no_subscript q = true -> lib_run (base L) N m q (begun n) v' -> 0 < val v' r ->
  exists enough : nat, forall fuel keep f s, (enough <= fuel)%nat -> (enough <= f)%nat -> holds (base L) s n ->
  returns (strict_run (mkEnv L false (ieee ct cosf sinf) fuel keep) f q s) (fun s' => is_nat (base L) (s' r) (val v' r)).
Proof.
  intros HA Hin HD Hq R Hv. destruct (C76_programs ct cosf sinf L N m _ _ _ HA Hin HD R) as [k K]. exists k.
  intros fuel keep f s Hf1 Hf2 Hs. apply transfer_returns; [reflexivity|exact Hq|]. intros i.
  destruct (K fuel keep f s never_fails i Hf1 Hf2 (fun _ => eq_refl)) as (s' & n' & E & S').
  { intros j. destruct (Hs j) as (D & O & C & V). split; [exact D|]. split; [exact O|]. split; [left; exact C|]. split; [exact V|intros _; exact C]. }
  exists s', n'. split; [exact E|]. apply usable_nat; [exact S'|]. left. exact Hv.
Qed.

(** Trial division finds the least factor of every number, which is a prime, and the number itself exactly if it is a prime; with any
    allocator, as long as requests are granted. *)
Theorem C85_least_factor : forall ct cosf sinf L N m p n, accurate cosf sinf -> In (L, N, m) safe_lengths -> can_double L = true ->
  1 <= p -> p <= m -> 2 <= n -> n < base L ^ p ->
  exists (enough : nat) (q : Z), is_least_factor n q /\ prime q /\ (q = n <-> prime n) /\
  forall fuel keep f s, (enough <= fuel)%nat -> (enough <= f)%nat -> holds (base L) s n ->
  returns (strict_run (mkEnv L false (ieee ct cosf sinf) fuel keep) f least_factor s) (fun s' => is_nat (base L) (s' 5%nat) q).
Proof.
  intros ct cosf sinf L N m p n HA Hin HD Hp Hpm Hn Hfit.
  assert (limits_ok L = true) as HL by (unfold can_double in HD; apply andb_true_iff in HD; apply HD).
  destruct (least_factor_run L N m p n Hin Hp Hpm Hn Hfit HL) as (v' & R & F).
  destruct (from_lib ct cosf sinf L N m n least_factor 5 v' HA Hin HD eq_refl R) as [k K]; [destruct F; lia|].
  exists k, (val v' 5%nat). split; [exact F|]. split; [exact (least_factor_prime n _ F)|]. split; [exact (least_factor_self n _ Hn F)|]. exact K.
Qed.
Print Assumptions C85_least_factor.

(** Adding up the divisors of n by testing (n / d) * d == n for all d from 1 to n leaves out n itself, because n / n is 0: every number
    above one gets the sum of its proper divisors. *)
Theorem C85_divisor_sum : forall ct cosf sinf L N m p n, accurate cosf sinf -> In (L, N, m) safe_lengths -> can_double L = true ->
  1 <= p -> p <= m -> 2 <= n -> n < base L ^ p ->
  exists enough : nat, forall fuel keep f s, (enough <= fuel)%nat -> (enough <= f)%nat -> holds (base L) s n ->
  returns (strict_run (mkEnv L false (ieee ct cosf sinf) fuel keep) f divisor_sum s) (fun s' => is_nat (base L) (s' 6%nat) (sigma n - n)).
Proof.
  intros ct cosf sinf L N m p n HA Hin HD Hp Hpm Hn Hfit.
  assert (limits_ok L = true) as HL by (unfold can_double in HD; apply andb_true_iff in HD; apply HD).
  destruct (divisor_sum_run L N m p n Hin Hp Hpm Hn Hfit HL) as (v' & R & F).
  assert (0 < sigma n - n) as P.
  { unfold sigma. replace (Z.to_nat n) with (S (Z.to_nat (n - 1))) by lia. rewrite divisors_step, total_app.
    replace (Z.of_nat (S (Z.to_nat (n - 1)))) with n by lia. rewrite Z.mod_same by lia. cbn [Z.eqb total fold_right].
    assert (forall k, (1 <= k)%nat -> 1 <= total (divisors n k)) as K.
    { induction k as [|[|k] IHk]; intros Hk; [lia|rewrite divisors_step; cbn; rewrite Z.mod_1_r; cbn; lia|].
      rewrite divisors_step, total_app. specialize (IHk ltac:(lia)). destruct (_ =? 0); cbn [total fold_right]; lia. }
    specialize (K (Z.to_nat (n - 1)) ltac:(lia)). lia. }
  destruct (from_lib ct cosf sinf L N m n divisor_sum 6 v' HA Hin HD eq_refl R ltac:(lia)) as [k K].
  exists k. rewrite F in K. exact K.
Qed.
Print Assumptions C85_divisor_sum.

(** So what the program leaves is never the sum of the divisors, and it is the number itself exactly if the number is perfect. *)
Theorem C85_divisor_sum_refuted : forall ct cosf sinf L N m p n, accurate cosf sinf -> In (L, N, m) safe_lengths -> can_double L = true ->
  1 <= p -> p <= m -> 2 <= n -> n < base L ^ p ->
  exists enough : nat, forall fuel keep f s, (enough <= fuel)%nat -> (enough <= f)%nat -> holds (base L) s n ->
  returns (strict_run (mkEnv L false (ieee ct cosf sinf) fuel keep) f divisor_sum s)
    (fun s' => signed_value (base L) (s' 6%nat) <> sigma n /\ (signed_value (base L) (s' 6%nat) = n <-> sigma n = 2 * n)).
Proof.
  intros ct cosf sinf L N m p n HA Hin HD Hp Hpm Hn Hfit.
  destruct (C85_divisor_sum ct cosf sinf L N m p n HA Hin HD Hp Hpm Hn Hfit) as [k K]. exists k. intros fuel keep f s H1 H2 Hs.
  refine (returns_mono _ _ _ (K fuel keep f s H1 H2 Hs) _). intros s' H. apply is_nat_good in H. destruct H as (_ & V & _). rewrite V. lia.
Qed.
Print Assumptions C85_divisor_sum_refuted.

(** ** Cases: 15 has the least factor 3, 6 is perfect *)
Example C85_cases : is_least_factor 15 3 /\ sigma 6 = 12 /\ sigma 12 - 12 = 16 /\ 15 < base base10 ^ 2 /\
  holds 10 (fun r => match r with O => mkBN BN_POS [5; 1] | _ => bn_default end) 15.
Proof.
  repeat apply conj; try reflexivity.
  - exists 5. reflexivity.
  - intros k Hk [j Hj]. destruct (Z.lt_ge_cases k 3); [|lia]. assert (k = 2) as -> by lia. lia.
  - intros [|r]; [|apply is_nat_zero]. split; [reflexivity|]. split; [repeat constructor; lia|]. split; [unfold canonical; cbn; lia|reflexivity].
Qed.
