(** * Property C82: powers modulo a number, computed by a client *)
From Coq Require Import ZArith Znumtheory Zpow_facts Lia List Arith.
From Verif Require Import Base Spec Limits Compare AddSub Division Bignum Fourier Multiplication Machine While Clients ModPower Outcome Wp ValueProof
  AddSubProof CompareProof BignumProof OperatorProof DivisionProof DivOpProof PropCompare PropDivision HistoryProof PropHistory Ieee IeeeProof PropMul PropProgram
  EuclidProof PropLoop PropObject PropAddSub PropClients Calculator CalculatorProof PropCalculator EulerProof.
Import ListNotations.
Open Scope Z_scope.

(** ** Proofs *)

Lemma coprime_positive x M : 2 <= M -> 0 <= x -> rel_prime x M -> 0 < x.
Proof.
  intros HM Hx H. destruct (Z.eq_dec x 0) as [->|]; [|lia]. apply rel_prime_sym, Zgcd_1_rel_prime in H.
  rewrite Z.gcd_0_r, Z.abs_eq in H; lia.
Qed.

Lemma coprime_not_equal M : 2 <= M -> ~ rel_prime M M.
Proof. intros HM H. apply Zgcd_1_rel_prime in H. rewrite Z.gcd_diag, Z.abs_eq in H; lia. Qed.

Lemma reduce_run L N m p M t v : In (L, N, m) safe_lengths -> 1 <= p -> p <= m -> (t < 7)%nat -> 2 <= M -> M < base L ^ p ->
  val v 7%nat = M -> 0 <= val v t -> rel_prime (val v t) M -> val v t / M < base L ^ p ->
  exists v', lib_run (base L) N m (reduce t) v v' /\ val v' t = val v t mod M /\
    forall r, r <> t -> r <> 8%nat -> val v' r = val v r.
Proof.
  intros Hin Hp Hpm Ht HM Hfit V7 Hx Hc Hq. set (x := val v t) in *.
  pose proof (coprime_positive x M HM Hx Hc) as Px.
  assert (x <> M) as Ne by (intros ->; exact (coprime_not_equal M HM Hc)).
  pose proof (Z.div_pos x M Hx ltac:(lia)) as Pq. pose proof (Z.div_mod x M ltac:(lia)) as Dm. pose proof (Z.mod_pos_bound x M ltac:(lia)) as Mb.
  set (w1 := set v 8 (x / M) false). set (w2 := set w1 8 (x / M * M) true). set (w3 := set w2 t (x - x / M * M) true).
  assert (forall r, r <> 8%nat -> val w2 r = val v r) as X.
  { intros r Hr. cbn. unfold iupd. rewrite (proj2 (Nat.eqb_neq r 8) Hr). reflexivity. }
  exists w3. split; [|split].
  - apply (lib_block _ _ _ _ _ _ w1); [discriminate| |].
    { exists (x / M), false. split; [|reflexivity]. rewrite V7. fold x. split; [lia|]. rewrite quotient_right by (left; exact Ne). auto. }
    apply (lib_block _ _ _ _ _ _ w2); [discriminate| |].
    { exists (x / M * M), true. split; [|reflexivity]. change (val w1 8%nat) with (x / M). change (val w1 7%nat) with (val v 7%nat). rewrite V7.
      split; [right; lia|]. split; [|auto]. apply (fits_square L N m Hin p); lia. }
    apply LDo. exists (x - x / M * M), true. split; [|reflexivity]. rewrite X by lia. fold x. change (val w2 8%nat) with (x / M * M).
    repeat split; lia.
  - cbn. unfold iupd. rewrite Nat.eqb_refl. lia.
  - intros r H1 H2. unfold w3. cbn [set val]. unfold iupd at 1. rewrite (proj2 (Nat.eqb_neq r t) H1). apply X, H2.
Qed.

Lemma half_run L N m v : 1 <= val v 1%nat -> val v 3%nat = 1 -> val v 4%nat = 2 ->
  exists v', lib_run (base L) N m half_of v v' /\ val v' 5%nat = val v 1%nat / 2 /\ forall r, r <> 5%nat -> val v' r = val v r.
Proof.
  intros V1 V3 V4.
  assert (forall z c, val (set v 5 z c) 5%nat = z /\ forall r, r <> 5%nat -> val (set v 5 z c) r = val v r) as X.
  { intros z c. split; [reflexivity|]. intros r Hr. cbn. unfold iupd. rewrite (proj2 (Nat.eqb_neq r 5) Hr). reflexivity. }
  destruct (Z.eq_dec (val v 1%nat) 2) as [E|E].
  - exists (set v 5 1 (clean v 3%nat)). split; [|rewrite E; apply X]. apply (LIf _ _ _ _ _ _ _ _ _ true).
    + split; [left; lia|]. rewrite V4. symmetry. apply Z.eqb_eq. exact E.
    + apply LDo. cbn [lib_instr]. rewrite V3. reflexivity.
  - exists (set v 5 (val v 1%nat / 2) false). split; [|apply X]. apply (LIf _ _ _ _ _ _ _ _ _ false).
    + split; [left; lia|]. rewrite V4. symmetry. apply Z.eqb_neq. exact E.
    + apply LDo. eexists _, _. split; [|reflexivity]. rewrite V4. cbn [lib_result]. rewrite quotient_right by (left; exact E). repeat split; lia.
Qed.

Lemma mod_loop L N m p M : In (L, N, m) safe_lengths -> 1 <= p -> p <= m -> 2 <= M -> M < base L ^ p ->
  forall e, 0 <= e -> forall v, val v 1%nat = e -> val v 3%nat = 1 -> val v 4%nat = 2 -> val v 7%nat = M ->
  0 <= val v 0%nat < M -> 0 <= val v 2%nat < M -> rel_prime (val v 0%nat) M -> rel_prime (val v 2%nat) M ->
  exists v', lib_run (base L) N m (While CGe 1 3 mod_round) v v' /\ val v' 2%nat = (val v 2%nat * val v 0%nat ^ e) mod M.
Proof.
  intros Hin Hp Hpm HM Hfit e He. pattern e. apply Zlt_0_ind; [|exact He]. clear e He.
  intros e IH He v V1 V3 V4 V7 P0 P2 C0 C2. destruct (Z.eq_dec e 0) as [->|Ne].
  - exists v. split; [|rewrite Z.pow_0_r, Z.mul_1_r, Z.mod_small; lia]. apply LStop. split; [right; left; lia|]. rewrite V1, V3. reflexivity.
  - destruct (half_run L N m v ltac:(lia) V3 V4) as (w1 & R1 & W5 & W). rewrite V1 in W5.
    pose proof (Z.div_mod e 2 ltac:(lia)) as De. pose proof (Z.mod_pos_bound e 2 ltac:(lia)) as Me. set (h := e / 2) in *.
    set (b := val v 0%nat) in *. set (r := val v 2%nat) in *.
    pose proof (coprime_positive b M HM ltac:(lia) C0) as Pb. pose proof (coprime_positive r M HM ltac:(lia) C2) as Pr.
    set (w2 := set w1 6 (h + h) false).
    assert (forall i, i <> 5%nat -> i <> 6%nat -> val w2 i = val v i) as Y.
    { intros i H5 H6. cbn. unfold iupd. rewrite (proj2 (Nat.eqb_neq i 6) H6). apply W, H5. }
    assert (val w2 5%nat = h) as Y5 by exact W5.
    set (r' := if e =? 2 * h then r else (r * b) mod M).
    assert (0 <= r' < M /\ rel_prime r' M) as [Pr' Cr'].
    { unfold r'. destruct (e =? 2 * h); [auto|]. split; [apply Z.mod_pos_bound; lia|].
      apply rel_prime_mod; [lia|]. apply rel_prime_sym, rel_prime_mult; apply rel_prime_sym; assumption. }
    assert (forall x y, 0 <= x < M -> 0 <= y < M -> x * y / M < base L ^ p) as Small.
    { intros x y Hx Hy. apply Z.div_lt_upper_bound; nia. }
    assert (exists w3, lib_run (base L) N m (If CNe 1 6 (Seq (Do (IAssign OMul 2 0)) (reduce 2)) (Do (ICopy 2 2))) w2 w3 /\
              val w3 2%nat = r' /\ forall i, i <> 2%nat -> i <> 8%nat -> val w3 i = val w2 i) as (w3 & R3 & Z2 & Z).
    { assert (lib_test CNe w2 1 6 (negb (e =? 2 * h))) as T.
      { rewrite <- V1. rewrite <- (Y 1%nat) by discriminate. split; [left; rewrite Y by discriminate; lia|].
        change (val w2 6%nat) with (h + h). replace (h + h) with (2 * h) by ring. reflexivity. }
      unfold r'. destruct (Z.eqb_spec e (2 * h)) as [Q|Q]; cbn [negb] in T.
      - exists (set w2 2 (val w2 2%nat) (clean w2 2%nat)). split; [|split].
        + apply (LIf _ _ _ _ _ _ _ _ _ _ _ T). apply LDo. reflexivity.
        + change (val w2 2%nat = r). rewrite Y by discriminate. reflexivity.
        + intros i H2 _. cbn [set val]. unfold iupd at 1. rewrite (proj2 (Nat.eqb_neq i 2) H2). reflexivity.
      - set (u := set w2 2 (r * b) true).
        assert (forall i, i <> 2%nat -> val u i = val w2 i) as U.
        { intros i H2. unfold u. cbn [set val]. unfold iupd at 1. rewrite (proj2 (Nat.eqb_neq i 2) H2). reflexivity. }
        destruct (reduce_run L N m p M 2 u Hin Hp Hpm ltac:(lia) HM Hfit) as (w3 & R3 & Z2 & Z).
        + rewrite U, Y by discriminate. exact V7.
        + change (0 <= r * b). nia.
        + change (rel_prime (r * b) M). apply rel_prime_sym, rel_prime_mult; apply rel_prime_sym; assumption.
        + change (r * b / M < base L ^ p). apply Small; assumption.
        + exists w3. split; [|split].
          * apply (LIf _ _ _ _ _ _ _ _ _ _ _ T). apply (LSeq _ _ _ _ _ _ u); [|exact R3]. apply LDo. exists (r * b), true.
            split; [|reflexivity]. rewrite !Y by discriminate. fold r b. split; [left; lia|]. split; [|auto].
            apply (fits_square L N m Hin p); lia.
          * exact Z2.
          * intros i H2 H8. rewrite Z by assumption. apply U, H2. }
    set (w4 := set w3 0 (b * b) true).
    assert (forall i, i <> 0%nat -> val w4 i = val w3 i) as U.
    { intros i H0. unfold w4. cbn [set val]. unfold iupd at 1. rewrite (proj2 (Nat.eqb_neq i 0) H0). reflexivity. }
    assert (rel_prime (b * b) M) as Cb by (apply rel_prime_sym, rel_prime_mult; apply rel_prime_sym; assumption).
    destruct (reduce_run L N m p M 0 w4 Hin Hp Hpm ltac:(lia) HM Hfit) as (w5 & R5 & X0 & X).
    { rewrite U, Z, Y by discriminate. exact V7. }
    { change (0 <= b * b). nia. }
    { exact Cb. }
    { apply Small; assumption. }
    change (val w4 0%nat) with (b * b) in X0.
    assert (val w5 5%nat = h) as X5 by (rewrite X, U, Z by discriminate; exact Y5).
    set (w6 := set (set w5 5 0 true) 1 (val w5 5%nat) (clean w5 5%nat)).
    assert (forall i, i <> 1%nat -> i <> 5%nat -> val w6 i = val w5 i) as T.
    { intros i H1 H5. unfold w6. cbn [set val]. unfold iupd. rewrite (proj2 (Nat.eqb_neq i 1) H1), (proj2 (Nat.eqb_neq i 5) H5). reflexivity. }
    assert (val w6 2%nat = r') as T2 by (rewrite T, X, U by discriminate; exact Z2).
    assert (val w6 0%nat = (b * b) mod M) as T0 by (rewrite T by discriminate; exact X0).
    destruct (IH h ltac:(lia) w6) as (v' & R & V').
    + exact X5.
    + rewrite T, X, U, Z, Y by discriminate. exact V3.
    + rewrite T, X, U, Z, Y by discriminate. exact V4.
    + rewrite T, X, U, Z, Y by discriminate. exact V7.
    + rewrite T0. apply Z.mod_pos_bound. lia.
    + rewrite T2. exact Pr'.
    + rewrite T0. apply rel_prime_mod; [lia|exact Cb].
    + rewrite T2. exact Cr'.
    + exists v'. split.
      * apply (LAgain _ _ _ _ _ _ _ _ w6); [| |exact R].
        -- split; [left; lia|]. rewrite V1, V3. symmetry. apply Z.leb_le. lia.
        -- unfold mod_round. apply (LSeq _ _ _ _ _ _ w1); [exact R1|]. apply (LSeq _ _ _ _ _ _ w2).
           { apply LDo. exists (h + h), false. split; [rewrite W5; split; reflexivity|reflexivity]. }
           apply (LSeq _ _ _ _ _ _ w3); [exact R3|]. apply (LSeq _ _ _ _ _ _ w4).
           { apply LDo. exists (b * b), true. split; [|reflexivity]. rewrite Z, Y by discriminate. fold b.
             split; [left; lia|]. split; [|auto]. apply (fits_square L N m Hin p); lia. }
           apply (LSeq _ _ _ _ _ _ w5); [exact R5|]. apply LDo. split; [discriminate|reflexivity].
      * rewrite V', T2, T0.
        assert (forall k, 0 <= k -> ((b * b) mod M) ^ k mod M = (b * b) ^ k mod M) as Pow by (intros k _; symmetry; apply Zpower_mod; lia).
        rewrite Z.mul_mod, Pow, <- Z.mul_mod by lia. replace (b * b) with (b ^ 2) by ring. rewrite <- Z.pow_mul_r by lia.
        unfold r'. destruct (Z.eqb_spec e (2 * h)) as [Q|Q].
        -- rewrite <- Q. reflexivity.
        -- rewrite Z.mul_mod_idemp_l by lia. f_equal. assert (b ^ e = b * b ^ (2 * h)) as -> by (replace e with (1 + 2 * h) by lia; rewrite Z.pow_add_r, Z.pow_1_r by lia; reflexivity). ring.
Qed.

(** ** Statements *)

(** For every modulus, every base that has no factor in common with it, and every exponent of any size, the program ends with the
    power modulo the modulus.  The modulus and the base have at most as many digits as a factor may have. *)
Definition inputs (B : Z) (s : regs) (b e M : Z) : Prop :=
  forall r, is_nat B (s r) (match r with 0%nat => b | 1%nat => e | 7%nat => M | _ => 0 end).

Theorem C82_mod_power : forall ct cosf sinf L N m p M b e, accurate cosf sinf -> In (L, N, m) safe_lengths -> can_double L = true ->
  1 <= p -> p <= m -> 2 <= M -> M < base L ^ p -> 0 <= b -> b < base L ^ p -> 0 <= e -> Z.gcd b M = 1 ->
  exists enough : nat, forall fuel keep f s al n, (enough <= fuel)%nat -> (enough <= f)%nat -> (forall j, al j = true) ->
  inputs (base L) s b e M ->
  exists s' n', srun (mkEnv L false (ieee ct cosf sinf) fuel keep) f mod_power s al n = Ret s' n' /\
    is_nat (base L) (s' 2%nat) (b ^ e mod M).
Proof.
  intros ct cosf sinf L N m p M b e HA Hin HD Hp Hpm HM Hfit Hb Hbp He Hg.
  assert (limits_ok L = true) as HL by (unfold can_double in HD; apply andb_true_iff in HD; apply HD).
  assert (rel_prime b M) as Hc by (apply Zgcd_1_rel_prime; exact Hg).
  set (v := mkNS (fun r => match r with 0%nat => b | 1%nat => e | 7%nat => M | _ => 0 end) (fun _ => true)).
  set (w1 := set v 2 (written_value (base L) [1]) true). set (w2 := set w1 3 (written_value (base L) [1]) true).
  set (w3 := set w2 4 2 false). pose proof (written_one (base L)) as W1.
  destruct (reduce_run L N m p M 0 w3 Hin Hp Hpm ltac:(lia) HM Hfit) as (w4 & R4 & X0 & X); try reflexivity.
  { exact Hb. } { exact Hc. }
  { change (b / M < base L ^ p). apply Z.div_lt_upper_bound; nia. }
  change (val w3 0%nat) with b in X0.
  assert (val w4 2%nat = 1) as X2 by (rewrite X by discriminate; exact W1).
  destruct (mod_loop L N m p M Hin Hp Hpm HM Hfit e He w4) as (v' & R & V').
  - rewrite X by discriminate. reflexivity.
  - rewrite X by discriminate. exact W1.
  - rewrite X by discriminate. reflexivity.
  - rewrite X by discriminate. reflexivity.
  - rewrite X0. apply Z.mod_pos_bound. lia.
  - rewrite X2. lia.
  - rewrite X0. apply rel_prime_mod; [lia|exact Hc].
  - rewrite X2. apply rel_prime_1.
  - rewrite X2, X0, Z.mul_1_l in V'. rewrite <- Zpower_mod in V' by lia.
    assert (lib_run (base L) N m mod_power v v') as RR.
    { apply (LSeq _ _ _ _ _ _ w3); [|apply (LSeq _ _ _ _ _ _ w4); [exact R4|exact R]].
      apply (lib_block _ _ _ _ _ _ w1); [discriminate|split; [reflexivity|split; [apply one_digits, HL|reflexivity]]|].
      apply (lib_block _ _ _ _ _ _ w2); [discriminate|split; [reflexivity|split; [apply one_digits, HL|reflexivity]]|].
      apply LDo. exists 2, false. split; [|reflexivity]. change (val w2 3%nat) with (written_value (base L) [1]). rewrite W1. split; reflexivity. }
    destruct (C76_programs ct cosf sinf L N m _ _ _ HA Hin HD RR) as [k K]. exists k.
    intros fuel keep f s al n Hf1 Hf2 Hal Hs.
    destruct (K fuel keep f s al n Hf1 Hf2 Hal) as (s' & n' & E & S').
    { intros r. destruct (Hs r) as (D & O & C & V). split; [exact D|]. split; [exact O|]. split; [left; exact C|]. split; [exact V|intros _; exact C]. }
    exists s', n'. split; [exact E|]. rewrite <- V'. apply usable_nat; [exact S'|]. left. rewrite V'.
    apply (coprime_positive _ M HM); [apply Z.mod_pos_bound; lia|]. apply rel_prime_mod; [lia|].
    apply rel_prime_sym, rel_prime_Zpower_r; [exact He|]. apply rel_prime_sym, Hc.
Qed.
Print Assumptions C82_mod_power.

(** Without the condition it is wrong: 2^2 modulo 4 comes out as 4, and the attempt to compute 2^4 modulo 4 is undefined behaviour
    (4 / 4 = 0 leaves 4 instead of 0; then zero is subtracted from zero, C04). *)
Lemma inputs_tidy B s b e M : 2 <= B -> inputs B s b e M -> forall r, tidy B (s r).
Proof. intros HB H r. destruct (H r) as (_ & O & C & _). split; [exact O|left; exact C]. Qed.

Lemma is_nat_unique B x y v : 2 <= B -> is_nat B x v -> is_nat B y v -> x = y.
Proof.
  intros HB (D & O & C & V) (D' & O' & C' & V'). destruct x as [d a], y as [d' a']. cbn [desc data] in *. subst d d'. f_equal.
  apply (value_inj B HB); auto. congruence.
Qed.

Lemma predicted_is {A C} (R : A -> C -> Prop) (Q : C -> Prop) o r : as_predicted R o r -> match o with Is v => Q v | _ => False end ->
  exists a n v, r = Ret a n /\ R a v /\ Q v.
Proof. destruct o as [v| | |]; try contradiction. intros (a & n & E & H) Hq. exists a, n, v. auto. Qed.
Lemma predicted_crash {A C} (R : A -> C -> Prop) o r : as_predicted R o r -> match o with Crash => True | _ => False end -> exists u, r = Undef u.
Proof. destruct o as [v| | |]; try contradiction. auto. Qed.

Definition given (b e : Z) (r : nat) : bignum :=
  match r with 0%nat => mkBN BN_POS [b] | 1%nat => mkBN BN_POS [e] | 7%nat => mkBN BN_POS [4] | _ => bn_default end.
Lemma given_inputs b e : 0 < b < 10 -> 0 < e < 10 -> inputs 10 (given b e) b e 4.
Proof.
  intros Hb He r. unfold given.
  do 8 (destruct r as [|r]; [try apply is_nat_zero; (split; [reflexivity|]; split; [repeat constructor; lia|]; split; [unfold canonical; cbn; lia|cbn; ring])|]).
  apply is_nat_zero.
Qed.

Theorem C82_common_factor_refuted : forall ct cosf sinf, accurate cosf sinf ->
  exists enough : nat, forall fuel keep f n, (enough <= fuel)%nat -> (enough <= f)%nat ->
  (exists s' n', srun (mkEnv base10 false (ieee ct cosf sinf) fuel keep) f mod_power (given 2 2) never_fails n = Ret s' n' /\
    is_nat 10 (s' 2%nat) 4 /\ 2 ^ 2 mod 4 = 0) /\
  exists u, srun (mkEnv base10 false (ieee ct cosf sinf) fuel keep) f mod_power (given 2 4) never_fails n = Undef u.
Proof.
  intros ct cosf sinf HA.
  assert (forall b e, 0 < b < 10 -> 0 < e < 10 -> forall r, tidy 10 (given b e r)) as T
    by (intros b e Hb He; exact (inputs_tidy 10 _ b e 4 ltac:(lia) (given_inputs b e Hb He))).
  assert (In (base10, 2 ^ 32, 47721858) safe_lengths) as Hin by (unfold safe_lengths; cbn [In]; auto).
  destruct (C77_programs ct cosf sinf base10 (2 ^ 32) 47721858 60 mod_power (given 2 2) never_fails HA Hin eq_refl (fun _ => eq_refl)
    (T 2 2 ltac:(lia) ltac:(lia))) as [e1 K1].
  destruct (C77_programs ct cosf sinf base10 (2 ^ 32) 47721858 60 mod_power (given 2 4) never_fails HA Hin eq_refl (fun _ => eq_refl)
    (T 2 4 ltac:(lia) ltac:(lia))) as [e2 K2].
  exists (Nat.max 60 (Nat.max e1 e2)). intros fuel keep f n H1 H2. specialize (K1 fuel keep n ltac:(lia)). specialize (K2 fuel keep n ltac:(lia)).
  split.
  - destruct (predicted_is _ (fun v => v 2%nat = mkC BN_POS (Some 4)) _ _ K1) as (s' & n' & v & E & R & C); [vm_compute; reflexivity|]. clear K1 K2.
    exists s', n'. split.
    { rewrite (srun_mono _ 60 f); [exact E|lia|rewrite E; discriminate]. }
    split; [|reflexivity]. destruct (R 2%nat) as [[O W] S]. rewrite C in S. unfold seen in S.
    change (base base10) with 10 in *.
    assert (desc (s' 2%nat) = BN_POS /\ value 10 (data (s' 2%nat)) = 4) as [D V].
    { destruct (data (s' 2%nat)) as [|d l]; [discriminate|]. split; congruence. }
    destruct (canonical_of_weak 10 _ W ltac:(lia)) as [Cn _]. repeat split; auto.
  - destruct (predicted_crash _ _ _ K2) as [u E]; [vm_compute; exact I|]. clear K1 K2.
    exists u. rewrite (srun_mono _ 60 f); [exact E|lia|rewrite E; discriminate].
Qed.
Print Assumptions C82_common_factor_refuted.

(** ** Two parties that agree on a key
    One computes g^a and sends it, the other computes g^c and sends it; each raises what they received to their own exponent: they get the
    same object, digit for digit. *)
Lemma coprime_power g M a : 2 <= M -> 0 <= a -> Z.gcd g M = 1 -> Z.gcd (g ^ a mod M) M = 1.
Proof.
  intros HM Ha Hg. apply Zgcd_1_rel_prime. apply rel_prime_mod; [lia|]. apply rel_prime_sym, rel_prime_Zpower_r; [exact Ha|].
  apply rel_prime_sym, Zgcd_1_rel_prime, Hg.
Qed.

Lemma power_of_power g M a c : 2 <= M -> 0 <= a -> 0 <= c -> (g ^ a mod M) ^ c mod M = g ^ (a * c) mod M.
Proof. intros HM Ha Hc. rewrite <- Zpower_mod by lia. rewrite <- Z.pow_mul_r by lia. reflexivity. Qed.

(** the variables of a program that gets the base from elsewhere *)
Definition with_base (s : regs) (x : bignum) : regs := fun r => match r with 0%nat => x | _ => s r end.
Lemma with_base_inputs B s x b b' e M : inputs B s b e M -> is_nat B x b' -> inputs B (with_base s x) b' e M.
Proof. intros H Hx [|r]; [exact Hx|exact (H (S r))]. Qed.

Theorem C82_same_key : forall ct cosf sinf L N m p M g a c, accurate cosf sinf -> In (L, N, m) safe_lengths -> can_double L = true ->
  1 <= p -> p <= m -> 2 <= M -> M < base L ^ p -> 0 <= g -> g < base L ^ p -> 0 <= a -> 0 <= c -> Z.gcd g M = 1 ->
  exists enough : nat, forall fuel keep f s t al n, (enough <= fuel)%nat -> (enough <= f)%nat -> (forall j, al j = true) ->
  inputs (base L) s g a M -> inputs (base L) t g c M ->
  let go := srun (mkEnv L false (ieee ct cosf sinf) fuel keep) f mod_power in
  exists s1 t1 s2 t2 n1 n2 n3 n4, go s al n = Ret s1 n1 /\ go t al n = Ret t1 n2 /\
    go (with_base s (t1 2%nat)) al n = Ret s2 n3 /\ go (with_base t (s1 2%nat)) al n = Ret t2 n4 /\
    s2 2%nat = t2 2%nat /\ is_nat (base L) (s2 2%nat) (g ^ (a * c) mod M).
Proof.
  intros ct cosf sinf L N m p M g a c HA Hin HD Hp Hpm HM Hfit Hg Hgp Ha Hc Hco.
  assert (limits_ok L = true) as HL by (unfold can_double in HD; apply andb_true_iff in HD; apply HD).
  pose proof (Z.mod_pos_bound (g ^ a) M ltac:(lia)) as Ba. pose proof (Z.mod_pos_bound (g ^ c) M ltac:(lia)) as Bc.
  destruct (C82_mod_power ct cosf sinf L N m p M g a HA Hin HD Hp Hpm HM Hfit Hg Hgp Ha Hco) as [e1 K1].
  destruct (C82_mod_power ct cosf sinf L N m p M g c HA Hin HD Hp Hpm HM Hfit Hg Hgp Hc Hco) as [e2 K2].
  destruct (C82_mod_power ct cosf sinf L N m p M (g ^ c mod M) a HA Hin HD Hp Hpm HM Hfit ltac:(lia) ltac:(lia) Ha
    (coprime_power g M c HM Hc Hco)) as [e3 K3].
  destruct (C82_mod_power ct cosf sinf L N m p M (g ^ a mod M) c HA Hin HD Hp Hpm HM Hfit ltac:(lia) ltac:(lia) Hc
    (coprime_power g M a HM Ha Hco)) as [e4 K4].
  rewrite power_of_power in K3, K4 by assumption. rewrite (Z.mul_comm c a) in K3.
  exists (Nat.max (Nat.max e1 e2) (Nat.max e3 e4)). intros fuel keep f s t al n H1 H2 Hal Hs Ht go.
  destruct (K1 fuel keep f s al n ltac:(lia) ltac:(lia) Hal Hs) as (s1 & n1 & E1 & I1).
  destruct (K2 fuel keep f t al n ltac:(lia) ltac:(lia) Hal Ht) as (t1 & n2 & E2 & I2).
  destruct (K3 fuel keep f (with_base s (t1 2%nat)) al n ltac:(lia) ltac:(lia) Hal (with_base_inputs _ _ _ _ _ _ _ Hs I2)) as (s2 & n3 & E3 & I3).
  destruct (K4 fuel keep f (with_base t (s1 2%nat)) al n ltac:(lia) ltac:(lia) Hal (with_base_inputs _ _ _ _ _ _ _ Ht I1)) as (t2 & n4 & E4 & I4).
  exists s1, t1, s2, t2, n1, n2, n3, n4. repeat (split; [assumption|]). split; [|exact I3].
  exact (is_nat_unique (base L) _ _ _ (AddSubProof.HB L HL) I3 I4).
Qed.
Print Assumptions C82_same_key.

(** ** Keys that undo each other
    A message raised to one exponent and the result raised to another, as in RSA: the message comes back if it is below the modulus and
    has no factor in common with it, the modulus is the product of two different primes, and the product of the exponents is one more
    than a multiple of (p - 1) (q - 1). *)
Theorem C82_message_back : forall ct cosf sinf L N m k p q x e d, accurate cosf sinf -> In (L, N, m) safe_lengths -> can_double L = true ->
  1 <= k -> k <= m -> prime p -> prime q -> p <> q -> p * q < base L ^ k -> 0 <= e -> 0 <= d -> (e * d) mod ((p - 1) * (q - 1)) = 1 ->
  0 <= x < p * q -> Z.gcd x (p * q) = 1 ->
  exists enough : nat, forall fuel keep f s t al n, (enough <= fuel)%nat -> (enough <= f)%nat -> (forall j, al j = true) ->
  inputs (base L) s x e (p * q) -> inputs (base L) t 0 d (p * q) ->
  let go := srun (mkEnv L false (ieee ct cosf sinf) fuel keep) f mod_power in
  exists s1 t1 n1 n2, go s al n = Ret s1 n1 /\ go (with_base t (s1 2%nat)) al n = Ret t1 n2 /\ t1 2%nat = s 0%nat.
Proof.
  intros ct cosf sinf L N m k p q x e d HA Hin HD Hk Hkm Pp Pq Npq Hfit He Hd Hed Hx Hg.
  assert (limits_ok L = true) as HL by (unfold can_double in HD; apply andb_true_iff in HD; apply HD).
  pose proof (prime_ge_2 p Pp) as Gp. pose proof (prime_ge_2 q Pq) as Gq. set (M := p * q) in *.
  assert (2 <= M) as HM by (unfold M; nia).
  pose proof (Z.mod_pos_bound (x ^ e) M ltac:(lia)) as Bx.
  destruct (C82_mod_power ct cosf sinf L N m k M x e HA Hin HD Hk Hkm HM Hfit ltac:(lia) ltac:(lia) He Hg) as [e1 K1].
  destruct (C82_mod_power ct cosf sinf L N m k M (x ^ e mod M) d HA Hin HD Hk Hkm HM Hfit ltac:(lia) ltac:(lia) Hd
    (coprime_power x M e HM He Hg)) as [e2 K2].
  rewrite power_of_power in K2 by assumption.
  assert (x ^ (e * d) mod M = x) as Back.
  { set (t := (p - 1) * (q - 1)) in *.
    assert (0 < t) as Pt by (unfold t; nia). pose proof (Z.div_mod (e * d) t ltac:(lia)) as Dm. rewrite Hed in Dm.
    rewrite Dm, Z.add_comm. apply EulerProof.rsa_exponent; auto. apply Z.div_pos; nia. }
  rewrite Back in K2. exists (Nat.max e1 e2). intros fuel keep f s t al n H1 H2 Hal Hs Ht go.
  destruct (K1 fuel keep f s al n ltac:(lia) ltac:(lia) Hal Hs) as (s1 & n1 & E1 & I1).
  destruct (K2 fuel keep f (with_base t (s1 2%nat)) al n ltac:(lia) ltac:(lia) Hal (with_base_inputs _ _ _ _ _ _ _ Ht I1)) as (t1 & n2 & E2 & I2).
  exists s1, t1, n1, n2. repeat (split; [assumption|]).
  exact (is_nat_unique (base L) _ _ _ (AddSubProof.HB L HL) I2 (Hs 0%nat)).
Qed.
Print Assumptions C82_message_back.

(** the hypotheses: 33 = 3 * 11 and the exponents 3 and 7, 3 * 7 = 1 + 2 * 10; numbers of two digits in base ten *)
Example C82_case : In (base10, 2 ^ 32, 47721858) safe_lengths /\ can_double base10 = true /\ 33 < base base10 ^ 2 /\
  prime 3 /\ prime 11 /\ Z.gcd 7 33 = 1 /\ (3 * 7) mod ((3 - 1) * (11 - 1)) = 1 /\ 7 ^ 3 mod 33 = 13 /\ 13 ^ 7 mod 33 = 7.
Proof.
  split; [unfold safe_lengths; cbn [In]; auto|]. repeat (split; [reflexivity || apply prime_3|]). split; [|repeat split].
  apply prime_intro; [lia|]. intros n Hn. apply Zgcd_1_rel_prime.
  assert (n = 1 \/ n = 2 \/ n = 3 \/ n = 4 \/ n = 5 \/ n = 6 \/ n = 7 \/ n = 8 \/ n = 9 \/ n = 10) as C by lia.
  repeat destruct C as [->|C]; try reflexivity. subst n. reflexivity.
Qed.

(** the calculator: 7^3 modulo 33 is 13, 13^7 modulo 33 is 7 *)
Definition mod_power_of (b e : list Z) : option cnum :=
  pocket 80 (Seq (block [INew 0 BN_POS b; INew 1 BN_POS e; INew 7 BN_POS [3; 3]]) mod_power) 2.
Example C82_runs : mod_power_of [7] [3] = Some (mkC BN_POS (Some 13)) /\ mod_power_of [1; 3] [7] = Some (mkC BN_POS (Some 7)).
Proof. vm_compute. split; reflexivity. Qed.
