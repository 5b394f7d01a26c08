(** * C48, C49: Euclid's algorithm written with the library *)
From Coq Require Import ZArith Lia List Arith.
From Verif Require Import Base Spec Limits Compare AddSub Division Bignum Fourier Multiplication Machine While Outcome Wp ValueProof
  Ieee IeeeProof PropCompare PropMul PropProgram EuclidProof PropDivision PropHistory DivOpProof.
Import ListNotations.
Open Scope Z_scope.

(** [is_nat B x v] (EuclidProof.v): x is positive, has digits in [0, B), no superfluous zeros, and the value v. *)

(** ** C48 by division
    Positive a and b of at most p digits, p within the length limit of the type (PropMul.v), different or both one: the loop ends,
    with variable 0 equal to the greatest common divisor.  [enough] depends on the type and on the two numbers only. *)
Theorem C48_euclid : forall ct cosf sinf L N m p a b, accurate cosf sinf -> In (L, N, m) safe_lengths -> can_double L = true ->
  1 <= p -> p <= m -> 0 < a < base L ^ p -> 0 < b < base L ^ p -> (a <> b \/ b = 1) ->
  exists enough : nat, forall fuel keep f s al n, (enough <= fuel)%nat -> (enough <= f)%nat -> (forall k, al k = true) ->
  is_nat (base L) (s 0%nat) a -> is_nat (base L) (s 1%nat) b ->
  exists s' n', srun (mkEnv L false (ieee ct cosf sinf) fuel keep) f euclid s al n = Ret s' n' /\ is_nat (base L) (s' 0%nat) (Z.gcd a b).
Proof.
  intros ct cosf sinf L N m p a b HA Hin HD Hp Hpm Ha Hb Hne.
  destruct (euclid_loop ct cosf sinf L N m HA Hin HD p Hp Hpm b ltac:(lia) ltac:(lia) a ltac:(lia) ltac:(lia) Hne) as [e K].
  pose proof (Z.log2_up_nonneg N) as LN. pose proof (Z.log2_nonneg a) as La. pose proof (Z.log2_nonneg b) as Lb.
  exists (S (S (Nat.max e (Z.to_nat (Z.log2_up N + Z.log2 a + Z.log2 b + 3))))). intros fuel keep f s al n Hf1 Hf2 Hal H0 H1.
  destruct f as [|f]; [lia|]. unfold euclid.
  change (srun (mkEnv L false (ieee ct cosf sinf) fuel keep) (S f) (Seq (Do (IClear 3)) (While CNe 1 3 (block euclid_body))) s al n)
    with (bind (srun (mkEnv L false (ieee ct cosf sinf) fuel keep) f (Do (IClear 3)) s)
      (fun s1 => srun (mkEnv L false (ieee ct cosf sinf) fuel keep) f (While CNe 1 3 (block euclid_body)) s1) al n).
  assert (forall E f s al n, srun E (S f) (Do (IClear 3)) s al n = Ret (upd s 3 bn_default) n) as Hc by reflexivity.
  destruct f as [|f]; [lia|]. unfold bind. rewrite Hc. apply K; auto; lia.
Qed.
Print Assumptions C48_euclid.

(** Two equal numbers other than one: x / x is 0 (C24), the remainder is x again, and the loop never ends. *)
Theorem C48_euclid_equal_refuted : forall ct cosf sinf L N m p a, accurate cosf sinf -> In (L, N, m) safe_lengths -> can_double L = true ->
  1 <= p -> p <= m -> 1 < a < base L ^ p ->
  exists enough : nat, forall fuel keep f s al n, (enough <= fuel)%nat -> (forall k, al k = true) ->
  is_nat (base L) (s 0%nat) a -> is_nat (base L) (s 1%nat) a ->
  srun (mkEnv L false (ieee ct cosf sinf) fuel keep) f euclid s al n = NoFuel.
Proof.
  intros ct cosf sinf L N m p a HA Hin HD Hp Hpm Ha. pose proof (Z.log2_up_nonneg N).
  exists (Z.to_nat (Z.log2_up N + 1)). intros fuel keep f s al n Hf Hal H0 H1. destruct f as [|f]; [reflexivity|]. unfold euclid.
  change (srun (mkEnv L false (ieee ct cosf sinf) fuel keep) (S f) (Seq (Do (IClear 3)) (While CNe 1 3 (block euclid_body))) s al n)
    with (bind (srun (mkEnv L false (ieee ct cosf sinf) fuel keep) f (Do (IClear 3)) s)
      (fun s1 => srun (mkEnv L false (ieee ct cosf sinf) fuel keep) f (While CNe 1 3 (block euclid_body)) s1) al n).
  assert (forall E f s al n, srun E (S f) (Do (IClear 3)) s al n = Ret (upd s 3 bn_default) n) as Hc by reflexivity.
  destruct f as [|f]; [reflexivity|]. unfold bind. rewrite Hc.
  apply (euclid_equal_loop ct cosf sinf L N m HA Hin HD fuel keep p a); auto; lia.
Qed.
Print Assumptions C48_euclid_equal_refuted.

(** gcd (48, 36) = 12 in base ten. *)
Definition two (x y : bignum) : regs := fun r => match r with O => x | S O => y | _ => bn_default end.
Lemma digits10 l : forallb (fun d => (0 <=? d) && (d <? 10)) l = true -> digits_ok (base base10) l.
Proof.
  intros H. apply Forall_forall. intros d Hd. rewrite forallb_forall in H. specialize (H d Hd).
  change (base base10) with 10. apply andb_true_iff in H. lia.
Qed.
Example C48_case : exists enough : nat, forall f, (enough <= f)%nat ->
  exists s n, run (srun (mkEnv base10 false (ieee unfused libm_cos libm_sin) f false) f euclid (two (mkBN BN_POS [8; 4]) (mkBN BN_POS [6; 3]))) = Ret s n /\
    is_nat 10 (s 0%nat) 12.
Proof.
  destruct (C48_euclid unfused libm_cos libm_sin base10 (2 ^ 32) 47721858 2 48 36 libm_accurate
    ltac:(unfold safe_lengths; cbn [In]; auto) eq_refl ltac:(lia) ltac:(lia)
    ltac:(change (base base10 ^ 2) with 100; lia) ltac:(change (base base10 ^ 2) with 100; lia) ltac:(left; lia)) as [e K].
  exists e. intros f Hf.
  apply (K f false f (two (mkBN BN_POS [8; 4]) (mkBN BN_POS [6; 3])) never_fails 0%nat Hf Hf (fun _ => eq_refl)).
  - split; [reflexivity|]. split; [apply digits10; reflexivity|]. split; [unfold canonical; cbn; discriminate|reflexivity].
  - split; [reflexivity|]. split; [apply digits10; reflexivity|]. split; [unfold canonical; cbn; discriminate|reflexivity].
Qed.

(** ** C49 by subtraction, deciding with >=: right for every two positive numbers, of any length (no multiplication, no division). *)
Theorem C49_euclid_sub : forall L a b, can_double L = true -> 0 < a -> 0 < b ->
  exists enough : nat, forall P fuel keep f s al n, (enough <= f)%nat -> (forall k, al k = true) ->
  is_nat (base L) (s 0%nat) a -> is_nat (base L) (s 1%nat) b ->
  exists s' n', srun (mkEnv L false P fuel keep) f (euclid_sub CGe) s al n = Ret s' n' /\
    is_nat (base L) (s' 0%nat) (Z.gcd a b) /\ is_nat (base L) (s' 1%nat) (Z.gcd a b).
Proof. intros L a b HD Ha Hb. exact (euclid_sub_loop L HD (a + b) a b ltac:(lia) Ha Hb ltac:(lia)). Qed.
Print Assumptions C49_euclid_sub.

(** Deciding with >, which a reader would call the same program: 19 > 21 is true (C10), 19 - 21 = -2, and the loop never ends. *)
Definition dead (x y : bignum) : Prop := forall P fuel keep f s n, s 0%nat = x -> s 1%nat = y ->
  srun (mkEnv base10 false P fuel keep) f (euclid_sub CGt) s never_fails n = NoFuel.

Lemma loop_left x y z : (forall n, op_ne x y never_fails n = Ret true n) -> (forall n, op_gt x y never_fails n = Ret true n) ->
  (forall n, op_sub_assign base10 false x (Other y) never_fails n = Ret (z, None) (S n)) ->
  forall P fuel keep f s n, s 0%nat = x -> s 1%nat = y ->
  (forall s n, s 0%nat = z -> s 1%nat = y -> srun (mkEnv base10 false P fuel keep) f (euclid_sub CGt) s never_fails n = NoFuel) ->
  srun (mkEnv base10 false P fuel keep) (S f) (euclid_sub CGt) s never_fails n = NoFuel.
Proof.
  intros H1 H2 H3 P fuel keep f s n E0 E1 D. unfold euclid_sub. cbn [srun compare]. unfold bind at 1. rewrite E0, E1, H1.
  destruct f as [|[|f]]; [reflexivity| |].
  - cbn [srun compare]. unfold bind. rewrite E0, E1, H2. reflexivity.
  - unfold bind at 1. cbn [srun compare]. unfold bind at 1. rewrite E0, E1, H2.
    cbn [step compound eL eDbg]. unfold operand. cbn [Nat.eqb]. rewrite E0, E1. unfold bind at 1. rewrite H3. cbn [ret fst].
    apply (D (upd s 0 z)); [reflexivity|exact E1].
Qed.
Lemma loop_right x y z : (forall n, op_ne x y never_fails n = Ret true n) -> (forall n, op_gt x y never_fails n = Ret false n) ->
  (forall n, op_sub_assign base10 false y (Other x) never_fails n = Ret (z, None) (S n)) ->
  forall P fuel keep f s n, s 0%nat = x -> s 1%nat = y ->
  (forall s n, s 0%nat = x -> s 1%nat = z -> srun (mkEnv base10 false P fuel keep) f (euclid_sub CGt) s never_fails n = NoFuel) ->
  srun (mkEnv base10 false P fuel keep) (S f) (euclid_sub CGt) s never_fails n = NoFuel.
Proof.
  intros H1 H2 H3 P fuel keep f s n E0 E1 D. unfold euclid_sub. cbn [srun compare]. unfold bind at 1. rewrite E0, E1, H1.
  destruct f as [|[|f]]; [reflexivity| |].
  - cbn [srun compare]. unfold bind. rewrite E0, E1, H2. reflexivity.
  - unfold bind at 1. cbn [srun compare]. unfold bind at 1. rewrite E0, E1, H2.
    cbn [step compound eL eDbg]. unfold operand. cbn [Nat.eqb]. rewrite E0, E1. unfold bind at 1. rewrite H3. cbn [ret fst].
    apply (D (upd s 1 z)); [exact E0|reflexivity].
Qed.

Ltac sub_step := let n := fresh in intros n; vm_compute; reflexivity.
Lemma dead_end : dead (mkBN BN_NEG [2]) (mkBN BN_POS []).
Proof.
  intros P fuel keep f. induction f as [|f IH]; intros s n E0 E1; [reflexivity|].
  apply (loop_right (mkBN BN_NEG [2]) (mkBN BN_POS []) (mkBN BN_POS [])); [sub_step|sub_step|sub_step|exact E0|exact E1|exact IH].
Qed.
Lemma dead_right y z : (forall n, op_ne (mkBN BN_NEG [2]) y never_fails n = Ret true n) ->
  (forall n, op_gt (mkBN BN_NEG [2]) y never_fails n = Ret false n) ->
  (forall n, op_sub_assign base10 false y (Other (mkBN BN_NEG [2])) never_fails n = Ret (z, None) (S n)) ->
  dead (mkBN BN_NEG [2]) z -> dead (mkBN BN_NEG [2]) y.
Proof.
  intros H1 H2 H3 D P fuel keep f s n E0 E1. destruct f as [|f]; [reflexivity|].
  apply (loop_right (mkBN BN_NEG [2]) y z H1 H2 H3); auto.
Qed.
Lemma dead_odd : forall y, In y [[1]; [3]; [5]; [7]; [9]; [1; 1]; [3; 1]; [5; 1]; [7; 1]; [9; 1]; [1; 2]] ->
  dead (mkBN BN_NEG [2]) (mkBN BN_POS y).
Proof.
  assert (forall y z, (forall n, op_ne (mkBN BN_NEG [2]) (mkBN BN_POS y) never_fails n = Ret true n) ->
    (forall n, op_gt (mkBN BN_NEG [2]) (mkBN BN_POS y) never_fails n = Ret false n) ->
    (forall n, op_sub_assign base10 false (mkBN BN_POS y) (Other (mkBN BN_NEG [2])) never_fails n = Ret (mkBN BN_POS z, None) (S n)) ->
    dead (mkBN BN_NEG [2]) (mkBN BN_POS z) -> dead (mkBN BN_NEG [2]) (mkBN BN_POS y)) as K by (intros y z; apply dead_right).
  assert (dead (mkBN BN_NEG [2]) (mkBN BN_POS [1])) as D1 by (apply (K _ []); [sub_step|sub_step|sub_step|exact dead_end]).
  assert (dead (mkBN BN_NEG [2]) (mkBN BN_POS [3])) as D3 by (apply (K _ [1]); [sub_step|sub_step|sub_step|exact D1]).
  assert (dead (mkBN BN_NEG [2]) (mkBN BN_POS [5])) as D5 by (apply (K _ [3]); [sub_step|sub_step|sub_step|exact D3]).
  assert (dead (mkBN BN_NEG [2]) (mkBN BN_POS [7])) as D7 by (apply (K _ [5]); [sub_step|sub_step|sub_step|exact D5]).
  assert (dead (mkBN BN_NEG [2]) (mkBN BN_POS [9])) as D9 by (apply (K _ [7]); [sub_step|sub_step|sub_step|exact D7]).
  assert (dead (mkBN BN_NEG [2]) (mkBN BN_POS [1; 1])) as D11 by (apply (K _ [9]); [sub_step|sub_step|sub_step|exact D9]).
  assert (dead (mkBN BN_NEG [2]) (mkBN BN_POS [3; 1])) as D13 by (apply (K _ [1; 1]); [sub_step|sub_step|sub_step|exact D11]).
  assert (dead (mkBN BN_NEG [2]) (mkBN BN_POS [5; 1])) as D15 by (apply (K _ [3; 1]); [sub_step|sub_step|sub_step|exact D13]).
  assert (dead (mkBN BN_NEG [2]) (mkBN BN_POS [7; 1])) as D17 by (apply (K _ [5; 1]); [sub_step|sub_step|sub_step|exact D15]).
  assert (dead (mkBN BN_NEG [2]) (mkBN BN_POS [9; 1])) as D19 by (apply (K _ [7; 1]); [sub_step|sub_step|sub_step|exact D17]).
  assert (dead (mkBN BN_NEG [2]) (mkBN BN_POS [1; 2])) as D21 by (apply (K _ [9; 1]); [sub_step|sub_step|sub_step|exact D19]).
  intros y H. cbn [In] in H. intuition (subst; assumption).
Qed.

Theorem C49_euclid_sub_gt_refuted : exists a b : bignum, is_nat 10 a 19 /\ is_nat 10 b 21 /\
  forall P fuel keep f s n, s 0%nat = a -> s 1%nat = b ->
  srun (mkEnv base10 false P fuel keep) f (euclid_sub CGt) s never_fails n = NoFuel.
Proof.
  exists (mkBN BN_POS [9; 1]), (mkBN BN_POS [1; 2]).
  split; [split; [reflexivity|]; split; [apply digits10; reflexivity|]; split; [unfold canonical; cbn; discriminate|reflexivity]|].
  split; [split; [reflexivity|]; split; [apply digits10; reflexivity|]; split; [unfold canonical; cbn; discriminate|reflexivity]|].
  intros P fuel keep f s n E0 E1. destruct f as [|f]; [reflexivity|].
  apply (loop_left (mkBN BN_POS [9; 1]) (mkBN BN_POS [1; 2]) (mkBN BN_NEG [2])); [sub_step|sub_step|sub_step|exact E0|exact E1|].
  intros s1 n1 F0 F1. apply (dead_odd [1; 2]); auto. cbn [In]. auto 20.
Qed.
Print Assumptions C49_euclid_sub_gt_refuted.

(** With >=, the same two numbers give 1. *)
Example C49_case : exists s n, run (srun (mkEnv base10 false (ieee unfused libm_cos libm_sin) 0 false) 30 (euclid_sub CGe)
  (two (mkBN BN_POS [9; 1]) (mkBN BN_POS [1; 2]))) = Ret s n /\ s 0%nat = mkBN BN_POS [1].
Proof. eexists _, _. split; [vm_compute; reflexivity|]. vm_compute. reflexivity. Qed.
