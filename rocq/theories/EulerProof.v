(** * Euler's theorem for a product of two primes, carried from mathcomp's natural numbers to Z *)
From Coq Require Import ZArith Znumtheory Zpow_facts Lia.
From mathcomp Require Import ssreflect ssrfun ssrbool eqtype ssrnat div prime cyclic.
Open Scope Z_scope.

Lemma of_expn a k : Z.of_nat (expn a k) = Z.of_nat a ^ Z.of_nat k.
Proof.
  elim: k => [|k IH]; first by [].
  rewrite expnS Nat2Z.inj_succ Z.pow_succ_r; last by apply: Nat2Z.is_nonneg.
  by rewrite -IH -Nat2Z.inj_mul.
Qed.

Lemma of_dvdn d n : (d %| n)%N -> (Z.of_nat d | Z.of_nat n).
Proof. move=> /dvdnP [k ->]. exists (Z.of_nat k). by rewrite -Nat2Z.inj_mul. Qed.

Lemma of_prime n : Znumtheory.prime (Z.of_nat n) -> prime n.
Proof.
  move=> H. apply/primeP. have H1 := prime_ge_2 _ H. split; first by apply/ltP; lia.
  move=> d /of_dvdn D. case: (prime_divisors _ H _ D) => [|[|[|]]] E; try lia; apply/orP.
  - left. apply/eqP. lia.
  - right. apply/eqP. lia.
Qed.

Lemma of_coprime a n : Z.gcd (Z.of_nat a) (Z.of_nat n) = 1 -> coprime a n.
Proof.
  move=> H. rewrite /coprime. apply/eqP.
  have D : (Z.of_nat (gcdn a n) | 1).
  { rewrite -H. apply: Z.gcd_greatest; apply: of_dvdn; [exact: dvdn_gcdl|exact: dvdn_gcdr]. }
  have := Z.divide_1_r_nonneg _ (Nat2Z.is_nonneg _) D. lia.
Qed.

Lemma of_modn x n : (1 < n)%N -> x = 1 %[mod n] -> Z.of_nat x mod Z.of_nat n = 1.
Proof.
  move=> Hn E. rewrite (modn_small Hn) in E. have D := divn_eq x n. rewrite E in D.
  move/ltP: Hn => Hn. rewrite D Nat2Z.inj_add Nat2Z.inj_mul Z.add_comm Z_mod_plus_full Z.mod_small; lia.
Qed.

Lemma euler_two_primes p q a : Znumtheory.prime p -> Znumtheory.prime q -> p <> q -> 0 <= a -> Z.gcd a (p * q) = 1 ->
  a ^ ((p - 1) * (q - 1)) mod (p * q) = 1.
Proof.
  move=> Hp Hq Npq Ha Hg. have Gp := prime_ge_2 _ Hp. have Gq := prime_ge_2 _ Hq.
  have [p' Ep] : exists p', p = Z.of_nat p' by exists (Z.to_nat p); lia.
  have [q' Eq] : exists q', q = Z.of_nat q' by exists (Z.to_nat q); lia.
  have [a' Ea] : exists a', a = Z.of_nat a' by exists (Z.to_nat a); lia.
  subst p q a. have Pp := of_prime _ Hp. have Pq := of_prime _ Hq.
  have Cpq : coprime p' q'.
  { rewrite prime_coprime //. rewrite dvdn_prime2 //. apply/eqP. lia. }
  rewrite -Nat2Z.inj_mul in Hg. have := Euler_exp_totient (of_coprime _ _ Hg).
  rewrite totient_coprime // !totient_prime // => E.
  have N1 : (1 < p' * q')%N by apply/ltP; rewrite /muln /muln_rec; nia.
  have := of_modn _ _ N1 E. rewrite of_expn.
  have -> : Z.of_nat (p'.-1 * q'.-1)%N = (Z.of_nat p' - 1) * (Z.of_nat q' - 1).
  { rewrite /muln /muln_rec Nat2Z.inj_mul. f_equal; lia. }
  by rewrite /muln /muln_rec Nat2Z.inj_mul.
Qed.

(** a power whose exponent is one more than a multiple of (p - 1) (q - 1) is the number itself *)
Lemma rsa_exponent p q a k : Znumtheory.prime p -> Znumtheory.prime q -> p <> q -> 0 <= a < p * q -> Z.gcd a (p * q) = 1 -> 0 <= k ->
  a ^ (1 + (p - 1) * (q - 1) * k) mod (p * q) = a.
Proof.
  move=> Hp Hq Npq Ha Hg Hk. have Gp := prime_ge_2 _ Hp. have Gq := prime_ge_2 _ Hq.
  have E := euler_two_primes p q a Hp Hq Npq (proj1 Ha) Hg.
  rewrite Z.pow_add_r; [|lia|nia]. rewrite Z.pow_1_r Z.pow_mul_r; [|nia|lia].
  rewrite -Z.mul_mod_idemp_r; last nia. rewrite Zpower_mod; last nia.
  rewrite E Z.pow_1_l //. rewrite (Z.mod_small 1); last nia. rewrite Z.mul_1_r Z.mod_small //.
Qed.
