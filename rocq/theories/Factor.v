(** * Two more clients: the least factor of a number, and the sum of its divisors

    Programs over the statements of Machine.v and While.v; the repository has no such clients, they are written as a user of
    the operators of bn_type.h:102-458 would.  There is no operator %: divisibility is tested with (n / d) * d == n. *)
From Coq Require Import List.
From Verif Require Import Base Spec Limits Bignum Machine While.
Import ListNotations.

(** q = n / d;  q *= d;  for n, d, q in variables 0, 1, 4 *)
Definition multiple_below : stmt := block [IBinary ODiv 4 0 1; IAssign OMul 4 1].

(** The least factor above one of variable 0, into variable 5, by trial division:
      Bignum one(BN_POS, {1}), d = one + one, f = n, t = d * d;
      while (t <= n) { q = n / d; q *= d;  if (q == n) { f = d; t = n + one; } else { d += one; t = d * d; } } *)
Definition trial_round : stmt :=
  Seq multiple_below (If CEq 4 0 (block [ICopy 5 1; IBinary OAdd 3 0 2]) (block [IAssign OAdd 1 2; IBinary OMul 3 1 1])).
Definition least_factor : stmt :=
  Seq (block [INew 2 BN_POS [1%Z]; IBinary OAdd 1 2 2; ICopy 5 0; IBinary OMul 3 1 1]) (While CLe 3 0 trial_round).

(** The sum of the divisors of variable 0, into variable 6:
      Bignum one(BN_POS, {1}), d(BN_POS, {1}), sum;
      while (d <= n) { q = n / d; q *= d;  if (q == n) sum += d;  d += one; } *)
Definition divisor_round : stmt :=
  Seq multiple_below (Seq (If CEq 4 0 (Do (IAssign OAdd 6 1)) (Do (ICopy 6 6))) (Do (IAssign OAdd 1 2))).
Definition divisor_sum : stmt :=
  Seq (block [INew 2 BN_POS [1%Z]; INew 1 BN_POS [1%Z]; IClear 6]) (While CLe 1 0 divisor_round).
