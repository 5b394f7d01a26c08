(** * Another client: powers modulo a number

    A program over the statements of Machine.v and While.v; the repository has no such client, it is written as a user of the
    operators of bn_type.h:102-458 would. *)
From Coq Require Import List.
From Verif Require Import Base Spec Limits Bignum Machine While.
Import ListNotations.

(** x = x mod m, for variable t and the modulus in variable 7 (there is no operator %):
      q = x / m;  q *= m;  x -= q; *)
Definition reduce (t : nat) : stmt := block [IBinary ODiv 8 t 7; IAssign OMul 8 7; IAssign OSub t 8].

(** h = e / two, with the case in which the quotient is wrong (C24):
      if (e == two) h = one; else h = e / two; *)
Definition half_of : stmt := If CEq 1 4 (Do (ICopy 5 3)) (Do (IBinary ODiv 5 1 4)).

(** b^e mod m for b, e, m in variables 0, 1, 7, into variable 2:
      Bignum r(BN_POS, {1}), one(BN_POS, {1}), two = one + one;  b = b mod m;
      while (e >= one) { h = e / two; d = h + h;  if (e != d) { r *= b; r = r mod m; }  b *= b; b = b mod m;  e = std::move(h); } *)
Definition mod_round : stmt :=
  Seq half_of (Seq (Do (IBinary OAdd 6 5 5))
    (Seq (If CNe 1 6 (Seq (Do (IAssign OMul 2 0)) (reduce 2)) (Do (ICopy 2 2)))
      (Seq (Do (IAssign OMul 0 0)) (Seq (reduce 0) (Do (IMove 1 5)))))).
Definition mod_power : stmt :=
  Seq (block [INew 2 BN_POS [1%Z]; INew 3 BN_POS [1%Z]; IBinary OAdd 4 3 3]) (Seq (reduce 0) (While CGe 1 3 mod_round)).
