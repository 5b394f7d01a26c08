(** * Two more clients: roots and powers

    Programs over the statements of Machine.v and While.v; the repository has no such clients, they are written as a user of
    the operators of bn_type.h:102-458 would. *)
From Verif Require Import Base Spec Limits Bignum Machine While.

(** The integer root of variable 0 by Newton's iteration, into variable 1:
      Bignum one(BN_POS, {1}), two = one + one, x = n, y = x + one;  y /= two;  Bignum t = y + one;
      while (x >= t) { x = y; y = n / x; y += x; y /= two; t = y + one; }
    The loop runs while y < x; written with >= because < is unsound (C10). *)
Definition newton_body : list instr := [ICopy 1 2; IBinary ODiv 2 0 1; IAssign OAdd 2 1; IAssign ODiv 2 4; IBinary OAdd 5 2 3].
Definition newton_start : list instr :=
  [INew 3 BN_POS [1]; IBinary OAdd 4 3 3; ICopy 1 0; IBinary OAdd 2 1 3; IAssign ODiv 2 4; IBinary OAdd 5 2 3].
Definition newton : stmt := Seq (block newton_start) (While CGe 1 5 (block newton_body)).

(** The power of variable 0 with the exponent in variable 1, by repeated squaring, into variable 2:
      Bignum r(BN_POS, {1}), one(BN_POS, {1}), two = one + one;
      while (e >= one) { Bignum h = e / two, d = h + h;  if (e != d) r *= b;  b *= b;  e = std::move(h); }
    [halve] is the statement that makes h (variable 5) from e. *)
Definition power_round (halve : stmt) : stmt :=
  Seq halve (Seq (Do (IBinary OAdd 6 5 5)) (Seq (If CNe 1 6 (Do (IAssign OMul 2 0)) (Do (ICopy 2 2))) (block [IAssign OMul 0 0; IMove 1 5]))).
Definition power_with (halve : stmt) : stmt :=
  Seq (block [INew 2 BN_POS [1]; INew 3 BN_POS [1]; IBinary OAdd 4 3 3]) (While CGe 1 3 (power_round halve)).

(** h = e / two *)
Definition power : stmt := power_with (Do (IBinary ODiv 5 1 4)).

(** if (e == two) h = one; else h = e / two; *)
Definition careful_power : stmt := power_with (If CEq 1 4 (Do (ICopy 5 3)) (Do (IBinary ODiv 5 1 4))).
