(** * class BNIntType: include/bignum/bn_int_type.h, include/bignum/impl/bn_int_type_impl.h

    BNIntType<numType, id> holds one member [num] of an unsigned built-in type of [W] bits (8, 16, 32 or 64:
    bn_int_type.h:139-153).  Each operator evaluates the built-in operator on [num] and casts the result to
    numType.  The rules of the built-in operators are those of C++11 with 32-bit int: operands narrower than
    int are promoted to (signed) int, whose overflow is undefined; wider unsigned operands wrap.
    The overloads taking a numType instead of a BNIntType (lines 133, 144), the assignment forms (138, 144)
    and the free operators with a numType on the left (192, 197, 220) evaluate the same built-in expression on
    the same two values, so one definition stands for all of them.
    The stream operators (lines 236-244) are in IntStream.v. *)
From Verif Require Import Base Limits.

(** the value of a built-in arithmetic expression of mathematical value [z] on operands of [W] bits, cast to
    an unsigned type of [W] bits *)
Definition arith (W z : Z) : M Z :=
  if W <? 32 then
    if (- 2 ^ 31 <=? z) && (z <? 2 ^ 31) then ret (wrap W z) else undef UB_signed_overflow
  else ret (wrap W z).

(** width of the promoted operand type *)
Definition promoted (W : Z) : Z := if W <? 32 then 32 else W.

(** bn_int_type_impl.h:12-13 *)
Definition bni_default : Z := 0.

(** bn_int_type_impl.h:75-98: ++ and -- ([num] afterwards; the post forms also return the old value) *)
Definition bni_inc (W x : Z) : M Z := arith W (x + 1).
Definition bni_dec (W x : Z) : M Z := arith W (x - 1).
Definition bni_post_inc (W x : Z) : M (Z * Z) := y <- bni_inc W x ;; ret (x, y).
Definition bni_post_dec (W x : Z) : M (Z * Z) := y <- bni_dec W x ;; ret (x, y).

(** bn_int_type_impl.h:104-121 *)
Definition bni_not (W x : Z) : M Z := ret (wrap W (if x =? 0 then 1 else 0)).
Definition bni_plus (W x : Z) : M Z := arith W x.
Definition bni_neg (W x : Z) : M Z := arith W (- x).
Definition bni_compl (W x : Z) : M Z := arith W (Z.lnot x).

(** bn_int_type_impl.h:126-160 *)
Definition bni_add (W x y : Z) : M Z := arith W (x + y).
Definition bni_sub (W x y : Z) : M Z := arith W (x - y).
Definition bni_mul (W x y : Z) : M Z := arith W (x * y).
Definition bni_div (W x y : Z) : M Z := if y =? 0 then undef UB_div_zero else arith W (Z.quot x y).
Definition bni_mod (W x y : Z) : M Z := if y =? 0 then undef UB_div_zero else arith W (Z.rem x y).
Definition bni_and (W x y : Z) : M Z := arith W (Z.land x y).
Definition bni_or (W x y : Z) : M Z := arith W (Z.lor x y).
Definition bni_xor (W x y : Z) : M Z := arith W (Z.lxor x y).
Definition bni_shr (W x y : Z) : M Z :=
  if promoted W <=? y then undef UB_shift else arith W (Z.shiftr x y).
(** For a promoted (int) left operand, C++11 [expr.shift]/2 with CWG 1457: defined iff x*2^y is representable
    in the corresponding unsigned type; the conversion back is modular. *)
Definition bni_shl (W x y : Z) : M Z :=
  if promoted W <=? y then undef UB_shift
  else if (W <? 32) && (2 ^ 32 <=? x * 2 ^ y) then undef UB_shift
  else ret (wrap W (x * 2 ^ y)).

(** bn_int_type_impl.h:167-183 *)
Definition bni_eq (x y : Z) : bool := x =? y.
Definition bni_ne (x y : Z) : bool := negb (x =? y).
Definition bni_gt (x y : Z) : bool := y <? x.
Definition bni_ge (x y : Z) : bool := y <=? x.
Definition bni_lt (x y : Z) : bool := x <? y.
Definition bni_le (x y : Z) : bool := x <=? y.
