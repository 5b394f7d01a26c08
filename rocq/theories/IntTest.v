(** * The client tests/integer_test.cpp

    The program prints 32 lines, one for each operator of BNIntType<unsigned, 0> (built-in and wrapped operand, in both
    orders).  [unsigned] has 32 bits.  getRandInt (lines 32-34) is an argument of the model: the two numbers drawn. *)
From Coq Require Import String Decimal DecimalString.
From Verif Require Import Base Limits BNInt.
Local Open Scope string_scope.

(** an unsigned number or a bool written by std::ostream with the default flags *)
Definition decimal (z : Z) : string := NilZero.string_of_uint (N.to_uint (Z.to_N z)).
Definition newline : string := String (Ascii.ascii_of_nat 10) EmptyString.

(** integer_test.cpp:14-15: PRINT_TEST *)
Definition line (x : Z) (op : string) (y z : Z) : string := decimal x ++ op ++ decimal y ++ "=" ++ decimal z ++ newline.
Definition print_test (x : Z) (op : string) (y : Z) (m : M Z) : M string := z <- m ;; ret (line x op y z).
Definition print_bool (x : Z) (op : string) (y : Z) (b : bool) : M string := ret (line x op y (if b then 1 else 0)).

Fixpoint sequence (l : list (M string)) : M string :=
  match l with [] => ret "" | m :: r => s <- m ;; t <- sequence r ;; ret (s ++ t) end.

(** integer_test.cpp:45-60 and, with the operands exchanged, 62-77 *)
Definition all_operators (x y : Z) : list (M string) := [
  print_test x "+" y (bni_add 32 x y);
  print_test x "-" y (bni_sub 32 x y);
  print_test x "*" y (bni_mul 32 x y);
  print_test x "/" y (bni_div 32 x y);
  print_test x "%" y (bni_mod 32 x y);
  print_test x "&" y (bni_and 32 x y);
  print_test x "|" y (bni_or 32 x y);
  print_test x "^" y (bni_xor 32 x y);
  print_test x "<<" y (bni_shl 32 x y);
  print_test x ">>" y (bni_shr 32 x y);
  print_bool x ">" y (bni_gt x y);
  print_bool x "<" y (bni_lt x y);
  print_bool x ">=" y (bni_ge x y);
  print_bool x "<=" y (bni_le x y);
  print_bool x "==" y (bni_eq x y);
  print_bool x "!=" y (bni_ne x y)].

(** integer_test.cpp:39-80 *)
Definition integer_test (basicInt testInt : Z) : M string :=
  sequence (all_operators basicInt testInt ++ all_operators testInt basicInt).
