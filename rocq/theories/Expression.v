(** * Expressions over Bignum as a client writes them

    An expression such as (a + b) * c is evaluated with the binary operators (bn_type_impl.h:410-447), each of which returns a
    temporary that is the operand of the next.  The operands are not changed (C38), so the order in which C++ evaluates
    the two operands of an operator, which it leaves open, makes no difference; here it is left to right. *)
From Verif Require Import Base Spec Limits Bignum Machine While.

Inductive expr :=
| Num (x : bignum)
| Op (op : arith_op) (a b : expr).

Fixpoint eval (E : env) (e : expr) : M bignum :=
  match e with
  | Num x => ret x
  | Op op a b => x <- eval E a ;; y <- eval E b ;; binary (compound E op) x y
  end.

(** a condition such as a * (b + c) == a * b + a * c *)
Definition test (E : env) (c : comparison) (e f : expr) : M bool :=
  x <- eval E e ;; y <- eval E f ;; compare c x y.
