(** * Clients with branches and loops

    Structured programs over the statements of Machine.v, with the six comparison operators of Bignum
    (bn_type.h:289-346, Bignum.v) as conditions. *)
From Verif Require Import Base Spec Limits Bignum Machine.

Inductive comparison := CEq | CNe | CGt | CGe | CLt | CLe.

(** bn_type_impl.h:286-378 *)
Definition compare (c : comparison) : bignum -> bignum -> M bool :=
  match c with CEq => op_eq | CNe => op_ne | CGt => op_gt | CGe => op_ge | CLt => op_lt | CLe => op_le end.

Inductive stmt :=
| Do (i : instr)
| Seq (a b : stmt)
| If (c : comparison) (r s : nat) (a b : stmt)
| While (c : comparison) (r s : nat) (a : stmt).

(** [fuel] bounds the nesting depth of the execution; [nofuel] = it was exceeded. *)
Fixpoint srun (E : env) (fuel : nat) (p : stmt) (s : regs) : M regs :=
  match fuel with
  | O => nofuel
  | S f =>
    match p with
    | Do i => step E i s
    | Seq a b => s1 <- srun E f a s ;; srun E f b s1
    | If c x y a b => t <- compare c (s x) (s y) ;; if (t : bool) then srun E f a s else srun E f b s
    | While c x y a =>
        t <- compare c (s x) (s y) ;;
        if (t : bool) then s1 <- srun E f a s ;; srun E f (While c x y a) s1 else ret s
    end
  end.

(** a block *)
Fixpoint block (l : list instr) : stmt :=
  match l with
  | [] => Do (ICopy 0 0)   (* x = x: nothing *)
  | [i] => Do i
  | i :: r => Seq (Do i) (block r)
  end.

(** Euclid's algorithm on the variables 0 (a) and 1 (b):
      Bignum q, zero;  while (b != zero) { q = a / b; q *= b; q = a - q; a = std::move(b); b = std::move(q); }
    leaving the result in a. *)
Definition euclid_body : list instr :=
  [IBinary ODiv 2 0 1; IAssign OMul 2 1; IBinary OSub 2 0 2; IMove 0 1; IMove 1 2].
Definition euclid : stmt := Seq (Do (IClear 3)) (While CNe 1 3 (block euclid_body)).

(** Euclid's algorithm by subtraction, with the comparison as a parameter:
      while (a != b) { if (a >= b) a -= b; else b -= a; } *)
Definition euclid_sub (c : comparison) : stmt :=
  While CNe 0 1 (If c 0 1 (Do (IAssign OSub 0 1)) (Do (IAssign OSub 1 0))).

(** Factorial, of variable 0 into variable 1:
      Bignum r(BN_POS, {1}), one(BN_POS, {1}), zero;  while (n != zero) { r *= n; n -= one; } *)
Definition factorial : stmt :=
  Seq (block [INew 1 BN_POS [1]; INew 2 BN_POS [1]; IClear 3])
      (While CNe 0 3 (block [IAssign OMul 1 0; IAssign OSub 0 2])).

(** Fibonacci numbers, of variable 0 into variable 1:
      Bignum a, b(BN_POS, {1}), one(BN_POS, {1}), zero, t;
      while (n != zero) { t = a + b; a = std::move(b); b = std::move(t); n -= one; } *)
Definition fibonacci : stmt :=
  Seq (block [IClear 1; INew 4 BN_POS [1]; INew 2 BN_POS [1]; IClear 3])
      (While CNe 0 3 (block [IBinary OAdd 5 1 4; IMove 1 4; IMove 4 5; IAssign OSub 0 2])).
