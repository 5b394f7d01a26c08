(** * Clients that order numbers (model)

    std::sort, std::lower_bound, std::max and std::min instantiated with the comparison operators of Bignum
    (bn_type.h:289-346, bn_type_impl.h:286-378).  The algorithms are not part of /repo: they are libstdc++'s, written here
    over the operators of Bignum.v, as a program that includes <algorithm> runs them.  Elements are moved, which asks for
    no memory (bn_type_impl.h:109-114 and 396-403, C40). *)
From Verif Require Import Base Spec Limits Bignum While.

(** a function object: takes two numbers, returns a bool *)
Definition comparator := bignum -> bignum -> M bool.

(** the comparator that is an order on all the finite numbers:
    [](a, b) { return a.getDescriptor() == BN_NEG ? !(a > b) : !(a >= b); } *)
Definition careful : comparator := fun a b =>
  if desc_eqb (desc a) BN_NEG then (g <- op_gt a b ;; ret (negb g)) else (g <- op_ge a b ;; ret (negb g)).

(** and the one that is an order on the numbers that are not negative: [](a, b) { return !(a >= b); } *)
Definition not_ge : comparator := fun a b => g <- op_ge a b ;; ret (negb g).

(** __unguarded_linear_insert: the elements before the one to insert, last one first.  It stops only at an element the new
    one does not precede; reaching past the first element is undefined. *)
Fixpoint unguarded_insert (c : comparator) (val : bignum) (before : list bignum) : M (list bignum) :=
  match before with
  | [] => undef UB_iterator
  | next :: rest =>
    b <- c val next ;;
    if b then (r <- unguarded_insert c val rest ;; ret (next :: r)) else ret (val :: next :: rest)
  end.

(** one round of __insertion_sort: compare with the first element, then insert *)
Definition insertion_round (c : comparator) (done : list bignum) (val : bignum) : M (list bignum) :=
  match done with
  | [] => ret [val]
  | first :: _ =>
    b <- c val first ;;
    if b then ret (val :: done) else (r <- unguarded_insert c val (rev done) ;; ret (rev r))
  end.

(** __insertion_sort, which is std::sort for at most 16 elements *)
Fixpoint insertion_loop (c : comparator) (done todo : list bignum) : M (list bignum) :=
  match todo with
  | [] => ret done
  | val :: rest => d <- insertion_round c done val ;; insertion_loop c d rest
  end.
Definition insertion_sort (c : comparator) (v : list bignum) : M (list bignum) := insertion_loop c [] v.

(** std::lower_bound: [first] and [len] describe the part of the vector not yet excluded *)
Fixpoint lower_bound_loop (c : comparator) (fuel : nat) (v : list bignum) (val : bignum) (first len : nat) : M nat :=
  match fuel with
  | O => nofuel
  | S f =>
    if (len =? 0)%nat then ret first else
    let half := (len / 2)%nat in
    m <- vget v (first + half) ;;
    b <- c m val ;;
    if b then lower_bound_loop c f v val (first + half + 1) (len - half - 1) else lower_bound_loop c f v val first half
  end.
Definition lower_bound (c : comparator) (fuel : nat) (v : list bignum) (val : bignum) : M nat :=
  lower_bound_loop c fuel v val 0 (length v).

(** std::max(a, b) and std::min(a, b) *)
Definition max_of (a b : bignum) : M bignum := l <- op_lt a b ;; ret (if l then b else a).
Definition min_of (a b : bignum) : M bignum := l <- op_lt b a ;; ret (if l then b else a).
