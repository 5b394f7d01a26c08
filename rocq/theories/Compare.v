(** * Digit-vector comparison: include/bignum/impl/bn_compare_impl.h *)
From Verif Require Import Base.

(** The loops run [i = size(); while (i--) {...}], i.e. from the most significant digit down. *)

(** bn_compare_impl.h:19-23 *)
Fixpoint eq_loop (a b : list Z) (i : nat) : M bool :=
  match i with
  | O => ret true
  | S j => x <- vget a j ;; y <- vget b j ;;
           if negb (x =? y) then ret false else eq_loop a b j
  end.

(** bn_compare_impl.h:8-26 *)
Definition abs_val_is_eq (a b : list Z) : M bool :=
  if negb (length a =? length b)%nat then ret false else eq_loop a b (length a).

(** bn_compare_impl.h:46-50: note that the loop goes on after a smaller digit. *)
Fixpoint gt_loop (a b : list Z) (i : nat) : M bool :=
  match i with
  | O => ret false
  | S j => x <- vget a j ;; y <- vget b j ;;
           if y <? x then ret true else gt_loop a b j
  end.

(** bn_compare_impl.h:32-53 *)
Definition abs_val_is_gt (a b : list Z) : M bool :=
  if (length b <? length a)%nat then ret true
  else if (length a <? length b)%nat then ret false
  else gt_loop a b (length a).

(** bn_compare_impl.h:73-80 *)
Fixpoint ge_loop (a b : list Z) (i : nat) : M bool :=
  match i with
  | O => ret true
  | S j => x <- vget a j ;; y <- vget b j ;;
           if y <? x then ret true else if x <? y then ret false else ge_loop a b j
  end.

(** bn_compare_impl.h:59-83 *)
Definition abs_val_is_ge (a b : list Z) : M bool :=
  if (length b <? length a)%nat then ret true
  else if (length a <? length b)%nat then ret false
  else ge_loop a b (length a).

(** bn_compare_impl.h:103-107: note that the loop goes on after a greater digit. *)
Fixpoint lt_loop (a b : list Z) (i : nat) : M bool :=
  match i with
  | O => ret false
  | S j => x <- vget a j ;; y <- vget b j ;;
           if x <? y then ret true else lt_loop a b j
  end.

(** bn_compare_impl.h:89-110 *)
Definition abs_val_is_lt (a b : list Z) : M bool :=
  if (length a <? length b)%nat then ret true
  else if (length b <? length a)%nat then ret false
  else lt_loop a b (length a).

(** bn_compare_impl.h:130-137 *)
Fixpoint le_loop (a b : list Z) (i : nat) : M bool :=
  match i with
  | O => ret true
  | S j => x <- vget a j ;; y <- vget b j ;;
           if x <? y then ret true else if y <? x then ret false else le_loop a b j
  end.

(** bn_compare_impl.h:116-140 *)
Definition abs_val_is_le (a b : list Z) : M bool :=
  if (length a <? length b)%nat then ret true
  else if (length b <? length a)%nat then ret false
  else le_loop a b (length a).
