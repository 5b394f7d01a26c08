(** * abs_val_div with its rounds counted (model)

    The loops of bn_division_impl.h as in Division.v, with the number of rounds they make. *)
From Verif Require Import Base Limits Compare AddSub Division.

(** bn_division_impl.h:55-61; [k] rounds so far *)
Fixpoint div_inner_counted (L : limits) (fuel : nat) (dividend bsrch0 bsrch1 q : list Z) (k : nat) : M (list Z * list Z * nat) :=
  match fuel with
  | O => nofuel
  | S f =>
    c <- abs_val_is_ge dividend bsrch1 ;;
    if (c : bool) then
      bsrch0 <- vcopy bsrch1 ;;
      bsrch1 <- shift_left_1 L bsrch1 ;;
      q <- shift_left_1 L q ;;
      div_inner_counted L f dividend bsrch0 bsrch1 q (S k)
    else ret (bsrch0, q, k)
  end.

(** bn_division_impl.h:47-74; [o] rounds of the outer loop and [i] rounds of the inner loop so far *)
Fixpoint div_outer_counted (L : limits) (dbg : bool) (fi fuel : nat) (dividend divisor r : list Z) (o i : nat)
  : M (list Z * (nat * nat)) :=
  match fuel with
  | O => nofuel
  | S f =>
    c <- abs_val_is_ge dividend divisor ;;
    if (c : bool) then
      bsrch0 <- vcopy divisor ;;
      bsrch1 <- vcopy divisor ;;
      q <- vcopy [wrap (ws L) 1] ;;
      bsrch1 <- shift_left_1 L bsrch1 ;;
      bqk <- div_inner_counted L fi dividend bsrch0 bsrch1 q 0 ;;
      let '(b0, q, k) := bqk in
      dividend <- abs_val_sub L dbg dividend (other b0) ;;
      r <- (if (length q <=? length r)%nat
            then abs_val_add L r (other q)
            else abs_val_add L q (other r)) ;;
      div_outer_counted L dbg fi f dividend divisor r (S o) (i + k)
    else ret (r, (o, i))
  end.

(** bn_division_impl.h:8-78 *)
Definition abs_val_div_counted (L : limits) (dbg : bool) (fuel : nat) (dividend divisor : list Z) : M (list Z * (nat * nat)) :=
  r <- vcopy [0] ;;
  div_outer_counted L dbg fuel fuel dividend divisor r 0 0.
