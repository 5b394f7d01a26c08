(** * abs_val_div with the digits it doubles counted (model)

    The loops of bn_division_impl.h as in Division.v, with the number of rounds of the loop inside shift_left_1. *)
From Verif Require Import Base Limits Compare AddSub Division.

(** bn_division_impl.h:30-37; [k] rounds so far *)
Fixpoint shl_loop_digits (L : limits) (fuel : nat) (v : list Z) (curr : nat) (carry : Z) (k : nat) : M (list Z * Z * nat) :=
  if (curr <? length v)%nat then
    match fuel with
    | O => nofuel
    | S f =>
      x <- vget v curr ;;
      let temp := wrap (ws L) (x * wrap (ws L) 2 + carry) in
      let carry' := if wrap (ws L) (bmax L) <? temp then 1 else 0 in
      let limit := wrap (ws L) (wrap (wd L) (bmax L + 1)) in
      if limit =? 0 then undef UB_div_zero else
      v <- vset v curr (temp mod limit) ;;
      shl_loop_digits L f v (S curr) carry' (S k)
    end
  else ret (v, carry, k).

(** bn_division_impl.h:20-43; [k] rounds in earlier calls *)
Definition shift_left_1_digits (L : limits) (v : list Z) (k : nat) : M (list Z * nat) :=
  match v with
  | [] => ret (v, k)
  | _ => r <- shl_loop_digits L (length v) v 0 0 k ;;
         let '(v, carry, k) := r in
         if carry =? 0 then ret (v, k) else (v <- vpush v (wrap (ws L) (bmin L + 1)) ;; ret (v, k))
  end.

(** bn_division_impl.h:55-61 *)
Fixpoint div_inner_digits (L : limits) (fuel : nat) (dividend bsrch0 bsrch1 q : list Z) (k : nat) : M (list Z * list Z * nat) :=
  match fuel with
  | O => nofuel
  | S f =>
    c <- abs_val_is_ge dividend bsrch1 ;;
    if (c : bool) then
      bsrch0 <- vcopy bsrch1 ;;
      b <- shift_left_1_digits L bsrch1 k ;;
      q <- shift_left_1_digits L q (snd b) ;;
      div_inner_digits L f dividend bsrch0 (fst b) (fst q) (snd q)
    else ret (bsrch0, q, k)
  end.

(** bn_division_impl.h:47-74 *)
Fixpoint div_outer_digits (L : limits) (dbg : bool) (fi fuel : nat) (dividend divisor r : list Z) (k : nat) : M (list Z * nat) :=
  match fuel with
  | O => nofuel
  | S f =>
    c <- abs_val_is_ge dividend divisor ;;
    if (c : bool) then
      bsrch0 <- vcopy divisor ;;
      bsrch1 <- vcopy divisor ;;
      q <- vcopy [wrap (ws L) 1] ;;
      b <- shift_left_1_digits L bsrch1 k ;;
      bqk <- div_inner_digits L fi dividend bsrch0 (fst b) q (snd b) ;;
      let '(b0, q, k) := bqk in
      dividend <- abs_val_sub L dbg dividend (other b0) ;;
      r <- (if (length q <=? length r)%nat
            then abs_val_add L r (other q)
            else abs_val_add L q (other r)) ;;
      div_outer_digits L dbg fi f dividend divisor r k
    else ret (r, k)
  end.

(** bn_division_impl.h:8-78 *)
Definition abs_val_div_digits (L : limits) (dbg : bool) (fuel : nat) (dividend divisor : list Z) : M (list Z * nat) :=
  r <- vcopy [0] ;;
  div_outer_digits L dbg fuel fuel dividend divisor r 0.
