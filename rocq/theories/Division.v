(** * Magnitude division: include/bignum/impl/bn_division_impl.h *)
From Verif Require Import Base Limits Compare AddSub.

(** bn_division_impl.h:30-37, one call per iteration of [while (curr < container.size())].
    Line 32: temp is a bn_single (mod 2^ws); line 34: the comparison is made on that truncated value;
    line 35: [temp % (bn_single)SINGLE_BASE_LIMIT], undefined if the truncated limit is 0. *)
Fixpoint shl_loop (L : limits) (fuel : nat) (v : list Z) (curr : nat) (carry : Z) : M (list Z * Z) :=
  if (curr <? length v)%nat then
    match fuel with
    | O => nofuel
    | S f =>
      x <- vget v curr ;;
      let temp := wrap (ws L) (x * wrap (ws L) 2 + carry) in
      let carry' := if wrap (ws L) (bmax L) <? temp then 1 else 0 in
      let limit := wrap (ws L) (wrap (wd L) (bmax L + 1)) in
      if limit =? 0 then undef UB_div_zero else
      v <- vset v curr (temp mod limit) ;;
      shl_loop L f v (S curr) carry'
    end
  else ret (v, carry).

(** bn_division_impl.h:20-43 (the lambda shift_left_1) *)
Definition shift_left_1 (L : limits) (v : list Z) : M (list Z) :=
  match v with
  | [] => ret v
  | _ => r <- shl_loop L (length v) v 0 0 ;;
         if snd r =? 0 then ret (fst r) else vpush (fst r) (wrap (ws L) (bmin L + 1))
  end.

(** bn_division_impl.h:55-61, the inner loop; returns (bsrch0, q). *)
Fixpoint div_inner (L : limits) (fuel : nat) (dividend bsrch0 bsrch1 q : list Z) : M (list Z * list Z) :=
  match fuel with
  | O => nofuel
  | S f =>
    c <- abs_val_is_ge dividend bsrch1 ;;
    if (c : bool) then
      bsrch0 <- vcopy bsrch1 ;;
      bsrch1 <- shift_left_1 L bsrch1 ;;
      q <- shift_left_1 L q ;;
      div_inner L f dividend bsrch0 bsrch1 q
    else ret (bsrch0, q)
  end.

(** bn_division_impl.h:47-74, the outer loop; returns res (the divisor is never the dividend's own vector:
    operator /= reaches this code only when the dividend is "greater" than the divisor). *)
Fixpoint div_outer (L : limits) (dbg : bool) (fi fuel : nat) (dividend divisor r : list Z) : M (list Z) :=
  match fuel with
  | O => nofuel
  | S f =>
    c <- abs_val_is_ge dividend divisor ;;
    if (c : bool) then
      bsrch0 <- vcopy divisor ;;
      bsrch1 <- vcopy divisor ;;
      q <- vcopy [wrap (ws L) 1] ;;
      bsrch1 <- shift_left_1 L bsrch1 ;;
      bq <- div_inner L fi dividend bsrch0 bsrch1 q ;;
      dividend <- abs_val_sub L dbg dividend (other (fst bq)) ;;
      r <- (if (length (snd bq) <=? length r)%nat
            then abs_val_add L r (other (snd bq))
            else abs_val_add L (snd bq) (other r)) ;;
      div_outer L dbg fi f dividend divisor r
    else ret r
  end.

(** bn_division_impl.h:8-78.  [fuel] bounds the rounds of both loops. *)
Definition abs_val_div (L : limits) (dbg : bool) (fuel : nat) (dividend divisor : list Z) : M (list Z) :=
  r <- vcopy [0] ;;
  div_outer L dbg fuel fuel dividend divisor r.
