(** * Magnitude addition and subtraction:
    include/bignum/impl/bn_addition_impl.h and include/bignum/impl/bn_subtraction_impl.h *)
From Verif Require Import Base Limits Compare.

(** The second parameter of abs_val_add / abs_val_sub is a reference and may denote the same vector as the
    first ([x += x], [x -= x]).  It is modelled as a view: a function giving the current contents of the
    second vector from the current contents of the first. *)
Definition view := list Z -> list Z.
Definition other (b : list Z) : view := fun _ => b.
Definition same : view := fun out => out.

(** bn_addition_impl.h:24-53, one call per iteration of [while (true)].
    Line 31: inDigit; line 32: outDigit is a bn_double, so the sum is taken modulo 2^wd; line 35-43: the
    digit and the carry; [SINGLE_BASE_MAX+bn_double{1}] is a bn_double and [%] by zero is undefined;
    line 50: the exit test, evaluated on the current size of both vectors. *)
Fixpoint add_loop (L : limits) (inv : view) (fuel : nat) (out : list Z) (oi ii : nat) (rem : Z)
  : M (list Z) :=
  match fuel with
  | O => nofuel
  | S f =>
    out <- (if (oi =? length out)%nat then vpush out 0 else ret out) ;;
    inDigit <- (if (ii <? length (inv out))%nat then vget (inv out) ii else ret 0) ;;
    o <- vget out oi ;;
    let outDigit := wrap (wd L) (o + inDigit + rem) in
    dr <- (if bmax L <? outDigit then
             (if wrap (wd L) (bmax L + 1) =? 0 then undef UB_div_zero
              else ret (wrap (ws L) (outDigit mod wrap (wd L) (bmax L + 1)), 1))
           else ret (wrap (ws L) outDigit, 0)) ;;
    out <- vset out oi (fst dr) ;;
    if ((S oi =? length out)%nat && (length (inv out) <=? S ii)%nat && (snd dr =? 0))
    then ret out
    else add_loop L inv f out (S oi) (S ii) (snd dr)
  end.

(** bn_addition_impl.h:8-54.  The loop makes at most max(|out|,|in|)+1 rounds (proved: NoFuel never occurs),
    so the fuel below is not a restriction. *)
Definition abs_val_add (L : limits) (out : list Z) (inv : view) : M (list Z) :=
  add_loop L inv (3 + length out + length (inv out)) out 0 0 0.

(** bn_subtraction_impl.h:38-60, one call per iteration.  Line 41: outDigit is a bn_double (mod 2^wd). *)
Fixpoint sub_loop (L : limits) (inv : view) (fuel : nat) (out : list Z) (oi ii : nat) (nb : Z)
  : M (list Z) :=
  match fuel with
  | O => nofuel
  | S f =>
    inDigit <- (if (ii <? length (inv out))%nat then vget (inv out) ii else ret 0) ;;
    o <- vget out oi ;;
    let outDigit := wrap (wd L) ((o - nb) - inDigit) in
    let nb' := if bmax L <? outDigit then 1 else 0 in
    let d := if bmax L <? outDigit then wrap (ws L) (outDigit + bmax L + 1) else wrap (ws L) outDigit in
    out <- vset out oi d ;;
    if ((S oi =? length out)%nat && (length (inv out) <=? S ii)%nat)
    then ret out
    else sub_loop L inv f out (S oi) (S ii) nb'
  end.

(** bn_subtraction_impl.h:63-71: pop high-order zeros; [iter] counts down from size(). *)
Fixpoint pop_zeros (iter : nat) (v : list Z) : M (list Z) :=
  match iter with
  | O => ret v
  | S j => x <- vget v j ;;
           if x =? 0 then (v <- vpop v ;; pop_zeros j v) else ret v
  end.

(** bn_subtraction_impl.h:14-72.  [dbg] = BN_DEBUG is defined (lines 18-24). *)
Definition abs_val_sub (L : limits) (dbg : bool) (out : list Z) (inv : view) : M (list Z) :=
  (if dbg then
     if (length out <? length (inv out))%nat then throw ExUnderflow
     else lt <- abs_val_is_lt out (inv out) ;; if (lt : bool) then throw ExUnderflow else ret tt
   else ret tt) ;;;
  out <- sub_loop L inv (3 + length out + length (inv out)) out 0 0 0 ;;
  pop_zeros (length out) out.
