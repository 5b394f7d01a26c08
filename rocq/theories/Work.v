(** * Sums, differences and products with their rounds counted (model)

    The loops of bn_addition_impl.h, bn_subtraction_impl.h, bn_multiplication_impl.h and fourier_impl.h as in AddSub.v,
    Fourier.v and Multiplication.v, with the number of rounds they make. *)
From Verif Require Import Base Limits Compare AddSub Fourier Multiplication.

(** bn_addition_impl.h:24-53; [k] rounds so far *)
Fixpoint add_loop_counted (L : limits) (inv : view) (fuel : nat) (out : list Z) (oi ii : nat) (rem : Z) (k : nat) : M (list Z * nat) :=
  match fuel with
  | O => nofuel
  | S f =>
    out <- (if (oi =? length out)%nat then vpush out 0 else ret out) ;;
    inDigit <- (if (ii <? length (inv out))%nat then vget (inv out) ii else ret 0) ;;
    o <- vget out oi ;;
    let outDigit := wrap (wd L) (o + inDigit + rem) in
    dr <- (if bmax L <? outDigit then
             (if wrap (wd L) (bmax L + 1) =? 0 then undef UB_div_zero
              else ret (wrap (ws L) (outDigit mod wrap (wd L) (bmax L + 1)), 1))
           else ret (wrap (ws L) outDigit, 0)) ;;
    out <- vset out oi (fst dr) ;;
    if ((S oi =? length out)%nat && (length (inv out) <=? S ii)%nat && (snd dr =? 0))
    then ret (out, S k)
    else add_loop_counted L inv f out (S oi) (S ii) (snd dr) (S k)
  end.

(** bn_addition_impl.h:8-54 *)
Definition add_counted (L : limits) (out : list Z) (inv : view) : M (list Z * nat) :=
  add_loop_counted L inv (3 + length out + length (inv out)) out 0 0 0 0.

(** bn_subtraction_impl.h:38-60 *)
Fixpoint sub_loop_counted (L : limits) (inv : view) (fuel : nat) (out : list Z) (oi ii : nat) (nb : Z) (k : nat) : M (list Z * nat) :=
  match fuel with
  | O => nofuel
  | S f =>
    inDigit <- (if (ii <? length (inv out))%nat then vget (inv out) ii else ret 0) ;;
    o <- vget out oi ;;
    let outDigit := wrap (wd L) ((o - nb) - inDigit) in
    let nb' := if bmax L <? outDigit then 1 else 0 in
    let d := if bmax L <? outDigit then wrap (ws L) (outDigit + bmax L + 1) else wrap (ws L) outDigit in
    out <- vset out oi d ;;
    if ((S oi =? length out)%nat && (length (inv out) <=? S ii)%nat)
    then ret (out, S k)
    else sub_loop_counted L inv f out (S oi) (S ii) nb' (S k)
  end.

(** bn_subtraction_impl.h:63-71 *)
Fixpoint pop_zeros_counted (iter : nat) (v : list Z) (k : nat) : M (list Z * nat) :=
  match iter with
  | O => ret (v, k)
  | S j => x <- vget v j ;;
           if x =? 0 then (v <- vpop v ;; pop_zeros_counted j v (S k)) else ret (v, S k)
  end.

(** bn_subtraction_impl.h:14-72 without BN_DEBUG: rounds of the first and of the second loop *)
Definition sub_counted (L : limits) (out : list Z) (inv : view) : M (list Z * (nat * nat)) :=
  r <- sub_loop_counted L inv (3 + length out + length (inv out)) out 0 0 0 0 ;;
  t <- pop_zeros_counted (length (fst r)) (fst r) 0 ;;
  ret (fst t, (snd r, snd t)).

Section Product.
Context (P : flops).

(** fourier_impl.h:41-86 with the rounds of the loop at 78-85; each evaluates one cosine and one sine *)
Fixpoint fft_counted (fuel : nat) (x : list (cplx P)) : option (list (cplx P) * nat) :=
  match fuel with
  | O => None
  | S f =>
    if (length x =? 1)%nat then Some (x, 0%nat)
    else
      match fft_counted f (evens x), fft_counted f (odds x) with
      | Some (e, i), Some (o, j) =>
        let len := length x in
        let half := (len / 2)%nat in
        let r := map (butterfly P len) (combine (seq 0 half) (combine e o)) in
        Some (map fst r ++ map snd r ++ skipn (2 * half) x, (i + j + length r)%nat)
      | _, _ => None
      end
  end.

(** bn_multiplication_impl.h:34-45 *)
Fixpoint carry_counted (L : limits) (inverses : list (cplx P)) (c : Z) (acc : list Z) (k : nat) : M (list Z * nat) :=
  match inverses with
  | [] => ret (acc, k)
  | x :: rest =>
    ci <- to_uint P (wd L) (fadd P (fofZ P c) (ffloor P (fadd P (fst x) (c_half P)))) ;;
    let nb := wrap (wd L) (bmax L + 1) in
    if nb =? 0 then undef UB_div_zero else
    carry_counted L rest (ci / nb) (acc ++ [wrap (ws L) (ci mod nb)]) (S k)
  end.

(** bn_multiplication_impl.h:48-58: how often the loop reads a digit *)
Fixpoint trim_counted (v : list Z) (i : nat) : M (nat * nat) :=
  match i with
  | O => ret (0%nat, 0%nat)
  | S j => x <- vget v j ;;
           if negb (x =? 0) then ret (0%nat, 1%nat) else (n <- trim_counted v j ;; ret (S (fst n), S (snd n)))
  end.

(** bn_multiplication_impl.h:16-61 with fourier_impl.h:91-103 and 147-170: butterflies, entries convolved, digits carried and
    digits read while trimming *)
Definition mul_counted (L : limits) (fuel : nat) (a b : list Z) : M (list Z * (nat * nat * nat * nat)) :=
  alloc ;;;
  let t := create_fft_table P a b in
  match fft_counted fuel t with
  | None => nofuel
  | Some (tr, i) =>
    let table := map (convolve_entry P tr) (seq 0 (length t)) in
    match fft_counted fuel (map (cconj P) table) with
    | None => nofuel
    | Some (y, j) =>
      let inverses := map (fun e => cdivr P (cconj P e) (fofZ P (Z.of_nat (length y)))) y in
      v <- carry_counted L inverses 0 [] 0 ;;
      z <- trim_counted (fst v) (length (fst v)) ;;
      ret (firstn (length (fst v) - fst z) (fst v), ((i + j)%nat, length table, snd v, snd z))
    end
  end.

End Product.

(** bn_multiplication_impl.h:84-95: rounds of the inner loop *)
Fixpoint naive_row_counted (L : limits) (a : list Z) (bi : Z) (i : nat) (n j : nat) (r : list Z) (rem : Z) (k : nat) : M (list Z * Z * nat) :=
  match n with
  | O => ret (r, rem, k)
  | S n' =>
    let index := Z.to_nat (wrap 32 (Z.of_nat i + Z.of_nat j)) in
    aj <- vget a j ;;
    p <- digit_mul L aj bi ;;
    old <- vget r index ;;
    let s := wrap (ws L) (old + (rem + p)) in
    let nb := wrap (wd L) (bmax L + 1) in
    if nb =? 0 then undef UB_div_zero else
    r <- vset r index (s mod nb) ;;
    naive_row_counted L a bi i n' (S j) r (wrap 32 (s / nb)) (S k)
  end.

Fixpoint naive_rows_counted (L : limits) (a b : list Z) (n i : nat) (r : list Z) (k : nat) : M (list Z * nat) :=
  match n with
  | O => ret (r, k)
  | S n' =>
    bi <- (match a with [] => ret 0 | _ => vget b i end) ;;
    rr <- naive_row_counted L a bi i (length a) 0 r 0 0 ;;
    let t := (i + length a)%nat in
    old <- vget (fst (fst rr)) t ;;
    r <- vset (fst (fst rr)) t (wrap (ws L) (old + snd (fst rr))) ;;
    naive_rows_counted L a b n' (S i) r (k + snd rr)
  end.

(** bn_multiplication_impl.h:69-98 *)
Definition naive_counted (L : limits) (a b : list Z) : M (list Z * nat) :=
  let totalLen := (length a + length b)%nat in
  if (totalLen =? 0)%nat then ret ([], 0%nat) else
  alloc ;;;
  if (2 ^ 32 <=? Z.of_nat (length b)) || ((2 ^ 32 <=? Z.of_nat (length a)) && (0 <? Z.of_nat (length b)))
  then nofuel
  else naive_rows_counted L a b (length b) 0 (repeat 0 totalLen) 0.
