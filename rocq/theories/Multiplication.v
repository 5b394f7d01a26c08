(** * Multiplication: include/bignum/impl/bn_multiplication_impl.h *)
From Verif Require Import Base Limits Fourier.

(** Conversion of a double to an unsigned integer of [w] bits: undefined if the truncated value does not
    fit (C++ [conv.fpint]). *)
Definition to_uint (P : flops) (w : Z) (x : F P) : M Z :=
  match ftrunc P x with
  | Some z => if (0 <=? z) && (z <? 2 ^ w) then ret z else undef UB_float_to_int
  | None => undef UB_float_to_int
  end.

(** bn_multiplication_impl.h:34-45.  Line 39: [c + floor(x + 0.5)] is a double addition (c, a size_t, is
    converted); line 41: [ci % NUM_BASE] converted to a digit; line 44: [c = ci / NUM_BASE].  NUM_BASE is the
    bn_double SINGLE_BASE_MAX+1 (line 21).  The reserve at line 32 is covered by the allocation request in
    [mul_strassen]. *)
Fixpoint carry_loop (L : limits) (P : flops) (inverses : list (cplx P)) (c : Z) (acc : list Z)
  : M (list Z) :=
  match inverses with
  | [] => ret acc
  | x :: rest =>
    ci <- to_uint P (wd L) (fadd P (fofZ P c) (ffloor P (fadd P (fst x) (c_half P)))) ;;
    let nb := wrap (wd L) (bmax L + 1) in
    if nb =? 0 then undef UB_div_zero else
    carry_loop L P rest (ci / nb) (acc ++ [wrap (ws L) (ci mod nb)])
  end.

(** bn_multiplication_impl.h:48-58: count the zeros from the end, then resize. *)
Fixpoint count_high_zeros (v : list Z) (i : nat) : M nat :=
  match i with
  | O => ret 0%nat
  | S j => x <- vget v j ;;
           if negb (x =? 0) then ret 0%nat else (n <- count_high_zeros v j ;; ret (S n))
  end.

(** bn_multiplication_impl.h:16-61.  All the vectors involved are local; the failure of any of their
    allocations leaves the function with std::bad_alloc and no other effect, so one request stands for them. *)
Definition mul_strassen (L : limits) (P : flops) (fuel : nat) (a b : list Z) : M (list Z) :=
  alloc ;;;
  match convolute_fft P fuel (create_fft_table P a b) with
  | None => nofuel
  | Some table =>
    match ifft_complex P fuel table with
    | None => nofuel
    | Some inverses =>
      v <- carry_loop L P inverses 0 [] ;;
      z <- count_high_zeros v (length v) ;;
      ret (firstn (length v - z) v)
    end
  end.

(** ** mul_naive *)

(** [a[j] * b[i]] at type bn_single: operands narrower than int are promoted to int, whose overflow is
    undefined (only possible for 16-bit digits). *)
Definition digit_mul (L : limits) (x y : Z) : M Z :=
  if (ws L <? 32) && (2 ^ 31 <=? x * y) then undef UB_signed_overflow else ret (x * y).

(** bn_multiplication_impl.h:87-92, one call per iteration over j; [index = i + j] is computed on 32-bit
    unsigned integers; the sum is stored in a digit (mod 2^ws); the remainder is an unsigned (32 bits). *)
Fixpoint naive_row (L : limits) (a : list Z) (bi : Z) (i : nat) (n j : nat) (r : list Z) (rem : Z)
  : M (list Z * Z) :=
  match n with
  | O => ret (r, rem)
  | S n' =>
    let index := Z.to_nat (wrap 32 (Z.of_nat i + Z.of_nat j)) in
    aj <- vget a j ;;
    p <- digit_mul L aj bi ;;
    old <- vget r index ;;
    let s := wrap (ws L) (old + (rem + p)) in
    let nb := wrap (wd L) (bmax L + 1) in
    if nb =? 0 then undef UB_div_zero else
    r <- vset r index (s mod nb) ;;
    naive_row L a bi i n' (S j) r (wrap 32 (s / nb))
  end.

(** bn_multiplication_impl.h:84-95 *)
Fixpoint naive_rows (L : limits) (a b : list Z) (n i : nat) (r : list Z) : M (list Z) :=
  match n with
  | O => ret r
  | S n' =>
    bi <- (match a with [] => ret 0 | _ => vget b i end) ;;  (* b[i] is only read inside the inner loop *)
    rr <- naive_row L a bi i (length a) 0 r 0 ;;
    let k := (i + length a)%nat in
    old <- vget (fst rr) k ;;
    r <- vset (fst rr) k (wrap (ws L) (old + snd rr)) ;;
    naive_rows L a b n' (S i) r
  end.

(** bn_multiplication_impl.h:69-98.  The loop counters are 32-bit: with 2^32 or more digits in b (or in a,
    if b has any) the loops never end, modelled as [nofuel]. *)
Definition mul_naive (L : limits) (a b : list Z) : M (list Z) :=
  let totalLen := (length a + length b)%nat in
  if (totalLen =? 0)%nat then ret [] else
  alloc ;;;
  if (2 ^ 32 <=? Z.of_nat (length b)) || ((2 ^ 32 <=? Z.of_nat (length a)) && (0 <? Z.of_nat (length b)))
  then nofuel
  else naive_rows L a b (length b) 0 (repeat 0 totalLen).
