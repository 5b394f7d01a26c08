(** * Multiplication with another floating-point type (definitions only)

    bn_multiplication_impl.h:17, 18: "Default type is double. Use floats if they perform well enough."  This is mul_strassen with the
    typedef changed to another type. *)
From Coq Require Import ZArith List Bool.
From Flocq Require Import Core IEEE754.BinarySingleNaN.
From Verif Require Import Base Limits Fourier Multiplication Ieee Formats.
Import ListNotations.
Open Scope Z_scope.

(** conversion to an unsigned integer of [w] bits, as Multiplication.to_uint *)
Definition to_uint_at (g : binary_format) (w : Z) (x : number g) : M Z :=
  match x with
  | B754_nan | B754_infinity _ => undef UB_float_to_int
  | _ => let z := Btrunc x in if (0 <=? z) && (z <? 2 ^ w) then ret z else undef UB_float_to_int
  end.

(** bn_multiplication_impl.h:34-45.  The literal 0.5 is a double, so that [x + 0.5], its floor and the sum with the size_t c (line 39)
    are computed in the wider of double and flt_t. *)
Fixpoint carry_loop_at (L : limits) (f : binary_format) (inverses : list (number f * number f)) (c : Z) (acc : list Z) : M (list Z) :=
  match inverses with
  | [] => ret acc
  | x :: rest =>
    let g := wider f in
    let coefficient := @Bnearbyint (bprec g) (bemax g) (bprec_lt g) mode_DN (add_at g (convert f g (fst x)) (mk_number g 1 (-1))) in
    ci <- to_uint_at g (wd L) (add_at g (mk_number g c 0) coefficient) ;;
    let nb := wrap (wd L) (bmax L + 1) in
    if nb =? 0 then undef UB_div_zero else
    carry_loop_at L f rest (ci / nb) (acc ++ [wrap (ws L) (ci mod nb)])
  end.

(** bn_multiplication_impl.h:16-61, as Multiplication.mul_strassen *)
Definition mul_strassen_at (L : limits) (f : binary_format) (ct : evaluation_at f) (cosf sinf : number f -> number f) (fuel : nat)
  (a b : list Z) : M (list Z) :=
  let P := flops_at f ct cosf sinf in
  alloc ;;;
  match convolute_fft P fuel (create_fft_table P a b) with
  | None => nofuel
  | Some table =>
    match ifft_complex P fuel table with
    | None => nofuel
    | Some inverses =>
      v <- carry_loop_at L f inverses 0 [] ;;
      z <- count_high_zeros v (length v) ;;
      ret (firstn (length v - z) v)
    end
  end.
