(** * Double arithmetic with excess precision (definitions only)

    C++ lets an implementation evaluate expressions of type double in a wider format (FLT_EVAL_METHOD 2: the x87 unit, which computes
    in the 80-bit format); a cast or an assignment rounds to double.  Every result of the transforms is assigned to a part of a
    std::complex<double>, to the variable w (fourier_impl.h:80) or passed to a function (std::floor, std::cos, std::sin), so that it is
    rounded twice.  Within a complex product a*b - c*d, a*b + c*d each of the two products may stay in the wider format or be stored as
    a double first (the run-time library of GCC assigns them to variables): a parameter.  Implementations that also keep assigned values in
    registers of the wider format, against the standard, are not modelled. *)
From Coq Require Import ZArith Reals.
From Flocq Require Import Core IEEE754.BinarySingleNaN.
From Verif Require Import Base Fourier Ieee Formats.
Open Scope Z_scope.

(** a product within a complex product *)
Inductive intermediate := Kept | Stored.

Section Excess.
Variable g : binary_format.   (* the format of the registers *)

Definition widen : number binary64 -> number g := convert binary64 g.
Definition narrow : number g -> number binary64 := convert g binary64.

Definition add_excess (x y : number binary64) : number binary64 := narrow (add_at g (widen x) (widen y)).
Definition sub_excess (x y : number binary64) : number binary64 := narrow (sub_at g (widen x) (widen y)).
Definition mul_excess (x y : number binary64) : number binary64 := narrow (mul_at g (widen x) (widen y)).
Definition div_excess (x y : number binary64) : number binary64 := narrow (div_at g (widen x) (widen y)).

Definition product_excess (i : intermediate) (x y : number binary64) : number g :=
  match i with Kept => mul_at g (widen x) (widen y) | Stored => widen (mul_excess x y) end.
Definition det_excess (i : intermediate * intermediate) (a b c d : number binary64) : number binary64 :=
  narrow (sub_at g (product_excess (fst i) a b) (product_excess (snd i) c d)).
Definition dot_excess (i : intermediate * intermediate) (a b c d : number binary64) : number binary64 :=
  narrow (add_at g (product_excess (fst i) a b) (product_excess (snd i) c d)).

(** fourier_impl.h:76, 79, 80: kf and pi are doubles, nf a std::size_t *)
Definition angle_excess (len k : nat) : number binary64 :=
  narrow (angle_of (mul_at g) (div_at g) (widen (mk_double (-2) 0)) (widen (mk_number binary64 (Z.of_nat k) 0)) (widen pi_double)
            (mk_number g (length_at binary64 len) 0)).

Record evaluation_excess := mkEvaluationExcess {
  real_part : site -> intermediate * intermediate;
  imaginary_part : site -> intermediate * intermediate;
  nan_part : site -> number binary64 -> number binary64 -> number binary64 -> number binary64 -> number binary64 * number binary64
}.

Definition flops_excess (ct : evaluation_excess) (cosf sinf : number binary64 -> number binary64) : flops := {|
  F := number binary64;
  fofZ := fun z => mk_number binary64 z 0;
  fadd := add_excess;
  fsub := sub_excess;
  fmul := mul_excess;
  fdiv := div_excess;
  fdet := fun s => det_excess (real_part ct s);
  fdot := fun s => dot_excess (imaginary_part ct s);
  fnan := @is_nan (bprec binary64) (bemax binary64);
  frecover := nan_part ct;
  fneg := @Bopp (bprec binary64) (bemax binary64);
  fcos := cosf;
  fsin := sinf;
  ffloor := @Bnearbyint (bprec binary64) (bemax binary64) (bprec_lt binary64) mode_DN;
  ftrunc := fun x => match x with B754_nan | B754_infinity _ => None | _ => Some (Btrunc x) end;
  fangle := angle_excess;
  c_half := mk_number binary64 1 (-1);
  c_quarter := mk_number binary64 1 (-2)
|}.
End Excess.
