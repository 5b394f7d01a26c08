(** * The transforms at other floating-point types (definitions only)

    The functions of fourier_impl.h are templates over flt_t.  Multiplication uses double (bn_multiplication_impl.h:18); a client
    can use any other type: float (binary32) and long double, which is the 80-bit format of x86, binary128 or double, depending on
    the platform.  The arithmetic is Flocq's, rounding to nearest, ties to even.  std::cos, std::sin and the compiler's way of
    evaluating complex products are parameters as in Ieee.v. *)
From Coq Require Import ZArith Reals.
From Flocq Require Import Core IEEE754.BinarySingleNaN.
From Verif Require Import Base Fourier Ieee.
Open Scope Z_scope.

Record binary_format := mkBF { bprec : Z; bemax : Z; bprec_pos : Prec_gt_0 bprec; bprec_lt : Prec_lt_emax bprec bemax }.
Definition binary32 : binary_format := mkBF 24 128 eq_refl eq_refl.
Definition binary64 : binary_format := mkBF 53 1024 eq_refl eq_refl.
Definition extended80 : binary_format := mkBF 64 16384 eq_refl eq_refl.
Definition binary128 : binary_format := mkBF 113 16384 eq_refl eq_refl.

Definition number (f : binary_format) : Type := binary_float (bprec f) (bemax f).

(** the number m * 2^e, rounded *)
Definition mk_number (f : binary_format) (m e : Z) : number f :=
  @binary_normalize (bprec f) (bemax f) (bprec_pos f) (bprec_lt f) mode_NE m e false.

(** conversion from one type to another *)
Definition convert (f g : binary_format) (x : number f) : number g :=
  match x with
  | B754_zero s => B754_zero s
  | B754_infinity s => B754_infinity s
  | B754_nan => B754_nan
  | B754_finite s m e _ => @binary_normalize (bprec g) (bemax g) (bprec_pos g) (bprec_lt g) mode_NE (cond_Zopp s (Zpos m)) e s
  end.

Section At.
Variable f : binary_format.
Definition add_at : number f -> number f -> number f := @Bplus (bprec f) (bemax f) (bprec_pos f) (bprec_lt f) mode_NE.
Definition sub_at : number f -> number f -> number f := @Bminus (bprec f) (bemax f) (bprec_pos f) (bprec_lt f) mode_NE.
Definition mul_at : number f -> number f -> number f := @Bmult (bprec f) (bemax f) (bprec_pos f) (bprec_lt f) mode_NE.
Definition div_at : number f -> number f -> number f := @Bdiv (bprec f) (bemax f) (bprec_pos f) (bprec_lt f) mode_NE.
Definition fma_at : number f -> number f -> number f -> number f := @Bfma (bprec f) (bemax f) (bprec_pos f) (bprec_lt f) mode_NE.

(** as Ieee.evaluation, det64 and dot64 *)
Record evaluation_at := mkEvaluationAt {
  fusing_of : site -> fusing * fusing;
  recovery_of : site -> number f -> number f -> number f -> number f -> number f * number f
}.
Definition det_at (u : fusing) (a b c d : number f) : number f :=
  match u with
  | Separate => sub_at (mul_at a b) (mul_at c d)
  | FuseFirst => fma_at a b (Bopp (mul_at c d))
  | FuseSecond => fma_at (Bopp c) d (mul_at a b)
  end.
Definition dot_at (u : fusing) (a b c d : number f) : number f :=
  match u with
  | Separate => add_at (mul_at a b) (mul_at c d)
  | FuseFirst => fma_at a b (mul_at c d)
  | FuseSecond => fma_at c d (mul_at a b)
  end.
End At.

(** the type of an operation between a double and an flt_t *)
Definition wider (f : binary_format) : binary_format := if bprec f <? 53 then binary64 else f.

(** fourier_impl.h:42: the literal has no suffix, so that it is a double first *)
Definition pi_at (f : binary_format) : number f := convert binary64 f pi_double.

(** fourier_impl.h:76: the length, converted to flt_t and back to std::size_t *)
Definition length_at (f : binary_format) (len : nat) : Z := Btrunc (mk_number f (Z.of_nat len) 0).

(** fourier_impl.h:79, 80: kf is an flt_t; the literal -2.0 is a double, so that the angle is computed in double if flt_t is float;
    nf is a std::size_t *)
Definition angle_at (f : binary_format) (len k : nat) : number f :=
  let g := wider f in
  convert g f (angle_of (mul_at g) (div_at g) (convert binary64 g (mk_double (-2) 0)) (convert f g (mk_number f (Z.of_nat k) 0))
                 (convert f g (pi_at f)) (mk_number g (length_at f len) 0)).

Definition flops_at (f : binary_format) (ct : evaluation_at f) (cosf sinf : number f -> number f) : flops := {|
  F := number f;
  fofZ := fun z => mk_number f z 0;
  fadd := add_at f;
  fsub := sub_at f;
  fmul := mul_at f;
  fdiv := div_at f;
  fdet := fun s => det_at f (fst (fusing_of f ct s));
  fdot := fun s => dot_at f (snd (fusing_of f ct s));
  fnan := @is_nan (bprec f) (bemax f);
  frecover := recovery_of f ct;
  fneg := @Bopp (bprec f) (bemax f);
  fcos := cosf;
  fsin := sinf;
  ffloor := @Bnearbyint (bprec f) (bemax f) (bprec_lt f) mode_DN;
  ftrunc := fun x => match x with B754_nan | B754_infinity _ => None | _ => Some (Btrunc x) end;
  fangle := angle_at f;
  c_half := mk_number f 1 (-1);
  c_quarter := mk_number f 1 (-2)   (* flt_t{0.25}, line 166 *)
|}.

(** on [-4, 4] the computed cosine and sine are finite and within e of the true ones *)
Definition accurate_at (f : binary_format) (e : R) (cosf sinf : number f -> number f) : Prop :=
  forall x, is_finite x = true -> (Rabs (B2R x) <= 4)%R ->
    (is_finite (cosf x) = true /\ Rabs (B2R (cosf x) - cos (B2R x)) <= e)%R /\
    (is_finite (sinf x) = true /\ Rabs (B2R (sinf x) - sin (B2R x)) <= e)%R.

(** the number nearest to a real number *)
Definition nearest_at (f : binary_format) (r : R) : number f :=
  let fexp := FLT_exp (3 - bemax f - bprec f) (bprec f) in
  let s := round radix2 fexp ZnearestE r in
  mk_number f (Ztrunc (scaled_mantissa radix2 fexp s)) (cexp radix2 fexp s).
