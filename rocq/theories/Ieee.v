(** * IEEE 754 binary64 as floating-point operations for the model (definitions only)

    The arithmetic is Flocq's formalisation of binary64, rounding to nearest, ties to even (the C++ default).
    NaN payloads are not distinguished.  std::cos and std::sin are parameters, and so is the compiler's way of evaluating
    complex products. *)
From Coq Require Import ZArith Reals.
From Flocq Require Import Core IEEE754.BinarySingleNaN.
From Verif Require Import Base Fourier.
Open Scope Z_scope.

Definition prec64 : Prec_gt_0 53 := eq_refl.
Definition emax64 : Prec_lt_emax 53 1024 := eq_refl.
Definition double := binary_float 53 1024.

(** the double m * 2^e, rounded *)
Definition mk_double (m e : Z) : double := @binary_normalize 53 1024 prec64 emax64 mode_NE m e false.

(** the constant 3.1415926535897932384626433832795 of fourier_impl.h:42, 0x1.921fb54442d18p+1 *)
Definition pi_double : double := mk_double 884279719003555 (-48).

(** integer part used by a conversion to an integer type *)
Definition trunc64 (x : double) : option Z :=
  match x with B754_nan | B754_infinity _ => None | _ => Some (Btrunc x) end.

(** How a*b - c*d and a*b + c*d are evaluated: with a rounding after every operation, or with the first or
    the second product fused into the subtraction or addition (GCC's -ffp-contract=fast, its default, where the
    processor has the instruction). *)
Inductive fusing := Separate | FuseFirst | FuseSecond.

(** How complex products are evaluated in each place: the choice for the real and for the imaginary part, and what the
    run-time library makes of the operands if both parts come out NaN. *)
Record evaluation := mkEvaluation {
  fusing_at : site -> fusing * fusing;
  recovery : site -> double -> double -> double -> double -> double * double
}.
Definition unfused : evaluation := mkEvaluation (fun _ => (Separate, Separate)) (fun _ _ _ _ _ => (B754_nan, B754_nan)).

Definition det64 (u : fusing) (a b c d : double) : double :=
  match u with
  | Separate => @Bminus 53 1024 prec64 emax64 mode_NE (@Bmult 53 1024 prec64 emax64 mode_NE a b) (@Bmult 53 1024 prec64 emax64 mode_NE c d)
  | FuseFirst => @Bfma 53 1024 prec64 emax64 mode_NE a b (Bopp (@Bmult 53 1024 prec64 emax64 mode_NE c d))
  | FuseSecond => @Bfma 53 1024 prec64 emax64 mode_NE (Bopp c) d (@Bmult 53 1024 prec64 emax64 mode_NE a b)
  end.
Definition dot64 (u : fusing) (a b c d : double) : double :=
  match u with
  | Separate => @Bplus 53 1024 prec64 emax64 mode_NE (@Bmult 53 1024 prec64 emax64 mode_NE a b) (@Bmult 53 1024 prec64 emax64 mode_NE c d)
  | FuseFirst => @Bfma 53 1024 prec64 emax64 mode_NE a b (@Bmult 53 1024 prec64 emax64 mode_NE c d)
  | FuseSecond => @Bfma 53 1024 prec64 emax64 mode_NE c d (@Bmult 53 1024 prec64 emax64 mode_NE a b)
  end.

Definition ieee (ct : evaluation) (cosf sinf : double -> double) : flops := {|
  F := double;
  fofZ := fun z => mk_double z 0;
  fadd := @Bplus 53 1024 prec64 emax64 mode_NE;
  fsub := @Bminus 53 1024 prec64 emax64 mode_NE;
  fmul := @Bmult 53 1024 prec64 emax64 mode_NE;
  fdiv := @Bdiv 53 1024 prec64 emax64 mode_NE;
  fdet := fun s => det64 (fst (fusing_at ct s));
  fdot := fun s => dot64 (snd (fusing_at ct s));
  fnan := @is_nan 53 1024;
  frecover := recovery ct;
  fneg := @Bopp 53 1024;
  fcos := cosf;
  fsin := sinf;
  ffloor := @Bnearbyint 53 1024 emax64 mode_DN;
  ftrunc := trunc64;
  fangle := fun len k => angle_of (@Bmult 53 1024 prec64 emax64 mode_NE) (@Bdiv 53 1024 prec64 emax64 mode_NE)
                           (mk_double (-2) 0) (mk_double (Z.of_nat k) 0) pi_double (mk_double (Z.of_nat len) 0);
  c_half := mk_double 1 (-1);
  c_quarter := mk_double 1 (-2)
|}.

(** A mathematical library: on [-4, 4] the computed cosine and sine are finite and within 2^-52 of the true
    ones (one unit in the last place of numbers in [1, 2); two of numbers in [1/2, 1)). *)
Definition accurate (cosf sinf : double -> double) : Prop :=
  forall x, is_finite x = true -> (Rabs (B2R x) <= 4)%R ->
    (is_finite (cosf x) = true /\ Rabs (B2R (cosf x) - cos (B2R x)) <= / 4503599627370496)%R /\
    (is_finite (sinf x) = true /\ Rabs (B2R (sinf x) - sin (B2R x)) <= / 4503599627370496)%R.

(** the double nearest to a real number *)
Definition nearest (r : R) : double :=
  let fexp := FLT_exp (-1074) 53 in
  let s := round radix2 fexp ZnearestE r in
  mk_double (Ztrunc (scaled_mantissa radix2 fexp s)) (cexp radix2 fexp s).

(** One such library: correctly rounded, with cos(0) = 1 and sin(+-0) = +-0 as C requires. *)
Definition libm_cos (x : double) : double :=
  match x with B754_zero _ => mk_double 1 0 | _ => nearest (cos (B2R x)) end.
Definition libm_sin (x : double) : double :=
  match x with B754_zero _ => x | _ => nearest (sin (B2R x)) end.
