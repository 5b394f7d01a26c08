(** * Exact real arithmetic as floating-point operations for the model (definitions only)

    With these operations the functions of Fourier.v and Multiplication.v compute what they would compute if
    [double] held every real number and std::cos, std::sin and the constant pi were exact. *)
From Coq Require Import ZArith Reals.
From Flocq Require Import Core.Raux.
From Verif Require Import Base Fourier.
Open Scope R_scope.

Definition exact : flops := {|
  F := R;
  fofZ := IZR;
  fadd := Rplus; fsub := Rminus; fmul := Rmult; fdiv := Rdiv;
  fdet := fun _ a b c d => a * b - c * d; fdot := fun _ a b c d => a * b + c * d;
  fnan := fun _ => false; frecover := fun _ a b _ _ => (a, b);   (* not used: every product is a number *)
  fneg := Ropp;
  fcos := cos; fsin := sin;
  ffloor := fun x => IZR (Zfloor x);
  ftrunc := fun x => Some (Ztrunc x);
  fangle := fun len k => angle_of Rmult Rdiv (-2) (IZR (Z.of_nat k)) PI (IZR (Z.of_nat len));
  c_half := / 2;
  c_quarter := / 4
|}.
