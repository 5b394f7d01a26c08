(** * Floating-point environments (model)

    Ieee.v has the arithmetic of a program that leaves the floating-point environment alone.  Here the environment is an
    argument: the rounding direction (std::fesetround) and the two modes of the processor in which subnormal numbers, those
    below 2^-1022, are replaced by zeros (the bits FTZ and DAZ of MXCSR; a program linked with -ffast-math starts with both
    set).  The transforms (include/bignum/impl/fourier_impl.h:41-170) and the digits made from them
    (include/bignum/impl/bn_multiplication_impl.h:16-61) do all their arithmetic in the environment of the caller; nothing
    in /repo sets or saves it. *)
From Coq Require Import ZArith Reals.
From Flocq Require Import Core IEEE754.BinarySingleNaN.
From Verif Require Import Base Fourier Ieee Limits Bignum Machine While.
Open Scope Z_scope.

Record fenvironment := mkFenv {
  direction : mode;         (* to nearest, towards zero, down, up (and to nearest with ties away from zero) *)
  flush_results : bool;     (* subnormal results become zeros *)
  flush_operands : bool     (* subnormal operands are taken as zeros *)
}.
Definition default_fenv : fenvironment := mkFenv mode_NE false false.

(** a finite double is subnormal if its significand does not have all its 53 bits *)
Definition subnormal (x : double) : bool := match x with B754_finite _ m _ _ => Zpos m <? 2 ^ 52 | _ => false end.
Definition flushed (on : bool) (x : double) : double :=
  if on then match x with B754_finite s m _ _ => if Zpos m <? 2 ^ 52 then B754_zero s else x | _ => x end else x.

Section Environment.
Context (E : fenvironment).

Definition result_of (x : double) : double := flushed (flush_results E) x.
Definition operand_of (x : double) : double := flushed (flush_operands E) x.

Definition add_in (x y : double) : double := result_of (@Bplus 53 1024 prec64 emax64 (direction E) (operand_of x) (operand_of y)).
Definition sub_in (x y : double) : double := result_of (@Bminus 53 1024 prec64 emax64 (direction E) (operand_of x) (operand_of y)).
Definition mul_in (x y : double) : double := result_of (@Bmult 53 1024 prec64 emax64 (direction E) (operand_of x) (operand_of y)).
Definition div_in (x y : double) : double := result_of (@Bdiv 53 1024 prec64 emax64 (direction E) (operand_of x) (operand_of y)).
Definition fma_in (x y z : double) : double :=
  result_of (@Bfma 53 1024 prec64 emax64 (direction E) (operand_of x) (operand_of y) (operand_of z)).

(** as [det64] and [dot64] *)
Definition det_in (u : fusing) (a b c d : double) : double :=
  match u with
  | Separate => sub_in (mul_in a b) (mul_in c d)
  | FuseFirst => fma_in a b (Bopp (mul_in c d))
  | FuseSecond => fma_in (Bopp c) d (mul_in a b)
  end.
Definition dot_in (u : fusing) (a b c d : double) : double :=
  match u with
  | Separate => add_in (mul_in a b) (mul_in c d)
  | FuseFirst => fma_in a b (mul_in c d)
  | FuseSecond => fma_in c d (mul_in a b)
  end.

(** As [ieee].  The constants are made by the compiler, which rounds to nearest; a change of sign is not an operation of the
    arithmetic; std::floor rounds down in every environment.  Simplified: std::floor and
    the conversion to an integer take a subnormal operand as the other operations do. *)
Definition ieee_in (ct : evaluation) (cosf sinf : double -> double) : flops := {|
  F := double;
  fofZ := fun z => @binary_normalize 53 1024 prec64 emax64 (direction E) z 0 false;
  fadd := add_in;
  fsub := sub_in;
  fmul := mul_in;
  fdiv := div_in;
  fdet := fun s => det_in (fst (fusing_at ct s));
  fdot := fun s => dot_in (snd (fusing_at ct s));
  fnan := @is_nan 53 1024;
  frecover := recovery ct;
  fneg := @Bopp 53 1024;
  fcos := cosf;
  fsin := sinf;
  ffloor := fun x => @Bnearbyint 53 1024 emax64 mode_DN (operand_of x);
  ftrunc := fun x => trunc64 (operand_of x);
  fangle := fun len k => 
    angle_of mul_in div_in (mk_double (-2) 0) (@binary_normalize 53 1024 prec64 emax64 (direction E) (Z.of_nat k) 0 false)
      pi_double (@binary_normalize 53 1024 prec64 emax64 (direction E) (Z.of_nat len) 0 false);
  c_half := mk_double 1 (-1);
  c_quarter := mk_double 1 (-2)
|}.
End Environment.

(** A program that changes the environment: its parts, each with the environment it runs in, one after the other.  [library E]
    are the cosine and the sine as they are computed in environment E. *)
Definition phase := (fenvironment * stmt)%type.
Fixpoint run_phases (L : limits) (ct : evaluation) (library : fenvironment -> (double -> double) * (double -> double))
  (fuel : nat) (keep : bool) (k : nat) (l : list phase) (s : regs) : M regs :=
  match l with
  | nil => ret s
  | cons (E, p) r =>
    s1 <- srun (mkEnv L false (ieee_in E ct (fst (library E)) (snd (library E))) fuel keep) k p s ;;
    run_phases L ct library fuel keep k r s1
  end.
