(** * What is assumed of floating-point arithmetic (specification only)

    [rounding P val fin rnd u Om K] says that the operations [P] behave like correctly rounded arithmetic:
    [val] reads a finite number as a real, [fin] says which numbers are finite, [rnd] rounds a real.
    [u] is the unit roundoff (2^-53 for binary64), [Om] a bound below the overflow threshold, and integers
    of magnitude up to [K] (2^53 for binary64) are represented exactly.

    IEEE binary64 with a mathematical library accurate to one unit in the last place satisfies it (IeeeProof.v
    proves that for round to nearest even); exact real arithmetic satisfies it with u = 0 (ExactProof.v). *)
From Coq Require Import ZArith Reals.
From Flocq Require Import Core.Raux.
From Verif Require Import Base Fourier.
Open Scope R_scope.

(** relative errors hold down to this magnitude *)
Definition tiny : R := / 18446744073709551616.

(** [p] is [a], rounded or not, or rounded in another way that is as accurate *)
Definition maybe_rounded (rnd : R -> R) (u p a : R) : Prop := p = a \/ p = rnd a \/ Rabs (p - a) <= u * (Rabs a + tiny).

Record rounding (P : flops) (val : F P -> R) (fin : F P -> Prop) (rnd : R -> R) (u Om : R) (K : Z) : Prop := {
  r_u : 0 <= u <= / 1048576;
  r_K : IZR K <= Om;
  r_err : forall z, Rabs z <= Om -> Rabs (rnd z - z) <= u * (Rabs z + tiny);
  r_int : forall z, (Z.abs z <= K)%Z -> rnd (IZR z) = IZR z;
  r_ofZ : forall z, (0 <= z <= K)%Z -> fin (fofZ P z) /\ val (fofZ P z) = IZR z;
  r_add : forall x y, fin x -> fin y -> Rabs (val x + val y) <= Om ->
            fin (fadd P x y) /\ val (fadd P x y) = rnd (val x + val y);
  r_sub : forall x y, fin x -> fin y -> Rabs (val x - val y) <= Om ->
            fin (fsub P x y) /\ val (fsub P x y) = rnd (val x - val y);
  r_mul : forall x y, fin x -> fin y -> Rabs (val x * val y) <= Om ->
            fin (fmul P x y) /\ val (fmul P x y) = rnd (val x * val y);
  r_div : forall x y, fin x -> fin y -> val y <> 0 -> Rabs (val x / val y) <= Om ->
            fin (fdiv P x y) /\ val (fdiv P x y) = rnd (val x / val y);
  (* a*b - c*d and a*b + c*d: each product may be exact, rounded, or rounded in another way before the difference or sum is *)
  r_det : forall s a b c d, fin a -> fin b -> fin c -> fin d -> Rabs (val a * val b) <= Om -> Rabs (val c * val d) <= Om ->
            exists p q, maybe_rounded rnd u p (val a * val b) /\ maybe_rounded rnd u q (val c * val d) /\
              (Rabs (p - q) <= Om -> fin (fdet P s a b c d) /\ val (fdet P s a b c d) = rnd (p - q));
  r_dot : forall s a b c d, fin a -> fin b -> fin c -> fin d -> Rabs (val a * val b) <= Om -> Rabs (val c * val d) <= Om ->
            exists p q, maybe_rounded rnd u p (val a * val b) /\ maybe_rounded rnd u q (val c * val d) /\
              (Rabs (p + q) <= Om -> fin (fdot P s a b c d) /\ val (fdot P s a b c d) = rnd (p + q));
  r_nan : forall x, fin x -> fnan P x = false;
  r_neg : forall x, fin x -> fin (fneg P x) /\ val (fneg P x) = - val x;
  (* sine and cosine: absolute error at most 2u on [-4, 4] *)
  r_cos : forall x, fin x -> Rabs (val x) <= 4 -> fin (fcos P x) /\ Rabs (val (fcos P x) - cos (val x)) <= 2 * u;
  r_sin : forall x, fin x -> Rabs (val x) <= 4 -> fin (fsin P x) /\ Rabs (val (fsin P x) - sin (val x)) <= 2 * u;
  r_floor : forall x, fin x -> fin (ffloor P x) /\ val (ffloor P x) = IZR (Zfloor (val x));
  r_trunc : forall x, fin x -> ftrunc P x = Some (Ztrunc (val x));
  (* the angles: absolute error at most 9u *)
  r_angle : forall n k, (2 * k < n)%nat -> (Z.of_nat n <= K)%Z -> 16 * INR n <= Om ->
            fin (fangle P n k) /\ Rabs (val (fangle P n k) - -2 * PI * INR k / INR n) <= 9 * u;
  r_half : fin (c_half P) /\ val (c_half P) = / 2;
  r_quarter : fin (c_quarter P) /\ val (c_quarter P) = / 4
}.
