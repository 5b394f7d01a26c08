(** * FFT: include/bignum/impl/fourier_impl.h (flt_t is double, bn_multiplication_impl.h:18)

    The code is modelled over an arbitrary record of floating-point operations, so that the same definitions
    are used with exact reals, with abstractly rounded arithmetic and with executable IEEE binary64. *)
From Verif Require Import Base Limits.

(** The three places where a complex product is computed: for x[k] and for x[k+halfLen] in a transform of length len
    (fourier_impl.h:83, 84) and for entry i of the pointwise product (fourier_impl.h:163).  A compiler may evaluate
    a*b - c*d and a*b + c*d with a fused multiply-add, which rounds once instead of twice, and may decide so differently
    in each place and each round of the loop. *)
Inductive site := SumSite (len k : nat) | DifferenceSite (len k : nat) | PointSite (i : nat).

Record flops := mkFlops {
  F : Type;
  fofZ : Z -> F;                  (* conversion of an unsigned integer to double *)
  fadd : F -> F -> F; fsub : F -> F -> F; fmul : F -> F -> F; fdiv : F -> F -> F;
  fdet : site -> F -> F -> F -> F -> F;    (* a*b - c*d, the real part of a complex product *)
  fdot : site -> F -> F -> F -> F -> F;    (* a*b + c*d, its imaginary part *)
  fnan : F -> bool;               (* not a number *)
  frecover : site -> F -> F -> F -> F -> F * F;   (* see [cmul] *)
  fneg : F -> F;
  fcos : F -> F; fsin : F -> F;   (* std::cos, std::sin *)
  ffloor : F -> F;                (* std::floor *)
  ftrunc : F -> option Z;         (* the integer part used by a conversion to an integer type; None: NaN/inf *)
  fangle : nat -> nat -> F;       (* the angle w of lines 76-80 for a length and k, see [angle_of] *)
  c_half : F;                     (* 0.5 *)
  c_quarter : F                   (* 0.25 *)
}.

(** fourier_impl.h:42, 76-80: -2.0 * kf * pi / nf (nf is a size_t, converted by the division).  The literal -2.0 is a double, so that
    the operations are those of double or, if that is wider, of flt_t. *)
Definition angle_of {D : Type} (mul div : D -> D -> D) (m2 kf pi nf : D) : D := div (mul (mul m2 kf) pi) nf.

(** ** isPow2, nextPow2 at type std::size_t (64 bits): fourier_impl.h:14-36 *)

(** fourier_impl.h:14-16: [n && !(n & (n-1))] *)
Definition isPow2 (n : Z) : bool := negb (n =? 0) && (Z.land n (wrap 64 (n - 1)) =? 0).

(** fourier_impl.h:30-34, one line [n |= n >> k] *)
Definition smear (k n : Z) : Z := Z.lor n (Z.shiftr n k).

(** fourier_impl.h:24-36 *)
Definition nextPow2 (n : Z) : Z :=
  if n =? 0 then 0
  else
    let n := wrap 64 (n - 1) in
    let n := smear 1 n in
    let n := smear 2 n in
    let n := smear 4 n in
    let n := smear 8 n in
    let n := smear 16 n in
    wrap 64 (n + 1).

Section Fft.
Context (P : flops).

(** std::complex<double> as a pair.  Multiplication is the textbook formula; if both parts come out NaN, the compiler's
    run-time library computes something else from the operands (C99 Annex G.5.1, __muldc3), here any function. *)
Definition cplx : Type := (F P * F P).
Definition cadd (x y : cplx) : cplx := (fadd P (fst x) (fst y), fadd P (snd x) (snd y)).
Definition csub (x y : cplx) : cplx := (fsub P (fst x) (fst y), fsub P (snd x) (snd y)).
Definition cmul (s : site) (x y : cplx) : cplx :=
  let re := fdet P s (fst x) (fst y) (snd x) (snd y) in
  let im := fdot P s (fst x) (snd y) (snd x) (fst y) in
  if fnan P re && fnan P im then frecover P s (fst x) (snd x) (fst y) (snd y) else (re, im).
Definition cconj (x : cplx) : cplx := (fst x, fneg P (snd x)).
(** complex * real and complex / real act on both parts *)
Definition cscale (x : cplx) (r : F P) : cplx := (fmul P (fst x) r, fmul P (snd x) r).
Definition cdivr (x : cplx) (r : F P) : cplx := (fdiv P (fst x) r, fdiv P (snd x) r).

(** fourier_impl.h:59-69: x[2*i] and x[2*i+1] for i < len/2.  (The else branch at 66-68 is dead:
    i < len/2 implies i < x.size().) *)
Fixpoint evens {A} (x : list A) : list A :=
  match x with a :: _ :: r => a :: evens r | _ => [] end.
Fixpoint odds {A} (x : list A) : list A :=
  match x with _ :: b :: r => b :: odds r | _ => [] end.

(** fourier_impl.h:76-81: wk = {cos w, sin w} *)
Definition twiddle (len k : nat) : cplx :=
  let w := fangle P len k in
  (fcos P w, fsin P w).

(** fourier_impl.h:78-85, one round: (x[k], x[k+halfLen]) *)
Definition butterfly (len : nat) (t : nat * (cplx * cplx)) : cplx * cplx :=
  let (k, eo) := t in
  (cadd (fst eo) (cmul (SumSite len k) (twiddle len k) (snd eo)),
   csub (fst eo) (cmul (DifferenceSite len k) (twiddle len k) (snd eo))).

(** fourier_impl.h:41-86.  [None] = the recursion is deeper than [fuel].  For an odd length the last element
    is not overwritten (lines 78-85 write 2*halfLen elements). *)
Fixpoint fft_complex (fuel : nat) (x : list cplx) : option (list cplx) :=
  match fuel with
  | O => None
  | S f =>
    if (length x =? 1)%nat then Some x
    else
      match fft_complex f (evens x), fft_complex f (odds x) with
      | Some e, Some o =>
        let len := length x in
        let half := (len / 2)%nat in
        let r := map (butterfly len) (combine (seq 0 half) (combine e o)) in
        Some (map fst r ++ map snd r ++ skipn (2 * half) x)
      | _, _ => None
      end
  end.

(** fourier_impl.h:91-103 *)
Definition ifft_complex (fuel : nat) (x : list cplx) : option (list cplx) :=
  match fft_complex fuel (map cconj x) with
  | Some y => Some (map (fun e => cdivr (cconj e) (fofZ P (Z.of_nat (length y)))) y)
  | None => None
  end.

(** fourier_impl.h:119-123 *)
Definition fft_size (aLen bLen : nat) : Z :=
  let size := wrap 64 (Z.of_nat aLen + Z.of_nat bLen) in
  if isPow2 size then size else nextPow2 size.

(** fourier_impl.h:108-142; [nth i a 0] is exactly "aVal = 0; if (i < aLen) aVal = a[i]" *)
Definition create_fft_table (a b : list Z) : list cplx :=
  map (fun i => (fofZ P (nth i a 0), fofZ P (nth i b 0)))
      (seq 0 (Z.to_nat (fft_size (length a) (length b)))).

Definition czero : cplx := (fofZ P 0, fofZ P 0).

(** fourier_impl.h:158: [-i % fftSize] on 64-bit unsigned integers *)
Definition neg_index (i n : nat) : nat := Z.to_nat (wrap 64 (- Z.of_nat i) mod Z.of_nat n).

(** fourier_impl.h:155-169, the value stored in fftTable[i] (the index is below the size because of the %;
    [czero] is never used) *)
Definition convolve_entry (tr : list cplx) (i : nat) : cplx :=
  let ti := nth i tr czero in
  let tc := cconj (nth (neg_index i (length tr)) tr czero) in
  let x1 := cadd ti tc in
  let x2 := csub ti tc in
  let x3 := cmul (PointSite i) x1 x2 in
  cscale (snd x3, fneg P (fst x3)) (c_quarter P).

(** fourier_impl.h:147-170 *)
Definition convolute_fft (fuel : nat) (table : list cplx) : option (list cplx) :=
  match fft_complex fuel table with
  | Some tr => Some (map (convolve_entry tr) (seq 0 (length table)))
  | None => None
  end.

End Fft.
