(** * mul_strassen with every request for memory (model)

    Multiplication.v lets one request stand for all the local vectors of mul_strassen.  Here each request is modelled: a
    vector asks once for [reserve(n)] with n > 0, for a copy of a non-empty vector and for a non-empty initialiser list;
    it asks for nothing when its size stays within its capacity, when it is moved, or for [reserve(0)]. *)
From Verif Require Import Base Spec Limits Fourier Multiplication Bignum.

(** a vector of [n] elements is reserved, copied or built *)
Definition obtain (n : nat) : M unit := if (0 <? n)%nat then alloc else ret tt.

Section Detailed.
Context (P : flops).

(** fourier_impl.h:41-86.  Line 49 builds a vector of one element and moves it into x; lines 56 and 57 reserve
    halfLen elements each, so that the push_backs at 63 and 64 stay within the capacity. *)
Fixpoint fft_detailed (fuel : nat) (x : list (cplx P)) : M (list (cplx P)) :=
  match fuel with
  | O => nofuel
  | S f =>
    if (length x =? 1)%nat then obtain 1 ;;; ret x
    else
      let len := length x in
      let half := (len / 2)%nat in
      obtain half ;;;
      obtain half ;;;
      e <- fft_detailed f (evens x) ;;
      o <- fft_detailed f (odds x) ;;
      let r := map (butterfly P len) (combine (seq 0 half) (combine e o)) in
      ret (map fst r ++ map snd r ++ skipn (2 * half) x)
  end.

(** fourier_impl.h:91-103: in place, but for the transform *)
Definition ifft_detailed (fuel : nat) (x : list (cplx P)) : M (list (cplx P)) :=
  y <- fft_detailed fuel (map (cconj P) x) ;;
  ret (map (fun e => cdivr P (cconj P e) (fofZ P (Z.of_nat (length y)))) y).

(** fourier_impl.h:108-142: line 126 reserves the size of the transform *)
Definition create_detailed (a b : list Z) : M (list (cplx P)) :=
  obtain (Z.to_nat (fft_size (length a) (length b))) ;;;
  ret (create_fft_table P a b).

(** fourier_impl.h:147-170: line 151 copies the table *)
Definition convolute_detailed (fuel : nat) (table : list (cplx P)) : M (list (cplx P)) :=
  obtain (length table) ;;;
  tr <- fft_detailed fuel table ;;
  ret (map (convolve_entry P tr) (seq 0 (length table))).

(** bn_multiplication_impl.h:16-61: line 32 reserves the digits of the result *)
Definition mul_detailed (L : limits) (fuel : nat) (a b : list Z) : M (list Z) :=
  t <- create_detailed a b ;;
  table <- convolute_detailed fuel t ;;
  inverses <- ifft_detailed fuel table ;;
  obtain (length inverses) ;;;
  v <- carry_loop L P inverses 0 [] ;;
  z <- count_high_zeros v (length v) ;;
  ret (firstn (length v - z) v).

(** bn_type_impl.h:592-632 with this multiplication (cf. [op_mul_assign]) *)
Definition op_mul_detailed (L : limits) (fuel : nat) (this : bignum) (y : arg) : M assigned :=
  if negb (isComputable (desc this)) then ret (mkBN (adesc this y) [], None)
  else guarded
    (v <- mul_detailed L fuel (data this) (adata this y) ;;
     ret (mkBN (product_desc (desc this) (adesc this y)) v))
    (failed (adesc this y)).

End Detailed.

(** ** What is held at each moment of a multiplication that completes *)

(** a block for so many complex numbers or digits *)
Inductive block := Complexes (n : nat) | Digits (n : nat).
Inductive event := Acquire (b : block) | Release (b : block).

(** fourier_impl.h:41-86 on a vector of length and capacity [len].  Line 49: the new vector's block replaces the old
    one.  Line 86: odds, then evens are destroyed. *)
Fixpoint fft_events (fuel len : nat) : list event :=
  match fuel with
  | O => []
  | S f =>
    if (len =? 1)%nat then [Acquire (Complexes 1); Release (Complexes len)]
    else
      let half := (len / 2)%nat in
      [Acquire (Complexes half); Acquire (Complexes half)] ++ fft_events f half ++ fft_events f half
      ++ [Release (Complexes half); Release (Complexes half)]
  end.

(** bn_multiplication_impl.h:16-61 with fourier_impl.h:126, 151 and 170; [n] is the size of the transform.  At the end
    the block of the result is all that is left. *)
Definition mul_events (fuel n : nat) : list event :=
  [Acquire (Complexes n)]                                              (* fourier_impl.h:126, moved at line 24 *)
  ++ [Acquire (Complexes n)] ++ fft_events fuel n ++ [Release (Complexes n)]  (* line 26: transforms *)
  ++ fft_events fuel n                                                 (* line 27 *)
  ++ [Acquire (Digits n)]                                              (* line 32 *)
  ++ [Release (Complexes n)].                                          (* line 60: fftTable *)

(** so many complex numbers and digits are held; nothing is released that is not held *)
Definition held (s : option (nat * nat)) (e : event) : option (nat * nat) :=
  match s with
  | None => None
  | Some (c, d) =>
    match e with
    | Acquire (Complexes n) => Some (c + n, d)%nat
    | Acquire (Digits n) => Some (c, d + n)%nat
    | Release (Complexes n) => if (n <=? c)%nat then Some (c - n, d)%nat else None
    | Release (Digits n) => if (n <=? d)%nat then Some (c, d - n)%nat else None
    end
  end.

Definition acquisition (e : event) : bool := match e with Acquire _ => true | Release _ => false end.
Definition acquisitions (es : list event) : nat := length (filter acquisition es).
