(** * Properties C20, C21: the transforms in exact arithmetic

    [exact] (Exact.v) runs the model of fourier_impl.h over the real numbers.  [dft_list] (Dft.v) is the
    discrete Fourier transform: entry k is the sum over j of x_j e^(-2 pi i jk/n).  [conv] (Conv.v) is the
    coefficient of the product of two polynomials.  [fuel] bounds the depth of the recursion. *)
From Coq Require Import ZArith Reals Lra Lia List Arith.
From Coquelicot Require Import Complex.
From Verif Require Import Base Spec Conv Fourier Dft Exact ExactProof.
Import ListNotations.
Open Scope R_scope.

(** ** C20 *)
Theorem C20_transform : forall l fuel (x : list C), (l < fuel)%nat -> length x = (2 ^ l)%nat ->
  exists y, fft_complex exact fuel x = Some y /\ length y = length x /\
    forall k, (k < length x)%nat ->
      nth k y (RtoC 0) =
        csum (length x) (fun j => nth j x (RtoC 0) * cis (- 2 * PI * INR (j * k) / INR (length x)))%C.
Proof.
  intros l fuel x Hf Hl. exists (dft_list x). split; [exact (fft_exact l fuel x Hf Hl)|].
  split; [apply dft_list_length|]. intros k Hk. rewrite dft_list_nth by exact Hk. reflexivity.
Qed.
Print Assumptions C20_transform.

(** ifft_complex undoes fft_complex and the other way round *)
Theorem C20_inverse_of_transform : forall l fuel (x : list C), (l < fuel)%nat -> length x = (2 ^ l)%nat ->
  exists y, fft_complex exact fuel x = Some y /\ ifft_complex exact fuel y = Some x.
Proof.
  intros l fuel x Hf Hl. exists (dft_list x). split; [exact (fft_exact l fuel x Hf Hl)|exact (ifft_of_dft l fuel x Hf Hl)].
Qed.
Print Assumptions C20_inverse_of_transform.

Theorem C20_transform_of_inverse : forall l fuel (y : list C), (l < fuel)%nat -> length y = (2 ^ l)%nat ->
  exists x, ifft_complex exact fuel y = Some x /\ fft_complex exact fuel x = Some y.
Proof.
  intros l fuel y Hf Hl. destruct (dft_of_ifft l fuel y Hf Hl) as (x & E & Lx & D). exists x. split; [exact E|].
  rewrite (fft_exact l fuel x Hf) by (etransitivity; [exact Lx|exact Hl]). rewrite D. reflexivity.
Qed.
Print Assumptions C20_transform_of_inverse.

(** [1; 2; 3; 4] meets the hypotheses; entry 0 of its transform is the sum, 10. *)
Example C20_case : let x := [RtoC 1; RtoC 2; RtoC 3; RtoC 4] in length x = (2 ^ 2)%nat /\
  exists y, fft_complex exact 3 x = Some y /\ nth 0 y (RtoC 0) = RtoC 10.
Proof.
  intros x. split; [reflexivity|]. destruct (C20_transform 2 3 x ltac:(lia) eq_refl) as (y & E & _ & H).
  exists y. split; [exact E|]. rewrite H by (cbn; lia). cbn [csum length x nth Nat.mul].
  assert (forall t : R, cis (- 2 * PI * INR 0 / t) = RtoC 1) as Hc.
  { intros t. rewrite <- cis_0. f_equal. cbn. unfold Rdiv. ring. }
  rewrite !Hc. unfold RtoC, Cmult, Cplus. cbn [fst snd]. f_equal; ring.
Qed.

(** The length has to be a power of two, though the comments at fourier_impl.h:44 and 60 speak of padding other
    lengths with zeros.  Of an odd length the last entry is left as it was: the transform of 1, 0, 0 comes out as 1, 1, 0 instead of 1, 1, 1. *)
Definition C20_full_statement : Prop := forall x : list C, x <> [] ->
  exists fuel y, fft_complex exact fuel x = Some y /\
    forall k, (k < length x)%nat ->
      nth k y (RtoC 0) =
        csum (length x) (fun j => nth j x (RtoC 0) * cis (- 2 * PI * INR (j * k) / INR (length x)))%C.
Theorem C20_refuted : ~ C20_full_statement.
Proof.
  intros H. destruct (H [RtoC 1; RtoC 0; RtoC 0]) as (fuel & y & E & V); [discriminate|].
  specialize (V 2%nat ltac:(cbn; lia)). cbn [length csum nth] in V.
  assert (nth 2 y (RtoC 0) = RtoC 0) as N.
  { destruct fuel as [|[|f]]; [discriminate|discriminate|]. cbn in E. injection E as <-. reflexivity. }
  rewrite N in V. cbn [Nat.mul] in V.
  replace (- 2 * PI * INR 0 / INR 3) with 0 in V by (cbn; unfold Rdiv; ring). rewrite cis_0 in V.
  apply (f_equal fst) in V. unfold RtoC, Cmult, Cplus in V. cbn [fst snd] in V. lra.
Qed.
Print Assumptions C20_refuted.

(** Of no entries at all it never returns. *)
Theorem C20_empty : forall P fuel, fft_complex P fuel [] = None /\ ifft_complex P fuel [] = None.
Proof.
  assert (forall P fuel, fft_complex P fuel [] = None) as H.
  { intros P fuel. induction fuel as [|f IH]; [reflexivity|]. cbn. rewrite IH. reflexivity. }
  intros P fuel. split; [apply H|]. unfold ifft_complex. cbn [map]. rewrite H. reflexivity.
Qed.
Print Assumptions C20_empty.

(** ** C21 *)
(** The three steps of mul_strassen before rounding, on any two integer sequences: entry k is exactly the k-th
    coefficient, with imaginary part 0.  2^l is the size chosen by create_fft_table. *)
Theorem C21_convolution : forall fuel (a b : list Z),
  let l := Z.to_nat (Z.log2_up (Z.of_nat (length a + length b))) in
  (0 < length a + length b)%nat -> (Z.of_nat (length a + length b) <= 2 ^ 32)%Z -> (l < fuel)%nat ->
  exists table inverses, convolute_fft exact fuel (create_fft_table exact a b) = Some table /\
    ifft_complex exact fuel table = Some inverses /\ length inverses = (2 ^ l)%nat /\
    forall k, (k < 2 ^ l)%nat -> nth k inverses (0, 0) = (IZR (conv a b k), 0).
Proof.
  intros fuel a b l Hpos Hlen Hf. destruct (coefficients_exact fuel a b Hpos Hlen Hf) as (t & E1 & E2). fold l in E2.
  exists t. eexists. split; [exact E1|]. split; [exact E2|]. split; [rewrite map_length; apply seq_length|].
  intros k Hk. rewrite ConvError.nth_map_seq by exact Hk. reflexivity.
Qed.
Print Assumptions C21_convolution.

(** No coefficient is lost: those beyond the table are 0, and together they give the product of the values. *)
Theorem C21_complete : forall (a b : list Z), let l := Z.to_nat (Z.log2_up (Z.of_nat (length a + length b))) in
  (0 < length a + length b)%nat -> (Z.of_nat (length a + length b) <= 2 ^ 32)%Z ->
  (forall k, (2 ^ l <= k)%nat -> conv a b k = 0%Z) /\
  forall B, value B (map (conv a b) (seq 0 (2 ^ l))) = (value B a * value B b)%Z.
Proof.
  intros a b l Hpos Hlen. destruct (fft_size_log _ _ Hpos Hlen) as (_ & Hle & _). fold l in Hle. split.
  - intros k Hk. apply conv_above. lia.
  - intros B. apply value_conv_n. exact Hle.
Qed.
Print Assumptions C21_complete.

(** 21 * 43: the coefficients are 3, 10, 8 *)
Example C21_case : (0 < length [1; 2]%Z + length [3; 4]%Z)%nat /\
  map (conv [1; 2]%Z [3; 4]%Z) (seq 0 4) = [3; 10; 8; 0]%Z /\ value 10 [3; 10; 8; 0]%Z = (21 * 43)%Z.
Proof. repeat split; cbn; lia. Qed.
