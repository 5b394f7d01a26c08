(** * Finite sums and norms of real and complex sequences (mathematics only, no code) *)
From Coq Require Import Reals Lra List Arith Lia Psatz.
From Coquelicot Require Import Complex.
From Verif Require Import Dft.
Import ListNotations.
Open Scope R_scope.
Arguments Cmod _%C_scope.
Arguments Cmod_ge_0 _%C_scope.

Fixpoint rsum (n : nat) (f : nat -> R) : R :=
  match n with O => 0 | S m => f O + rsum m (fun i => f (S i)) end.

(** Euclidean norm of f 0 ... f (n-1) *)
Definition nrm (n : nat) (f : nat -> R) : R := sqrt (rsum n (fun i => f i * f i)).

Lemma rsum_ext n f g : (forall i, (i < n)%nat -> f i = g i) -> rsum n f = rsum n g.
Proof.
  revert f g. induction n as [|n IH]; intros f g H; [reflexivity|]. cbn [rsum]. rewrite H by lia. f_equal.
  apply IH. intros i Hi. apply H. lia.
Qed.

Lemma rsum_le n f g : (forall i, (i < n)%nat -> f i <= g i) -> rsum n f <= rsum n g.
Proof.
  revert f g. induction n as [|n IH]; intros f g H; [cbn; lra|]. cbn [rsum]. pose proof (H O ltac:(lia)).
  specialize (IH (fun i => f (S i)) (fun i => g (S i)) ltac:(intros; apply H; lia)). lra.
Qed.

Lemma rsum_nonneg n f : (forall i, (i < n)%nat -> 0 <= f i) -> 0 <= rsum n f.
Proof.
  revert f. induction n as [|n IH]; intros f H; [cbn; lra|]. cbn [rsum]. pose proof (H O ltac:(lia)).
  specialize (IH (fun i => f (S i)) ltac:(intros; apply H; lia)). lra.
Qed.

Lemma rsum_scale n c f : rsum n (fun i => c * f i) = c * rsum n f.
Proof. revert f. induction n as [|n IH]; intros f; cbn [rsum]; [ring|]. rewrite (IH (fun i => f (S i))). ring. Qed.

Lemma rsum_add n f g : rsum n (fun i => f i + g i) = rsum n f + rsum n g.
Proof. revert f g. induction n as [|n IH]; intros f g; cbn [rsum]; [ring|]. rewrite (IH (fun i => f (S i)) (fun i => g (S i))). ring. Qed.

Lemma rsum_const n c : rsum n (fun _ => c) = INR n * c.
Proof. induction n as [|n IH]; [cbn; ring|]. cbn [rsum]. rewrite IH, S_INR. ring. Qed.

Lemma rsum_app m n f : rsum (m + n) f = rsum m f + rsum n (fun i => f (m + i)%nat).
Proof. revert f. induction m as [|m IH]; intros f; cbn [rsum Nat.add]; [rewrite Rplus_0_l; reflexivity|]. rewrite (IH (fun i => f (S i))). cbn [Nat.add]. ring. Qed.

Lemma rsum_even_odd h f : rsum (2 * h) f = rsum h (fun i => f (2 * i)%nat) + rsum h (fun i => f (2 * i + 1)%nat).
Proof.
  revert f. induction h as [|h IH]; intros f; [cbn; ring|].
  replace (2 * S h)%nat with (S (S (2 * h))) by lia. cbn [rsum]. rewrite IH.
  rewrite (rsum_ext h (fun i => f (S (S (2 * i)))) (fun i => f (2 * S i)%nat)) by (intros; f_equal; lia).
  rewrite (rsum_ext h (fun i => f (S (S (2 * i + 1)))) (fun i => f (2 * S i + 1)%nat)) by (intros; f_equal; lia).
  replace (2 * 0)%nat with 0%nat by lia. replace (2 * 0 + 1)%nat with 1%nat by lia. cbn [Nat.add]. ring.
Qed.

Lemma rsum_term n f i : (i < n)%nat -> (forall j, (j < n)%nat -> 0 <= f j) -> f i <= rsum n f.
Proof.
  revert f i. induction n as [|n IH]; intros f i Hi H; [lia|]. cbn [rsum]. destruct i as [|i].
  - pose proof (rsum_nonneg n (fun i => f (S i)) ltac:(intros; apply H; lia)). lra.
  - pose proof (IH (fun i => f (S i)) i ltac:(lia) ltac:(intros; apply H; lia)). pose proof (H O ltac:(lia)). lra.
Qed.

(** a sum over all residues does not depend on the direction *)
Lemma rsum_last n f : rsum (S n) f = rsum n f + f n.
Proof.
  revert f. induction n as [|n IH]; intros f; [cbn; ring|].
  change (rsum (S (S n)) f) with (f O + rsum (S n) (fun i => f (S i))). rewrite IH. cbn [rsum]. ring.
Qed.

Lemma rsum_rev n f : rsum n f = rsum n (fun i => f (n - 1 - i)%nat).
Proof.
  revert f. induction n as [|n IH]; intros f; [reflexivity|]. rewrite rsum_last. cbn [rsum].
  replace (S n - 1 - 0)%nat with n by lia. rewrite (IH f). rewrite Rplus_comm. f_equal.
  apply rsum_ext. intros i Hi. f_equal. lia.
Qed.

Lemma rsum_negated n f : (0 < n)%nat -> rsum n (fun k => f ((n - k) mod n)%nat) = rsum n f.
Proof.
  destruct n as [|n]; intros Hn; [lia|]. cbn [rsum]. rewrite Nat.sub_0_r, Nat.mod_same by lia. f_equal.
  rewrite (rsum_rev n (fun i => f (S i))). apply rsum_ext. intros i Hi. f_equal. rewrite Nat.mod_small by lia. lia.
Qed.

(** ** The norm *)
Lemma sq_nonneg_sum n (f : nat -> R) : 0 <= rsum n (fun i => f i * f i).
Proof. apply rsum_nonneg. intros. nra. Qed.

Lemma nrm_nonneg n f : 0 <= nrm n f.
Proof. apply sqrt_pos. Qed.

Lemma nrm_sq n f : nrm n f * nrm n f = rsum n (fun i => f i * f i).
Proof. apply sqrt_sqrt, sq_nonneg_sum. Qed.

Lemma nrm_ext n f g : (forall i, (i < n)%nat -> f i = g i) -> nrm n f = nrm n g.
Proof. intros H. unfold nrm. f_equal. apply rsum_ext. intros i Hi. rewrite H by exact Hi. reflexivity. Qed.

Lemma sq_le a b : 0 <= b -> a * a <= b * b -> a <= b.
Proof. intros Hb H. nra. Qed.

Lemma le_sqrt_sq a b : 0 <= a -> a * a <= b -> a <= sqrt b.
Proof. intros Ha H. rewrite <- (sqrt_square a) by exact Ha. apply sqrt_le_1_alt. exact H. Qed.

Lemma sqrt_le_sq a b : 0 <= b -> a <= b * b -> sqrt a <= b.
Proof. intros Hb H. rewrite <- (sqrt_square b) by exact Hb. apply sqrt_le_1_alt. exact H. Qed.

Lemma nrm_mono n f g : (forall i, (i < n)%nat -> 0 <= f i <= g i) -> nrm n f <= nrm n g.
Proof. intros H. apply sqrt_le_1_alt, rsum_le. intros i Hi. specialize (H i Hi). nra. Qed.

Lemma nrm_scale n c f : 0 <= c -> nrm n (fun i => c * f i) = c * nrm n f.
Proof.
  intros Hc. unfold nrm. rewrite (rsum_ext n _ (fun i => (c * c) * (f i * f i))) by (intros; ring).
  rewrite rsum_scale, sqrt_mult_alt by nra. rewrite sqrt_square by exact Hc. reflexivity.
Qed.

Lemma nrm_const n c : 0 <= c -> nrm n (fun _ => c) = c * sqrt (INR n).
Proof.
  intros Hc. unfold nrm. rewrite rsum_const, Rmult_comm, sqrt_mult_alt by nra. rewrite sqrt_square by exact Hc. reflexivity.
Qed.

Lemma nrm_entry n f i : (i < n)%nat -> 0 <= f i -> f i <= nrm n f.
Proof.
  intros Hi Hf. apply le_sqrt_sq; [exact Hf|]. apply (rsum_term n (fun i => f i * f i)); [exact Hi|]. intros. nra.
Qed.

(** Cauchy-Schwarz *)
Lemma rsum_prod n f g : rsum n (fun i => f i * g i) <= nrm n f * nrm n g.
Proof.
  revert f g. induction n as [|n IH]; intros f g.
  - cbn [rsum]. apply Rmult_le_pos; apply nrm_nonneg.
  - cbn [rsum]. specialize (IH (fun i => f (S i)) (fun i => g (S i))). cbn beta in IH.
    pose proof (nrm_nonneg n (fun i => f (S i))) as H1. pose proof (nrm_nonneg n (fun i => g (S i))) as H2.
    assert (nrm (S n) f = sqrt (f O * f O + nrm n (fun i => f (S i)) * nrm n (fun i => f (S i)))) as ->
      by (rewrite nrm_sq; reflexivity).
    assert (nrm (S n) g = sqrt (g O * g O + nrm n (fun i => g (S i)) * nrm n (fun i => g (S i)))) as ->
      by (rewrite nrm_sq; reflexivity).
    set (a := f O) in *. set (b := g O) in *. set (x := nrm n (fun i => f (S i))) in *. set (y := nrm n (fun i => g (S i))) in *.
    apply Rle_trans with (a * b + x * y); [lra|]. clear IH.
    rewrite <- sqrt_mult_alt by nra. apply Rle_trans with (Rabs (a * b + x * y)); [apply Rle_abs|].
    rewrite <- sqrt_Rsqr_abs. apply sqrt_le_1_alt. unfold Rsqr.
    pose proof (Rle_0_sqr (a * y - b * x)) as Hs. unfold Rsqr in Hs. lra.
Qed.

(** the triangle inequality *)
Lemma nrm_add n f g : nrm n (fun i => f i + g i) <= nrm n f + nrm n g.
Proof.
  pose proof (nrm_nonneg n f) as H1. pose proof (nrm_nonneg n g) as H2.
  apply sqrt_le_sq; [lra|].
  rewrite (rsum_ext n _ (fun i => f i * f i + (2 * (f i * g i) + g i * g i))) by (intros; ring).
  rewrite !rsum_add, rsum_scale, <- !nrm_sq. pose proof (rsum_prod n f g). lra.
Qed.

Lemma nrm_bound2 n f a b : (forall i, (i < n)%nat -> 0 <= f i <= a i + b i) -> nrm n f <= nrm n a + nrm n b.
Proof. intros H. eapply Rle_trans; [apply (nrm_mono n f (fun i => a i + b i)), H|]. apply nrm_add. Qed.

Lemma nrm_bound3 n f a b c : (forall i, (i < n)%nat -> 0 <= f i <= a i + b i + c i) -> nrm n f <= nrm n a + nrm n b + nrm n c.
Proof.
  intros H. eapply Rle_trans; [apply (nrm_bound2 n f (fun i => a i + b i) c), H|].
  pose proof (nrm_add n a b). lra.
Qed.

(** two halves and two interleaved parts: [Cmod (a, b)] is the length of (a, b) *)
Lemma Cmod_pair_sq a b : Cmod (a, b) * Cmod (a, b) = a * a + b * b.
Proof. unfold Cmod. cbn [fst snd]. rewrite sqrt_sqrt by nra. ring. Qed.

Lemma Cmod_pair_pos a b : 0 <= Cmod (a, b).
Proof. apply Cmod_ge_0. Qed.

Lemma Cmod_pair_mono a b c d : 0 <= a <= c -> 0 <= b <= d -> Cmod (a, b) <= Cmod (c, d).
Proof. intros H1 H2. apply sq_le; [apply Cmod_pair_pos|]. rewrite !Cmod_pair_sq. nra. Qed.

Lemma Cmod_pair_add a b c d : Cmod (a + c, b + d) <= Cmod (a, b) + Cmod (c, d).
Proof. exact (Cmod_triangle (a, b) (c, d)). Qed.

Lemma Cmod_pair_scale s a b : 0 <= s -> Cmod (s * a, s * b) = s * Cmod (a, b).
Proof.
  intros Hs. unfold Cmod. cbn [fst snd]. replace ((s * a) ^ 2 + (s * b) ^ 2) with ((s * s) * (a ^ 2 + b ^ 2)) by ring.
  rewrite sqrt_mult_alt by nra. rewrite sqrt_square by exact Hs. reflexivity.
Qed.

Lemma nrm_halves h f : nrm (2 * h) f = Cmod (nrm h f, nrm h (fun i => f (h + i)%nat)).
Proof.
  unfold Cmod. cbn [fst snd]. unfold nrm at 1. f_equal. replace (2 * h)%nat with (h + h)%nat by lia. rewrite rsum_app.
  rewrite <- !nrm_sq. ring.
Qed.

Lemma nrm_even_odd h f : nrm (2 * h) f = Cmod (nrm h (fun i => f (2 * i)%nat), nrm h (fun i => f (2 * i + 1)%nat)).
Proof. unfold Cmod. cbn [fst snd]. unfold nrm at 1. f_equal. rewrite rsum_even_odd, <- !nrm_sq. ring. Qed.

Lemma nrm_pair n f g : nrm n (fun i => Cmod (f i, g i)) = Cmod (nrm n f, nrm n g).
Proof.
  unfold Cmod at 2. cbn [fst snd]. unfold nrm at 1. f_equal.
  rewrite (rsum_ext n _ (fun i => f i * f i + g i * g i)) by (intros; apply Cmod_pair_sq).
  rewrite rsum_add, <- !nrm_sq. ring.
Qed.

Lemma nrm_negated n f : (0 < n)%nat -> nrm n (fun k => f ((n - k) mod n)%nat) = nrm n f.
Proof. intros H. unfold nrm. f_equal. apply (rsum_negated n (fun k => f k * f k)). exact H. Qed.

(** ** Parseval *)
Lemma nth_tab {A} (f : nat -> A) d n k : (k < n)%nat -> nth k (map f (seq 0 n)) d = f k.
Proof.
  intros H. rewrite nth_indep with (d' := f 0%nat) by (rewrite map_length, seq_length; exact H).
  rewrite map_nth, seq_nth by exact H. reflexivity.
Qed.

Lemma parallelogram (x y : C) :
  Cmod (x + y) * Cmod (x + y) + Cmod (x - y) * Cmod (x - y) = 2 * (Cmod x * Cmod x + Cmod y * Cmod y).
Proof.
  destruct x as [a b], y as [c d]. unfold Cminus, Cplus, Copp. cbn [fst snd]. rewrite !Cmod_pair_sq. ring.
Qed.

(** the butterfly multiplies the norm by the square root of two *)
Lemma nrm_butterfly h (e o : nat -> C) (w : nat -> C) (f : nat -> R) : (forall k, (k < h)%nat -> Cmod (w k) = 1) ->
  (forall k, (k < h)%nat -> f k = Cmod (e k + w k * o k)%C) -> (forall k, (k < h)%nat -> f (h + k)%nat = Cmod (e k - w k * o k)%C) ->
  nrm (2 * h) f = sqrt 2 * Cmod (nrm h (fun k => Cmod (e k)), nrm h (fun k => Cmod (o k))).
Proof.
  intros Hw H1 H2. rewrite nrm_halves. unfold Cmod at 1 2. cbn [fst snd]. rewrite <- sqrt_mult_alt by lra. f_equal.
  assert (forall x, x ^ 2 = x * x) as E by (intros; ring). rewrite !E, !nrm_sq, <- !rsum_add, <- rsum_scale.
  apply rsum_ext. intros k Hk. rewrite H1, H2 by exact Hk. rewrite parallelogram, Cmod_mult, Hw by exact Hk. ring.
Qed.

Lemma dft_parseval : forall l (x : list C), length x = (2 ^ l)%nat ->
  nrm (2 ^ l) (fun k => Cmod (dft x k)) = sqrt (INR (2 ^ l)) * nrm (2 ^ l) (fun k => Cmod (nth k x (RtoC 0))).
Proof.
  induction l as [|l IH]; intros x Lx.
  - cbn [Nat.pow] in *. cbn [INR]. rewrite sqrt_1, Rmult_1_l. apply nrm_ext. intros i Hi. assert (i = 0)%nat as -> by lia.
    unfold dft. rewrite Lx. cbn [csum]. rewrite Nat.mul_0_l, omega_0. f_equal. ring.
  - assert (0 < 2 ^ l)%nat as Hp by (pose proof (Nat.pow_nonzero 2 l); lia).
    cbn [Nat.pow] in Lx. replace (2 ^ S l)%nat with (2 * 2 ^ l)%nat by reflexivity.
    set (h := (2 ^ l)%nat) in *. replace (h + (h + 0))%nat with (2 * h)%nat in Lx by lia.
    set (e := map (fun j => nth (2 * j) x (RtoC 0)) (seq 0 h)). set (o := map (fun j => nth (2 * j + 1) x (RtoC 0)) (seq 0 h)).
    assert (length e = h /\ length o = h) as [Le Lo] by (unfold e, o; rewrite !map_length, seq_length; auto).
    assert (forall j, (j < h)%nat -> nth j e (RtoC 0) = nth (2 * j) x (RtoC 0)) as Ne.
    { intros j Hj. unfold e. rewrite nth_tab by exact Hj. reflexivity. }
    assert (forall j, (j < h)%nat -> nth j o (RtoC 0) = nth (2 * j + 1) x (RtoC 0)) as No.
    { intros j Hj. unfold o. rewrite nth_tab by exact Hj. reflexivity. }
    rewrite (nrm_butterfly h (dft e) (dft o) (omega (2 * h))).
    + rewrite (IH e Le), (IH o Lo). fold h. rewrite Cmod_pair_scale by apply sqrt_pos. rewrite <- Rmult_assoc, <- sqrt_mult_alt by lra.
      rewrite mult_INR. change (INR 2) with 2. f_equal. rewrite (nrm_even_odd h). f_equal. f_equal; apply nrm_ext; intros i Hi; f_equal; auto.
    + intros. apply Cmod_omega.
    + intros k Hk. rewrite (dft_split x e o h) by auto. reflexivity.
    + intros k Hk. rewrite (dft_split_hi x e o h) by auto. reflexivity.
Qed.

(** the transform of a list is bounded by the sum of the absolute values *)
Lemma csum_rsum n f : Cmod (csum n f) <= rsum n (fun i => Cmod (f i)).
Proof.
  revert f. induction n as [|n IH]; intros f; cbn [csum rsum]; [rewrite Cmod_0; lra|].
  eapply Rle_trans; [apply Cmod_triangle|]. specialize (IH (fun i => f (S i))). cbn beta in IH. lra.
Qed.

Lemma dft_rsum (x : list C) k : Cmod (dft x k) <= rsum (length x) (fun i => Cmod (nth i x (RtoC 0))).
Proof.
  unfold dft. eapply Rle_trans; [apply csum_rsum|]. apply rsum_le. intros i Hi. rewrite Cmod_mult, Cmod_omega. lra.
Qed.
