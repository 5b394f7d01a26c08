(** * The discrete Fourier transform over the complex numbers (mathematics only, no code) *)
From Coq Require Import Reals Lra List Arith Lia ZArith.
From Coquelicot Require Import Complex.
From Verif Require Import Conv.
Import ListNotations.
Open Scope R_scope.
Open Scope C_scope.

(** sum of f 0 ... f (n-1) *)
Fixpoint csum (n : nat) (f : nat -> C) : C :=
  match n with O => 0 | S m => f O + csum m (fun i => f (S i)) end.

(** e^(i t) *)
Definition cis (t : R) : C := (cos t, sin t).

(** e^(-2 pi i j / n) *)
Definition omega (n j : nat) : C := cis (- 2 * PI * INR j / INR n).

(** entry k of the transform of x *)
Definition dft (x : list C) (k : nat) : C := csum (length x) (fun j => nth j x 0 * omega (length x) (j * k)).
Definition dft_list (x : list C) : list C := map (dft x) (seq 0 (length x)).

(** polynomial evaluation *)
Fixpoint peval (w : C) (x : list C) : C := match x with [] => 0 | a :: r => a + w * peval w r end.

Lemma csum_ext n f g : (forall i, (i < n)%nat -> f i = g i) -> csum n f = csum n g.
Proof.
  revert f g. induction n as [|n IH]; intros f g H; [reflexivity|]. cbn [csum]. rewrite H by lia. f_equal.
  apply IH. intros i Hi. apply H. lia.
Qed.

Lemma csum_scale n c f : csum n (fun i => c * f i) = c * csum n f.
Proof. revert f. induction n as [|n IH]; intros f; cbn [csum]; [ring|]. rewrite (IH (fun i => f (S i))). ring. Qed.

Lemma csum_add n f g : csum n (fun i => f i + g i) = csum n f + csum n g.
Proof. revert f g. induction n as [|n IH]; intros f g; cbn [csum]; [ring|]. rewrite (IH (fun i => f (S i)) (fun i => g (S i))). ring. Qed.

Lemma csum_zero n : csum n (fun _ => 0) = 0.
Proof. induction n as [|n IH]; cbn [csum]; [reflexivity|]. rewrite IH. ring. Qed.

Lemma csum_one n : csum n (fun _ => 1) = RtoC (INR n).
Proof.
  induction n as [|n IH]; [reflexivity|]. cbn [csum]. rewrite IH, S_INR. unfold RtoC, Cplus. cbn. f_equal; ring.
Qed.

Lemma csum_last n f : csum (S n) f = csum n f + f n.
Proof.
  revert f. induction n as [|n IH]; intros f; [cbn; ring|].
  change (csum (S (S n)) f) with (f O + csum (S n) (fun i => f (S i))). rewrite IH. cbn [csum]. ring.
Qed.

Lemma csum_swap n m (f : nat -> nat -> C) :
  csum n (fun i => csum m (fun j => f i j)) = csum m (fun j => csum n (fun i => f i j)).
Proof.
  revert f. induction n as [|n IH]; intros f; cbn [csum]; [symmetry; apply csum_zero|].
  rewrite (IH (fun i j => f (S i) j)). rewrite <- csum_add. reflexivity.
Qed.

Lemma csum_single n j c : (j < n)%nat -> csum n (fun i => if (i =? j)%nat then c else 0) = c.
Proof.
  revert j. induction n as [|n IH]; intros j Hj; [lia|]. cbn [csum]. destruct j as [|j].
  - cbn [Nat.eqb]. rewrite csum_zero. ring.
  - cbn [Nat.eqb]. rewrite IH by lia. ring.
Qed.

Lemma csum_even_odd h f :
  csum (2 * h) f = csum h (fun j => f (2 * j)%nat) + csum h (fun j => f (2 * j + 1)%nat).
Proof.
  revert f. induction h as [|h IH]; intros f; [cbn; ring|].
  replace (2 * S h)%nat with (S (S (2 * h))) by lia. cbn [csum]. rewrite (IH (fun i => f (S (S i)))).
  rewrite (csum_ext h (fun j => f (S (S (2 * j)))) (fun j => f (2 * S j)%nat)) by (intros; f_equal; lia).
  rewrite (csum_ext h (fun j => f (S (S (2 * j + 1)))) (fun j => f (2 * S j + 1)%nat)) by (intros; f_equal; lia).
  replace (2 * 0)%nat with 0%nat by lia. replace (0 + 1)%nat with 1%nat by lia. ring.
Qed.

(** ** Roots of unity *)
Lemma cis_add s t : cis (s + t) = cis s * cis t.
Proof. unfold cis, Cmult. cbn [fst snd]. rewrite cos_plus, sin_plus. f_equal. ring. Qed.

Lemma cis_0 : cis 0 = 1.
Proof. unfold cis. rewrite cos_0, sin_0. reflexivity. Qed.

Lemma Cmod_cis t : Cmod (cis t) = 1%R.
Proof.
  unfold Cmod, cis. cbn [fst snd]. pose proof (sin2_cos2 t) as H. unfold Rsqr in H.
  replace (cos t ^ 2 + sin t ^ 2)%R with 1%R by (cbn; lra). apply sqrt_1.
Qed.

Lemma cis_opp t : cis (- t) = Cconj (cis t).
Proof. unfold cis, Cconj. cbn. rewrite cos_neg, sin_neg. reflexivity. Qed.

Lemma cis_2PI k : cis (- 2 * PI * INR k) = 1.
Proof.
  replace (- 2 * PI * INR k)%R with (- (0 + 2 * INR k * PI))%R by ring.
  rewrite cis_opp. unfold cis. rewrite cos_period, sin_period, cos_0, sin_0. unfold Cconj. cbn. unfold RtoC. f_equal. ring.
Qed.

Lemma INR_pos n : (0 < n)%nat -> (0 < INR n)%R.
Proof. intros H. apply lt_0_INR. exact H. Qed.

Lemma omega_add n i j : omega n (i + j) = omega n i * omega n j.
Proof. unfold omega. rewrite <- cis_add. f_equal. rewrite plus_INR. unfold Rdiv. ring. Qed.

Lemma omega_0 n : omega n 0 = 1.
Proof. unfold omega. replace (- 2 * PI * INR 0 / INR n)%R with 0%R; [apply cis_0|]. cbn. unfold Rdiv. ring. Qed.

Lemma omega_full n m : (0 < n)%nat -> omega n (n * m) = 1.
Proof.
  intros H. unfold omega. rewrite <- (cis_2PI m). f_equal. rewrite mult_INR. field. apply Rgt_not_eq, INR_pos, H.
Qed.

Lemma omega_period n j m : (0 < n)%nat -> omega n (j + n * m) = omega n j.
Proof. intros H. rewrite omega_add, omega_full by auto. ring. Qed.

Lemma omega_double n j : (0 < n)%nat -> omega (2 * n) (2 * j) = omega n j.
Proof.
  intros H. unfold omega. f_equal. rewrite !mult_INR. cbn [INR]. field. apply Rgt_not_eq, INR_pos, H.
Qed.

Lemma omega_half n : (0 < n)%nat -> omega (2 * n) n = - (1).
Proof.
  intros H. unfold omega. replace (- 2 * PI * INR n / INR (2 * n))%R with (- PI)%R.
  - unfold cis. rewrite cos_neg, sin_neg, cos_PI, sin_PI. unfold RtoC, Copp. cbn. f_equal.
  - rewrite mult_INR. cbn [INR]. field. apply Rgt_not_eq, INR_pos, H.
Qed.

Lemma omega_mod n j : (0 < n)%nat -> omega n (j mod n) = omega n j.
Proof.
  intros H. rewrite (Nat.div_mod j n) at 2 by lia. rewrite Nat.add_comm. symmetry. apply omega_period. exact H.
Qed.

Lemma Cmod_omega n j : Cmod (omega n j) = 1%R.
Proof. apply Cmod_cis. Qed.

Lemma omega_conj n j : (0 < n)%nat -> (j <= n)%nat -> Cconj (omega n j) = omega n (n - j).
Proof.
  intros H Hj.
  assert (omega n j * omega n (n - j) = 1) as E.
  { rewrite <- omega_add. replace (j + (n - j))%nat with (n * 1)%nat by lia. apply omega_full, H. }
  assert (Cconj (omega n j) * omega n j = 1) as E2.
  { unfold omega. rewrite <- cis_opp, <- cis_add, Rplus_opp_l. apply cis_0. }
  rewrite <- (Cmult_1_r (Cconj (omega n j))), <- E, Cmult_assoc, E2. ring.
Qed.

Lemma cis_neq_1 t : (0 < t < 2 * PI)%R -> cis (- t) <> 1.
Proof.
  intros Ht E. rewrite cis_opp in E. unfold Cconj, cis, RtoC in E. cbn in E. injection E as E _.
  assert (0 < sin (t / 2))%R by (apply sin_gt_0; lra).
  replace t with (2 * (t / 2))%R in E by field. rewrite cos_2a_sin in E. nra.
Qed.

Lemma omega_neq_1 n j : (0 < j < n)%nat -> omega n j <> 1.
Proof.
  intros H. unfold omega. replace (- 2 * PI * INR j / INR n)%R with (- (2 * PI * (INR j / INR n)))%R by (unfold Rdiv; ring).
  apply cis_neq_1. assert (0 < INR n)%R by (apply INR_pos; lia). assert (0 < INR j)%R by (apply INR_pos; lia).
  assert (INR j < INR n)%R by (apply lt_INR; lia). pose proof PI_RGT_0.
  assert (0 < INR j / INR n)%R by (apply Rdiv_lt_0_compat; auto).
  assert (INR j / INR n < 1)%R.
  { apply (Rmult_lt_reg_r (INR n)); auto. unfold Rdiv. rewrite Rmult_assoc, Rinv_l by lra. lra. }
  split; nra.
Qed.

(** orthogonality *)
Lemma omega_sum_1 n j : (0 < j < n)%nat -> csum n (fun k => omega n (k * j)) = 0.
Proof.
  intros H. set (S := csum n (fun k => omega n (k * j))).
  assert (omega n j * S = S) as E.
  { unfold S. rewrite <- csum_scale.
    destruct n as [|m]; [lia|].
    rewrite (csum_ext (Datatypes.S m) _ (fun k => omega (Datatypes.S m) (Datatypes.S k * j))).
    2: { intros i _. rewrite <- omega_add. f_equal. }
    rewrite csum_last. cbn [csum]. rewrite omega_full by lia. cbn [Nat.mul]. rewrite omega_0. ring. }
  assert ((omega n j - 1) * S = 0) as E2 by (unfold Cminus; rewrite Cmult_plus_distr_r, E; ring).
  destruct (Ceq_dec S 0) as [E3|E3]; [exact E3|]. exfalso.
  apply (omega_neq_1 n j H).
  assert (omega n j - 1 = 0) as E4.
  { transitivity ((omega n j - 1) * S * / S); [rewrite <- Cmult_assoc, Cinv_r by auto; ring|rewrite E2; ring]. }
  replace (omega n j) with (omega n j - 1 + 1) by ring. rewrite E4. ring.
Qed.

Lemma omega_sum n j : (j < n)%nat -> csum n (fun k => omega n (k * j)) = if (j =? 0)%nat then RtoC (INR n) else 0.
Proof.
  intros H. destruct (Nat.eqb_spec j 0) as [->|N]; [|apply omega_sum_1; lia].
  rewrite <- csum_one. apply csum_ext. intros i _. rewrite Nat.mul_0_r. apply omega_0.
Qed.

(** ** The transform *)
Lemma dft_period x k m : dft x (k + length x * m) = dft x k.
Proof.
  unfold dft. apply csum_ext. intros j Hj. f_equal.
  replace (j * (k + length x * m))%nat with (j * k + length x * (m * j))%nat by ring. apply omega_period. lia.
Qed.

Lemma dft_mod x k : (0 < length x)%nat -> dft x (k mod length x) = dft x k.
Proof.
  intros H. rewrite (Nat.div_mod k (length x)) at 2 by lia. rewrite Nat.add_comm. symmetry. apply dft_period.
Qed.

Lemma dft_list_nth x k : (k < length x)%nat -> nth k (dft_list x) 0 = dft x k.
Proof.
  intros H. unfold dft_list. rewrite nth_indep with (d' := dft x 0) by (rewrite map_length, seq_length; auto).
  rewrite map_nth, seq_nth by auto. reflexivity.
Qed.

Lemma dft_list_length x : length (dft_list x) = length x.
Proof. unfold dft_list. rewrite map_length, seq_length. reflexivity. Qed.

Lemma dft_peval_gen n k (x : list C) : forall s,
  csum (length x) (fun j => nth j x 0 * omega n ((s + j) * k)) = omega n (s * k) * peval (omega n k) x.
Proof.
  induction x as [|a x IH]; intros s; cbn [length csum nth peval]; [ring|].
  rewrite Nat.add_0_r.
  rewrite (csum_ext _ _ (fun j => nth j x 0 * omega n ((S s + j) * k))) by (intros; f_equal; f_equal; lia).
  rewrite IH. replace (S s * k)%nat with (s * k + k)%nat by ring. rewrite omega_add. ring.
Qed.

Lemma dft_peval x k : dft x k = peval (omega (length x) k) x.
Proof.
  pose proof (dft_peval_gen (length x) k x 0) as H. cbn [Nat.add Nat.mul] in H. rewrite omega_0 in H.
  unfold dft. rewrite H. ring.
Qed.

(** decimation in time; [e] and [o] are the even and odd entries *)
Lemma dft_split (x e o : list C) h k : (0 < h)%nat -> length x = (2 * h)%nat -> length e = h -> length o = h ->
  (forall j, (j < h)%nat -> nth j e 0 = nth (2 * j) x 0) -> (forall j, (j < h)%nat -> nth j o 0 = nth (2 * j + 1) x 0) ->
  dft x k = dft e k + omega (2 * h) k * dft o k.
Proof.
  intros Hh Lx Le Lo Ee Eo. unfold dft. rewrite Lx, Le, Lo, csum_even_odd, <- csum_scale. f_equal.
  - apply csum_ext. intros j Hj. rewrite Ee by auto. f_equal. replace (2 * j * k)%nat with (2 * (j * k))%nat by ring.
    apply omega_double, Hh.
  - apply csum_ext. intros j Hj. rewrite Eo by auto. replace ((2 * j + 1) * k)%nat with (2 * (j * k) + k)%nat by ring.
    rewrite omega_add, omega_double by auto. ring.
Qed.

Lemma dft_split_hi (x e o : list C) h k : (0 < h)%nat -> length x = (2 * h)%nat -> length e = h -> length o = h ->
  (forall j, (j < h)%nat -> nth j e 0 = nth (2 * j) x 0) -> (forall j, (j < h)%nat -> nth j o 0 = nth (2 * j + 1) x 0) ->
  dft x (h + k) = dft e k - omega (2 * h) k * dft o k.
Proof.
  intros Hh Lx Le Lo Ee Eo. rewrite (dft_split x e o h (h + k)) by auto.
  assert (dft e (h + k) = dft e k) as -> by (pose proof (dft_period e k 1) as H; rewrite Le in H; rewrite <- H; f_equal; lia).
  assert (dft o (h + k) = dft o k) as -> by (pose proof (dft_period o k 1) as H; rewrite Lo in H; rewrite <- H; f_equal; lia).
  rewrite omega_add, omega_half by auto. ring.
Qed.

Lemma Cconj_plus a b : Cconj (a + b) = Cconj a + Cconj b.
Proof. destruct a, b; unfold Cconj, Cplus; cbn; f_equal; ring. Qed.
Lemma Cconj_mult a b : Cconj (a * b) = Cconj a * Cconj b.
Proof. destruct a, b; unfold Cconj, Cmult; cbn; f_equal; ring. Qed.
Lemma Cconj_conj a : Cconj (Cconj a) = a.
Proof. destruct a; unfold Cconj; cbn; f_equal; ring. Qed.
Lemma Cconj_R r : Cconj (RtoC r) = RtoC r.
Proof. unfold Cconj, RtoC; cbn; f_equal; ring. Qed.
Lemma Cmod_conj a : Cmod (Cconj a) = Cmod a.
Proof. destruct a; unfold Cmod, Cconj; cbn [fst snd]. f_equal. cbn. ring. Qed.

Lemma Cconj_csum n f : Cconj (csum n f) = csum n (fun i => Cconj (f i)).
Proof. revert f. induction n as [|n IH]; intros f; cbn [csum]; [apply Cconj_R|]. rewrite Cconj_plus, IH. reflexivity. Qed.

Lemma nth_conj (x : list C) j : nth j (map Cconj x) (RtoC 0) = Cconj (nth j x (RtoC 0)).
Proof. rewrite <- (Cconj_R 0) at 1. apply map_nth. Qed.

(** transform of the conjugate = conjugate of the transform at -k *)
Lemma dft_conj x k : (k <= length x)%nat -> dft (map Cconj x) k = Cconj (dft x (length x - k)).
Proof.
  intros Hk. unfold dft. rewrite map_length, Cconj_csum. apply csum_ext. intros j Hj.
  rewrite nth_conj, Cconj_mult. f_equal.
  assert (0 < length x)%nat as Hn by lia.
  assert (omega (length x) (j * k) * omega (length x) (j * (length x - k)) = 1) as E.
  { rewrite <- omega_add. replace (j * k + j * (length x - k))%nat with (length x * j)%nat by nia. apply omega_full, Hn. }
  assert (forall t, Cconj (omega (length x) t) * omega (length x) t = 1) as E2.
  { intros t. unfold omega. rewrite <- cis_opp, <- cis_add, Rplus_opp_l. apply cis_0. }
  rewrite <- (Cmult_1_l (omega (length x) (j * k))), <- (E2 (j * (length x - k))%nat), <- Cmult_assoc.
  rewrite (Cmult_comm (omega _ (j * (length x - k)))), E. ring.
Qed.

(** conj . dft . conj . dft = n *)
Lemma dft_inverse x j : (j < length x)%nat ->
  Cconj (dft (map Cconj (dft_list x)) j) = RtoC (INR (length x)) * nth j x 0.
Proof.
  intros Hj. set (n := length x).
  assert (dft (map Cconj (dft_list x)) j = csum n (fun k => Cconj (dft x k) * omega n (k * j))) as ->.
  { unfold dft at 1. rewrite map_length, dft_list_length. fold n. apply csum_ext. intros k Hk.
    rewrite nth_conj, dft_list_nth by (fold n; auto). reflexivity. }
  rewrite Cconj_csum.
  rewrite (csum_ext n _ (fun k => csum n (fun i => nth i x 0 * (omega n (k * ((i + (n - j)) mod n)))))).
  2: { intros k Hk. rewrite Cconj_mult, Cconj_conj. unfold dft. fold n. rewrite Cmult_comm, <- csum_scale. apply csum_ext.
       intros i Hi. rewrite Cmult_comm, <- Cmult_assoc. f_equal.
       assert (Cconj (omega n (k * j)) = omega n (k * (n - j))) as ->.
       { assert (omega n (k * j) * omega n (k * (n - j)) = 1) as E.
         { rewrite <- omega_add. replace (k * j + k * (n - j))%nat with (n * k)%nat by nia. apply omega_full. lia. }
         assert (Cconj (omega n (k * j)) * omega n (k * j) = 1) as E2.
         { unfold omega. rewrite <- cis_opp, <- cis_add, Rplus_opp_l. apply cis_0. }
         rewrite <- (Cmult_1_r (Cconj (omega n (k * j)))), <- E, Cmult_assoc, E2. ring. }
       rewrite <- omega_add. rewrite <- (omega_mod n (k * ((i + (n - j)) mod n))) by lia.
       rewrite Nat.mul_mod_idemp_r by lia. rewrite omega_mod by lia. f_equal. ring. }
  rewrite csum_swap.
  rewrite (csum_ext n _ (fun i => if (i =? j)%nat then RtoC (INR n) * nth j x 0 else 0)).
  2: { intros i Hi. rewrite csum_scale, omega_sum by (apply Nat.mod_upper_bound; lia).
       destruct (Nat.eqb_spec i j) as [->|N].
       - replace (j + (n - j))%nat with (1 * n)%nat by lia. rewrite Nat.mod_mul by lia. cbn [Nat.eqb]. ring.
       - destruct (Nat.eqb_spec ((i + (n - j)) mod n) 0) as [E|E]; [|ring]. exfalso.
         destruct (Nat.lt_ge_cases i j).
         + rewrite Nat.mod_small in E by lia. lia.
         + replace (i + (n - j))%nat with (i - j + 1 * n)%nat in E by lia. rewrite Nat.mod_add, Nat.mod_small in E by lia. lia. }
  apply csum_single. exact Hj.
Qed.

(** ** Convolution *)
Definition cz (z : Z) : C := RtoC (IZR z).

Lemma cz_add a b : cz (a + b) = cz a + cz b.
Proof. unfold cz. rewrite plus_IZR. unfold RtoC, Cplus; cbn; f_equal; ring. Qed.
Lemma cz_mul a b : cz (a * b) = cz a * cz b.
Proof. unfold cz. rewrite mult_IZR. unfold RtoC, Cmult; cbn; f_equal; ring. Qed.

Lemma peval_add w {A} (f g : A -> C) l : peval w (map (fun k => f k + g k) l) = peval w (map f l) + peval w (map g l).
Proof. induction l as [|x l IH]; cbn [map peval]; [ring|]. rewrite IH. ring. Qed.
Lemma peval_scale w c {A} (f : A -> C) l : peval w (map (fun k => c * f k) l) = c * peval w (map f l).
Proof. induction l as [|x l IH]; cbn [map peval]; [ring|]. rewrite IH. ring. Qed.

(** digits padded with zeros *)
Definition padded (n : nat) (a : list Z) : list C := map (fun k => cz (nth k a 0%Z)) (seq 0 n).

Lemma peval_zero w s n : peval w (map (fun _ : nat => cz 0) (seq s n)) = 0.
Proof. revert s. induction n as [|n IH]; intros s; cbn [seq map peval]; [reflexivity|]. rewrite IH. change (cz 0) with (RtoC 0). ring. Qed.

Lemma padded_cons n x a : padded (S n) (x :: a) = cz x :: padded n a.
Proof. unfold padded. cbn [seq map nth]. f_equal. rewrite <- seq_shift, map_map. reflexivity. Qed.

Lemma peval_padded_nil w n : peval w (padded n []) = 0.
Proof.
  unfold padded. rewrite (map_ext _ (fun _ : nat => cz 0)); [apply peval_zero|]. intros k. destruct k; reflexivity.
Qed.

Lemma peval_padded_more w a : forall n m, (length a <= n)%nat -> (length a <= m)%nat ->
  peval w (padded n a) = peval w (padded m a).
Proof.
  induction a as [|x a IH]; intros n m Hn Hm; [rewrite !peval_padded_nil; reflexivity|].
  destruct n as [|n]; [cbn in Hn; lia|]. destruct m as [|m]; [cbn in Hm; lia|].
  rewrite !padded_cons. cbn [peval length] in *. rewrite (IH n m) by lia. reflexivity.
Qed.

Lemma peval_conv w a b : forall n, (length a + length b <= n)%nat ->
  peval w (map (fun k => cz (conv a b k)) (seq 0 n)) = peval w (padded n a) * peval w (padded n b).
Proof.
  induction a as [|x a IH]; intros n Hn.
  - rewrite peval_padded_nil.
    rewrite (map_ext _ (fun _ : nat => cz 0)); [rewrite peval_zero; ring|]. intros k. rewrite conv_nil_l. reflexivity.
  - destruct n as [|n]; [cbn in Hn; lia|]. cbn [length] in Hn. rewrite padded_cons. cbn [peval].
    assert (peval w (map (fun k => cz (conv (x :: a) b k)) (seq 0 (S n))) =
            cz x * peval w (padded (S n) b) + w * peval w (map (fun k => cz (conv a b k)) (seq 0 n))) as ->.
    { unfold padded. cbn [seq map peval]. rewrite conv_cons_0, cz_mul.
      rewrite <- !seq_shift, !map_map.
      rewrite (map_ext (fun k => cz (conv (x :: a) b (S k))) (fun k => cz x * cz (nth (S k) b 0%Z) + cz (conv a b k))).
      2: { intros k. rewrite conv_cons_S, cz_add, cz_mul. reflexivity. }
      rewrite peval_add, peval_scale. ring. }
    rewrite IH by lia. rewrite (peval_padded_more w b n (S n)) by lia. ring.
Qed.
