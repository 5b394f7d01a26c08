(** * Specification of the product of two digit sequences as polynomials *)
From Coq Require Import ZArith List Lia Arith.
From Verif Require Import Spec.
Import ListNotations.
Open Scope Z_scope.

(** sum of the numbers [f i], [i < n] *)
Fixpoint zsum (n : nat) (f : nat -> Z) : Z :=
  match n with O => 0 | S m => f O + zsum m (fun i => f (S i)) end.

(** The coefficient of X^k in the product of the polynomials with coefficients [a] and [b]. *)
Definition conv (a b : list Z) (k : nat) : Z := zsum (S k) (fun j => nth j a 0 * nth (k - j) b 0).

(** All the coefficients that can be non-zero (and the one above them). *)
Definition product_digits (a b : list Z) : list Z := map (conv a b) (seq 0 (length a + length b)).

(** Column [k] of the product together with what lower columns carry into it. *)
Definition column_total (B : Z) (a b : list Z) (k : nat) : Z :=
  conv a b k + value B (map (conv a b) (seq 0 k)) / B ^ Z.of_nat k.

(** The sum of the squares of the entries. *)
Definition sum_squares (a : list Z) : Z := zsum (length a) (fun k => nth k a 0 * nth k a 0).

Lemma zsum_ext n f g : (forall i, (i < n)%nat -> f i = g i) -> zsum n f = zsum n g.
Proof.
  revert f g. induction n as [|n IH]; intros f g H; [reflexivity|]. cbn [zsum]. rewrite H by lia. f_equal.
  apply IH. intros i Hi. apply H. lia.
Qed.

Lemma zsum_zero n f : (forall i, (i < n)%nat -> f i = 0) -> zsum n f = 0.
Proof.
  revert f. induction n as [|n IH]; intros f H; [reflexivity|]. cbn [zsum]. rewrite H by lia. rewrite IH; [reflexivity|].
  intros i Hi. apply H. lia.
Qed.

Lemma zsum_last n f : zsum (S n) f = zsum n f + f n.
Proof.
  revert f. induction n as [|n IH]; intros f; [cbn; ring|].
  change (zsum (S (S n)) f) with (f O + zsum (S n) (fun i => f (S i))). rewrite IH. cbn [zsum]. ring.
Qed.

Lemma zsum_rev n f : zsum n f = zsum n (fun i => f (n - 1 - i)%nat).
Proof.
  revert f. induction n as [|n IH]; intros f; [reflexivity|]. rewrite zsum_last.
  cbn [zsum]. replace (S n - 1 - 0)%nat with n by lia. rewrite IH. rewrite Z.add_comm. f_equal.
  apply zsum_ext. intros i Hi. f_equal. lia.
Qed.

Lemma zsum_le n f g : (forall i, (i < n)%nat -> f i <= g i) -> zsum n f <= zsum n g.
Proof.
  revert f g. induction n as [|n IH]; intros f g H; [cbn; lia|]. cbn [zsum].
  pose proof (H O ltac:(lia)). specialize (IH (fun i => f (S i)) (fun i => g (S i)) ltac:(intros; apply H; lia)). cbn beta in IH. lia.
Qed.

Lemma zsum_const n c : zsum n (fun _ => c) = Z.of_nat n * c.
Proof. induction n as [|n IH]; [reflexivity|]. cbn [zsum]. rewrite IH. lia. Qed.

Lemma conv_nil_l b k : conv [] b k = 0.
Proof. apply zsum_zero. intros i _. destruct i; reflexivity. Qed.

Lemma conv_cons_0 x a b : conv (x :: a) b 0 = x * nth 0 b 0.
Proof. unfold conv. cbn. ring. Qed.

Lemma conv_cons_S x a b k : conv (x :: a) b (S k) = x * nth (S k) b 0 + conv a b k.
Proof. unfold conv. change (S (S k)) with (1 + S k)%nat. cbn [zsum Nat.add nth Nat.sub]. reflexivity. Qed.

Lemma conv_comm a b k : conv a b k = conv b a k.
Proof.
  unfold conv. rewrite zsum_rev. apply zsum_ext. intros i Hi. replace (S k - 1 - i)%nat with (k - i)%nat by lia.
  replace (k - (k - i))%nat with i by lia. ring.
Qed.

Lemma nth_nil k : nth k (@nil Z) 0 = 0.
Proof. destruct k; reflexivity. Qed.

Lemma conv_nil_r a k : conv a [] k = 0.
Proof. rewrite conv_comm. apply conv_nil_l. Qed.

(** value of a sequence given by its entries *)
Lemma value_scale B c l : value B (map (fun x => c * x) l) = c * value B l.
Proof. induction l as [|x l IH]; cbn [map value]; [ring|]. rewrite IH. ring. Qed.

Lemma value_map_add B f g l : value B (map (fun k : nat => f k + g k) l) = value B (map f l) + value B (map g l).
Proof. induction l as [|x l IH]; cbn [map value]; [ring|]. rewrite IH. ring. Qed.

Lemma value_nth B b : forall n, (length b <= n)%nat -> value B (map (fun k => nth k b 0) (seq 0 n)) = value B b.
Proof.
  induction b as [|x b IH]; intros n Hn.
  - clear Hn. generalize 0%nat as s. induction n as [|n IH]; intros s; [reflexivity|]. cbn [seq map value].
    rewrite IH, nth_nil. cbn [value]. ring.
  - destruct n as [|n]; [cbn in Hn; lia|]. cbn [seq map value nth]. rewrite <- seq_shift, map_map. cbn [nth].
    rewrite IH by (cbn in Hn; lia). reflexivity.
Qed.

Lemma value_conv_n B a b : forall n, (length a + length b <= n)%nat ->
  value B (map (conv a b) (seq 0 n)) = value B a * value B b.
Proof.
  induction a as [|x a IH]; intros n Hn.
  - cbn [value]. rewrite Z.mul_0_l. rewrite (map_ext _ (fun _ => 0)) by (intros; apply conv_nil_l).
    generalize (seq 0 n) as l. induction l as [|y l IHl]; [reflexivity|]. cbn [map value]. rewrite IHl. ring.
  - destruct n as [|n]; [cbn in Hn; lia|]. cbn [seq map value]. rewrite <- seq_shift, map_map, conv_cons_0.
    rewrite (map_ext _ (fun k => x * nth (S k) b 0 + conv a b k)) by (intros; apply conv_cons_S).
    rewrite value_map_add, IH by (cbn in Hn; lia).
    pose proof (value_nth B b (S n) ltac:(cbn in Hn; lia)) as E.
    cbn [seq map value] in E. rewrite <- seq_shift, map_map in E.
    rewrite <- (map_map (fun k => nth (S k) b 0) (fun y => x * y)). rewrite value_scale, <- E. ring.
Qed.

(** Evaluating the product polynomial at the base gives the product of the numbers. *)
Theorem value_conv B a b : value B (product_digits a b) = value B a * value B b.
Proof. apply value_conv_n. lia. Qed.

Lemma conv_above a b k : (length a + length b <= S k)%nat -> conv a b k = 0.
Proof.
  intros H. apply zsum_zero. intros j Hj. destruct (Nat.lt_ge_cases j (length a)).
  - rewrite (nth_overflow b) by lia. ring.
  - rewrite (nth_overflow a) by lia. ring.
Qed.

(** Bounds for digit sequences. *)
Lemma digits_nth B a j : 0 < B -> digits_ok B a -> 0 <= nth j a 0 < B.
Proof.
  intros HB H. destruct (Nat.lt_ge_cases j (length a)).
  - unfold digits_ok in H. rewrite Forall_forall in H. apply H. apply nth_In. exact H0.
  - rewrite nth_overflow by lia. lia.
Qed.

Lemma conv_nonneg B a b k : 0 < B -> digits_ok B a -> digits_ok B b -> 0 <= conv a b k.
Proof.
  intros HB Ha Hb. unfold conv.
  transitivity (zsum (S k) (fun _ => 0)); [rewrite zsum_zero; auto; lia|]. apply zsum_le. intros i _. pose proof (digits_nth B a i HB Ha). pose proof (digits_nth B b (k - i) HB Hb). nia.
Qed.

Lemma digit_product B x y : 0 <= x < B -> 0 <= y < B -> 0 <= x * y <= (B - 1) * (B - 1).
Proof. intros Hx Hy. split; [nia|]. apply Z.mul_le_mono_nonneg; lia. Qed.

Lemma conv_le_left B a b k : 0 < B -> digits_ok B a -> digits_ok B b ->
  conv a b k <= Z.of_nat (length a) * ((B - 1) * (B - 1)).
Proof.
  intros HB Ha Hb. revert k. induction a as [|x a IH]; intros k; [rewrite conv_nil_l; cbn; lia|].
  inversion Ha as [|? ? Hx Ha2]; subst. specialize (IH Ha2). cbn [length]. destruct k as [|k].
  - rewrite conv_cons_0. pose proof (digit_product B _ _ Hx (digits_nth B b 0 HB Hb)). nia.
  - rewrite conv_cons_S. specialize (IH k). pose proof (digit_product B _ _ Hx (digits_nth B b (S k) HB Hb)). nia.
Qed.

Lemma conv_le B a b k : 0 < B -> digits_ok B a -> digits_ok B b ->
  conv a b k <= Z.of_nat (Nat.min (length a) (length b)) * ((B - 1) * (B - 1)).
Proof.
  intros HB Ha Hb. destruct (Nat.min_spec (length a) (length b)) as [[_ ->]|[_ ->]].
  - apply conv_le_left; auto.
  - rewrite conv_comm. apply conv_le_left; auto.
Qed.

(** Columns and carries stay below (shorter length) (B-1) B. *)
Lemma carry_lt B a b k : 2 <= B -> digits_ok B a -> digits_ok B b ->
  let m := Z.of_nat (Nat.min (length a) (length b)) in
  0 <= value B (map (conv a b) (seq 0 k)) / B ^ Z.of_nat k <= Z.max 0 (m * (B - 1) - 1).
Proof.
  intros HB Ha Hb m.
  assert (forall s n, 0 <= value B (map (conv a b) (seq s n)) <= m * (B - 1) * (B ^ Z.of_nat n - 1)) as H.
  { intros s n. revert s. induction n as [|n IH]; intros s; [cbn; lia|]. cbn [seq map value].
    specialize (IH (S s)). pose proof (conv_nonneg B a b s ltac:(lia) Ha Hb). pose proof (conv_le B a b s ltac:(lia) Ha Hb) as Hc.
    fold m in Hc. rewrite Nat2Z.inj_succ, Z.pow_succ_r by lia. split; [nia|].
    replace (m * (B - 1) * (B * B ^ Z.of_nat n - 1)) with (m * ((B - 1) * (B - 1)) + B * (m * (B - 1) * (B ^ Z.of_nat n - 1))) by ring. nia. }
  assert (0 < B ^ Z.of_nat k) by (apply Z.pow_pos_nonneg; lia). specialize (H 0%nat k).
  split; [apply Z.div_pos; lia|]. assert (0 <= m * (B - 1)) by (unfold m; nia).
  destruct (Z.eq_dec (m * (B - 1)) 0) as [E|N].
  - rewrite E in H. assert (value B (map (conv a b) (seq 0 k)) = 0) as -> by lia. rewrite Z.div_0_l by lia. lia.
  - rewrite Z.max_r by lia. apply Z.lt_succ_r. apply Z.div_lt_upper_bound; [lia|]. nia.
Qed.

Lemma column_total_lt B a b k : 2 <= B -> digits_ok B a -> digits_ok B b ->
  0 <= column_total B a b k <= Z.max 0 (Z.of_nat (Nat.min (length a) (length b)) * ((B - 1) * B) - 1).
Proof.
  intros HB Ha Hb. unfold column_total. pose proof (carry_lt B a b k HB Ha Hb) as C. cbv zeta in C.
  pose proof (conv_nonneg B a b k ltac:(lia) Ha Hb). pose proof (conv_le B a b k ltac:(lia) Ha Hb).
  set (m := Z.of_nat (Nat.min (length a) (length b))) in *. destruct (Z.eq_dec m 0) as [E|N]; [rewrite E in *; lia|].
  assert (1 <= m * (B - 1)) by nia. nia.
Qed.

(** ... and this is attained: m maximal digits times p > m maximal digits. *)
Lemma conv_maximal B b : forall m k, (m <= S k)%nat -> (forall j, (j <= k)%nat -> nth j b 0 = B - 1) ->
  conv (repeat (B - 1) m) b k = Z.of_nat m * ((B - 1) * (B - 1)).
Proof.
  induction m as [|m IH]; intros k Hk Hb; [apply conv_nil_l|]. cbn [repeat]. destruct k as [|k].
  - assert (m = 0)%nat as -> by lia. rewrite conv_cons_0, Hb by lia. cbn [Z.of_nat]. lia.
  - rewrite conv_cons_S, Hb, IH by (try lia; intros; apply Hb; lia). nia.
Qed.

Lemma value_maximal B b : 2 <= B -> forall k, (forall j, (j < k)%nat -> nth j b 0 = B - 1) ->
  value B (map (fun j => nth j b 0) (seq 0 k)) = B ^ Z.of_nat k - 1.
Proof.
  intros HB k. revert b. induction k as [|k IH]; intros b Hb; [reflexivity|]. cbn [seq map value]. rewrite <- seq_shift, map_map, Hb by lia.
  rewrite (map_ext _ (fun j => nth j (tl b) 0)) by (intros j; destruct b; [destruct j; reflexivity|reflexivity]).
  rewrite IH.
  - rewrite Nat2Z.inj_succ, Z.pow_succ_r by lia. ring.
  - intros j Hj. specialize (Hb (S j) ltac:(lia)). destruct b; [destruct j; exact Hb|exact Hb].
Qed.

Lemma low_columns_maximal B b : 2 <= B -> forall m k, (m <= k)%nat -> (forall j, (j < k)%nat -> nth j b 0 = B - 1) ->
  value B (map (conv (repeat (B - 1) m) b) (seq 0 k)) = Z.of_nat m * (B - 1) * B ^ Z.of_nat k - (B ^ Z.of_nat m - 1).
Proof.
  intros HB. induction m as [|m IH]; intros k Hk Hb.
  - cbn [repeat]. rewrite (map_ext _ (fun _ => 0)) by (intros; apply conv_nil_l).
    assert (forall l : list nat, value B (map (fun _ => 0) l) = 0) as -> by (induction l as [|? l IHl]; cbn [map value]; [|rewrite IHl]; lia).
    cbn. lia.
  - destruct k as [|k]; [lia|]. cbn [repeat seq map value]. rewrite <- seq_shift, map_map, conv_cons_0.
    rewrite (map_ext _ (fun j => (B - 1) * nth (S j) b 0 + conv (repeat (B - 1) m) b j)) by (intros; apply conv_cons_S).
    rewrite value_map_add, IH by (try lia; intros; apply Hb; lia).
    pose proof (value_maximal B b HB (S k) Hb) as E. cbn [seq map value] in E. rewrite <- seq_shift, map_map in E.
    rewrite <- (map_map (fun j => nth (S j) b 0) (fun y => (B - 1) * y)). rewrite value_scale.
    set (V := value B (map (fun j => nth (S j) b 0) (seq 0 k))) in *.
    rewrite !Nat2Z.inj_succ, !Z.pow_succ_r in * by lia. nia.
Qed.

Lemma column_total_maximal B m p : 2 <= B -> (0 < m < p)%nat ->
  column_total B (repeat (B - 1) m) (repeat (B - 1) p) m = Z.of_nat m * ((B - 1) * B) - 1.
Proof.
  intros HB Hm. assert (forall j, (j < p)%nat -> nth j (repeat (B - 1) p) 0 = B - 1) as Hb.
  { intros j Hj. rewrite nth_indep with (d' := B - 1) by (rewrite repeat_length; exact Hj). apply nth_repeat. }
  unfold column_total. rewrite conv_maximal by (try lia; intros; apply Hb; lia).
  rewrite low_columns_maximal by (try lia; intros; apply Hb; lia).
  assert (1 < B ^ Z.of_nat m) by (apply Z.pow_gt_1; lia).
  rewrite <- (Z.div_unique (Z.of_nat m * (B - 1) * B ^ Z.of_nat m - (B ^ Z.of_nat m - 1)) (B ^ Z.of_nat m) (Z.of_nat m * (B - 1) - 1) 1); nia.
Qed.

(** ** Sums of squares *)
Lemma zsum_pad n m f : (n <= m)%nat -> (forall k, (n <= k)%nat -> f k = 0) -> zsum m f = zsum n f.
Proof.
  intros Hn Hf. induction m as [|m IH]; [assert (n = 0)%nat as -> by lia; reflexivity|].
  destruct (Nat.eq_dec n (S m)) as [->|N]; [reflexivity|]. rewrite zsum_last, Hf, IH by lia. lia.
Qed.

Lemma zsum_prefix n m f : (n <= m)%nat -> (forall k, 0 <= f k) -> (zsum n f <= zsum m f).
Proof.
  intros Hn Hf. induction m as [|m IH]; [assert (n = 0)%nat as -> by lia; reflexivity|].
  destruct (Nat.eq_dec n (S m)) as [->|N]; [reflexivity|]. rewrite zsum_last. specialize (IH ltac:(lia)). specialize (Hf m). lia.
Qed.

Lemma sum_squares_pad n a : (length a <= n)%nat -> zsum n (fun k => nth k a 0 * nth k a 0) = sum_squares a.
Proof.
  intros H. apply zsum_pad; [exact H|]. intros k Hk. rewrite nth_overflow by exact Hk. reflexivity.
Qed.

Lemma sum_squares_nonneg a : (0 <= sum_squares a).
Proof.
  unfold sum_squares. rewrite <- (zsum_zero (length a) (fun _ => 0)) by reflexivity. apply zsum_le. intros. nia.
Qed.

Lemma conv_squares a b k : (2 * Z.abs (conv a b k) <= sum_squares a + sum_squares b).
Proof.
  assert (forall (x : list Z), zsum (S k) (fun j => nth j x 0 * nth j x 0) <= sum_squares x) as Hx.
  { intros x. unfold sum_squares. destruct (Nat.le_gt_cases (S k) (length x)).
    - apply zsum_prefix; [assumption|]. intros; nia.
    - rewrite (zsum_pad (length x) (S k)) by (try lia; intros j Hj; rewrite nth_overflow by exact Hj; reflexivity). reflexivity. }
  pose proof (Hx a) as H1. pose proof (Hx b) as H2. rewrite (zsum_rev (S k)) in H2.
  unfold conv. set (f := fun j => (nth j a 0 * nth (k - j) b 0)).
  assert (forall n, (2 * Z.abs (zsum n f) <= zsum n (fun j => nth j a 0 * nth j a 0) + zsum n (fun j => nth (k - j) b 0 * nth (k - j) b 0))) as Hn.
  { induction n as [|n IH]; [cbn; lia|]. rewrite !zsum_last. unfold f at 2.
    set (x := nth n a 0) in *. set (y := nth (k - n) b 0) in *.
    assert (2 * Z.abs (x * y) <= x * x + y * y) by (destruct (Z.abs_spec (x * y)) as [[_ ->]|[_ ->]]; pose proof (Z.square_nonneg (x - y)); pose proof (Z.square_nonneg (x + y)); nia). lia. }
  specialize (Hn (S k)).
  assert (zsum (S k) (fun j => nth (k - j) b 0 * nth (k - j) b 0) = zsum (S k) (fun i => nth (S k - 1 - i) b 0 * nth (S k - 1 - i) b 0)) as E.
  { apply zsum_ext. intros i Hi. replace (S k - 1 - i)%nat with (k - i)%nat by lia. reflexivity. }
  lia.
Qed.

Lemma sum_squares_digit a d : In d a -> d * d <= sum_squares a.
Proof.
  intros H. apply (In_nth _ _ 0) in H. destruct H as (k & Hk & <-).
  pose proof (zsum_prefix (S k) (length a) (fun k => nth k a 0 * nth k a 0) ltac:(lia) ltac:(intros; nia)) as P.
  rewrite zsum_last in P. cbn beta in P. unfold sum_squares.
  pose proof (zsum_prefix 0 k (fun k => nth k a 0 * nth k a 0) ltac:(lia) ltac:(intros; nia)). cbn [zsum] in *. lia.
Qed.

Lemma sum_squares_le B a : 1 <= B -> digits_ok B a -> sum_squares a <= Z.of_nat (length a) * ((B - 1) * (B - 1)).
Proof.
  intros HB Ha. unfold sum_squares. rewrite <- zsum_const. apply zsum_le. intros i _.
  pose proof (digits_nth B a i ltac:(lia) Ha). nia.
Qed.
