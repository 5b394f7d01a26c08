(** * C72: the memory that a multiplication asks for *)
From Verif Require Import Base Spec Limits Ieee Fourier Multiplication Bignum Outcome MulMemory.
From Verif Require Import Conv Exact MulProof MulOpProof IeeeProof Pow2Proof ExactProof BignumProof MulMemoryProof PropMul.

(** the same end with another number of requests *)
Definition with_count {A} (r : res A) (n : nat) : res A :=
  match r with Ret a _ => Ret a n | Throw e _ => Throw e n | Undef u => Undef u | NoFuel => NoFuel end.

(** the size of the transform for so many digits together: the least power of two that is not smaller *)
Definition transform_size (digits : nat) : nat := (2 ^ Z.to_nat (Z.log2_up (Z.of_nat digits)))%nat.

Lemma transform_size_bounds d : (0 < d)%nat -> (d <= transform_size d < 2 * d)%nat.
Proof.
  intros H. unfold transform_size. assert (Z.of_nat (2 ^ Z.to_nat (Z.log2_up (Z.of_nat d))) = 2 ^ Z.log2_up (Z.of_nat d)) as E
    by (rewrite Nat2Z.inj_pow, Z2Nat.id by apply Z.log2_up_nonneg; reflexivity).
  destruct (Nat.eq_dec d 1) as [->|N]; [cbn; lia|].
  destruct (Z.log2_up_spec (Z.of_nat d) ltac:(lia)) as [Lo Hi].
  assert (2 ^ Z.log2_up (Z.of_nat d) = 2 * 2 ^ Z.pred (Z.log2_up (Z.of_nat d))) as E2.
  { rewrite <- Z.pow_succ_r, Z.succ_pred; [reflexivity|]. pose proof (Z.log2_up_pos (Z.of_nat d) ltac:(lia)). lia. }
  lia.
Qed.

(** mul_strassen asks exactly 6 N - 1 times.  If every request is granted it ends as the multiplication that asks once
    does (with the product or with undefined behaviour); at the first refusal it throws std::bad_alloc. *)
Theorem C72_requests : forall P L fuel a b, let digits := (length a + length b)%nat in let N := transform_size digits in
  (0 < digits)%nat -> Z.of_nat digits <= 2 ^ 32 -> Z.log2_up (Z.of_nat digits) < Z.of_nat fuel ->
  (forall al n, granted al n (n + (6 * N - 1)) ->
     mul_detailed P L fuel a b al n = with_count (run (mul_strassen L P fuel a b)) (n + (6 * N - 1))) /\
  (forall al n j, (j < 6 * N - 1)%nat -> granted al n (n + j) -> al (n + j)%nat = false ->
     mul_detailed P L fuel a b al n = Throw ExBadAlloc (S (n + j))) /\
  match run (mul_strassen L P fuel a b) with Ret _ _ | Undef _ => True | Throw _ _ | NoFuel => False end.
Proof.
  intros P L fuel a b digits N Hd Hb Hf. destruct (fft_size_log _ _ Hd Hb) as (Ek & _ & _).
  pose proof (Z.log2_up_nonneg (Z.of_nat digits)).
  destruct (mul_asks P L fuel a b _ Ek ltac:(fold digits; lia)) as (o & A & S).
  assert (run (mul_strassen L P fuel a b) = ending o 1) as E by apply S. rewrite E. repeat split.
  - intros al n G. rewrite (proj1 (A al n) G). destruct o; reflexivity.
  - intros al n j Hj G F. apply (proj2 (A al n) j Hj G F).
  - destruct o; exact I.
Qed.
Print Assumptions C72_requests.

(** x *= y likewise: what it does with one request for all it does with its 6 N - 1 requests *)
Theorem C72_assignment : forall P L fuel x y, let digits := (length (data x) + length (adata x y))%nat in
  let N := transform_size digits in
  finite x -> (0 < digits)%nat -> Z.of_nat digits <= 2 ^ 32 -> Z.log2_up (Z.of_nat digits) < Z.of_nat fuel ->
  (forall al n, granted al n (n + (6 * N - 1)) ->
     op_mul_detailed P L fuel x y al n = with_count (run (op_mul_assign L P fuel x y)) (n + (6 * N - 1))) /\
  (forall al n j, (j < 6 * N - 1)%nat -> granted al n (n + j) -> al (n + j)%nat = false ->
     op_mul_detailed P L fuel x y al n = Ret (failed (adesc x y), Some ExStd) (S (n + j))).
Proof.
  intros P L fuel x y digits N Fx Hd Hb Hf. destruct (C72_requests P L fuel (data x) (adata x y) Hd Hb Hf) as (G & R & T).
  assert (isComputable (desc x) = true) as C by (destruct Fx as [-> | ->]; reflexivity).
  unfold op_mul_detailed, op_mul_assign, guarded, bind. rewrite C. cbn [negb]. split.
  - intros al n H. rewrite (G al n H). unfold run in *. destruct (mul_strassen L P fuel (data x) (adata x y) never_fails 0%nat) as [v k|e k|u|]; try contradiction; reflexivity.
  - intros al n j Hj H F. rewrite (R al n j Hj H F). reflexivity.
Qed.
Print Assumptions C72_assignment.

(** whatever is known of x *= y with one request holds with all of them *)
Lemma detailed_assigns P L fuel x y Q bad : let digits := (length (data x) + length (adata x y))%nat in
  finite x -> (0 < digits)%nat -> Z.of_nat digits <= 2 ^ 32 -> Z.log2_up (Z.of_nat digits) < Z.of_nat fuel ->
  assigns (op_mul_assign L P fuel x y) Q bad -> assigns (op_mul_detailed P L fuel x y) Q bad.
Proof.
  intros digits Fx Hd Hb Hf H al n. destruct (fft_size_log _ _ Hd Hb) as (Ek & _ & _).
  pose proof (Z.log2_up_nonneg (Z.of_nat digits)).
  destruct (mul_asks P L fuel (data x) (adata x y) _ Ek ltac:(fold digits; lia)) as (o & A & S).
  assert (isComputable (desc x) = true) as C by (destruct Fx as [-> | ->]; reflexivity).
  unfold op_mul_assign, op_mul_detailed, guarded, assigns, bind in *. rewrite C in *. cbn [negb] in *.
  destruct (asks_cases _ _ _ al n A) as [[G E]|(j & Hj & G & F & E)]; rewrite E.
  - specialize (H never_fails 0%nat). rewrite S in H. cbn [never_fails] in H. destruct o as [v|u]; cbn [ending] in *; [|exact H].
    unfold ret in *. split; [apply H|lia].
  - specialize (H (fun _ => false) 0%nat). rewrite S in H. cbv beta iota in H. destruct H as (_ & -> & _).
    split; [reflexivity|]. split; [reflexivity|]. exists (n + j)%nat. split; [lia|exact F].
Qed.

(** so x *= y is the product on a machine with IEEE arithmetic (cf. C17), however many requests are refused or granted *)
Theorem C72_product : forall ct cosf sinf L fuel x y, accurate cosf sinf -> limits_ok L = true ->
  let l := Z.log2_up (Z.of_nat (length (data x) + length (data y))) in
  finite x -> finite y -> digits_ok (base L) (data x) -> digits_ok (base L) (data y) ->
  (0 < length (data x) + length (data y))%nat -> Z.of_nat (length (data x) + length (data y)) <= 2 ^ 32 ->
  l < Z.of_nat fuel -> 103 * ((l + 1) * (sum_squares (data x) + sum_squares (data y) + 1)) <= 2 ^ 53 ->
  (forall k, column_total (base L) (data x) (data y) k < 2 ^ wd L) ->
  assigns (op_mul_detailed (ieee ct cosf sinf) L fuel x (Other y))
    (fun z => good (base L) z /\ canonical (data z) /\
       signed_value (base L) z = signed_value (base L) x * signed_value (base L) y /\
       (desc z = BN_POS <-> desc x = desc y))
    (infinity_for (desc y)).
Proof.
  intros ct cosf sinf L fuel x y HA HL l Fx Fy Dx Dy Hp Hl Hf Hq Hc.
  apply detailed_assigns; auto. apply C17_product; auto.
Qed.
Print Assumptions C72_product.

(** What a completed multiplication holds.  Nothing is released that is not held; at no time are there more than 4 N - 1
    complex numbers, and at some time there are so many; at the end there are none, and the N digits of the result's block. *)
Theorem C72_held : forall fuel digits, let N := transform_size digits in
  Z.log2_up (Z.of_nat digits) < Z.of_nat fuel ->
  acquisitions (mul_events fuel N) = (6 * N - 1)%nat /\
  (forall i, exists c d, fold_left held (firstn i (mul_events fuel N)) (Some (0, 0)%nat) = Some (c, d) /\
     (c <= 4 * N - 1)%nat /\ (d <= N)%nat) /\
  (exists i d, fold_left held (firstn i (mul_events fuel N)) (Some (0, 0)%nat) = Some (4 * N - 1, d)%nat) /\
  fold_left held (mul_events fuel N) (Some (0, 0)%nat) = Some (0, N)%nat.
Proof.
  intros fuel digits N Hf. pose proof (Z.log2_up_nonneg (Z.of_nat digits)).
  destruct (mul_passes (Z.to_nat (Z.log2_up (Z.of_nat digits))) fuel ltac:(lia)) as [(E & W & R) A].
  fold (transform_size digits) in *. fold N in E, W, R, A. repeat split; auto.
  intros i. destruct (W i) as (c & d & Ei & Hc & Hd). exists c, d. split; [exact Ei|]. lia.
Qed.
Print Assumptions C72_held.

(** in terms of the digits of the operands: fewer than 8 complex numbers for a digit, fewer than 12 requests *)
Theorem C72_linear : forall digits, (0 < digits)%nat -> let N := transform_size digits in
  (4 * N - 1 < 8 * digits)%nat /\ (6 * N - 1 < 12 * digits)%nat /\ (4 * digits - 1 <= 4 * N - 1)%nat /\ (6 * digits - 1 <= 6 * N - 1)%nat.
Proof. intros digits H N. pose proof (transform_size_bounds digits H). fold N in H0. lia. Qed.
Print Assumptions C72_linear.

(** a two-digit number times a three-digit number: 47 requests, at most 31 complex numbers at a time *)
Example C72_case : transform_size (2 + 3) = 8%nat /\ Z.log2_up (Z.of_nat (2 + 3)) < Z.of_nat 4 /\
  acquisitions (mul_events 4 8) = 47%nat /\ fold_left held (firstn 5 (mul_events 4 8)) (Some (0, 0)%nat) = Some (26, 0)%nat /\
  fold_left held (firstn 9 (mul_events 4 8)) (Some (0, 0)%nat) = Some (31, 0)%nat.
Proof. vm_compute. repeat split. Qed.

(** and the 30th request refused *)
Example C72_case_refused : let x := mkBN BN_NEG [2; 1] in let y := mkBN BN_POS [4; 3; 5] in
  forall ct cosf sinf, op_mul_detailed (ieee ct cosf sinf) base10 4 x (Other y) (fun k => negb (k =? 29)%nat) 0%nat
  = Ret (mkBN BN_POS_INF [], Some ExStd) 30%nat.
Proof.
  intros x y ct cosf sinf.
  apply (proj2 (C72_assignment (ieee ct cosf sinf) base10 4 x (Other y) (or_intror eq_refl) ltac:(cbn; lia) ltac:(cbn; lia) ltac:(cbn; lia))
    (fun k => negb (k =? 29)%nat) 0%nat 29%nat).
  - vm_compute. lia.
  - intros k Hk. destruct (Nat.eqb_spec k 29); [lia|reflexivity].
  - reflexivity.
Qed.

(** (-12) * 534 with all the requests granted *)
Example C72_case_product : let x := mkBN BN_NEG [2; 1] in let y := mkBN BN_POS [4; 3; 5] in
  exists z n, run (op_mul_detailed (ieee unfused libm_cos libm_sin) base10 4 x (Other y)) = Ret (z, None) n /\ signed_value 10 z = -6408.
Proof.
  intros x y. assert (finite x) as Fx by (right; reflexivity). assert (finite y) as Fy by (left; reflexivity).
  assert (digits_ok (base base10) (data x)) as Dx by (repeat constructor; cbn; lia).
  assert (digits_ok (base base10) (data y)) as Dy by (repeat constructor; cbn; lia).
  assert (Z.of_nat (Nat.min (length (data x)) (length (data y))) * (bmax base10 * base base10) <= 2 ^ wd base10) as H by (vm_compute; discriminate).
  assert (103 * ((Z.log2_up (Z.of_nat (length (data x) + length (data y))) + 1) * (sum_squares (data x) + sum_squares (data y) + 1)) <= 2 ^ 53)
    as Hq by (vm_compute; discriminate).
  assert (Z.log2_up (Z.of_nat (length (data x) + length (data y))) < Z.of_nat 4) as Hl by (vm_compute; reflexivity).
  pose proof (C72_product unfused libm_cos libm_sin base10 4 x y libm_accurate eq_refl Fx Fy Dx Dy ltac:(cbn; lia) ltac:(cbn; lia) Hl Hq
    (C16_columns_fit base10 x y eq_refl Dx Dy H) never_fails 0%nat) as K.
  unfold run. destruct (op_mul_detailed _ _ _ _ _ never_fails 0%nat) as [[z [e|]] n|e n|u|]; try contradiction.
  - destruct K as (_ & _ & k & _ & F). discriminate.
  - exists z, n. split; [reflexivity|]. destruct K as [(_ & _ & V & _) _]. exact V.
Qed.
