(** * C81: the work of sums, differences and products *)
From Verif Require Import Base Spec Limits Compare AddSub Fourier Multiplication Outcome Work.
From Verif Require Import Wp ValueProof AddSubProof BignumProof Pow2Proof ExactProof DivWorkProof WorkProof RequestProof PropHistory.

(** the counted computation ends as the one of the library, with the same digits and the same requests *)
Definition counts {A B} (mc : M (A * B)) (m : M A) : Prop := forall al n,
  match mc al n with
  | Ret (r, _) n' => m al n = Ret r n'
  | Throw e n' => m al n = Throw e n'
  | Undef u => m al n = Undef u
  | NoFuel => m al n = NoFuel
  end.

Lemma counts_erase {A B} (mc : M (A * B)) m : (forall al n, without_count (mc al n) = m al n) -> counts mc m.
Proof. intros H al n. rewrite <- H. destruct (mc al n) as [[r c] k|e k|u|]; reflexivity. Qed.
Lemma counts_returns {A B} (mc : M (A * B)) m Q R : counts mc m -> returns m Q -> may mc R -> returns mc (fun p => Q (fst p) /\ R p).
Proof.
  intros H HQ HR al n. specialize (H al n). specialize (HQ al n). specialize (HR al n).
  destruct (mc al n) as [[r c] k|e k|u|]; rewrite H in HQ; auto. cbn [fst]. tauto.
Qed.

Theorem C81_counting : forall P L fuel a b inv,
  counts (add_counted L a inv) (abs_val_add L a inv) /\
  counts (sub_counted L a inv) (abs_val_sub L false a inv) /\
  counts (mul_counted P L fuel a b) (mul_strassen L P fuel a b) /\
  counts (naive_counted L a b) (mul_naive L a b).
Proof.
  intros. repeat split; apply counts_erase; intros.
  - unfold add_counted, abs_val_add. apply add_loop_erases.
  - apply sub_erases.
  - apply mul_erases.
  - apply naive_erases.
Qed.
Print Assumptions C81_counting.

(** A sum makes one round for each digit of the longer operand, at least one, and one more if there is a carry at the end. *)
Theorem C81_sum : forall L a b, limits_ok L = true -> digits_ok (base L) a -> digits_ok (base L) b ->
  let n := Nat.max 1 (Nat.max (length a) (length b)) in
  let total := value (base L) a + value (base L) b in
  returns (add_counted L a (other b))
    (fun p => value (base L) (fst p) = total /\ snd p = (if total <? base L ^ Z.of_nat n then n else S n)).
Proof.
  intros L a b HL Da Db n total. pose proof (AddSubProof.HB L HL) as HB.
  eapply returns_mono.
  - eapply (counts_returns _ (abs_val_add L a (other b)) _ (fun p => (0 < length (fst p))%nat /\ snd p = (0 + (length (fst p) - 0))%nat)).
    + apply counts_erase. intros. apply add_loop_erases.
    + apply yields_returns. apply (abs_val_add_other L HL a b Da Db).
    + apply add_loop_rounds. lia.
  - intros [r c] ((Dr & Vr & Gr) & H0 & Hc). cbn [fst snd] in *. split; [exact Vr|]. unfold grown in Gr. fold n in Gr. unfold total. rewrite <- Vr.
    pose proof (value_bounds (base L) HB r Dr). destruct (Z.ltb_spec (value (base L) r) (base L ^ Z.of_nat n)); destruct Gr as [Gr|[Gr1 Gr2]]; try lia.
    rewrite Gr in *. lia.
Qed.
Print Assumptions C81_sum.

(** A difference makes one round for each digit of the minuend, then reads the digits from the top until one is not zero. *)
Theorem C81_difference : forall L a b, limits_ok L = true -> digits_ok (base L) a -> digits_ok (base L) b ->
  a <> [] -> (length b <= length a)%nat -> value (base L) b <= value (base L) a ->
  returns (sub_counted L a (other b))
    (fun p => value (base L) (fst p) = value (base L) a - value (base L) b /\ fst (snd p) = length a /\
              snd (snd p) = (length a - length (fst p) + match fst p with [] => 0 | _ => 1 end)%nat).
Proof.
  intros L a b HL Da Db Na Hl Hv.
  eapply returns_mono.
  - eapply (counts_returns _ (abs_val_sub L false a (other b))).
    + apply counts_erase. intros. apply sub_erases.
    + apply yields_returns. destruct (abs_val_sub_other L HL a b Na Hl) as (r & Hp & _ & _ & Hd). destruct (Hd Da Db) as [_ V].
      destruct (Z.leb_spec (value (base L) b) (value (base L) a)); [|lia].
      exact (yields_pure _ r (fun r => value (base L) r = value (base L) a - value (base L) b) Hp V).
    + unfold sub_counted. eapply may_bind; [apply sub_loop_rounds|]. intros [v c] (H1 & H2 & H3). cbn [fst snd] in *.
      eapply may_bind; [apply pop_rounds; reflexivity|]. intros [w d] [H4 H5]. cbn [fst snd] in *. 
      apply (may_ret (w, (c, d)) (fun p => fst (snd p) = length a /\ snd (snd p) = (length a - length (fst p) + match fst p with [] => 0 | _ => 1 end)%nat)).
      cbn [fst snd]. destruct w; cbn [length Nat.eqb] in *; lia.
  - intros [r [c d]] (V & H1 & H2). cbn [fst snd] in *. auto.
Qed.
Print Assumptions C81_difference.

(** A product of [d] digits in both operands together works on a transform of size 2^k, where 2^k is the least power of two from
    [d] on: k 2^k butterflies, each with one cosine and one sine, then 2^k entries, then 2^k digits. *)
Theorem C81_product : forall P L fuel a b, let d := (length a + length b)%nat in
  (0 < d)%nat -> Z.of_nat d <= 2 ^ 32 -> Z.log2_up (Z.of_nat d) < Z.of_nat fuel ->
  exists k, (d <= 2 ^ k < 2 * d)%nat /\ forall al n,
  match mul_counted P L fuel a b al n with
  | Ret (v, (butterflies, entries, carried, trimmed)) _ =>
      butterflies = (k * 2 ^ k)%nat /\ entries = (2 ^ k)%nat /\ carried = (2 ^ k)%nat /\
      (length v <= 2 ^ k)%nat /\ trimmed = (2 ^ k - length v + match v with [] => 0 | _ => 1 end)%nat
  | NoFuel => False
  | Throw _ _ | Undef _ => True
  end.
Proof.
  intros P L fuel a b d Hd Hl Hf. destruct (fft_size_log _ _ Hd Hl) as (Ek & H1 & H2). cbv zeta in *. fold d in Ek, H1, H2.
  set (k := Z.to_nat (Z.log2_up (Z.of_nat d))) in *. exists k. split.
  - split; [exact H1|]. destruct (fft_size_spec _ _ Hd Hl) as (k' & Ek' & _ & _ & H3).
    assert (2 ^ k = 2 ^ k')%nat as -> by lia. exact H3.
  - intros al n. pose proof (Z.log2_up_nonneg (Z.of_nat d)).
    pose proof (mul_rounds P L fuel a b k Ek ltac:(lia) al n) as M.
    destruct (mul_counted P L fuel a b al n) as [[v [[[x y] z] t]] n1|e n1|u|]; auto.
    destruct M as (-> & -> & -> & Hv & ->). repeat split; auto. destruct v; reflexivity.
Qed.
Print Assumptions C81_product.

(** the schoolbook product makes a round for each pair of digits *)
Theorem C81_naive : forall L a b al n,
  match naive_counted L a b al n with
  | Ret (_, rounds) _ => rounds = (length a * length b)%nat
  | _ => True
  end.
Proof. intros L a b al n. pose proof (naive_rounds L a b al n) as H. destruct (naive_counted L a b al n) as [[v c] n1|e n1|u|]; auto. Qed.
Print Assumptions C81_naive.

(** So with [d] digits in all the product makes fewer than 2 d (log2 d + 1) butterflies. *)
Theorem C81_bound : forall P L fuel a b al n, let d := (length a + length b)%nat in
  (0 < d)%nat -> Z.of_nat d <= 2 ^ 32 -> Z.log2_up (Z.of_nat d) < Z.of_nat fuel ->
  match mul_counted P L fuel a b al n with
  | Ret (v, (butterflies, _, _, _)) _ => Z.of_nat butterflies <= 2 * Z.of_nat d * (Z.log2 (Z.of_nat d) + 1)
  | _ => True
  end.
Proof.
  intros P L fuel a b al n d Hd Hl Hf. destruct (C81_product P L fuel a b Hd Hl Hf) as (k & [K1 K2] & H). fold d in K1, K2. specialize (H al n).
  destruct (mul_counted P L fuel a b al n) as [[v [[[x y] z] t]] n1|e n1|u|]; auto. destruct H as [-> _].
  assert (Z.of_nat (2 ^ k) = 2 ^ Z.of_nat k) as E by (rewrite Nat2Z.inj_pow; reflexivity).
  assert (Z.of_nat k <= Z.log2 (Z.of_nat d) + 1) as Hk.
  { pose proof (Z.log2_spec (Z.of_nat d) ltac:(lia)) as [_ S]. destruct (Z.le_gt_cases (Z.of_nat k) (Z.log2 (Z.of_nat d) + 1)) as [|G]; [assumption|exfalso].
    assert (2 ^ (Z.log2 (Z.of_nat d) + 2) <= 2 ^ Z.of_nat k) as M by (apply Z.pow_le_mono_r; lia).
    replace (Z.log2 (Z.of_nat d) + 2) with (Z.succ (Z.succ (Z.log2 (Z.of_nat d)))) in M by lia. pose proof (Z.log2_nonneg (Z.of_nat d)).
    rewrite Z.pow_succ_r in M by lia. lia. }
  rewrite Nat2Z.inj_mul. pose proof (Z.log2_nonneg (Z.of_nat d)). nia.
Qed.
Print Assumptions C81_bound.

(** 99 + 1: two digits and a carry *)
Example C81_case_sum : add_counted base10 [9; 9] (other [1]) (fun _ => true) 0%nat = Ret ([0; 0; 1], 3%nat) 1%nat.
Proof. vm_compute. reflexivity. Qed.
(** 1000 - 999: four digits, of which the three upper ones are read as zeros and the last one is not *)
Example C81_case_difference : sub_counted base10 [0; 0; 0; 1] (other [9; 9; 9]) (fun _ => true) 0%nat = Ret ([1], (4%nat, 4%nat)) 0%nat.
Proof. vm_compute. reflexivity. Qed.
(** 12 * 345 by the schoolbook: 6 rounds *)
Example C81_case_naive : naive_counted base10 [2; 1] [5; 4; 3] (fun _ => true) 0%nat = Ret ([0; 4; 1; 4; 0], 6%nat) 1%nat.
Proof. vm_compute. reflexivity. Qed.
(** and by the transform: 5 digits, so a size of 8, 24 butterflies and fewer than 30; the counts do not depend on the arithmetic,
    here one in which every double is converted to 0 *)
Example C81_case_product : (0 < 2 + 3)%nat /\ Z.log2_up (Z.of_nat (2 + 3)) < Z.of_nat 4 /\
  mul_counted trivial_flops base10 4 [2; 1] [5; 4; 3] (fun _ => true) 0%nat = Ret ([], (24%nat, 8%nat, 8%nat, 8%nat)) 1%nat.
Proof. split; [lia|]. split; vm_compute; reflexivity. Qed.
