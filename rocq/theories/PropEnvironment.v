(** * Property C88: products, and programs, do not depend on the floating-point environment *)
From Coq Require Import ZArith Reals Lra Lia List Bool Arith.
From Flocq Require Import Core IEEE754.BinarySingleNaN.
From Verif Require Import Base Spec Limits Compare AddSub Division Bignum Fourier Multiplication Machine While Clients Calculator Outcome Wp ValueProof
  AddSubProof BignumProof Conv DivisionProof HistoryProof Ieee IeeeProof FloatModel MulProof MulOpProof PropMul PropProgram PropCompare Exact CalculatorProof PropCalculator
  Environment EnvironmentProof.
Import ListNotations.
Open Scope Z_scope.

Lemma mul_in_environment E ct cosf sinf L fuel a b : accurate cosf sinf -> limits_ok L = true ->
  digits_ok (base L) a -> digits_ok (base L) b ->
  (0 < length a + length b)%nat -> Z.of_nat (length a + length b) <= 2 ^ 32 ->
  let l := Z.log2_up (Z.of_nat (length a + length b)) in
  l < Z.of_nat fuel -> 103 * ((l + 1) * (sum_squares a + sum_squares b + 1)) <= 2 ^ 52 ->
  multiplies L (ieee_in E ct cosf sinf) fuel a b.
Proof.
  intros HA HL Ha Hb Hpos Hlen lz Hf Hp.
  pose proof (Z.log2_up_nonneg (Z.of_nat (length a + length b))) as Hl0. fold lz in Hl0.
  pose proof (mul_strassen_cases (ieee_in E ct cosf sinf) _ _ _ _ _ _ (rounding_in E ct cosf sinf HA) L HL fuel a b) as H. cbv zeta in H.
  fold lz in H. set (l := Z.to_nat lz) in *.
  assert (Z.of_nat l = lz) as El by (unfold l; lia).
  assert (Z.of_nat (2 ^ l) = 2 ^ lz) as Ep by (rewrite Nat2Z.inj_pow, El; reflexivity).
  assert (lz <= 32) as H32.
  { unfold lz. rewrite <- (Z.log2_up_pow2 32) by lia. apply Z.log2_up_le_mono. exact Hlen. }
  assert (2 ^ lz <= 2 ^ 32) as Hn by (apply Z.pow_le_mono_r; lia).
  assert (0 < 2 ^ lz) as Hn0 by (apply Z.pow_pos_nonneg; lia).
  pose proof (sum_squares_nonneg a) as Qa. pose proof (sum_squares_nonneg b) as Qb.
  set (Q := sum_squares a + sum_squares b) in *. assert (0 <= Q) as HQ by (unfold Q; lia).
  assert (103 * (Q + 1) <= 2 ^ 52) as Hq by nia.
  apply H; auto; clear H.
  - unfold l. lia.
  - unfold K64. lia.
  - rewrite Ep. unfold K64. lia.
  - rewrite INR_IZR_INZ, Ep, <- (plus_IZR Q 1), <- !mult_IZR. unfold Om64. apply IZR_le.
    apply Z.le_trans with (301 * (2 ^ 32 * 2 ^ 52)); [|vm_compute; discriminate].
    apply Z.mul_le_mono_nonneg_l; [lia|]. apply Z.mul_le_mono_nonneg; lia.
  - rewrite !INR_IZR_INZ, <- (plus_IZR Q 1), <- !mult_IZR. unfold u52.
    replace (Z.of_nat (l + 1)) with (lz + 1) by lia.
    apply (Rmult_le_reg_r 4503599627370496); [lra|].
    rewrite Rmult_assoc, Rinv_l, Rmult_1_r, Rmult_1_l by lra. apply IZR_le. exact Hp.
Qed.

(** ** The environment is not without effect *)

(** The environment a program starts in gives the arithmetic of all the other theorems. *)
Theorem C88_default : forall ct cosf sinf, ieee_in default_fenv ct cosf sinf = ieee ct cosf sinf.
Proof. exact default_env. Qed.
Print Assumptions C88_default.

(** What the two flushing modes do: a finite double becomes a zero if it is below 2^-1022, and is left alone otherwise. *)
Theorem C88_flushed : forall x : double, is_finite x = true ->
  is_finite (flushed true x) = true /\ flushed false x = x /\
  ((Rabs (B2R x) < bpow radix2 (-1022))%R -> B2R (flushed true x) = 0%R) /\
  ((bpow radix2 (-1022) <= Rabs (B2R x))%R -> flushed true x = x).
Proof.
  intros x Fx. split; [rewrite flushed_finite; exact Fx|]. split; [reflexivity|]. pose proof (bpow_gt_0 radix2 (-1022)) as P0. split.
  - intros H. rewrite flushed_real. unfold flush_real. rewrite Rlt_bool_true by exact H. reflexivity.
  - intros H. destruct x as [s|s| |s m e Hb]; try discriminate; [reflexivity|]. unfold flushed. cbn [B2R] in H.
    rewrite (subnormal_small s m e Hb). rewrite Rlt_bool_false by exact H. reflexivity.
Qed.
Print Assumptions C88_flushed.

(** Every operation is the exact result, rounded in the direction of the environment, wherever nothing is flushed. *)
Theorem C88_operations : forall m x y, is_finite x = true -> is_finite y = true ->
  let E := mkFenv m false false in
  let rounded := round radix2 (FLT_exp (-1074) 53) (round_mode m) in
  ((Rabs (B2R x + B2R y) <= IZR (2 ^ 200))%R -> B2R (add_in E x y) = rounded (B2R x + B2R y)%R) /\
  ((Rabs (B2R x - B2R y) <= IZR (2 ^ 200))%R -> B2R (sub_in E x y) = rounded (B2R x - B2R y)%R) /\
  ((Rabs (B2R x * B2R y) <= IZR (2 ^ 200))%R -> B2R (mul_in E x y) = rounded (B2R x * B2R y)%R) /\
  (B2R y <> 0%R -> (Rabs (B2R x / B2R y) <= IZR (2 ^ 200))%R -> B2R (div_in E x y) = rounded (B2R x / B2R y)%R).
Proof.
  intros m x y Fx Fy E rounded. 
  pose proof (add_in_spec E x y Fx Fy) as A1. pose proof (sub_in_spec E x y Fx Fy) as A2. pose proof (mul_in_spec E x y Fx Fy) as A3.
  pose proof (div_in_spec E x y Fx Fy) as A4.
  repeat split; intros; [apply A1|apply A2|apply A3|apply A4]; assumption.
Qed.
Print Assumptions C88_operations.

(** The same sum in two directions; a subnormal result and a subnormal operand with and without flushing *)
Example C88_environment_matters :
  let up := mkFenv mode_UP false false in let down := mkFenv mode_DN false false in
  let one := mk_double 1 0 in let tiny := mk_double 1 (-100) in let least := mk_double 1 (-1074) in let small := mk_double 1 (-600) in
  add_in down one tiny = one /\ add_in up one tiny = mk_double (2 ^ 52 + 1) (-52) /\
  mul_in default_fenv small (mk_double 1 (-470)) = mk_double 16 (-1074) /\
  mul_in (mkFenv mode_NE true false) small (mk_double 1 (-470)) = mk_double 0 0 /\
  add_in default_fenv least least = mk_double 2 (-1074) /\ mul_in default_fenv least (mk_double 1 1000) = mk_double 1 (-74) /\
  mul_in (mkFenv mode_NE false true) least (mk_double 1 1000) = mk_double 0 0.
Proof. cbv zeta. repeat split; apply B2SF_inj; vm_compute; reflexivity. Qed.

(** ** Products *)

(** As [C17_product], in every environment: the bound on the digits loses one bit. *)
Theorem C88_product : forall E ct cosf sinf L fuel x y, accurate cosf sinf -> limits_ok L = true ->
  let l := Z.log2_up (Z.of_nat (length (data x) + length (data y))) in
  finite x -> finite y -> digits_ok (base L) (data x) -> digits_ok (base L) (data y) ->
  (0 < length (data x) + length (data y))%nat -> Z.of_nat (length (data x) + length (data y)) <= 2 ^ 32 ->
  l < Z.of_nat fuel -> 103 * ((l + 1) * (sum_squares (data x) + sum_squares (data y) + 1)) <= 2 ^ 52 ->
  (forall k, column_total (base L) (data x) (data y) k < 2 ^ wd L) ->
  assigns (op_mul_assign L (ieee_in E ct cosf sinf) fuel x (Other y))
    (fun z => good (base L) z /\ canonical (data z) /\
       signed_value (base L) z = signed_value (base L) x * signed_value (base L) y /\
       (desc z = BN_POS <-> desc x = desc y))
    (infinity_for (desc y)).
Proof.
  intros E ct cosf sinf L fuel x [dy vy] HA HL l Fx Fy Dx Dy Hp Hl Hf Hq Hc.
  apply (mul_assign_product L (ieee_in E ct cosf sinf) fuel x (Other (mkBN dy vy)) Fx Fy).
  apply (proj1 (mul_in_environment E ct cosf sinf L fuel _ _ HA HL Dx Dy Hp Hl Hf Hq)). exact Hc.
Qed.
Print Assumptions C88_product.

Theorem C88_square : forall E ct cosf sinf L fuel x, accurate cosf sinf -> limits_ok L = true ->
  let l := Z.log2_up (Z.of_nat (length (data x) + length (data x))) in
  finite x -> digits_ok (base L) (data x) ->
  (0 < length (data x) + length (data x))%nat -> Z.of_nat (length (data x) + length (data x)) <= 2 ^ 32 ->
  l < Z.of_nat fuel -> 103 * ((l + 1) * (sum_squares (data x) + sum_squares (data x) + 1)) <= 2 ^ 52 ->
  (forall k, column_total (base L) (data x) (data x) k < 2 ^ wd L) ->
  assigns (op_mul_assign L (ieee_in E ct cosf sinf) fuel x Self)
    (fun z => good (base L) z /\ canonical (data z) /\ desc z = BN_POS /\
       signed_value (base L) z = signed_value (base L) x * signed_value (base L) x)
    (infinity_for (desc x)).
Proof.
  intros E ct cosf sinf L fuel x HA HL l Fx Dx Hp Hl Hf Hq Hc.
  eapply assigns_mono; [apply (mul_assign_product L (ieee_in E ct cosf sinf) fuel x Self Fx Fx), (proj1 (mul_in_environment E ct cosf sinf L fuel _ _ HA HL Dx Dx Hp Hl Hf Hq)), Hc|].
  intros z (G & C & V & S). cbn [adesc adata] in *. destruct x as [d v]. cbn [desc data] in *. repeat split; try tauto; apply G.
Qed.
Print Assumptions C88_square.

(** A column that does not fit the wider type is undefined behaviour in every environment. *)
Theorem C88_column_overflow : forall E ct cosf sinf L fuel x y, accurate cosf sinf -> limits_ok L = true ->
  let l := Z.log2_up (Z.of_nat (length (data x) + length (data y))) in
  finite x -> digits_ok (base L) (data x) -> digits_ok (base L) (data y) ->
  (0 < length (data x) + length (data y))%nat -> Z.of_nat (length (data x) + length (data y)) <= 2 ^ 32 ->
  l < Z.of_nat fuel -> 103 * ((l + 1) * (sum_squares (data x) + sum_squares (data y) + 1)) <= 2 ^ 52 ->
  (exists k, 2 ^ wd L <= column_total (base L) (data x) (data y) k) ->
  undefined_assign (op_mul_assign L (ieee_in E ct cosf sinf) fuel x (Other y)) UB_float_to_int (infinity_for (desc y)).
Proof.
  intros E ct cosf sinf L fuel x y HA HL l Fx Dx Dy Hp Hl Hf Hq Hc. apply (mul_assign_undef L (ieee_in E ct cosf sinf) fuel x (Other y) Fx).
  apply (proj2 (mul_in_environment E ct cosf sinf L fuel _ _ HA HL Dx Dy Hp Hl Hf Hq)). exact Hc.
Qed.
Print Assumptions C88_column_overflow.

(** Per type: (limits, N, m) as in [safe_lengths].  The types with a base below 256 lose nothing. *)
Definition lengths_anywhere : list (limits * Z * Z) :=
  [(base2, 2 ^ 32, 128); (base8, 2 ^ 32, 1170); (base10, 2 ^ 32, 47721858); (base16, 2 ^ 32, 17895697);
   (base256, 2 ^ 24, 1); (lowp, 2 ^ 24, 1); (medp, 925, 1)].

Lemma anywhere_numbers L N m : In (L, N, m) lengths_anywhere ->
  limits_ok L = true /\ 2 * m + 3 <= N <= 2 ^ 32 /\ 103 * ((Z.log2_up N + 1) * (N * (bmax L * bmax L) + 1)) <= 2 ^ 52 /\
  0 <= bmax L /\ 0 <= m /\ m * (bmax L * base L) <= 2 ^ wd L < (m + 1) * (bmax L * base L).
Proof.
  intros Hin. unfold lengths_anywhere in Hin. cbn [In] in Hin.
  repeat (destruct Hin as [E|Hin]; [injection E as <- <- <-; repeat split; vm_compute; congruence|]). contradiction.
Qed.

Theorem C88_lengths : forall L N m, In (L, N, m) lengths_anywhere -> exists N', In (L, N', m) safe_lengths /\ N <= N' /\ (bmax L < 255 -> N = N').
Proof.
  intros L N m Hin. unfold lengths_anywhere in Hin. cbn [In] in Hin.
  repeat (destruct Hin as [E|Hin]; [injection E as <- <- <-;
    first [exists (2 ^ 32); split; [unfold safe_lengths; cbn [In]; tauto|]; split; [lia|]; vm_compute; congruence
          |exists (2 ^ 25); split; [unfold safe_lengths; cbn [In]; tauto|]; split; [lia|]; vm_compute; congruence
          |exists 1696; split; [unfold safe_lengths; cbn [In]; tauto|]; split; [lia|]; vm_compute; congruence]|]). contradiction.
Qed.
Print Assumptions C88_lengths.

Lemma precision_anywhere L a b N : 1 <= base L -> digits_ok (base L) a -> digits_ok (base L) b ->
  Z.of_nat (length a + length b) <= N ->
  103 * ((Z.log2_up N + 1) * (N * (bmax L * bmax L) + 1)) <= 2 ^ 52 ->
  103 * ((Z.log2_up (Z.of_nat (length a + length b)) + 1) * (sum_squares a + sum_squares b + 1)) <= 2 ^ 52.
Proof.
  intros HB Ha Hb HN H.
  pose proof (sum_squares_le (base L) a HB Ha) as Qa. pose proof (sum_squares_le (base L) b HB Hb) as Qb.
  pose proof (sum_squares_nonneg a). pose proof (sum_squares_nonneg b).
  replace (base L - 1) with (bmax L) in * by (unfold base; lia).
  pose proof (Z.log2_up_le_mono _ _ HN) as Hl. pose proof (Z.log2_up_nonneg (Z.of_nat (length a + length b))).
  set (M := bmax L * bmax L) in *. assert (0 <= M) by (unfold M; nia).
  assert (sum_squares a + sum_squares b <= N * M).
  { apply Z.le_trans with (Z.of_nat (length a + length b) * M); [nia|]. apply Z.mul_le_mono_nonneg_r; lia. }
  eapply Z.le_trans; [|exact H]. apply Z.mul_le_mono_nonneg_l; [lia|]. apply Z.mul_le_mono_nonneg; lia.
Qed.

Theorem C88_per_type : forall E ct cosf sinf L N m fuel x y, accurate cosf sinf -> In (L, N, m) lengths_anywhere ->
  finite x -> finite y -> digits_ok (base L) (data x) -> digits_ok (base L) (data y) ->
  (0 < length (data x) + length (data y))%nat -> Z.of_nat (length (data x) + length (data y)) <= N ->
  Z.of_nat (Nat.min (length (data x)) (length (data y))) <= m -> Z.log2_up N < Z.of_nat fuel ->
  returns (op_mul L (ieee_in E ct cosf sinf) fuel x y)
    (fun z => good (base L) z /\ canonical (data z) /\
       signed_value (base L) z = signed_value (base L) x * signed_value (base L) y /\
       (desc z = BN_POS <-> desc x = desc y)).
Proof.
  intros E ct cosf sinf L N m fuel x y HA Hin Fx Fy Dx Dy Hpos Hlen Hm Hf.
  destruct (anywhere_numbers L N m Hin) as (HL & HN & Hq & HM & Hm0 & Hc & _).
  refine (binary_returns _ _ _ _ _ (C88_product E ct cosf sinf L fuel x y HA HL Fx Fy Dx Dy Hpos _ _ _ _)).
  - lia.
  - pose proof (Z.log2_up_le_mono _ _ Hlen). lia.
  - apply (precision_anywhere L _ _ N); auto. unfold base. lia.
  - apply C16_columns_fit; auto. eapply Z.le_trans; [|exact Hc]. apply Z.mul_le_mono_nonneg_r; [unfold base; nia|exact Hm].
Qed.
Print Assumptions C88_per_type.

(** The bound m cannot be raised in any environment. *)
Theorem C88_lengths_sharp : forall E ct cosf sinf L N m fuel, accurate cosf sinf -> In (L, N, m) lengths_anywhere ->
  Z.log2_up N < Z.of_nat fuel ->
  let x := mkBN BN_POS (repeat (bmax L) (Z.to_nat (m + 1))) in let y := mkBN BN_POS (repeat (bmax L) (Z.to_nat (m + 2))) in
  undefined_assign (op_mul_assign L (ieee_in E ct cosf sinf) fuel x (Other y)) UB_float_to_int (infinity_for BN_POS).
Proof.
  intros E ct cosf sinf L N m fuel HA Hin Hf. destruct (anywhere_numbers L N m Hin) as (HL & HN & Hq & HM & Hm0 & _ & Hc).
  assert (Z.of_nat (Z.to_nat (m + 1)) = m + 1) as E1 by lia. assert (Z.of_nat (Z.to_nat (m + 2)) = m + 2) as E2 by lia.
  revert E1 E2. generalize (Z.to_nat (m + 1)) (Z.to_nat (m + 2)). intros p q E1 E2 x y.
  assert (length (data x) = p /\ length (data y) = q) as [Lx Ly] by (split; apply repeat_length).
  assert (Z.of_nat (length (data x) + length (data y)) <= N) as Hlen by lia.
  refine (C88_column_overflow E ct cosf sinf L fuel x y HA HL (or_introl eq_refl) (maximal_ok L p HL) (maximal_ok L q HL) _ _ _ _ _).
  - lia.
  - lia.
  - pose proof (Z.log2_up_le_mono _ _ Hlen). lia.
  - apply (precision_anywhere L _ _ N); [unfold base; lia|exact (maximal_ok L p HL)|exact (maximal_ok L q HL)|exact Hlen|exact Hq].
  - apply (columns_overflow L p q HL); [lia|]. rewrite E1. lia.
Qed.
Print Assumptions C88_lengths_sharp.

(** Two executions, each in its environment, with its compiler and its library, memory granted: the same object. *)
Theorem C88_same_product : forall E ct cosf sinf E' ct' cosf' sinf' L N m fuel fuel' x y al n al' n',
  accurate cosf sinf -> accurate cosf' sinf' -> In (L, N, m) lengths_anywhere ->
  finite x -> finite y -> digits_ok (base L) (data x) -> digits_ok (base L) (data y) ->
  (0 < length (data x) + length (data y))%nat -> Z.of_nat (length (data x) + length (data y)) <= N ->
  Z.of_nat (Nat.min (length (data x)) (length (data y))) <= m -> Z.log2_up N < Z.of_nat fuel -> Z.log2_up N < Z.of_nat fuel' ->
  (forall k, al k = true) -> (forall k, al' k = true) ->
  exists z k k', op_mul L (ieee_in E ct cosf sinf) fuel x y al n = Ret z k /\ op_mul L (ieee_in E' ct' cosf' sinf') fuel' x y al' n' = Ret z k'.
Proof.
  intros E ct cosf sinf E' ct' cosf' sinf' L N m fuel fuel' x y al n al' n' HA HA' Hin Fx Fy Dx Dy Hp Hl Hm Hf Hf' Hal Hal'.
  pose proof (C88_per_type E ct cosf sinf L N m fuel x y HA Hin Fx Fy Dx Dy Hp Hl Hm Hf al n) as K.
  pose proof (C88_per_type E' ct' cosf' sinf' L N m fuel' x y HA' Hin Fx Fy Dx Dy Hp Hl Hm Hf' al' n') as K'.
  destruct (anywhere_numbers L N m Hin) as (HL & _). pose proof (AddSubProof.HB L HL) as HB.
  destruct (op_mul L (ieee_in E ct cosf sinf) fuel x y al n) as [z k|e k| |]; try contradiction.
  2:{ destruct K as (_ & j & _ & K). rewrite Hal in K. discriminate. }
  destruct (op_mul L (ieee_in E' ct' cosf' sinf') fuel' x y al' n') as [z' k'|e k'| |]; try contradiction.
  2:{ destruct K' as (_ & j & _ & K'). rewrite Hal' in K'. discriminate. }
  exists z, k, k'. split; [reflexivity|]. destruct K as [(G & C & V & S) _], K' as [(G' & C' & V' & S') _]. repeat f_equal.
  destruct z as [d v], z' as [d' v'], G as (F & D & _), G' as (F' & D' & _). unfold finite, signed_value in *. cbn [desc data] in *.
  assert (d' = d) as -> by (destruct F as [-> | ->], F' as [-> | ->]; intuition congruence).
  f_equal. apply (value_inj (base L) HB); auto. rewrite <- V in V'. destruct d; lia.
Qed.
Print Assumptions C88_same_product.

(** ** Programs *)

Lemma within_environment E ct cosf sinf L N m : accurate cosf sinf -> In (L, N, m) lengths_anywhere -> multiplies_within L (ieee_in E ct cosf sinf) N m.
Proof.
  intros HA Hin. destruct (anywhere_numbers L N m Hin) as (HL & HN & Hq & HM & Hm0 & Hc & _). split; [exact HM|]. split; [exact Hc|].
  intros fuel a b Da Db P F1 Hf. apply mul_in_environment; auto; [lia| |].
  - pose proof (Z.log2_up_le_mono _ _ F1). lia.
  - apply (precision_anywhere L _ _ N); auto. unfold base. lia.
Qed.

(** As [C77_programs], in every environment. *)
Theorem C88_programs : forall E ct cosf sinf L N m k p s al, accurate cosf sinf -> In (L, N, m) lengths_anywhere -> can_double L = true ->
  (forall j, al j = true) -> (forall r, tidy (base L) (s r)) ->
  exists enough : nat, forall fuel keep n, (enough <= fuel)%nat ->
  as_predicted (fun s' v => forall r, tidy (base L) (s' r) /\ seen (base L) (s' r) = v r)
    (crun (base L) N m k p (all_seen (base L) s))
    (srun (mkEnv L false (ieee_in E ct cosf sinf) fuel keep) k p s al n).
Proof.
  intros E ct cosf sinf L N m k p s al HA Hin HD Hal Ht.
  destruct (crun_run _ L N m (within_environment E ct cosf sinf L N m HA Hin) HD al Hal k p (all_seen (base L) s)) as [e K]. exists e. intros fuel keep n Hf.
  refine (agrees_mono _ _ _ _ (K fuel keep s n Hf _) _).
  - intros r. split; [apply Ht|]. symmetry. apply seen_shown.
  - intros s' v H r. rewrite seen_shown. apply H.
Qed.
Print Assumptions C88_programs.

(** A program in parts, the environment changed between them: the calculator, which has no environment, runs the parts one after
    the other and predicts the outcome. *)
Fixpoint calculator_parts (B N m : Z) (k : nat) (l : list stmt) (v : cstate) : outcome cstate :=
  match l with
  | [] => Is v
  | p :: r => match crun B N m k p v with Is w => calculator_parts B N m k r w | Crash => Crash | Endless => Endless | Unknown => Unknown end
  end.

Theorem C88_phases : forall ct library L N m k al, (forall E, accurate (fst (library E)) (snd (library E))) -> In (L, N, m) lengths_anywhere ->
  can_double L = true -> (forall j, al j = true) ->
  forall l s, (forall r, tidy (base L) (s r)) ->
  exists enough : nat, forall fuel keep n, (enough <= fuel)%nat ->
  as_predicted (fun s' v => forall r, tidy (base L) (s' r) /\ seen (base L) (s' r) = v r)
    (calculator_parts (base L) N m k (map snd l) (all_seen (base L) s))
    (run_phases L ct library fuel keep k l s al n).
Proof.
  intros ct library L N m k al HA Hin HD Hal l s Ht.
  assert (forall v, exists enough : nat, forall fuel keep s n, (enough <= fuel)%nat -> stored L s v ->
    agrees (stored L) (calculator_parts (base L) N m k (map snd l) v) (run_phases L ct library fuel keep k l s al n)) as K.
  { clear s Ht. induction l as [|[E p] r IH]; intros v.
    - exists 0%nat. intros fuel keep s n _ Hs. exists s, n. split; [reflexivity|exact Hs].
    - cbn [map snd calculator_parts run_phases].
      destruct (crun_run _ L N m (within_environment E ct _ _ L N m (HA E) Hin) HD al Hal k p v) as [e1 K1].
      destruct (crun (base L) N m k p v) as [w| | |] eqn:Ew.
      + destruct (IH w) as [e2 K2]. exists (Nat.max e1 e2). intros fuel keep s n Hf Hs.
        destruct (K1 fuel keep s n ltac:(lia) Hs) as (s1 & n1 & E1 & S1). unfold bind. rewrite E1. apply K2; [lia|exact S1].
      + exists e1. intros fuel keep s n Hf Hs. destruct (K1 fuel keep s n Hf Hs) as (u & E1). exists u. unfold bind. rewrite E1. reflexivity.
      + exists e1. intros fuel keep s n Hf Hs. pose proof (K1 fuel keep s n Hf Hs) as E1. cbn [agrees] in *. unfold bind. rewrite E1. reflexivity.
      + exists 0%nat. intros. exact I. }
  destruct (K (all_seen (base L) s)) as [e K']. exists e. intros fuel keep n Hf.
  refine (agrees_mono _ _ _ _ (K' fuel keep s n Hf _) _).
  - intros r. split; [apply Ht|]. symmetry. apply seen_shown.
  - intros s' v H r. rewrite seen_shown. apply H.
Qed.
Print Assumptions C88_phases.

(** ** Cases *)

(** 12 * 12, times itself rounding down, times itself rounding up with everything flushed *)
Example C88_case : forall ct library al, (forall E, accurate (fst (library E)) (snd (library E))) -> (forall j, al j = true) ->
  exists enough : nat, forall fuel keep n, (enough <= fuel)%nat -> exists s k,
    run_phases base10 ct library fuel keep 5
      [(default_fenv, block [INew 0 BN_POS [1; 2]; IAssign OMul 0 0]); (mkFenv mode_DN false false, Do (IAssign OMul 0 0));
       (mkFenv mode_UP true true, Do (IAssign OMul 0 0))] fresh al n = Ret s k /\
    s 0%nat = mkBN BN_POS [6; 9; 6; 1; 8; 9; 9; 2; 4].
Proof.
  intros ct library al HA Hal.
  assert (forall r, tidy 10 (fresh r)) as Ht by (intros r; split; [constructor|left; discriminate]).
  destruct (C88_phases ct library base10 (2 ^ 32) 47721858 5 al HA ltac:(unfold lengths_anywhere; cbn [In]; auto) eq_refl Hal
    [(default_fenv, block [INew 0 BN_POS [1; 2]; IAssign OMul 0 0]); (mkFenv mode_DN false false, Do (IAssign OMul 0 0));
       (mkFenv mode_UP true true, Do (IAssign OMul 0 0))] fresh Ht) as [e K]. exists e. intros fuel keep n Hf. specialize (K fuel keep n Hf).
  destruct (calculator_parts (base base10) (2 ^ 32) 47721858 5 _ _) as [v| | |] eqn:Ev; try (vm_compute in Ev; discriminate).
  destruct K as (s & j & E & H). exists s, j. split; [exact E|]. destruct (H 0%nat) as [T S].
  apply (C77_no_more 10); [lia|exact T| |].
  - split; [repeat constructor; lia|]. left. unfold canonical. cbn. lia.
  - change (base base10) with 10 in S. rewrite S. vm_compute in Ev. injection Ev as <-. vm_compute. reflexivity.
Qed.

(** the hypotheses of the others: a library accurate in every environment, and numbers of up to 47721858 digits *)
Example C88_case_product : forall E p q, (0 < p)%nat -> Z.of_nat p <= 47721858 -> Z.of_nat (p + q) <= 2 ^ 32 ->
  returns (op_mul base10 (ieee_in E unfused libm_cos libm_sin) 33 (mkBN BN_POS (repeat 9 p)) (mkBN BN_NEG (repeat 9 q)))
    (fun z => signed_value 10 z = - (value 10 (repeat 9 p) * value 10 (repeat 9 q))).
Proof.
  intros E p q Hp0 Hp Hq. set (x := mkBN BN_POS (repeat 9 p)). set (y := mkBN BN_NEG (repeat 9 q)).
  assert (forall n, digits_ok (base base10) (repeat 9 n)) as D by (intros n; apply (maximal_ok base10 n); reflexivity).
  assert (length (data x) = p /\ length (data y) = q) as [Lx Ly] by (split; apply repeat_length).
  eapply returns_mono.
  - refine (C88_per_type E unfused libm_cos libm_sin base10 (2 ^ 32) 47721858 33 x y libm_accurate _ _ _ (D p) (D q) _ _ _ _).
    + unfold lengths_anywhere. cbn [In]. auto.
    + left. reflexivity.
    + right. reflexivity.
    + lia.
    + lia.
    + lia.
    + vm_compute. reflexivity.
  - intros z (_ & _ & V & _). change (base base10) with 10 in V. rewrite V. unfold x, y, signed_value. cbn [desc data]. lia.
Qed.
