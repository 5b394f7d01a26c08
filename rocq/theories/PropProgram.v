(** * Property C47: programs over the integers with all four operations, in IEEE arithmetic

    Programs are the client programs of Machine.v.  Each variable stands for an integer; nothing is assumed about how a
    zero is represented ([] or [0], either sign), because that depends on how it was computed. *)
From Coq Require Import ZArith Lia List Arith.
From Verif Require Import Base Spec Limits Compare AddSub Division Bignum Fourier Multiplication Machine Outcome Wp ValueProof
  AddSubProof BignumProof OperatorProof DivisionProof DivOpProof Conv PropAddSub PropObject PropDivision HistoryProof PropHistory Ieee IeeeProof MulOpProof PropMul.
Import ListNotations.
Open Scope Z_scope.

(** [N], [m]: the limits of C17 on the total number of digits of two factors and on the digits of the shorter one. *)
Definition mul_fits (B N m x y : Z) : Prop :=
  exists p q, Z.abs x < B ^ p /\ Z.abs y < B ^ q /\ 1 <= p /\ 1 <= q /\ p + q <= N /\ Z.min p q <= m.

(** The integer operation, with the conditions under which the library performs it. *)
Definition int_op (B N m : Z) (op : arith_op) (x y z : Z) : Prop :=
  match op with
  | OAdd => (x <> 0 \/ y <> 0) /\ z = x + y
  | OSub => (0 < x * y \/ (y = 0 /\ x <> 0)) /\ z = x - y
  | OMul => (x <> 0 \/ y <> 0) /\ mul_fits B N m x y /\ z = x * y
  | ODiv => y <> 0 /\ (Z.abs x <> Z.abs y \/ Z.abs y = 1) /\ z = Z.quot x y
  end.

Definition int_step (B N m : Z) (i : instr) (v v' : nat -> Z) : Prop :=
  match i with
  | INew r d l => (d = BN_POS \/ d = BN_NEG) /\ digits_ok B l /\ v' = iupd v r (sign_of d * written_value B l)
  | ICopy r t => v' = iupd v r (v t)
  | IMove r t => r <> t /\ v' = iupd (iupd v t 0) r (v t)
  | IClear r => v' = iupd v r 0
  | ISetDesc r d => (d = BN_POS \/ d = BN_NEG) /\ v' = iupd v r (sign_of d * Z.abs (v r))
  | IAssign op r t => exists z, int_op B N m op (v r) (v t) z /\ v' = iupd v r z
  | IBinary op r t u => exists z, int_op B N m op (v t) (v u) z /\ v' = iupd v r z
  | _ => False
  end.

Fixpoint int_runs (B N m : Z) (p : list instr) (v v' : nat -> Z) : Prop :=
  match p with
  | [] => forall r, v' r = v r
  | i :: q => exists w, int_step B N m i v w /\ int_runs B N m q w v'
  end.

Lemma abs_signed B x : 2 <= B -> digits_ok B (data x) -> Z.abs (signed_value B x) = value B (data x).
Proof. intros HB D. pose proof (value_bounds B HB (data x) D). unfold signed_value. destruct (desc x); lia. Qed.

Lemma length_fits B x p : 2 <= B -> good B x -> 1 <= p -> Z.abs (signed_value B x) < B ^ p -> Z.of_nat (length (data x)) <= p.
Proof.
  intros HB (F & D & W) Hp H. rewrite abs_signed in H by auto. destruct W as [C| ->]; [|cbn; lia].
  destruct (data x) as [|a r] eqn:E; [cbn; lia|]. rewrite <- E in *.
  pose proof (value_canonical_lb B HB (data x) D C ltac:(congruence)) as K.
  destruct (Z.le_gt_cases (Z.of_nat (length (data x))) p); auto.
  pose proof (Z.pow_le_mono_r B p (Z.of_nat (length (data x)) - 1) ltac:(lia) ltac:(lia)). lia.
Qed.

Lemma nonzero_nonempty B x : signed_value B x <> 0 -> data x <> [].
Proof. intros H E. apply H. unfold signed_value. rewrite E. destruct (desc x); reflexivity. Qed.

Lemma same_strict_sign B x y : 2 <= B -> good B x -> good B y -> 0 < signed_value B x * signed_value B y -> desc x = desc y.
Proof.
  intros HB (Fx & Dx & _) (Fy & Dy & _) H.
  pose proof (value_bounds B HB (data x) Dx) as [Hx _]. pose proof (value_bounds B HB (data y) Dy) as [Hy _].
  pose proof (Z.mul_nonneg_nonneg _ _ Hx Hy). unfold signed_value in H. destruct Fx as [Ex|Ex], Fy as [Ey|Ey]; rewrite Ex, Ey in *; auto; lia.
Qed.

(** one compound assignment *)
Lemma int_op_assigns ct cosf sinf L N m op x y vx vy z fuel keep : accurate cosf sinf -> In (L, N, m) safe_lengths ->
  can_double L = true ->
  good (base L) x -> signed_value (base L) x = vx ->
  good (base L) (match y with Other z => z | Self => x end) -> signed_value (base L) (match y with Other z => z | Self => x end) = vy ->
  Z.log2 (Z.abs vx) + 2 <= Z.of_nat fuel -> Z.log2_up N < Z.of_nat fuel -> int_op (base L) N m op vx vy z ->
  exists bad, assigns (compound (mkEnv L false (ieee ct cosf sinf) fuel keep) op x y)
    (fun r => good (base L) r /\ signed_value (base L) r = z) bad.
Proof.
  intros HA Hin HD Gx Vx Gy Vy Hf Hm Hop.
  assert (limits_ok L = true) as HL by (unfold can_double in HD; apply andb_true_iff in HD; apply HD).
  pose proof (AddSubProof.HB L HL) as HB.
  assert (forall Q bad, assigns (compound (mkEnv L false (ieee ct cosf sinf) fuel keep) op x y) Q bad ->
     (forall r, Q r -> good (base L) r /\ signed_value (base L) r = z) ->
     exists bad, assigns (compound (mkEnv L false (ieee ct cosf sinf) fuel keep) op x y)
       (fun r => good (base L) r /\ signed_value (base L) r = z) bad) as Key.
  { intros Q bad HQ HI. exists bad. eapply assigns_mono; [exact HQ|exact HI]. }
  destruct op; cbn [int_op] in Hop; cbn [compound eL eDbg eP eFuel] in *.
  - destruct Hop as [H0 ->]. destruct y as [y|]; cbn [adesc adata] in *.
    + apply (Key _ _ (C01_add_assign L x y HL Gx Gy ltac:(right; destruct H0; [left|right]; apply (nonzero_nonempty (base L)); lia))).
      intros r (G & V). split; [exact G|lia].
    + apply (Key _ _ (C02_add_to_itself L x HL Gx)). intros r (G & _ & V). split; [exact G|lia].
  - destruct Hop as [H0 ->]. destruct y as [y|].
    + destruct H0 as [H0|[H0 H1]].
      * assert (desc x = desc y) as Ed by (apply (same_strict_sign (base L)); auto; congruence).
        apply (Key _ _ (C03_sub_assign L x y HL Gx Gy Ed ltac:(left; apply (nonzero_nonempty (base L)); nia))).
        intros r (G & _ & V). split; [exact G|lia].
      * assert (data x <> []) as Nx by (apply (nonzero_nonempty (base L)); lia).
        assert (desc x = desc y \/ desc x <> desc y) as [Ed|Ed] by (destruct (desc x), (desc y); (left; reflexivity) || (right; discriminate)).
        -- apply (Key _ _ (C03_sub_assign L x y HL Gx Gy Ed (or_introl Nx))). intros r (G & _ & V). split; [exact G|lia].
        -- apply (Key _ _ (C05_mixed_sign_sub L x y HL Gx Gy Ed (or_introl Nx))). intros r K. cbv zeta in K.
           destruct K as (G & _ & _ & _ & _ & _ & V). split; [exact G|].
           rewrite (proj2 V); [lia|]. left. pose proof (abs_signed (base L) y HB (proj1 (proj2 Gy))). lia.
    + assert (data x <> []) as Nx by (apply (nonzero_nonempty (base L)); nia).
      apply (Key _ _ (C03_sub_from_itself L x HL (proj1 Gx) (proj1 (proj2 Gx)) Nx)). intros r ->. split.
      * split; [exact (proj1 Gx)|]. split; [constructor|left; apply canonical_nil].
      * unfold signed_value. cbn [desc data value]. destruct (desc x); lia.
  - destruct Hop as (H0 & (p & q & Hp & Hq & Hp1 & Hq1 & Hpq & Hmin) & ->).
    destruct (safe_lengths_numbers L N m Hin) as (_ & HN & Hprec & HM & Hm0 & Hc & _).
    rewrite <- Vx in Hp. rewrite <- Vy in Hq.
    pose proof (length_fits (base L) x p HB Gx Hp1 Hp) as Lx.
    assert (forall y, good (base L) y -> (0 < length (data x) + length (data y))%nat ->
      Z.of_nat (length (data y)) <= q ->
      Z.log2_up (Z.of_nat (length (data x) + length (data y))) < Z.of_nat fuel /\
      103 * ((Z.log2_up (Z.of_nat (length (data x) + length (data y))) + 1) * (sum_squares (data x) + sum_squares (data y) + 1)) <= 2 ^ 53 /\
      (forall k, column_total (base L) (data x) (data y) k < 2 ^ wd L)) as Fits.
    { intros y0 G0 P0 L0. assert (Z.of_nat (length (data x) + length (data y0)) <= N) as Hlen by lia. split; [|split].
      - pose proof (Z.log2_up_le_mono _ _ Hlen). lia.
      - apply (length_precision L _ _ N); auto; [unfold base; lia|apply Gx|apply G0].
      - apply C16_columns_fit; auto; [apply Gx|apply G0|]. eapply Z.le_trans; [|exact Hc].
        apply Z.mul_le_mono_nonneg_r; [unfold base; nia|]. lia. }
    destruct y as [y|].
    + pose proof (length_fits (base L) y q HB Gy Hq1 Hq) as Ly.
      assert (0 < length (data x) + length (data y))%nat as P0.
      { destruct H0 as [H0|H0]; [assert (data x <> []) as K by (apply (nonzero_nonempty (base L)); lia); destruct (data x)
          |assert (data y <> []) as K by (apply (nonzero_nonempty (base L)); lia); destruct (data y)]; cbn; (congruence || lia). }
      destruct (Fits y Gy P0 Ly) as (F1 & F2 & F3).
      refine (Key _ _ (C17_product ct cosf sinf L fuel x y HA HL (proj1 Gx) (proj1 Gy) (proj1 (proj2 Gx)) (proj1 (proj2 Gy)) P0 _ F1 F2 F3) _); [lia|].
      intros r (G & _ & V & _). split; [exact G|]. congruence.
    + pose proof (length_fits (base L) x q HB Gx Hq1 Hq) as Ly.
      assert (0 < length (data x) + length (data x))%nat as P0.
      { assert (data x <> []) as K by (apply (nonzero_nonempty (base L)); lia). destruct (data x); cbn; (congruence || lia). }
      destruct (Fits x Gx P0 Ly) as (F1 & F2 & F3).
      refine (Key _ _ (C17_square ct cosf sinf L fuel x HA HL (proj1 Gx) (proj1 (proj2 Gx)) P0 _ F1 F2 F3) _); [lia|].
      intros r (G & _ & _ & V). split; [exact G|]. congruence.
  - destruct Hop as (H0 & H1 & ->). pose proof (abs_signed (base L) x HB (proj1 (proj2 Gx))) as Ax.
    destruct y as [y|].
    + pose proof (abs_signed (base L) y HB (proj1 (proj2 Gy))) as Ay.
      destruct (canonical_of_weak (base L) (data y)) as [Cy Ny]; [apply Gy|lia|].
      refine (Key _ _ (C24_division L fuel x y HD Gx Gy Cy Ny _ _) _).
      * rewrite <- Ax, Vx. exact Hf.
      * rewrite <- Ax, <- Ay, Vx, Vy. exact H1.
      * intros r (G & V). split; [exact G|]. congruence.
    + assert (value (base L) (data x) = 1) as V1 by lia.
      assert (data x = [1]) as Ex.
      { destruct (canonical_of_weak (base L) (data x)) as [Cx Nx]; [apply Gx|lia|].
        apply (value_inj _ HB); auto; [apply Gx|constructor; [lia|constructor]|unfold canonical; cbn; lia|].
        rewrite V1. cbn [value]. ring. }
      apply (Key (fun r => r = mkBN BN_POS [1]) (mkBN BN_POS_INF [])).
      { intros al n. unfold op_div_assign. cbn [adata adesc]. rewrite Ex. rewrite (bmin_wrap _ HL), (one_wrap _ HL).
        destruct (proj1 Gx) as [-> | ->]; (split; [reflexivity|lia]). }
      intros r ->. split.
      * split; [left; reflexivity|]. cbn [data]. split; [constructor; [lia|constructor]|left; unfold canonical; cbn; lia].
      * rewrite <- Vx, <- Vy. rewrite Z.quot_same by lia. unfold signed_value. cbn [desc data value]. ring.
Qed.

Lemma int_op_run ct cosf sinf L N m op x y vx vy z fuel keep al n : accurate cosf sinf -> In (L, N, m) safe_lengths ->
  can_double L = true -> (forall k, al k = true) ->
  good (base L) x -> signed_value (base L) x = vx ->
  good (base L) (match y with Other z => z | Self => x end) -> signed_value (base L) (match y with Other z => z | Self => x end) = vy ->
  Z.log2 (Z.abs vx) + 2 <= Z.of_nat fuel -> Z.log2_up N < Z.of_nat fuel -> int_op (base L) N m op vx vy z ->
  exists r n', compound (mkEnv L false (ieee ct cosf sinf) fuel keep) op x y al n = Ret (r, None) n' /\
    good (base L) r /\ signed_value (base L) r = z.
Proof.
  intros HA Hin HD Hal Gx Vx Gy Vy Hf Hm Hop.
  destruct (int_op_assigns ct cosf sinf L N m op x y vx vy z fuel keep HA Hin HD Gx Vx Gy Vy Hf Hm Hop) as [bad H].
  exact (assigns_run _ _ _ al n H Hal).
Qed.

Definition needs (N : Z) (i : instr) (v : nat -> Z) : nat :=
  match i with
  | IAssign _ r _ => Z.to_nat (Z.log2 (Z.abs (v r)) + 2)
  | IBinary _ _ t _ => Z.to_nat (Z.log2 (Z.abs (v t)) + 2)
  | _ => 0%nat
  end.

Lemma int_step_run ct cosf sinf L N m i s v w fuel keep al n : accurate cosf sinf -> In (L, N, m) safe_lengths ->
  can_double L = true -> (forall k, al k = true) -> (needs N i v <= fuel)%nat -> Z.log2_up N < Z.of_nat fuel ->
  represents (base L) s v -> int_step (base L) N m i v w ->
  exists s' n', step (mkEnv L false (ieee ct cosf sinf) fuel keep) i s al n = Ret s' n' /\ represents (base L) s' w.
Proof.
  intros HA Hin HD Hal Hf Hm Hs Hi.
  assert (limits_ok L = true) as HL by (unfold can_double in HD; apply andb_true_iff in HD; apply HD).
  pose proof (AddSubProof.HB L HL) as HB.
  destruct i; try contradiction; cbn [step int_step needs eL eKeep] in *.
  - destruct Hi as (Hd & Hl & ->). destruct (make_run L d l al n HL Hd Hl Hal) as [n' Em].
    destruct (make_good L d l HL Hd Hl) as [G V]. eexists _, n'. split; [apply (store_run _ _ _ _ _ _ _ Em)|]. apply represents_upd; auto.
  - subst w. unfold bind, operand. destruct (Hs s0) as [G V]. destruct (Nat.eqb_spec s0 r) as [->|Ne].
    + eexists _, n. split; [reflexivity|]. apply represents_upd; auto.
    + rewrite (proj1 (C40_copy_assign _ _ al n)). rewrite Hal. eexists _, _. split; [reflexivity|]. apply represents_upd; auto.
  - destruct Hi as [Ne ->]. rewrite (proj2 (Nat.eqb_neq _ _) (not_eq_sym Ne)). eexists _, n. split; [reflexivity|].
    destruct (Hs s0). apply represents_upd; auto. apply represents_upd; auto; apply good_default.
  - destruct Hi as (z & Hop & ->). destruct (Hs r) as [Gr Vr], (Hs s0) as [Gt Vt].
    assert (good (base L) (match operand s r s0 with Other z => z | Self => s r end)) as Ga
      by (unfold operand; destruct (s0 =? r)%nat; auto).
    assert (signed_value (base L) (match operand s r s0 with Other z => z | Self => s r end) = v s0) as Va.
    { unfold operand. destruct (Nat.eqb_spec s0 r) as [->|]; auto. }
    destruct (int_op_run ct cosf sinf L N m op (s r) (operand s r s0) (v r) (v s0) z fuel keep al n HA Hin HD Hal Gr Vr Ga Va ltac:(lia) Hm Hop)
      as (r' & n' & Er & G' & V').
    unfold bind. rewrite Er. eexists _, n'. split; [reflexivity|]. apply represents_upd; auto.
  - destruct Hi as (z & Hop & ->). destruct (Hs s0) as [Gr Vr], (Hs t) as [Gt Vt].
    destruct (int_op_run ct cosf sinf L N m op (s s0) (Other (s t)) (v s0) (v t) z fuel keep al (S n) HA Hin HD Hal Gr Vr Gt Vt ltac:(lia) Hm Hop)
      as (r' & n' & Er & G' & V').
    assert (binary (compound (mkEnv L false (ieee ct cosf sinf) fuel keep) op) (s s0) (s t) al n = Ret r' n') as Eb
      by (rewrite binary_eq, Hal, Er; reflexivity).
    eexists _, n'. split; [apply (store_run _ _ _ _ _ _ _ Eb)|]. apply represents_upd; auto.
  - destruct Hi as [Hd ->]. destruct (Hs r) as [(F & D & W) V]. eexists _, n. split; [reflexivity|].
    assert (setDescriptor (s r) d = mkBN d (data (s r))) as -> by (destruct Hd as [-> | ->]; reflexivity).
    apply represents_upd; auto.
    + split; [exact Hd|]. split; assumption.
    + rewrite <- V, abs_signed by auto. unfold signed_value. cbn [desc data]. destruct Hd as [-> | ->]; cbn [sign_of]; lia.
  - subst w. eexists _, n. split; [reflexivity|]. apply represents_upd; auto; apply good_default.
Qed.

(** Every program all of whose steps meet the conditions of [int_op] returns normally (no exception, no undefined behaviour,
    no endless loop) with the integers the mathematical program computes; for every accurate mathematical library, every
    allocator that does not fail and every initial representation of the values. *)
Theorem C47_integer_programs : forall ct cosf sinf L N m p v v', accurate cosf sinf -> In (L, N, m) safe_lengths ->
  can_double L = true -> int_runs (base L) N m p v v' ->
  exists enough : nat, forall fuel keep al n s, (enough <= fuel)%nat -> (forall k, al k = true) -> represents (base L) s v ->
  exists s' n', exec (mkEnv L false (ieee ct cosf sinf) fuel keep) p s al n = Ret s' n' /\ represents (base L) s' v'.
Proof.
  intros ct cosf sinf L N m p. induction p as [|i p IH]; intros v v' HA Hin HD Hp.
  - cbn [int_runs] in Hp. exists 0%nat. intros fuel keep al n s _ _ Hs. exists s, n. split; [reflexivity|].
    intros r. rewrite Hp. apply Hs.
  - cbn [int_runs] in Hp. destruct Hp as (w & Hi & Hp). destruct (IH w v' HA Hin HD Hp) as [e2 K2].
    exists (Nat.max (Z.to_nat (Z.log2_up N + 1)) (Nat.max (needs N i v) e2)). intros fuel keep al n s Hf Hal Hs.
    destruct (int_step_run ct cosf sinf L N m i s v w fuel keep al n HA Hin HD Hal ltac:(lia) ltac:(lia) Hs Hi) as (s1 & n1 & E1 & H1).
    destruct (K2 fuel keep al n1 s1 ltac:(lia) Hal H1) as (s' & n' & E2 & H2).
    exists s', n'. split; [|exact H2]. cbn [exec]. unfold bind. rewrite E1. exact E2.
Qed.
Print Assumptions C47_integer_programs.

(** tests/arithmetic_test.cpp:76-88: a += b; a -= b; a *= b; a /= b *)
Definition arithmetic_test (da db : list Z) : list instr :=
  [INew 0 BN_POS da; INew 1 BN_POS db; IAssign OAdd 0 1; IAssign OSub 0 1; IAssign OMul 0 1; IAssign ODiv 0 1].

Lemma written_nonneg B l : 2 <= B -> digits_ok B l -> 0 <= written_value B l.
Proof.
  intros HB D. rewrite <- value_rev. apply (value_bounds B HB). apply Forall_rev, D.
Qed.

Lemma arithmetic_test_runs L N m da db : limits_ok L = true -> digits_ok (base L) da -> digits_ok (base L) db ->
  let a := written_value (base L) da in let b := written_value (base L) db in
  0 < a -> 0 < b -> mul_fits (base L) N m a b -> (a <> 1 \/ b = 1) ->
  int_runs (base L) N m (arithmetic_test da db) (fun _ => 0) (iupd (iupd (fun _ => 0) 0 a) 1 b).
Proof.
  intros HL Da Db a b Ha Hb Hm H1. unfold arithmetic_test. cbn [int_runs int_step].
  eexists. split; [split; [left; reflexivity|split; [exact Da|reflexivity]]|].
  eexists. split; [split; [left; reflexivity|split; [exact Db|reflexivity]]|].
  fold a b. unfold iupd; cbn [sign_of Nat.eqb]. rewrite !Z.mul_1_l.
  eexists. split; [exists (a + b); split; [split; [left; lia|reflexivity]|reflexivity]|]. cbn [Nat.eqb].
  eexists. split; [exists a; split; [split; [left; nia|lia]|reflexivity]|]. cbn [Nat.eqb].
  eexists. split; [exists (a * b); split; [split; [left; lia|split; [exact Hm|reflexivity]]|reflexivity]|]. cbn [Nat.eqb].
  eexists. split; [exists a; split; [split; [lia|split; [|]]|reflexivity]|].
  - rewrite !Z.abs_eq by nia. destruct H1 as [H1|H1]; [left; nia|right; exact H1].
  - symmetry. apply Z.quot_mul. lia.
  - intros [|[|r]]; reflexivity.
Qed.

(** A positive number has one representation: the one the constructor makes. *)
Lemma positive_unique L x l : limits_ok L = true -> digits_ok (base L) l -> good (base L) x -> 0 < written_value (base L) l ->
  signed_value (base L) x = written_value (base L) l -> x = mkBN BN_POS (rev (strip l)).
Proof.
  intros HL Dl Gx Hp V. pose proof (AddSubProof.HB L HL) as HB.
  assert (desc x = BN_POS) as Ed by (apply (desc_of_value (base L)); auto; lia).
  destruct (make_good L BN_POS l HL (or_introl eq_refl) Dl) as [Gm Vm]. unfold signed_value in V, Vm. rewrite Ed in V. cbn [desc data sign_of] in Vm.
  destruct x as [d w]. cbn [desc data] in *. subst d. f_equal.
  destruct (canonical_of_weak (base L) w) as [Cw _]; [apply Gx|lia|].
  apply (value_inj (base L) HB); auto; [apply Gx|apply Gm|apply (canonical_strip L)|lia].
Qed.

Lemma exec_app E p q s al n s' n' : exec E p s al n = Ret s' n' -> exec E (p ++ q) s al n = exec E q s' al n'.
Proof.
  revert s n. induction p as [|i p IH]; intros s n H.
  - injection H as -> ->. reflexivity.
  - cbn [exec app] in *. unfold bind in *. destruct (step E i s al n) as [s1 n1| | |]; try discriminate. apply IH, H.
Qed.

(** For every positive a other than 1 and every positive b (within the length limits of the multiplication) the test ends
    with a restored, digit for digit, and b unchanged. *)
Theorem C47_arithmetic_test : forall ct cosf sinf L N m da db, accurate cosf sinf -> In (L, N, m) safe_lengths ->
  can_double L = true -> digits_ok (base L) da -> digits_ok (base L) db ->
  let a := written_value (base L) da in let b := written_value (base L) db in
  0 < a -> 0 < b -> mul_fits (base L) N m a b -> (a <> 1 \/ b = 1) ->
  exists enough : nat, forall fuel keep al n, (enough <= fuel)%nat -> (forall k, al k = true) ->
  exists s n', exec (mkEnv L false (ieee ct cosf sinf) fuel keep) (arithmetic_test da db) fresh al n = Ret s n' /\
    s 0%nat = mkBN BN_POS (rev (strip da)) /\ s 1%nat = mkBN BN_POS (rev (strip db)).
Proof.
  intros ct cosf sinf L N m da db HA Hin HD Da Db a b Ha Hb Hm H1.
  assert (limits_ok L = true) as HL by (unfold can_double in HD; apply andb_true_iff in HD; apply HD).
  destruct (C47_integer_programs ct cosf sinf L N m _ _ _ HA Hin HD (arithmetic_test_runs L N m da db HL Da Db Ha Hb Hm H1)) as [e K].
  exists e. intros fuel keep al n Hf Hal. destruct (K fuel keep al n fresh Hf Hal ltac:(intros r; apply good_default)) as (s & n' & E & R).
  exists s, n'. split; [exact E|]. destruct (R 0%nat) as [G0 V0], (R 1%nat) as [G1 V1]. split; apply (positive_unique L); auto.
Qed.
Print Assumptions C47_arithmetic_test.

(** If a is 1 and b is not, the test ends with 0 in place of 1. *)
Theorem C47_arithmetic_test_one : forall ct cosf sinf L N m da db, accurate cosf sinf -> In (L, N, m) safe_lengths ->
  can_double L = true -> digits_ok (base L) da -> digits_ok (base L) db ->
  written_value (base L) da = 1 -> 1 < written_value (base L) db -> mul_fits (base L) N m 1 (written_value (base L) db) ->
  exists enough : nat, forall fuel keep al n, (enough <= fuel)%nat -> (forall k, al k = true) ->
  exists s n', exec (mkEnv L false (ieee ct cosf sinf) fuel keep) (arithmetic_test da db) fresh al n = Ret s n' /\
    s 0%nat = mkBN BN_POS [0].
Proof.
  intros ct cosf sinf L N m da db HA Hin HD Da Db Ha Hb Hm.
  assert (limits_ok L = true) as HL by (unfold can_double in HD; apply andb_true_iff in HD; apply HD).
  pose proof (AddSubProof.HB L HL) as HB.
  assert (int_runs (base L) N m (firstn 5 (arithmetic_test da db)) (fun _ => 0)
    (iupd (iupd (fun _ => 0) 0 (written_value (base L) db)) 1 (written_value (base L) db))) as Hr.
  { unfold arithmetic_test. cbn [firstn int_runs int_step].
    eexists. split; [split; [left; reflexivity|split; [exact Da|reflexivity]]|].
    eexists. split; [split; [left; reflexivity|split; [exact Db|reflexivity]]|].
    rewrite Ha. set (b := written_value (base L) db) in *. unfold iupd; cbn [sign_of Nat.eqb]. rewrite !Z.mul_1_l.
    eexists. split; [exists (1 + b); split; [split; [left; lia|reflexivity]|reflexivity]|]. cbn [Nat.eqb].
    eexists. split; [exists 1; split; [split; [left; nia|lia]|reflexivity]|]. cbn [Nat.eqb].
    eexists. split; [exists b; split; [split; [left; lia|split; [exact Hm|lia]]|reflexivity]|]. cbn [Nat.eqb].
    intros [|[|r]]; reflexivity. }
  destruct (C47_integer_programs ct cosf sinf L N m _ _ _ HA Hin HD Hr) as [e K].
  exists e. intros fuel keep al n Hf Hal.
  destruct (K fuel keep al n fresh Hf Hal ltac:(intros r; apply good_default)) as (s & n' & E & R).
  destruct (R 0%nat) as [G0 V0], (R 1%nat) as [G1 V1].
  assert (s 0%nat = mkBN BN_POS (rev (strip db))) as E0 by (apply (positive_unique L); auto; lia).
  assert (s 1%nat = mkBN BN_POS (rev (strip db))) as E1 by (apply (positive_unique L); auto; lia).
  assert (Cb : canonical (rev (strip db))) by apply (canonical_strip L).
  assert (value (base L) (rev (strip db)) = written_value (base L) db) as Vb.
  { rewrite E0 in V0. exact V0. }
  change (arithmetic_test da db) with (firstn 5 (arithmetic_test da db) ++ [IAssign ODiv 0 1]).
  rewrite (exec_app _ _ _ _ _ _ _ _ E). cbn [exec step compound eL eDbg eFuel]. unfold operand. cbn [Nat.eqb]. rewrite E0, E1.
  assert (rev (strip db) <> []) as N0 by (intros Ee; rewrite Ee in Vb; cbn in Vb; lia).
  assert (rev (strip db) <> [1]) as N1 by (intros Ee; rewrite Ee in Vb; cbn [value] in Vb; lia).
  destruct (assigns_run _ _ _ al n' (C24_equal_magnitudes L fuel (mkBN BN_POS (rev (strip db))) (mkBN BN_POS (rev (strip db))) HD
    (or_introl eq_refl) (or_introl eq_refl) eq_refl Cb N0 N1) Hal) as (z & n2 & Ez & Hz & Hs & _).
  unfold bind. rewrite Ez. eexists _, _. split; [reflexivity|]. unfold upd. cbn [Nat.eqb fst]. destruct z as [d w]. cbn [desc data] in *.
  rewrite Hz, (Hs eq_refl). reflexivity.
Qed.
Print Assumptions C47_arithmetic_test_one.

(** The two numbers of tests/arithmetic_test.cpp:76-78 meet the conditions. *)
Definition test_a : list Z :=
  [1;9;8;1;0;9;8;3;0;9;8;5;1;0;9;2;8;5;0;1;9;2;8;5;1;0;2;9;5;8;1;0;2;9;5;8;1;2;0;9;5;8;1;0;9;2;5;8;1;2;0;9;5;8;1;2;0;9;5;8;1;0;2;9;5;8;1;2;0;
   9;5;8;1;2;0;9;8;5;6;1;2;0;8;5;6;1;2;0;9;5;8;1;2;0;9;5;8;1;2;0;9;5;8;1;2;0;9;5;8].
Definition test_b : list Z :=
  [3;9;2;4;7;5;0;5;1;3;2;9;4;8;5;6;6;9;4;3;6;2;4;5;4;0;3;6;8;3;3;1;6;4;1;2;8;4;6;4;5;3;6;4;7;2;0;7;1;6;4;8;7;2;5;6;5;2;5;9;2;6;1;2;6;4;0;4;1;9;
   8;8;1;7;4;0].
Example C47_case : exists enough : nat, forall fuel, (enough <= fuel)%nat ->
  exists s n, run (exec (mkEnv base10 false (ieee unfused libm_cos libm_sin) fuel false) (arithmetic_test test_a test_b) fresh) = Ret s n /\
    s 0%nat = mkBN BN_POS (rev test_a).
Proof.
  assert (digits_ok (base base10) test_a /\ digits_ok (base base10) test_b) as [Da Db].
  { split; apply Forall_forall; intros d Hd; cbn in Hd; change (base base10) with 10; intuition lia. }
  assert (mul_fits (base base10) (2 ^ 32) 47721858 (written_value (base base10) test_a) (written_value (base base10) test_b)) as Hm.
  { exists 110, 80. repeat split; vm_compute; congruence. }
  destruct (C47_arithmetic_test unfused libm_cos libm_sin base10 (2 ^ 32) 47721858 test_a test_b libm_accurate
    ltac:(unfold safe_lengths; cbn [In]; auto) eq_refl Da Db ltac:(vm_compute; reflexivity) ltac:(vm_compute; reflexivity) Hm
    ltac:(left; vm_compute; discriminate)) as [e K].
  exists e. intros fuel Hf. destruct (K fuel false never_fails 0%nat Hf (fun _ => eq_refl)) as (s & n & E & H0 & _).
  exists s, n. split; [exact E|]. rewrite H0. reflexivity.
Qed.
