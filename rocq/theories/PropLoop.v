(** * Property C50: structured programs over the natural numbers

    Programs with branches and loops (While.v), all four operations, in IEEE arithmetic.  The mathematical counterpart is a
    big-step semantics over natural numbers; it has no rule for the operations and comparisons the library gets wrong. *)
From Coq Require Import ZArith Lia List Arith.
From Verif Require Import Base Spec Limits Compare AddSub Division Bignum Fourier Multiplication Machine While Outcome Wp ValueProof
  AddSubProof BignumProof OperatorProof DivisionProof DivOpProof Conv PropAddSub PropCompare PropObject PropDivision HistoryProof PropHistory
  Ieee IeeeProof MulOpProof PropMul PropProgram EuclidProof.
Import ListNotations.
Open Scope Z_scope.

(** A state: the number in each variable, and whether a zero there is known to be stored without digits. *)
Record nstate := mkNS { val : nat -> Z; clean : nat -> bool }.
Definition bupd (c : nat -> bool) (r : nat) (b : bool) : nat -> bool := fun i => if (i =? r)%nat then b else c i.
Definition set (s : nstate) (r : nat) (v : Z) (b : bool) : nstate := mkNS (iupd (val s) r v) (bupd (clean s) r b).

(** x op y = z, and whether a zero result is stored without digits *)
Definition nat_result (B N m : Z) (op : arith_op) (x y z : Z) (b : bool) : Prop :=
  match op with
  | OAdd => z = x + y /\ b = false
  | OSub => 0 < x /\ y <= x /\ z = x - y /\ b = true
  | OMul => (0 < x \/ 0 < y) /\ mul_fits B N m x y /\ z = x * y /\ b = true
  | ODiv => 0 < y /\ (x <> y \/ y = 1) /\ z = x / y /\ b = false
  end.

Definition nat_instr (B N m : Z) (i : instr) (s s' : nstate) : Prop :=
  match i with
  | INew r d l => d = BN_POS /\ digits_ok B l /\ s' = set s r (written_value B l) true
  | ICopy r t => s' = set s r (val s t) (clean s t)
  | IMove r t => r <> t /\ s' = set (set s t 0 true) r (val s t) (clean s t)
  | IClear r => s' = set s r 0 true
  | ISetDesc r d => d = BN_POS /\ s' = s
  | IAssign op r t => exists z b, nat_result B N m op (val s r) (val s t) z b /\ s' = set s r z b
  | IBinary op r t u => exists z b, nat_result B N m op (val s t) (val s u) z b /\ s' = set s r z b
  | _ => False
  end.

(** comparisons: not of a zero that may be stored as a digit, and not < or > (unsound, C10) *)
Definition usable (s : nstate) (r : nat) : Prop := 0 < val s r \/ clean s r = true.
Definition nat_test (c : comparison) (s : nstate) (x y : nat) (b : bool) : Prop :=
  usable s x /\ usable s y /\
  match c with
  | CEq => b = (val s x =? val s y)
  | CNe => b = negb (val s x =? val s y)
  | CGe => b = (val s y <=? val s x)
  | CLe => b = (val s x <=? val s y)
  | CGt | CLt => False
  end.

Inductive nat_run (B N m : Z) : stmt -> nstate -> nstate -> Prop :=
| NDo i s s' : nat_instr B N m i s s' -> nat_run B N m (Do i) s s'
| NSeq p q s s1 s' : nat_run B N m p s s1 -> nat_run B N m q s1 s' -> nat_run B N m (Seq p q) s s'
| NIf c x y p q s b s' : nat_test c s x y b -> nat_run B N m (if b then p else q) s s' -> nat_run B N m (If c x y p q) s s'
| NStop c x y p s : nat_test c s x y false -> nat_run B N m (While c x y p) s s
| NAgain c x y p s s1 s' : nat_test c s x y true -> nat_run B N m p s s1 -> nat_run B N m (While c x y p) s1 s' ->
    nat_run B N m (While c x y p) s s'.

(** the variables store the state *)
Definition stores_at (B : Z) (s : regs) (v : nstate) (r : nat) : Prop :=
  desc (s r) = BN_POS /\ digits_ok B (data (s r)) /\ weak_canonical (data (s r)) /\ value B (data (s r)) = val v r /\
  (clean v r = true -> canonical (data (s r))).
Definition stores (B : Z) (s : regs) (v : nstate) : Prop := forall r, stores_at B s v r.

Lemma stores_upd B s v r x z b : stores B s v -> desc x = BN_POS -> good B x -> value B (data x) = z -> (b = true -> canonical (data x)) ->
  stores B (upd s r x) (set v r z b).
Proof.
  intros H D (_ & G1 & G2) V C i. specialize (H i). unfold stores_at in *. unfold upd, set, iupd, bupd. cbn [val clean].
  destruct (i =? r)%nat; auto.
Qed.

Lemma stores_good B s v r : stores B s v -> desc (s r) = BN_POS /\ good B (s r) /\ value B (data (s r)) = val v r.
Proof. intros H. destruct (H r) as (D & O & W & V & _). repeat split; auto. left; auto. Qed.

Lemma usable_nat B s v r : stores B s v -> usable v r -> is_nat B (s r) (val v r).
Proof.
  intros H [U|U]; destruct (H r) as (D & O & W & V & C).
  - destruct (canonical_of_weak B (data (s r)) W ltac:(lia)) as [K _]. repeat split; auto.
  - repeat split; auto.
Qed.

Lemma test_run B s v c x y b : 2 <= B -> stores B s v -> nat_test c v x y b -> answers (compare c (s x) (s y)) b.
Proof.
  intros HB Hs (Ux & Uy & Hb). pose proof (usable_nat B s v x Hs Ux) as Nx. pose proof (usable_nat B s v y Hs Uy) as Ny.
  destruct c; cbn [compare]; try contradiction; subst b.
  - pose proof (is_nat_ne B _ _ _ _ HB Nx Ny) as K. destruct (C08_eq_is_representation_equality (s x) (s y)) as (b & Ke & Kn & _).
    pose proof (Kn never_fails 0%nat) as E1. rewrite (K never_fails 0%nat) in E1. injection E1 as E1.
    replace (val v x =? val v y) with b; [exact Ke|]. destruct b, (val v x =? val v y); auto; discriminate.
  - apply (is_nat_ne B); auto.
  - apply (is_nat_ge B); auto.
  - destruct Nx as (D & O & C & V), Ny as (D' & O' & C' & V').
    destruct (C09_ge_le B _ _ HB D D' O O' C C') as [_ K]. rewrite V, V' in K. exact K.
Qed.

(** one compound assignment *)
Lemma nat_result_run ct cosf sinf L N m op x y vx vy z b fuel keep al n : accurate cosf sinf -> In (L, N, m) safe_lengths ->
  can_double L = true -> (forall k, al k = true) ->
  desc x = BN_POS -> good (base L) x -> value (base L) (data x) = vx ->
  adesc x y = BN_POS -> good (base L) (match y with Other z => z | Self => x end) -> value (base L) (adata x y) = vy ->
  Z.log2 vx + 2 <= Z.of_nat fuel -> Z.log2_up N < Z.of_nat fuel -> nat_result (base L) N m op vx vy z b ->
  exists r n', compound (mkEnv L false (ieee ct cosf sinf) fuel keep) op x y al n = Ret (r, None) n' /\
    desc r = BN_POS /\ good (base L) r /\ value (base L) (data r) = z /\ (b = true -> canonical (data r)).
Proof.
  intros HA Hin HD Hal Dx Gx Vx Dy Gy Vy Hf Hm Hop. set (E := mkEnv L false (ieee ct cosf sinf) fuel keep).
  assert (limits_ok L = true) as HL by (unfold can_double in HD; apply andb_true_iff in HD; apply HD).
  pose proof (AddSubProof.HB L HL) as HB.
  assert (0 <= vx) as Px by (rewrite <- Vx; apply (value_bounds _ HB), Gx).
  assert (0 <= vy) as Py. { rewrite <- Vy. apply (value_bounds _ HB). destruct y; apply Gy. }
  pose proof (nat_op E op x y vx vy al n HD eq_refl Hal Dx Gx Vx Dy Gy Vy Hf) as K. cbn [eL E] in K.
  destruct op; cbn [nat_result] in Hop.
  - destruct Hop as [-> ->]. destruct (K I) as (r & n' & Er & Dr & Gr & Vr). exists r, n'. repeat split; auto; try apply Gr. discriminate.
  - destruct Hop as (H0 & H1 & -> & ->). destruct (K (conj H0 H1)) as (r & n' & Er & Dr & Gr & Vr). exists r, n'.
    split; [exact Er|]. split; [exact Dr|]. split; [exact Gr|]. split; [exact Vr|]. intros _.
    assert (data x <> []) as Nx by (intros Ee; rewrite Ee in Vx; cbn in Vx; lia).
    unfold compound in Er. cbn [eL eDbg E] in Er. destruct y as [y|]; cbn [adesc adata] in *.
    + destruct (assigns_run _ _ _ al n (C03_sub_assign L x y HL Gx Gy (eq_trans Dx (eq_sym Dy)) (or_introl Nx)) Hal) as (r' & n2 & E' & _ & C' & _).
      rewrite E' in Er. injection Er as -> _. exact C'.
    + destruct (assigns_run _ _ _ al n (C03_sub_from_itself L x HL (proj1 Gx) (proj1 (proj2 Gx)) Nx) Hal) as (r' & n2 & E' & ->).
      rewrite E' in Er. injection Er as <- _. apply canonical_nil.
  - destruct Hop as (H0 & Hfit & -> & ->). clear K.
    assert (signed_value (base L) x = vx) as Sx by (unfold signed_value; rewrite Dx; exact Vx).
    assert (signed_value (base L) (match y with Other z => z | Self => x end) = vy) as Sy.
    { unfold signed_value. destruct y; cbn [adesc adata] in *; rewrite Dy; exact Vy. }
    destruct (int_op_run ct cosf sinf L N m OMul x y vx vy (vx * vy) fuel keep al n HA Hin HD Hal Gx Sx Gy Sy
      ltac:(rewrite Z.abs_eq by lia; exact Hf) Hm) as (r & n' & Er & Gr & Vr); [cbn [int_op]; repeat split; [lia|exact Hfit]|].
    assert (desc r = BN_POS /\ canonical (data r)) as [Dr Cr].
    { destruct Hfit as (p & q & Hp & Hq & Hp1 & Hq1 & Hpq & Hmin).
      destruct (safe_lengths_numbers L N m Hin) as (_ & HN & Hprec & HM & Hm0 & Hc & _).
      rewrite <- Sx in Hp. rewrite <- Sy in Hq.
      pose proof (length_fits (base L) x p HB Gx Hp1 Hp) as Lx.
      assert (forall y, good (base L) y -> (0 < length (data x) + length (data y))%nat ->
        Z.of_nat (length (data y)) <= q ->
        Z.log2_up (Z.of_nat (length (data x) + length (data y))) < Z.of_nat fuel /\
        103 * ((Z.log2_up (Z.of_nat (length (data x) + length (data y))) + 1) * (sum_squares (data x) + sum_squares (data y) + 1)) <= 2 ^ 53 /\
        (forall k, column_total (base L) (data x) (data y) k < 2 ^ wd L)) as Fits.
      { intros y0 G0 P0 L0. assert (Z.of_nat (length (data x) + length (data y0)) <= N) as Hlen by lia. split; [|split].
        - pose proof (Z.log2_up_le_mono _ _ Hlen). lia.
        - apply (length_precision L _ _ N); auto; [unfold base; lia|apply Gx|apply G0].
        - apply C16_columns_fit; auto; [apply Gx|apply G0|]. eapply Z.le_trans; [|exact Hc].
          apply Z.mul_le_mono_nonneg_r; [unfold base; nia|]. lia. }
      unfold compound in Er. cbn [eL eP eFuel] in Er. destruct y as [y|]; cbn [adesc adata] in *.
      - pose proof (length_fits (base L) y q HB Gy Hq1 Hq) as Ly.
        assert (0 < length (data x) + length (data y))%nat as P0.
        { destruct (data x) as [|a u] eqn:Ex; [|cbn; lia]. destruct (data y) as [|c w] eqn:Ey; [|cbn; lia]. cbn in Vx, Vy. lia. }
        destruct (Fits y Gy P0 Ly) as (F1 & F2 & F3).
        destruct (assigns_run _ _ _ al n (C17_product ct cosf sinf L fuel x y HA HL (proj1 Gx) (proj1 Gy) (proj1 (proj2 Gx)) (proj1 (proj2 Gy)) P0
          ltac:(lia) F1 F2 F3) Hal) as (r' & n2 & E' & _ & C' & _ & D').
        rewrite E' in Er. injection Er as -> _. split; [apply D'; congruence|exact C'].
      - pose proof (length_fits (base L) x q HB Gx Hq1 Hq) as Ly.
        assert (0 < length (data x) + length (data x))%nat as P0.
        { destruct (data x) as [|a u] eqn:Ex; [|cbn; lia]. cbn in Vx, Vy. lia. }
        destruct (Fits x Gx P0 Ly) as (F1 & F2 & F3).
        destruct (assigns_run _ _ _ al n (C17_square ct cosf sinf L fuel x HA HL (proj1 Gx) (proj1 (proj2 Gx)) P0 ltac:(lia) F1 F2 F3) Hal)
          as (r' & n2 & E' & _ & C' & D' & _).
        rewrite E' in Er. injection Er as -> _. split; [exact D'|exact C']. }
    exists r, n'. split; [exact Er|]. split; [exact Dr|]. split; [exact Gr|]. split; [|intros _; exact Cr].
    unfold signed_value in Vr. rewrite Dr in Vr. exact Vr.
  - destruct Hop as (H0 & H1 & -> & ->). destruct (K (conj H0 H1)) as (r & n' & Er & Dr & Gr & Vr). exists r, n'. repeat split; auto; try apply Gr. discriminate.
Qed.

Lemma nat_instr_run ct cosf sinf L N m i v w : accurate cosf sinf -> In (L, N, m) safe_lengths -> can_double L = true ->
  nat_instr (base L) N m i v w ->
  exists e, forall fuel keep s al n, (e <= fuel)%nat -> (forall k, al k = true) -> stores (base L) s v ->
  exists s' n', step (mkEnv L false (ieee ct cosf sinf) fuel keep) i s al n = Ret s' n' /\ stores (base L) s' w.
Proof.
  intros HA Hin HD Hi.
  assert (limits_ok L = true) as HL by (unfold can_double in HD; apply andb_true_iff in HD; apply HD).
  pose proof (AddSubProof.HB L HL) as HB. pose proof (Z.log2_up_nonneg N) as LN.
  exists (Z.to_nat (Z.log2_up N + 1) + match i with
    | IAssign _ r _ => Z.to_nat (Z.log2 (val v r) + 2) | IBinary _ _ t _ => Z.to_nat (Z.log2 (val v t) + 2) | _ => 0 end)%nat.
  intros fuel keep s al n Hf Hal Hs.
  destruct i; try contradiction; cbn [step nat_instr eL eKeep] in *.
  - destruct Hi as (-> & Hl & ->). destruct (make_run L BN_POS l al n HL (or_introl eq_refl) Hl Hal) as [n' Em].
    destruct (make_good L BN_POS l HL (or_introl eq_refl) Hl) as [G V]. eexists _, n'. split; [apply (store_run _ _ _ _ _ _ _ Em)|].
    apply stores_upd; auto; [|intros _; apply (canonical_strip L)]. unfold signed_value in V. cbn [desc data sign_of] in *. lia.
  - rewrite Hi. unfold bind, operand. destruct (stores_good _ _ _ s0 Hs) as (D & G & V). destruct (Nat.eqb_spec s0 r) as [->|Ne].
    + eexists _, n. split; [reflexivity|]. apply stores_upd; auto. apply Hs.
    + rewrite (proj1 (C40_copy_assign _ _ al n)). rewrite Hal. eexists _, _. split; [reflexivity|]. apply stores_upd; auto. apply Hs.
  - destruct Hi as [Ne ->]. rewrite (proj2 (Nat.eqb_neq _ _) (not_eq_sym Ne)). eexists _, n. split; [reflexivity|].
    destruct (stores_good _ _ _ s0 Hs) as (D & G & V). apply stores_upd; auto; [|apply Hs].
    apply stores_upd; auto; [apply good_default|intros _; apply canonical_nil].
  - destruct Hi as (z & b & Hop & ->). destruct (stores_good _ _ _ r Hs) as (Dr & Gr & Vr). destruct (stores_good _ _ _ s0 Hs) as (Dt & Gt & Vt).
    assert (adesc (s r) (operand s r s0) = BN_POS) as Da by (unfold operand; destruct (s0 =? r)%nat; auto).
    assert (good (base L) (match operand s r s0 with Other z => z | Self => s r end)) as Ga
      by (unfold operand; destruct (s0 =? r)%nat; auto).
    assert (value (base L) (adata (s r) (operand s r s0)) = val v s0) as Va.
    { unfold operand. destruct (Nat.eqb_spec s0 r) as [->|]; cbn [adata]; auto. }
    destruct (nat_result_run ct cosf sinf L N m op (s r) (operand s r s0) (val v r) (val v s0) z b fuel keep al n HA Hin HD Hal Dr Gr Vr Da Ga Va
      ltac:(lia) ltac:(lia) Hop) as (r' & n' & Er & D' & G' & V' & C').
    unfold bind. rewrite Er. eexists _, n'. split; [reflexivity|]. apply stores_upd; auto.
  - destruct Hi as (z & b & Hop & ->). destruct (stores_good _ _ _ s0 Hs) as (Dr & Gr & Vr). destruct (stores_good _ _ _ t Hs) as (Dt & Gt & Vt).
    destruct (nat_result_run ct cosf sinf L N m op (s s0) (Other (s t)) (val v s0) (val v t) z b fuel keep al (S n) HA Hin HD Hal Dr Gr Vr Dt Gt Vt
      ltac:(lia) ltac:(lia) Hop) as (r' & n' & Er & D' & G' & V' & C').
    assert (binary (compound (mkEnv L false (ieee ct cosf sinf) fuel keep) op) (s s0) (s t) al n = Ret r' n') as Eb
      by (rewrite binary_eq, Hal, Er; reflexivity).
    eexists _, n'. split; [apply (store_run _ _ _ _ _ _ _ Eb)|]. apply stores_upd; auto.
  - destruct Hi as [-> ->]. eexists _, n. split; [reflexivity|]. intros i. pose proof (Hs i) as H. unfold stores_at, upd in *.
    destruct (Nat.eqb_spec i r) as [->|]; auto. cbn [setDescriptor]. destruct (Hs r) as (D & H2). split; [reflexivity|exact H2].
  - rewrite Hi. eexists _, n. split; [reflexivity|]. apply stores_upd; auto; [apply good_default|intros _; apply canonical_nil].
Qed.

(** ** C50
    Whatever the mathematical program computes (it ends, and every operation it performs is one the library gets right), the
    program computes: it returns normally and stores the same numbers. *)
Theorem C50_structured_programs : forall ct cosf sinf L N m p v v', accurate cosf sinf -> In (L, N, m) safe_lengths ->
  can_double L = true -> nat_run (base L) N m p v v' ->
  exists enough : nat, forall fuel keep f s al n, (enough <= fuel)%nat -> (enough <= f)%nat -> (forall k, al k = true) ->
  stores (base L) s v ->
  exists s' n', srun (mkEnv L false (ieee ct cosf sinf) fuel keep) f p s al n = Ret s' n' /\ stores (base L) s' v'.
Proof.
  intros ct cosf sinf L N m p v v' HA Hin HD Hp.
  assert (2 <= base L) as HB by (apply AddSubProof.HB; unfold can_double in HD; apply andb_true_iff in HD; apply HD).
  induction Hp as [i s s' Hi|p q s s1 s' _ [e1 K1] _ [e2 K2]|c x y p q s b s' Ht _ [e K]|c x y p s Ht|c x y p s s1 s' Ht _ [e1 K1] _ [e2 K2]].
  - destruct (nat_instr_run ct cosf sinf L N m i s s' HA Hin HD Hi) as [e K]. exists (S e). intros fuel keep f r al n Hf1 Hf2 Hal Hs.
    destruct f as [|f]; [lia|]. cbn [srun]. apply K; auto; lia.
  - exists (S (Nat.max e1 e2)). intros fuel keep f r al n Hf1 Hf2 Hal Hs. destruct f as [|f]; [lia|]. cbn [srun]. unfold bind.
    destruct (K1 fuel keep f r al n ltac:(lia) ltac:(lia) Hal Hs) as (r1 & n1 & E1 & S1). rewrite E1. apply K2; auto; lia.
  - exists (S e). intros fuel keep f r al n Hf1 Hf2 Hal Hs. destruct f as [|f]; [lia|]. cbn [srun]. unfold bind.
    rewrite (test_run _ _ _ _ _ _ _ HB Hs Ht al n). destruct b; apply K; auto; lia.
  - exists 1%nat. intros fuel keep f r al n Hf1 Hf2 Hal Hs. destruct f as [|f]; [lia|]. cbn [srun]. unfold bind.
    rewrite (test_run _ _ _ _ _ _ _ HB Hs Ht al n). exists r, n. auto.
  - exists (S (Nat.max e1 e2)). intros fuel keep f r al n Hf1 Hf2 Hal Hs. destruct f as [|f]; [lia|]. cbn [srun]. unfold bind at 1.
    rewrite (test_run _ _ _ _ _ _ _ HB Hs Ht al n). unfold bind.
    destruct (K1 fuel keep f r al n ltac:(lia) ltac:(lia) Hal Hs) as (r1 & n1 & E1 & S1). rewrite E1. apply K2; auto; lia.
Qed.
Print Assumptions C50_structured_programs.

(** ** Consequences: two textbook loops *)
Lemma one_digits L : limits_ok L = true -> digits_ok (base L) [1].
Proof. intros HL. pose proof (AddSubProof.HB L HL). constructor; [lia|constructor]. Qed.
Lemma written_one B : written_value B [1] = 1.
Proof. unfold written_value. cbn. ring. Qed.

Lemma nat_block B N m i l s s1 s' : l <> [] -> nat_instr B N m i s s1 -> nat_run B N m (block l) s1 s' -> nat_run B N m (block (i :: l)) s s'.
Proof. intros Hl Hi Hr. destruct l as [|j r]; [congruence|]. apply (NSeq _ _ _ _ _ _ s1); auto. apply NDo, Hi. Qed.

Lemma factorial_loop B N m p q : 1 <= p -> 1 <= q -> p + q <= N -> q <= m -> forall k v, val v 0%nat = Z.of_nat k -> Z.of_nat k < B ^ q ->
  val v 2%nat = 1 -> val v 3%nat = 0 -> clean v 0%nat = true -> clean v 3%nat = true ->
  0 < val v 1%nat -> val v 1%nat * Z.of_nat (fact k) < B ^ p ->
  exists v', nat_run B N m (While CNe 0 3 (block [IAssign OMul 1 0; IAssign OSub 0 2])) v v' /\
    val v' 1%nat = val v 1%nat * Z.of_nat (fact k).
Proof.
  intros Hp Hq Hpq Hqm. induction k as [|k IH]; intros v V0 Hk V2 V3 C0 C3 P1 Hb.
  - exists v. split; [|cbn [fact]; lia]. apply NStop. split; [right; exact C0|]. split; [right; exact C3|]. rewrite V0, V3. reflexivity.
  - assert (1 <= Z.of_nat (fact k)) as Pf by (pose proof (lt_O_fact k); lia).
    assert (Z.of_nat (fact (S k)) = Z.of_nat (S k) * Z.of_nat (fact k)) as Ef by (cbn [fact]; nia).
    set (v1 := set (set v 1 (val v 1%nat * val v 0%nat) true) 0 (val v 0%nat - val v 2%nat) true).
    destruct (IH v1) as (v' & R & V'); try reflexivity; try assumption.
    + unfold v1, set, iupd; cbn [val Nat.eqb]. lia.
    + lia.
    + unfold v1, set, iupd; cbn [val Nat.eqb]. nia.
    + unfold v1, set, iupd; cbn [val Nat.eqb]. nia.
    + exists v'. split.
      * apply (NAgain _ _ _ _ _ _ _ _ v1).
        -- split; [right; exact C0|]. split; [right; exact C3|]. rewrite V0, V3. destruct (Z.eqb_spec (Z.of_nat (S k)) 0); [lia|reflexivity].
        -- apply (nat_block _ _ _ _ _ _ (set v 1 (val v 1%nat * val v 0%nat) true)); [discriminate| |apply NDo].
           ++ cbn [nat_instr nat_result]. eexists _, _. split; [|reflexivity]. split; [left; lia|]. split; [|auto].
              exists p, q. rewrite !Z.abs_eq by lia. repeat split; try lia. nia.
           ++ cbn [nat_instr nat_result]. eexists _, _. split; [|reflexivity].
              unfold set, iupd; cbn [val Nat.eqb]. rewrite V0, V2. repeat split; lia.
        -- exact R.
      * rewrite V'. unfold v1, set, iupd; cbn [val Nat.eqb]. rewrite V0, Ef. ring.
Qed.

Theorem C50_factorial : forall ct cosf sinf L N m p q (k : nat), accurate cosf sinf -> In (L, N, m) safe_lengths -> can_double L = true ->
  1 <= p -> 1 <= q -> p + q <= N -> q <= m -> Z.of_nat k < base L ^ q -> Z.of_nat (fact k) < base L ^ p ->
  exists enough : nat, forall fuel keep f s al n, (enough <= fuel)%nat -> (enough <= f)%nat -> (forall j, al j = true) ->
  (forall r, is_nat (base L) (s r) (if (r =? 0)%nat then Z.of_nat k else 0)) ->
  exists s' n', srun (mkEnv L false (ieee ct cosf sinf) fuel keep) f factorial s al n = Ret s' n' /\
    is_nat (base L) (s' 1%nat) (Z.of_nat (fact k)).
Proof.
  intros ct cosf sinf L N m p q k HA Hin HD Hp Hq Hpq Hqm Hk Hf.
  assert (limits_ok L = true) as HL by (unfold can_double in HD; apply andb_true_iff in HD; apply HD).
  set (v := mkNS (fun r => if (r =? 0)%nat then Z.of_nat k else 0) (fun _ => true)).
  set (v1 := set (set (set v 1 (written_value (base L) [1]) true) 2 (written_value (base L) [1]) true) 3 0 true).
  destruct (factorial_loop (base L) N m p q Hp Hq Hpq Hqm k v1) as (v' & R & V'); try reflexivity; auto;
    try (unfold v1, set, iupd; cbn [val Nat.eqb]; rewrite written_one; lia).
  assert (nat_run (base L) N m factorial v v') as RR.
  { apply (NSeq _ _ _ _ _ _ v1); [|exact R].
    apply (nat_block _ _ _ _ _ _ (set v 1 (written_value (base L) [1]) true)); [discriminate|split; [reflexivity|split; [apply one_digits, HL|reflexivity]]|].
    apply (nat_block _ _ _ _ _ _ (set (set v 1 (written_value (base L) [1]) true) 2 (written_value (base L) [1]) true));
      [discriminate|split; [reflexivity|split; [apply one_digits, HL|reflexivity]]|].
    apply NDo. reflexivity. }
  destruct (C50_structured_programs ct cosf sinf L N m _ _ _ HA Hin HD RR) as [e K]. exists e.
  intros fuel keep f s al n Hf1 Hf2 Hal Hs.
  destruct (K fuel keep f s al n Hf1 Hf2 Hal) as (s' & n' & E & S').
  { intros r. destruct (Hs r) as (D & O & C & V). split; [exact D|]. split; [exact O|]. split; [left; exact C|]. split; [exact V|intros _; exact C]. }
  exists s', n'. split; [exact E|]. assert (val v1 1%nat = 1) as V1 by (unfold v1, set, iupd; cbn [val Nat.eqb]; apply written_one).
  rewrite V1, Z.mul_1_l in V'. rewrite <- V'. apply usable_nat; [exact S'|]. left. rewrite V'. pose proof (lt_O_fact k). lia.
Qed.
Print Assumptions C50_factorial.

(** 20! in base ten: 19 digits. *)
Example C50_factorial_case : 1 <= 19 /\ 1 <= 2 /\ 19 + 2 <= 2 ^ 32 /\ 2 <= 47721858 /\ Z.of_nat 20 < base base10 ^ 2 /\
  In (base10, 2 ^ 32, 47721858) safe_lengths /\ (20 * 19 * 18 * 17 * 16 * 15 * 14 * 13 * 12 * 11 * 10 * 9 * 8 * 7 * 6 * 5 * 4 * 3 * 2 < base base10 ^ 19).
Proof. repeat split; try (vm_compute; congruence). unfold safe_lengths; cbn [In]; auto. Qed.

Fixpoint fib (k : nat) : Z := match k with O => 0 | S j => match j with O => 1 | S i => fib j + fib i end end.
Lemma fib_step k : fib (S (S k)) = fib (S k) + fib k.
Proof. reflexivity. Qed.
Lemma fib_pos k : 0 <= fib k /\ 0 < fib (S k).
Proof. induction k as [|k [H0 H1]]; [cbn; lia|]. rewrite fib_step. lia. Qed.

Lemma fibonacci_loop B N m : forall k j v, val v 0%nat = Z.of_nat k ->
  val v 2%nat = 1 -> val v 3%nat = 0 -> clean v 0%nat = true -> clean v 3%nat = true ->
  val v 1%nat = fib j -> val v 4%nat = fib (S j) -> usable v 1%nat ->
  exists v', nat_run B N m (While CNe 0 3 (block [IBinary OAdd 5 1 4; IMove 1 4; IMove 4 5; IAssign OSub 0 2])) v v' /\
    val v' 1%nat = fib (j + k) /\ usable v' 1%nat.
Proof.
  induction k as [|k IH]; intros j v V0 V2 V3 C0 C3 V1 V4 U1.
  - exists v. rewrite Nat.add_0_r. split; [|auto]. apply NStop. split; [right; exact C0|]. split; [right; exact C3|]. rewrite V0, V3. reflexivity.
  - set (w1 := set v 5 (val v 1%nat + val v 4%nat) false).
    set (w2 := set (set w1 4 0 true) 1 (val w1 4%nat) (clean w1 4%nat)).
    set (w3 := set (set w2 5 0 true) 4 (val w2 5%nat) (clean w2 5%nat)).
    set (w4 := set w3 0 (val w3 0%nat - val w3 2%nat) true).
    assert (val w4 0%nat = val v 0%nat - val v 2%nat /\ val w4 1%nat = val v 4%nat /\ val w4 4%nat = val v 1%nat + val v 4%nat /\
      val w4 2%nat = val v 2%nat /\ val w4 3%nat = val v 3%nat /\ val w3 0%nat = val v 0%nat /\ val w3 2%nat = val v 2%nat) as
      (W0 & W1 & W4 & W2 & W3 & X0 & X2) by (repeat split).
    destruct (IH (S j) w4) as (v' & R & V' & U').
    + rewrite W0, V0, V2. lia.
    + rewrite W2. exact V2.
    + rewrite W3. exact V3.
    + reflexivity.
    + exact C3.
    + rewrite W1. exact V4.
    + rewrite W4, V1, V4, fib_step. ring.
    + left. rewrite W1, V4. apply fib_pos.
    + exists v'. replace (j + S k)%nat with (S j + k)%nat by lia. split; [|auto].
      apply (NAgain _ _ _ _ _ _ _ _ w4); [| |exact R].
      * split; [right; exact C0|]. split; [right; exact C3|]. rewrite V0, V3. destruct (Z.eqb_spec (Z.of_nat (S k)) 0); [lia|reflexivity].
      * apply (nat_block _ _ _ _ _ _ w1); [discriminate|eexists _, _; split; [split; reflexivity|reflexivity]|].
        apply (nat_block _ _ _ _ _ _ w2); [discriminate|split; [discriminate|reflexivity]|].
        apply (nat_block _ _ _ _ _ _ w3); [discriminate|split; [discriminate|reflexivity]|].
        apply NDo. eexists _, _. split; [|reflexivity]. cbn [nat_result]. rewrite X0, X2, V0, V2. repeat split; lia.
Qed.

(** No multiplication: no length limit. *)
Theorem C50_fibonacci : forall ct cosf sinf L N m (k : nat), accurate cosf sinf -> In (L, N, m) safe_lengths -> can_double L = true ->
  exists enough : nat, forall fuel keep f s al n, (enough <= fuel)%nat -> (enough <= f)%nat -> (forall j, al j = true) ->
  (forall r, is_nat (base L) (s r) (if (r =? 0)%nat then Z.of_nat k else 0)) ->
  exists s' n', srun (mkEnv L false (ieee ct cosf sinf) fuel keep) f fibonacci s al n = Ret s' n' /\ is_nat (base L) (s' 1%nat) (fib k).
Proof.
  intros ct cosf sinf L N m k HA Hin HD.
  assert (limits_ok L = true) as HL by (unfold can_double in HD; apply andb_true_iff in HD; apply HD).
  set (v := mkNS (fun r => if (r =? 0)%nat then Z.of_nat k else 0) (fun _ => true)).
  set (w1 := set v 1 0 true). set (w2 := set w1 4 (written_value (base L) [1]) true).
  set (w3 := set w2 2 (written_value (base L) [1]) true). set (w4 := set w3 3 0 true).
  destruct (fibonacci_loop (base L) N m k 0 w4) as (v' & R & V' & U').
  1: reflexivity. 1: exact (written_one (base L)). 1-4: reflexivity. 1: exact (written_one (base L)). 1: right; reflexivity.
  assert (nat_run (base L) N m fibonacci v v') as RR.
  { apply (NSeq _ _ _ _ _ _ w4); [|exact R].
    apply (nat_block _ _ _ _ _ _ w1); [discriminate|reflexivity|].
    apply (nat_block _ _ _ _ _ _ w2); [discriminate|split; [reflexivity|split; [apply one_digits, HL|reflexivity]]|].
    apply (nat_block _ _ _ _ _ _ w3); [discriminate|split; [reflexivity|split; [apply one_digits, HL|reflexivity]]|].
    apply NDo. reflexivity. }
  destruct (C50_structured_programs ct cosf sinf L N m _ _ _ HA Hin HD RR) as [e K]. exists e.
  intros fuel keep f s al n Hf1 Hf2 Hal Hs.
  destruct (K fuel keep f s al n Hf1 Hf2 Hal) as (s' & n' & E & S').
  { intros r. destruct (Hs r) as (D & O & C & V). split; [exact D|]. split; [exact O|]. split; [left; exact C|]. split; [exact V|intros _; exact C]. }
  exists s', n'. split; [exact E|]. rewrite Nat.add_0_l in V'. rewrite <- V'. apply usable_nat; assumption.
Qed.
Print Assumptions C50_fibonacci.
Example C50_fibonacci_case : exists s n, run (srun (mkEnv base10 false (ieee unfused libm_cos libm_sin) 0 false) 60 fibonacci
  (fun r => if (r =? 0)%nat then mkBN BN_POS [0; 5] else bn_default)) = Ret s n /\ s 1%nat = mkBN BN_POS [5; 2; 0; 9; 6; 2; 6; 8; 5; 2; 1].
Proof. eexists _, _. split; vm_compute; reflexivity. Qed.
