(** * Property C76: programs over the natural numbers as the library computes them, roots and powers *)
From Coq Require Import ZArith Lia List Arith.
From Verif Require Import Base Spec Limits Compare AddSub Division Bignum Fourier Multiplication Machine While Clients Outcome Wp ValueProof
  AddSubProof CompareProof BignumProof OperatorProof DivisionProof DivOpProof PropCompare PropDivision HistoryProof PropHistory Ieee IeeeProof PropMul PropProgram
  EuclidProof PropLoop PropObject PropAddSub.
Import ListNotations.
Open Scope Z_scope.

(** ** What the library computes
    C50 has rules for the operations that are right.  Here the quotient is the one of the library. *)
Definition quotient (x y : Z) : Z := if (x =? y) && negb (y =? 1) then 0 else x / y.

Definition lib_result (B N m : Z) (op : arith_op) (x y z : Z) (b : bool) : Prop :=
  match op with
  | OAdd => z = x + y /\ b = false
  | OSub => 0 < x /\ y <= x /\ z = x - y /\ b = true
  | OMul => (0 < x \/ 0 < y) /\ mul_fits B N m x y /\ z = x * y /\ b = true
  | ODiv => 0 < y /\ z = quotient x y /\ b = false
  end.

Definition lib_instr (B N m : Z) (i : instr) (s s' : nstate) : Prop :=
  match i with
  | INew r d l => d = BN_POS /\ digits_ok B l /\ s' = set s r (written_value B l) true
  | ICopy r t => s' = set s r (val s t) (clean s t)
  | IMove r t => r <> t /\ s' = set (set s t 0 true) r (val s t) (clean s t)
  | IClear r => s' = set s r 0 true
  | ISetDesc r d => d = BN_POS /\ s' = s
  | IAssign op r t => exists z b, lib_result B N m op (val s r) (val s t) z b /\ s' = set s r z b
  | IBinary op r t u => exists z b, lib_result B N m op (val s t) (val s u) z b /\ s' = set s r z b
  | _ => False
  end.

(** comparisons: not of two zeros one of which may be stored as a digit, and not < or > *)
Definition lib_test (c : comparison) (s : nstate) (x y : nat) (b : bool) : Prop :=
  (0 < val s x \/ 0 < val s y \/ clean s x = true /\ clean s y = true) /\
  match c with
  | CEq => b = (val s x =? val s y)
  | CNe => b = negb (val s x =? val s y)
  | CGe => b = (val s y <=? val s x)
  | CLe => b = (val s x <=? val s y)
  | CGt | CLt => False
  end.

Inductive lib_run (B N m : Z) : stmt -> nstate -> nstate -> Prop :=
| LDo i s s' : lib_instr B N m i s s' -> lib_run B N m (Do i) s s'
| LSeq p q s s1 s' : lib_run B N m p s s1 -> lib_run B N m q s1 s' -> lib_run B N m (Seq p q) s s'
| LIf c x y p q s b s' : lib_test c s x y b -> lib_run B N m (if b then p else q) s s' -> lib_run B N m (If c x y p q) s s'
| LStop c x y p s : lib_test c s x y false -> lib_run B N m (While c x y p) s s
| LAgain c x y p s s1 s' : lib_test c s x y true -> lib_run B N m p s s1 -> lib_run B N m (While c x y p) s1 s' ->
    lib_run B N m (While c x y p) s s'.

(** ** Proofs *)

Lemma quotient_right x y : x <> y \/ y = 1 -> quotient x y = x / y.
Proof.
  intros H. unfold quotient. destruct (Z.eqb_spec x y) as [->|]; cbn [andb]; [|reflexivity].
  destruct (Z.eqb_spec y 1); [reflexivity|lia].
Qed.
Lemma quotient_equal x : x <> 1 -> quotient x x = 0.
Proof. intros H. unfold quotient. rewrite Z.eqb_refl, (proj2 (Z.eqb_neq x 1) H). reflexivity. Qed.

(** the programs of C50 among them *)
Lemma nat_is_lib_result B N m op x y z b : nat_result B N m op x y z b -> lib_result B N m op x y z b.
Proof. destruct op; cbn; auto. intros (H & H' & -> & ->). rewrite quotient_right by exact H'. auto. Qed.
Lemma nat_is_lib_instr B N m i s s' : nat_instr B N m i s s' -> lib_instr B N m i s s'.
Proof. destruct i; cbn; auto; intros (z & b & H & ->); exists z, b; split; auto; apply nat_is_lib_result, H. Qed.
Lemma nat_is_lib_test c s x y b : nat_test c s x y b -> lib_test c s x y b.
Proof. intros ([U|U] & [V|V] & H); split; auto. Qed.

(** a comparison with at most one zero, stored either way *)
Lemma weak_cases B v : weak_canonical v -> canonical v \/ v = [0] /\ value B v = 0.
Proof. intros [H| ->]; [left; exact H|right; split; [reflexivity|cbn; ring]]. Qed.

Lemma geb_one_zero B a b : 2 <= B -> digits_ok B a -> digits_ok B b -> weak_canonical a -> weak_canonical b ->
  0 < value B a \/ 0 < value B b -> geb B a b = (value B b <=? value B a).
Proof.
  intros HB Da Db Wa Wb H. pose proof (value_bounds B HB a Da) as Va. pose proof (value_bounds B HB b Db) as Vb.
  destruct (weak_cases B a Wa) as [Ca|[-> Za]], (weak_cases B b Wb) as [Cb|[-> Zb]].
  - apply geb_canonical; auto.
  - destruct a as [|d [|d' r]]; [cbn in H; lia|reflexivity|]. unfold geb. cbn [length]. rewrite (proj2 (Nat.ltb_lt _ _)) by lia.
    symmetry. apply Z.leb_le. lia.
  - destruct b as [|d [|d' r]]; [cbn in H; lia|reflexivity|]. unfold geb. cbn [length].
    rewrite (proj2 (Nat.ltb_ge _ _)), (proj2 (Nat.ltb_lt _ _)) by lia. symmetry. apply Z.leb_gt. lia.
  - lia.
Qed.

Lemma lib_test_run B s v c x y b : 2 <= B -> stores B s v -> lib_test c v x y b -> answers (compare c (s x) (s y)) b.
Proof.
  intros HB Hs (U & Hb).
  destruct (Hs x) as (Dx & Ox & Wx & Vx & Cx), (Hs y) as (Dy & Oy & Wy & Vy & Cy).
  assert (geb B (data (s x)) (data (s y)) = (val v y <=? val v x) /\ geb B (data (s y)) (data (s x)) = (val v x <=? val v y) /\
          (s x = s y <-> val v x = val v y)) as (G1 & G2 & G3).
  { rewrite <- Vx, <- Vy in *. destruct U as [U|[U|[U1 U2]]].
    - rewrite !geb_one_zero; auto. repeat split; auto. { intros ->; auto. } intros E.
      destruct (canonical_of_weak B _ Wx ltac:(lia)) as [K _]. destruct (canonical_of_weak B _ Wy ltac:(lia)) as [K' _].
      destruct (s x) as [d1 v1], (s y) as [d2 v2]. cbn [desc data] in *. subst. f_equal. apply (value_inj B HB); auto.
    - rewrite !geb_one_zero; auto. repeat split; auto. { intros ->; auto. } intros E.
      destruct (canonical_of_weak B _ Wx ltac:(lia)) as [K _]. destruct (canonical_of_weak B _ Wy ltac:(lia)) as [K' _].
      destruct (s x) as [d1 v1], (s y) as [d2 v2]. cbn [desc data] in *. subst. f_equal. apply (value_inj B HB); auto.
    - rewrite !geb_canonical; auto. repeat split; auto. { intros ->; auto. } intros E.
      destruct (s x) as [d1 v1], (s y) as [d2 v2]. cbn [desc data] in *. subst. f_equal. apply (value_inj B HB); auto. }
  destruct (C08_eq_is_representation_equality (s x) (s y)) as (e & Ke & Kn & He).
  assert (e = (val v x =? val v y)) as Ee.
  { destruct e, (Z.eqb_spec (val v x) (val v y)) as [E|E]; auto.
    - exfalso. apply E, G3. pose proof (proj1 He eq_refl) as Q. destruct (s x), (s y). cbn in Q. intuition congruence.
    - exfalso. apply G3 in E. apply He in E. discriminate. }
  destruct c; cbn [compare]; try contradiction; subst b.
  - rewrite <- Ee. exact Ke.
  - rewrite <- Ee. exact Kn.
  - rewrite <- G1. exact (op_ge_pos B HB _ _ Dx Dy Ox Oy).
  - rewrite <- G2. exact (op_le_pos B HB _ _ Dx Dy Ox Oy).
Qed.

(** the division of equal numbers other than one *)
Lemma equal_division L fuel x y v al n : can_double L = true -> (forall k, al k = true) ->
  desc x = BN_POS -> good (base L) x -> value (base L) (data x) = v ->
  adesc x y = BN_POS -> good (base L) (match y with Other z => z | Self => x end) -> value (base L) (adata x y) = v ->
  0 < v -> v <> 1 ->
  exists n', op_div_assign L false fuel x y al n = Ret (mkBN BN_POS [0], None) n'.
Proof.
  intros HD Hal Dx (_ & Ox & Wx) Vx Dy Gy Vy Hv Hn.
  assert (limits_ok L = true) as HL by (unfold can_double in HD; apply andb_true_iff in HD; apply HD).
  pose proof (AddSubProof.HB L HL) as HB.
  assert (data x <> []) as N0 by (intros E; rewrite E in Vx; cbn in Vx; lia).
  assert (data x <> [0]) as Nz by (intros E; rewrite E in Vx; cbn [value] in Vx; lia).
  assert (data x <> [1]) as N1 by (intros E; rewrite E in Vx; cbn [value] in Vx; lia).
  destruct (canonical_of_weak (base L) _ Wx ltac:(lia)) as [Cx _].
  destruct y as [y|]; cbn [adesc adata] in *.
  - destruct Gy as (_ & Oy & Wy). destruct (canonical_of_weak (base L) _ Wy ltac:(lia)) as [Cy _].
    assert (data x = data y) as E by (apply (value_inj (base L) HB); auto; congruence).
    destruct (assigns_run _ _ _ al n (C24_equal_magnitudes L fuel x y HD (or_introl Dx) (or_introl Dy) E Cx N0 N1) Hal)
      as (z & n' & Ez & Hz & Ed & _).
    exists n'. rewrite Ez. destruct z as [d w]. cbn [desc data] in *. rewrite Hz, (Ed ltac:(congruence)). reflexivity.
  - destruct (assigns_run _ _ _ al n (C24_divide_by_itself L fuel x HL (or_introl Dx) N0 Nz N1) Hal) as (z & n' & Ez & ->).
    exists n'. exact Ez.
Qed.

Lemma lib_result_cases B N m op x y z b : lib_result B N m op x y z b ->
  nat_result B N m op x y z b \/ op = ODiv /\ x = y /\ 0 < y /\ y <> 1 /\ z = 0 /\ b = false.
Proof.
  destruct op; cbn; auto. intros (H & -> & ->). destruct (Z.eq_dec x y) as [->|Ne].
  - destruct (Z.eq_dec y 1) as [->|N1].
    + left. repeat split; auto.
    + right. rewrite quotient_equal by exact N1. auto 10.
  - left. rewrite quotient_right by auto. auto.
Qed.

Lemma zero_good B : 2 <= B -> good B (mkBN BN_POS [0]).
Proof. intros HB. split; [left; reflexivity|]. split; [repeat constructor; lia|right; reflexivity]. Qed.

Lemma lib_instr_run ct cosf sinf L N m i v w : accurate cosf sinf -> In (L, N, m) safe_lengths -> can_double L = true ->
  lib_instr (base L) N m i v w ->
  exists e, forall fuel keep s al n, (e <= fuel)%nat -> (forall k, al k = true) -> stores (base L) s v ->
  exists s' n', step (mkEnv L false (ieee ct cosf sinf) fuel keep) i s al n = Ret s' n' /\ stores (base L) s' w.
Proof.
  intros HA Hin HD Hi.
  assert (limits_ok L = true) as HL by (unfold can_double in HD; apply andb_true_iff in HD; apply HD).
  pose proof (AddSubProof.HB L HL) as HB.
  assert (nat_instr (base L) N m i v w \/
    (exists r t, i = IAssign ODiv r t /\ val v r = val v t /\ 0 < val v t /\ val v t <> 1 /\ w = set v r 0 false) \/
    (exists r t u, i = IBinary ODiv r t u /\ val v t = val v u /\ 0 < val v u /\ val v u <> 1 /\ w = set v r 0 false)) as C.
  { destruct i; auto; destruct Hi as (z & b & H & ->);
      (destruct (lib_result_cases _ _ _ _ _ _ _ _ H) as [K|(-> & E & P & Q & -> & ->)]; [left; exists z, b; auto|right]).
    - left. eexists _, _. auto.
    - right. eexists _, _, _. eauto. }
  destruct C as [C|[(r & t & -> & E & P & Q & ->)|(r & t & u & -> & E & P & Q & ->)]].
  - exact (nat_instr_run ct cosf sinf L N m i v w HA Hin HD C).
  - exists 0%nat. intros fuel keep s al n _ Hal Hs. cbn [step compound eL eDbg eFuel].
    destruct (stores_good _ _ _ r Hs) as (Dr & Gr & Vr). destruct (stores_good _ _ _ t Hs) as (Dt & Gt & Vt).
    destruct (equal_division L fuel (s r) (operand s r t) (val v t) al n HD Hal Dr Gr ltac:(congruence)) as [n' En]; auto.
    1-3: unfold operand; destruct (Nat.eqb_spec t r) as [->|]; cbn [adesc adata]; auto.
    unfold bind. rewrite En. eexists _, n'. split; [reflexivity|]. cbn [fst].
    apply stores_upd; auto; [apply zero_good, HB|cbn [data value]; ring|discriminate].
  - exists 0%nat. intros fuel keep s al n _ Hal Hs. cbn [step compound eL eDbg eFuel].
    destruct (stores_good _ _ _ t Hs) as (Dr & Gr & Vr). destruct (stores_good _ _ _ u Hs) as (Dt & Gt & Vt).
    destruct (equal_division L fuel (s t) (Other (s u)) (val v u) al (S n) HD Hal Dr Gr ltac:(congruence) Dt Gt Vt P Q) as [n' En].
    assert (binary (op_div_assign L false fuel) (s t) (s u) al n = Ret (mkBN BN_POS [0]) n') as Eb by (rewrite binary_eq, Hal, En; reflexivity).
    eexists _, n'. split; [apply (store_run _ _ _ _ _ _ _ Eb)|].
    apply stores_upd; auto; [apply zero_good, HB|cbn [data value]; ring|discriminate].
Qed.

(** ** C76 *)

(** The programs of C50 are among these. *)
Theorem C76_extends_C50 : forall B N m p v v', nat_run B N m p v v' -> lib_run B N m p v v'.
Proof.
  intros B N m p v v' H. induction H as [i s s' Hi|p q s s1 s' _ K1 _ K2|c x y p q s b s' Ht _ K|c x y p s Ht|c x y p s s1 s' Ht _ K1 _ K2].
  - apply LDo, nat_is_lib_instr, Hi.
  - apply (LSeq _ _ _ _ _ _ _ _ K1 K2).
  - apply (LIf _ _ _ _ _ _ _ _ _ b); [apply nat_is_lib_test, Ht|exact K].
  - apply LStop, nat_is_lib_test, Ht.
  - apply (LAgain _ _ _ _ _ _ _ _ s1); [apply nat_is_lib_test, Ht|exact K1|exact K2].
Qed.
Print Assumptions C76_extends_C50.

(** Whatever the program computes with the quotient of the library, with sums, differences and products, and comparisons that
    are defined, it computes in any base: it returns normally and stores those numbers. *)
Theorem C76_programs : forall ct cosf sinf L N m p v v', accurate cosf sinf -> In (L, N, m) safe_lengths ->
  can_double L = true -> lib_run (base L) N m p v v' ->
  exists enough : nat, forall fuel keep f s al n, (enough <= fuel)%nat -> (enough <= f)%nat -> (forall k, al k = true) ->
  stores (base L) s v ->
  exists s' n', srun (mkEnv L false (ieee ct cosf sinf) fuel keep) f p s al n = Ret s' n' /\ stores (base L) s' v'.
Proof.
  intros ct cosf sinf L N m p v v' HA Hin HD Hp.
  assert (2 <= base L) as HB by (apply AddSubProof.HB; unfold can_double in HD; apply andb_true_iff in HD; apply HD).
  induction Hp as [i s s' Hi|p q s s1 s' _ [e1 K1] _ [e2 K2]|c x y p q s b s' Ht _ [e K]|c x y p s Ht|c x y p s s1 s' Ht _ [e1 K1] _ [e2 K2]].
  - destruct (lib_instr_run ct cosf sinf L N m i s s' HA Hin HD Hi) as [e K]. exists (S e). intros fuel keep f r al n Hf1 Hf2 Hal Hs.
    destruct f as [|f]; [lia|]. cbn [srun]. apply K; auto; lia.
  - exists (S (Nat.max e1 e2)). intros fuel keep f r al n Hf1 Hf2 Hal Hs. destruct f as [|f]; [lia|]. cbn [srun]. unfold bind.
    destruct (K1 fuel keep f r al n ltac:(lia) ltac:(lia) Hal Hs) as (r1 & n1 & E1 & S1). rewrite E1. apply K2; auto; lia.
  - exists (S e). intros fuel keep f r al n Hf1 Hf2 Hal Hs. destruct f as [|f]; [lia|]. cbn [srun]. unfold bind.
    rewrite (lib_test_run _ _ _ _ _ _ _ HB Hs Ht al n). destruct b; apply K; auto; lia.
  - exists 1%nat. intros fuel keep f r al n Hf1 Hf2 Hal Hs. destruct f as [|f]; [lia|]. cbn [srun]. unfold bind.
    rewrite (lib_test_run _ _ _ _ _ _ _ HB Hs Ht al n). exists r, n. auto.
  - exists (S (Nat.max e1 e2)). intros fuel keep f r al n Hf1 Hf2 Hal Hs. destruct f as [|f]; [lia|]. cbn [srun]. unfold bind at 1.
    rewrite (lib_test_run _ _ _ _ _ _ _ HB Hs Ht al n). unfold bind.
    destruct (K1 fuel keep f r al n ltac:(lia) ltac:(lia) Hal Hs) as (r1 & n1 & E1 & S1). rewrite E1. apply K2; auto; lia.
Qed.
Print Assumptions C76_programs.

(** ** Roots *)

Lemma lib_block B N m i l s s1 s' : l <> [] -> lib_instr B N m i s s1 -> lib_run B N m (block l) s1 s' -> lib_run B N m (block (i :: l)) s s'.
Proof. intros Hl Hi Hr. destruct l as [|j r]; [congruence|]. apply (LSeq _ _ _ _ _ _ s1); auto. apply LDo, Hi. Qed.

(** Newton's step: not below the root; if it does not go down, it is at the root *)
Lemma step_exact n x : 0 <= n -> 0 < x -> (x + n / x) / 2 = (x * x + n) / (2 * x).
Proof.
  intros Hn Hx. rewrite (Z.mul_comm 2 x), <- Z.div_div by lia. f_equal.
  rewrite Z.div_add_l by lia. reflexivity.
Qed.

Lemma step_above n x : 0 <= n -> 0 < x -> Z.sqrt n <= (x + n / x) / 2.
Proof.
  intros Hn Hx. rewrite step_exact by lia. pose proof (Z.sqrt_spec n Hn) as [H _]. apply Z.div_le_lower_bound; [lia|].
  pose proof (Z.square_nonneg (x - Z.sqrt n)). nia.
Qed.

Lemma step_fixed n x : 0 <= n -> 0 < x -> x <= (x + n / x) / 2 -> x <= Z.sqrt n.
Proof.
  intros Hn Hx H. rewrite step_exact in H by lia. apply Z.sqrt_le_square; [lia..|].
  pose proof (Z.mul_div_le (x * x + n) (2 * x) ltac:(lia)). nia.
Qed.

Lemma sqrt_pos n : 1 <= n -> 1 <= Z.sqrt n.
Proof. intros H. change 1 with (Z.sqrt 1). apply Z.sqrt_le_mono. exact H. Qed.

Lemma newton_loop B N m n : 2 <= n -> forall x, 0 <= x -> Z.sqrt n <= x -> x <= n ->
  forall v, val v 0%nat = n -> val v 1%nat = x -> val v 2%nat = (x + n / x) / 2 -> val v 3%nat = 1 -> val v 4%nat = 2 ->
  val v 5%nat = val v 2%nat + 1 ->
  exists v', lib_run B N m (While CGe 1 5 (block newton_body)) v v' /\ val v' 1%nat = Z.sqrt n /\ val v' 0%nat = n.
Proof.
  intros Hn x Hx. pose proof (sqrt_pos n ltac:(lia)) as Hs. pattern x. apply Zlt_0_ind; [|exact Hx]. clear x Hx.
  intros x IH _ Hlo Hhi v V0 V1 V2 V3 V4 V5. set (y := (x + n / x) / 2) in *.
  pose proof (step_above n x ltac:(lia) ltac:(lia)) as Ha. fold y in Ha.
  destruct (Z.leb_spec (y + 1) x) as [Hgo|Hstop].
  - set (w1 := set v 1 (val v 2%nat) (clean v 2%nat)).
    set (w2 := set w1 2 (n / y) false).
    set (w3 := set w2 2 (n / y + y) false).
    set (w4 := set w3 2 ((y + n / y) / 2) false).
    set (w5 := set w4 5 ((y + n / y) / 2 + 1) false).
    assert (1 <= n / y) as Hq by (apply Z.div_le_lower_bound; lia).
    assert (3 <= y + n / y) as H3.
    { destruct (Z.eq_dec y 1) as [->|]; [rewrite Z.div_1_r|]; lia. }
    destruct (IH y ltac:(lia) Ha ltac:(lia) w5) as (v' & R & V' & V0'); try assumption; try reflexivity.
    exists v'. split; [|auto]. apply (LAgain _ _ _ _ _ _ _ _ w5); [| |exact R].
    + split; [left; rewrite V1; lia|]. rewrite V1, V5, V2. symmetry. apply Z.leb_le. exact Hgo.
    + unfold newton_body. apply (lib_block _ _ _ _ _ _ w1); [discriminate|reflexivity|].
      apply (lib_block _ _ _ _ _ _ w2); [discriminate| |].
      { exists (n / y), false. split; [|reflexivity]. change (val w1 0%nat) with (val v 0%nat). change (val w1 1%nat) with (val v 2%nat).
        rewrite V0, V2. cbn [lib_result]. rewrite quotient_right by (left; lia). repeat split; lia. }
      apply (lib_block _ _ _ _ _ _ w3); [discriminate| |].
      { exists (n / y + y), false. split; [|reflexivity]. change (val w2 2%nat) with (n / y). change (val w2 1%nat) with (val v 2%nat).
        rewrite V2. split; reflexivity. }
      apply (lib_block _ _ _ _ _ _ w4); [discriminate| |].
      { exists ((y + n / y) / 2), false. split; [|reflexivity]. change (val w3 2%nat) with (n / y + y). change (val w3 4%nat) with (val v 4%nat).
        rewrite V4. cbn [lib_result]. rewrite quotient_right by (left; lia). rewrite (Z.add_comm y). repeat split; lia. }
      apply LDo. exists ((y + n / y) / 2 + 1), false. split; [|reflexivity].
      change (val w4 2%nat) with ((y + n / y) / 2). change (val w4 3%nat) with (val v 3%nat). rewrite V3. split; reflexivity.
  - exists v. split; [|split; [|exact V0]].
    + apply LStop. split; [left; rewrite V1; lia|]. rewrite V1, V5, V2. symmetry. apply Z.leb_gt. exact Hstop.
    + pose proof (step_fixed n x ltac:(lia) ltac:(lia) ltac:(fold y; lia)). lia.
Qed.

(** Newton's iteration gives the integer root of every number but one, of any length (there is no multiplication). *)
Theorem C76_root : forall ct cosf sinf L N m a, accurate cosf sinf -> In (L, N, m) safe_lengths -> can_double L = true ->
  0 <= a -> a <> 1 ->
  exists enough : nat, forall fuel keep f s al n, (enough <= fuel)%nat -> (enough <= f)%nat -> (forall j, al j = true) ->
  (forall r, is_nat (base L) (s r) (if (r =? 0)%nat then a else 0)) ->
  exists s' n', srun (mkEnv L false (ieee ct cosf sinf) fuel keep) f newton s al n = Ret s' n' /\ is_nat (base L) (s' 1%nat) (Z.sqrt a) /\
    is_nat (base L) (s' 0%nat) a.
Proof.
  intros ct cosf sinf L N m a HA Hin HD Ha Hn1.
  assert (limits_ok L = true) as HL by (unfold can_double in HD; apply andb_true_iff in HD; apply HD).
  set (v := mkNS (fun r => if (r =? 0)%nat then a else 0) (fun _ => true)).
  set (w1 := set v 3 (written_value (base L) [1]) true).
  set (w2 := set w1 4 2 false).
  set (w3 := set w2 1 a true).
  set (w4 := set w3 2 (a + 1) false).
  set (w5 := set w4 2 ((a + 1) / 2) false).
  set (w6 := set w5 5 ((a + 1) / 2 + 1) false).
  pose proof (written_one (base L)) as W1.
  assert (lib_run (base L) N m (block newton_start) v w6) as R0.
  { unfold newton_start. apply (lib_block _ _ _ _ _ _ w1); [discriminate|split; [reflexivity|split; [apply one_digits, HL|reflexivity]]|].
    apply (lib_block _ _ _ _ _ _ w2); [discriminate|exists 2, false; split; [|reflexivity]|].
    { change (val w1 3%nat) with (written_value (base L) [1]). rewrite W1. split; reflexivity. }
    apply (lib_block _ _ _ _ _ _ w3); [discriminate|reflexivity|].
    apply (lib_block _ _ _ _ _ _ w4); [discriminate|exists (a + 1), false; split; [|reflexivity]|].
    { change (val w3 3%nat) with (written_value (base L) [1]). rewrite W1. split; reflexivity. }
    apply (lib_block _ _ _ _ _ _ w5); [discriminate|exists ((a + 1) / 2), false; split; [|reflexivity]|].
    { change (val w4 2%nat) with (a + 1). change (val w4 4%nat) with 2. cbn [lib_result]. rewrite quotient_right by (left; lia). repeat split; lia. }
    apply LDo. exists ((a + 1) / 2 + 1), false. split; [|reflexivity].
    change (val w5 3%nat) with (written_value (base L) [1]). rewrite W1. split; reflexivity. }
  assert (exists v', lib_run (base L) N m (While CGe 1 5 (block newton_body)) w6 v' /\ val v' 1%nat = Z.sqrt a /\ val v' 0%nat = a /\
            usable v' 1%nat /\ usable v' 0%nat) as (v' & R & V1 & V0 & U1 & U0).
  { destruct (Z.eq_dec a 0) as [->|Na].
    - exists w6. split; [|repeat split; right; reflexivity]. apply LStop. split; [right; left; reflexivity|reflexivity].
    - destruct (newton_loop (base L) N m a ltac:(lia) a ltac:(lia) ltac:(apply Z.sqrt_le_lin; lia) ltac:(lia) w6) as (v' & R & V1 & V0);
        try reflexivity; try exact W1.
      + change (val w6 2%nat) with ((a + 1) / 2). rewrite Z.div_same by lia. reflexivity.
      + exists v'. split; [exact R|]. split; [exact V1|]. split; [exact V0|]. pose proof (sqrt_pos a ltac:(lia)).
        split; left; lia. }
  assert (lib_run (base L) N m newton v v') as RR by (apply (LSeq _ _ _ _ _ _ w6); [exact R0|exact R]).
  destruct (C76_programs ct cosf sinf L N m _ _ _ HA Hin HD RR) as [e K]. exists e.
  intros fuel keep f s al n Hf1 Hf2 Hal Hs.
  destruct (K fuel keep f s al n Hf1 Hf2 Hal) as (s' & n' & E & S').
  { intros r. destruct (Hs r) as (D & O & C & V). split; [exact D|]. split; [exact O|]. split; [left; exact C|]. split; [exact V|intros _; exact C]. }
  exists s', n'. split; [exact E|]. rewrite <- V1, <- V0. split; apply usable_nat; assumption.
Qed.
Print Assumptions C76_root.

(** The root of one comes out as zero: (1 + 1) / 2 is 0 (C24). *)
Theorem C76_root_of_one_refuted : forall P fuel keep f L, In L base_n_types ->
  exists s n, run (srun (mkEnv L false P fuel keep) (20 + f) newton (fun r => if (r =? 0)%nat then mkBN BN_POS [1] else bn_default)) = Ret s n /\
    s 1%nat = mkBN BN_POS [0].
Proof.
  intros P fuel keep f L Hin. unfold base_n_types in Hin. cbn [In] in Hin.
  repeat destruct Hin as [<-|Hin]; try contradiction; eexists _, _; (split; [vm_compute; reflexivity|vm_compute; reflexivity]).
Qed.
Print Assumptions C76_root_of_one_refuted.

(** ** Powers *)

(** the exponent that the program with h = e / two raises to: if the binary digit below the highest one is 0, it becomes the
    highest one, because 2 / 2 = 0 *)
Definition library_exponent (e : Z) : Z :=
  let k := Z.log2 e in if (2 <=? e) && (e <? 3 * 2 ^ (k - 1)) then e - 2 ^ (k - 1) else e.

Lemma exponent_step e : 1 <= e -> library_exponent e = (if e =? 2 * quotient e 2 then 0 else 1) + 2 * library_exponent (quotient e 2).
Proof.
  intros He. destruct (Z.eq_dec e 1) as [->|N1]; [reflexivity|]. destruct (Z.eq_dec e 2) as [->|N2]; [reflexivity|].
  destruct (Z.eq_dec e 3) as [->|N3]; [reflexivity|].
  rewrite quotient_right by (left; lia). pose proof (Z.div_mod e 2 ltac:(lia)) as Dm. pose proof (Z.mod_pos_bound e 2 ltac:(lia)) as Mb.
  set (h := e / 2) in *. set (d := e mod 2) in *. clearbody h d.
  assert (2 <= h) as Hh by lia.
  assert (Z.log2 e = Z.log2 h + 1) as El.
  { pose proof (Z.log2_spec h ltac:(lia)) as [S1 S2]. pose proof (Z.log2_nonneg h). rewrite Z.pow_succ_r in S2 by lia.
    apply Z.log2_unique; [lia|]. rewrite Z.pow_succ_r, Z.add_1_r, Z.pow_succ_r by lia. lia. }
  assert (1 <= Z.log2 h) as Hl by (change 1 with (Z.log2 2); apply Z.log2_le_mono; lia).
  unfold library_exponent. rewrite El. replace (Z.log2 h + 1 - 1) with (Z.succ (Z.log2 h - 1)) by lia.
  rewrite Z.pow_succ_r by lia. set (c := 2 ^ (Z.log2 h - 1)). rewrite (proj2 (Z.leb_le 2 e)), (proj2 (Z.leb_le 2 h)) by lia. cbn [andb].
  destruct (Z.eqb_spec e (2 * h)); destruct (Z.ltb_spec e (3 * (2 * c))); destruct (Z.ltb_spec h (3 * c)); lia.
Qed.

Lemma pow_ge_one b e : 1 <= b -> 0 <= e -> 1 <= b ^ e.
Proof. intros Hb He. pose proof (Z.pow_pos_nonneg b e ltac:(lia) He). lia. Qed.

Lemma pow_le b e e' : 1 <= b -> 0 <= e <= e' -> b ^ e <= b ^ e'.
Proof. intros Hb He. destruct (Z.eq_dec b 1) as [->|]; [rewrite !Z.pow_1_l by lia; lia|]. apply Z.pow_le_mono_r; lia. Qed.

Lemma power_loop L N m p halve (half expo : Z -> Z) : In (L, N, m) safe_lengths -> can_double L = true ->
  1 <= p -> p <= m -> expo 0 = 0 ->
  (forall e, 1 <= e -> 0 <= half e < e /\ (e <> 2 * half e -> 1 + 2 * half e <= e) /\ 0 <= expo (half e) /\
     expo e = (if e =? 2 * half e then 0 else 1) + 2 * expo (half e)) ->
  (forall v, 1 <= val v 1%nat -> val v 3%nat = 1 -> val v 4%nat = 2 ->
     exists c, lib_run (base L) N m halve v (set v 5 (half (val v 1%nat)) c)) ->
  forall e, 0 <= e -> forall v, val v 1%nat = e -> val v 3%nat = 1 -> val v 4%nat = 2 -> 1 <= val v 0%nat -> 1 <= val v 2%nat ->
  val v 2%nat * val v 0%nat ^ e < base L ^ p ->
  exists v', lib_run (base L) N m (While CGe 1 3 (power_round halve)) v v' /\ val v' 2%nat = val v 2%nat * val v 0%nat ^ expo e.
Proof.
  intros Hin HD Hp Hpm E0 Hexp Hhalve e He. pattern e. apply Zlt_0_ind; [|exact He]. clear e He.
  intros e IH He v V1 V3 V4 P0 P2 Hb. destruct (Z.eq_dec e 0) as [->|Ne].
  - exists v. split; [|rewrite E0; cbn; lia]. apply LStop. split; [right; left; lia|]. rewrite V1, V3. reflexivity.
  - destruct (Hexp e ltac:(lia)) as (Hh & Hodd & Hx & Ex). destruct (Hhalve v ltac:(lia) V3 V4) as [c Rh].
    rewrite V1 in Rh. set (h := half e) in *. set (b := val v 0%nat) in *. set (r := val v 2%nat) in *.
    set (w1 := set v 5 h c) in *. set (w2 := set w1 6 (h + h) false).
    set (r' := if e =? 2 * h then r else r * b).
    set (w3 := if e =? 2 * h then set w2 2 (val w2 2%nat) (clean w2 2%nat) else set w2 2 (r * b) true).
    set (w4 := set w3 0 (b * b) true). set (w5 := set (set w4 5 0 true) 1 (val w4 5%nat) (clean w4 5%nat)).
    assert (val w3 2%nat = r' /\ val w3 0%nat = b /\ val w3 3%nat = 1 /\ val w3 4%nat = 2 /\ val w3 5%nat = h) as (X2 & X0 & X3 & X4 & X5)
      by (unfold w3, r'; destruct (e =? 2 * h); repeat split; assumption).
    assert (1 <= b ^ e) as P by (apply pow_ge_one; lia).
    assert (b <= b ^ e) as Pb by (rewrite <- (Z.pow_1_r b) at 1; apply pow_le; lia).
    assert (1 <= r') as P2' by (unfold r'; destruct (e =? 2 * h); nia).
    assert (r' * (b * b) ^ h <= r * b ^ e) as Hb'.
    { replace (b * b) with (b ^ 2) by ring. rewrite <- Z.pow_mul_r by lia. unfold r'. destruct (Z.eqb_spec e (2 * h)) as [Q|Q].
      - rewrite Q. lia.
      - rewrite <- Z.mul_assoc, <- Z.pow_succ_r by lia. apply Z.mul_le_mono_nonneg_l; [lia|]. apply pow_le; lia. }
    destruct (IH h ltac:(lia) w5) as (v' & R & V').
    + change (val w5 1%nat) with (val w3 5%nat). exact X5.
    + change (val w5 3%nat) with (val w3 3%nat). exact X3.
    + change (val w5 4%nat) with (val w3 4%nat). exact X4.
    + change (val w5 0%nat) with (b * b). nia.
    + change (val w5 2%nat) with (val w3 2%nat). lia.
    + change (val w5 2%nat) with (val w3 2%nat). change (val w5 0%nat) with (b * b). rewrite X2. lia.
    + exists v'. split.
      * apply (LAgain _ _ _ _ _ _ _ _ w5); [| |exact R].
        -- split; [left; lia|]. rewrite V1, V3. symmetry. apply Z.leb_le. lia.
        -- unfold power_round. apply (LSeq _ _ _ _ _ _ w1); [exact Rh|]. apply (LSeq _ _ _ _ _ _ w2).
           { apply LDo. exists (h + h), false. split; [split; reflexivity|reflexivity]. }
           apply (LSeq _ _ _ _ _ _ w3).
           { apply (LIf _ _ _ _ _ _ _ _ _ (negb (e =? 2 * h))).
             - split; [left; change (val w2 1%nat) with (val v 1%nat); lia|]. change (val w2 1%nat) with (val v 1%nat).
               change (val w2 6%nat) with (h + h). rewrite V1. replace (h + h) with (2 * h) by ring. reflexivity.
             - unfold w3. destruct (Z.eqb_spec e (2 * h)) as [Q|Q]; cbn [negb].
               + apply LDo. reflexivity.
               + apply LDo. exists (r * b), true. split; [|reflexivity].
                 change (val w2 2%nat) with r. change (val w2 0%nat) with b. split; [left; lia|]. split; [|auto].
                 apply (fits_square L N m Hin p); nia. }
           apply (lib_block _ _ _ _ _ _ w4); [discriminate| |].
           { exists (b * b), true. split; [|reflexivity]. rewrite X0. split; [left; lia|]. split; [|auto]. apply (fits_square L N m Hin p); nia. }
           apply LDo. split; [discriminate|reflexivity].
      * rewrite V'. change (val w5 2%nat) with (val w3 2%nat). change (val w5 0%nat) with (b * b). rewrite X2, Ex.
        unfold r'. replace (b * b) with (b ^ 2) by ring. rewrite <- Z.pow_mul_r by lia. destruct (e =? 2 * h); [reflexivity|].
        rewrite Z.pow_add_r, Z.pow_1_r by lia. ring.
Qed.

Lemma power_program ct cosf sinf L N m p halve (half expo : Z -> Z) b e : accurate cosf sinf -> In (L, N, m) safe_lengths -> can_double L = true ->
  1 <= p -> p <= m -> expo 0 = 0 ->
  (forall e, 1 <= e -> 0 <= half e < e /\ (e <> 2 * half e -> 1 + 2 * half e <= e) /\ 0 <= expo (half e) /\
     expo e = (if e =? 2 * half e then 0 else 1) + 2 * expo (half e)) ->
  (forall v, 1 <= val v 1%nat -> val v 3%nat = 1 -> val v 4%nat = 2 ->
     exists c, lib_run (base L) N m halve v (set v 5 (half (val v 1%nat)) c)) ->
  1 <= b -> 0 <= e -> b ^ e < base L ^ p -> 0 <= expo e ->
  exists enough : nat, forall fuel keep f s al n, (enough <= fuel)%nat -> (enough <= f)%nat -> (forall j, al j = true) ->
  (forall r, is_nat (base L) (s r) (match r with O => b | S O => e | _ => 0 end)) ->
  exists s' n', srun (mkEnv L false (ieee ct cosf sinf) fuel keep) f (power_with halve) s al n = Ret s' n' /\
    is_nat (base L) (s' 2%nat) (b ^ expo e).
Proof.
  intros HA Hin HD Hp Hpm E0 Hexp Hhalve Hb He Hfit Hx.
  assert (limits_ok L = true) as HL by (unfold can_double in HD; apply andb_true_iff in HD; apply HD).
  set (v := mkNS (fun r => match r with O => b | S O => e | _ => 0 end) (fun _ => true)).
  set (w1 := set v 2 (written_value (base L) [1]) true). set (w2 := set w1 3 (written_value (base L) [1]) true).
  set (w3 := set w2 4 2 false). pose proof (written_one (base L)) as W1.
  destruct (power_loop L N m p halve half expo Hin HD Hp Hpm E0 Hexp Hhalve e He w3) as (v' & R & V'); try reflexivity.
  - exact Hb.
  - change (val w3 2%nat) with (written_value (base L) [1]). change (val w3 0%nat) with b. rewrite W1. lia.
  - assert (lib_run (base L) N m (power_with halve) v v') as RR.
    { apply (LSeq _ _ _ _ _ _ w3); [|exact R].
      apply (lib_block _ _ _ _ _ _ w1); [discriminate|split; [reflexivity|split; [apply one_digits, HL|reflexivity]]|].
      apply (lib_block _ _ _ _ _ _ w2); [discriminate|split; [reflexivity|split; [apply one_digits, HL|reflexivity]]|].
      apply LDo. exists 2, false. split; [|reflexivity]. change (val w2 3%nat) with (written_value (base L) [1]). rewrite W1. split; reflexivity. }
    destruct (C76_programs ct cosf sinf L N m _ _ _ HA Hin HD RR) as [k K]. exists k.
    intros fuel keep f s al n Hf1 Hf2 Hal Hs.
    destruct (K fuel keep f s al n Hf1 Hf2 Hal) as (s' & n' & E & S').
    { intros r. destruct (Hs r) as (D & O & C & V). split; [exact D|]. split; [exact O|]. split; [left; exact C|]. split; [exact V|intros _; exact C]. }
    exists s', n'. split; [exact E|]. change (val w3 2%nat) with (written_value (base L) [1]) in V'. change (val w3 0%nat) with b in V'.
    rewrite W1, Z.mul_1_l in V'. rewrite <- V'. apply usable_nat; [exact S'|]. left. rewrite V'. pose proof (pow_ge_one b (expo e) Hb Hx). lia.
Qed.

Lemma exponent_nonneg e : 0 <= e -> 0 <= library_exponent e.
Proof.
  intros He. unfold library_exponent. destruct (Z.leb_spec 2 e); cbn [andb]; [|lia]. destruct (Z.ltb_spec e (3 * 2 ^ (Z.log2 e - 1))); [|lia].
  pose proof (Z.log2_spec e ltac:(lia)) as [S _]. assert (2 ^ (Z.log2 e - 1) <= 2 ^ Z.log2 e) by (apply Z.pow_le_mono_r; lia). lia.
Qed.

(** Repeated squaring with h = e / two gives the power with another exponent, for every base and exponent such that the power has at
    most as many digits as a factor may have. *)
Theorem C76_power : forall ct cosf sinf L N m p b e, accurate cosf sinf -> In (L, N, m) safe_lengths -> can_double L = true ->
  1 <= p -> p <= m -> 1 <= b -> 0 <= e -> b ^ e < base L ^ p ->
  exists enough : nat, forall fuel keep f s al n, (enough <= fuel)%nat -> (enough <= f)%nat -> (forall j, al j = true) ->
  (forall r, is_nat (base L) (s r) (match r with O => b | S O => e | _ => 0 end)) ->
  exists s' n', srun (mkEnv L false (ieee ct cosf sinf) fuel keep) f power s al n = Ret s' n' /\
    is_nat (base L) (s' 2%nat) (b ^ library_exponent e).
Proof.
  intros ct cosf sinf L N m p b e HA Hin HD Hp Hpm Hb He Hfit.
  apply (power_program ct cosf sinf L N m p _ (fun e => quotient e 2) library_exponent b e HA Hin HD Hp Hpm); auto.
  - intros e0 H0. assert (0 <= quotient e0 2 < e0 /\ (e0 <> 2 * quotient e0 2 -> 1 + 2 * quotient e0 2 <= e0)) as [A C].
    { destruct (Z.eq_dec e0 2) as [->|N2]; [cbn; lia|]. rewrite quotient_right by (left; exact N2).
      pose proof (Z.div_mod e0 2 ltac:(lia)). pose proof (Z.mod_pos_bound e0 2 ltac:(lia)). lia. }
    split; [exact A|]. split; [exact C|]. split; [apply exponent_nonneg; lia|apply exponent_step; exact H0].
  - intros v V1 V3 V4. exists false. apply LDo. eexists _, _. split; [|reflexivity]. rewrite V4. split; [lia|auto].
  - apply exponent_nonneg, He.
Qed.
Print Assumptions C76_power.

(** It is the power asked for exactly if the base or the exponent is one, the exponent is zero, or the binary digit below its
    highest one is 1. *)
Theorem C76_power_right_iff : forall b e, 1 <= b -> 0 <= e ->
  (b ^ library_exponent e = b ^ e <-> b = 1 \/ e <= 1 \/ Z.testbit e (Z.log2 e - 1) = true).
Proof.
  intros b e Hb He. destruct (Z_le_gt_dec e 1) as [H1|H1].
  { split; [auto|]. intros _. unfold library_exponent. rewrite (proj2 (Z.leb_gt 2 e)) by lia. reflexivity. }
  assert (1 <= Z.log2 e) as Hl by (change 1 with (Z.log2 2); apply Z.log2_le_mono; lia).
  pose proof (Z.log2_spec e ltac:(lia)) as [S1 S2]. set (k := Z.log2 e) in *. set (c := 2 ^ (k - 1)).
  assert (2 ^ k = 2 * c) as Ek by (unfold c; rewrite <- Z.pow_succ_r by lia; f_equal; lia).
  rewrite Z.pow_succ_r in S2 by lia. assert (0 < c) as Pc by (apply Z.pow_pos_nonneg; lia).
  assert (Z.testbit e (k - 1) = negb (e <? 3 * c)) as Et.
  { assert (e / c = if e <? 3 * c then 2 else 3) as Eq.
    { destruct (Z.ltb_spec e (3 * c)); symmetry; [apply Z.div_unique_pos with (r := e - 2 * c)|apply Z.div_unique_pos with (r := e - 3 * c)]; lia. }
    rewrite Z.testbit_eqb by lia. fold c. rewrite Eq. destruct (e <? 3 * c); reflexivity. }
  unfold library_exponent. fold k. fold c. rewrite (proj2 (Z.leb_le 2 e)) by lia. cbn [andb]. rewrite Et.
  destruct (Z.ltb_spec e (3 * c)) as [H|H]; cbn [negb].
  - split; [|intros [->|[Q|Q]]; [rewrite !Z.pow_1_l by lia; reflexivity|lia|discriminate]].
    intros E. left. destruct (Z.eq_dec b 1) as [|Nb]; [assumption|exfalso]. apply Z.pow_inj_r in E; lia.
  - split; auto.
Qed.
Print Assumptions C76_power_right_iff.

(** With the halving that looks for the exponent two it is always the power asked for. *)
Theorem C76_careful_power : forall ct cosf sinf L N m p b e, accurate cosf sinf -> In (L, N, m) safe_lengths -> can_double L = true ->
  1 <= p -> p <= m -> 1 <= b -> 0 <= e -> b ^ e < base L ^ p ->
  exists enough : nat, forall fuel keep f s al n, (enough <= fuel)%nat -> (enough <= f)%nat -> (forall j, al j = true) ->
  (forall r, is_nat (base L) (s r) (match r with O => b | S O => e | _ => 0 end)) ->
  exists s' n', srun (mkEnv L false (ieee ct cosf sinf) fuel keep) f careful_power s al n = Ret s' n' /\
    is_nat (base L) (s' 2%nat) (b ^ e).
Proof.
  intros ct cosf sinf L N m p b e HA Hin HD Hp Hpm Hb He Hfit.
  apply (power_program ct cosf sinf L N m p _ (fun e => e / 2) (fun e => e) b e HA Hin HD Hp Hpm); auto.
  - intros e0 H0. pose proof (Z.div_mod e0 2 ltac:(lia)). pose proof (Z.mod_pos_bound e0 2 ltac:(lia)).
    repeat split; try lia. destruct (Z.eqb_spec e0 (2 * (e0 / 2))); lia.
  - intros v V1 V3 V4. destruct (Z.eq_dec (val v 1%nat) 2) as [E|E].
    + exists (clean v 3%nat). apply (LIf _ _ _ _ _ _ _ _ _ true).
      * split; [left; lia|]. rewrite V4. symmetry. apply Z.eqb_eq. exact E.
      * apply LDo. cbn [lib_instr]. rewrite V3, E. reflexivity.
    + exists false. apply (LIf _ _ _ _ _ _ _ _ _ false).
      * split; [left; lia|]. rewrite V4. symmetry. apply Z.eqb_neq. exact E.
      * apply LDo. eexists _, _. split; [|reflexivity]. rewrite V4. cbn [lib_result]. rewrite quotient_right by (left; exact E). repeat split; lia.
Qed.
Print Assumptions C76_careful_power.

(** 7^2 comes out as 7, 7^3 as 7^3, 7^4 as 7^2, 7^5 as 7^3, 7^10 as 7^6. *)
Example C76_exponents : map library_exponent [0; 1; 2; 3; 4; 5; 6; 7; 8; 10; 12] = [0; 1; 1; 3; 2; 3; 6; 7; 4; 6; 12].
Proof. reflexivity. Qed.

(** the hypotheses: 7^10 in base ten has nine digits *)
Example C76_power_case : In (base10, 2 ^ 32, 47721858) safe_lengths /\ can_double base10 = true /\ 7 ^ 10 < base base10 ^ 9 /\ 9 <= 47721858 /\
  forall r, is_nat 10 (match r with O => mkBN BN_POS [7] | S O => mkBN BN_POS [0; 1] | _ => bn_default end) (match r with O => 7 | S O => 10 | _ => 0 end).
Proof.
  split; [unfold safe_lengths; cbn [In]; auto|]. split; [reflexivity|]. split; [reflexivity|]. split; [lia|].
  intros [|[|r]]; [..|apply is_nat_zero]; (split; [reflexivity|split; [repeat constructor; lia|split; [unfold canonical; cbn; discriminate|reflexivity]]]).
Qed.

(** the root of 1000 is 31 *)
Example C76_root_case : exists enough : nat, forall f, (enough <= f)%nat ->
  exists s n, run (srun (mkEnv base10 false (ieee unfused libm_cos libm_sin) f false) f newton
                     (fun r => if (r =? 0)%nat then mkBN BN_POS [0; 0; 0; 1] else bn_default)) = Ret s n /\
    is_nat 10 (s 1%nat) 31.
Proof.
  destruct (C76_root unfused libm_cos libm_sin base10 (2 ^ 32) 47721858 1000 libm_accurate
    ltac:(unfold safe_lengths; cbn [In]; auto) eq_refl ltac:(lia) ltac:(lia)) as [e K].
  exists e. intros f Hf.
  destruct (K f false f (fun r => if (r =? 0)%nat then mkBN BN_POS [0; 0; 0; 1] else bn_default) never_fails 0%nat Hf Hf (fun _ => eq_refl))
    as (s & n & E & H & _).
  - intros [|r]; cbn [Nat.eqb]; [|apply is_nat_zero].
    split; [reflexivity|split; [repeat constructor; cbn; lia|split; [unfold canonical; cbn; discriminate|reflexivity]]].
  - exists s, n. split; [exact E|exact H].
Qed.
