(** * Property C57: expressions, and the laws of arithmetic as a program can test them *)
From Coq Require Import ZArith Lia List Arith.
From Verif Require Import Base Spec Limits Compare AddSub Division Bignum Fourier Multiplication Machine While Expression Outcome Wp ValueProof CompareProof
  AddSubProof BignumProof OperatorProof DivisionProof DivOpProof Conv PropAddSub PropCompare PropObject PropDivision HistoryProof PropHistory
  Ieee IeeeProof MulOpProof PropMul PropProgram.
Import ListNotations.
Open Scope Z_scope.

(** the numbers in an expression *)
Fixpoint leaves (P : bignum -> Prop) (e : expr) : Prop :=
  match e with Num x => P x | Op _ a b => leaves P a /\ leaves P b end.

(** The integer an expression stands for, if every operation in it is one the library performs ([int_op], C47). *)
Fixpoint denotes (B N m : Z) (e : expr) (v : Z) : Prop :=
  match e with
  | Num x => v = signed_value B x
  | Op op a b => exists p q, denotes B N m a p /\ denotes B N m b q /\ int_op B N m op p q v
  end.

(** the mathematical answer *)
Definition right_answer (c : comparison) (v w : Z) : bool :=
  match c with
  | CEq => v =? w | CNe => negb (v =? w) | CGt => w <? v | CGe => w <=? v | CLt => v <? w | CLe => v <=? w
  end.

(** Which comparisons can be trusted: never of two zeros; == and != otherwise always; >= and <= between numbers that are
    not negative or have different signs; > and < only between different signs. *)
Definition trusted (c : comparison) (v w : Z) : Prop :=
  (v <> 0 \/ w <> 0) /\
  match c with
  | CEq | CNe => True
  | CGe | CLe => (0 <= v /\ 0 <= w) \/ v * w < 0
  | CGt | CLt => v * w < 0
  end.

Lemma eval_denotes ct cosf sinf L N m e v : accurate cosf sinf -> In (L, N, m) safe_lengths -> can_double L = true ->
  leaves (good (base L)) e -> denotes (base L) N m e v ->
  exists enough : nat, forall fuel keep, (enough <= fuel)%nat ->
  returns (eval (mkEnv L false (ieee ct cosf sinf) fuel keep) e) (fun z => good (base L) z /\ signed_value (base L) z = v).
Proof.
  intros HA Hin HD. revert v. induction e as [x|op a IHa b IHb]; intros v Hl Hd; cbn [leaves denotes] in *.
  - exists 0%nat. intros fuel keep _. apply returns_ret. auto.
  - destruct Hl as [La Lb]. destruct Hd as (p & q & Ha & Hb & Ho).
    destruct (IHa p La Ha) as [e1 K1]. destruct (IHb q Lb Hb) as [e2 K2].
    exists (e1 + e2 + Z.to_nat (Z.log2 (Z.abs p) + 2) + Z.to_nat (Z.log2_up N + 1))%nat. intros fuel keep Hf. cbn [eval].
    apply (returns_bind _ _ _ _ (K1 fuel keep ltac:(lia))). intros x [Gx Vx].
    apply (returns_bind _ _ _ _ (K2 fuel keep ltac:(lia))). intros y [Gy Vy].
    destruct (int_op_assigns ct cosf sinf L N m op x (Other y) p q v fuel keep HA Hin HD Gx Vx Gy Vy ltac:(lia) ltac:(lia) Ho) as [bad H].
    exact (binary_returns _ _ _ _ _ H).
Qed.

Lemma nonzero_canonical B x : 2 <= B -> good B x -> signed_value B x <> 0 -> canonical (data x).
Proof.
  intros HB (F & D & W) H. apply (canonical_of_weak B (data x) W). intros E. apply H. unfold signed_value. rewrite E. destruct (desc x); reflexivity.
Qed.

Lemma eq_nonzero B x y : 2 <= B -> good B x -> good B y -> signed_value B x <> 0 \/ signed_value B y <> 0 ->
  (x = y <-> signed_value B x = signed_value B y).
Proof.
  intros HB Gx Gy Hn. split; [intros ->; reflexivity|]. intros E.
  pose proof (nonzero_canonical B x HB Gx ltac:(lia)) as Cx. pose proof (nonzero_canonical B y HB Gy ltac:(lia)) as Cy.
  destruct Gx as (Fx & Dx & _), Gy as (Fy & Dy & _).
  apply (C08_eq_is_value_equality B x y HB Dx Dy Cx Cy Fx Fy). split; [exact E|].
  intros Z0. exfalso. assert (signed_value B x = 0) as S0 by (unfold signed_value; rewrite Z0; destruct (desc x); reflexivity). lia.
Qed.

(** >= between numbers that store non-negative values, one of them positive *)
Lemma geb_weak B a b : 2 <= B -> digits_ok B a -> digits_ok B b -> weak_canonical a -> weak_canonical b ->
  value B a <> 0 \/ value B b <> 0 -> geb B a b = (value B b <=? value B a).
Proof.
  intros HB Da Db Wa Wb Hn.
  pose proof (value_bounds B HB a Da) as Ba. pose proof (value_bounds B HB b Db) as Bb.
  destruct (Z.eq_dec (value B a) 0) as [Ea|Ea]; [|destruct (Z.eq_dec (value B b) 0) as [Eb|Eb]].
  - destruct (canonical_of_weak B b Wb ltac:(lia)) as [Cb Nb].
    rewrite (proj2 (Z.leb_gt _ _)) by lia. unfold geb.
    assert (length a <= 1)%nat as La.
    { destruct Wa as [C| ->]; [|cbn; lia]. apply (value_zero_canonical B HB) in Ea; auto. subst a. cbn; lia. }
    destruct b as [|b0 br]; [congruence|]. rewrite (proj2 (Nat.ltb_ge _ _)) by (cbn [length]; lia).
    destruct (length a <? length (b0 :: br))%nat; [reflexivity|]. apply Z.leb_gt. lia.
  - destruct (canonical_of_weak B a Wa ltac:(lia)) as [Ca Na].
    rewrite (proj2 (Z.leb_le _ _)) by lia. unfold geb.
    assert (length b <= 1)%nat as Lb.
    { destruct Wb as [C| ->]; [|cbn; lia]. apply (value_zero_canonical B HB) in Eb; auto. subst b. cbn; lia. }
    destruct a as [|a0 ar]; [congruence|]. destruct (length b <? length (a0 :: ar))%nat; [reflexivity|].
    rewrite (proj2 (Nat.ltb_ge _ _)) by (cbn [length]; lia). apply Z.leb_le. lia.
  - apply geb_canonical; auto; apply (canonical_of_weak B); auto; lia.
Qed.

Lemma compare_trusted B c x y : 2 <= B -> good B x -> good B y -> trusted c (signed_value B x) (signed_value B y) ->
  answers (compare c x y) (right_answer c (signed_value B x) (signed_value B y)).
Proof.
  intros HB Gx Gy [Hn Hc].
  assert (answers (op_eq x y) (signed_value B x =? signed_value B y) /\ answers (op_ne x y) (negb (signed_value B x =? signed_value B y))) as [Q1 Q2].
  { destruct (C08_eq_is_representation_equality x y) as (b & Ke & Kn & Hb). rewrite (eq_nonzero B x y HB Gx Gy Hn), <- Z.eqb_eq in Hb.
    apply eq_iff_eq_true in Hb. subst b. split; assumption. }
  pose proof Gx as (Fx & Dx & Wx). pose proof Gy as (Fy & Dy & Wy).
  pose proof (value_bounds B HB _ Dx) as Bx. pose proof (value_bounds B HB _ Dy) as By.
  assert (desc x = desc y \/ desc x <> desc y) as [Ed|Ed] by (destruct (desc x), (desc y); (left; reflexivity) || (right; discriminate)).
  - assert (c = CEq \/ c = CNe \/ ((c = CGe \/ c = CLe) /\ desc x = BN_POS)) as K.
    { unfold signed_value in *. rewrite <- Ed in *. destruct c; auto; destruct Fx as [E|E]; rewrite E in *;
        try nia; right; right; (split; [auto|]; first [reflexivity|exfalso; destruct Hc; nia]). }
    destruct K as [-> |[-> |[K E]]]; [exact Q1|exact Q2|]. assert (desc y = BN_POS) as E' by congruence.
    unfold signed_value in *. rewrite E, E' in *.
    destruct K as [-> | ->]; cbn [compare right_answer].
    + rewrite <- (geb_weak B (data x) (data y)) by auto. exact (op_ge_pos B HB x y E E' Dx Dy).
    + rewrite <- (geb_weak B (data y) (data x)) by (auto; lia). exact (op_le_pos B HB x y E E' Dx Dy).
  - destruct (C12_agrees_with_values B x y HB Fx Fy Ed Dx Dy Hn) as (K1 & K2 & K3 & K4).
    destruct c; cbn [compare right_answer]; assumption.
Qed.

(** A condition between two expressions gives the mathematical answer: for all expressions whose operations are ones the
    library performs, every accurate mathematical library, and every allocator that does not refuse. *)
Theorem C57_conditions : forall ct cosf sinf L N m c e f v w, accurate cosf sinf -> In (L, N, m) safe_lengths -> can_double L = true ->
  leaves (good (base L)) e -> leaves (good (base L)) f -> denotes (base L) N m e v -> denotes (base L) N m f w -> trusted c v w ->
  exists enough : nat, forall fuel keep, (enough <= fuel)%nat ->
  returns (test (mkEnv L false (ieee ct cosf sinf) fuel keep) c e f) (fun b => b = right_answer c v w).
Proof.
  intros ct cosf sinf L N m c e f v w HA Hin HD Le Lf De Df Hc.
  assert (limits_ok L = true) as HL by (unfold can_double in HD; apply andb_true_iff in HD; apply HD).
  pose proof (AddSubProof.HB L HL) as HB.
  destruct (eval_denotes ct cosf sinf L N m e v HA Hin HD Le De) as [e1 K1].
  destruct (eval_denotes ct cosf sinf L N m f w HA Hin HD Lf Df) as [e2 K2].
  exists (e1 + e2)%nat. intros fuel keep Hf. unfold test.
  apply (returns_bind _ _ _ _ (K1 fuel keep ltac:(lia))). intros x [Gx Vx].
  apply (returns_bind _ _ _ _ (K2 fuel keep ltac:(lia))). intros y [Gy Vy].
  rewrite <- Vx, <- Vy in *. intros al n. rewrite (compare_trusted (base L) c x y HB Gx Gy Hc al n). split; [reflexivity|lia].
Qed.
Print Assumptions C57_conditions.

(** ** The laws *)
Section Laws.
Context (ct : evaluation) (cosf sinf : double -> double) (L : limits) (N m : Z).
Context (HA : accurate cosf sinf) (Hin : In (L, N, m) safe_lengths) (HD : can_double L = true).
Let B := base L.
Notation "a [+] b" := (Op OAdd a b) (at level 50, left associativity).
Notation "a [-] b" := (Op OSub a b) (at level 50, left associativity).
Notation "a [*] b" := (Op OMul a b) (at level 40, left associativity).
Notation "a [/] b" := (Op ODiv a b) (at level 40, left associativity).

(** the equation holds, tested with == *)
Definition holds (e f : expr) : Prop := exists enough : nat, forall fuel keep, (enough <= fuel)%nat ->
  returns (test (mkEnv L false (ieee ct cosf sinf) fuel keep) CEq e f) (fun b => b = true).

Lemma holds_intro e f v : leaves (good B) e -> leaves (good B) f -> denotes B N m e v -> denotes B N m f v -> v <> 0 -> holds e f.
Proof.
  intros Le Lf De Df Hv. destruct (C57_conditions ct cosf sinf L N m CEq e f v v HA Hin HD Le Lf De Df) as [k K].
  - split; auto.
  - exists k. intros fuel keep Hf. eapply returns_mono; [exact (K fuel keep Hf)|]. intros b ->. apply Z.eqb_refl.
Qed.

Lemma law_add_assoc x y z : good B x -> good B y -> good B z ->
  let a := signed_value B x in let b := signed_value B y in let c := signed_value B z in
  a <> 0 \/ b <> 0 -> b <> 0 \/ c <> 0 -> a + b + c <> 0 -> holds (Num x [+] Num y [+] Num z) (Num x [+] (Num y [+] Num z)).
Proof.
  intros Gx Gy Gz a b c H1 H2 H3. apply holds_intro with (v := a + b + c); cbn [leaves denotes]; auto.
  - exists (a + b), c. split; [|split; [reflexivity|split; [lia|reflexivity]]]. exists a, b. repeat split; auto.
  - exists a, (b + c). split; [reflexivity|]. split; [|split; [lia|lia]]. exists b, c. repeat split; auto.
Qed.

Lemma law_mul_comm x y : good B x -> good B y ->
  let a := signed_value B x in let b := signed_value B y in
  a <> 0 -> b <> 0 -> mul_fits B N m a b -> holds (Num x [*] Num y) (Num y [*] Num x).
Proof.
  intros Gx Gy a b Ha Hb (p & q & F1 & F2 & F3 & F4 & F5 & F6). apply holds_intro with (v := a * b); cbn [leaves denotes]; auto; try nia.
  - exists a, b. split; [reflexivity|]. split; [reflexivity|]. split; [auto|]. split; [|reflexivity]. exists p, q. auto 10.
  - exists b, a. split; [reflexivity|]. split; [reflexivity|]. split; [auto|]. split; [|apply Z.mul_comm]. exists q, p.
    repeat split; auto; lia.
Qed.

Lemma law_mul_assoc x y z : good B x -> good B y -> good B z ->
  let a := signed_value B x in let b := signed_value B y in let c := signed_value B z in
  a <> 0 -> b <> 0 -> c <> 0 -> mul_fits B N m a b -> mul_fits B N m (a * b) c -> mul_fits B N m b c -> mul_fits B N m a (b * c) ->
  holds (Num x [*] Num y [*] Num z) (Num x [*] (Num y [*] Num z)).
Proof.
  intros Gx Gy Gz a b c Ha Hb Hc F1 F2 F3 F4. apply holds_intro with (v := a * b * c); cbn [leaves denotes]; auto.
  - exists (a * b), c. split; [exists a, b; repeat split; auto|]. repeat split; auto.
  - exists a, (b * c). split; [reflexivity|]. split; [exists b, c; repeat split; auto|]. split; [auto|]. split; [exact F4|ring].
  - nia.
Qed.

Lemma law_distributes x y z : good B x -> good B y -> good B z ->
  let a := signed_value B x in let b := signed_value B y in let c := signed_value B z in
  a <> 0 -> b + c <> 0 -> mul_fits B N m a (b + c) -> mul_fits B N m a b -> mul_fits B N m a c ->
  holds (Num x [*] (Num y [+] Num z)) (Num x [*] Num y [+] Num x [*] Num z).
Proof.
  intros Gx Gy Gz a b c Ha Hs F1 F2 F3. apply holds_intro with (v := a * (b + c)); cbn [leaves denotes]; auto; try nia.
  - exists a, (b + c). split; [reflexivity|]. split; [|repeat split; auto]. exists b, c. repeat split; auto. lia.
  - exists (a * b), (a * c). split; [exists a, b; repeat split; auto|]. split; [exists a, c; repeat split; auto|]. split; [nia|ring].
Qed.

Lemma law_add_sub x y : good B x -> good B y ->
  let a := signed_value B x in let b := signed_value B y in 0 < a * b -> holds (Num x [+] Num y [-] Num y) (Num x).
Proof.
  intros Gx Gy a b H. apply holds_intro with (v := a); cbn [leaves denotes]; auto; try nia.
  exists (a + b), b. split; [exists a, b; repeat split; auto; nia|]. split; [reflexivity|]. split; [nia|lia].
Qed.

(** x * y / y == x unless |x| = 1 and |y| > 1 *)
Lemma law_mul_div x y : good B x -> good B y ->
  let a := signed_value B x in let b := signed_value B y in
  a <> 0 -> b <> 0 -> mul_fits B N m a b -> Z.abs a <> 1 \/ Z.abs b = 1 -> holds (Num x [*] Num y [/] Num y) (Num x).
Proof.
  intros Gx Gy a b Ha Hb F H. apply holds_intro with (v := a); cbn [leaves denotes]; auto.
  exists (a * b), b. split; [exists a, b; repeat split; auto|]. split; [reflexivity|]. split; [exact Hb|]. split; [|symmetry; apply Z.quot_mul, Hb].
  rewrite Z.abs_mul. nia.
Qed.

Lemma law_mul_div_fails x y : good B x -> good B y ->
  let a := signed_value B x in let b := signed_value B y in
  Z.abs a = 1 -> 1 < Z.abs b -> mul_fits B N m a b ->
  exists enough : nat, forall fuel keep, (enough <= fuel)%nat ->
  returns (test (mkEnv L false (ieee ct cosf sinf) fuel keep) CEq (Num x [*] Num y [/] Num y) (Num x)) (fun b => b = false).
Proof.
  intros Gx Gy a b Ha Hb F.
  assert (limits_ok L = true) as HL by (unfold can_double in HD; apply andb_true_iff in HD; apply HD).
  pose proof (AddSubProof.HB L HL) as HB.
  assert (denotes B N m (Num x [*] Num y) (a * b)) as D by (exists a, b; repeat split; auto; lia).
  destruct (eval_denotes ct cosf sinf L N m (Num x [*] Num y) (a * b) HA Hin HD (conj Gx Gy) D) as [k K].
  exists k. intros fuel keep Hf. unfold test. 
  change (eval (mkEnv L false (ieee ct cosf sinf) fuel keep) (Num x [*] Num y [/] Num y))
    with (z <- eval (mkEnv L false (ieee ct cosf sinf) fuel keep) (Num x [*] Num y) ;;
          (t <- eval (mkEnv L false (ieee ct cosf sinf) fuel keep) (Num y) ;; op_div L false fuel z t)).
  eapply (returns_bind _ _ (fun q => data q = [0])).
  { apply (returns_bind _ _ _ _ (K fuel keep Hf)). intros z [Gz Vz]. fold B in Gz, Vz.
    eapply (returns_bind _ _ (fun t => t = y)); [apply returns_ret; reflexivity|]. intros ? ->.
    assert (Z.abs (a * b) = Z.abs b) as Eab by (rewrite Z.abs_mul; lia).
    assert (a * b <> 0) as Nab by lia.
    pose proof (nonzero_canonical B z HB Gz ltac:(rewrite Vz; exact Nab)) as Cz. pose proof (nonzero_canonical B y HB Gy ltac:(fold b; lia)) as Cy.
    destruct Gz as (Fz & Dz & _). pose proof Gy as (Fy & Dy & _).
    assert (data z = data y) as E.
    { apply (value_inj B HB); auto. rewrite <- (abs_signed B z HB Dz), <- (abs_signed B y HB Dy), Vz. exact Eab. }
    eapply returns_mono; [apply (binary_returns _ _ _ _ _ (C24_equal_magnitudes L fuel z y HD Fz Fy E Cz
      ltac:(apply (nonzero_nonempty B); rewrite Vz; exact Nab) ltac:(intros E1; pose proof (abs_signed B z HB Dz) as A; rewrite E1, Vz, Eab in A; cbn [value] in A; lia)))|].
    intros q (E0 & _). exact E0. }
  intros q Eq. eapply (returns_bind _ _ (fun t => t = x)); [apply returns_ret; reflexivity|]. intros ? ->.
  intros al n. cbn [compare]. destruct (C08_eq_is_representation_equality q x) as (c & Ke & _ & Hc). rewrite (Ke al n).
  split; [|lia]. destruct c; [|reflexivity]. exfalso. pose proof (proj1 Hc eq_refl) as E. subst q.
  pose proof (abs_signed B x HB (proj1 (proj2 Gx))) as A. rewrite Eq in A. fold a in A. cbn [value] in A. lia.
Qed.
End Laws.

(** Associativity, distributivity and the inverse laws, tested with ==, on numbers the library maintains. *)
Theorem C57_laws : forall ct cosf sinf L N m x y z, accurate cosf sinf -> In (L, N, m) safe_lengths -> can_double L = true ->
  good (base L) x -> good (base L) y -> good (base L) z ->
  let a := signed_value (base L) x in let b := signed_value (base L) y in let c := signed_value (base L) z in
  let fits := mul_fits (base L) N m in
  (a <> 0 \/ b <> 0 -> b <> 0 \/ c <> 0 -> a + b + c <> 0 ->
     holds ct cosf sinf L (Op OAdd (Op OAdd (Num x) (Num y)) (Num z)) (Op OAdd (Num x) (Op OAdd (Num y) (Num z)))) /\
  (a <> 0 -> b <> 0 -> c <> 0 -> fits a b -> fits (a * b) c -> fits b c -> fits a (b * c) ->
     holds ct cosf sinf L (Op OMul (Op OMul (Num x) (Num y)) (Num z)) (Op OMul (Num x) (Op OMul (Num y) (Num z)))) /\
  (a <> 0 -> b + c <> 0 -> fits a (b + c) -> fits a b -> fits a c ->
     holds ct cosf sinf L (Op OMul (Num x) (Op OAdd (Num y) (Num z))) (Op OAdd (Op OMul (Num x) (Num y)) (Op OMul (Num x) (Num z)))) /\
  (0 < a * b -> holds ct cosf sinf L (Op OSub (Op OAdd (Num x) (Num y)) (Num y)) (Num x)) /\
  (a <> 0 -> b <> 0 -> fits a b -> Z.abs a <> 1 \/ Z.abs b = 1 ->
     holds ct cosf sinf L (Op ODiv (Op OMul (Num x) (Num y)) (Num y)) (Num x)).
Proof.
  intros ct cosf sinf L N m x y z HA Hin HD Gx Gy Gz a b c fits.
  repeat split; intros.
  - eapply law_add_assoc; eauto.
  - eapply law_mul_assoc; eauto.
  - eapply law_distributes; eauto.
  - eapply law_add_sub; eauto.
  - eapply law_mul_div; eauto.
Qed.
Print Assumptions C57_laws.

(** x * y / y is not x when x is 1 or -1 and y is neither (the quotient of equal magnitudes is 0, C24). *)
Theorem C57_mul_div_refuted : forall ct cosf sinf L N m x y, accurate cosf sinf -> In (L, N, m) safe_lengths -> can_double L = true ->
  good (base L) x -> good (base L) y -> Z.abs (signed_value (base L) x) = 1 -> 1 < Z.abs (signed_value (base L) y) ->
  mul_fits (base L) N m (signed_value (base L) x) (signed_value (base L) y) ->
  exists enough : nat, forall fuel keep, (enough <= fuel)%nat ->
  returns (test (mkEnv L false (ieee ct cosf sinf) fuel keep) CEq (Op ODiv (Op OMul (Num x) (Num y)) (Num y)) (Num x)) (fun b => b = false).
Proof. intros ct cosf sinf L N m x y HA Hin HD Gx Gy H1 H2 H3. eapply law_mul_div_fails; eauto. Qed.
Print Assumptions C57_mul_div_refuted.

(** Multiplication commutes for all finite numbers, zeros and superfluous zeros included. *)
Theorem C57_mul_commutes : forall ct cosf sinf L N m fuel keep x y, accurate cosf sinf -> In (L, N, m) safe_lengths ->
  finite x -> finite y -> digits_ok (base L) (data x) -> digits_ok (base L) (data y) ->
  (0 < length (data x) + length (data y))%nat -> Z.of_nat (length (data x) + length (data y)) <= N ->
  Z.of_nat (Nat.min (length (data x)) (length (data y))) <= m -> Z.log2_up N < Z.of_nat fuel ->
  returns (test (mkEnv L false (ieee ct cosf sinf) fuel keep) CEq (Op OMul (Num x) (Num y)) (Op OMul (Num y) (Num x))) (fun b => b = true).
Proof.
  intros ct cosf sinf L N m fuel keep x y HA Hin Fx Fy Dx Dy Hp Hl Hm Hf.
  destruct (safe_lengths_numbers L N m Hin) as (HL & _). pose proof (AddSubProof.HB L HL) as HB.
  pose proof (C17_per_type ct cosf sinf L N m fuel x y HA Hin Fx Fy Dx Dy Hp Hl Hm Hf) as K1.
  pose proof (C17_per_type ct cosf sinf L N m fuel y x HA Hin Fy Fx Dy Dx ltac:(lia) ltac:(lia) ltac:(lia) Hf) as K2.
  unfold test. eapply (returns_bind _ _ (fun z => good (base L) z /\ canonical (data z) /\
       signed_value (base L) z = signed_value (base L) x * signed_value (base L) y /\ (desc z = BN_POS <-> desc x = desc y))).
  { cbn [eval]. eapply (returns_bind _ _ (fun t => t = x)); [apply returns_ret; reflexivity|]. intros ? ->.
    eapply (returns_bind _ _ (fun t => t = y)); [apply returns_ret; reflexivity|]. intros ? ->. exact K1. }
  intros p ((Fp & Dp & _) & Cp & Vp & Sp).
  eapply (returns_bind _ _ (fun z => good (base L) z /\ canonical (data z) /\
       signed_value (base L) z = signed_value (base L) y * signed_value (base L) x /\ (desc z = BN_POS <-> desc y = desc x))).
  { cbn [eval]. eapply (returns_bind _ _ (fun t => t = y)); [apply returns_ret; reflexivity|]. intros ? ->.
    eapply (returns_bind _ _ (fun t => t = x)); [apply returns_ret; reflexivity|]. intros ? ->. exact K2. }
  intros q ((Fq & Dq & _) & Cq & Vq & Sq).
  assert (p = q) as ->.
  { apply (C08_eq_is_value_equality (base L) p q HB Dp Dq Cp Cq Fp Fq). split; [lia|]. intros _.
    assert (desc p = BN_POS <-> desc q = BN_POS) as E by (rewrite Sp, Sq; split; congruence).
    destruct Fp as [Ep|Ep], Fq as [Eq|Eq]; rewrite Ep, Eq in *; auto; destruct E as [E1 E2];
      [specialize (E1 eq_refl)|specialize (E2 eq_refl)]; discriminate. }
  intros al n. cbn [compare]. destruct (C08_eq_is_representation_equality q q) as (c & Ke & _ & Hc). rewrite (Ke al n).
  split; [apply Hc; reflexivity|lia].
Qed.
Print Assumptions C57_mul_commutes.

(** Three numbers other than zero whose sum is zero: addition associates exactly if the first and the last have different
    signs (both sides are zeros, the left with the sign opposite to z, the right with that of x).  No multiplication is
    involved, so this holds with any floating-point arithmetic and any fuel. *)
Theorem C57_add_assoc_zero_sum : forall P L fuel keep x y z, limits_ok L = true ->
  good (base L) x -> good (base L) y -> good (base L) z ->
  let a := signed_value (base L) x in let b := signed_value (base L) y in let c := signed_value (base L) z in
  a <> 0 -> b <> 0 -> c <> 0 -> a + b + c = 0 ->
  returns (test (mkEnv L false P fuel keep) CEq
    (Op OAdd (Op OAdd (Num x) (Num y)) (Num z)) (Op OAdd (Num x) (Op OAdd (Num y) (Num z)))) (fun t => t = (a * c <? 0)).
Proof.
  intros P L fuel keep x y z HL Gx Gy Gz a b c Ha Hb Hc Hs. pose proof (AddSubProof.HB L HL) as HB.
  assert (forall u v, good (base L) u -> good (base L) v -> signed_value (base L) u <> 0 -> signed_value (base L) u + signed_value (base L) v = 0 ->
    returns (op_add L false u v) (fun w => w = mkBN (desc u) [])) as Key.
  { intros u v Gu Gv Hu Hv.
    pose proof (nonzero_canonical (base L) u HB Gu Hu) as Cu. pose proof (nonzero_canonical (base L) v HB Gv ltac:(lia)) as Cv.
    pose proof (nonzero_nonempty (base L) u Hu) as Nu.
    eapply returns_mono; [exact (binary_returns _ _ _ _ _ (add_shape L HL u v Gu Gv Cu Cv ltac:(auto)))|].
    intros w ((Fw & Dw & Ww) & Vw & _ & Sw).
    pose proof Gu as (Fu & Du & _). pose proof Gv as (Fv & Dv & _).
    pose proof (value_bounds (base L) HB _ Du) as Bu. pose proof (value_bounds (base L) HB _ Dv) as Bv.
    assert (desc u <> desc v /\ value (base L) (data u) = value (base L) (data v)) as [Hd He].
    { unfold signed_value in Hu, Hv. destruct Fu as [Eu|Eu], Fv as [Ev|Ev]; rewrite Eu, Ev in *; split; try discriminate; lia. }
    destruct (Sw Hd) as [Cw Ew]. rewrite He, Z.leb_refl in Ew.
    assert (data w = []) as E0.
    { apply (value_zero_canonical (base L) HB); auto. rewrite Hv in Vw. unfold signed_value in Vw. destruct (desc w); lia. }
    destruct w as [dw vw]. cbn [desc data] in *. congruence. }
  assert (forall u v, good (base L) u -> good (base L) v -> signed_value (base L) u <> 0 ->
    returns (op_add L false u v) (fun w => good (base L) w /\ signed_value (base L) w = signed_value (base L) u + signed_value (base L) v)) as Add.
  { intros u v Gu Gv Hu. apply C01_add; auto. right. left. apply (nonzero_nonempty (base L)), Hu. }
  unfold test. eapply (returns_bind _ _ (fun w => w = mkBN (if c <? 0 then BN_POS else BN_NEG) [])).
  { cbn [eval compound eL eDbg].
    eapply (returns_bind _ _ (fun w => good (base L) w /\ signed_value (base L) w = a + b)).
    - eapply (returns_bind _ _ (fun t => t = x)); [apply returns_ret; reflexivity|]. intros ? ->.
      eapply (returns_bind _ _ (fun t => t = y)); [apply returns_ret; reflexivity|]. intros ? ->. exact (Add x y Gx Gy Ha).
    - intros w [Gw Vw]. eapply (returns_bind _ _ (fun t => t = z)); [apply returns_ret; reflexivity|]. intros ? ->.
      eapply returns_mono; [apply (Key w z Gw Gz); fold c; lia|]. intros ? ->. f_equal.
      destruct (Z.ltb_spec c 0) as [H|H]; [apply (desc_of_value (base L)); auto; lia|].
      destruct Gw as ([E|E] & Dw & _); auto. pose proof (value_bounds (base L) HB _ Dw). unfold signed_value in Vw. rewrite E in Vw. lia. }
  intros ? ->. eapply (returns_bind _ _ (fun w => w = mkBN (if a <? 0 then BN_NEG else BN_POS) [])).
  { cbn [eval compound eL eDbg]. eapply (returns_bind _ _ (fun t => t = x)); [apply returns_ret; reflexivity|]. intros ? ->.
    eapply (returns_bind _ _ (fun w => good (base L) w /\ signed_value (base L) w = b + c)).
    - eapply (returns_bind _ _ (fun t => t = y)); [apply returns_ret; reflexivity|]. intros ? ->.
      eapply (returns_bind _ _ (fun t => t = z)); [apply returns_ret; reflexivity|]. intros ? ->. exact (Add y z Gy Gz Hb).
    - intros w [Gw Vw]. eapply returns_mono; [apply (Key x w Gx Gw); fold a; lia|]. intros ? ->. f_equal.
      destruct (Z.ltb_spec a 0) as [H|H]; [|apply (desc_of_value (base L)); auto; lia].
      destruct Gx as ([E|E] & Dx & _); auto. pose proof (value_bounds (base L) HB _ Dx). unfold a, signed_value in H. rewrite E in H. lia. }
  intros ? ->. intros al n. cbn [compare].
  destruct (C08_eq_is_representation_equality (mkBN (if c <? 0 then BN_POS else BN_NEG) []) (mkBN (if a <? 0 then BN_NEG else BN_POS) [])) as (t & Ke & _ & Ht).
  rewrite (Ke al n). split; [|lia]. apply eq_iff_eq_true. rewrite Ht.
  destruct (Z.ltb_spec c 0), (Z.ltb_spec a 0), (Z.ltb_spec (a * c) 0); split; intros E; try reflexivity; try discriminate; nia.
Qed.
Print Assumptions C57_add_assoc_zero_sum.

(** 5 + -8 + 3 is a case for == to fail, 5 + 3 + -8 one for it to succeed *)
Example C57_zero_sum_case :
  run (test env10 CEq (Op OAdd (Op OAdd (Num (dec BN_POS [5])) (Num (dec BN_NEG [8]))) (Num (dec BN_POS [3])))
                      (Op OAdd (Num (dec BN_POS [5])) (Op OAdd (Num (dec BN_NEG [8])) (Num (dec BN_POS [3]))))) = Ret false 5%nat /\
  run (test env10 CEq (Op OAdd (Op OAdd (Num (dec BN_POS [5])) (Num (dec BN_POS [3]))) (Num (dec BN_NEG [8])))
                      (Op OAdd (Num (dec BN_POS [5])) (Op OAdd (Num (dec BN_POS [3])) (Num (dec BN_NEG [8]))))) = Ret true 5%nat.
Proof. vm_compute. split; reflexivity. Qed.

(** 12 * (34 + -5) = 12 * 34 + 12 * -5 on the base-10 type, with every choice of fused multiply-adds *)
Example C57_case : forall ct, let e := Op OMul (Num (dec BN_POS [2; 1])) (Op OAdd (Num (dec BN_POS [4; 3])) (Num (dec BN_NEG [5]))) in
  let f := Op OAdd (Op OMul (Num (dec BN_POS [2; 1])) (Num (dec BN_POS [4; 3]))) (Op OMul (Num (dec BN_POS [2; 1])) (Num (dec BN_NEG [5]))) in
  accurate libm_cos libm_sin /\ good 10 (dec BN_POS [2; 1]) /\ good 10 (dec BN_POS [4; 3]) /\ good 10 (dec BN_NEG [5]) /\
  mul_fits 10 (2 ^ 32) 47721858 12 29 /\ mul_fits 10 (2 ^ 32) 47721858 12 34 /\ mul_fits 10 (2 ^ 32) 47721858 12 (-5) /\
  holds ct libm_cos libm_sin base10 e f.
Proof.
  intros ct e f.
  assert (good 10 (dec BN_POS [2; 1]) /\ good 10 (dec BN_POS [4; 3]) /\ good 10 (dec BN_NEG [5])) as (G1 & G2 & G3).
  { unfold good, finite, digits_ok, weak_canonical, canonical; cbn. repeat split; auto; try (repeat constructor; lia); left; lia. }
  assert (mul_fits 10 (2 ^ 32) 47721858 12 29 /\ mul_fits 10 (2 ^ 32) 47721858 12 34 /\ mul_fits 10 (2 ^ 32) 47721858 12 (-5)) as (F1 & F2 & F3).
  { repeat split; exists 2, 2; repeat split; vm_compute; congruence. }
  split; [exact libm_accurate|]. split; [exact G1|]. split; [exact G2|]. split; [exact G3|].
  split; [exact F1|]. split; [exact F2|]. split; [exact F3|].
  pose proof (C57_laws ct libm_cos libm_sin base10 (2 ^ 32) 47721858 (dec BN_POS [2; 1]) (dec BN_POS [4; 3]) (dec BN_NEG [5])
    libm_accurate ltac:(right; right; left; reflexivity) eq_refl G1 G2 G3) as K.
  cbv zeta in K. destruct K as (_ & _ & K & _). apply K; [discriminate|discriminate|exact F1|exact F2|exact F3].
Qed.

(** 1 * 7 / 7 is not 1 *)
Example C57_mul_div_case : good 10 (dec BN_POS [1]) /\ good 10 (dec BN_POS [7]) /\ mul_fits 10 (2 ^ 32) 47721858 1 7.
Proof.
  split; [|split].
  1, 2: unfold good, finite, digits_ok, weak_canonical, canonical; cbn; repeat split; auto; try (repeat constructor; lia); left; lia.
  exists 2, 2. repeat split; vm_compute; congruence.
Qed.
