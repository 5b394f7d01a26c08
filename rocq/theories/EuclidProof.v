(** * Structured client programs: lemmas *)
From Coq Require Import ZArith Lia List Arith Znumtheory.
From Verif Require Import Base Spec Limits Compare AddSub Division Bignum Fourier Multiplication Machine While Outcome Wp ValueProof
  AddSubProof BignumProof OperatorProof DivisionProof DivOpProof Conv PropAddSub PropCompare PropObject PropDivision HistoryProof PropHistory
  Ieee IeeeProof MulOpProof PropMul PropProgram.
Import ListNotations.
Open Scope Z_scope.

(** A non-negative number without superfluous zeros. *)
Definition is_nat (B : Z) (x : bignum) (v : Z) : Prop :=
  desc x = BN_POS /\ digits_ok B (data x) /\ canonical (data x) /\ value B (data x) = v.

Lemma is_nat_good B x v : is_nat B x v -> good B x /\ signed_value B x = v /\ finite x.
Proof.
  intros (D & O & C & V). assert (finite x) as F by (left; exact D). repeat split; auto.
  - left. exact C.
  - unfold signed_value. rewrite D. exact V.
Qed.

Lemma is_nat_bound B x v : 2 <= B -> is_nat B x v -> 0 <= v.
Proof. intros HB (D & O & C & V). subst v. apply (value_bounds B HB _ O). Qed.

Lemma is_nat_unique B x y v : 2 <= B -> is_nat B x v -> is_nat B y v -> x = y.
Proof.
  intros HB (D & O & C & V) (D' & O' & C' & V'). destruct x as [d1 v1], y as [d2 v2]. cbn [desc data] in *. subst. f_equal.
  apply (value_inj B HB); auto.
Qed.

Lemma is_nat_zero B : is_nat B bn_default 0.
Proof. repeat split; try constructor. unfold canonical; cbn; discriminate. Qed.

Lemma is_nat_nonempty B x v : is_nat B x v -> v <> 0 -> data x <> [].
Proof. intros (_ & _ & _ & V) H E. rewrite E in V. cbn in V. lia. Qed.

Lemma is_nat_ne B x y v w : 2 <= B -> is_nat B x v -> is_nat B y w -> answers (op_ne x y) (negb (v =? w)).
Proof.
  intros HB Hx Hy. destruct (C08_eq_is_representation_equality x y) as (b & _ & K & Hb).
  replace (negb (v =? w)) with (negb b); [exact K|]. f_equal. destruct b.
  - destruct (proj1 Hb eq_refl). destruct Hx as (_ & _ & _ & <-), Hy as (_ & _ & _ & <-). symmetry. apply Z.eqb_refl.
  - symmetry. apply Z.eqb_neq. intros <-. pose proof (is_nat_unique B x y v HB Hx Hy) as E. apply Hb in E. discriminate.
Qed.

Lemma is_nat_ge B x y v w : 2 <= B -> is_nat B x v -> is_nat B y w -> answers (op_ge x y) (w <=? v).
Proof.
  intros HB (D & O & C & V) (D' & O' & C' & V'). destruct (C09_ge_le B x y HB D D' O O' C C') as [K _]. rewrite V, V' in K. exact K.
Qed.

Lemma bind_ret_r {A} (m : M A) al n : bind m ret al n = m al n.
Proof. unfold bind. destruct (m al n); reflexivity. Qed.

Lemma block_exec E l : l <> [] -> forall f s al n, (length l <= f)%nat -> srun E f (block l) s al n = exec E l s al n.
Proof.
  induction l as [|i [|j r] IH]; intros H f s al n Hf; [congruence| |].
  - destruct f as [|f]; [cbn in Hf; lia|]. cbn [block srun exec]. symmetry. apply bind_ret_r.
  - destruct f as [|[|f]]; [cbn in Hf; lia|cbn in Hf; lia|].
    change (block (i :: j :: r)) with (Seq (Do i) (block (j :: r))).
    change (srun E (S (S f)) (Seq (Do i) (block (j :: r))) s al n) with (bind (step E i s) (fun s1 => srun E (S f) (block (j :: r)) s1) al n).
    change (exec E (i :: j :: r) s al n) with (bind (step E i s) (fun s1 => exec E (j :: r) s1) al n).
    unfold bind. destruct (step E i s al n) as [s1 n1| | |]; auto. apply IH; [discriminate|cbn [length] in *; lia].
Qed.

(** More fuel changes nothing once the execution has ended. *)
Lemma srun_mono E : forall f f' p s al n, (f <= f')%nat -> srun E f p s al n <> NoFuel -> srun E f' p s al n = srun E f p s al n.
Proof.
  induction f as [|f IH]; intros f' p s al n Hf H; [exfalso; apply H; reflexivity|].
  destruct f' as [|f']; [lia|]. assert (f <= f')%nat as Hf' by lia. destruct p as [i|a b|c x y a b|c x y a]; cbn [srun] in *.
  - reflexivity.
  - unfold bind in *. pose proof (IH f' a s al n Hf') as K. destruct (srun E f a s al n) as [s1 n1|e n1|u|].
    + rewrite K by discriminate. apply IH; auto.
    + rewrite K by discriminate. reflexivity.
    + rewrite K by discriminate. reflexivity.
    + exfalso. apply H. reflexivity.
  - unfold bind in *. destruct (compare c (s x) (s y) al n) as [[] n1|e n1|u|]; auto.
  - unfold bind in *. destruct (compare c (s x) (s y) al n) as [[] n1|e n1|u|]; auto.
    pose proof (IH f' a s al n1 Hf') as K. destruct (srun E f a s al n1) as [s1 n2|e n2|u|].
    + rewrite K by discriminate. apply IH; auto.
    + rewrite K by discriminate. reflexivity.
    + rewrite K by discriminate. reflexivity.
    + exfalso. apply H. reflexivity.
Qed.

Section Ops.
Context (ct : evaluation) (cosf sinf : _) (L : limits) (N m : Z) (HA : accurate cosf sinf) (Hin : In (L, N, m) safe_lengths) (HD : can_double L = true).
Notation B := (base L).

Lemma eL_ok : limits_ok L = true.
Proof. unfold can_double in HD; apply andb_true_iff in HD; apply HD. Qed.
Lemma eHB : 2 <= B.
Proof. apply AddSubProof.HB, eL_ok. Qed.

(** subtraction of naturals, as a compound assignment *)
Lemma nat_sub_assign x y v w al n : (forall k, al k = true) -> is_nat B x v -> is_nat B y w -> w <= v -> 0 < v ->
  exists z n', op_sub_assign L false x (Other y) al n = Ret (z, None) n' /\ is_nat B z (v - w).
Proof.
  intros Hal Hx Hy Hw Hv. pose proof eL_ok as HL. pose proof eHB as HB.
  destruct (is_nat_good B x v Hx) as (Gx & Sx & _). destruct (is_nat_good B y w Hy) as (Gy & Sy & _).
  assert (desc x = desc y) as Ed by (destruct Hx as [-> _], Hy as [-> _]; reflexivity).
  destruct (assigns_run _ _ _ al n (C03_sub_assign L x y HL Gx Gy Ed (or_introl (is_nat_nonempty B x v Hx ltac:(lia)))) Hal)
    as (z & n' & Ez & Gz & Cz & Vz).
  assert (pure (abs_val_is_ge (data x) (data y)) true) as Hge.
  { replace true with (CompareProof.geb B (data x) (data y)); [apply (CompareProof.abs_val_is_ge_pure _ HB); [apply Gx|apply Gy]|].
    apply nat_ge; auto; try apply Gx; try apply Gy; destruct Hx as (_ & _ & _ & Vx), Hy as (_ & _ & _ & Vy); lia. }
  pose proof (sub_desc L x (Other y) (proj1 Hx) (proj1 Hy) Hge al n) as Dz. rewrite Ez in Dz. specialize (Dz eq_refl). cbn [fst] in Dz.
  exists z, n'. split; [exact Ez|]. split; [exact Dz|]. split; [apply Gz|]. split; [exact Cz|].
  unfold signed_value at 1 in Vz. rewrite Dz in Vz. lia.
Qed.

Lemma nat_sub x y v w al n : (forall k, al k = true) -> is_nat B x v -> is_nat B y w -> w <= v -> 0 < v ->
  exists z n', binary (op_sub_assign L false) x y al n = Ret z n' /\ is_nat B z (v - w).
Proof.
  intros Hal Hx Hy Hw Hv. destruct (nat_sub_assign x y v w al (S n) Hal Hx Hy Hw Hv) as (z & n' & Ez & Hz).
  exists z, n'. rewrite binary_eq, Hal, Ez. auto.
Qed.

(** multiplication; the left factor may be the lone digit 0 *)
Lemma nat_mul_assign fuel x y v w al n : (forall k, al k = true) -> Z.log2_up N < Z.of_nat fuel ->
  desc x = BN_POS -> good B x -> value B (data x) = v -> is_nat B y w -> 0 < w -> mul_fits B N m v w ->
  exists z n', op_mul_assign L (ieee ct cosf sinf) fuel x (Other y) al n = Ret (z, None) n' /\ is_nat B z (v * w).
Proof.
  intros Hal Hf Dx Gx Vx Hy Hw (p & q & Hp & Hq & Hp1 & Hq1 & Hpq & Hmin). pose proof eL_ok as HL. pose proof eHB as HB.
  destruct (safe_lengths_numbers L N m Hin) as (_ & HN & Hprec & HM & Hm0 & Hc & _).
  destruct (is_nat_good B y w Hy) as (Gy & Sy & Fy).
  assert (signed_value B x = v) as Sx by (unfold signed_value; rewrite Dx; exact Vx).
  rewrite <- Sx in Hp. rewrite <- Sy in Hq.
  pose proof (length_fits B x p HB Gx Hp1 Hp) as Lx. pose proof (length_fits B y q HB Gy Hq1 Hq) as Ly.
  assert (0 < length (data x) + length (data y))%nat as P0.
  { pose proof (is_nat_nonempty B y w Hy ltac:(lia)). destruct (data y); [congruence|cbn; lia]. }
  assert (Z.of_nat (length (data x) + length (data y)) <= N) as Hlen by lia.
  destruct (assigns_run (op_mul_assign L (ieee ct cosf sinf) fuel x (Other y)) (fun z => good B z /\ canonical (data z) /\
       signed_value B z = signed_value B x * signed_value B y /\ (desc z = BN_POS <-> desc x = desc y)) (infinity_for (desc y)) al n)
    as (z & n' & Ez & Gz & Cz & Vz & Dz); auto.
  - apply (C17_product ct cosf sinf L fuel x y HA HL (proj1 Gx) Fy (proj1 (proj2 Gx)) (proj1 (proj2 Gy)) P0); [lia| | |].
    + pose proof (Z.log2_up_le_mono _ _ Hlen). lia.
    + apply (length_precision L _ _ N); auto; [unfold base; lia|apply Gx|apply Gy].
    + apply C16_columns_fit; auto; [apply Gx|apply Gy|]. eapply Z.le_trans; [|exact Hc].
      apply Z.mul_le_mono_nonneg_r; [unfold base; nia|]. lia.
  - assert (desc z = BN_POS) as Ed by (apply Dz; rewrite Dx; destruct Hy as [-> _]; reflexivity).
    exists z, n'. split; [exact Ez|]. split; [exact Ed|]. split; [apply Gz|]. split; [exact Cz|].
    unfold signed_value at 1 in Vz. rewrite Ed in Vz. congruence.
Qed.

(** division *)
Lemma nat_div fuel x y v w al n : (forall k, al k = true) -> is_nat B x v -> is_nat B y w -> 0 < w ->
  (v <> w \/ w = 1) -> Z.log2 v + 2 <= Z.of_nat fuel ->
  exists z n', binary (op_div_assign L false fuel) x y al n = Ret z n' /\ desc z = BN_POS /\ good B z /\ value B (data z) = v / w.
Proof.
  intros Hal Hx Hy Hw Hn Hf. destruct (is_nat_good B x v Hx) as (Gx & Sx & Fx). destruct (is_nat_good B y w Hy) as (Gy & Sy & Fy).
  destruct Hx as (Dx & Ox & Cx & Vx), Hy as (Dy & Oy & Cy & Vy).
  destruct (nat_op (mkEnv L false (ieee ct cosf sinf) fuel false) ODiv x (Other y) v w al (S n) HD eq_refl Hal Dx Gx Vx Dy Gy Vy Hf (conj Hw Hn))
    as (z & n' & Ez & Dz & Gz & Vz). cbn [compound eL eDbg eFuel] in Ez.
  exists z, n'. rewrite binary_eq, Hal, Ez. auto.
Qed.

(** division by an equal number other than one: the lone digit 0 *)
Lemma nat_div_equal fuel x y v al n : (forall k, al k = true) -> is_nat B x v -> is_nat B y v -> 1 < v ->
  exists z n', binary (op_div_assign L false fuel) x y al n = Ret z n' /\ z = mkBN BN_POS [0].
Proof.
  intros Hal Hx Hy Hv. pose proof (is_nat_unique B x y v eHB Hx Hy) as <-. destruct Hx as (Dx & Ox & Cx & Vx).
  assert (data x <> []) as N0 by (intros E; rewrite E in Vx; cbn in Vx; lia).
  assert (data x <> [1]) as N1 by (intros E; rewrite E in Vx; cbn [value] in Vx; lia).
  destruct (assigns_run _ _ _ al (S n) (C24_equal_magnitudes L fuel x x HD (or_introl Dx) (or_introl Dx) eq_refl Cx N0 N1) Hal)
    as (z & n' & Ez & Hz & Ed & _).
  exists z, n'. rewrite binary_eq, Hal, Ez. split; [reflexivity|]. destruct z as [d w]. cbn [desc data] in *. rewrite Hz, (Ed eq_refl). reflexivity.
Qed.

(** ** Euclid's algorithm by division *)

(** the loop body, given what the quotient is *)
Lemma body_run fuel keep x y q v w t s al n : (forall k, al k = true) -> Z.log2_up N < Z.of_nat fuel ->
  is_nat B x v -> is_nat B y w -> 0 < w -> 0 < v -> s 0%nat = x -> s 1%nat = y ->
  (exists n1, binary (op_div_assign L false fuel) x y al n = Ret q n1) -> desc q = BN_POS -> good B q -> value B (data q) = t ->
  mul_fits B N m t w -> t * w <= v ->
  exists s' n', exec (mkEnv L false (ieee ct cosf sinf) fuel keep) euclid_body s al n = Ret s' n' /\
    is_nat B (s' 0%nat) w /\ is_nat B (s' 1%nat) (v - t * w) /\ s' 3%nat = s 3%nat.
Proof.
  intros Hal Hf Hx Hy Hw Hv E0 E1 [n1 Eq] Dq Gq Vq Hm Hle. unfold euclid_body. cbn [exec].
  cbn [step compound eL eDbg eP eFuel eKeep]. rewrite E0, E1.
  unfold bind at 1. rewrite (store_run _ _ _ _ _ _ _ Eq).
  destruct (nat_mul_assign fuel q y t w al n1 Hal Hf Dq Gq Vq Hy Hw Hm) as (z & n2 & Ez & Hz).
  unfold bind at 1. unfold operand. cbn [Nat.eqb]. unfold upd at 1 2. cbn [Nat.eqb]. rewrite E1.
  unfold bind at 1. rewrite Ez. cbn [ret fst].
  destruct (nat_sub x z v (t * w) al n2 Hal Hx Hz Hle Hv) as (r & n3 & Er & Hr).
  unfold bind at 1. unfold upd at 3 4 5 6. cbn [Nat.eqb]. rewrite E0. rewrite (store_run _ _ _ _ _ _ _ Er).
  unfold bind at 1. cbn [Nat.eqb bn_move_assign ret]. unfold bind at 1. cbn [Nat.eqb bn_move_assign ret].
  eexists _, n3. split; [reflexivity|]. unfold upd. cbn [Nat.eqb]. rewrite E1. repeat split; try apply Hy; apply Hr.
Qed.

Lemma fits_square p t w : 1 <= p -> p <= m -> 0 <= t < B ^ p -> 0 <= w < B ^ p -> mul_fits B N m t w.
Proof.
  intros Hp Hpm Ht Hw. destruct (safe_lengths_numbers L N m Hin) as (_ & HN & _). exists p, p. repeat split; try lia.
Qed.

Lemma euclid_step fuel keep p v w s al n : (forall k, al k = true) -> Z.log2_up N < Z.of_nat fuel ->
  Z.log2 v + 2 <= Z.of_nat fuel -> 1 <= p -> p <= m -> v < B ^ p -> w < B ^ p -> 0 < v -> 0 < w -> (v <> w \/ w = 1) ->
  is_nat B (s 0%nat) v -> is_nat B (s 1%nat) w ->
  exists s' n', exec (mkEnv L false (ieee ct cosf sinf) fuel keep) euclid_body s al n = Ret s' n' /\
    is_nat B (s' 0%nat) w /\ is_nat B (s' 1%nat) (v mod w) /\ s' 3%nat = s 3%nat.
Proof.
  intros Hal Hf1 Hf2 Hp Hpm Hv Hw V0 W0 Hne H0 H1.
  destruct (nat_div fuel (s 0%nat) (s 1%nat) v w al n Hal H0 H1 W0 Hne Hf2) as (q & n1 & Eq & Dq & Gq & Vq).
  assert (0 <= v / w <= v) as Hq by (split; [apply Z.div_pos; lia|apply Z.div_le_upper_bound; nia]).
  assert (w * (v / w) <= v) as Hm by (apply Z.mul_div_le; lia).
  rewrite (Z.mod_eq v w) by lia. rewrite (Z.mul_comm w (v / w)).
  apply (body_run fuel keep (s 0%nat) (s 1%nat) q v w (v / w) s al n Hal Hf1 H0 H1 W0 V0 eq_refl eq_refl (ex_intro _ n1 Eq) Dq Gq Vq).
  - apply (fits_square p); lia.
  - lia.
Qed.

Lemma euclid_loop p : 1 <= p -> p <= m -> forall w, 0 <= w -> w < B ^ p ->
  forall v, 0 < v -> v < B ^ p -> (v <> w \/ w = 1) ->
  exists e, forall fuel keep f s al n, Z.log2_up N < Z.of_nat fuel -> Z.log2 v + 2 <= Z.of_nat fuel -> Z.log2 w + 2 <= Z.of_nat fuel ->
  (e <= f)%nat -> (forall k, al k = true) ->
  is_nat B (s 0%nat) v -> is_nat B (s 1%nat) w -> s 3%nat = bn_default ->
  exists s' n', srun (mkEnv L false (ieee ct cosf sinf) fuel keep) f (While CNe 1 3 (block euclid_body)) s al n = Ret s' n' /\
    is_nat B (s' 0%nat) (Z.gcd v w).
Proof.
  intros Hp Hpm w Hw. pattern w. apply Zlt_0_ind; [|exact Hw]. clear w Hw. intros w IH W0 Hw v V0 Hv Hne.
  pose proof eHB as HB. destruct (Z.eq_dec w 0) as [->|Nw].
  - exists 1%nat. intros fuel keep f s al n Hf Fv Fw He Hal H0 H1 E3. destruct f as [|f]; [lia|]. cbn [srun compare]. unfold bind.
    rewrite (is_nat_ne B (s 1%nat) (s 3%nat) 0 0 HB H1 ltac:(rewrite E3; apply is_nat_zero) al n). cbn [Z.eqb negb].
    exists s, n. split; [reflexivity|]. rewrite Z.gcd_0_r, Z.abs_eq by lia. exact H0.
  - assert (0 <= v mod w < w) as Hr by (apply Z.mod_pos_bound; lia).
    assert (Z.log2 (v mod w) <= Z.log2 w) as Hl by (apply Z.log2_le_mono; lia).
    destruct (IH (v mod w) Hr ltac:(lia) w ltac:(lia) Hw ltac:(left; lia)) as [e K].
    exists (S (Nat.max 5 e)). intros fuel keep f s al n Hf Fv Fw He Hal H0 H1 E3. destruct f as [|f]; [lia|]. cbn [srun compare]. unfold bind at 1.
    rewrite (is_nat_ne B (s 1%nat) (s 3%nat) w 0 HB H1 ltac:(rewrite E3; apply is_nat_zero) al n).
    rewrite (proj2 (Z.eqb_neq w 0) Nw). cbn [negb].
    unfold bind. rewrite block_exec by (try discriminate; cbn [length euclid_body]; lia).
    destruct (euclid_step fuel keep p v w s al n Hal Hf Fv Hp Hpm Hv Hw V0 ltac:(lia) Hne H0 H1) as (s1 & n1 & E1 & K0 & K1 & K3).
    rewrite E1. destruct (K fuel keep f s1 al n1 Hf Fw ltac:(lia) ltac:(lia) Hal K0 K1 ltac:(congruence)) as (s' & n' & E' & H').
    exists s', n'. split; [exact E'|]. rewrite Z.gcd_comm, Z.gcd_mod in H' by lia. rewrite Z.gcd_comm. exact H'.
Qed.

(** equal numbers other than one: the same pair again *)
Lemma euclid_equal_step fuel keep p v s al n : (forall k, al k = true) -> Z.log2_up N < Z.of_nat fuel ->
  1 <= p -> p <= m -> v < B ^ p -> 1 < v -> is_nat B (s 0%nat) v -> is_nat B (s 1%nat) v ->
  exists s' n', exec (mkEnv L false (ieee ct cosf sinf) fuel keep) euclid_body s al n = Ret s' n' /\
    is_nat B (s' 0%nat) v /\ is_nat B (s' 1%nat) v /\ s' 3%nat = s 3%nat.
Proof.
  intros Hal Hf Hp Hpm Hv V0 H0 H1. pose proof eHB as HB.
  destruct (nat_div_equal fuel (s 0%nat) (s 1%nat) v al n Hal H0 H1 V0) as (q & n1 & Eq & ->).
  destruct (body_run fuel keep (s 0%nat) (s 1%nat) (mkBN BN_POS [0]) v v 0 s al n Hal Hf H0 H1 ltac:(lia) ltac:(lia) eq_refl eq_refl
    (ex_intro _ n1 Eq) eq_refl) as (s' & n' & E & K0 & K1 & K3).
  - split; [left; reflexivity|]. split; [repeat constructor; lia|right; reflexivity].
  - cbn [data value]. ring.
  - apply (fits_square p); lia.
  - lia.
  - exists s', n'. rewrite Z.mul_0_l, Z.sub_0_r in K1. auto.
Qed.

Lemma euclid_equal_loop fuel keep p v : Z.log2_up N < Z.of_nat fuel -> 1 <= p -> p <= m -> v < B ^ p -> 1 < v ->
  forall f s al n, (forall k, al k = true) -> is_nat B (s 0%nat) v -> is_nat B (s 1%nat) v -> s 3%nat = bn_default ->
  srun (mkEnv L false (ieee ct cosf sinf) fuel keep) f (While CNe 1 3 (block euclid_body)) s al n = NoFuel.
Proof.
  intros Hf Hp Hpm Hv V0. pose proof eHB as HB. induction f as [|f IH]; intros s al n Hal H0 H1 E3; [reflexivity|].
  cbn [srun compare]. unfold bind at 1.
  rewrite (is_nat_ne B (s 1%nat) (s 3%nat) v 0 HB H1 ltac:(rewrite E3; apply is_nat_zero) al n).
  rewrite (proj2 (Z.eqb_neq v 0)) by lia. cbn [negb]. unfold bind.
  destruct (euclid_equal_step fuel keep p v s al n Hal Hf Hp Hpm Hv V0 H0 H1) as (s1 & n1 & E1 & K0 & K1 & K3).
  rewrite <- (block_exec _ euclid_body ltac:(discriminate) (Nat.max f 5) s al n) in E1 by (cbn [length euclid_body]; lia).
  destruct (srun _ f (block euclid_body) s al n) as [s2 n2|e n2|u|] eqn:E2; [| | |reflexivity];
    rewrite (srun_mono _ f (Nat.max f 5)) in E1 by (rewrite ?E2; (lia || discriminate)); rewrite E2 in E1; [|discriminate|discriminate].
  injection E1 as -> ->. apply IH; auto. congruence.
Qed.

(** ** Euclid's algorithm by subtraction *)

Lemma euclid_sub_loop : forall k a b, 0 <= k -> 0 < a -> 0 < b -> a + b <= k ->
  exists e, forall P fuel keep f s al n, (e <= f)%nat -> (forall k, al k = true) -> is_nat B (s 0%nat) a -> is_nat B (s 1%nat) b ->
  exists s' n', srun (mkEnv L false P fuel keep) f (euclid_sub CGe) s al n = Ret s' n' /\
    is_nat B (s' 0%nat) (Z.gcd a b) /\ is_nat B (s' 1%nat) (Z.gcd a b).
Proof.
  pose proof eHB as HB. intros k a b Hk. revert a b. pattern k. apply natlike_ind; [intros; lia| |exact Hk]. clear k Hk.
  intros k Hk IH a b Ha Hb Hs. destruct (Z.eq_dec a b) as [->|Nab].
  - exists 1%nat. intros P fuel keep f s al n He Hal H0 H1. destruct f as [|f]; [lia|]. cbn [srun compare euclid_sub]. unfold bind.
    rewrite (is_nat_ne B _ _ b b HB H0 H1 al n), Z.eqb_refl. cbn [negb]. exists s, n. rewrite Z.gcd_diag, Z.abs_eq by lia. auto.
  - destruct (Z.leb_spec b a) as [Hab|Hab].
    + destruct (IH (a - b) b ltac:(lia) Hb ltac:(lia)) as [e K]. exists (S (S (S e))). intros P fuel keep f s al n He Hal H0 H1.
      destruct f as [|[|[|f]]]; try lia. unfold euclid_sub. remember (S (S f)) as g. cbn [srun compare]. unfold bind at 1.
      rewrite (is_nat_ne B _ _ a b HB H0 H1 al n), (proj2 (Z.eqb_neq a b) Nab). cbn [negb].
      unfold bind at 1. subst g. cbn [srun compare]. unfold bind at 1. rewrite (is_nat_ge B _ _ a b HB H0 H1 al n), (proj2 (Z.leb_le b a) Hab).
      cbn [step compound eL eDbg]. unfold operand. cbn [Nat.eqb].
      destruct (nat_sub_assign (s 0%nat) (s 1%nat) a b al n Hal H0 H1 Hab Ha) as (z & n1 & Ez & Hz).
      unfold bind at 1. rewrite Ez. cbn [ret fst].
      destruct (K P fuel keep (S (S f)) (upd s 0 z) al n1 ltac:(lia) Hal Hz H1) as (s' & n' & E' & H').
      exists s', n'. split; [exact E'|]. rewrite (Z.gcd_comm (a - b)), Z.gcd_sub_diag_r, Z.gcd_comm in H'. exact H'.
    + destruct (IH a (b - a) Ha ltac:(lia) ltac:(lia)) as [e K]. exists (S (S (S e))). intros P fuel keep f s al n He Hal H0 H1.
      destruct f as [|[|[|f]]]; try lia. unfold euclid_sub. remember (S (S f)) as g. cbn [srun compare]. unfold bind at 1.
      rewrite (is_nat_ne B _ _ a b HB H0 H1 al n), (proj2 (Z.eqb_neq a b) Nab). cbn [negb].
      unfold bind at 1. subst g. cbn [srun compare]. unfold bind at 1. rewrite (is_nat_ge B _ _ a b HB H0 H1 al n), (proj2 (Z.leb_gt b a) Hab).
      cbn [step compound eL eDbg]. unfold operand. cbn [Nat.eqb].
      destruct (nat_sub_assign (s 1%nat) (s 0%nat) b a al n Hal H1 H0 ltac:(lia) Hb) as (z & n1 & Ez & Hz).
      unfold bind at 1. rewrite Ez. cbn [ret fst].
      destruct (K P fuel keep (S (S f)) (upd s 1 z) al n1 ltac:(lia) Hal H0 Hz) as (s' & n' & E' & H').
      exists s', n'. split; [exact E'|]. rewrite Z.gcd_sub_diag_r in H'. exact H'.
Qed.

End Ops.
