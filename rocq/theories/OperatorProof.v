(** * Algebra of the operators and comparison operators: lemmas *)
From Verif Require Import Base Spec Limits Compare AddSub Division Fourier Multiplication Bignum Outcome.
From Verif Require Import Wp ValueProof CompareProof AddSubProof BignumProof.

Lemma desc_eqb_eq a b : desc_eqb a b = true <-> a = b.
Proof. destruct a, b; cbn; split; congruence. Qed.
Lemma desc_eqb_refl a : desc_eqb a a = true.
Proof. destruct a; reflexivity. Qed.

(** ** == and != *)

Lemma op_eq_pure x y : pure (op_eq x y) (desc_eqb (desc x) (desc y) && eqb (data x) (data y)).
Proof.
  unfold op_eq. destruct (desc_eqb (desc x) (desc y)); cbn [negb andb].
  - apply abs_val_is_eq_pure.
  - apply pure_ret.
Qed.

Lemma op_ne_pure x y : pure (op_ne x y) (negb (desc_eqb (desc x) (desc y) && eqb (data x) (data y))).
Proof.
  unfold op_ne. destruct (desc_eqb (desc x) (desc y)); cbn [negb andb].
  - eapply pure_bind; [apply abs_val_is_eq_pure|]. apply pure_ret.
  - apply pure_ret.
Qed.

Lemma same_bignum x y : desc_eqb (desc x) (desc y) && eqb (data x) (data y) = true <-> x = y.
Proof.
  rewrite andb_true_iff, desc_eqb_eq, eqb_true. destruct x, y; cbn. split; [intros []; congruence|].
  intros E; inversion E; auto.
Qed.

Definition bignum_eq_dec (x y : bignum) : {x = y} + {x <> y}.
Proof. decide equality; [apply (list_eq_dec Z.eq_dec)|decide equality]. Defined.

Section Ops.
Context (L : limits) (HLk : limits_ok L = true).
Let B := base L.
Let HBk : 2 <= B := AddSubProof.HB L HLk.

Lemma weak_zero v : digits_ok B v -> weak_canonical v -> value B v = 0 -> v = [] \/ v = [0].
Proof.
  intros D [C| ->] V; auto. left. apply (value_zero_canonical B HBk); auto.
Qed.

Lemma weak_nonzero v : weak_canonical v -> value B v <> 0 -> canonical v.
Proof. intros [C| ->] V; auto. cbn [value] in V. lia. Qed.

Lemma weak_inj u v : digits_ok B u -> digits_ok B v -> weak_canonical u -> weak_canonical v ->
  u <> [] -> v <> [] -> value B u = value B v -> u = v.
Proof.
  intros Du Dv Cu Cv Nu Nv E. destruct (Z.eq_dec (value B u) 0) as [Z0|NZ].
  - destruct (weak_zero u Du Cu Z0) as [| ->]; [contradiction|].
    destruct (weak_zero v Dv Cv ltac:(lia)) as [| ->]; [contradiction|]. reflexivity.
  - apply (value_inj B HBk); auto; apply weak_nonzero; auto; lia.
Qed.

(** addition with the shape of the result *)
Lemma add_shape x y : good B x -> good B y -> canonical (data x) -> canonical (data y) ->
  (desc x = desc y \/ data x <> [] \/ data y <> []) ->
  assigns (op_add_assign L false x (Other y))
    (fun z => good B z /\ signed_value B z = signed_value B x + signed_value B y /\
       (desc x = desc y -> desc z = desc x /\ data z <> []) /\
       (desc x <> desc y -> canonical (data z) /\
          desc z = if value B (data y) <=? value B (data x) then desc x else desc y))
    (infinity_for (desc y)).
Proof.
  intros (Fx & Dx & Cx) (Fy & Dy & Cy) Kx Ky Hn. rewrite <- failed_infinity.
  destruct x as [dx vx], y as [dy vy]. unfold finite, signed_value in *. cbn [desc data] in *.
  unfold op_add_assign, adesc, adata, aview. cbn [desc data].
  assert (forall d, d = BN_POS \/ d = BN_NEG ->
    yields (v <- abs_val_add L vx (other vy) ;; ret (mkBN d v))
      (fun z => good B z /\ desc z = d /\ value B (data z) = value B vx + value B vy /\ data z <> [])) as Hadd.
  { intros d Hd. eapply yields_mono; [apply (add_step_yields L HLk); auto|].
    intros z (Ed & Dz & Vz & Nz & Cz). repeat split; auto. unfold finite. rewrite Ed; auto. }
  assert (forall d1 d2, (vx <> [] \/ vy <> []) -> (d1 = BN_POS \/ d1 = BN_NEG) -> (d2 = BN_POS \/ d2 = BN_NEG) ->
    yields (diff_step L vx vy d1 d2)
      (fun z => good B z /\ canonical (data z) /\
        ((desc z = d1 /\ value B (data z) = value B vx - value B vy) \/
        (desc z = d2 /\ value B (data z) = value B vy - value B vx /\ value B vx < value B vy)))) as Hdiff.
  { intros d1 d2 Hn' H1 H2. eapply yields_mono; [apply (diff_step_yields L HLk); auto|].
    intros z (Dz & Cz & Hz). unfold good, finite, weak_canonical.
    destruct Hz as [[Ed Vz]|(Ed & Vz & Ge)]; rewrite Ed.
    - fold B in Dz, Vz. auto 10.
    - fold B in Dz, Vz, Ge. rewrite (geb_canonical B HBk) in Ge by auto. apply Z.leb_gt in Ge. auto 10. }
  assert (forall z, good B z -> 0 <= value B (data z)) as Hpos.
  { intros z (_ & Dz & _). apply (value_bounds B HBk); auto. }
  destruct Fx as [-> | ->], Fy as [-> | ->]; cbn [desc_eqb andb isComputable negb];
    apply guarded_yields.
  - eapply yields_mono; [apply (Hadd BN_POS); auto|]. intros z (Gz & Ed & Vz & Nz). rewrite Ed.
    repeat split; auto; try apply Gz; try lia; congruence.
  - eapply yields_mono; [apply (Hdiff BN_POS BN_NEG); auto; destruct Hn; [discriminate|auto]|].
    intros z (Gz & Cz & [[Ed Vz]|(Ed & Vz & Hlt)]); rewrite Ed; specialize (Hpos z Gz);
      repeat split; auto; try apply Gz; try lia; try congruence; destruct (Z.leb_spec (value B vy) (value B vx)); auto; lia.
  - eapply yields_mono; [apply (Hdiff BN_NEG BN_POS); auto; destruct Hn; [discriminate|auto]|].
    intros z (Gz & Cz & [[Ed Vz]|(Ed & Vz & Hlt)]); rewrite Ed; specialize (Hpos z Gz);
      repeat split; auto; try apply Gz; try lia; try congruence; destruct (Z.leb_spec (value B vy) (value B vx)); auto; lia.
  - eapply yields_mono; [apply (Hadd BN_NEG); auto|]. intros z (Gz & Ed & Vz & Nz). rewrite Ed.
    repeat split; auto; try apply Gz; try lia; congruence.
Qed.

Theorem add_commutes x y : good B x -> good B y -> canonical (data x) -> canonical (data y) ->
  (desc x = desc y \/ data x <> [] \/ data y <> []) ->
  returns (s <- op_add L false x y ;; t <- op_add L false y x ;; op_eq s t)
    (fun b => b = true <-> ~ (desc x <> desc y /\ value B (data x) = value B (data y))).
Proof.
  intros Gx Gy Kx Ky Hn.
  eapply returns_bind; [eapply binary_returns, add_shape; eauto|].
  intros s (Gs & Vs & Ss & Ds).
  eapply returns_bind; [eapply binary_returns, add_shape; eauto; intuition congruence|].
  intros t (Gt & Vt & St & Dt).
  eapply returns_pure; [apply op_eq_pure|]. rewrite same_bignum.
  pose proof Gs as (Fs & Ddx & Cs). pose proof Gt as (Ft & Ddy & Ct).
  destruct (bignum_eq_dec (mkBN (desc x) []) (mkBN (desc y) [])) as [E|E].
  - assert (desc x = desc y) as Ed by congruence. clear E.
    destruct (Ss Ed) as [E1 N1]. destruct (St (eq_sym Ed)) as [E2 N2].
    split; [intros _ []; congruence|]. intros _.
    assert (data s = data t) as E.
    { apply weak_inj; auto. unfold signed_value in Vs, Vt. rewrite E1, <- Ed in *. rewrite E2 in Vt.
      destruct (desc x); lia. }
    destruct s, t; cbn in *; congruence.
  - assert (desc x <> desc y) as Hd by congruence. clear E.
    destruct (Ds Hd) as [C1 E1]. destruct (Dt (not_eq_sym Hd)) as [C2 E2].
    destruct (Z.eq_dec (value B (data x)) (value B (data y))) as [Ev|Ev].
    + rewrite Ev, Z.leb_refl in E1, E2. split; [|tauto]. intros Es; subst. congruence.
    + split; [tauto|]. intros _.
      assert (desc s = desc t) as Ed.
      { rewrite E1, E2. destruct (Z.leb_spec (value B (data y)) (value B (data x))),
          (Z.leb_spec (value B (data x)) (value B (data y))); auto; lia. }
      assert (data s = data t) as E.
      { apply (value_inj B HBk); auto. unfold signed_value in Vs, Vt. rewrite <- Ed in Vt.
        destruct (desc s); lia. }
      destruct s, t; cbn in *; congruence.
Qed.

Lemma geb_intro u v : digits_ok B u -> digits_ok B v -> weak_canonical u -> canonical v ->
  value B v <= value B u -> geb B u v = true.
Proof.
  intros Du Dv [Cu| ->] Cv Hv.
  - rewrite (geb_canonical B HBk) by auto. apply Z.leb_le; auto.
  - pose proof (value_bounds B HBk v Dv). cbn [value] in Hv.
    assert (v = []) as -> by (apply (value_zero_canonical B HBk); auto; lia). reflexivity.
Qed.

Lemma flip_finite d : d = BN_POS \/ d = BN_NEG -> exists e, (e = BN_POS \/ e = BN_NEG) /\ e <> d.
Proof. intros [-> | ->]; [exists BN_NEG|exists BN_POS]; split; auto; discriminate. Qed.

Definition opposite (d : bn_desc_t) : bn_desc_t := match d with BN_POS => BN_NEG | _ => BN_POS end.

(** same-sign subtraction with the shape of the result *)
Lemma sub_shape x y : good B x -> good B y -> desc x = desc y ->
  (data x <> [] \/ data y <> []) ->
  assigns (op_sub_assign L false x (Other y))
    (fun z => good B z /\ canonical (data z) /\ signed_value B z = signed_value B x - signed_value B y /\
       (canonical (data y) -> value B (data y) <= value B (data x) -> desc z = desc x) /\
       (value B (data x) < value B (data y) -> desc z = opposite (desc x)))
    (infinity_for (desc y)).
Proof.
  intros (Fx & Dx & Cx) (Fy & Dy & Cy) Hd Hn. rewrite <- failed_infinity.
  destruct x as [dx vx], y as [dy vy]. unfold finite, signed_value in *. cbn [desc data] in *. subst dy.
  unfold op_sub_assign, adesc, adata, aview. cbn [desc data].
  assert (forall d1 d2, (d1 = BN_POS \/ d1 = BN_NEG) -> (d2 = BN_POS \/ d2 = BN_NEG) ->
    yields (diff_step L vx vy d1 d2)
      (fun z => good B z /\ canonical (data z) /\ ((desc z = d1 /\ value B (data z) = value B vx - value B vy) \/
        (desc z = d2 /\ value B (data z) = value B vy - value B vx)) /\
        (canonical vy -> value B vy <= value B vx -> desc z = d1) /\
        (value B vx < value B vy -> desc z = d2))) as Hdiff.
  { intros d1 d2 H1 H2. eapply yields_mono; [apply (diff_step_yields L HLk); auto|].
    intros z (Dz & Cz & Hz). fold B in Dz, Hz. pose proof (value_bounds B HBk (data z) Dz). unfold good, finite, weak_canonical.
    destruct Hz as [[Ed Vz]|(Ed & Vz & Ge)]; rewrite Ed.
    - repeat split; auto; intros; lia.
    - repeat split; auto. intros Kv Hle. rewrite geb_intro in Ge by auto. discriminate. }
  destruct Fx as [-> | ->]; cbn [desc_eqb andb orb isComputable negb]; apply guarded_yields.
  - eapply yields_mono; [apply (Hdiff BN_POS BN_NEG); auto|].
    intros z (Gz & Cz & [[Ed Vz]|[Ed Vz]] & K1 & K2); rewrite Ed in *; repeat split; auto; try apply Gz; lia.
  - eapply yields_mono; [apply (Hdiff BN_NEG BN_POS); auto|].
    intros z (Gz & Cz & [[Ed Vz]|[Ed Vz]] & K1 & K2); rewrite Ed in *; repeat split; auto; try apply Gz; lia.
Qed.

Theorem add_then_sub x y : desc x = BN_POS -> desc y = BN_POS ->
  digits_ok B (data x) -> digits_ok B (data y) -> canonical (data x) -> canonical (data y) ->
  returns (s <- op_add L false x y ;; d <- op_sub L false s y ;; op_eq d x) (fun b => b = true).
Proof.
  intros Px Py Dx Dy Cx Cy.
  assert (good B x) as Gx by (unfold good, finite, weak_canonical; auto).
  assert (good B y) as Gy by (unfold good, finite, weak_canonical; auto).
  eapply returns_bind.
  { eapply binary_returns, add_shape; auto. left; congruence. }
  intros s (Gs & Vs & Ss & _). destruct (Ss ltac:(congruence)) as [Es Ns].
  eapply returns_bind.
  { eapply binary_returns, sub_shape; auto; congruence. }
  intros d (Gd & Cd & Vd & Sd & _).
  eapply returns_pure; [apply op_eq_pure|]. apply same_bignum.
  pose proof Gd as (Fd & Dd & _).
  pose proof (value_bounds B HBk (data x) Dx). pose proof (value_bounds B HBk (data y) Dy).
  unfold signed_value in *. rewrite Px, Py, Es in *.
  specialize (Sd Cy ltac:(lia)). rewrite Sd in Vd.
  assert (data d = data x) as Edx by (apply (value_inj B HBk); auto; lia).
  destruct d, x; cbn in *; congruence.
Qed.

End Ops.

(** ** Ordering operators *)

Section Order.
Context (B : Z) (HBk : 2 <= B).

Lemma op_gt_pos x y : desc x = BN_POS -> desc y = BN_POS -> pure (op_gt x y) (gtb (data x) (data y)).
Proof. intros E1 E2. unfold op_gt. rewrite E1, E2. cbn [desc_eqb andb]. apply abs_val_is_gt_pure. Qed.
Lemma op_lt_pos x y : desc x = BN_POS -> desc y = BN_POS -> pure (op_lt x y) (gtb (data y) (data x)).
Proof. intros E1 E2. unfold op_lt. rewrite E1, E2. cbn [desc_eqb andb]. apply abs_val_is_lt_pure. Qed.
Lemma op_ge_pos x y : desc x = BN_POS -> desc y = BN_POS -> digits_ok B (data x) -> digits_ok B (data y) ->
  pure (op_ge x y) (geb B (data x) (data y)).
Proof. intros E1 E2 D1 D2. unfold op_ge. rewrite E1, E2. cbn [desc_eqb andb]. apply abs_val_is_ge_pure; auto. Qed.
Lemma op_le_pos x y : desc x = BN_POS -> desc y = BN_POS -> digits_ok B (data x) -> digits_ok B (data y) ->
  pure (op_le x y) (geb B (data y) (data x)).
Proof. intros E1 E2 D1 D2. unfold op_le. rewrite E1, E2. cbn [desc_eqb andb]. apply abs_val_is_le_pure; auto. Qed.

Lemma op_gt_neg x y : desc x = BN_NEG -> desc y = BN_NEG -> digits_ok B (data x) -> digits_ok B (data y) ->
  pure (op_gt x y) (geb B (data y) (data x)).
Proof. intros E1 E2 D1 D2. unfold op_gt. rewrite E1, E2. cbn [desc_eqb andb]. apply abs_val_is_le_pure; auto. Qed.
Lemma op_ge_neg x y : desc x = BN_NEG -> desc y = BN_NEG -> pure (op_ge x y) (gtb (data y) (data x)).
Proof. intros E1 E2. unfold op_ge. rewrite E1, E2. cbn [desc_eqb andb]. apply abs_val_is_lt_pure. Qed.
Lemma op_lt_neg x y : desc x = BN_NEG -> desc y = BN_NEG -> pure (op_lt x y) (gtb (data x) (data y)).
Proof. intros E1 E2. unfold op_lt. rewrite E1, E2. cbn [desc_eqb andb]. apply abs_val_is_gt_pure. Qed.
Lemma op_le_neg x y : desc x = BN_NEG -> desc y = BN_NEG -> pure (op_le x y) (gtb (data x) (data y)).
Proof. intros E1 E2. unfold op_le. rewrite E1, E2. cbn [desc_eqb andb]. apply abs_val_is_gt_pure. Qed.

(** [gtb] in words *)
Lemma gtb_iff a b : gtb a b = true <-> (length b < length a)%nat \/
  (length a = length b /\ exists i p q, nth_error a i = Some p /\ nth_error b i = Some q /\ q < p).
Proof.
  unfold gtb. destruct (Nat.ltb_spec (length b) (length a)) as [H|H].
  - split; auto.
  - destruct (Nat.ltb_spec (length a) (length b)) as [H'|H'].
    + split; [discriminate|]. intros [|[]]; lia.
    + rewrite some_gt_iff. split; [right; split; [lia|auto]|]. intros [|[_ K]]; [lia|auto].
Qed.

End Order.

Lemma mixed_correct_iff L : limits_ok L = true -> forall x y z, let B := base L in
  good B x -> good B y -> desc x <> desc y -> good B z -> desc z = desc x ->
  value B (data z) = (if gtb (data x) (data y)
         then (if value B (data y) <=? value B (data x) then value B (data x) - value B (data y)
               else value B (data x) - value B (data y) + B ^ Z.of_nat (length (data x)))
         else 0) ->
  (signed_value B z = signed_value B x - signed_value B y <->
   value B (data y) = 0 \/ (gtb (data x) (data y) = true /\ value B (data x) < value B (data y) /\
     2 * value B (data y) = B ^ Z.of_nat (length (data x)))).
Proof.
  intros HL x y z B (Fx & Dx & Cx) (Fy & Dy & Cy) Hd (Fz & Dz & Cz) Ez Vz.
  pose proof (AddSubProof.HB L HL) as HB. fold B in HB.
  pose proof (value_bounds B HB _ Dx). pose proof (value_bounds B HB _ Dy). pose proof (value_bounds B HB _ Dz).
  assert (signed_value B z = signed_value B x - signed_value B y <->
          value B (data z) = value B (data x) + value B (data y)) as ->.
  { unfold signed_value. rewrite Ez. destruct Fx as [Fx|Fx], Fy as [Fy|Fy]; rewrite Fx, Fy in *; try congruence; lia. }
  rewrite Vz. destruct (gtb (data x) (data y)) eqn:E.
  - destruct (Z.leb_spec (value B (data y)) (value B (data x))); split; intros; try (right; repeat split; auto; lia); lia.
  - split; [lia|]. intros [Hy|[K _]]; [|discriminate].
    assert (value B (data x) = 0); [|lia].
    destruct Cy as [Cy|Cy].
    + destruct (Z_le_gt_dec (value B (data x)) 0) as [|G]; [lia|].
      rewrite (gtb_complete B HB (data x) (data y)) in E by (auto; lia). discriminate.
    + rewrite Cy in *. destruct (data x) as [|d [|e v]]; [reflexivity| |discriminate].
      unfold gtb in E. cbn [length Nat.ltb Nat.leb some_gt combine existsb fst snd] in E.
      rewrite orb_false_r in E. apply Z.ltb_ge in E. inversion_clear Dx. cbn [value]. lia.
Qed.

Lemma gtb_or_le B : 2 <= B -> forall a b, digits_ok B a -> digits_ok B b -> canonical a -> canonical b ->
  (gtb a b = true \/ value B a <= value B b).
Proof.
  intros HB a b Da Db Ca Cb. destruct (gtb a b) eqn:E; auto. right. apply (gtb_false_le B HB); auto.
Qed.
