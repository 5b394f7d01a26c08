(** * Sums, differences and comparisons of numbers with any in-range digits *)
From Verif Require Import Base Spec Limits Compare AddSub Bignum Outcome.
From Verif Require Import Wp ValueProof CompareProof AddSubProof BignumProof OperatorProof.

Section AnyDigits.
Context (L : limits) (HLk : limits_ok L = true).
Let B := base L.
Let HBk : 2 <= B := AddSubProof.HB L HLk.

(** what the difference of two magnitudes is off by, if the first one's sign is [s]: the code takes the longer one for
    the greater one *)
Definition offset (s : Z) (a b : list Z) : Z :=
  if (length b <? length a)%nat && (value B a <? value B b) then s * B ^ Z.of_nat (length a)
  else if (length a <? length b)%nat && (value B b <? value B a) then - s * B ^ Z.of_nat (length b) else 0.

Definition sgn (d : bn_desc_t) : Z := match d with BN_NEG => -1 | _ => 1 end.

Lemma diff_step_any x y d1 d2 : digits_ok B x -> digits_ok B y -> (x <> [] \/ y <> []) -> sgn d2 = - sgn d1 ->
  yields (diff_step L x y d1 d2)
    (fun z => (desc z = d1 \/ desc z = d2) /\ digits_ok B (data z) /\ canonical (data z) /\
       sgn (desc z) * value B (data z) = sgn d1 * (value B x - value B y) + offset (sgn d1) x y).
Proof.
  intros Dx Dy Hn Hs. unfold diff_step.
  eapply yields_bind with (Q := fun c => c = geb B x y).
  { eapply yields_pure; [apply (abs_val_is_ge_pure B HBk x y Dx Dy)|reflexivity]. }
  intros c ->. unfold geb. unfold offset.
  destruct (Nat.ltb_spec (length y) (length x)) as [H1|H1].
  - assert (x <> []) as Nx by (intros ->; cbn in H1; lia).
    destruct (abs_val_sub_other L HLk x y Nx ltac:(lia)) as (r & Hp & Cr & _ & Hr).
    destruct (Hr Dx Dy) as [Dr Vr]. fold B in Dr, Vr.
    eapply yields_bind with (Q := fun v => v = r); [eapply yields_pure; [exact Hp|reflexivity]|]. intros ? ->.
    apply yields_ret. cbn [desc data]. split; [auto|]. split; [exact Dr|]. split; [exact Cr|]. rewrite Vr. cbn [andb].
    rewrite (proj2 (Nat.ltb_ge (length x) (length y))) by lia. cbn [andb].
    destruct (Z.leb_spec (value B y) (value B x)); destruct (Z.ltb_spec (value B x) (value B y)); try lia.
  - destruct (Nat.ltb_spec (length x) (length y)) as [H2|H2]; cbn [andb].
    + assert (y <> []) as Ny by (intros ->; cbn in H2; lia).
      destruct (abs_val_sub_other L HLk y x Ny ltac:(lia)) as (r & Hp & Cr & _ & Hr).
      destruct (Hr Dy Dx) as [Dr Vr]. fold B in Dr, Vr.
      eapply yields_bind with (Q := fun v => v = y); [apply yields_vcopy; auto|]. intros ? ->.
      eapply yields_bind with (Q := fun v => v = r); [eapply yields_pure; [exact Hp|reflexivity]|]. intros ? ->.
      apply yields_ret. cbn [desc data]. split; [auto|]. split; [exact Dr|]. split; [exact Cr|]. rewrite Vr.
      destruct (Z.leb_spec (value B x) (value B y)); destruct (Z.ltb_spec (value B y) (value B x)); try lia; rewrite Hs; ring.
    + assert (x <> []) as Nx.
      { intros ->. destruct Hn as [|Hn]; [congruence|]. apply Hn, length_zero_iff_nil. cbn [length] in *. lia. }
      assert (y <> []) as Ny by (intros ->; apply Nx, length_zero_iff_nil; cbn [length] in *; lia).
      destruct (Z.leb_spec (value B y) (value B x)).
      * eapply yields_bind; [apply (sub_yields L HLk x y); auto|]. intros v (Dv & Cv & Vv). apply yields_ret.
        cbn [desc data]. repeat split; auto. fold B in Vv. lia.
      * eapply yields_bind with (Q := fun v => v = y); [apply yields_vcopy; auto|]. intros ? ->.
        eapply yields_bind; [apply (sub_yields L HLk y x); auto; fold B; lia|]. intros v (Dv & Cv & Vv). apply yields_ret.
        cbn [desc data]. repeat split; auto. fold B in Vv. rewrite Hs, Vv. ring.
Qed.

Lemma signed_sgn x : signed_value B x = sgn (desc x) * value B (data x).
Proof. unfold signed_value, sgn. destruct (desc x); lia. Qed.

Theorem add_any_same x y : finite x -> desc x = desc y -> digits_ok B (data x) -> digits_ok B (data y) ->
  assigns (op_add_assign L false x (Other y))
    (fun z => desc z = desc x /\ digits_ok B (data z) /\ signed_value B z = signed_value B x + signed_value B y)
    (infinity_for (desc y)).
Proof.
  intros Fx Ed Dx Dy. rewrite <- failed_infinity.
  assert (yields (v <- abs_val_add L (data x) (other (data y)) ;; ret (mkBN (desc x) v))
    (fun z => desc z = desc x /\ digits_ok B (data z) /\ signed_value B z = signed_value B x + signed_value B y)) as K.
  { eapply yields_mono; [apply (add_step_yields L HLk); auto|]. intros z (Dz & Oz & Vz & _). fold B in Oz, Vz.
    repeat split; auto. rewrite !signed_sgn, Dz, <- Ed, Vz. ring. }
  unfold op_add_assign, adesc, adata, aview. rewrite <- Ed.
  destruct Fx as [E|E]; rewrite E in *; cbn [desc_eqb andb isComputable negb]; apply guarded_yields; exact K.
Qed.

Theorem add_any_mixed x y : finite x -> finite y -> desc x <> desc y -> digits_ok B (data x) -> digits_ok B (data y) ->
  (data x <> [] \/ data y <> []) ->
  assigns (op_add_assign L false x (Other y))
    (fun z => good B z /\ signed_value B z = signed_value B x + signed_value B y + offset (sgn (desc x)) (data x) (data y))
    (infinity_for (desc y)).
Proof.
  intros Fx Fy Ed Dx Dy Hn. rewrite <- failed_infinity.
  assert (forall d1 d2, d1 = desc x -> d2 = desc y -> yields (diff_step L (data x) (data y) d1 d2)
    (fun z => good B z /\ signed_value B z = signed_value B x + signed_value B y + offset (sgn (desc x)) (data x) (data y))) as K.
  { intros ? ? -> ->. assert (sgn (desc y) = - sgn (desc x)) as Es.
    { destruct Fx as [E1|E1], Fy as [E2|E2]; rewrite E1, E2 in *; try congruence; reflexivity. }
    eapply yields_mono; [apply (diff_step_any (data x) (data y) (desc x) (desc y)); auto|].
    intros z (Dz & Oz & Cz & Vz). split.
    - unfold good, finite. destruct Dz as [-> | ->]; repeat split; auto; left; auto.
    - rewrite !signed_sgn, Es, Vz. ring. }
  unfold op_add_assign, adesc, adata, aview.
  destruct Fx as [E1|E1], Fy as [E2|E2]; rewrite ?E1, ?E2 in *; try congruence;
    cbn [desc_eqb andb isComputable negb]; apply guarded_yields; apply K; auto.
Qed.

Theorem sub_any_same x y : finite x -> desc x = desc y -> digits_ok B (data x) -> digits_ok B (data y) ->
  (data x <> [] \/ data y <> []) ->
  assigns (op_sub_assign L false x (Other y))
    (fun z => good B z /\ canonical (data z) /\
       signed_value B z = signed_value B x - signed_value B y + offset (sgn (desc x)) (data x) (data y))
    (infinity_for (desc y)).
Proof.
  intros Fx Ed Dx Dy Hn. rewrite <- failed_infinity.
  assert (forall d1 d2, d1 = desc x -> (d2 = BN_POS \/ d2 = BN_NEG) -> sgn d2 = - sgn d1 ->
    yields (diff_step L (data x) (data y) d1 d2)
    (fun z => good B z /\ canonical (data z) /\
       signed_value B z = signed_value B x - signed_value B y + offset (sgn (desc x)) (data x) (data y))) as K.
  { intros ? d2 -> F2 Es. eapply yields_mono; [apply (diff_step_any (data x) (data y) (desc x) d2); auto|].
    intros z (Dz & Oz & Cz & Vz). split; [|split; [exact Cz|]].
    - unfold good, finite. destruct Dz as [-> | ->]; repeat split; auto; left; auto.
    - rewrite !signed_sgn, <- Ed, Vz. ring. }
  unfold op_sub_assign, adesc, adata, aview. rewrite <- Ed.
  destruct Fx as [E|E]; rewrite ?E in *; cbn [desc_eqb andb orb isComputable negb]; apply guarded_yields; apply K; auto.
Qed.

Lemma offset_zero_iff s a b : s = 1 \/ s = -1 -> digits_ok B a -> digits_ok B b ->
  offset s a b = 0 <-> ~ ((length b < length a)%nat /\ value B a < value B b \/
                          (length a < length b)%nat /\ value B b < value B a).
Proof.
  intros Hs Da Db. unfold offset.
  assert (0 < B ^ Z.of_nat (length a)) by (apply Z.pow_pos_nonneg; lia).
  assert (0 < B ^ Z.of_nat (length b)) by (apply Z.pow_pos_nonneg; lia).
  destruct (Nat.ltb_spec (length b) (length a)); destruct (Nat.ltb_spec (length a) (length b));
    destruct (Z.ltb_spec (value B a) (value B b)); destruct (Z.ltb_spec (value B b) (value B a)); cbn [andb]; try lia;
    split; intros K; try lia; destruct Hs as [-> | ->]; lia.
Qed.

End AnyDigits.
