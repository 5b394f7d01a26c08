(** * operator /= : lemmas *)
From Verif Require Import Base Spec Limits Compare AddSub Division Fourier Multiplication Bignum Outcome.
From Verif Require Import Wp ValueProof CompareProof AddSubProof DivisionProof BignumProof OperatorProof.

Lemma product_desc_quot B x y v : finite x -> finite y ->
  signed_value B (mkBN (product_desc (desc x) (desc y)) v) =
  (if desc_eqb (desc x) (desc y) then value B v else - value B v).
Proof.
  intros [Ex|Ex] [Ey|Ey]; rewrite Ex, Ey; reflexivity.
Qed.

Lemma quot_signs a b q (s1 s2 : bool) : 0 <= a -> 0 < b -> q = a / b ->
  Z.quot (if s1 then a else - a) (if s2 then b else - b) = if Bool.eqb s1 s2 then q else - q.
Proof.
  intros Ha Hb ->. destruct s1, s2; cbn [Bool.eqb]; rewrite ?Z.quot_opp_l, ?Z.quot_opp_r by lia;
    rewrite Z.quot_div_nonneg by lia; lia.
Qed.

Lemma signed_quot B x y v : finite x -> finite y -> 0 <= value B (data x) -> 0 < value B (data y) ->
  value B v = value B (data x) / value B (data y) ->
  signed_value B (mkBN (product_desc (desc x) (desc y)) v) = Z.quot (signed_value B x) (signed_value B y).
Proof.
  intros Fx Fy Px Py Hv. rewrite product_desc_quot by auto. unfold signed_value.
  pose proof (fun s1 s2 => quot_signs _ _ _ s1 s2 Px Py Hv) as K.
  destruct Fx as [-> | ->], Fy as [-> | ->]; cbn [desc_eqb].
  - symmetry; apply (K true true).
  - symmetry; apply (K true false).
  - symmetry; apply (K false true).
  - symmetry; apply (K false false).
Qed.

Lemma product_finite x y : finite x -> finite y ->
  product_desc (desc x) (desc y) = BN_POS \/ product_desc (desc x) (desc y) = BN_NEG.
Proof. intros [-> | ->] [-> | ->]; cbn; auto. Qed.

Lemma finite_computable x : finite x -> isComputable (desc x) = true.
Proof. intros [-> | ->]; reflexivity. Qed.

Section Ops.
Context (L : limits) (HLk : limits_ok L = true).
Let B := base L.
Let HBk : 2 <= B := AddSubProof.HB L HLk.

Lemma bmin_wrap w : wrap w (bmin L) = 0.
Proof. destruct (limits_ok_facts L HLk) as (_ & _ & -> & _). apply Zmod_0_l. Qed.

Lemma one_wrap : wrap (ws L) 1 = 1.
Proof. pose proof (HBws L HLk). fold B in H. apply wrap_small. lia. Qed.

(** what operator /= does once the special divisors and dividends are excluded *)
Lemma div_assign_main dbg fuel x y (dividend_ok : data x <> [] /\ data x <> [0])
  (divisor_ok : data y <> [0] /\ data y <> [1]) : finite x ->
  op_div_assign L dbg fuel x (Other y) =
  guarded (c <- abs_val_is_gt (data x) (data y) ;;
       if (c : bool) then v <- abs_val_div L dbg fuel (data x) (data y) ;;
                         ret (mkBN (product_desc (desc x) (desc y)) v)
       else v <- vcopy [0] ;; ret (mkBN (product_desc (desc x) (desc y)) v)) (failed (desc y)).
Proof.
  intros Fx. unfold op_div_assign. rewrite (finite_computable x Fx). cbn [negb adata adesc].
  cbv zeta. rewrite !bmin_wrap, one_wrap.
  destruct dividend_ok as [N1 N2], divisor_ok as [N3 N4].
  replace (match data y with [a] => a =? 0 | _ => false end) with false.
  2: { destruct (data y) as [|a [|b r]]; auto. symmetry; apply Z.eqb_neq. congruence. }
  replace (match data y with [a] => a =? 1 | _ => false end) with false.
  2: { destruct (data y) as [|a [|b r]]; auto. symmetry; apply Z.eqb_neq. congruence. }
  replace (match data x with [] => true | [a] => a =? 0 | _ => false end) with false.
  2: { destruct (data x) as [|a [|b r]]; auto. symmetry; apply Z.eqb_neq. congruence. }
  reflexivity.
Qed.

Lemma div_by_lone_zero dbg fuel x y : finite x -> data y = [0] ->
  pure (op_div_assign L dbg fuel x (Other y))
    (mkBN (match product_desc (desc x) (desc y) with BN_NEG => BN_NEG_INF | _ => BN_POS_INF end) [], None).
Proof.
  intros Fx Ey al n. unfold op_div_assign. rewrite (finite_computable x Fx). cbn [negb adata adesc].
  cbv zeta. rewrite !bmin_wrap, one_wrap, Ey. cbn [Z.eqb].
  destruct (product_desc (desc x) (desc y)); reflexivity.
Qed.

Lemma div_by_one dbg fuel x y : finite x -> data y = [1] ->
  pure (op_div_assign L dbg fuel x (Other y)) (mkBN (product_desc (desc x) (desc y)) (data x), None).
Proof.
  intros Fx Ey al n. unfold op_div_assign. rewrite (finite_computable x Fx). cbn [negb adata adesc].
  cbv zeta. rewrite !bmin_wrap, one_wrap, Ey. cbn [Z.eqb]. reflexivity.
Qed.

Lemma div_of_zero dbg fuel x y : finite x -> data y <> [0] -> (data x = [] \/ data x = [0]) ->
  pure (op_div_assign L dbg fuel x (Other y)) (mkBN (product_desc (desc x) (desc y)) (data x), None).
Proof.
  intros Fx Ny Ex al n. unfold op_div_assign. rewrite (finite_computable x Fx). cbn [negb adata adesc].
  cbv zeta. rewrite !bmin_wrap, one_wrap.
  replace (match data y with [a] => a =? 0 | _ => false end) with false.
  2: { destruct (data y) as [|a [|b r]]; auto. symmetry; apply Z.eqb_neq. congruence. }
  destruct Ex as [-> | ->]; cbn [Z.eqb]; destruct (data y) as [|a [|b r]]; try reflexivity;
    destruct (a =? 1); reflexivity.
Qed.

Lemma div_self_eq dbg fuel x al n : finite x -> data x <> [] -> data x <> [0] -> data x <> [1] ->
  op_div_assign L dbg fuel x Self al n =
  guarded (v <- vcopy [0] ;; ret (mkBN BN_POS v)) (infinity_for BN_POS) al n.
Proof.
  intros Fx N1 N2 N3. unfold op_div_assign. rewrite (finite_computable x Fx).
  cbn [negb adata adesc]. cbv zeta. rewrite !bmin_wrap, one_wrap.
  replace (match data x with [a] => a =? 0 | _ => false end) with false.
  2: { destruct (data x) as [|a [|b r]]; auto. symmetry; apply Z.eqb_neq. congruence. }
  replace (match data x with [a] => a =? 1 | _ => false end) with false.
  2: { destruct (data x) as [|a [|b r]]; auto. symmetry; apply Z.eqb_neq. congruence. }
  replace (match data x with [] => true | [a] => a =? 0 | _ => false end) with false.
  2: { destruct (data x) as [|a [|b r]]; auto. symmetry; apply Z.eqb_neq. congruence. }
  assert (product_desc (desc x) (desc x) = BN_POS) as -> by (destruct Fx as [-> | ->]; reflexivity).
  unfold guarded, bind at 1. rewrite abs_val_is_gt_pure, gtb_refl. reflexivity.
Qed.

End Ops.

Section BaseN.
Context (L : limits) (HD : can_double L = true).
Let B := base L.
Let HLk : limits_ok L = true := DivisionProof.HL L HD.
Let HBk : 2 <= B := AddSubProof.HB L HLk.

Theorem div_assign_quot fuel x y : good B x -> good B y -> canonical (data y) -> data y <> [] ->
  enough_fuel (value B (data x)) fuel ->
  (value B (data x) <> value B (data y) \/ value B (data y) = 1) ->
  assigns (op_div_assign L false fuel x (Other y))
    (fun z => good B z /\ signed_value B z = Z.quot (signed_value B x) (signed_value B y))
    (infinity_for (desc y)).
Proof.
  intros (Fx & Dx & Cx) (Fy & Dy & _) Cy Ny Hf Hne.
  pose proof (value_bounds B HBk _ Dx) as Bx.
  pose proof (value_canonical_pos B HBk _ Dy Cy Ny) as Py.
  pose proof (product_finite x y Fx Fy) as Pf.
  assert (data y <> [0]) as Ny0 by (intros E; rewrite E in Py; cbn [value] in Py; lia).
  destruct (list_eq_dec Z.eq_dec (data y) [1]) as [E1|N1].
  { intros al n. rewrite (div_by_one L HLk false fuel x y Fx E1). split; [|lia].
    split; [apply good_intro; auto|]. apply signed_quot; auto; try lia.
    rewrite E1. cbn [value]. replace (1 + B * 0) with 1 by lia. rewrite Z.div_1_r; reflexivity. }
  assert (value B (data y) <> 1) as V1.
  { intros E. apply N1. apply (value_inj B HBk); auto.
    - constructor; [lia|constructor].
    - unfold canonical; cbn; lia.
    - rewrite E; cbn [value]; lia. }
  destruct (Z.eq_dec (value B (data x)) 0) as [E0|N0].
  { assert (data x = [] \/ data x = [0]) as Ex by (apply (weak_zero L HLk); auto).
    intros al n. rewrite (div_of_zero L HLk false fuel x y Fx Ny0 Ex). split; [|lia].
    split; [apply good_intro; auto|]. apply signed_quot; auto; try lia.
    rewrite E0, Z.div_0_l by lia. reflexivity. }
  assert (data x <> [] /\ data x <> [0]) as Nx.
  { split; intros E; rewrite E in N0; cbn [value] in N0; lia. }
  assert (canonical (data x)) as Kx by (apply (weak_nonzero L); auto).
  rewrite (div_assign_main L HLk false fuel x y) by auto. rewrite failed_infinity.
  apply guarded_yields.
  eapply yields_bind with (Q := fun c => c = gtb (data x) (data y)).
  { eapply yields_pure; [apply abs_val_is_gt_pure|reflexivity]. }
  intros ? ->. destruct (gtb (data x) (data y)) eqn:G.
  - eapply yields_bind.
    { apply (abs_val_div_spec L HD (data x) (data y) fuel); auto; split; auto. }
    intros v (Dv & Cv & Vv). apply yields_ret. split; [apply good_intro; auto|].
    apply signed_quot; auto; lia.
  - eapply yields_bind with (Q := fun v => v = [0]); [apply yields_vcopy; auto|]. intros ? ->.
    apply yields_ret. split.
    + apply good_intro; auto; [constructor; [lia|constructor]|apply weak_canonical_0].
    + apply signed_quot; auto; try lia. cbn [value].
      pose proof (gtb_false_le B HBk _ _ Dx Dy Cy G). rewrite Z.div_small by lia. lia.
Qed.

Theorem div_assign_same_magnitude fuel x y : finite x -> finite y -> data x = data y ->
  canonical (data x) -> data x <> [] -> data x <> [1] ->
  assigns (op_div_assign L false fuel x (Other y))
    (fun z => z = mkBN (product_desc (desc x) (desc y)) [0]) (infinity_for (desc y)).
Proof.
  intros Fx Fy E Cx N1 N2.
  assert (data x <> [0]) as N0 by (intros K; rewrite K in Cx; unfold canonical in Cx; cbn in Cx; lia).
  rewrite (div_assign_main L HLk false fuel x y) by (rewrite <- ?E; auto). rewrite failed_infinity.
  apply guarded_yields.
  eapply yields_bind with (Q := fun c => c = false).
  { eapply yields_pure; [apply abs_val_is_gt_pure|]. rewrite E. apply gtb_refl. }
  intros ? ->. eapply yields_bind with (Q := fun v => v = [0]); [apply yields_vcopy; auto|]. intros ? ->.
  apply yields_ret. reflexivity.
Qed.

(** the outer loop with a divisor that has no digits *)
Lemma abs_val_div_nil dividend fuel al n :
  match abs_val_div L false fuel dividend [] al n with
  | NoFuel => True
  | Throw e n' => e = ExBadAlloc /\ refused al n n'
  | _ => False
  end.
Proof.
  unfold abs_val_div. unfold bind at 1.
  pose proof (yields_vcopy [0] (fun v => v = [0]) eq_refl al n) as K.
  destruct (vcopy [0] al n) as [v n1|e n1|u|]; try contradiction; [|destruct K; auto].
  destruct K as [-> Hn1]. generalize fuel at 1 as fi. intros fi.
  destruct fuel as [|f]; [exact I|]. cbn [div_outer]. unfold bind at 1. rewrite ge_nil.
  unfold bind at 1. pose proof (yields_vcopy (@nil Z) (fun v => v = []) eq_refl al n1) as K.
  destruct (vcopy [] al n1) as [v n2|e n2|u|]; try contradiction.
  2: { destruct K as [-> (k & Hk & Hal)]. split; auto. exists k; split; auto; lia. }
  destruct K as [-> Hn2]. unfold bind at 1.
  pose proof (yields_vcopy (@nil Z) (fun v => v = []) eq_refl al n2) as K.
  destruct (vcopy [] al n2) as [v n3|e n3|u|]; try contradiction.
  2: { destruct K as [-> (k & Hk & Hal)]. split; auto. exists k; split; auto; lia. }
  destruct K as [-> Hn3]. unfold bind at 1.
  rewrite (one_wrap L HLk).
  pose proof (yields_vcopy [1] (fun v => v = [1]) eq_refl al n3) as K.
  destruct (vcopy [1] al n3) as [v n4|e n4|u|]; try contradiction.
  2: { destruct K as [-> (k & Hk & Hal)]. split; auto. exists k; split; auto; lia. }
  destruct K as [-> Hn4]. unfold bind at 1. cbn [shift_left_1 ret]. unfold bind at 1.
  assert (cok L [1]) as H1.
  { split; [constructor; [fold B; lia|constructor]|unfold canonical; cbn; lia]. }
  pose proof (div_inner_nil L HD dividend fi [1] al n4 H1) as K.
  destruct (div_inner L fi dividend [] [] [1] al n4) as [v n5|e n5|u|]; try contradiction; auto.
  destruct K as [-> (k & Hk & Hal)]. split; auto. exists k; split; auto; lia.
Qed.

Theorem div_assign_nil x y : finite x -> data y = [] -> data x <> [] -> data x <> [0] ->
  never_completes (fun fuel => op_div_assign L false fuel x (Other y)) (infinity_for (desc y)).
Proof.
  intros Fx Ey N1 N2 fuel al n.
  rewrite (div_assign_main L HLk false fuel x y) by (rewrite ?Ey; auto; split; discriminate).
  rewrite failed_infinity. unfold guarded. unfold bind at 1. rewrite abs_val_is_gt_pure.
  assert (gtb (data x) (data y) = true) as ->.
  { rewrite Ey. destruct (data x); [congruence|reflexivity]. }
  rewrite Ey. unfold bind. pose proof (abs_val_div_nil (data x) fuel al n) as K.
  destruct (abs_val_div L false fuel (data x) [] al n) as [v n5|e n5|u|]; try contradiction; auto.
  destruct K as [-> K]. auto.
Qed.

End BaseN.

Section FullWidth.
Context (L : limits) (HF : full_width L = true).
Let B := base L.
Let HLk : limits_ok L = true := proj1 (full_width_facts L HF).
Let HBk : 2 <= B := AddSubProof.HB L HLk.

Definition undef_or_refused {A} (m : M A) (u : ub) : Prop :=
  forall al n, match m al n with
               | Undef u' => u' = u
               | Throw e n' => e = ExBadAlloc /\ refused al n n'
               | _ => False
               end.

Lemma uor_bind {A C} (m : M A) (k : A -> M C) Q u : yields m Q -> (forall a, Q a -> undef_or_refused (k a) u) ->
  undef_or_refused (bind m k) u.
Proof.
  intros Hm Hk al n. unfold bind. specialize (Hm al n). destruct (m al n) as [a n'|e n'|v|]; try contradiction; auto.
  destruct Hm as [Qa Hn]. specialize (Hk a Qa al n'). destruct (k a al n') as [b n''|e n''|v|]; auto.
  destruct Hk as [-> (j & Hj & Hal)]. split; auto. exists j; split; auto; lia.
Qed.

Lemma uor_bind_l {A C} (m : M A) (k : A -> M C) u : undef_or_refused m u -> undef_or_refused (bind m k) u.
Proof.
  intros Hm al n. unfold bind. specialize (Hm al n). destruct (m al n); try contradiction; auto.
Qed.

Lemma uor_undef {A} (m : M A) u : is_undefined m u -> undef_or_refused m u.
Proof. intros H al n; rewrite H; reflexivity. Qed.

(** dividing with full-width digits, once the loop is entered *)
Lemma abs_val_div_full dividend divisor fuel : (2 <= fuel)%nat -> pure (abs_val_is_ge dividend divisor) true ->
  undef_or_refused (abs_val_div L false fuel dividend divisor) UB_div_zero.
Proof.
  intros Hf Hge. unfold abs_val_div.
  apply uor_bind with (Q := fun v => v = [0]); [apply yields_vcopy; auto|]. intros ? ->.
  destruct fuel as [|[|f]]; try lia. cbn [div_outer].
  apply uor_bind with (Q := fun c => c = true); [eapply yields_pure; eauto|]. intros ? ->.
  apply uor_bind with (Q := fun v => v = divisor); [apply yields_vcopy; auto|]. intros ? ->.
  apply uor_bind with (Q := fun v => v = divisor); [apply yields_vcopy; auto|]. intros ? ->.
  apply uor_bind with (Q := fun v => v = [wrap (ws L) 1]); [apply yields_vcopy; auto|]. intros ? ->.
  destruct divisor as [|d r].
  - apply uor_bind with (Q := fun v => v = []); [apply yields_ret; auto|]. intros ? ->.
    apply uor_bind_l. cbn [div_inner].
    apply uor_bind with (Q := fun c => c = true); [eapply yields_pure; [apply ge_nil|reflexivity]|]. intros ? ->.
    apply uor_bind with (Q := fun v => v = []); [apply yields_vcopy; auto|]. intros ? ->.
    apply uor_bind with (Q := fun v => v = []); [apply yields_ret; auto|]. intros ? ->.
    apply uor_bind_l, uor_undef. intros al n. apply shift_left_1_full_width; auto. discriminate.
  - apply uor_bind_l, uor_undef. intros al n. apply shift_left_1_full_width; auto. discriminate.
Qed.

Theorem div_assign_full fuel x y : (2 <= fuel)%nat -> good B x -> finite y -> digits_ok B (data y) ->
  canonical (data y) -> data y <> [1] -> value B (data y) < value B (data x) ->
  undefined_assign (op_div_assign L false fuel x (Other y)) UB_div_zero (infinity_for (desc y)).
Proof.
  intros Hf (Fx & Dx & Cx) Fy Dy Cy N1 Hlt.
  pose proof (value_bounds B HBk _ Dy) as By.
  assert (data x <> [] /\ data x <> [0]) as Nx.
  { split; intros E; rewrite E in Hlt; cbn [value] in Hlt; lia. }
  assert (data y <> [0]) as N0 by (intros E; rewrite E in Cy; unfold canonical in Cy; cbn in Cy; lia).
  assert (canonical (data x)) as Kx by (apply (weak_nonzero L); auto; fold B; lia).
  intros al n. rewrite (div_assign_main L HLk false fuel x y) by auto. rewrite failed_infinity.
  unfold guarded. unfold bind at 1. rewrite abs_val_is_gt_pure, (gtb_complete B HBk) by auto.
  assert (pure (abs_val_is_ge (data x) (data y)) true) as Hge.
  { replace true with (geb B (data x) (data y)); [apply abs_val_is_ge_pure; auto|].
    rewrite (geb_canonical B HBk) by auto. apply Z.leb_le; lia. }
  unfold bind. pose proof (abs_val_div_full (data x) (data y) fuel Hf Hge al n) as K.
  destruct (abs_val_div L false fuel (data x) (data y) al n) as [v n5|e n5|u|]; try contradiction; auto.
  destruct K as [-> K]. auto.
Qed.

(** and otherwise it is defined *)
Theorem div_assign_full_defined fuel x y : (1 <= fuel)%nat -> good B x -> finite y -> digits_ok B (data y) ->
  canonical (data y) -> data y <> [] -> value B (data x) < value B (data y) \/ data y = [1] ->
  assigns (op_div_assign L false fuel x (Other y))
    (fun z => good B z /\ signed_value B z = Z.quot (signed_value B x) (signed_value B y))
    (infinity_for (desc y)).
Proof.
  intros Hf (Fx & Dx & Cx) Fy Dy Cy Ny Hc.
  pose proof (value_bounds B HBk _ Dx) as Bx.
  pose proof (value_canonical_pos B HBk _ Dy Cy Ny) as Py.
  pose proof (product_finite x y Fx Fy) as Pf.
  assert (data y <> [0]) as N0 by (intros E; rewrite E in Cy; unfold canonical in Cy; cbn in Cy; lia).
  destruct (list_eq_dec Z.eq_dec (data y) [1]) as [E1|N1].
  { intros al n. rewrite (div_by_one L HLk false fuel x y Fx E1). split; [|lia].
    split; [apply good_intro; auto|]. apply signed_quot; auto; try lia.
    rewrite E1. cbn [value]. replace (1 + B * 0) with 1 by lia. rewrite Z.div_1_r; reflexivity. }
  destruct Hc as [Hc|Hc]; [|contradiction].
  destruct (Z.eq_dec (value B (data x)) 0) as [E0|NZ].
  { assert (data x = [] \/ data x = [0]) as Ex by (apply (weak_zero L HLk); auto).
    intros al n. rewrite (div_of_zero L HLk false fuel x y Fx N0 Ex). split; [|lia].
    split; [apply good_intro; auto|]. apply signed_quot; auto; try lia.
    rewrite E0, Z.div_0_l by lia. reflexivity. }
  assert (data x <> [] /\ data x <> [0]) as Nx.
  { split; intros E; rewrite E in NZ; cbn [value] in NZ; lia. }
  assert (canonical (data x)) as Kx by (apply (weak_nonzero L); auto).
  rewrite (div_assign_main L HLk false fuel x y) by auto. rewrite failed_infinity.
  apply guarded_yields.
  assert (good B (mkBN (product_desc (desc x) (desc y)) [0]) /\
     signed_value B (mkBN (product_desc (desc x) (desc y)) [0]) = Z.quot (signed_value B x) (signed_value B y)) as R.
  { split; [apply good_intro; auto; [constructor; [lia|constructor]|apply weak_canonical_0]|].
    apply signed_quot; auto; try lia. cbn [value]. rewrite Z.div_small by lia. lia. }
  eapply yields_bind with (Q := fun c => True).
  { eapply yields_pure; [apply abs_val_is_gt_pure|exact I]. }
  intros c _. destruct c.
  - eapply yields_bind with (Q := fun v => v = [0]).
    { unfold abs_val_div. eapply yields_bind with (Q := fun v => v = [0]); [apply yields_vcopy; auto|]. intros ? ->.
      destruct fuel as [|f]; [lia|]. cbn [div_outer].
      eapply yields_bind with (Q := fun c => c = false).
      { eapply yields_pure; [apply (abs_val_is_ge_pure B HBk); auto|].
        rewrite (geb_canonical B HBk) by auto. apply Z.leb_gt; lia. }
      intros ? ->. apply yields_ret; auto. }
    intros ? ->. apply yields_ret. exact R.
  - eapply yields_bind with (Q := fun v => v = [0]); [apply yields_vcopy; auto|]. intros ? ->.
    apply yields_ret. exact R.
Qed.

End FullWidth.
