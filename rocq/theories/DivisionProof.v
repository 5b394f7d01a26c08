(** * abs_val_div computes the truncated quotient (base-N types) *)
From Verif Require Import Base Spec Limits Compare AddSub Division Wp ValueProof CompareProof AddSubProof.

Lemma can_double_facts L : can_double L = true -> limits_ok L = true /\ 2 * base L <= 2 ^ ws L.
Proof. unfold can_double. rewrite Bool.andb_true_iff, Z.leb_le. tauto. Qed.

Section Proof.
Context (L : limits) (HD : can_double L = true).
Let B := base L.

Lemma HL : limits_ok L = true.
Proof. apply can_double_facts in HD; tauto. Qed.
Lemma HB2 : 2 <= B.
Proof. apply (HB L HL). Qed.
Lemma H2B : 2 * B <= 2 ^ ws L.
Proof. apply can_double_facts in HD; unfold B; tauto. Qed.

Lemma limit_eq : wrap (ws L) (wrap (wd L) (bmax L + 1)) = B.
Proof.
  pose proof HB2; pose proof H2B; pose proof (HBwd L HL). fold B in H1.
  change (bmax L + 1) with B. rewrite !wrap_small; rewrite ?wrap_small; lia.
Qed.

Lemma shl_loop_spec : forall fuel done rest carry,
  digits_ok B rest -> 0 <= carry <= 1 -> (length rest <= fuel)%nat ->
  exists new c, pure (shl_loop L fuel (done ++ rest) (length done) carry) (done ++ new, c) /\
    digits_ok B new /\ length new = length rest /\ 0 <= c <= 1 /\
    2 * value B rest + carry = value B new + B ^ Z.of_nat (length rest) * c.
Proof.
  pose proof HB2; pose proof H2B as H2B'. pose proof (HBws L HL) as Hws. fold B in Hws.
  induction fuel as [|f IH]; intros done rest carry Hr Hc Hf.
  - assert (rest = []) as -> by (apply length_zero_iff_nil; lia).
    exists [], carry. split.
    + cbn [shl_loop]. rewrite app_nil_r, Nat.ltb_irrefl. apply pure_ret.
    + cbn [value length]. change (Z.of_nat 0) with 0. rewrite Z.pow_0_r. repeat split; auto; try lia.
  - cbn [shl_loop]. destruct rest as [|x rest].
    { exists [], carry. split.
      + rewrite app_nil_r, Nat.ltb_irrefl. apply pure_ret.
      + cbn [value length]. change (Z.of_nat 0) with 0. rewrite Z.pow_0_r. repeat split; auto; try lia. }
    inversion_clear Hr as [|? ? Hx Hr'].
    assert (wrap (ws L) 2 = 2) as E2 by (apply wrap_small; lia).
    assert (wrap (ws L) (bmax L) = bmax L) as Em by (apply wrap_small; unfold B, base in *; lia).
    set (temp := 2 * x + carry).
    assert (wrap (ws L) (x * 2 + carry) = temp) as Et.
    { unfold temp. rewrite wrap_small; lia. }
    set (c1 := if bmax L <? temp then 1 else 0).
    assert (0 <= c1 <= 1 /\ temp = temp mod B + B * c1 /\ 0 <= temp mod B < B) as (Hc1 & Hd1 & Hm).
    { split; [unfold c1; destruct (bmax L <? temp); lia|]. split; [|apply Z.mod_pos_bound; lia].
      unfold c1. destruct (Z.ltb_spec (bmax L) temp) as [Hlt|Hlt].
      - rewrite <- (Z.mod_unique temp B 1 (temp - B)); unfold temp, B, base in *; lia.
      - rewrite Z.mod_small; unfold temp, B, base in *; lia. }
    destruct (IH (done ++ [temp mod B]) rest c1) as (new & c & Hp & Hd & Hl & Hcc & Hv); auto.
    { cbn [length] in Hf. lia. }
    exists (temp mod B :: new), c. split; [|split; [|split; [|split]]]; auto.
    + rewrite (proj2 (Nat.ltb_lt _ _)) by (rewrite app_length; cbn; lia).
      rewrite vget_app. eapply pure_bind; [apply pure_ret|].
      cbv zeta. rewrite E2, Em, Et, limit_eq. fold c1.
      rewrite (proj2 (Z.eqb_neq B 0)) by lia. rewrite vset_app. eapply pure_bind; [apply pure_ret|].
      replace (done ++ temp mod B :: rest) with ((done ++ [temp mod B]) ++ rest) by (rewrite <- app_assoc; reflexivity).
      replace (S (length done)) with (length (done ++ [temp mod B])) by (rewrite app_length; cbn; lia).
      replace (done ++ temp mod B :: new) with ((done ++ [temp mod B]) ++ new) by (rewrite <- app_assoc; reflexivity).
      exact Hp.
    + constructor; auto.
    + cbn [length]; lia.
    + cbn [value length]. rewrite pow_S. unfold temp in *. nia.
Qed.

Theorem shift_left_1_spec v : digits_ok B v -> canonical v ->
  yields (shift_left_1 L v) (fun r => digits_ok B r /\ canonical r /\ value B r = 2 * value B v).
Proof.
  pose proof HB2 as HB2'. intros Hd Hc. unfold shift_left_1.
  destruct v as [|x v0] eqn:Ev; [apply yields_ret; repeat split; auto|]. rewrite <- Ev in *.
  assert (v <> []) as Hn by (rewrite Ev; congruence). clear x v0 Ev.
  destruct (shl_loop_spec (length v) [] v 0 Hd ltac:(lia) ltac:(lia)) as (new & c & Hp & Hdn & Hl & Hcc & Hv).
  cbn [length app] in Hp. eapply yields_bind with (Q := fun p => p = (new, c)).
  { eapply yields_pure; [exact Hp|reflexivity]. }
  intros p ->. cbn [fst snd].
  assert (new <> []) as Hnn by (intros ->; apply Hn, length_zero_iff_nil; cbn in Hl; lia).
  destruct (Z.eqb_spec c 0) as [->|Hc0].
  - apply yields_ret. repeat split; auto; [|lia].
    apply (canonical_of_value B); auto. rewrite Hl.
    pose proof (value_canonical_lb B HB2 v Hd Hc Hn). pose proof (value_bounds B HB2 v Hd). lia.
  - assert (c = 1) as -> by lia.
    destruct (limits_ok_facts L HL) as (_ & _ & Hmin & _). pose proof H2B.
    assert (wrap (ws L) (bmin L + 1) = 1) as E1 by (rewrite Hmin; apply wrap_small; lia).
    rewrite E1. apply yields_vpush. repeat split.
    + apply digits_ok_app; split; auto. constructor; [lia|constructor].
    + apply canonical_snoc; lia.
    + rewrite value_snoc, Hl. lia.
Qed.

Lemma pow2_S (n : nat) : 2 ^ Z.of_nat (S n) = 2 * 2 ^ Z.of_nat n.
Proof. rewrite Nat2Z.inj_succ, Z.pow_succ_r by lia; reflexivity. Qed.

Definition cok v := digits_ok B v /\ canonical v.

Theorem div_inner_spec dividend divisor : cok dividend -> cok divisor -> 0 < value B divisor ->
  forall fuel b0 b1 q, cok b0 -> cok b1 -> cok q ->
  value B b0 = value B divisor * value B q -> value B b1 = 2 * value B b0 ->
  0 < value B b0 <= value B dividend ->
  (1 <= fuel)%nat -> value B dividend < value B b1 * 2 ^ (Z.of_nat fuel - 1) ->
  yields (div_inner L fuel dividend b0 b1 q)
    (fun r => cok (fst r) /\ cok (snd r) /\ value B (fst r) = value B divisor * value B (snd r) /\
              value B (fst r) <= value B dividend < 2 * value B (fst r)).
Proof.
  pose proof HB2 as HB'.
  intros [Dd Cd] [Ds Cs] Hpos. induction fuel as [|f IH]; intros b0 b1 q [D0 C0] [D1 C1] [Dq Cq] Hb0 Hb1 Hle Hf Hfuel;
    [lia|]. cbn [div_inner].
  eapply yields_bind with (Q := fun c => c = (value B b1 <=? value B dividend)).
  { eapply yields_pure; [apply (abs_val_is_ge_pure B HB' dividend b1 Dd D1)|].
    apply geb_canonical; auto. }
  intros c ->. destruct (Z.leb_spec (value B b1) (value B dividend)) as [Hge|Hlt].
  - eapply yields_bind with (Q := fun v => v = b1); [apply yields_vcopy; auto|]. intros ? ->.
    eapply yields_bind; [apply (shift_left_1_spec b1 D1 C1)|]. intros b1' (D1' & C1' & V1').
    eapply yields_bind; [apply (shift_left_1_spec q Dq Cq)|]. intros q' (Dq' & Cq' & Vq').
    destruct f as [|f'].
    { exfalso. change (Z.of_nat 1 - 1) with 0 in Hfuel. rewrite Z.pow_0_r in Hfuel. lia. }
    apply IH; try (split; assumption); try lia.
    replace (Z.of_nat (S (S f')) - 1) with (Z.of_nat (S f')) in Hfuel by lia. rewrite pow2_S in Hfuel.
    replace (Z.of_nat (S f') - 1) with (Z.of_nat f') by lia. nia.
  - apply yields_ret. cbn [fst snd]. repeat split; auto; lia.
Qed.

Theorem div_outer_spec divisor fi : cok divisor -> 0 < value B divisor ->
  forall fuel dividend r, cok dividend -> digits_ok B r -> weak_canonical r ->
  (1 <= fuel)%nat -> value B dividend < value B divisor * 2 ^ (Z.of_nat fuel - 1) ->
  (1 <= fi)%nat -> value B dividend < value B divisor * 2 ^ Z.of_nat fi ->
  yields (div_outer L false fi fuel dividend divisor r)
    (fun r' => digits_ok B r' /\ weak_canonical r' /\
       value B r' = value B r + value B dividend / value B divisor).
Proof.
  pose proof HB2 as HB'.
  intros [Ds Cs] Hpos. induction fuel as [|f IH]; intros dividend r [Dd Cd] Dr Cr Hf Hfuel Hfi Hfuel'; [lia|].
  cbn [div_outer].
  eapply yields_bind with (Q := fun c => c = (value B divisor <=? value B dividend)).
  { eapply yields_pure; [apply (abs_val_is_ge_pure B HB' dividend divisor Dd Ds)|].
    apply geb_canonical; auto. }
  intros c ->. pose proof (value_bounds B HB' dividend Dd) as Vd.
  destruct (Z.leb_spec (value B divisor) (value B dividend)) as [Hge|Hlt].
  - eapply yields_bind with (Q := fun v => v = divisor); [apply yields_vcopy; auto|]. intros ? ->.
    eapply yields_bind with (Q := fun v => v = divisor); [apply yields_vcopy; auto|]. intros ? ->.
    assert (wrap (ws L) 1 = 1) as E1 by (pose proof H2B; apply wrap_small; lia). rewrite E1.
    eapply yields_bind with (Q := fun v => v = [1]); [apply yields_vcopy; auto|]. intros ? ->.
    eapply yields_bind; [apply (shift_left_1_spec divisor Ds Cs)|]. intros b1 (D1 & C1 & V1).
    assert (cok [1]) as H1ok.
    { split; [constructor; [lia|constructor]|unfold canonical; cbn; lia]. }
    eapply yields_bind.
    { apply (div_inner_spec dividend divisor) with (fuel := fi) (b0 := divisor) (b1 := b1) (q := [1]);
        try (split; assumption); try assumption; try lia.
      - cbn [value]; lia.
      - destruct fi as [|fi']; [lia|]. rewrite pow2_S in Hfuel'.
        replace (Z.of_nat (S fi') - 1) with (Z.of_nat fi') by lia. nia. }
    intros [b0 q]. cbn [fst snd]. intros ([D0 C0] & [Dq Cq] & Vq & Vle).
    assert (dividend <> []) as Hdn by (intros ->; cbn [value] in *; lia).
    assert (length b0 <= length dividend)%nat as Hlen.
    { destruct (Nat.le_gt_cases (length b0) (length dividend)) as [|Hgt]; auto.
      pose proof (length_lt_value B HB' dividend b0 Dd D0 C0 Hgt). lia. }
    destruct (abs_val_sub_other L HL dividend b0 Hdn Hlen) as (d' & Hp & Cd' & _ & Hd').
    destruct (Hd' Dd D0) as [Dd' Vd']. fold B in Dd', Vd'.
    rewrite (proj2 (Z.leb_le _ _)) in Vd' by lia.
    eapply yields_bind with (Q := fun v => v = d'); [eapply yields_pure; [exact Hp|reflexivity]|]. intros ? ->.
    eapply yields_bind with (Q := fun r' => digits_ok B r' /\ weak_canonical r' /\
                                            value B r' = value B r + value B q).
    { destruct (length q <=? length r)%nat.
      - eapply yields_mono; [apply (abs_val_add_other L HL r q Dr Dq)|].
        intros r' (Dr' & Vr' & Gr'). fold B in Dr', Vr'. repeat split; auto.
        eapply (grown_canonical L HL r q); eauto. left; auto.
      - eapply yields_mono; [apply (abs_val_add_other L HL q r Dq Dr)|].
        intros r' (Dr' & Vr' & Gr'). fold B in Dr', Vr'. repeat split; auto; [|lia].
        eapply (grown_canonical L HL q r); eauto. left; auto. }
    intros r' (Dr' & Cr' & Vr').
    destruct f as [|f'].
    { exfalso. change (Z.of_nat 1 - 1) with 0 in Hfuel. rewrite Z.pow_0_r in Hfuel. lia. }
    eapply yields_mono.
    { apply IH with (r := r'); try (split; assumption); try assumption; try lia.
      replace (Z.of_nat (S (S f')) - 1) with (Z.of_nat (S f')) in Hfuel by lia. rewrite pow2_S in Hfuel.
      replace (Z.of_nat (S f') - 1) with (Z.of_nat f') by lia. nia. }
    intros r'' (Dr'' & Cr'' & Vr''). repeat split; auto. rewrite Vr'', Vr', Vd', Vq.
    replace (value B dividend) with ((value B dividend - value B divisor * value B q) + value B q * value B divisor)
      at 2 by ring.
    rewrite Z.div_add by lia. lia.
  - apply yields_ret. repeat split; auto. rewrite Z.div_small by lia. lia.
Qed.

(** number of rounds that suffice for every dividend *)
Definition enough_fuel (x : Z) (fuel : nat) : Prop := Z.log2 x + 2 <= Z.of_nat fuel.

Theorem abs_val_div_spec dividend divisor fuel : cok dividend -> cok divisor -> 0 < value B divisor ->
  enough_fuel (value B dividend) fuel ->
  yields (abs_val_div L false fuel dividend divisor)
    (fun r => digits_ok B r /\ weak_canonical r /\ value B r = value B dividend / value B divisor).
Proof.
  pose proof HB2 as HB'.
  intros Hd Hs Hpos Hf. unfold enough_fuel in Hf. unfold abs_val_div.
  eapply yields_bind with (Q := fun v => v = [0]); [apply yields_vcopy; auto|]. intros ? ->.
  pose proof (Z.log2_nonneg (value B dividend)).
  pose proof (value_bounds B HB' dividend (proj1 Hd)) as Vd.
  assert (value B dividend < 2 ^ (Z.of_nat fuel - 1)) as Hlog.
  { destruct (Z.eq_dec (value B dividend) 0) as [->|Hn].
    - apply Z.pow_pos_nonneg; lia.
    - destruct (Z.log2_spec (value B dividend)) as [_ Hu]; [lia|].
      eapply Z.lt_le_trans; [exact Hu|]. apply Z.pow_le_mono_r; lia. }
  eapply yields_mono.
  - apply (div_outer_spec divisor fuel Hs Hpos); auto.
    + constructor; [lia|constructor].
    + apply weak_canonical_0.
    + lia.
    + nia.
    + lia.
    + assert (2 ^ (Z.of_nat fuel - 1) <= 2 ^ Z.of_nat fuel) by (apply Z.pow_le_mono_r; lia). nia.
  - intros r (Dr & Cr & Vr). repeat split; auto. cbn [value] in Vr. lia.
Qed.

(** ** A divisor without digits: the inner loop never ends *)

Lemma ge_nil dividend : pure (abs_val_is_ge dividend []) true.
Proof.
  intros al n. unfold abs_val_is_ge. destruct dividend; cbn; reflexivity.
Qed.

Theorem div_inner_nil dividend : forall fuel q al n, cok q ->
  match div_inner L fuel dividend [] [] q al n with
  | NoFuel => True | Throw e n' => e = ExBadAlloc /\ exists k, (n <= k < n')%nat /\ al k = false
  | _ => False end.
Proof.
  induction fuel as [|f IH]; intros q al n Hq; [exact I|].
  cbn [div_inner]. unfold bind at 1. rewrite ge_nil. unfold bind at 1.
  pose proof (yields_vcopy (@nil Z) (fun v => v = []) eq_refl al n) as K.
  destruct (vcopy [] al n) as [v n1|e n1|u|] eqn:E; try contradiction; [|destruct K; auto].
  destruct K as [-> Hn1]. unfold bind at 1. cbn [shift_left_1 ret].
  unfold bind. pose proof (shift_left_1_spec q (proj1 Hq) (proj2 Hq) al n1) as K2.
  destruct (shift_left_1 L q al n1) as [q' n2|e n2|u|]; try contradiction.
  - destruct K2 as [(Dq' & Cq' & _) Hn2]. specialize (IH q' al n2 (conj Dq' Cq')).
    destruct (div_inner L f dividend [] [] q' al n2); auto.
    destruct IH as [-> (k & Hk & Hal)]. split; auto. exists k; split; auto; lia.
  - destruct K2 as [-> (k & Hk & Hal)]. split; auto. exists k; split; auto; lia.
Qed.

End Proof.

(** ** Full-width digits: the shift divides by zero *)

Lemma full_width_facts L : full_width L = true -> limits_ok L = true /\ base L = 2 ^ ws L.
Proof. unfold full_width. rewrite Bool.andb_true_iff, Z.eqb_eq. tauto. Qed.

Theorem shift_left_1_full_width L v al n : full_width L = true -> v <> [] ->
  shift_left_1 L v al n = Undef UB_div_zero.
Proof.
  intros HF Hv. apply full_width_facts in HF as [HL HB].
  destruct v as [|x v]; [congruence|]. unfold shift_left_1. cbn [shl_loop length].
  cbn [Nat.ltb Nat.leb]. unfold bind. cbn [vget nth_error ret].
  assert (wrap (ws L) (wrap (wd L) (bmax L + 1)) = 0) as E.
  { change (bmax L + 1) with (base L). pose proof (HBwd L HL). pose proof (AddSubProof.HB L HL).
    rewrite (wrap_small (wd L)) by lia. unfold wrap. rewrite HB. apply Z.mod_same.
    rewrite <- HB. lia. }
  rewrite E. reflexivity.
Qed.
