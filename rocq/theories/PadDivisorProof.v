(** * Division by a magnitude with superfluous high-order zeros *)
From Verif Require Import Base Spec Limits Compare AddSub Division Fourier Multiplication Bignum Outcome.
From Verif Require Import Wp ValueProof CompareProof AddSubProof DivisionProof BignumProof OperatorProof DivOpProof.

Section PadDivisor.
Context (L : limits) (HD : can_double L = true).
Let B := base L.
Let HLk : limits_ok L = true := DivisionProof.HL L HD.
Let HBk : 2 <= B := AddSubProof.HB L HLk.
Local Notation okc := (cok L).

(** a multiple of the divisor as the search loops hold it: [m] digits, whatever they are, or more and then canonical *)
Definition shaped (m : nat) (v : list Z) : Prop :=
  digits_ok B v /\ (length v = m \/ (m < length v)%nat /\ canonical v).

Lemma shift_left_1_shaped m v : shaped m v -> v <> [] ->
  yields (shift_left_1 L v) (fun r => shaped m r /\ r <> [] /\ value B r = 2 * value B v).
Proof.
  intros [Hd Hs] Hn. unfold shift_left_1.
  destruct v as [|x v0] eqn:Ev; [congruence|]. rewrite <- Ev in *. clear x v0 Ev.
  destruct (shl_loop_spec L HD (length v) [] v 0 Hd ltac:(lia) ltac:(lia)) as (new & c & Hp & Hdn & Hl & Hcc & Hv).
  cbn [length app] in Hp. fold B in Hdn, Hv. eapply yields_bind with (Q := fun p => p = (new, c)).
  { eapply yields_pure; [exact Hp|reflexivity]. }
  intros p ->. cbn [fst snd].
  assert (new <> []) as Hnn by (intros ->; apply Hn, length_zero_iff_nil; cbn in Hl; lia).
  destruct (Z.eqb_spec c 0) as [->|Hc0].
  - apply yields_ret. split; [|split; [exact Hnn|lia]]. split; [exact Hdn|].
    destruct Hs as [Hs|[Hs Hc]]; [left; lia|right; split; [lia|]].
    apply (canonical_of_value B); auto. rewrite Hl.
    pose proof (value_canonical_lb B HBk v Hd Hc Hn). pose proof (value_bounds B HBk v Hd). lia.
  - assert (c = 1) as -> by lia.
    destruct (limits_ok_facts L HLk) as (_ & _ & Hmin & _). pose proof (H2B L HD) as H2. fold B in H2.
    assert (wrap (ws L) (bmin L + 1) = 1) as E1 by (rewrite Hmin; apply wrap_small; lia).
    rewrite E1. apply yields_vpush. split; [|split; [destruct new; discriminate|]].
    + split; [apply digits_ok_app; split; auto; constructor; [lia|constructor]|].
      right. split; [rewrite app_length; cbn [length]; lia|apply canonical_snoc; lia].
    + rewrite value_snoc, Hl. lia.
Qed.

(** against a canonical number of at least [m] digits the comparison is right *)
Lemma geb_shaped m d b : okc d -> shaped m b -> (m <= length d)%nat -> geb B d b = (value B b <=? value B d).
Proof.
  intros [Dd Cd] [Db Hs] Hm. fold B in Dd. unfold geb.
  destruct (Nat.ltb_spec (length b) (length d)) as [H|H].
  - pose proof (length_lt_value B HBk b d Db Dd Cd H). symmetry; apply Z.leb_le; lia.
  - destruct (Nat.ltb_spec (length d) (length b)) as [H'|H']; auto.
    destruct Hs as [Hs|[Hs Cb]]; [lia|].
    pose proof (length_lt_value B HBk d b Dd Db Cb H'). symmetry; apply Z.leb_gt; lia.
Qed.

Lemma div_inner_shaped m dividend (y : Z) : okc dividend -> (m <= length dividend)%nat -> 0 < y ->
  forall fuel b0 b1 q j, shaped m b0 -> shaped m b1 -> b1 <> [] -> okc q -> 0 <= j ->
  value B q = 2 ^ j -> value B b0 = y * 2 ^ j -> value B b1 = 2 * value B b0 -> value B b0 <= value B dividend ->
  (1 <= fuel)%nat -> value B dividend < value B b1 * 2 ^ (Z.of_nat fuel - 1) ->
  yields (div_inner L fuel dividend b0 b1 q)
    (fun r => shaped m (fst r) /\ okc (snd r) /\ exists k, 0 <= k /\ value B (snd r) = 2 ^ k /\
              value B (fst r) = y * 2 ^ k /\ y * 2 ^ k <= value B dividend < y * 2 ^ (k + 1)).
Proof.
  intros Hd Hm Hy. induction fuel as [|f IH]; intros b0 b1 q j S0 S1 N1 [Dq Cq] Hj Vq V0 V1 Hle Hf Hfuel; [lia|].
  cbn [div_inner].
  eapply yields_bind with (Q := fun c => c = (value B b1 <=? value B dividend)).
  { eapply yields_pure; [apply (abs_val_is_ge_pure B HBk dividend b1 (proj1 Hd) (proj1 S1))|].
    apply (geb_shaped m); auto. }
  assert (2 ^ (j + 1) = 2 * 2 ^ j) as Ej by (rewrite Z.pow_add_r by lia; change (2 ^ 1) with 2; lia).
  intros c ->. destruct (Z.leb_spec (value B b1) (value B dividend)) as [Hge|Hlt].
  - eapply yields_bind with (Q := fun v => v = b1); [apply yields_vcopy; auto|]. intros ? ->.
    eapply yields_bind; [apply (shift_left_1_shaped m b1 S1 N1)|]. intros b1' (S1' & N1' & V1').
    eapply yields_bind; [apply (shift_left_1_spec L HD q Dq Cq)|]. intros q' (Dq' & Cq' & Vq'). fold B in Vq'.
    destruct f as [|f'].
    { exfalso. change (Z.of_nat 1 - 1) with 0 in Hfuel. rewrite Z.pow_0_r in Hfuel. lia. }
    apply (IH b1 b1' q' (j + 1)); auto; try lia; try (split; assumption).
    replace (Z.of_nat (S (S f')) - 1) with (Z.of_nat (S f')) in Hfuel by lia. rewrite (pow2_S L) in Hfuel.
    replace (Z.of_nat (S f') - 1) with (Z.of_nat f') by lia. nia.
  - apply yields_ret. cbn [fst snd]. split; [exact S0|]. split; [split; assumption|]. exists j. repeat split; auto; lia.
Qed.

(** what the outer loop computes: the leading binary digits of the quotient, until the remainder is below [T] *)
Definition stopped (v y T q : Z) : Prop :=
  (v < T /\ q = 0) \/
  (T <= v /\ exists j, 0 <= j /\ q = 2 ^ j * (v / (y * 2 ^ j)) /\ v mod (y * 2 ^ j) < T <= v mod (y * 2 ^ (j + 1))).

Lemma stopped_step v y T q k : 0 < y -> 0 <= k -> y * 2 ^ k <= v < y * 2 ^ (k + 1) -> T <= v ->
  stopped (v - y * 2 ^ k) y T q -> stopped v y T (2 ^ k + q).
Proof.
  intros Hy Hk Hv HT H. right. split; [exact HT|].
  assert (0 < 2 ^ k) as Pk by (apply Z.pow_pos_nonneg; lia).
  assert (2 ^ (k + 1) = 2 * 2 ^ k) as Ek by (rewrite Z.pow_add_r by lia; change (2 ^ 1) with 2; lia).
  set (v' := v - y * 2 ^ k) in *.
  destruct H as [[H ->]|(H & j & Hj & Eq & Hm)].
  - exists k. split; [exact Hk|]. split; [|split].
    + rewrite <- (Z.div_unique v (y * 2 ^ k) 1 v'); [lia|left; unfold v'; lia|unfold v'; lia].
    + rewrite <- (Z.mod_unique v (y * 2 ^ k) 1 v'); [exact H|left; unfold v'; lia|unfold v'; lia].
    + rewrite Z.mod_small; lia.
  - assert (0 < 2 ^ j) as Pj by (apply Z.pow_pos_nonneg; lia).
    assert (j < k) as Hjk.
    { destruct (Z.lt_ge_cases j k) as [|G]; auto. exfalso.
      assert (2 ^ k <= 2 ^ j) by (apply Z.pow_le_mono_r; lia).
      rewrite Z.mod_small in Hm by (unfold v' in *; nia). lia. }
    assert (forall i, 0 <= i <= k -> v = v' + 2 ^ (k - i) * (y * 2 ^ i)) as E.
    { intros i Hi. assert (2 ^ k = 2 ^ (k - i) * 2 ^ i) as K by (rewrite <- Z.pow_add_r by lia; f_equal; lia).
      unfold v'. rewrite K. ring. }
    assert (0 < 2 ^ (j + 1)) as Pj1 by (apply Z.pow_pos_nonneg; lia).
    exists j. split; [exact Hj|]. split; [|split].
    + rewrite (E j) by lia. rewrite Z.div_add by nia. rewrite Z.mul_add_distr_l, <- Eq.
      rewrite <- Z.pow_add_r by lia. replace (j + (k - j)) with k by lia. lia.
    + rewrite (E j) by lia. rewrite Z.mod_add by nia. apply Hm.
    + rewrite (E (j + 1)) by lia. rewrite Z.mod_add by nia. apply Hm.
Qed.

Lemma div_outer_shaped u fi : digits_ok B u -> 0 < value B u ->
  let divisor := u ++ [0] in let T := B ^ Z.of_nat (length u) in
  forall fuel dividend r, okc dividend -> digits_ok B r -> weak_canonical r ->
  (1 <= fuel)%nat -> value B dividend < value B u * 2 ^ (Z.of_nat fuel - 1) ->
  (1 <= fi)%nat -> value B dividend < value B u * 2 ^ Z.of_nat fi ->
  yields (div_outer L false fi fuel dividend divisor r)
    (fun r' => digits_ok B r' /\ weak_canonical r' /\ stopped (value B dividend) (value B u) T (value B r' - value B r)).
Proof.
  intros Du Hpos divisor T.
  assert (value B divisor = value B u) as Ed by (unfold divisor; rewrite value_snoc; lia).
  assert (value B u < T) as HuT by (apply (value_bounds B HBk u Du)).
  assert (length divisor = S (length u)) as Ld by (unfold divisor; rewrite app_length; cbn [length]; lia).
  assert (shaped (S (length u)) divisor) as Sd.
  { split; [|left; exact Ld]. apply digits_ok_app. split; auto. constructor; [lia|constructor]. }
  assert (divisor <> []) as Nd by (unfold divisor; destruct u; discriminate).
  induction fuel as [|f IH]; intros dividend r Hd Dr Cr Hf Hfuel Hfi Hfuel'; [lia|].
  pose proof Hd as [Dd Cd]. fold B in Dd.
  cbn [div_outer].
  eapply yields_bind with (Q := fun c => c = (T <=? value B dividend)).
  { eapply yields_pure; [apply (abs_val_is_ge_pure B HBk dividend divisor Dd (proj1 Sd))|].
    destruct (Nat.le_gt_cases (S (length u)) (length dividend)) as [G|G].
    - rewrite (geb_shaped (S (length u))) by auto. rewrite Ed.
      assert (dividend <> []) as Hdn by (intros ->; cbn in G; lia).
      pose proof (value_canonical_lb B HBk dividend Dd Cd Hdn) as K.
      assert (T <= B ^ (Z.of_nat (length dividend) - 1)) by (apply Z.pow_le_mono_r; lia).
      rewrite !(proj2 (Z.leb_le _ _)) by lia. reflexivity.
    - unfold geb. rewrite Ld.
      destruct (Nat.ltb_spec (S (length u)) (length dividend)); [lia|].
      rewrite (proj2 (Nat.ltb_lt _ _)) by lia. symmetry. apply Z.leb_gt.
      pose proof (value_bounds B HBk dividend Dd) as K.
      assert (B ^ Z.of_nat (length dividend) <= T) by (apply Z.pow_le_mono_r; lia). lia. }
  intros c ->. destruct (Z.leb_spec T (value B dividend)) as [Hge|Hlt].
  - assert (S (length u) <= length dividend)%nat as Hlen.
    { destruct (Nat.le_gt_cases (S (length u)) (length dividend)) as [G|G]; auto. exfalso.
      pose proof (value_bounds B HBk dividend Dd) as K.
      assert (B ^ Z.of_nat (length dividend) <= T) by (apply Z.pow_le_mono_r; lia). lia. }
    eapply yields_bind with (Q := fun v => v = divisor); [apply yields_vcopy; auto|]. intros ? ->.
    eapply yields_bind with (Q := fun v => v = divisor); [apply yields_vcopy; auto|]. intros ? ->.
    pose proof (H2B L HD) as H2. fold B in H2.
    assert (wrap (ws L) 1 = 1) as E1 by (apply wrap_small; lia). rewrite E1.
    eapply yields_bind with (Q := fun v => v = [1]); [apply yields_vcopy; auto|]. intros ? ->.
    eapply yields_bind; [apply (shift_left_1_shaped _ divisor Sd Nd)|]. intros b1 (S1 & N1 & V1).
    assert (okc [1]) as H1ok.
    { split; [constructor; [fold B; lia|constructor]|unfold canonical; cbn; lia]. }
    eapply yields_bind.
    { apply (div_inner_shaped (S (length u)) dividend (value B u) Hd Hlen Hpos fi divisor b1 [1] 0);
        auto; try lia.
      - cbn [value]; lia.
      - destruct fi as [|fi']; [lia|]. rewrite (pow2_S L) in Hfuel'.
        replace (Z.of_nat (S fi') - 1) with (Z.of_nat fi') by lia. nia. }
    intros [b0 q]. cbn [fst snd]. intros (S0 & [Dq Cq] & k & Hk & Vq & V0 & Hle). fold B in Dq.
    assert (dividend <> []) as Hdn by (intros ->; cbn [length] in Hlen; lia).
    assert (length b0 <= length dividend)%nat as Hlen0.
    { destruct S0 as [D0 [S0|[S0 C0]]]; [lia|].
      destruct (Nat.le_gt_cases (length b0) (length dividend)) as [|Hgt]; auto.
      pose proof (length_lt_value B HBk dividend b0 Dd D0 C0 Hgt). lia. }
    destruct (abs_val_sub_other L HLk dividend b0 Hdn Hlen0) as (d' & Hp & Cd' & _ & Hd').
    destruct (Hd' Dd (proj1 S0)) as [Dd' Vd']. fold B in Dd', Vd'.
    rewrite (proj2 (Z.leb_le _ _)) in Vd' by lia.
    eapply yields_bind with (Q := fun v => v = d'); [eapply yields_pure; [exact Hp|reflexivity]|]. intros ? ->.
    eapply yields_bind with (Q := fun r' => digits_ok B r' /\ weak_canonical r' /\
                                            value B r' = value B r + value B q).
    { destruct (length q <=? length r)%nat.
      - eapply yields_mono; [apply (abs_val_add_other L HLk r q Dr Dq)|].
        intros r' (Dr' & Vr' & Gr'). fold B in Dr', Vr'. repeat split; auto.
        eapply (grown_canonical L HLk r q); eauto. left; auto.
      - eapply yields_mono; [apply (abs_val_add_other L HLk q r Dq Dr)|].
        intros r' (Dr' & Vr' & Gr'). fold B in Dr', Vr'. repeat split; auto; [|lia].
        eapply (grown_canonical L HLk q r); eauto. left; auto. }
    intros r' (Dr' & Cr' & Vr').
    assert (0 < 2 ^ k) as Pk by (apply Z.pow_pos_nonneg; lia).
    assert (2 ^ (k + 1) = 2 * 2 ^ k) as Ek by (rewrite Z.pow_add_r by lia; change (2 ^ 1) with 2; lia).
    destruct f as [|f'].
    { exfalso. change (Z.of_nat 1 - 1) with 0 in Hfuel. rewrite Z.pow_0_r in Hfuel. lia. }
    eapply yields_mono.
    { apply (IH d' r'); try (split; assumption); try assumption; try lia.
      replace (Z.of_nat (S (S f')) - 1) with (Z.of_nat (S f')) in Hfuel by lia. rewrite (pow2_S L) in Hfuel.
      replace (Z.of_nat (S f') - 1) with (Z.of_nat f') by lia. nia. }
    intros r'' (Dr'' & Cr'' & Sr). split; [exact Dr''|]. split; [exact Cr''|].
    replace (value B r'' - value B r) with (2 ^ k + (value B r'' - value B r')) by lia.
    apply stopped_step; auto. rewrite Vd', V0 in Sr. exact Sr.
  - apply yields_ret. split; [exact Dr|]. split; [exact Cr|]. left. lia.
Qed.

(** operator /= *)
Theorem div_assign_pad_divisor fuel x y u : good B x -> finite y -> data y = u ++ [0] -> digits_ok B u ->
  0 < value B u -> enough_fuel (value B (data x)) fuel ->
  assigns (op_div_assign L false fuel x (Other y))
    (fun z => good B z /\ desc z = (if desc_eqb (desc x) (desc y) then BN_POS else BN_NEG) /\
              stopped (value B (data x)) (value B u) (B ^ Z.of_nat (length u)) (value B (data z)))
    (infinity_for (desc y)).
Proof.
  intros (Fx & Dx & Cx) Fy Ey Du Hu Hf.
  assert (u <> []) as Nu by (intros ->; cbn in Hu; lia).
  assert (1 <= length u)%nat as Lu by (destruct u; [congruence|cbn [length]; lia]).
  assert (product_desc (desc x) (desc y) = (if desc_eqb (desc x) (desc y) then BN_POS else BN_NEG)) as Es
    by (destruct Fx as [-> | ->], Fy as [-> | ->]; reflexivity).
  assert (data y <> [0] /\ data y <> [1]) as Ny.
  { rewrite Ey. destruct u as [|a [|b u']]; [congruence| |]; split; discriminate. }
  assert (B ^ 1 <= B ^ Z.of_nat (length u)) as HT by (apply Z.pow_le_mono_r; lia). rewrite Z.pow_1_r in HT.
  destruct (Z.eq_dec (value B (data x)) 0) as [Z0|Nz].
  { assert (data x = [] \/ data x = [0]) as Ex by (apply (weak_zero L HLk); auto).
    intros al n. rewrite (div_of_zero L HLk false fuel x y Fx (proj1 Ny) Ex). split; [|lia].
    cbn [fst snd]. split; [|split].
    - apply good_intro; auto. apply product_finite; auto.
    - exact Es.
    - cbn [data]. left. rewrite Z0. lia. }
  pose proof (value_bounds B HBk _ Dx) as Bx.
  assert (data x <> [] /\ data x <> [0]) as Nx by (split; intros E; apply Nz; rewrite E; cbn [value]; lia).
  assert (canonical (data x)) as Cx' by (apply (weak_nonzero L); auto; fold B; lia).
  rewrite (div_assign_main L HLk false fuel x y) by auto. rewrite failed_infinity. apply guarded_yields.
  assert (length (data y) = S (length u)) as Ly by (rewrite Ey, app_length; cbn [length]; lia).
  assert (value B (data y) = value B u) as Vy by (rewrite Ey, value_snoc; lia).
  assert (digits_ok B (data y)) as Dy.
  { rewrite Ey. apply digits_ok_app. split; auto. constructor; [lia|constructor]. }
  pose proof (value_bounds B HBk u Du) as Bu.
  eapply yields_bind with (Q := fun c => c = (B ^ Z.of_nat (length u) <=? value B (data x))).
  { eapply yields_pure; [apply abs_val_is_gt_pure|]. unfold gtb. rewrite Ly.
    destruct (Nat.le_gt_cases (S (length u)) (length (data x))) as [G|G].
    - pose proof (value_canonical_lb B HBk _ Dx Cx' (proj1 Nx)) as K.
      assert (B ^ Z.of_nat (length u) <= B ^ (Z.of_nat (length (data x)) - 1)) by (apply Z.pow_le_mono_r; lia).
      rewrite (proj2 (Z.leb_le _ _)) by lia.
      destruct (Nat.ltb_spec (S (length u)) (length (data x))); [reflexivity|].
      rewrite (proj2 (Nat.ltb_ge _ _)) by lia. apply (some_gt_complete B HBk); auto; lia.
    - destruct (Nat.ltb_spec (S (length u)) (length (data x))); [lia|].
      rewrite (proj2 (Nat.ltb_lt _ _)) by lia. symmetry. apply Z.leb_gt.
      assert (B ^ Z.of_nat (length (data x)) <= B ^ Z.of_nat (length u)) by (apply Z.pow_le_mono_r; lia). lia. }
  intros c ->. destruct (Z.leb_spec (B ^ Z.of_nat (length u)) (value B (data x))) as [H|H].
  - eapply yields_bind.
    { rewrite Ey. unfold abs_val_div.
      eapply yields_bind with (Q := fun v => v = [0]); [apply yields_vcopy; auto|]. intros ? ->.
      unfold enough_fuel in Hf. destruct (Z.log2_spec (value B (data x)) ltac:(lia)) as [_ Hu'].
      assert (2 ^ Z.succ (Z.log2 (value B (data x))) <= 2 ^ (Z.of_nat fuel - 1)) by (apply Z.pow_le_mono_r; lia).
      assert (2 ^ (Z.of_nat fuel - 1) <= 2 ^ Z.of_nat fuel) by (apply Z.pow_le_mono_r; lia).
      pose proof (Z.log2_nonneg (value B (data x))).
      apply (div_outer_shaped u fuel Du Hu fuel (data x) [0]); try lia; try nia.
      - split; auto.
      - constructor; [lia|constructor].
      - apply weak_canonical_0. }
    intros v (Dv & Cv & Sv). apply yields_ret. split; [|split].
    + apply good_intro; auto. apply product_finite; auto.
    + exact Es.
    + cbn [data]. cbn [value] in Sv. replace (value B v - (0 + B * 0)) with (value B v) in Sv by lia. exact Sv.
  - eapply yields_bind with (Q := fun v => v = [0]); [apply yields_vcopy; auto|]. intros ? ->.
    apply yields_ret. split; [|split].
    + apply good_intro; auto; [apply product_finite; auto|constructor; [lia|constructor]|apply weak_canonical_0].
    + exact Es.
    + left. cbn [data value]. lia.
Qed.

(** when that is the quotient *)
Lemma pow2_mod_mono q a b : 0 <= a <= b -> q mod 2 ^ a <= q mod 2 ^ b.
Proof.
  intros H. assert (0 < 2 ^ a) by (apply Z.pow_pos_nonneg; lia). assert (0 < 2 ^ b) by (apply Z.pow_pos_nonneg; lia).
  rewrite (Znumtheory.Zmod_div_mod (2 ^ a) (2 ^ b) q); [|lia|lia|].
  - apply Z.mod_le; [apply Z.mod_pos_bound; lia|lia].
  - exists (2 ^ (b - a)). rewrite <- Z.pow_add_r by lia. f_equal; lia.
Qed.

Lemma stopped_right v y T q l : 0 < y -> T <= v -> stopped v y T q ->
  0 <= l -> (v / y) mod 2 ^ l = 0 -> (v / y) mod 2 ^ (l + 1) = 2 ^ l ->
  (q = v / y <-> T <= v mod y + y * 2 ^ l).
Proof.
  intros Hy HT [[H _]|(_ & j & Hj & Eq & Hm)] Hl E0 E1; [lia|].
  assert (forall i, 0 <= i -> v mod (y * 2 ^ i) = v mod y + y * ((v / y) mod 2 ^ i)) as E.
  { intros i Hi. assert (0 < 2 ^ i) by (apply Z.pow_pos_nonneg; lia). rewrite Z.rem_mul_r by lia. reflexivity. }
  assert (0 < 2 ^ j) as Pj by (apply Z.pow_pos_nonneg; lia).
  assert (0 < 2 ^ l) as Pl by (apply Z.pow_pos_nonneg; lia).
  rewrite !E in Hm by lia. rewrite <- Z.div_div in Eq by lia.
  pose proof (Z.div_mod (v / y) (2 ^ j) ltac:(lia)) as Q.
  split; intros K.
  - destruct (Z.le_gt_cases j l) as [G|G].
    + pose proof (pow2_mod_mono (v / y) (j + 1) (l + 1) ltac:(lia)). nia.
    + pose proof (pow2_mod_mono (v / y) (l + 1) j ltac:(lia)). nia.
  - destruct (Z.le_gt_cases j l) as [G|G].
    + pose proof (pow2_mod_mono (v / y) j l ltac:(lia)). pose proof (Z.mod_pos_bound (v / y) (2 ^ j) ltac:(lia)). lia.
    + pose proof (pow2_mod_mono (v / y) (l + 1) j ltac:(lia)). nia.
Qed.

Lemma stopped_bounds v y T q : 0 < y -> 0 <= v -> stopped v y T q -> q * y <= v < q * y + T /\ 0 <= q <= v / y.
Proof.
  intros Hy Hv H.
  assert (0 <= q /\ q * y <= v < q * y + T) as [P K]; [|split; [exact K|split; [exact P|apply Z.div_le_lower_bound; lia]]].
  destruct H as [[H ->]|(HT & j & Hj & -> & Hm)]; [lia|].
  assert (0 < 2 ^ j) as Pj by (apply Z.pow_pos_nonneg; lia).
  pose proof (Z.div_mod v (y * 2 ^ j) ltac:(nia)). pose proof (Z.mod_pos_bound v (y * 2 ^ j) ltac:(nia)).
  assert (0 <= v / (y * 2 ^ j)) by (apply Z.div_pos; nia). nia.
Qed.

(** ** A divisor of several zeros: the search never ends *)

Definition stuck {A} (m : M A) : Prop :=
  forall al n, match m al n with
               | NoFuel => True
               | Throw e n' => e = ExBadAlloc /\ refused al n n'
               | _ => False
               end.

Lemma stuck_bind {A C} (m : M A) (k : A -> M C) Q : yields m Q -> (forall a, Q a -> stuck (k a)) -> stuck (bind m k).
Proof.
  intros Hm Hk al n. unfold bind. specialize (Hm al n). destruct (m al n) as [a n'|e n'|v|]; try contradiction; auto.
  destruct Hm as [Qa Hn]. specialize (Hk a Qa al n'). destruct (k a al n') as [b n''|e n''|v|]; auto.
  destruct Hk as [-> (j & Hj & Hal)]. split; auto. exists j; split; auto; lia.
Qed.

Lemma stuck_bind_l {A C} (m : M A) (k : A -> M C) : stuck m -> stuck (bind m k).
Proof. intros Hm al n. unfold bind. specialize (Hm al n). destruct (m al n); try contradiction; auto. Qed.

Lemma zeros_ok m : digits_ok B (repeat 0 m).
Proof. apply Forall_forall. intros d Hd. apply repeat_spec in Hd. lia. Qed.

Lemma zeros_value m : value B (repeat 0 m) = 0.
Proof. induction m as [|m IH]; [reflexivity|]. cbn [repeat value]. lia. Qed.

Lemma value_zero_zeros v : digits_ok B v -> value B v = 0 -> v = repeat 0 (length v).
Proof.
  induction v as [|x v IH]; intros D V; [reflexivity|]. inversion_clear D as [|? ? Dx Dv].
  cbn [value length repeat] in *. pose proof (value_bounds B HBk v Dv) as K.
  assert (x = 0) as -> by nia. f_equal. apply IH; auto; nia.
Qed.

Lemma shift_left_1_zeros m : yields (shift_left_1 L (repeat 0 (S m))) (fun r => r = repeat 0 (S m)).
Proof.
  assert (shaped (S m) (repeat 0 (S m))) as S1.
  { split; [apply zeros_ok|left; apply repeat_length]. }
  eapply yields_mono; [apply (shift_left_1_shaped (S m) _ S1); discriminate|].
  intros r ([Dr Sr] & Nr & Vr). rewrite zeros_value, Z.mul_0_r in Vr.
  rewrite (value_zero_zeros r Dr Vr). f_equal. destruct Sr as [|[_ Cr]]; [assumption|].
  pose proof (value_canonical_lb B HBk r Dr Cr Nr) as K.
  assert (0 < B ^ (Z.of_nat (length r) - 1)); [|lia].
  apply Z.pow_pos_nonneg; [lia|]. destruct r; [congruence|cbn [length]; lia].
Qed.

Lemma ge_zeros dividend m : digits_ok B dividend -> (m <= length dividend)%nat ->
  yields (abs_val_is_ge dividend (repeat 0 m)) (fun c => c = true).
Proof.
  intros Dd Hm. eapply yields_pure; [apply (abs_val_is_ge_pure B HBk dividend _ Dd (zeros_ok m))|].
  unfold geb. rewrite repeat_length, zeros_value.
  destruct (Nat.ltb_spec m (length dividend)); [reflexivity|].
  rewrite (proj2 (Nat.ltb_ge _ _)) by lia. apply Z.leb_le. apply (value_bounds B HBk dividend Dd).
Qed.

Lemma div_inner_zeros dividend m : digits_ok B dividend -> (S m <= length dividend)%nat ->
  forall fuel b0 q, okc q -> stuck (div_inner L fuel dividend b0 (repeat 0 (S m)) q).
Proof.
  intros Dd Hm. induction fuel as [|f IH]; intros b0 q [Dq Cq]; [exact (fun _ _ => I)|].
  cbn [div_inner]. eapply stuck_bind; [apply ge_zeros; auto|]. intros ? ->.
  eapply stuck_bind with (Q := fun v => v = repeat 0 (S m)); [apply yields_vcopy; auto|]. intros ? ->.
  eapply stuck_bind; [apply shift_left_1_zeros|]. intros ? ->.
  eapply stuck_bind; [apply (shift_left_1_spec L HD q Dq Cq)|]. intros q' (Dq' & Cq' & _).
  apply IH. split; assumption.
Qed.

Lemma abs_val_div_zeros dividend m fuel : digits_ok B dividend -> (S m <= length dividend)%nat ->
  stuck (abs_val_div L false fuel dividend (repeat 0 (S m))).
Proof.
  intros Dd Hm. unfold abs_val_div.
  eapply stuck_bind with (Q := fun v => v = [0]); [apply yields_vcopy; auto|]. intros ? ->.
  generalize fuel at 1 as fi. intros fi. destruct fuel as [|f]; [exact (fun _ _ => I)|]. cbn [div_outer].
  eapply stuck_bind; [apply ge_zeros; auto|]. intros ? ->.
  eapply stuck_bind with (Q := fun v => v = repeat 0 (S m)); [apply yields_vcopy; auto|]. intros ? ->.
  eapply stuck_bind with (Q := fun v => v = repeat 0 (S m)); [apply yields_vcopy; auto|]. intros ? ->.
  rewrite (one_wrap L HLk).
  eapply stuck_bind with (Q := fun v => v = [1]); [apply yields_vcopy; auto|]. intros ? ->.
  eapply stuck_bind; [apply shift_left_1_zeros|]. intros ? ->.
  apply stuck_bind_l. apply div_inner_zeros; auto.
  split; [constructor; [fold B; lia|constructor]|unfold canonical; cbn; lia].
Qed.

Theorem div_assign_zeros x y m : good B x -> value B (data x) <> 0 -> data y = repeat 0 (S (S m)) ->
  (S (S m) <= length (data x))%nat ->
  never_completes (fun fuel => op_div_assign L false fuel x (Other y)) (infinity_for (desc y)).
Proof.
  intros (Fx & Dx & Cx) Nz Ey Hm fuel al n.
  assert (data x <> [] /\ data x <> [0]) as Nx by (split; intros E; apply Nz; rewrite E; cbn [value]; lia).
  pose proof (value_bounds B HBk _ Dx) as Bx.
  assert (canonical (data x)) as Cx' by (apply (weak_nonzero L); auto; fold B; lia).
  rewrite (div_assign_main L HLk false fuel x y) by (rewrite ?Ey; auto; split; discriminate).
  rewrite failed_infinity. unfold guarded. unfold bind at 1. rewrite abs_val_is_gt_pure.
  assert (gtb (data x) (data y) = true) as ->.
  { rewrite Ey. unfold gtb. rewrite repeat_length.
    destruct (Nat.ltb_spec (S (S m)) (length (data x))); [reflexivity|].
    rewrite (proj2 (Nat.ltb_ge _ _)) by lia. apply (some_gt_complete B HBk); auto; [apply zeros_ok|rewrite repeat_length; lia|].
    rewrite zeros_value. lia. }
  rewrite Ey. unfold bind. pose proof (abs_val_div_zeros (data x) (S m) fuel Dx Hm al n) as K.
  destruct (abs_val_div L false fuel (data x) (repeat 0 (S (S m))) al n) as [v n5|e n5|w|]; try contradiction; auto.
  destruct K as [-> K]. auto.
Qed.

(** a shorter dividend: the result is 0, not infinity *)
Theorem div_assign_zeros_short fuel x y m : good B x -> finite y -> data y = repeat 0 (S (S m)) ->
  (length (data x) < S (S m))%nat ->
  assigns (op_div_assign L false fuel x (Other y))
    (fun z => good B z /\ desc z = (if desc_eqb (desc x) (desc y) then BN_POS else BN_NEG) /\ value B (data z) = 0)
    (infinity_for (desc y)).
Proof.
  intros (Fx & Dx & Cx) Fy Ey Hm.
  assert (product_desc (desc x) (desc y) = (if desc_eqb (desc x) (desc y) then BN_POS else BN_NEG)) as Es
    by (destruct Fx as [-> | ->], Fy as [-> | ->]; reflexivity).
  assert (data y <> [0] /\ data y <> [1]) as Ny by (rewrite Ey; split; discriminate).
  destruct (Z.eq_dec (value B (data x)) 0) as [Z0|Nz].
  { assert (data x = [] \/ data x = [0]) as Ex by (apply (weak_zero L HLk); auto).
    intros al n. rewrite (div_of_zero L HLk false fuel x y Fx (proj1 Ny) Ex). split; [|lia].
    split; [|split; [exact Es|exact Z0]]. apply good_intro; auto. apply product_finite; auto. }
  assert (data x <> [] /\ data x <> [0]) as Nx by (split; intros E; apply Nz; rewrite E; cbn [value]; lia).
  rewrite (div_assign_main L HLk false fuel x y) by auto. rewrite failed_infinity. apply guarded_yields.
  eapply yields_bind with (Q := fun c => c = false).
  { eapply yields_pure; [apply abs_val_is_gt_pure|]. unfold gtb. rewrite Ey, repeat_length.
    destruct (Nat.ltb_spec (S (S m)) (length (data x))); [lia|].
    rewrite (proj2 (Nat.ltb_lt _ _)) by lia. reflexivity. }
  intros ? ->. eapply yields_bind with (Q := fun v => v = [0]); [apply yields_vcopy; auto|]. intros ? ->.
  apply yields_ret. split; [|split; [exact Es|cbn [data value]; lia]].
  apply good_intro; auto; [apply product_finite; auto|constructor; [lia|constructor]|apply weak_canonical_0].
Qed.

End PadDivisor.
