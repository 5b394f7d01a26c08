(** * Division where both magnitudes have superfluous high-order zeros *)
From Verif Require Import Base Spec Limits Compare AddSub Division Fourier Multiplication Bignum Outcome.
From Verif Require Import Wp ValueProof CompareProof AddSubProof DivisionProof BignumProof OperatorProof DivOpProof PaddedProof PadDivisorProof.

Section BothPadded.
Context (L : limits) (HD : can_double L = true).
Let B := base L.
Let HLk : limits_ok L = true := DivisionProof.HL L HD.
Let HBk : 2 <= B := AddSubProof.HB L HLk.
Local Notation okc := (cok L).
Local Notation shaped := (shaped L).

(** the search, given what the comparison with the dividend amounts to *)
Lemma div_inner_bound m dividend (y V : Z) : digits_ok B dividend ->
  (forall b, shaped m b -> b <> [] -> geb B dividend b = (value B b <=? V)) -> 0 < y ->
  forall fuel b0 b1 q j, shaped m b0 -> shaped m b1 -> b1 <> [] -> okc q -> 0 <= j ->
  value B q = 2 ^ j -> value B b0 = y * 2 ^ j -> value B b1 = 2 * value B b0 -> value B b0 <= V ->
  (1 <= fuel)%nat -> V < value B b1 * 2 ^ (Z.of_nat fuel - 1) ->
  yields (div_inner L fuel dividend b0 b1 q)
    (fun r => shaped m (fst r) /\ okc (snd r) /\ exists k, 0 <= k /\ value B (snd r) = 2 ^ k /\
              value B (fst r) = y * 2 ^ k /\ y * 2 ^ k <= V < y * 2 ^ (k + 1)).
Proof.
  intros Dd Hge0 Hy. induction fuel as [|f IH]; intros b0 b1 q j S0 S1 N1 [Dq Cq] Hj Vq V0 V1 Hle Hf Hfuel; [lia|].
  cbn [div_inner].
  eapply yields_bind with (Q := fun c => c = (value B b1 <=? V)).
  { eapply yields_pure; [apply (abs_val_is_ge_pure B HBk dividend b1 Dd (proj1 S1))|]. apply Hge0; auto. }
  assert (2 ^ (j + 1) = 2 * 2 ^ j) as Ej by (rewrite Z.pow_add_r by lia; change (2 ^ 1) with 2; lia).
  intros c ->. destruct (Z.leb_spec (value B b1) V) as [Hge|Hlt].
  - eapply yields_bind with (Q := fun v => v = b1); [apply yields_vcopy; auto|]. intros ? ->.
    eapply yields_bind; [apply (shift_left_1_shaped L HD m b1 S1 N1)|]. intros b1' (S1' & N1' & V1'). fold B in V1'.
    eapply yields_bind; [apply (shift_left_1_spec L HD q Dq Cq)|]. intros q' (Dq' & Cq' & Vq'). fold B in Vq'.
    destruct f as [|f'].
    { exfalso. change (Z.of_nat 1 - 1) with 0 in Hfuel. rewrite Z.pow_0_r in Hfuel. lia. }
    apply (IH b1 b1' q' (j + 1)); auto; try lia; try (split; assumption).
    replace (Z.of_nat (S (S f')) - 1) with (Z.of_nat (S f')) in Hfuel by lia. rewrite (pow2_S L) in Hfuel.
    replace (Z.of_nat (S f') - 1) with (Z.of_nat f') by lia. nia.
  - apply yields_ret. cbn [fst snd]. split; [exact S0|]. split; [split; assumption|]. exists j. repeat split; auto; lia.
Qed.

Lemma snoc_ok u : digits_ok B u -> digits_ok B (u ++ [0]).
Proof. intros Du. apply digits_ok_app; auto. split; auto. constructor; [lia|constructor]. Qed.

Lemma snoc_value u : value B (u ++ [0]) = value B u.
Proof. rewrite value_snoc. lia. Qed.

(** more digits than the divisor: the comparison only looks at the number of digits *)
Lemma geb_longer (u w b : list Z) : digits_ok B w -> (length u < length w)%nat -> shaped (S (length u)) b ->
  geb B (w ++ [0]) b = (value B b <=? B ^ Z.of_nat (length w) - 1).
Proof.
  intros Dw Hl [Db Hs]. fold B in Db. unfold geb. rewrite app_length. cbn [length].
  pose proof (value_bounds B HBk b Db) as Vb. pose proof (value_bounds B HBk w Dw) as Vw.
  destruct (Nat.ltb_spec (length b) (length w + 1)) as [H|H].
  - symmetry; apply Z.leb_le. assert (B ^ Z.of_nat (length b) <= B ^ Z.of_nat (length w)); [|lia].
    apply Z.pow_le_mono_r; lia.
  - destruct Hs as [Hs|[Hs Cb]]; [lia|].
    assert (b <> []) as Nb by (intros ->; cbn [length] in Hs; lia).
    pose proof (value_canonical_lb B HBk b Db Cb Nb) as Lb.
    assert (B ^ Z.of_nat (length w) <= B ^ (Z.of_nat (length b) - 1)) by (apply Z.pow_le_mono_r; lia).
    replace (value B b <=? B ^ Z.of_nat (length w) - 1) with false by (symmetry; apply Z.leb_gt; lia).
    destruct (Nat.ltb_spec (length w + 1) (length b)); [reflexivity|].
    apply Z.leb_gt. rewrite value_snoc. lia.
Qed.

(** as many digits as the divisor: it is right *)
Lemma geb_level (w b : list Z) : digits_ok B w -> shaped (S (length w)) b ->
  geb B (w ++ [0]) b = (value B b <=? value B w).
Proof.
  intros Dw [Db Hs]. fold B in Db. unfold geb. rewrite app_length. cbn [length].
  pose proof (value_bounds B HBk b Db) as Vb. pose proof (value_bounds B HBk w Dw) as Vw.
  destruct (Nat.ltb_spec (length b) (length w + 1)) as [H|H]; [lia|].
  destruct (Nat.ltb_spec (length w + 1) (length b)) as [H'|H'].
  - destruct Hs as [Hs|[Hs Cb]]; [lia|].
    assert (b <> []) as Nb by (intros ->; cbn [length] in Hs; lia).
    pose proof (value_canonical_lb B HBk b Db Cb Nb) as Lb.
    assert (B ^ Z.of_nat (length w) <= B ^ (Z.of_nat (length b) - 1)) by (apply Z.pow_le_mono_r; lia).
    symmetry; apply Z.leb_gt; lia.
  - rewrite snoc_value. reflexivity.
Qed.

(** ** One round of the outer loop, for any dividend for which the comparison amounts to one with [V] *)
Definition wrapped (v s : Z) (n : nat) : Z := if v <? s then v - s + B ^ Z.of_nat (S n) else v - s.

Lemma div_round u w V fi fuel (Q : list Z -> Prop) : digits_ok B u -> 0 < value B u -> digits_ok B w ->
  (length u <= length w)%nat ->
  (forall b, shaped (S (length u)) b -> b <> [] -> geb B (w ++ [0]) b = (value B b <=? V)) -> 
  value B w <= V < B ^ Z.of_nat (length w) -> value B u <= V ->
  (2 <= fi)%nat -> V < value B u * 2 ^ Z.of_nat fi ->
  (forall d' r k, okc d' -> digits_ok B r -> weak_canonical r -> value B r = 2 ^ k -> 0 <= k ->
     value B u * 2 ^ k <= V < value B u * 2 ^ (k + 1) ->
     value B d' = wrapped (value B w) (value B u * 2 ^ k) (length w) ->
     yields (div_outer L false fi fuel d' (u ++ [0]) r) Q) ->
  yields (div_outer L false fi (S fuel) (w ++ [0]) (u ++ [0]) [0]) Q.
Proof.
  intros Du Hpos Dw Hlen Hge HV HuV Hfi Hfuel Hnext.
  pose proof (value_bounds B HBk u Du) as Bu. pose proof (value_bounds B HBk w Dw) as Bw.
  set (divisor := u ++ [0]).
  assert (value B divisor = value B u) as Ed by apply snoc_value.
  assert (length divisor = S (length u)) as Ld by (unfold divisor; rewrite app_length; cbn [length]; lia).
  assert (shaped (S (length u)) divisor) as Sd by (split; [apply snoc_ok; auto|left; exact Ld]).
  assert (divisor <> []) as Nd by (unfold divisor; destruct u; discriminate).
  cbn [div_outer].
  eapply yields_bind with (Q := fun c => c = true).
  { eapply yields_pure; [apply (abs_val_is_ge_pure B HBk _ _ (snoc_ok w Dw) (proj1 Sd))|].
    rewrite (Hge _ Sd Nd), Ed. apply Z.leb_le; lia. }
  intros ? ->.
  eapply yields_bind with (Q := fun v => v = divisor); [apply yields_vcopy; auto|]. intros ? ->.
  eapply yields_bind with (Q := fun v => v = divisor); [apply yields_vcopy; auto|]. intros ? ->.
  rewrite (one_wrap L HLk).
  eapply yields_bind with (Q := fun v => v = [1]); [apply yields_vcopy; auto|]. intros ? ->.
  eapply yields_bind; [apply (shift_left_1_shaped L HD _ divisor Sd Nd)|]. intros b1 (S1 & N1 & V1). fold B in V1.
  assert (okc [1]) as H1ok.
  { split; [constructor; [fold B; lia|constructor]|unfold canonical; cbn; lia]. }
  eapply yields_bind.
  { apply (div_inner_bound (S (length u)) (w ++ [0]) (value B u) V (snoc_ok w Dw) Hge Hpos fi divisor b1 [1] 0);
      auto; try lia.
    - cbn [value]; lia.
    - destruct fi as [|fi']; [lia|]. rewrite (pow2_S L) in Hfuel.
      replace (Z.of_nat (S fi') - 1) with (Z.of_nat fi') by lia. nia. }
  intros [b0 q]. cbn [fst snd]. intros (S0 & [Dq Cq] & k & Hk & Vq & V0 & Hle). fold B in Dq.
  assert (length b0 <= length (w ++ [0%Z]))%nat as Hlen0.
  { rewrite app_length; cbn [length]. destruct S0 as [D0 [S0|[S0 C0]]]; [lia|].
    destruct (Nat.le_gt_cases (length b0) (length w + 1)) as [|Hgt]; auto.
    assert (b0 <> []) as Nb by (intros ->; cbn [length] in S0; lia).
    pose proof (value_canonical_lb B HBk b0 D0 C0 Nb) as Lb.
    assert (B ^ Z.of_nat (length w) <= B ^ (Z.of_nat (length b0) - 1)) by (apply Z.pow_le_mono_r; lia). lia. }
  destruct (abs_val_sub_other L HLk (w ++ [0]) b0 ltac:(destruct w; discriminate) Hlen0) as (d' & Hp & Cd' & _ & Hd').
  destruct (Hd' (snoc_ok w Dw) (proj1 S0)) as [Dd' Vd']. fold B in Dd', Vd'.
  rewrite snoc_value, app_length, V0 in Vd'. cbn [length] in Vd'.
  replace (length w + 1)%nat with (S (length w)) in Vd' by lia.
  eapply yields_bind with (Q := fun v => v = d'); [eapply yields_pure; [exact Hp|reflexivity]|]. intros ? ->.
  eapply yields_bind with (Q := fun r' => digits_ok B r' /\ weak_canonical r' /\ value B r' = 2 ^ k).
  { assert (digits_ok B [0]) as D00 by (constructor; [lia|constructor]).
    destruct (length q <=? length [0%Z])%nat.
    - eapply yields_mono; [apply (abs_val_add_other L HLk [0] q D00 Dq)|].
      intros r' (Dr' & Vr' & Gr'). fold B in Dr', Vr'. repeat split; auto; [|cbn [value] in Vr'; lia].
      eapply (grown_canonical L HLk [0] q); eauto; [apply weak_canonical_0|left; auto].
    - eapply yields_mono; [apply (abs_val_add_other L HLk q [0] Dq D00)|].
      intros r' (Dr' & Vr' & Gr'). fold B in Dr', Vr'. repeat split; auto; [|cbn [value] in Vr'; lia].
      eapply (grown_canonical L HLk q [0]); eauto; [left; auto|apply weak_canonical_0]. }
  intros r' (Dr' & Cr' & Vr').
  apply (Hnext d' r' k); auto; [split; auto|].
  unfold wrapped. rewrite Vd'.
  destruct (Z.leb_spec (value B u * 2 ^ k) (value B w)); destruct (Z.ltb_spec (value B w) (value B u * 2 ^ k)); lia.
Qed.

(** what the division does *)
Definition both_padded (u w : list Z) (z : Z) : Prop :=
  let v := value B w in let d := value B u in
  let n := Z.of_nat (length w) in let m := Z.of_nat (length u) in
  (n < m /\ z = 0) \/
  (n = m /\ v <= d /\ z = 0) \/
  (n = m /\ d < v /\ exists k, 0 <= k /\ z = 2 ^ k /\ d * 2 ^ k <= v < d * 2 ^ (k + 1)) \/
  (m < n /\ exists k, 0 <= k /\ d * 2 ^ k < B ^ n <= d * 2 ^ (k + 1) /\
            stopped (wrapped v (d * 2 ^ k) (length w)) d (B ^ m) (z - 2 ^ k)).

Lemma log2_fuel V fuel : 0 < V -> Z.log2 V + 3 <= Z.of_nat fuel -> 2 * V < 2 ^ (Z.of_nat fuel - 1).
Proof.
  intros HV Hf. destruct (Z.log2_spec V HV) as [_ Hu]. replace (Z.succ (Z.log2 V)) with (Z.log2 V + 1) in Hu by lia.
  assert (2 ^ (Z.log2 V + 1) * 2 <= 2 ^ (Z.of_nat fuel - 1)); [|lia].
  rewrite <- (Z.pow_add_r 2 _ 1) by (pose proof (Z.log2_nonneg V); lia). apply Z.pow_le_mono_r; lia.
Qed.

Theorem div_assign_both_padded fuel x y u w : finite x -> finite y -> data x = w ++ [0] -> data y = u ++ [0] ->
  digits_ok B w -> digits_ok B u -> w <> [] -> 0 < value B u ->
  Z.log2 (B ^ Z.of_nat (S (length w))) + 3 <= Z.of_nat fuel ->
  assigns (op_div_assign L false fuel x (Other y))
    (fun z => good B z /\ desc z = (if desc_eqb (desc x) (desc y) then BN_POS else BN_NEG) /\
              both_padded u w (value B (data z)))
    (infinity_for (desc y)).
Proof.
  intros Fx Fy Ex Ey Dw Du Nw Hu Hf.
  assert (u <> []) as Nu by (intros ->; cbn in Hu; lia).
  assert (product_desc (desc x) (desc y) = (if desc_eqb (desc x) (desc y) then BN_POS else BN_NEG)) as Es
    by (destruct Fx as [-> | ->], Fy as [-> | ->]; reflexivity).
  assert (data y <> [0] /\ data y <> [1]) as Ny.
  { rewrite Ey. destruct u as [|a [|b u']]; [congruence| |]; split; discriminate. }
  assert (data x <> [] /\ data x <> [0]) as Nx.
  { rewrite Ex. destruct w as [|a [|b w']]; [congruence| |]; split; discriminate. }
  rewrite (div_assign_main L HLk false fuel x y) by auto. rewrite failed_infinity. apply guarded_yields.
  pose proof (value_bounds B HBk u Du) as Bu. pose proof (value_bounds B HBk w Dw) as Bw.
  assert (0 < B ^ Z.of_nat (length w)) as Pn by (apply pow_pos; lia).
  pose proof (pow_S B (length w)) as En.
  pose proof (log2_fuel (B ^ Z.of_nat (S (length w))) fuel ltac:(apply pow_pos; lia) Hf) as Hlog.
  assert (2 ^ (Z.of_nat fuel - 1) <= 2 ^ Z.of_nat fuel) as Hmono by (apply Z.pow_le_mono_r; lia).
  pose proof (Z.log2_nonneg (B ^ Z.of_nat (S (length w)))) as Hl0.
  eapply yields_bind with (Q := fun c => c = gtb (w ++ [0]) (u ++ [0])).
  { eapply yields_pure; [apply abs_val_is_gt_pure|]. rewrite Ex, Ey. reflexivity. }
  intros c ->.
  assert (forall z, digits_ok B z -> weak_canonical z -> both_padded u w (value B z) ->
          yields (ret (mkBN (product_desc (desc x) (desc y)) z))
            (fun z0 => good B z0 /\ desc z0 = (if desc_eqb (desc x) (desc y) then BN_POS else BN_NEG) /\
                       both_padded u w (value B (data z0)))) as Fin.
  { intros z Dz Cz Hz. apply yields_ret. split; [|split; [exact Es|exact Hz]].
    apply good_intro; auto. apply product_finite; auto. }
  assert (both_padded u w 0 -> yields (v <- vcopy [0];; ret (mkBN (product_desc (desc x) (desc y)) v))
            (fun z0 => good B z0 /\ desc z0 = (if desc_eqb (desc x) (desc y) then BN_POS else BN_NEG) /\
                       both_padded u w (value B (data z0)))) as Zero.
  { intros H. eapply yields_bind with (Q := fun v => v = [0]); [apply yields_vcopy; auto|]. intros ? ->.
    apply Fin; [constructor; [lia|constructor]|apply weak_canonical_0|].
    cbn [value]. replace (0 + B * 0) with 0 by lia. exact H. }
  unfold gtb. rewrite !app_length. cbn [length].
  destruct (Nat.ltb_spec (length u + 1) (length w + 1)) as [H|H].
  - (* more digits *)
    eapply yields_bind with (Q := fun z => digits_ok B z /\ weak_canonical z /\ both_padded u w (value B z));
      [|intros v (Dv & Cv & Sv); apply Fin; auto].
    rewrite Ex, Ey. unfold abs_val_div.
    eapply yields_bind with (Q := fun v => v = [0]); [apply yields_vcopy; auto|]. intros ? ->.
    destruct fuel as [|f]; [lia|]. set (fi := S f) at 1.
    assert (value B u < B ^ Z.of_nat (length w)) as HuB.
    { assert (B ^ Z.of_nat (length u) <= B ^ Z.of_nat (length w)) by (apply Z.pow_le_mono_r; lia). lia. }
    apply (div_round u w (B ^ Z.of_nat (length w) - 1)); auto; try lia.
    + intros b Hb Nb. apply (geb_longer u); auto; lia.
    + unfold fi. nia.
    + intros d' r k Hd' Dr Cr Vr Hk Hle Vd'.
      assert (0 <= value B d' < B ^ Z.of_nat (S (length w))) as Bd'.
      { assert (0 < 2 ^ k) by (apply Z.pow_pos_nonneg; lia).
        rewrite Vd'. unfold wrapped. destruct (Z.ltb_spec (value B w) (value B u * 2 ^ k)); nia. }
      replace (Z.of_nat (S f) - 1) with (Z.of_nat f) in Hlog, Hmono by lia.
      eapply yields_mono.
      { apply (div_outer_shaped L HD u fi Du Hu f d' r); auto; fold B; try (unfold fi; lia).
        - destruct f as [|f']; [change (2 ^ Z.of_nat 0) with 1 in Hlog; nia|].
          rewrite (pow2_S L) in Hlog. replace (Z.of_nat (S f') - 1) with (Z.of_nat f') by lia. nia.
        - unfold fi. nia. }
      fold B. intros z (Dz & Cz & Sz). split; [exact Dz|]. split; [exact Cz|].
      right; right; right. split; [lia|]. exists k. split; [exact Hk|]. split; [lia|].
      rewrite <- Vd', <- Vr. exact Sz.
  - destruct (Nat.ltb_spec (length w + 1) (length u + 1)) as [H'|H'].
    + (* fewer digits *) apply Zero. left. lia.
    + assert (length w = length u) as El by lia.
      destruct (some_gt (w ++ [0]) (u ++ [0])) eqn:Eg.
      * eapply yields_bind with (Q := fun z => digits_ok B z /\ weak_canonical z /\ both_padded u w (value B z));
          [|intros v (Dv & Cv & Sv); apply Fin; auto].
        rewrite Ex, Ey. unfold abs_val_div.
        eapply yields_bind with (Q := fun v => v = [0]); [apply yields_vcopy; auto|]. intros ? ->.
        destruct fuel as [|f]; [lia|]. set (fi := S f) at 1.
        destruct (Z.lt_ge_cases (value B w) (value B u)) as [G|G].
        { cbn [div_outer]. eapply yields_bind with (Q := fun c => c = false).
          - eapply yields_pure; [apply (abs_val_is_ge_pure B HBk _ _ (snoc_ok w Dw) (snoc_ok u Du))|].
            rewrite geb_level, snoc_value; auto; [apply Z.leb_gt; lia|].
            split; [apply snoc_ok; auto|]. left. rewrite app_length. cbn [length]. lia.
          - intros ? ->. apply yields_ret. split; [constructor; [lia|constructor]|]. split; [apply weak_canonical_0|].
            cbn [value]. right; left. lia. }
        assert (value B u < value B w) as G'.
        { assert (value B u <> value B w) as Nuw; [|lia]. intros E.
          assert (w = u) as ->.
          { apply (value_inj_len B HBk); auto. }
          clear -Eg. induction (u ++ [0]) as [|a l IH]; [discriminate|]. cbn in Eg.
          destruct (Z.ltb_spec a a); [lia|]. auto. }
        apply (div_round u w (value B w)); auto; try lia.
        -- intros b Hb Nb. apply geb_level; auto. rewrite El. exact Hb.
        -- unfold fi. nia.
        -- intros d' r k Hd' Dr Cr Vr Hk Hle Vd'.
           unfold wrapped in Vd'. rewrite (proj2 (Z.ltb_ge _ _)) in Vd' by lia.
           replace (Z.of_nat (S f) - 1) with (Z.of_nat f) in Hlog, Hmono by lia.
           assert (0 < 2 ^ k) as Pk by (apply Z.pow_pos_nonneg; lia).
           eapply yields_mono.
           { apply (div_outer_shaped L HD u fi Du Hu f d' r); auto; fold B; try (unfold fi; lia).
             - destruct f as [|f']; [change (2 ^ Z.of_nat 0) with 1 in Hlog; nia|].
               rewrite (pow2_S L) in Hlog. replace (Z.of_nat (S f') - 1) with (Z.of_nat f') by lia. nia.
             - unfold fi. nia. }
           fold B. intros z (Dz & Cz & Sz). split; [exact Dz|]. split; [exact Cz|].
           right; right; left. split; [lia|]. split; [lia|]. exists k. split; [exact Hk|]. split; [|exact Hle].
           destruct Sz as [[_ Sz]|[Sz _]]; [lia|]. rewrite <- El in Sz. nia.
      * (* no digit is larger *)
        apply Zero. right; left. split; [lia|]. split; [|reflexivity].
        destruct (Z.le_gt_cases (value B w) (value B u)) as [|G]; auto. exfalso.
        rewrite (some_gt_complete B HBk (w ++ [0]) (u ++ [0])) in Eg; [discriminate| | | |].
        -- apply snoc_ok; auto.
        -- apply snoc_ok; auto.
        -- rewrite !app_length. cbn [length]. lia.
        -- rewrite !snoc_value. lia.
Qed.

(** with two or more superfluous zeros in the dividend the first round always underflows *)
Lemma wrapped_two (d : Z) (w : list Z) k : digits_ok B w -> 0 < d -> 0 <= k ->
  B ^ Z.of_nat (S (length w)) <= d * 2 ^ (k + 1) -> value B w < d * 2 ^ k.
Proof.
  intros Dw Hd Hk H. pose proof (value_bounds B HBk w Dw). rewrite pow_S, Z.pow_add_r in H by lia.
  change (2 ^ 1) with 2 in H. assert (0 < B ^ Z.of_nat (length w)) by (apply pow_pos; lia). nia.
Qed.

(** ** Zero written with two or more digits, any dividend *)
Theorem div_assign_zeros_any x y m : finite x -> digits_ok B (data x) -> data y = repeat 0 (S (S m)) ->
  (S (S m) < length (data x))%nat \/ length (data x) = S (S m) /\ value B (data x) <> 0 ->
  never_completes (fun fuel => op_div_assign L false fuel x (Other y)) (infinity_for (desc y)).
Proof.
  intros Fx Dx Ey Hm fuel al n.
  assert (data x <> [] /\ data x <> [0]) as Nx by (split; intros E; rewrite E in Hm; cbn [length] in Hm; lia).
  rewrite (div_assign_main L HLk false fuel x y) by (rewrite ?Ey; auto; split; discriminate).
  rewrite failed_infinity. unfold guarded. unfold bind at 1. rewrite abs_val_is_gt_pure.
  assert (gtb (data x) (data y) = true) as ->.
  { rewrite Ey. unfold gtb. rewrite repeat_length.
    destruct (Nat.ltb_spec (S (S m)) (length (data x))); [reflexivity|].
    rewrite (proj2 (Nat.ltb_ge _ _)) by lia.
    apply (some_gt_complete B HBk); auto; [apply (zeros_ok L HD)|rewrite repeat_length; lia|].
    rewrite (zeros_value L). pose proof (value_bounds B HBk _ Dx). lia. }
  rewrite Ey. unfold bind. pose proof (abs_val_div_zeros L HD (data x) (S m) fuel Dx ltac:(lia) al n) as K.
  destruct (abs_val_div L false fuel (data x) (repeat 0 (S (S m))) al n) as [v n5|e n5|w|]; try contradiction; auto.
  destruct K as [-> K]. auto.
Qed.

Theorem div_assign_zeros_zero fuel x y m : finite x -> finite y -> digits_ok B (data x) -> data y = repeat 0 (S (S m)) ->
  (length (data x) < S (S m))%nat \/ length (data x) = S (S m) /\ value B (data x) = 0 ->
  assigns (op_div_assign L false fuel x (Other y))
    (fun z => digits_ok B (data z) /\ desc z = (if desc_eqb (desc x) (desc y) then BN_POS else BN_NEG) /\
              value B (data z) = 0)
    (infinity_for (desc y)).
Proof.
  intros Fx Fy Dx Ey Hm.
  assert (product_desc (desc x) (desc y) = (if desc_eqb (desc x) (desc y) then BN_POS else BN_NEG)) as Es
    by (destruct Fx as [-> | ->], Fy as [-> | ->]; reflexivity).
  assert (data y <> [0] /\ data y <> [1]) as Ny by (rewrite Ey; split; discriminate).
  assert ((data x = [] \/ data x = [0]) \/ data x <> [] /\ data x <> [0]) as [Ex|Nx].
  { destruct (data x) as [|a [|b l]]; [auto| |right; split; discriminate].
    destruct (Z.eq_dec a 0) as [->|]; [auto|right; split; congruence]. }
  { intros al n. rewrite (div_of_zero L HLk false fuel x y Fx (proj1 Ny) Ex). split; [|lia].
    split; [exact Dx|]. split; [exact Es|]. cbn [fst data]. destruct Ex as [-> | ->]; cbn [value]; lia. }
  rewrite (div_assign_main L HLk false fuel x y) by auto. rewrite failed_infinity. apply guarded_yields.
  eapply yields_bind with (Q := fun c => c = false).
  { eapply yields_pure; [apply abs_val_is_gt_pure|]. unfold gtb. rewrite Ey, repeat_length.
    destruct (Nat.ltb_spec (S (S m)) (length (data x))); [lia|].
    destruct (Nat.ltb_spec (length (data x)) (S (S m))); [reflexivity|].
    destruct Hm as [Hm|[Hm Hz]]; [lia|]. rewrite (value_zero_zeros L HD (data x) Dx Hz), Hm.
    generalize (S (S m)). intros i. induction i as [|i IH]; [reflexivity|exact IH]. }
  intros ? ->. eapply yields_bind with (Q := fun v => v = [0]); [apply yields_vcopy; auto|]. intros ? ->.
  apply yields_ret. split; [constructor; [lia|constructor]|]. split; [exact Es|cbn [data value]; lia].
Qed.

End BothPadded.
