(** * Division of a magnitude with superfluous high-order zeros *)
From Verif Require Import Base Spec Limits Compare AddSub Division Fourier Multiplication Bignum Outcome.
From Verif Require Import Wp ValueProof CompareProof AddSubProof DivisionProof BignumProof OperatorProof DivOpProof.

Lemma yields_may_and {A} (m : M A) Q R : yields m Q -> may m R -> yields m (fun a => Q a /\ R a).
Proof.
  intros H K al n. specialize (H al n). specialize (K al n). destruct (m al n); tauto.
Qed.

Section Padded.
Context (L : limits) (HD : can_double L = true).
Let B := base L.
Let HLk : limits_ok L = true := DivisionProof.HL L HD.
Let HBk : 2 <= B := AddSubProof.HB L HLk.
Local Notation okc := (cok L).

(** the largest number of [n] digits *)
Definition nines (n : nat) : list Z := repeat (B - 1) n.

Lemma nines_ok n : digits_ok B (nines n).
Proof. apply Forall_forall. intros d Hd. apply repeat_spec in Hd. lia. Qed.

Lemma nines_value n : value B (nines n) = B ^ Z.of_nat n - 1.
Proof.
  induction n as [|n IH]; [reflexivity|]. unfold nines in *. cbn [repeat value]. rewrite IH, pow_S by lia. lia.
Qed.

Lemma nines_snoc n : nines (S n) = nines n ++ [B - 1].
Proof. unfold nines. induction n as [|n IH]; [reflexivity|]. cbn [repeat app] in *. rewrite <- IH. reflexivity. Qed.

Lemma nines_canonical n : canonical (nines n).
Proof. destruct n; [apply canonical_nil|]. rewrite nines_snoc. apply canonical_snoc. lia. Qed.

Lemma nines_okc n : okc (nines n).
Proof. split; [apply nines_ok|apply nines_canonical]. Qed.

(** the comparison used by the search loops cannot tell a padded number from nines *)
Lemma ge_padded u b : digits_ok B u -> okc b -> b <> [] ->
  geb B (u ++ [0]) b = geb B (nines (length u)) b.
Proof.
  intros Du [Db Cb] Nb.
  rewrite (geb_canonical B HBk (nines (length u)) b (nines_ok _) Db (nines_canonical _) Cb), nines_value.
  unfold geb. rewrite app_length. cbn [length]. pose proof (value_bounds B HBk b Db) as Vb.
  pose proof (value_canonical_lb B HBk b Db Cb Nb) as Lb.
  destruct (Nat.ltb_spec (length b) (length u + 1)) as [H|H].
  - symmetry; apply Z.leb_le. assert (B ^ Z.of_nat (length b) <= B ^ Z.of_nat (length u)); [|lia].
    apply Z.pow_le_mono_r; lia.
  - assert (B ^ Z.of_nat (length u) <= B ^ (Z.of_nat (length b) - 1)) by (apply Z.pow_le_mono_r; lia).
    replace (value B b <=? B ^ Z.of_nat (length u) - 1) with false by (symmetry; apply Z.leb_gt; lia).
    destruct (Nat.ltb_spec (length u + 1) (length b)); [reflexivity|].
    apply Z.leb_gt. rewrite value_snoc. pose proof (value_bounds B HBk u Du). lia.
Qed.

Lemma shift_may b : okc b -> b <> [] -> may (shift_left_1 L b) (fun r => okc r /\ r <> []).
Proof.
  intros [Db Cb] Nb. eapply may_mono; [apply yields_may, (shift_left_1_spec L HD b Db Cb)|].
  intros r (Dr & Cr & Vr). split; [split; auto|]. intros ->.
  pose proof (value_canonical_pos B HBk b Db Cb Nb). fold B in Vr. cbn [value] in Vr. lia.
Qed.

Lemma div_inner_padded u : digits_ok B u -> forall fuel b0 b1 q al n, okc b1 -> b1 <> [] ->
  div_inner L fuel (u ++ [0]) b0 b1 q al n = div_inner L fuel (nines (length u)) b0 b1 q al n.
Proof.
  intros Du. induction fuel as [|f IH]; intros b0 b1 q al n Hb Nb; [reflexivity|]. cbn [div_inner].
  assert (digits_ok B (u ++ [0])) as Du0.
  { apply digits_ok_app; auto. split; auto. constructor; [lia|constructor]. }
  unfold bind.
  rewrite (abs_val_is_ge_pure B HBk _ _ Du0 (proj1 Hb)), (abs_val_is_ge_pure B HBk _ _ (nines_ok _) (proj1 Hb)).
  rewrite ge_padded by auto. destruct (geb B (nines (length u)) b1); [|reflexivity].
  destruct (vcopy b1 al n) as [b0' n1|e n1|e|]; try reflexivity.
  pose proof (shift_may b1 Hb Nb al n1) as K.
  destruct (shift_left_1 L b1 al n1) as [b1' n2|e n2|e|]; try reflexivity.
  destruct (shift_left_1 L q al n2) as [q' n3|e n3|e|]; try reflexivity.
  apply IH; tauto.
Qed.

(** the multipliers tried are powers of two *)
Lemma div_inner_pow2 dividend : forall fuel b0 b1 q, okc q -> (exists j, 0 <= j /\ value B q = 2 ^ j) ->
  may (div_inner L fuel dividend b0 b1 q) (fun r => exists j, 0 <= j /\ value B (snd r) = 2 ^ j).
Proof.
  induction fuel as [|f IH]; intros b0 b1 q Hq Hj; [apply may_nofuel|]. cbn [div_inner].
  eapply may_bind; [apply may_any|]. intros c _. destruct c; [|apply may_ret; exact Hj].
  eapply may_bind; [apply may_any|]. intros b0' _. eapply may_bind; [apply may_any|]. intros b1' _.
  eapply may_bind; [apply yields_may, (shift_left_1_spec L HD q (proj1 Hq) (proj2 Hq))|].
  intros q' (Dq & Cq & Vq). apply IH; [split; auto|]. fold B in Vq. destruct Hj as (j & Hj & Ej). exists (j + 1).
  split; [lia|]. rewrite Vq, Ej, Z.pow_add_r by lia. change (2 ^ 1) with 2. lia.
Qed.

(** which multiple of the divisor the first round subtracts *)
Lemma pow2_bracket y N k j : 0 < y -> 0 <= k -> 0 <= j -> y * 2 ^ k < N <= y * 2 ^ (k + 1) ->
  y * 2 ^ j <= N - 1 < 2 * (y * 2 ^ j) -> j = k.
Proof.
  intros Hy Hk Hj H1 H2.
  assert (2 ^ j < 2 ^ (k + 1)) as A by nia. assert (2 ^ k < 2 ^ (j + 1)) as C.
  { rewrite (Z.pow_add_r 2 j 1) by lia. change (2 ^ 1) with 2. nia. }
  apply Z.pow_lt_mono_r_iff in A; try lia. apply Z.pow_lt_mono_r_iff in C; lia.
Qed.

Definition padded_quotient (v y : Z) (n : nat) (k : Z) : Z :=
  (if v <? y * 2 ^ k then v + B ^ Z.of_nat (S n) else v) / y.

Theorem abs_val_div_padded u divisor fuel k : digits_ok B u -> okc divisor -> divisor <> [] ->
  (length divisor <= length u)%nat -> 0 <= k ->
  value B divisor * 2 ^ k < B ^ Z.of_nat (length u) <= value B divisor * 2 ^ (k + 1) ->
  Z.log2 (B ^ Z.of_nat (S (length u))) + 3 <= Z.of_nat fuel ->
  yields (abs_val_div L false fuel (u ++ [0]) divisor)
    (fun r => digits_ok B r /\ weak_canonical r /\
              value B r = padded_quotient (value B u) (value B divisor) (length u) k).
Proof.
  intros Du [Ds Cs] Ns Hlen Hk Hbr Hf.
  pose proof (value_canonical_pos B HBk _ Ds Cs Ns) as Hpos. pose proof (value_bounds B HBk u Du) as Vu.
  assert (digits_ok B (u ++ [0])) as Du0.
  { apply digits_ok_app; auto. split; auto. constructor; [lia|constructor]. }
  set (N := B ^ Z.of_nat (length u)) in *. set (N1 := B ^ Z.of_nat (S (length u))) in *.
  assert (HN1 : N1 = B * N) by (unfold N1, N; apply pow_S; lia).
  assert (0 < N) as HN by (unfold N; apply pow_pos; lia).
  assert (N1 * 2 < 2 ^ (Z.of_nat fuel - 1)) as Hlog.
  { destruct (Z.log2_spec N1) as [_ Hu]; [nia|]. replace (Z.succ (Z.log2 N1)) with (Z.log2 N1 + 1) in Hu by lia.
    assert (2 ^ (Z.log2 N1 + 1) * 2 <= 2 ^ (Z.of_nat fuel - 1)); [|lia].
    rewrite <- (Z.pow_add_r 2 _ 1) by (pose proof (Z.log2_nonneg N1); lia).
    apply Z.pow_le_mono_r; lia. }
  assert (0 <= Z.log2 N1) as Hlog0 by apply Z.log2_nonneg.
  unfold abs_val_div. eapply yields_bind with (Q := fun v => v = [0]); [apply yields_vcopy; auto|]. intros ? ->.
  destruct fuel as [|f]; [lia|]. set (fi := S f) at 1. cbn [div_outer].
  eapply yields_bind with (Q := fun c => c = true).
  { eapply yields_pure; [apply (abs_val_is_ge_pure B HBk _ _ Du0 Ds)|].
    unfold geb. rewrite app_length. cbn [length].
    destruct (Nat.ltb_spec (length divisor) (length u + 1)); [reflexivity|lia]. }
  intros ? ->.
  eapply yields_bind with (Q := fun v => v = divisor); [apply yields_vcopy; auto|]. intros ? ->.
  eapply yields_bind with (Q := fun v => v = divisor); [apply yields_vcopy; auto|]. intros ? ->.
  rewrite (one_wrap L HLk).
  eapply yields_bind with (Q := fun v => v = [1]); [apply yields_vcopy; auto|]. intros ? ->.
  eapply yields_bind; [apply (shift_left_1_spec L HD divisor Ds Cs)|]. fold B. intros b1 (D1 & C1 & V1).
  assert (okc [1]) as H1ok.
  { split; [constructor; [fold B; lia|constructor]|unfold canonical; cbn; lia]. }
  assert (b1 <> []) as N1' by (intros ->; cbn [value] in V1; lia).
  assert (2 ^ (Z.of_nat (S f) - 1) = 2 ^ Z.of_nat f) as Ef by (f_equal; lia). rewrite Ef in Hlog.
  eapply yields_bind.
  { eapply (yields_may_and (div_inner L fi (u ++ [0]) divisor b1 [1])).
    - intros al n. rewrite (div_inner_padded u Du) by (auto; split; auto).
      revert al n.
      apply (div_inner_spec L HD (nines (length u)) divisor (nines_okc _) (conj Ds Cs) Hpos); auto;
        fold B; rewrite ?nines_value; fold N; try (split; auto; fail).
      + cbn [value]; lia.
      + split; [lia|]. pose proof (Z.pow_pos_nonneg 2 k). nia.
      + unfold fi; lia.
      + unfold fi. rewrite Ef. nia.
    - apply div_inner_pow2; auto. exists 0. split; [lia|]. cbn [value]. change (2 ^ 0) with 1. lia. }
  fold B. rewrite nines_value. fold N.
  intros [b0 q]. cbn [fst snd]. intros (([D0 C0] & [Dq Cq] & Vq & Vle) & (j & Hj & Ej)). fold B in D0, Dq.
  rewrite Vq, Ej in Vle. pose proof (pow2_bracket _ _ _ _ Hpos Hk Hj Hbr Vle) as ->.
  assert (length b0 <= length (u ++ [0%Z]))%nat as Hlen0.
  { rewrite app_length; cbn [length]. destruct (Nat.le_gt_cases (length b0) (length u + 1)) as [|Hgt]; auto.
    pose proof (length_lt_value B HBk (nines (length u)) b0 (nines_ok _) D0 C0) as K.
    unfold nines in K at 1. rewrite repeat_length in K. specialize (K ltac:(lia)). rewrite nines_value in K. fold N in K. lia. }
  destruct (abs_val_sub_other L HLk (u ++ [0]) b0 ltac:(destruct u; discriminate) Hlen0) as (d' & Hp & Cd' & _ & Hd').
  destruct (Hd' Du0 D0) as [Dd' Vd']. fold B in Dd', Vd'.
  rewrite value_snoc, Z.mul_0_r, Z.add_0_r, app_length, Vq, Ej in Vd'. cbn [length] in Vd'.
  replace (length u + 1)%nat with (S (length u)) in Vd' by lia. fold N1 in Vd'.
  eapply yields_bind with (Q := fun v => v = d'); [eapply yields_pure; [exact Hp|reflexivity]|]. intros ? ->.
  eapply yields_bind with (Q := fun r' => digits_ok B r' /\ weak_canonical r' /\ value B r' = 2 ^ k).
  { assert (digits_ok B [0]) as D00 by (constructor; [lia|constructor]).
    destruct (length q <=? length [0%Z])%nat.
    - eapply yields_mono; [apply (abs_val_add_other L HLk [0] q D00 Dq)|].
      intros r' (Dr' & Vr' & Gr'). fold B in Dr', Vr'. repeat split; auto; [|cbn [value] in Vr'; lia].
      eapply (grown_canonical L HLk [0] q); eauto; [apply weak_canonical_0|left; auto].
    - eapply yields_mono; [apply (abs_val_add_other L HLk q [0] Dq D00)|].
      intros r' (Dr' & Vr' & Gr'). fold B in Dr', Vr'. repeat split; auto; [|cbn [value] in Vr'; lia].
      eapply (grown_canonical L HLk q [0]); eauto; [left; auto|apply weak_canonical_0]. }
  intros r' (Dr' & Cr' & Vr').
  assert (0 < 2 ^ k) as Hk2 by (apply Z.pow_pos_nonneg; lia).
  assert (value B d' < N1) as Hd1.
  { rewrite Vd'. destruct (Z.leb_spec (value B divisor * 2 ^ k) (value B u)); nia. }
  assert (2 ^ Z.of_nat f <= 2 ^ Z.of_nat fi) as Hfi by (unfold fi; apply Z.pow_le_mono_r; lia).
  eapply yields_mono.
  { apply (div_outer_spec L HD divisor fi (conj Ds Cs) Hpos) with (r := r'); try (split; assumption); try assumption;
      fold B; try (unfold fi; lia); [|nia].
    destruct f as [|f']; [cbn in Hf; lia|]. rewrite (pow2_S L) in Hlog.
    replace (Z.of_nat (S f') - 1) with (Z.of_nat f') by lia. nia. }
  fold B. intros r'' (Dr'' & Cr'' & Vr''). repeat split; auto. rewrite Vr'', Vr', Vd'. unfold padded_quotient. fold N1.
  destruct (Z.leb_spec (value B divisor * 2 ^ k) (value B u)) as [H|H].
  - rewrite (proj2 (Z.ltb_ge _ _)) by lia.
    replace (value B u - value B divisor * 2 ^ k) with (value B u + (- 2 ^ k) * value B divisor) by ring.
    rewrite Z.div_add by lia. lia.
  - rewrite (proj2 (Z.ltb_lt _ _)) by lia.
    replace (value B u - value B divisor * 2 ^ k + N1) with (value B u + N1 + (- 2 ^ k) * value B divisor) by ring.
    rewrite Z.div_add by lia. lia.
Qed.

(** operator /= *)
Theorem div_assign_padded fuel x y u k : finite x -> finite y -> data x = u ++ [0] -> digits_ok B u ->
  digits_ok B (data y) -> canonical (data y) -> data y <> [1] -> data y <> [] ->
  (length (data y) <= length u)%nat -> 0 <= k ->
  value B (data y) * 2 ^ k < B ^ Z.of_nat (length u) <= value B (data y) * 2 ^ (k + 1) ->
  Z.log2 (B ^ Z.of_nat (S (length u))) + 3 <= Z.of_nat fuel ->
  assigns (op_div_assign L false fuel x (Other y))
    (fun z => good B z /\ desc z = (if desc_eqb (desc x) (desc y) then BN_POS else BN_NEG) /\
              value B (data z) = padded_quotient (value B u) (value B (data y)) (length u) k)
    (infinity_for (desc y)).
Proof.
  intros Fx Fy Ex Du Dy Cy N1 Ny Hlen Hk Hbr Hf.
  assert (u <> []) as Nu by (intros ->; destruct (data y); [congruence|cbn in Hlen; lia]).
  assert (data x <> [] /\ data x <> [0]) as Nx.
  { rewrite Ex. destruct u as [|a [|b u']]; [congruence| |]; split; discriminate. }
  assert (data y <> [0]) as N0 by (intros E; rewrite E in Cy; unfold canonical in Cy; cbn in Cy; lia).
  rewrite (div_assign_main L HLk false fuel x y) by auto. rewrite failed_infinity. apply guarded_yields.
  eapply yields_bind with (Q := fun c => c = true).
  { eapply yields_pure; [apply abs_val_is_gt_pure|]. unfold gtb. rewrite Ex, app_length. cbn [length].
    destruct (Nat.ltb_spec (length (data y)) (length u + 1)); [reflexivity|lia]. }
  intros ? ->. rewrite Ex.
  eapply yields_bind; [apply (abs_val_div_padded u (data y) fuel k); auto; split; auto|].
  intros v (Dv & Cv & Vv). apply yields_ret. repeat split; auto.
  - apply product_finite; auto.
  - destruct Fx as [-> | ->], Fy as [-> | ->]; reflexivity.
Qed.

(** a divisor with at least as many digits: the quotient is 0, as it should be *)
Theorem div_assign_padded_short fuel x y u : finite x -> finite y -> data x = u ++ [0] -> digits_ok B u ->
  digits_ok B (data y) -> canonical (data y) -> u <> [] ->
  (length u < length (data y))%nat -> (1 <= fuel)%nat ->
  assigns (op_div_assign L false fuel x (Other y))
    (fun z => desc z = (if desc_eqb (desc x) (desc y) then BN_POS else BN_NEG) /\ data z = [0] /\
              value B u < value B (data y))
    (infinity_for (desc y)).
Proof.
  intros Fx Fy Ex Du Dy Cy Nu Hlen Hf.
  assert (data x <> [] /\ data x <> [0]) as Nx.
  { rewrite Ex. destruct u as [|a [|b u']]; [congruence| |]; split; discriminate. }
  assert (data y <> [0] /\ data y <> [1]) as Ny.
  { split; intros E; rewrite E in Hlen; destruct u as [|a [|b u']]; cbn in Hlen; (congruence || lia). }
  assert (value B u < value B (data y)) as Hlt by (apply (length_lt_value B HBk); auto).
  assert (product_desc (desc x) (desc y) = (if desc_eqb (desc x) (desc y) then BN_POS else BN_NEG)) as Es
    by (destruct Fx as [-> | ->], Fy as [-> | ->]; reflexivity).
  rewrite (div_assign_main L HLk false fuel x y) by auto. rewrite failed_infinity. apply guarded_yields.
  eapply yields_bind with (Q := fun c => True).
  { eapply yields_pure; [apply abs_val_is_gt_pure|exact I]. }
  assert (digits_ok B (u ++ [0])) as Du0.
  { apply digits_ok_app; auto. split; auto. constructor; [lia|constructor]. }
  assert (geb B (u ++ [0]) (data y) = false) as G.
  { unfold geb. rewrite app_length. cbn [length].
    destruct (Nat.ltb_spec (length (data y)) (length u + 1)); [lia|].
    destruct (Nat.ltb_spec (length u + 1) (length (data y))); [reflexivity|].
    apply Z.leb_gt. rewrite value_snoc. lia. }
  intros c _. destruct c.
  - rewrite Ex. unfold abs_val_div. eapply yields_bind with (Q := fun v => v = [0]).
    { eapply yields_bind with (Q := fun v => v = [0]); [apply yields_vcopy; auto|]. intros ? ->.
      destruct fuel as [|f]; [lia|]. cbn [div_outer].
      eapply yields_bind with (Q := fun c => c = false).
      { eapply yields_pure; [apply (abs_val_is_ge_pure B HBk _ _ Du0 Dy)|exact G]. }
      intros ? ->. apply yields_ret. reflexivity. }
    intros ? ->. apply yields_ret. auto.
  - eapply yields_bind with (Q := fun v => v = [0]); [apply yields_vcopy; auto|]. intros ? ->.
    apply yields_ret. auto.
Qed.

(** the quotient is right exactly when the first round does not underflow *)
Lemma padded_quotient_right v y n k : 0 < y <= B ^ Z.of_nat n -> 0 <= v ->
  padded_quotient v y n k = v / y <-> y * 2 ^ k <= v.
Proof.
  intros Hy Hv. unfold padded_quotient. destruct (Z.ltb_spec v (y * 2 ^ k)) as [H|H]; [|tauto].
  split; [|lia]. intros E. exfalso. rewrite pow_S in E by lia.
  assert (v / y + 1 <= (v + B * B ^ Z.of_nat n) / y); [|lia].
  rewrite <- (Z.div_add v 1 y) by lia. apply Z.div_le_mono; nia.
Qed.

(** such a [k] always exists *)
Lemma bracket_exists y N : 0 < y -> y < N -> exists k, 0 <= k /\ y * 2 ^ k < N <= y * 2 ^ (k + 1).
Proof.
  intros Hy HN. assert (forall m : nat, N <= y * 2 ^ Z.of_nat m ->
    exists k, 0 <= k /\ y * 2 ^ k < N <= y * 2 ^ (k + 1)) as K.
  { induction m as [|m IH]; intros H.
    - change (2 ^ Z.of_nat 0) with 1 in H. lia.
    - destruct (Z.le_gt_cases N (y * 2 ^ Z.of_nat m)) as [G|G]; auto.
      exists (Z.of_nat m). split; [lia|]. split; [lia|].
      replace (Z.of_nat m + 1) with (Z.of_nat (S m)) by lia. exact H. }
  apply (K (Z.to_nat N)). rewrite Z2Nat.id by lia. pose proof (Z.pow_gt_lin_r 2 N ltac:(lia) ltac:(lia)). nia.
Qed.

End Padded.
