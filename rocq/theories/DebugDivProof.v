(** * Division in builds with BN_DEBUG *)
From Verif Require Import Base Spec Limits Compare AddSub Division Fourier Multiplication Bignum Outcome.
From Verif Require Import Wp ValueProof CompareProof AddSubProof DivisionProof BignumProof OperatorProof DivOpProof FailProof PadDivisorProof.

Definition throws {A} (m : M A) : Prop :=
  forall al n, exists e n', m al n = Throw e n' /\ (e = ExUnderflow \/ e = ExBadAlloc).
Definition same {A} (m m' : M A) : Prop := forall al n, m al n = m' al n.

Lemma throws_bind {A C} (m : M A) (k : A -> M C) Q : yields m Q -> (forall a, Q a -> throws (k a)) -> throws (bind m k).
Proof.
  intros Hm Hk al n. unfold bind. specialize (Hm al n). destruct (m al n) as [a n'|e n'|v|]; try contradiction.
  - apply Hk, Hm.
  - destruct Hm as [-> _]. exists ExBadAlloc, n'. auto.
Qed.

Lemma same_bind {A C} (m : M A) (k k' : A -> M C) Q : yields m Q -> (forall a, Q a -> same (k a) (k' a)) ->
  same (bind m k) (bind m k').
Proof.
  intros Hm Hk al n. unfold bind. specialize (Hm al n). destruct (m al n) as [a n'|e n'|v|]; try contradiction; auto.
  apply Hk, Hm.
Qed.

Lemma pow2_unique y v j k : 0 < y -> 0 <= j -> 0 <= k ->
  y * 2 ^ j <= v < y * 2 ^ (j + 1) -> y * 2 ^ k <= v < y * 2 ^ (k + 1) -> j = k.
Proof.
  intros Hy Hj Hk H1 H2. destruct (Z.lt_trichotomy j k) as [H|[H|H]]; auto; exfalso.
  - assert (2 ^ (j + 1) <= 2 ^ k) by (apply Z.pow_le_mono_r; lia). nia.
  - assert (2 ^ (k + 1) <= 2 ^ j) by (apply Z.pow_le_mono_r; lia). nia.
Qed.

Lemma rejected_step B y v k : 0 < y -> 0 <= k -> y * 2 ^ k <= v < y * 2 ^ (k + 1) ->
  rejected B y v <-> has_borrow B v (y * 2 ^ k) \/ rejected B y (v - y * 2 ^ k).
Proof.
  intros Hy Hk Hv. split.
  - intros R. inversion R as [v' j Hj Hb H|v' j Hj Hb H]; subst v'; rewrite (pow2_unique y v k j) by auto; auto.
  - intros [H|H]; [eapply rejected_now|eapply rejected_later]; eauto.
Qed.

Lemma rejected_small B y v : 0 < y -> v < y -> ~ rejected B y v.
Proof.
  intros Hy Hv R. inversion R as [v' j Hj Hb _x|v' j Hj Hb _x]; subst v'; assert (0 < 2 ^ j) by (apply Z.pow_pos_nonneg; lia); nia.
Qed.

Section Debug.
Context (L : limits) (HD : can_double L = true).
Let B := base L.
Let HLk : limits_ok L = true := DivisionProof.HL L HD.
Let HBk : 2 <= B := AddSubProof.HB L HLk.
Local Notation okc := (cok L).

Lemma nth_digit a : digits_ok B a -> forall i, nth i a 0 = (value B a / B ^ Z.of_nat i) mod B.
Proof.
  induction a as [|x a IH]; intros Da i.
  - cbn [value]. rewrite Z.div_0_l, Z.mod_0_l by (try apply Z.pow_nonzero; lia). destruct i; reflexivity.
  - inversion_clear Da as [|? ? Dx Da']. destruct i as [|i]; cbn [nth value].
    + change (Z.of_nat 0) with 0. rewrite Z.pow_0_r, Z.div_1_r. rewrite Z.mul_comm, Z.mod_add by lia.
      rewrite Z.mod_small by lia. reflexivity.
    + rewrite IH by auto. rewrite pow_S by lia. rewrite <- Z.div_div by (try apply Z.pow_pos_nonneg; lia).
      rewrite (Z.mul_comm B (value B a)), Z.div_add by lia. rewrite (Z.div_small x) by lia. reflexivity.
Qed.

Lemma gtb_borrow a b : okc a -> okc b -> 0 < value B b <= value B a ->
  gtb b a = true <-> has_borrow B (value B a) (value B b).
Proof.
  intros [Da Ca] [Db Cb] Hle. fold B in Da, Db. rewrite gtb_iff.
  assert (b <> []) as Nb by (intros ->; cbn [value] in Hle; lia).
  assert (a <> []) as Na by (intros ->; cbn [value] in Hle; lia).
  pose proof (value_bounds B HBk a Da) as Ba. pose proof (value_bounds B HBk b Db) as Bb.
  pose proof (value_canonical_lb B HBk a Da Ca Na) as La. pose proof (value_canonical_lb B HBk b Db Cb Nb) as Lb.
  assert (1 <= length a /\ 1 <= length b)%nat as [La1 Lb1].
  { split; [destruct a|destruct b]; try congruence; cbn [length]; lia. }
  split.
  - intros [H|(E & i & p & q & Ep & Eq & Hpq)].
    + pose proof (length_lt_value B HBk a b Da Db Cb H). lia.
    + exists (Z.of_nat (length b) - 1), (Z.of_nat i). repeat split; try lia.
      * rewrite E. replace (Z.of_nat (length a) - 1 + 1) with (Z.of_nat (length a)) by lia. lia.
      * rewrite <- !nth_digit by auto.
        rewrite (nth_error_nth _ _ 0 Ep), (nth_error_nth _ _ 0 Eq). exact Hpq.
  - intros (n & i & Hn & Hi & H1 & H2 & H3). right.
    assert (B ^ n < B ^ Z.of_nat (length b)) as K1 by lia. apply Z.pow_lt_mono_r_iff in K1; [|lia|lia].
    assert (B ^ (Z.of_nat (length a) - 1) < B ^ (n + 1)) as K2 by lia. apply Z.pow_lt_mono_r_iff in K2; [|lia|lia].
    assert (length b <= length a)%nat.
    { destruct (Nat.le_gt_cases (length b) (length a)) as [|G]; auto.
      pose proof (length_lt_value B HBk a b Da Db Cb G). lia. }
    assert (length b = length a) as E by lia. split; [exact E|].
    rewrite <- (Z2Nat.id i) in H3 by lia. rewrite <- !nth_digit in H3 by auto.
    destruct (Nat.lt_ge_cases (Z.to_nat i) (length b)) as [G|G].
    + exists (Z.to_nat i), (nth (Z.to_nat i) b 0), (nth (Z.to_nat i) a 0).
      split; [apply nth_error_nth'; lia|]. split; [apply nth_error_nth'; lia|exact H3].
    + rewrite !nth_overflow in H3 by lia. lia.
Qed.

Lemma div_outer_debug divisor fi : okc divisor -> 0 < value B divisor ->
  forall fuel dividend r, okc dividend -> digits_ok B r -> weak_canonical r ->
  (1 <= fuel)%nat -> value B dividend < value B divisor * 2 ^ (Z.of_nat fuel - 1) ->
  (1 <= fi)%nat -> value B dividend < value B divisor * 2 ^ Z.of_nat fi ->
  (rejected B (value B divisor) (value B dividend) -> throws (div_outer L true fi fuel dividend divisor r)) /\
  (~ rejected B (value B divisor) (value B dividend) ->
     same (div_outer L true fi fuel dividend divisor r) (div_outer L false fi fuel dividend divisor r)).
Proof.
  intros [Ds Cs] Hpos. fold B in Ds. set (y := value B divisor) in *.
  assert (divisor <> []) as Nd by (intros E; unfold y in Hpos; rewrite E in Hpos; cbn in Hpos; lia).
  assert (shaped L (length divisor) divisor) as Sd by (split; auto).
  induction fuel as [|f IH]; intros dividend r [Dd Cd] Dr Cr Hf Hfuel Hfi Hfuel'; [lia|]. fold B in Dd.
  set (v := value B dividend) in *.
  assert (yields (abs_val_is_ge dividend divisor) (fun c => c = (y <=? v))) as Hge.
  { eapply yields_pure; [apply (abs_val_is_ge_pure B HBk dividend divisor Dd Ds)|]. apply geb_canonical; auto. }
  destruct (Z.leb_spec y v) as [Hle|Hlt].
  2: { split; [intros K; destruct (rejected_small B y v Hpos Hlt K)|]. intros _. cbn [div_outer].
       eapply same_bind; [exact Hge|]. intros ? ->. intros al n. reflexivity. }
  assert (wrap (ws L) 1 = 1) as E1 by (pose proof (H2B L HD); apply wrap_small; unfold B in *; lia).
  assert (okc [1]) as H1ok.
  { split; [constructor; [fold B; lia|constructor]|unfold canonical; cbn; lia]. }
  assert (dividend <> []) as Hdn by (intros E; unfold v in Hle; rewrite E in Hle; cbn [value] in Hle; lia).
  assert (length divisor <= length dividend)%nat as Hlen.
  { destruct (Nat.le_gt_cases (length divisor) (length dividend)) as [|G]; auto.
    pose proof (length_lt_value B HBk dividend divisor Dd Ds Cs G). unfold v, y in *; lia. }
  (* the common prefix *)
  set (post := fun bq : list Z * list Z => okc (fst bq) /\ okc (snd bq) /\ exists k, 0 <= k /\ value B (snd bq) = 2 ^ k /\
    value B (fst bq) = y * 2 ^ k /\ y * 2 ^ k <= v < y * 2 ^ (k + 1)).
  assert (forall b1, shaped L (length divisor) b1 -> b1 <> [] -> value B b1 = 2 * y ->
    yields (div_inner L fi dividend divisor b1 [1]) post) as Hin.
  { intros b1 S1 N1 V1. eapply yields_mono.
    { apply (div_inner_shaped L HD (length divisor) dividend y (conj Dd Cd) Hlen Hpos fi divisor b1 [1] 0); auto; fold B;
        try (unfold y in *; lia); [cbn [value]; lia|].
      destruct fi as [|fi']; [lia|]. rewrite (pow2_S L) in Hfuel'.
      replace (Z.of_nat (S fi') - 1) with (Z.of_nat fi') by lia. rewrite V1. fold v. nia. }
    intros [b0 q] (S0 & Oq & k & Hk & Vq & V0 & Hb). fold B in Vq, V0, Hb. cbn [fst snd] in *. fold v in Hb.
    unfold post. cbn [fst snd]. split; [|split; [exact Oq|exists k; auto]].
    destruct S0 as [D0 [S0|[_ C0]]]; split; auto. fold B in D0.
    assert (0 < 2 ^ k) as Pk by (apply Z.pow_pos_nonneg; lia).
    assert (b0 <> []) as N0 by (intros ->; cbn [value] in V0; nia).
    apply (canonical_of_value B); auto. rewrite S0.
    pose proof (value_canonical_lb B HBk divisor Ds Cs Nd) as K. fold y in K. fold B. nia. }
  assert (forall (k1 k2 : list Z * list Z -> M (list Z)),
    ((forall bq, post bq -> throws (k1 bq)) ->
      throws (c <- abs_val_is_ge dividend divisor ;;
        if (c : bool) then b0 <- vcopy divisor ;; b1 <- vcopy divisor ;; q <- vcopy [wrap (ws L) 1] ;;
          b1 <- shift_left_1 L b1 ;; bq <- div_inner L fi dividend b0 b1 q ;; k1 bq else ret r)) /\
    ((forall bq, post bq -> same (k1 bq) (k2 bq)) ->
      same (c <- abs_val_is_ge dividend divisor ;;
        if (c : bool) then b0 <- vcopy divisor ;; b1 <- vcopy divisor ;; q <- vcopy [wrap (ws L) 1] ;;
          b1 <- shift_left_1 L b1 ;; bq <- div_inner L fi dividend b0 b1 q ;; k1 bq else ret r)
       (c <- abs_val_is_ge dividend divisor ;;
        if (c : bool) then b0 <- vcopy divisor ;; b1 <- vcopy divisor ;; q <- vcopy [wrap (ws L) 1] ;;
          b1 <- shift_left_1 L b1 ;; bq <- div_inner L fi dividend b0 b1 q ;; k2 bq else ret r))) as Pre.
  { intros k1 k2. rewrite E1. split; intros K.
    - eapply throws_bind; [exact Hge|]. intros ? ->.
      eapply throws_bind with (Q := fun v => v = divisor); [apply yields_vcopy; auto|]. intros ? ->.
      eapply throws_bind with (Q := fun v => v = divisor); [apply yields_vcopy; auto|]. intros ? ->.
      eapply throws_bind with (Q := fun v => v = [1]); [apply yields_vcopy; auto|]. intros ? ->.
      eapply throws_bind; [apply (shift_left_1_shaped L HD _ divisor Sd Nd)|]. intros b1 (S1 & N1 & V1).
      eapply throws_bind; [apply Hin; auto|]. exact K.
    - eapply same_bind; [exact Hge|]. intros ? ->.
      eapply same_bind with (Q := fun v => v = divisor); [apply yields_vcopy; auto|]. intros ? ->.
      eapply same_bind with (Q := fun v => v = divisor); [apply yields_vcopy; auto|]. intros ? ->.
      eapply same_bind with (Q := fun v => v = [1]); [apply yields_vcopy; auto|]. intros ? ->.
      eapply same_bind; [apply (shift_left_1_shaped L HD _ divisor Sd Nd)|]. intros b1 (S1 & N1 & V1).
      eapply same_bind; [apply Hin; auto|]. exact K. }
  (* one round after the search *)
  assert (forall b0 q, post (b0, q) ->
    exists k d', 0 <= k /\ y * 2 ^ k <= v < y * 2 ^ (k + 1) /\ okc d' /\ value B d' = v - y * 2 ^ k /\
      pure (abs_val_sub L false dividend (other b0)) d' /\
      (forall al n, abs_val_sub L true dividend (other b0) al n =
        if gtb b0 dividend then Throw ExUnderflow n else abs_val_sub L false dividend (other b0) al n) /\
      (gtb b0 dividend = true <-> has_borrow B v (y * 2 ^ k)) /\
      yields (if (length q <=? length r)%nat then abs_val_add L r (other q) else abs_val_add L q (other r))
        (fun r' => digits_ok B r' /\ weak_canonical r')) as Round.
  { intros b0 q ([D0 C0] & [Dq Cq] & k & Hk & Vq & V0 & Hb). cbn [fst snd] in *. fold B in D0, Dq.
    assert (0 < 2 ^ k) as Pk by (apply Z.pow_pos_nonneg; lia).
    assert (length b0 <= length dividend)%nat as Hlen0.
    { destruct (Nat.le_gt_cases (length b0) (length dividend)) as [|Hgt]; auto.
      pose proof (length_lt_value B HBk dividend b0 Dd D0 C0 Hgt). unfold v in *; lia. }
    destruct (abs_val_sub_other L HLk dividend b0 Hdn Hlen0) as (d' & Hp & Cd' & _ & Hd').
    destruct (Hd' Dd D0) as [Dd' Vd']. fold B in Dd', Vd'. fold v in Vd'.
    rewrite (proj2 (Z.leb_le _ _)) in Vd' by lia.
    exists k, d'. split; [exact Hk|]. split; [exact Hb|]. split; [split; assumption|]. split; [lia|]. split; [exact Hp|].
    split; [|split].
    - intros al n. rewrite abs_val_sub_debug. unfold other. rewrite (proj2 (Nat.ltb_ge _ _)) by lia. reflexivity.
    - rewrite (gtb_borrow dividend b0); [|split; auto|split; auto|fold v; rewrite V0; nia]. fold v. rewrite V0. tauto.
    - destruct (length q <=? length r)%nat.
      + eapply yields_mono; [apply (abs_val_add_other L HLk r q Dr Dq)|].
        intros r' (Dr' & Vr' & Gr'). fold B in Dr', Vr'. split; auto.
        eapply (grown_canonical L HLk r q); eauto. left; auto.
      + eapply yields_mono; [apply (abs_val_add_other L HLk q r Dq Dr)|].
        intros r' (Dr' & Vr' & Gr'). fold B in Dr', Vr'. split; auto.
        eapply (grown_canonical L HLk q r); eauto. left; auto. }
  assert (forall k d' r', 0 <= k -> y * 2 ^ k <= v < y * 2 ^ (k + 1) -> okc d' -> value B d' = v - y * 2 ^ k ->
    digits_ok B r' -> weak_canonical r' ->
    (rejected B y (value B d') -> throws (div_outer L true fi f d' divisor r')) /\
    (~ rejected B y (value B d') -> same (div_outer L true fi f d' divisor r') (div_outer L false fi f d' divisor r'))) as Next.
  { intros k d' r' Hk Hb Od Vd Dr' Cr'.
    assert (0 < 2 ^ k) as Pk by (apply Z.pow_pos_nonneg; lia).
    assert (2 ^ (k + 1) = 2 * 2 ^ k) as Ek by (rewrite Z.pow_add_r by lia; change (2 ^ 1) with 2; lia).
    destruct f as [|f'].
    { exfalso. change (Z.of_nat 1 - 1) with 0 in Hfuel. rewrite Z.pow_0_r in Hfuel. lia. }
    apply IH; auto; try lia.
    replace (Z.of_nat (S (S f')) - 1) with (Z.of_nat (S f')) in Hfuel by lia. rewrite (pow2_S L) in Hfuel.
    replace (Z.of_nat (S f') - 1) with (Z.of_nat f') by lia. nia. }
  cbn [div_outer]. split; intros R.
  - apply (Pre _ (fun _ => ret r)). intros [b0 q] Hpost.
    destruct (Round b0 q Hpost) as (k & d' & Hk & Hb & Od & Vd & Hp & Hdbg & Hg & Hadd). cbn [fst snd].
    rewrite (rejected_step B y v k Hpos Hk Hb) in R.
    destruct (gtb b0 dividend) eqn:G.
    + intros al n. unfold bind at 1. rewrite Hdbg. exists ExUnderflow, n. auto.
    + destruct R as [R|R]; [apply Hg in R; discriminate|].
      eapply throws_bind with (Q := fun v => v = d').
      { intros al n. rewrite Hdbg. apply (yields_pure _ _ (fun v => v = d') Hp eq_refl al n). }
      intros ? ->. eapply throws_bind; [exact Hadd|]. intros r' [Dr' Cr'].
      apply (Next k d' r'); auto. rewrite Vd. exact R.
  - apply (proj2 (Pre _ _)). intros [b0 q] Hpost.
    destruct (Round b0 q Hpost) as (k & d' & Hk & Hb & Od & Vd & Hp & Hdbg & Hg & Hadd). cbn [fst snd].
    rewrite (rejected_step B y v k Hpos Hk Hb) in R.
    destruct (gtb b0 dividend) eqn:G; [exfalso; apply R; left; tauto|].
    intros al n. unfold bind at 1 4. rewrite Hdbg. revert al n.
    change (same (d0 <- abs_val_sub L false dividend (other b0) ;;
       r0 <- (if (length q <=? length r)%nat then abs_val_add L r (other q) else abs_val_add L q (other r)) ;;
       div_outer L true fi f d0 divisor r0)
      (d0 <- abs_val_sub L false dividend (other b0) ;;
       r0 <- (if (length q <=? length r)%nat then abs_val_add L r (other q) else abs_val_add L q (other r)) ;;
       div_outer L false fi f d0 divisor r0)).
    eapply same_bind with (Q := fun v => v = d'); [apply (yields_pure _ _ (fun v => v = d') Hp eq_refl)|].
    intros ? ->. eapply same_bind; [exact Hadd|]. intros r' [Dr' Cr'].
    apply (Next k d' r'); auto. rewrite Vd. tauto.
Qed.

Theorem div_debug_exact fuel x y : good B x -> good B y -> canonical (data y) -> 1 < value B (data y) ->
  enough_fuel (value B (data x)) fuel ->
  (rejected B (value B (data y)) (value B (data x)) ->
     forall al n, exists n', op_div_assign L true fuel x (Other y) al n = Ret (infinity_for (desc y), Some ExStd) n') /\
  (~ rejected B (value B (data y)) (value B (data x)) ->
     forall al n, op_div_assign L true fuel x (Other y) al n = op_div_assign L false fuel x (Other y) al n).
Proof.
  intros (Fx & Dx & Cx) (Fy & Dy & _) Cy Hy Hf.
  assert (data y <> [0] /\ data y <> [1]) as Ny by (split; intros E; rewrite E in Hy; cbn [value] in Hy; lia).
  pose proof (value_bounds B HBk _ Dx) as Bx.
  destruct (Z.eq_dec (value B (data x)) 0) as [Z0|Nz].
  { split; intros R; [exfalso; apply (rejected_small B (value B (data y)) (value B (data x))); auto; lia|].
    assert (data x = [] \/ data x = [0]) as Ex by (apply (weak_zero L HLk); auto).
    intros al n. rewrite !(div_of_zero L HLk _ fuel x y Fx (proj1 Ny) Ex). reflexivity. }
  assert (data x <> [] /\ data x <> [0]) as Nx by (split; intros E; apply Nz; rewrite E; cbn [value]; lia).
  assert (canonical (data x)) as Cx' by (apply (weak_nonzero L); auto; fold B; lia).
  rewrite !(div_assign_main L HLk _ fuel x y) by auto. rewrite failed_infinity.
  unfold enough_fuel in Hf. destruct (Z.log2_spec (value B (data x)) ltac:(lia)) as [_ Hu].
  assert (2 ^ Z.succ (Z.log2 (value B (data x))) <= 2 ^ (Z.of_nat fuel - 1)) by (apply Z.pow_le_mono_r; lia).
  assert (2 ^ (Z.of_nat fuel - 1) <= 2 ^ Z.of_nat fuel) by (apply Z.pow_le_mono_r; lia).
  pose proof (Z.log2_nonneg (value B (data x))).
  assert (digits_ok B [0]) as D0 by (constructor; [lia|constructor]).
  destruct (div_outer_debug (data y) fuel (conj Dy Cy) ltac:(lia) fuel (data x) [0] (conj Dx Cx') D0 weak_canonical_0
              ltac:(lia) ltac:(nia) ltac:(lia) ltac:(nia)) as [K1 K2].
  split; intros R.
  - assert (value B (data y) < value B (data x)) as Hlt.
    { destruct (Z.lt_trichotomy (value B (data y)) (value B (data x))) as [|[E|G]]; auto; exfalso.
      - revert R. rewrite <- E. rewrite (rejected_step B _ _ 0) by (cbn; lia). rewrite Z.pow_0_r, Z.mul_1_r, Z.sub_diag.
        intros [(p & i & _ & _ & _ & _ & K)|K]; [lia|]. apply (rejected_small B (value B (data y)) 0) in K; auto; lia.
      - apply (rejected_small B (value B (data y)) (value B (data x))); auto; lia. }
    assert (gtb (data x) (data y) = true) as G by (apply (gtb_complete B HBk); auto).
    assert (throws (c <- abs_val_is_gt (data x) (data y) ;;
       if (c : bool) then v <- abs_val_div L true fuel (data x) (data y) ;; ret (mkBN (product_desc (desc x) (desc y)) v)
       else v <- vcopy [0] ;; ret (mkBN (product_desc (desc x) (desc y)) v))) as T.
    { eapply throws_bind with (Q := fun c => c = true); [eapply yields_pure; [apply abs_val_is_gt_pure|exact G]|]. intros ? ->.
      intros al n. unfold bind at 1.
      destruct (throws_bind (vcopy [0]) (fun r => div_outer L true fuel fuel (data x) (data y) r) (fun v => v = [0])
                  (yields_vcopy [0] _ eq_refl) ltac:(intros ? ->; exact (K1 R)) al n) as (e & n' & E & He).
      unfold abs_val_div. rewrite E. eauto. }
    intros al n. unfold guarded. destruct (T al n) as (e & n' & -> & [-> | ->]); eauto.
  - intros al n. unfold guarded.
    enough (same (c <- abs_val_is_gt (data x) (data y) ;;
       if (c : bool) then v <- abs_val_div L true fuel (data x) (data y) ;; ret (mkBN (product_desc (desc x) (desc y)) v)
       else v <- vcopy [0] ;; ret (mkBN (product_desc (desc x) (desc y)) v))
      (c <- abs_val_is_gt (data x) (data y) ;;
       if (c : bool) then v <- abs_val_div L false fuel (data x) (data y) ;; ret (mkBN (product_desc (desc x) (desc y)) v)
       else v <- vcopy [0] ;; ret (mkBN (product_desc (desc x) (desc y)) v))) as E by (rewrite E; reflexivity).
    eapply same_bind with (Q := fun c => True); [eapply yields_pure; [apply abs_val_is_gt_pure|exact I]|].
    intros [|] _; [|intros ? ?; reflexivity]. intros al' n'. unfold bind at 1 2.
    assert (same (abs_val_div L true fuel (data x) (data y)) (abs_val_div L false fuel (data x) (data y))) as ->; [|reflexivity].
    unfold abs_val_div. eapply same_bind with (Q := fun v => v = [0]); [apply yields_vcopy; auto|]. intros ? ->. exact (K2 R).
Qed.

(** one-digit dividends are never rejected *)
Lemma rejected_one_digit y v : 0 < y -> 0 <= v < B -> ~ rejected B y v.
Proof.
  intros Hy Hv R. induction R as [v k Hk Hb (n & i & Hn & Hi & H1 & H2 & H3)|v k Hk Hb R IH].
  - assert (0 < 2 ^ k) as Pk by (apply Z.pow_pos_nonneg; lia).
    destruct (Z.eq_dec i 0) as [->|Ni].
    + rewrite Z.pow_0_r, !Z.div_1_r, !Z.mod_small in H3 by nia. lia.
    + assert (B ^ 1 <= B ^ i) as K by (apply Z.pow_le_mono_r; lia). rewrite Z.pow_1_r in K.
      rewrite !(Z.div_small _ (B ^ i)) in H3 by nia. lia.
  - assert (0 < 2 ^ k) as Pk by (apply Z.pow_pos_nonneg; lia). apply IH. nia.
Qed.

End Debug.
