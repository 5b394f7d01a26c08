(** * The digits doubled by a division: lemmas *)
From Verif Require Import Base Spec Limits Compare AddSub Division Outcome DivWork DivDigits.
From Verif Require Import Wp ValueProof CompareProof AddSubProof DivisionProof DivWorkProof.

(** ** Counting changes nothing *)

Lemma shl_loop_erases L : forall fuel v c carry k al n,
  shl_loop_digits L fuel v c carry k al n =
  match shl_loop L fuel v c carry al n with
  | Ret (w, cy) n' => Ret (w, cy, (k + (length v - c))%nat) n'
  | Throw e n' => Throw e n' | Undef u => Undef u | NoFuel => NoFuel
  end.
Proof.
  assert (forall v c k, (length v <= c)%nat -> (k + (@length Z v - c) = k)%nat) as E0 by (intros; lia).
  induction fuel as [|f IH]; intros; cbn [shl_loop shl_loop_digits].
  - destruct (Nat.ltb_spec c (length v)); [reflexivity|]. cbn [ret]. unfold ret. rewrite E0 by assumption. reflexivity.
  - destruct (Nat.ltb_spec c (length v)) as [Hc|Hc]; [|unfold ret; rewrite E0 by assumption; reflexivity]. unfold bind.
    destruct (vget v c al n) as [x n1|e n1|u|]; try reflexivity. destruct (_ =? 0); [reflexivity|].
    unfold vset. rewrite (proj2 (Nat.ltb_lt _ _) Hc). unfold ret at 1 2. rewrite IH.
    match goal with |- context [shl_loop L f ?w ?i ?cy al n1] =>
      assert (length w = length v) as E; [|destruct (shl_loop L f w i cy al n1) as [[w' cy'] n2|e n2|u|]; try reflexivity; rewrite E] end.
    + rewrite app_length, firstn_length_le by lia. cbn [length]. rewrite skipn_length. lia.
    + replace (S k + (length v - S c))%nat with (k + (length v - c))%nat by lia. reflexivity.
Qed.

(** a call of shift_left_1 makes one round for each digit *)
Lemma shift_erases L v k al n :
  shift_left_1_digits L v k al n =
  match shift_left_1 L v al n with
  | Ret w n' => Ret (w, (k + length v)%nat) n'
  | Throw e n' => Throw e n' | Undef u => Undef u | NoFuel => NoFuel
  end.
Proof.
  unfold shift_left_1_digits, shift_left_1. destruct v as [|x v]; [unfold ret; rewrite Nat.add_0_r; reflexivity|].
  unfold bind. rewrite shl_loop_erases. destruct (shl_loop L _ _ _ _ al n) as [[w cy] n1|e n1|u|]; try reflexivity.
  rewrite Nat.sub_0_r. cbn [snd fst]. destruct (cy =? 0); [reflexivity|].
  destruct (vpush w _ al n1); reflexivity.
Qed.

Lemma inner_digits_erases L : forall fuel d b0 b1 q k al n,
  without_count (div_inner_digits L fuel d b0 b1 q k al n) = div_inner L fuel d b0 b1 q al n.
Proof.
  induction fuel as [|f IH]; intros; cbn [div_inner div_inner_digits]; [reflexivity|]. unfold bind.
  destruct (abs_val_is_ge d b1 al n) as [[|] n1|e n1|u|]; try reflexivity.
  destruct (vcopy b1 al n1) as [v n2|e n2|u|]; try reflexivity. rewrite shift_erases.
  destruct (shift_left_1 L b1 al n2) as [v1 n3|e n3|u|]; try reflexivity. rewrite shift_erases.
  destruct (shift_left_1 L q al n3) as [v2 n4|e n4|u|]; try reflexivity. apply IH.
Qed.

Lemma outer_digits_erases L dbg fi : forall fuel d s r k al n,
  without_count (div_outer_digits L dbg fi fuel d s r k al n) = div_outer L dbg fi fuel d s r al n.
Proof.
  induction fuel as [|f IH]; intros; cbn [div_outer div_outer_digits]; [reflexivity|]. unfold bind.
  destruct (abs_val_is_ge d s al n) as [[|] n1|e n1|u|]; try reflexivity.
  destruct (vcopy s al n1) as [v n2|e n2|u|]; try reflexivity.
  destruct (vcopy s al n2) as [v' n3|e n3|u|]; try reflexivity.
  destruct (vcopy [wrap (ws L) 1] al n3) as [v1 n4|e n4|u|]; try reflexivity. rewrite shift_erases.
  destruct (shift_left_1 L v' al n4) as [v2 n5|e n5|u|]; try reflexivity. cbn [fst snd].
  rewrite <- (inner_digits_erases L fi d v v2 v1 (k + length v') al n5).
  destruct (div_inner_digits L fi d v v2 v1 _ al n5) as [[[b0 q] k'] n6|e n6|u|]; try reflexivity. cbn [without_count fst snd].
  destruct (abs_val_sub L dbg d (other b0) al n6) as [d' n7|e n7|u|]; try reflexivity.
  match goal with |- context [match ?m al n7 with _ => _ end] => destruct (m al n7) as [r' n8|e n8|u|] end; try reflexivity. apply IH.
Qed.

Lemma division_digits_erases L dbg fuel d s al n :
  without_count (abs_val_div_digits L dbg fuel d s al n) = abs_val_div L dbg fuel d s al n.
Proof.
  unfold abs_val_div_digits, abs_val_div, bind. destruct (vcopy [0] al n) as [r n1|e n1|u|]; try reflexivity. apply outer_digits_erases.
Qed.

(** ** The number of digits of a number *)
Fixpoint width_within (B : Z) (fuel : nat) (v : Z) : nat :=
  match fuel with O => 0 | S f => if v <=? 0 then 0 else S (width_within B f (v / B)) end.
Definition width (B v : Z) : nat := width_within B (Z.to_nat (Z.log2 v + 1)) v.

Lemma width_within_zero B fuel : width_within B fuel 0 = 0%nat.
Proof. destruct fuel; reflexivity. Qed.

Lemma width_within_spec B : 2 <= B -> forall fuel v, 0 < v < 2 ^ Z.of_nat fuel ->
  (1 <= width_within B fuel v)%nat /\ B ^ Z.of_nat (width_within B fuel v - 1) <= v < B ^ Z.of_nat (width_within B fuel v).
Proof.
  intros HB. induction fuel as [|f IH]; intros v Hv.
  - change (2 ^ Z.of_nat 0) with 1 in Hv. lia.
  - cbn [width_within]. rewrite (proj2 (Z.leb_gt v 0)) by lia. rewrite double_pow in Hv. split; [lia|].
    replace (S (width_within B f (v / B)) - 1)%nat with (width_within B f (v / B)) by lia.
    rewrite Nat2Z.inj_succ, Z.pow_succ_r by lia.
    pose proof (Z.div_mod v B ltac:(lia)) as E. pose proof (Z.mod_pos_bound v B ltac:(lia)) as M.
    destruct (Z.eq_dec (v / B) 0) as [Z0|Z0].
    + rewrite Z0, width_within_zero. change (B ^ Z.of_nat 0) with 1. lia.
    + assert (0 < v / B) by (pose proof (Z.div_pos v B ltac:(lia) ltac:(lia)); lia).
      assert (v / B < 2 ^ Z.of_nat f) by (apply Z.div_lt_upper_bound; nia).
      destruct (IH (v / B) ltac:(lia)) as (W1 & W2 & W3). set (w := width_within B f (v / B)) in *. 
      replace (B ^ Z.of_nat w) with (B * B ^ Z.of_nat (w - 1)).
      2:{ rewrite <- Z.pow_succ_r by lia. f_equal. lia. }
      split; [nia|]. replace (B * (B * B ^ Z.of_nat (w - 1))) with (B * B ^ Z.of_nat w).
      2:{ f_equal. rewrite <- Z.pow_succ_r by lia. f_equal. lia. } nia.
Qed.

Lemma width_spec B v : 2 <= B -> 0 < v -> (1 <= width B v)%nat /\ B ^ Z.of_nat (width B v - 1) <= v < B ^ Z.of_nat (width B v).
Proof.
  intros HB Hv. apply width_within_spec; [exact HB|]. split; [exact Hv|]. pose proof (Z.log2_nonneg v). rewrite Z2Nat.id by lia.
  destruct (Z.log2_spec v Hv) as [_ H1]. exact H1.
Qed.

Lemma width_unique B v n : 2 <= B -> 0 < v -> (1 <= n)%nat -> B ^ Z.of_nat (n - 1) <= v < B ^ Z.of_nat n -> width B v = n.
Proof.
  intros HB Hv Hn [H1 H2]. destruct (width_spec B v HB Hv) as (W1 & W2 & W3). set (w := width B v) in *.
  destruct (Nat.lt_trichotomy w n) as [C|[C|C]]; [|exact C|].
  - exfalso. assert (B ^ Z.of_nat w <= B ^ Z.of_nat (n - 1)) by (apply Z.pow_le_mono_r; lia). lia.
  - exfalso. assert (B ^ Z.of_nat n <= B ^ Z.of_nat (w - 1)) by (apply Z.pow_le_mono_r; lia). lia.
Qed.

Lemma width_mono B v w : 2 <= B -> 0 < v <= w -> (width B v <= width B w)%nat.
Proof.
  intros HB [Hv Hw]. destruct (width_spec B v HB Hv) as (A1 & A2 & _). destruct (width_spec B w HB ltac:(lia)) as (_ & _ & C3).
  destruct (Nat.le_gt_cases (width B v) (width B w)) as [|G]; [assumption|]. exfalso.
  assert (B ^ Z.of_nat (width B w) <= B ^ Z.of_nat (width B v - 1)) by (apply Z.pow_le_mono_r; lia). lia.
Qed.

(** ** The count *)

(** the digits doubled to find the one bit at position j: the divisor, doubled j + 1 times, and 1, doubled j times *)
Definition cost (B s : Z) (j : nat) : nat :=
  (list_sum (map (fun i => width B (s * 2 ^ Z.of_nat i)) (seq 0 (S j))) + list_sum (map (fun i => width B (2 ^ Z.of_nat i)) (seq 0 j)))%nat.

Lemma cost_0 B s : cost B s 0 = width B s.
Proof. unfold cost. cbn [seq map list_sum fold_right]. change (2 ^ Z.of_nat 0) with 1. rewrite Z.mul_1_r. lia. Qed.

Lemma sum_snoc l (x : nat) : list_sum (l ++ [x]) = (list_sum l + x)%nat.
Proof. rewrite list_sum_app. cbn [list_sum fold_right]. lia. Qed.

Lemma cost_S B s j : cost B s (S j) = (cost B s j + width B (s * 2 ^ Z.of_nat (S j)) + width B (2 ^ Z.of_nat j))%nat.
Proof.
  assert (forall (f : nat -> nat) m, list_sum (map f (seq 0 (S m))) = (list_sum (map f (seq 0 m)) + f m)%nat) as A.
  { intros f m. rewrite seq_S, map_app. apply sum_snoc. }
  unfold cost. rewrite (A (fun i => width B (s * 2 ^ Z.of_nat i)) (S j)), (A (fun i => width B (2 ^ Z.of_nat i)) j). lia.
Qed.

Section Proof.
Context (L : limits) (HD : can_double L = true).
Let B := base L.
Let HL : limits_ok L = true := DivisionProof.HL L HD.
Let HB' : 2 <= B := AddSubProof.HB L HL.
Let cok v := digits_ok B v /\ canonical v.

Lemma length_width v : cok v -> 0 < value B v -> length v = width B (value B v).
Proof.
  intros [Dv Cv] P. assert (v <> []) as Hn by (intros ->; cbn in P; lia).
  symmetry. apply width_unique; [exact HB'|exact P|destruct v; [congruence|cbn; lia]|].
  pose proof (value_bounds B HB' v Dv). pose proof (value_canonical_lb B HB' v Dv Cv Hn) as Lb.
  replace (Z.of_nat (length v - 1)) with (Z.of_nat (length v) - 1) by (destruct v; [congruence|cbn [length]; lia]). lia.
Qed.

Lemma shift_digits_spec v k : cok v ->
  yields (shift_left_1_digits L v k) (fun r => cok (fst r) /\ value B (fst r) = 2 * value B v /\ snd r = (k + length v)%nat).
Proof.
  intros [Dv Cv] al n. rewrite shift_erases. pose proof (shift_left_1_spec L HD v Dv Cv al n) as H. fold B in H.
  destruct (shift_left_1 L v al n) as [w n'|e n'|u|]; try exact H. destruct H as [(A1 & A2 & A3) A4]. cbn [fst snd]. repeat split; assumption.
Qed.

Theorem inner_digits dividend divisor : cok dividend -> cok divisor -> 0 < value B divisor ->
  forall fuel b0 b1 q j, cok b0 -> cok b1 -> cok q ->
  value B b0 = value B divisor * value B q -> value B b1 = 2 * value B b0 -> value B q = 2 ^ Z.of_nat j ->
  0 < value B b0 <= value B dividend ->
  (1 <= fuel)%nat -> value B dividend < value B b1 * 2 ^ (Z.of_nat fuel - 1) ->
  forall k,
  yields (div_inner_digits L fuel dividend b0 b1 q (k + cost B (value B divisor) j))
    (fun r => let '(b, q', k') := r in exists j', cok b /\ cok q' /\ value B b = value B divisor * value B q' /\
              value B b <= value B dividend < 2 * value B b /\ value B q' = 2 ^ Z.of_nat j' /\ k' = (k + cost B (value B divisor) j')%nat).
Proof.
  intros [Dd Cd] [Ds Cs] Hpos. induction fuel as [|f IH]; intros b0 b1 q j [D0 C0] [D1 C1] [Dq Cq] Hb0 Hb1 Hq Hle Hf Hfuel k;
    [lia|]. cbn [div_inner_digits].
  assert (0 < 2 ^ Z.of_nat j) as Pj by (apply Z.pow_pos_nonneg; lia).
  eapply yields_bind with (Q := fun c => c = (value B b1 <=? value B dividend)).
  { eapply yields_pure; [apply (abs_val_is_ge_pure B HB' dividend b1 Dd D1)|]. apply geb_canonical; auto. }
  intros c ->. destruct (Z.leb_spec (value B b1) (value B dividend)) as [Hge|Hlt].
  - eapply yields_bind with (Q := fun v => v = b1); [apply yields_vcopy; auto|]. intros ? ->.
    eapply yields_bind; [apply (shift_digits_spec b1 _ (conj D1 C1))|]. intros [b1' k1] ([D1' C1'] & V1' & K1). cbn [fst snd] in *.
    eapply yields_bind; [apply (shift_digits_spec q _ (conj Dq Cq))|]. intros [q' k2] ([Dq' Cq'] & Vq' & K2). cbn [fst snd] in *.
    destruct f as [|f'].
    { exfalso. change (Z.of_nat 1 - 1) with 0 in Hfuel. rewrite Z.pow_0_r in Hfuel. lia. }
    assert (k2 = k + cost B (value B divisor) (S j))%nat as ->.
    { rewrite K2, K1, cost_S, (length_width b1 (conj D1 C1)), (length_width q (conj Dq Cq)) by lia. rewrite Hb1, Hb0, Hq.
      replace (2 * (value B divisor * 2 ^ Z.of_nat j)) with (value B divisor * 2 ^ Z.of_nat (S j)) by (rewrite double_pow; ring). lia. }
    apply IH; try (split; assumption); try lia.
    + rewrite Vq', Hq. rewrite double_pow. lia.
    + replace (Z.of_nat (S (S f')) - 1) with (Z.of_nat (S f')) in Hfuel by lia. rewrite double_pow in Hfuel.
      replace (Z.of_nat (S f') - 1) with (Z.of_nat f') by lia. nia.
  - apply yields_ret. exists j. repeat split; auto; lia.
Qed.

Theorem outer_digits divisor fi : cok divisor -> 0 < value B divisor ->
  forall fuel dividend r k, cok dividend -> digits_ok B r -> weak_canonical r ->
  (1 <= fuel)%nat -> value B dividend < value B divisor * 2 ^ (Z.of_nat fuel - 1) ->
  (1 <= fi)%nat -> value B dividend < value B divisor * 2 ^ Z.of_nat fi ->
  let q := value B dividend / value B divisor in
  yields (div_outer_digits L false fi fuel dividend divisor r k)
    (fun p => value B (fst p) = value B r + q /\ snd p = (k + list_sum (map (cost B (value B divisor)) (ones q)))%nat).
Proof.
  intros [Ds Cs] Hpos. induction fuel as [|f IH]; intros dividend r k0 [Dd Cd] Dr Cr Hf Hfuel Hfi Hfuel' Q; [lia|].
  cbn [div_outer_digits].
  eapply yields_bind with (Q := fun c => c = (value B divisor <=? value B dividend)).
  { eapply yields_pure; [apply (abs_val_is_ge_pure B HB' dividend divisor Dd Ds)|]. apply geb_canonical; auto. }
  intros c ->. pose proof (value_bounds B HB' dividend Dd) as Vd.
  destruct (Z.leb_spec (value B divisor) (value B dividend)) as [Hge|Hlt].
  - eapply yields_bind with (Q := fun v => v = divisor); [apply yields_vcopy; auto|]. intros ? ->.
    eapply yields_bind with (Q := fun v => v = divisor); [apply yields_vcopy; auto|]. intros ? ->.
    assert (wrap (ws L) 1 = 1) as E1 by (pose proof (H2B L HD) as H2; cbv zeta in H2; fold B in H2; apply wrap_small; lia). rewrite E1.
    eapply yields_bind with (Q := fun v => v = [1]); [apply yields_vcopy; auto|]. intros ? ->.
    eapply yields_bind; [apply (shift_digits_spec divisor _ (conj Ds Cs))|]. intros [b1 k1] ([D1 C1] & V1 & K1). cbn [fst snd] in *.
    assert (k1 = k0 + cost B (value B divisor) 0)%nat as -> by (rewrite K1, cost_0, (length_width divisor (conj Ds Cs) Hpos); reflexivity).
    assert (cok [1]) as H1ok.
    { split; [constructor; [lia|constructor]|unfold canonical; cbn; lia]. }
    eapply yields_bind.
    { apply (inner_digits dividend divisor) with (fuel := fi) (b0 := divisor) (b1 := b1) (q := [1]) (j := 0%nat) (k := k0);
        try (split; assumption); try assumption; try lia.
      - cbn [value]; lia.
      - cbn [value]; lia.
      - destruct fi as [|fi']; [lia|]. rewrite double_pow in Hfuel'.
        replace (Z.of_nat (S fi') - 1) with (Z.of_nat fi') by lia. nia. }
    intros [[b0 q] k'] (k & [D0 C0] & [Dq Cq] & Vq & Vle & Vk & ->).
    assert (dividend <> []) as Hdn by (intros ->; cbn [value] in *; lia).
    assert (length b0 <= length dividend)%nat as Hlen.
    { destruct (Nat.le_gt_cases (length b0) (length dividend)) as [|Hgt]; auto.
      pose proof (length_lt_value B HB' dividend b0 Dd D0 C0 Hgt). lia. }
    destruct (abs_val_sub_other L HL dividend b0 Hdn Hlen) as (d' & Hp & Cd' & _ & Hd').
    destruct (Hd' Dd D0) as [Dd' Vd']. fold B in Dd', Vd'.
    rewrite (proj2 (Z.leb_le _ _)) in Vd' by lia.
    eapply yields_bind with (Q := fun v => v = d'); [eapply yields_pure; [exact Hp|reflexivity]|]. intros ? ->.
    eapply yields_bind with (Q := fun r' => digits_ok B r' /\ weak_canonical r' /\
                                            value B r' = value B r + value B q).
    { destruct (length q <=? length r)%nat.
      - eapply yields_mono; [apply (abs_val_add_other L HL r q Dr Dq)|].
        intros r' (Dr' & Vr' & Gr'). fold B in Dr', Vr'. repeat split; auto.
        eapply (grown_canonical L HL r q); eauto. left; auto.
      - eapply yields_mono; [apply (abs_val_add_other L HL q r Dq Dr)|].
        intros r' (Dr' & Vr' & Gr'). fold B in Dr', Vr'. repeat split; auto; [|lia].
        eapply (grown_canonical L HL q r); eauto. left; auto. }
    intros r' (Dr' & Cr' & Vr').
    destruct f as [|f'].
    { exfalso. change (Z.of_nat 1 - 1) with 0 in Hfuel. rewrite Z.pow_0_r in Hfuel. lia. }
    eapply yields_mono.
    { apply IH with (r := r'); try (split; assumption); try assumption; try lia.
      replace (Z.of_nat (S (S f')) - 1) with (Z.of_nat (S f')) in Hfuel by lia. rewrite double_pow in Hfuel.
      replace (Z.of_nat (S f') - 1) with (Z.of_nat f') by lia. nia. }
    intros [r'' c] [V'' E'']. cbn [fst snd] in *.
    assert (value B d' / value B divisor = Q - 2 ^ Z.of_nat k) as EQ.
    { unfold Q. rewrite Vd', Vq, Vk.
      replace (value B dividend) with ((value B dividend - value B divisor * 2 ^ Z.of_nat k) + 2 ^ Z.of_nat k * value B divisor) at 2 by ring.
      rewrite Z.div_add by lia. lia. }
    assert (2 ^ Z.of_nat k <= Q < 2 * 2 ^ Z.of_nat k) as HQ.
    { unfold Q. split; [apply Z.div_le_lower_bound; lia|apply Z.div_lt_upper_bound; nia]. }
    assert (Z.log2 Q = Z.of_nat k) as Elog by (apply Z.log2_unique; [lia|rewrite Z.pow_succ_r by lia; lia]).
    assert (0 < 2 ^ Z.of_nat k) by (apply Z.pow_pos_nonneg; lia).
    rewrite (ones_top Q) by lia. rewrite Elog, Nat2Z.id. rewrite <- EQ. rewrite V'', E'', Vr', Vk, EQ. split; [lia|].
    rewrite map_app. cbn [map]. rewrite sum_snoc. lia.
  - apply yields_ret. cbn [fst snd]. unfold Q. rewrite Z.div_small by lia. rewrite ones_0. cbn. split; [lia|]. lia.
Qed.

Theorem division_digits dividend divisor fuel : cok dividend -> cok divisor -> 0 < value B divisor ->
  enough_fuel (value B dividend) fuel ->
  let q := value B dividend / value B divisor in
  yields (abs_val_div_digits L false fuel dividend divisor)
    (fun p => value B (fst p) = q /\ snd p = list_sum (map (cost B (value B divisor)) (ones q))).
Proof.
  intros Hd Hs Hpos Hf q. unfold enough_fuel in Hf. unfold abs_val_div_digits.
  eapply yields_bind with (Q := fun v => v = [0]); [apply yields_vcopy; auto|]. intros ? ->.
  pose proof (Z.log2_nonneg (value B dividend)).
  pose proof (value_bounds B HB' dividend (proj1 Hd)) as Vd.
  assert (value B dividend < 2 ^ (Z.of_nat fuel - 1)) as Hlog.
  { destruct (Z.eq_dec (value B dividend) 0) as [->|Hn].
    - apply Z.pow_pos_nonneg; lia.
    - destruct (Z.log2_spec (value B dividend)) as [_ Hu]; [lia|].
      eapply Z.lt_le_trans; [exact Hu|]. apply Z.pow_le_mono_r; lia. }
  eapply yields_mono.
  - apply (outer_digits divisor fuel Hs Hpos); auto.
    + constructor; [lia|constructor].
    + apply weak_canonical_0.
    + lia.
    + nia.
    + lia.
    + assert (2 ^ (Z.of_nat fuel - 1) <= 2 ^ Z.of_nat fuel) by (apply Z.pow_le_mono_r; lia). nia.
  - intros p (Vp & Ep). split; [rewrite Vp; cbn [value]; unfold q; lia|]. rewrite Ep. reflexivity.
Qed.

End Proof.
