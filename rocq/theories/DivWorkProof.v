(** * The work of a division: lemmas *)
From Verif Require Import Base Spec Limits Compare AddSub Division Outcome DivWork.
From Verif Require Import Wp ValueProof CompareProof AddSubProof DivisionProof.

(** the run without the count *)
Definition without_count {A B} (r : res (A * B)) : res A :=
  match r with Ret (a, _) n => Ret a n | Throw e n => Throw e n | Undef u => Undef u | NoFuel => NoFuel end.

Lemma inner_erases L : forall fuel d b0 b1 q k al n,
  without_count (div_inner_counted L fuel d b0 b1 q k al n) = div_inner L fuel d b0 b1 q al n.
Proof.
  induction fuel as [|f IH]; intros; cbn [div_inner div_inner_counted]; [reflexivity|]. unfold bind.
  destruct (abs_val_is_ge d b1 al n) as [[|] n1|e n1|u|]; try reflexivity.
  destruct (vcopy b1 al n1) as [v n2|e n2|u|]; try reflexivity.
  destruct (shift_left_1 L b1 al n2) as [v1 n3|e n3|u|]; try reflexivity.
  destruct (shift_left_1 L q al n3) as [v2 n4|e n4|u|]; try reflexivity. apply IH.
Qed.

Lemma outer_erases L dbg fi : forall fuel d s r o i al n,
  without_count (div_outer_counted L dbg fi fuel d s r o i al n) = div_outer L dbg fi fuel d s r al n.
Proof.
  induction fuel as [|f IH]; intros; cbn [div_outer div_outer_counted]; [reflexivity|]. unfold bind.
  destruct (abs_val_is_ge d s al n) as [[|] n1|e n1|u|]; try reflexivity.
  destruct (vcopy s al n1) as [v n2|e n2|u|]; try reflexivity.
  destruct (vcopy s al n2) as [v' n3|e n3|u|]; try reflexivity.
  destruct (vcopy [wrap (ws L) 1] al n3) as [v1 n4|e n4|u|]; try reflexivity.
  destruct (shift_left_1 L v' al n4) as [v2 n5|e n5|u|]; try reflexivity.
  rewrite <- (inner_erases L fi d v v2 v1 0 al n5).
  destruct (div_inner_counted L fi d v v2 v1 0 al n5) as [[[b0 q] k] n6|e n6|u|]; try reflexivity. cbn [without_count fst snd].
  destruct (abs_val_sub L dbg d (other b0) al n6) as [d' n7|e n7|u|]; try reflexivity.
  match goal with |- context [match ?m al n7 with _ => _ end] => destruct (m al n7) as [r' n8|e n8|u|] end; try reflexivity. apply IH.
Qed.

Lemma division_erases L dbg fuel d s al n :
  without_count (abs_val_div_counted L dbg fuel d s al n) = abs_val_div L dbg fuel d s al n.
Proof.
  unfold abs_val_div_counted, abs_val_div, bind. destruct (vcopy [0] al n) as [r n1|e n1|u|]; try reflexivity. apply outer_erases.
Qed.

(** ** The one bits of a number *)
Definition ones (q : Z) : list nat := filter (fun i => Z.testbit q (Z.of_nat i)) (seq 0 (Z.to_nat (Z.log2 q + 1))).

Lemma filter_none {A} (f : A -> bool) l : (forall x, In x l -> f x = false) -> filter f l = [].
Proof.
  induction l as [|x l IH]; intros H; [reflexivity|]. cbn [filter]. rewrite (H x) by (left; reflexivity).
  apply IH. intros y Hy. apply H. right. exact Hy.
Qed.

Lemma ones_any q m : 0 <= q -> q < 2 ^ Z.of_nat m -> filter (fun i => Z.testbit q (Z.of_nat i)) (seq 0 m) = ones q.
Proof.
  intros Hq Hm. unfold ones. destruct (Z.eq_dec q 0) as [->|N].
  - rewrite !filter_none; auto; intros i _; apply Z.testbit_0_l.
  - assert (Z.log2 q < Z.of_nat m) by (apply Z.log2_lt_pow2; lia). pose proof (Z.log2_nonneg q).
    set (l := Z.to_nat (Z.log2 q + 1)). replace m with (l + (m - l))%nat by (unfold l; lia).
    rewrite seq_app, filter_app, (filter_none _ (seq (0 + l) (m - l))), app_nil_r; [reflexivity|].
    intros i Hi. apply in_seq in Hi. apply Z.bits_above_log2; unfold l in *; lia.
Qed.

Lemma ones_0 : ones 0 = [].
Proof. reflexivity. Qed.

(** removing the highest one bit *)
Lemma ones_top q : 0 < q -> ones q = ones (q - 2 ^ Z.log2 q) ++ [Z.to_nat (Z.log2 q)].
Proof.
  intros Hq. pose proof (Z.log2_nonneg q). pose proof (Z.log2_spec q Hq) as [H1 H2].
  rewrite Z.pow_succ_r in H2 by lia.
  rewrite <- (ones_any (q - 2 ^ Z.log2 q) (Z.to_nat (Z.log2 q))) by (try rewrite Z2Nat.id; lia).
  unfold ones. replace (Z.to_nat (Z.log2 q + 1)) with (Z.to_nat (Z.log2 q) + 1)%nat by lia.
  rewrite seq_app, filter_app. cbn [seq filter]. rewrite Nat.add_0_l, Z2Nat.id, Z.bit_log2 by lia. f_equal.
  apply filter_ext_in. intros i Hi. apply in_seq in Hi.
  replace q with ((q - 2 ^ Z.log2 q) + 1 * 2 ^ Z.log2 q) at 1 by lia.
  rewrite <- (Z.mod_pow2_bits_low _ (Z.log2 q)) by lia. rewrite Z.mod_add by lia. apply Z.mod_pow2_bits_low. lia.
Qed.

Lemma double_pow (n : nat) : 2 ^ Z.of_nat (S n) = 2 * 2 ^ Z.of_nat n.
Proof. rewrite Nat2Z.inj_succ, Z.pow_succ_r by lia. reflexivity. Qed.

Section Proof.
Context (L : limits) (HD : can_double L = true).
Let B := base L.
Let HL : limits_ok L = true := DivisionProof.HL L HD.
Let HB' : 2 <= B := AddSubProof.HB L HL.
Let cok v := digits_ok B v /\ canonical v.

Theorem inner_counted dividend divisor : cok dividend -> cok divisor -> 0 < value B divisor ->
  forall fuel b0 b1 q k, cok b0 -> cok b1 -> cok q ->
  value B b0 = value B divisor * value B q -> value B b1 = 2 * value B b0 -> value B q = 2 ^ Z.of_nat k ->
  0 < value B b0 <= value B dividend ->
  (1 <= fuel)%nat -> value B dividend < value B b1 * 2 ^ (Z.of_nat fuel - 1) ->
  yields (div_inner_counted L fuel dividend b0 b1 q k)
    (fun r => let '(b, q', k') := r in cok b /\ cok q' /\ value B b = value B divisor * value B q' /\
              value B b <= value B dividend < 2 * value B b /\ value B q' = 2 ^ Z.of_nat k').
Proof.
  intros [Dd Cd] [Ds Cs] Hpos. induction fuel as [|f IH]; intros b0 b1 q k [D0 C0] [D1 C1] [Dq Cq] Hb0 Hb1 Hq Hle Hf Hfuel;
    [lia|]. cbn [div_inner_counted].
  eapply yields_bind with (Q := fun c => c = (value B b1 <=? value B dividend)).
  { eapply yields_pure; [apply (abs_val_is_ge_pure B HB' dividend b1 Dd D1)|]. apply geb_canonical; auto. }
  intros c ->. destruct (Z.leb_spec (value B b1) (value B dividend)) as [Hge|Hlt].
  - eapply yields_bind with (Q := fun v => v = b1); [apply yields_vcopy; auto|]. intros ? ->.
    eapply yields_bind; [apply (shift_left_1_spec L HD b1 D1 C1)|]. intros b1' (D1' & C1' & V1').
    eapply yields_bind; [apply (shift_left_1_spec L HD q Dq Cq)|]. intros q' (Dq' & Cq' & Vq'). fold B in V1', Vq'.
    destruct f as [|f'].
    { exfalso. change (Z.of_nat 1 - 1) with 0 in Hfuel. rewrite Z.pow_0_r in Hfuel. lia. }
    apply IH; try (split; assumption); try lia.
    + rewrite Vq', Hq. rewrite double_pow. lia.
    + replace (Z.of_nat (S (S f')) - 1) with (Z.of_nat (S f')) in Hfuel by lia. rewrite double_pow in Hfuel.
      replace (Z.of_nat (S f') - 1) with (Z.of_nat f') by lia. nia.
  - apply yields_ret. repeat split; auto; lia.
Qed.

Theorem outer_counted divisor fi : cok divisor -> 0 < value B divisor ->
  forall fuel dividend r o i, cok dividend -> digits_ok B r -> weak_canonical r ->
  (1 <= fuel)%nat -> value B dividend < value B divisor * 2 ^ (Z.of_nat fuel - 1) ->
  (1 <= fi)%nat -> value B dividend < value B divisor * 2 ^ Z.of_nat fi ->
  let q := value B dividend / value B divisor in
  yields (div_outer_counted L false fi fuel dividend divisor r o i)
    (fun p => value B (fst p) = value B r + q /\ snd p = (o + length (ones q), i + list_sum (ones q))%nat).
Proof.
  intros [Ds Cs] Hpos. induction fuel as [|f IH]; intros dividend r o i [Dd Cd] Dr Cr Hf Hfuel Hfi Hfuel' Q; [lia|].
  cbn [div_outer_counted].
  eapply yields_bind with (Q := fun c => c = (value B divisor <=? value B dividend)).
  { eapply yields_pure; [apply (abs_val_is_ge_pure B HB' dividend divisor Dd Ds)|]. apply geb_canonical; auto. }
  intros c ->. pose proof (value_bounds B HB' dividend Dd) as Vd.
  destruct (Z.leb_spec (value B divisor) (value B dividend)) as [Hge|Hlt].
  - eapply yields_bind with (Q := fun v => v = divisor); [apply yields_vcopy; auto|]. intros ? ->.
    eapply yields_bind with (Q := fun v => v = divisor); [apply yields_vcopy; auto|]. intros ? ->.
    assert (wrap (ws L) 1 = 1) as E1 by (pose proof (H2B L HD) as H2; cbv zeta in H2; fold B in H2; apply wrap_small; lia). rewrite E1.
    eapply yields_bind with (Q := fun v => v = [1]); [apply yields_vcopy; auto|]. intros ? ->.
    eapply yields_bind; [apply (shift_left_1_spec L HD divisor Ds Cs)|]. intros b1 (D1 & C1 & V1). fold B in V1.
    assert (cok [1]) as H1ok.
    { split; [constructor; [lia|constructor]|unfold canonical; cbn; lia]. }
    eapply yields_bind.
    { apply (inner_counted dividend divisor) with (fuel := fi) (b0 := divisor) (b1 := b1) (q := [1]) (k := 0%nat);
        try (split; assumption); try assumption; try lia.
      - cbn [value]; lia.
      - cbn [value]; lia.
      - destruct fi as [|fi']; [lia|]. rewrite double_pow in Hfuel'.
        replace (Z.of_nat (S fi') - 1) with (Z.of_nat fi') by lia. nia. }
    intros [[b0 q] k] ([D0 C0] & [Dq Cq] & Vq & Vle & Vk).
    assert (dividend <> []) as Hdn by (intros ->; cbn [value] in *; lia).
    assert (length b0 <= length dividend)%nat as Hlen.
    { destruct (Nat.le_gt_cases (length b0) (length dividend)) as [|Hgt]; auto.
      pose proof (length_lt_value B HB' dividend b0 Dd D0 C0 Hgt). lia. }
    destruct (abs_val_sub_other L HL dividend b0 Hdn Hlen) as (d' & Hp & Cd' & _ & Hd').
    destruct (Hd' Dd D0) as [Dd' Vd']. fold B in Dd', Vd'.
    rewrite (proj2 (Z.leb_le _ _)) in Vd' by lia.
    eapply yields_bind with (Q := fun v => v = d'); [eapply yields_pure; [exact Hp|reflexivity]|]. intros ? ->.
    eapply yields_bind with (Q := fun r' => digits_ok B r' /\ weak_canonical r' /\
                                            value B r' = value B r + value B q).
    { destruct (length q <=? length r)%nat.
      - eapply yields_mono; [apply (abs_val_add_other L HL r q Dr Dq)|].
        intros r' (Dr' & Vr' & Gr'). fold B in Dr', Vr'. repeat split; auto.
        eapply (grown_canonical L HL r q); eauto. left; auto.
      - eapply yields_mono; [apply (abs_val_add_other L HL q r Dq Dr)|].
        intros r' (Dr' & Vr' & Gr'). fold B in Dr', Vr'. repeat split; auto; [|lia].
        eapply (grown_canonical L HL q r); eauto. left; auto. }
    intros r' (Dr' & Cr' & Vr').
    destruct f as [|f'].
    { exfalso. change (Z.of_nat 1 - 1) with 0 in Hfuel. rewrite Z.pow_0_r in Hfuel. lia. }
    eapply yields_mono.
    { apply IH with (r := r'); try (split; assumption); try assumption; try lia.
      replace (Z.of_nat (S (S f')) - 1) with (Z.of_nat (S f')) in Hfuel by lia. rewrite double_pow in Hfuel.
      replace (Z.of_nat (S f') - 1) with (Z.of_nat f') by lia. nia. }
    intros [r'' c] [V'' E'']. cbn [fst snd] in *.
    assert (value B d' / value B divisor = Q - 2 ^ Z.of_nat k) as EQ.
    { unfold Q. rewrite Vd', Vq, Vk.
      replace (value B dividend) with ((value B dividend - value B divisor * 2 ^ Z.of_nat k) + 2 ^ Z.of_nat k * value B divisor) at 2 by ring.
      rewrite Z.div_add by lia. lia. }
    assert (2 ^ Z.of_nat k <= Q < 2 * 2 ^ Z.of_nat k) as HQ.
    { unfold Q. split; [apply Z.div_le_lower_bound; lia|apply Z.div_lt_upper_bound; nia]. }
    assert (Z.log2 Q = Z.of_nat k) as Elog by (apply Z.log2_unique; [lia|rewrite Z.pow_succ_r by lia; lia]).
    assert (0 < 2 ^ Z.of_nat k) by (apply Z.pow_pos_nonneg; lia).
    rewrite (ones_top Q) by lia. rewrite Elog, Nat2Z.id. rewrite <- EQ. rewrite V'', E'', Vr', Vk, EQ. split; [lia|].
    rewrite app_length, list_sum_app. cbn [length list_sum fold_right]. f_equal; lia.
  - apply yields_ret. cbn [fst snd]. unfold Q. rewrite Z.div_small by lia. rewrite ones_0. cbn. split; [lia|]. f_equal; lia.
Qed.

Theorem division_counted dividend divisor fuel : cok dividend -> cok divisor -> 0 < value B divisor ->
  enough_fuel (value B dividend) fuel ->
  let q := value B dividend / value B divisor in
  yields (abs_val_div_counted L false fuel dividend divisor)
    (fun p => value B (fst p) = q /\ snd p = (length (ones q), list_sum (ones q))).
Proof.
  intros Hd Hs Hpos Hf q. unfold enough_fuel in Hf. unfold abs_val_div_counted.
  eapply yields_bind with (Q := fun v => v = [0]); [apply yields_vcopy; auto|]. intros ? ->.
  pose proof (Z.log2_nonneg (value B dividend)).
  pose proof (value_bounds B HB' dividend (proj1 Hd)) as Vd.
  assert (value B dividend < 2 ^ (Z.of_nat fuel - 1)) as Hlog.
  { destruct (Z.eq_dec (value B dividend) 0) as [->|Hn].
    - apply Z.pow_pos_nonneg; lia.
    - destruct (Z.log2_spec (value B dividend)) as [_ Hu]; [lia|].
      eapply Z.lt_le_trans; [exact Hu|]. apply Z.pow_le_mono_r; lia. }
  eapply yields_mono.
  - apply (outer_counted divisor fuel Hs Hpos); auto.
    + constructor; [lia|constructor].
    + apply weak_canonical_0.
    + lia.
    + nia.
    + lia.
    + assert (2 ^ (Z.of_nat fuel - 1) <= 2 ^ Z.of_nat fuel) by (apply Z.pow_le_mono_r; lia). nia.
  - intros p (Vp & Ep). split; [rewrite Vp; cbn [value]; unfold q; lia|]. rewrite Ep. reflexivity.
Qed.

End Proof.

(** ** Bounds *)
Lemma sum_seq k : (2 * list_sum (seq 0 k) = k * (k - 1))%nat.
Proof.
  induction k as [|k IH]; [reflexivity|]. rewrite seq_S, list_sum_app. cbn [list_sum fold_right]. destruct k; [reflexivity|]. nia.
Qed.

Lemma filter_sum (f : nat -> bool) l : (list_sum (filter f l) <= list_sum l)%nat.
Proof. induction l as [|x l IH]; [reflexivity|]. cbn [filter]. destruct (f x); cbn [list_sum fold_right] in *; unfold list_sum in *; lia. Qed.

Lemma filter_le {A} (f : A -> bool) l : (length (filter f l) <= length l)%nat.
Proof. induction l as [|x l IH]; [reflexivity|]. cbn [filter]. destruct (f x); cbn [length]; lia. Qed.

Lemma filter_all {A} (f : A -> bool) l : (forall x, In x l -> f x = true) -> filter f l = l.
Proof.
  induction l as [|x l IH]; intros H; [reflexivity|]. cbn [filter]. rewrite (H x) by (left; reflexivity). f_equal.
  apply IH. intros y Hy. apply H. right. exact Hy.
Qed.
