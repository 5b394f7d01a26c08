(** * Proofs about mul_naive *)
From Verif Require Import Base Spec Conv Limits Fourier Multiplication Outcome Wp ValueProof.

Section Naive.
Context (L : limits).
Let B := base L.

Lemma index_small i j m : Z.of_nat m <= 2 ^ 32 -> (i + j < m)%nat ->
  Z.to_nat (wrap 32 (Z.of_nat i + Z.of_nat j)) = (i + j)%nat.
Proof. intros H H1. unfold wrap. rewrite Z.mod_small by lia. lia. Qed.

Lemma nth_error_split3 (a1 : list Z) x a2 : nth_error (a1 ++ x :: a2) (length a1) = Some x.
Proof. rewrite nth_error_app2, Nat.sub_diag by lia. reflexivity. Qed.

(** ** types whose squared base fits the digit *)
Section Fits.
Hypothesis HL : limits_ok L = true.
Hypothesis Hsq : B * B <= 2 ^ ws L.
Hypothesis H64 : ws L <= 64.

Lemma fits_facts : 2 <= B /\ B <= 2 ^ 32 /\ B < 2 ^ wd L /\ 0 < ws L.
Proof.
  unfold limits_ok in HL. rewrite !andb_true_iff, !Z.ltb_lt, !Z.leb_le, Z.eqb_eq in HL.
  fold B in HL. destruct HL as (((((H1 & H2) & H3) & H4) & H5) & H6).
  assert (2 <= B) by (unfold B, base; lia).
  assert (B * B <= 2 ^ 64) by (etransitivity; [exact Hsq|apply Z.pow_le_mono_r; lia]).
  repeat split; try lia; nia.
Qed.

Lemma digit_mul_fits x y : 0 <= x < B -> 0 <= y < B -> digit_mul L x y = ret (x * y).
Proof.
  intros Hx Hy. pose proof fits_facts as (F1 & F2 & F3 & F4). unfold digit_mul.
  destruct (Z.ltb_spec (ws L) 32); cbn [andb]; [|reflexivity].
  assert (2 ^ ws L <= 2 ^ 31) by (apply Z.pow_le_mono_r; lia).
  rewrite (proj2 (Z.leb_gt _ _)) by nia. reflexivity.
Qed.

Lemma nb_eq : wrap (wd L) (bmax L + 1) = B.
Proof. pose proof fits_facts as (F1 & F2 & F3 & F4). unfold wrap. apply Z.mod_small. unfold B, base in *. lia. Qed.

Lemma naive_row_fits bi i : 0 <= bi < B -> forall a' a1 u w t rem,
  Z.of_nat (i + length a1 + length a') <= 2 ^ 32 ->
  length u = (i + length a1)%nat -> length w = length a' ->
  digits_ok B a' -> digits_ok B w -> 0 <= rem < B ->
  exists w' rem', pure (naive_row L (a1 ++ a') bi i (length a') (length a1) (u ++ w ++ t) rem) (u ++ w' ++ t, rem') /\
    length w' = length a' /\ digits_ok B w' /\ 0 <= rem' < B /\
    value B w' + B ^ Z.of_nat (length a') * rem' = value B w + bi * value B a' + rem.
Proof.
  intros Hbi. pose proof fits_facts as (F1 & F2 & F3 & F4).
  induction a' as [|x a' IH]; intros a1 u w t rem Hlen Hu Hw Da Dw Hr.
  - destruct w; [|discriminate]. exists [], rem. cbn [naive_row length]. split; [apply pure_ret|].
    repeat split; auto; try lia. cbn [value]. rewrite Z.pow_0_r. lia.
  - destruct w as [|y w]; [discriminate|]. cbn [length] in *.
    inversion Da as [|? ? Hx Da']; subst. inversion Dw as [|? ? Hy Dw']; subst.
    set (s := y + (rem + x * bi)).
    assert (0 <= s < B * B) as Hs by (unfold s; nia).
    destruct (IH (a1 ++ [x]) (u ++ [s mod B]) w t (s / B)) as (w' & rem' & Hp & Hl & Dw2 & Hr2 & Hv); auto.
    { rewrite app_length. cbn. lia. }
    { rewrite !app_length. cbn. lia. }
    { split; [apply Z.div_pos; lia|apply Z.div_lt_upper_bound; lia]. }
    exists (s mod B :: w'), rem'. split; [|split; [cbn; lia|split; [|split; [lia|]]]].
    + cbn [naive_row]. rewrite (index_small i (length a1) (i + length a1 + S (length a'))) by lia.
      eapply pure_bind; [apply pure_vget, nth_error_split3|].
      rewrite digit_mul_fits by auto. eapply pure_bind; [apply pure_ret|].
      rewrite <- Hu. cbn [app]. rewrite vget_app. eapply pure_bind; [apply pure_ret|].
      rewrite nb_eq. rewrite (proj2 (Z.eqb_neq _ _)) by lia. fold s.
      assert (wrap (ws L) s = s) as -> by (unfold wrap; apply Z.mod_small; lia).
      rewrite vset_app. eapply pure_bind; [apply pure_ret|].
      assert (wrap 32 (s / B) = s / B) as ->.
      { unfold wrap. apply Z.mod_small. split; [apply Z.div_pos; lia|]. 
        assert (s / B < B) by (apply Z.div_lt_upper_bound; lia). lia. }
      rewrite <- !app_assoc in Hp. rewrite app_length in Hp. cbn [app length] in Hp.
      replace (length a1 + 1)%nat with (S (length a1)) in Hp by lia. exact Hp.
    + constructor; auto. apply Z.mod_pos_bound. lia.
    + rewrite Nat2Z.inj_succ, Z.pow_succ_r by lia. cbn [value].
      assert (s = B * (s / B) + s mod B) by (apply Z.div_mod; lia). unfold s at 1 in H. nia.
Qed.

Lemma naive_rows_fits a : Z.of_nat (length a) < 2 ^ 32 -> digits_ok B a -> forall b' b1 u w,
  Z.of_nat (length a + length b1 + length b') <= 2 ^ 32 ->
  digits_ok B b' -> length u = length b1 -> length w = length a -> digits_ok B w ->
  exists w', pure (naive_rows L a (b1 ++ b') (length b') (length b1) (u ++ w ++ repeat 0 (length b'))) (u ++ w') /\
    length w' = (length a + length b')%nat /\ digits_ok B w' /\
    value B w' = value B w + value B a * value B b'.
Proof.
  intros La Da. pose proof fits_facts as (F1 & F2 & F3 & F4).
  induction b' as [|y b' IH]; intros b1 u w Hlen Db Hu Hw Dw.
  - exists w. cbn [naive_rows length repeat]. rewrite app_nil_r. split; [apply pure_ret|].
    split; [lia|]. split; auto. cbn [value]. ring.
  - inversion Db as [|? ? Hy Db']; subst. cbn [length] in *. cbn [repeat].
    destruct (naive_row_fits y (length b1) Hy a [] u w (0 :: repeat 0 (length b')) 0)
      as (w2 & rem & Hp & Hl2 & Dw2 & Hr & Hv); auto; try (cbn; lia).
    cbn [app length] in Hp.
    (* the digit above the row *)
    assert (exists h w3, w2 ++ [rem] = h :: w3) as (h & w3 & Ew).
    { destruct w2 as [|h w2]; [exists rem, []|exists h, (w2 ++ [rem])]; reflexivity. }
    assert (digits_ok B (h :: w3)) as Dh by (rewrite <- Ew; apply Forall_app; split; [auto|repeat constructor; lia]).
    inversion Dh as [|? ? Hh Dw3]; subst.
    assert (length w3 = length a) as Lw3.
    { apply (f_equal (@length Z)) in Ew. rewrite app_length in Ew. cbn in Ew. lia. }
    destruct (IH (b1 ++ [y]) (u ++ [h]) w3) as (w' & Hp2 & Hl & Dw' & Hv2); auto.
    { rewrite app_length. cbn. lia. }
    { rewrite !app_length. cbn. lia. }
    exists (h :: w'). split; [|split; [cbn; lia|split; [constructor; auto|]]].
    + cbn [naive_rows]. eapply pure_bind with (a := match a with [] => 0 | _ => y end).
      { destruct a; [apply pure_ret|apply pure_vget, nth_error_split3]. }
      eapply pure_bind with (a := (u ++ w2 ++ 0 :: repeat 0 (length b'), rem)).
      { destruct a as [|x a]; [|exact Hp]. destruct w; [|discriminate]. destruct w2; [|discriminate].
        cbn [value length] in Hv. cbn [naive_row length app]. assert (rem = 0) as -> by lia. apply pure_ret. }
      cbn [fst snd]. rewrite <- Hu, app_assoc, <- Hl2, <- app_length, vget_app.
      eapply pure_bind; [apply pure_ret|]. rewrite vset_app. eapply pure_bind; [apply pure_ret|].
      assert (wrap (ws L) (0 + rem) = rem) as -> by (unfold wrap; apply Z.mod_small; nia).
      rewrite <- !app_assoc in Hp2. rewrite app_length in Hp2. cbn [app length] in Hp2.
      replace (length b1 + 1)%nat with (S (length b1)) in Hp2 by lia.
      rewrite <- app_assoc. change (w2 ++ rem :: repeat 0 (length b')) with (w2 ++ [rem] ++ repeat 0 (length b')).
      rewrite (app_assoc w2), Ew, Hu. exact Hp2.
    + cbn [value]. rewrite Hv2.
      assert (value B (w2 ++ [rem]) = h + B * value B w3) as E by (rewrite Ew; reflexivity).
      rewrite value_snoc, Hl2 in E. nia.
Qed.

Lemma mul_naive_fits a b : digits_ok B a -> digits_ok B b -> Z.of_nat (length a + length b) <= 2 ^ 32 ->
  (length a <> O -> Z.of_nat (length b) < 2 ^ 32) -> (length b <> O -> Z.of_nat (length a) < 2 ^ 32) ->
  Z.of_nat (length b) < 2 ^ 32 ->
  yields (mul_naive L a b) (fun r => length r = (length a + length b)%nat /\ digits_ok B r /\
    value B r = value B a * value B b).
Proof.
  intros Da Db Hlen _ H1 H2. unfold mul_naive.
  destruct (Nat.eqb_spec (length a + length b) 0) as [E|E].
  - apply yields_ret. destruct a; [|discriminate]. repeat split; auto.
  - eapply yields_bind; [apply (yields_alloc (fun _ => True)); exact I|]. intros _ _.
    rewrite (proj2 (Z.leb_gt _ _)) by lia.
    destruct b as [|y b].
    + cbn [length Z.of_nat Z.ltb Z.compare]. rewrite andb_false_r. cbn [orb naive_rows length].
      apply yields_ret. rewrite Nat.add_0_r. split; [apply repeat_length|]. split.
      * apply Forall_forall. intros x Hx. apply repeat_spec in Hx. subst. pose proof fits_facts. lia.
      * cbn [value]. rewrite Z.mul_0_r. generalize (length a) as n. induction n as [|n IH]; [reflexivity|].
        cbn [repeat value]. rewrite IH. ring.
    + rewrite (proj2 (Z.leb_gt _ _)) by (apply H1; discriminate). cbn [andb orb].
      remember (y :: b) as bb eqn:Ebb.
      destruct (naive_rows_fits a ltac:(apply H1; subst; discriminate) Da bb [] [] (repeat 0 (length a))) as (w' & Hp & Hl & Dw & Hv); auto.
      { cbn. lia. }
      { apply repeat_length. }
      { apply Forall_forall. intros x Hx. apply repeat_spec in Hx. subst. pose proof fits_facts. lia. }
      cbn [app length] in Hp. rewrite <- repeat_app in Hp. eapply yields_pure; [exact Hp|].
      cbn [app]. repeat split; auto. rewrite Hv.
      assert (forall n, value B (repeat 0 n) = 0) as ->; [|ring].
      induction n as [|n IH]; [reflexivity|]. cbn [repeat value]. rewrite IH. ring.
Qed.

End Fits.

(** ** full-width types *)
Section Full.
Hypothesis HL : full_width L = true.

Lemma full_facts : 2 <= B /\ B = 2 ^ ws L /\ B < 2 ^ wd L /\ 0 < ws L.
Proof.
  unfold full_width in HL. rewrite andb_true_iff, Z.eqb_eq in HL. destruct HL as [H E]. fold B in E.
  unfold limits_ok in H. rewrite !andb_true_iff, !Z.ltb_lt, !Z.leb_le, Z.eqb_eq in H.
  destruct H as (((((H1 & H2) & H3) & H4) & H5) & H6). fold B in H5, H6.
  assert (2 <= B) by (unfold B, base; lia). repeat split; lia.
Qed.

(** no promoted product overflows an int *)
Definition no_int_overflow (a b : list Z) : Prop :=
  ws L < 32 -> forall x y, In x a -> In y b -> x * y < 2 ^ 31.

Lemma nb_full : wrap (wd L) (bmax L + 1) = B.
Proof. pose proof full_facts as (F1 & F2 & F3 & F4). unfold wrap. apply Z.mod_small. unfold B, base in *. lia. Qed.

Fixpoint row_digits (w a : list Z) (bi : Z) : list Z :=
  match w, a with
  | y :: w, x :: a => (y + x * bi) mod B :: row_digits w a bi
  | _, _ => []
  end.

Lemma row_digits_length w : forall a bi, length w = length a -> length (row_digits w a bi) = length a.
Proof. induction w as [|y w IH]; intros [|x a] bi H; cbn in *; try discriminate; auto. Qed.

Lemma naive_row_full bi i : forall a' a1 u w t,
  Z.of_nat (i + length a1 + length a') <= 2 ^ 32 -> (ws L < 32 -> forall x, In x a' -> x * bi < 2 ^ 31) ->
  length u = (i + length a1)%nat -> length w = length a' ->
  pure (naive_row L (a1 ++ a') bi i (length a') (length a1) (u ++ w ++ t) 0) (u ++ row_digits w a' bi ++ t, 0).
Proof.
  pose proof full_facts as (F1 & F2 & F3 & F4).
  induction a' as [|x a' IH]; intros a1 u w t Hlen Ho Hu Hw.
  - destruct w; [|discriminate]. cbn [naive_row length row_digits]. apply pure_ret.
  - destruct w as [|y w]; [discriminate|]. cbn [length] in *.
    cbn [naive_row row_digits]. rewrite (index_small i (length a1) (i + length a1 + S (length a'))) by lia.
    eapply pure_bind; [apply pure_vget, nth_error_split3|].
    assert (digit_mul L x bi = ret (x * bi)) as ->.
    { unfold digit_mul. destruct (Z.ltb_spec (ws L) 32); cbn [andb]; [|reflexivity].
      specialize (Ho H x (or_introl eq_refl)). rewrite (proj2 (Z.leb_gt _ _)) by lia. reflexivity. }
    eapply pure_bind; [apply pure_ret|].
    rewrite <- Hu. cbn [app]. rewrite vget_app. eapply pure_bind; [apply pure_ret|].
    rewrite nb_full. rewrite (proj2 (Z.eqb_neq _ _)) by lia.
    assert (wrap (ws L) (y + (0 + x * bi)) = (y + x * bi) mod B) as -> by (unfold wrap; rewrite <- F2; reflexivity).
    set (s := (y + x * bi) mod B). assert (0 <= s < B) by (apply Z.mod_pos_bound; lia).
    rewrite vset_app. eapply pure_bind; [apply pure_ret|].
    rewrite Z.mod_small, Z.div_small by lia. change (wrap 32 0) with 0.
    specialize (IH (a1 ++ [x]) (u ++ [s]) w t).
    rewrite <- !app_assoc in IH. rewrite !app_length in IH. cbn [app length] in IH.
    replace (length a1 + 1)%nat with (S (length a1)) in IH by lia. apply IH; try lia.
    intros K z Hz. apply Ho; auto. right; auto.
Qed.

Lemma row_digits_nth w : forall a bi k, length w = length a -> (k < length a)%nat ->
  nth k (row_digits w a bi) 0 = (nth k w 0 + bi * nth k a 0) mod B.
Proof.
  induction w as [|y w IH]; intros [|x a] bi k H Hk; cbn [length] in *; try lia.
  destruct k as [|k]; cbn [row_digits nth]; [f_equal; ring|apply IH; lia].
Qed.

Lemma naive_rows_full a : a <> [] -> forall b' b1 u w,
  no_int_overflow a b' ->
  Z.of_nat (length a + length b1 + length b') <= 2 ^ 32 ->
  length u = length b1 -> length w = length a -> digits_ok B w ->
  exists w', pure (naive_rows L a (b1 ++ b') (length b') (length b1) (u ++ w ++ repeat 0 (length b'))) (u ++ w') /\
    length w' = (length a + length b')%nat /\
    forall k, (k < length a + length b')%nat -> nth k w' 0 = (nth k w 0 + conv b' a k) mod B.
Proof.
  intros Na. pose proof full_facts as (F1 & F2 & F3 & F4).
  induction b' as [|y b' IH]; intros b1 u w Ho Hlen Hu Hw Dw.
  - exists w. cbn [naive_rows length repeat]. rewrite app_nil_r. split; [apply pure_ret|].
    split; [lia|]. intros k Hk. rewrite conv_nil_l, Z.add_0_r, Z.mod_small; auto. apply digits_nth; auto; lia.
  - cbn [length] in *. cbn [repeat].
    pose proof (naive_row_full y (length b1) a [] u w (0 :: repeat 0 (length b'))) as Hp.
    cbn [app length] in Hp. specialize (Hp ltac:(lia)).
    specialize (Hp ltac:(intros K x Hx; apply (Ho K); [auto|left; auto]) ltac:(lia) Hw).
    pose proof (row_digits_length w a y Hw) as Lr. set (w2 := row_digits w a y) in *.
    destruct w2 as [|h w3] eqn:Ew2; [destruct a; [congruence|discriminate]|].
    assert (length w3 = (length a - 1)%nat) as L3 by (cbn in Lr; lia).
    assert (digits_ok B (w3 ++ [0])) as D3.
    { apply Forall_app. split; [|repeat constructor; lia].
      assert (digits_ok B (h :: w3)) as D; [|inversion D; auto]. rewrite <- Ew2. unfold w2. clear -F1.
      revert a. induction w as [|z w IHw]; intros [|x a]; cbn [row_digits]; try constructor.
      - apply Z.mod_pos_bound. lia.
      - apply IHw. }
    destruct (IH (b1 ++ [y]) (u ++ [h]) (w3 ++ [0])) as (w' & Hp2 & Hl & Hv).
    { intros K x z Hx Hz. apply (Ho K); auto. right; auto. }
    { rewrite app_length. cbn. lia. }
    { rewrite !app_length. cbn. lia. }
    { rewrite app_length. cbn. destruct a; [congruence|cbn in *; lia]. }
    { exact D3. }
    exists (h :: w'). split; [|split; [cbn; lia|]].
    + cbn [naive_rows]. eapply pure_bind with (a := y).
      { destruct a; [congruence|]. apply pure_vget, nth_error_split3. }
      eapply pure_bind; [exact Hp|]. cbn [fst snd].
      rewrite <- Hu, app_assoc, <- Lr, <- app_length, vget_app.
      eapply pure_bind; [apply pure_ret|]. rewrite vset_app. eapply pure_bind; [apply pure_ret|].
      change (wrap (ws L) (0 + 0)) with 0.
      rewrite <- !app_assoc in Hp2. rewrite app_length in Hp2. cbn [app length] in Hp2.
      replace (length b1 + 1)%nat with (S (length b1)) in Hp2 by lia.
      rewrite <- app_assoc. cbn [app]. rewrite Hu. exact Hp2.
    + intros k Hk. assert (forall j, (j < length a)%nat -> nth j (h :: w3) 0 = (nth j w 0 + y * nth j a 0) mod B) as Hr.
      { intros j Hj. rewrite <- Ew2. apply row_digits_nth; auto. }
      destruct k as [|k].
      * rewrite conv_cons_0. cbn [nth]. apply (Hr 0%nat). destruct a; [congruence|cbn; lia].
      * rewrite conv_cons_S. cbn [nth]. rewrite Hv by lia.
        assert (nth k (w3 ++ [0]) 0 mod B = (nth (S k) w 0 + y * nth (S k) a 0) mod B) as E.
        { destruct (Nat.lt_ge_cases (S k) (length a)).
          - rewrite app_nth1 by lia. specialize (Hr (S k) H). cbn [nth] in Hr. rewrite Hr. apply Z.mod_mod. lia.
          - rewrite (nth_overflow w), (nth_overflow a) by lia. rewrite app_nth2 by lia.
            destruct (k - length w3)%nat as [|[|q]]; cbn [nth]; f_equal; ring. }
        rewrite <- Z.add_mod_idemp_l, E, Z.add_mod_idemp_l by lia. f_equal. ring.
Qed.

Lemma mul_naive_full a b : no_int_overflow a b -> Z.of_nat (length a + length b) <= 2 ^ 32 ->
  (length b <> O -> Z.of_nat (length a) < 2 ^ 32) -> Z.of_nat (length b) < 2 ^ 32 ->
  yields (mul_naive L a b) (fun r => r = map (fun k => conv a b k mod B) (seq 0 (length a + length b))).
Proof.
  intros Ho Hlen H1 H2. pose proof full_facts as (F1 & F2 & F3 & F4). unfold mul_naive.
  destruct (Nat.eqb_spec (length a + length b) 0) as [E|E].
  - apply yields_ret. rewrite E. reflexivity.
  - eapply yields_bind; [apply (yields_alloc (fun _ => True)); exact I|]. intros _ _.
    rewrite (proj2 (Z.leb_gt _ _)) by lia.
    assert (forall f n, (forall k, (k < n)%nat -> f k = 0) -> repeat 0 n = map f (seq 0 n)) as Z0.
    { intros f n Hf. apply nth_ext with (d := 0) (d' := 0); [rewrite map_length, seq_length; apply repeat_length|].
      intros k Hk. rewrite repeat_length in Hk. rewrite nth_repeat.
      rewrite (nth_indep _ 0 (f 0%nat)) by (rewrite map_length, seq_length; auto). rewrite map_nth, seq_nth by auto. rewrite Hf; auto. }
    destruct b as [|y b].
    + cbn [length Z.of_nat Z.ltb Z.compare]. rewrite andb_false_r. cbn [orb naive_rows length].
      apply yields_ret. apply Z0. intros k _. rewrite conv_nil_r. apply Zmod_0_l.
    + rewrite (proj2 (Z.leb_gt _ _)) by (apply H1; discriminate). cbn [andb orb].
      remember (y :: b) as bb eqn:Ebb. destruct a as [|x a].
      * cbn [length Nat.add app].
        assert (forall n i r, length r = (i + n)%nat -> digits_ok B r -> pure (naive_rows L [] bb n i r) r) as K.
        { induction n as [|n IHn]; intros i r Hr Dr; cbn [naive_rows]; [apply pure_ret|].
          eapply pure_bind; [apply pure_ret|]. cbn [naive_row length]. eapply pure_bind; [apply pure_ret|].
          cbn [fst snd]. rewrite Nat.add_0_r. destruct (nth_error r i) as [d|] eqn:Ed; [|apply nth_error_None in Ed; lia].
          eapply pure_bind; [apply pure_vget; exact Ed|].
          apply nth_error_split in Ed as (u & v & -> & <-). rewrite vset_app. eapply pure_bind; [apply pure_ret|].
          assert (wrap (ws L) (d + 0) = d) as ->.
          { unfold wrap. rewrite Z.add_0_r, <- F2. apply Z.mod_small. apply Forall_app in Dr as [_ Dr]. inversion Dr; auto. }
          apply IHn; auto. lia. }
        eapply yields_pure; [apply K; [rewrite repeat_length; reflexivity|]|].
        { apply Forall_forall. intros z Hz. apply repeat_spec in Hz. subst. lia. }
        apply Z0. intros k _. rewrite conv_nil_l. apply Zmod_0_l.
      * remember (x :: a) as aa eqn:Eaa.
        destruct (naive_rows_full aa ltac:(subst; discriminate) bb [] [] (repeat 0 (length aa))) as (w' & Hp & Hl & Hv); auto.
        { cbn. lia. }
        { apply repeat_length. }
        { apply Forall_forall. intros z Hz. apply repeat_spec in Hz. subst z. lia. }
        cbn [app length] in Hp. rewrite <- repeat_app in Hp. eapply yields_pure; [exact Hp|].
        apply nth_ext with (d := 0) (d' := 0); [rewrite map_length, seq_length; auto|].
        intros k Hk. rewrite Hl in Hk. rewrite Hv by auto. rewrite nth_repeat.
        set (f := fun k => conv aa bb k mod B). rewrite (nth_indep _ 0 (f 0%nat)) by (rewrite map_length, seq_length; auto).
        rewrite map_nth, seq_nth by auto. unfold f. cbn [Nat.add]. f_equal. rewrite conv_comm. ring.
Qed.
End Full.
End Naive.
