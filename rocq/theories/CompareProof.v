(** * Comparison functions: closed forms *)
From Verif Require Import Base Spec Compare Wp ValueProof.

Definition eqb (a b : list Z) : bool := if list_eq_dec Z.eq_dec a b then true else false.

(** some digit of [a] exceeds the digit of [b] at the same position *)
Definition some_gt (a b : list Z) : bool := existsb (fun p => snd p <? fst p) (combine a b).

Definition gtb (a b : list Z) : bool :=
  if (length b <? length a)%nat then true
  else if (length a <? length b)%nat then false else some_gt a b.

Definition geb (B : Z) (a b : list Z) : bool :=
  if (length b <? length a)%nat then true
  else if (length a <? length b)%nat then false else value B b <=? value B a.

Lemma nth_error_lt {A} (v : list A) i : (i < length v)%nat -> exists d, nth_error v i = Some d.
Proof.
  intros H. destruct (nth_error v i) eqn:E; eauto. apply nth_error_None in E; lia.
Qed.

Ltac get v i d H :=
  let E := fresh "E" in
  destruct (nth_error_lt v i) as [d E]; [try lia|].

Lemma eq_loop_pure a b i : (i <= length a)%nat -> length a = length b ->
  pure (eq_loop a b i) (eqb (firstn i a) (firstn i b)).
Proof.
  induction i as [|j IH]; intros Hi Hl.
  - cbn. apply pure_ret.
  - cbn [eq_loop]. get a j x Ha; get b j y Hb.
    eapply pure_bind; [apply pure_vget; eauto|]. eapply pure_bind; [apply pure_vget; eauto|].
    rewrite (firstn_S_nth a j x), (firstn_S_nth b j y) by auto.
    destruct (Z.eqb_spec x y) as [->|Hne]; cbn [negb].
    + intros al n. rewrite IH by lia. unfold eqb.
      destruct (list_eq_dec Z.eq_dec (firstn j a) (firstn j b)) as [e|e];
        destruct (list_eq_dec Z.eq_dec (firstn j a ++ [y]) (firstn j b ++ [y])) as [e'|e']; auto.
      * exfalso; apply e'; congruence.
      * exfalso; apply e. apply app_inj_tail in e'; tauto.
    + intros al n. unfold eqb, ret.
      destruct (list_eq_dec Z.eq_dec (firstn j a ++ [x]) (firstn j b ++ [y])) as [e'|e']; auto.
      apply app_inj_tail in e'; tauto.
Qed.

Lemma abs_val_is_eq_pure a b : pure (abs_val_is_eq a b) (eqb a b).
Proof.
  unfold abs_val_is_eq. destruct (Nat.eqb_spec (length a) (length b)) as [H|H]; cbn [negb].
  - intros al n. rewrite eq_loop_pure by lia.
    rewrite firstn_all. rewrite H, firstn_all. reflexivity.
  - intros al n; unfold eqb. destruct (list_eq_dec Z.eq_dec a b); [congruence|reflexivity].
Qed.

Lemma eqb_true a b : eqb a b = true <-> a = b.
Proof. unfold eqb; destruct (list_eq_dec Z.eq_dec a b); split; congruence. Qed.

Lemma combine_firstn_snoc {A} (a b : list A) j x y :
  nth_error a j = Some x -> nth_error b j = Some y ->
  combine (firstn (S j) a) (firstn (S j) b) = combine (firstn j a) (firstn j b) ++ [(x, y)].
Proof.
  intros Ha Hb. revert a b Ha Hb; induction j as [|j IH]; intros [|u a] [|v b] Ha Hb; try discriminate.
  - cbn in *; congruence.
  - cbn in Ha, Hb. cbn [firstn combine app]. f_equal. apply (IH a b Ha Hb).
Qed.

Lemma gt_loop_pure a b i : (i <= length a)%nat -> length a = length b ->
  pure (gt_loop a b i) (some_gt (firstn i a) (firstn i b)).
Proof.
  induction i as [|j IH]; intros Hi Hl.
  - cbn. apply pure_ret.
  - cbn [gt_loop]. get a j x Ha; get b j y Hb.
    eapply pure_bind; [apply pure_vget; eauto|]. eapply pure_bind; [apply pure_vget; eauto|].
    unfold some_gt. rewrite (combine_firstn_snoc a b j x y) by auto.
    rewrite existsb_app; cbn [existsb fst snd]. intros al n.
    destruct (Z.ltb_spec y x); cbn [orb].
    + rewrite Bool.orb_true_r; reflexivity.
    + rewrite !Bool.orb_false_r. rewrite IH by lia. reflexivity.
Qed.

Lemma abs_val_is_gt_pure a b : pure (abs_val_is_gt a b) (gtb a b).
Proof.
  unfold abs_val_is_gt, gtb.
  destruct (Nat.ltb_spec (length b) (length a)); [apply pure_ret|].
  destruct (Nat.ltb_spec (length a) (length b)); [apply pure_ret|].
  intros al n. assert (length a = length b) as Hl by lia.
  rewrite gt_loop_pure by lia. rewrite firstn_all. rewrite Hl, firstn_all. reflexivity.
Qed.


Lemma lt_loop_pure a b i : (i <= length a)%nat -> length a = length b ->
  pure (lt_loop a b i) (some_gt (firstn i b) (firstn i a)).
Proof.
  induction i as [|j IH]; intros Hi Hl.
  - cbn. apply pure_ret.
  - cbn [lt_loop]. get a j x Ha; get b j y Hb.
    eapply pure_bind; [apply pure_vget; eauto|]. eapply pure_bind; [apply pure_vget; eauto|].
    unfold some_gt. rewrite (combine_firstn_snoc b a j y x) by auto.
    rewrite existsb_app; cbn [existsb fst snd]. intros al n.
    destruct (Z.ltb_spec x y); cbn [orb].
    + rewrite Bool.orb_true_r; reflexivity.
    + rewrite !Bool.orb_false_r. rewrite IH by lia. reflexivity.
Qed.

Lemma abs_val_is_lt_pure a b : pure (abs_val_is_lt a b) (gtb b a).
Proof.
  unfold abs_val_is_lt, gtb.
  destruct (Nat.ltb_spec (length a) (length b)); [apply pure_ret|].
  destruct (Nat.ltb_spec (length b) (length a)); [apply pure_ret|].
  intros al n. assert (length a = length b) as Hl by lia.
  rewrite lt_loop_pure by lia. rewrite firstn_all. rewrite Hl, firstn_all. reflexivity.
Qed.

Section Ge.
Context (B : Z) (HB : 2 <= B).

Lemma ge_loop_pure a b i : digits_ok B a -> digits_ok B b ->
  (i <= length a)%nat -> length a = length b ->
  pure (ge_loop a b i) (value B (firstn i b) <=? value B (firstn i a)).
Proof.
  intros Da Db. induction i as [|j IH]; intros Hi Hl.
  - cbn. apply pure_ret.
  - cbn [ge_loop]. get a j x Ha; get b j y Hb.
    eapply pure_bind; [apply pure_vget; eauto|]. eapply pure_bind; [apply pure_vget; eauto|].
    rewrite (firstn_S_nth a j x), (firstn_S_nth b j y) by auto.
    rewrite !value_snoc, !firstn_length_le by lia.
    pose proof (value_bounds B HB (firstn j a) (digits_ok_firstn B j a Da)) as Va.
    pose proof (value_bounds B HB (firstn j b) (digits_ok_firstn B j b Db)) as Vb.
    rewrite !firstn_length_le in * by lia.
    intros al n. destruct (Z.ltb_spec y x) as [H|H]; [|destruct (Z.ltb_spec x y) as [H'|H']].
    + rewrite (proj2 (Z.leb_le _ _)) by nia. reflexivity.
    + rewrite (proj2 (Z.leb_gt _ _)) by nia. reflexivity.
    + assert (x = y) by lia. subst. rewrite IH by lia.
      f_equal. destruct (Z.leb_spec (value B (firstn j b)) (value B (firstn j a)));
        symmetry; [apply Z.leb_le|apply Z.leb_gt]; lia.
Qed.

Lemma abs_val_is_ge_pure a b : digits_ok B a -> digits_ok B b -> pure (abs_val_is_ge a b) (geb B a b).
Proof.
  intros Da Db. unfold abs_val_is_ge, geb.
  destruct (Nat.ltb_spec (length b) (length a)); [apply pure_ret|].
  destruct (Nat.ltb_spec (length a) (length b)); [apply pure_ret|].
  intros al n. assert (length a = length b) as Hl by lia.
  rewrite ge_loop_pure by (auto; lia). rewrite firstn_all. rewrite Hl, firstn_all. reflexivity.
Qed.


Lemma le_loop_pure a b i : digits_ok B a -> digits_ok B b ->
  (i <= length a)%nat -> length a = length b ->
  pure (le_loop a b i) (value B (firstn i a) <=? value B (firstn i b)).
Proof.
  intros Da Db. induction i as [|j IH]; intros Hi Hl.
  - cbn. apply pure_ret.
  - cbn [le_loop]. get a j x Ha; get b j y Hb.
    eapply pure_bind; [apply pure_vget; eauto|]. eapply pure_bind; [apply pure_vget; eauto|].
    rewrite (firstn_S_nth a j x), (firstn_S_nth b j y) by auto.
    rewrite !value_snoc, !firstn_length_le by lia.
    pose proof (value_bounds B HB (firstn j a) (digits_ok_firstn B j a Da)) as Va.
    pose proof (value_bounds B HB (firstn j b) (digits_ok_firstn B j b Db)) as Vb.
    rewrite !firstn_length_le in * by lia.
    intros al n. destruct (Z.ltb_spec x y) as [H|H]; [|destruct (Z.ltb_spec y x) as [H'|H']].
    + rewrite (proj2 (Z.leb_le _ _)) by nia. reflexivity.
    + rewrite (proj2 (Z.leb_gt _ _)) by nia. reflexivity.
    + assert (x = y) by lia. subst. rewrite IH by lia.
      f_equal. destruct (Z.leb_spec (value B (firstn j a)) (value B (firstn j b)));
        symmetry; [apply Z.leb_le|apply Z.leb_gt]; lia.
Qed.

Lemma abs_val_is_le_pure a b : digits_ok B a -> digits_ok B b -> pure (abs_val_is_le a b) (geb B b a).
Proof.
  intros Da Db. unfold abs_val_is_le, geb.
  destruct (Nat.ltb_spec (length a) (length b)); [apply pure_ret|].
  destruct (Nat.ltb_spec (length b) (length a)); [apply pure_ret|].
  intros al n. assert (length a = length b) as Hl by lia.
  rewrite le_loop_pure by (auto; lia). rewrite firstn_all. rewrite Hl, firstn_all. reflexivity.
Qed.

Lemma geb_canonical a b : digits_ok B a -> digits_ok B b -> canonical a -> canonical b ->
  geb B a b = (value B b <=? value B a).
Proof.
  intros Da Db Ca Cb. unfold geb.
  destruct (Nat.ltb_spec (length b) (length a)) as [H|H].
  - pose proof (length_lt_value B HB b a Db Da Ca H). symmetry; apply Z.leb_le; lia.
  - destruct (Nat.ltb_spec (length a) (length b)) as [H'|H']; auto.
    pose proof (length_lt_value B HB a b Da Db Cb H'). symmetry; apply Z.leb_gt; lia.
Qed.

(** the length test and the value agree as far as subtraction needs *)
Lemma geb_weak_true a b : digits_ok B a -> digits_ok B b -> weak_canonical a -> weak_canonical b ->
  geb B a b = true -> value B b <= value B a /\ (length b <= length a)%nat.
Proof.
  intros Da Db Ca Cb. unfold geb.
  destruct (Nat.ltb_spec (length b) (length a)) as [H|H].
  - intros _; split; [|lia]. destruct Ca as [Ca| ->].
    + pose proof (length_lt_value B HB b a Db Da Ca H). lia.
    + destruct b; [cbn; lia|cbn in H; lia].
  - destruct (Nat.ltb_spec (length a) (length b)) as [H'|H']; [discriminate|].
    intros E; apply Z.leb_le in E; split; lia.
Qed.

Lemma geb_weak_false a b : digits_ok B a -> digits_ok B b -> weak_canonical a -> weak_canonical b ->
  geb B a b = false -> value B a <= value B b /\ (length a <= length b)%nat /\ b <> [].
Proof.
  intros Da Db Ca Cb. unfold geb.
  destruct (Nat.ltb_spec (length b) (length a)) as [H|H]; [discriminate|].
  destruct (Nat.ltb_spec (length a) (length b)) as [H'|H'].
  - intros _. assert (b <> []) by (destruct b; [cbn in H'; lia|congruence]).
    split; [|split; [lia|auto]]. destruct Cb as [Cb| ->].
    + pose proof (length_lt_value B HB a b Da Db Cb H'). lia.
    + destruct a; [cbn; lia|cbn in H'; lia].
  - intros E; apply Z.leb_gt in E. repeat split; try lia.
    intros ->. destruct a; [cbn in E; lia|cbn in *; lia].
Qed.

(** purely structural version, for digits of any kind *)
Lemma geb_true_length a b : geb B a b = true -> (length b <= length a)%nat.
Proof.
  unfold geb. destruct (Nat.ltb_spec (length b) (length a)); [lia|].
  destruct (Nat.ltb_spec (length a) (length b)); [discriminate|lia].
Qed.

Lemma geb_false_length a b : geb B a b = false -> (length a <= length b)%nat.
Proof.
  unfold geb. destruct (Nat.ltb_spec (length b) (length a)); [discriminate|lia].
Qed.

(** [>] is implied by the numeric order *)
Lemma some_gt_complete a : forall b, digits_ok B a -> digits_ok B b -> length a = length b ->
  value B b < value B a -> some_gt a b = true.
Proof.
  induction a as [|x a IH]; intros [|y b] Da Db Hl Hv; try discriminate.
  - inversion_clear Da as [|? ? Hx Da']; inversion_clear Db as [|? ? Hy Db'].
    unfold some_gt. cbn [combine existsb fst snd].
    destruct (Z.ltb_spec y x) as [H|H]; [reflexivity|]. cbn [orb]. apply IH; auto.
    cbn [value] in Hv. nia.
Qed.

Lemma gtb_complete a b : digits_ok B a -> digits_ok B b -> canonical b ->
  value B b < value B a -> gtb a b = true.
Proof.
  intros Da Db Cb Hv. unfold gtb.
  destruct (Nat.ltb_spec (length b) (length a)) as [H|H]; auto.
  destruct (Nat.ltb_spec (length a) (length b)) as [H'|H'].
  - pose proof (length_lt_value B HB a b Da Db Cb H'). lia.
  - apply some_gt_complete; auto; lia.
Qed.

Lemma gtb_false_le a b : digits_ok B a -> digits_ok B b -> canonical b ->
  gtb a b = false -> value B a <= value B b.
Proof.
  intros Da Db Cb H. destruct (Z.le_gt_cases (value B a) (value B b)) as [Hv|Hv]; auto.
  rewrite gtb_complete in H by (auto; lia). discriminate.
Qed.

End Ge.

Lemma some_gt_refl a : some_gt a a = false.
Proof.
  unfold some_gt. induction a as [|x a IH]; auto. cbn [combine existsb fst snd].
  rewrite Z.ltb_irrefl. auto.
Qed.

Lemma gtb_refl a : gtb a a = false.
Proof. unfold gtb. rewrite Nat.ltb_irrefl. apply some_gt_refl. Qed.

Lemma gtb_length a b : gtb a b = true -> (length b <= length a)%nat /\ a <> [].
Proof.
  unfold gtb. destruct (Nat.ltb_spec (length b) (length a)) as [H|H].
  - intros _; split; [lia|]. intros ->; cbn in H; lia.
  - destruct (Nat.ltb_spec (length a) (length b)); [discriminate|].
    intros E; split; [lia|]. intros ->; cbn in E; discriminate.
Qed.

(** "some digit of [a] exceeds the digit of [b] at the same position" in terms of nth_error *)
Lemma some_gt_iff a : forall b, some_gt a b = true <->
  exists i x y, nth_error a i = Some x /\ nth_error b i = Some y /\ y < x.
Proof.
  unfold some_gt. induction a as [|x a IH]; intros [|y b].
  - cbn; split; [discriminate|intros (i & x & y & H & _); destruct i; discriminate].
  - cbn; split; [discriminate|intros (i & x & z & H & _); destruct i; discriminate].
  - cbn; split; [discriminate|intros (i & z & y & _ & H & _); destruct i; discriminate].
  - cbn [combine existsb fst snd]. rewrite Bool.orb_true_iff, Z.ltb_lt, IH. split.
    + intros [H|(i & u & v & H1 & H2 & H3)].
      * exists 0%nat, x, y; auto.
      * exists (S i), u, v; auto.
    + intros (i & u & v & H1 & H2 & H3). destruct i as [|i]; cbn in H1, H2.
      * left; congruence.
      * right; eauto 6.
Qed.

(** The comparison loops are total for digits of any kind. *)
Lemma ge_loop_total a b i : (i <= length a)%nat -> length a = length b ->
  exists c, pure (ge_loop a b i) c /\ (i = 0%nat -> c = true).
Proof.
  induction i as [|j IH]; intros Hi Hl.
  - exists true; split; [apply pure_ret|auto].
  - cbn [ge_loop]. get a j x Ha; get b j y Hb. destruct IH as (c & Hc & _); [lia|lia|].
    exists (if y <? x then true else if x <? y then false else c). split; [|discriminate].
    eapply pure_bind; [apply pure_vget; eauto|]. eapply pure_bind; [apply pure_vget; eauto|].
    destruct (y <? x); [apply pure_ret|]. destruct (x <? y); [apply pure_ret|]. exact Hc.
Qed.

Lemma abs_val_is_ge_total a b : exists c, pure (abs_val_is_ge a b) c /\
  (c = true -> (length b <= length a)%nat) /\ (c = false -> (length a <= length b)%nat /\ b <> []).
Proof.
  unfold abs_val_is_ge.
  destruct (Nat.ltb_spec (length b) (length a)) as [H|H].
  { exists true; repeat split; try discriminate; try lia. }
  destruct (Nat.ltb_spec (length a) (length b)) as [H'|H'].
  { exists false; repeat split; try discriminate; try lia.
    intros ->; cbn in H'; lia. }
  destruct (ge_loop_total a b (length a)) as (c & Hc & H0); [lia|lia|].
  exists c; split; [exact Hc|]. split; [lia|]. intros ->; split; [lia|].
  intros ->. assert (length a = 0%nat) by (cbn in *; lia). specialize (H0 H1); discriminate.
Qed.
