(** * operator += and operator -= : lemmas *)
From Verif Require Import Base Spec Limits Compare AddSub Division Fourier Multiplication Bignum Outcome.
From Verif Require Import Wp ValueProof CompareProof AddSubProof.

(** ** Outcome rules *)

Lemma failed_infinity d : failed d = infinity_for d.
Proof. destruct d; reflexivity. Qed.

Lemma yields_returns {A} (m : M A) Q : yields m Q -> returns m Q.
Proof. intros H al n; specialize (H al n); destruct (m al n); intuition. Qed.

Lemma returns_ret {A} (a : A) (Q : A -> Prop) : Q a -> returns (ret a) Q.
Proof. intros H; apply yields_returns, yields_ret; auto. Qed.

Lemma returns_mono {A} (m : M A) (Q R : A -> Prop) :
  returns m Q -> (forall a, Q a -> R a) -> returns m R.
Proof. intros Hm H al n; specialize (Hm al n); destruct (m al n); intuition. Qed.

Lemma returns_bind {A B} (m : M A) (k : A -> M B) Q R :
  returns m Q -> (forall a, Q a -> returns (k a) R) -> returns (bind m k) R.
Proof.
  intros Hm Hk al n; unfold bind; specialize (Hm al n); destruct (m al n) as [a n'|e n'|u|]; auto.
  destruct Hm as [Ha Hn]. specialize (Hk a Ha al n').
  destruct (k a al n') as [b n''|e n''|u|]; auto.
  - destruct Hk; split; auto; lia.
  - destruct Hk as [He [j [Hj Hal]]]; split; auto. exists j; split; auto; lia.
Qed.

Lemma returns_pure {A} (m : M A) a (Q : A -> Prop) : pure m a -> Q a -> returns m Q.
Proof. intros H1 H2; apply yields_returns; eapply yields_pure; eauto. Qed.

Lemma guarded_yields body Q bad : yields body Q -> assigns (guarded body bad) Q bad.
Proof.
  intros H al n; unfold guarded; specialize (H al n); destruct (body al n) as [a n'|e n'|u|]; auto.
  destruct H as [-> Hr]. auto.
Qed.

Lemma assigns_ret z (Q : bignum -> Prop) bad : Q z -> assigns (ret (z, None)) Q bad.
Proof. intros H al n; cbn; auto. Qed.

Lemma assigns_mono m (Q R : bignum -> Prop) bad :
  assigns m Q bad -> (forall z, Q z -> R z) -> assigns m R bad.
Proof.
  intros Hm H al n; specialize (Hm al n). destruct (m al n) as [[z [e|]] n'|e n'|u|]; auto.
  destruct Hm; auto.
Qed.

Lemma assigns_run m Q bad : assigns m Q bad -> exists z n, run m = Ret (z, None) n /\ Q z.
Proof.
  intros H; specialize (H never_fails 0%nat); unfold run.
  destruct (m never_fails 0%nat) as [[z [e|]] n|e n|u|]; try contradiction.
  - destruct H as (_ & _ & k & _ & Hk); discriminate.
  - exists z, n; tauto.
Qed.

Lemma returns_run {A} (m : M A) Q : returns m Q -> exists z n, run m = Ret z n /\ Q z.
Proof.
  intros H; specialize (H never_fails 0%nat); unfold run.
  destruct (m never_fails 0%nat) as [z n|e n|u|]; try contradiction.
  - exists z, n; tauto.
  - destruct H as (_ & k & _ & Hk); discriminate.
Qed.

Lemma binary_eq f x y al n : binary f x y al n =
  if al n then match f x (Other y) al (S n) with
               | Ret (z, None) n' => Ret z n'
               | Ret (z, Some e) n' => Throw e n'
               | Throw e n' => Throw e n'
               | Undef u => Undef u
               | NoFuel => NoFuel
               end
  else Throw ExBadAlloc (S n).
Proof.
  unfold binary, bn_copy, vcopy, bind, alloc. destruct x as [d v].
  destruct (al n); [|reflexivity]. cbn [ret data desc].
  destruct (f (mkBN d v) (Other y) al (S n)) as [[z [e|]] n'|e n'|u|]; reflexivity.
Qed.

Lemma binary_returns f x y Q bad : assigns (f x (Other y)) Q bad -> returns (binary f x y) Q.
Proof.
  intros H al n. rewrite binary_eq. specialize (H al (S n)).
  destruct (al n) eqn:Eal.
  - destruct (f x (Other y) al (S n)) as [[z [e|]] n'|e n'|u|]; try contradiction.
    + destruct H as (-> & -> & k & Hk & Hal). split; auto. exists k; split; auto; lia.
    + destruct H; split; auto; lia.
  - split; auto. exists n; split; auto; lia.
Qed.

Section Ops.
Context (L : limits) (HLk : limits_ok L = true).
Let B := base L.
Let HBk : 2 <= B := AddSubProof.HB L HLk.

Lemma sub_yields a b : digits_ok B a -> digits_ok B b -> a <> [] -> (length b <= length a)%nat ->
  value B b <= value B a ->
  yields (abs_val_sub L false a (other b))
    (fun r => digits_ok B r /\ canonical r /\ value B r = value B a - value B b).
Proof.
  intros Da Db Hn Hl Hv. destruct (abs_val_sub_other L HLk a b Hn Hl) as (r & Hp & Cr & _ & Hr).
  destruct (Hr Da Db) as [Dr Vr]. eapply yields_pure; [exact Hp|].
  fold B in Dr, Vr. rewrite (proj2 (Z.leb_le _ _)) in Vr by lia. auto.
Qed.

(** The step shared by + of opposite signs and - of equal signs: the difference of two magnitudes. *)
Definition diff_step (x y : list Z) (d1 d2 : bn_desc_t) : M bignum :=
  c <- abs_val_is_ge x y ;;
  if (c : bool) then v <- abs_val_sub L false x (other y) ;; ret (mkBN d1 v)
  else t <- vcopy y ;; v <- abs_val_sub L false t (other x) ;; ret (mkBN d2 v).

Lemma diff_step_yields x y d1 d2 :
  digits_ok B x -> digits_ok B y -> weak_canonical x -> weak_canonical y -> (x <> [] \/ y <> []) ->
  yields (diff_step x y d1 d2)
    (fun z => digits_ok B (data z) /\ canonical (data z) /\
       ((desc z = d1 /\ value B (data z) = value B x - value B y) \/
        (desc z = d2 /\ value B (data z) = value B y - value B x /\ geb B x y = false))).
Proof.
  intros Dx Dy Cx Cy Hn. unfold diff_step.
  eapply yields_bind with (Q := fun c => c = geb B x y).
  { eapply yields_pure; [apply (abs_val_is_ge_pure B HBk x y Dx Dy)|reflexivity]. }
  intros c ->. destruct (geb B x y) eqn:E.
  - destruct (geb_weak_true B HBk x y Dx Dy Cx Cy E) as [Hv Hl].
    assert (x <> []) as Hxn.
    { intros ->. cbn [length] in Hl. destruct Hn as [Hn|Hn]; [congruence|]. apply Hn.
      apply length_zero_iff_nil; lia. }
    eapply yields_bind; [apply sub_yields; auto|]. intros v (Dv & Cv & Vv). apply yields_ret.
    cbn [data desc]. auto 10.
  - destruct (geb_weak_false B HBk x y Dx Dy Cx Cy E) as (Hv & Hl & Hyn).
    eapply yields_bind with (Q := fun v => v = y); [apply yields_vcopy; auto|]. intros ? ->.
    eapply yields_bind; [apply sub_yields; auto|]. intros v (Dv & Cv & Vv). apply yields_ret.
    cbn [data desc]. auto 10.
Qed.

Lemma add_step_yields x y d :
  digits_ok B x -> digits_ok B y ->
  yields (v <- abs_val_add L x (other y) ;; ret (mkBN d v))
    (fun z => desc z = d /\ digits_ok B (data z) /\ value B (data z) = value B x + value B y /\
              data z <> [] /\ (weak_canonical x -> weak_canonical y -> weak_canonical (data z))).
Proof.
  intros Dx Dy. eapply yields_bind; [apply (abs_val_add_other L HLk x y Dx Dy)|].
  intros v (Dv & Vv & Gv). apply yields_ret. cbn [data desc]. repeat split; auto.
  - intros ->. unfold grown in Gv. cbn [length] in Gv. lia.
  - intros; eapply (grown_canonical L HLk x y); eauto.
Qed.

(** ** += *)

Definition sum_post (x y : bignum) (z : bignum) : Prop :=
  good B z /\ signed_value B z = signed_value B x + signed_value B y.

Lemma good_intro d v : (d = BN_POS \/ d = BN_NEG) -> digits_ok B v -> weak_canonical v -> good B (mkBN d v).
Proof. intros; unfold good, finite; cbn [desc data]; auto. Qed.

Theorem add_assign_other x y : good B x -> good B y ->
  (desc x = desc y \/ data x <> [] \/ data y <> []) ->
  assigns (op_add_assign L false x (Other y)) (sum_post x y) (infinity_for (desc y)).
Proof.
  intros (Fx & Dx & Cx) (Fy & Dy & Cy) Hn. rewrite <- failed_infinity.
  destruct x as [dx vx], y as [dy vy]. unfold finite, sum_post, signed_value in *. cbn [desc data] in *.
  unfold op_add_assign, adesc, adata, aview. cbn [desc data].
  assert (forall d, d = BN_POS \/ d = BN_NEG ->
    yields (v <- abs_val_add L vx (other vy) ;; ret (mkBN d v))
      (fun z => good B z /\ desc z = d /\ value B (data z) = value B vx + value B vy)) as Hadd.
  { intros d Hd. eapply yields_mono; [apply add_step_yields; auto|].
    intros z (Ed & Dz & Vz & _ & Cz). repeat split; auto. unfold finite. rewrite Ed; auto. }
  assert (forall d1 d2, (vx <> [] \/ vy <> []) -> (d1 = BN_POS \/ d1 = BN_NEG) -> (d2 = BN_POS \/ d2 = BN_NEG) ->
    yields (diff_step vx vy d1 d2)
      (fun z => good B z /\ ((desc z = d1 /\ value B (data z) = value B vx - value B vy) \/
        (desc z = d2 /\ value B (data z) = value B vy - value B vx)))) as Hdiff.
  { intros d1 d2 Hn' H1 H2. eapply yields_mono; [apply diff_step_yields; auto|].
    intros z (Dz & Cz & Hz). unfold good, finite, weak_canonical. 
    destruct Hz as [[Ed Vz]|(Ed & Vz & _)]; rewrite Ed; auto 10. }
  destruct Fx as [-> | ->], Fy as [-> | ->]; cbn [desc_eqb andb isComputable negb];
    apply guarded_yields.
  - eapply yields_mono; [apply (Hadd BN_POS); auto|]. intros z (Gz & Ed & Vz). rewrite Ed. split; auto; lia.
  - eapply yields_mono; [apply (Hdiff BN_POS BN_NEG); auto; destruct Hn; [discriminate|auto]|].
    intros z (Gz & [[Ed Vz]|[Ed Vz]]); rewrite Ed; split; auto; lia.
  - eapply yields_mono; [apply (Hdiff BN_NEG BN_POS); auto; destruct Hn; [discriminate|auto]|].
    intros z (Gz & [[Ed Vz]|[Ed Vz]]); rewrite Ed; split; auto; lia.
  - eapply yields_mono; [apply (Hadd BN_NEG); auto|]. intros z (Gz & Ed & Vz). rewrite Ed. split; auto; lia.
Qed.

Theorem add_assign_self x : good B x ->
  assigns (op_add_assign L false x Self)
    (fun z => good B z /\ desc z = desc x /\ signed_value B z = 2 * signed_value B x) (infinity_for (desc x)).
Proof.
  intros (Fx & Dx & Cx). rewrite <- failed_infinity.
  destruct x as [dx vx]. unfold finite, signed_value in *. cbn [desc data] in *.
  unfold op_add_assign, adesc, adata, aview. cbn [desc data].
  assert (forall d, d = BN_POS \/ d = BN_NEG ->
    yields (v <- abs_val_add L vx same ;; ret (mkBN d v))
      (fun z => good B z /\ desc z = d /\ value B (data z) = 2 * value B vx)) as Hadd.
  { intros d Hd. eapply yields_bind; [apply (abs_val_add_same L HLk vx Dx)|].
    intros v (Dv & Vv & Gv). apply yields_ret. cbn [desc data]. split; auto. apply good_intro; auto.
    eapply (grown_canonical L HLk vx vx); eauto. fold B in Vv |- *. lia. }
  destruct Fx as [-> | ->]; cbn [desc_eqb andb isComputable negb]; apply guarded_yields.
  - eapply yields_mono; [apply (Hadd BN_POS); auto|]. intros z (Gz & Ed & Vz). rewrite Ed. auto.
  - eapply yields_mono; [apply (Hadd BN_NEG); auto|]. intros z (Gz & Ed & Vz). rewrite Ed.
    repeat split; auto; try apply Gz. lia.
Qed.

(** ** -= *)

Theorem sub_assign_same_sign x y : good B x -> good B y -> desc x = desc y ->
  (data x <> [] \/ data y <> []) ->
  assigns (op_sub_assign L false x (Other y))
    (fun z => good B z /\ canonical (data z) /\ signed_value B z = signed_value B x - signed_value B y)
    (infinity_for (desc y)).
Proof.
  intros (Fx & Dx & Cx) (Fy & Dy & Cy) Hd Hn. rewrite <- failed_infinity.
  destruct x as [dx vx], y as [dy vy]. unfold finite, signed_value in *. cbn [desc data] in *. subst dy.
  unfold op_sub_assign, adesc, adata, aview. cbn [desc data].
  assert (forall d1 d2, (d1 = BN_POS \/ d1 = BN_NEG) -> (d2 = BN_POS \/ d2 = BN_NEG) ->
    yields (diff_step vx vy d1 d2)
      (fun z => good B z /\ canonical (data z) /\ ((desc z = d1 /\ value B (data z) = value B vx - value B vy) \/
        (desc z = d2 /\ value B (data z) = value B vy - value B vx)))) as Hdiff.
  { intros d1 d2 H1 H2. eapply yields_mono; [apply diff_step_yields; auto|].
    intros z (Dz & Cz & Hz). unfold good, finite, weak_canonical. 
    destruct Hz as [[Ed Vz]|(Ed & Vz & _)]; rewrite Ed; auto 10. }
  destruct Fx as [-> | ->]; cbn [desc_eqb andb orb isComputable negb]; apply guarded_yields.
  - eapply yields_mono; [apply (Hdiff BN_POS BN_NEG); auto|].
    intros z (Gz & Cz & [[Ed Vz]|[Ed Vz]]); rewrite Ed; repeat split; auto; try apply Gz; lia.
  - eapply yields_mono; [apply (Hdiff BN_NEG BN_POS); auto|].
    intros z (Gz & Cz & [[Ed Vz]|[Ed Vz]]); rewrite Ed; repeat split; auto; try apply Gz; lia.
Qed.

Lemma ge_refl_pure a : pure (abs_val_is_ge a a) true.
Proof.
  intros al n. unfold abs_val_is_ge. rewrite Nat.ltb_irrefl.
  assert (forall i, (i <= length a)%nat -> ge_loop a a i al n = Ret true n) as H.
  { induction i as [|i IH]; intros Hi; [reflexivity|]. cbn [ge_loop].
    destruct (nth_error_lt a i ltac:(lia)) as [d Hd]. unfold bind, vget. rewrite Hd. cbn [ret].
    rewrite Z.ltb_irrefl. apply IH; lia. }
  apply H; lia.
Qed.

Theorem sub_assign_self x : finite x -> digits_ok B (data x) -> data x <> [] ->
  assigns (op_sub_assign L false x Self) (fun z => z = mkBN (desc x) []) (infinity_for (desc x)).
Proof.
  intros Fx Dx Hn. rewrite <- failed_infinity.
  destruct x as [dx vx]. unfold finite in *. cbn [desc data] in *.
  unfold op_sub_assign, adesc, adata, aview. cbn [desc data].
  assert (forall d, yields (c <- abs_val_is_ge vx vx ;;
       if (c : bool) then v <- abs_val_sub L false vx same ;; ret (mkBN dx v)
       else t <- vcopy vx ;; v <- abs_val_sub L false t (other vx) ;; ret (mkBN d v))
       (fun z => z = mkBN dx [])) as H.
  { intros d. eapply yields_bind with (Q := fun c => c = true).
    { eapply yields_pure; [apply ge_refl_pure|reflexivity]. }
    intros c ->. eapply yields_bind with (Q := fun v => v = []).
    { eapply yields_pure; [apply (abs_val_sub_same L HLk vx Hn Dx)|reflexivity]. }
    intros ? ->. apply yields_ret. reflexivity. }
  destruct Fx as [-> | ->]; cbn [desc_eqb andb orb isComputable negb]; apply guarded_yields; apply H.
Qed.

(** ** No out-of-range access, whatever the digits *)

Lemma diff_step_total x y d1 d2 : (x <> [] \/ y <> []) -> yields (diff_step x y d1 d2) (fun _ => True).
Proof.
  intros Hn. unfold diff_step. destruct (abs_val_is_ge_total x y) as (c & Hp & Ht & Hf).
  eapply yields_bind with (Q := fun c' => c' = c); [eapply yields_pure; [exact Hp|reflexivity]|].
  intros ? ->. destruct c.
  - specialize (Ht eq_refl).
    assert (x <> []) as Hxn.
    { intros ->. cbn [length] in Ht. destruct Hn as [Hn|Hn]; [congruence|]. apply Hn.
      apply length_zero_iff_nil; lia. }
    destruct (abs_val_sub_other L HLk x y Hxn Ht) as (r & Hr & _).
    eapply yields_bind with (Q := fun _ => True); [eapply yields_pure; [exact Hr|exact I]|].
    intros v _. apply yields_ret; exact I.
  - destruct (Hf eq_refl) as [Hl Hyn].
    eapply yields_bind with (Q := fun v => v = y); [apply yields_vcopy; auto|]. intros ? ->.
    destruct (abs_val_sub_other L HLk y x Hyn Hl) as (r & Hr & _).
    eapply yields_bind with (Q := fun _ => True); [eapply yields_pure; [exact Hr|exact I]|].
    intros v _. apply yields_ret; exact I.
Qed.

Definition mixed_step (x y : list Z) (d : bn_desc_t) : M bignum :=
  c <- abs_val_is_gt x y ;;
  t <- vcopy (if (c : bool) then x else y) ;;
  v <- abs_val_sub L false t (other y) ;; ret (mkBN d v).

Lemma mixed_step_total x y d : (x <> [] \/ y <> []) -> yields (mixed_step x y d) (fun _ => True).
Proof.
  intros Hn. unfold mixed_step.
  eapply yields_bind with (Q := fun c => c = gtb x y); [eapply yields_pure; [apply abs_val_is_gt_pure|reflexivity]|].
  intros ? ->.
  eapply yields_bind with (Q := fun v => v = if gtb x y then x else y); [apply yields_vcopy; auto|]. intros ? ->.
  assert (exists r, pure (abs_val_sub L false (if gtb x y then x else y) (other y)) r) as [r Hr].
  { destruct (gtb x y) eqn:E.
    - destruct (gtb_length x y E) as [Hl Hxn].
      destruct (abs_val_sub_other L HLk x y Hxn Hl) as (r & Hr & _). eauto.
    - assert (y <> []) as Hyn.
      { intros ->. destruct Hn as [Hn|Hn]; [|congruence]. unfold gtb in E. destruct x; [congruence|].
        cbn [length Nat.ltb Nat.leb] in E. discriminate. }
      destruct (abs_val_sub_other L HLk y y Hyn ltac:(lia)) as (r & Hr & _). eauto. }
  eapply yields_bind with (Q := fun _ => True); [eapply yields_pure; [exact Hr|exact I]|].
  intros v _. apply yields_ret; exact I.
Qed.

Theorem add_assign_total x y : finite x -> finite y ->
  (desc x = desc y \/ data x <> [] \/ data y <> []) ->
  assigns (op_add_assign L false x (Other y)) (fun _ => True) (infinity_for (desc y)).
Proof.
  intros Fx Fy Hn. rewrite <- failed_infinity.
  destruct x as [dx vx], y as [dy vy]. unfold finite in *. cbn [desc data] in *.
  unfold op_add_assign, adesc, adata, aview. cbn [desc data].
  assert (forall d, yields (v <- abs_val_add L vx (other vy) ;; ret (mkBN d v)) (fun _ => True)) as Hadd.
  { intros d. eapply yields_bind; [apply (abs_val_add_total L HLk vx vy)|].
    intros v _. apply yields_ret; exact I. }
  destruct Fx as [-> | ->], Fy as [-> | ->]; cbn [desc_eqb andb isComputable negb];
    apply guarded_yields; auto; apply diff_step_total; destruct Hn; [discriminate|auto|discriminate|auto].
Qed.

Theorem sub_assign_total x y : finite x -> finite y -> (data x <> [] \/ data y <> []) ->
  assigns (op_sub_assign L false x (Other y)) (fun _ => True) (infinity_for (desc y)).
Proof.
  intros Fx Fy Hn. rewrite <- failed_infinity.
  destruct x as [dx vx], y as [dy vy]. unfold finite in *. cbn [desc data] in *.
  unfold op_sub_assign, adesc, adata, aview. cbn [desc data].
  destruct Fx as [-> | ->], Fy as [-> | ->]; cbn [desc_eqb andb orb isComputable negb];
    apply guarded_yields; try (apply diff_step_total; auto); apply mixed_step_total; auto.
Qed.

Theorem sub_assign_self_total x : finite x -> data x <> [] ->
  assigns (op_sub_assign L false x Self) (fun _ => True) (infinity_for (desc x)).
Proof.
  intros Fx Hn. rewrite <- failed_infinity.
  destruct x as [dx vx]. unfold finite in *. cbn [desc data] in *.
  unfold op_sub_assign, adesc, adata, aview. cbn [desc data].
  assert (forall d, yields (c <- abs_val_is_ge vx vx ;;
       if (c : bool) then v <- abs_val_sub L false vx same ;; ret (mkBN dx v)
       else t <- vcopy vx ;; v <- abs_val_sub L false t (other vx) ;; ret (mkBN d v))
       (fun z => True)) as H.
  { intros d. eapply yields_bind with (Q := fun c => c = true).
    { eapply yields_pure; [apply ge_refl_pure|reflexivity]. }
    intros c ->. destruct (abs_val_sub_same_total L HLk vx Hn) as (r & Hr & _).
    eapply yields_bind with (Q := fun v => True).
    { eapply yields_pure; [exact Hr|exact I]. }
    intros ? _. apply yields_ret. exact I. }
  destruct Fx as [-> | ->]; cbn [desc_eqb andb orb isComputable negb]; apply guarded_yields; apply H.
Qed.

Lemma guarded_undef body bad u : is_undefined body u -> is_undefined (guarded body bad) u.
Proof. intros H al n; unfold guarded; rewrite H; reflexivity. Qed.

Lemma bind_undef_l {A C} (m : M A) (k : A -> M C) u : is_undefined m u -> is_undefined (bind m k) u.
Proof. intros H al n; unfold bind; rewrite H; reflexivity. Qed.

Lemma bind_pure_undef {A C} (m : M A) a (k : A -> M C) u :
  pure m a -> is_undefined (k a) u -> is_undefined (bind m k) u.
Proof. intros H1 H2 al n; unfold bind; rewrite H1; apply H2. Qed.

Lemma diff_step_nil d1 d2 : is_undefined (diff_step [] [] d1 d2) UB_index.
Proof.
  unfold diff_step. eapply bind_pure_undef; [apply ge_refl_pure|]. apply bind_undef_l.
  intros al n. apply (abs_val_sub_nil L (other []) al n). reflexivity.
Qed.

Theorem add_assign_nil dx dy : (dx = BN_POS /\ dy = BN_NEG \/ dx = BN_NEG /\ dy = BN_POS) ->
  is_undefined (op_add_assign L false (mkBN dx []) (Other (mkBN dy []))) UB_index.
Proof.
  intros [[-> ->]|[-> ->]]; apply guarded_undef;
    [apply (diff_step_nil BN_POS BN_NEG)|apply (diff_step_nil BN_NEG BN_POS)].
Qed.

Theorem sub_assign_nil_same dx : (dx = BN_POS \/ dx = BN_NEG) ->
  is_undefined (op_sub_assign L false (mkBN dx []) (Other (mkBN dx []))) UB_index.
Proof.
  intros [-> | ->]; apply guarded_undef;
    [apply (diff_step_nil BN_POS BN_NEG)|apply (diff_step_nil BN_NEG BN_POS)].
Qed.

Theorem sub_assign_self_nil dx : (dx = BN_POS \/ dx = BN_NEG) ->
  is_undefined (op_sub_assign L false (mkBN dx []) Self) UB_index.
Proof.
  intros [-> | ->]; apply guarded_undef; cbn [desc_eqb desc adesc andb orb];
  (eapply bind_pure_undef; [apply ge_refl_pure|]); apply bind_undef_l; intros al n;
  apply (abs_val_sub_nil L same al n); reflexivity.
Qed.

(** with opposite signs the copy is made first; if that allocation is refused the call throws instead *)
Theorem sub_assign_nil_mixed dx dy al n : (dx = BN_POS /\ dy = BN_NEG \/ dx = BN_NEG /\ dy = BN_POS) ->
  op_sub_assign L false (mkBN dx []) (Other (mkBN dy [])) al n =
  if al n then Undef UB_index else Ret (infinity_for dy, Some ExStd) (S n).
Proof.
  intros [[-> ->]|[-> ->]]; unfold op_sub_assign; cbn [desc adesc desc_eqb isComputable negb andb orb data adata];
    unfold guarded, bind, vcopy, bind, alloc; rewrite abs_val_is_gt_pure; cbn;
    destruct (al n); reflexivity.
Qed.

(** ** Mixed-sign subtraction *)

Theorem sub_assign_mixed x y : finite x -> finite y -> digits_ok B (data x) -> digits_ok B (data y) -> desc x <> desc y -> (data x <> [] \/ data y <> []) ->
  assigns (op_sub_assign L false x (Other y))
    (fun z => good B z /\ canonical (data z) /\ desc z = desc x /\
       value B (data z) = if gtb (data x) (data y)
         then (if value B (data y) <=? value B (data x) then value B (data x) - value B (data y)
               else value B (data x) - value B (data y) + B ^ Z.of_nat (length (data x)))
         else 0) (infinity_for (desc y)).
Proof.
  intros Fx Fy Dx Dy Hd Hn. rewrite <- failed_infinity.
  destruct x as [dx vx], y as [dy vy]. unfold finite in *. cbn [desc data] in *.
  unfold op_sub_assign, adesc, adata, aview. cbn [desc data].
  assert (forall d, d = BN_POS \/ d = BN_NEG -> yields (mixed_step vx vy d) (fun z => good B z /\ canonical (data z) /\ desc z = d /\
       value B (data z) = if gtb vx vy
         then (if value B vy <=? value B vx then value B vx - value B vy
               else value B vx - value B vy + B ^ Z.of_nat (length vx))
         else 0)) as H.
  { intros d Hdd. unfold mixed_step.
    eapply yields_bind with (Q := fun c => c = gtb vx vy); [eapply yields_pure; [apply abs_val_is_gt_pure|reflexivity]|].
    intros ? ->.
    eapply yields_bind with (Q := fun v => v = if gtb vx vy then vx else vy); [apply yields_vcopy; auto|]. intros ? ->.
    assert (exists r, pure (abs_val_sub L false (if gtb vx vy then vx else vy) (other vy)) r /\
      digits_ok B r /\ canonical r /\ value B r = if gtb vx vy
         then (if value B vy <=? value B vx then value B vx - value B vy
               else value B vx - value B vy + B ^ Z.of_nat (length vx))
         else 0) as (r & Hr & Dr & Cr & Vr).
    { destruct (gtb vx vy) eqn:E.
      - destruct (gtb_length vx vy E) as [Hl Hxn].
        destruct (abs_val_sub_other L HLk vx vy Hxn Hl) as (r & Hr & Cr & _ & Hv).
        destruct (Hv Dx Dy). exists r; auto.
      - assert (vy <> []) as Hyn.
        { intros ->. destruct Hn as [Hn|Hn]; [|congruence]. unfold gtb in E. destruct vx; [congruence|].
          cbn [length Nat.ltb Nat.leb] in E. discriminate. }
        destruct (abs_val_sub_other L HLk vy vy Hyn ltac:(lia)) as (r & Hr & Cr & _ & Hv).
        destruct (Hv Dy Dy) as [Dr Vr]. exists r. repeat split; auto.
        fold B in Vr. rewrite Vr, Z.leb_refl. lia. }
    eapply yields_bind with (Q := fun v => v = r); [eapply yields_pure; [exact Hr|reflexivity]|].
    intros v ->. apply yields_ret. cbn [desc data]. split; auto. apply good_intro; auto. left; auto. }
  destruct Fx as [-> | ->], Fy as [-> | ->]; try congruence; cbn [desc_eqb andb orb isComputable negb];
    apply guarded_yields; apply H; auto.
Qed.

End Ops.
