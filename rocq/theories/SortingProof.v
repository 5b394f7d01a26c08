(** * Clients that order numbers: lemmas *)
From Coq Require Import Sorting.Sorted Sorting.Permutation.
From Verif Require Import Base Spec Limits Compare Bignum Outcome While Sorting.
From Verif Require Import Wp ValueProof CompareProof OperatorProof.

(** what a comparator answers *)
Definition says (c : comparator) (x y : bignum) : bool := match run (c x y) with Ret b _ => b | _ => false end.
(** it answers, without asking for memory *)
Definition answered (c : comparator) (P : bignum -> Prop) : Prop := forall x y, P x -> P y -> pure (c x y) (says c x y).

(** numbers in the order of their values, with -0 before +0 *)
Definition key (B : Z) (x : bignum) : Z := 2 * signed_value B x + (if desc_eqb (desc x) BN_POS then 1 else 0).

(** a finite number without superfluous zeros *)
Definition proper (B : Z) (x : bignum) : Prop := finite x /\ digits_ok B (data x) /\ canonical (data x).

Lemma says_pure c x y b : pure (c x y) b -> says c x y = b.
Proof. intros H. unfold says, run. rewrite H. reflexivity. Qed.

(** ** Digitwise comparison *)
Definition below (a b : list Z) : Prop := Forall2 Z.le a b.

Lemma some_gt_false a : forall b, length a = length b -> some_gt a b = false <-> below a b.
Proof.
  induction a as [|x a IH]; intros [|y b] Hl; try discriminate.
  - split; [constructor|reflexivity].
  - unfold some_gt. cbn [combine existsb fst snd]. rewrite Bool.orb_false_iff, Z.ltb_ge. fold (some_gt a b).
    rewrite IH by (cbn in Hl; lia). split; [intros [H1 H2]; constructor; assumption|intros H; inversion H; auto].
Qed.

Section Order.
Context (B : Z) (HB : 2 <= B).

Lemma below_value a b : below a b -> value B a <= value B b.
Proof. induction 1; cbn [value]; nia. Qed.

Lemma below_length a b : below a b -> length a = length b.
Proof. induction 1; cbn; congruence. Qed.

Lemma below_antisym a b : below a b -> below b a -> a = b.
Proof.
  intros H. induction H as [|x y a b H1 H2 IH]; intros K; [reflexivity|]. inversion K; subst. f_equal; [lia|auto].
Qed.

Lemma below_equal a b : below a b -> value B a = value B b -> a = b.
Proof.
  induction 1 as [|x y a b H1 H2 IH]; intros K; [reflexivity|]. cbn [value] in K. pose proof (below_value a b H2).
  assert (x = y) by nia. subst. f_equal. apply IH. nia.
Qed.

(** where the digits of equally long numbers are comparable, > is the order of the values *)
Lemma gtb_value a b : digits_ok B a -> digits_ok B b -> canonical a -> canonical b ->
  (length a = length b -> below a b \/ below b a) -> gtb a b = (value B b <? value B a).
Proof.
  intros Da Db Ca Cb H. unfold gtb. destruct (Nat.ltb_spec (length b) (length a)) as [Hl|Hl].
  { pose proof (length_lt_value B HB b a Db Da Ca Hl). symmetry. apply Z.ltb_lt. lia. }
  destruct (Nat.ltb_spec (length a) (length b)) as [Hl'|Hl'].
  { pose proof (length_lt_value B HB a b Da Db Cb Hl'). symmetry. apply Z.ltb_ge. lia. }
  assert (length a = length b) as El by lia. destruct (H El) as [K|K].
  - rewrite (proj2 (some_gt_false a b El) K). pose proof (below_value a b K). symmetry. apply Z.ltb_ge. lia.
  - destruct (some_gt a b) eqn:E.
    + symmetry. apply Z.ltb_lt. pose proof (below_value b a K).
      destruct (Z.eq_dec (value B b) (value B a)) as [Ev|Ev]; [|lia].
      rewrite (below_equal b a K Ev), some_gt_refl in E. discriminate.
    + apply (some_gt_false a b El) in E. rewrite (below_antisym a b E K). symmetry. apply Z.ltb_irrefl.
Qed.

(** ** What the comparators answer *)
Definition lt_answer (x y : bignum) : bool :=
  match desc x, desc y with
  | BN_POS, BN_POS => gtb (data y) (data x)
  | BN_NEG, BN_NEG => gtb (data x) (data y)
  | BN_NEG, _ => true
  | _, _ => false
  end.
Lemma op_lt_answer x y : finite x -> finite y -> pure (op_lt x y) (lt_answer x y).
Proof.
  intros Fx Fy. unfold lt_answer. destruct Fx as [Fx|Fx], Fy as [Fy|Fy]; rewrite Fx, Fy.
  - apply op_lt_pos; assumption.
  - unfold op_lt. rewrite Fx, Fy. apply pure_ret.
  - unfold op_lt. rewrite Fx, Fy. apply pure_ret.
  - apply op_lt_neg; assumption.
Qed.

Lemma key_pos x y : desc x = BN_POS -> desc y = BN_POS -> (key B x <? key B y) = (value B (data x) <? value B (data y)).
Proof. intros Hx Hy. unfold key, signed_value. rewrite Hx, Hy. cbn [desc_eqb]. apply eq_iff_eq_true. rewrite !Z.ltb_lt. lia. Qed.
Lemma key_neg x y : desc x = BN_NEG -> desc y = BN_NEG -> (key B x <? key B y) = (value B (data y) <? value B (data x)).
Proof. intros Hx Hy. unfold key, signed_value. rewrite Hx, Hy. cbn [desc_eqb]. apply eq_iff_eq_true. rewrite !Z.ltb_lt. lia. Qed.
Lemma key_mixed x y : desc x = BN_NEG -> desc y = BN_POS -> digits_ok B (data x) -> digits_ok B (data y) -> key B x < key B y.
Proof.
  intros Hx Hy Dx Dy. unfold key, signed_value. rewrite Hx, Hy. cbn [desc_eqb].
  pose proof (value_bounds B HB _ Dx). pose proof (value_bounds B HB _ Dy). lia.
Qed.

(** the digits of numbers of the same sign and length are comparable *)
Definition aligned (x y : bignum) : Prop :=
  desc x = desc y -> length (data x) = length (data y) -> below (data x) (data y) \/ below (data y) (data x).

Lemma lt_key x y : proper B x -> proper B y -> aligned x y -> lt_answer x y = (key B x <? key B y).
Proof.
  intros (Fx & Dx & Cx) (Fy & Dy & Cy) H. unfold lt_answer, aligned in *.
  destruct Fx as [Fx|Fx], Fy as [Fy|Fy]; rewrite Fx, Fy in *.
  - rewrite key_pos by assumption. apply gtb_value; auto. intros El. destruct (H eq_refl (eq_sym El)); auto.
  - symmetry. apply Z.ltb_ge. pose proof (key_mixed y x Fy Fx Dy Dx). lia.
  - symmetry. apply Z.ltb_lt. apply key_mixed; assumption.
  - rewrite key_neg by assumption. apply gtb_value; auto.
Qed.

(** a smaller number is always answered to be smaller *)
Lemma lt_complete x y : proper B x -> proper B y -> key B x < key B y -> lt_answer x y = true.
Proof.
  intros (Fx & Dx & Cx) (Fy & Dy & Cy) H. unfold lt_answer. apply Z.ltb_lt in H.
  destruct Fx as [Fx|Fx], Fy as [Fy|Fy]; rewrite Fx, Fy in *.
  - rewrite key_pos in H by assumption. apply (gtb_complete B HB); auto. apply Z.ltb_lt. exact H.
  - apply Z.ltb_lt in H. pose proof (key_mixed y x Fy Fx Dy Dx). lia.
  - reflexivity.
  - rewrite key_neg in H by assumption. apply (gtb_complete B HB); auto. apply Z.ltb_lt. exact H.
Qed.

(** both smaller than the other: exactly if they are not aligned *)
Lemma lt_both x y : proper B x -> proper B y -> lt_answer x y = true -> lt_answer y x = true -> ~ aligned x y.
Proof.
  intros Px Py H1 H2 A. rewrite lt_key in H1 by assumption.
  assert (aligned y x) as A' by (intros E1 E2; destruct (A (eq_sym E1) (eq_sym E2)); auto).
  rewrite lt_key in H2 by assumption. apply Z.ltb_lt in H1, H2. lia.
Qed.

Lemma gtb_same a b : length a = length b -> gtb a b = some_gt a b.
Proof.
  intros E. unfold gtb. destruct (Nat.ltb_spec (length b) (length a)); [lia|].
  destruct (Nat.ltb_spec (length a) (length b)); [lia|reflexivity].
Qed.

Lemma lt_one x y : finite x -> desc x = desc y -> length (data x) = length (data y) -> lt_answer x y = false \/ lt_answer y x = false ->
  below (data x) (data y) \/ below (data y) (data x).
Proof.
  intros Fx Ed El H. unfold lt_answer in H. rewrite <- Ed in H.
  destruct Fx as [Fx|Fx]; rewrite Fx in H; rewrite !gtb_same in H by congruence; destruct H as [H|H];
    apply some_gt_false in H; auto.
Qed.

(** neither smaller than the other: the same number *)
Lemma lt_neither x y : proper B x -> proper B y -> lt_answer x y = false -> lt_answer y x = false -> x = y.
Proof.
  intros Px Py H1 H2.
  assert (key B x = key B y) as E.
  { destruct (Z.lt_trichotomy (key B x) (key B y)) as [K|[K|K]]; auto.
    - rewrite (lt_complete x y) in H1 by assumption. discriminate.
    - rewrite (lt_complete y x) in H2 by assumption. discriminate. }
  destruct Px as (Fx & Dx & Cx), Py as (Fy & Dy & Cy). unfold key, signed_value in E.
  assert (desc x = desc y /\ value B (data x) = value B (data y)) as [Ed Ev].
  { destruct Fx as [Fx|Fx], Fy as [Fy|Fy]; rewrite Fx, Fy in *; cbn [desc_eqb] in E; split; auto; lia. }
  destruct x, y. cbn in *. f_equal; [exact Ed|]. apply (value_inj B HB); assumption.
Qed.

Lemma careful_key x y : proper B x -> proper B y -> pure (careful x y) (key B x <? key B y).
Proof.
  intros (Fx & Dx & Cx) (Fy & Dy & Cy). unfold careful.
  destruct Fx as [Fx|Fx], Fy as [Fy|Fy]; rewrite Fx; cbn [desc_eqb].
  - rewrite key_pos, Z.ltb_antisym by assumption. eapply pure_bind; [apply (op_ge_pos B HB x y); assumption|].
    rewrite (geb_canonical B HB) by assumption. apply pure_ret.
  - pose proof (key_mixed y x Fy Fx Dy Dx). assert ((key B x <? key B y) = false) as -> by (apply Z.ltb_ge; lia).
    unfold op_ge. rewrite Fx, Fy. intros al n. reflexivity.
  - pose proof (key_mixed x y Fx Fy Dx Dy). assert ((key B x <? key B y) = true) as -> by (apply Z.ltb_lt; lia).
    unfold op_gt. rewrite Fx, Fy. intros al n. reflexivity.
  - rewrite key_neg, Z.ltb_antisym by assumption. eapply pure_bind; [apply (op_gt_neg B HB x y); assumption|].
    rewrite (geb_canonical B HB) by assumption. apply pure_ret.
Qed.

Lemma not_ge_key x y : proper B x -> proper B y -> desc x = BN_POS -> desc y = BN_POS -> pure (not_ge x y) (key B x <? key B y).
Proof.
  intros (_ & Dx & Cx) (_ & Dy & Cy) Fx Fy. unfold not_ge. rewrite key_pos, Z.ltb_antisym by assumption.
  eapply pure_bind; [apply (op_ge_pos B HB x y); assumption|]. rewrite (geb_canonical B HB) by assumption. apply pure_ret.
Qed.

End Order.

(** ** Insertion *)
Lemma insert_spec c P val : answered c P -> P val -> forall before, Forall P before -> before <> [] ->
  says c val (last before val) = false ->
  exists a h b, before = a ++ h :: b /\ pure (unguarded_insert c val before) (a ++ val :: h :: b) /\
    Forall (fun x => says c val x = true) a /\ says c val h = false.
Proof.
  intros A Pv. induction before as [|x rest IH]; intros F N Hl; [congruence|].
  inversion_clear F as [|? ? Px Fr]. cbn [unguarded_insert]. destruct (says c val x) eqn:E.
  - assert (rest <> []) as Nr by (intros ->; cbn in Hl; congruence).
    destruct IH as (a & h & b & -> & Hp & Ha & Hh); [exact Fr|exact Nr| |].
    { destruct rest; [congruence|exact Hl]. }
    exists (x :: a), h, b. split; [reflexivity|]. split; [|split; [constructor; assumption|exact Hh]].
    eapply pure_bind; [apply A; assumption|]. rewrite E. cbv iota.
    eapply pure_bind; [exact Hp|]. apply pure_ret.
  - exists [], x, rest. split; [reflexivity|]. split; [|split; [constructor|exact E]].
    eapply pure_bind; [apply A; assumption|]. rewrite E. apply pure_ret.
Qed.

Lemma rev_inj_app {A} (l : list A) a b : rev l = a ++ b -> l = rev b ++ rev a.
Proof. intros H. rewrite <- (rev_involutive l), H, rev_app_distr. reflexivity. Qed.

(** a round puts the element after the last one that it does not precede *)
Lemma round_spec c P val : answered c P -> P val -> forall done, Forall P done ->
  exists a b, done = a ++ b /\ pure (insertion_round c done val) (a ++ val :: b) /\
    Forall (fun x => says c val x = true) (if says c val (hd val done) then [] else b) /\
    (says c val (hd val done) = false -> done <> [] -> exists u h, a = u ++ [h] /\ says c val h = false) /\
    (done <> [] -> says c val (hd val done) = true -> a = []).
Proof.
  intros A Pv done F. destruct done as [|x done].
  - exists [], []. split; [reflexivity|]. split; [apply pure_ret|]. split; [destruct (says _ _ _); constructor|].
    split; intros; congruence.
  - cbn [insertion_round hd]. inversion F as [|? ? Px Fd]; subst. destruct (says c val x) eqn:E.
    + exists [], (x :: done). split; [reflexivity|]. split; [|repeat split; intros; congruence || constructor].
      cbn [app]. eapply pure_bind; [apply A; assumption|]. rewrite E. apply pure_ret.
    + destruct (insert_spec c P val A Pv (rev (x :: done))) as (a & h & b & Er & Hp & Ha & Hh).
      * apply Forall_rev. exact F.
      * intros K. apply (f_equal (@rev _)) in K. rewrite rev_involutive in K. discriminate.
      * cbn [rev]. rewrite last_last. exact E.
      * apply rev_inj_app in Er. cbn [rev] in Er.
        exists (rev b ++ [h]), (rev a). split; [exact Er|]. split; [|split; [|split]].
        -- eapply pure_bind; [apply A; assumption|]. rewrite E. cbv iota.
           eapply pure_bind; [exact Hp|]. rewrite rev_app_distr. cbn [rev]. rewrite <- !app_assoc. apply pure_ret.
        -- apply Forall_rev. exact Ha.
        -- intros _ _. exists (rev b), h. auto.
        -- intros _ K. discriminate.
Qed.

Lemma loop_permutes c P : answered c P -> forall todo done, Forall P todo -> Forall P done ->
  exists r, pure (insertion_loop c done todo) r /\ Permutation (done ++ todo) r.
Proof.
  intros A. induction todo as [|val todo IH]; intros done Ft Fd.
  - exists done. split; [apply pure_ret|]. rewrite app_nil_r. reflexivity.
  - inversion_clear Ft as [|? ? Pv Ft']. destruct (round_spec c P val A Pv done Fd) as (a & b & -> & Hp & _).
    apply Forall_app in Fd. destruct Fd as [Fa Fb].
    destruct (IH (a ++ val :: b)) as (r & Hr & Pr); [exact Ft'|apply Forall_app; split; [exact Fa|constructor; assumption]|].
    exists r. split; [cbn [insertion_loop]; eapply pure_bind; [exact Hp|exact Hr]|].
    rewrite <- Pr. rewrite <- !app_assoc. apply Permutation_app_head. cbn [app]. symmetry. apply Permutation_middle.
Qed.

(** ** Sorted results *)
Definition ascending (k : bignum -> Z) (v : list bignum) : Prop := StronglySorted (fun x y => k x <= k y) v.

Lemma ascending_app k a : forall b, ascending k (a ++ b) <->
  ascending k a /\ ascending k b /\ (forall x y, In x a -> In y b -> k x <= k y).
Proof.
  unfold ascending. induction a as [|x a IH]; intros b; cbn [app].
  - split; [intros H; repeat split; [constructor|exact H|intros ? ? []]|tauto].
  - split.
    + intros H. inversion_clear H as [|? ? H1 H2]. apply IH in H1. destruct H1 as (Ha & Hb & Hab).
      rewrite Forall_app in H2. destruct H2 as [H2 H3]. repeat split; auto.
      * constructor; assumption.
      * intros u y [<-|Hu] Hy; [rewrite Forall_forall in H3; apply H3, Hy|apply Hab; assumption].
    + intros (Ha & Hb & Hab). inversion_clear Ha as [|? ? H1 H2]. constructor.
      * apply IH. repeat split; auto. intros u y Hu Hy. apply Hab; [right|]; assumption.
      * apply Forall_app. split; [exact H2|]. apply Forall_forall. intros y Hy. apply Hab; [left; reflexivity|exact Hy].
Qed.

Lemma loop_sorts c P k : answered c P -> (forall x y, P x -> P y -> says c x y = (k x <? k y)) ->
  forall todo done, Forall P todo -> Forall P done -> ascending k done ->
  exists r, pure (insertion_loop c done todo) r /\ Permutation (done ++ todo) r /\ ascending k r.
Proof.
  intros A K. induction todo as [|val todo IH]; intros done Ft Fd Sd.
  - exists done. split; [apply pure_ret|]. rewrite app_nil_r. split; [reflexivity|exact Sd].
  - inversion_clear Ft as [|? ? Pv Ft']. destruct (round_spec c P val A Pv done Fd) as (a & b & E & Hp & Hb & Hu & Ha).
    assert (Forall P a /\ Forall P b) as [Fa Fb] by (rewrite E in Fd; apply Forall_app in Fd; exact Fd).
    assert (ascending k (a ++ val :: b)) as S2.
    { assert (ascending k a /\ ascending k b /\ (forall x y, In x a -> In y b -> k x <= k y)) as (Sa & Sb & Sab)
        by (apply ascending_app; rewrite <- E; exact Sd).
      destruct (says c val (hd val done)) eqn:Eh.
      - destruct done as [|d done].
        + destruct a, b; try discriminate. cbn. repeat constructor.
        + specialize (Ha ltac:(discriminate) eq_refl). subst a. cbn [app] in *. subst b. constructor; [exact Sb|].
          cbn [hd] in Eh. inversion Fd; subst. rewrite K in Eh by assumption. apply Z.ltb_lt in Eh.
          inversion_clear Sb as [|? ? S1 S2]. constructor; [lia|]. eapply Forall_impl; [|exact S2]. cbn. intros; lia.
      - apply ascending_app. split; [exact Sa|]. split.
        + constructor; [exact Sb|]. apply Forall_forall. intros y Hy. rewrite Forall_forall in Hb. specialize (Hb y Hy).
          rewrite K in Hb by (auto; rewrite Forall_forall in Fb; auto). apply Z.ltb_lt in Hb. lia.
        + intros x y Hx [<-|Hy]; [|auto]. destruct done as [|d done]; [destruct a; [destruct Hx|discriminate]|].
          destruct (Hu eq_refl ltac:(discriminate)) as (u & h & -> & Hh). apply Forall_app in Fa. destruct Fa as [Fu Fh].
          inversion_clear Fh. rewrite K in Hh by assumption. apply Z.ltb_ge in Hh. apply in_app_or in Hx.
          destruct Hx as [Hx|[<-|[]]]; [|exact Hh]. apply ascending_app in Sa. destruct Sa as (_ & _ & Sh).
          specialize (Sh x h Hx (or_introl eq_refl)). lia. }
    destruct (IH (a ++ val :: b)) as (r & Hr & Pr & Sr); [exact Ft'|apply Forall_app; split; [exact Fa|constructor; assumption]|exact S2|].
    exists r. split; [cbn [insertion_loop]; eapply pure_bind; [exact Hp|exact Hr]|]. split; [|exact Sr].
    rewrite <- Pr, E. rewrite <- !app_assoc. apply Permutation_app_head. cbn [app]. symmetry. apply Permutation_middle.
Qed.

(** ** lower_bound *)
Lemma ascending_nth k v : ascending k v -> forall i j x y, (i <= j)%nat -> nth_error v i = Some x -> nth_error v j = Some y -> k x <= k y.
Proof.
  induction 1 as [|z v S IH F]; intros i j x y Hij Hx Hy; [destruct i; discriminate|].
  destruct i as [|i], j as [|j]; cbn in Hx, Hy.
  - injection Hx as <-. injection Hy as <-. lia.
  - injection Hx as <-. apply nth_error_In in Hy. rewrite Forall_forall in F. apply F, Hy.
  - lia.
  - apply (IH i j); auto; lia.
Qed.

Lemma bound_spec c P k v val : answered c P -> (forall x y, P x -> P y -> says c x y = (k x <? k y)) -> Forall P v -> P val -> ascending k v ->
  forall fuel first len, (len < 2 ^ fuel)%nat -> (first + len <= length v)%nat ->
  (forall i x, (i < first)%nat -> nth_error v i = Some x -> k x < k val) ->
  (forall i x, (first + len <= i)%nat -> nth_error v i = Some x -> k val <= k x) ->
  exists p, pure (lower_bound_loop c (S fuel) v val first len) p /\ (p <= length v)%nat /\
    (forall i x, (i < p)%nat -> nth_error v i = Some x -> k x < k val) /\
    (forall i x, (p <= i)%nat -> nth_error v i = Some x -> k val <= k x).
Proof.
  intros A K Fv Pv Sv. induction fuel as [|f IH]; intros first len Hlen Hv H1 H2.
  - assert (len = 0)%nat as -> by (cbn in Hlen; lia). exists first. split; [apply pure_ret|]. split; [lia|]. split; [exact H1|].
    rewrite Nat.add_0_r in H2. exact H2.
  - cbn [lower_bound_loop]. destruct (Nat.eqb_spec len 0) as [->|N].
    { exists first. split; [apply pure_ret|]. split; [lia|]. split; [exact H1|]. rewrite Nat.add_0_r in H2. exact H2. }
    cbv zeta. set (half := (len / 2)%nat).
    assert (half < len /\ half < 2 ^ f /\ len - half - 1 < 2 ^ f)%nat as (Hh & Hf1 & Hf2).
    { assert (2 ^ S f = 2 * 2 ^ f)%nat by (cbn; lia). pose proof (Nat.div_mod len 2 ltac:(lia)). pose proof (Nat.mod_upper_bound len 2 ltac:(lia)).
      fold half in H0. lia. }
    destruct (nth_error_lt v (first + half)) as [m Em]; [lia|].
    assert (P m) as Pm by (rewrite Forall_forall in Fv; apply Fv; eapply nth_error_In; exact Em).
    assert (exists p, pure (if says c m val then lower_bound_loop c (S f) v val (first + half + 1) (len - half - 1)
                            else lower_bound_loop c (S f) v val first half) p /\ (p <= length v)%nat /\
      (forall i x, (i < p)%nat -> nth_error v i = Some x -> k x < k val) /\
      (forall i x, (p <= i)%nat -> nth_error v i = Some x -> k val <= k x)) as (p & Hp & R).
    { rewrite (K m val Pm Pv). destruct (Z.ltb_spec (k m) (k val)) as [Hm|Hm].
      - apply IH; [lia|lia| |].
        + intros i x Hi Hx. pose proof (ascending_nth k v Sv i (first + half)%nat x m ltac:(lia) Hx Em). lia.
        + intros i x Hi Hx. apply (H2 i x); [lia|exact Hx].
      - apply IH; [lia|lia|exact H1|].
        intros i x Hi Hx. pose proof (ascending_nth k v Sv (first + half)%nat i m x ltac:(lia) Em Hx). lia. }
    exists p. split; [|exact R]. eapply pure_bind; [apply pure_vget; exact Em|]. eapply pure_bind; [apply A; assumption|]. exact Hp.
Qed.
