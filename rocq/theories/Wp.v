(** * Proof rules for the monad of Base.v *)
From Verif Require Import Base.

(** [yields m Q]: under every allocation oracle, [m] neither reaches undefined behaviour nor runs out of fuel;
    if it returns, the result satisfies [Q]; if it throws, it throws std::bad_alloc and some allocation was
    refused. *)
Definition yields {A} (m : M A) (Q : A -> Prop) : Prop :=
  forall al n, match m al n with
               | Ret a n' => Q a /\ (n <= n')%nat
               | Throw e n' => e = ExBadAlloc /\ exists k, (n <= k < n')%nat /\ al k = false
               | Undef _ | NoFuel => False
               end.

(** [may m Q]: if [m] returns, the result satisfies [Q] (partial correctness). *)
Definition may {A} (m : M A) (Q : A -> Prop) : Prop :=
  forall al n, match m al n with Ret a _ => Q a | _ => True end.

(** [pure m a]: [m] returns [a] without asking for memory. *)
Definition pure {A} (m : M A) (a : A) : Prop := forall al n, m al n = Ret a n.

Lemma yields_ret {A} (a : A) (Q : A -> Prop) : Q a -> yields (ret a) Q.
Proof. intros H al n; cbn; auto. Qed.

Lemma yields_bind {A B} (m : M A) (k : A -> M B) Q R :
  yields m Q -> (forall a, Q a -> yields (k a) R) -> yields (bind m k) R.
Proof.
  intros Hm Hk al n; unfold bind; specialize (Hm al n); destruct (m al n) as [a n'|e n'|u|]; auto.
  destruct Hm as [Ha Hn]. specialize (Hk a Ha al n').
  destruct (k a al n') as [b n''|e n''|u|]; auto.
  - destruct Hk; split; auto; lia.
  - destruct Hk as [He [j [Hj Hal]]]; split; auto. exists j; split; auto; lia.
Qed.

Lemma yields_mono {A} (m : M A) (Q R : A -> Prop) :
  yields m Q -> (forall a, Q a -> R a) -> yields m R.
Proof. intros Hm H al n; specialize (Hm al n); destruct (m al n); intuition. Qed.

Lemma yields_alloc (Q : unit -> Prop) : Q tt -> yields alloc Q.
Proof.
  intros H al n; unfold alloc; destruct (al n) eqn:E; auto.
  split; auto. exists n; split; auto.
Qed.

Lemma yields_pure {A} (m : M A) a (Q : A -> Prop) : pure m a -> Q a -> yields m Q.
Proof. intros H HQ al n; rewrite H; auto. Qed.

Lemma pure_ret {A} (a : A) : pure (ret a) a.
Proof. intros al n; reflexivity. Qed.

Lemma pure_bind {A B} (m : M A) a (k : A -> M B) b : pure m a -> pure (k a) b -> pure (bind m k) b.
Proof. intros H1 H2 al n; unfold bind; rewrite H1; apply H2. Qed.

Lemma pure_vget {A} (v : list A) i d : nth_error v i = Some d -> pure (vget v i) d.
Proof. intros H al n; unfold vget; rewrite H; reflexivity. Qed.

Lemma yields_vget {A} (v : list A) i d (Q : A -> Prop) :
  nth_error v i = Some d -> Q d -> yields (vget v i) Q.
Proof. intros H; apply yields_pure, pure_vget; auto. Qed.

Lemma vset_app {A} (u : list A) x w d : vset (u ++ x :: w) (length u) d = ret (u ++ d :: w).
Proof.
  unfold vset. rewrite (proj2 (Nat.ltb_lt _ _)) by (rewrite app_length; cbn; lia).
  f_equal. rewrite firstn_app, Nat.sub_diag, firstn_all, firstn_O, app_nil_r.
  f_equal. f_equal. replace (S (length u)) with (length (u ++ [x])) by (rewrite app_length; cbn; lia).
  change (x :: w) with ([x] ++ w). rewrite app_assoc, skipn_app, skipn_all, Nat.sub_diag. reflexivity.
Qed.

Lemma vget_app {A} (u : list A) x w : vget (u ++ x :: w) (length u) = ret x.
Proof. unfold vget. rewrite nth_error_app2, Nat.sub_diag by lia. reflexivity. Qed.

Lemma yields_vpush {A} (v : list A) d (Q : list A -> Prop) : Q (v ++ [d]) -> yields (vpush v d) Q.
Proof.
  intros H; unfold vpush; eapply yields_bind; [apply (yields_alloc (fun _ => True)); exact I|].
  intros _ _; apply yields_ret; auto.
Qed.

Lemma yields_vcopy {A} (v : list A) (Q : list A -> Prop) : Q v -> yields (vcopy v) Q.
Proof.
  intros H; unfold vcopy; eapply yields_bind; [apply (yields_alloc (fun _ => True)); exact I|].
  intros _ _; apply yields_ret; auto.
Qed.

Lemma yields_run {A} (m : M A) Q : yields m Q -> exists a n, run m = Ret a n /\ Q a.
Proof.
  intros H; specialize (H never_fails 0%nat); unfold run. destruct (m never_fails 0%nat) as [a n|e n|u|].
  - exists a, n; tauto.
  - destruct H as [_ [k [_ Hk]]]; discriminate.
  - contradiction.
  - contradiction.
Qed.

Lemma yields_may {A} (m : M A) Q : yields m Q -> may m Q.
Proof. intros H al n; specialize (H al n); destruct (m al n); tauto. Qed.

(** ** Partial correctness *)

Lemma may_ret {A} (a : A) (Q : A -> Prop) : Q a -> may (ret a) Q.
Proof. intros H al n; exact H. Qed.

Lemma may_bind {A B} (m : M A) (k : A -> M B) Q R :
  may m Q -> (forall a, Q a -> may (k a) R) -> may (bind m k) R.
Proof.
  intros Hm Hk al n; unfold bind; specialize (Hm al n); destruct (m al n); auto.
  apply Hk; auto.
Qed.

Lemma may_mono {A} (m : M A) (Q R : A -> Prop) : may m Q -> (forall a, Q a -> R a) -> may m R.
Proof. intros Hm H al n; specialize (Hm al n); destruct (m al n); auto. Qed.

Lemma may_any {A} (m : M A) : may m (fun _ => True).
Proof. intros al n; destruct (m al n); auto. Qed.

Lemma may_throw {A} e (Q : A -> Prop) : may (throw e) Q.
Proof. intros al n; exact I. Qed.
Lemma may_undef {A} u (Q : A -> Prop) : may (undef u) Q.
Proof. intros al n; exact I. Qed.
Lemma may_nofuel {A} (Q : A -> Prop) : may nofuel Q.
Proof. intros al n; exact I. Qed.

Lemma may_vget {A} (v : list A) i (Q : A -> Prop) : (forall x, In x v -> Q x) -> may (vget v i) Q.
Proof.
  intros H al n; unfold vget. destruct (nth_error v i) eqn:E; cbn; auto.
  apply H; eapply nth_error_In; eauto.
Qed.

Lemma may_vset {A} (v : list A) i d (Q : list A -> Prop) :
  (forall u x w, v = u ++ x :: w -> length u = i -> Q (u ++ d :: w)) -> may (vset v i d) Q.
Proof.
  intros H al n; unfold vset. destruct (i <? length v)%nat eqn:E; cbn; auto.
  apply Nat.ltb_lt in E. destruct (nth_error v i) as [x|] eqn:E2.
  - eapply H with (x := x).
    + symmetry; transitivity (firstn i v ++ skipn i v); [|apply firstn_skipn].
      f_equal. clear -E2. revert v E2; induction i as [|i IH]; intros [|y v] E2; try discriminate.
      * cbn in E2 |- *; congruence.
      * cbn in E2. cbn [skipn]. apply IH in E2. exact E2.
    + apply firstn_length_le; lia.
  - apply nth_error_None in E2; lia.
Qed.

Lemma may_vpush {A} (v : list A) d (Q : list A -> Prop) : Q (v ++ [d]) -> may (vpush v d) Q.
Proof. intros H; apply yields_may, yields_vpush; auto. Qed.

Lemma may_vcopy {A} (v : list A) (Q : list A -> Prop) : Q v -> may (vcopy v) Q.
Proof. intros H; apply yields_may, yields_vcopy; auto. Qed.
