(** * Threads that do not write what others use: every schedule does what each thread does alone *)
From Verif Require Import Base Spec Limits Bignum Machine While Strict Threads Outcome.
From Verif Require Import Wp FailProof HistoryProof MemoryProof UniformProof.

(** ** Specification *)

(** the variables a statement writes, and those it uses in any way *)
Definition instr_writes (i : instr) : list nat :=
  match i with
  | IMove r t => [r; t]
  | INew r _ _ | ICopy r _ | IAssign _ r _ | IBinary _ r _ _ | ISetDesc r _ | IClear r | IResize r _ _ | IPushBack r _
  | IPushFront r _ | IPush r _ _ | IPopBack r | IPopFront r | IPop r _ | ISetDigit r _ _ => [r]
  end.
Definition instr_uses (i : instr) : list nat :=
  match i with
  | IMove r t | ICopy r t | IAssign _ r t => [r; t]
  | IBinary _ r t u => [r; t; u]
  | INew r _ _ | ISetDesc r _ | IClear r | IResize r _ _ | IPushBack r _
  | IPushFront r _ | IPush r _ _ | IPopBack r | IPopFront r | IPop r _ | ISetDigit r _ _ => [r]
  end.
Fixpoint writes (p : stmt) : list nat :=
  match p with
  | Do i => instr_writes i
  | Seq a b => writes a ++ writes b
  | If _ _ _ a b => writes a ++ writes b
  | While _ _ _ a => writes a
  end.
Fixpoint uses (p : stmt) : list nat :=
  match p with
  | Do i => instr_uses i
  | Seq a b => uses a ++ uses b
  | If _ x y a b => x :: y :: uses a ++ uses b
  | While _ x y a => x :: y :: uses a
  end.

(** No thread writes a variable that another one uses. *)
Definition independent (ps : list stmt) : Prop := forall i j p q r, i <> j ->
  nth_error ps i = Some p -> nth_error ps j = Some q -> In r (writes p) -> ~ In r (uses q).

(** ** Proofs *)

Definition agree (K : nat -> Prop) (s s' : regs) : Prop := forall r, K r -> s r = s' r.

Definition t_writes (t : thread) (r : nat) : Prop := exists p, In p t /\ In r (writes p).
Definition t_uses (t : thread) (r : nat) : Prop := exists p, In p t /\ In r (uses p).

Lemma writes_uses_i i r : In r (instr_writes i) -> In r (instr_uses i).
Proof. destruct i; cbn; tauto. Qed.
Lemma writes_uses p r : In r (writes p) -> In r (uses p).
Proof.
  induction p; cbn [writes uses]; intros H; [apply writes_uses_i, H|..]; try (apply in_app_iff in H; cbn; rewrite in_app_iff; tauto); cbn; tauto.
Qed.

(** two outcomes from states that agree on [K] *)
Definition parallel {A} (R : A -> A -> Prop) (r r' : res A) : Prop :=
  match r, r' with
  | Ret a x, Ret b y => R a b /\ x = y
  | Throw e x, Throw f y => e = f /\ x = y
  | Undef u, Undef v => u = v
  | NoFuel, NoFuel => True
  | _, _ => False
  end.

Lemma parallel_bind_eq {A C} (R : C -> C -> Prop) (m : M A) (k k' : A -> M C) al n :
  (forall a n, parallel R (k a al n) (k' a al n)) -> parallel R (bind m k al n) (bind m k' al n).
Proof. intros H. unfold bind. destruct (m al n); cbn; auto. Qed.

Definition local_result (K : nat -> Prop) (W : nat -> Prop) (s s' a b : regs) : Prop :=
  agree K a b /\ (forall r, ~ W r -> a r = s r /\ b r = s' r).

Lemma upd_local (K W : nat -> Prop) s s' r x : agree K s s' -> W r -> local_result K W s s' (upd s r x) (upd s' r x).
Proof.
  intros H HW. split.
  - intros q Hq. unfold upd. destruct (q =? r)%nat; auto.
  - intros q Hq. unfold upd. destruct (Nat.eqb_spec q r); [subst; contradiction|auto].
Qed.

Lemma upd2_local (K W : nat -> Prop) s s' r x t y : agree K s s' -> W r -> W t -> local_result K W s s' (upd (upd s t y) r x) (upd (upd s' t y) r x).
Proof.
  intros H HW HT. split.
  - intros q Hq. unfold upd. destruct (q =? r)%nat; [auto|]. destruct (q =? t)%nat; auto.
  - intros q Hq. unfold upd. destruct (Nat.eqb_spec q r); [subst; contradiction|]. destruct (Nat.eqb_spec q t); [subst; contradiction|auto].
Qed.

Lemma operand_agree (K : nat -> Prop) s s' r t : agree K s s' -> K t -> operand s r t = operand s' r t.
Proof. intros H Ht. unfold operand. rewrite (H t Ht). reflexivity. Qed.

Lemma step_local E i (K : nat -> Prop) s s' al n : agree K s s' -> (forall r, In r (instr_uses i) -> K r) ->
  parallel (local_result K (fun r => In r (instr_writes i)) s s') (strict_step E i s al n) (strict_step E i s' al n).
Proof.
  intros H HK.
  assert (forall r (m m' : M bignum), m = m' -> In r (instr_writes i) ->
    parallel (local_result K (fun r => In r (instr_writes i)) s s') (put_in s r m al n) (put_in s' r m' al n)) as HP.
  { intros r m m' <- Hr. unfold put_in. apply parallel_bind_eq. intros a k. cbn. split; [|reflexivity]. apply upd_local; auto. }
  assert (forall r (m m' : M assigned), m = m' -> In r (instr_writes i) ->
    parallel (local_result K (fun r => In r (instr_writes i)) s s') (assigned_to s r m al n) (assigned_to s' r m' al n)) as HA.
  { intros r m m' <- Hr. unfold assigned_to. apply parallel_bind_eq. intros a k. destruct (snd a); cbn; (split; [|reflexivity]); [reflexivity|]. apply upd_local; auto. }
  destruct i; cbn [instr_uses instr_writes In] in *; cbn [strict_step];
    repeat match goal with |- context [s ?r] => rewrite (H r) by (apply HK; tauto) end;
    rewrite ?(operand_agree K s s') by (auto; apply HK; tauto);
    try (apply HP; [reflexivity|tauto]); try (apply HA; [reflexivity|tauto]);
    try (cbn; split; [apply upd_local; auto; tauto|reflexivity]).
  cbn [bn_move_assign]. destruct (Nat.eqb _ _); cbn; (split; [|reflexivity]).
  - apply upd_local; auto.
  - apply upd2_local; auto.
Qed.

(** the continuation of a thread uses and writes no more than before *)
Definition smaller (t' t : thread) : Prop := (forall r, t_uses t' r -> t_uses t r) /\ (forall r, t_writes t' r -> t_writes t r).

Definition advanced (K W : nat -> Prop) (t : thread) (s s' : regs) (a b : thread * regs) : Prop :=
  fst a = fst b /\ smaller (fst a) t /\ local_result K W s s' (snd a) (snd b).

Lemma t_uses_cons p t r : t_uses (p :: t) r <-> In r (uses p) \/ t_uses t r.
Proof.
  unfold t_uses. split.
  - intros (q & [<-|Hq] & Hr); [left; exact Hr|right; eauto].
  - intros [H|(q & Hq & Hr)]; [exists p; cbn; auto|exists q; cbn; auto].
Qed.
Lemma t_writes_cons p t r : t_writes (p :: t) r <-> In r (writes p) \/ t_writes t r.
Proof.
  unfold t_writes. split.
  - intros (q & [<-|Hq] & Hr); [left; exact Hr|right; eauto].
  - intros [H|(q & Hq & Hr)]; [exists p; cbn; auto|exists q; cbn; auto].
Qed.

Lemma advance_local E t (K : nat -> Prop) s s' al n : agree K s s' -> (forall r, t_uses t r -> K r) ->
  parallel (advanced K (t_writes t) t s s') (advance E t s al n) (advance E t s' al n).
Proof.
  intros H HK. destruct t as [|[i|a b|c x y a b|c x y a] t]; cbn [advance].
  - cbn. repeat split; auto.
  - pose proof (step_local E i K s s' al n H) as P. unfold bind.
    specialize (P ltac:(intros r Hr; apply HK, t_uses_cons; left; exact Hr)).
    destruct (strict_step E i s al n), (strict_step E i s' al n); cbn in P |- *; try contradiction; try exact P.
    destruct P as ((P1 & P2) & ->). split; [|reflexivity]. split; [reflexivity|]. split; [|split; [exact P1|]].
    + split; cbn; intros r Hr; [apply t_uses_cons|apply t_writes_cons]; auto.
    + intros r Hr. apply P2. intros Hi. apply Hr, t_writes_cons. left. exact Hi.
  - cbn. split; [|reflexivity]. split; [reflexivity|]. split; [|repeat split; auto].
    split; cbn; intros r; rewrite ?t_uses_cons, ?t_writes_cons; cbn [uses writes]; rewrite in_app_iff; tauto.
  - assert (K x /\ K y) as (Kx & Ky) by (split; apply HK, t_uses_cons; left; cbn; auto).
    rewrite (H x Kx), (H y Ky). apply parallel_bind_eq. intros v k. cbn. split; [|reflexivity]. split; [reflexivity|]. split; [|repeat split; auto].
    split; cbn; intros r; destruct v; rewrite ?t_uses_cons, ?t_writes_cons; cbn [uses writes]; cbn [In]; rewrite in_app_iff; tauto.
  - assert (K x /\ K y) as (Kx & Ky) by (split; apply HK, t_uses_cons; left; cbn; auto).
    rewrite (H x Kx), (H y Ky). apply parallel_bind_eq. intros v k. cbn. split; [|reflexivity]. split; [reflexivity|]. split; [|repeat split; auto].
    split; cbn; intros r; destruct v; rewrite ?t_uses_cons, ?t_writes_cons; cbn [uses writes]; cbn [In]; tauto.
Qed.

Lemma un_advance E t s : uniform (advance E t s).
Proof.
  destruct t as [|[i|a b|c x y a b|c x y a] t]; cbn [advance]; try apply un_ret; (apply un_bind; [|intros; apply un_ret]).
  - apply un_step.
  - apply un_compare.
  - apply un_compare.
Qed.
Lemma st_advance E t s : steady std_or_bad_alloc (advance E t s).
Proof.
  destruct t as [|[i|a b|c x y a b|c x y a] t]; cbn [advance]; try apply st_ret; (apply st_bind; [|intros; apply st_ret]).
  - apply st_step.
  - apply st_compare.
  - apply st_compare.
Qed.

Lemma un_run E : forall f p s, uniform (strict_run E f p s).
Proof.
  induction f as [|f IH]; intros p s; [apply un_nofuel|]. destruct p as [i|a b|c x y a b|c x y a]; cbn [strict_run].
  - apply un_step.
  - apply un_bind; [apply IH|]. intros s1. apply IH.
  - apply un_bind; [apply un_compare|]. intros t. destruct t; apply IH.
  - apply un_bind; [apply un_compare|]. intros t. destruct t; [|apply un_ret]. apply un_bind; [apply IH|]. intros s1. apply IH.
Qed.

Lemma uniform_ret {A} (m : M A) n a k : uniform m -> m never_fails n = Ret a k -> forall n', exists k', m never_fails n' = Ret a k'.
Proof.
  intros U H n'. specialize (U never_fails never_fails n n' (fun _ => eq_refl)). rewrite H in U. unfold same_outcome in U.
  destruct (m never_fails n') as [b y|e y|u|]; try contradiction. destruct U as (-> & _). eauto.
Qed.

Lemma run_more E al : forall f p s n, strict_run E f p s al n <> NoFuel -> forall g, (f <= g)%nat -> strict_run E g p s al n = strict_run E f p s al n.
Proof.
  induction f as [|f IH]; intros p s n H g Hg; [cbn in H; unfold nofuel in H; congruence|].
  destruct g as [|g]; [lia|]. assert (f <= g)%nat as Hg' by lia.
  destruct p as [i|a b|c x y a b|c x y a]; cbn [strict_run] in *.
  - reflexivity.
  - unfold bind in *. rewrite (IH a s n) with (g := g); [|destruct (strict_run E f a s al n); congruence|exact Hg'].
    destruct (strict_run E f a s al n) as [s1 n1| | |]; auto.
  - unfold bind in *. destruct (compare c (s x) (s y) al n) as [v n1| | |]; auto. destruct v; auto.
  - unfold bind in *. destruct (compare c (s x) (s y) al n) as [v n1| | |]; auto. destruct v; auto.
    rewrite (IH a s n1) with (g := g); [|destruct (strict_run E f a s al n1); congruence|exact Hg'].
    destruct (strict_run E f a s al n1) as [s1 n2| | |]; auto.
Qed.

(** [p] alone, with unlimited memory, from [s] ends in [s'] *)
Definition gives (E : env) (p : stmt) (s s' : regs) : Prop := exists f, forall n, exists n', strict_run E f p s never_fails n = Ret s' n'.

Lemma gives_more E p s s' f : (forall n, exists n', strict_run E f p s never_fails n = Ret s' n') ->
  forall g, (f <= g)%nat -> forall n, exists n', strict_run E g p s never_fails n = Ret s' n'.
Proof. intros H g Hg n. destruct (H n) as (n' & E1). exists n'. rewrite (run_more E never_fails f); [exact E1|congruence|exact Hg]. Qed.

(** a thread alone in [m] steps *)
Inductive steps (E : env) : nat -> thread -> regs -> thread -> regs -> Prop :=
| steps_0 t s : steps E 0%nat t s t s
| steps_S m t s t1 s1 t' s' n : t <> [] -> advance E t s never_fails 0%nat = Ret (t1, s1) n -> steps E m t1 s1 t' s' -> steps E (S m) t s t' s'.

Lemma steps_app E m1 m2 t s t1 s1 t2 s2 : steps E m1 t s t1 s1 -> steps E m2 t1 s1 t2 s2 -> steps E (m1 + m2) t s t2 s2.
Proof. induction 1; intros H2; [exact H2|]. cbn [Nat.add]. econstructor; eauto. Qed.

Lemma run_steps E : forall f p s n s' n', strict_run E f p s never_fails n = Ret s' n' -> forall k, exists m, steps E m (p :: k) s k s'.
Proof.
  induction f as [|f IH]; intros p s n s' n' H k; [discriminate|]. destruct p as [i|a b|c x y a b|c x y a]; cbn [strict_run] in H.
  - exists 1%nat. destruct (uniform_ret _ n s' n' (un_step E i s) H 0%nat) as (n1 & H1).
    eapply steps_S; [discriminate| |apply steps_0]. cbn [advance]. unfold bind. rewrite H1. reflexivity.
  - unfold bind in H. destruct (strict_run E f a s never_fails n) as [s1 n1| | |] eqn:Ea; try discriminate.
    destruct (IH _ _ _ _ _ Ea (b :: k)) as (m1 & S1). destruct (IH _ _ _ _ _ H k) as (m2 & S2).
    exists (S (m1 + m2)). eapply steps_S; [discriminate|reflexivity|]. eapply steps_app; eauto.
  - unfold bind in H. destruct (compare c (s x) (s y) never_fails n) as [v n1| | |] eqn:Ec; try discriminate.
    destruct (uniform_ret _ n v n1 (un_compare c (s x) (s y)) Ec 0%nat) as (n2 & H2).
    assert (exists m, steps E m ((if v then a else b) :: k) s k s') as (m & Sm) by (destruct v; eapply IH; eauto).
    exists (S m). eapply steps_S; [discriminate| |exact Sm]. cbn [advance]. unfold bind. rewrite H2. reflexivity.
  - unfold bind in H. destruct (compare c (s x) (s y) never_fails n) as [v n1| | |] eqn:Ec; try discriminate.
    destruct (uniform_ret _ n v n1 (un_compare c (s x) (s y)) Ec 0%nat) as (n2 & H2).
    destruct v.
    + destruct (strict_run E f a s never_fails n1) as [s1 n3| | |] eqn:Ea; try discriminate.
      destruct (IH _ _ _ _ _ Ea (While c x y a :: k)) as (m1 & S1). destruct (IH _ _ _ _ _ H k) as (m2 & S2).
      exists (S (m1 + m2)). eapply steps_S; [discriminate| |eapply steps_app; eauto]. cbn [advance]. unfold bind. rewrite H2. reflexivity.
    + injection H as <- <-. exists 1%nat. eapply steps_S; [discriminate| |apply steps_0]. cbn [advance]. unfold bind. rewrite H2. reflexivity.
Qed.

Lemma steps_run E : forall m p k s s', steps E m (p :: k) s [] s' -> exists m1 s1, (m1 < m)%nat /\ gives E p s s1 /\ steps E m1 k s1 [] s'.
Proof.
  induction m as [m IH] using (well_founded_induction lt_wf). intros p k s s' H.
  inversion H as [|m0 t0 s0 t1 s1 t' s'' n Ht Ha Hs]; subst. clear H.
  destruct p as [i|a b|c x y a b|c x y a]; cbn [advance] in Ha.
  - unfold bind in Ha. destruct (strict_step E i s never_fails 0%nat) as [s2 n2| | |] eqn:Es; try discriminate. cbn in Ha. injection Ha as <- <- <-.
    exists m0, s2. split; [lia|]. split; [|exact Hs]. exists 1%nat. intros n1. cbn [strict_run].
    exact (uniform_ret _ _ _ _ (un_step E i s) Es n1).
  - cbn in Ha. injection Ha as <- <- <-. destruct (IH m0 ltac:(lia) _ _ _ _ Hs) as (m1 & s2 & L1 & (f1 & G1) & S1).
    destruct (IH m1 ltac:(lia) _ _ _ _ S1) as (m2 & s3 & L2 & (f2 & G2) & S2).
    exists m2, s3. split; [lia|]. split; [|exact S2]. exists (S (Nat.max f1 f2)). intros n. cbn [strict_run]. unfold bind.
    destruct (gives_more E a s s2 f1 G1 (Nat.max f1 f2) ltac:(lia) n) as (n1 & ->).
    apply (gives_more E b s2 s3 f2 G2). lia.
  - unfold bind in Ha. destruct (compare c (s x) (s y) never_fails 0%nat) as [v n2| | |] eqn:Ec; try discriminate. cbn in Ha. injection Ha as <- <- <-.
    destruct (IH m0 ltac:(lia) _ _ _ _ Hs) as (m1 & s2 & L1 & (f1 & G1) & S1).
    exists m1, s2. split; [lia|]. split; [|exact S1]. exists (S f1). intros n. cbn [strict_run]. unfold bind.
    destruct (uniform_ret _ _ v n2 (un_compare c (s x) (s y)) Ec n) as (n1 & ->). destruct v; apply G1.
  - unfold bind in Ha. destruct (compare c (s x) (s y) never_fails 0%nat) as [v n2| | |] eqn:Ec; try discriminate. cbn in Ha. injection Ha as <- <- <-.
    destruct v.
    + destruct (IH m0 ltac:(lia) _ _ _ _ Hs) as (m1 & s2 & L1 & (f1 & G1) & S1).
      destruct (IH m1 ltac:(lia) _ _ _ _ S1) as (m2 & s3 & L2 & (f2 & G2) & S2).
      exists m2, s3. split; [lia|]. split; [|exact S2]. exists (S (Nat.max f1 f2)). intros n. cbn [strict_run]. unfold bind.
      destruct (uniform_ret _ _ true n2 (un_compare c (s x) (s y)) Ec n) as (n1 & ->).
      destruct (gives_more E a s s2 f1 G1 (Nat.max f1 f2) ltac:(lia) n1) as (n3 & ->).
      apply (gives_more E (While c x y a) s2 s3 f2 G2). lia.
    + exists m0, s. split; [lia|]. split; [|exact Hs]. exists 1%nat. intros n. cbn [strict_run]. unfold bind.
      destruct (uniform_ret _ _ false n2 (un_compare c (s x) (s y)) Ec n) as (n1 & ->). exists n1. reflexivity.
Qed.

Lemma steps_gives E m p s s' : steps E m [p] s [] s' -> gives E p s s'.
Proof.
  intros H. destruct (steps_run E m p [] s s' H) as (m1 & s1 & _ & G & S1).
  inversion S1; subst; [exact G|contradiction].
Qed.

(** ** Schedules *)

Lemma steps_transfer E m t s1 t' s1' : steps E m t s1 t' s1' -> forall (K : nat -> Prop) s, agree K s1 s -> (forall r, t_uses t r -> K r) ->
  exists s', steps E m t s t' s' /\ agree K s1' s'.
Proof.
  induction 1 as [t s1|m t s1 t1 s2 t' s1' n Ht Ha Hs IH]; intros K s H HK.
  - exists s. split; [constructor|exact H].
  - pose proof (advance_local E t K s1 s never_fails 0%nat H HK) as P. rewrite Ha in P. cbn [parallel] in P.
    destruct (advance E t s never_fails 0%nat) as [[t2 s3] n2|e n2|u|] eqn:E2; try contradiction.
    destruct P as ((P1 & (P2 & _) & (P3 & _)) & _). cbn [fst snd] in *. subst t2.
    destruct (IH K s3 P3 ltac:(intros r Hr; apply HK, P2, Hr)) as (s' & S' & A').
    exists s'. split; [|exact A']. eapply steps_S; eauto.
Qed.

Lemma nth_replaced {A} (l : list A) i a j b : nth_error l i = Some b ->
  nth_error (replaced l i a) j = if (j =? i)%nat then Some a else nth_error l j.
Proof.
  unfold replaced. revert i j. induction l as [|x l IH]; intros [|i] [|j] H; try discriminate; try reflexivity.
  cbn [firstn skipn app nth_error Nat.eqb]. apply IH. exact H.
Qed.

(** who may use what *)
Definition separated (K : nat -> nat -> Prop) (ts : list thread) : Prop :=
  forall i t, nth_error ts i = Some t -> (forall r, t_uses t r -> K i r) /\ forall j, j <> i -> forall r, t_writes t r -> ~ K j r.

Lemma separated_next K ts i t t1 : separated K ts -> nth_error ts i = Some t -> smaller t1 t -> separated K (replaced ts i t1).
Proof.
  intros H Hi (S1 & S2) j u Hj. rewrite (nth_replaced _ _ _ _ _ Hi) in Hj. destruct (Nat.eqb_spec j i) as [->|Ne]; [|apply H; exact Hj].
  injection Hj as <-. destruct (H i t Hi) as (A & B). split; [intros r Hr; apply A, S1, Hr|]. intros j Hj r Hr. apply (B j Hj). apply S2, Hr.
Qed.

Lemma advance_agree E al n t s t1 s1 n1 : advance E t s al n = Ret (t1, s1) n1 ->
  smaller t1 t /\ (forall r, ~ t_writes t r -> s1 r = s r) /\ exists n2, advance E t s never_fails 0%nat = Ret (t1, s1) n2.
Proof.
  intros H. pose proof (advance_local E t (fun _ => True) s s al n ltac:(intros r _; reflexivity) (fun _ _ => I)) as P. rewrite H in P.
  destruct P as ((_ & P2 & (_ & P3)) & _). cbn [fst snd] in *. split; [exact P2|]. split; [intros r Hr; apply P3, Hr|].
  destruct (st_advance E t s al n) as [[H1 _]|(e & n' & _ & H1 & _)]; [|congruence].
  apply (uniform_ret _ n _ n1 (un_advance E t s)). congruence.
Qed.

Lemma schedule_steps E al K : forall q ts s n ts' s' n', separated K ts -> interleaved E q ts s al n = Ret (ts', s') n' ->
  (forall i t', nth_error ts' i = Some t' -> exists t m si, nth_error ts i = Some t /\ steps E m t s t' si /\ agree (K i) si s') /\
  (forall i t, nth_error ts i = Some t -> exists t', nth_error ts' i = Some t') /\
  (forall r, (forall i t, nth_error ts i = Some t -> ~ t_writes t r) -> s' r = s r).
Proof.
  induction q as [|i q IH]; intros ts s n ts' s' n' HK H; cbn [interleaved] in H.
  - injection H as <- <- <-. repeat split; eauto. intros i t Ht. exists t, 0%nat, s. split; [exact Ht|]. split; [constructor|intros r _; reflexivity].
  - destruct (nth_error ts i) as [t|] eqn:Hi; [|eapply IH; eauto]. unfold bind in H.
    destruct (advance E t s al n) as [[t1 s1] n1| | |] eqn:Ha; try discriminate. cbn [fst snd] in H.
    destruct (advance_agree _ _ _ _ _ _ _ _ Ha) as (Sm & Fr & n2 & Ha0).
    destruct (IH _ _ _ _ _ _ (separated_next K ts i t t1 HK Hi Sm) H) as (A & B & C). split; [|split].
    + intros j t' Hj. destruct (A j t' Hj) as (u & m & sj & Hu & Su & Au). rewrite (nth_replaced _ _ _ _ _ Hi) in Hu.
      destruct (Nat.eqb_spec j i) as [->|Ne].
      * injection Hu as <-. destruct t as [|p t].
        -- cbn in Ha0. injection Ha0 as <- <- <-. exists [], m, sj. auto.
        -- exists (p :: t), (S m), sj. split; [exact Hi|]. split; [|exact Au]. eapply steps_S; [discriminate|exact Ha0|exact Su].
      * destruct (HK i t Hi) as (_ & W). destruct (HK j u Hu) as (U & _).
        assert (agree (K j) s1 s) as Ag by (intros r Hr; apply Fr; intros Hw; exact (W j Ne r Hw Hr)).
        destruct (steps_transfer E m u s1 t' sj Su (K j) s Ag U) as (sj' & S' & A').
        exists u, m, sj'. split; [exact Hu|]. split; [exact S'|]. intros r Hr. rewrite <- (A' r Hr). apply Au, Hr.
    + intros j u Hu. destruct (Nat.eq_dec j i) as [->|Ne].
      * apply (B i t1). rewrite (nth_replaced _ _ _ _ _ Hi), Nat.eqb_refl. reflexivity.
      * apply (B j u). rewrite (nth_replaced _ _ _ _ _ Hi). destruct (Nat.eqb_spec j i); [contradiction|exact Hu].
    + intros r Hr. rewrite C; [apply Fr; exact (Hr i t Hi)|]. intros j u Hu. rewrite (nth_replaced _ _ _ _ _ Hi) in Hu.
      destruct (Nat.eqb_spec j i) as [->|Ne]; [|exact (Hr j u Hu)]. injection Hu as <-. intros Hw. apply (Hr i t Hi). destruct Sm as (_ & S2). apply S2, Hw.
Qed.

Definition turns (i : nat) (q : list nat) : nat := count_occ Nat.eq_dec q i.

Lemma schedule_progress E K : forall q ts s n m fin, separated K ts ->
  (forall i t, nth_error ts i = Some t -> exists si, agree (K i) si s /\ steps E (m i) t si [] (fin i)) ->
  exists ts' s' n', interleaved E q ts s never_fails n = Ret (ts', s') n' /\
    forall i t', nth_error ts' i = Some t' -> exists si, agree (K i) si s' /\ steps E (m i - turns i q) t' si [] (fin i).
Proof.
  induction q as [|i q IH]; intros ts s n m fin HK H; cbn [interleaved].
  - exists ts, s, n. split; [reflexivity|]. intros i t Ht. cbn. rewrite Nat.sub_0_r. apply H, Ht.
  - destruct (nth_error ts i) as [t|] eqn:Hi.
    2:{ destruct (IH ts s n m fin HK H) as (ts' & s' & n' & H1 & H2). exists ts', s', n'. split; [exact H1|].
        intros j t' Hj. cbn [turns count_occ]. destruct (Nat.eq_dec i j) as [->|Ne]; [|apply H2, Hj]. exfalso.
        clear - H1 Hi Hj. revert ts s n Hi H1.
        induction q as [|a q IH]; intros ts s n Hi H1; cbn [interleaved] in H1; [injection H1 as <- <- <-; congruence|].
        destruct (nth_error ts a) as [u|] eqn:Ha; [|eapply IH; eauto]. unfold bind in H1.
        destruct (advance E u s never_fails n) as [[t1 s1] n1| | |]; try discriminate. cbn [fst snd] in H1.
        refine (IH _ _ _ _ H1). rewrite (nth_replaced _ _ _ _ _ Ha). destruct (Nat.eqb_spec j a); [congruence|exact Hi]. }
    destruct (H i t Hi) as (si & Ai & Si). destruct (HK i t Hi) as (Ui & Wi).
    assert (exists t1 s1 n1 si1, advance E t s never_fails n = Ret (t1, s1) n1 /\ agree (K i) si1 s1 /\
      steps E (m i - 1) t1 si1 [] (fin i)) as (t1 & s1 & n1 & si1 & Ha & A1 & S1).
    { inversion Si as [t0 s0|m0 t0 s0 t1 s1 t' s' n0 Nt Ha Hs]; subst.
      - exists [], s, n, (fin i). split; [reflexivity|]. split; [exact Ai|]. replace (m i) with 0%nat by congruence. constructor.
      - pose proof (advance_local E t (K i) si s never_fails 0%nat Ai Ui) as P. rewrite Ha in P. cbn [parallel] in P.
        destruct (advance E t s never_fails 0%nat) as [[t2 s3] n2|e n2|u|] eqn:E2; try contradiction.
        destruct P as ((P1 & _ & (P3 & _)) & _). cbn [fst snd] in *. subst t2.
        destruct (uniform_ret _ 0%nat _ n2 (un_advance E t s) E2 n) as (n3 & E3).
        exists t1, s3, n3, s1. split; [exact E3|]. split; [exact P3|]. cbn [Nat.sub]. rewrite Nat.sub_0_r. exact Hs. }
    destruct (advance_agree _ _ _ _ _ _ _ _ Ha) as (Sm & Fr & _).
    destruct (IH (replaced ts i t1) s1 n1 (fun j => if (j =? i)%nat then (m i - 1)%nat else m j) fin (separated_next K ts i t t1 HK Hi Sm)) as (ts' & s' & n' & H1 & H2).
    { intros j u Hu. rewrite (nth_replaced _ _ _ _ _ Hi) in Hu. destruct (Nat.eqb_spec j i) as [->|Ne].
      - injection Hu as <-. exists si1. auto.
      - destruct (H j u Hu) as (sj & Aj & Sj). exists sj. split; [|exact Sj]. intros r Hr. rewrite (Aj r Hr). symmetry. apply Fr. intros Hw.
        exact (Wi j Ne r Hw Hr). }
    exists ts', s', n'. split; [unfold bind; rewrite Ha; exact H1|]. intros j u Hu. destruct (H2 j u Hu) as (sj & Aj & Sj). exists sj. split; [exact Aj|].
    cbn [turns count_occ]. destruct (Nat.eqb_spec j i) as [->|Ne].
    + destruct (Nat.eq_dec i i) as [_|]; [|congruence]. unfold turns in *. replace (m i - S (count_occ Nat.eq_dec q i))%nat with (m i - 1 - count_occ Nat.eq_dec q i)%nat by lia. exact Sj.
    + destruct (Nat.eq_dec i j) as [|_]; [congruence|]. exact Sj.
Qed.

Lemma st_interleaved E : forall q ts s, steady std_or_bad_alloc (interleaved E q ts s).
Proof.
  induction q as [|i q IH]; intros ts s; cbn [interleaved]; [apply st_ret|]. destruct (nth_error ts i); [|apply IH].
  apply st_bind; [apply st_advance|]. intros r. apply IH.
Qed.

Lemma independent_separated ps : independent ps -> separated (fun i r => exists p, nth_error ps i = Some p /\ In r (uses p)) (map (fun p => [p]) ps).
Proof.
  intros H i t Hi. rewrite nth_error_map in Hi. destruct (nth_error ps i) as [p|] eqn:E; [|discriminate]. cbn in Hi. injection Hi as <-. split.
  - intros r (q & [<-|[]] & Hr). eauto.
  - intros j Hj r (q & [<-|[]] & Hr) (u & Hu & Hur). exact (H i j p u r ltac:(congruence) E Hu Hr Hur).
Qed.
