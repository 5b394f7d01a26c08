(** * The model without capacities covers the one with them *)
From Coq Require Import FunctionalExtensionality.
From Verif Require Import Base Spec Limits Compare AddSub Division Fourier Multiplication Bignum Machine While Strict MulMemory Capacity.

(** ** Two computations that end alike *)

Definition like {A B} (R : A -> B -> Prop) (r : res A) (r' : res B) : Prop :=
  match r, r' with
  | Ret a _, Ret b _ => R a b
  | Throw e _, Throw e' _ => e = e'
  | Undef u, Undef u' => u = u'
  | NoFuel, NoFuel => True
  | _, _ => False
  end.

(** an end with another number of requests *)
Definition at_ {A} (r : res A) (k : nat) : res A :=
  match r with Ret a _ => Ret a k | Throw e _ => Throw e k | Undef u => Undef u | NoFuel => NoFuel end.

(** request [j] was made before the end; the requests did not go back from [n] *)
Definition before {A} (r : res A) (j : nat) : Prop := match r with Ret _ n | Throw _ n => (j < n)%nat | _ => True end.
Definition after {A} (r : res A) (n : nat) : Prop := match r with Ret _ m | Throw _ m => (n <= m)%nat | _ => True end.

(** the answers that an allocator gives from request [n] on begin with [l] *)
Definition answers_with (l : list bool) (al : nat -> bool) (n : nat) : Prop :=
  forall i b, nth_error l i = Some b -> al (n + i)%nat = b.

(** Whatever [mc] does, [m] does the same with some list of answers; one of them is a refusal only if a request of [mc] was
    refused. *)
Definition covers {A B} (R : A -> B -> Prop) (mc : M A) (m : M B) : Prop := forall al n, exists (l : list bool) (r : res B),
  (forall al' n', answers_with l al' n' -> m al' n' = at_ r (n' + length l)) /\
  like R (mc al n) r /\ after (mc al n) n /\
  (In false l -> exists j, (n <= j)%nat /\ before (mc al n) j /\ al j = false).

Lemma answers_app l1 l2 al n : answers_with (l1 ++ l2) al n -> answers_with l1 al n /\ answers_with l2 al (n + length l1).
Proof.
  intros H. split; intros i b E.
  - apply H. rewrite nth_error_app1; [exact E|]. apply nth_error_Some. congruence.
  - rewrite <- Nat.add_assoc. apply H. rewrite nth_error_app2 by lia. replace (length l1 + i - length l1)%nat with i by lia. exact E.
Qed.

Lemma covers_ret {A B} (R : A -> B -> Prop) a b : R a b -> covers R (ret a) (ret b).
Proof.
  intros H al n. exists [], (Ret b 0). split; [|split; [|split]].
  - intros al' n' _. cbn. rewrite Nat.add_0_r. reflexivity.
  - exact H.
  - cbn. lia.
  - intros [].
Qed.

Lemma covers_throw {A B} (R : A -> B -> Prop) e : covers R (throw e) (throw e).
Proof.
  intros al n. exists [], (Throw e 0). split; [|split; [|split]].
  - intros al' n' _. cbn. rewrite Nat.add_0_r. reflexivity.
  - reflexivity.
  - cbn. lia.
  - intros [].
Qed.

Lemma covers_undef {A B} (R : A -> B -> Prop) u : covers R (undef u) (undef u).
Proof. intros al n. exists [], (Undef u). split; [|split; [|split]]; [reflexivity|reflexivity|exact I|intros []]. Qed.

Lemma covers_nofuel {A B} (R : A -> B -> Prop) : covers R nofuel nofuel.
Proof. intros al n. exists [], NoFuel. split; [|split; [|split]]; [reflexivity|exact I|exact I|intros []]. Qed.

Lemma covers_bind {A B A' B'} (R : A -> B -> Prop) (Q : A' -> B' -> Prop) mc m kc k :
  covers R mc m -> (forall a b, R a b -> covers Q (kc a) (k b)) -> covers Q (bind mc kc) (bind m k).
Proof.
  intros Hm Hk al n. destruct (Hm al n) as (l1 & r1 & H1 & L1 & U1 & F1). unfold bind.
  destruct (mc al n) as [a n1|e n1|u|] eqn:E1; destruct r1 as [b m1|e' m1|u'|]; cbn [like] in L1; try contradiction.
  - destruct (Hk a b L1 al n1) as (l2 & r2 & H2 & L2 & U2 & F2). exists (l1 ++ l2), r2. split; [|split; [|split]].
    + intros al' n' Ha. apply answers_app in Ha as [Ha1 Ha2]. rewrite (H1 al' n' Ha1). cbn [at_]. rewrite (H2 al' _ Ha2).
      rewrite app_length, Nat.add_assoc. reflexivity.
    + exact L2.
    + cbn [after] in U1. destruct (kc a al n1); cbn [after] in *; auto; lia.
    + intros Hf. apply in_app_or in Hf as [Hf|Hf].
      * destruct (F1 Hf) as (j & J1 & J2 & J3). exists j. split; [exact J1|]. split; [|exact J3]. cbn [before] in J2.
        destruct (kc a al n1); cbn [before after] in *; auto; lia.
      * destruct (F2 Hf) as (j & J1 & J2 & J3). exists j. cbn [after] in U1. split; [lia|]. split; auto.
  - subst e'. exists l1, (Throw e m1). split; [|split; [|split]]; [|reflexivity|exact U1|exact F1].
    intros al' n' Ha. rewrite (H1 al' n' Ha). reflexivity.
  - subst u'. exists l1, (Undef u). split; [|split; [|split]]; [|reflexivity|exact U1|exact F1].
    intros al' n' Ha. rewrite (H1 al' n' Ha). reflexivity.
  - exists l1, NoFuel. split; [|split; [|split]]; [|exact I|exact U1|exact F1].
    intros al' n' Ha. rewrite (H1 al' n' Ha). reflexivity.
Qed.

Lemma covers_mono {A B} (R Q : A -> B -> Prop) mc m : covers R mc m -> (forall a b, R a b -> Q a b) -> covers Q mc m.
Proof.
  intros Hm H al n. destruct (Hm al n) as (l & r & H1 & L & U & F). exists l, r. split; [exact H1|]. split; [|split; [exact U|exact F]].
  destruct (mc al n), r; cbn [like] in *; auto.
Qed.

(** a computation that asks for nothing covers itself *)
Definition silent {A} (m : M A) : Prop := exists r : res A, forall al n, m al n = at_ r n.

Lemma covers_silent {A} (m : M A) : silent m -> covers eq m m.
Proof.
  intros [r H] al n. exists [], r. split; [|split; [|split]].
  - intros al' n' _. rewrite H. cbn. rewrite Nat.add_0_r. reflexivity.
  - rewrite H. destruct r; cbn; auto.
  - rewrite H. destruct r; cbn; auto; lia.
  - intros [].
Qed.

Lemma silent_ret {A} (a : A) : silent (ret a).
Proof. exists (Ret a 0). reflexivity. Qed.
Lemma silent_undef {A} u : silent (@undef A u).
Proof. exists (Undef u). reflexivity. Qed.
Lemma silent_throw {A} e : silent (@throw A e).
Proof. exists (Throw e 0). reflexivity. Qed.
Lemma silent_nofuel {A} : silent (@nofuel A).
Proof. exists NoFuel. reflexivity. Qed.
Lemma silent_bind {A B} (m : M A) (k : A -> M B) : silent m -> (forall a, silent (k a)) -> silent (bind m k).
Proof.
  intros [r H] Hk. unfold bind. destruct r as [a n0|e n0|u|].
  - destruct (Hk a) as [r' H']. exists r'. intros al n. rewrite H. cbn [at_]. apply H'.
  - exists (Throw e 0). intros al n. rewrite H. reflexivity.
  - exists (Undef u). intros al n. rewrite H. reflexivity.
  - exists NoFuel. intros al n. rewrite H. reflexivity.
Qed.
Lemma silent_vget {A} (v : list A) i : silent (vget v i).
Proof. unfold vget. destruct (nth_error v i); [apply silent_ret|apply silent_undef]. Qed.
Lemma silent_vset {A} (v : list A) i d : silent (vset v i d).
Proof. unfold vset. destruct (i <? length v)%nat; [apply silent_ret|apply silent_undef]. Qed.
Lemma silent_vpop {A} (v : list A) : silent (vpop v).
Proof. unfold vpop. destruct v; [apply silent_undef|apply silent_ret]. Qed.
Lemma silent_verase {A} (v : list A) i : silent (verase v i).
Proof. unfold verase. destruct (i <? length v)%nat; [apply silent_ret|apply silent_undef]. Qed.

Ltac silence := repeat first
  [ apply silent_ret | apply silent_undef | apply silent_throw | apply silent_nofuel | apply silent_vget | apply silent_vset
  | apply silent_vpop | apply silent_verase | (apply silent_bind; [|intros])
  | match goal with |- silent (if ?b then _ else _) => destruct b end
  | assumption ].

Lemma silent_eq a b : forall i, silent (eq_loop a b i).
Proof. induction i; cbn [eq_loop]; silence. Qed.
Lemma silent_gt a b : forall i, silent (gt_loop a b i).
Proof. induction i; cbn [gt_loop]; silence. Qed.
Lemma silent_ge a b : forall i, silent (ge_loop a b i).
Proof. induction i; cbn [ge_loop]; silence. Qed.
Lemma silent_lt a b : forall i, silent (lt_loop a b i).
Proof. induction i; cbn [lt_loop]; silence. Qed.
Lemma silent_le a b : forall i, silent (le_loop a b i).
Proof. induction i; cbn [le_loop]; silence. Qed.
Lemma silent_is_eq a b : silent (abs_val_is_eq a b).
Proof. unfold abs_val_is_eq. silence. apply silent_eq. Qed.
Lemma silent_is_gt a b : silent (abs_val_is_gt a b).
Proof. unfold abs_val_is_gt. silence. apply silent_gt. Qed.
Lemma silent_is_ge a b : silent (abs_val_is_ge a b).
Proof. unfold abs_val_is_ge. silence. apply silent_ge. Qed.
Lemma silent_is_lt a b : silent (abs_val_is_lt a b).
Proof. unfold abs_val_is_lt. silence. apply silent_lt. Qed.
Lemma silent_is_le a b : silent (abs_val_is_le a b).
Proof. unfold abs_val_is_le. silence. apply silent_le. Qed.

Lemma silent_compare c x y : silent (compare c x y).
Proof.
  destruct c; cbn [compare]; unfold op_eq, op_ne, op_gt, op_ge, op_lt, op_le; silence;
    auto using silent_is_eq, silent_is_gt, silent_is_ge, silent_is_lt, silent_is_le.
Qed.

Lemma silent_sub_loop L inv : forall fuel out oi ii nb, silent (sub_loop L inv fuel out oi ii nb).
Proof. induction fuel as [|f IH]; intros; cbn [sub_loop]; [apply silent_nofuel|]. cbv zeta. silence; apply IH. Qed.
Lemma silent_pop_zeros : forall i v, silent (pop_zeros i v).
Proof. induction i as [|i IH]; intros; cbn [pop_zeros]; silence; apply IH. Qed.
Lemma silent_sub L dbg out inv : silent (abs_val_sub L dbg out inv).
Proof.
  unfold abs_val_sub. apply silent_bind.
  - silence. apply silent_is_lt.
  - intros _. apply silent_bind; [apply silent_sub_loop|]. intros. apply silent_pop_zeros.
Qed.
Lemma silent_shl L : forall fuel v curr carry, silent (shl_loop L fuel v curr carry).
Proof. induction fuel as [|f IH]; intros; cbn [shl_loop]; cbv zeta; silence; apply IH. Qed.
Lemma silent_ctor : forall l lz v oi, silent (ctor_loop l lz v oi).
Proof.
  induction l as [|x l IH]; intros lz v oi; cbn [ctor_loop]; [apply silent_ret|]. destruct lz; [|apply IH].
  destruct oi; [apply silent_undef|]. apply silent_bind; [apply silent_vset|]. intros. apply IH.
Qed.
Lemma silent_carry L P : forall l c acc, silent (carry_loop L P l c acc).
Proof.
  induction l as [|x l IH]; intros c acc; cbn [carry_loop]; [apply silent_ret|]. apply silent_bind.
  - unfold to_uint. destruct (ftrunc P _); silence.
  - intros ci. cbv zeta. silence. apply IH.
Qed.
Lemma silent_count v : forall i, silent (count_high_zeros v i).
Proof. induction i as [|i IH]; cbn [count_high_zeros]; silence. Qed.

(** ** The operations of a vector *)

Definition same_items (v : vec) (l : list Z) : Prop := items v = l.

(** one request in the model, one or none in reality *)
Lemma covers_alloc_ret {A B} (R : A -> B -> Prop) a b : R a b -> covers R (alloc ;;; ret a) (alloc ;;; ret b).
Proof.
  intros H al n. exists [al n], (if al n then Ret b 0 else Throw ExBadAlloc 0). unfold bind, alloc, ret. split; [|split; [|split]].
  - intros al' n' Ha. specialize (Ha 0%nat (al n) eq_refl). rewrite Nat.add_0_r in Ha. rewrite Ha. cbn [length].
    destruct (al n); cbn; rewrite Nat.add_1_r; reflexivity.
  - destruct (al n); cbn; auto.
  - cbn [length]. destruct (al n); cbn; lia.
  - intros [E|[]]. exists n. rewrite E. cbn. auto.
Qed.

Lemma covers_free {A B} (R : A -> B -> Prop) a b : R a b -> covers R (ret a) (alloc ;;; ret b).
Proof.
  intros H al n. exists [true], (Ret b 0). unfold bind, alloc, ret. split; [|split; [|split]].
  - intros al' n' Ha. specialize (Ha 0%nat true eq_refl). rewrite Nat.add_0_r in Ha. rewrite Ha. cbn. rewrite Nat.add_1_r. reflexivity.
  - exact H.
  - cbn. lia.
  - intros [E|[]]. discriminate.
Qed.

Section Capacity.
Context (grow : nat -> nat -> nat).

Lemma covers_push v d : covers same_items (cpush grow v d) (vpush (items v) d).
Proof. unfold cpush, vpush. destruct (_ <? _)%nat; [apply covers_free|apply covers_alloc_ret]; reflexivity. Qed.
Lemma covers_insert v i d : covers same_items (cinsert grow v i d) (vinsert (items v) i d).
Proof.
  unfold cinsert, vinsert. destruct (_ <=? _)%nat; [|apply covers_undef]. cbv zeta.
  destruct (_ <? _)%nat; [apply covers_free|apply covers_alloc_ret]; reflexivity.
Qed.
Lemma covers_resize v n d : covers same_items (cresize grow v n d) (vresize (items v) n d).
Proof. unfold cresize, vresize. cbv zeta. destruct (_ <=? _)%nat; [apply covers_free|apply covers_alloc_ret]; reflexivity. Qed.
Lemma covers_copy l : covers same_items (ccopy l) (vcopy l).
Proof.
  unfold ccopy, vcopy, obtain. destruct (_ <? _)%nat; [apply covers_alloc_ret; reflexivity|]. apply covers_free. reflexivity.
Qed.
Lemma covers_assign old l : covers same_items (cassign old l) (vcopy l).
Proof. unfold cassign, vcopy. destruct (_ <=? _)%nat; [apply covers_free|apply covers_alloc_ret]; reflexivity. Qed.

Definition same_or {A B} (R : A -> B -> Prop) (a : A + exn) (b : B + exn) : Prop :=
  match a, b with inl a, inl b => R a b | inr e, inr e' => e = e' | _, _ => False end.

Lemma covers_attempt {A B} (R : A -> B -> Prop) mc m : covers R mc m -> covers (same_or R) (attempt mc) (attempt m).
Proof.
  intros Hm al n. destruct (Hm al n) as (l & r & H & K & U & F). unfold attempt.
  exists l, (match r with Ret a k => Ret (inl a) k | Throw e k => Ret (inr e) k | Undef u => Undef u | NoFuel => NoFuel end).
  split; [|split; [|split]].
  - intros al' n' Ha. rewrite (H al' n' Ha). destruct r; reflexivity.
  - destruct (mc al n), r; cbn in *; auto.
  - destruct (mc al n); cbn in *; auto.
  - destruct (mc al n); cbn in *; auto.
Qed.

(** ** Magnitudes *)

(** the vector of a sum, or the exception *)
Definition summed (r : vec * option exn) (b : list Z + exn) : Prop :=
  match snd r, b with None, inl l => items (fst r) = l | Some e, inr e' => e = e' | _, _ => False end.

Lemma attempt_bind {A B} (m : M A) (k : A -> M B) :
  attempt (bind m k) = bind (attempt m) (fun a => match a with inl a => attempt (k a) | inr e => ret (inr e) end).
Proof.
  apply functional_extensionality. intros al. apply functional_extensionality. intros n. unfold attempt, bind, ret.
  destruct (m al n); reflexivity.
Qed.
Lemma attempt_ret {A} (a : A) : attempt (ret a) = ret (inl a).
Proof. reflexivity. Qed.

(** a part that asks for nothing, inside a try block *)
Lemma covers_silent_try {A B B'} (R : B -> B' + exn -> Prop) (m : M A) (kc : A -> M B) (k : A -> M B') :
  silent m -> (forall e n al, m al n <> Throw e n) -> (forall a, covers R (kc a) (attempt (k a))) ->
  covers R (bind m kc) (attempt (bind m k)).
Proof.
  intros Sm NT H. rewrite attempt_bind. destruct Sm as [r S].
  assert (attempt m = bind m (fun a => ret (inl a))) as ->.
  { apply functional_extensionality. intros al. apply functional_extensionality. intros n. unfold attempt, bind, ret.
    pose proof (S al n) as Sn. destruct (m al n) as [a n'|e n'|u|] eqn:E; try reflexivity.
    exfalso. destruct r; cbn in Sn; try discriminate. injection Sn as -> ->. exact (NT _ _ _ E). }
  eapply covers_bind with (R := fun a b => inl a = b).
  - assert (covers eq m m) as C by (apply covers_silent; exists r; exact S).
    intros al n. destruct (C al n) as (l & q & H1 & K & U & F).
    exists l, (match q with Ret a k => Ret (inl a) k | Throw e k => Throw e k | Undef u => Undef u | NoFuel => NoFuel end).
    split; [|split; [|split; [exact U|exact F]]].
    + intros al' n' Ha. unfold bind. rewrite (H1 al' n' Ha). destruct q; reflexivity.
    + destruct (m al n), q; cbn in *; try contradiction; auto. congruence.
  - intros a b <-. apply H.
Qed.

Lemma no_throw_vget {A} (v : list A) i e n al : vget v i al n <> Throw e n.
Proof. unfold vget. destruct (nth_error v i); discriminate. Qed.
Lemma no_throw_vset {A} (v : list A) i d e n al : vset v i d al n <> Throw e n.
Proof. unfold vset. destruct (_ <? _)%nat; discriminate. Qed.

Lemma covers_add_loop L inv : forall fuel out oi ii rem,
  covers summed (cadd_loop grow L inv fuel out oi ii rem) (attempt (add_loop L inv fuel (items out) oi ii rem)).
Proof.
  induction fuel as [|f IH]; intros out oi ii rem; cbn [cadd_loop add_loop]; [apply covers_nofuel|].
  rewrite attempt_bind. eapply covers_bind with (R := same_or same_items).
  - destruct (oi =? length (items out))%nat; [apply covers_attempt, covers_push|]. rewrite attempt_ret. apply covers_ret. reflexivity.
  - intros [v|e] [w|e'] E; cbn [same_or] in E; try contradiction; [|subst e'; apply covers_ret; reflexivity].
    unfold same_items in E. subst w. apply covers_silent_try; [silence| |].
    { intros e n al. destruct (_ <? _)%nat; [apply no_throw_vget|discriminate]. }
    intros d. apply covers_silent_try; [silence|intros; apply no_throw_vget|]. intros o. cbv zeta.
    apply covers_silent_try; [silence| |].
    { intros e n al. destruct (_ <? _); [|discriminate]. destruct (_ =? _); discriminate. }
    intros dr. apply covers_silent_try; [silence|intros; apply no_throw_vset|]. intros w.
    destruct (_ && _ && _); [rewrite attempt_ret; apply covers_ret; reflexivity|]. apply (IH (mkVec w (room v))).
Qed.

Lemma covers_add L out inv : covers summed (cadd grow L out inv) (attempt (abs_val_add L (items out) inv)).
Proof. apply covers_add_loop. Qed.

Lemma reattempt {A} (m : M A) : m = bind (attempt m) (fun a => match a with inl a => ret a | inr e => throw e end).
Proof.
  apply functional_extensionality. intros al. apply functional_extensionality. intros n. unfold attempt, bind, ret, throw.
  destruct (m al n); reflexivity.
Qed.

Lemma covers_add_local L out inv : covers same_items (cadd_local grow L out inv) (abs_val_add L (items out) inv).
Proof.
  rewrite (reattempt (abs_val_add L (items out) inv)). unfold cadd_local. eapply covers_bind; [apply covers_add|].
  intros [v [e|]] [w|e'] E; cbn in E |- *; try contradiction; [subst e'; apply covers_throw|apply covers_ret; exact E].
Qed.

Lemma covers_sub L dbg out inv : covers same_items (csub L dbg out inv) (abs_val_sub L dbg (items out) inv).
Proof.
  intros al n. unfold csub. destruct (silent_sub L dbg (items out) inv) as [r H]. exists [], r. split; [|split; [|split]].
  - intros al' n' _. rewrite H. cbn [length]. rewrite Nat.add_0_r. reflexivity.
  - unfold bind. rewrite H. destruct r; cbn; auto. reflexivity.
  - unfold bind. rewrite H. destruct r; cbn; auto; lia.
  - intros [].
Qed.

Lemma covers_shift L v : covers same_items (cshift grow L v) (shift_left_1 L (items v)).
Proof.
  unfold cshift, shift_left_1. destruct (items v) as [|d l] eqn:E; [apply covers_ret; exact E|].
  eapply covers_bind; [apply covers_silent, silent_shl|]. intros a b <-. cbv zeta.
  destruct (snd a =? 0); [apply covers_ret; reflexivity|]. apply (covers_push (mkVec (fst a) (room v))).
Qed.

Definition both_items (p : vec * vec) (q : list Z * list Z) : Prop := items (fst p) = fst q /\ items (snd p) = snd q.

Lemma covers_div_inner L : forall fuel dividend b0 b1 q,
  covers both_items (cdiv_inner grow L fuel dividend b0 b1 q) (div_inner L fuel dividend (items b0) (items b1) (items q)).
Proof.
  induction fuel as [|f IH]; intros; cbn [cdiv_inner div_inner]; [apply covers_nofuel|].
  eapply covers_bind; [apply covers_silent, silent_is_ge|]. intros c c' <-. destruct c; [|apply covers_ret; split; reflexivity].
  eapply covers_bind; [apply covers_assign|]. intros v w <-.
  eapply covers_bind; [apply covers_shift|]. intros v1 w1 <-.
  eapply covers_bind; [apply covers_shift|]. intros v2 w2 <-. apply IH.
Qed.

Lemma covers_div_outer L dbg fi : forall fuel dividend divisor r,
  covers same_items (cdiv_outer grow L dbg fi fuel dividend divisor r) (div_outer L dbg fi fuel (items dividend) divisor (items r)).
Proof.
  induction fuel as [|f IH]; intros; cbn [cdiv_outer div_outer]; [apply covers_nofuel|].
  eapply covers_bind; [apply covers_silent, silent_is_ge|]. intros c c' <-. destruct c; [|apply covers_ret; reflexivity].
  eapply covers_bind; [apply covers_copy|]. intros v w <-.
  eapply covers_bind; [apply covers_copy|]. intros v1 w1 <-.
  eapply covers_bind; [apply covers_copy|]. intros v2 w2 <-.
  eapply covers_bind; [apply covers_shift|]. intros v3 w3 <-.
  eapply covers_bind; [apply covers_div_inner|]. intros [b0 q] [b0' q'] [E1 E2]. cbn [fst snd] in *. subst b0' q'.
  eapply covers_bind; [apply covers_sub|]. intros v4 w4 <-.
  eapply covers_bind; [destruct (_ <=? _)%nat; apply covers_add_local|]. intros v5 w5 <-. apply IH.
Qed.

Lemma covers_div L dbg fuel dividend divisor :
  covers same_items (cdiv grow L dbg fuel dividend divisor) (abs_val_div L dbg fuel (items dividend) divisor).
Proof. unfold cdiv, abs_val_div. eapply covers_bind; [apply covers_copy|]. intros v w <-. apply covers_div_outer. Qed.

(** ** Multiplication: one request stands for all *)

(** [mc] ends as [r] says, or with a request refused *)
Definition or_refused {A} (mc : M A) (r : res A) : Prop := forall al n,
  (exists k, (n <= k)%nat /\ mc al n = at_ r k) \/
  (exists k j, (n <= j < k)%nat /\ al j = false /\ mc al n = Throw ExBadAlloc k).

Lemma or_ret {A} (a : A) k : or_refused (ret a) (Ret a k).
Proof. intros al n. left. exists n. split; [lia|reflexivity]. Qed.
Lemma or_silent {A} (m : M A) r : (forall al n, m al n = at_ r n) -> or_refused m r.
Proof. intros H al n. left. exists n. split; [lia|apply H]. Qed.
Lemma or_obtain n k : or_refused (obtain n) (Ret tt k).
Proof.
  intros al m. unfold obtain. destruct (0 <? n)%nat; [|left; exists m; split; [lia|reflexivity]].
  unfold alloc. destruct (al m) eqn:E; [left; exists (S m); split; [lia|reflexivity]|right; exists (S m), m; split; [lia|auto]].
Qed.
Lemma or_bind {A B} (m : M A) (k : A -> M B) a n0 r : or_refused m (Ret a n0) -> or_refused (k a) r -> or_refused (bind m k) r.
Proof.
  intros Hm Hk al n. unfold bind. destruct (Hm al n) as [(p & Hp & ->)|(p & j & Hj & Ej & ->)].
  - cbn [at_]. destruct (Hk al p) as [(q & Hq & ->)|(q & j & Hj & Ej & ->)]; [left; exists q|right; exists q, j]; split; try lia; auto.
  - right. exists p, j. auto.
Qed.
Lemma or_stop {A B} (m : M A) (k : A -> M B) : or_refused m NoFuel -> or_refused (bind m k) NoFuel.
Proof.
  intros Hm al n. unfold bind. destruct (Hm al n) as [(p & Hp & ->)|(p & j & Hj & Ej & ->)]; [left; exists p|right; exists p, j]; auto.
Qed.

Lemma or_fft P : forall fuel x, or_refused (fft_detailed P fuel x) (match fft_complex P fuel x with Some y => Ret y 0 | None => NoFuel end).
Proof.
  induction fuel as [|f IH]; intros x; cbn [fft_detailed fft_complex]; [apply or_silent; reflexivity|].
  destruct (length x =? 1)%nat; [eapply or_bind; [apply (or_obtain 1 0)|apply or_ret]|]. cbv zeta.
  eapply or_bind; [apply (or_obtain _ 0)|]. eapply or_bind; [apply (or_obtain _ 0)|].
  pose proof (IH (evens x)) as He. destruct (fft_complex P f (evens x)) as [e|]; [|apply or_stop, He].
  eapply or_bind; [exact He|]. pose proof (IH (odds x)) as Ho. destruct (fft_complex P f (odds x)) as [o|]; [|apply or_stop, Ho].
  eapply or_bind; [exact Ho|]. apply or_ret.
Qed.

(** what [mul_strassen] does after its request *)
Lemma or_mul P L fuel a b : exists r, or_refused (mul_detailed P L fuel a b) r /\
  forall al n, al n = true -> mul_strassen L P fuel a b al n = at_ r (S n).
Proof.
  unfold mul_detailed, mul_strassen, create_detailed, convolute_detailed, ifft_detailed, convolute_fft, ifft_complex.
  set (t := create_fft_table P a b).
  pose proof (or_fft P fuel t) as Ht. destruct (fft_complex P fuel t) as [tr|] eqn:Et.
  - set (table := map (convolve_entry P tr) (seq 0 (length t))).
    pose proof (or_fft P fuel (map (cconj P) table)) as Hy. destruct (fft_complex P fuel (map (cconj P) table)) as [y|] eqn:Ey.
    + set (inv := map _ y).
      assert (silent (v <- carry_loop L P inv 0 [] ;; z <- count_high_zeros v (length v) ;; ret (firstn (length v - z) v))) as [r S].
      { apply silent_bind; [apply silent_carry|]. intros v. apply silent_bind; [apply silent_count|]. intros z. apply silent_ret. }
      exists r. split.
      * eapply or_bind; [eapply or_bind; [apply (or_obtain _ 0)|apply (or_ret t 0)]|].
        eapply or_bind; [eapply or_bind; [apply (or_obtain _ 0)|eapply or_bind; [exact Ht|apply (or_ret table 0)]]|].
        eapply or_bind; [eapply or_bind; [exact Hy|apply (or_ret inv 0)]|].
        eapply or_bind; [apply (or_obtain _ 0)|]. apply or_silent. exact S.
      * intros al n Ha. unfold bind at 1. unfold alloc. rewrite Ha. apply S.
    + exists NoFuel. split.
      * eapply or_bind; [eapply or_bind; [apply (or_obtain _ 0)|apply (or_ret t 0)]|].
        eapply or_bind; [eapply or_bind; [apply (or_obtain _ 0)|eapply or_bind; [exact Ht|apply (or_ret table 0)]]|].
        apply or_stop, or_stop, Hy.
      * intros al n Ha. unfold bind at 1. unfold alloc. rewrite Ha. reflexivity.
  - exists NoFuel. split.
    + eapply or_bind; [eapply or_bind; [apply (or_obtain _ 0)|apply (or_ret t 0)]|].
      apply or_stop. eapply or_bind; [apply (or_obtain _ 0)|]. apply or_stop, Ht.
    + intros al n Ha. unfold bind at 1. unfold alloc. rewrite Ha. reflexivity.
Qed.

Lemma covers_mul L P fuel a b : covers same_items (cmul L P fuel a b) (mul_strassen L P fuel a b).
Proof.
  intros al n. unfold cmul. destruct (or_mul P L fuel a b) as (r & H & K). unfold bind.
  destruct (H al n) as [(k & Hk & ->)|(k & j & Hj & Ej & ->)].
  - exists [true], r. split; [|split; [|split]].
    + intros al' n' Ha. specialize (Ha 0%nat true eq_refl). rewrite Nat.add_0_r in Ha. rewrite (K al' n' Ha). cbn [length]. rewrite Nat.add_1_r. reflexivity.
    + destruct r; cbn; auto. reflexivity.
    + destruct r; cbn; auto.
    + intros [E|[]]. discriminate.
  - exists [false], (Throw ExBadAlloc 0). split; [|split; [|split]].
    + intros al' n' Ha. specialize (Ha 0%nat false eq_refl). rewrite Nat.add_0_r in Ha. unfold mul_strassen, bind, alloc. rewrite Ha.
      cbn. rewrite Nat.add_1_r. reflexivity.
    + reflexivity.
    + cbn. lia.
    + intros _. exists j. cbn. split; [lia|]. split; [lia|exact Ej].
Qed.

(** ** Objects *)

Definition is_bare (x : obj) (y : bignum) : Prop := bare x = y.
Definition bare_assigned (a : cassigned) (b : assigned) : Prop := bare (fst a) = fst b /\ snd a = snd b.

Lemma adesc_bare this y : adesc (bare this) (bare_arg y) = cdesc this y.
Proof. destruct y; reflexivity. Qed.
Lemma adata_bare this y : adata (bare this) (bare_arg y) = cdata this y.
Proof. destruct y; reflexivity. Qed.
Lemma aview_bare y : aview (bare_arg y) = cview y.
Proof. destruct y; reflexivity. Qed.

Lemma covers_make L d l : covers is_bare (cmake grow L d l) (bn_make L d l).
Proof.
  unfold cmake, bn_make. destruct l as [|x l]; [apply covers_ret; reflexivity|]. cbv zeta.
  eapply covers_bind; [apply covers_resize|]. intros v w <-.
  eapply covers_bind; [apply covers_silent, silent_ctor|]. intros a b <-. apply covers_ret. reflexivity.
Qed.

Lemma covers_copied x : covers is_bare (ccopied x) (bn_copy (bare x)).
Proof. unfold ccopied, bn_copy. eapply covers_bind; [apply covers_copy|]. intros v w <-. apply covers_ret. reflexivity. Qed.

Lemma copy_assign_try this num : bn_copy_assign this (Other num) =
  (a <- attempt (vcopy (data num)) ;;
   match a with inl v => ret (mkBN (desc num) v, None) | inr e => ret (mkBN (desc num) (data this), Some e) end).
Proof.
  apply functional_extensionality. intros al. apply functional_extensionality. intros n. unfold bn_copy_assign, attempt, bind, ret.
  destruct (vcopy (data num) al n); reflexivity.
Qed.

Lemma covers_copy_assign this y : covers bare_assigned (ccopy_assign this y) (bn_copy_assign (bare this) (bare_arg y)).
Proof.
  destruct y as [num|]; [|apply covers_ret; split; reflexivity]. cbn [bare_arg]. rewrite copy_assign_try. unfold ccopy_assign.
  eapply covers_bind; [apply covers_attempt, covers_assign|].
  intros [v|e] [w|e'] E; cbn in E; try contradiction; subst; apply covers_ret; split; try reflexivity.
  unfold bare. cbn. rewrite E. reflexivity.
Qed.

Lemma guarded_try body bad : guarded body bad =
  (a <- attempt body ;; match a with inl x => ret (x, None) | inr ExBnError => throw ExBnError | inr _ => ret (bad, Some ExStd) end).
Proof.
  apply functional_extensionality. intros al. apply functional_extensionality. intros n. unfold guarded, attempt, bind, ret, throw.
  destruct (body al n) as [| [] ? | |]; reflexivity.
Qed.

Lemma covers_guarded mc m badc bad : covers is_bare mc m -> bare badc = bad -> covers bare_assigned (cguarded mc badc) (guarded m bad).
Proof.
  intros H E. rewrite guarded_try. unfold cguarded. eapply covers_bind; [apply covers_attempt, H|].
  intros [v|e] [w|e'] K; cbn in K; try contradiction; [apply covers_ret; split; [exact K|reflexivity]|]. subst e'.
  destruct e; try (apply covers_ret; split; [exact E|reflexivity]). apply covers_throw.
Qed.

Lemma covers_summed L this y : covers bare_assigned (csummed grow L this y)
  (guarded (v <- abs_val_add L (data (bare this)) (aview (bare_arg y)) ;; ret (mkBN (desc (bare this)) v)) (failed (cdesc this y))).
Proof.
  rewrite guarded_try, attempt_bind. unfold csummed. rewrite aview_bare.
  replace (a <- _ ;; _) with
    (a <- attempt (abs_val_add L (items (ovec this)) (cview y)) ;;
     match a with
     | inl v => ret (mkBN (odesc this) v, None)
     | inr ExBnError => throw ExBnError
     | inr _ => ret (failed (cdesc this y), Some ExStd)
     end).
  2:{ apply functional_extensionality. intros al. apply functional_extensionality. intros n. unfold attempt, bind, ret, throw. cbn [bare data desc].
      destruct (abs_val_add _ _ _ al n) as [| [] ? | |]; reflexivity. }
  eapply covers_bind; [apply covers_add|]. intros [v [e|]] [w|e'] K; cbn in K; try contradiction.
  - subst e'. cbn [snd fst]. destruct e; try (apply covers_ret; split; reflexivity). apply covers_throw.
  - cbn [snd fst]. apply covers_ret. split; [|reflexivity]. unfold bare. cbn. rewrite K. reflexivity.
Qed.

Lemma covers_difference L dbg this y d : covers bare_assigned (cdifference L dbg this y d)
  (guarded (c <- abs_val_is_ge (data (bare this)) (cdata this y) ;;
     if (c : bool) then v <- abs_val_sub L dbg (data (bare this)) (aview (bare_arg y)) ;; ret (mkBN (desc (bare this)) v)
     else t <- vcopy (cdata this y) ;; v <- abs_val_sub L dbg t (other (data (bare this))) ;; ret (mkBN d v)) (failed (cdesc this y))).
Proof.
  unfold cdifference. rewrite aview_bare. apply covers_guarded; [|reflexivity]. cbn [bare data desc].
  eapply covers_bind; [apply covers_silent, silent_is_ge|]. intros c c' <-. destruct c.
  - eapply covers_bind; [apply covers_sub|]. intros v w <-. apply covers_ret. reflexivity.
  - eapply covers_bind; [apply covers_copy|]. intros v w <-. eapply covers_bind; [apply covers_sub|]. intros v1 w1 <-. apply covers_ret. reflexivity.
Qed.

Lemma covers_add_assign L dbg this y : covers bare_assigned (cadd_assign grow L dbg this y) (op_add_assign L dbg (bare this) (bare_arg y)).
Proof.
  unfold cadd_assign, op_add_assign. rewrite adesc_bare, adata_bare. cbn [bare desc].
  destruct (negb _); [apply covers_ret; split; reflexivity|].
  destruct (_ && _); [apply covers_summed|].
  destruct (_ && _); [apply covers_difference|].
  destruct (_ && _); [apply covers_difference|]. apply covers_summed.
Qed.

Lemma covers_sub_assign L dbg this y : covers bare_assigned (csub_assign L dbg this y) (op_sub_assign L dbg (bare this) (bare_arg y)).
Proof.
  unfold csub_assign, op_sub_assign. rewrite adesc_bare, adata_bare. cbn [bare desc].
  destruct (negb _); [apply covers_ret; split; reflexivity|].
  destruct (_ && _); [apply covers_difference|].
  destruct (_ || _); [|apply covers_difference].
  apply covers_guarded; [|reflexivity]. cbn [data].
  eapply covers_bind; [apply covers_silent, silent_is_gt|]. intros c c' <-.
  eapply covers_bind; [apply covers_copy|]. intros v w <-. eapply covers_bind; [apply covers_sub|]. intros v1 w1 <-. apply covers_ret. reflexivity.
Qed.

Lemma covers_mul_assign L P fuel this y : covers bare_assigned (cmul_assign L P fuel this y) (op_mul_assign L P fuel (bare this) (bare_arg y)).
Proof.
  unfold cmul_assign, op_mul_assign. rewrite adesc_bare, adata_bare. cbn [bare desc data].
  destruct (negb _); [apply covers_ret; split; reflexivity|]. apply covers_guarded; [|reflexivity].
  eapply covers_bind; [apply covers_mul|]. intros v w <-. apply covers_ret. reflexivity.
Qed.

Lemma covers_div_assign L dbg fuel this y :
  covers bare_assigned (cdiv_assign grow L dbg fuel this y) (op_div_assign L dbg fuel (bare this) (bare_arg y)).
Proof.
  unfold cdiv_assign, op_div_assign. rewrite adesc_bare, adata_bare. cbn [bare desc data]. cbv zeta.
  destruct (negb _); [apply covers_ret; split; reflexivity|].
  destruct (match cdata this y with [x] => x =? wrap (wd L) (bmin L) | _ => false end); [apply covers_ret; split; reflexivity|].
  destruct (match cdata this y with [x] => x =? wrap (ws L) 1 | _ => false end); [apply covers_ret; split; reflexivity|].
  destruct (match items (ovec this) with [] => true | [x] => x =? wrap (wd L) (bmin L) | _ => false end); [apply covers_ret; split; reflexivity|].
  apply covers_guarded.
  - eapply covers_bind; [apply covers_silent, silent_is_gt|]. intros c c' <-. destruct c.
    + eapply covers_bind; [apply covers_div|]. intros v w <-. apply covers_ret. reflexivity.
    + eapply covers_bind; [apply covers_assign|]. intros v w <-. apply covers_ret. reflexivity.
  - destruct y; reflexivity.
Qed.

Lemma covers_compound E op this y : covers bare_assigned (ccompound grow E op this y) (compound E op (bare this) (bare_arg y)).
Proof. destruct op; [apply covers_add_assign|apply covers_sub_assign|apply covers_mul_assign|apply covers_div_assign]. Qed.

Lemma covers_binary E op x y : covers is_bare (cbinary (ccompound grow E op) x y) (binary (compound E op) (bare x) (bare y)).
Proof.
  unfold cbinary, binary. eapply covers_bind; [apply covers_copied|]. intros r w <-.
  eapply covers_bind; [apply (covers_compound E op r (COther y))|]. intros [a e] [b e'] [K1 K2]. cbn [fst snd] in *. subst e'.
  destruct e; [apply covers_throw|apply covers_ret; exact K1].
Qed.

(** ** Programs *)

Definition all_bare (s : cregs) : regs := fun r => bare (s r).
Definition bare_regs (s : cregs) (t : regs) : Prop := all_bare s = t.

Lemma all_bare_upd s r x : all_bare (cupd s r x) = upd (all_bare s) r (bare x).
Proof. apply functional_extensionality. intros i. unfold all_bare, cupd, upd. destruct (i =? r)%nat; reflexivity. Qed.
Lemma operand_bare s r t : operand (all_bare s) r t = bare_arg (coperand s r t).
Proof. unfold operand, coperand. destruct (t =? r)%nat; reflexivity. Qed.

(** the statement [i] with or without a handler, and programs *)
Definition step_of (handler : bool) (E : env) (i : instr) (s : regs) : M regs := if handler then step E i s else strict_step E i s.
Definition run_of (handler : bool) (E : env) (fuel : nat) (p : stmt) (s : regs) : M regs :=
  if handler then srun E fuel p s else strict_run E fuel p s.

Lemma covers_store h s r mc m : covers is_bare mc m ->
  covers bare_regs (cstore h s r mc) (if h then store (all_bare s) r m else put_in (all_bare s) r m).
Proof.
  intros H. unfold cstore, store, put_in. destruct h.
  - eapply covers_bind; [apply covers_attempt, H|]. intros [a|e] [b|e'] K; cbn in K; try contradiction; apply covers_ret; [|reflexivity].
    unfold bare_regs. rewrite all_bare_upd. congruence.
  - eapply covers_bind; [exact H|]. intros a b K. apply covers_ret. unfold bare_regs. rewrite all_bare_upd. congruence.
Qed.

Lemma covers_assigned h s r mc m : covers bare_assigned mc m ->
  covers bare_regs (cassigned_to h s r mc) (if h then a <- m ;; ret (upd (all_bare s) r (fst a)) else assigned_to (all_bare s) r m).
Proof.
  intros H. unfold cassigned_to, assigned_to. destruct h.
  - eapply covers_bind; [exact H|]. intros a b [K1 K2]. apply covers_ret. unfold bare_regs. rewrite all_bare_upd. congruence.
  - eapply covers_bind; [exact H|]. intros a b [K1 K2]. rewrite K2. destruct (snd b); [apply covers_throw|]. apply covers_ret.
    unfold bare_regs. rewrite all_bare_upd. congruence.
Qed.

Lemma covers_growing x f g : covers same_items (f (ovec x)) (g (items (ovec x))) ->
  covers is_bare (growing x f) (v <- g (data (bare x)) ;; ret (mkBN (desc (bare x)) v)).
Proof. intros H. unfold growing. eapply covers_bind; [exact H|]. intros v w <-. apply covers_ret. reflexivity. Qed.

Lemma covers_in_place x f : silent (f (items (ovec x))) ->
  covers is_bare (in_place x f) (v <- f (data (bare x)) ;; ret (mkBN (desc (bare x)) v)).
Proof. intros H. unfold in_place. eapply covers_bind; [apply covers_silent, H|]. intros v w <-. apply covers_ret. reflexivity. Qed.

Lemma covers_step h E i s : covers bare_regs (cstep grow h E i s) (step_of h E i (all_bare s)).
Proof.
  assert (forall a b : regs, (if h then ret a else ret b) = (ret (if h then a else b) : M regs)) as X by (destruct h; reflexivity).
  unfold step_of.
  destruct i as [r d l|r t|r t|op r t|op r t u|r d|r|r n d|r d|r d|r d pos|r|r|r pos|r j d]; cbn [cstep step strict_step].
  - apply covers_store, covers_make.
  - rewrite operand_bare. apply covers_assigned. apply covers_copy_assign.
  - destruct (t =? r)%nat.
    + replace (if h then _ else _) with (ret (A := regs) (upd (all_bare s) r (bn_self_move_assign (if eKeep E then data (all_bare s r) else []) (all_bare s r))))
        by (destruct h; reflexivity).
      apply covers_ret. unfold bare_regs. rewrite all_bare_upd. destruct (eKeep E); reflexivity.
    + unfold bn_move_assign. replace (if h then _ else _) with (ret (A := regs) (upd (upd (all_bare s) t (mkBN BN_POS [])) r (all_bare s t)))
        by (destruct h; reflexivity).
      apply covers_ret. unfold bare_regs. rewrite !all_bare_upd. reflexivity.
  - rewrite operand_bare. apply covers_assigned. apply covers_compound.
  - apply covers_store. apply covers_binary.
  - replace (if h then _ else _) with (ret (A := regs) (upd (all_bare s) r (setDescriptor (all_bare s r) d))) by (destruct h; reflexivity).
    apply covers_ret. unfold bare_regs. rewrite all_bare_upd. destruct d; reflexivity.
  - replace (if h then _ else _) with (ret (A := regs) (upd (all_bare s) r (clear (all_bare s r)))) by (destruct h; reflexivity).
    apply covers_ret. unfold bare_regs. rewrite all_bare_upd. reflexivity.
  - apply covers_store. apply (covers_growing (s r) (fun v => cresize grow v n d) (fun v => vresize v n d)), covers_resize.
  - apply covers_store. apply (covers_growing (s r) (fun v => cpush grow v d) (fun v => vpush v d)), covers_push.
  - apply covers_store. apply (covers_growing (s r) (fun v => cinsert grow v 0 d) (fun v => vinsert v 0 d)), covers_insert.
  - apply covers_store. apply (covers_growing (s r) (fun v => cinsert grow v pos d) (fun v => vinsert v pos d)), covers_insert.
  - apply covers_store. apply covers_in_place. silence.
  - apply covers_store. apply (covers_in_place (s r) (fun l => verase l 0)). silence.
  - apply covers_store. apply (covers_in_place (s r) (fun l => verase l pos)). silence.
  - apply covers_store. unfold subscript_set.
    replace ((if (j <? length (data (all_bare s r)))%nat then ret tt else throw ExBnError) ;;; v <- vset (data (all_bare s r)) j d ;; ret (mkBN (desc (all_bare s r)) v))
      with (v <- (fun l => (if (j <? length l)%nat then ret tt else throw ExBnError) ;;; vset l j d) (data (bare (s r))) ;; ret (mkBN (desc (bare (s r))) v)).
    2:{ apply functional_extensionality. intros al. apply functional_extensionality. intros n. unfold bind, all_bare.
        destruct (_ <? _)%nat; reflexivity. }
    apply covers_in_place. silence.
Qed.

Lemma covers_run h E : forall fuel p s, covers bare_regs (crun_caps grow h E fuel p s) (run_of h E fuel p (all_bare s)).
Proof.
  induction fuel as [|f IH]; intros p s; [destruct h; apply covers_nofuel|].
  assert (forall p s, (if h then srun E f p s else strict_run E f p s) = run_of h E f p s) as X by (destruct h; reflexivity).
  destruct p as [i|a b|c x y a b|c x y a]; unfold run_of; cbn [crun_caps srun strict_run].
  - apply covers_step.
  - replace (if h then _ else _) with (s1 <- run_of h E f a (all_bare s) ;; run_of h E f b s1) by (destruct h; reflexivity).
    eapply covers_bind; [apply IH|]. intros t u <-. apply IH.
  - replace (if h then _ else _) with (t <- compare c (bare (s x)) (bare (s y)) ;; if (t : bool) then run_of h E f a (all_bare s) else run_of h E f b (all_bare s))
      by (destruct h; reflexivity).
    eapply covers_bind; [apply covers_silent, silent_compare|]. intros t u <-. destruct t; apply IH.
  - replace (if h then _ else _) with (t <- compare c (bare (s x)) (bare (s y)) ;;
        if (t : bool) then s1 <- run_of h E f a (all_bare s) ;; run_of h E f (While c x y a) s1 else ret (all_bare s))
      by (destruct h; reflexivity).
    eapply covers_bind; [apply covers_silent, silent_compare|]. intros t u <-. destruct t; [|apply covers_ret; reflexivity].
    eapply covers_bind; [apply IH|]. intros t u <-. apply IH.
Qed.

End Capacity.
