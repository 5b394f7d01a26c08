(** * Builds with BN_DEBUG and builds without *)
From Verif Require Import Base Spec Limits Compare AddSub Division Fourier Multiplication Bignum Machine While Expression Strict.
From Verif Require Import Wp CompareProof.

(** [m] is [m'] or throws one of the exceptions in [X] *)
Definition stops {A} (X : exn -> Prop) (m m' : M A) : Prop :=
  forall al n, m al n = m' al n \/ exists e n', X e /\ m al n = Throw e n'.

Lemma stops_refl {A} X (m : M A) : stops X m m.
Proof. left. reflexivity. Qed.

Lemma stops_bind {A C} X (m m' : M A) (k k' : A -> M C) : stops X m m' -> (forall a, stops X (k a) (k' a)) ->
  stops X (bind m k) (bind m' k').
Proof.
  intros H K al n. unfold bind. destruct (H al n) as [->|(e & n' & He & ->)]; [|right; eauto].
  destruct (m' al n) as [a n'|e n'|u|]; try (left; reflexivity). apply K.
Qed.

Lemma stops_if {A} X (b : bool) (m m' k k' : M A) : stops X m m' -> stops X k k' -> stops X (if b then m else k) (if b then m' else k').
Proof. destruct b; auto. Qed.

Definition underflow (e : exn) : Prop := e = ExUnderflow.

Section Dbg.
Context (L : limits).

Lemma lt_pure_any a b : exists c, pure (abs_val_is_lt a b) c.
Proof.
  unfold abs_val_is_lt. destruct (length a <? length b)%nat eqn:E1; [eexists; apply pure_ret|].
  destruct (length b <? length a)%nat eqn:E2; [eexists; apply pure_ret|].
  apply Nat.ltb_ge in E1, E2. assert (forall i, (i <= length a)%nat -> (i <= length b)%nat -> exists c, pure (lt_loop a b i) c) as H; [|apply H; lia].
  clear E1 E2. induction i as [|j IH]; intros H H'; cbn [lt_loop]; [eexists; apply pure_ret|].
  destruct (nth_error a j) as [x|] eqn:Ea; [|apply nth_error_None in Ea; lia].
  destruct (nth_error b j) as [y|] eqn:Eb; [|apply nth_error_None in Eb; lia].
  destruct (x <? y) eqn:F.
  - exists true. eapply pure_bind; [apply pure_vget; eassumption|]. eapply pure_bind; [apply pure_vget; eassumption|]. rewrite F. apply pure_ret.
  - destruct IH as [c Hc]; [lia|lia|]. exists c. eapply pure_bind; [apply pure_vget; eassumption|].
    eapply pure_bind; [apply pure_vget; eassumption|]. rewrite F. exact Hc.
Qed.

Lemma sub_stops v inv : stops underflow (abs_val_sub L true v inv) (abs_val_sub L false v inv).
Proof.
  intros al n. unfold abs_val_sub. destruct (length v <? length (inv v))%nat; [right; exists ExUnderflow, n; split; reflexivity|].
  destruct (lt_pure_any v (inv v)) as [c Hc]. destruct c.
  - right. exists ExUnderflow, n. split; [reflexivity|]. unfold bind. rewrite (Hc al n). reflexivity.
  - left. unfold bind. rewrite (Hc al n). reflexivity.
Qed.

Lemma div_outer_stops fi : forall fuel dividend divisor r,
  stops underflow (div_outer L true fi fuel dividend divisor r) (div_outer L false fi fuel dividend divisor r).
Proof.
  induction fuel as [|f IH]; intros dividend divisor r; [apply stops_refl|]. cbn [div_outer].
  apply stops_bind; [apply stops_refl|]. intros c. apply stops_if; [|apply stops_refl].
  do 5 (apply stops_bind; [apply stops_refl|]; intros ?).
  apply stops_bind; [apply sub_stops|]. intros ?. apply stops_bind; [apply stops_refl|]. intros ?. apply IH.
Qed.

Lemma div_stops fuel a b : stops underflow (abs_val_div L true fuel a b) (abs_val_div L false fuel a b).
Proof. apply stops_bind; [apply stops_refl|]. intros r. apply div_outer_stops. Qed.

Definition infinite (z : bignum) : Prop := z = mkBN BN_POS_INF [] \/ z = mkBN BN_NEG_INF [].

Lemma failed_infinite d : infinite (failed d).
Proof. unfold failed. destruct (desc_eqb d BN_POS); [left|right]; reflexivity. Qed.

(** [m] is [m'] or leaves an infinity and throws std::exception *)
Definition rejects (m m' : M assigned) : Prop :=
  forall al n, m al n = m' al n \/ exists z n', infinite z /\ m al n = Ret (z, Some ExStd) n'.

Lemma rejects_guarded body body' d : stops underflow body body' -> rejects (guarded body (failed d)) (guarded body' (failed d)).
Proof.
  intros H al n. unfold guarded. destruct (H al n) as [->|(e & n' & -> & ->)]; [left; reflexivity|].
  right. exists (failed d), n'. split; [apply failed_infinite|reflexivity].
Qed.

Lemma rejects_refl m : rejects m m.
Proof. left. reflexivity. Qed.

Ltac go := repeat first
  [ apply stops_if | apply sub_stops | apply stops_bind | apply stops_refl | progress intros ].

Lemma add_rejects x y : rejects (op_add_assign L true x y) (op_add_assign L false x y).
Proof. unfold op_add_assign. destruct (negb _); [apply rejects_refl|]. apply rejects_guarded. go. Qed.

Lemma sub_rejects x y : rejects (op_sub_assign L true x y) (op_sub_assign L false x y).
Proof. unfold op_sub_assign. destruct (negb _); [apply rejects_refl|]. apply rejects_guarded. go. Qed.

Lemma div_rejects fuel x y : rejects (op_div_assign L true fuel x y) (op_div_assign L false fuel x y).
Proof.
  unfold op_div_assign. destruct (negb _); [apply rejects_refl|]. cbv zeta.
  destruct (match adata x y with [] => false | _ => _ end); [apply rejects_refl|].
  destruct (match adata x y with [] => false | _ => _ end); [apply rejects_refl|].
  destruct (match data x with [] => true | _ => _ end); [apply rejects_refl|].
  apply rejects_guarded. apply stops_bind; [apply stops_refl|]. intros c. apply stops_if; [|apply stops_refl].
  apply stops_bind; [apply div_stops|]. intros v. apply stops_refl.
Qed.
End Dbg.

Definition std (e : exn) : Prop := e = ExStd.

Section Env.
Context (L : limits) (P : flops) (fuel : nat) (keep : bool).
Let D := mkEnv L true P fuel keep.
Let R := mkEnv L false P fuel keep.

Lemma compound_rejects op x y : rejects (compound D op x y) (compound R op x y).
Proof. destruct op; cbn; [apply add_rejects|apply sub_rejects|apply rejects_refl|apply div_rejects]. Qed.

Lemma statement_stops {A} (m m' : M assigned) (k : bignum -> M A) : rejects m m' ->
  stops std (a <- m ;; match snd a with None => k (fst a) | Some e => throw e end)
            (a <- m' ;; match snd a with None => k (fst a) | Some e => throw e end).
Proof.
  intros H al n. unfold bind. destruct (H al n) as [->|(z & n' & _ & ->)]; [left; reflexivity|].
  right. exists ExStd, n'. split; reflexivity.
Qed.

Lemma binary_stops op x y : stops std (binary (compound D op) x y) (binary (compound R op) x y).
Proof. apply stops_bind; [apply stops_refl|]. intros r. apply statement_stops, compound_rejects. Qed.

Lemma eval_stops e : stops std (eval D e) (eval R e).
Proof.
  induction e as [x|op a IHa b IHb]; cbn [eval]; [apply stops_refl|].
  apply stops_bind; [exact IHa|]. intros x. apply stops_bind; [exact IHb|]. intros y. apply binary_stops.
Qed.

Lemma test_stops c e f : stops std (test D c e f) (test R c e f).
Proof. apply stops_bind; [apply eval_stops|]. intros x. apply stops_bind; [apply eval_stops|]. intros y. apply stops_refl. Qed.

Lemma step_stops i s : stops std (strict_step D i s) (strict_step R i s).
Proof.
  destruct i; cbn [strict_step]; try apply stops_refl.
  - apply (statement_stops _ _ (fun z => ret (upd s r z))), compound_rejects.
  - apply stops_bind; [apply binary_stops|]. intros x. apply stops_refl.
Qed.

Lemma run_stops : forall f p s, stops std (strict_run D f p s) (strict_run R f p s).
Proof.
  induction f as [|f IH]; intros p s; [apply stops_refl|]. destruct p as [i|a b|c x y a b|c x y a]; cbn [strict_run].
  - apply step_stops.
  - apply stops_bind; [apply IH|]. intros s1. apply IH.
  - apply stops_bind; [apply stops_refl|]. intros t. apply stops_if; apply IH.
  - apply stops_bind; [apply stops_refl|]. intros t. apply stops_if; [|apply stops_refl].
    apply stops_bind; [apply IH|]. intros s1. apply IH.
Qed.
End Env.

(** ** With and without handlers *)

Lemma put_in_store s r m al n s' n' : put_in s r m al n = Ret s' n' -> store s r m al n = Ret s' n'.
Proof. unfold put_in, store, attempt, bind. destruct (m al n); try discriminate. intros H. exact H. Qed.

Lemma assigned_to_upd s r m al n s' n' : assigned_to s r m al n = Ret s' n' -> (a <- m ;; ret (upd s r (fst a))) al n = Ret s' n'.
Proof. unfold assigned_to, bind. destruct (m al n) as [[z [e|]] k|e k|u|]; try discriminate. intros H. exact H. Qed.

Lemma strict_step_step E i s al n s' n' : strict_step E i s al n = Ret s' n' -> step E i s al n = Ret s' n'.
Proof. destruct i; cbn [strict_step step]; try apply put_in_store; try apply assigned_to_upd; auto. Qed.

Lemma strict_srun E : forall f p s al n s' n', strict_run E f p s al n = Ret s' n' -> srun E f p s al n = Ret s' n'.
Proof.
  induction f as [|f IH]; intros p s al n s' n' H; [discriminate|]. destruct p as [i|a b|c x y a b|c x y a]; cbn [strict_run srun] in *.
  - apply strict_step_step. exact H.
  - unfold bind in *. destruct (strict_run E f a s al n) as [s1 n1|? ?|?|] eqn:E1; try discriminate. rewrite (IH _ _ _ _ _ _ E1). apply IH, H.
  - unfold bind in *. destruct (compare c (s x) (s y) al n) as [t n1|? ?|?|]; try discriminate. destruct t; apply IH, H.
  - unfold bind in *. destruct (compare c (s x) (s y) al n) as [t n1|? ?|?|]; try discriminate. destruct t; [|exact H].
    destruct (strict_run E f a s al n1) as [s1 n2|? ?|?|] eqn:E1; try discriminate. rewrite (IH _ _ _ _ _ _ E1). apply IH, H.
Qed.
