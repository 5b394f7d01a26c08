(** * Results that are zero: lemmas *)
From Verif Require Import Base Spec Limits Compare AddSub Division Fourier Multiplication Bignum Outcome.
From Verif Require Import Wp ValueProof CompareProof AddSubProof DivisionProof BignumProof OperatorProof DivOpProof.

Lemma add_loop_nonempty L inv : forall fuel out oi ii rem, may (add_loop L inv fuel out oi ii rem) (fun r => r <> []).
Proof.
  induction fuel as [|f IH]; intros; cbn [add_loop]; [intros al n; exact I|].
  eapply may_bind; [apply may_any|]. intros o1 _. eapply may_bind; [apply may_any|]. intros d _.
  eapply may_bind; [apply may_any|]. intros o _. cbv zeta. eapply may_bind; [apply may_any|]. intros p _.
  eapply may_bind with (Q := fun v => v <> []).
  { apply may_vset. intros u x w _ _ E. apply app_eq_nil in E. destruct E; discriminate. }
  intros v Hv. destruct (_ && _ && _); [apply may_ret; exact Hv|apply IH].
Qed.
Lemma add_nonempty L out inv : may (abs_val_add L out inv) (fun r => r <> []).
Proof. apply add_loop_nonempty. Qed.

Lemma div_outer_nonempty L dbg fi : forall fuel a b r, r <> [] -> may (div_outer L dbg fi fuel a b r) (fun r => r <> []).
Proof.
  induction fuel as [|f IH]; intros a b r Hr; cbn [div_outer]; [intros al n; exact I|].
  eapply may_bind; [apply may_any|]. intros [|] _; [|apply may_ret; exact Hr].
  do 6 (eapply may_bind; [apply may_any|]; intros ? _).
  eapply may_bind with (Q := fun v => v <> []); [|intros v Hv; apply IH; exact Hv].
  destruct (_ <=? _)%nat; apply add_nonempty.
Qed.
Lemma div_nonempty L dbg fuel a b : may (abs_val_div L dbg fuel a b) (fun r => r <> []).
Proof.
  unfold abs_val_div. eapply may_bind with (Q := fun v => v = [0]); [apply may_vcopy; reflexivity|]. intros ? ->.
  apply div_outer_nonempty. discriminate.
Qed.

Lemma may_guarded m bad (R : bignum -> Prop) : may m R -> may (guarded m bad) (fun a => snd a = None -> R (fst a)).
Proof. intros H al n. specialize (H al n). unfold guarded. destruct (m al n) as [b k|e k|u|]; auto. destruct e; auto; cbn; discriminate. Qed.

(** the quotient of a number with digits has digits, and its sign follows the rule, whatever happens *)
Lemma div_assign_shape L dbg fuel x y : limits_ok L = true -> finite x -> data x <> [] -> data y <> [0] ->
  may (op_div_assign L dbg fuel x (Other y)) (fun a => snd a = None -> data (fst a) <> [] /\ desc (fst a) = product_desc (desc x) (desc y)).
Proof.
  intros HL Fx Nx Ny. destruct (list_eq_dec Z.eq_dec (data y) [1]) as [E1|N1].
  { intros al n. rewrite (div_by_one L HL dbg fuel x y Fx E1). cbn. auto. }
  destruct (list_eq_dec Z.eq_dec (data x) [0]) as [E0|N0].
  { intros al n. rewrite (div_of_zero L HL dbg fuel x y Fx Ny (or_intror E0)). cbn. auto. }
  rewrite (div_assign_main L HL dbg fuel x y) by auto.
  apply (may_guarded _ _ (fun z => data z <> [] /\ desc z = product_desc (desc x) (desc y))).
  eapply may_bind; [apply may_any|]. intros [|] _.
  - eapply may_bind; [apply div_nonempty|]. intros v Hv. apply may_ret. auto.
  - eapply may_bind with (Q := fun v => v = [0]); [apply may_vcopy; reflexivity|]. intros ? ->. apply may_ret. cbn. split; [discriminate|reflexivity].
Qed.

Lemma assigns_may_and m Q (R : bignum -> Prop) bad : assigns m Q bad -> may m (fun a => snd a = None -> R (fst a)) -> assigns m (fun z => Q z /\ R z) bad.
Proof.
  intros H K al n. specialize (H al n). specialize (K al n). destruct (m al n) as [[z [e|]] k|e k|u|]; auto. destruct H. cbn in K. auto.
Qed.

(** ** The test  e == zero  after an operation *)

Lemma zero_test (m : M bignum) (Q : bignum -> Prop) (R : Prop) : returns m Q -> (forall z, Q z -> (z = bn_default <-> R)) ->
  returns (z <- m ;; op_eq z bn_default) (fun b => b = true <-> R).
Proof.
  intros H K. eapply returns_bind; [exact H|]. intros z Hz al n. rewrite op_eq_pure. split; [|lia].
  rewrite same_bignum. apply K. exact Hz.
Qed.
