(** * Handlers that are never entered: lemmas *)
From Verif Require Import Base Spec Limits Bignum Machine While Strict Outcome.
From Verif Require Import Wp FailProof BignumProof PropMemory.

(** r[i] = d is the one statement with a check that is made in release builds *)
Fixpoint no_subscript (p : stmt) : bool :=
  match p with
  | Do (ISetDigit _ _ _) => false
  | Do _ => true
  | Seq a b | If _ _ _ a b => no_subscript a && no_subscript b
  | While _ _ _ a => no_subscript a
  end.

Lemma store_strict s r (m : M bignum) n : (forall e k, m never_fails n <> Throw e k) -> store s r m never_fails n = put_in s r m never_fails n.
Proof.
  intros H. unfold store, attempt, put_in, bind. destruct (m never_fails n) as [x k|e k|u|]; try reflexivity. destruct (H e k eq_refl).
Qed.

Lemma ao_unlimited {A} (m : M A) n : alloc_only m -> forall e k, m never_fails n <> Throw e k.
Proof. intros H e k E. specialize (H never_fails n). rewrite E in H. destruct H as (_ & j & _ & _ & _ & F). discriminate. Qed.

Lemma ao_vinsert {A} (v : list A) i d : alloc_only (vinsert v i d).
Proof. unfold vinsert. destruct (i <=? length v)%nat; [|apply ao_undef]. apply ao_bind; [apply ao_alloc|intros; apply ao_ret]. Qed.
Lemma ao_verase {A} (v : list A) i : alloc_only (verase v i).
Proof. unfold verase. destruct (i <? length v)%nat; [apply ao_ret|apply ao_undef]. Qed.
Lemma step_strict E i s n : eDbg E = false -> no_subscript (Do i) = true -> step E i s never_fails n = strict_step E i s never_fails n.
Proof.
  intros HE Hi. destruct i; try discriminate; cbn [step strict_step]; try reflexivity.
  - apply store_strict. intros e k. apply make_completes. reflexivity.
  - unfold assigned_to, bind, operand. destruct (_ =? _)%nat; reflexivity.
  - unfold assigned_to, bind. pose proof (release_completes E op (s r) (operand s r s0) never_fails n HE (fun _ => eq_refl)) as K.
    destruct (compound E op (s r) (operand s r s0) never_fails n) as [[z [e|]] k|e k|u|]; try contradiction; reflexivity.
  - apply store_strict. intros e k. rewrite BignumProof.binary_eq. cbn [never_fails].
    pose proof (release_completes E op (s s0) (Other (s t)) never_fails (S n) HE (fun _ => eq_refl)) as K.
    destruct (compound E op (s s0) (Other (s t)) never_fails (S n)) as [[z [e1|]] k1|e1 k1|u|]; try contradiction; discriminate.
  - apply store_strict, ao_unlimited. apply ao_bind; [apply ao_vinsert|intros; apply ao_ret].
  - apply store_strict, ao_unlimited. apply ao_bind; [apply ao_vpop|intros; apply ao_ret].
  - apply store_strict, ao_unlimited. apply ao_bind; [apply ao_verase|intros; apply ao_ret].
  - apply store_strict, ao_unlimited. apply ao_bind; [apply ao_verase|intros; apply ao_ret].
Qed.

Lemma run_strict E : eDbg E = false -> forall f p s n, no_subscript p = true ->
  srun E f p s never_fails n = strict_run E f p s never_fails n.
Proof.
  intros HE. induction f as [|f IH]; intros p s n Hp; [reflexivity|]. destruct p as [i|a b|c x y a b|c x y a]; cbn [srun strict_run].
  - apply step_strict; auto.
  - cbn [no_subscript] in Hp. apply andb_true_iff in Hp. destruct Hp as [Ha Hb]. unfold bind. rewrite IH by exact Ha.
    destruct (strict_run E f a s never_fails n); auto.
  - cbn [no_subscript] in Hp. apply andb_true_iff in Hp. destruct Hp as [Ha Hb]. unfold bind.
    destruct (compare c (s x) (s y) never_fails n) as [[|] k|e k|u|]; auto.
  - unfold bind. destruct (compare c (s x) (s y) never_fails n) as [[|] k|e k|u|]; auto.
    rewrite IH by exact Hp. destruct (strict_run E f a s never_fails k); auto.
Qed.
