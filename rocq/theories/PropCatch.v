(** * C84: which handlers can run *)
From Coq Require Import String.
From Verif Require Import Base Spec Limits Bignum Machine While Catch.
From Verif Require Import Fourier Multiplication Outcome Wp FailProof HandlersProof RequestOpProof PropFailure Strict Ieee.

(** ** Specification *)

(** what can leave a statement *)
Definition can_raise (i : instr) (s : regs) (e : exn) : Prop :=
  match i with
  | INew _ _ _ | ICopy _ _ | IResize _ _ _ | IPushBack _ _ | IPushFront _ _ | IPush _ _ _ => e = ExBadAlloc
  | IAssign _ _ _ => e = ExStd
  | IBinary _ _ _ _ => e = ExBadAlloc \/ e = ExStd
  | ISetDigit r j _ => e = ExBnError /\ (length (data (s r)) <= j)%nat
  | IMove _ _ | ISetDesc _ _ | IClear _ | IPopBack _ | IPopFront _ | IPop _ _ => False
  end.

(** the handlers for BNUnderflow, BNNaN and int left out, everywhere *)
Definition useless (t : caught_type) : bool := match t with TUnderflow | TNaN | TInt => true | _ => false end.
Fixpoint without (p : guarded_stmt) : guarded_stmt :=
  match p with
  | GSeq a b => GSeq (without a) (without b)
  | GIf c r s a b => GIf c r s (without a) (without b)
  | GWhile c r s a => GWhile c r s (without a)
  | GTry a h => GTry (without a) (without_handlers h)
  | _ => p
  end
with without_handlers (h : handlers) : handlers :=
  match h with
  | HNone => HNone
  | HCatch t a r => if useless t then without_handlers r else HCatch t (without a) (without_handlers r)
  end.

(** a part of a program, at any depth *)
Fixpoint every (ok : instr -> Prop) (p : guarded_stmt) : Prop :=
  match p with
  | GDo i => ok i
  | GSeq a b | GIf _ _ _ a b => every ok a /\ every ok b
  | GWhile _ _ _ a => every ok a
  | GTry a h => every ok a /\ every_handler ok h
  | _ => True
  end
with every_handler (ok : instr -> Prop) (h : handlers) : Prop :=
  match h with HNone => True | HCatch _ a r => every ok a /\ every_handler ok r end.

Definition no_index (i : instr) : Prop := match i with ISetDigit _ _ _ => False | _ => True end.
(** statements that only work on numbers that are there: compound assignments, moves, descriptors, removals of digits *)
Definition in_place (i : instr) : Prop :=
  match i with
  | IAssign _ _ _ | IMove _ _ | ISetDesc _ _ | IClear _ | IPopBack _ | IPopFront _ | IPop _ _ | ISetDigit _ _ _ => True
  | _ => False
  end.

(** ** Proofs *)

Definition raises {A} (X : exn -> Prop) (m : M A) : Prop := forall al n, match m al n with Throw e _ => X e | _ => True end.
Lemma raises_ao {A} (m : M A) : alloc_only m -> raises (fun e => e = ExBadAlloc) m.
Proof. intros H al n. specialize (H al n). destruct (m al n); tauto. Qed.

Lemma compound_raises E op x y al n : match compound E op x y al n with
  | Ret (_, Some e) _ => e = ExStd | Throw _ _ => False | _ => True end.
Proof.
  destruct E as [L dbg P fuel keep], op; cbn [compound eL eDbg eP eFuel].
  - pose proof (C37_add_assign L x y al n) as H. destruct dbg; [destruct (proj1 (C39_debug_same_or_throws L fuel x y al n)) as [->|(k & ->)]|];
      try reflexivity; destruct (op_add_assign L false x y al n) as [[z [e|]] n'|e n'|u|]; tauto.
  - pose proof (C37_sub_assign L x y al n) as H. destruct dbg; [destruct (proj1 (proj2 (C39_debug_same_or_throws L fuel x y al n))) as [->|(k & ->)]|];
      try reflexivity; destruct (op_sub_assign L false x y al n) as [[z [e|]] n'|e n'|u|]; tauto.
  - pose proof (C37_mul_assign L P fuel x y al n) as H. destruct (op_mul_assign L P fuel x y al n) as [[z [e|]] n'|e n'|u|]; tauto.
  - pose proof (C37_div_assign L fuel x y al n) as H. destruct dbg; [destruct (proj2 (proj2 (C39_debug_same_or_throws L fuel x y al n))) as [->|(z & k & ->)]|];
      try reflexivity; destruct (op_div_assign L false fuel x y al n) as [[z [e|]] n'|e n'|u|]; tauto.
Qed.

Lemma binary_raises E op x y : raises (fun e => e = ExBadAlloc \/ e = ExStd) (binary (compound E op) x y).
Proof.
  intros al n. unfold binary, bind. assert (alloc_only (bn_copy x)) as H by (unfold bn_copy; apply ao_bind; [apply ao_vcopy|intros; apply ao_ret]).
  specialize (H al n). destruct (bn_copy x al n) as [z n1|e n1|u|]; auto; [|destruct H as [-> _]; auto].
  pose proof (compound_raises E op z (Other y) al n1) as K. destruct (compound E op z (Other y) al n1) as [[w [e|]] n2|e n2|u|]; cbn; auto. contradiction.
Qed.

Lemma stored_raises s r m X : raises X m -> forall al n, match stored s r m al n with
  | Ret (s', Raised e) _ => X e /\ s' = s | Ret (_, Normally) _ => True | Ret (_, Terminated) _ | Throw _ _ => False | _ => True end.
Proof.
  intros H al n. unfold stored, bind, attempt. specialize (H al n). destruct (m al n); cbn; auto.
Qed.

Lemma ao_resize v k d : alloc_only (@vresize Z v k d).
Proof. apply ao_bind; [apply ao_alloc|intros; apply ao_ret]. Qed.

Lemma step_raises E i s al n : match raising_step E i s al n with
  | Ret (_, Normally) _ => True
  | Ret (_, Raised e) _ => can_raise i s e
  | Ret (_, Terminated) _ | Throw _ _ => False
  | _ => True
  end.
Proof.
  assert (forall r m X, raises X m -> (forall e, X e -> can_raise i s e) -> match stored s r m al n with
    | Ret (_, Normally) _ => True | Ret (_, Raised e) _ => can_raise i s e | Ret (_, Terminated) _ | Throw _ _ => False | _ => True end) as K.
  { intros r m X H HX. pose proof (stored_raises s r m X H al n) as G. destruct (stored s r m al n) as [[s' []] n'|e n'|u|]; auto.
    apply HX. tauto. }
  assert (forall v : M (list Z), alloc_only v -> forall d, alloc_only (w <- v ;; ret (mkBN d w))) as A
    by (intros v Hv d; apply ao_bind; [exact Hv|intros; apply ao_ret]).
  destruct i; cbn [raising_step]; cbn [can_raise] in K |- *.
  - eapply K; [|intros e H; exact H]. apply raises_ao. unfold bn_make. destruct l; [apply ao_ret|].
    apply ao_bind; [apply ao_resize|intros v; apply ao_bind; [|intros; apply ao_ret]].
    generalize (leading_zeroes (eL E) (z :: l)), (length v). generalize (z :: l). intros l0; revert v. induction l0 as [|x l0 IH]; intros v k o; cbn; [apply ao_ret|].
      destruct k; [|apply IH]. destruct o; [apply ao_undef|]. apply ao_bind; [apply ao_vset|intros; apply IH].
  - unfold bn_copy_assign, bind, operand. destruct (s0 =? r)%nat; [exact I|]. pose proof (ao_vcopy (data (s s0)) al n) as H.
    destruct (vcopy (data (s s0)) al n); cbn; tauto.
  - destruct (_ =? _)%nat; exact I.
  - unfold bind. pose proof (compound_raises E op (s r) (operand s r s0) al n) as H.
    destruct (compound E op (s r) (operand s r s0) al n) as [[z [e|]] n'|e n'|u|]; cbn; auto.
  - eapply K; [apply binary_raises|auto].
  - exact I.
  - exact I.
  - eapply K; [|intros e H; exact H]. apply raises_ao, A, ao_resize.
  - eapply K; [|intros e H; exact H]. apply raises_ao, A, ao_vpush.
  - eapply K; [|intros e H; exact H]. apply raises_ao, A, ao_vinsert.
  - eapply K; [|intros e H; exact H]. apply raises_ao, A, ao_vinsert.
  - eapply (K _ _ (fun _ => False)); [|auto]. intros al' n'. unfold pop_back, vpop, bind. destruct (data (s r)); exact I.
  - eapply (K _ _ (fun _ => False)); [|auto]. intros al' n'. unfold pop_front, verase, bind. destruct (_ <? _)%nat; exact I.
  - eapply (K _ _ (fun _ => False)); [|auto]. intros al' n'. unfold pop, verase, bind. destruct (_ <? _)%nat; exact I.
  - eapply (K _ _ (fun e => e = ExBnError /\ (length (data (s r)) <= i)%nat)); [|auto]. intros al' n'. unfold subscript_set, bind.
    destruct (Nat.ltb_spec i (length (data (s r)))); cbn; [|auto]. unfold vset. destruct (i <? length (data (s r)))%nat; exact I.
Qed.

Lemma takes_useless t e : useless t = true -> e <> ExUnderflow -> takes t e = false.
Proof. destruct t, e; cbn; congruence. Qed.

Lemma handler_without h e : e <> ExUnderflow -> handler_for (without_handlers h) e = option_map without (handler_for h e).
Proof.
  intros He. induction h as [|t a r IH]; [reflexivity|]. cbn. destruct (useless t) eqn:U.
  - rewrite (takes_useless t e U He). exact IH.
  - cbn. destruct (takes t e); [reflexivity|exact IH].
Qed.

(** a run ends with none of the exceptions excluded by X, if its statements raise none of them *)
Section Only.
Context (X : exn -> Prop) (ok : instr -> Prop).
Hypothesis steps : forall i s e, ok i -> can_raise i s e -> X e.

Definition ends_in (m : M (regs * ending)) : Prop := forall al n, match m al n with Ret (_, Raised e) _ => X e | Throw _ _ => False | _ => True end.

Lemma handler_every h e a : every_handler ok h -> handler_for h e = Some a -> every ok a.
Proof.
  induction h as [|t b r IH]; cbn; [discriminate|]. intros [Hb Hr]. destruct (takes t e); [intros [= <-]; exact Hb|auto].
Qed.

Lemma only E : forall f now p s, every ok p -> (forall e, now = Some e -> X e) -> ends_in (guarded_run E f now p s).
Proof.
  induction f as [|f IH]; intros now p s Hp Hn al n; [exact I|]. destruct p; cbn [guarded_run]; cbn [every] in Hp.
  - pose proof (step_raises E i s al n) as H. destruct (raising_step E i s al n) as [[s' []] n'|e n'|u|]; auto. exact (steps i s e Hp H).
  - unfold bind. pose proof (IH now p1 s (proj1 Hp) Hn al n) as H. destruct (guarded_run E f now p1 s al n) as [[s' []] n'|e n'|u|]; cbn; auto.
    apply IH; tauto.
  - destruct (compare_total c (s r) (s s0)) as [b Eb]. unfold bind. rewrite Eb. destruct b; apply IH; tauto.
  - destruct (compare_total c (s r) (s s0)) as [b Eb]. unfold bind. rewrite Eb. destruct b; [|exact I].
    pose proof (IH now p s Hp Hn al n) as H. destruct (guarded_run E f now p s al n) as [[s' []] n'|e n'|u|]; cbn; auto.
    apply IH; auto.
  - exact I.
  - unfold bind. pose proof (IH now p s (proj1 Hp) Hn al n) as H. destruct (guarded_run E f now p s al n) as [[s' []] n'|e n'|u|]; cbn [fst snd]; auto; try exact I.
    destruct (handler_for h e) as [a|] eqn:Eh; [|exact H]. apply IH; [exact (handler_every h e a (proj2 Hp) Eh)|]. intros e' [= <-]. exact H.
  - cbn. destruct now; [apply Hn; reflexivity|exact I].
Qed.
End Only.

Lemma every_true p : every (fun _ => True) p.
Proof.
  revert p. fix IH 1. intros []; cbn; auto. split; [apply IH|]. revert h. fix IHh 1. intros []; cbn; auto.
Qed.

Lemma never_underflow i s e : can_raise i s e -> e <> ExUnderflow.
Proof. destruct i; cbn; intuition congruence. Qed.

Lemma no_underflow E f now p s al n : now <> Some ExUnderflow ->
  match guarded_run E f now p s al n with Ret (_, Raised e) _ => e <> ExUnderflow | Throw _ _ => False | _ => True end.
Proof.
  intros Hn. apply (only (fun e => e <> ExUnderflow) (fun _ => True)); [|apply every_true|intros e -> ->; apply Hn; reflexivity].
  intros i s' e _ H. exact (never_underflow i s' e H).
Qed.

Lemma run_without E : forall f now p s al n, now <> Some ExUnderflow -> guarded_run E f now (without p) s al n = guarded_run E f now p s al n.
Proof.
  induction f as [|f IH]; intros now p s al n Hn; [reflexivity|]. destruct p; cbn [without guarded_run]; try reflexivity; unfold bind.
  - rewrite IH by exact Hn. destruct (guarded_run E f now p1 s al n) as [[s' []] n'|e n'|u|]; cbn; auto.
  - destruct (compare_total c (s r) (s s0)) as [b Eb]. rewrite Eb. destruct b; auto.
  - destruct (compare_total c (s r) (s s0)) as [b Eb]. rewrite Eb. destruct b; [|reflexivity]. rewrite IH by exact Hn.
    destruct (guarded_run E f now p s al n) as [[s' []] n'|e n'|u|]; cbn; auto. exact (IH now (GWhile c r s0 p) s' al n' Hn).
  - rewrite IH by exact Hn. pose proof (no_underflow E f now p s al n Hn) as H.
    destruct (guarded_run E f now p s al n) as [[s' []] n'|e n'|u|]; cbn [fst snd]; auto. rewrite handler_without by exact H.
    destruct (handler_for h e); [|reflexivity]. cbn [option_map]. apply IH. congruence.
Qed.

(** ** Statements *)

(** Each statement lets out only the exceptions of [can_raise], and an index out of range always lets out BN_ERROR. *)
Theorem C84_raised : forall E i s al n,
  match raising_step E i s al n with
  | Ret (_, Normally) _ => True
  | Ret (_, Raised e) _ => can_raise i s e
  | Ret (_, Terminated) _ | Throw _ _ => False
  | _ => True
  end /\
  (forall r j d, i = ISetDigit r j d -> (length (data (s r)) <= j)%nat -> raising_step E i s al n = Ret (s, Raised ExBnError) n).
Proof.
  intros E i s al n. split; [apply step_raises|]. intros r j d -> H. cbn. unfold stored, bind, attempt, subscript_set, bind.
  rewrite (proj2 (Nat.ltb_ge _ _)) by exact H. reflexivity.
Qed.
Print Assumptions C84_raised.

(** What the statement leaves is what Machine.v says. *)
Theorem C84_same_state : forall E i s al n,
  step E i s al n = match raising_step E i s al n with
    Ret (s', _) n' => Ret s' n' | Throw e n' => Throw e n' | Undef u => Undef u | NoFuel => NoFuel end.
Proof.
  assert (forall s r m al n, store s r m al n = match stored s r m al n with
    Ret (s', _) n' => Ret s' n' | Throw e n' => Throw e n' | Undef u => Undef u | NoFuel => NoFuel end) as K.
  { intros. unfold store, stored, bind, attempt. destruct (m al n); reflexivity. }
  intros E i s al n. destruct i; cbn [step raising_step]; try apply K; try reflexivity; unfold bind.
  - destruct (bn_copy_assign _ _ al n); reflexivity.
  - destruct (_ =? _)%nat; reflexivity.
  - destruct (compound _ _ _ _ al n); reflexivity.
Qed.
Print Assumptions C84_same_state.

(** No program with handlers, nested in any way, ever enters a handler for BNUnderflow, BNNaN or int: leaving all of them out changes
    nothing.  This holds in debug builds too, where the library does throw BNUnderflow. *)
Theorem C84_dead_handlers : forall E f p s al n, guarded_run E f None (without p) s al n = guarded_run E f None p s al n.
Proof. intros. apply run_without. discriminate. Qed.
Print Assumptions C84_dead_handlers.

(** A try block with only compound assignments, moves and changes in place never enters a handler for std::bad_alloc, although it may
    fail for lack of memory. *)
Theorem C84_dead_bad_alloc : forall E f a b h s al n, every in_place a ->
  guarded_run E f None (GTry a (HCatch TBadAlloc b h)) s al n = guarded_run E f None (GTry a h) s al n.
Proof.
  intros E f a b h s al n Ha. destruct f as [|f]; [reflexivity|]. cbn [guarded_run]. unfold bind.
  pose proof (only (fun e => e <> ExBadAlloc) in_place) as K.
  specialize (K ltac:(intros [] s' e H1 H2; cbn in *; intuition congruence) E f None a s Ha ltac:(congruence) al n).
  destruct (guarded_run E f None a s al n) as [[s' []] n'|e n'|u|]; cbn [fst snd]; auto. cbn [handler_for]. destruct e; cbn; congruence.
Qed.
Print Assumptions C84_dead_bad_alloc.

(** catch (const std::exception&) catches everything in a program without subscripts, and with subscripts only BN_ERROR gets past it;
    what() says std::exception or std::bad_alloc, never one of the texts of the library. *)
Theorem C84_std_exception : forall E f p h s al n s' e n',
  guarded_run E f None p s al n = Ret (s', Raised e) n' ->
  (every no_index p -> e <> ExBnError) /\
  (e <> ExBnError -> handler_for (HCatch TStd h HNone) e = Some h /\
    (e = ExStd /\ what_text e = Some "std::exception"%string \/ e = ExBadAlloc /\ what_text e = Some "std::bad_alloc"%string)) /\
  (e = ExBnError -> handler_for (HCatch TStd h HNone) e = None /\ handler_for (HCatch TInt h HNone) e = None /\ handler_for (HCatch TBnError h HNone) e = Some h).
Proof.
  intros E f p h s al n s' e n' H. split; [|split].
  - intros Hp. pose proof (only (fun e => e <> ExBnError) no_index) as K.
    specialize (K ltac:(intros [] s1 e1 H1 H2; cbn in *; intuition congruence) E f None p s Hp ltac:(congruence) al n). rewrite H in K. exact K.
  - pose proof (no_underflow E f None p s al n ltac:(congruence)) as K. rewrite H in K. destruct e; cbn; intuition congruence.
  - intros ->. cbn. auto.
Qed.
Print Assumptions C84_std_exception.

(** So with the two handlers nothing gets out of a try block. *)
Theorem C84_two_handlers : forall E f p s al n,
  match guarded_run E f None (GTry p (HCatch TStd GSkip (HCatch TBnError GSkip HNone))) s al n with
  | Ret (_, Raised _) _ | Throw _ _ => False | _ => True end.
Proof.
  intros E f p s al n. destruct f as [|f]; [exact I|]. cbn [guarded_run]. unfold bind. pose proof (no_underflow E f None p s al n ltac:(congruence)) as K.
  destruct (guarded_run E f None p s al n) as [[s' []] n'|e n'|u|]; cbn [fst snd]; auto; try exact I.
  destruct e; try congruence; cbn [handler_for takes]; destruct f; cbn; exact I.
Qed.
Print Assumptions C84_two_handlers.

Lemma more_fuel E : forall f now p s al n, guarded_run E f now p s al n <> NoFuel -> guarded_run E (S f) now p s al n = guarded_run E f now p s al n.
Proof.
  induction f as [|f IH]; intros now p s al n H; [contradiction (H eq_refl)|]. revert H. 
  destruct p; cbn [guarded_run]; try reflexivity; fold (guarded_run E); unfold bind; intros H.
  - change (match guarded_run E (S f) now p1 s al n with Ret a n' => (fun r => match snd r with Normally => guarded_run E (S f) now p2 (fst r) | _ => ret r end) a al n' | Throw e n' => Throw e n' | Undef u => Undef u | NoFuel => NoFuel end
      = match guarded_run E f now p1 s al n with Ret a n' => (fun r => match snd r with Normally => guarded_run E f now p2 (fst r) | _ => ret r end) a al n' | Throw e n' => Throw e n' | Undef u => Undef u | NoFuel => NoFuel end).
    rewrite IH by (intros K; rewrite K in H; apply H; reflexivity).
    destruct (guarded_run E f now p1 s al n) as [[s' []] n'|e n'|u|]; cbn [fst snd] in *; auto.
  - destruct (compare_total c (s r) (s s0)) as [b Eb]. rewrite Eb in *. destruct b; apply IH; exact H.
  - destruct (compare_total c (s r) (s s0)) as [b Eb]. rewrite Eb in *. destruct b; [|reflexivity].
    change (match guarded_run E (S f) now p s al n with Ret a n' => (fun r0 => match snd r0 with Normally => guarded_run E (S f) now (GWhile c r s0 p) (fst r0) | _ => ret r0 end) a al n' | Throw e n' => Throw e n' | Undef u => Undef u | NoFuel => NoFuel end
      = match guarded_run E f now p s al n with Ret a n' => (fun r0 => match snd r0 with Normally => guarded_run E f now (GWhile c r s0 p) (fst r0) | _ => ret r0 end) a al n' | Throw e n' => Throw e n' | Undef u => Undef u | NoFuel => NoFuel end).
    rewrite IH by (intros K; rewrite K in H; apply H; reflexivity).
    destruct (guarded_run E f now p s al n) as [[s' []] n'|e n'|u|]; cbn [fst snd] in *; auto.
  - change (match guarded_run E (S f) now p s al n with Ret a n' => (fun r => match snd r with Raised e => match handler_for h e with Some b => guarded_run E (S f) (Some e) b (fst r) | None => ret r end | _ => ret r end) a al n' | Throw e n' => Throw e n' | Undef u => Undef u | NoFuel => NoFuel end
      = match guarded_run E f now p s al n with Ret a n' => (fun r => match snd r with Raised e => match handler_for h e with Some b => guarded_run E f (Some e) b (fst r) | None => ret r end | _ => ret r end) a al n' | Throw e n' => Throw e n' | Undef u => Undef u | NoFuel => NoFuel end).
    rewrite IH by (intros K; rewrite K in H; apply H; reflexivity).
    destruct (guarded_run E f now p s al n) as [[s' []] n'|e n'|u|]; cbn [fst snd] in *; auto. destruct (handler_for h e); auto.
Qed.

Lemma any_fuel E f f' now p s al n : (f <= f')%nat -> guarded_run E f now p s al n <> NoFuel -> guarded_run E f' now p s al n = guarded_run E f now p s al n.
Proof. intros H K. induction H as [|f' H IH]; [reflexivity|]. rewrite more_fuel; [exact IH|]. rewrite IH. exact K. Qed.

(** The idiom try { a } catch (...) { b; throw; }: if a is left by the exception e, b starts from what a has done so far, and e goes on. *)
Theorem C84_cleanup : forall E f f' now a b s al n s1 e n1 s2 n2,
  guarded_run E f now a s al n = Ret (s1, Raised e) n1 -> guarded_run E f (Some e) b s1 al n1 = Ret (s2, Normally) n2 -> (f + 2 <= f')%nat ->
  guarded_run E f' now (GTry a (HCatch TAny (GSeq b GRethrow) HNone)) s al n = Ret (s2, Raised e) n2.
Proof.
  intros E f f' now a b s al n s1 e n1 s2 n2 Ha Hb Hf. destruct f' as [|[|g]]; [lia..|].
  cbn [guarded_run]. unfold bind at 1. change (guarded_run E (S g) now a s al n) with (guarded_run E (S g) now a s al n).
  assert (guarded_run E (S g) now a s al n = Ret (s1, Raised e) n1) as Ka by (rewrite (any_fuel E f); [exact Ha|lia|congruence]).
  assert (guarded_run E g (Some e) b s1 al n1 = Ret (s2, Normally) n2) as Kb by (rewrite (any_fuel E f); [exact Hb|lia|congruence]).
  assert ((0 < g)%nat) as G by (destruct f; [discriminate|lia]).
  transitivity (guarded_run E (S g) (Some e) (GSeq b GRethrow) s1 al n1).
  - change (match guarded_run E (S g) now a s al n with Ret x n' => (fun r => match snd r with Raised e => match handler_for (HCatch TAny (GSeq b GRethrow) HNone) e with Some b => guarded_run E (S g) (Some e) b (fst r) | None => ret r end | _ => ret r end) x al n' | Throw e n' => Throw e n' | Undef u => Undef u | NoFuel => NoFuel end = guarded_run E (S g) (Some e) (GSeq b GRethrow) s1 al n1).
    rewrite Ka. cbn [fst snd handler_for takes]. reflexivity.
  - cbn [guarded_run]. unfold bind. rewrite Kb. cbn [fst snd]. destruct g; [lia|]. reflexivity.
Qed.
Print Assumptions C84_cleanup.

(** The rule of C++: a handler takes the exceptions of its type and of the types derived from it. *)
Inductive is_a : exn -> caught_type -> Prop :=
| is_underflow : is_a ExUnderflow TUnderflow
| is_bad_alloc : is_a ExBadAlloc TBadAlloc
| is_bn_error : is_a ExBnError TBnError
| is_exception : is_a ExStd TStd
| underflow_derives : is_a ExUnderflow TStd
| bad_alloc_derives : is_a ExBadAlloc TStd
| is_anything e : is_a e TAny.

Theorem C84_handlers : forall E f f' now a t b h s al n s1 e n1,
  guarded_run E f now a s al n = Ret (s1, Raised e) n1 -> (f <= f')%nat ->
  (is_a e t -> guarded_run E (S f') now (GTry a (HCatch t b h)) s al n = guarded_run E f' (Some e) b s1 al n1) /\
  (~ is_a e t -> guarded_run E (S f') now (GTry a (HCatch t b h)) s al n = guarded_run E (S f') now (GTry a h) s al n) /\
  guarded_run E (S f') now (GTry a HNone) s al n = Ret (s1, Raised e) n1.
Proof.
  intros E f f' now a t b h s al n s1 e n1 H Hf.
  assert (guarded_run E f' now a s al n = Ret (s1, Raised e) n1) as K by (rewrite (any_fuel E f); [exact H|exact Hf|congruence]).
  assert (takes t e = true <-> is_a e t) as T.
  { split; [destruct t, e; cbn [takes]; intros; try discriminate; constructor|intros []; try reflexivity; destruct e0; reflexivity]. }
  assert (forall h, guarded_run E (S f') now (GTry a h) s al n =
    match handler_for h e with Some b => guarded_run E f' (Some e) b s1 al n1 | None => Ret (s1, Raised e) n1 end) as R.
  { intros h0. cbn [guarded_run]. unfold bind at 1. rewrite K. cbn [fst snd]. destruct (handler_for h0 e); reflexivity. }
  split; [|split].
  - intros A. rewrite R. cbn [handler_for]. rewrite (proj2 T A). reflexivity.
  - intros A. rewrite !R. cbn [handler_for]. destruct (takes t e); [exfalso; apply A, T; reflexivity|reflexivity].
  - rewrite R. reflexivity.
Qed.
Print Assumptions C84_handlers.

(** What a failed statement leaves, and so what a handler finds: a compound assignment leaves its target infinite, with the sign of the
    right operand (x /= x: positive); an assignment of a copy leaves its target with the digits it had, but the other number's
    descriptor; any other statement leaves everything as it was. *)
Definition left_behind (i : instr) (s s1 : regs) : Prop :=
  match i with
  | IAssign op r t =>
      let positive := match op with ODiv => (t =? r)%nat | _ => false end || desc_eqb (desc (s t)) BN_POS in
      s1 = upd s r (mkBN (if positive then BN_POS_INF else BN_NEG_INF) [])
  | ICopy r t => s1 = upd s r (mkBN (desc (s t)) (data (s r)))
  | _ => s1 = s
  end.

Lemma compound_leaves E op s r t al n z e n' : compound E op (s r) (operand s r t) al n = Ret (z, Some e) n' ->
  z = infinity_for (match op with ODiv => if (t =? r)%nat then BN_POS else desc (s t) | _ => desc (s t) end).
Proof.
  assert (adesc (s r) (operand s r t) = desc (s t)) as A
    by (unfold operand; destruct (Nat.eqb_spec t r); [subst; reflexivity|reflexivity]).
  intros H. revert H. destruct E as [L dbg P fuel keep], op; cbn [compound eL eDbg eP eFuel].
  - pose proof (C37_add_assign L (s r) (operand s r t) al n) as K. destruct dbg; [destruct (proj1 (C39_debug_same_or_throws L fuel (s r) (operand s r t) al n)) as [->|(k & ->)]|];
      intros H; rewrite ?H in K; try (destruct K as (_ & -> & _); rewrite A; reflexivity). injection H as <- _ _. rewrite A. reflexivity.
  - pose proof (C37_sub_assign L (s r) (operand s r t) al n) as K. destruct dbg; [destruct (proj1 (proj2 (C39_debug_same_or_throws L fuel (s r) (operand s r t) al n))) as [->|(k & ->)]|];
      intros H; rewrite ?H in K; try (destruct K as (_ & -> & _); rewrite A; reflexivity). injection H as <- _ _. rewrite A. reflexivity.
  - pose proof (C37_mul_assign L P fuel (s r) (operand s r t) al n) as K. intros H. rewrite H in K. destruct K as (_ & -> & _). rewrite A. reflexivity.
  - assert (match operand s r t with Other num => desc num | Self => BN_POS end = (if (t =? r)%nat then BN_POS else desc (s t))) as D
      by (unfold operand; destruct (t =? r)%nat; reflexivity).
    pose proof (C37_div_assign L fuel (s r) (operand s r t) al n) as K. rewrite D in K.
    destruct dbg; [destruct (div_debug L fuel (s r) (operand s r t) al n) as [->|(k & ->)]|];
      intros H; rewrite ?H in K; try (destruct K as (_ & _ & ->); reflexivity). injection H as <- _ _.
    rewrite <- D. destruct (operand s r t); [reflexivity|destruct (desc (s r)); reflexivity].
Qed.

Theorem C84_left_behind : forall E i s al n s1 e n1, raising_step E i s al n = Ret (s1, Raised e) n1 -> left_behind i s s1.
Proof.
  assert (forall s r m al n s1 e n1, stored s r m al n = Ret (s1, Raised e) n1 -> s1 = s) as K.
  { intros s r m al n s1 e n1. unfold stored, bind, attempt. destruct (m al n); cbn; intros H; inversion H; reflexivity. }
  intros E i s al n s1 e n1. destruct i; cbn [raising_step left_behind]; try apply K; try (intros H; inversion H; fail).
  - unfold bn_copy_assign, operand, bind. destruct (s0 =? r)%nat; [intros H; inversion H|].
    unfold attempt. destruct (vcopy (data (s s0)) al n); cbn; intros H; inversion H; reflexivity.
  - destruct (_ =? _)%nat; intros H; inversion H.
  - unfold bind. destruct (compound E op (s r) (operand s r s0) al n) as [[z [e'|]] n'|e' n'|u|] eqn:Ec; cbn; intros H; inversion H; subst.
    rewrite (compound_leaves _ _ _ _ _ _ _ _ _ _ Ec). cbv zeta. f_equal.
    destruct op; [..|destruct (s0 =? r)%nat; [reflexivity|]]; destruct (desc (s s0)); reflexivity.
Qed.
Print Assumptions C84_left_behind.

(** ** Refuted expectations *)

(** A debug build reports 20 - 19 as an underflow, but a handler for BNUnderflow does not get to see it, and one for std::bad_alloc does
    not see the lack of memory of a sum. *)
Theorem C84_underflow_handler_refuted : forall P fuel keep, exists s s' n',
  guarded_run (mkEnv base10 true P fuel keep) 2 None (GTry (GDo (IAssign OSub 0 1)) (HCatch TUnderflow (GDo (IClear 0)) HNone)) s never_fails 0%nat
    = Ret (s', Raised ExStd) n' /\ signed_value 10 (s 0%nat) = 20 /\ signed_value 10 (s 1%nat) = 19.
Proof.
  intros P fuel keep. exists (fun r => if (r =? 0)%nat then mkBN BN_POS [0; 2] else mkBN BN_POS [9; 1]). do 2 eexists. repeat split.
Qed.
Print Assumptions C84_underflow_handler_refuted.

Theorem C84_bad_alloc_handler_refuted : forall P fuel keep, exists s s' n',
  guarded_run (mkEnv base10 false P fuel keep) 2 None (GTry (GDo (IAssign OAdd 0 1)) (HCatch TBadAlloc (GDo (IClear 0)) HNone)) s (fun _ => false) 0%nat
    = Ret (s', Raised ExStd) n' /\ s' 0%nat = mkBN BN_POS_INF [].
Proof.
  intros P fuel keep. exists (fun r => mkBN BN_POS [(if (r =? 0)%nat then 9 else 1)]). do 2 eexists. split; reflexivity.
Qed.
Print Assumptions C84_bad_alloc_handler_refuted.

(** a subscript out of range gets past a handler for std::exception *)
Theorem C84_std_handler_refuted : forall E s j d, (length (data (s 0%nat)) <= j)%nat ->
  guarded_run E 2 None (GTry (GDo (ISetDigit 0 j d)) (HCatch TStd GSkip HNone)) s never_fails 0%nat = Ret (s, Raised ExBnError) 0%nat.
Proof.
  intros E s j d H. destruct (C84_raised E (ISetDigit 0 j d) s never_fails 0%nat) as [_ K]. specialize (K _ _ _ eq_refl H).
  cbn [guarded_run]. unfold bind. rewrite K. reflexivity.
Qed.
Print Assumptions C84_std_handler_refuted.

(** ** Cases *)

(** the other entries of [can_raise] occur: a copy and a binary operator that cannot copy, a binary operator that cannot grow *)
Definition env10 : env := mkEnv base10 false (ieee unfused (fun x => x) (fun x => x)) 9%nat true.
Definition nine : regs := fun _ => mkBN BN_POS [9].
Definition ended (r : res (regs * ending)) : option ending := match r with Ret (_, e) _ => Some e | _ => None end.
Example C84_cases :
  ended (guarded_run env10 1 None (GDo (ICopy 0 1)) nine (fun _ => false) 0%nat) = Some (Raised ExBadAlloc) /\
  ended (guarded_run env10 1 None (GDo (IBinary OAdd 0 1 2)) nine (fun _ => false) 0%nat) = Some (Raised ExBadAlloc) /\
  ended (guarded_run env10 1 None (GDo (IBinary OAdd 0 1 2)) nine (fun k => (k =? 0)%nat) 0%nat) = Some (Raised ExStd) /\
  ended (guarded_run env10 1 None (GDo (IPushFront 0 3)) nine (fun _ => false) 0%nat) = Some (Raised ExBadAlloc) /\
  ended (guarded_run env10 1 None GRethrow nine (fun _ => false) 0%nat) = Some Terminated.
Proof. repeat split. Qed.

(** A handler for std::exception that clears a number and throws the exception on, in a block whose handler takes all: register 0 is
    cleared and the program goes on with what the outer handler did. *)
Definition nested : guarded_stmt :=
  GTry (GTry (GDo (IAssign OAdd 0 1)) (HCatch TUnderflow GSkip (HCatch TStd (GSeq (GDo (IClear 0)) GRethrow) HNone)))
       (HCatch TAny (GDo (IMove 1 2)) HNone).
Example C84_nested_case : exists s n, guarded_run env10 5 None nested nine (fun _ => false) 0%nat = Ret (s, Normally) n /\
  s 0%nat = mkBN BN_POS [] /\ s 1%nat = mkBN BN_POS [9] /\ s 2%nat = mkBN BN_POS [] /\
  without nested = GTry (GTry (GDo (IAssign OAdd 0 1)) (HCatch TStd (GSeq (GDo (IClear 0)) GRethrow) HNone)) (HCatch TAny (GDo (IMove 1 2)) HNone).
Proof. do 2 eexists. repeat split. Qed.

(** The cleanup idiom with a sum that finds no memory: the target is infinite when the handler copies it. *)
Example C84_cleanup_case : exists s n,
  guarded_run env10 3 None (GTry (GDo (IAssign OAdd 0 1)) (HCatch TAny (GSeq (GDo (IMove 3 0)) GRethrow) HNone)) nine (fun _ => false) 0%nat
    = Ret (s, Raised ExStd) n /\ s 3%nat = mkBN BN_POS_INF [] /\ s 0%nat = mkBN BN_POS [].
Proof. do 2 eexists. repeat split. Qed.
