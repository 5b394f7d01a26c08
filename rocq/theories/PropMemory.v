(** * Property C66: programs that run out of memory *)
From Verif Require Import Base Spec Limits Bignum Machine While Expression Strict Outcome.
From Verif Require BignumProof.
From Verif Require Import Fourier Ieee IeeeProof HistoryProof FailProof MemoryProof PropMul PropHistory PropProgram EuclidProof PropLoop DebugSoundProof PropDebugSound.

(** A program in which nothing catches exceptions does exactly what it does with unlimited memory, all its requests being
    granted, or an exception leaves it at the first request that is refused.  For every number type, build, program, state,
    floating-point arithmetic and allocator, whether or not the program is one the library computes right. *)
Theorem C66_programs : forall E f p s al n,
  (strict_run E f p s al n = strict_run E f p s never_fails n /\
   match strict_run E f p s never_fails n with Ret _ n' | Throw _ n' => granted al n n' | Undef _ | NoFuel => True end) \/
  exists e n', (e = ExStd \/ e = ExBadAlloc) /\ strict_run E f p s al n = Throw e n' /\ last_refused al n n'.
Proof.
  intros E f p s al n. destruct (st_run E f p s al n) as [[H K]|(e & n' & He & H & R & _)]; [left|right; exists e, n'; auto]. split; [exact H|].
  unfold counted in K. destruct (strict_run E f p s never_fails n); tauto.
Qed.
Print Assumptions C66_programs.

Theorem C66_expressions : forall E e al n,
  (eval E e al n = eval E e never_fails n /\
   match eval E e never_fails n with Ret _ n' | Throw _ n' => granted al n n' | Undef _ | NoFuel => True end) \/
  exists x n', (x = ExStd \/ x = ExBadAlloc) /\ eval E e al n = Throw x n' /\ last_refused al n n'.
Proof.
  intros E e al n. destruct (st_eval E e al n) as [[H K]|(x & n' & He & H & R & _)]; [left|right; exists x, n'; auto]. split; [exact H|].
  unfold counted in K. destruct (eval E e never_fails n); tauto.
Qed.
Print Assumptions C66_expressions.

(** So a program that completes has the same values as with unlimited memory; and the number of requests it makes with unlimited
    memory tells which allocators it completes with. *)
Theorem C66_completes : forall E f p s n s' n', strict_run E f p s never_fails n = Ret s' n' ->
  forall al, (granted al n n' -> strict_run E f p s al n = Ret s' n') /\
             (~ granted al n n' -> exists e k, (e = ExStd \/ e = ExBadAlloc) /\ strict_run E f p s al n = Throw e k /\ (k <= n')%nat).
Proof.
  intros E f p s n s' n' H al. destruct (st_run E f p s al n) as [[K G]|(e & k & He & K & (j & -> & Hj & Gj & Ej) & W)]; rewrite H in *.
  - split; [intros _; exact K|]. intros NG. destruct NG. apply G.
  - cbn in W. split; [|intros _; exists e, (S j); auto]. intros G. rewrite G in Ej by lia. discriminate.
Qed.
Print Assumptions C66_completes.

(** ** Programs the library computes right: C47 and C50 without handlers, for every allocator *)

Lemma release_completes E op x y al n : eDbg E = false -> (forall k, al k = true) ->
  match compound E op x y al n with Ret (_, Some _) _ | Throw _ _ => False | _ => True end.
Proof.
  intros HE Hal. assert (forall n', ~ last_refused al n n') as No by (intros n' (k & _ & _ & _ & F); rewrite Hal in F; discriminate).
  destruct op; cbn [compound]; rewrite ?HE.
  - pose proof (add_atomic (eL E) x y al n) as H. destruct (op_add_assign _ _ _ _ al n) as [[z [e|]] k|e k|u|]; auto. apply (No k), H.
  - pose proof (sub_atomic (eL E) x y al n) as H. destruct (op_sub_assign _ _ _ _ al n) as [[z [e|]] k|e k|u|]; auto. apply (No k), H.
  - pose proof (mul_atomic (eL E) (eP E) (eFuel E) x y al n) as H. destruct (op_mul_assign _ _ _ _ _ al n) as [[z [e|]] k|e k|u|]; auto. apply (No k), H.
  - pose proof (div_atomic (eL E) (eFuel E) x y al n) as H. destruct (op_div_assign _ _ _ _ _ al n) as [[z [e|]] k|e k|u|]; auto. apply (No k), H.
Qed.

Lemma make_completes L d l al n e k : (forall k, al k = true) -> bn_make L d l al n <> Throw e k.
Proof.
  intros Hal. assert (forall l lz v oi, alloc_only (ctor_loop l lz v oi)) as Hc.
  { clear. induction l as [|x r IH]; intros; cbn [ctor_loop]; [apply ao_ret|]. destruct lz; [|apply IH]. destruct oi; [apply ao_undef|].
    apply ao_bind; [apply ao_vset|]. intros w. apply IH. }
  assert (alloc_only (bn_make L d l)) as H.
  { unfold bn_make. destruct l as [|x r]; [apply ao_ret|]. cbv zeta. apply ao_bind; [apply ao_bind; [apply ao_alloc|intros; apply ao_ret]|].
    intros v. apply ao_bind; [apply Hc|]. intros w. apply ao_ret. }
  specialize (H al n). intros F. rewrite F in H. destruct H as (_ & j & _ & _ & _ & G). rewrite Hal in G. discriminate.
Qed.

Lemma strict_of_step E i s al n s' n' : eDbg E = false -> (forall k, al k = true) ->
  match i with INew _ _ _ | ICopy _ _ | IMove _ _ | IAssign _ _ _ | IBinary _ _ _ _ | ISetDesc _ _ | IClear _ => True | _ => False end ->
  step E i s al n = Ret s' n' -> strict_step E i s al n = Ret s' n'.
Proof.
  intros HE Hal Hi H. destruct i; try contradiction; cbn [step strict_step] in *; try exact H.
  - unfold store, attempt, put_in, bind in *. pose proof (make_completes (eL E) d l al n) as K.
    destruct (bn_make (eL E) d l al n) as [x k|e k|u|]; [exact H|destruct (K e k Hal eq_refl)|discriminate|discriminate].
  - unfold assigned_to, bind in *. unfold operand in *. destruct (_ =? _)%nat; [exact H|]. cbn [bn_copy_assign] in *.
    unfold vcopy, bind, alloc in *. rewrite Hal in *. exact H.
  - unfold assigned_to, bind in *. pose proof (release_completes E op (s r) (operand s r s0) al n HE Hal) as K.
    destruct (compound E op (s r) (operand s r s0) al n) as [[z [e|]] k|e k|u|]; try contradiction; exact H.
  - unfold put_in, store, attempt, bind in *. rewrite BignumProof.binary_eq in *. rewrite Hal in *.
    pose proof (release_completes E op (s s0) (Other (s t)) al (S n) HE Hal) as K.
    destruct (compound E op (s s0) (Other (s t)) al (S n)) as [[z [e|]] k|e k|u|]; try contradiction; exact H.
Qed.

(** a computation that completes when no request is refused *)
Lemma steady_returns {A} (m : M A) Q : steady std_or_bad_alloc m ->
  (forall al n, (forall k, al k = true) -> exists a n', m al n = Ret a n' /\ Q a) -> returns m Q.
Proof.
  intros H K al n. destruct (K never_fails n (fun _ => eq_refl)) as (a & n' & E & HQ).
  destruct (H al n) as [[-> C]|(e & k & He & -> & (j & -> & Hj & _ & Ej) & _)]; [|split; [exact He|exists j; split; [lia|exact Ej]]].
  rewrite E in *. split; [exact HQ|apply C].
Qed.

(** [returns]: it never reaches undefined behaviour, always ends, stores the right numbers if it completes, and does not complete
    only if a request is refused. *)
Theorem C66_structured_programs : forall ct cosf sinf L N m p v v', accurate cosf sinf -> In (L, N, m) safe_lengths ->
  can_double L = true -> nat_run (base L) N m p v v' ->
  exists enough : nat, forall fuel keep f s, (enough <= fuel)%nat -> (enough <= f)%nat -> stores (base L) s v ->
  returns (strict_run (mkEnv L false (ieee ct cosf sinf) fuel keep) f p s) (fun s' => stores (base L) s' v').
Proof.
  intros ct cosf sinf L N m p v v' HA Hin HD Hp.
  cut (exists enough : nat, forall fuel keep f s al n, (enough <= fuel)%nat -> (enough <= f)%nat -> (forall k, al k = true) -> stores (base L) s v ->
    exists s' n', strict_run (mkEnv L false (ieee ct cosf sinf) fuel keep) f p s al n = Ret s' n' /\ stores (base L) s' v').
  { intros [e K]. exists e. intros fuel keep f s H1 H2 Hs. apply steady_returns; [apply st_run|]. intros al n Hal. apply K; auto. }
  assert (2 <= base L) as HB by (apply AddSubProof.HB; unfold can_double in HD; apply andb_true_iff in HD; apply HD).
  induction Hp as [i s s' Hi|p q s s1 s' _ [e1 K1] _ [e2 K2]|c x y p q s b s' Ht _ [e K]|c x y p s Ht|c x y p s s1 s' Ht _ [e1 K1] _ [e2 K2]].
  - destruct (nat_instr_run ct cosf sinf L N m i s s' HA Hin HD Hi) as [e K]. exists (S e). intros fuel keep f r al n Hf1 Hf2 Hal Hs.
    destruct f as [|f]; [lia|]. cbn [strict_run]. destruct (K fuel keep r al n ltac:(lia) Hal Hs) as (r' & n' & E & S').
    exists r', n'. split; [|exact S']. apply strict_of_step; auto. destruct i; cbn in Hi; auto; contradiction.
  - exists (S (Nat.max e1 e2)). intros fuel keep f r al n Hf1 Hf2 Hal Hs. destruct f as [|f]; [lia|]. cbn [strict_run]. unfold bind.
    destruct (K1 fuel keep f r al n ltac:(lia) ltac:(lia) Hal Hs) as (r1 & n1 & E1 & S1). rewrite E1. apply K2; auto; lia.
  - exists (S e). intros fuel keep f r al n Hf1 Hf2 Hal Hs. destruct f as [|f]; [lia|]. cbn [strict_run]. unfold bind.
    rewrite (test_run _ _ _ _ _ _ _ HB Hs Ht al n). destruct b; apply K; auto; lia.
  - exists 1%nat. intros fuel keep f r al n Hf1 Hf2 Hal Hs. destruct f as [|f]; [lia|]. cbn [strict_run]. unfold bind.
    rewrite (test_run _ _ _ _ _ _ _ HB Hs Ht al n). exists r, n. auto.
  - exists (S (Nat.max e1 e2)). intros fuel keep f r al n Hf1 Hf2 Hal Hs. destruct f as [|f]; [lia|]. cbn [strict_run]. unfold bind at 1.
    rewrite (test_run _ _ _ _ _ _ _ HB Hs Ht al n). unfold bind.
    destruct (K1 fuel keep f r al n ltac:(lia) ltac:(lia) Hal Hs) as (r1 & n1 & E1 & S1). rewrite E1. apply K2; auto; lia.
Qed.
Print Assumptions C66_structured_programs.

Theorem C66_integer_programs : forall ct cosf sinf L N m p v v', accurate cosf sinf -> In (L, N, m) safe_lengths ->
  can_double L = true -> int_runs (base L) N m p v v' ->
  exists enough : nat, forall fuel keep s, (enough <= fuel)%nat -> represents (base L) s v ->
  returns (strict_exec (mkEnv L false (ieee ct cosf sinf) fuel keep) p s) (fun s' => represents (base L) s' v').
Proof.
  intros ct cosf sinf L N m p v v' HA Hin HD Hp.
  cut (exists enough : nat, forall fuel keep s al n, (enough <= fuel)%nat -> (forall k, al k = true) -> represents (base L) s v ->
    exists s' n', strict_exec (mkEnv L false (ieee ct cosf sinf) fuel keep) p s al n = Ret s' n' /\ represents (base L) s' v').
  { intros [e K]. exists e. intros fuel keep s H1 Hs. apply steady_returns; [apply st_exec|]. intros al n Hal. apply K; auto. }
  revert v v' Hp. induction p as [|i p IH]; intros v v' Hp.
  - cbn [int_runs] in Hp. exists 0%nat. intros fuel keep s al n _ _ Hs. exists s, n. split; [reflexivity|].
    intros r. rewrite Hp. apply Hs.
  - cbn [int_runs] in Hp. destruct Hp as (w & Hi & Hp). destruct (IH w v' Hp) as [e2 K2].
    exists (Nat.max (Z.to_nat (Z.log2_up N + 1)) (Nat.max (needs N i v) e2)). intros fuel keep s al n Hf Hal Hs.
    pose proof (Z.log2_up_nonneg N).
    destruct (int_step_run ct cosf sinf L N m i s v w fuel keep al n HA Hin HD Hal ltac:(lia) ltac:(lia) Hs Hi) as (s1 & n1 & E1 & H1).
    destruct (K2 fuel keep s1 al n1 ltac:(lia) Hal H1) as (s' & n' & E2 & H2).
    exists s', n'. split; [|exact H2]. cbn [strict_exec]. unfold bind. rewrite (strict_of_step (mkEnv L false (ieee ct cosf sinf) fuel keep) i s al n s1 n1 eq_refl Hal); auto.
    destruct i; cbn in Hi; auto; contradiction.
Qed.
Print Assumptions C66_integer_programs.

(** In a debug build such a program may also throw although memory suffices (C39, C54), but never ends with other numbers. *)
Theorem C66_debug : forall ct cosf sinf L N m p v v', accurate cosf sinf -> In (L, N, m) safe_lengths ->
  can_double L = true -> nat_run (base L) N m p v v' ->
  exists enough : nat, forall fuel keep f s al n, (enough <= fuel)%nat -> (enough <= f)%nat -> stores (base L) s v ->
  match strict_run (mkEnv L true (ieee ct cosf sinf) fuel keep) f p s al n with
  | Ret s' _ => stores (base L) s' v'
  | Throw e _ => e = ExStd \/ e = ExBadAlloc
  | Undef _ | NoFuel => False
  end.
Proof.
  intros ct cosf sinf L N m p v v' HA Hin HD Hp.
  destruct (C66_structured_programs ct cosf sinf L N m p v v' HA Hin HD Hp) as [e K]. exists e. intros fuel keep f s al n H1 H2 Hs.
  specialize (K fuel keep f s H1 H2 Hs al n).
  destruct (C65_programs L (ieee ct cosf sinf) fuel keep f p s al n) as [-> | [n' ->]]; [|left; reflexivity].
  destruct (strict_run _ f p s al n); tauto.
Qed.
Print Assumptions C66_debug.

(** The loop of the factorial for 20 is such a program. *)
Example C66_loop : exists v v', nat_run (base base10) (2 ^ 32) 47721858 (While CNe 0 3 (block [IAssign OMul 1 0; IAssign OSub 0 2])) v v' /\
  val v 0%nat = 20 /\ val v 1%nat = 1 /\ val v' 1%nat = Z.of_nat (fact 20).
Proof.
  set (v := mkNS (fun r => match r with O => 20 | 3%nat => 0 | _ => 1 end) (fun _ => true)).
  assert (Z.of_nat (fact 20) < 10 ^ 19) as F.
  { assert (forall k, Z.of_nat (fact (S k)) = Z.of_nat (S k) * Z.of_nat (fact k)) as E by (intros k; change (fact (S k)) with (S k * fact k)%nat; apply Nat2Z.inj_mul).
    rewrite !E. cbn [fact]. vm_compute. reflexivity. }
  destruct (factorial_loop (base base10) (2 ^ 32) 47721858 19 2 ltac:(lia) ltac:(lia) ltac:(lia) ltac:(lia) 20 v eq_refl ltac:(vm_compute; reflexivity)
    eq_refl eq_refl eq_refl eq_refl ltac:(cbn; lia)) as (v' & R & V').
  - change (val v 1%nat) with 1. rewrite Z.mul_1_l. exact F.
  - exists v, v'. split; [exact R|]. split; [reflexivity|]. split; [reflexivity|]. rewrite V'. change (val v 1%nat) with 1. apply Z.mul_1_l.
Qed.

(** The 50th Fibonacci number: 73 requests, so it completes with exactly the allocators that grant the first 73. *)
Example C66_case : exists s n, strict_run (mkEnv base10 false (ieee unfused libm_cos libm_sin) 0 false) 60 fibonacci
  (fun r => if (r =? 0)%nat then mkBN BN_POS [0; 5] else bn_default) never_fails 0%nat = Ret s n /\ s 1%nat = mkBN BN_POS [5; 2; 0; 9; 6; 2; 6; 8; 5; 2; 1] /\
  n = 73%nat.
Proof. eexists _, _. split; [vm_compute; reflexivity|]. split; reflexivity. Qed.
Example C66_refused : strict_run (mkEnv base10 false (ieee unfused libm_cos libm_sin) 0 false) 60 fibonacci
  (fun r => if (r =? 0)%nat then mkBN BN_POS [0; 5] else bn_default) (fun k => negb (k =? 40)%nat) 0%nat = Throw ExBadAlloc 41.
Proof. vm_compute. reflexivity. Qed.
