(** * Property C71: clients with several threads *)
From Verif Require Import Base Spec Limits Bignum Machine While Strict Threads Outcome.
From Verif Require BignumProof.
From Verif Require Import Fourier Ieee IeeeProof HistoryProof FailProof MemoryProof PropMul PropHistory PropProgram EuclidProof PropLoop PropMemory UniformProof ThreadsProof.

(** the threads at the start and at the end *)
Definition started (ps : list stmt) : list thread := map (fun p => [p]) ps.
Definition ended (ts : list thread) : Prop := Forall (fun t => t = []) ts.

(** Threads may share variables that none of them writes.  Then every schedule that runs all threads to their ends, with any
    allocator, leaves in the variables each thread uses what that thread leaves there alone with unlimited memory, and
    everything else is as it was.  For all programs, number types, builds and floating-point arithmetics, whether or not the
    programs are ones the library computes right. *)
Theorem C71_schedules : forall E ps schedule s al n ts' s' n', independent ps ->
  interleaved E schedule (started ps) s al n = Ret (ts', s') n' -> ended ts' ->
  (forall i p, nth_error ps i = Some p -> exists f si k, strict_run E f p s never_fails 0%nat = Ret si k /\
     forall r, In r (uses p) -> s' r = si r) /\
  (forall r, (forall p, In p ps -> ~ In r (writes p)) -> s' r = s r).
Proof.
  intros E ps q s al n ts' s' n' HI H HE. pose proof (independent_separated ps HI) as HK.
  destruct (schedule_steps E al _ q (started ps) s n ts' s' n' HK H) as (A & B & C). split.
  - intros i p Hp. assert (nth_error (started ps) i = Some [p]) as Hi by (unfold started; rewrite nth_error_map, Hp; reflexivity).
    destruct (B i [p] Hi) as (t' & Ht'). destruct (A i t' Ht') as (t & m & si & Ht & St & Ag). rewrite Hi in Ht. injection Ht as <-.
    unfold ended in HE. rewrite Forall_forall in HE. rewrite (HE t' (nth_error_In _ _ Ht')) in St.
    destruct (steps_gives E m p s si St) as (f & G). destruct (G 0%nat) as (k & Hk). exists f, si, k. split; [exact Hk|].
    intros r Hr. symmetry. apply Ag. eauto.
  - intros r Hr. apply C. intros i t Ht. unfold started in Ht. rewrite nth_error_map in Ht.
    destruct (nth_error ps i) as [p|] eqn:Ep; [|discriminate]. cbn in Ht. injection Ht as <-. intros (p' & [<-|[]] & Hw).
    exact (Hr p (nth_error_In _ _ Ep) Hw).
Qed.
Print Assumptions C71_schedules.

(** If every thread alone completes, then with unlimited memory no schedule ends with an exception or in undefined behaviour, and
    there is a number of turns after which every thread has ended, whatever the schedule. *)
Theorem C71_completes : forall E ps s, independent ps ->
  (forall p, In p ps -> exists f si k, strict_run E f p s never_fails 0%nat = Ret si k) ->
  exists enough : nat, forall schedule n, exists ts' s' n',
    interleaved E schedule (started ps) s never_fails n = Ret (ts', s') n' /\
    ((forall i, (i < length ps)%nat -> (enough <= turns i schedule)%nat) -> ended ts').
Proof.
  intros E ps s HI HC. pose proof (independent_separated ps HI) as HK.
  assert (exists fin m, forall i t, nth_error (started ps) i = Some t -> steps E (m i) t s [] (fin i)) as (fin & m & HS).
  { assert (forall l : list stmt, (forall p, In p l -> exists f si k, strict_run E f p s never_fails 0%nat = Ret si k) ->
      exists fin m, forall i t, nth_error (started l) i = Some t -> steps E (m i) t s [] (fin i)) as G; [|exact (G ps HC)].
    induction l as [|p l IH]; intros Hl.
    - exists (fun _ => s), (fun _ => 0%nat). intros [|i] t Ht; discriminate.
    - destruct (IH (fun q Hq => Hl q (or_intror Hq))) as (fin & m & H). destruct (Hl p (or_introl eq_refl)) as (f & si & k & Hp).
      destruct (run_steps E f p s 0%nat si k Hp []) as (m0 & S0).
      exists (fun i => match i with O => si | S i => fin i end), (fun i => match i with O => m0 | S i => m i end).
      intros [|i] t Ht; cbn in Ht; [injection Ht as <-; exact S0|apply H, Ht]. }
  exists (list_max (map m (seq 0 (length ps)))). intros q n.
  destruct (schedule_progress E _ q (started ps) s n m fin HK) as (ts' & s' & n' & H1 & H2).
  { intros i t Ht. exists s. split; [intros r _; reflexivity|]. apply HS, Ht. }
  exists ts', s', n'. split; [exact H1|]. intros HT. destruct (schedule_steps E never_fails _ q _ s n ts' s' n' HK H1) as (A & _ & _).
  apply Forall_forall. intros t' Ht'. destruct (In_nth_error _ _ Ht') as (i & Hi).
  destruct (A i t' Hi) as (t & _ & _ & Ht & _). destruct (H2 i t' Hi) as (si & _ & St).
  assert (i < length ps)%nat as Hlt. { assert (i < length (started ps))%nat as Hl by (apply nth_error_Some; intros Hnone; unfold started in Hnone; rewrite Ht in Hnone; discriminate). unfold started in Hl. rewrite map_length in Hl. exact Hl. }
  assert (m i <= list_max (map m (seq 0 (length ps))))%nat as Hm.
  { pose proof (list_max_le (map m (seq 0 (length ps))) (list_max (map m (seq 0 (length ps))))) as (L1 & _). specialize (L1 (le_n _)).
    rewrite Forall_forall in L1. apply L1, in_map, in_seq. lia. }
  specialize (HT i Hlt). replace (m i - turns i q)%nat with 0%nat in St by lia. inversion St; reflexivity.
Qed.
Print Assumptions C71_completes.

(** Any allocator: a schedule goes as with unlimited memory, all its requests being granted, or an exception leaves one of the threads
    at the first request that is refused. *)
Theorem C71_memory : forall E ps schedule s al n,
  (interleaved E schedule (started ps) s al n = interleaved E schedule (started ps) s never_fails n /\
   match interleaved E schedule (started ps) s never_fails n with Ret _ n' | Throw _ n' => granted al n n' | Undef _ | NoFuel => True end) \/
  exists e n', (e = ExStd \/ e = ExBadAlloc) /\ interleaved E schedule (started ps) s al n = Throw e n' /\ last_refused al n n'.
Proof.
  intros E ps q s al n. destruct (st_interleaved E q (started ps) s al n) as [[H K]|(e & n' & He & H & R & _)]; [left|right; exists e, n'; auto].
  split; [exact H|]. unfold counted in K. destruct (interleaved E q (started ps) s never_fails n); tauto.
Qed.
Print Assumptions C71_memory.

(** Threads over natural numbers (the programs of C50), in release builds, with IEEE arithmetic: every schedule that runs them all to
    their ends, with any allocator, leaves the right number in every variable; and with unlimited memory every schedule that gives
    each of them enough turns does so. *)
Theorem C71_numbers : forall ct cosf sinf L N m ps v v', accurate cosf sinf -> In (L, N, m) safe_lengths -> can_double L = true ->
  independent ps -> (forall i p, nth_error ps i = Some p -> nat_run (base L) N m p v (v' i)) ->
  exists enough : nat, forall fuel keep s, (enough <= fuel)%nat -> stores (base L) s v ->
    let E := mkEnv L false (ieee ct cosf sinf) fuel keep in
    (forall schedule al n ts' s' n', interleaved E schedule (started ps) s al n = Ret (ts', s') n' -> ended ts' ->
       (forall i p r, nth_error ps i = Some p -> In r (uses p) -> stores_at (base L) s' (v' i) r) /\
       (forall r, (forall p, In p ps -> ~ In r (writes p)) -> stores_at (base L) s' v r)) /\
    exists turns_needed : nat, forall schedule n, exists ts' s' n',
      interleaved E schedule (started ps) s never_fails n = Ret (ts', s') n' /\
      ((forall i, (i < length ps)%nat -> (turns_needed <= turns i schedule)%nat) -> ended ts').
Proof.
  intros ct cosf sinf L N m ps v v' HA Hin HD HI HN.
  assert (exists enough : nat, forall i p, nth_error ps i = Some p -> forall fuel keep f s, (enough <= fuel)%nat -> (enough <= f)%nat -> stores (base L) s v ->
    returns (strict_run (mkEnv L false (ieee ct cosf sinf) fuel keep) f p s) (fun s' => stores (base L) s' (v' i))) as (enough & HR).
  { clear HI. revert v' HN. induction ps as [|p ps IH]; intros v' HN.
    - exists 0%nat. intros [|i] q Hq; discriminate.
    - destruct (IH (fun i => v' (S i)) (fun i q Hq => HN (S i) q Hq)) as (e & He).
      destruct (C66_structured_programs ct cosf sinf L N m p v (v' 0%nat) HA Hin HD (HN 0%nat p eq_refl)) as (e0 & He0).
      exists (Nat.max e e0). intros [|i] q Hq fuel keep f s H1 H2 Hs; cbn in Hq; [injection Hq as <-; apply He0; auto; lia|].
      apply (He i q Hq); auto; lia. }
  exists enough. intros fuel keep s Hf Hs E.
  assert (forall i p, nth_error ps i = Some p -> exists si k, strict_run E enough p s never_fails 0%nat = Ret si k /\ stores (base L) si (v' i)) as HU.
  { intros i p Hp. pose proof (HR i p Hp fuel keep enough s Hf (le_n _) Hs never_fails 0%nat) as HG. fold E in HG.
    destruct (strict_run E enough p s never_fails 0%nat) as [si k|e k|u|]; try contradiction.
    - exists si, k. split; [reflexivity|apply HG].
    - destruct HG as (_ & j & _ & F). discriminate. }
  split.
  - intros q al n ts' s' n' H HE. destruct (C71_schedules E ps q s al n ts' s' n' HI H HE) as (A & B). split.
    + intros i p r Hp Hr. destruct (A i p Hp) as (f & si & k & E1 & S1). destruct (HU i p Hp) as (sj & k' & E2 & S2).
      assert (si = sj) as ->.
      { pose proof (run_more E never_fails f p s 0%nat ltac:(congruence) (Nat.max f enough) ltac:(lia)) as M1.
        pose proof (run_more E never_fails enough p s 0%nat ltac:(congruence) (Nat.max f enough) ltac:(lia)) as M2. congruence. }
      unfold stores_at. rewrite (S1 r Hr). apply S2.
    + intros r Hr. unfold stores_at. rewrite (B r Hr). apply Hs.
  - apply (C71_completes E ps s HI). intros p Hp. destruct (In_nth_error _ _ Hp) as (i & Hi). destruct (HU i p Hi) as (si & k & E1 & _). eauto.
Qed.
Print Assumptions C71_numbers.

(** Without independence the outcome depends on the schedule: r0 += r1 and r1 += r0. *)
Theorem C71_dependent_refuted : ~ forall E ps q1 q2 s ts1 s1 n1 ts2 s2 n2,
  interleaved E q1 (started ps) s never_fails 0%nat = Ret (ts1, s1) n1 -> ended ts1 ->
  interleaved E q2 (started ps) s never_fails 0%nat = Ret (ts2, s2) n2 -> ended ts2 -> forall r, s1 r = s2 r.
Proof.
  intros H.
  set (E := mkEnv base10 false (mkFlops Z (fun z => z) Z.add Z.sub Z.mul Z.div (fun _ a b c d => a) (fun _ a b c d => a) (fun _ => false)
    (fun _ a b c d => (a, b)) Z.opp (fun z => z) (fun z => z) (fun z => z) Some (fun _ _ => 0) 0 0) 1 false).
  specialize (H E [Do (IAssign OAdd 0 1); Do (IAssign OAdd 1 0)] [0%nat; 1%nat] [1%nat; 0%nat]
    (fun r => match r with 0%nat => mkBN BN_POS [1] | _ => mkBN BN_POS [2] end)).
  specialize (H _ _ _ _ _ _ eq_refl ltac:(repeat constructor) eq_refl ltac:(repeat constructor) 0%nat). vm_compute in H. discriminate.
Qed.
Print Assumptions C71_dependent_refuted.

(** A sum and a loop of subtractions that share a number. *)
Definition two_threads : list stmt :=
  [Do (IBinary OAdd 2 0 1); While CGe 3 0 (Do (IAssign OSub 3 0))].

Example C71_cases :
  independent two_threads /\
  (forall P, let E := mkEnv base10 false P 1%nat false in
   let s := fun r => match r with 0%nat => mkBN BN_POS [5] | 1%nat => mkBN BN_POS [7] | 3%nat => mkBN BN_POS [2; 1] | _ => bn_default end in
   exists ts' s' n', interleaved E [1; 0; 1; 1; 1; 1; 0]%nat (started two_threads) s never_fails 0%nat = Ret (ts', s') n' /\ ended ts' /\
     s' 2%nat = mkBN BN_POS [2; 1] /\ s' 3%nat = mkBN BN_POS [2] /\ s' 0%nat = mkBN BN_POS [5]).
Proof.
  split.
  - intros [|[|i]] [|[|j]] p q r Hne Hp Hq Hw; try congruence; cbn in Hp, Hq; try (destruct i; discriminate); try (destruct j; discriminate);
      injection Hp as <-; injection Hq as <-; cbn in Hw |- *; lia.
  - intros P E s. do 3 eexists. split; [reflexivity|]. split; [repeat constructor|]. repeat split; reflexivity.
Qed.

Example C71_numbers_case : forall N m,
  let v := mkNS (fun r => match r with 0%nat => 5 | 1%nat => 7 | 3%nat => 12 | _ => 0 end) (fun _ => true) in
  exists v0 v1, (forall i p, nth_error two_threads i = Some p -> nat_run 10 N m p v (match i with O => v0 | _ => v1 end)) /\
    val v0 2%nat = 12 /\ val v1 3%nat = 2.
Proof.
  intros N m v.
  assert (exists v0, nat_run 10 N m (Do (IBinary OAdd 2 0 1)) v v0 /\ val v0 2%nat = 12) as (v0 & H0 & V0).
  { eexists. split; [apply NDo; cbn; exists 12, false; repeat split|]. reflexivity. }
  assert (exists v1, nat_run 10 N m (While CGe 3 0 (Do (IAssign OSub 3 0))) v v1 /\ val v1 3%nat = 2) as (v1 & H1 & V1).
  { eexists. split.
    - eapply NAgain; [repeat split; left; cbn; lia|apply NDo; cbn; exists 7, true; repeat split; lia|].
      eapply NAgain; [repeat split; left; cbn; lia|apply NDo; cbn; exists 2, true; repeat split; lia|].
      apply NStop. repeat split; left; cbn; lia.
    - reflexivity. }
  exists v0, v1. split; [|auto]. intros [|[|i]] p Hp; cbn in Hp; try (destruct i; discriminate); injection Hp as <-; assumption.
Qed.
