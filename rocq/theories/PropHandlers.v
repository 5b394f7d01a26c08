(** * C67: a handler around every statement and no handler at all, in release builds *)
From Verif Require Import Base Spec Limits Bignum Machine While Strict Outcome.
From Verif Require Import Fourier Ieee IeeeProof FailProof PropMul MemoryProof PropMemory EuclidProof PropEuclid HandlersProof.

Definition subscripts (p : stmt) : Prop := no_subscript p = false.

(** While memory lasts no statement of a release build throws but r[i] = d: the program runs the same with every statement in a
    handler and with no handler, whatever it does: arithmetic on any operands, containers, endless loops, undefined behaviour. *)
Theorem C67_handlers : forall E f p s n, eDbg E = false -> ~ subscripts p ->
  srun E f p s never_fails n = strict_run E f p s never_fails n.
Proof. intros E f p s n HE Hp. apply run_strict; [exact HE|]. unfold subscripts in Hp. destruct (no_subscript p); congruence. Qed.
Print Assumptions C67_handlers.

(** With any allocator the program without handlers does what the program with handlers does with unlimited memory, or ends with an
    exception at the first refused request: a fact about the handled program with unlimited memory is a fact about this one. *)
Theorem C67_transfer : forall E f p s al n, eDbg E = false -> ~ subscripts p ->
  strict_run E f p s al n = srun E f p s never_fails n \/
  exists e n', (e = ExStd \/ e = ExBadAlloc) /\ strict_run E f p s al n = Throw e n' /\ last_refused al n n'.
Proof.
  intros E f p s al n HE Hp. rewrite (C67_handlers E f p s n HE Hp). destruct (C66_programs E f p s al n) as [[H _]|H]; auto.
Qed.
Print Assumptions C67_transfer.

Lemma transfer_returns E f p s Q : eDbg E = false -> no_subscript p = true ->
  (forall n, exists s' n', srun E f p s never_fails n = Ret s' n' /\ Q s') -> returns (strict_run E f p s) Q.
Proof.
  intros HE Hp H al n. destruct (H n) as (s' & n' & K & HQ). rewrite (run_strict E HE f p s n Hp) in K.
  destruct (st_run E f p s al n) as [[-> G]|(e & k & He & -> & (j & -> & Hj & _ & F) & _)].
  - rewrite K in *. split; [exact HQ|apply G].
  - split; [exact He|]. exists j. split; [lia|exact F].
Qed.

(** ** Euclid's algorithm for every allocator *)

Theorem C67_euclid : forall ct cosf sinf L N m p a b, accurate cosf sinf -> In (L, N, m) safe_lengths -> can_double L = true ->
  1 <= p -> p <= m -> 0 < a < base L ^ p -> 0 < b < base L ^ p -> (a <> b \/ b = 1) ->
  exists enough : nat, forall fuel keep f s, (enough <= fuel)%nat -> (enough <= f)%nat ->
  is_nat (base L) (s 0%nat) a -> is_nat (base L) (s 1%nat) b ->
  returns (strict_run (mkEnv L false (ieee ct cosf sinf) fuel keep) f euclid s) (fun s' => is_nat (base L) (s' 0%nat) (Z.gcd a b)).
Proof.
  intros ct cosf sinf L N m p a b HA Hin HD Hp Hm Ha Hb Hne.
  destruct (C48_euclid ct cosf sinf L N m p a b HA Hin HD Hp Hm Ha Hb Hne) as [e K]. exists e.
  intros fuel keep f s H1 H2 H3 H4. apply transfer_returns; [reflexivity|reflexivity|]. intros n. apply K; auto.
Qed.
Print Assumptions C67_euclid.

Theorem C67_euclid_sub : forall L a b, can_double L = true -> 0 < a -> 0 < b ->
  exists enough : nat, forall P fuel keep f s, (enough <= f)%nat -> is_nat (base L) (s 0%nat) a -> is_nat (base L) (s 1%nat) b ->
  returns (strict_run (mkEnv L false P fuel keep) f (euclid_sub CGe) s)
    (fun s' => is_nat (base L) (s' 0%nat) (Z.gcd a b) /\ is_nat (base L) (s' 1%nat) (Z.gcd a b)).
Proof.
  intros L a b HD Ha Hb. destruct (C49_euclid_sub L a b HD Ha Hb) as [e K]. exists e.
  intros P fuel keep f s H1 H3 H4. apply transfer_returns; [reflexivity|reflexivity|]. intros n. apply K; auto.
Qed.
Print Assumptions C67_euclid_sub.

(** Two equal numbers above one: the division of Euclid's algorithm never ends, and only a refused request gets out of it. *)
Theorem C67_euclid_equal_refuted : forall ct cosf sinf L N m p a, accurate cosf sinf -> In (L, N, m) safe_lengths -> can_double L = true ->
  1 <= p -> p <= m -> 1 < a < base L ^ p ->
  exists enough : nat, forall fuel keep s, (enough <= fuel)%nat ->
  is_nat (base L) (s 0%nat) a -> is_nat (base L) (s 1%nat) a ->
  never_returns (fun f => strict_run (mkEnv L false (ieee ct cosf sinf) fuel keep) f euclid s).
Proof.
  intros ct cosf sinf L N m p a HA Hin HD Hp Hm Ha.
  destruct (C48_euclid_equal_refuted ct cosf sinf L N m p a HA Hin HD Hp Hm Ha) as [e K]. exists e.
  intros fuel keep s H1 H3 H4 f al n.
  destruct (C67_transfer (mkEnv L false (ieee ct cosf sinf) fuel keep) f euclid s al n eq_refl ltac:(discriminate)) as [->|(x & k & _ & -> & (j & -> & Hj & _ & F))].
  - rewrite K by auto. exact I.
  - exists j. split; [lia|exact F].
Qed.
Print Assumptions C67_euclid_equal_refuted.

(** The subscript is the exception: with a handler the program goes on, without one it ends. *)
Theorem C67_subscript_refuted : ~ forall E f p s n, eDbg E = false -> srun E f p s never_fails n = strict_run E f p s never_fails n.
Proof.
  intros H. specialize (H (mkEnv base10 false (ieee unfused libm_cos libm_sin) 5%nat false) 3%nat (Do (ISetDigit 0%nat 0%nat 7)) fresh 0%nat eq_refl).
  discriminate.
Qed.
Print Assumptions C67_subscript_refuted.

(** Non-vacuity: with memory both leave 21 in variable 2.  Without, the handled program passes over the copy, whose target stays
    empty, and completes; the other ends at the copy. *)
Definition add_then_copy : stmt := Seq (Do (IAssign OAdd 1%nat 0%nat)) (Do (ICopy 2%nat 1%nat)).
Definition two_numbers : regs := upd (upd fresh 0%nat (mkBN BN_POS [9])) 1%nat (mkBN BN_POS [2; 1]).
Definition plain_env : env := mkEnv base10 false (ieee unfused libm_cos libm_sin) 9%nat false.
Example C67_case :
  (exists s n, srun plain_env 3%nat add_then_copy two_numbers never_fails 0%nat = Ret s n /\
               strict_run plain_env 3%nat add_then_copy two_numbers never_fails 0%nat = Ret s n /\ s 2%nat = mkBN BN_POS [1; 2]) /\
  (exists n, strict_run plain_env 3%nat add_then_copy two_numbers (fun _ => false) 0%nat = Throw ExBadAlloc n) /\
  (exists s n, srun plain_env 3%nat add_then_copy two_numbers (fun _ => false) 0%nat = Ret s n /\ s 2%nat = mkBN BN_POS []).
Proof.
  split; [|split].
  - eexists _, _. split; [reflexivity|]. split; reflexivity.
  - eexists. reflexivity.
  - eexists _, _. split; reflexivity.
Qed.
