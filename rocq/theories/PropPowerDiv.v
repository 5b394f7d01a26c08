(** * Property C62: debug builds in bases that are powers of two *)
From Coq Require Import String.
From Verif Require Import Base Spec Limits Compare AddSub Division Fourier Bignum Outcome Compress Program CompressTest.
From Verif Require Import Wp ValueProof AddSubProof BignumProof DivOpProof FailProof DebugDivProof HistoryProof PowerDivProof CompressDebugProof ProgramProof.

(** In a base that is a power of two, dividing by a power of two is the same in a debug build: the check that rejects valid
    operands (C54) is never tripped.  The dividend may have superfluous zeros and digits that are too big; the fuel and the
    allocator are arbitrary. *)
Theorem C62_division : forall L e fuel x y t, can_double L = true -> 1 <= e -> base L = 2 ^ e ->
  Forall (fun d => 0 <= d) (data x) ->
  digits_ok (base L) (data y) -> canonical (data y) -> 0 <= t -> value (base L) (data y) = 2 ^ t ->
  forall al n, op_div_assign L true fuel x (Other y) al n = op_div_assign L false fuel x (Other y) al n.
Proof.
  intros L e fuel x y t HD He HB Hx Dy Cy Ht Vy. apply (div_power_same L HD e He HB fuel x y Hx).
  split; [exact Dy|]. split; [exact Cy|]. exists t. auto.
Qed.
Print Assumptions C62_division.

(** Both conditions matter: in base 10 the division 30 / 4 is rejected, in base 256 the division 512 / 3. *)
Theorem C62_other_base_refuted : ~ forall L fuel x y t, can_double L = true -> Forall (fun d => 0 <= d) (data x) ->
  digits_ok (base L) (data y) -> canonical (data y) -> 0 <= t -> value (base L) (data y) = 2 ^ t ->
  forall al n, op_div_assign L true fuel x (Other y) al n = op_div_assign L false fuel x (Other y) al n.
Proof.
  intros H. specialize (H base10 20%nat (mkBN BN_POS [0; 3]) (mkBN BN_POS [4]) 2 eq_refl ltac:(repeat constructor; lia)
    ltac:(repeat constructor; cbn; lia) ltac:(unfold canonical; cbn; lia) ltac:(lia) eq_refl never_fails 0%nat).
  vm_compute in H. discriminate.
Qed.
Print Assumptions C62_other_base_refuted.

Theorem C62_other_divisor_refuted : ~ forall L e fuel x y, can_double L = true -> 1 <= e -> base L = 2 ^ e ->
  Forall (fun d => 0 <= d) (data x) -> digits_ok (base L) (data y) -> canonical (data y) ->
  forall al n, op_div_assign L true fuel x (Other y) al n = op_div_assign L false fuel x (Other y) al n.
Proof.
  intros H. specialize (H base256 8 20%nat (mkBN BN_POS [0; 2]) (mkBN BN_POS [3]) eq_refl ltac:(lia) eq_refl ltac:(repeat constructor; lia)
    ltac:(repeat constructor; cbn; lia) ltac:(unfold canonical; cbn; lia) never_fails 0%nat).
  vm_compute in H. discriminate.
Qed.
Print Assumptions C62_other_divisor_refuted.

(** The compression test is the same program in both builds, whatever floating-point arithmetic it runs on, whichever files it
    reads and whether or not memory runs out. *)
Theorem C62_compression_test : forall char_signed P fuel files test_file args al n,
  compress_main true char_signed P fuel files test_file args al n = compress_main false char_signed P fuel files test_file args al n.
Proof.
  intros cs P fuel files tf args al n.
  assert (forall f, wsame (one_file true cs P fuel files f) (one_file false cs P fuel files f)) as H1.
  { intros f. apply wsame_bind; [apply wsame_refl|]. intros d. apply wsame_bind; [apply wsame_refl|]. intros _. cbv zeta.
    apply wsame_bind.
    - apply wsame_bind; [apply wsame_refl|]. intros _. apply wsame_bind; [apply wsame_refl|]. intros _.
      apply wsame_bind; [apply wsame_quiet, compress_same|]. intros c. apply wsame_refl.
    - intros c. do 3 (apply wsame_bind; [apply wsame_refl|]; intros _).
      apply wsame_bind; [apply wsame_quiet, decompressed_same|]. intros x. apply wsame_refl. }
  assert (forall l, wsame (treat true cs P fuel files l) (treat false cs P fuel files l)) as H2.
  { intros l. do 2 (apply wsame_bind; [apply wsame_refl|]; intros _). apply wsame_bind; [|intros _; apply wsame_refl].
    induction l as [|f r IH]; cbn [each_file]; [apply wsame_refl|]. apply wsame_bind; [apply H1|]. intros _. exact IH. }
  assert (wsame (compress_body true cs P fuel files tf args) (compress_body false cs P fuel files tf args)) as H3.
  { apply wsame_bind; [apply wsame_refl|]. intros _. destruct args as [|a r]; [|apply H2].
    destruct tf as [f|]; [|apply wsame_refl]. do 2 (apply wsame_bind; [apply wsame_refl|]; intros _). apply H2. }
  unfold compress_main. rewrite H3. reflexivity.
Qed.
Print Assumptions C62_compression_test.

(** A division with a superfluous zero, as compress makes it: 0x00C8 0x48 by 2. *)
Example C62_case : base base256 = 2 ^ 8 /\
  exists n, run (op_div_assign base256 true 60 (mkBN BN_POS [72; 200; 0]) (Other (mkBN BN_POS [2]))) = Ret (mkBN BN_POS [36; 100], None) n.
Proof. split; [reflexivity|]. eexists. vm_compute. reflexivity. Qed.
