(** * Property C54: division in a debug build *)
From Verif Require Import Base Spec Limits Compare AddSub Division Bignum Outcome Wp ValueProof AddSubProof DivisionProof BignumProof DivOpProof FailProof DebugDivProof.

(** [rejected] (Spec.v): in the division by repeated subtraction of the largest y 2^k that fits, some y 2^k has as many digits
    as the remainder it is subtracted from, and a digit greater than the remainder's.  Then the debug build throws, whatever
    the allocator does, and *this is an infinity; otherwise it does exactly what the release build does. *)
Theorem C54_debug_division : forall L fuel x y, can_double L = true -> good (base L) x -> good (base L) y ->
  canonical (data y) -> 1 < value (base L) (data y) -> enough_fuel (value (base L) (data x)) fuel ->
  (rejected (base L) (value (base L) (data y)) (value (base L) (data x)) ->
     forall al n, exists n', op_div_assign L true fuel x (Other y) al n = Ret (infinity_for (desc y), Some ExStd) n') /\
  (~ rejected (base L) (value (base L) (data y)) (value (base L) (data x)) ->
     forall al n, op_div_assign L true fuel x (Other y) al n = op_div_assign L false fuel x (Other y) al n).
Proof. intros L fuel x y HD. exact (div_debug_exact L HD fuel x y). Qed.
Print Assumptions C54_debug_division.

(** one-digit dividends are never rejected *)
Theorem C54_one_digit : forall L fuel x y, can_double L = true -> good (base L) x -> good (base L) y ->
  canonical (data y) -> 1 < value (base L) (data y) -> value (base L) (data x) < base L ->
  enough_fuel (value (base L) (data x)) fuel ->
  forall al n, op_div_assign L true fuel x (Other y) al n = op_div_assign L false fuel x (Other y) al n.
Proof.
  intros L fuel x y HD Gx Gy Cy Hy Hx Hf. apply (div_debug_exact L HD fuel x y Gx Gy Cy Hy Hf).
  apply (rejected_one_digit L HD); [lia|]. split; [|exact Hx].
  assert (2 <= base L) as HB by (apply can_double_facts in HD; destruct HD as [HD _]; apply (limits_ok_facts L HD)).
  apply (value_bounds (base L) HB _ (proj1 (proj2 Gx))).
Qed.
Print Assumptions C54_one_digit.

(** "a debug build differs only in its checks of wrong uses": no, 30 / 4 throws *)
Theorem C54_valid_division_refuted : ~ forall L fuel x y, can_double L = true -> good (base L) x -> good (base L) y ->
  canonical (data y) -> 1 < value (base L) (data y) < value (base L) (data x) -> enough_fuel (value (base L) (data x)) fuel ->
  assigns (op_div_assign L true fuel x (Other y)) (fun _ => True) (infinity_for (desc y)).
Proof.
  intros H. specialize (H base10 20%nat (mkBN BN_POS [0; 3]) (mkBN BN_POS [4]) eq_refl).
  specialize (H ltac:(split; [left; reflexivity|split; [repeat constructor; cbn; lia|left; unfold canonical; cbn; lia]])).
  specialize (H ltac:(split; [left; reflexivity|split; [repeat constructor; cbn; lia|left; unfold canonical; cbn; lia]])).
  specialize (H ltac:(unfold canonical; cbn; lia) ltac:(cbn; lia) ltac:(vm_compute; discriminate) never_fails 0%nat).
  vm_compute in H. destruct H as (_ & _ & k & _ & K). discriminate.
Qed.
Print Assumptions C54_valid_division_refuted.

Example C54_rejected : rejected 10 4 30 /\
  exists n, run (op_div_assign base10 true 20 (mkBN BN_POS [0; 3]) (Other (mkBN BN_NEG [4]))) = Ret (mkBN BN_NEG_INF [], Some ExStd) n.
Proof.
  split; [|eexists; vm_compute; reflexivity].
  apply (rejected_now 10 4 30 2); [lia|cbn; lia|]. exists 1, 0. cbn. lia.
Qed.
Example C54_accepted : ~ rejected 10 4 12 /\
  exists n, run (op_div_assign base10 true 20 (mkBN BN_POS [2; 1]) (Other (mkBN BN_POS [4]))) = Ret (mkBN BN_POS [3], None) n.
Proof.
  split; [|eexists; vm_compute; reflexivity].
  rewrite (rejected_step 10 4 12 1) by (cbn; lia). intros [(n & i & Hn & Hi & H1 & H2 & _)|R].
  - assert (n < 1) by (apply (Z.pow_lt_mono_r_iff 10); cbn in *; lia). assert (n = 0) by lia. subst n. cbn in H2. lia.
  - revert R. apply (rejected_one_digit base10 eq_refl); cbn; lia.
Qed.
