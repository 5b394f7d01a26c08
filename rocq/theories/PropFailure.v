(** * Properties C14, C37-C39: NaN and infinities on the left, failing allocations, binary operators, BN_DEBUG *)
From Verif Require Import Base Spec Limits AddSub Division Fourier Multiplication Bignum Machine Outcome Wp ValueProof
  CompareProof AddSubProof DivisionProof BignumProof OperatorProof DivOpProof FailProof PropAddSub.

(** ** C14 *)
Theorem C14_left_not_finite : forall L dbg P fuel x y, ~ finite x ->
  let r := Ret (mkBN (desc y) [], None) in
  forall al n,
  op_add_assign L dbg x (Other y) al n = r n /\ op_sub_assign L dbg x (Other y) al n = r n /\
  op_mul_assign L P fuel x (Other y) al n = r n /\ op_div_assign L dbg fuel x (Other y) al n = r n.
Proof.
  intros L dbg P fuel [[] v] y Fx; unfold finite in Fx; cbn [desc] in Fx; try tauto; repeat split.
Qed.
Print Assumptions C14_left_not_finite.

Theorem C14_left_not_finite_self : forall L dbg P fuel x, ~ finite x ->
  let r := Ret (mkBN (desc x) [], None) in
  forall al n,
  op_add_assign L dbg x Self al n = r n /\ op_sub_assign L dbg x Self al n = r n /\
  op_mul_assign L P fuel x Self al n = r n /\ op_div_assign L dbg fuel x Self al n = r n.
Proof.
  intros L dbg P fuel [[] v] Fx; unfold finite in Fx; cbn [desc] in Fx; try tauto; repeat split.
Qed.
Print Assumptions C14_left_not_finite_self.

(** NaN + 5 = 0 and -INF + 5 = 0: neither NaN, nor infinite, nor 5 *)
Example C14_cases : ~ finite (dec BN_NAN []) /\
  run (op_add base10 false (dec BN_NAN []) (dec BN_POS [5])) = Ret (dec BN_POS []) 1%nat /\
  run (op_add base10 false (dec BN_NEG_INF []) (dec BN_POS [5])) = Ret (dec BN_POS []) 1%nat.
Proof. unfold finite; cbn. repeat split. intros []; discriminate. Qed.

(** ** C37 *)

(** For every operand, in every state: a compound assignment returns normally only if every allocation it asked
    for was granted, and leaves through an exception at the first one that was refused; the exception is a
    std::exception, and *this is then an infinity without digits. *)
Theorem C37_add_assign : forall L x y al n, match op_add_assign L false x y al n with
  | Ret (_, None) n' => granted al n n'
  | Ret (z, Some e) n' => e = ExStd /\ z = infinity_for (adesc x y) /\ last_refused al n n'
  | Throw _ _ => False
  | Undef _ | NoFuel => True
  end.
Proof.
  intros L x y al n. pose proof (add_atomic L x y al n) as H.
  destruct (op_add_assign L false x y al n) as [[z [e|]] n'|e n'|u|]; tauto.
Qed.
Print Assumptions C37_add_assign.

Theorem C37_sub_assign : forall L x y al n, match op_sub_assign L false x y al n with
  | Ret (_, None) n' => granted al n n'
  | Ret (z, Some e) n' => e = ExStd /\ z = infinity_for (adesc x y) /\ last_refused al n n'
  | Throw _ _ => False
  | Undef _ | NoFuel => True
  end.
Proof.
  intros L x y al n. pose proof (sub_atomic L x y al n) as H.
  destruct (op_sub_assign L false x y al n) as [[z [e|]] n'|e n'|u|]; tauto.
Qed.
Print Assumptions C37_sub_assign.

Theorem C37_mul_assign : forall L P fuel x y al n, match op_mul_assign L P fuel x y al n with
  | Ret (_, None) n' => granted al n n'
  | Ret (z, Some e) n' => e = ExStd /\ z = infinity_for (adesc x y) /\ last_refused al n n'
  | Throw _ _ => False
  | Undef _ | NoFuel => True
  end.
Proof.
  intros L P fuel x y al n. pose proof (mul_atomic L P fuel x y al n) as H.
  destruct (op_mul_assign L P fuel x y al n) as [[z [e|]] n'|e n'|u|]; tauto.
Qed.
Print Assumptions C37_mul_assign.

(** x /= x overwrites its own descriptor with that of the quotient first, so for it the infinity is +INF. *)
Theorem C37_div_assign : forall L fuel x y al n, match op_div_assign L false fuel x y al n with
  | Ret (_, None) n' => granted al n n'
  | Ret (z, Some e) n' => e = ExStd /\ last_refused al n n' /\
      z = infinity_for (match y with Other num => desc num | Self => BN_POS end)
  | Throw _ _ => False
  | Undef _ | NoFuel => True
  end.
Proof.
  intros L fuel x y al n. pose proof (div_atomic L fuel x y al n) as H.
  destruct (op_div_assign L false fuel x y al n) as [[z [e|]] n'|e n'|u|]; try tauto.
  destruct H as (-> & -> & R). repeat split; auto. destruct y; auto. destruct (desc x); reflexivity.
Qed.
Print Assumptions C37_div_assign.

(** Only the target register changes, whatever happens. *)
Theorem C37_only_target_changes : forall E op r t s al n s' n',
  step E (IAssign op r t) s al n = Ret s' n' -> forall i, i <> r -> s' i = s i.
Proof.
  intros E op r t s al n s' n' H i Hi. cbn [step] in H. unfold bind in H.
  destruct (compound E op (s r) (operand s r t) al n) as [a m|e m|u|]; try discriminate.
  unfold ret in H. injection H as <- <-. unfold upd. apply Nat.eqb_neq in Hi. rewrite Hi. reflexivity.
Qed.
Print Assumptions C37_only_target_changes.

(** 99 + 1 with the growing allocation refused leaves +INF; 5 - 7 with the copy refused likewise *)
Example C37_cases :
  op_add_assign base10 false (dec BN_POS [9; 9]) (Other (dec BN_POS [1])) (fun _ => false) 0%nat =
    Ret (dec BN_POS_INF [], Some ExStd) 1%nat /\
  op_sub_assign base10 false (dec BN_NEG [5]) (Other (dec BN_NEG [7])) (fun _ => false) 0%nat =
    Ret (dec BN_NEG_INF [], Some ExStd) 1%nat.
Proof. split; reflexivity. Qed.

(** ** C38 *)
(** r = s op t: exactly the compound form applied to a copy; only r changes, and not even r if the operator
    throws (the copy itself may fail, with std::bad_alloc). *)
Theorem C38_binary_operators : forall E op r t u s al n,
  step E (IBinary op r t u) s al n =
  if al n then
    match compound E op (s t) (Other (s u)) al (S n) with
    | Ret (z, None) n' => Ret (upd s r z) n'
    | Ret (_, Some _) n' => Ret s n'
    | Throw _ n' => Ret s n'
    | Undef u => Undef u
    | NoFuel => NoFuel
    end
  else Ret s (S n).
Proof.
  intros E op r t u s al n. cbn [step]. unfold store, bind, attempt. rewrite binary_eq.
  destruct (al n); [|reflexivity].
  destruct (compound E op (s t) (Other (s u)) al (S n)) as [[z [e|]] n'|e n'|v|]; reflexivity.
Qed.
Print Assumptions C38_binary_operators.

Theorem C38_operands_unchanged : forall E op r t u s al n s' n',
  step E (IBinary op r t u) s al n = Ret s' n' -> forall i, i <> r -> s' i = s i.
Proof.
  intros E op r t u s al n s' n' H i Hi. rewrite C38_binary_operators in H.
  assert (forall z, upd s r z i = s i) as K.
  { intros z. unfold upd. apply Nat.eqb_neq in Hi. rewrite Hi. reflexivity. }
  destruct (al n); [|congruence].
  destruct (compound E op (s t) (Other (s u)) al (S n)) as [[z [e|]] m|e m|v|]; try discriminate;
    injection H as <- <-; auto.
Qed.
Print Assumptions C38_operands_unchanged.

(** Of the four operators in both builds: the copy of the left operand is the one allocation before the compound form. *)
Theorem C38_named_operators : forall L dbg P fuel x y (al : nat -> bool) (n : nat),
  let after (f : bignum -> arg -> M assigned) :=
    if al n then match f x (Other y) al (S n) with
                 | Ret (z, None) n' => Ret z n'
                 | Ret (_, Some e) n' => Throw e n'
                 | Throw e n' => Throw e n'
                 | Undef u => Undef u
                 | NoFuel => NoFuel
                 end
    else Throw ExBadAlloc (S n) in
  op_add L dbg x y al n = after (op_add_assign L dbg) /\ op_sub L dbg x y al n = after (op_sub_assign L dbg) /\
  op_mul L P fuel x y al n = after (op_mul_assign L P fuel) /\ op_div L dbg fuel x y al n = after (op_div_assign L dbg fuel).
Proof. intros L dbg P fuel x y al n after. repeat split; apply binary_eq. Qed.
Print Assumptions C38_named_operators.

(** 20 - 19 in a debug build: the exception of the compound form *)
Example C38_debug_case : run (op_sub base10 true (dec BN_POS [0; 2]) (dec BN_POS [9; 1])) = Throw ExStd 1%nat.
Proof. reflexivity. Qed.

(** ** C39 *)
Theorem C39_debug_same_or_throws : forall L fuel x y al n,
  (op_add_assign L true x y al n = op_add_assign L false x y al n \/
     exists n', op_add_assign L true x y al n = Ret (infinity_for (adesc x y), Some ExStd) n') /\
  (op_sub_assign L true x y al n = op_sub_assign L false x y al n \/
     exists n', op_sub_assign L true x y al n = Ret (infinity_for (adesc x y), Some ExStd) n') /\
  (op_div_assign L true fuel x y al n = op_div_assign L false fuel x y al n \/
     exists z n', op_div_assign L true fuel x y al n = Ret (z, Some ExStd) n').
Proof.
  intros L fuel x y al n. split; [exact (add_debug L x y al n)|]. split; [exact (sub_debug L x y al n)|].
  destruct (div_debug L fuel x y al n) as [H|(n' & H)]; [left; exact H|right; eauto].
Qed.
Print Assumptions C39_debug_same_or_throws.

(** When a same-sign subtraction throws: iff the smaller magnitude "looks greater" than the larger one. *)
Theorem C39_debug_subtraction : forall L x y al n, limits_ok L = true -> finite x -> desc x = desc y ->
  digits_ok (base L) (data x) -> digits_ok (base L) (data y) -> canonical (data x) -> canonical (data y) ->
  value (base L) (data y) <= value (base L) (data x) ->
  (looks_greater (data y) (data x) ->
     op_sub_assign L true x (Other y) al n = Ret (infinity_for (desc y), Some ExStd) n) /\
  (~ looks_greater (data y) (data x) ->
     op_sub_assign L true x (Other y) al n = op_sub_assign L false x (Other y) al n).
Proof.
  intros L x y al n HL Fx Ed Dx Dy Cx Cy Hv.
  rewrite (sub_debug_exact L x y al n HL Fx Ed Dx Dy Cx Cy Hv).
  unfold looks_greater. rewrite <- (gtb_iff (data y) (data x)).
  destruct (gtb (data y) (data x)); split; congruence.
Qed.
Print Assumptions C39_debug_subtraction.

Theorem C39_debug_subtraction_negative_result : forall L x y al n, limits_ok L = true -> finite x -> desc x = desc y ->
  digits_ok (base L) (data x) -> digits_ok (base L) (data y) -> canonical (data x) -> canonical (data y) ->
  value (base L) (data x) < value (base L) (data y) ->
  (looks_greater (data x) (data y) ->
     op_sub_assign L true x (Other y) al n = Ret (infinity_for (desc y), Some ExStd) (S n)) /\
  (~ looks_greater (data x) (data y) ->
     op_sub_assign L true x (Other y) al n = op_sub_assign L false x (Other y) al n).
Proof.
  intros L x y al n HL Fx Ed Dx Dy Cx Cy Hv.
  rewrite (sub_debug_exact_neg L x y al n HL Fx Ed Dx Dy Cx Cy Hv).
  unfold looks_greater. rewrite <- (gtb_iff (data x) (data y)).
  destruct (gtb (data x) (data y)); split; congruence.
Qed.
Print Assumptions C39_debug_subtraction_negative_result.

(** Additions: of the same sign never; of different signs as the subtraction of the magnitudes. *)
Theorem C39_debug_addition_same_sign : forall L x y al n, finite x -> adesc x y = desc x ->
  op_add_assign L true x y al n = op_add_assign L false x y al n.
Proof.
  intros L [dx vx] y al n Fx Ed. unfold op_add_assign. rewrite Ed. unfold finite in Fx. cbn [desc] in *.
  destruct Fx as [-> | ->]; reflexivity.
Qed.
Print Assumptions C39_debug_addition_same_sign.

Theorem C39_debug_addition : forall L x y al n, limits_ok L = true -> finite x -> finite y -> desc x <> desc y ->
  digits_ok (base L) (data x) -> digits_ok (base L) (data y) -> canonical (data x) -> canonical (data y) ->
  let small_looks_greater :=
    if value (base L) (data y) <=? value (base L) (data x) then looks_greater (data y) (data x) else looks_greater (data x) (data y) in
  (small_looks_greater -> exists n', op_add_assign L true x (Other y) al n = Ret (infinity_for (desc y), Some ExStd) n') /\
  (~ small_looks_greater -> op_add_assign L true x (Other y) al n = op_add_assign L false x (Other y) al n).
Proof.
  intros L x y al n HL Fx Fy Ed Dx Dy Cx Cy. cbv zeta.
  destruct (Z.leb_spec (value (base L) (data y)) (value (base L) (data x))) as [Hv|Hv].
  - rewrite (add_debug_exact L x y al n HL Fx Fy Ed Dx Dy Cx Cy Hv).
    unfold looks_greater. rewrite <- (gtb_iff (data y) (data x)). destruct (gtb (data y) (data x)); split; try congruence. eauto.
  - rewrite (add_debug_exact_neg L x y al n HL Fx Fy Ed Dx Dy Cx Cy Hv).
    unfold looks_greater. rewrite <- (gtb_iff (data x) (data y)). destruct (gtb (data x) (data y)); split; try congruence. eauto.
Qed.
Print Assumptions C39_debug_addition.

(** Subtractions of different signs (wrong in either build, C05) throw iff each magnitude looks greater than the other. *)
Theorem C39_debug_mixed_subtraction : forall L x y al n, finite x -> finite y -> desc x <> desc y ->
  (looks_greater (data x) (data y) /\ looks_greater (data y) (data x) ->
     op_sub_assign L true x (Other y) al n = Ret (infinity_for (desc y), Some ExStd) (S n)) /\
  (~ (looks_greater (data x) (data y) /\ looks_greater (data y) (data x)) ->
     op_sub_assign L true x (Other y) al n = op_sub_assign L false x (Other y) al n).
Proof.
  intros L x y al n Fx Fy Ed. rewrite (sub_debug_mixed L x y al n Fx Fy Ed).
  unfold looks_greater. rewrite <- (gtb_iff (data x) (data y)), <- (gtb_iff (data y) (data x)).
  destruct (gtb (data x) (data y)), (gtb (data y) (data x)); cbn [andb]; split; try tauto; intros H; try reflexivity;
    try (destruct H; discriminate).
Qed.
Print Assumptions C39_debug_mixed_subtraction.

(** 21 + -19 and 21 - -19 throw in a debug build; 29 + -11 does not *)
Example C39_mixed_cases :
  run (op_add_assign base10 true (dec BN_POS [1; 2]) (Other (dec BN_NEG [9; 1]))) = Ret (dec BN_NEG_INF [], Some ExStd) 0%nat /\
  run (op_sub_assign base10 true (dec BN_POS [1; 2]) (Other (dec BN_NEG [9; 1]))) = Ret (dec BN_NEG_INF [], Some ExStd) 1%nat /\
  run (op_add_assign base10 true (dec BN_POS [9; 2]) (Other (dec BN_NEG [1; 1]))) = Ret (dec BN_POS [8; 1], None) 0%nat.
Proof. repeat split. Qed.

(** 20 - 19 throws in a debug build and leaves +INF; in a release build it is 1 *)
Example C39_case :
  looks_greater [9; 1] [0; 2] /\ value 10 [9; 1] <= value 10 [0; 2] /\
  run (op_sub_assign base10 true (dec BN_POS [0; 2]) (Other (dec BN_POS [9; 1]))) =
    Ret (dec BN_POS_INF [], Some ExStd) 0%nat /\
  run (op_sub_assign base10 false (dec BN_POS [0; 2]) (Other (dec BN_POS [9; 1]))) =
    Ret (dec BN_POS [1], None) 0%nat.
Proof.
  split; [|split; [cbn; lia|split; reflexivity]].
  right. split; [reflexivity|]. exists 0%nat, 9, 0. repeat split; lia.
Qed.
