(** * Properties C01-C07: addition and subtraction

    Everything here is for the release build ([false] = BN_DEBUG not defined; see C39 in PropFailure.v) and for every
    limits record that passes [limits_ok]; C41_shipped_limits (PropObject.v) says all shipped types do. *)
From Verif Require Import Base Spec Limits AddSub Bignum Outcome BignumProof OperatorProof.

(** Small numbers used in the examples: n written in base 10. *)
Definition dec (d : bn_desc_t) (digits : list Z) : bignum := mkBN d digits.

(** ** C01 *)
Theorem C01_add_assign : forall L x y, limits_ok L = true ->
  good (base L) x -> good (base L) y ->
  (desc x = desc y \/ data x <> [] \/ data y <> []) ->
  assigns (op_add_assign L false x (Other y))
    (fun z => good (base L) z /\ signed_value (base L) z = signed_value (base L) x + signed_value (base L) y)
    (infinity_for (desc y)).
Proof. intros L x y HL. exact (add_assign_other L HL x y). Qed.
Print Assumptions C01_add_assign.

Theorem C01_add : forall L x y, limits_ok L = true ->
  good (base L) x -> good (base L) y ->
  (desc x = desc y \/ data x <> [] \/ data y <> []) ->
  returns (op_add L false x y)
    (fun z => good (base L) z /\ signed_value (base L) z = signed_value (base L) x + signed_value (base L) y).
Proof. intros L x y HL Gx Gy Hn. exact (binary_returns _ _ _ _ _ (add_assign_other L HL x y Gx Gy Hn)). Qed.
Print Assumptions C01_add.

(** 95 + (-1995) = -1900: the hypotheses hold, and the call evaluates to the stated result. *)
Example C01_case :
  good 10 (dec BN_POS [5; 9]) /\ good 10 (dec BN_NEG [5; 9; 9; 1]) /\
  run (op_add base10 false (dec BN_POS [5; 9]) (dec BN_NEG [5; 9; 9; 1])) = Ret (dec BN_NEG [0; 0; 9; 1]) 2%nat.
Proof.
  unfold good, finite, digits_ok, weak_canonical, canonical; cbn.
  repeat split; auto; try (repeat constructor; lia); left; lia.
Qed.

(** ** C02 *)
Theorem C02_add_to_itself : forall L x, limits_ok L = true -> good (base L) x ->
  assigns (op_add_assign L false x Self)
    (fun z => good (base L) z /\ desc z = desc x /\ signed_value (base L) z = 2 * signed_value (base L) x)
    (infinity_for (desc x)).
Proof. intros L x HL. exact (add_assign_self L HL x). Qed.
Print Assumptions C02_add_to_itself.

(** 99 += 99 makes the buffer grow while it is being read *)
Example C02_case : good 10 (dec BN_NEG [9; 9]) /\
  run (op_add_assign base10 false (dec BN_NEG [9; 9]) Self) = Ret (dec BN_NEG [8; 9; 1], None) 1%nat.
Proof.
  unfold good, finite, digits_ok, weak_canonical, canonical; cbn.
  repeat split; auto; try (repeat constructor; lia); left; lia.
Qed.

(** ** C03 *)
Theorem C03_sub_assign : forall L x y, limits_ok L = true ->
  good (base L) x -> good (base L) y -> desc x = desc y -> (data x <> [] \/ data y <> []) ->
  assigns (op_sub_assign L false x (Other y))
    (fun z => good (base L) z /\ canonical (data z) /\
       signed_value (base L) z = signed_value (base L) x - signed_value (base L) y)
    (infinity_for (desc y)).
Proof. intros L x y HL. exact (sub_assign_same_sign L HL x y). Qed.
Print Assumptions C03_sub_assign.

Theorem C03_sub : forall L x y, limits_ok L = true ->
  good (base L) x -> good (base L) y -> desc x = desc y -> (data x <> [] \/ data y <> []) ->
  returns (op_sub L false x y)
    (fun z => good (base L) z /\ canonical (data z) /\
       signed_value (base L) z = signed_value (base L) x - signed_value (base L) y).
Proof.
  intros L x y HL Gx Gy Hd Hn. exact (binary_returns _ _ _ _ _ (sub_assign_same_sign L HL x y Gx Gy Hd Hn)).
Qed.
Print Assumptions C03_sub.

(** In place, with the object as its own argument. *)
Theorem C03_sub_from_itself : forall L x, limits_ok L = true ->
  finite x -> digits_ok (base L) (data x) -> data x <> [] ->
  assigns (op_sub_assign L false x Self) (fun z => z = mkBN (desc x) []) (infinity_for (desc x)).
Proof. intros L x HL. exact (sub_assign_self L HL x). Qed.
Print Assumptions C03_sub_from_itself.

(** 1000 - 1999 = -999: borrow through zeros, and the high-order zero is dropped *)
Example C03_case : good 10 (dec BN_POS [0; 0; 0; 1]) /\ good 10 (dec BN_POS [9; 9; 9; 1]) /\
  run (op_sub base10 false (dec BN_POS [0; 0; 0; 1]) (dec BN_POS [9; 9; 9; 1])) = Ret (dec BN_NEG [9; 9; 9]) 2%nat.
Proof.
  unfold good, finite, digits_ok, weak_canonical, canonical; cbn.
  repeat split; auto; try (repeat constructor; lia); left; lia.
Qed.

(** ** C04 *)

(** The digit-less pairs: undefined behaviour. *)
Theorem C04_add_digitless_undefined : forall L dx dy,
  (dx = BN_POS /\ dy = BN_NEG \/ dx = BN_NEG /\ dy = BN_POS) ->
  is_undefined (op_add_assign L false (mkBN dx []) (Other (mkBN dy []))) UB_index.
Proof. intros L dx dy. exact (add_assign_nil L dx dy). Qed.
Print Assumptions C04_add_digitless_undefined.

Theorem C04_sub_digitless_undefined : forall L d, (d = BN_POS \/ d = BN_NEG) ->
  is_undefined (op_sub_assign L false (mkBN d []) (Other (mkBN d []))) UB_index /\
  is_undefined (op_sub_assign L false (mkBN d []) Self) UB_index.
Proof. intros L d Hd. exact (conj (sub_assign_nil_same L d Hd) (sub_assign_self_nil L d Hd)). Qed.
Print Assumptions C04_sub_digitless_undefined.

(** (the copy at bn_type_impl.h:551/557 comes first; only its failure can prevent the access) *)
Theorem C04_sub_digitless_undefined_mixed : forall L dx dy al n,
  (dx = BN_POS /\ dy = BN_NEG \/ dx = BN_NEG /\ dy = BN_POS) ->
  op_sub_assign L false (mkBN dx []) (Other (mkBN dy [])) al n =
  if al n then Undef UB_index else Ret (infinity_for dy, Some ExStd) (S n).
Proof. intros L dx dy al n. exact (sub_assign_nil_mixed L dx dy al n). Qed.
Print Assumptions C04_sub_digitless_undefined_mixed.

(** Every other pair of finite operands, with any digits at all: no undefined behaviour, no endless loop. *)
Theorem C04_add_otherwise_defined : forall L x y, limits_ok L = true -> finite x -> finite y ->
  (desc x = desc y \/ data x <> [] \/ data y <> []) ->
  assigns (op_add_assign L false x (Other y)) (fun _ => True) (infinity_for (desc y)).
Proof. intros L x y HL. exact (add_assign_total L HL x y). Qed.
Print Assumptions C04_add_otherwise_defined.

Theorem C04_sub_otherwise_defined : forall L x y, limits_ok L = true -> finite x -> finite y ->
  (data x <> [] \/ data y <> []) ->
  assigns (op_sub_assign L false x (Other y)) (fun _ => True) (infinity_for (desc y)).
Proof. intros L x y HL. exact (sub_assign_total L HL x y). Qed.
Print Assumptions C04_sub_otherwise_defined.

Theorem C04_sub_self_otherwise_defined : forall L x, limits_ok L = true -> finite x -> data x <> [] ->
  assigns (op_sub_assign L false x Self) (fun _ => True) (infinity_for (desc x)).
Proof. intros L x HL. exact (sub_assign_self_total L HL x). Qed.
Print Assumptions C04_sub_self_otherwise_defined.

(** A digit-less zero is what a user gets by writing zero: Bignum(BN_POS, {0}) - Bignum(BN_POS, {0}). *)
Example C04_case :
  run (z <- bn_make base10 BN_POS [0] ;; op_sub base10 false z z) = Undef UB_index.
Proof. reflexivity. Qed.

(** ** C05 *)

(** What "x > y" computes for two positive numbers of these digits (see C10). *)
Definition looks_greater (a b : list Z) : Prop :=
  (length b < length a)%nat \/
  (length a = length b /\ exists i p q, nth_error a i = Some p /\ nth_error b i = Some q /\ q < p).

Theorem C05_mixed_sign_sub : forall L x y, limits_ok L = true ->
  good (base L) x -> good (base L) y -> desc x <> desc y -> (data x <> [] \/ data y <> []) ->
  assigns (op_sub_assign L false x (Other y))
    (fun z =>
       let a := value (base L) (data x) in let b := value (base L) (data y) in
       let wrapped := base L ^ Z.of_nat (length (data x)) in
       good (base L) z /\ canonical (data z) /\ desc z = desc x /\
       (~ looks_greater (data x) (data y) -> value (base L) (data z) = 0) /\
       (looks_greater (data x) (data y) -> b <= a -> value (base L) (data z) = a - b) /\
       (looks_greater (data x) (data y) -> a < b -> value (base L) (data z) = wrapped + a - b) /\
       (signed_value (base L) z = signed_value (base L) x - signed_value (base L) y <->
        b = 0 \/ (looks_greater (data x) (data y) /\ a < b /\ 2 * b = wrapped)))
    (infinity_for (desc y)).
Proof.
  intros L x y HL Gx Gy Hd Hn. eapply assigns_mono; [exact (sub_assign_mixed L HL x y (proj1 Gx) (proj1 Gy) (proj1 (proj2 Gx)) (proj1 (proj2 Gy)) Hd Hn)|].
  intros z (Gz & Cz & Ez & Vz) a b wrapped. split; [exact Gz|]. split; [exact Cz|]. split; [exact Ez|].
  unfold looks_greater. rewrite <- (gtb_iff (data x) (data y)).
  split; [|split; [|split]].
  - intros K. rewrite Vz. destruct (CompareProof.gtb (data x) (data y)); [tauto|reflexivity].
  - intros K Hle. rewrite Vz, K, (proj2 (Z.leb_le _ _)) by exact Hle. reflexivity.
  - intros K Hlt. rewrite Vz, K, (proj2 (Z.leb_gt _ _)) by exact Hlt. fold a b wrapped. ring.
  - exact (mixed_correct_iff L HL x y z Gx Gy Hd Gz Ez Vz).
Qed.
Print Assumptions C05_mixed_sign_sub.

(** The documented behaviour (bn_type.h:397-402), and that it is false. *)
Definition C05_full_statement : Prop :=
  forall L x y, limits_ok L = true -> good (base L) x -> good (base L) y -> desc x <> desc y ->
  (data x <> [] \/ data y <> []) ->
  returns (op_sub L false x y)
    (fun z => signed_value (base L) z = signed_value (base L) x - signed_value (base L) y).

(** 7 - (-3) returns 4 *)
Theorem C05_mixed_sign_sub_refuted : ~ C05_full_statement.
Proof.
  intros H. specialize (H base10 (dec BN_POS [7]) (dec BN_NEG [3]) eq_refl).
  assert (good 10 (dec BN_POS [7]) /\ good 10 (dec BN_NEG [3])) as [G1 G2].
  { unfold good, finite, digits_ok, weak_canonical, canonical; cbn.
    repeat split; auto; try (repeat constructor; lia); left; lia. }
  specialize (H G1 G2 ltac:(discriminate) ltac:(left; discriminate) never_fails 0%nat).
  vm_compute in H. destruct H as [H _]. discriminate.
Qed.
Print Assumptions C05_mixed_sign_sub_refuted.

(** the three cases of the characterisation: 7-(-3) = 4, 3-(-7) = 0, 29-(-30) = 99, and the accident
    49-(-50) = 99 *)
Example C05_cases :
  run (op_sub base10 false (dec BN_POS [7]) (dec BN_NEG [3])) = Ret (dec BN_POS [4]) 2%nat /\
  run (op_sub base10 false (dec BN_POS [3]) (dec BN_NEG [7])) = Ret (dec BN_POS []) 2%nat /\
  run (op_sub base10 false (dec BN_POS [9; 2]) (dec BN_NEG [0; 3])) = Ret (dec BN_POS [9; 9]) 2%nat /\
  run (op_sub base10 false (dec BN_POS [9; 4]) (dec BN_NEG [0; 5])) = Ret (dec BN_POS [9; 9]) 2%nat.
Proof. repeat split. Qed.

(** ** C06 *)
Theorem C06_add_then_subtract : forall L x y, limits_ok L = true ->
  desc x = BN_POS -> desc y = BN_POS ->
  digits_ok (base L) (data x) -> digits_ok (base L) (data y) -> canonical (data x) -> canonical (data y) ->
  returns (s <- op_add L false x y ;; d <- op_sub L false s y ;; op_eq d x) (fun b => b = true).
Proof. intros L x y HL. exact (add_then_sub L HL x y). Qed.
Print Assumptions C06_add_then_subtract.

(** zero plus zero minus zero, and a case with a carry *)
Example C06_cases :
  canonical (data (dec BN_POS [])) /\ canonical (data (dec BN_POS [1])) /\
  run (s <- op_add base10 false (dec BN_POS []) (dec BN_POS []) ;;
       d <- op_sub base10 false s (dec BN_POS []) ;; op_eq d (dec BN_POS [])) = Ret true 3%nat /\
  run (s <- op_add base10 false (dec BN_POS [9; 9]) (dec BN_POS [1]) ;;
       d <- op_sub base10 false s (dec BN_POS [1]) ;; op_eq d (dec BN_POS [9; 9])) = Ret true 3%nat.
Proof. unfold canonical; cbn. repeat split; lia. Qed.

(** ** C07 *)
Theorem C07_add_commutes : forall L x y, limits_ok L = true ->
  good (base L) x -> good (base L) y -> canonical (data x) -> canonical (data y) ->
  (desc x = desc y \/ data x <> [] \/ data y <> []) ->
  returns (s <- op_add L false x y ;; t <- op_add L false y x ;; op_eq s t)
    (fun b => b = true <->
       ~ (desc x <> desc y /\ value (base L) (data x) = value (base L) (data y))).
Proof. intros L x y HL. exact (add_commutes L HL x y). Qed.
Print Assumptions C07_add_commutes.

(** 5 + (-5) is +0 but (-5) + 5 is -0, and they are not == *)
Example C07_case :
  run (s <- op_add base10 false (dec BN_POS [5]) (dec BN_NEG [5]) ;;
       t <- op_add base10 false (dec BN_NEG [5]) (dec BN_POS [5]) ;; op_eq s t) = Ret false 2%nat /\
  run (s <- op_add base10 false (dec BN_POS [5]) (dec BN_NEG [7]) ;;
       t <- op_add base10 false (dec BN_NEG [7]) (dec BN_POS [5]) ;; op_eq s t) = Ret true 3%nat.
Proof. split; reflexivity. Qed.
