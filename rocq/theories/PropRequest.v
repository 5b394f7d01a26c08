(** * C69: operations that need no memory, and operations that cannot do without *)
From Verif Require Import Base Spec Limits Compare AddSub Division Fourier Multiplication Bignum Machine While Outcome.
From Verif Require Import Wp ValueProof CompareProof AddSubProof DivisionProof BignumProof OperatorProof DivOpProof FailProof MemoryProof.
From Verif Require Import PropAddSub PropCompare PropZero RequestProof RequestOpProof.

(** [never_asks m P] (RequestOpProof.v): for every allocator the assignment completes without a request, and P holds of the result;
    [needs_memory m]: with an allocator that refuses every request it throws; [result B v z]: z is a good number of value v. *)

(** x -= y with |y| <= |x| and one sign, x += y with |y| <= |x| and two: the digits are subtracted in place. *)
Theorem C69_difference : forall L x y, limits_ok L = true -> plain (base L) x -> plain (base L) y -> data x <> [] ->
  value (base L) (data y) <= value (base L) (data x) ->
  (desc x = desc y -> never_asks (op_sub_assign L false x (Other y))
     (fun z => result (base L) (signed_value (base L) x - signed_value (base L) y) z /\ desc z = desc x)) /\
  (desc x <> desc y -> never_asks (op_add_assign L false x (Other y))
     (fun z => result (base L) (signed_value (base L) x + signed_value (base L) y) z /\ desc z = desc x)).
Proof. intros L x y HL. exact (difference_in_place L HL x y). Qed.
Print Assumptions C69_difference.

(** The other way round a copy of y is made. *)
Theorem C69_difference_copies : forall L x y, limits_ok L = true -> plain (base L) x -> plain (base L) y ->
  value (base L) (data x) < value (base L) (data y) ->
  (desc x = desc y -> needs_memory (op_sub_assign L false x (Other y))) /\
  (desc x <> desc y -> needs_memory (op_add_assign L false x (Other y))).
Proof. intros L x y HL. exact (difference_copies L HL x y). Qed.
Print Assumptions C69_difference_copies.

(** x - y with two signs makes a copy always. *)
Theorem C69_mixed_sub : forall L x y, finite x -> finite y -> desc x <> desc y -> needs_memory (op_sub_assign L false x (Other y)).
Proof.
  intros L [dx vx] [dy vy] Fx Fy Hd al n Hal. unfold finite in *. cbn [desc data] in *. unfold op_sub_assign, adesc, adata, aview. cbn [desc data].
  destruct Fx as [-> | ->], Fy as [-> | ->]; try congruence; cbn [desc_eqb andb orb isComputable negb]; eexists _, (S n); apply guarded_fail;
    unfold bind; rewrite abs_val_is_gt_pure; unfold vcopy, bind, alloc; rewrite Hal; reflexivity.
Qed.
Print Assumptions C69_mixed_sub.

(** x += y with one sign: in place if the sum has no more digits than x. *)
Theorem C69_sum : forall L x y, limits_ok L = true -> plain (base L) x -> plain (base L) y -> desc x = desc y -> data x <> [] ->
  value (base L) (data x) + value (base L) (data y) < base L ^ Z.of_nat (length (data x)) ->
  never_asks (op_add_assign L false x (Other y))
    (fun z => result (base L) (signed_value (base L) x + signed_value (base L) y) z /\ desc z = desc x).
Proof. intros L x y HL. exact (sum_in_place L HL x y). Qed.
Print Assumptions C69_sum.

(** A sum with more digits is a push_back, for which the model (Base.v) supposes no spare capacity. *)
Theorem C69_sum_grows : forall L x y, limits_ok L = true -> plain (base L) x -> plain (base L) y -> desc x = desc y ->
  data x = [] \/ base L ^ Z.of_nat (length (data x)) <= value (base L) (data x) + value (base L) (data y) ->
  needs_memory (op_add_assign L false x (Other y)).
Proof. intros L x y HL. exact (sum_grows L HL x y). Qed.
Print Assumptions C69_sum_grows.

(** One object on both sides. *)
Theorem C69_self : forall L x, limits_ok L = true -> plain (base L) x -> data x <> [] ->
  never_asks (op_sub_assign L false x Self) (fun z => z = mkBN (desc x) []) /\
  (2 * value (base L) (data x) < base L ^ Z.of_nat (length (data x)) ->
   never_asks (op_add_assign L false x Self) (fun z => result (base L) (2 * signed_value (base L) x) z /\ desc z = desc x)).
Proof.
  intros L x HL Px Nx. split; [|intros H; exact (double_in_place L HL x Px Nx H)]. destruct Px as (Fx & Dx & Cx). intros al n. exists (mkBN (desc x) []).
  split; [|reflexivity]. destruct x as [dx vx]. unfold finite in *. cbn [desc data] in *. unfold op_sub_assign, adesc, adata, aview. cbn [desc data].
  destruct Fx as [-> | ->]; cbn [desc_eqb andb orb isComputable negb]; apply guarded_ret; unfold bind;
    rewrite (ge_refl_pure L vx), (abs_val_sub_same L HL vx Nx Dx); reflexivity.
Qed.
Print Assumptions C69_self.

(** A product is made in new vectors, whatever the operands. *)
Theorem C69_product : forall L P fuel x y, finite x -> needs_memory (op_mul_assign L P fuel x y).
Proof.
  intros L P fuel x y Fx al n Hal. unfold op_mul_assign. rewrite (finite_computable x Fx). cbn [negb]. eexists _, (S n). apply guarded_fail.
  unfold mul_strassen, bind, alloc. rewrite Hal. reflexivity.
Qed.
Print Assumptions C69_product.

(** A quotient too, but for divisor one and dividend zero, where the digits stay. *)
Theorem C69_quotient : forall L fuel x y, limits_ok L = true -> finite x -> data y <> [0] ->
  (data y = [1] \/ data x = [] \/ data x = [0] ->
   never_asks (op_div_assign L false fuel x (Other y)) (fun z => z = mkBN (product_desc (desc x) (desc y)) (data x))) /\
  (~ (data y = [1] \/ data x = [] \/ data x = [0]) -> needs_memory (op_div_assign L false fuel x (Other y))).
Proof.
  intros L fuel x y HL Fx Ny. split.
  - intros [H|H] al n.
    + exists (mkBN (product_desc (desc x) (desc y)) (data x)). rewrite (div_by_one L HL false fuel x y Fx H). auto.
    + exists (mkBN (product_desc (desc x) (desc y)) (data x)). rewrite (div_of_zero L HL false fuel x y Fx Ny H). auto.
  - intros H al n Hal. rewrite (div_assign_main L HL false fuel x y) by (auto; split; intros E; apply H; auto).
    eexists _, (S n). apply guarded_fail. unfold bind. rewrite abs_val_is_gt_pure. destruct (gtb (data x) (data y)).
    + unfold abs_val_div, bind, vcopy, bind, alloc. rewrite Hal. reflexivity.
    + unfold vcopy, bind, alloc. rewrite Hal. reflexivity.
Qed.
Print Assumptions C69_quotient.

(** A binary operator starts with a copy of its left operand: all four need memory. *)
Theorem C69_binary : forall f x y al n, al n = false -> binary f x y al n = Throw ExBadAlloc (S n).
Proof. intros f x y al n H. rewrite binary_eq, H. reflexivity. Qed.
Print Assumptions C69_binary.

(** The six comparisons ask for nothing and answer, for any two objects: NaN, infinities, superfluous zeros, digits out of range. *)
Theorem C69_comparisons : forall c x y, exists b, answers (compare c x y) b.
Proof. intros c x y. exact (compare_total c x y). Qed.
Print Assumptions C69_comparisons.

(** Without any memory: 100 - 25, 25 - 25 and 25 + 74 complete; 25 + 75, which has a third digit, and 25 - 100 throw. *)
Example C69_cases :
  plain 10 (dec BN_POS [0; 0; 1]) /\ plain 10 (dec BN_POS [5; 2]) /\
  op_sub_assign base10 false (dec BN_POS [0; 0; 1]) (Other (dec BN_POS [5; 2])) (fun _ => false) 0%nat = Ret (dec BN_POS [5; 7], None) 0%nat /\
  op_sub_assign base10 false (dec BN_POS [5; 2]) (Other (dec BN_POS [5; 2])) (fun _ => false) 0%nat = Ret (bn_default, None) 0%nat /\
  op_add_assign base10 false (dec BN_POS [5; 2]) (Other (dec BN_POS [4; 7])) (fun _ => false) 0%nat = Ret (dec BN_POS [9; 9], None) 0%nat /\
  op_add_assign base10 false (dec BN_POS [5; 2]) (Other (dec BN_POS [5; 7])) (fun _ => false) 0%nat = Ret (mkBN BN_POS_INF [], Some ExStd) 1%nat /\
  op_sub_assign base10 false (dec BN_POS [5; 2]) (Other (dec BN_POS [0; 0; 1])) (fun _ => false) 0%nat = Ret (mkBN BN_POS_INF [], Some ExStd) 1%nat.
Proof.
  repeat (split; [solve [split; [left; reflexivity|split; [repeat constructor; lia|discriminate]]]|]). repeat split; reflexivity.
Qed.
