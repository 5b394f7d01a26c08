(** * C73: sorting, searching and maxima by the comparison operators

    [says c x y]: what the comparator [c] answers; [key B x] (SortingProof.v): numbers in the order of their values, with -0
    before +0; [proper B x]: finite, digits below B, no superfluous zeros; [below a b]: every digit of a is at most the digit of
    b at the same position; [ascending k v]: each element's k is at most that of all later ones. *)
From Coq Require Import Sorting.Sorted Sorting.Permutation.
From Verif Require Import Base Spec Limits Compare Bignum Outcome While Sorting.
From Verif Require Import Wp ValueProof CompareProof OperatorProof PropAddSub PropCompare PropRequest SortingProof.

(** what std::sort, std::set and std::map demand of a comparator on the elements they hold *)
Definition strict_weak_order (S : bignum -> Prop) (lt : bignum -> bignum -> bool) : Prop :=
  (forall x, S x -> lt x x = false) /\
  (forall x y z, S x -> S y -> S z -> lt x y = true -> lt y z = true -> lt x z = true) /\
  (forall x y z, S x -> S y -> S z -> lt x y = false -> lt y x = false -> lt y z = false -> lt z y = false ->
     lt x z = false /\ lt z x = false).

(** any two of the same sign and length are comparable digit by digit *)
Definition staircase (S : bignum -> Prop) : Prop := forall x y, S x -> S y ->
  desc x = desc y -> length (data x) = length (data y) -> below (data x) (data y) \/ below (data y) (data x).

Lemma key_order (S : bignum -> Prop) lt (k : bignum -> Z) : (forall x y, S x -> S y -> lt x y = (k x <? k y)) -> strict_weak_order S lt.
Proof.
  intros H. split; [|split].
  - intros x Sx. rewrite H by assumption. apply Z.ltb_irrefl.
  - intros x y z Sx Sy Sz. rewrite !H by assumption. rewrite !Z.ltb_lt. lia.
  - intros x y z Sx Sy Sz. rewrite !H by assumption. rewrite !Z.ltb_ge. lia.
Qed.

(** operator < can be used for sorting, or for keys, exactly on such sets; there it is the order of the values *)
Theorem C73_when_lt_is_an_order : forall B (S : bignum -> Prop), 2 <= B -> (forall x, S x -> proper B x) ->
  answered op_lt S /\
  (strict_weak_order S (says op_lt) <-> staircase S) /\
  (staircase S -> forall x y, S x -> S y -> says op_lt x y = (key B x <? key B y)).
Proof.
  intros B S HB HS.
  assert (forall x y, S x -> S y -> pure (op_lt x y) (lt_answer x y)) as A
    by (intros x y Sx Sy; apply op_lt_answer; [apply (HS x Sx)|apply (HS y Sy)]).
  assert (forall x y, S x -> S y -> says op_lt x y = lt_answer x y) as E by (intros; apply says_pure; auto).
  assert (staircase S -> forall x y, S x -> S y -> says op_lt x y = (key B x <? key B y)) as K.
  { intros H x y Sx Sy. rewrite E by assumption. apply (lt_key B HB); auto. intros Ed El. apply H; assumption. }
  split; [intros x y Sx Sy; rewrite E by assumption; auto|]. split; [|exact K]. split.
  - intros (I & T & _) x y Sx Sy Ed El. apply lt_one; [apply (HS x Sx)|exact Ed|exact El|].
    rewrite <- !E by assumption. destruct (says op_lt x y) eqn:E1; [right|auto].
    destruct (says op_lt y x) eqn:E2; [|reflexivity]. rewrite <- (I x Sx). symmetry. apply (T x y x); assumption.
  - intros H. apply (key_order S _ (key B)). apply K, H.
Qed.
Print Assumptions C73_when_lt_is_an_order.

(** even where it is not, two keys are equivalent only if they are the same *)
Theorem C73_equivalent_keys : forall B x y, 2 <= B -> proper B x -> proper B y ->
  says op_lt x y = false -> says op_lt y x = false -> x = y.
Proof.
  intros B x y HB Px Py. rewrite (says_pure op_lt x y (lt_answer x y)), (says_pure op_lt y x (lt_answer y x)).
  - apply (lt_neither B HB); assumption.
  - apply op_lt_answer; [apply Py|apply Px].
  - apply op_lt_answer; [apply Px|apply Py].
Qed.
Print Assumptions C73_equivalent_keys.

(** [careful] is an order on all the proper numbers, ![>=] on those that are not negative *)
Theorem C73_careful : forall B, 2 <= B ->
  (answered careful (proper B) /\ forall x y, proper B x -> proper B y -> says careful x y = (key B x <? key B y)) /\
  (let S x := proper B x /\ desc x = BN_POS in
   answered not_ge S /\ forall x y, S x -> S y -> says not_ge x y = (key B x <? key B y)).
Proof.
  intros B HB. split.
  - assert (forall x y, proper B x -> proper B y -> says careful x y = (key B x <? key B y)) as E
      by (intros; apply says_pure, (careful_key B HB); assumption).
    split; [|exact E]. intros x y Px Py. rewrite E by assumption. apply (careful_key B HB); assumption.
  - cbv zeta. assert (forall x y, proper B x /\ desc x = BN_POS -> proper B y /\ desc y = BN_POS -> says not_ge x y = (key B x <? key B y)) as E
      by (intros x y [] []; apply says_pure, (not_ge_key B HB); assumption).
    split; [|exact E]. intros x y Px Py. rewrite E by assumption. destruct Px, Py. apply (not_ge_key B HB); assumption.
Qed.
Print Assumptions C73_careful.

(** which is the order of the values, but for the two zeros *)
Theorem C73_key : forall B x y, 2 <= B -> proper B x -> proper B y ->
  (signed_value B x < signed_value B y -> key B x < key B y) /\ (key B x < key B y -> signed_value B x <= signed_value B y) /\
  (key B x = key B y <-> x = y).
Proof.
  intros B x y HB Px Py. assert (forall z, 0 <= (if desc_eqb (desc z) BN_POS then 1 else 0) <= 1) as R
    by (intros z; destruct (desc_eqb _ _); lia).
  pose proof (R x). pose proof (R y). unfold key. split; [lia|]. split; [lia|]. split; [|intros ->; reflexivity].
  intros E. apply (lt_neither B HB); auto.
  - destruct (lt_answer x y) eqn:K; auto. exfalso. destruct Px as (Fx & Dx & Cx), Py as (Fy & Dy & Cy).
    unfold lt_answer, signed_value in *. destruct Fx as [Fx|Fx], Fy as [Fy|Fy]; rewrite Fx, Fy in *; cbn [desc_eqb] in E; try lia; try discriminate.
    + assert (data x = data y) as Ed by (apply (value_inj B HB); auto; lia). rewrite Ed, gtb_refl in K. discriminate.
    + assert (data x = data y) as Ed by (apply (value_inj B HB); auto; lia). rewrite Ed, gtb_refl in K. discriminate.
  - destruct (lt_answer y x) eqn:K; auto. exfalso. destruct Px as (Fx & Dx & Cx), Py as (Fy & Dy & Cy).
    unfold lt_answer, signed_value in *. destruct Fx as [Fx|Fx], Fy as [Fy|Fy]; rewrite Fx, Fy in *; cbn [desc_eqb] in E; try lia; try discriminate.
    + assert (data x = data y) as Ed by (apply (value_inj B HB); auto; lia). rewrite Ed, gtb_refl in K. discriminate.
    + assert (data x = data y) as Ed by (apply (value_inj B HB); auto; lia). rewrite Ed, gtb_refl in K. discriminate.
Qed.
Print Assumptions C73_key.

(** Insertion sort (std::sort of up to 16 elements) with any of the operators, on any numbers whatever: it stays within the
    vector, asks for no memory, and only reorders. *)
Theorem C73_sort_permutes : forall c v, exists r, (forall al n, insertion_sort (compare c) v al n = Ret r n) /\ Permutation v r.
Proof.
  intros c v. destruct (loop_permutes (compare c) (fun _ => True)) with (todo := v) (done := @nil bignum) as (r & Hr & Pr).
  - intros x y _ _. destruct (C69_comparisons c x y) as [b Hb]. rewrite (says_pure _ _ _ b Hb). exact Hb.
  - apply Forall_forall. auto.
  - constructor.
  - exists r. split; [exact Hr|exact Pr].
Qed.
Print Assumptions C73_sort_permutes.

(** With operator < it sorts if the elements are comparable as above, with [careful] always, with ![>=] without negative ones. *)
Theorem C73_sort : forall B v, 2 <= B -> Forall (proper B) v ->
  (staircase (fun x => In x v) ->
     exists r, (forall al n, insertion_sort op_lt v al n = Ret r n) /\ Permutation v r /\ ascending (key B) r) /\
  (exists r, (forall al n, insertion_sort careful v al n = Ret r n) /\ Permutation v r /\ ascending (key B) r) /\
  (Forall (fun x => desc x = BN_POS) v ->
     exists r, (forall al n, insertion_sort not_ge v al n = Ret r n) /\ Permutation v r /\ ascending (key B) r).
Proof.
  intros B v HB Hv. rewrite Forall_forall in Hv. split; [|split].
  - intros H. destruct (C73_when_lt_is_an_order B (fun x => In x v) HB Hv) as (A & _ & K).
    apply (loop_sorts op_lt (fun x => In x v) (key B) A (K H) v []); [apply Forall_forall; auto|constructor|constructor].
  - destruct (proj1 (C73_careful B HB)) as [A K].
    apply (loop_sorts careful (proper B) (key B) A K v []); [apply Forall_forall; auto|constructor|constructor].
  - intros H. rewrite Forall_forall in H. destruct (proj2 (C73_careful B HB)) as [A K].
    apply (loop_sorts not_ge _ (key B) A K v []); [apply Forall_forall; auto|constructor|constructor].
Qed.
Print Assumptions C73_sort.

(** operator < does not sort in general: the sorted vector (19, 20) becomes (20, 19) *)
Theorem C73_sort_refuted : ~ (forall B v, 2 <= B -> Forall (proper B) v -> Forall (fun x => desc x = BN_POS) v ->
  exists r, (forall al n, insertion_sort op_lt v al n = Ret r n) /\ ascending (key B) r).
Proof.
  intros H. destruct (H 10 [mkBN BN_POS [9; 1]; mkBN BN_POS [0; 2]]) as (r & Hr & S).
  - lia.
  - repeat (apply Forall_cons; [split; [left; reflexivity|split; [repeat constructor; lia|vm_compute; discriminate]]|]). constructor.
  - repeat constructor.
  - specialize (Hr never_fails 0%nat). vm_compute in Hr. injection Hr as <-. inversion_clear S as [|? ? _ F]. inversion_clear F.
    vm_compute in H0. apply H0. reflexivity.
Qed.
Print Assumptions C73_sort_refuted.

(** std::lower_bound on a sorted vector of fewer than 2^f elements: at most f comparisons, and the position before which
    everything is smaller and from which nothing is *)
Theorem C73_lower_bound : forall B v val f, 2 <= B -> Forall (proper B) v -> proper B val -> ascending (key B) v ->
  (length v < 2 ^ f)%nat -> exists p,
  (forall al n, lower_bound careful (S f) v val al n = Ret p n) /\ (p <= length v)%nat /\
  (forall i x, (i < p)%nat -> nth_error v i = Some x -> key B x < key B val) /\
  (forall i x, (p <= i)%nat -> nth_error v i = Some x -> key B val <= key B x).
Proof.
  intros B v val f HB Hv Pv Sv Hf. destruct (proj1 (C73_careful B HB)) as [A K].
  apply (bound_spec careful (proper B) (key B) v val A K Hv Pv Sv f 0%nat (length v)); auto; try lia.
  intros i x Hi Hx. apply nth_error_None in Hi. cbn in Hi. congruence.
Qed.
Print Assumptions C73_lower_bound.

(** with operator < where the elements and the one sought are comparable *)
Theorem C73_lower_bound_lt : forall B v val f, 2 <= B -> Forall (proper B) v -> proper B val -> ascending (key B) v ->
  staircase (fun x => In x (val :: v)) -> (length v < 2 ^ f)%nat -> exists p,
  (forall al n, lower_bound op_lt (S f) v val al n = Ret p n) /\ (p <= length v)%nat /\
  (forall i x, (i < p)%nat -> nth_error v i = Some x -> key B x < key B val) /\
  (forall i x, (p <= i)%nat -> nth_error v i = Some x -> key B val <= key B x).
Proof.
  intros B v val f HB Hv Pv Sv H Hf. rewrite Forall_forall in Hv.
  assert (forall x, In x (val :: v) -> proper B x) as HS by (intros x [<-|Hx]; auto).
  destruct (C73_when_lt_is_an_order B _ HB HS) as (A & _ & K).
  apply (bound_spec op_lt (fun x => In x (val :: v)) (key B) v val A (K H)); auto; try lia.
  - apply Forall_forall. intros x Hx. right. exact Hx.
  - left. reflexivity.
  - intros i x Hi Hx. apply nth_error_None in Hi. cbn in Hi. congruence.
Qed.
Print Assumptions C73_lower_bound_lt.

(** but not in general: 19 is looked for behind 20 *)
Example C73_lower_bound_wrong : let v := [mkBN BN_POS [1; 1]; mkBN BN_POS [0; 2]] in
  ascending (key 10) v /\ run (lower_bound op_lt 3 v (mkBN BN_POS [9; 1])) = Ret 2%nat 0%nat /\
  run (lower_bound careful 3 v (mkBN BN_POS [9; 1])) = Ret 1%nat 0%nat.
Proof. cbv zeta. split; [repeat constructor; vm_compute; discriminate|]. split; reflexivity. Qed.

(** std::max and std::min: one of the two numbers; std::max(a, b) is the greater one unless a is and [a < b] is answered
    as well, that is unless they have the same sign and length and some digit of the smaller one exceeds that of the greater *)
Theorem C73_max_min : forall B a b, 2 <= B -> proper B a -> proper B b -> exists hi lo,
  (forall al n, max_of a b al n = Ret hi n) /\ (forall al n, min_of a b al n = Ret lo n) /\
  (hi = a \/ hi = b) /\ (lo = a \/ lo = b) /\
  (key B a < key B b -> hi = b) /\ (key B b < key B a -> lo = b) /\
  (key B b < key B a -> (hi = b <-> desc a = desc b /\ length (data a) = length (data b) /\ ~ below (data a) (data b) /\ ~ below (data b) (data a))) /\
  (key B a < key B b -> (lo = b <-> desc a = desc b /\ length (data a) = length (data b) /\ ~ below (data a) (data b) /\ ~ below (data b) (data a))).
Proof.
  intros B a b HB Pa Pb. exists (if lt_answer a b then b else a), (if lt_answer b a then b else a).
  pose proof (op_lt_answer a b (proj1 Pa) (proj1 Pb)) as H1. pose proof (op_lt_answer b a (proj1 Pb) (proj1 Pa)) as H2.
  assert (forall x y, proper B x -> proper B y -> key B y < key B x ->
    (lt_answer x y = true <-> desc x = desc y /\ length (data x) = length (data y) /\ ~ below (data x) (data y) /\ ~ below (data y) (data x))) as W.
  { intros x y Px Py Hk. pose proof (lt_complete B HB y x Py Px Hk) as C. split.
    - intros Hl. pose proof (lt_both B HB x y Px Py Hl C) as NA. unfold aligned in NA.
      assert ({desc x = desc y} + {desc x <> desc y}) as D by decide equality. destruct D as [Ed|Ed]; [|exfalso; apply NA; congruence].
      destruct (Nat.eq_dec (length (data x)) (length (data y))) as [El|El]; [|exfalso; apply NA; congruence].
      repeat split; auto.
    - intros (Ed & El & N1 & N2). destruct (lt_answer x y) eqn:E; [reflexivity|exfalso].
      destruct (lt_one x y (proj1 Px) Ed El (or_introl E)); contradiction. }
  assert (forall x y, key B x < key B y -> x <> y) as Ne by (intros x y Hk ->; lia).
  split; [|split; [|split; [|split; [|split; [|split; [|split]]]]]].
  - intros al n. unfold max_of, bind. rewrite H1. reflexivity.
  - intros al n. unfold min_of, bind. rewrite H2. reflexivity.
  - destruct (lt_answer a b); auto.
  - destruct (lt_answer b a); auto.
  - intros Hk. rewrite (lt_complete B HB a b Pa Pb Hk). reflexivity.
  - intros Hk. rewrite (lt_complete B HB b a Pb Pa Hk). reflexivity.
  - intros Hk. rewrite <- (W a b Pa Pb Hk). destruct (lt_answer a b); split; intros; auto; try discriminate.
    exfalso. apply (Ne b a Hk). congruence.
  - intros Hk. specialize (W b a Pb Pa Hk). destruct (lt_answer b a) eqn:E.
    + destruct (proj1 W eq_refl) as (Ed & El & N1 & N2). split; intros; auto.
    + split; [intros K; exfalso; apply (Ne a b Hk); congruence|]. intros (Ed & El & N1 & N2).
      exfalso. assert (false = true) as K by (apply W; auto). discriminate.
Qed.
Print Assumptions C73_max_min.

(** std::max(20, 19) is 19; the numbers 7, 15, 26, -3, -12 are comparable and get sorted, 19 and 20 are not *)
Example C73_cases : let p d := mkBN BN_POS d in let m d := mkBN BN_NEG d in
  run (max_of (p [0; 2]) (p [9; 1])) = Ret (p [9; 1]) 0%nat /\
  (let v := [p [6; 2]; m [3]; p [5; 1]; m [2; 1]; p [7]] in
   Forall (proper 10) v /\ staircase (fun x => In x v) /\
   run (insertion_sort op_lt v) = Ret [m [2; 1]; m [3]; p [7]; p [5; 1]; p [6; 2]] 0%nat) /\
  ~ staircase (fun x => In x [p [9; 1]; p [0; 2]]) /\
  run (insertion_sort careful [p [0; 2]; m [0; 2]; p [9; 1]; m [9; 1]]) = Ret [m [0; 2]; m [9; 1]; p [9; 1]; p [0; 2]] 0%nat.
Proof.
  cbv zeta. split; [reflexivity|]. split; [|split].
  - split; [repeat (apply Forall_cons; [split; [(left; reflexivity) || (right; reflexivity)|split; [repeat constructor; lia|vm_compute; discriminate]]|]); constructor|].
    split; [|reflexivity].
    intros x y Hx Hy. cbn [In] in Hx, Hy.
    repeat match goal with H : _ \/ _ |- _ => destruct H as [H|H] end; try contradiction; subst; cbn [desc data length]; intros; try discriminate;
      (left; repeat constructor; lia) || (right; repeat constructor; lia).
  - intros H. specialize (H (mkBN BN_POS [9; 1]) (mkBN BN_POS [0; 2]) ltac:(cbn; auto) ltac:(cbn; auto) eq_refl eq_refl).
    destruct H as [H|H]; inversion H; subst; [lia|]. inversion H5; subst. lia.
  - reflexivity.
Qed.
