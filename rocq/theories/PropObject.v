(** * Properties C28-C31, C40-C43: construction, digit access, descriptors, copy and move, limits, assertions *)
From Verif Require Import Base Spec Limits Bignum Print Machine Outcome Wp ValueProof BignumProof.
From Coq Require String.

(** ** C28 *)

(** The digits as written (most significant first), read as a number. *)
Definition written_value (B : Z) (l : list Z) : Z := fold_left (fun acc d => acc * B + d) l 0.

(** the list without its leading zeros *)
Fixpoint strip (l : list Z) : list Z := match l with 0 :: r => strip r | _ => l end.

Lemma strip_app_zero l : forall k, strip (repeat 0 k ++ l) = strip l.
Proof. induction k; cbn; auto. Qed.

Lemma strip_split l : exists k, l = repeat 0 k ++ strip l.
Proof.
  induction l as [|[|p|p] l [k IH]]; [exists 0%nat; reflexivity|exists (S k)|exists 0%nat; reflexivity|exists 0%nat; reflexivity].
  cbn [strip repeat app]. congruence.
Qed.

Lemma value_rev B l : value B (rev l) = written_value B l.
Proof.
  unfold written_value. rewrite <- fold_left_rev_right.
  assert (forall r, value B r = fold_right (fun d acc => acc * B + d) 0 r) as H.
  { induction r as [|d r IH]; cbn; [reflexivity|]. rewrite <- IH. ring. }
  rewrite H. reflexivity.
Qed.

Lemma last_rev (l : list Z) d : last (rev l) d = hd d l.
Proof. destruct l as [|x l]; [reflexivity|]. cbn. rewrite last_last. reflexivity. Qed.

Lemma leading_zeroes_strip L l : bmin L = 0 -> exists k, leading_zeroes L l = k /\ l = repeat 0 k ++ strip l.
Proof.
  intros Hm. assert (wrap (ws L) (bmin L) = 0) as E by (rewrite Hm; apply Zmod_0_l).
  induction l as [|x l (k & Hk & Hl)]; [exists 0%nat; auto|]. cbn [leading_zeroes]. rewrite E.
  destruct (Z.eqb_spec x 0) as [->|Hx]; cbn [negb].
  - exists (S k). cbn [repeat app strip]. rewrite Hk. split; [reflexivity|congruence].
  - exists 0%nat. split; [reflexivity|]. destruct x; [congruence|reflexivity|reflexivity].
Qed.

Lemma ctor_loop_skip l : forall k v oi, ctor_loop (repeat 0 k ++ l) k v oi = ctor_loop l 0 v oi.
Proof. induction k; intros; cbn [repeat app ctor_loop]; auto. Qed.

Lemma ctor_loop_fill : forall l w done, length w = length l ->
  pure (ctor_loop l 0 (w ++ done) (length w)) (rev l ++ done).
Proof.
  induction l as [|x l IH]; intros w done Hl.
  - cbn in Hl. assert (w = []) as -> by (apply length_zero_iff_nil; lia). apply pure_ret.
  - cbn [ctor_loop]. destruct (exists_last (l := w) ltac:(intros ->; discriminate)) as (u & y & ->).
    rewrite app_length. cbn [length]. replace (length u + 1)%nat with (S (length u)) by lia.
    rewrite <- app_assoc. cbn [app]. rewrite vset_app. eapply pure_bind; [apply pure_ret|].
    cbn [rev]. rewrite <- app_assoc. cbn [app]. apply (IH u (x :: done)).
    rewrite app_length in Hl. cbn in Hl. lia.
Qed.

Lemma make_spec L d l : bmin L = 0 ->
  forall al n, bn_make L d l al n =
    match l with [] => Ret (mkBN d []) n
    | _ => if al n then Ret (mkBN d (rev (strip l))) (S n) else Throw ExBadAlloc (S n) end.
Proof.
  intros Hm al n. destruct l as [|x l0]; [reflexivity|]. remember (x :: l0) as l eqn:El.
  assert (bn_make L d l = (v <- vresize [] (length l - leading_zeroes L l) 0 ;;
         v <- ctor_loop l (leading_zeroes L l) v (length v) ;; ret (mkBN d v))) as -> by (rewrite El; reflexivity).
  destruct (leading_zeroes_strip L l Hm) as (k & -> & Hl).
  unfold vresize, alloc, bind. destruct (al n) eqn:E; [|reflexivity].
  unfold ret at 1 2. rewrite firstn_nil. cbn [app].
  assert (length l - k - length (@nil Z) = length (strip l))%nat as ->.
  { rewrite Hl at 1. rewrite app_length, repeat_length. cbn [length]. lia. }
  rewrite Hl at 1. rewrite ctor_loop_skip.
  pose proof (ctor_loop_fill (strip l) (repeat 0 (length (strip l))) [] ltac:(apply repeat_length)) as K.
  rewrite !app_nil_r in K. rewrite K. reflexivity.
Qed.

(** Bignum(d, l): the digits are l without its leading zeros, reversed; one allocation unless l is empty. *)
Theorem C28_constructor : forall L d l, bmin L = 0 ->
  returns (bn_make L d l) (fun x =>
    desc x = d /\ data x = rev (strip l) /\
    value (base L) (data x) = written_value (base L) l /\ canonical (data x) /\
    (Forall (fun e => 0 <= e < base L) l -> digits_ok (base L) (data x))).
Proof.
  intros L d l Hm.
  assert (desc (mkBN d (rev (strip l))) = d /\ data (mkBN d (rev (strip l))) = rev (strip l) /\
    value (base L) (rev (strip l)) = written_value (base L) l /\ canonical (rev (strip l)) /\
    (Forall (fun e => 0 <= e < base L) l -> digits_ok (base L) (rev (strip l)))) as K.
  { split; [reflexivity|]. split; [reflexivity|]. split; [|split].
    - rewrite value_rev. destruct (strip_split l) as [k Hk]. rewrite Hk at 2.
      unfold written_value. rewrite fold_left_app. f_equal. clear. induction k; cbn; auto.
    - unfold canonical. rewrite last_rev. clear. induction l as [|[|p|p] l IH]; cbn [strip hd]; try lia.
    - intros H. unfold digits_ok. apply Forall_rev. destruct (strip_split l) as [k Hk]. rewrite Hk in H.
      apply Forall_app in H. tauto. }
  intros al n. rewrite (make_spec L d l Hm al n). destruct l as [|x l].
  - cbn. repeat split; auto. unfold canonical; cbn; lia.
  - destruct (al n) eqn:E; [split; [exact K|lia]|]. split; auto. exists n; split; auto; lia.
Qed.
Print Assumptions C28_constructor.

(** Leading zeros do not matter. *)
Theorem C28_leading_zeros_ignored : forall L d l k al n, bmin L = 0 -> l <> [] ->
  bn_make L d (repeat 0 k ++ l) al n = bn_make L d l al n.
Proof.
  intros L d l k al n Hm Hl. rewrite !make_spec by exact Hm. rewrite strip_app_zero.
  destruct l as [|x l]; [congruence|]. destruct k; reflexivity.
Qed.
Print Assumptions C28_leading_zeros_ignored.

Example C28_cases :
  run (bn_make base10 BN_NEG [0; 0; 1; 2; 3]) = Ret (mkBN BN_NEG [3; 2; 1]) 1%nat /\
  run (bn_make base10 BN_POS [0; 0]) = Ret (mkBN BN_POS []) 1%nat /\
  run (bn_make base10 BN_NAN [77]) = Ret (mkBN BN_NAN [77]) 1%nat /\
  written_value 10 [0; 0; 1; 2; 3] = 123.
Proof. repeat split. Qed.

(** ** C29 *)
Theorem C29_push_back : forall B x d, returns (push_back x d) (fun z => desc z = desc x /\
  data z = data x ++ [d] /\ value B (data z) = value B (data x) + d * B ^ Z.of_nat (bn_size x)).
Proof.
  intros B x d. apply yields_returns. unfold push_back.
  eapply yields_bind with (Q := fun v => v = data x ++ [d]); [apply yields_vpush; reflexivity|].
  intros ? ->. apply yields_ret. cbn [data desc]. repeat split. unfold bn_size. rewrite value_app. cbn [value]. ring.
Qed.
Print Assumptions C29_push_back.

Theorem C29_push_front : forall B x d, returns (push_front x d) (fun z => desc z = desc x /\
  data z = d :: data x /\ value B (data z) = value B (data x) * B + d).
Proof.
  intros B x d. apply yields_returns. unfold push_front, vinsert. cbn [Nat.leb firstn skipn app].
  eapply yields_bind with (Q := fun v => v = d :: data x).
  { eapply yields_bind; [apply (yields_alloc (fun _ => True)); exact I|]. intros _ _. apply yields_ret. reflexivity. }
  intros ? ->. apply yields_ret. cbn [data desc value]. repeat split. ring.
Qed.
Print Assumptions C29_push_front.

Theorem C29_pop_back : forall x v d, data x = v ++ [d] ->
  forall al n, pop_back x al n = Ret (mkBN (desc x) v) n.
Proof.
  intros x v d E al n. unfold pop_back, vpop, bind. rewrite E.
  destruct (v ++ [d]) eqn:E2; [destruct v; discriminate|]. rewrite <- E2, removelast_last. reflexivity.
Qed.
Print Assumptions C29_pop_back.

Theorem C29_pop_front : forall x v d, data x = d :: v ->
  forall al n, pop_front x al n = Ret (mkBN (desc x) v) n.
Proof. intros x v d E al n. unfold pop_front, verase, bind. rewrite E. reflexivity. Qed.
Print Assumptions C29_pop_front.

Theorem C29_pop_empty_undefined : forall x, data x = [] ->
  is_undefined (pop_back x) UB_iterator /\ is_undefined (pop_front x) UB_iterator.
Proof.
  intros x E; split; intros al n; [unfold pop_back, vpop|unfold pop_front, verase]; unfold bind; rewrite E; reflexivity.
Qed.
Print Assumptions C29_pop_empty_undefined.

(** push at a position inserts before it, pop removes it again; positions beyond the end are undefined. *)
Theorem C29_push_at : forall x d u v, data x = u ++ v ->
  returns (push x d (length u)) (fun z => z = mkBN (desc x) (u ++ d :: v)).
Proof.
  intros x d u v E. apply yields_returns. unfold push, vinsert. rewrite E, app_length.
  rewrite (proj2 (Nat.leb_le _ _)) by lia.
  eapply yields_bind with (Q := fun w => w = u ++ d :: v).
  { eapply yields_bind; [apply (yields_alloc (fun _ => True)); exact I|]. intros _ _. apply yields_ret.
    rewrite firstn_app, skipn_app, Nat.sub_diag, firstn_all, skipn_all, firstn_O, app_nil_r. reflexivity. }
  intros ? ->. apply yields_ret. reflexivity.
Qed.
Print Assumptions C29_push_at.

Theorem C29_pop_at : forall x d u v, data x = u ++ d :: v ->
  forall al n, pop x (length u) al n = Ret (mkBN (desc x) (u ++ v)) n.
Proof.
  intros x d u v E al n. unfold pop, verase, bind. rewrite E, app_length. cbn [length].
  rewrite (proj2 (Nat.ltb_lt _ _)) by lia. unfold ret. f_equal. f_equal.
  rewrite firstn_app, Nat.sub_diag, firstn_all, firstn_O, app_nil_r. f_equal.
  change (d :: v) with ([d] ++ v). rewrite app_assoc.
  replace (S (length u)) with (length (u ++ [d])) by (rewrite app_length; cbn; lia).
  rewrite skipn_app, skipn_all, Nat.sub_diag. reflexivity.
Qed.
Print Assumptions C29_pop_at.

Theorem C29_beyond_end_undefined : forall x d pos,
  ((bn_size x < pos)%nat -> is_undefined (push x d pos) UB_iterator) /\
  ((bn_size x <= pos)%nat -> is_undefined (pop x pos) UB_iterator).
Proof.
  intros x d pos; unfold bn_size; split; intros H al n.
  - unfold push, vinsert, bind. rewrite (proj2 (Nat.leb_gt _ _)) by lia. reflexivity.
  - unfold pop, verase, bind. rewrite (proj2 (Nat.ltb_ge _ _)) by lia. reflexivity.
Qed.
Print Assumptions C29_beyond_end_undefined.

Theorem C29_push_pop_inverse : forall x d pos, (pos <= bn_size x)%nat ->
  returns (y <- push x d pos ;; pop y pos) (fun z => z = x).
Proof.
  intros x d pos H. unfold bn_size in H.
  eapply returns_bind.
  - pose proof (C29_push_at x d (firstn pos (data x)) (skipn pos (data x)) (eq_sym (firstn_skipn _ _))) as K.
    rewrite firstn_length_le in K by lia. exact K.
  - intros y ->. intros al n.
    pose proof (C29_pop_at (mkBN (desc x) (firstn pos (data x) ++ d :: skipn pos (data x))) d
       (firstn pos (data x)) (skipn pos (data x)) eq_refl al n) as K.
    rewrite firstn_length_le in K by lia. rewrite K, firstn_skipn. cbn [desc]. destruct x. split; auto; lia.
Qed.
Print Assumptions C29_push_pop_inverse.

(** resize to n digits keeps the n lowest digits and fills up at the high end; it is documented (bn_type.h:204-208) as a
    reservation of memory, but changes the number. *)
Theorem C29_resize : forall B x n d, 2 <= B -> digits_ok B (data x) -> returns (bn_resize x n d) (fun z =>
  desc z = desc x /\ bn_size z = n /\
  (forall i, (i < n)%nat -> nth_error (data z) i = if (i <? bn_size x)%nat then nth_error (data x) i else Some d) /\
  ((n <= bn_size x)%nat -> value B (data z) = value B (data x) mod B ^ Z.of_nat n) /\
  ((bn_size x <= n)%nat -> (B - 1) * value B (data z) =
     (B - 1) * value B (data x) + d * (B ^ Z.of_nat n - B ^ Z.of_nat (bn_size x)))).
Proof.
  intros B x n d HB Dx. apply yields_returns. unfold bn_resize, vresize, bn_size. destruct x as [e v]. cbn [data desc] in *.
  eapply yields_bind with (Q := fun w => w = firstn n v ++ repeat d (n - length v)).
  { eapply yields_bind; [apply (yields_alloc (fun _ => True)); exact I|]. intros _ _. apply yields_ret. reflexivity. }
  intros ? ->. apply yields_ret. cbn [data desc]. split; [reflexivity|]. split; [|split; [|split]].
  - rewrite app_length, firstn_length, repeat_length. lia.
  - intros i Hi. destruct (Nat.ltb_spec i (length v)) as [H|H].
    + rewrite nth_error_app1 by (rewrite firstn_length; lia). rewrite <- (firstn_skipn n v) at 2.
      rewrite nth_error_app1 by (rewrite firstn_length; lia). reflexivity.
    + rewrite nth_error_app2 by (rewrite firstn_length; lia). apply nth_error_repeat. rewrite firstn_length. lia.
  - intros H. replace (n - length v)%nat with 0%nat by lia. cbn [repeat]. rewrite app_nil_r.
    assert (value B v = value B (firstn n v) + B ^ Z.of_nat n * value B (skipn n v)) as E.
    { rewrite <- (firstn_skipn n v) at 1. rewrite value_app, firstn_length_le by lia. reflexivity. }
    rewrite E, Z.mul_comm, Z.mod_add by (apply Z.pow_nonzero; lia). symmetry. apply Z.mod_small.
    assert (digits_ok B (firstn n v)) as Df.
    { apply Forall_forall. intros a Ha. unfold digits_ok in Dx. rewrite Forall_forall in Dx. apply Dx.
      rewrite <- (firstn_skipn n v). apply in_or_app. left; exact Ha. }
    pose proof (value_bounds B HB _ Df) as Bf. rewrite firstn_length_le in Bf by lia. exact Bf.
  - intros H. rewrite firstn_all2 by lia. rewrite value_app.
    replace (Z.of_nat n) with (Z.of_nat (length v) + Z.of_nat (n - length v)) by lia. rewrite Z.pow_add_r by lia.
    assert (forall k, (B - 1) * value B (repeat d k) = d * (B ^ Z.of_nat k - 1)) as R.
    { induction k as [|k IH]; [cbn [repeat value]; change (Z.of_nat 0) with 0; rewrite Z.pow_0_r; ring|].
      cbn [repeat value]. rewrite Nat2Z.inj_succ, Z.pow_succ_r by lia.
      transitivity ((B - 1) * d + B * ((B - 1) * value B (repeat d k))); [ring|]. rewrite IH. ring. }
    specialize (R (n - length v)%nat).
    transitivity ((B - 1) * value B v + B ^ Z.of_nat (length v) * ((B - 1) * value B (repeat d (n - length v)))); [ring|].
    rewrite R. ring.
Qed.
Print Assumptions C29_resize.

(** 1234 resized to two digits is 34; resized to six digits of 9 it is 991234 *)
Example C29_resize_case :
  digits_ok 10 [4; 3; 2; 1] /\ run (bn_resize (mkBN BN_NEG [4; 3; 2; 1]) 2 0) = Ret (mkBN BN_NEG [4; 3]) 1%nat /\
  run (bn_resize (mkBN BN_POS [4; 3; 2; 1]) 6 9) = Ret (mkBN BN_POS [4; 3; 2; 1; 9; 9]) 1%nat.
Proof. split; [repeat constructor; lia|split; reflexivity]. Qed.

(** push_front is documented (bn_type.h:217-223) to add at the position of highest magnitude; it does not:
    42 with 7 pushed to the front is 427, and pushed to the back 742 *)
Example C29_cases :
  run (push_front (mkBN BN_POS [2; 4]) 7) = Ret (mkBN BN_POS [7; 2; 4]) 1%nat /\
  run (push_back (mkBN BN_POS [2; 4]) 7) = Ret (mkBN BN_POS [2; 4; 7]) 1%nat.
Proof. split; reflexivity. Qed.

(** ** C30 *)
Theorem C30_subscript : forall x i, 
  (forall d, nth_error (data x) i = Some d -> forall al n, subscript x i al n = Ret d n) /\
  ((bn_size x <= i)%nat -> forall al n, subscript x i al n = Throw ExBnError n) /\
  ((bn_size x <= i)%nat -> forall d al n, subscript_set x i d al n = Throw ExBnError n) /\
  ((i < bn_size x)%nat -> forall d al n, exists z, subscript_set x i d al n = Ret z n /\
     desc z = desc x /\ bn_size z = bn_size x /\
     nth_error (data z) i = Some d /\ forall j, j <> i -> nth_error (data z) j = nth_error (data x) j).
Proof.
  intros x i. unfold bn_size, subscript, subscript_set, bind. repeat split.
  - intros d H al n. assert (i < length (data x))%nat by (apply nth_error_Some; congruence).
    rewrite (proj2 (Nat.ltb_lt _ _)) by lia. cbn [ret]. unfold vget. rewrite H. reflexivity.
  - intros H al n. rewrite (proj2 (Nat.ltb_ge _ _)) by lia. reflexivity.
  - intros H d al n. rewrite (proj2 (Nat.ltb_ge _ _)) by lia. reflexivity.
  - intros H d al n. destruct (nth_error (data x) i) as [o|] eqn:E; [|apply nth_error_None in E; lia].
    apply nth_error_split in E as (u & v & E & Hu). subst i. rewrite E, vset_app in *.
    rewrite (proj2 (Nat.ltb_lt _ _)) by lia. cbn [ret]. eexists; split; [reflexivity|]. cbn [desc data].
    split; [reflexivity|]. split; [rewrite !app_length; reflexivity|].
    split; [rewrite nth_error_app2, Nat.sub_diag by lia; reflexivity|].
    intros j Hj. destruct (Nat.lt_ge_cases j (length u)).
    + rewrite !nth_error_app1 by lia. reflexivity.
    + rewrite !nth_error_app2 by lia. destruct (j - length u)%nat eqn:Ej; [lia|reflexivity].
Qed.
Print Assumptions C30_subscript.

Example C30_cases :
  run (subscript (mkBN BN_POS [2; 4]) 1) = Ret 4 0%nat /\
  run (subscript (mkBN BN_POS [2; 4]) 2) = Throw ExBnError 0%nat.
Proof. split; reflexivity. Qed.

(** ** C31 *)
Theorem C31_set_descriptor : forall x d,
  desc (setDescriptor x d) = d /\
  (d = BN_POS \/ d = BN_NEG -> data (setDescriptor x d) = data x) /\
  (d <> BN_POS -> d <> BN_NEG -> data (setDescriptor x d) = []).
Proof. intros x []; cbn; repeat split; auto; try congruence; intros []; discriminate. Qed.
Print Assumptions C31_set_descriptor.

Theorem C31_clear : forall x, clear x = mkBN BN_POS [].
Proof. reflexivity. Qed.
Print Assumptions C31_clear.

Theorem C31_classification : forall x,
  (isNan x = true <-> desc x = BN_NAN) /\
  (isInfinite x = true <-> desc x = BN_POS_INF \/ desc x = BN_NEG_INF) /\
  (isPositive x = true <-> desc x = BN_POS \/ desc x = BN_POS_INF) /\
  (isNegative x = true <-> desc x = BN_NEG \/ desc x = BN_NEG_INF) /\
  (isComputable (desc x) = true <-> finite x) /\
  (Nat.add (Nat.b2n (isPositive x)) (Nat.add (Nat.b2n (isNegative x)) (Nat.b2n (isNan x))) = 1%nat).
Proof.
  intros [[] v]; unfold finite; cbn; repeat split; auto; intros H;
    repeat match goal with K : _ \/ _ |- _ => destruct K end; discriminate.
Qed.
Print Assumptions C31_classification.

(** ** C40 *)
Theorem C40_copy : forall x, returns (bn_copy x) (fun z => z = x).
Proof.
  intros [d v]. apply yields_returns. unfold bn_copy.
  eapply yields_bind with (Q := fun w => w = v); [apply yields_vcopy; reflexivity|].
  intros ? ->. apply yields_ret. reflexivity.
Qed.
Print Assumptions C40_copy.

Theorem C40_copy_assign : forall x y al n,
  bn_copy_assign x (Other y) al n =
    (if al n then Ret (y, None) (S n) else Ret (mkBN (desc y) (data x), Some ExBadAlloc) (S n)) /\
  bn_copy_assign x Self al n = Ret (x, None) n.
Proof.
  intros x [d v] al n. split; [|reflexivity]. unfold bn_copy_assign, vcopy, bind, alloc. destruct (al n); reflexivity.
Qed.
Print Assumptions C40_copy_assign.

(** Move: the target gets the former source; the source is left digit-less, a move constructor keeping its
    descriptor, a move assignment making it BN_POS. *)
Theorem C40_move : forall x,
  fst (bn_move_ctor x) = x /\ fst (bn_move_assign x) = x /\
  snd (bn_move_ctor x) = mkBN (desc x) [] /\ snd (bn_move_assign x) = mkBN BN_POS [].
Proof. repeat split. Qed.
Print Assumptions C40_move.

(** In a program: r = s and r = std::move(s) touch no third variable, and r = s does not touch s. *)
Theorem C40_frame : forall E r t s al n s' n',
  (step E (ICopy r t) s al n = Ret s' n' -> forall i, i <> r -> s' i = s i) /\
  (step E (IMove r t) s al n = Ret s' n' -> forall i, i <> r -> i <> t -> s' i = s i) /\
  (r <> t -> step E (IMove r t) s al n = Ret s' n' -> s' r = s t).
Proof.
  intros E r t s al n s' n'. split; [|split].
  - intros H i Hi. cbn [step] in H. unfold bind in H.
    destruct (bn_copy_assign (s r) (operand s r t) al n) as [a m|e m|u|]; try discriminate.
    unfold ret in H. injection H as <- <-. unfold upd. apply Nat.eqb_neq in Hi. rewrite Hi. reflexivity.
  - intros H i Hi Ht. cbn [step bn_move_assign] in H. destruct (t =? r)%nat;
    unfold ret in H; injection H as <- <-; unfold upd; apply Nat.eqb_neq in Hi, Ht; rewrite Hi, ?Ht; reflexivity.
  - intros Hr H. cbn [step bn_move_assign] in H. rewrite (proj2 (Nat.eqb_neq t r)) in H by congruence.
    unfold ret in H; injection H as <- <-. unfold upd. rewrite Nat.eqb_refl. reflexivity.
Qed.
Print Assumptions C40_frame.

(** x = std::move(x): the object becomes positive and keeps its digits or loses them, as the container's self-move does.  So a negative number
    turns into its absolute value or into zero, an infinity or NaN into a finite number, and only a positive number can keep its value. *)
Theorem C40_self_move : forall E r s al n, exists s', step E (IMove r r) s al n = Ret s' n /\
  (forall i, i <> r -> s' i = s i) /\ desc (s' r) = BN_POS /\ (data (s' r) = data (s r) \/ data (s' r) = []) /\
  (desc (s r) <> BN_POS -> s' r <> s r) /\
  (forall B, 2 <= B -> digits_ok B (data (s r)) -> finite (s r) ->
     signed_value B (s' r) = Z.abs (signed_value B (s r)) \/ signed_value B (s' r) = 0).
Proof.
  intros E r s al n. cbn [step]. rewrite Nat.eqb_refl. unfold bn_self_move_assign. eexists. split; [reflexivity|]. unfold upd at 2 3 4 5 6 7. rewrite Nat.eqb_refl.
  cbn [desc data]. split; [|split; [reflexivity|split; [destruct (eKeep E); auto|split]]].
  - intros i Hi. unfold upd. apply Nat.eqb_neq in Hi. rewrite Hi. reflexivity.
  - intros H K. apply H. rewrite <- K. reflexivity.
  - intros B HB Hd Fx. unfold signed_value. cbn [desc data]. destruct (eKeep E); [left|right; reflexivity].
    pose proof (value_bounds B HB _ Hd). destruct Fx as [-> | ->]; lia.
Qed.
Print Assumptions C40_self_move.

Example C40_self_move_case : forall E al n s', eKeep E = true -> step E (IMove 0 0) (fun _ => mkBN BN_NEG [7; 1]) al n = Ret s' n ->
  signed_value 10 (s' 0%nat) = 17 /\ signed_value 10 (mkBN BN_NEG [7; 1]) = -17.
Proof. intros E al n s' HE H. cbn [step Nat.eqb] in H. rewrite HE in H. injection H as <-. split; reflexivity. Qed.

(** ** C41 *)
Theorem C41_shipped_limits : forall L, In L shipped ->
  limits_ok L = true /\
  (can_double L = true <-> In L base_n_types) /\ (full_width L = true <-> In L full_width_types).
Proof.
  intros L H. cbn in H.
  repeat (destruct H as [<- | H];
    [split; [reflexivity|]; split; (split; [vm_compute; intros; try discriminate; tauto|]);
     intros K; cbn in K; repeat (destruct K as [K|K]; [first [discriminate K|reflexivity]|]); contradiction|]).
  contradiction.
Qed.
Print Assumptions C41_shipped_limits.

(** The bases the names and the documentation promise. *)
Theorem C41_bases : map base full_width_types = [2 ^ 8; 2 ^ 16; 2 ^ 32] /\ map base base_n_types = [2; 8; 10; 16; 256] /\
  Forall (fun L => bmin L = 0) shipped.
Proof. repeat split; repeat constructor. Qed.
Print Assumptions C41_bases.

(** ** C43 *)
(** Copy assignment is not failure atomic: if its allocation is refused, the target keeps its own digits under
    the descriptor of the source.  So a failed x = y can leave x equal to -x, a value it never had. *)
Theorem C43_copy_assign_not_atomic : forall B x y al n, al n = false ->
  exists z, bn_copy_assign x (Other y) al n = Ret (z, Some ExBadAlloc) (S n) /\
    data z = data x /\ desc z = desc y /\
    (desc x = BN_POS -> desc y = BN_NEG -> signed_value B z = - signed_value B x).
Proof.
  intros B x y al n H. exists (mkBN (desc y) (data x)). split.
  - rewrite (proj1 (C40_copy_assign x y al n)), H. reflexivity.
  - repeat split. intros E1 E2. unfold signed_value. cbn [desc data]. rewrite E1, E2. reflexivity.
Qed.
Print Assumptions C43_copy_assign_not_atomic.

Definition C43_full_statement : Prop :=
  forall x y al n z e n', bn_copy_assign x (Other y) al n = Ret (z, Some e) n' -> z = x.
Theorem C43_copy_assign_atomic_refuted : ~ C43_full_statement.
Proof.
  intros H. specialize (H (mkBN BN_POS [5]) (mkBN BN_NEG [7]) (fun _ => false) 0%nat (mkBN BN_NEG [5]) ExBadAlloc 1%nat eq_refl).
  discriminate.
Qed.
Print Assumptions C43_copy_assign_atomic_refuted.

(** ** C42 *)
Import String.
(** the severity a user sees in the message *)
Definition severity (t : bn_error_t) : string :=
  match t with BN_ALERT => "ALERT" | BN_WARNING => "WARNING" | BN_ERROR => "ERROR" end%string.

(** Nothing happens if the condition holds.  Otherwise exactly one line is written, on std::cout for an alert and
    on std::cerr otherwise, and exactly an error throws (its own enumerator). *)
Theorem C42_runtime_assert : forall c t msg,
  (c = true -> bn_runtime_assert c t msg = ([], None)) /\
  (c = false -> exists s,
     fst (bn_runtime_assert c t msg) =
       [(s, severity t ++ ": " ++ msg ++ String (Ascii.ascii_of_nat 10) EmptyString)%string] /\
     (s = Cout <-> t = BN_ALERT) /\
     (forall e, snd (bn_runtime_assert c t msg) = Some e <-> t = BN_ERROR /\ e = BN_ERROR)).
Proof.
  intros c t msg. split; intros ->; [reflexivity|].
  destruct t; cbn; eexists; (split; [reflexivity|]); (split; [split; congruence|]);
    intros e; (split; [intros K|intros [K1 K2]]); try discriminate; try congruence; injection K as <-; auto.
Qed.
Print Assumptions C42_runtime_assert.

