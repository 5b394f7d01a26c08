(** * C83: vectors of numbers *)
From Coq Require Import List Arith Lia.
From Verif Require Import Base Spec Limits Bignum Machine MulMemory Capacity Sequence.
From Verif Require Import Wp Outcome.
Import ListNotations.
Open Scope nat_scope.

(** ** Specification *)

Definition numbers (v : seqn) : list bignum := map bare (elems v).

(** what an operation does to the list of numbers, and when it is allowed *)
Definition does (o : vop) (l l' : list bignum) : Prop :=
  match o with
  | VPush x | VGive x => l' = l ++ [bare x]
  | VInsert i x => exists a b, l = a ++ b /\ length a = i /\ l' = a ++ bare x :: b
  | VErase i => exists a x b, l = a ++ x :: b /\ length a = i /\ l' = a ++ b
  | VPop => exists x, l = l' ++ [x]
  | VSwap i j => length l' = length l /\
      forall k, nth_error l' k = nth_error l (if k =? i then j else if k =? j then i else k)
  | VReserve _ => l' = l
  end.
Definition allowed (o : vop) (l : list bignum) : Prop :=
  match o with
  | VInsert i _ => i <= length l
  | VErase i => i < length l
  | VPop => l <> []
  | VSwap i j => i < length l /\ j < length l
  | _ => True
  end.
Inductive do_all : list vop -> list bignum -> list bignum -> Prop :=
| do_none l : do_all [] l l
| do_next o ops l l1 l' : allowed o l -> does o l l1 -> do_all ops l1 l' -> do_all (o :: ops) l l'.

(** requests: a copy of a number that has digits asks once, a reallocation asks for the new storage and copies all the numbers *)
Definition asks (x : obj) : nat := match items (ovec x) with [] => 0 | _ => 1 end.
Definition relocation (v : seqn) : nat := 1 + list_sum (map asks (elems v)).
Definition room_needed (v : seqn) : nat := if length (elems v) <? slots v then 0 else relocation v.
Definition cost (o : vop) (v : seqn) : nat :=
  match o with
  | VPush x | VInsert _ x => asks x + room_needed v
  | VGive _ => room_needed v
  | VReserve n => if n <=? slots v then 0 else relocation v
  | _ => 0
  end.

(** ** Proofs *)

(** a copy: its capacity is its size *)
Definition tight (x : obj) : obj := mkObj (odesc x) (mkVec (items (ovec x)) (length (items (ovec x)))).
Lemma bare_tight x : bare (tight x) = bare x.
Proof. reflexivity. Qed.
Lemma numbers_tight l : map bare (map tight l) = map bare l.
Proof. rewrite map_map. apply map_ext. exact bare_tight. Qed.

(** a computation that asks [c] times, and returns [a] if it gets all of it *)
Definition either {A} (c : nat) (a : A) (m : M A) : Prop := forall al n,
  match m al n with
  | Ret b n' => b = a /\ n' = n + c /\ granted al n n'
  | Throw e n' => e = ExBadAlloc /\ n' <= n + c /\ refused al n n'
  | _ => False
  end.

Lemma either_ret {A} (a : A) : either 0 a (ret a).
Proof. intros al n. cbn. repeat split; [lia|]. intros k Hk. lia. Qed.

Lemma either_alloc : either 1 tt alloc.
Proof.
  intros al n. unfold alloc. destruct (al n) eqn:E.
  - split; [reflexivity|]. split; [lia|]. intros k Hk. replace k with n by lia. exact E.
  - split; [reflexivity|]. split; [lia|]. exists n. split; [lia|exact E].
Qed.

Lemma either_bind {A B} c c' (a : A) (b : B) m k : either c a m -> either c' b (k a) -> either (c + c') b (bind m k).
Proof.
  intros H H' al n. unfold bind. specialize (H al n). destruct (m al n) as [x n1|e n1|u|]; try contradiction.
  - destruct H as (-> & -> & G). specialize (H' al (n + c)). destruct (k a al (n + c)) as [y n2|e n2|u|]; try contradiction.
    + destruct H' as (-> & -> & G'). split; [reflexivity|]. split; [lia|]. intros j Hj. destruct (le_lt_dec (n + c) j); [apply G'|apply G]; lia.
    + destruct H' as (-> & L & (j & Hj & E)). split; [reflexivity|]. split; [lia|]. exists j. split; [lia|exact E].
  - destruct H as (-> & L & R). split; [reflexivity|]. split; [lia|exact R].
Qed.

Lemma either_copied x : either (asks x) (tight x) (ccopied x).
Proof.
  unfold ccopied, ccopy, obtain, asks, tight. destruct (items (ovec x)) as [|d l]; cbn [length Nat.ltb Nat.leb].
  - intros al n. cbn. repeat split; [lia|]. intros k Hk. lia.
  - intros al n. unfold bind, ret. pose proof (either_alloc al n) as H. destruct (alloc al n); try contradiction; [|exact H].
    destruct H as (-> & -> & G). repeat split. exact G.
Qed.

Lemma either_copies l : either (list_sum (map asks l)) (map tight l) (copies l).
Proof.
  induction l as [|x r IH]; [apply either_ret|]. cbn [copies map list_sum fold_right].
  apply (either_bind _ _ (tight x)); [apply either_copied|]. change (fold_right Nat.add 0 (map asks r)) with (list_sum (map asks r)).
  rewrite <- (Nat.add_0_r (list_sum (map asks r))). apply (either_bind _ _ (map tight r)); [exact IH|]. apply either_ret.
Qed.

Section Proofs.
Context (grow : nat -> nat -> nat).

(** either the vector [w], or an exception and the old one *)
Definition stronger (c : nat) (v w : seqn) (m : M outcome) : Prop := forall al n,
  exists n', (m al n = Ret (w, None) n' /\ n' = n + c /\ granted al n n') \/
             (m al n = Ret (v, Some ExBadAlloc) n' /\ n' <= n + c /\ refused al n n').

Lemma unless_stronger c v w m : either c w m -> stronger c v w (unless_thrown v m).
Proof.
  intros H al n. unfold unless_thrown, bind, attempt. specialize (H al n). destruct (m al n) as [x n1|e n1|u|]; try contradiction.
  - destruct H as (-> & E & G). exists n1. left. auto.
  - destruct H as (-> & E & G). exists n1. right. auto.
Qed.

Lemma ret_stronger v w : stronger 0 v w (ret (w, None)).
Proof. intros al n. exists n. left. repeat split; [lia|]. intros k Hk. lia. Qed.

Lemma asks_app l i : list_sum (map asks (firstn i l)) + list_sum (map asks (skipn i l)) = list_sum (map asks l).
Proof. rewrite <- list_sum_app, <- map_app, firstn_skipn. reflexivity. Qed.

Lemma either_realloc v i x : either (asks x + relocation v)
  (mkSeq (map tight (firstn i (elems v)) ++ tight x :: map tight (skipn i (elems v))) (grow (length (elems v)) 1)) (realloc_insert grow v i x).
Proof.
  unfold realloc_insert, relocation. rewrite <- (asks_app (elems v) i).
  replace (asks x + _) with (1 + (asks x + (list_sum (map asks (firstn i (elems v))) + (list_sum (map asks (skipn i (elems v))) + 0)))) by lia.
  apply (either_bind _ _ tt); [apply either_alloc|]. apply (either_bind _ _ (tight x)); [apply either_copied|].
  apply (either_bind _ _ (map tight (firstn i (elems v)))); [apply either_copies|].
  apply (either_bind _ _ (map tight (skipn i (elems v)))); [apply either_copies|]. apply either_ret.
Qed.

(** *** moving elements *)

Lemma place_at a x b y i : i = length a -> place (a ++ x :: b) i y = a ++ y :: b.
Proof.
  intros ->. unfold place. rewrite firstn_app, Nat.sub_diag, firstn_all. cbn [firstn]. rewrite app_nil_r. f_equal. f_equal.
  rewrite skipn_app, skipn_all2 by lia. replace (S (length a) - length a) with 1 by lia. reflexivity.
Qed.
Lemma index_at a x b i : i = length a -> at_index (a ++ x :: b) i = x.
Proof. intros ->. unfold at_index. apply nth_middle. Qed.

Lemma shift_down_at b : forall a x, exists z, shift_down (length b) (length a) (a ++ x :: b) = a ++ b ++ [z].
Proof.
  induction b as [|y b IH]; intros a x; cbn [length shift_down app].
  - exists x. reflexivity.
  - unfold move_within.
    assert (at_index (a ++ x :: y :: b) (S (length a)) = y) as ->.
    { change (a ++ x :: y :: b) with (a ++ [x] ++ y :: b). rewrite app_assoc. apply index_at. rewrite app_length. cbn. lia. }
    rewrite place_at by reflexivity. change (a ++ y :: y :: b) with (a ++ [y] ++ y :: b). rewrite app_assoc.
    rewrite place_at by (rewrite app_length; cbn; lia).
    replace (S (length a)) with (length (a ++ [y])) by (rewrite app_length; cbn; lia).
    destruct (IH (a ++ [y]) assigned_from) as [z E]. exists z. rewrite E, <- app_assoc. reflexivity.
Qed.

Lemma shift_up_at b : forall a x c, exists z, shift_up (length b) (length a + length b) (a ++ b ++ x :: c) = a ++ z :: b ++ c.
Proof.
  induction b as [|y b IH] using rev_ind; intros a x c.
  - exists x. reflexivity.
  - rewrite app_length. cbn [length]. rewrite Nat.add_1_r. cbn [shift_up]. unfold move_within.
    rewrite <- !app_assoc. cbn [app].
    assert (at_index (a ++ b ++ y :: x :: c) (length a + S (length b) - 1) = y) as ->.
    { rewrite app_assoc. apply index_at. rewrite app_length. lia. }
    replace (a ++ b ++ y :: x :: c) with ((a ++ b ++ [y]) ++ x :: c) by (rewrite <- !app_assoc; reflexivity).
    rewrite place_at by (rewrite !app_length; cbn; lia).
    replace ((a ++ b ++ [y]) ++ y :: c) with ((a ++ b) ++ y :: y :: c) by (rewrite <- !app_assoc; reflexivity).
    rewrite place_at by (rewrite app_length; lia).
    replace (length a + S (length b) - 1) with (length a + length b) by lia. rewrite <- app_assoc.
    destruct (IH a assigned_from (y :: c)) as [z E]. exists z. exact E.
Qed.

Lemma insert_within_at a b c : b <> [] -> insert_within (a ++ b) (length a) c = a ++ c :: b.
Proof.
  intros Hb. destruct (exists_last Hb) as (b' & t & ->). unfold insert_within.
  replace (length (a ++ b' ++ [t]) - 1) with (length a + length b') by (rewrite !app_length; cbn; lia).
  replace (length a + length b' - length a) with (length b') by lia.
  rewrite (app_assoc a b' [t]). rewrite index_at, place_at by (rewrite app_length; lia).
  rewrite <- !app_assoc. cbn [app]. destruct (shift_up_at b' a (moved_from t) [t]) as [z ->].
  apply place_at. reflexivity.
Qed.

Lemma split_at {A} (l : list A) i : i < length l -> exists a x b, l = a ++ x :: b /\ length a = i.
Proof.
  intros H. destruct (nth_error l i) as [x|] eqn:E; [|apply nth_error_None in E; lia].
  destruct (nth_error_split l i E) as (a & b & -> & L). exists a, x, b. auto.
Qed.

Lemma erase_elems l i : i < length l -> exists a x b, l = a ++ x :: b /\ length a = i /\
  removelast (shift_down (length l - 1 - i) i l) = a ++ b.
Proof.
  intros H. destruct (split_at l i H) as (a & x & b & -> & <-). exists a, x, b. split; [reflexivity|]. split; [reflexivity|].
  replace (length (a ++ x :: b) - 1 - length a) with (length b) by (rewrite app_length; cbn; lia).
  destruct (shift_down_at b a x) as [z ->]. rewrite app_assoc, removelast_last. reflexivity.
Qed.

Lemma nth_place l i x k : i < length l -> nth_error (place l i x) k = if k =? i then Some x else nth_error l k.
Proof.
  intros H. destruct (split_at l i H) as (a & y & b & -> & <-). rewrite place_at by reflexivity.
  destruct (Nat.eqb_spec k (length a)) as [->|N].
  - rewrite nth_error_app2, Nat.sub_diag by lia. reflexivity.
  - destruct (le_lt_dec (length a) k) as [L|L].
    + rewrite !nth_error_app2 by lia. destruct (k - length a) as [|j] eqn:E; [lia|reflexivity].
    + rewrite !nth_error_app1 by lia. reflexivity.
Qed.
Lemma length_place l i x : i < length l -> length (place l i x) = length l.
Proof. intros H. destruct (split_at l i H) as (a & y & b & -> & <-). rewrite place_at by reflexivity. rewrite !app_length. reflexivity. Qed.
Lemma at_index_nth l i : i < length l -> nth_error l i = Some (at_index l i).
Proof. intros H. apply nth_error_nth'. exact H. Qed.

Ltac bound := first [assumption | lia | rewrite length_place by bound; bound].

Definition swapped_elems (l : list obj) (i j : nat) : list obj :=
  let t := at_index l i in
  let l1 := place l i (moved_from t) in
  let l2 := if i =? j then place l1 i assigned_from else move_within l1 i j in
  place l2 j t.

Lemma swapped_spec l i j : i < length l -> j < length l -> length (swapped_elems l i j) = length l /\
  forall k, nth_error (swapped_elems l i j) k = nth_error l (if k =? i then j else if k =? j then i else k).
Proof.
  intros Hi Hj. unfold swapped_elems. destruct (Nat.eqb_spec i j) as [->|N].
  - split; [rewrite !length_place by bound; reflexivity|]. intros k. rewrite !nth_place by bound.
    destruct (Nat.eqb_spec k j) as [->|]; [|reflexivity]. rewrite at_index_nth by exact Hj. reflexivity.
  - unfold move_within. set (l1 := place l i (moved_from (at_index l i))).
    assert (length l1 = length l) as L1 by (apply length_place; exact Hi).
    assert (at_index l1 j = at_index l j) as Ej.
    { assert (nth_error l1 j = nth_error l j) as E.
      { unfold l1. rewrite nth_place by exact Hi. rewrite (proj2 (Nat.eqb_neq j i)) by auto. reflexivity. }
      rewrite !at_index_nth in E by lia. congruence. }
    split; [rewrite !length_place by bound; exact L1|]. intros k. rewrite !(nth_place (place _ _ _)), (nth_place l1) by bound.
    unfold l1. rewrite nth_place by exact Hi. fold l1. rewrite Ej.
    destruct (Nat.eqb_spec k j) as [->|Nk]; [rewrite (proj2 (Nat.eqb_neq j i)) by auto; symmetry; apply at_index_nth, Hi|].
    destruct (Nat.eqb_spec k i) as [->|Nk']; [symmetry; apply at_index_nth, Hj|reflexivity].
Qed.

Definition in_slots (v : seqn) : Prop := length (elems v) <= slots v.
Definition enough_room : Prop := forall s k, s + k <= grow s k.

Lemma push_split {A} (l : list A) : firstn (length l) l = l /\ skipn (length l) l = [].
Proof. split; [apply firstn_all|apply skipn_all]. Qed.

Lemma step_stronger o v : allowed o (numbers v) ->
  exists w, does o (numbers v) (numbers w) /\ stronger (cost o v) v w (vstep grow o v) /\ (enough_room -> in_slots v -> in_slots w).
Proof.
  unfold numbers, allowed. rewrite map_length. intros Ha. destruct o as [x|x|i x|i| |i j|m]; cbn [vstep cost does].
  - unfold push_copy, room_needed. destruct (Nat.ltb_spec (length (elems v)) (slots v)) as [H|H].
    + exists (mkSeq (elems v ++ [tight x]) (slots v)). cbn [elems]. rewrite map_app. split; [reflexivity|]. split.
      * apply unless_stronger. apply (either_bind _ _ (tight x)); [apply either_copied|apply either_ret].
      * intros _ _. unfold in_slots. cbn. rewrite app_length. cbn. lia.
    + eexists. split; [|split; [apply unless_stronger, either_realloc|]].
      * cbn [elems]. destruct (push_split (elems v)) as [-> ->]. rewrite map_app. cbn [map]. rewrite numbers_tight, bare_tight. reflexivity.
      * intros G _. unfold in_slots. cbn. destruct (push_split (elems v)) as [-> ->]. rewrite app_length, !map_length. cbn. apply (G _ 1).
  - unfold push_move, room_needed. destruct (Nat.ltb_spec (length (elems v)) (slots v)) as [H|H].
    + exists (mkSeq (elems v ++ [x]) (slots v)). cbn [elems]. rewrite map_app. split; [reflexivity|]. split; [apply ret_stronger|].
      intros _ _. unfold in_slots. cbn. rewrite app_length. cbn. lia.
    + exists (mkSeq (map tight (elems v) ++ [x]) (grow (length (elems v)) 1)). cbn [elems]. rewrite map_app, numbers_tight. split; [reflexivity|]. split.
      * intros al n. unfold bind, attempt, relocation. pose proof (either_alloc al n) as H1.
        destruct (alloc al n) as [[] n1|e n1|u|]; try contradiction; destruct H1 as (E1 & H1 & G1).
        -- pose proof (either_copies (elems v) al n1) as H2. destruct (copies (elems v) al n1) as [l n2|e n2|u|]; try contradiction;
             destruct H2 as (E2 & H2 & G2); exists n2.
           ++ left. subst l. cbn. split; [reflexivity|]. split; [lia|]. intros k Hk. destruct (le_lt_dec n1 k); [apply G2|apply G1]; lia.
           ++ right. subst e. cbn. split; [reflexivity|]. split; [lia|]. destruct G2 as (k & Hk & E). exists k. split; [lia|exact E].
        -- exists n1. right. subst e. cbn. split; [reflexivity|]. split; [lia|exact G1].
      * intros G _. unfold in_slots. cbn. rewrite app_length, map_length. cbn. apply (G _ 1).
  - unfold insert_copy, room_needed. rewrite (proj2 (Nat.leb_le _ _)) by exact Ha.
    assert (elems v = firstn i (elems v) ++ skipn i (elems v)) as Es by (symmetry; apply firstn_skipn).
    assert (length (firstn i (elems v)) = i) as Li by (apply firstn_length_le; exact Ha).
    destruct (Nat.ltb_spec (length (elems v)) (slots v)) as [H|H].
    + exists (mkSeq (firstn i (elems v) ++ tight x :: skipn i (elems v)) (slots v)). cbn [elems]. split; [|split].
      * exists (map bare (firstn i (elems v))), (map bare (skipn i (elems v))). rewrite <- map_app, <- Es, map_length, map_app. auto.
      * apply unless_stronger. apply (either_bind _ _ (tight x)); [apply either_copied|].
        assert ((if i =? length (elems v) then elems v ++ [tight x] else insert_within (elems v) i (tight x)) =
                firstn i (elems v) ++ tight x :: skipn i (elems v)) as ->; [|apply either_ret].
        destruct (Nat.eqb_spec i (length (elems v))) as [E|E].
        -- rewrite E. destruct (push_split (elems v)) as [-> ->]. reflexivity.
        -- rewrite Es at 1. rewrite <- Li at 3. apply insert_within_at. intros K. apply (f_equal (@length _)) in K.
           rewrite skipn_length in K. cbn in K. lia.
      * intros _ _. unfold in_slots. cbn. rewrite app_length. cbn. rewrite skipn_length, Li. lia.
    + eexists. split; [|split; [apply unless_stronger, either_realloc|]].
      * cbn [elems]. exists (map bare (firstn i (elems v))), (map bare (skipn i (elems v))).
        rewrite <- map_app, <- Es, map_length, map_app. cbn [map]. rewrite !numbers_tight. auto.
      * intros G _. unfold in_slots. cbn. rewrite app_length. cbn. rewrite !map_length, skipn_length, Li. specialize (G (length (elems v)) 1). lia.
  - unfold erase_at. rewrite (proj2 (Nat.ltb_lt _ _)) by exact Ha. destruct (erase_elems (elems v) i Ha) as (a & x & b & E & L & R).
    eexists. split; [|split; [apply ret_stronger|]].
    + cbn [elems]. rewrite R. exists (map bare a), (bare x), (map bare b). rewrite E, !map_app, map_length. auto.
    + intros _ I. unfold in_slots in *. cbn. rewrite R. rewrite E in I. rewrite app_length in *. cbn in I. lia.
  - unfold pop_last. destruct (elems v) as [|x0 r] eqn:E; [cbn in Ha; congruence|]. rewrite <- E in *.
    assert (elems v <> []) as N by congruence. destruct (exists_last N) as (l & x & El).
    eexists. split; [|split; [apply ret_stronger|]].
    + cbn [elems]. rewrite El, removelast_last. exists (bare x). rewrite map_app. reflexivity.
    + intros _ I. unfold in_slots in *. cbn. rewrite El, removelast_last. rewrite El, app_length in I. cbn in I. lia.
  - unfold swap_at. destruct Ha as [Hi Hj]. rewrite (proj2 (Nat.ltb_lt _ _) Hi), (proj2 (Nat.ltb_lt _ _) Hj). cbn [andb].
    fold (swapped_elems (elems v) i j). destruct (swapped_spec (elems v) i j Hi Hj) as [L K].
    eexists. split; [|split; [apply ret_stronger|]].
    + cbn [elems]. split; [rewrite !map_length; exact L|]. intros k. rewrite !nth_error_map, K. reflexivity.
    + intros _ I. unfold in_slots in *. cbn. rewrite L. exact I.
  - unfold reserve_room. destruct (Nat.leb_spec m (slots v)) as [H|H].
    + exists v. split; [reflexivity|]. split; [apply ret_stronger|auto].
    + exists (mkSeq (map tight (elems v)) m). cbn [elems]. rewrite numbers_tight. split; [reflexivity|]. split.
      * apply unless_stronger. unfold relocation. apply (either_bind _ _ tt); [apply either_alloc|].
        rewrite <- (Nat.add_0_r (list_sum _)). apply (either_bind _ _ (map tight (elems v))); [apply either_copies|apply either_ret].
      * intros _ I. unfold in_slots in *. cbn. rewrite map_length. lia.
Qed.

Lemma step_undefined o v al n : ~ allowed o (numbers v) -> exists u, vstep grow o v al n = Undef u.
Proof.
  unfold numbers, allowed. rewrite map_length. intros Ha. destruct o as [x|x|i x|i| |i j|m]; try (exfalso; apply Ha; exact I); cbn [vstep].
  - unfold insert_copy. rewrite (proj2 (Nat.leb_gt _ _)) by lia. eexists. reflexivity.
  - unfold erase_at. rewrite (proj2 (Nat.ltb_ge _ _)) by lia. eexists. reflexivity.
  - unfold pop_last. destruct (elems v) as [|y r]; [eexists; reflexivity|]. exfalso. apply Ha. discriminate.
  - unfold swap_at. destruct (Nat.ltb_spec i (length (elems v))); [|eexists; reflexivity].
    destruct (Nat.ltb_spec j (length (elems v))); [|eexists; reflexivity]. exfalso. auto.
Qed.

Lemma allowed_dec o l : {allowed o l} + {~ allowed o l}.
Proof.
  destruct o as [x|x|i x|i| |i j|m]; cbn; try (left; exact I).
  - apply le_dec.
  - apply lt_dec.
  - destruct l; [right; intros H; apply H; reflexivity|left; discriminate].
  - destruct (lt_dec i (length l)), (lt_dec j (length l)); try (left; auto; fail); right; intros [? ?]; auto.
Qed.

End Proofs.

(** ** Statements *)

(** One operation: it does what it says to the list of numbers, or throws bad_alloc and leaves the vector as it was, object for object.
    It asks exactly [cost] times if nothing is refused, and it is undefined only where it is not allowed. *)
Theorem C83_step : forall grow o v al n,
  match vstep grow o v al n with
  | Ret (w, None) n' => allowed o (numbers v) /\ does o (numbers v) (numbers w) /\ n' = n + cost o v /\ granted al n n'
  | Ret (w, Some e) n' => w = v /\ e = ExBadAlloc /\ n' <= n + cost o v /\ refused al n n'
  | Undef _ => ~ allowed o (numbers v)
  | _ => False
  end.
Proof.
  intros grow o v al n. destruct (allowed_dec o (numbers v)) as [Ha|Ha].
  - destruct (step_stronger grow o v Ha) as (w & D & S & _). destruct (S al n) as (n' & [(-> & E & G)|(-> & E & G)]); auto.
  - destruct (step_undefined grow o v al n Ha) as [u ->]. exact Ha.
Qed.
Print Assumptions C83_step.

(** The number of elements stays within the capacity. *)
Theorem C83_capacity : forall grow o v al n w e n', (forall s k, s + k <= grow s k) -> length (elems v) <= slots v ->
  vstep grow o v al n = Ret (w, e) n' -> length (elems w) <= slots w.
Proof.
  intros grow o v al n w e n' G I E. destruct (allowed_dec o (numbers v)) as [Ha|Ha].
  - destruct (step_stronger grow o v Ha) as (w' & _ & S & K). destruct (S al n) as (n1 & [(E' & _)|(E' & _)]); rewrite E in E'.
    + assert (w = w') as -> by congruence. apply K; auto.
    + assert (w = v) as -> by congruence. exact I.
  - destruct (step_undefined grow o v al n Ha) as [u E']. congruence.
Qed.
Print Assumptions C83_capacity.

(** A program of operations: it does them in turn, up to the first one that throws, if one does. *)
Theorem C83_program : forall grow ops v al n,
  match vrun grow ops v 0 al n with
  | Ret ((w, e), k) n' => do_all (firstn k ops) (numbers v) (numbers w) /\
      match e with None => k = length ops | Some e => k < length ops /\ e = ExBadAlloc /\ refused al n n' end
  | Undef _ => exists k o l, do_all (firstn k ops) (numbers v) l /\ nth_error ops k = Some o /\ ~ allowed o l
  | _ => False
  end.
Proof.
  intros grow ops. enough (forall v j al n,
    match vrun grow ops v j al n with
    | Ret ((w, e), k) n' => j <= k /\ n <= n' /\ do_all (firstn (k - j) ops) (numbers v) (numbers w) /\
        match e with None => k - j = length ops | Some e => k - j < length ops /\ e = ExBadAlloc /\ refused al n n' end
    | Undef _ => exists k o l, do_all (firstn k ops) (numbers v) l /\ nth_error ops k = Some o /\ ~ allowed o l
    | _ => False
    end) as H.
  { intros v al n. specialize (H v 0 al n). destruct (vrun grow ops v 0 al n) as [[[w e] k] n'|e n'|u|]; auto.
    rewrite Nat.sub_0_r in H. destruct H as (_ & _ & H). exact H. }
  induction ops as [|o ops IH]; intros v j al n; cbn [vrun].
  - cbn. rewrite Nat.sub_diag. repeat split; try lia. constructor.
  - unfold bind. pose proof (C83_step grow o v al n) as S. destruct (vstep grow o v al n) as [[w [e|]] n1|e n1|u|]; try contradiction; cbn [fst snd].
    + destruct S as (-> & -> & _ & R). cbn. rewrite Nat.sub_diag. split; [lia|]. split; [destruct R as (? & ? & _); lia|].
      split; [constructor|]. split; [lia|]. auto.
    + destruct S as (Ha & D & -> & _). specialize (IH w (S j) al (n + cost o v)).
      destruct (vrun grow ops w (S j) al (n + cost o v)) as [[[w' e] k] n'|e n'|u|]; try contradiction.
      * destruct IH as (L1 & L2 & A & B). split; [lia|]. split; [lia|]. replace (k - j) with (S (k - S j)) by lia. cbn [firstn length].
        split; [econstructor; eassumption|]. destruct e as [e|]; [|lia]. destruct B as (B1 & B2 & (i & Hi & F)). split; [lia|]. split; [exact B2|].
        exists i. split; [lia|exact F].
      * destruct IH as (k & o' & l & A & B & C). exists (S k), o', l. split; [cbn; econstructor; eassumption|]. auto.
    + exists 0, o, (numbers v). split; [constructor|]. auto.
Qed.
Print Assumptions C83_program.

(** [v.push_back(std::move(x))]: if it returns, the number is in the vector, and x has no digits and its old descriptor.  If it throws, x is
    as it was exactly if the storage for the elements was refused. *)
Theorem C83_give : forall grow v x al n,
  match push_move grow v x al n with
  | Ret ((w, None), y) _ => numbers w = numbers v ++ [bare x] /\ odesc y = odesc x /\ items (ovec y) = []
  | Ret ((w, Some e), y) _ => w = v /\ e = ExBadAlloc /\ (if al n then odesc y = odesc x /\ items (ovec y) = [] else y = x)
  | _ => False
  end.
Proof.
  intros grow v x al n. pose proof (C83_step grow (VGive x) v al n) as P. cbn [vstep] in P. unfold bind in P.
  unfold push_move in *. destruct (length (elems v) <? slots v); [cbn in *; intuition auto|].
  unfold bind, attempt, alloc in *. destruct (al n); [|cbn in *; intuition auto].
  destruct (copies (elems v) al (S n)) as [l n2|e n2|u|]; cbn in *; intuition auto.
Qed.
Print Assumptions C83_give.

(** So a push_back that throws can lose the number it was to take. *)
Theorem C83_failed_push_keeps_refuted : forall grow, exists v x al y n',
  push_move grow v x al 0 = Ret ((v, Some ExBadAlloc), y) n' /\ items (ovec x) <> [] /\ items (ovec y) = [].
Proof.
  intros grow. exists (mkSeq [mkObj BN_POS (mkVec [7%Z] 1)] 1), (mkObj BN_POS (mkVec [5%Z] 1)), (fun k => k =? 0), (mkObj BN_POS nothing), 2.
  split; [reflexivity|]. split; [discriminate|reflexivity].
Qed.
Print Assumptions C83_failed_push_keeps_refuted.

(** A reallocation takes from the numbers the capacity they had for more digits. *)
Theorem C83_spare_room_lost : forall grow v x al n w n', slots v <= length (elems v) -> push_copy grow v x al n = Ret (w, None) n' ->
  Forall (fun y => room (ovec y) = length (items (ovec y))) (elems w).
Proof.
  intros grow v x al n w n' H E.
  assert (stronger (asks x + relocation v) v
    (mkSeq (map tight (firstn (length (elems v)) (elems v)) ++ tight x :: map tight (skipn (length (elems v)) (elems v))) (grow (length (elems v)) 1))
    (push_copy grow v x)) as S.
  { unfold push_copy. rewrite (proj2 (Nat.ltb_ge _ _)) by exact H. apply unless_stronger, either_realloc. }
  destruct (S al n) as (n1 & [(E' & _)|(E' & _)]); rewrite E in E'; [|discriminate].
  assert (forall l, Forall (fun y => room (ovec y) = length (items (ovec y))) (map tight l)) as T
    by (intros l; apply Forall_forall; intros y Hy; apply in_map_iff in Hy; destruct Hy as (z & <- & _); reflexivity).
  injection E' as -> _. cbn [elems]. apply Forall_app. split; [apply T|]. constructor; [reflexivity|apply T].
Qed.
Print Assumptions C83_spare_room_lost.

(** *** n push_backs into an empty vector whose storage doubles: the exact number of requests *)
Definition doubling (s k : nat) : nat := Nat.max (s + k) (2 * s).

Lemma asks_digits x : items (ovec x) <> [] -> asks x = 1.
Proof. unfold asks. destruct (items (ovec x)); congruence. Qed.
Lemma asks_all l : Forall (fun x => items (ovec x) <> []) l -> list_sum (map asks l) = length l.
Proof. induction 1 as [|x l H _ IH]; [reflexivity|]. cbn. rewrite asks_digits by exact H. cbn in IH. fold (list_sum (map asks l)). rewrite <- IH. reflexivity. Qed.

Lemma pushed_from : forall xs v al n k, (forall i, al i = true) -> Forall (fun x => items (ovec x) <> []) (elems v ++ xs) ->
  1 <= length (elems v) -> slots v = 2 ^ Nat.log2_up (length (elems v)) ->
  exists w, vrun doubling (map VPush xs) v k al n = Ret ((w, None), k + length xs) (n + length xs +
    (Nat.log2_up (length (elems v) + length xs) + 2 ^ Nat.log2_up (length (elems v) + length xs) - (Nat.log2_up (length (elems v)) + 2 ^ Nat.log2_up (length (elems v))))).
Proof.
  induction xs as [|x xs IH]; intros v al n k Hal Hd H1 Hs.
  - exists v. cbn. rewrite !Nat.add_0_r, Nat.sub_diag. rewrite Nat.add_0_r. reflexivity.
  - cbn [map vrun]. unfold bind. pose proof (C83_step doubling (VPush x) v al n) as S.
    destruct (vstep doubling (VPush x) v al n) as [[w [e|]] n1|e n1|u|] eqn:E; try contradiction; cbn [fst snd].
    { destruct S as (_ & _ & _ & (i & _ & F)). rewrite Hal in F. discriminate. }
    2:{ exfalso. apply S. exact I. }
    apply Forall_app in Hd. destruct Hd as [Hv Hx]. inversion Hx as [|? ? Hx1 Hx2]; subst.
    destruct S as (_ & D & -> & _). cbn [does cost] in *. set (s := length (elems v)) in *.
    assert (length (elems w) = S s) as Lw.
    { apply (f_equal (@length _)) in D. unfold numbers in D. rewrite app_length, !map_length in D. cbn in D. unfold s. lia. }
    pose proof (Nat.log2_up_spec s) as Sp.
    assert (slots w = 2 ^ Nat.log2_up (S s) /\ Forall (fun x => items (ovec x) <> []) (elems w) /\
            room_needed v = Nat.log2_up (S s) + 2 ^ Nat.log2_up (S s) - (Nat.log2_up s + 2 ^ Nat.log2_up s)) as (Sw & Dw & Rv).
    { cbn [vstep] in E. unfold push_copy, room_needed in *. fold s in E |- *. destruct (Nat.ltb_spec s (slots v)) as [Q|Q].
      - assert (stronger (asks x + 0) v (mkSeq (elems v ++ [tight x]) (slots v))
          (unless_thrown v (c <- ccopied x;; ret (mkSeq (elems v ++ [c]) (slots v))))) as P.
        { apply unless_stronger. apply (either_bind _ _ (tight x)); [apply either_copied|apply either_ret]. }
        destruct (P al n) as (n1 & [(E' & _)|(E' & _)]); rewrite E in E'; [|discriminate]. injection E' as -> _. cbn [slots elems].
        assert (Nat.log2_up (S s) = Nat.log2_up s) as ->.
        { destruct (Nat.log2_up_succ_or s) as [K|K]; [|exact K]. exfalso.
          assert (Nat.log2_up (S s) <= Nat.log2_up s) as K'; [|lia]. rewrite <- (Nat.log2_up_pow2 (Nat.log2_up s)) by lia. apply Nat.log2_up_le_mono. lia. }
        split; [exact Hs|]. split; [|lia]. apply Forall_app. split; [exact Hv|]. constructor; [exact Hx1|constructor].
      - destruct (unless_stronger _ v _ _ (either_realloc doubling v s x) al n) as (n1 & [(E' & _)|(E' & _)]); rewrite E in E'; [|discriminate].
        injection E' as -> _. cbn [slots elems]. unfold s at 2 3. destruct (push_split (elems v)) as [-> ->].
        assert (s = 2 ^ Nat.log2_up s) as Es.
        { rewrite Hs in Q. destruct (Nat.eq_dec s 1) as [->|N1]; [reflexivity|]. destruct (Sp ltac:(lia)). lia. }
        assert (Nat.log2_up (S s) = S (Nat.log2_up s)) as ->.
        { destruct (Nat.log2_up_succ_or s) as [K|K]; [exact K|]. exfalso. destruct (Nat.log2_up_spec (S s) ltac:(lia)) as [_ K']. rewrite K, <- Es in K'. lia. }
        cbn [Nat.pow]. split; [unfold doubling; lia|]. split.
        + apply Forall_app. split; [|constructor; [exact Hx1|constructor]]. apply Forall_forall. intros y Hy. apply in_map_iff in Hy.
          destruct Hy as (z & <- & Hz). rewrite Forall_forall in Hv. exact (Hv z Hz).
        + unfold relocation. rewrite asks_all by exact Hv. fold s. lia. }
    destruct (IH w al (n + (asks x + room_needed v)) (S k) Hal) as [w' E'].
    + apply Forall_app. split; assumption.
    + lia.
    + rewrite Lw. exact Sw.
    + exists w'. rewrite E', asks_digits by exact Hx1. rewrite Lw. cbn [length]. f_equal; [f_equal; lia|]. rewrite Rv.
      replace (s + S (length xs)) with (S s + length xs) by lia.
      assert (Nat.log2_up s <= Nat.log2_up (S s)) by (apply Nat.log2_up_le_mono; lia).
      assert (Nat.log2_up (S s) <= Nat.log2_up (S s + length xs)) by (apply Nat.log2_up_le_mono; lia).
      assert (2 ^ Nat.log2_up s <= 2 ^ Nat.log2_up (S s)) by (apply Nat.pow_le_mono_r; lia).
      assert (2 ^ Nat.log2_up (S s) <= 2 ^ Nat.log2_up (S s + length xs)) by (apply Nat.pow_le_mono_r; lia).
      lia.
Qed.

(** n for the copies of the arguments, log2_up n + 1 for the storages and 2^(log2_up n) - 1 for the copies of the elements *)
Theorem C83_requests : forall xs al, (forall i, al i = true) -> Forall (fun x => items (ovec x) <> []) xs -> xs <> [] ->
  exists w, vrun doubling (map VPush xs) (mkSeq [] 0) 0 al 0 =
    Ret ((w, None), length xs) (length xs + (Nat.log2_up (length xs) + 1) + (2 ^ Nat.log2_up (length xs) - 1)) /\
    numbers w = map bare xs.
Proof.
  intros xs al Hal Hd Hn. destruct xs as [|x xs]; [congruence|]. inversion Hd as [|? ? H1 H2]; subst.
  assert (vstep doubling (VPush x) (mkSeq [] 0) al 0 = Ret (mkSeq [tight x] 1, None) 2) as E.
  { destruct (unless_stronger _ (mkSeq [] 0) _ _ (either_realloc doubling (mkSeq [] 0) 0 x) al 0) as (n1 & [(E' & -> & _)|(_ & _ & (i & _ & F))]).
    - cbn in E'. rewrite asks_digits in E' by exact H1. exact E'.
    - rewrite Hal in F. discriminate. }
  destruct (pushed_from xs (mkSeq [tight x] 1) al 2 1 Hal) as [w E'].
  - constructor; assumption.
  - cbn. lia.
  - reflexivity.
  - assert (vrun doubling (map VPush (x :: xs)) (mkSeq [] 0) 0 al 0 = Ret ((w, None), length (x :: xs))
      (length (x :: xs) + (Nat.log2_up (length (x :: xs)) + 1) + (2 ^ Nat.log2_up (length (x :: xs)) - 1))) as R.
    { cbn [map vrun]. unfold bind. rewrite E. cbn [fst snd]. rewrite E'. f_equal. cbn [length elems].
      change (1 + length xs) with (S (length xs)). assert (1 <= 2 ^ Nat.log2_up (S (length xs))) by (apply Nat.neq_0_lt_0, Nat.pow_nonzero; lia).
      change (Nat.log2_up 1) with 0. cbn [Nat.pow]. lia. }
    exists w. split; [exact R|]. pose proof (C83_program doubling (map VPush (x :: xs)) (mkSeq [] 0) al 0) as P. rewrite R in P.
    destruct P as [P _]. rewrite <- (map_length VPush (x :: xs)), firstn_all in P.
    assert (forall ys l l', do_all (map VPush ys) l l' -> l' = l ++ map bare ys) as K.
    { induction ys as [|y ys IH]; intros l l' D; inversion D; subst; [symmetry; apply app_nil_r|].
      match goal with H : does _ _ _ |- _ => cbn in H; subst end. erewrite (IH _ _ ltac:(eassumption)). rewrite <- app_assoc. reflexivity. }
    exact (K _ _ _ P).
Qed.
Print Assumptions C83_requests.

(** ** Cases *)
Definition num (d : Z) : obj := mkObj BN_POS (mkVec [d] 4).
Definition shown (r : res (outcome * nat)) : option (list bignum * nat) :=
  match r with Ret ((w, None), k) n => Some (numbers w, n) | _ => None end.

(** 3, 1, 2; the first and the last exchanged; 9 inserted behind the first; the third erased: 9 requests.  An element exchanged with
    itself stays. *)
Example C83_case :
  shown (run (vrun doubling [VPush (num 3); VGive (num 1); VPush (num 2); VSwap 0 2; VInsert 1 (num 9); VErase 2; VSwap 1 1] (mkSeq [] 0) 0)) =
  Some ([mkBN BN_POS [2%Z]; mkBN BN_POS [9%Z]; mkBN BN_POS [3%Z]], 9).
Proof. vm_compute. reflexivity. Qed.

(** five push_backs: 5 copies of arguments, 4 storages, 1 + 2 + 4 copies of elements *)
Example C83_five : match run (vrun doubling (map VPush (map num [1%Z; 2%Z; 3%Z; 4%Z; 5%Z])) (mkSeq [] 0) 0) with Ret _ n => n = 16 | _ => False end.
Proof. vm_compute. reflexivity. Qed.
