(** * Reasoning about programs that write *)
From Coq Require Import String.
From Verif Require Import Base Spec Bignum Outcome Program ProgramSpec Wp BignumProof.
Local Open Scope string_scope.
Local Open Scope w_scope.

Lemma app_assoc_s (a b c : string) : a ++ (b ++ c) = (a ++ b) ++ c.
Proof. induction a as [|x a IH]; [reflexivity|cbn; rewrite IH; reflexivity]. Qed.
Lemma app_nil_s (a : string) : a ++ "" = a.
Proof. induction a as [|x a IH]; [reflexivity|cbn; rewrite IH; reflexivity]. Qed.
Lemma app_nonempty_s (a b : string) : b <> "" -> a ++ b <> "".
Proof. destruct a; [auto|discriminate]. Qed.
Lemma app_nonempty_l (a b : string) : a <> "" -> a ++ b <> "".
Proof. destruct a; [congruence|discriminate]. Qed.
Lemma no_prefix (a b : string) : "" = a ++ b -> a = "".
Proof. destruct a; [auto|discriminate]. Qed.

Lemma refused_l al n m k : (m <= k)%nat -> refused al n m -> refused al n k.
Proof. intros H (i & Hi & E). exists i. split; [lia|exact E]. Qed.
Lemma refused_r al n m k : (n <= m)%nat -> refused al m k -> refused al n k.
Proof. intros H (i & Hi & E). exists i. split; [lia|exact E]. Qed.

(** ** Both streams *)

Lemma both_quiet {A} (m : M A) Q : returns m Q -> writes_both (quiet m) "" "" Q.
Proof.
  intros H al n. specialize (H al n). unfold quiet. destruct (m al n); auto.
  split; [exists ""; reflexivity|]. split; [exists ""; reflexivity|exact H].
Qed.

Lemma both_write s : writes_both (write s) s "" (fun _ => True).
Proof. intros al n. unfold write. auto. Qed.

Lemma both_last_write s : writes_both_last (write s) s "" (fun _ => True).
Proof. intros al n. unfold write. auto. Qed.

Lemma both_write_err s : writes_both (write_err s) "" s (fun _ => True).
Proof. intros al n. unfold write_err. auto. Qed.

Lemma both_of_last {A} (m : W A) t u Q : writes_both_last m t u Q -> writes_both m t u Q.
Proof.
  intros H al n. specialize (H al n). destruct (m al n) as [[o e] r]. destruct r; auto.
  destruct H as ((rest & _ & E) & H). split; [exists rest; exact E|exact H].
Qed.

Lemma both_bind {A B} (m : W A) (k : A -> W B) t1 t2 u1 u2 Q R : writes_both m t1 u1 Q ->
  (forall a, Q a -> writes_both (k a) t2 u2 R) -> writes_both (wbind m k) (t1 ++ t2) (u1 ++ u2) R.
Proof.
  intros H K al n. unfold wbind. specialize (H al n). destruct (m al n) as [[o e] [a n'|x n'|u|]]; auto.
  - destruct H as (-> & -> & HQ & Hn). specialize (K a HQ al n'). destruct (k a al n') as [[o' e'] [b n''|x n''|u|]]; auto.
    + destruct K as (-> & -> & HR & Hn'). repeat split; auto. lia.
    + destruct K as ((rest & ->) & (rest' & ->) & He & Hr). split; [exists rest; apply app_assoc_s|].
      split; [exists rest'; apply app_assoc_s|]. split; [exact He|]. apply (refused_r al n n'); assumption.
  - destruct H as ((rest & ->) & (rest' & ->) & H). split; [exists (rest ++ t2); symmetry; apply app_assoc_s|].
    split; [exists (rest' ++ u2); symmetry; apply app_assoc_s|exact H].
Qed.

Lemma both_last_bind {A B} (m : W A) (k : A -> W B) t1 t2 u1 u2 Q R : writes_both m t1 u1 Q -> t2 <> "" ->
  (forall a, Q a -> writes_both_last (k a) t2 u2 R) -> writes_both_last (wbind m k) (t1 ++ t2) (u1 ++ u2) R.
Proof.
  intros H N K al n. unfold wbind. specialize (H al n). destruct (m al n) as [[o e] [a n'|x n'|u|]]; auto.
  - destruct H as (-> & -> & HQ & Hn). specialize (K a HQ al n'). destruct (k a al n') as [[o' e'] [b n''|x n''|u|]]; auto.
    + destruct K as (-> & -> & HR & Hn'). repeat split; auto. lia.
    + destruct K as ((rest & Nr & ->) & (rest' & ->) & He & Hr). split; [exists rest; split; [exact Nr|apply app_assoc_s]|].
      split; [exists rest'; apply app_assoc_s|]. split; [exact He|]. apply (refused_r al n n'); assumption.
  - destruct H as ((rest & ->) & (rest' & ->) & H).
    split; [exists (rest ++ t2); split; [apply app_nonempty_s, N|symmetry; apply app_assoc_s]|].
    split; [exists (rest' ++ u2); symmetry; apply app_assoc_s|exact H].
Qed.

(** a last part that has something left to write whenever it throws, then one that never throws *)
Lemma both_last_bind_l {A B} (m : W A) (k : A -> W B) t1 t2 u1 u2 Q R : writes_both_last m t1 u1 Q ->
  (forall a, Q a -> writes_both_last (k a) t2 u2 R) -> writes_both_last (wbind m k) (t1 ++ t2) (u1 ++ u2) R.
Proof.
  intros H K al n. unfold wbind. specialize (H al n). destruct (m al n) as [[o e] [a n'|x n'|u|]]; auto.
  - destruct H as (-> & -> & HQ & Hn). specialize (K a HQ al n'). destruct (k a al n') as [[o' e'] [b n''|x n''|u|]]; auto.
    + destruct K as (-> & -> & HR & Hn'). repeat split; auto. lia.
    + destruct K as ((rest & Nr & ->) & (rest' & ->) & He & Hr). split; [exists rest; split; [exact Nr|apply app_assoc_s]|].
      split; [exists rest'; apply app_assoc_s|]. split; [exact He|]. apply (refused_r al n n'); assumption.
  - destruct H as ((rest & Nr & ->) & (rest' & ->) & H).
    split; [exists (rest ++ t2); split; [apply app_nonempty_l, Nr|symmetry; apply app_assoc_s]|].
    split; [exists (rest' ++ u2); symmetry; apply app_assoc_s|exact H].
Qed.

(** ** std::cout only *)

Lemma writes_quiet {A} (m : M A) Q : returns m Q -> writes (quiet m) "" Q.
Proof. apply both_quiet. Qed.
Lemma writes_write s : writes (write s) s (fun _ => True).
Proof. apply both_write. Qed.
Lemma writes_last_write s : writes_last (write s) s (fun _ => True).
Proof. apply both_last_write. Qed.
Lemma writes_of_last {A} (m : W A) t Q : writes_last m t Q -> writes m t Q.
Proof. apply both_of_last. Qed.
Lemma writes_bind {A B} (m : W A) (k : A -> W B) t1 t2 Q R : writes m t1 Q -> (forall a, Q a -> writes (k a) t2 R) ->
  writes (wbind m k) (t1 ++ t2) R.
Proof. intros H K. exact (both_bind m k t1 t2 "" "" Q R H K). Qed.
Lemma writes_last_bind {A B} (m : W A) (k : A -> W B) t1 t2 Q R : writes m t1 Q -> t2 <> "" ->
  (forall a, Q a -> writes_last (k a) t2 R) -> writes_last (wbind m k) (t1 ++ t2) R.
Proof. intros H N K. exact (both_last_bind m k t1 t2 "" "" Q R H N K). Qed.

Lemma throws_bind_last {A B} (m : W A) (k : A -> W B) t1 t2 Q : writes_last m t1 Q ->
  (forall a, Q a -> writes_then_throws (k a) t2) -> writes_then_throws (wbind m k) (t1 ++ t2).
Proof.
  intros H K al n. unfold wbind. specialize (H al n). destruct (m al n) as [[o e] [a n'|x n'|u|]]; auto.
  - destruct H as (-> & -> & HQ & Hn). specialize (K a HQ al n'). destruct (k a al n') as [[o' e'] [b n''|x n''|u|]]; auto.
    destruct K as (-> & [(-> & He)|((rest & Nr & ->) & He & Hr)]); (split; [reflexivity|]); [left; auto|right].
    split; [exists rest; split; [exact Nr|apply app_assoc_s]|]. split; [exact He|]. apply (refused_r al n n'); assumption.
  - destruct H as ((rest & Nr & ->) & (rest' & E) & H). split; [exact (no_prefix _ _ E)|]. right.
    split; [exists (rest ++ t2); split; [apply app_nonempty_l, Nr|symmetry; apply app_assoc_s]|exact H].
Qed.

Lemma writes_then_throws_bind {A B} (m : W A) (k : A -> W B) t1 t2 Q : writes m t1 Q -> t2 <> "" ->
  (forall a, Q a -> writes_then_throws (k a) t2) -> writes_then_throws (wbind m k) (t1 ++ t2).
Proof.
  intros H N K al n. unfold wbind. specialize (H al n). destruct (m al n) as [[o e] [a n'|x n'|u|]]; auto.
  - destruct H as (-> & -> & HQ & Hn). specialize (K a HQ al n'). destruct (k a al n') as [[o' e'] [b n''|x n''|u|]]; auto.
    destruct K as (-> & [(-> & He)|((rest & Nr & ->) & He & Hr)]); (split; [reflexivity|]); [left; auto|right].
    split; [exists rest; split; [exact Nr|apply app_assoc_s]|]. split; [exact He|]. apply (refused_r al n n'); assumption.
  - destruct H as ((rest & ->) & (rest' & E) & H). split; [exact (no_prefix _ _ E)|]. right.
    split; [exists (rest ++ t2); split; [apply app_nonempty_s, N|symmetry; apply app_assoc_s]|exact H].
Qed.

Lemma throws_now {A B} (m : M A) (k : A -> W B) : (forall al n, exists n', m al n = Throw ExStd n') ->
  writes_then_throws (wbind (quiet m) k) "".
Proof. intros H al n. unfold wbind, quiet. destruct (H al n) as [n' ->]. auto. Qed.

(** ** Equal computations *)
Lemma returns_same {A} (m m' : M A) Q : (forall al n, m al n = m' al n) -> returns m' Q -> returns m Q.
Proof. intros E H al n. rewrite E. apply H. Qed.

Lemma binary_same f g x y : (forall r al n, data r = data x -> desc r = desc x -> f r (Other y) al n = g r (Other y) al n) ->
  forall al n, binary f x y al n = binary g x y al n.
Proof.
  intros H al n. unfold binary, bn_copy, vcopy, alloc, bind, ret. destruct (al n); [|reflexivity]. rewrite H; reflexivity.
Qed.

Definition wsame {A} (m m' : W A) : Prop := forall al n, m al n = m' al n.
Lemma wsame_bind {A B} (m m' : W A) (k k' : A -> W B) : wsame m m' -> (forall a, wsame (k a) (k' a)) -> wsame (wbind m k) (wbind m' k').
Proof.
  intros H K al n. unfold wbind. rewrite H. destruct (m' al n) as [[o e] [a n'|x n'|u|]]; auto. rewrite K. reflexivity.
Qed.
Lemma wsame_quiet {A} (m m' : M A) : (forall al n, m al n = m' al n) -> wsame (quiet m) (quiet m').
Proof. intros H al n. unfold quiet. rewrite H. reflexivity. Qed.
Lemma wsame_refl {A} (m : W A) : wsame m m.
Proof. intros al n. reflexivity. Qed.
