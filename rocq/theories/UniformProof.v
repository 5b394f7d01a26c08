(** * What a function does depends on the requests it makes only, not on those made before *)
From Verif Require Import Base Spec Limits Compare AddSub Division Fourier Multiplication Bignum Machine While Strict Outcome.

(** the same outcome, with the same number of requests *)
Definition same_outcome {A} (n n' : nat) (r r' : res A) : Prop :=
  match r, r' with
  | Ret a x, Ret b y => a = b /\ exists k, x = (n + k)%nat /\ y = (n' + k)%nat
  | Throw e x, Throw f y => e = f /\ exists k, x = (n + k)%nat /\ y = (n' + k)%nat
  | Undef u, Undef v => u = v
  | NoFuel, NoFuel => True
  | _, _ => False
  end.

Definition uniform {A} (m : M A) : Prop := forall al al' n n',
  (forall k, al (n + k)%nat = al' (n' + k)%nat) -> same_outcome n n' (m al n) (m al' n').

Lemma un_ret {A} (a : A) : uniform (ret a).
Proof. intros al al' n n' H. cbn. split; [reflexivity|]. exists 0%nat. lia. Qed.
Lemma un_throw {A} e : uniform (@throw A e).
Proof. intros al al' n n' H. cbn. split; [reflexivity|]. exists 0%nat. lia. Qed.
Lemma un_undef {A} u : uniform (@undef A u).
Proof. intros al al' n n' H. reflexivity. Qed.
Lemma un_nofuel {A} : uniform (@nofuel A).
Proof. intros al al' n n' H. exact I. Qed.

Lemma same_later {A} n n' k (r r' : res A) : same_outcome (n + k) (n' + k) r r' -> same_outcome n n' r r'.
Proof.
  destruct r, r'; cbn; auto; intros (E & j & -> & ->); (split; [exact E|]); exists (k + j)%nat; lia.
Qed.

Lemma un_bind {A C} (m : M A) (k : A -> M C) : uniform m -> (forall a, uniform (k a)) -> uniform (bind m k).
Proof.
  intros Hm Hk al al' n n' H. specialize (Hm al al' n n' H). unfold bind.
  destruct (m al n) as [a x|e x|u|], (m al' n') as [b y|f y|v|]; cbn in Hm; try contradiction; try exact Hm.
  destruct Hm as (-> & j & -> & ->). apply (same_later n n' j). apply Hk. intros i.
  rewrite <- !Nat.add_assoc. apply H.
Qed.

Lemma un_alloc : uniform alloc.
Proof.
  intros al al' n n' H. unfold alloc. pose proof (H 0%nat) as H0. rewrite !Nat.add_0_r in H0. rewrite <- H0.
  destruct (al n); cbn; (split; [reflexivity|]); exists 1%nat; lia.
Qed.

Lemma un_vget {A} (v : list A) i : uniform (vget v i).
Proof. unfold vget; destruct (nth_error v i); [apply un_ret|apply un_undef]. Qed.
Lemma un_vset {A} (v : list A) i d : uniform (vset v i d).
Proof. unfold vset; destruct (i <? length v)%nat; [apply un_ret|apply un_undef]. Qed.
Lemma un_vpush {A} (v : list A) d : uniform (vpush v d).
Proof. apply un_bind; [apply un_alloc|intros; apply un_ret]. Qed.
Lemma un_vcopy {A} (v : list A) : uniform (vcopy v).
Proof. apply un_bind; [apply un_alloc|intros; apply un_ret]. Qed.
Lemma un_vpop {A} (v : list A) : uniform (vpop v).
Proof. unfold vpop; destruct v; [apply un_undef|apply un_ret]. Qed.
Lemma un_vinsert {A} (v : list A) i d : uniform (vinsert v i d).
Proof. unfold vinsert. destruct (i <=? length v)%nat; [|apply un_undef]. apply un_bind; [apply un_alloc|intros; apply un_ret]. Qed.
Lemma un_verase {A} (v : list A) i : uniform (verase v i).
Proof. unfold verase. destruct (i <? length v)%nat; [apply un_ret|apply un_undef]. Qed.
Lemma un_vresize {A} (v : list A) i d : uniform (vresize v i d).
Proof. apply un_bind; [apply un_alloc|intros; apply un_ret]. Qed.

Create HintDb un.
#[local] Hint Resolve un_ret un_throw un_undef un_nofuel un_vget un_vset un_vpush un_vcopy un_vpop un_vinsert un_verase un_vresize un_alloc : un.

Ltac un := repeat first
  [ progress auto with un
  | match goal with |- uniform (bind _ _) => apply un_bind; [|intros ?] end
  | match goal with |- uniform (if ?c then _ else _) => destruct c end
  | match goal with |- uniform (match ?c with _ => _ end) => destruct c end ].

Lemma un_eq_loop a b : forall i, uniform (eq_loop a b i).
Proof. induction i; cbn [eq_loop]; un. Qed.
Lemma un_gt_loop a b : forall i, uniform (gt_loop a b i).
Proof. induction i; cbn [gt_loop]; un. Qed.
Lemma un_ge_loop a b : forall i, uniform (ge_loop a b i).
Proof. induction i; cbn [ge_loop]; un. Qed.
Lemma un_lt_loop a b : forall i, uniform (lt_loop a b i).
Proof. induction i; cbn [lt_loop]; un. Qed.
Lemma un_le_loop a b : forall i, uniform (le_loop a b i).
Proof. induction i; cbn [le_loop]; un. Qed.
#[local] Hint Resolve un_eq_loop un_gt_loop un_ge_loop un_lt_loop un_le_loop : un.
Lemma un_eq a b : uniform (abs_val_is_eq a b). Proof. unfold abs_val_is_eq; un. Qed.
Lemma un_gt a b : uniform (abs_val_is_gt a b). Proof. unfold abs_val_is_gt; un. Qed.
Lemma un_ge a b : uniform (abs_val_is_ge a b). Proof. unfold abs_val_is_ge; un. Qed.
Lemma un_lt a b : uniform (abs_val_is_lt a b). Proof. unfold abs_val_is_lt; un. Qed.
Lemma un_le a b : uniform (abs_val_is_le a b). Proof. unfold abs_val_is_le; un. Qed.
#[local] Hint Resolve un_eq un_gt un_ge un_lt un_le : un.

Lemma un_compare c x y : uniform (compare c x y).
Proof. destruct c; cbn [compare]; [unfold op_eq|unfold op_ne|unfold op_gt|unfold op_ge|unfold op_lt|unfold op_le]; un. Qed.

Lemma un_add_loop L inv : forall fuel out oi ii rem, uniform (add_loop L inv fuel out oi ii rem).
Proof. induction fuel; intros; cbn [add_loop]; un. Qed.
Lemma un_add L a inv : uniform (abs_val_add L a inv).
Proof. apply un_add_loop. Qed.
Lemma un_sub_loop L inv : forall fuel out oi ii nb, uniform (sub_loop L inv fuel out oi ii nb).
Proof. induction fuel; intros; cbn [sub_loop]; un. Qed.
Lemma un_pop_zeros : forall i v, uniform (pop_zeros i v).
Proof. induction i; intros; cbn [pop_zeros]; un. Qed.
#[local] Hint Resolve un_sub_loop un_pop_zeros : un.
Lemma un_sub L dbg a inv : uniform (abs_val_sub L dbg a inv).
Proof. unfold abs_val_sub; un. Qed.
#[local] Hint Resolve un_add un_sub : un.
Lemma un_shl_loop L : forall fuel v c r, uniform (shl_loop L fuel v c r).
Proof. induction fuel; intros; cbn [shl_loop]; un. Qed.
#[local] Hint Resolve un_shl_loop : un.
Lemma un_shift L v : uniform (shift_left_1 L v).
Proof. unfold shift_left_1; un. Qed.
#[local] Hint Resolve un_shift : un.
Lemma un_div_inner L : forall fuel a b c d, uniform (div_inner L fuel a b c d).
Proof. induction fuel; intros; cbn [div_inner]; un. Qed.
#[local] Hint Resolve un_div_inner : un.
Lemma un_div_outer L dbg fi : forall fuel a b r, uniform (div_outer L dbg fi fuel a b r).
Proof. induction fuel; intros; cbn [div_outer]; un. Qed.
#[local] Hint Resolve un_div_outer : un.
Lemma un_div L dbg fuel a b : uniform (abs_val_div L dbg fuel a b).
Proof. unfold abs_val_div; un. Qed.
#[local] Hint Resolve un_div : un.
Lemma un_carry L P : forall l c acc, uniform (carry_loop L P l c acc).
Proof. induction l; intros; cbn [carry_loop]; unfold to_uint; un. Qed.
Lemma un_count : forall v i, uniform (count_high_zeros v i).
Proof. intros v; induction i; cbn [count_high_zeros]; un. Qed.
#[local] Hint Resolve un_carry un_count : un.
Lemma un_mul L P fuel a b : uniform (mul_strassen L P fuel a b).
Proof. unfold mul_strassen; un. Qed.
#[local] Hint Resolve un_mul : un.
Lemma un_ctor_loop : forall l lz v oi, uniform (ctor_loop l lz v oi).
Proof. induction l; intros; cbn [ctor_loop]; un. Qed.
#[local] Hint Resolve un_ctor_loop : un.
Lemma un_make L d l : uniform (bn_make L d l).
Proof. unfold bn_make; cbv zeta; un. Qed.
Lemma un_copy x : uniform (bn_copy x).
Proof. unfold bn_copy; un. Qed.
#[local] Hint Resolve un_make un_copy un_compare : un.

Lemma un_guarded body bad : uniform body -> uniform (guarded body bad).
Proof.
  intros H al al' n n' K. specialize (H al al' n n' K). unfold guarded.
  destruct (body al n) as [a x|e x|u|], (body al' n') as [b y|f y|v|]; try destruct e; try destruct f; cbn in *; try tauto; try (destruct H; discriminate);
    destruct H as (H1 & H); subst; auto.
Qed.

Ltac uni := repeat first
  [ progress auto with un
  | match goal with |- uniform (bind _ _) => apply un_bind; [|intros ?] end
  | match goal with |- uniform (if ?c then _ else _) => destruct c end
  | match goal with |- uniform (guarded _ _) => apply un_guarded end ].

Lemma un_compound E op x y : uniform (compound E op x y).
Proof.
  destruct op; cbn [compound]; [unfold op_add_assign|unfold op_sub_assign|unfold op_mul_assign|unfold op_div_assign; cbv zeta]; uni.
Qed.

Lemma un_copy_assign x y : uniform (bn_copy_assign x y).
Proof.
  destruct y as [y|]; [|apply un_ret]. intros al al' n n' H. pose proof (un_vcopy (data y) al al' n n' H) as K. cbn [bn_copy_assign].
  destruct (vcopy (data y) al n), (vcopy (data y) al' n'); cbn in *; try tauto; destruct K as (-> & K); auto.
Qed.

Lemma un_binary E op x y : uniform (binary (compound E op) x y).
Proof.
  apply un_bind; [apply un_copy|]. intros r. apply un_bind; [apply un_compound|]. intros a. destruct (snd a); uni.
Qed.

Lemma un_step E i s : uniform (strict_step E i s).
Proof.
  destruct i; cbn [strict_step]; unfold put_in, assigned_to, bn_resize, push_back, push_front, push, pop_back, pop_front, pop, subscript_set;
    try (apply un_bind; [|intros]); uni; auto using un_copy_assign, un_compound, un_binary;
    try (match goal with |- uniform (match ?c with _ => _ end) => destruct c end; uni).
Qed.
