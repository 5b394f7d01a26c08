(** * Executions with limited memory against executions with unlimited memory *)
From Verif Require Import Base Spec Limits Compare AddSub Division Fourier Multiplication Bignum Machine While Expression Strict Outcome.
From Verif Require Import Wp CompareProof FailProof HistoryProof.

(** [m] does what it does with unlimited memory and all its requests are granted, or it throws one of [X] at the first
    request that is refused *)
Definition counted {A} (al : nat -> bool) (n : nat) (r : res A) : Prop :=
  match r with Ret _ n' | Throw _ n' => (n <= n')%nat /\ granted al n n' | Undef _ | NoFuel => True end.
Definition within {A} (n' : nat) (r : res A) : Prop :=
  match r with Ret _ k | Throw _ k => (n' <= k)%nat | Undef _ | NoFuel => True end.
Definition steady {A} (X : exn -> Prop) (m : M A) : Prop := forall al n,
  m al n = m never_fails n /\ counted al n (m never_fails n) \/
  exists e n', X e /\ m al n = Throw e n' /\ last_refused al n n' /\ within n' (m never_fails n).

Lemma st_ret {A} X (a : A) : steady X (ret a).
Proof. intros al n. left. cbn. split; [reflexivity|]. split; [lia|apply granted_nil]. Qed.
Lemma st_throw {A} X e : steady X (@throw A e).
Proof. intros al n. left. cbn. split; [reflexivity|]. split; [lia|apply granted_nil]. Qed.
Lemma st_undef {A} X u : steady X (@undef A u).
Proof. intros al n. left. split; [reflexivity|exact I]. Qed.
Lemma st_nofuel {A} X : steady X (@nofuel A).
Proof. intros al n. left. split; [reflexivity|exact I]. Qed.

Lemma last_refused_app al n n1 n2 : (n <= n1)%nat -> granted al n n1 -> last_refused al n1 n2 -> last_refused al n n2.
Proof. intros H G (k & -> & Hk & Gk & Ek). exists k. split; [reflexivity|]. split; [lia|]. split; [eapply granted_app; eauto|exact Ek]. Qed.

Lemma steady_within {A} X (m : M A) n n1 : steady X m -> (n1 <= n)%nat -> within n1 (m never_fails n).
Proof.
  intros H Hn. destruct (H never_fails n) as [[_ K]|(e & n' & _ & _ & (k & _ & _ & _ & F) & _)]; [|discriminate].
  unfold counted, within in *. destruct (m never_fails n); auto; lia.
Qed.

Lemma st_bind {A C} X (m : M A) (k : A -> M C) : steady X m -> (forall a, steady X (k a)) -> steady X (bind m k).
Proof.
  intros Hm Hk al n. unfold bind. destruct (Hm al n) as [[E K]|(e & n' & He & E & R & W)].
  - rewrite E. destruct (m never_fails n) as [a n1|e n1|u|]; try (left; split; [reflexivity|exact K]).
    destruct K as [Hn G]. destruct (Hk a al n1) as [[E2 K2]|(e & n' & He & E2 & R & W)].
    + left. split; [exact E2|]. unfold counted in *. destruct (k a never_fails n1); auto; (destruct K2; split; [lia|eapply granted_app; eauto]).
    + right. exists e, n'. split; [exact He|]. split; [exact E2|]. split; [eapply last_refused_app; eauto|exact W].
  - right. exists e, n'. rewrite E. split; [exact He|]. split; [reflexivity|]. split; [exact R|].
    destruct (m never_fails n) as [a n1|e1 n1|u|]; try exact W. apply (steady_within X); [apply Hk|exact W].
Qed.

Definition bad_alloc (e : exn) : Prop := e = ExBadAlloc.
Definition std_or_bad_alloc (e : exn) : Prop := e = ExStd \/ e = ExBadAlloc.

Lemma st_alloc (X : exn -> Prop) : X ExBadAlloc -> steady X alloc.
Proof.
  intros HX al n. unfold alloc. cbn [never_fails]. destruct (al n) eqn:E.
  - left. split; [reflexivity|]. split; [lia|]. intros k Hk. replace k with n by lia. exact E.
  - right. exists ExBadAlloc, (S n). split; [exact HX|]. split; [reflexivity|]. split; [|cbn; lia].
    exists n. repeat split; auto. apply granted_nil.
Qed.

Section X.
Context (X : exn -> Prop) (HX : X ExBadAlloc).

Lemma st_vget {A} (v : list A) i : steady X (vget v i).
Proof. unfold vget; destruct (nth_error v i); [apply st_ret|apply st_undef]. Qed.
Lemma st_vset {A} (v : list A) i d : steady X (vset v i d).
Proof. unfold vset; destruct (i <? length v)%nat; [apply st_ret|apply st_undef]. Qed.
Lemma st_vpush {A} (v : list A) d : steady X (vpush v d).
Proof. apply st_bind; [apply st_alloc, HX|intros; apply st_ret]. Qed.
Lemma st_vcopy {A} (v : list A) : steady X (vcopy v).
Proof. apply st_bind; [apply st_alloc, HX|intros; apply st_ret]. Qed.
Lemma st_vpop {A} (v : list A) : steady X (vpop v).
Proof. unfold vpop; destruct v; [apply st_undef|apply st_ret]. Qed.
Lemma st_vinsert {A} (v : list A) i d : steady X (vinsert v i d).
Proof. unfold vinsert. destruct (i <=? length v)%nat; [|apply st_undef]. apply st_bind; [apply st_alloc, HX|intros; apply st_ret]. Qed.
Lemma st_verase {A} (v : list A) i : steady X (verase v i).
Proof. unfold verase. destruct (i <? length v)%nat; [apply st_ret|apply st_undef]. Qed.
Lemma st_vresize {A} (v : list A) i d : steady X (vresize v i d).
Proof. apply st_bind; [apply st_alloc, HX|intros; apply st_ret]. Qed.

Create HintDb st.
#[local] Hint Resolve st_ret st_throw st_undef st_nofuel st_vget st_vset st_vpush st_vcopy st_vpop st_vinsert st_verase st_vresize : st.
Lemma st_alloc_x : steady X alloc.
Proof. exact (st_alloc X HX). Qed.
#[local] Hint Resolve st_alloc_x : st.

Ltac st := repeat first
  [ progress auto with st
  | match goal with |- steady _ (bind _ _) => apply st_bind; [|intros ?] end
  | match goal with |- steady _ (if ?c then _ else _) => destruct c end
  | match goal with |- steady _ (match ?c with _ => _ end) => destruct c end ].

Lemma st_eq_loop a b : forall i, steady X (eq_loop a b i).
Proof. induction i; cbn [eq_loop]; st. Qed.
Lemma st_gt_loop a b : forall i, steady X (gt_loop a b i).
Proof. induction i; cbn [gt_loop]; st. Qed.
Lemma st_ge_loop a b : forall i, steady X (ge_loop a b i).
Proof. induction i; cbn [ge_loop]; st. Qed.
Lemma st_lt_loop a b : forall i, steady X (lt_loop a b i).
Proof. induction i; cbn [lt_loop]; st. Qed.
Lemma st_le_loop a b : forall i, steady X (le_loop a b i).
Proof. induction i; cbn [le_loop]; st. Qed.
#[local] Hint Resolve st_eq_loop st_gt_loop st_ge_loop st_lt_loop st_le_loop : st.
Lemma st_eq a b : steady X (abs_val_is_eq a b). Proof. unfold abs_val_is_eq; st. Qed.
Lemma st_gt a b : steady X (abs_val_is_gt a b). Proof. unfold abs_val_is_gt; st. Qed.
Lemma st_ge a b : steady X (abs_val_is_ge a b). Proof. unfold abs_val_is_ge; st. Qed.
Lemma st_lt a b : steady X (abs_val_is_lt a b). Proof. unfold abs_val_is_lt; st. Qed.
Lemma st_le a b : steady X (abs_val_is_le a b). Proof. unfold abs_val_is_le; st. Qed.
#[local] Hint Resolve st_eq st_gt st_ge st_lt st_le : st.

Lemma st_compare c x y : steady X (compare c x y).
Proof. destruct c; cbn [compare]; [unfold op_eq|unfold op_ne|unfold op_gt|unfold op_ge|unfold op_lt|unfold op_le]; st. Qed.

Lemma st_add_loop L inv : forall fuel out oi ii rem, steady X (add_loop L inv fuel out oi ii rem).
Proof. induction fuel; intros; cbn [add_loop]; st. Qed.
Lemma st_add L a inv : steady X (abs_val_add L a inv).
Proof. apply st_add_loop. Qed.
Lemma st_sub_loop L inv : forall fuel out oi ii nb, steady X (sub_loop L inv fuel out oi ii nb).
Proof. induction fuel; intros; cbn [sub_loop]; st. Qed.
Lemma st_pop_zeros : forall i v, steady X (pop_zeros i v).
Proof. induction i; intros; cbn [pop_zeros]; st. Qed.
#[local] Hint Resolve st_sub_loop st_pop_zeros : st.
Lemma st_sub L dbg a inv : steady X (abs_val_sub L dbg a inv).
Proof. unfold abs_val_sub; st. Qed.
#[local] Hint Resolve st_add st_sub : st.
Lemma st_shl_loop L : forall fuel v c r, steady X (shl_loop L fuel v c r).
Proof. induction fuel; intros; cbn [shl_loop]; st. Qed.
#[local] Hint Resolve st_shl_loop : st.
Lemma st_shift L v : steady X (shift_left_1 L v).
Proof. unfold shift_left_1; st. Qed.
#[local] Hint Resolve st_shift : st.
Lemma st_div_inner L : forall fuel a b c d, steady X (div_inner L fuel a b c d).
Proof. induction fuel; intros; cbn [div_inner]; st. Qed.
#[local] Hint Resolve st_div_inner : st.
Lemma st_div_outer L dbg fi : forall fuel a b r, steady X (div_outer L dbg fi fuel a b r).
Proof. induction fuel; intros; cbn [div_outer]; st. Qed.
#[local] Hint Resolve st_div_outer : st.
Lemma st_div L dbg fuel a b : steady X (abs_val_div L dbg fuel a b).
Proof. unfold abs_val_div; st. Qed.
#[local] Hint Resolve st_div : st.
Lemma st_carry L P : forall l c acc, steady X (carry_loop L P l c acc).
Proof. induction l; intros; cbn [carry_loop]; unfold to_uint; st. Qed.
Lemma st_count : forall v i, steady X (count_high_zeros v i).
Proof. intros v; induction i; cbn [count_high_zeros]; st. Qed.
#[local] Hint Resolve st_carry st_count : st.
Lemma st_mul L P fuel a b : steady X (mul_strassen L P fuel a b).
Proof. unfold mul_strassen; st. Qed.
#[local] Hint Resolve st_mul : st.
Lemma st_ctor_loop : forall l lz v oi, steady X (ctor_loop l lz v oi).
Proof. induction l; intros; cbn [ctor_loop]; st. Qed.
#[local] Hint Resolve st_ctor_loop : st.
Lemma st_make L d l : steady X (bn_make L d l).
Proof. unfold bn_make; cbv zeta; st. Qed.
Lemma st_copy x : steady X (bn_copy x).
Proof. unfold bn_copy; st. Qed.
End X.

(** the same for a compound assignment, which gives an exception as part of its result *)
Definition steady_assigned (m : M assigned) : Prop := forall al n,
  m al n = m never_fails n /\ counted al n (m never_fails n) \/
  exists z e n', std_or_bad_alloc e /\ m al n = Ret (z, Some e) n' /\ last_refused al n n' /\ within n' (m never_fails n).

Lemma sta_ret a : steady_assigned (ret a).
Proof. intros al n. left. cbn. split; [reflexivity|]. split; [lia|apply granted_nil]. Qed.

Lemma sta_guarded body bad : steady bad_alloc body -> steady_assigned (guarded body bad).
Proof.
  intros H al n. unfold guarded. destruct (H al n) as [[E K]|(e & n' & -> & E & R & W)].
  - left. rewrite E. split; [reflexivity|]. destruct (body never_fails n) as [a k|[] k|u|]; exact K.
  - right. rewrite E. exists bad, ExStd, n'. split; [left; reflexivity|]. split; [reflexivity|]. split; [exact R|].
    destruct (body never_fails n) as [a k|[] k|u|]; exact W.
Qed.

Ltac sti := repeat first
  [ progress auto
  | apply st_ret | apply st_vcopy | apply st_ge | apply st_gt | apply st_add | apply st_sub | apply st_mul | apply st_div
  | match goal with |- steady _ (bind _ _) => apply st_bind; [|intros ?] end
  | match goal with |- steady _ (if ?c then _ else _) => destruct c end
  | reflexivity ].

Lemma sta_compound E op x y : steady_assigned (compound E op x y).
Proof.
  destruct op; cbn [compound].
  - unfold op_add_assign. destruct (negb _); [apply sta_ret|]. apply sta_guarded. sti.
  - unfold op_sub_assign. destruct (negb _); [apply sta_ret|]. apply sta_guarded. sti.
  - unfold op_mul_assign. destruct (negb _); [apply sta_ret|]. apply sta_guarded. sti.
  - unfold op_div_assign. destruct (negb _); [apply sta_ret|]. cbv zeta.
    destruct (match adata x y with [] => false | _ => _ end); [apply sta_ret|].
    destruct (match adata x y with [] => false | _ => _ end); [apply sta_ret|].
    destruct (match data x with [] => true | _ => _ end); [apply sta_ret|]. apply sta_guarded. sti.
Qed.

Lemma sta_copy x y : steady_assigned (bn_copy_assign x y).
Proof.
  destruct y as [y|]; [|apply sta_ret]. intros al n. cbn. unfold vcopy, bind, alloc. cbn [never_fails]. destruct (al n) eqn:E.
  - left. split; [reflexivity|]. split; [lia|]. intros k Hk. replace k with n by lia. exact E.
  - right. exists (mkBN (desc y) (data x)), ExBadAlloc, (S n). split; [right; reflexivity|]. split; [reflexivity|].
    split; [|cbn; lia]. exists n. repeat split; auto. apply granted_nil.
Qed.

Lemma st_statement {A} (m : M assigned) (k : bignum -> M A) : steady_assigned m -> (forall z, steady std_or_bad_alloc (k z)) ->
  steady std_or_bad_alloc (a <- m ;; match snd a with None => k (fst a) | Some e => throw e end).
Proof.
  intros Hm Hk al n. unfold bind. destruct (Hm al n) as [[E K]|(z & e & n' & He & E & R & W)].
  - rewrite E. destruct (m never_fails n) as [[z [e|]] n1|e n1|u|]; cbn [fst snd] in *; try (left; split; [reflexivity|exact K]).
    destruct K as [Hn G]. destruct (Hk z al n1) as [[E2 K2]|(e & n' & He & E2 & R & W)].
    + left. split; [exact E2|]. unfold counted in *. destruct (k z never_fails n1); auto; (destruct K2; split; [lia|eapply granted_app; eauto]).
    + right. exists e, n'. split; [exact He|]. split; [exact E2|]. split; [eapply last_refused_app; eauto|exact W].
  - right. exists e, n'. rewrite E. split; [exact He|]. split; [reflexivity|]. split; [exact R|].
    destruct (m never_fails n) as [[z1 [e1|]] n1|e1 n1|u|]; cbn [fst snd]; try exact W. apply (steady_within std_or_bad_alloc); [apply Hk|exact W].
Qed.

Lemma sx : std_or_bad_alloc ExBadAlloc. Proof. right. reflexivity. Qed.

Lemma st_binary E op x y : steady std_or_bad_alloc (binary (compound E op) x y).
Proof.
  apply st_bind; [apply st_copy, sx|]. intros r. apply (st_statement _ (fun z => ret z)); [apply sta_compound|intros z; apply st_ret].
Qed.

Lemma st_eval E e : steady std_or_bad_alloc (eval E e).
Proof.
  induction e as [x|op a IHa b IHb]; cbn [eval]; [apply st_ret|].
  apply st_bind; [exact IHa|]. intros x. apply st_bind; [exact IHb|]. intros y. apply st_binary.
Qed.

Lemma st_put_in s r m : steady std_or_bad_alloc m -> steady std_or_bad_alloc (put_in s r m).
Proof. intros H. apply st_bind; [exact H|]. intros x. apply st_ret. Qed.

Lemma st_step E i s : steady std_or_bad_alloc (strict_step E i s).
Proof.
  pose proof sx as HX.
  destruct i; cbn [strict_step]; try apply st_ret; try (apply st_put_in).
  - apply st_make, HX.
  - apply (st_statement _ (fun z => ret (upd s r z))); [apply sta_copy|intros z; apply st_ret].
  - destruct (Nat.eqb _ _); [apply st_ret|]. cbn [bn_move_assign]. apply st_ret.
  - apply (st_statement _ (fun z => ret (upd s r z))); [apply sta_compound|intros z; apply st_ret].
  - apply st_binary.
  - apply st_bind; [apply st_vresize, HX|intros; apply st_ret].
  - apply st_bind; [apply st_vpush, HX|intros; apply st_ret].
  - apply st_bind; [apply st_vinsert, HX|intros; apply st_ret].
  - apply st_bind; [apply st_vinsert, HX|intros; apply st_ret].
  - apply st_bind; [apply st_vpop|intros; apply st_ret].
  - apply st_bind; [apply st_verase|intros; apply st_ret].
  - apply st_bind; [apply st_verase|intros; apply st_ret].
  - apply st_bind; [destruct (Nat.ltb _ _); [apply st_ret|apply st_throw]|]. intros _. apply st_bind; [apply st_vset|intros; apply st_ret].
Qed.

Lemma st_run E : forall f p s, steady std_or_bad_alloc (strict_run E f p s).
Proof.
  pose proof sx as HX.
  induction f as [|f IH]; intros p s; [apply st_nofuel|]. destruct p as [i|a b|c x y a b|c x y a]; cbn [strict_run].
  - apply st_step.
  - apply st_bind; [apply IH|]. intros s1. apply IH.
  - apply st_bind; [apply st_compare|]. intros t. destruct t; apply IH.
  - apply st_bind; [apply st_compare|]. intros t. destruct t; [|apply st_ret]. apply st_bind; [apply IH|]. intros s1. apply IH.
Qed.

Lemma st_exec E : forall p s, steady std_or_bad_alloc (strict_exec E p s).
Proof. induction p as [|i q IH]; intros s; cbn [strict_exec]; [apply st_ret|]. apply st_bind; [apply st_step|]. intros s'. apply IH. Qed.
