(** * Allocation failures, BN_DEBUG, non-finite operands: lemmas *)
From Verif Require Import Base Spec Limits Compare AddSub Division Fourier Multiplication Bignum Outcome.
From Verif Require Import Wp ValueProof CompareProof AddSubProof DivisionProof BignumProof OperatorProof DivOpProof.

(** ** Only refused allocations throw *)

Definition alloc_only {A} (m : M A) : Prop :=
  forall al n, match m al n with
               | Ret _ n' => (n <= n')%nat /\ granted al n n'
               | Throw e n' => e = ExBadAlloc /\ last_refused al n n'
               | Undef _ | NoFuel => True
               end.

Lemma granted_nil al n : granted al n n.
Proof. intros k Hk. lia. Qed.
Lemma granted_app al n n1 n2 : granted al n n1 -> granted al n1 n2 -> granted al n n2.
Proof. intros H1 H2 k Hk. destruct (Nat.lt_ge_cases k n1); [apply H1|apply H2]; lia. Qed.

Lemma ao_ret {A} (a : A) : alloc_only (ret a).
Proof. intros al n; cbn. split; [lia|apply granted_nil]. Qed.
Lemma ao_undef {A} u : alloc_only (@undef A u).
Proof. intros al n; exact I. Qed.
Lemma ao_nofuel {A} : alloc_only (@nofuel A).
Proof. intros al n; exact I. Qed.
Lemma ao_bind {A C} (m : M A) (k : A -> M C) : alloc_only m -> (forall a, alloc_only (k a)) -> alloc_only (bind m k).
Proof.
  intros Hm Hk al n. unfold bind. specialize (Hm al n). destruct (m al n) as [a n'|e n'|u|]; auto.
  destruct Hm as [Hn Hg].
  specialize (Hk a al n'). destruct (k a al n') as [b n''|e n''|u|]; auto.
  - destruct Hk as [Hn' Hg']. split; [lia|]. eapply granted_app; eauto.
  - destruct Hk as [-> (j & Ej & Hj & Hg' & Hal)]. split; auto. exists j. repeat split; auto; [lia|]. eapply granted_app; eauto.
Qed.
Lemma ao_alloc : alloc_only alloc.
Proof.
  intros al n; unfold alloc; destruct (al n) eqn:E.
  - split; [lia|]. intros k Hk. replace k with n by lia. exact E.
  - split; auto. exists n. repeat split; auto. apply granted_nil.
Qed.
Lemma ao_pure {A} (m : M A) a : pure m a -> alloc_only m.
Proof. intros H al n; rewrite H. split; [lia|apply granted_nil]. Qed.
Lemma ao_vget {A} (v : list A) i : alloc_only (vget v i).
Proof. unfold vget; destruct (nth_error v i); [apply ao_ret|apply ao_undef]. Qed.
Lemma ao_vset {A} (v : list A) i d : alloc_only (vset v i d).
Proof. unfold vset; destruct (i <? length v)%nat; [apply ao_ret|apply ao_undef]. Qed.
Lemma ao_vpush {A} (v : list A) d : alloc_only (vpush v d).
Proof. apply ao_bind; [apply ao_alloc|intros; apply ao_ret]. Qed.
Lemma ao_vcopy {A} (v : list A) : alloc_only (vcopy v).
Proof. apply ao_bind; [apply ao_alloc|intros; apply ao_ret]. Qed.
Lemma ao_vpop {A} (v : list A) : alloc_only (vpop v).
Proof. unfold vpop; destruct v; [apply ao_undef|apply ao_ret]. Qed.

Create HintDb ao.
#[export] Hint Resolve ao_ret ao_undef ao_nofuel ao_alloc ao_vget ao_vset ao_vpush ao_vcopy ao_vpop : ao.

Ltac ao := repeat first
  [ progress auto with ao
  | match goal with |- alloc_only (bind _ _) => apply ao_bind; [|intros ?] end
  | match goal with |- alloc_only (if ?c then _ else _) => destruct c end
  | match goal with |- alloc_only (match ?c with _ => _ end) => destruct c end ].

Lemma ao_ge a b : alloc_only (abs_val_is_ge a b).
Proof. destruct (abs_val_is_ge_total a b) as (c & H & _). eapply ao_pure; eauto. Qed.
Lemma ao_gt a b : alloc_only (abs_val_is_gt a b).
Proof. eapply ao_pure, abs_val_is_gt_pure. Qed.
#[export] Hint Resolve ao_ge ao_gt : ao.

Lemma ao_add_loop L inv : forall fuel out oi ii rem, alloc_only (add_loop L inv fuel out oi ii rem).
Proof. induction fuel; intros; cbn [add_loop]; ao. Qed.
Lemma ao_add L a inv : alloc_only (abs_val_add L a inv).
Proof. apply ao_add_loop. Qed.
Lemma ao_sub_loop L inv : forall fuel out oi ii nb, alloc_only (sub_loop L inv fuel out oi ii nb).
Proof. induction fuel; intros; cbn [sub_loop]; ao. Qed.
Lemma ao_pop_zeros : forall i v, alloc_only (pop_zeros i v).
Proof. induction i; intros; cbn [pop_zeros]; ao. Qed.
Lemma ao_sub L a inv : alloc_only (abs_val_sub L false a inv).
Proof. unfold abs_val_sub; ao; [apply ao_sub_loop|apply ao_pop_zeros]. Qed.
#[export] Hint Resolve ao_add ao_sub : ao.
Lemma ao_shl_loop L : forall fuel v c r, alloc_only (shl_loop L fuel v c r).
Proof. induction fuel; intros; cbn [shl_loop]; ao. Qed.
Lemma ao_shift L v : alloc_only (shift_left_1 L v).
Proof. unfold shift_left_1; ao; apply ao_shl_loop. Qed.
#[export] Hint Resolve ao_shift : ao.
Lemma ao_div_inner L : forall fuel a b c d, alloc_only (div_inner L fuel a b c d).
Proof. induction fuel; intros; cbn [div_inner]; ao. Qed.
#[export] Hint Resolve ao_div_inner : ao.
Lemma ao_div_outer L fi : forall fuel a b r, alloc_only (div_outer L false fi fuel a b r).
Proof. induction fuel; intros; cbn [div_outer]; ao. Qed.
#[export] Hint Resolve ao_div_outer : ao.
Lemma ao_div L fuel a b : alloc_only (abs_val_div L false fuel a b).
Proof. unfold abs_val_div; ao. Qed.
#[export] Hint Resolve ao_div : ao.
Lemma ao_to_uint P w x : alloc_only (to_uint P w x).
Proof. unfold to_uint; ao. Qed.
#[export] Hint Resolve ao_to_uint : ao.
Lemma ao_carry L P : forall l c acc, alloc_only (carry_loop L P l c acc).
Proof. induction l; intros; cbn [carry_loop]; ao. Qed.
Lemma ao_count : forall v i, alloc_only (count_high_zeros v i).
Proof. intros v; induction i; cbn [count_high_zeros]; ao. Qed.
#[export] Hint Resolve ao_carry ao_count : ao.
Lemma ao_mul L P fuel a b : alloc_only (mul_strassen L P fuel a b).
Proof. unfold mul_strassen; ao. Qed.
#[export] Hint Resolve ao_mul : ao.

(** a compound assignment either completes, or fails on a refused allocation and leaves [bad], or is
    undefined or endless *)
Definition atomic (m : M assigned) (bad : bignum) : Prop :=
  forall al n, match m al n with
               | Ret (_, None) n' => (n <= n')%nat /\ granted al n n'
               | Ret (z, Some e) n' => e = ExStd /\ z = bad /\ last_refused al n n'
               | Throw _ _ => False
               | Undef _ | NoFuel => True
               end.

Lemma atomic_guarded m bad : alloc_only m -> atomic (guarded m bad) bad.
Proof.
  intros H al n. unfold guarded. specialize (H al n). destruct (m al n) as [a n'|e n'|u|]; auto.
  destruct H as [-> H]; auto.
Qed.
Lemma atomic_ret z bad : atomic (ret (z, None)) bad.
Proof. intros al n; cbn. split; [lia|apply granted_nil]. Qed.

Theorem add_atomic L x y : atomic (op_add_assign L false x y) (infinity_for (adesc x y)).
Proof.
  unfold op_add_assign. rewrite failed_infinity. destruct (negb _); [apply atomic_ret|].
  apply atomic_guarded. ao.
Qed.
Theorem sub_atomic L x y : atomic (op_sub_assign L false x y) (infinity_for (adesc x y)).
Proof.
  unfold op_sub_assign. rewrite failed_infinity. destruct (negb _); [apply atomic_ret|].
  apply atomic_guarded. ao.
Qed.
Theorem mul_atomic L P fuel x y : atomic (op_mul_assign L P fuel x y) (infinity_for (adesc x y)).
Proof.
  unfold op_mul_assign. rewrite failed_infinity. destruct (negb _); [apply atomic_ret|].
  apply atomic_guarded. ao.
Qed.
(** in x /= x the descriptor of *this is overwritten before anything can fail (bn_type_impl.h:651-662) *)
Theorem div_atomic L fuel x y : atomic (op_div_assign L false fuel x y)
  (infinity_for (match y with Other n => desc n | Self => product_desc (desc x) (desc x) end)).
Proof.
  unfold op_div_assign. destruct (negb _); [apply atomic_ret|]. cbv zeta.
  destruct (match adata x y with [x] => x =? wrap (wd L) (bmin L) | _ => false end); [apply atomic_ret|].
  destruct (match adata x y with [x] => x =? wrap (ws L) 1 | _ => false end); [apply atomic_ret|].
  destruct (match data x with [] => true | [x] => x =? wrap (wd L) (bmin L) | _ => false end); [apply atomic_ret|].
  rewrite failed_infinity. destruct y; cbn [adesc]; apply atomic_guarded; ao.
Qed.

(** ** BN_DEBUG *)

Definition dbg_refines {A} (m m' : M A) : Prop :=
  forall al n, m al n = m' al n \/ exists n', m al n = Throw ExUnderflow n'.

Lemma dr_refl {A} (m : M A) : dbg_refines m m.
Proof. intros al n; auto. Qed.
Lemma dr_bind {A C} (m m' : M A) (k k' : A -> M C) : dbg_refines m m' -> (forall a, dbg_refines (k a) (k' a)) ->
  dbg_refines (bind m k) (bind m' k').
Proof.
  intros Hm Hk al n. unfold bind. destruct (Hm al n) as [-> | (n' & ->)]; [|eauto].
  destruct (m' al n); auto. apply Hk.
Qed.
Lemma dr_sub L a inv : dbg_refines (abs_val_sub L true a inv) (abs_val_sub L false a inv).
Proof. intros al n. rewrite abs_val_sub_debug. destruct (_ || _); eauto. Qed.
Lemma dr_div_outer L fi : forall fuel a b r, dbg_refines (div_outer L true fi fuel a b r) (div_outer L false fi fuel a b r).
Proof.
  induction fuel as [|f IH]; intros; cbn [div_outer]; [apply dr_refl|].
  apply dr_bind; [apply dr_refl|]. intros [|]; [|apply dr_refl].
  do 5 (apply dr_bind; [apply dr_refl|]; intros ?).
  apply dr_bind; [apply dr_sub|]. intros ?. apply dr_bind; [apply dr_refl|]. intros ?. apply IH.
Qed.
Lemma dr_div L fuel a b : dbg_refines (abs_val_div L true fuel a b) (abs_val_div L false fuel a b).
Proof. apply dr_bind; [apply dr_refl|]. intros ?; apply dr_div_outer. Qed.

Ltac dr := repeat first
  [ apply dr_refl | apply dr_sub | apply dr_div
  | match goal with |- dbg_refines (bind _ _) _ => apply dr_bind; [|intros ?] end
  | match goal with |- dbg_refines (if ?c then _ else _) _ => destruct c end ].

(** a debug compound assignment does what the release one does, or throws leaving [bad] *)
Definition debug_or_throws (m m' : M assigned) (bad : bignum) : Prop :=
  forall al n, m al n = m' al n \/ exists n', m al n = Ret (bad, Some ExStd) n'.

Lemma dot_guarded m m' bad : dbg_refines m m' -> debug_or_throws (guarded m bad) (guarded m' bad) bad.
Proof. intros H al n. unfold guarded. destruct (H al n) as [-> | (n' & ->)]; eauto. Qed.
Lemma dot_refl m bad : debug_or_throws m m bad.
Proof. intros al n; auto. Qed.

Theorem add_debug L x y : debug_or_throws (op_add_assign L true x y) (op_add_assign L false x y) (infinity_for (adesc x y)).
Proof.
  unfold op_add_assign. rewrite failed_infinity. destruct (negb _); [apply dot_refl|].
  apply dot_guarded. dr.
Qed.
Theorem sub_debug L x y : debug_or_throws (op_sub_assign L true x y) (op_sub_assign L false x y) (infinity_for (adesc x y)).
Proof.
  unfold op_sub_assign. rewrite failed_infinity. destruct (negb _); [apply dot_refl|].
  apply dot_guarded. dr.
Qed.
Theorem div_debug L fuel x y : debug_or_throws (op_div_assign L true fuel x y) (op_div_assign L false fuel x y)
  (infinity_for (match y with Other n => desc n | Self => product_desc (desc x) (desc x) end)).
Proof.
  unfold op_div_assign. destruct (negb _); [apply dot_refl|]. cbv zeta.
  destruct (match adata x y with [x] => x =? wrap (wd L) (bmin L) | _ => false end); [apply dot_refl|].
  destruct (match adata x y with [x] => x =? wrap (ws L) 1 | _ => false end); [apply dot_refl|].
  destruct (match data x with [] => true | [x] => x =? wrap (wd L) (bmin L) | _ => false end); [apply dot_refl|].
  rewrite failed_infinity. destruct y; cbn [adesc]; apply dot_guarded; dr.
Qed.

(** exactly when a same-sign subtraction throws *)
Theorem sub_debug_exact L x y al n : limits_ok L = true -> finite x -> desc x = desc y ->
  digits_ok (base L) (data x) -> digits_ok (base L) (data y) -> canonical (data x) -> canonical (data y) ->
  value (base L) (data y) <= value (base L) (data x) ->
  op_sub_assign L true x (Other y) al n =
  if gtb (data y) (data x) then Ret (infinity_for (desc y), Some ExStd) n
  else op_sub_assign L false x (Other y) al n.
Proof.
  intros HL Fx Ed Dx Dy Cx Cy Hle. pose proof (AddSubProof.HB L HL) as HB.
  assert (pure (abs_val_is_ge (data x) (data y)) true) as Hge.
  { replace true with (geb (base L) (data x) (data y)); [apply abs_val_is_ge_pure; auto|].
    rewrite geb_canonical by auto. apply Z.leb_le; lia. }
  assert ((length (data x) <? length (data y))%nat = false) as Hlen.
  { apply Nat.ltb_ge. destruct (Nat.le_gt_cases (length (data y)) (length (data x))); auto.
    pose proof (length_lt_value (base L) HB (data x) (data y) Dx Dy Cy). lia. }
  destruct x as [dx vx], y as [dy vy]. unfold finite in Fx. cbn [desc data] in *. subst dy.
  destruct Fx as [-> | ->]; unfold op_sub_assign; cbn [isComputable desc negb desc_eqb andb orb adesc adata aview data];
    unfold guarded, bind; rewrite !Hge, !abs_val_sub_debug; unfold other; rewrite Hlen; cbn [orb];
    destruct (gtb vy vx); reflexivity.
Qed.

Theorem sub_debug_exact_neg L x y al n : limits_ok L = true -> finite x -> desc x = desc y ->
  digits_ok (base L) (data x) -> digits_ok (base L) (data y) -> canonical (data x) -> canonical (data y) ->
  value (base L) (data x) < value (base L) (data y) ->
  op_sub_assign L true x (Other y) al n =
  if gtb (data x) (data y) then Ret (infinity_for (desc y), Some ExStd) (S n)
  else op_sub_assign L false x (Other y) al n.
Proof.
  intros HL Fx Ed Dx Dy Cx Cy Hlt. pose proof (AddSubProof.HB L HL) as HB.
  assert (pure (abs_val_is_ge (data x) (data y)) false) as Hge.
  { replace false with (geb (base L) (data x) (data y)); [apply abs_val_is_ge_pure; auto|].
    rewrite geb_canonical by auto. apply Z.leb_gt; lia. }
  assert ((length (data y) <? length (data x))%nat = false) as Hlen.
  { apply Nat.ltb_ge. destruct (Nat.le_gt_cases (length (data x)) (length (data y))); auto.
    pose proof (length_lt_value (base L) HB (data y) (data x) Dy Dx Cx). lia. }
  destruct x as [dx vx], y as [dy vy]. unfold finite in Fx. cbn [desc data] in *. subst dy.
  destruct Fx as [-> | ->]; unfold op_sub_assign; cbn [isComputable desc negb desc_eqb andb orb adesc adata aview data];
    unfold guarded, bind, vcopy, bind, alloc; rewrite !Hge; destruct (al n); cbn [ret];
    rewrite ?abs_val_sub_debug; unfold other; rewrite ?Hlen; cbn [orb];
    destruct (gtb vx vy); reflexivity.
Qed.

(** the same for the addition of numbers of different sign *)
Theorem add_debug_exact L x y al n : limits_ok L = true -> finite x -> finite y -> desc x <> desc y ->
  digits_ok (base L) (data x) -> digits_ok (base L) (data y) -> canonical (data x) -> canonical (data y) ->
  value (base L) (data y) <= value (base L) (data x) ->
  op_add_assign L true x (Other y) al n =
  if gtb (data y) (data x) then Ret (infinity_for (desc y), Some ExStd) n
  else op_add_assign L false x (Other y) al n.
Proof.
  intros HL Fx Fy Ed Dx Dy Cx Cy Hle. pose proof (AddSubProof.HB L HL) as HB.
  assert (pure (abs_val_is_ge (data x) (data y)) true) as Hge.
  { replace true with (geb (base L) (data x) (data y)); [apply abs_val_is_ge_pure; auto|].
    rewrite geb_canonical by auto. apply Z.leb_le; lia. }
  assert ((length (data x) <? length (data y))%nat = false) as Hlen.
  { apply Nat.ltb_ge. destruct (Nat.le_gt_cases (length (data y)) (length (data x))); auto.
    pose proof (length_lt_value (base L) HB (data x) (data y) Dx Dy Cy). lia. }
  destruct x as [dx vx], y as [dy vy]. unfold finite in Fx, Fy. cbn [desc data] in *.
  destruct Fx as [-> | ->], Fy as [-> | ->]; try congruence; unfold op_add_assign;
    cbn [isComputable desc negb desc_eqb andb orb adesc adata aview data];
    unfold guarded, bind; rewrite !Hge, !abs_val_sub_debug; unfold other; rewrite Hlen; cbn [orb];
    destruct (gtb vy vx); reflexivity.
Qed.

Theorem add_debug_exact_neg L x y al n : limits_ok L = true -> finite x -> finite y -> desc x <> desc y ->
  digits_ok (base L) (data x) -> digits_ok (base L) (data y) -> canonical (data x) -> canonical (data y) ->
  value (base L) (data x) < value (base L) (data y) ->
  op_add_assign L true x (Other y) al n =
  if gtb (data x) (data y) then Ret (infinity_for (desc y), Some ExStd) (S n)
  else op_add_assign L false x (Other y) al n.
Proof.
  intros HL Fx Fy Ed Dx Dy Cx Cy Hlt. pose proof (AddSubProof.HB L HL) as HB.
  assert (pure (abs_val_is_ge (data x) (data y)) false) as Hge.
  { replace false with (geb (base L) (data x) (data y)); [apply abs_val_is_ge_pure; auto|].
    rewrite geb_canonical by auto. apply Z.leb_gt; lia. }
  assert ((length (data y) <? length (data x))%nat = false) as Hlen.
  { apply Nat.ltb_ge. destruct (Nat.le_gt_cases (length (data x)) (length (data y))); auto.
    pose proof (length_lt_value (base L) HB (data y) (data x) Dy Dx Cx). lia. }
  destruct x as [dx vx], y as [dy vy]. unfold finite in Fx, Fy. cbn [desc data] in *.
  destruct Fx as [-> | ->], Fy as [-> | ->]; try congruence; unfold op_add_assign;
    cbn [isComputable desc negb desc_eqb andb orb adesc adata aview data];
    unfold guarded, bind, vcopy, bind, alloc; rewrite !Hge; destruct (al n); cbn [ret];
    rewrite ?abs_val_sub_debug; unfold other; rewrite ?Hlen; cbn [orb];
    destruct (gtb vx vy); reflexivity.
Qed.

Lemma gtb_irrefl v : gtb v v = false.
Proof.
  destruct (gtb v v) eqn:E; [|reflexivity]. apply gtb_iff in E.
  destruct E as [E|(_ & i & d & e & Hd & He & H)]; [lia|]. rewrite Hd in He. injection He as ->. lia.
Qed.

(** and for the subtraction of numbers of different sign: any digits *)
Theorem sub_debug_mixed L x y al n : finite x -> finite y -> desc x <> desc y ->
  op_sub_assign L true x (Other y) al n =
  if gtb (data x) (data y) && gtb (data y) (data x) then Ret (infinity_for (desc y), Some ExStd) (S n)
  else op_sub_assign L false x (Other y) al n.
Proof.
  intros Fx Fy Ed. pose proof (abs_val_is_gt_pure (data x) (data y)) as Hgt.
  destruct x as [dx vx], y as [dy vy]. unfold finite in Fx, Fy. cbn [desc data] in *.
  destruct Fx as [-> | ->], Fy as [-> | ->]; try congruence; unfold op_sub_assign;
    cbn [isComputable desc negb desc_eqb andb orb adesc adata aview data];
    unfold guarded, bind, vcopy, bind, alloc; rewrite !Hgt.
  all: destruct (gtb vx vy) eqn:E1; cbn [andb]; destruct (al n); cbn [ret]; rewrite ?abs_val_sub_debug; unfold other;
    rewrite ?Nat.ltb_irrefl, ?gtb_irrefl; cbn [orb]; try reflexivity.
  all: try (destruct (gtb vy vx); reflexivity).
  all: assert ((length vx <? length vy)%nat = false) as -> by
    (apply Nat.ltb_ge; apply gtb_iff in E1; destruct E1 as [E1|(E1 & _)]; lia);
    cbn [orb]; destruct (gtb vy vx); reflexivity.
Qed.
