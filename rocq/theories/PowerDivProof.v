(** * Division by powers of two in bases that are powers of two, in builds with BN_DEBUG *)
From Verif Require Import Base Spec Limits Compare AddSub Division Fourier Multiplication Bignum Outcome.
From Verif Require Import Wp ValueProof CompareProof AddSubProof DivisionProof BignumProof OperatorProof DivOpProof FailProof DebugDivProof HistoryProof.

Lemma same_bind_may {A C} (m : M A) (k k' : A -> M C) Q : may m Q -> (forall a, Q a -> same (k a) (k' a)) ->
  same (bind m k) (bind m k').
Proof.
  intros Hm Hk al n. unfold bind. specialize (Hm al n). destruct (m al n) as [a n'|e n'|v|]; auto. apply Hk, Hm.
Qed.

Section Power.
Context (L : limits) (HD : can_double L = true) (e : Z) (He : 1 <= e) (HBe : base L = 2 ^ e).
Let B := base L.

Let B2 : 2 <= B.
Proof. unfold B. apply can_double_facts in HD. apply (limits_ok_facts L (proj1 HD)). Qed.

Definition unsigned (v : list Z) : Prop := Forall (fun d => 0 <= d) v.
Definition power (b : list Z) : Prop := digits_ok B b /\ canonical b /\ exists t, 0 <= t /\ value B b = 2 ^ t.

Lemma value_shape i p : value B (repeat 0 i ++ [p]) = p * B ^ Z.of_nat i.
Proof.
  induction i as [|i IH]; [cbn; lia|]. cbn [repeat app value]. rewrite IH, Nat2Z.inj_succ, Z.pow_succ_r by lia. lia.
Qed.

Lemma power_shape b : power b -> exists i p, b = repeat 0 i ++ [p].
Proof.
  pose proof B2 as B2'. intros (Db & Cb & t & Ht & V). exists (Z.to_nat (t / e)), (2 ^ (t mod e)).
  assert (0 <= t mod e < e) as Hm by (apply Z.mod_pos_bound; lia). assert (0 <= t / e) as Hq by (apply Z.div_pos; lia).
  assert (0 < 2 ^ (t mod e)) as Hp by (apply Z.pow_pos_nonneg; lia).
  apply (value_inj B B2'); auto.
  - apply Forall_app. split; [apply Forall_forall; intros x Hx; apply repeat_spec in Hx; subst; lia|].
    constructor; [|constructor]. split; [lia|]. unfold B. rewrite HBe. apply Z.pow_lt_mono_r; lia.
  - apply canonical_snoc. lia.
  - rewrite value_shape, V, Z2Nat.id by lia. unfold B. rewrite HBe, <- Z.pow_mul_r, <- Z.pow_add_r by lia. f_equal.
    pose proof (Z.div_mod t e ltac:(lia)). lia.
Qed.

Lemma power_not_lt a b : power b -> unsigned a -> pure (abs_val_is_ge a b) true -> gtb b a = false.
Proof.
  intros Hb Ha Hge. destruct (power_shape b Hb) as (i & p & E). destruct (gtb b a) eqn:G; [exfalso|reflexivity].
  apply gtb_iff in G. specialize (Hge (fun _ => true) 0%nat). unfold abs_val_is_ge in Hge.
  destruct (Nat.ltb_spec (length b) (length a)) as [H|H]; [destruct G as [G|[G _]]; lia|].
  destruct (Nat.ltb_spec (length a) (length b)) as [H'|H']; [discriminate|].
  assert (length a = S i) as La by (assert (length b = S i) by (rewrite E, app_length, repeat_length; cbn; lia); lia).
  rewrite La in Hge. cbn [ge_loop] in Hge. unfold bind, vget in Hge.
  destruct (nth_error_lt a i ltac:(lia)) as [x Hx]. rewrite Hx in Hge.
  assert (nth_error b i = Some p) as Hp by (rewrite E, nth_error_app2, repeat_length, Nat.sub_diag by (rewrite repeat_length; lia); reflexivity).
  rewrite Hp in Hge. cbn [ret] in Hge.
  destruct G as [G|(_ & k & d & f & Hd & Hf & Hlt)]; [lia|].
  destruct (Nat.eq_dec k i) as [->|Hk].
  - rewrite Hp in Hd. rewrite Hx in Hf. injection Hd as <-. injection Hf as <-.
    destruct (Z.ltb_spec p x); [lia|]. destruct (Z.ltb_spec x p); [discriminate|lia].
  - assert (k < length a)%nat by (apply nth_error_Some; congruence).
    rewrite E, nth_error_app1 in Hd by (rewrite repeat_length; lia).
    apply nth_error_In, repeat_spec in Hd. subst d.
    apply nth_error_In in Hf. unfold unsigned in Ha. rewrite Forall_forall in Ha. specialize (Ha f Hf). lia.
Qed.

Lemma shift_power b : power b -> may (shift_left_1 L b) power.
Proof.
  intros (D & C & t & Ht & V) al n. pose proof (shift_left_1_spec L HD b D C al n) as K.
  destruct (shift_left_1 L b al n) as [r n'|? ?|?|]; auto. destruct K as ((D' & C' & V') & _). split; [exact D'|]. split; [exact C'|].
  exists (t + 1). split; [lia|]. fold B in V'. rewrite V', V, Z.pow_add_r by lia. lia.
Qed.

Lemma inner_power dividend : forall fuel b0 b1 q, power b0 -> power b1 -> pure (abs_val_is_ge dividend b0) true ->
  may (div_inner L fuel dividend b0 b1 q) (fun p => power (fst p) /\ pure (abs_val_is_ge dividend (fst p)) true).
Proof.
  induction fuel as [|f IH]; intros b0 b1 q H0 H1 Hge; cbn [div_inner]; [apply may_nofuel|].
  destruct (abs_val_is_ge_total dividend b1) as (c & Hc & _).
  eapply may_bind with (Q := fun x => x = c); [intros al n; rewrite Hc; reflexivity|]. intros ? ->. destruct c.
  - eapply may_bind with (Q := fun x => x = b1); [intros al n; unfold vcopy, bind, alloc; destruct (al n); cbn; auto|]. intros ? ->.
    eapply may_bind; [apply shift_power; exact H1|]. intros b1' H1'.
    eapply may_bind; [apply may_any|]. intros q' _. apply IH; auto.
  - apply may_ret. split; assumption.
Qed.

Lemma wrap_unsigned w x : 0 <= w -> 0 <= wrap w x.
Proof. intros H. unfold wrap. apply Z.mod_pos_bound, Z.pow_pos_nonneg; lia. Qed.

Lemma sub_loop_unsigned inv : forall fuel out oi ii nb, unsigned out -> may (sub_loop L inv fuel out oi ii nb) unsigned.
Proof.
  assert (0 <= ws L) as Hw by (apply can_double_facts in HD; destruct (limits_ok_facts L (proj1 HD)); lia).
  induction fuel as [|f IH]; intros out oi ii nb Ho; cbn [sub_loop]; [apply may_nofuel|].
  eapply may_bind; [apply may_any|]. intros inDigit _. eapply may_bind; [apply may_any|]. intros o _. cbv zeta.
  eapply may_bind with (Q := unsigned).
  - apply may_vset. intros u x w E _. rewrite E in Ho. apply Forall_app in Ho. destruct Ho as [Hu Ho]. inversion_clear Ho as [|? ? _ Hw'].
    apply Forall_app. split; [exact Hu|]. constructor; [destruct (_ <? _); apply wrap_unsigned; exact Hw|exact Hw'].
  - intros out' Ho'. destruct (_ && _)%bool; [apply may_ret; exact Ho'|apply IH; exact Ho'].
Qed.

Lemma pop_zeros_unsigned : forall i v, unsigned v -> may (pop_zeros i v) unsigned.
Proof.
  induction i as [|i IH]; intros v Hv; cbn [pop_zeros]; [apply may_ret; exact Hv|].
  eapply may_bind; [apply may_any|]. intros x _. destruct (x =? 0); [|apply may_ret; exact Hv].
  eapply may_bind with (Q := unsigned); [|intros w Hw; apply IH; exact Hw].
  intros al n. unfold vpop. destruct v as [|d v']; [exact I|]. change (unsigned (removelast (d :: v'))).
  destruct (exists_last (l := d :: v') ltac:(discriminate)) as (u & t & E). rewrite E in *. rewrite removelast_last. apply Forall_app in Hv. apply Hv.
Qed.

Lemma sub_unsigned dbg a inv : unsigned a -> may (abs_val_sub L dbg a inv) unsigned.
Proof.
  intros Ha. unfold abs_val_sub. eapply may_bind; [apply may_any|]. intros _ _.
  eapply may_bind; [apply sub_loop_unsigned; exact Ha|]. intros v Hv. apply pop_zeros_unsigned. exact Hv.
Qed.

Lemma sub_same_build a b : gtb b a = false -> same (abs_val_sub L true a (other b)) (abs_val_sub L false a (other b)).
Proof.
  intros G al n. unfold abs_val_sub, other. unfold bind at 1 4.
  assert ((length b <=? length a)%nat = true) as Hl.
  { unfold gtb in G. destruct (Nat.ltb_spec (length a) (length b)); [discriminate|apply Nat.leb_le; lia]. }
  rewrite (proj2 (Nat.ltb_ge _ _)) by (apply Nat.leb_le in Hl; exact Hl).
  unfold bind at 1. rewrite abs_val_is_lt_pure, G. reflexivity.
Qed.

Lemma outer_same divisor fi : power divisor -> forall fuel dividend r, unsigned dividend ->
  same (div_outer L true fi fuel dividend divisor r) (div_outer L false fi fuel dividend divisor r).
Proof.
  intros Hd. induction fuel as [|f IH]; intros dividend r Ha; [intros al n; reflexivity|]. cbn [div_outer].
  destruct (abs_val_is_ge_total dividend divisor) as (c & Hc & _).
  eapply same_bind_may with (Q := fun x => x = c); [intros al n; rewrite Hc; reflexivity|]. intros ? ->.
  destruct c; [|intros al n; reflexivity].
  eapply same_bind_may with (Q := fun x => x = divisor); [apply may_vcopy; reflexivity|]. intros ? ->.
  eapply same_bind_may with (Q := fun x => x = divisor); [apply may_vcopy; reflexivity|]. intros ? ->.
  eapply same_bind_may; [apply may_any|]. intros q _.
  eapply same_bind_may; [apply shift_power; exact Hd|]. intros b1 H1.
  eapply same_bind_may; [apply (inner_power dividend fi divisor b1 q Hd H1 Hc)|]. intros [b0 q'] [H0 Hge]. cbn [fst snd] in *.
  intros al n. unfold bind at 1 3. rewrite (sub_same_build dividend b0) by (apply power_not_lt; auto).
  pose proof (sub_unsigned false dividend (other b0) Ha al n) as Hs.
  destruct (abs_val_sub L false dividend (other b0) al n) as [d' n'|? ?|?|]; auto.
  unfold bind. destruct (length q' <=? length r)%nat.
  - destruct (abs_val_add L r (other q') al n') as [r' n''|? ?|?|]; auto. apply IH. exact Hs.
  - destruct (abs_val_add L q' (other r) al n') as [r' n''|? ?|?|]; auto. apply IH. exact Hs.
Qed.

Lemma vset_unsigned v i d : unsigned v -> 0 <= d -> may (vset v i d) unsigned.
Proof.
  intros Hv Hd. apply may_vset. intros u x w E _. rewrite E in Hv. apply Forall_app in Hv. destruct Hv as [Hu Hv].
  inversion_clear Hv as [|? ? _ Hw]. apply Forall_app. split; [exact Hu|]. constructor; [exact Hd|exact Hw].
Qed.

Lemma vpush_unsigned v d : unsigned v -> 0 <= d -> may (vpush v d) unsigned.
Proof.
  intros Hv Hd. unfold vpush. eapply may_bind; [apply may_any|]. intros _ _. apply may_ret. apply Forall_app.
  split; [exact Hv|constructor; [exact Hd|constructor]].
Qed.

Lemma widths : 0 <= ws L /\ 0 <= wd L.
Proof. apply can_double_facts in HD. destruct (limits_ok_facts L (proj1 HD)); lia. Qed.

Lemma add_loop_unsigned inv : forall fuel out oi ii rem, unsigned out -> may (add_loop L inv fuel out oi ii rem) unsigned.
Proof.
  destruct widths as [Hw Hw2].
  induction fuel as [|f IH]; intros out oi ii rem Ho; cbn [add_loop]; [apply may_nofuel|].
  eapply may_bind with (Q := unsigned).
  { destruct (oi =? length out)%nat; [apply vpush_unsigned; [exact Ho|lia]|apply may_ret; exact Ho]. }
  intros out1 H1. eapply may_bind; [apply may_any|]. intros inDigit _. eapply may_bind; [apply may_any|]. intros o _. cbv zeta.
  eapply may_bind with (Q := fun dr : Z * Z => 0 <= fst dr).
  { destruct (_ <? _); [destruct (_ =? 0); [apply may_undef|]|]; apply may_ret; apply wrap_unsigned; exact Hw. }
  intros dr Hdr. eapply may_bind; [apply vset_unsigned; [exact H1|exact Hdr]|]. intros out2 H2.
  destruct (_ && _)%bool; [apply may_ret; exact H2|apply IH; exact H2].
Qed.

Lemma add_unsigned a inv : unsigned a -> may (abs_val_add L a inv) unsigned.
Proof. intros Ha. apply add_loop_unsigned. exact Ha. Qed.

Lemma shift_unsigned v : unsigned v -> may (shift_left_1 L v) unsigned.
Proof.
  destruct widths as [Hw Hw2]. intros Hv. unfold shift_left_1.
  destruct v as [|d v']; [apply may_ret; exact Hv|]. revert Hv. generalize (d :: v'). clear d v'. intros v Hv.
  assert (forall fuel v curr carry, unsigned v -> may (shl_loop L fuel v curr carry) (fun p => unsigned (fst p))) as K.
  { clear v Hv. induction fuel as [|f IH]; intros v curr carry Hv; cbn [shl_loop];
      (destruct (_ <? length v)%nat; [|apply may_ret; exact Hv]); [apply may_nofuel|].
    eapply may_bind; [apply may_any|]. intros x _. cbv zeta.
    match goal with |- context [?l =? 0] => set (limit := l) end.
    assert (0 <= limit) as Hl by (apply wrap_unsigned; exact Hw).
    destruct (Z.eqb_spec limit 0) as [|Nl]; [apply may_undef|].
    eapply may_bind; [apply vset_unsigned; [exact Hv|apply Z.mod_pos_bound; lia]|]. intros v2 H2. apply IH. exact H2. }
  eapply may_bind; [apply K; exact Hv|]. intros [r c] Hr. cbn [fst snd] in *.
  destruct (c =? 0); [apply may_ret; exact Hr|]. apply vpush_unsigned; [exact Hr|apply wrap_unsigned; exact Hw].
Qed.

Lemma inner_unsigned dividend : forall fuel b0 b1 q, unsigned q -> may (div_inner L fuel dividend b0 b1 q) (fun p => unsigned (snd p)).
Proof.
  induction fuel as [|f IH]; intros b0 b1 q Hq; cbn [div_inner]; [apply may_nofuel|].
  eapply may_bind; [apply may_any|]. intros [] _; [|apply may_ret; exact Hq].
  eapply may_bind; [apply may_any|]. intros b0' _. eapply may_bind; [apply may_any|]. intros b1' _.
  eapply may_bind; [apply shift_unsigned; exact Hq|]. intros q' Hq'. apply IH. exact Hq'.
Qed.

Lemma outer_unsigned dbg fi divisor : forall fuel dividend r, unsigned r -> may (div_outer L dbg fi fuel dividend divisor r) unsigned.
Proof.
  destruct widths as [Hw _].
  induction fuel as [|f IH]; intros dividend r Hr; cbn [div_outer]; [apply may_nofuel|].
  eapply may_bind; [apply may_any|]. intros [] _; [|apply may_ret; exact Hr].
  eapply may_bind; [apply may_any|]. intros b0 _. eapply may_bind; [apply may_any|]. intros b1 _.
  eapply may_bind with (Q := unsigned); [apply may_vcopy; constructor; [apply wrap_unsigned; exact Hw|constructor]|]. intros q Hq.
  eapply may_bind; [apply may_any|]. intros b1' _. eapply may_bind; [apply inner_unsigned; exact Hq|]. intros bq Hbq.
  eapply may_bind; [apply may_any|]. intros d' _.
  eapply may_bind with (Q := unsigned); [destruct (_ <=? _)%nat; apply add_unsigned; assumption|]. intros r' Hr'. apply IH. exact Hr'.
Qed.

Theorem div_unsigned dbg fuel x y : unsigned (data x) -> may (op_div_assign L dbg fuel x y) (fun s => unsigned (data (fst s))).
Proof.
  intros Hx. unfold op_div_assign.
  destruct (negb (isComputable (desc x))); [apply may_ret; constructor|]. cbv zeta.
  destruct (match adata x y with [_] => _ | _ => _ end); [apply may_ret; constructor|].
  destruct (match adata x y with [_] => _ | _ => _ end); [apply may_ret; exact Hx|].
  destruct (match data x with [] => _ | _ => _ end); [apply may_ret; exact Hx|].
  assert (forall m bad, may m (fun z => unsigned (data z)) -> unsigned (data bad) ->
    may (guarded m bad) (fun s => unsigned (data (fst s)))) as G.
  { intros m bad H Hb al n. specialize (H al n). unfold guarded. destruct (m al n) as [z n'|[] n'|u|]; auto. }
  apply G; [|unfold failed; destruct (desc_eqb _ _); constructor].
  eapply may_bind; [apply may_any|]. intros [] _.
  - eapply may_bind; [|intros v Hv; apply may_ret; exact Hv]. unfold abs_val_div.
    eapply may_bind with (Q := unsigned); [apply may_vcopy; constructor; [lia|constructor]|]. intros r Hr. apply outer_unsigned. exact Hr.
  - eapply may_bind; [|intros v Hv; apply may_ret; exact Hv]. apply may_vcopy. constructor; [lia|constructor].
Qed.

Theorem div_power_same fuel x y : unsigned (data x) -> power (data y) -> forall al n,
  op_div_assign L true fuel x (Other y) al n = op_div_assign L false fuel x (Other y) al n.
Proof.
  intros Hx Hy al n. unfold op_div_assign. cbn [adata adesc].
  destruct (negb (isComputable (desc x))); [reflexivity|]. cbv zeta.
  destruct (match data y with [_] => _ | _ => _ end); [reflexivity|].
  destruct (match data y with [_] => _ | _ => _ end); [reflexivity|].
  destruct (match data x with [] => _ | _ => _ end); [reflexivity|].
  assert (same (abs_val_div L true fuel (data x) (data y)) (abs_val_div L false fuel (data x) (data y))) as E.
  { unfold abs_val_div. eapply same_bind_may; [apply may_any|]. intros r _. apply outer_same; assumption. }
  unfold guarded, bind. destruct (abs_val_is_gt (data x) (data y) al n) as [c n'|? ?|?|]; auto.
  destruct c; [rewrite E|]; reflexivity.
Qed.
End Power.
