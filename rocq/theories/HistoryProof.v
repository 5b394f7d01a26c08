(** * Proofs about histories: what every operation preserves (partial correctness, release and debug builds) *)
From Verif Require Import Base Spec Limits Compare AddSub Division Fourier Multiplication Bignum Machine Outcome Wp ValueProof
  CompareProof AddSubProof DivisionProof BignumProof PropObject.

Section History.
Context (L : limits).
Hypothesis HL : limits_ok L = true.
Let B := base L.

Definition ok (v : list Z) : Prop := digits_ok B v.

Lemma ok_in v x : ok v -> In x v -> 0 <= x < B.
Proof. unfold ok, digits_ok. rewrite Forall_forall. auto. Qed.

Lemma ok_replace u x w d : ok (u ++ x :: w) -> 0 <= d < B -> ok (u ++ d :: w).
Proof.
  unfold ok, digits_ok. rewrite !Forall_app. intros [H1 H2] Hd. inversion H2; subst. split; auto.
Qed.

Lemma ok_snoc v d : ok v -> 0 <= d < B -> ok (v ++ [d]).
Proof. intros H Hd. apply Forall_app. split; auto. Qed.

Lemma may_in_digit b k : ok b -> may (if (k <? length b)%nat then vget b k else ret 0) (fun x => 0 <= x < B).
Proof.
  intros Hb. pose proof (HB L HL). fold B in H. destruct (k <? length b)%nat; [|apply may_ret; lia].
  apply may_vget. intros x Hx. eapply ok_in; eauto.
Qed.

Definition view_ok (inv : view) : Prop := forall out, ok out -> ok (inv out).

Lemma may_add_loop inv : view_ok inv -> forall fuel out oi ii rem, ok out -> 0 <= rem <= 1 ->
  may (add_loop L inv fuel out oi ii rem) ok.
Proof.
  intros Hi. pose proof (HB L HL) as HB2. fold B in HB2. induction fuel as [|f IH]; intros out oi ii rem Ho Hr; [apply may_nofuel|].
  rewrite add_loop_unfold. eapply may_bind with (Q := ok).
  { destruct (oi =? length out)%nat; [apply may_vpush, ok_snoc; auto; lia|apply may_ret; auto]. }
  clear out Ho. intros out Ho. eapply may_bind; [apply may_in_digit; auto|]. intros d Hd.
  eapply may_bind; [apply may_vget; intros x Hx; exact (ok_in _ _ Ho Hx)|]. intros o Hoo.
  destruct (add_digit_ok L HL o d rem Hoo Hd Hr) as (d' & c & Hp & Hd' & Hc & _).
  eapply may_bind with (Q := fun p => p = (d', c)); [apply yields_may, (yields_pure _ _ _ Hp); reflexivity|].
  intros ? ->. cbn [fst snd]. eapply may_bind with (Q := ok).
  { apply may_vset. intros u x w E _. subst out. eapply ok_replace; eauto. }
  intros out2 Ho2. destruct (_ && _); [apply may_ret; auto|]. apply IH; auto.
Qed.

Lemma may_sub_loop inv : view_ok inv -> forall fuel out oi ii nb, ok out -> 0 <= nb <= 1 ->
  may (sub_loop L inv fuel out oi ii nb) ok.
Proof.
  intros Hi. induction fuel as [|f IH]; intros out oi ii nb Ho Hr; [apply may_nofuel|].
  rewrite sub_loop_unfold. eapply may_bind; [apply may_in_digit; auto|]. intros d Hd.
  eapply may_bind; [apply may_vget; intros x Hx; exact (ok_in _ _ Ho Hx)|]. intros o Hoo.
  pose proof (sub_digit_ok L HL o d nb Hoo Hd Hr) as K. destruct (sub_digit L (o - nb - d)) as [d' c]. destruct K as (Hd' & Hc & _).
  cbn [fst snd]. eapply may_bind with (Q := ok).
  { apply may_vset. intros u x w E _. subst out. eapply ok_replace; eauto. }
  intros out2 Ho2. destruct (_ && _); [apply may_ret; auto|]. apply IH; auto.
Qed.

Lemma may_abs_val_add v inv : ok v -> view_ok inv -> may (abs_val_add L v inv) ok.
Proof. intros Hv Hi. apply may_add_loop; auto; lia. Qed.

Lemma pop_zeros_pure v : exists r, pure (pop_zeros (length v) v) r /\ canonical r /\ (ok v -> ok r).
Proof.
  destruct (pop_zeros_spec L v) as (r & k & Hp & E & C). exists r. split; auto. split; auto.
  rewrite E. unfold ok, digits_ok. rewrite Forall_app. tauto.
Qed.

Lemma may_abs_val_sub dbg v inv : ok v -> view_ok inv -> may (abs_val_sub L dbg v inv) (fun r => ok r /\ canonical r).
Proof.
  intros Hv Hi. unfold abs_val_sub. eapply may_bind; [apply may_any|]. intros _ _.
  eapply may_bind; [apply may_sub_loop; auto; lia|]. intros out Ho.
  destruct (pop_zeros_pure out) as (r & Hp & C & O). apply yields_may, (yields_pure _ _ _ Hp). auto.
Qed.

Lemma view_other b : ok b -> view_ok (other b).
Proof. intros H out _. exact H. Qed.
Lemma view_same : view_ok same.
Proof. intros out H. exact H. Qed.

Lemma may_shl_loop : forall fuel v curr carry, ok v -> may (shl_loop L fuel v curr carry) (fun p => ok (fst p)).
Proof.
  pose proof (HB L HL) as HB2. pose proof (HBws L HL) as HBw. pose proof (HBwd L HL) as HBd. fold B in HB2, HBw, HBd.
  induction fuel as [|f IH]; intros v curr carry Hv; cbn [shl_loop];
    (destruct (curr <? length v)%nat; [|apply may_ret; exact Hv]); [apply may_nofuel|].
  eapply may_bind; [apply may_any|]. intros x _.
  assert (bmax L + 1 = B) as E by reflexivity. rewrite E, (wrap_small (wd L) B) by lia.
  destruct (Z.eqb_spec (wrap (ws L) B) 0) as [H0|H0]; [apply may_undef|].
  assert (wrap (ws L) B = B) as E2.
  { destruct (Z.eq_dec B (2 ^ ws L)) as [E2|E2]; [|apply wrap_small; lia].
    exfalso. apply H0. unfold wrap. rewrite E2. apply Z_mod_same_full. }
  rewrite E2. eapply may_bind with (Q := ok); [|intros v2 Hv2; apply IH; exact Hv2].
  apply may_vset. intros u y w -> _. eapply ok_replace; eauto. apply Z.mod_pos_bound. lia.
Qed.

Lemma one_wrap_ok : 0 <= wrap (ws L) (bmin L + 1) < B /\ 0 <= wrap (ws L) 1 < B.
Proof.
  destruct (limits_ok_facts L HL) as (H1 & H2 & H3 & H4 & H5 & H6). fold B in H4, H5, H6.
  rewrite H3. change (0 + 1) with 1. rewrite !(wrap_small (ws L) 1) by lia. lia.
Qed.

Lemma may_shift v : ok v -> may (shift_left_1 L v) ok.
Proof.
  intros Hv. unfold shift_left_1. destruct v as [|x v0] eqn:E; [apply may_ret; auto|]. rewrite <- E in *.
  eapply may_bind; [apply may_shl_loop; exact Hv|]. intros p Hp. destruct (snd p =? 0); [apply may_ret; auto|].
  apply may_vpush, ok_snoc; auto. apply one_wrap_ok.
Qed.

Lemma may_div_inner : forall fuel dividend b0 b1 q, ok q -> ok b0 -> ok b1 ->
  may (div_inner L fuel dividend b0 b1 q) (fun p => ok (fst p) /\ ok (snd p)).
Proof.
  induction fuel as [|f IH]; intros dividend b0 b1 q Hq H0 H1; cbn [div_inner]; [apply may_nofuel|].
  eapply may_bind; [apply may_any|]. intros c _. destruct c; [|apply may_ret; auto].
  eapply may_bind with (Q := ok); [apply may_vcopy; auto|]. intros b0' Hb0.
  eapply may_bind; [apply may_shift; auto|]. intros b1' Hb1.
  eapply may_bind; [apply may_shift; auto|]. intros q' Hq'. apply IH; auto.
Qed.

Lemma may_div_outer dbg fi : forall fuel dividend divisor r, ok r -> ok dividend -> ok divisor ->
  may (div_outer L dbg fi fuel dividend divisor r) ok.
Proof.
  induction fuel as [|f IH]; intros dividend divisor r Hr Hn Hd; cbn [div_outer]; [apply may_nofuel|].
  eapply may_bind; [apply may_any|]. intros c _. destruct c; [|apply may_ret; auto].
  eapply may_bind with (Q := ok); [apply may_vcopy; auto|]. intros b0 Hb0.
  eapply may_bind with (Q := ok); [apply may_vcopy; auto|]. intros b1 Hb1.
  eapply may_bind with (Q := ok). { apply may_vcopy. constructor; [apply one_wrap_ok|constructor]. } intros q Hq.
  eapply may_bind; [apply may_shift; auto|]. intros b1' Hb1'.
  eapply may_bind; [apply may_div_inner; auto|]. intros bq [Hbq1 Hbq2].
  eapply may_bind; [apply may_abs_val_sub; auto using view_other|]. intros n' [Hn' _].
  eapply may_bind with (Q := ok).
  { destruct (_ <=? _)%nat; apply may_abs_val_add; auto using view_other. }
  intros r' Hr'. apply IH; auto.
Qed.

Lemma may_abs_val_div dbg fuel a b : ok a -> ok b -> may (abs_val_div L dbg fuel a b) ok.
Proof.
  intros Ha Hb. unfold abs_val_div. eapply may_bind with (Q := ok).
  { apply may_vcopy. constructor; [|constructor]. pose proof (HB L HL). fold B in H. lia. }
  intros r Hr. apply may_div_outer; auto.
Qed.

Lemma may_carry_loop P : forall inv c acc, ok acc -> may (carry_loop L P inv c acc) ok.
Proof.
  pose proof (HB L HL) as HB2. pose proof (HBws L HL) as HBw. pose proof (HBwd L HL) as HBd. fold B in HB2, HBw, HBd.
  induction inv as [|x inv IH]; intros c acc Ha; cbn [carry_loop]; [apply may_ret; auto|].
  eapply may_bind; [apply may_any|]. intros ci _.
  assert (bmax L + 1 = B) as E by reflexivity. rewrite E, (wrap_small (wd L) B) by lia.
  rewrite (proj2 (Z.eqb_neq B 0)) by lia.
  assert (0 <= ci mod B < B) by (apply Z.mod_pos_bound; lia).
  apply IH. apply ok_snoc; auto. rewrite wrap_small by lia. lia.
Qed.

Lemma count_high_zeros_spec v : exists z r, pure (count_high_zeros v (length v)) z /\ v = r ++ repeat 0 z /\ canonical r.
Proof.
  assert (forall w t, exists z r, pure (count_high_zeros (w ++ t) (length w)) z /\ w = r ++ repeat 0 z /\ canonical r) as K.
  { induction w as [|x w IH] using rev_ind; intros t.
    - exists 0%nat, []. split; [apply pure_ret|]. split; [reflexivity|apply canonical_nil].
    - rewrite app_length, Nat.add_1_r. cbn [count_high_zeros]. rewrite <- app_assoc. cbn [app].
      destruct (Z.eqb_spec x 0) as [->|Hx].
      + destruct (IH (0 :: t)) as (z & r & Hp & E & C). exists (S z), r. split; [|split; auto].
        * rewrite vget_app. eapply pure_bind; [apply pure_ret|]. rewrite Z.eqb_refl. cbn [negb].
          eapply pure_bind; [exact Hp|apply pure_ret].
        * rewrite E at 1. rewrite <- app_assoc. f_equal. symmetry. apply repeat_cons.
      + exists 0%nat, (w ++ [x]). split; [|split].
        * rewrite vget_app. eapply pure_bind; [apply pure_ret|]. rewrite (proj2 (Z.eqb_neq _ _) Hx). apply pure_ret.
        * cbn [repeat]. rewrite app_nil_r. reflexivity.
        * apply canonical_snoc; auto. }
  specialize (K v []). rewrite app_nil_r in K. exact K.
Qed.

(** the trimming at the end of mul_strassen *)
Lemma trim_pure v : exists r z, v = r ++ repeat 0 z /\ canonical r /\
  pure (z <- count_high_zeros v (length v) ;; ret (firstn (length v - z) v)) r.
Proof.
  destruct (count_high_zeros_spec v) as (z & r & Hp & E & C). exists r, z. split; [|split]; auto.
  eapply pure_bind; [exact Hp|]. assert (firstn (length v - z) v = r) as ->; [|apply pure_ret].
  rewrite E at 1 2. rewrite app_length, repeat_length, Nat.add_sub, firstn_app, firstn_all, Nat.sub_diag, firstn_O.
  apply app_nil_r.
Qed.

Lemma may_mul_strassen P fuel a b : may (mul_strassen L P fuel a b) (fun r => ok r /\ canonical r).
Proof.
  unfold mul_strassen. eapply may_bind; [apply may_any|]. intros _ _.
  destruct (convolute_fft P fuel (create_fft_table P a b)); [|apply may_nofuel].
  destruct (ifft_complex P fuel l); [|apply may_nofuel].
  eapply may_bind; [apply may_carry_loop; constructor|]. intros v Hv.
  destruct (trim_pure v) as (r & z & E & C & Hp). apply yields_may, (yields_pure _ _ _ Hp).
  split; auto. rewrite E in Hv. apply Forall_app in Hv. apply Hv.
Qed.

Lemma may_guarded body bad (Q : bignum -> Prop) : may body Q -> Q bad -> may (guarded body bad) (fun a => Q (fst a)).
Proof.
  intros H Hb al n. specialize (H al n). unfold guarded. destruct (body al n) as [a n'|[] n'|u|]; cbn; auto.
Qed.

(** ** One invariant for both claims *)
Section Inv.
Variable I : list Z -> Prop.
Hypothesis I_nil : I [].
Hypothesis I_zero : I [0].
Hypothesis I_add : forall v w, I v -> I w -> may (abs_val_add L v (other w)) I.
Hypothesis I_add_same : forall v, I v -> may (abs_val_add L v same) I.
Hypothesis I_sub : forall dbg v w, I v -> I w -> may (abs_val_sub L dbg v (other w)) I.
Hypothesis I_sub_same : forall dbg v, I v -> may (abs_val_sub L dbg v same) I.
Hypothesis I_mul : forall P fuel v w, may (mul_strassen L P fuel v w) I.
Hypothesis I_div : forall dbg fuel v w, I v -> I w -> w <> [0] -> may (abs_val_div L dbg fuel v w) I.

Definition arg_inv (y : arg) : Prop := match y with Other z => I (data z) | Self => True end.

Lemma inv_adata x y : I (data x) -> arg_inv y -> I (adata x y).
Proof. destruct y; auto. Qed.

Lemma inv_bn (m : M (list Z)) d : may m I -> may (v <- m ;; ret (mkBN d v)) (fun z => I (data z)).
Proof. intros H. eapply may_bind; [exact H|]. intros v Hv. apply may_ret. exact Hv. Qed.

Lemma inv_add x y : I (data x) -> arg_inv y -> may (abs_val_add L (data x) (aview y)) I.
Proof. destruct y; cbn [aview arg_inv]; auto. Qed.
Lemma inv_sub dbg x y : I (data x) -> arg_inv y -> may (abs_val_sub L dbg (data x) (aview y)) I.
Proof. destruct y; cbn [aview arg_inv]; auto. Qed.

Lemma inv_diff dbg x y d1 d2 : I (data x) -> arg_inv y ->
  may (c <- abs_val_is_ge (data x) (adata x y) ;;
       if (c : bool) then v <- abs_val_sub L dbg (data x) (aview y) ;; ret (mkBN d1 v)
       else t <- vcopy (adata x y) ;; v <- abs_val_sub L dbg t (other (data x)) ;; ret (mkBN d2 v)) (fun z => I (data z)).
Proof.
  intros Hx Hy. eapply may_bind; [apply may_any|]. intros c _. destruct c; [apply inv_bn, inv_sub; auto|].
  eapply may_bind with (Q := I); [apply may_vcopy, inv_adata; auto|]. intros t Ht. apply inv_bn. auto.
Qed.

Lemma inv_compound E op x y : eL E = L -> I (data x) -> arg_inv y -> may (compound E op x y) (fun a => I (data (fst a))).
Proof.
  intros EL Hx Hy. destruct op; cbn [compound]; rewrite EL.
  - unfold op_add_assign. destruct (isComputable (desc x)); cbn [negb]; [|apply may_ret; exact I_nil].
    apply may_guarded with (Q := fun z => I (data z)); [|exact I_nil].
    destruct (_ && _); [apply inv_bn, inv_add; auto|]. destruct (_ && _); [apply inv_diff; auto|].
    destruct (_ && _); [apply inv_diff; auto|apply inv_bn, inv_add; auto].
  - unfold op_sub_assign. destruct (isComputable (desc x)); cbn [negb]; [|apply may_ret; exact I_nil].
    apply may_guarded with (Q := fun z => I (data z)); [|exact I_nil].
    destruct (_ && _); [apply inv_diff; auto|]. destruct (_ || _); [|apply inv_diff; auto].
    eapply may_bind; [apply may_any|]. intros c _. eapply may_bind with (Q := I).
    { apply may_vcopy. destruct c; auto using inv_adata. }
    intros t Ht. apply inv_bn. apply I_sub; auto using inv_adata.
  - unfold op_mul_assign. destruct (isComputable (desc x)); cbn [negb]; [|apply may_ret; exact I_nil].
    apply may_guarded with (Q := fun z => I (data z)); [|exact I_nil]. apply inv_bn. apply I_mul.
  - unfold op_div_assign. destruct (isComputable (desc x)); cbn [negb]; [|apply may_ret; exact I_nil].
    destruct (match adata x y with [x0] => x0 =? wrap (wd L) (bmin L) | _ => false end) eqn:E0; [apply may_ret; exact I_nil|].
    destruct (match adata x y with [x0] => x0 =? wrap (ws L) 1 | _ => false end) eqn:E1; [apply may_ret; exact Hx|].
    destruct (match data x with [] => true | [x0] => x0 =? wrap (wd L) (bmin L) | _ => false end) eqn:E2; [apply may_ret; exact Hx|].
    apply may_guarded with (Q := fun z => I (data z)); [|exact I_nil].
    eapply may_bind; [apply may_any|]. intros c _. destruct c.
    + apply inv_bn. apply I_div; auto using inv_adata. intros EE. rewrite EE in E0. cbn in E0.
      destruct (limits_ok_facts L HL) as (_ & _ & H3 & _). rewrite H3 in E0. discriminate.
    + eapply may_bind with (Q := I); [apply may_vcopy; exact I_zero|]. intros v Hv. apply may_ret. exact Hv.
Qed.

Lemma inv_store s r m : (forall i, I (data (s i))) -> may m (fun z => I (data z)) ->
  may (store s r m) (fun s' => forall i, I (data (s' i))).
Proof.
  intros Hs Hm. unfold store. eapply may_bind with (Q := fun a => match a with inl z => I (data z) | inr _ => True end).
  - intros al n. specialize (Hm al n). unfold attempt. destruct (m al n); auto.
  - intros [z|e] Hz; apply may_ret; auto. intros i. unfold upd. destruct (i =? r)%nat; auto.
Qed.

Lemma inv_upd s r z : (forall i, I (data (s i))) -> I (data z) -> forall i, I (data (upd s r z i)).
Proof. intros Hs Hz i. unfold upd. destruct (i =? r)%nat; auto. Qed.

Lemma inv_operand s r t : (forall i, I (data (s i))) -> arg_inv (operand s r t).
Proof. intros H. unfold operand. destruct (t =? r)%nat; cbn; auto. Qed.

(** instructions that work on whole numbers *)
Definition whole (i : instr) : Prop :=
  match i with
  | INew _ _ l => I (rev (strip l))
  | ICopy _ _ | IMove _ _ | IAssign _ _ _ | IBinary _ _ _ _ | ISetDesc _ _ | IClear _ => True
  | _ => False
  end.

Lemma inv_step E i s : eL E = L -> whole i -> (forall j, I (data (s j))) ->
  may (step E i s) (fun s' => forall j, I (data (s' j))).
Proof.
  intros EL Hw Hs. destruct i; cbn [step]; try contradiction.
  - apply inv_store; auto. rewrite EL. intros al n.
    rewrite make_spec by (destruct (limits_ok_facts L HL); tauto).
    destruct l as [|x l]; [exact I_nil|]. destruct (al n); [|auto]. exact Hw.
  - intros al n. unfold bind. destruct (Nat.eqb_spec s0 r) as [->|N].
    + unfold operand. rewrite Nat.eqb_refl. cbn. apply inv_upd; auto.
    + unfold operand. rewrite (proj2 (Nat.eqb_neq _ _) N). rewrite (proj1 (C40_copy_assign _ _ al n)).
      destruct (al n); unfold ret; apply inv_upd; cbn [data fst]; auto.
  - destruct (s0 =? r)%nat; cbn.
    + apply may_ret. apply inv_upd; auto. cbn. destruct (eKeep E); auto.
    + apply may_ret. apply inv_upd; auto. apply inv_upd; auto.
  - eapply may_bind; [apply inv_compound; auto using inv_operand|]. intros a Ha. apply may_ret. apply inv_upd; auto.
  - apply inv_store; auto. unfold binary. eapply may_bind with (Q := fun z => I (data z)).
    + unfold bn_copy. eapply may_bind with (Q := I); [apply may_vcopy; auto|]. intros v Hv. apply may_ret. exact Hv.
    + intros z Hz. eapply may_bind; [apply inv_compound; auto; exact (Hs _)|]. intros a Ha. destruct (snd a); [apply may_throw|apply may_ret; auto].
  - apply may_ret. apply inv_upd; auto. destruct d; cbn; auto.
  - apply may_ret. apply inv_upd; auto.
Qed.

Lemma inv_exec_gen (OK : instr -> Prop) E :
  (forall i s, OK i -> (forall j, I (data (s j))) -> may (step E i s) (fun s' => forall j, I (data (s' j)))) ->
  forall p s, Forall OK p -> (forall j, I (data (s j))) -> may (exec E p s) (fun s' => forall j, I (data (s' j))).
Proof.
  intros Hst. induction p as [|i p IH]; intros s Hp Hs; cbn [exec]; [apply may_ret; auto|].
  inversion Hp; subst. eapply may_bind; [apply Hst; auto|]. intros s' Hs'. apply IH; auto.
Qed.

End Inv.

(** ** digits in range *)
Lemma ok_nil : ok [].
Proof. constructor. Qed.
Lemma ok_zero : ok [0].
Proof. pose proof (HB L HL). fold B in H. constructor; [lia|constructor]. Qed.

Lemma ok_strip l : ok l -> ok (rev (strip l)).
Proof.
  intros H. apply Forall_rev. destruct (strip_split l) as [k E]. unfold ok, digits_ok in H. rewrite E in H.
  apply Forall_app in H. apply H.
Qed.

(** every digit a client writes is in range *)
Definition in_range (i : instr) : Prop :=
  match i with
  | INew _ _ l => Forall (fun d => 0 <= d < B) l
  | IResize _ _ d | IPushBack _ d | IPushFront _ d | IPush _ d _ | ISetDigit _ _ d => 0 <= d < B
  | _ => True
  end.

Lemma ok_firstn n v : ok v -> ok (firstn n v).
Proof. intros H. apply Forall_forall. intros x Hx. apply (ok_in v); auto. rewrite <- (firstn_skipn n v). apply in_or_app; auto. Qed.
Lemma ok_skipn n v : ok v -> ok (skipn n v).
Proof. intros H. apply Forall_forall. intros x Hx. apply (ok_in v); auto. rewrite <- (firstn_skipn n v). apply in_or_app; auto. Qed.

Lemma ok_bn (m : M (list Z)) d : may m ok -> may (v <- m ;; ret (mkBN d v)) (fun z => ok (data z)).
Proof. intros H. eapply may_bind; [exact H|]. intros v Hv. apply may_ret. exact Hv. Qed.

Lemma ok_insert v i d : ok v -> 0 <= d < B -> may (vinsert v i d) ok.
Proof.
  intros Hv Hd. unfold vinsert. destruct (_ <=? _)%nat; [|apply may_undef]. eapply may_bind; [apply may_any|]. intros _ _.
  apply may_ret. apply Forall_app. split; [apply ok_firstn; auto|]. constructor; auto. apply ok_skipn; auto.
Qed.

Lemma ok_erase v i : ok v -> may (verase v i) ok.
Proof.
  intros Hv. unfold verase. destruct (_ <? _)%nat; [|apply may_undef]. apply may_ret.
  apply Forall_app. split; [apply ok_firstn; auto|apply ok_skipn; auto].
Qed.

Lemma range_step E i s : eL E = L -> in_range i -> (forall j, ok (data (s j))) ->
  may (step E i s) (fun s' => forall j, ok (data (s' j))).
Proof.
  intros EL Hi Hs.
  assert (whole ok i -> may (step E i s) (fun s' => forall j, ok (data (s' j)))) as K.
  { intros Hw. apply inv_step with (I := ok); auto.
    - exact ok_nil.
    - exact ok_zero.
    - intros v w Hv Hww. apply may_abs_val_add; auto using view_other.
    - intros v Hv. apply may_abs_val_add; auto using view_same.
    - intros dbg v w Hv Hww. eapply may_mono; [apply may_abs_val_sub; auto using view_other|]. cbn; tauto.
    - intros dbg v Hv. eapply may_mono; [apply may_abs_val_sub; auto using view_same|]. cbn; tauto.
    - intros P fuel v w. eapply may_mono; [apply may_mul_strassen|]. cbn; tauto.
    - intros dbg fuel v w Hv Hww _. apply may_abs_val_div; auto. }
  destruct i; try (apply K; exact I); try (apply K; apply ok_strip; exact Hi); cbn [step]; apply inv_store; auto; cbn [in_range] in Hi.
  - apply ok_bn. unfold vresize. eapply may_bind; [apply may_any|]. intros _ _. apply may_ret.
    apply Forall_app. split; [apply ok_firstn; auto|]. apply Forall_forall. intros x Hx. apply repeat_spec in Hx. subst; auto.
  - apply ok_bn. apply may_vpush, ok_snoc; auto.
  - apply ok_bn. apply ok_insert; auto.
  - apply ok_bn. apply ok_insert; auto.
  - apply ok_bn. unfold vpop. destruct (data (s r)) as [|x v] eqn:E2; [apply may_undef|]. rewrite <- E2. apply may_ret.
    specialize (Hs r). rewrite E2 in *. destruct (exists_last (l := x :: v) ltac:(discriminate)) as (u & y & E3). rewrite E3 in *.
    rewrite removelast_last. apply Forall_app in Hs. apply Hs.
  - apply ok_bn. apply ok_erase; auto.
  - apply ok_bn. apply ok_erase; auto.
  - unfold subscript_set. eapply may_bind; [apply may_any|]. intros _ _. apply ok_bn.
    apply may_vset. intros u x w E2 _. specialize (Hs r). rewrite E2 in Hs. eapply ok_replace; eauto.
Qed.

(** ** no superfluous zeros *)
Section Weak.
Hypothesis HD : can_double L = true \/ full_width L = true.

Definition wok (v : list Z) : Prop := ok v /\ weak_canonical v.

Lemma may_shift_c v : ok v -> canonical v -> may (shift_left_1 L v) (fun r => ok r /\ canonical r).
Proof.
  intros Hv Hc. destruct HD as [H|H].
  - eapply may_mono; [apply yields_may, (shift_left_1_spec L H v Hv Hc)|]. cbn. intros r (H1 & H2 & _). auto.
  - destruct v as [|x v].
    + cbn. apply may_ret. auto.
    + intros al n. rewrite (shift_left_1_full_width L (x :: v) al n H); [exact Logic.I|discriminate].
Qed.

Lemma may_div_inner_c : forall fuel dividend b0 b1 q, ok q -> canonical q -> ok b1 ->
  may (div_inner L fuel dividend b0 b1 q) (fun p => ok (snd p) /\ canonical (snd p)).
Proof.
  induction fuel as [|f IH]; intros dividend b0 b1 q Hq Hc Hb; cbn [div_inner]; [apply may_nofuel|].
  eapply may_bind; [apply may_any|]. intros c _. destruct c; [|apply may_ret; auto].
  eapply may_bind; [apply may_any|]. intros b0' _.
  eapply may_bind; [apply may_shift; auto|]. intros b1' Hb1.
  eapply may_bind; [apply may_shift_c; auto|]. intros q' [Hq' Hc']. apply IH; auto.
Qed.

Lemma wok_add v w : wok v -> wok w -> may (abs_val_add L v (other w)) wok.
Proof.
  intros [Hv Cv] [Hw Cw]. eapply may_mono; [apply yields_may, (abs_val_add_other L HL v w Hv Hw)|].
  intros r (Hr & V & G). split; [exact Hr|]. apply (grown_canonical L HL v w); auto.
Qed.

Lemma wok_add_same v : wok v -> may (abs_val_add L v same) wok.
Proof.
  intros [Hv Cv]. eapply may_mono; [apply yields_may, (abs_val_add_same L HL v Hv)|].
  intros r (Hr & V & G). split; [exact Hr|]. apply (grown_canonical L HL v v); auto. rewrite V. ring.
Qed.

Lemma wok_div_outer dbg fi : forall fuel dividend divisor r, wok r -> ok dividend -> ok divisor ->
  may (div_outer L dbg fi fuel dividend divisor r) wok.
Proof.
  induction fuel as [|f IH]; intros dividend divisor r Hr Hn Hd; cbn [div_outer]; [apply may_nofuel|].
  eapply may_bind; [apply may_any|]. intros c _. destruct c; [|apply may_ret; auto].
  eapply may_bind with (Q := ok); [apply may_vcopy; auto|]. intros b0 Hb0.
  eapply may_bind with (Q := ok); [apply may_vcopy; auto|]. intros b1 Hb1.
  eapply may_bind with (Q := fun q => ok q /\ canonical q).
  { apply may_vcopy. split; [constructor; [apply one_wrap_ok|constructor]|]. unfold canonical. cbn [last].
    destruct (limits_ok_facts L HL) as (H1 & H2 & H3 & H4 & H5 & H6). rewrite wrap_small by lia. lia. }
  intros q [Hq Cq].
  eapply may_bind; [apply may_shift; auto|]. intros b1' Hb1'.
  eapply may_bind with (Q := fun p => ok (fst p) /\ ok (snd p) /\ canonical (snd p)).
  { intros al n. pose proof (may_div_inner fi dividend b0 b1' q Hq Hb0 Hb1' al n) as K1.
    pose proof (may_div_inner_c fi dividend b0 b1' q Hq Cq Hb1' al n) as K2.
    destruct (div_inner L fi dividend b0 b1' q al n); tauto. }
  intros bq (Hbq1 & Hbq2 & Cbq).
  eapply may_bind; [apply may_abs_val_sub; auto using view_other|]. intros n' [Hn' _].
  eapply may_bind with (Q := wok).
  { assert (wok (snd bq)) by (split; [exact Hbq2|left; exact Cbq]). destruct (_ <=? _)%nat; apply wok_add; auto. }
  intros r' Hr'. apply IH; auto.
Qed.

Lemma canonical_strip l : canonical (rev (strip l)).
Proof.
  unfold canonical. rewrite last_rev. induction l as [|[|p|p] l IH]; cbn [strip hd]; auto; lia.
Qed.

Lemma weak_step E i s : eL E = L ->
  (match i with
   | INew _ _ l => Forall (fun d => 0 <= d < B) l
   | ICopy _ _ | IMove _ _ | IAssign _ _ _ | IBinary _ _ _ _ | ISetDesc _ _ | IClear _ => True
   | _ => False
   end) -> (forall j, wok (data (s j))) ->
  may (step E i s) (fun s' => forall j, wok (data (s' j))).
Proof.
  intros EL Hi Hs. apply inv_step with (I := wok); auto.
  - split; [apply ok_nil|left; apply canonical_nil].
  - split; [apply ok_zero|right; reflexivity].
  - exact wok_add.
  - exact wok_add_same.
  - intros dbg v w [Hv _] [Hw _]. eapply may_mono; [apply may_abs_val_sub; auto using view_other|]. cbn. intros r [? ?]; split; auto. left; auto.
  - intros dbg v [Hv _]. eapply may_mono; [apply may_abs_val_sub; auto using view_same|]. cbn. intros r [? ?]; split; auto. left; auto.
  - intros P fuel v w. eapply may_mono; [apply may_mul_strassen|]. cbn. intros r [? ?]; split; auto. left; auto.
  - intros dbg fuel v w [Hv _] [Hw _] _. unfold abs_val_div. eapply may_bind with (Q := wok).
    { apply may_vcopy. split; [apply ok_zero|right; reflexivity]. }
    intros r Hr. apply wok_div_outer; auto.
  - destruct i; auto. cbn. split; [apply ok_strip; exact Hi|left; apply canonical_strip].
Qed.
End Weak.
End History.
