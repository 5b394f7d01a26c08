(** * Operations that need no memory: lemmas *)
From Verif Require Import Base Spec Limits Compare AddSub Division Fourier Multiplication Bignum Machine Outcome.
From Verif Require Import Wp ValueProof CompareProof AddSubProof DivisionProof BignumProof OperatorProof DivOpProof FailProof MemoryProof.

(** the vector that [m] returns is longer than [v] by the number of requests *)
Definition grows (v : list Z) (m : M (list Z)) : Prop := forall al n,
  match m al n with Ret r n' => (n <= n')%nat /\ length r = (length v + (n' - n))%nat | _ => True end.

Lemma quiet_bind {A} (m : M A) (k : A -> M (list Z)) v :
  (forall al n, match m al n with Ret _ n' => n' = n | _ => True end) -> (forall a, grows v (k a)) -> grows v (bind m k).
Proof. intros Hm Hk al n. unfold bind. specialize (Hm al n). destruct (m al n) as [a k1|e k1|u|]; auto. subst. apply Hk. Qed.

Lemma grows_bind v (m : M (list Z)) k : grows v m -> (forall w, grows w (k w)) -> grows v (bind m k).
Proof.
  intros Hm Hk al n. unfold bind. specialize (Hm al n). destruct (m al n) as [w n1|e n1|u|]; auto. specialize (Hk w al n1).
  destruct (k w al n1) as [r n2|e n2|u|]; auto. lia.
Qed.

Lemma quiet_vget {A} (v : list A) i : forall al n, match vget v i al n with Ret _ n' => n' = n | _ => True end.
Proof. intros al n. unfold vget. destruct (nth_error v i); cbn; auto. Qed.

Lemma grows_ret v : grows v (ret v).
Proof. intros al n. cbn. lia. Qed.
Lemma grows_vpush v d : grows v (vpush v d).
Proof. intros al n. unfold vpush, bind, alloc. destruct (al n); auto. cbn -[Nat.sub]. rewrite app_length. cbn [length]. lia. Qed.
Lemma grows_vset v i d : grows v (vset v i d).
Proof.
  intros al n. unfold vset. destruct (Nat.ltb_spec i (length v)); cbn -[skipn Nat.sub]; auto. split; [lia|]. rewrite app_length, firstn_length. cbn [length].
  rewrite skipn_length. lia.
Qed.

Lemma grows_add_loop L inv : forall fuel out oi ii rem, grows out (add_loop L inv fuel out oi ii rem).
Proof.
  induction fuel as [|f IH]; intros; cbn [add_loop]; [intros al n; exact I|].
  apply grows_bind; [destruct (_ =? _)%nat; [apply grows_vpush|apply grows_ret]|]. clear out. intros out.
  apply quiet_bind; [destruct (_ <? _)%nat; [apply quiet_vget|reflexivity]|]. intros d.
  apply quiet_bind; [apply quiet_vget|]. intros o. cbv zeta.
  apply quiet_bind; [intros al n; destruct (_ <? _); [destruct (_ =? _)|]; cbn; auto|]. intros p.
  apply grows_bind; [apply grows_vset|]. intros w. destruct (_ && _ && _); [apply grows_ret|apply IH].
Qed.
Lemma grows_add L out inv : grows out (abs_val_add L out inv).
Proof. apply grows_add_loop. Qed.

(** a computation that asks for nothing when memory is unlimited asks for nothing *)
Lemma steady_quiet {A} (m : M A) n a : steady bad_alloc m -> m never_fails n = Ret a n -> forall al, m al n = Ret a n.
Proof.
  intros H K al. destruct (H al n) as [[-> _]|(e & n' & _ & _ & (k & -> & Hk & _) & W)]; [apply K|].
  rewrite K in W. cbn in W. lia.
Qed.

Lemma all_refused {A} (m : M A) n a n' : steady bad_alloc m -> m never_fails n = Ret a n' -> (n < n')%nat ->
  forall al, (forall k, al k = false) -> exists k, m al n = Throw ExBadAlloc k.
Proof.
  intros H K Hn al Hal. destruct (H al n) as [[_ C]|(e & k & -> & -> & _)]; [|eauto]. rewrite K in C. destruct C as [_ G].
  specialize (G n ltac:(lia)). rewrite Hal in G. discriminate.
Qed.

Section Add.
Context (L : limits) (HL : limits_ok L = true).
Let B := base L.
Let HBk : 2 <= B := AddSubProof.HB L HL.

Lemma fits_length v k : digits_ok B v -> weak_canonical v -> v <> [0] -> value B v < B ^ Z.of_nat k -> (length v <= k)%nat.
Proof.
  intros D [C|E] N0 H; [|contradiction]. destruct (Nat.le_gt_cases (length v) k) as [|G]; [assumption|exfalso].
  assert (v <> []) as N by (intros ->; cbn in G; lia). destruct (exists_last N) as (u & d & ->).
  unfold canonical in C. rewrite last_last in C. unfold digits_ok in D. rewrite Forall_app in D. destruct D as [Du Dd].
  inversion Dd; subst. rewrite app_length in G. cbn [length] in G. rewrite value_app in H. cbn [value] in H.
  pose proof (value_bounds B HBk u Du). assert (B ^ Z.of_nat k <= B ^ Z.of_nat (length u)) by (apply Z.pow_le_mono_r; lia). nia.
Qed.

(** an addition in place: no request if the sum fits into the digits there are, at least one otherwise *)
Lemma add_in_place a inv n s : a <> [] ->
  yields (abs_val_add L a inv) (fun r => digits_ok B r /\ value B r = s /\ weak_canonical r) -> s < B ^ Z.of_nat (length a) ->
  exists r, digits_ok B r /\ value B r = s /\ weak_canonical r /\ forall al, abs_val_add L a inv al n = Ret r n.
Proof.
  intros Na H Hs. specialize (H never_fails n). pose proof (grows_add L a inv never_fails n) as G.
  destruct (abs_val_add L a inv never_fails n) as [r n'|e n'|u|] eqn:E; try contradiction;
    [|destruct H as (_ & k & _ & F); discriminate].
  destruct H as [(D & V & C) Hn], G as [_ Gl]. exists r. split; [exact D|]. split; [exact V|]. split; [exact C|].
  assert (length r <= length a)%nat as Hle.
  { destruct (list_eq_dec Z.eq_dec r [0]) as [->|N0]; [destruct a; [congruence|cbn; lia]|]. apply fits_length; auto. lia. }
  assert (n' = n) by lia. subst n'. intros al. apply (steady_quiet (abs_val_add L a inv)); [apply st_add; reflexivity|exact E].
Qed.

Lemma add_grows a inv n s : yields (abs_val_add L a inv) (fun r => digits_ok B r /\ value B r = s /\ weak_canonical r) ->
  a = [] \/ B ^ Z.of_nat (length a) <= s -> (a = [] -> may (abs_val_add L a inv) (fun r => r <> [])) ->
  forall al, (forall k, al k = false) -> exists k, abs_val_add L a inv al n = Throw ExBadAlloc k.
Proof.
  intros H Hs HN. specialize (H never_fails n). pose proof (grows_add L a inv never_fails n) as G.
  destruct (abs_val_add L a inv never_fails n) as [r n'|e n'|u|] eqn:E; try contradiction;
    [|destruct H as (_ & k & _ & F); discriminate].
  destruct H as [(D & V & C) Hn], G as [_ Gl]. apply (all_refused _ n r n'); [apply st_add; reflexivity|exact E|].
  destruct Hs as [Ea|Hs].
  - specialize (HN Ea never_fails n). rewrite E in HN. subst a. cbn [length] in Gl. destruct r; [congruence|cbn [length] in Gl; lia].
  - destruct (Nat.eq_dec n' n) as [->|]; [|lia]. exfalso. replace (length a + (n - n))%nat with (length a) in Gl by lia. rewrite <- Gl in Hs.
    pose proof (value_bounds B HBk r D). lia.
Qed.
End Add.
