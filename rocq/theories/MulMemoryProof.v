(** * The memory of a multiplication: lemmas *)
From Verif Require Import Base Spec Limits Fourier Multiplication Bignum Outcome MulMemory.
From Verif Require Import Pow2Proof FftError ExactProof.

(** [m] makes [q] requests and, if they are all granted, ends as [o] says; it stops at the first refusal *)
Definition asks {A} (m : M A) (q : nat) (o : nat -> res A) : Prop := forall al n,
  (granted al n (n + q) -> m al n = o (n + q)%nat) /\
  (forall j, (j < q)%nat -> granted al n (n + j) -> al (n + j)%nat = false -> m al n = Throw ExBadAlloc (S (n + j))).

Lemma asks_ret {A} (a : A) : asks (ret a) 0 (Ret a).
Proof. intros al n. split; [intros _; rewrite Nat.add_0_r; reflexivity|lia]. Qed.

Lemma asks_alloc : asks alloc 1 (Ret tt).
Proof.
  intros al n. unfold alloc. split.
  - intros G. rewrite (G n) by lia. f_equal. lia.
  - intros j Hj _ F. assert (j = 0)%nat as -> by lia. rewrite Nat.add_0_r in *. rewrite F. reflexivity.
Qed.

Lemma asks_obtain n : (0 < n)%nat -> asks (obtain n) 1 (Ret tt).
Proof. intros H. unfold obtain. destruct (Nat.ltb_spec 0 n); [apply asks_alloc|lia]. Qed.

Lemma asks_bind {A B} (m : M A) (k : A -> M B) q a r o : asks m q (Ret a) -> asks (k a) r o -> asks (bind m k) (q + r) o.
Proof.
  intros Hm Hk al n. unfold bind. split.
  - intros G. rewrite (proj1 (Hm al n)) by (intros i Hi; apply G; lia).
    rewrite (proj1 (Hk al (n + q)%nat)) by (intros i Hi; apply G; lia). f_equal. lia.
  - intros j Hj G F. destruct (Nat.lt_ge_cases j q) as [Hq|Hq].
    + rewrite (proj2 (Hm al n) j Hq G F). reflexivity.
    + rewrite (proj1 (Hm al n)) by (intros i Hi; apply G; lia).
      replace (n + j)%nat with (n + q + (j - q))%nat in * by lia.
      apply (proj2 (Hk al (n + q)%nat) (j - q)%nat); [lia|intros i Hi; apply G; lia|exact F].
Qed.

Lemma asks_bind' {A B} (m : M A) (k : A -> M B) q a r s o :
  asks m q (Ret a) -> asks (k a) r o -> s = (q + r)%nat -> asks (bind m k) s o.
Proof. intros H1 H2 ->. eapply asks_bind; eassumption. Qed.

Section Detailed.
Context (P : flops).

Lemma fft_length k : forall fuel x y, length x = (2 ^ k)%nat -> fft_complex P fuel x = Some y -> length y = (2 ^ k)%nat.
Proof.
  induction k as [|k IH]; intros [|f] x y Hx E; cbn [fft_complex] in E; try discriminate.
  - rewrite Hx in E. cbn in E. injection E as <-. exact Hx.
  - assert (2 ^ S k = 2 * 2 ^ k)%nat as E2 by (cbn; lia). rewrite E2 in *.
    assert (0 < 2 ^ k)%nat by (apply Nat.neq_0_lt_0, Nat.pow_nonzero; lia).
    destruct (Nat.eqb_spec (length x) 1); [lia|].
    destruct (evens_odds_length x _ Hx) as [He Ho].
    destruct (fft_complex P f (evens x)) as [e|] eqn:Ee; [|discriminate].
    destruct (fft_complex P f (odds x)) as [o|] eqn:Eo; [|discriminate].
    apply (f_equal (fun z => match z with Some w => w | None => y end)) in E. cbv beta iota zeta in E. subst y.
    apply IH in Ee; [|exact He]. apply IH in Eo; [|exact Ho].
    assert (length x / 2 = 2 ^ k)%nat as -> by (rewrite Hx, Nat.mul_comm; apply Nat.div_mul; lia).
    rewrite !app_length, !map_length, !combine_length, seq_length, Ee, Eo, skipn_length, Hx, !Nat.min_id. lia.
Qed.

(** the transform of 2^k elements asks 3*2^k - 2 times *)
Lemma fft_asks k : forall fuel x, length x = (2 ^ k)%nat -> (k < fuel)%nat ->
  exists y, fft_complex P fuel x = Some y /\ length y = (2 ^ k)%nat /\ asks (fft_detailed P fuel x) (3 * 2 ^ k - 2) (Ret y).
Proof.
  induction k as [|k IH]; intros [|f] x Hx Hf; try lia.
  - exists x. cbn [fft_complex fft_detailed]. rewrite Hx. cbn [Nat.pow Nat.eqb]. split; [reflexivity|]. split; [reflexivity|].
    eapply asks_bind'; [apply (asks_obtain 1); lia|apply asks_ret|reflexivity].
  - assert (2 ^ S k = 2 * 2 ^ k)%nat as E2 by (cbn; lia).
    assert (0 < 2 ^ k)%nat as Hp by (apply Nat.neq_0_lt_0, Nat.pow_nonzero; lia).
    rewrite E2 in Hx. destruct (evens_odds_length x _ Hx) as [He Ho].
    destruct (IH f (evens x) He ltac:(lia)) as (e & Ee & Le & Ae).
    destruct (IH f (odds x) Ho ltac:(lia)) as (o & Eo & Lo & Ao).
    assert (fft_complex P (S f) x = Some (map fst (map (butterfly P (length x)) (combine (seq 0 (length x / 2)) (combine e o))) ++
      map snd (map (butterfly P (length x)) (combine (seq 0 (length x / 2)) (combine e o))) ++ skipn (2 * (length x / 2)) x)) as E.
    { cbn [fft_complex]. destruct (Nat.eqb_spec (length x) 1); [lia|]. rewrite Ee, Eo. reflexivity. }
    eexists. split; [exact E|]. split; [apply (fft_length (S k) (S f) x); [rewrite E2; exact Hx|exact E]|].
    cbn [fft_detailed]. destruct (Nat.eqb_spec (length x) 1); [lia|].
    assert (length x / 2 = 2 ^ k)%nat as Eh by (rewrite Hx, Nat.mul_comm; apply Nat.div_mul; lia). cbv zeta. rewrite Eh.
    eapply asks_bind'; [apply asks_obtain; exact Hp| |].
    + eapply asks_bind'; [apply asks_obtain; exact Hp| |].
      * eapply asks_bind'; [exact Ae| |]; [|reflexivity].
        eapply asks_bind'; [exact Ao| |]; [|reflexivity]. apply asks_ret.
      * reflexivity.
    + lia.
Qed.

(** ** The digits: no requests, and no exceptions *)
Inductive end_of (A : Type) := Value (a : A) | Undefined (u : ub).
Arguments Value {A} a. Arguments Undefined {A} u.
Definition ending {A} (o : end_of A) (n : nat) : res A := match o with Value a => Ret a n | Undefined u => Undef u end.
Definition quiet {A} (m : M A) : Prop := exists o, forall al n, m al n = ending o n.

Lemma q_ret {A} (a : A) : quiet (ret a).
Proof. exists (Value a). reflexivity. Qed.
Lemma q_undef {A} u : quiet (@undef A u).
Proof. exists (Undefined u). reflexivity. Qed.
Lemma q_bind {A B} (m : M A) (k : A -> M B) : quiet m -> (forall a, quiet (k a)) -> quiet (bind m k).
Proof.
  intros [[a|u] Hm] Hk.
  - destruct (Hk a) as [o Ho]. exists o. intros al n. unfold bind. rewrite Hm. apply Ho.
  - exists (Undefined u). intros al n. unfold bind. rewrite Hm. reflexivity.
Qed.
Lemma q_vget {A} (v : list A) i : quiet (vget v i).
Proof. unfold vget. destruct (nth_error v i); [apply q_ret|apply q_undef]. Qed.
Lemma q_to_uint w x : quiet (to_uint P w x).
Proof. unfold to_uint. repeat match goal with |- context [match ?c with _ => _ end] => destruct c end; auto using @q_ret, @q_undef. Qed.
Lemma q_carry L : forall l c acc, quiet (carry_loop L P l c acc).
Proof.
  induction l as [|x l IH]; intros; cbn [carry_loop]; [apply q_ret|]. apply q_bind; [apply q_to_uint|]. intros ci. cbv zeta.
  destruct (_ =? 0); [apply q_undef|apply IH].
Qed.
Lemma q_count v : forall i, quiet (count_high_zeros v i).
Proof.
  induction i as [|i IH]; cbn [count_high_zeros]; [apply q_ret|]. apply q_bind; [apply q_vget|]. intros x.
  destruct (negb _); [apply q_ret|]. apply q_bind; [exact IH|]. intros; apply q_ret.
Qed.
Definition digits_of (L : limits) (inverses : list (cplx P)) : M (list Z) :=
  v <- carry_loop L P inverses 0 [] ;; z <- count_high_zeros v (length v) ;; ret (firstn (length v - z) v).
Lemma q_digits L inverses : quiet (digits_of L inverses).
Proof. apply q_bind; [apply q_carry|]. intros v. apply q_bind; [apply q_count|]. intros; apply q_ret. Qed.

Lemma asks_quiet {A} (m : M A) o : (forall al n, m al n = ending o n) -> asks m 0 (ending o).
Proof. intros H al n. split; [intros _; rewrite H, Nat.add_0_r; reflexivity|lia]. Qed.

(** ** The multiplication *)
Lemma mul_asks L fuel a b k : fft_size (length a) (length b) = Z.of_nat (2 ^ k) -> (k < fuel)%nat ->
  exists o, asks (mul_detailed P L fuel a b) (6 * 2 ^ k - 1) (ending o) /\
    forall al n, mul_strassen L P fuel a b al n = if al n then ending o (S n) else Throw ExBadAlloc (S n).
Proof.
  intros Ek Hf. assert (0 < 2 ^ k)%nat as Hp by (apply Nat.neq_0_lt_0, Nat.pow_nonzero; lia).
  assert (length (create_fft_table P a b) = (2 ^ k)%nat) as Lt
    by (unfold create_fft_table; rewrite map_length, seq_length, Ek, Nat2Z.id; reflexivity).
  destruct (fft_asks k fuel _ Lt Hf) as (tr & E1 & L1 & A1).
  set (table := map (convolve_entry P tr) (seq 0 (2 ^ k))).
  assert (length (map (cconj P) table) = (2 ^ k)%nat) as Lc by (unfold table; rewrite !map_length, seq_length; reflexivity).
  destruct (fft_asks k fuel _ Lc Hf) as (y & E2 & L2 & A2).
  set (inv := map (fun e => cdivr P (cconj P e) (fofZ P (Z.of_nat (length y)))) y).
  destruct (q_digits L inv) as [o Ho]. exists o. split.
  - unfold mul_detailed.
    assert (asks (create_detailed P a b) 1 (Ret (create_fft_table P a b))) as H1.
    { eapply asks_bind'; [apply asks_obtain; rewrite Ek, Nat2Z.id; exact Hp|apply asks_ret|reflexivity]. }
    assert (asks (convolute_detailed P fuel (create_fft_table P a b)) (3 * 2 ^ k - 1) (Ret table)) as H2.
    { unfold convolute_detailed. rewrite Lt. eapply asks_bind'; [apply asks_obtain; exact Hp| |].
      - eapply asks_bind'; [exact A1| |]; [apply asks_ret|reflexivity].
      - lia. }
    assert (asks (ifft_detailed P fuel table) (3 * 2 ^ k - 2) (Ret inv)) as H3.
    { unfold ifft_detailed. eapply asks_bind'; [exact A2|apply asks_ret|lia]. }
    replace (6 * 2 ^ k - 1)%nat with (1 + ((3 * 2 ^ k - 1) + ((3 * 2 ^ k - 2) + (1 + 0))))%nat by lia.
    eapply asks_bind; [exact H1|]. eapply asks_bind; [exact H2|]. eapply asks_bind; [exact H3|].
    eapply asks_bind; [apply asks_obtain; unfold inv; rewrite map_length; lia|]. apply asks_quiet. exact Ho.
  - intros al n. unfold mul_strassen, bind at 1, alloc. destruct (al n); [|reflexivity].
    unfold convolute_fft. rewrite E1, Lt. fold table. unfold ifft_complex. rewrite E2. fold inv. apply Ho.
Qed.

(** at the first refusal, or at the end *)
Lemma asks_cases {A} (m : M A) q o al n : asks m q o ->
  (granted al n (n + q) /\ m al n = o (n + q)%nat) \/
  exists j, (j < q)%nat /\ granted al n (n + j) /\ al (n + j)%nat = false /\ m al n = Throw ExBadAlloc (S (n + j)).
Proof.
  intros H. assert (granted al n (n + q) \/ exists j, (j < q)%nat /\ granted al n (n + j) /\ al (n + j)%nat = false) as D.
  { clear H. induction q as [|q IH].
    - left. intros i Hi. lia.
    - destruct IH as [G|(j & Hj & G & F)]; [|right; exists j; repeat split; auto].
      destruct (al (n + q)%nat) eqn:E.
      + left. intros i Hi. destruct (Nat.eq_dec i (n + q)) as [->|N]; [exact E|apply G; lia].
      + right. exists q. repeat split; auto. }
  destruct D as [G|(j & Hj & G & F)]; [left; split; [exact G|apply H, G]|right].
  exists j. repeat split; auto. apply (proj2 (H al n) j Hj G F).
Qed.

End Detailed.
Arguments Value {A} a. Arguments Undefined {A} u.

(** ** What is held *)

Lemma acquisitions_app a b : acquisitions (a ++ b) = (acquisitions a + acquisitions b)%nat.
Proof. unfold acquisitions. rewrite filter_app, app_length. reflexivity. Qed.

(** from c complexes and d digits to c' and d', by way of at most p complexes, which are reached *)
Definition passes (c d : nat) (es : list event) (c' d' p : nat) : Prop :=
  fold_left held es (Some (c, d)) = Some (c', d') /\
  (forall i, exists x y, fold_left held (firstn i es) (Some (c, d)) = Some (x, y) /\ (x <= p)%nat /\ (d <= y <= d')%nat) /\
  (exists i y, fold_left held (firstn i es) (Some (c, d)) = Some (p, y)).

Lemma passes_nil c d : passes c d [] c d c.
Proof.
  split; [reflexivity|]. split.
  - intros i. exists c, d. rewrite firstn_nil. cbn. repeat split; lia.
  - exists 0%nat, d. reflexivity.
Qed.

Lemma passes_app c d a c1 d1 p b c2 d2 q : passes c d a c1 d1 p -> passes c1 d1 b c2 d2 q -> (d <= d1 <= d2)%nat ->
  passes c d (a ++ b) c2 d2 (Nat.max p q).
Proof.
  intros (E1 & W1 & (i1 & y1 & R1)) (E2 & W2 & (i2 & y2 & R2)) Hd. split; [|split].
  - rewrite fold_left_app, E1. exact E2.
  - intros i. rewrite firstn_app. destruct (Nat.le_gt_cases i (length a)) as [H|H].
    + replace (i - length a)%nat with 0%nat by lia. rewrite firstn_O, app_nil_r. destruct (W1 i) as (x & y & -> & Hx & Hy).
      exists x, y. repeat split; lia.
    + rewrite firstn_all2 by lia. rewrite fold_left_app, E1. destruct (W2 (i - length a)%nat) as (x & y & -> & Hx & Hy).
      exists x, y. repeat split; lia.
  - destruct (Nat.max_spec p q) as [[Hm ->]|[Hm ->]].
    + exists (length a + i2)%nat, y2. rewrite firstn_app_2, fold_left_app, E1. exact R2.
    + exists (Nat.min i1 (length a)), y1. rewrite firstn_app.
      replace (Nat.min i1 (length a) - length a)%nat with 0%nat by lia. rewrite firstn_O, app_nil_r.
      destruct (Nat.min_spec i1 (length a)) as [[Hn ->]|[Hn ->]]; [exact R1|]. rewrite firstn_all2 in R1 by lia.
      rewrite firstn_all. exact R1.
Qed.

Lemma passes_one c d e c' d' : held (Some (c, d)) e = Some (c', d') -> (d <= d')%nat -> passes c d [e] c' d' (Nat.max c c').
Proof.
  intros H Hd. split; [exact H|]. split.
  - intros [|i]; cbn [firstn fold_left]; [exists c, d; repeat split; lia|]. rewrite firstn_nil. cbn [fold_left]. rewrite H.
    exists c', d'. repeat split; lia.
  - destruct (Nat.max_spec c c') as [[_ ->]|[_ ->]]; [exists 1%nat, d'; exact H|exists 0%nat, d; reflexivity].
Qed.

Lemma passes_acquire c d n : passes c d [Acquire (Complexes n)] (c + n) d (c + n).
Proof. replace (c + n)%nat with (Nat.max c (c + n)) at 2 by lia. apply passes_one; [reflexivity|lia]. Qed.
Lemma passes_release c d n : passes (c + n) d [Release (Complexes n)] c d (c + n).
Proof.
  replace (c + n)%nat with (Nat.max (c + n) c) at 2 by lia. apply passes_one; [|lia]. cbn [held].
  destruct (Nat.leb_spec n (c + n)); [f_equal; f_equal; lia|lia].
Qed.
Lemma passes_digits c d n : passes c d [Acquire (Digits n)] c (d + n) c.
Proof. replace c with (Nat.max c c) at 3 by lia. apply passes_one; [reflexivity|lia]. Qed.

Lemma passes_app' c d a c1 p b c2 d2 q m : passes c d a c1 d p -> passes c1 d b c2 d2 q -> (d <= d2)%nat -> m = Nat.max p q ->
  passes c d (a ++ b) c2 d2 m.
Proof. intros H1 H2 Hd ->. eapply passes_app; [exact H1|exact H2|lia]. Qed.

Lemma fft_passes k : forall fuel c d, (k < fuel)%nat ->
  passes c d (fft_events fuel (2 ^ k)) c d (c + 2 * 2 ^ k - 1) /\ acquisitions (fft_events fuel (2 ^ k)) = (3 * 2 ^ k - 2)%nat.
Proof.
  induction k as [|k IH]; intros [|f] c d Hf; try lia; cbn [fft_events].
  - change (2 ^ 0)%nat with 1%nat. cbn [Nat.eqb]. split; [|reflexivity].
    change [Acquire (Complexes 1); Release (Complexes 1)] with ([Acquire (Complexes 1)] ++ [Release (Complexes 1)]).
    eapply passes_app'; [apply passes_acquire|apply passes_release|lia|lia].
  - assert (2 ^ S k = 2 * 2 ^ k)%nat as E2 by (cbn; lia). rewrite E2.
    assert (0 < 2 ^ k)%nat as Hp by (apply Nat.neq_0_lt_0, Nat.pow_nonzero; lia).
    destruct (Nat.eqb_spec (2 * 2 ^ k) 1); [lia|]. cbv zeta.
    assert (2 * 2 ^ k / 2 = 2 ^ k)%nat as -> by (rewrite Nat.mul_comm; apply Nat.div_mul; lia).
    set (h := (2 ^ k)%nat) in *. split.
    + change [Acquire (Complexes h); Acquire (Complexes h)] with ([Acquire (Complexes h)] ++ [Acquire (Complexes h)]).
      change [Release (Complexes h); Release (Complexes h)] with ([Release (Complexes h)] ++ [Release (Complexes h)]).
      rewrite <- !app_assoc.
      set (p := (c + h + h + 2 * h - 1)%nat).
      replace (c + 2 * (2 * h) - 1)%nat with
        (Nat.max (c + h) (Nat.max (c + h + h) (Nat.max p (Nat.max p (Nat.max (c + h + h) (c + h))))))%nat by (unfold p; lia).
      eapply passes_app; [apply passes_acquire| |lia]. eapply passes_app; [apply passes_acquire| |lia].
      eapply passes_app; [apply (proj1 (IH f (c + h + h)%nat d ltac:(lia)))| |lia].
      eapply passes_app; [apply (proj1 (IH f (c + h + h)%nat d ltac:(lia)))| |lia].
      eapply passes_app; [apply passes_release|apply passes_release|lia].
    + rewrite !acquisitions_app, (proj2 (IH f c d ltac:(lia))). cbn [acquisitions filter acquisition length]. lia.
Qed.

Lemma mul_passes k fuel : (k < fuel)%nat ->
  passes 0 0 (mul_events fuel (2 ^ k)) 0 (2 ^ k) (4 * 2 ^ k - 1) /\ acquisitions (mul_events fuel (2 ^ k)) = (6 * 2 ^ k - 1)%nat.
Proof.
  intros Hf. assert (0 < 2 ^ k)%nat as Hp by (apply Nat.neq_0_lt_0, Nat.pow_nonzero; lia). unfold mul_events.
  set (N := (2 ^ k)%nat) in *. split.
  - set (p := (N + N + 2 * N - 1)%nat). set (q := (N + 2 * N - 1)%nat).
    replace (4 * N - 1)%nat with
      (Nat.max (0 + N) (Nat.max (0 + N + N) (Nat.max p (Nat.max (0 + N + N) (Nat.max q (Nat.max (0 + N) (0 + N)))))))%nat by (unfold p, q; lia).
    eapply passes_app; [apply passes_acquire| |lia]. eapply passes_app; [apply passes_acquire| |lia].
    eapply passes_app; [apply (proj1 (fft_passes k fuel (0 + N + N)%nat 0%nat Hf))| |lia].
    eapply passes_app; [apply passes_release| |lia].
    eapply passes_app; [apply (proj1 (fft_passes k fuel (0 + N)%nat 0%nat Hf))| |lia].
    eapply passes_app; [apply passes_digits|apply (passes_release 0)|lia].
  - rewrite !acquisitions_app. unfold N. rewrite (proj2 (fft_passes k fuel 0 0 Hf)). fold N. cbn [acquisitions filter acquisition length]. unfold acquisitions. cbn [filter acquisition length]. lia.
Qed.
