(** * The compression test in builds with BN_DEBUG *)
From Verif Require Import Base Spec Limits Compare AddSub Division Fourier Multiplication Bignum Outcome Compress.
From Verif Require Import Wp ValueProof BignumProof PropObject CompressProof HistoryProof DebugDivProof PowerDivProof.

Lemma div2_same dbg fuel x y : unsigned (data x) -> data y = [2] -> forall al n,
  op_div_assign base256 dbg fuel x (Other y) al n = op_div_assign base256 false fuel x (Other y) al n.
Proof.
  intros Hx Hy. destruct dbg; [|reflexivity]. apply (div_power_same base256 eq_refl 8 ltac:(lia) eq_refl fuel x y Hx).
  rewrite Hy. split; [repeat constructor; lia|]. split; [unfold canonical; cbn; lia|]. exists 1. split; [lia|reflexivity].
Qed.

Lemma same_bind {A C} (m m' : M A) (k k' : A -> M C) Q : same m m' -> may m' Q -> (forall a, Q a -> same (k a) (k' a)) ->
  same (bind m k) (bind m' k').
Proof.
  intros H Hm Hk al n. unfold bind. rewrite H. specialize (Hm al n). destruct (m' al n) as [a n'|e n'|v|]; auto. apply Hk, Hm.
Qed.

Lemma loop_same dbg dfuel two : data two = [2] -> forall fuel x out digit nbits, unsigned (data x) ->
  same (compress_loop dbg dfuel fuel two x out digit nbits) (compress_loop false dfuel fuel two x out digit nbits).
Proof.
  intros H2. induction fuel as [|f IH]; intros x out digit nbits Hx; [intros al n; reflexivity|]. cbn [compress_loop].
  eapply same_bind_may; [apply may_any|]. intros [] _; [|intros al n; reflexivity].
  eapply same_bind_may; [apply may_any|]. intros d _. eapply same_bind_may; [apply may_any|]. intros s _.
  eapply same_bind with (Q := fun z => unsigned (data z)).
  - unfold statement. eapply same_bind; [intros al n; apply (div2_same dbg dfuel x two Hx H2)|apply may_any|]. intros a _ al n. reflexivity.
  - unfold statement. eapply may_bind; [apply (div_unsigned base256 eq_refl 8 ltac:(lia) false dfuel x (Other two) Hx)|].
    intros [z [e|]] K; cbn [fst snd] in *; [intros al n; exact I|apply may_ret; exact K].
  - intros z Hz. apply IH. exact Hz.
Qed.

Lemma to_u16_unsigned cs c : 0 <= to_u16 cs c.
Proof. unfold to_u16, wrap. apply Z.mod_pos_bound. lia. Qed.

Lemma push_unsigned x d : unsigned (data x) -> 0 <= d -> may (push_back x d) (fun z => unsigned (data z)).
Proof.
  intros Hx Hd. unfold push_back. eapply may_bind; [apply vpush_unsigned; eassumption|]. intros v Hv. apply may_ret. exact Hv.
Qed.

Lemma push_chars_unsigned cs : forall text x, unsigned (data x) -> may (push_chars cs text x) (fun z => unsigned (data z)).
Proof.
  induction text as [|c r IH]; intros x Hx; cbn [push_chars]; [apply may_ret; exact Hx|].
  eapply may_bind; [apply push_unsigned; [exact Hx|apply to_u16_unsigned]|]. intros z Hz. apply IH. exact Hz.
Qed.

Lemma make_may d l : digits_ok 256 l -> may (bn_make base256 d l) (fun z => z = mkBN d (rev (strip l))).
Proof. intros H al n. pose proof (make_returns d l H al n) as K. destruct (bn_make base256 d l al n); auto. apply K. Qed.

Theorem compress_same dbg cs fuel text : same (compress dbg cs fuel text) (compress false cs fuel text).
Proof.
  unfold compress. eapply same_bind_may; [apply make_may; constructor|]. intros x ->.
  eapply same_bind_may; [apply push_chars_unsigned; constructor|]. intros x Hx.
  eapply same_bind_may; [apply push_unsigned; [exact Hx|lia]|]. intros y Hy.
  eapply same_bind_may; [apply make_may; repeat constructor; lia|]. intros two E2.
  eapply same_bind; [apply (loop_same dbg fuel two); [rewrite E2; reflexivity|exact Hy]|apply may_any|]. intros s _ al n. reflexivity.
Qed.

Lemma mul_positive P fuel x y : desc x = BN_POS -> desc y = BN_POS -> may (op_mul base256 P fuel x y) (fun z => desc z = BN_POS).
Proof.
  intros Dx Dy. unfold op_mul, binary. eapply may_bind with (Q := fun r => desc r = BN_POS).
  { unfold bn_copy. eapply may_bind; [apply may_any|]. intros v _. apply may_ret. exact Dx. }
  intros r Dr. eapply may_bind with (Q := fun s : assigned => snd s = None -> desc (fst s) = BN_POS).
  - unfold op_mul_assign. rewrite Dr. cbn [adesc isComputable negb]. intros al n. unfold guarded, bind.
    destruct (mul_strassen _ _ _ _ _ al n) as [v n'|[] n'|u|]; cbn; auto; try discriminate. rewrite Dy. reflexivity.
  - intros [z [e|]] H; cbn [fst snd] in *; [intros al n; exact I|]. apply may_ret. apply H. reflexivity.
Qed.

Lemma add_positive dbg x y : desc x = BN_POS -> desc y = BN_POS ->
  same (op_add base256 dbg x y) (op_add base256 false x y) /\ may (op_add base256 false x y) (fun z => desc z = BN_POS).
Proof.
  intros Dx Dy. split.
  - intros al n. unfold op_add, binary. unfold bn_copy. unfold bind, ret. destruct (vcopy (data x) al n) as [v n'|? ?|?|]; auto.
    unfold op_add_assign. cbn [desc adesc]. rewrite Dx, Dy. reflexivity.
  - unfold op_add, binary. eapply may_bind with (Q := fun r => desc r = BN_POS).
    { unfold bn_copy. eapply may_bind; [apply may_any|]. intros v _. apply may_ret. exact Dx. }
    intros r Dr. eapply may_bind with (Q := fun s : assigned => snd s = None -> desc (fst s) = BN_POS).
    + unfold op_add_assign. rewrite Dr. cbn [adesc isComputable negb]. rewrite Dy. cbn [desc_eqb andb]. intros al n. unfold guarded, bind.
      destruct (abs_val_add _ _ _ al n) as [v n'|[] n'|u|]; cbn; auto; discriminate.
    + intros [z [e|]] H; cbn [fst snd] in *; [intros al n; exact I|]. apply may_ret. apply H. reflexivity.
Qed.

Lemma make_desc d l : may (bn_make base256 d l) (fun z => desc z = d).
Proof.
  unfold bn_make. destruct l; [apply may_ret; reflexivity|].
  eapply may_bind; [apply may_any|]. intros v _. eapply may_bind; [apply may_any|]. intros w _. apply may_ret. reflexivity.
Qed.

Lemma decompress_loop_same dbg P mfuel inNum two : desc two = BN_POS -> forall fuel out iter nbits, desc out = BN_POS ->
  same (decompress_loop dbg P mfuel fuel inNum two out iter nbits) (decompress_loop false P mfuel fuel inNum two out iter nbits).
Proof.
  intros D2. induction fuel as [|f IH]; intros out iter nbits Do; [intros al n; reflexivity|]. cbn [decompress_loop].
  destruct ((0 <? iter) && (0 <? nbits))%nat; [|intros al n; reflexivity].
  eapply same_bind_may; [apply may_any|]. intros d _.
  eapply same_bind_may with (Q := fun z => desc z = BN_POS).
  { apply make_desc. }
  intros digit Dd. eapply same_bind_may; [apply mul_positive; [exact Do|exact D2]|]. intros p Dp.
  destruct (add_positive dbg p digit Dp Dd) as [E K].
  eapply same_bind; [exact E|exact K|]. intros s Ds. cbn [bn_move_assign fst].
  destruct (nbits - 1 =? 0)%nat; apply IH; exact Ds.
Qed.

Theorem decompressed_same dbg P fuel inNum bits :
  same (decompressed dbg P fuel inNum bits) (decompressed false P fuel inNum bits).
Proof.
  unfold decompressed. eapply same_bind_may; [apply make_desc|]. intros out Do.
  eapply same_bind_may; [apply make_desc|]. intros two D2. apply decompress_loop_same; auto.
Qed.

Theorem roundtrip_same dbg cs P fuel text : same (roundtrip dbg cs P fuel text) (roundtrip false cs P fuel text).
Proof.
  unfold roundtrip. eapply same_bind; [apply compress_same|apply may_any|]. intros s _. unfold decompress.
  eapply same_bind; [apply decompressed_same|apply may_any|]. intros x _ al n. reflexivity.
Qed.

Lemma returns_any {A} (m m' : M A) Q : same m m' -> returns m' Q -> returns m Q.
Proof. intros E H al n. rewrite E. apply H. Qed.

Lemma roundtrip_any dbg cs P fuel text Q : returns (roundtrip false cs P fuel text) Q -> returns (roundtrip dbg cs P fuel text) Q.
Proof. apply returns_any, roundtrip_same. Qed.

Lemma compress_any dbg cs fuel text Q : returns (compress false cs fuel text) Q -> returns (compress dbg cs fuel text) Q.
Proof. apply returns_any, compress_same. Qed.

Lemma decompressed_any dbg P fuel inNum bits Q :
  returns (decompressed false P fuel inNum bits) Q -> returns (decompressed dbg P fuel inNum bits) Q.
Proof. apply returns_any, decompressed_same. Qed.
