(** * The compression client: proofs *)
From Verif Require Import Base Spec Limits Compare AddSub Division Fourier Multiplication Bignum Outcome Compress.
From Verif Require Import Wp ValueProof CompareProof AddSubProof DivisionProof BignumProof OperatorProof DivOpProof PaddedProof PropObject.

Local Notation B := 256.
Local Notation two := (mkBN BN_POS [2]).

(** ** Bits *)
Lemma lor_shift_add a b k : 0 <= k -> 0 <= a < 2 ^ k -> Z.lor a (Z.shiftl b k) = a + b * 2 ^ k.
Proof.
  intros Hk Ha. rewrite <- Z.shiftl_mul_pow2 by lia. rewrite <- Z.lxor_lor, <- Z.add_nocarry_lxor; [reflexivity| |].
  all: apply Z.bits_inj'; intros i Hi; rewrite Z.land_spec, Z.bits_0;
    destruct (Z.lt_ge_cases i k) as [H|H];
    [rewrite Z.shiftl_spec_low by lia; apply Bool.andb_false_r|
     rewrite <- (Z.mod_small a (2 ^ k)) by lia; rewrite Z.mod_pow2_bits_high by lia; reflexivity].
Qed.

Lemma mod_pow2_S D t : 0 <= t -> D mod 2 ^ (t + 1) = D mod 2 ^ t + ((D / 2 ^ t) mod 2) * 2 ^ t.
Proof.
  intros Ht. rewrite Z.pow_add_r by lia. change (2 ^ 1) with 2.
  rewrite Z.rem_mul_r by (try apply Z.pow_nonzero; lia). ring.
Qed.

Lemma div_pow2_S W t : 0 <= t -> W / 2 ^ (t + 1) = W / 2 ^ t / 2.
Proof. intros Ht. rewrite Z.pow_add_r by lia. rewrite Z.div_div; [reflexivity| |lia]. apply Z.pow_nonzero; lia. Qed.

Lemma add_bit_pure x digit nbits d r : data x = d :: r -> (nbits < 16)%nat -> 0 <= digit < 2 ^ Z.of_nat nbits ->
  pure (add_bit x digit nbits) (digit + (d mod 2) * 2 ^ Z.of_nat nbits) /\
  0 <= digit + (d mod 2) * 2 ^ Z.of_nat nbits < 2 ^ Z.of_nat (S nbits).
Proof.
  intros Ex Hn Hd. pose proof (Z.mod_pos_bound d 2 ltac:(lia)) as Hb.
  assert (0 < 2 ^ Z.of_nat nbits) as Hp by (apply Z.pow_pos_nonneg; lia).
  assert (2 ^ Z.of_nat (S nbits) = 2 * 2 ^ Z.of_nat nbits) as E by (rewrite Nat2Z.inj_succ, Z.pow_succ_r; lia).
  assert (2 ^ Z.of_nat (S nbits) <= 2 ^ 16) as H16 by (apply Z.pow_le_mono_r; lia).
  assert (0 <= digit + (d mod 2) * 2 ^ Z.of_nat nbits < 2 ^ Z.of_nat (S nbits)) as K by nia.
  split; [|exact K]. intros al n. unfold add_bit. rewrite Ex. unfold bind. cbn [vget nth_error ret].
  assert ((if d mod 2 =? 0 then 0 else 1) = d mod 2) as ->.
  { destruct (Z.eqb_spec (d mod 2) 0); lia. }
  cbv zeta. rewrite lor_shift_add by lia. rewrite wrap_small by lia. reflexivity.
Qed.

Lemma lowest_bit d r : value B (d :: r) mod 2 = d mod 2.
Proof.
  cbn [value]. replace (d + B * value B r) with (d + (128 * value B r) * 2) by ring. apply Z.mod_add. lia.
Qed.

Lemma statement_returns m Q bad : assigns m Q bad -> returns (statement m) Q.
Proof.
  intros H al n. specialize (H al n). unfold statement, bind. destruct (m al n) as [[z [e|]] n'|e n'|u|]; try contradiction.
  - destruct H as (-> & _ & H). cbn. auto.
  - exact H.
Qed.

Lemma returns_assoc {A C E} (m : M A) (k : A -> M C) (j : C -> M E) Q :
  returns (bind (bind m k) j) Q -> returns (bind m (fun a => bind (k a) j)) Q.
Proof. intros H al n. specialize (H al n). unfold bind in *. destruct (m al n); auto. Qed.

Lemma push_back_yields x d : yields (push_back x d) (fun z => z = mkBN (desc x) (data x ++ [d])).
Proof.
  unfold push_back. eapply yields_bind with (Q := fun v => v = data x ++ [d]); [apply yields_vpush; reflexivity|].
  intros ? ->. apply yields_ret. reflexivity.
Qed.

Lemma dbl256 : can_double base256 = true.
Proof. reflexivity. Qed.

(** numbers of at least two, in the loop *)
Lemma small_false x : digits_ok B (data x) -> canonical (data x) -> 2 <= value B (data x) ->
  pure (not_yet_small x) true.
Proof.
  intros D C V al n. unfold not_yet_small, bn_size. destruct (data x) as [|d [|e r]] eqn:E; cbn [value] in V; try lia; cbn.
  - rewrite (proj2 (Z.ltb_lt 1 d)) by lia. reflexivity.
  - reflexivity.
Qed.

Lemma halve dfuel x : digits_ok B (data x) -> canonical (data x) -> desc x = BN_POS -> 2 <= value B (data x) ->
  Z.log2 (value B (data x)) + 2 <= Z.of_nat dfuel ->
  returns (statement (op_div_assign base256 false dfuel x (Other two)))
    (fun z => (value B (data x) = 2 -> data z = [0]) /\
       (value B (data x) <> 2 -> desc z = BN_POS /\ digits_ok B (data z) /\ weak_canonical (data z) /\
                                value B (data z) = value B (data x) / 2)).
Proof.
  intros D C P V F.
  assert (digits_ok B [2]) as D2 by (repeat constructor; lia).
  assert (canonical [2]) as C2 by (unfold canonical; cbn; lia).
  assert (good B x) as Gx by (repeat split; auto; [left; auto|left; auto]).
  assert (good B two) as G2 by (repeat split; auto; [left; auto|left; auto]).
  destruct (Z.eq_dec (value B (data x)) 2) as [E|N].
  - assert (data x = [2]) as Ex by (apply (value_inj B ltac:(lia)); auto).
    eapply returns_mono.
    + eapply statement_returns. apply (div_assign_same_magnitude base256 dbl256 dfuel x two); auto; try (left; auto; fail);
        rewrite Ex; discriminate.
    + intros z ->. split; [reflexivity|lia].
  - eapply returns_mono.
    + eapply statement_returns. apply (div_assign_quot base256 dbl256 dfuel x two); auto. discriminate.
    + intros z [(Fz & Dz & Cz) Vz]. split; [lia|]. intros _. change (base base256) with B in *.
      unfold signed_value in Vz. rewrite P in Vz. cbn [desc data value] in Vz. replace (2 + B * 0) with 2 in Vz by lia.
      rewrite Z.quot_div_nonneg in Vz by lia.
      assert (2 <= value B (data x) / 2 \/ 1 <= value B (data x) / 2) as Q2 by (right; apply Z.div_le_lower_bound; lia).
      destruct Fz as [Pz|Pz]; rewrite Pz in Vz; auto.
      pose proof (value_bounds B ltac:(lia) _ Dz). lia.
Qed.

Section Loop.
Context (W T : Z) (HT : 1 <= T) (HW : 2 ^ T <= W < 2 ^ (T + 1)).

Lemma W_ge t : 0 <= t < T -> 2 <= W / 2 ^ t.
Proof.
  intros Ht. assert (0 < 2 ^ t) by (apply Z.pow_pos_nonneg; lia). apply Z.div_le_lower_bound; [lia|].
  assert (2 ^ (t + 1) <= 2 ^ T) as H1 by (apply Z.pow_le_mono_r; lia). rewrite Z.pow_add_r in H1 by lia.
  change (2 ^ 1) with 2 in H1. lia.
Qed.

Lemma W_log t : 0 <= t < T -> Z.log2 (W / 2 ^ t) <= T.
Proof.
  intros Ht. assert (0 < 2 ^ t) by (apply Z.pow_pos_nonneg; lia).
  apply Z.lt_succ_r, Z.log2_lt_pow2; [pose proof (W_ge t Ht); lia|].
  apply Z.le_lt_trans with W; [|exact (proj2 HW)].
  apply Z.div_le_upper_bound; [lia|]. assert (0 < 2 ^ T) by (apply Z.pow_pos_nonneg; lia). nia.
Qed.

(** the digit the loop stops with *)
Definition rest : Z := if 3 * 2 ^ (T - 1) <=? W then 1 else 0.

Lemma W_last : W / 2 ^ (T - 1) = 2 + rest.
Proof.
  assert (2 ^ T = 2 * 2 ^ (T - 1)) as E by (rewrite <- Z.pow_succ_r by lia; f_equal; lia).
  assert (2 ^ (T + 1) = 4 * 2 ^ (T - 1)) as E' by (replace (T + 1) with (T - 1 + 2) by lia; rewrite Z.pow_add_r by lia; lia).
  unfold rest. destruct (Z.leb_spec (3 * 2 ^ (T - 1)) W).
  - symmetry. apply Z.div_unique with (W - 3 * 2 ^ (T - 1)); lia.
  - symmetry. apply Z.div_unique with (W - 2 * 2 ^ (T - 1)); lia.
Qed.

Lemma W_four t : 0 <= t < T - 1 -> 4 <= W / 2 ^ t.
Proof.
  intros Ht. assert (0 < 2 ^ t) by (apply Z.pow_pos_nonneg; lia). apply Z.div_le_lower_bound; [lia|].
  assert (2 ^ (t + 2) <= 2 ^ T) as H1 by (apply Z.pow_le_mono_r; lia). rewrite Z.pow_add_r in H1 by lia.
  change (2 ^ 2) with 4 in H1. lia.
Qed.

(** what has been written after [t] bits *)
Definition written (t : Z) (out : bignum) (digit : Z) (nbits : nat) : Prop :=
  desc out = BN_POS /\ digits_ok 65536 (data out) /\ (nbits < 16)%nat /\ 0 <= digit < 2 ^ Z.of_nat nbits /\
  t = 16 * Z.of_nat (length (data out)) + Z.of_nat nbits /\
  value 65536 (data out) + 65536 ^ Z.of_nat (length (data out)) * digit = W mod 2 ^ t.

Lemma written_bit t out digit nbits x d r : written t out digit nbits -> data x = d :: r -> d mod 2 = (W / 2 ^ t) mod 2 ->
  returns (digit' <- add_bit x digit nbits ;;
           (if (S nbits =? 16)%nat then o <- push_back out digit' ;; ret (o, 0, 0%nat)
            else ret (out, digit', S nbits)))
    (fun s => written (t + 1) (fst (fst s)) (snd (fst s)) (snd s)).
Proof.
  intros (P & Do & Hn & Hd & Ht & Hv) Ex Hb.
  destruct (add_bit_pure x digit nbits d r Ex Hn Hd) as [Hp Hd'].
  eapply returns_bind with (Q := fun v => v = digit + (d mod 2) * 2 ^ Z.of_nat nbits).
  { eapply returns_pure; [exact Hp|reflexivity]. }
  intros ? ->. set (digit' := digit + (d mod 2) * 2 ^ Z.of_nat nbits) in *.
  assert (value 65536 (data out) + 65536 ^ Z.of_nat (length (data out)) * digit' = W mod 2 ^ (t + 1)) as Hv'.
  { rewrite mod_pow2_S by lia. rewrite <- Hv, <- Hb. unfold digit'.
    replace (2 ^ t) with (65536 ^ Z.of_nat (length (data out)) * 2 ^ Z.of_nat nbits); [ring|].
    change 65536 with (2 ^ 16). rewrite <- Z.pow_mul_r, <- Z.pow_add_r by lia. f_equal. lia. }
  destruct (Nat.eqb_spec (S nbits) 16) as [E16|N16].
  - eapply returns_bind; [apply yields_returns, push_back_yields|]. intros ? ->. apply returns_ret.
    cbn [fst snd]. unfold written. cbn [desc data]. rewrite E16 in Hd'. change (2 ^ Z.of_nat 16) with 65536 in Hd'.
    rewrite app_length. cbn [length]. repeat split; auto; try lia.
    + apply digits_ok_app; try lia. split; auto. constructor; [lia|constructor].
    + rewrite value_app, <- Hv'. cbn [value]. ring.
  - apply returns_ret. cbn [fst snd]. unfold written. repeat split; auto; try lia.
Qed.

Definition done (s : bignum * bignum * Z * nat) : Prop :=
  data (fst (fst (fst s))) = [rest] /\ written T (snd (fst (fst s))) (snd (fst s)) (snd s).

Lemma compress_loop_spec dfuel : T + 2 <= Z.of_nat dfuel -> forall fuel t x out digit nbits,
  0 <= t <= T -> T - t <= Z.of_nat fuel -> written t out digit nbits ->
  (t = T -> data x = [rest]) ->
  (t < T -> desc x = BN_POS /\ digits_ok B (data x) /\ canonical (data x) /\ value B (data x) = W / 2 ^ t) ->
  returns (compress_loop false dfuel fuel two x out digit nbits) done.
Proof.
  assert (rest = 0 \/ rest = 1) as Hr by (unfold rest; destruct (_ <=? _); auto).
  assert (forall x, data x = [rest] -> pure (not_yet_small x) false) as Hstop.
  { intros x Ex al n. unfold not_yet_small, bn_size. rewrite Ex. cbn. destruct Hr as [-> | ->]; reflexivity. }
  intros Hdf. induction fuel as [|f IH]; intros t x out digit nbits Ht Hf Hw Hlast Hx; cbn [compress_loop].
  - assert (t = T) as E by lia. subst t.
    eapply returns_bind with (Q := fun c => c = false).
    { eapply returns_pure; [|reflexivity]. auto. }
    intros ? ->. apply returns_ret. split; cbn [fst snd]; auto.
  - destruct (Z.eq_dec t T) as [E|N].
    { subst t. eapply returns_bind with (Q := fun c => c = false).
      { eapply returns_pure; [|reflexivity]. auto. }
      intros ? ->. apply returns_ret. split; cbn [fst snd]; auto. }
    assert (0 <= t < T) as Ht' by lia.
    destruct (Hx ltac:(lia)) as (P & Dx & Cx & Vx).
    eapply returns_bind with (Q := fun c => c = true).
    { eapply returns_pure; [|reflexivity]. apply small_false; auto. rewrite Vx. apply W_ge; auto. }
    intros ? ->.
    destruct (data x) as [|d r] eqn:Ex; [pose proof (W_ge t Ht'); cbn [value] in Vx; lia|].
    assert (d mod 2 = (W / 2 ^ t) mod 2) as Hb by (rewrite <- Vx; symmetry; apply lowest_bit).
    apply returns_assoc. eapply returns_bind; [apply (written_bit t out digit nbits x d r Hw Ex Hb)|].
    intros s Hw'. cbv beta. eapply returns_bind.
    { apply halve; rewrite ?Ex; auto; rewrite Vx; [apply W_ge; auto|]. pose proof (W_log t Ht'). lia. }
    rewrite Ex, Vx. intros z [Z2 ZN].
    apply IH with (t := t + 1); auto; try lia.
    + intros E. replace t with (T - 1) in * by lia. rewrite W_last in Z2, ZN.
      destruct Hr as [Hr|Hr]; rewrite Hr in Z2, ZN |- *; [apply Z2; reflexivity|].
      destruct (ZN ltac:(lia)) as (Pz & Dz & Cz & Vz). change ((2 + 1) / 2) with 1 in Vz.
      apply (value_inj B ltac:(lia)); auto; [repeat constructor; lia| |unfold canonical; cbn; lia].
      destruct Cz as [Cz|Cz]; auto. rewrite Cz in Vz. cbn in Vz. lia.
    + intros E. pose proof (W_four t ltac:(lia)) as H4. destruct (ZN ltac:(lia)) as (Pz & Dz & Cz & Vz).
      rewrite div_pow2_S by lia. repeat split; auto.
      destruct Cz as [Cz|Cz]; auto. exfalso. rewrite Cz in Vz. cbn [value] in Vz.
      pose proof (W_ge (t + 1) ltac:(lia)) as G. rewrite div_pow2_S in G by lia. lia.
Qed.

End Loop.

(** ** compress *)
Lemma push_chars_spec cs : forall text x, Forall (fun c => 0 <= c < B) text ->
  (cs = true -> Forall (fun c => c < 128) text) ->
  returns (push_chars cs text x) (fun z => z = mkBN (desc x) (data x ++ text)).
Proof.
  induction text as [|c r IH]; intros x Ht Hc; cbn [push_chars].
  - apply returns_ret. rewrite app_nil_r. destruct x; reflexivity.
  - inversion Ht as [|? ? Hc0 Hr]; subst.
    assert (to_u16 cs c = c) as E.
    { unfold to_u16. assert (cs && (128 <=? c) = false) as ->.
      { destruct cs; auto. specialize (Hc eq_refl). inversion Hc; subst. apply Z.leb_gt. auto. }
      apply wrap_small; lia. }
    eapply returns_bind; [apply yields_returns, push_back_yields|]. intros ? ->. rewrite E.
    eapply returns_mono; [apply IH; auto|].
    + intros K. specialize (Hc K). inversion Hc; auto.
    + intros z ->. cbn [desc data]. rewrite <- app_assoc. reflexivity.
Qed.

Lemma make_returns d l : Forall (fun c => 0 <= c < B) l ->
  returns (bn_make base256 d l) (fun z => z = mkBN d (rev (strip l))).
Proof.
  intros Hl al n. rewrite (make_spec base256 d l eq_refl). destruct l; [split; [reflexivity|lia]|].
  destruct (al n) eqn:E; [split; [reflexivity|lia]|]. split; auto. exists n. split; [lia|auto].
Qed.

Lemma value_snoc_bracket v t : digits_ok B v ->
  t * B ^ Z.of_nat (length v) <= value B (v ++ [t]) < (t + 1) * B ^ Z.of_nat (length v).
Proof.
  intros Dv. rewrite value_app. cbn [length value]. pose proof (value_bounds B ltac:(lia) v Dv) as Hb. lia.
Qed.

(** what [compress] returns: the number D in T bits *)
Definition packed (T D : Z) (s : bignum * nat) : Prop :=
  desc (fst s) = BN_POS /\ digits_ok 65536 (data (fst s)) /\ data (fst s) <> [] /\ (1 <= snd s <= 16)%nat /\
  value 65536 (data (fst s)) = D /\
  16 * (Z.of_nat (length (data (fst s))) - 1) + Z.of_nat (snd s) = T.

(** the last two statements *)
Lemma compress_end W T x out digit nbits r : data x = [r] -> r = 0 \/ r = 1 -> written W T out digit nbits ->
  returns (digit <- add_bit x digit nbits ;; out <- push_back out digit ;; ret (out, S nbits))
    (packed (T + 1) (W mod 2 ^ T + r * 2 ^ T)).
Proof.
  intros Hx Hr (P & Do & Hnb & Hd & Hlen & Hv).
  destruct (add_bit_pure x digit nbits r [] Hx Hnb Hd) as [Hp Hd'].
  replace (r mod 2) with r in Hp, Hd' by (destruct Hr as [-> | ->]; reflexivity).
  eapply returns_bind; [eapply returns_pure with (Q := fun v => v = _); [exact Hp|reflexivity]|]. intros ? ->.
  eapply returns_bind; [apply yields_returns, push_back_yields|]. intros ? ->. apply returns_ret.
  unfold packed. cbn [fst snd desc data]. rewrite app_length. cbn [length].
  assert (2 ^ Z.of_nat (S nbits) <= 2 ^ 16) by (apply Z.pow_le_mono_r; lia).
  repeat split; auto; try lia.
  - apply digits_ok_app; try lia. split; auto. constructor; [|constructor]. change (2 ^ 16) with 65536 in *. lia.
  - destruct (data out); discriminate.
  - rewrite value_app. cbn [value]. rewrite <- Hv.
    replace (2 ^ T) with (65536 ^ Z.of_nat (length (data out)) * 2 ^ Z.of_nat nbits); [ring|].
    change 65536 with (2 ^ 16). rewrite <- Z.pow_mul_r, <- Z.pow_add_r by lia. f_equal. lia.
Qed.

(** the first round, on the number with a superfluous zero *)
Lemma compress_first cs fuel text : Forall (fun c => 0 <= c < B) text -> (cs = true -> Forall (fun c => c < 128) text) ->
  text <> [] -> 8 * Z.of_nat (length text) + 11 <= Z.of_nat fuel ->
  let n := Z.of_nat (length text) in let D := value B text in
  let W := if last text 0 <? 128 then 2 ^ (8 * n + 8) + D else D in
  let T := if last text 0 <? 128 then 8 * n + 8 else 8 * n - 1 in
  2 ^ T <= W < 2 ^ (T + 1) /\ 1 <= T <= 8 * n + 8 /\
  rest W T = (if last text 0 <? 192 then 0 else 1) /\
  returns (compress false cs fuel text) (packed (T + 1) (W mod 2 ^ T + rest W T * 2 ^ T)).
Proof.
  intros Ht Hs Hn Hf n D W T.
  assert (exists c0 tx, text = c0 :: tx) as (c0 & tx & Etx) by (destruct text; [congruence|eauto]).
  assert (1 <= n) as Hn1 by (unfold n; rewrite Etx; cbn; lia).
  assert (B ^ n = 2 ^ (8 * n)) as E8 by (change B with (2 ^ 8); rewrite <- Z.pow_mul_r by lia; reflexivity).
  assert (B ^ (n + 1) = 2 ^ (8 * n + 8)) as ET by (change B with (2 ^ 8); rewrite <- Z.pow_mul_r by lia; f_equal; lia).
  set (q := 2 ^ (8 * n - 8)).
  assert (0 < q) as Hq by (apply Z.pow_pos_nonneg; lia).
  assert (forall k, 0 <= k -> 2 ^ (8 * n - 8 + k) = q * 2 ^ k) as Hqk by (intros; apply Z.pow_add_r; lia).
  assert (2 ^ (8 * n + 8) = q * 65536 /\ 2 ^ (8 * n + 9) = q * 131072 /\ 2 ^ (8 * n + 7) = q * 32768 /\ 2 ^ (8 * n) = q * 256 /\
          2 ^ (8 * n - 1) = q * 128 /\ 2 ^ (8 * n - 2) = q * 64) as (P8 & P9 & P7 & P0 & P1 & P2).
  { replace (8 * n + 8) with (8 * n - 8 + 16) by lia. replace (8 * n + 9) with (8 * n - 8 + 17) by lia.
    replace (8 * n + 7) with (8 * n - 8 + 15) by lia.
    replace (2 ^ (8 * n)) with (2 ^ (8 * n - 8 + 8)) by (f_equal; lia).
    replace (8 * n - 1) with (8 * n - 8 + 7) by lia. replace (8 * n - 2) with (8 * n - 8 + 6) by lia.
    rewrite !Hqk by lia. repeat split; reflexivity. }
  set (t := last text 0) in *.
  assert (0 <= t < B /\ t * q <= D < (t + 1) * q) as [Htb HD].
  { destruct (exists_last Hn) as (v & t' & E). unfold t, D, q, n. rewrite E. rewrite last_last.
    rewrite E in Ht. apply Forall_app in Ht. destruct Ht as [Hv Htt]. inversion Htt; subst. split; auto.
    rewrite app_length. cbn [length]. pose proof (value_snoc_bracket v t' Hv) as Hbr.
    replace (2 ^ (8 * Z.of_nat (length v + 1) - 8)) with (B ^ Z.of_nat (length v)); auto.
    change B with (2 ^ 8). rewrite <- Z.pow_mul_r by lia. f_equal. lia. }
  assert (2 ^ T <= W < 2 ^ (T + 1)) as HW.
  { unfold W, T. destruct (Z.ltb_spec t 128).
    - replace (8 * n + 8 + 1) with (8 * n + 9) by lia. rewrite P8, P9. nia.
    - replace (8 * n - 1 + 1) with (8 * n) by lia. rewrite P1, P0. nia. }
  assert (1 <= T <= 8 * n + 8) as HT by (unfold T; destruct (_ <? _); lia).
  assert (rest W T = (if t <? 192 then 0 else 1)) as Hrest.
  { unfold rest, W, T. destruct (Z.ltb_spec t 128).
    - replace (8 * n + 8 - 1) with (8 * n + 7) by lia. rewrite P8, P7. rewrite (proj2 (Z.ltb_lt t 192)) by lia.
      destruct (Z.leb_spec (3 * (q * 32768)) (q * 65536 + D)); auto. nia.
    - replace (8 * n - 1 - 1) with (8 * n - 2) by lia. rewrite P2.
      destruct (Z.leb_spec (3 * (q * 64)) D), (Z.ltb_spec t 192); auto; nia. }
  repeat split; try apply HW; try lia; auto.
  unfold compress.
  eapply returns_bind; [apply make_returns; constructor|]. intros ? ->. cbn [strip rev].
  eapply returns_bind; [apply push_chars_spec; auto|]. intros ? ->. cbn [desc data app].
  eapply returns_bind; [apply yields_returns, push_back_yields|]. intros ? ->. cbn [desc data].
  eapply returns_bind; [apply make_returns; repeat constructor; lia|]. intros ? ->. cbn [strip rev app].
  set (x0 := mkBN BN_POS (text ++ [0])).
  assert (data x0 = c0 :: (tx ++ [0])) as Ex0 by (unfold x0; rewrite Etx; reflexivity).
  eapply returns_bind with (Q := done W T).
  - destruct fuel as [|f]; [lia|]. cbn [compress_loop].
    eapply returns_bind with (Q := fun c => c = true).
    { eapply returns_pure; [|reflexivity]. intros al k. unfold not_yet_small, bn_size, x0. cbn [data].
      rewrite app_length. cbn [length]. destruct (Nat.eqb_spec (length text + 1) 1) as [E|E]; [|reflexivity].
      rewrite Etx in E. cbn in E. lia. }
    intros ? ->. apply returns_assoc.
    assert (written W 0 (mkBN BN_POS []) 0 0) as W0.
    { unfold written. cbn [desc data length value]. repeat split; auto; try (cbn; lia); try constructor.
      change (2 ^ 0) with 1. rewrite Z.mod_1_r. cbn. lia. }
    eapply returns_bind; [apply (written_bit W 1 ltac:(lia) 0 _ 0 0 x0 c0 _ W0 Ex0)|].
    { change (2 ^ 0) with 1. rewrite Z.div_1_r. transitivity (D mod 2).
      - unfold D. rewrite Etx. symmetry. apply lowest_bit.
      - unfold W. destruct (t <? 128); auto. rewrite P8. replace (q * 65536 + D) with (D + q * 32768 * 2) by ring.
        rewrite Z.mod_add by lia. reflexivity. }
    intros s Hw. cbv beta. change (0 + 1) with 1 in Hw.
    eapply returns_bind.
    { eapply statement_returns. apply (div_assign_padded base256 dbl256 (S f) x0 two text (8 * n - 2)); auto.
      - left; reflexivity.
      - left; reflexivity.
      - repeat constructor; lia.
      - unfold canonical. cbn. lia.
      - discriminate.
      - discriminate.
      - cbn. destruct text; [discriminate|cbn; lia].
      - lia.
      - change (base base256) with B. fold n. rewrite E8. cbn [data value].
        replace (2 + B * 0) with (2 ^ 1) by lia. rewrite <- !Z.pow_add_r by lia. split.
        + apply Z.pow_lt_mono_r; lia.
        + apply Z.pow_le_mono_r; lia.
      - change (base base256) with B. rewrite Nat2Z.inj_succ. fold n. unfold Z.succ. rewrite ET, Z.log2_pow2 by lia. lia. }
    change (base base256) with B. fold D. intros z ((Fz & Dz & Cz) & Pz & Vz). cbn [desc desc_eqb] in Pz.
    assert (desc z = BN_POS) as Pz' by (rewrite Pz; reflexivity). clear Pz.
    assert (value B (data z) = W / 2 ^ 1) as Vz'.
    { rewrite Vz. unfold padded_quotient. cbn [data value]. replace (2 + B * 0) with 2 by lia.
      change (base base256) with B. rewrite Nat2Z.inj_succ. fold n. unfold Z.succ. rewrite ET, P2.
      change (2 ^ 1) with 2. f_equal. unfold W.
      destruct (Z.ltb_spec t 128), (Z.ltb_spec D (2 * (q * 64))); nia. }
    assert (T <> 1) as HT1 by (unfold T; destruct (_ <? _); lia).
    apply (compress_loop_spec W T ltac:(lia) HW (S f) ltac:(lia) f 1); auto; try lia.
    intros _. repeat split; auto. destruct Cz as [Cz|Cz]; auto. exfalso. rewrite Cz in Vz'. cbn [value] in Vz'.
    pose proof (W_ge W T ltac:(lia) HW 1 ltac:(lia)). lia.
  - intros [[[x out] digit] nbits] [Hx Hw]. cbn [fst snd] in *.
    apply (compress_end W T x out digit nbits (rest W T)); auto. rewrite Hrest. destruct (t <? 192); auto.
Qed.

(** the number kept is that of the text, or that without its highest bit *)
Definition kept (text : list Z) : Z :=
  value B text - if (128 <=? last text 0) && (last text 0 <? 192) then 2 ^ (8 * Z.of_nat (length text) - 1) else 0.

Lemma kept_bounds text : Forall (fun c => 0 <= c < B) text -> text <> [] ->
  0 <= kept text <= value B text /\ value B text < B ^ Z.of_nat (length text).
Proof.
  intros Ht Hn. pose proof (value_bounds B ltac:(lia) text Ht) as HD. split; [|lia]. unfold kept.
  destruct (Z.leb_spec 128 (last text 0)) as [H|H]; cbn [andb]; [|lia].
  destruct (last text 0 <? 192); [|lia].
  assert (0 < 2 ^ (8 * Z.of_nat (length text) - 1)) by (apply Z.pow_pos_nonneg; [lia|destruct text; [congruence|cbn; lia]]).
  destruct (exists_last Hn) as (v & t & E). rewrite E in *. rewrite last_last in *. apply Forall_app in Ht.
  pose proof (value_snoc_bracket v t (proj1 Ht)) as Hb. rewrite app_length in *. cbn [length] in *.
  replace (2 ^ (8 * Z.of_nat (length v + 1) - 1)) with (128 * B ^ Z.of_nat (length v)) in *; [nia|].
  change B with (2 ^ 8). rewrite <- Z.pow_mul_r by lia. change 128 with (2 ^ 7). rewrite <- Z.pow_add_r by lia. f_equal. lia.
Qed.

(** the number of bits written *)
Definition bits (text : list Z) : Z :=
  if last text 0 <? 128 then 8 * Z.of_nat (length text) + 9 else 8 * Z.of_nat (length text).

Theorem compress_spec cs fuel text : Forall (fun c => 0 <= c < B) text -> (cs = true -> Forall (fun c => c < 128) text) ->
  text <> [] -> 8 * Z.of_nat (length text) + 11 <= Z.of_nat fuel ->
  1 <= bits text <= 8 * Z.of_nat (length text) + 9 /\ value B text < 2 ^ bits text /\
  returns (compress false cs fuel text) (packed (bits text) (kept text)).
Proof.
  intros Ht Hs Hn Hf. destruct (compress_first cs fuel text Ht Hs Hn Hf) as (HW & HT & Hr & R). rewrite Hr in R.
  pose proof (value_bounds B ltac:(lia) text Ht) as HD. unfold kept.
  assert (1 <= length text)%nat by (destruct text; [congruence|cbn; lia]).
  set (n := Z.of_nat (length text)) in *. set (t := last text 0) in *. set (D := value B text) in *.
  assert (D < 2 ^ (8 * n)) as HD8 by (replace (2 ^ (8 * n)) with (B ^ n); [lia|change B with (2 ^ 8); rewrite <- Z.pow_mul_r by lia; reflexivity]).
  assert (bits text = (if t <? 128 then 8 * n + 8 else 8 * n - 1) + 1) as EB
    by (unfold bits; fold t n; destruct (t <? 128); lia).
  rewrite EB. split; [|split; [|eapply returns_mono; [exact R|]]].
  - cbv zeta. destruct (t <? 128); lia.
  - destruct (t <? 128) eqn:E; [|replace (8 * n - 1 + 1) with (8 * n) by lia; lia]. eapply Z.lt_le_trans; [exact HD8|]. apply Z.pow_le_mono_r; lia.
  - intros s Hp. revert Hp. match goal with |- packed ?T ?a s -> packed ?T ?b s => replace b with a; auto end.
    destruct (Z.ltb_spec t 128) as [H1|H1].
    + rewrite (proj2 (Z.leb_gt 128 t)), (proj2 (Z.ltb_lt t 192)) by lia. cbn [andb].
      replace (2 ^ (8 * n + 8) + D) with (D + 1 * 2 ^ (8 * n + 8)) by ring.
      assert (0 < 2 ^ (8 * n + 8)) by (apply Z.pow_pos_nonneg; lia).
      rewrite Z.mod_add by lia. rewrite Z.mod_small; [lia|]. split; [lia|]. eapply Z.lt_le_trans; [exact HD8|]. apply Z.pow_le_mono_r; lia.
    + rewrite (proj2 (Z.leb_le 128 t)) by lia. cbn [andb]. replace (8 * n - 1 + 1) with (8 * n) in HW by lia.
      assert (2 ^ (8 * n) = 2 * 2 ^ (8 * n - 1)) as E by (rewrite <- Z.pow_succ_r by lia; f_equal; lia).
      assert (D mod 2 ^ (8 * n - 1) = D - 2 ^ (8 * n - 1)) as ->.
      { symmetry. apply Z.mod_unique_pos with 1; lia. }
      destruct (t <? 192); lia.
Qed.

(** ** decompress *)
Lemma digit_of : forall ds i, digits_ok 65536 ds -> (i < length ds)%nat ->
  exists d, vget ds i = ret d /\ 0 <= d < 65536 /\ d = (value 65536 ds / 65536 ^ Z.of_nat i) mod 65536.
Proof.
  induction ds as [|c r IH]; intros i Hd Hi; [cbn in Hi; lia|]. inversion Hd as [|? ? Hc Hr]; subst.
  destruct i as [|i].
  - exists c. unfold vget. cbn [nth_error]. repeat split; auto; try lia. change (65536 ^ Z.of_nat 0) with 1.
    rewrite Z.div_1_r. cbn [value]. rewrite Z.mul_comm, Z.mod_add by lia. symmetry. apply Z.mod_small. lia.
  - cbn [length] in Hi. destruct (IH i Hr ltac:(lia)) as (d & E & Hb & Ed). exists d. unfold vget in *. cbn [nth_error].
    repeat split; auto; try lia. rewrite Ed. rewrite Nat2Z.inj_succ, Z.pow_succ_r by lia.
    rewrite <- Z.div_div by (try apply Z.pow_pos_nonneg; lia). cbn [value].
    rewrite (Z.mul_comm 65536 (value 65536 r)), Z.div_add by lia. rewrite (Z.div_small c) by lia. reflexivity.
Qed.

Lemma bit_of X i j : 0 <= i -> 0 <= j < 16 ->
  Z.land (Z.shiftr ((X / 65536 ^ i) mod 65536) j) 1 = (X / 2 ^ (16 * i + j)) mod 2.
Proof.
  intros Hi Hj. change 1 with (Z.ones 1). rewrite Z.land_ones by lia. change (2 ^ 1) with 2.
  rewrite Z.shiftr_div_pow2 by lia. rewrite <- !Z.testbit_spec' by lia. f_equal.
  change (65536 ^ i) with ((2 ^ 16) ^ i). change (_ mod 65536) with ((X / (2 ^ 16) ^ i) mod 2 ^ 16).
  rewrite Z.mod_pow2_bits_low by lia. rewrite <- Z.pow_mul_r by lia. rewrite Z.div_pow2_bits by lia. f_equal. lia.
Qed.

Section Decompress.
Context (P : flops) (mfuel : nat) (n : nat).
Hypothesis times_two : forall out, good B out -> desc out = BN_POS -> (length (data out) <= n)%nat ->
  returns (op_mul base256 P mfuel out two)
    (fun z => good B z /\ canonical (data z) /\ desc z = BN_POS /\ value B (data z) = value B (data out) * 2).

Lemma decompress_loop_spec inNum : digits_ok 65536 (data inNum) -> value 65536 (data inNum) < B ^ Z.of_nat n -> (1 <= n)%nat ->
  let X := value 65536 (data inNum) in
  forall fuel iter nbits out, (1 <= nbits <= 16)%nat -> (iter <= length (data inNum))%nat -> (iter = 0%nat -> nbits = 16%nat) ->
  16 * (Z.of_nat iter - 1) + Z.of_nat nbits <= Z.of_nat fuel ->
  good B out -> desc out = BN_POS -> value B (data out) = X / 2 ^ (16 * (Z.of_nat iter - 1) + Z.of_nat nbits) ->
  returns (decompress_loop false P mfuel fuel inNum two out iter nbits)
    (fun z => good B z /\ desc z = BN_POS /\ value B (data z) = X /\ ((0 < iter)%nat \/ data out <> [] -> data z <> [])).
Proof.
  intros Di HX Hn X. assert (0 <= X) as HX0 by (apply (value_bounds 65536 ltac:(lia)); auto).
  induction fuel as [|f IH]; intros iter nbits out Hnb Hit Hz Hf Go Po Vo; cbn [decompress_loop].
  - destruct iter as [|iter].
    + cbn. rewrite (Hz eq_refl) in Vo. apply returns_ret. cbn in Vo. rewrite Z.div_1_r in Vo. repeat split; auto; try apply Go. intros [K|K]; [lia|auto].
    + lia.
  - destruct iter as [|iter].
    { cbn. rewrite (Hz eq_refl) in Vo. apply returns_ret. cbn in Vo. rewrite Z.div_1_r in Vo. repeat split; auto; try apply Go. intros [K|K]; [lia|auto]. }
    rewrite (proj2 (Nat.ltb_lt 0 (S iter))) by lia. rewrite (proj2 (Nat.ltb_lt 0 nbits)) by lia. cbn [andb].
    replace (S iter - 1)%nat with iter by lia.
    destruct (digit_of (data inNum) iter Di ltac:(lia)) as (d & Ed & Hd & Vd).
    rewrite Ed. eapply returns_bind with (Q := fun v => v = d); [apply returns_ret; reflexivity|]. intros ? ->.
    fold X in Vd. set (bit := (X / 2 ^ (16 * Z.of_nat iter + Z.of_nat (nbits - 1))) mod 2).
    assert (wrap 16 (Z.land (Z.shiftr d (Z.of_nat (nbits - 1))) 1) = bit) as Eb.
    { rewrite Vd, bit_of by lia. apply wrap_small. fold bit.
      pose proof (Z.mod_pos_bound (X / 2 ^ (16 * Z.of_nat iter + Z.of_nat (nbits - 1))) 2 ltac:(lia)). fold bit in H. lia. }
    rewrite Eb. assert (0 <= bit < 2) as Hb by (apply Z.mod_pos_bound; lia).
    assert (exists l, rev (strip [bit]) = l /\ digits_ok B l /\ canonical l /\ value B l = bit) as (l & El & Dl & Cl & Vl).
    { assert (bit = 0 \/ bit = 1) as [-> | ->] by lia; eexists; repeat split; try (cbn; reflexivity); try constructor;
        unfold canonical; cbn; try lia; repeat constructor; lia. }
    eapply returns_bind; [apply make_returns; constructor; [lia|constructor]|]. intros ? ->. rewrite El.
    assert (length (data out) <= n)%nat as Hlen.
    { destruct Go as (_ & Do & [Co|Co]); [|rewrite Co; cbn; lia].
      destruct (Nat.le_gt_cases (length (data out)) n) as [|K]; auto. exfalso.
      destruct (exists_last (l := data out)) as (v & t & E); [intros E; rewrite E in K; cbn in K; lia|].
      rewrite E in *. unfold canonical in Co. rewrite last_last in Co. rewrite app_length in K. cbn in K.
      apply digits_ok_app in Do; try lia. destruct Do as [Dv Dt]. inversion Dt; subst.
      pose proof (value_bounds B ltac:(lia) v Dv) as Bv. rewrite value_app in Vo. cbn [value] in Vo.
      assert (B ^ Z.of_nat n <= B ^ Z.of_nat (length v)) by (apply Z.pow_le_mono_r; lia).
      assert (X / 2 ^ (16 * (Z.of_nat (S iter) - 1) + Z.of_nat nbits) <= X); [|nia].
      assert (0 < 2 ^ (16 * (Z.of_nat (S iter) - 1) + Z.of_nat nbits)) by (apply Z.pow_pos_nonneg; lia).
      apply Z.div_le_upper_bound; nia. }
    eapply returns_bind; [apply times_two; auto|]. intros p (Gp & Cp & Pp & Vp). cbv beta.
    eapply returns_bind.
    { eapply binary_returns, (add_shape base256 eq_refl p (mkBN BN_POS l) Gp); auto.
      repeat split; auto; left; auto. }
    change (base base256) with B. intros s (Gs & Vs & Hs & _). destruct (Hs Pp) as [Ps Ns]. cbv zeta. cbn [bn_move_assign fst].
    unfold signed_value in Vs. rewrite Ps, Pp in Vs. cbn [desc data] in Vs. rewrite Vl, Vp, Vo in Vs.
    assert (X / 2 ^ (16 * Z.of_nat iter + Z.of_nat (nbits - 1)) =
            X / 2 ^ (16 * (Z.of_nat (S iter) - 1) + Z.of_nat nbits) * 2 + bit) as EX.
    { replace (16 * (Z.of_nat (S iter) - 1) + Z.of_nat nbits) with (16 * Z.of_nat iter + Z.of_nat (nbits - 1) + 1) by lia.
      rewrite div_pow2_S by lia. unfold bit.
      pose proof (Z.div_mod (X / 2 ^ (16 * Z.of_nat iter + Z.of_nat (nbits - 1))) 2 ltac:(lia)). lia. }
    rewrite <- EX in Vs.
    destruct (Nat.eqb_spec (nbits - 1) 0) as [E|E]; (eapply returns_mono; [apply IH; auto; try lia; try congruence; rewrite Vs; do 2 f_equal; lia|]);
      intros z (Gz & Pz & Vz & Nz); repeat split; auto; apply Gz.
Qed.

Theorem decompressed_spec D T fuel s : packed T D s -> mfuel = fuel -> T <= Z.of_nat fuel ->
  D < B ^ Z.of_nat n -> D < 2 ^ T -> (1 <= n)%nat ->
  returns (decompressed false P fuel (fst s) (snd s))
    (fun z => good B z /\ desc z = BN_POS /\ value B (data z) = D /\ data z <> []).
Proof.
  intros (Pd & Dd & Nd & Hl & Vd & Hb) <- Hf HD HD2 Hn. unfold decompressed.
  eapply returns_bind; [apply make_returns; repeat constructor; lia|]. intros ? ->. cbn [strip rev].
  eapply returns_bind; [apply make_returns; repeat constructor; lia|]. intros ? ->. cbn [strip rev app].
  assert (0 <= D) as HD0 by (rewrite <- Vd; apply (value_bounds 65536 ltac:(lia)); auto).
  eapply returns_mono.
  { apply (decompress_loop_spec (fst s) Dd); auto; unfold bn_size; try lia.
    - intros E. apply length_zero_iff_nil in E. congruence.
    - repeat split; [left; reflexivity|constructor|left; unfold canonical; cbn; lia].
    - rewrite Hb, Vd. cbn [data value]. symmetry. apply Z.div_small. lia. }
  rewrite Vd. intros z (Gz & Pz & Vz & Nz). repeat split; auto; try apply Gz.
  apply Nz; left; unfold bn_size; destruct (data (fst s)); [congruence|cbn; lia].
Qed.

Lemma characters_small z : digits_ok B (data z) -> characters z = data z.
Proof.
  intros Dz. unfold characters. rewrite <- (map_id (data z)) at 2. apply map_ext_in. intros a Ha.
  apply wrap_small. change (2 ^ 8) with B. revert a Ha. apply Forall_forall. exact Dz.
Qed.

Theorem decompress_spec D T fuel s : packed T D s -> mfuel = fuel -> T <= Z.of_nat fuel ->
  D < B ^ Z.of_nat n -> D < 2 ^ T -> (1 <= n)%nat ->
  returns (decompress false P fuel (fst s) (snd s)) (fun l => digits_ok B l /\ weak_canonical l /\ value B l = D /\ l <> []).
Proof.
  intros Hp Hm Hf HD HD2 Hn. unfold decompress. eapply returns_bind; [apply (decompressed_spec D T fuel s); auto|].
  intros z ((_ & Dz & Cz) & _ & Vz & Nz). apply returns_ret. rewrite characters_small by exact Dz. auto.
Qed.
End Decompress.

(** ** The round trip *)
Theorem roundtrip_spec P cs fuel text : Forall (fun c => 0 <= c < B) text -> (cs = true -> Forall (fun c => c < 128) text) ->
  text <> [] -> 8 * Z.of_nat (length text) + 11 <= Z.of_nat fuel ->
  (forall out, good B out -> desc out = BN_POS -> (length (data out) <= length text)%nat ->
    returns (op_mul base256 P fuel out two)
      (fun z => good B z /\ canonical (data z) /\ desc z = BN_POS /\ value B (data z) = value B (data out) * 2)) ->
  returns (roundtrip false cs P fuel text)
    (fun l => digits_ok B l /\ weak_canonical l /\ value B l = kept text /\ l <> []).
Proof.
  intros Ht Hs Hn Hf H2. unfold roundtrip.
  destruct (compress_spec cs fuel text Ht Hs Hn Hf) as (HT & HD & R).
  eapply returns_bind; [exact R|]. intros s Hp. cbv beta.
  destruct (kept_bounds text Ht Hn) as [Hk Hb].
  assert (1 <= length text)%nat by (destruct text; [congruence|cbn; lia]).
  eapply (decompress_spec P fuel (length text) H2 (kept text)); eauto; lia.
Qed.

Lemma text_canonical text : text <> [] -> last text 0 <> 0 -> canonical text.
Proof. intros Hn H. unfold canonical. destruct (exists_last Hn) as (v & t & E). rewrite E in *. rewrite last_last in *. auto. Qed.

Lemma same_text text l : Forall (fun c => 0 <= c < B) text -> text <> [] -> last text 0 <> 0 ->
  digits_ok B l -> weak_canonical l -> value B l = value B text -> l = text.
Proof.
  intros Ht Hn H0 Dl Cl Vl. apply (value_inj B ltac:(lia)); auto.
  - destruct Cl as [Cl|Cl]; auto. exfalso. rewrite Cl in Vl. cbn [value] in Vl.
    destruct (exists_last Hn) as (v & t & E). rewrite E in *. rewrite last_last in H0. rewrite value_app in Vl.
    apply Forall_app in Ht. destruct Ht as [Hv Htt]. inversion Htt; subst. cbn [value] in Vl.
    pose proof (value_bounds B ltac:(lia) v Hv) as Bv. nia.
  - apply text_canonical; auto.
Qed.
