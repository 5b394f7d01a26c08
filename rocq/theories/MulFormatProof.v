(** * Multiplication with another floating-point type: the carry loop *)
From Coq Require Import ZArith Reals Lra Lia List Bool Arith.
From Flocq Require Import Core IEEE754.BinarySingleNaN.
From Verif Require Import Base Spec Limits Fourier Multiplication Bignum Outcome Wp ValueProof AddSubProof BignumProof HistoryProof Conv FloatModel FftError
  ConvError MulProof MulOpProof Ieee IeeeProof Formats FormatProof WideProof MulFormats.
Import ListNotations.
Open Scope Z_scope.

Section At.
Context (f : binary_format) (H24 : 24 <= bprec f) (H128 : 128 <= bemax f) (Hsmall : bprec f < 53 -> bemax f <= 1024).
Notation g := (wider f).

Lemma wider_type : 53 <= bprec g /\ 128 <= bemax g /\ 24 <= bprec g.
Proof using H24 H128. unfold wider. destruct (Z.ltb_spec (bprec f) 53); [repeat split; vm_compute; discriminate|lia]. Qed.

(** the arithmetic of the carry loop *)
Definition loop_flops : flops :=
  flops_at g (mkEvaluationAt g (fun _ => (Separate, Separate)) (fun _ a b _ _ => (a, b))) (fun x => nearest_at g (cos (B2R x))) (fun x => nearest_at g (sin (B2R x))).

Lemma loop_rounding : rounding loop_flops (@B2R (bprec g) (bemax g)) (fun x => is_finite x = true) (rnd_at g) (/ 9007199254740992) Omf (2 ^ 53).
Proof using H24 H128.
  destruct wider_type as (H1 & H2 & H3).
  assert (unit_at g <= / 9007199254740992)%R as Hu.
  { change (/ 9007199254740992)%R with (bpow radix2 (-53)). apply bpow_le. lia. }
  apply rounding_wide; [exact H1|exact H2| |lra|].
  - intros x Fx Hx. destruct (nearest_accurate g H3 H2 x Fx Hx) as [[A1 A2] [A3 A4]]. split; split; auto; lra.
  - unfold pi_gap. lra.
Qed.

Definition widened (x : number f * number f) : cplx loop_flops := (convert f g (fst x), convert f g (snd x)).

Lemma to_uint_eq w (y : number g) : to_uint_at g w y = to_uint loop_flops w y.
Proof. unfold to_uint_at, to_uint. destruct y; reflexivity. Qed.

Lemma loop_eq L : forall inverses c acc, carry_loop_at L f inverses c acc = carry_loop L loop_flops (map widened inverses) c acc.
Proof.
  induction inverses as [|x r IH]; intros c acc; [reflexivity|]. cbn [carry_loop_at carry_loop map]. rewrite to_uint_eq.
  unfold bind. cbn [loop_flops flops_at fadd fofZ ffloor c_half F widened fst].
  apply FunctionalExtensionality.functional_extensionality. intros al. apply FunctionalExtensionality.functional_extensionality. intros n.
  match goal with |- match ?t with _ => _ end = _ => destruct t; try reflexivity end.
  destruct (_ =? 0); [reflexivity|]. rewrite IH. reflexivity.
Qed.

Lemma convert_wider (x : number f) : is_finite x = true -> (Rabs (B2R x) <= Omf)%R ->
  is_finite (convert f g x) = true /\ B2R (convert f g x) = B2R x.
Proof using H24 H128 Hsmall.
  intros Fx Hx. destruct wider_type as (H1 & H2 & H3). destruct (convert_spec g H3 H2 f x Fx Hx) as [F1 V1]. split; [exact F1|]. rewrite V1.
  apply round_generic; [apply valid_rnd_N|]. revert H1 H2 H3. unfold wider. destruct (Z.ltb_spec (bprec f) 53) as [Hp|Hp]; intros H1 H2 H3.
  - apply (generic_inclusion_mag radix2 (SpecFloat.fexp (bprec f) (bemax f))); [|apply generic_format_B2R].
    intros Hx0. rewrite !fexp_flt. unfold FLT_exp. cbn [bprec bemax binary64]. 
    specialize (Hsmall Hp). lia.
  - apply generic_format_B2R.
Qed.

(** Every coefficient is found. *)
Lemma rounds_wider u Q X (x : number f * number f) c : is_finite (fst x) = true -> (unit_at g <= u)%R -> 0 <= c -> 2 * c <= Q -> Q < 2 ^ 58 ->
  (IZR Q + 1 <= X)%R -> (Rabs (B2R (fst x) - IZR c) <= 51.9 * X * u)%R -> (106 * X * u <= 1)%R ->
  rounds_to loop_flops (@B2R (bprec g) (bemax g)) (fun y => is_finite y = true) (widened x) c.
Proof using H24 H128 Hsmall.
  intros Fx Hu Hc HcQ HQ HX E Hs. destruct wider_type as (H1 & H2 & H3).
  assert (0 <= IZR c)%R as c0 by (apply IZR_le; exact Hc). assert (2 * IZR c <= IZR Q)%R as cQ by (rewrite <- mult_IZR; apply IZR_le; exact HcQ).
  assert (IZR Q <= 288230376151711744)%R as Q58 by (apply IZR_le; lia).
  assert (Rabs (B2R (fst x) - IZR c) <= / 2)%R as E'.
  { eapply Rle_trans; [exact E|]. lra. }
  pose proof (proj1 (abs_elim _ _ E')) as E1. pose proof (proj2 (abs_elim _ _ E')) as E2. 
  assert (4 * 288230376151711744 <= Omf)%R as HO by (unfold Omf; rewrite <- mult_IZR; apply IZR_le; vm_compute; discriminate).
  destruct (convert_wider (fst x) Fx) as [Fw Vw]; [apply abs_le; lra|].
  destruct (half_at g H3 H2 1 ltac:(lia)) as [Fh Vh]. change (bpow radix2 (- (1))) with (/ 2)%R in Vh.
  destruct (add_at_spec g H3 H2 _ _ Fw Fh) as [Fs Vs]; [rewrite Vw, Vh; apply abs_le; lra|]. rewrite Vw, Vh in Vs.
  unfold rounds_to. destruct (r_floor _ _ _ _ _ _ _ loop_rounding _ Fs) as [Fl Vl].
  split; [exact Fl|]. etransitivity; [exact Vl|]. f_equal. rewrite Vs.
  pose proof (rnd_at_err g H3 H2 (B2R (fst x) + / 2)) as Er. 
  assert (Rabs (B2R (fst x) + / 2) + tiny <= 1.001 * X)%R as Hb.
  { assert (Rabs (B2R (fst x) + / 2) <= IZR Q / 2 + 1)%R by (apply abs_le; lra). unfold tiny. lra. }
  assert (unit_at g * (Rabs (B2R (fst x) + / 2) + tiny) <= u * (1.001 * X))%R as Hb2.
  { pose proof (unit_pos g). pose proof (Rabs_pos (B2R (fst x) + / 2)). apply Rmult_le_compat; [lra|unfold tiny; lra|exact Hu|exact Hb]. }
  assert (0 < X * u)%R as HXu by (pose proof (unit_pos g); apply Rmult_lt_0_compat; lra).
  apply abs_elim in E. apply abs_elim in Er. apply Zfloor_imp. rewrite plus_IZR. lra.
Qed.

Section Product.
Context (ct : evaluation_at f) (cosf sinf : number f -> number f) (u : R) (K : Z).
Notation P := (flops_at f ct cosf sinf).
Hypothesis HR : rounding P (@B2R (bprec f) (bemax f)) (fun x => is_finite x = true) (rnd_at f) u Omf K.
Context (Hu : (unit_at g <= u)%R) (Hu56 : (/ 72057594037927936 <= u)%R) (L : limits) (HL : limits_ok L = true).
Let B := base L.
Let HB : 2 <= B := AddSubProof.HB L HL.

Theorem mul_at_cases fuel a b :
  let l := Z.to_nat (Z.log2_up (Z.of_nat (length a + length b))) in
  let Q := sum_squares a + sum_squares b in
  digits_ok B a -> digits_ok B b -> (0 < length a + length b)%nat -> Z.of_nat (length a + length b) <= 2 ^ 32 ->
  (l < fuel)%nat -> Z.of_nat (2 ^ l) <= K -> (forall d, In d (a ++ b) -> d <= K) ->
  (106 * ((INR l + 1) * (IZR Q + 1)) * u <= 1)%R ->
  ((forall k, column_total B a b k < 2 ^ wd L) -> yields (mul_strassen_at L f ct cosf sinf fuel a b) (is_product B a b)) /\
  ((exists k, 2 ^ wd L <= column_total B a b k) ->
   forall al n, mul_strassen_at L f ct cosf sinf fuel a b al n = if al n then Undef UB_float_to_int else Throw ExBadAlloc (S n)).
Proof using H24 H128 Hsmall HR Hu Hu56 HL.
  intros l Q Ha Hb Hpos Hlen Hf HlK HdK Hp.
  pose proof (sum_squares_nonneg a) as Qa. pose proof (sum_squares_nonneg b) as Qb.
  assert (0 <= IZR Q)%R as Q0 by (apply IZR_le; unfold Q; lia). pose proof (pos_INR l) as L0.
  set (X := ((INR l + 1) * (IZR Q + 1))%R) in *.
  assert (IZR Q + 1 <= X)%R as HX by (unfold X; rewrite <- (Rmult_1_l (IZR Q + 1)) at 1; apply Rmult_le_compat_r; lra).
  assert (Q < 2 ^ 50) as HQ.
  { apply lt_IZR. replace (IZR (2 ^ 50)) with 1125899906842624%R by (apply (f_equal IZR); vm_compute; reflexivity).
    assert ((IZR Q + 1) * / 72057594037927936 <= X * u)%R by (apply Rmult_le_compat; lra). lra. }
  assert (Z.of_nat (2 ^ l) <= 2 ^ 32) as Hl32.
  { rewrite Nat2Z.inj_pow. apply Z.pow_le_mono_r; [lia|]. unfold l.
    assert (Z.log2_up (Z.of_nat (length a + length b)) <= Z.log2_up (2 ^ 32)) as H by (apply Z.log2_up_le_mono; exact Hlen).
    rewrite Z.log2_up_pow2 in H by lia. pose proof (Z.log2_up_nonneg (Z.of_nat (length a + length b))). lia. }
  assert (forall d, In d (a ++ b) -> 0 <= d <= K) as Hd.
  { intros d H. split; [|apply HdK, H]. pose proof (proj2 (Forall_app _ a b) (conj Ha Hb)) as F. rewrite Forall_forall in F. apply (F d H). }
  pose proof (coefficients_near P _ _ _ _ _ _ HR fuel a b) as N. cbv zeta in N. fold l Q in N.
  destruct N as (Hk1 & table & inv & E1 & E2 & Linv & V); auto.
  { intros d H. apply Hd, in_or_app. left. exact H. }
  { intros d H. apply Hd, in_or_app. right. exact H. }
  { rewrite INR_IZR_INZ, <- plus_IZR, <- !mult_IZR. unfold Omf. apply IZR_le.
    apply Z.le_trans with (301 * (2 ^ 32 * 2 ^ 58)); [|vm_compute; discriminate].
    apply Z.mul_le_mono_nonneg_l; [lia|]. apply Z.mul_le_mono_nonneg; lia. }
  set (cs := map (conv a b) (seq 0 (2 ^ l))).
  assert (forall j, 0 <= conv a b j /\ 2 * conv a b j <= Q) as Hcv.
  { intros j. pose proof (conv_nonneg B a b j ltac:(lia) Ha Hb). pose proof (conv_squares a b j). unfold Q. lia. }
  set (rounds := rounds_to loop_flops (@B2R (bprec g) (bemax g)) (fun y => is_finite y = true)).
  assert (Forall2 rounds (map widened inv) cs) as HF2.
  { assert (forall (h : nat -> cplx loop_flops) (k : nat -> Z) s N, (forall j, (s <= j < s + N)%nat -> rounds (h j) (k j)) ->
      Forall2 rounds (map h (seq s N)) (map k (seq s N))) as HF.
    { intros h k s N. revert s. induction N as [|N IH]; intros s H; [constructor|]. cbn [seq map]. constructor.
      - apply H. lia.
      - apply IH. intros j Hj. apply H. lia. }
    assert (map widened inv = map (fun j => widened (nth j inv (czero P))) (seq 0 (2 ^ l))) as ->.
    { transitivity (map widened (map (fun j => nth j inv (czero P)) (seq 0 (2 ^ l)))); [|rewrite map_map; reflexivity]. f_equal.
      apply nth_ext with (d := czero P) (d' := czero P); [rewrite map_length, seq_length; exact Linv|].
      intros j Hj. rewrite nth_map_seq by lia. reflexivity. }
    apply HF. intros j Hj. destruct (V j ltac:(lia)) as [Fj Ej]. destruct (Hcv j) as [Hc0 Hc1].
    apply (rounds_wider u Q X); auto; [lia|]. eapply Rle_trans; [exact Ej|]. unfold X. rewrite plus_INR. apply Req_le. cbn [INR]. ring. }
  assert (Forall (fun x => 0 <= x <= Q) cs) as Hcs.
  { apply Forall_forall. intros x Hx. unfold cs in Hx. apply in_map_iff in Hx. destruct Hx as (j & <- & _). specialize (Hcv j). lia. }
  assert (2 * Q <= 2 ^ 53) as HQK by lia.
  split; intros Hcol.
  2:{ intros al n0. unfold mul_strassen_at, bind, alloc. destruct (al n0); [|reflexivity]. rewrite E1, E2, loop_eq.
      rewrite (carry_loop_undef loop_flops _ _ _ _ _ _ loop_rounding L HL Q HQK _ cs 0 [] HF2 Hcs ltac:(lia) ltac:(lia)); [reflexivity|].
      intros Hok. pose proof (proj1 (run_ok_total L HL a b (2 ^ l) Ha Hb Hk1) Hok) as Hok2. destruct Hcol as [j Hj]. specialize (Hok2 j). unfold B in Hj. lia. }
  unfold mul_strassen_at. eapply yields_bind; [apply (yields_alloc (fun _ => True)); exact I|]. intros _ _.
  cbv zeta. rewrite E1, E2, loop_eq.
  apply (run_ok_total L HL a b (2 ^ l) Ha Hb Hk1) in Hcol.
  destruct (carry_loop_spec loop_flops _ _ _ _ _ _ loop_rounding L HL Q HQK _ cs 0 [] HF2 Hcs ltac:(lia) ltac:(lia) Hcol) as (ds & q & Hpu & Hdg & Hl & Hv).
  fold B in Hdg, Hv.
  cbn [app] in Hpu. eapply yields_bind with (Q := fun v => v = ds); [apply (yields_pure _ _ _ Hpu); reflexivity|]. intros ? ->.
  destruct (trim_pure ds) as (r & z & Er & Cr & Hpr). apply (yields_pure _ _ _ Hpr).
  assert (length cs = (2 ^ l)%nat) as Lcs by (unfold cs; rewrite map_length; apply seq_length).
  assert (Spec.value B cs = Spec.value B a * Spec.value B b) as Vcs by (apply value_conv_n; exact Hk1).
  assert (Spec.value B ds = Spec.value B a * Spec.value B b) as Vds.
  { apply (value_congr_unique B (2 ^ l) ds q); auto; [lia| |].
    - pose proof (value_bounds B HB a Ha). pose proof (value_bounds B HB b Hb). split; [nia|].
      apply Z.lt_le_trans with (B ^ Z.of_nat (length a) * B ^ Z.of_nat (length b)); [apply Z.mul_lt_mono_nonneg; lia|].
      rewrite <- Z.pow_add_r by lia. apply Z.pow_le_mono_r; lia.
    - rewrite <- Vcs, <- Lcs. lia. }
  rewrite Er in Vds, Hdg. split; [|split]; auto.
  - apply Forall_app in Hdg. apply Hdg.
  - rewrite value_app in Vds. assert (forall j, Spec.value B (repeat 0 j) = 0) as Hz by (intros j; induction j as [|j IHj]; cbn [repeat Spec.value]; [reflexivity|rewrite IHj; ring]). rewrite Hz in Vds. lia.
Qed.
End Product.
End At.

Lemma loop_extends L P : forall inv c acc al n v n', carry_loop L P inv c acc al n = Ret v n' -> exists ds, v = acc ++ ds.
Proof.
  induction inv as [|x inv IH]; intros c acc al n v n' H; cbn [carry_loop] in H.
  - unfold ret in H. injection H as <- _. exists []. rewrite app_nil_r. reflexivity.
  - unfold bind in H. destruct (to_uint _ _ _ _ _) as [ci n1| | |]; try discriminate. destruct (_ =? 0); [discriminate|].
    apply IH in H. destruct H as [ds ->]. rewrite <- app_assoc. eexists. reflexivity.
Qed.

(** a number of great magnitude is a multiple of a power of two *)
Lemma multiple_at f (x : number f) k : 0 <= k -> (IZR (2 ^ (bprec f - 1 + k)) <= B2R x)%R -> 0 < bprec f -> exists q, B2R x = IZR (2 ^ k * q).
Proof.
  intros Hk H Hp. pose proof (generic_format_B2R (bprec f) (bemax f) x) as G. unfold generic_format in G.
  set (fe := SpecFloat.fexp (bprec f) (bemax f)) in *. set (m := Ztrunc (scaled_mantissa radix2 fe (B2R x))) in *.
  assert (0 < B2R x)%R as Hx by (eapply Rlt_le_trans; [|exact H]; apply IZR_lt, Z.pow_pos_nonneg; lia).
  assert (bprec f + k <= mag radix2 (B2R x)) as Hm.
  { apply mag_ge_bpow. rewrite Rabs_right by lra. replace (bprec f + k - 1) with (bprec f - 1 + k) by lia. rewrite bpow_IZR by lia. exact H. }
  assert (k <= cexp radix2 fe (B2R x)) as Hc by (unfold cexp, fe, SpecFloat.fexp; lia).
  exists (m * 2 ^ (cexp radix2 fe (B2R x) - k)). rewrite G at 1. unfold F2R. cbn [Fnum Fexp].
  replace (2 ^ k * (m * 2 ^ (cexp radix2 fe (B2R x) - k))) with (m * 2 ^ cexp radix2 fe (B2R x)).
  - rewrite mult_IZR. f_equal. apply bpow_IZR. lia.
  - replace (cexp radix2 fe (B2R x)) with (k + (cexp radix2 fe (B2R x) - k)) at 1 by lia. rewrite Z.pow_add_r by lia. ring.
Qed.

(** the first coefficient of a product of two digits at float, if it is great: it is even, and so is the number returned *)
Lemma float_even ct cosf sinf L fuel d e al n r n' :
  rounding (flops_at binary32 ct cosf sinf) (@B2R 24 128) (fun x => is_finite x = true) (rnd_at binary32) (/ 16777216) Omf (2 ^ 24) ->
  limits_ok L = true -> (2 | base L) -> 0 <= d < base L -> 0 <= e < base L -> d <= 2 ^ 24 -> e <= 2 ^ 24 -> (1 < fuel)%nat ->
  104 * (d * d + e * e + 1) <= 2 ^ 24 * (d * e - 2 ^ 24) ->
  mul_strassen_at L binary32 ct cosf sinf fuel [d] [e] al n = Ret r n' -> (2 | Spec.value (base L) r).
Proof.
  intros HR HL H2 Hd He Hd24 He24 Hf Hbig Hret.
  pose proof (coefficients_near _ _ _ _ _ _ _ HR fuel [d] [e]) as N. cbv zeta in N. cbn [length Nat.add] in N.
  change (Z.to_nat (Z.log2_up (Z.of_nat 2))) with 1%nat in N.
  assert (sum_squares [d] + sum_squares [e] = d * d + e * e) as EQ by (unfold sum_squares; cbn; ring).
  rewrite EQ in N. set (Q := d * d + e * e) in *.
  assert (d * d <= 2 ^ 48 /\ e * e <= 2 ^ 48 /\ d * e <= 2 ^ 48) as (S1 & S2 & S3) by nia.
  assert (0 <= Q) as Q0 by (unfold Q; nia).
  destruct N as (_ & table & inv & E1 & E2 & Linv & V).
  - intros y [<-|[]]. lia.
  - intros y [<-|[]]. lia.
  - lia.
  - lia.
  - exact Hf.
  - vm_compute. discriminate.
  - change (INR (2 ^ 1)) with 2%R. rewrite <- plus_IZR, <- !mult_IZR. unfold Omf. apply IZR_le. unfold Q in *. lia.
  - destruct (V O ltac:(cbn; lia)) as [F0 N0]. assert (conv [d] [e] 0 = d * e) as EC by (rewrite conv_0; reflexivity). rewrite EC in N0.
    change (INR (1 + 1)) with 2%R in N0.
    destruct inv as [|x inv]; [cbn in Linv; lia|]. cbn [nth] in F0, N0.
    assert (51.9 * (2 * (IZR Q + 1)) * / 16777216 <= IZR (d * e - 2 ^ 24))%R as Hb.
    { apply IZR_le in Hbig. rewrite (mult_IZR 104), (plus_IZR _ 1), (mult_IZR (2 ^ 24)) in Hbig. fold Q in Hbig.
      replace (IZR (2 ^ 24)) with 16777216%R in Hbig by (apply (f_equal IZR); reflexivity). assert (0 <= IZR Q)%R by (apply IZR_le; exact Q0). lra. }
    apply abs_elim in N0. rewrite minus_IZR in Hb. replace (IZR (2 ^ 24)) with 16777216%R in Hb by (apply (f_equal IZR); reflexivity).
    destruct (multiple_at binary32 (fst x) 1) as [q Hq]; [lia| |reflexivity|].
    { change (2 ^ (bprec binary32 - 1 + 1)) with 16777216. change (IZR 16777216 <= @B2R 24 128 (fst x))%R. lra. }
    change (@B2R (bprec binary32) (bemax binary32) (fst x)) with (@B2R 24 128 (fst x)) in Hq. rewrite Hq in N0.
    assert (IZR (d * e) <= 281474976710656)%R as S3R by (apply IZR_le; lia).
    assert (16777216 <= 2 ^ 1 * q <= 2 ^ 49) as Hq2 by (split; apply le_IZR; [|replace (IZR (2 ^ 49)) with 562949953421312%R by (apply (f_equal IZR); reflexivity)]; lra).
    assert (24 <= bprec binary32 /\ 128 <= bemax binary32 /\ (bprec binary32 < 53 -> bemax binary32 <= 1024)) as (B1 & B2 & B3) by (cbn; lia).
    assert (4 * 562949953421312 <= Omf)%R as HO by (unfold Omf; rewrite <- mult_IZR; apply IZR_le; vm_compute; discriminate).
    assert (0 <= IZR (2 ^ 1 * q) <= 562949953421312)%R as Hq3.
    { split; [apply IZR_le; lia|]. replace 562949953421312%R with (IZR (2 ^ 49)) by (apply (f_equal IZR); reflexivity). apply IZR_le. lia. }
    assert (rounds_to (loop_flops binary32) (@B2R (bprec (wider binary32)) (bemax (wider binary32))) (fun y => is_finite y = true) (widened binary32 x) (2 ^ 1 * q)) as Hr.
    { destruct (wider_type binary32 B1 B2) as (W1 & W2 & W3).
      destruct (convert_wider binary32 B1 B2 B3 (fst x) F0) as [Fw Vw].
      { change (@B2R (bprec binary32) (bemax binary32) (fst x)) with (@B2R 24 128 (fst x)). rewrite Hq. apply abs_le. lra. }
      change (@B2R (bprec binary32) (bemax binary32) (fst x)) with (@B2R 24 128 (fst x)) in Vw. rewrite Hq in Vw.
      destruct (half_at (wider binary32) W3 W2 1 ltac:(lia)) as [Fh Vh]. change (bpow radix2 (- (1))) with (/ 2)%R in Vh.
      destruct (add_at_spec (wider binary32) W3 W2 _ _ Fw Fh) as [Fs Vs]; [rewrite Vw, Vh; apply abs_le; lra|]. rewrite Vw, Vh in Vs.
      unfold rounds_to. destruct (r_floor _ _ _ _ _ _ _ (loop_rounding binary32 B1 B2) _ Fs) as [Fl Vl].
      split; [exact Fl|]. etransitivity; [exact Vl|]. f_equal. rewrite Vs.
      pose proof (rnd_at_err (wider binary32) W3 W2 (IZR (2 ^ 1 * q) + / 2)) as Er.
      assert (unit_at (wider binary32) = / 9007199254740992)%R as Eu by reflexivity. rewrite Eu, (Rabs_right (IZR (2 ^ 1 * q) + / 2)) in Er by lra.
      apply abs_elim in Er. unfold tiny in Er. apply Zfloor_imp. rewrite plus_IZR. lra. }
    unfold mul_strassen_at, bind, alloc in Hret. destruct (al n); [|discriminate]. cbv zeta in Hret. rewrite E1, E2, loop_eq in Hret.
    destruct (carry_loop L (loop_flops binary32) (map (widened binary32) (x :: inv)) 0 [] al (S n)) as [v n1| | |] eqn:Ec; try discriminate.
    cbn [map carry_loop] in Ec. unfold bind in Ec.
    assert (2 <= base L) as HB by (apply AddSubProof.HB; exact HL).
    destruct (carry_step (loop_flops binary32) _ _ _ _ _ _ (loop_rounding binary32 B1 B2) L HL (2 ^ 49) 0 (2 ^ 1 * q) (widened binary32 x)) as (Eu & _); [lia|exact Hr|lia|lia|lia|].
    rewrite Eu in Ec. destruct (_ <? 2 ^ wd L); [|discriminate]. unfold ret at 1 in Ec. rewrite (nb_eq L HL) in Ec. destruct (Z.eqb_spec (base L) 0); [lia|].
    set (z := 0 + 2 ^ 1 * q) in *.
    assert (wrap (ws L) (z mod base L) = z mod base L) as Ew.
    { unfold wrap. apply Z.mod_small. pose proof (Z.mod_pos_bound z (base L) ltac:(lia)).
      pose proof HL as H0. unfold limits_ok in H0. rewrite !andb_true_iff, !Z.leb_le in H0. lia. }
    rewrite Ew in Ec. apply loop_extends in Ec. destruct Ec as [ds ->]. cbn [app] in Hret.
    destruct (trim_pure (z mod base L :: ds)) as (r0 & j & Er & _ & Hpr). pose proof (Hpr al n1) as Hpr2. unfold bind in Hpr2. cbn [app] in *.
    rewrite Hpr2 in Hret. injection Hret as <- _.
    destruct (low_digit_value (base L) r0 1 H2) as [q2 ->]. apply Z.divide_add_r; [|exists q2; ring].
    destruct r0 as [|d0 r0]; [exists 0; reflexivity|]. cbn [app] in Er. injection Er as <- _. cbn [nth].
    rewrite Z.mod_eq by lia. apply Z.divide_sub_r; [exists q; unfold z; ring|]. apply Z.divide_mul_l. exact H2.
Qed.
