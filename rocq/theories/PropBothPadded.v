(** * Property C59: division where both numbers have superfluous high-order zeros, and when division ends at all *)
From Verif Require Import Base Spec Limits Compare AddSub Division Bignum Outcome Wp ValueProof AddSubProof DivisionProof BignumProof DivOpProof.
From Verif Require Import PaddedProof PadDivisorProof BothPaddedProof.

(** With v the value of the dividend and n its number of digits without the zero, d > 0 the value of the divisor and m
    its number of digits without the zero, B the base:
    - n < m: the result is 0, whatever the values are;
    - n = m: 0 if v <= d, otherwise the leading binary digit of the quotient and nothing else;
    - n > m: with 2^k the largest power of two such that d 2^k < B^n, first 2^k, whether that goes into v or not; then
      the leading binary digits of the quotient of the rest v - d 2^k, plus B^(n+1) if that is negative, until what is
      left is below B^m. *)
Theorem C59_both_padded : forall L fuel x y u w, can_double L = true -> finite x -> finite y ->
  data x = w ++ [0] -> data y = u ++ [0] -> digits_ok (base L) w -> digits_ok (base L) u ->
  w <> [] -> 0 < value (base L) u ->
  Z.log2 (base L ^ Z.of_nat (S (length w))) + 3 <= Z.of_nat fuel ->
  let v := value (base L) w in let d := value (base L) u in
  let n := Z.of_nat (length w) in let m := Z.of_nat (length u) in
  assigns (op_div_assign L false fuel x (Other y))
    (fun z => let q := value (base L) (data z) in
       good (base L) z /\ (desc z = BN_POS <-> desc x = desc y) /\
       (n < m -> q = 0) /\
       (n = m -> v <= d -> q = 0) /\
       (n = m -> d < v -> exists k, 0 <= k /\ q = 2 ^ k /\ d * 2 ^ k <= v < d * 2 ^ (k + 1)) /\
       (m < n -> exists k, 0 <= k /\ d * 2 ^ k < base L ^ n <= d * 2 ^ (k + 1) /\
          let rest := if v <? d * 2 ^ k then v - d * 2 ^ k + base L ^ (n + 1) else v - d * 2 ^ k in
          (rest < base L ^ m /\ q = 2 ^ k) \/
          (base L ^ m <= rest /\ exists j, 0 <= j /\ q = 2 ^ k + 2 ^ j * (rest / (d * 2 ^ j)) /\
             rest mod (d * 2 ^ j) < base L ^ m <= rest mod (d * 2 ^ (j + 1)))))
    (infinity_for (desc y)).
Proof.
  intros L fuel x y u w HD Fx Fy Ex Ey Dw Du Nw Hu Hf v d n m.
  eapply assigns_mono; [exact (div_assign_both_padded L HD fuel x y u w Fx Fy Ex Ey Dw Du Nw Hu Hf)|].
  intros z (G & Dz & S). cbv zeta. split; [exact G|]. split.
  { rewrite Dz. destruct Fx as [-> | ->], Fy as [-> | ->]; cbn; split; congruence. }
  unfold both_padded in S. fold v d n m in S.
  destruct S as [[S1 S2]|[(S1 & S2 & S3)|[(S1 & S2 & S3)|[S1 S2]]]]; (split; [intros; lia|]);
    (split; [intros; lia|]); (split; [intros; try lia; exact S3 || idtac|]); intros; try lia.
  destruct S2 as (k & Hk & Hb & S). exists k. split; [exact Hk|]. split; [exact Hb|].
  unfold wrapped in S. fold n in S. rewrite Nat2Z.inj_succ in S. fold n in S. unfold Z.succ in S.
  destruct S as [[Sa Sb]|[Sa (j & Hj & Sb & Sc)]]; [left; split; [exact Sa|lia]|right].
  split; [exact Sa|]. exists j. split; [exact Hj|]. split; [lia|exact Sc].
Qed.
Print Assumptions C59_both_padded.

(** A dividend with two or more superfluous zeros and more digits than the divisor: the result is always too large. *)
Theorem C59_two_zeros_too_large : forall L fuel x y u w, can_double L = true -> finite x -> finite y ->
  data x = w ++ [0; 0] -> data y = u ++ [0] -> digits_ok (base L) w -> digits_ok (base L) u ->
  0 < value (base L) u -> (length u <= length w)%nat ->
  Z.log2 (base L ^ Z.of_nat (length (data x))) + 3 <= Z.of_nat fuel ->
  assigns (op_div_assign L false fuel x (Other y))
    (fun z => value (base L) (data x) / value (base L) (data y) < value (base L) (data z)) (infinity_for (desc y)).
Proof.
  intros L fuel x y u w HD Fx Fy Ex Ey Dw Du Hu Hl Hf.
  assert (2 <= base L) as HB by (apply can_double_facts in HD; destruct HD as [HD _]; apply (limits_ok_facts L HD)).
  set (B := base L) in *.
  assert (data x = (w ++ [0]) ++ [0]) as Ex' by (rewrite Ex, <- app_assoc; reflexivity).
  assert (length (w ++ [0%Z]) = S (length w)) as Lw by (rewrite app_length; cbn [length]; lia).
  assert (value B (w ++ [0]) = value B w) as Vw by (rewrite value_snoc; lia).
  rewrite Ex', app_length, Lw in Hf. cbn [length] in Hf.
  eapply assigns_mono.
  { apply (div_assign_both_padded L HD fuel x y u (w ++ [0])); auto.
    - apply (snoc_ok L HD); auto.
    - destruct w; discriminate.
    - rewrite Lw. replace (S (S (length w))) with (S (length w) + 1)%nat by lia. exact Hf. }
  intros z (G & Dz & S). fold B in S. unfold both_padded in S. fold B in S. rewrite Lw, Vw in S.
  destruct S as [[S1 S2]|[(S1 & S2 & S3)|[(S1 & S2 & S3)|[S1 (k & Hk & Hb & S)]]]]; try lia.
  pose proof (value_bounds B HB w Dw) as Bw.
  assert (value B w < value B u * 2 ^ k) as Hlt by (apply (wrapped_two L HD); auto; apply Hb).
  unfold wrapped in S. fold B in S. rewrite (proj2 (Z.ltb_lt _ _)) in S by lia.
  assert (0 < B ^ Z.of_nat (length w)) as P by (apply pow_pos; lia).
  assert (B ^ Z.of_nat (length u) <= B ^ Z.of_nat (length w)) as Hmn by (apply Z.pow_le_mono_r; lia).
  assert (B ^ Z.of_nat (Datatypes.S (Datatypes.S (length w))) = B * (B * B ^ Z.of_nat (length w))) as E2 by (rewrite !pow_S by lia; reflexivity).
  rewrite pow_S in Hb by lia.
  apply (stopped_bounds L HD) in S; [|exact Hu|nia].
  rewrite Ex', Ey, !value_snoc, !Z.mul_0_r, !Z.add_0_r.
  apply Z.div_lt_upper_bound; [exact Hu|]. nia.
Qed.
Print Assumptions C59_two_zeros_too_large.

(** ** When division ends

    The divisor is zero but not written as one 0, and the dividend has more digits, or as many and is not zero. *)
Definition endless (B : Z) (a b : list Z) : Prop :=
  b <> [0] /\ value B b = 0 /\ a <> [] /\ a <> [0] /\
  ((length b < length a)%nat \/ length b = length a /\ value B a <> 0).

Theorem C59_endless : forall L x y, can_double L = true -> finite x ->
  digits_ok (base L) (data x) -> digits_ok (base L) (data y) -> endless (base L) (data x) (data y) ->
  never_completes (fun fuel => op_div_assign L false fuel x (Other y)) (infinity_for (desc y)).
Proof.
  intros L x y HD Fx Dx Dy (N0 & V0 & Nx & Nx0 & Hl).
  pose proof (value_zero_zeros L HD (data y) Dy V0) as Ey.
  destruct (length (data y)) as [|[|m]] eqn:El; cbn [repeat] in Ey.
  - apply (div_assign_nil L HD); auto.
  - congruence.
  - apply (div_assign_zeros_any L HD x y m); auto. lia.
Qed.
Print Assumptions C59_endless.

(** In every other case it ends, within about as many rounds as the dividend has binary digits. *)
Theorem C59_ends : forall L fuel x y, can_double L = true -> finite x -> finite y ->
  digits_ok (base L) (data x) -> digits_ok (base L) (data y) -> ~ endless (base L) (data x) (data y) ->
  Z.log2 (base L ^ Z.of_nat (length (data x))) + 3 <= Z.of_nat fuel ->
  assigns (op_div_assign L false fuel x (Other y)) (fun z => digits_ok (base L) (data z)) (infinity_for (desc y)).
Proof.
  intros L fuel x y HD Fx Fy Dx Dy He Hf.
  assert (limits_ok L = true) as HL by apply (DivisionProof.HL L HD).
  assert (2 <= base L) as HB by apply (AddSubProof.HB L HL).
  set (B := base L) in *.
  destruct (list_eq_dec Z.eq_dec (data y) [0]) as [E0|N0].
  { intros al n. rewrite (div_by_lone_zero L HL false fuel x y Fx E0). split; [constructor|lia]. }
  assert ((data x = [] \/ data x = [0]) \/ data x <> [] /\ data x <> [0]) as [Ex|[Nx Nx0]].
  { destruct (data x) as [|a [|b l]]; [auto| |right; split; discriminate].
    destruct (Z.eq_dec a 0) as [->|]; [auto|right; split; congruence]. }
  { intros al n. rewrite (div_of_zero L HL false fuel x y Fx N0 Ex). split; [exact Dx|lia]. }
  destruct (list_eq_dec Z.eq_dec (data y) [1]) as [E1|N1].
  { intros al n. rewrite (div_by_one L HL false fuel x y Fx E1). split; [exact Dx|lia]. }
  pose proof (value_bounds B HB _ Dy) as By. pose proof (value_bounds B HB _ Dx) as Bx.
  destruct (Z.eq_dec (value B (data y)) 0) as [Vy|Vy].
  { pose proof (value_zero_zeros L HD (data y) Dy Vy) as Ey.
    destruct (length (data y)) as [|[|m]] eqn:El; cbn [repeat] in Ey; [|congruence|].
    - exfalso. apply He. split; auto. split; auto. split; auto. split; auto. left. rewrite El.
      destruct (data x); [congruence|cbn [length]; lia].
    - eapply assigns_mono.
      { apply (div_assign_zeros_zero L HD fuel x y m); auto.
        destruct (Nat.lt_trichotomy (length (data x)) (S (S m))) as [H|[H|H]]; [left; exact H| |].
        - right. split; [exact H|]. destruct (Z.eq_dec (value B (data x)) 0) as [|K]; auto. exfalso. apply He.
          repeat split; auto. right. split; [lia|exact K].
        - exfalso. apply He. repeat split; auto. left. lia. }
      intros z (Dz & _). exact Dz. }
  assert (0 < value B (data y)) as Py by lia.
  assert (data y <> []) as Ny by (intros E; rewrite E in Py; cbn in Py; lia).
  assert (forall Q : bignum -> Prop, (forall z, Q z -> digits_ok B (data z)) ->
          assigns (op_div_assign L false fuel x (Other y)) Q (infinity_for (desc y)) ->
          assigns (op_div_assign L false fuel x (Other y)) (fun z => digits_ok B (data z)) (infinity_for (desc y))) as Weak.
  { intros Q HQ K. eapply assigns_mono; [exact K|exact HQ]. }
  destruct (exists_last Nx) as (w & tx & Ex). destruct (exists_last Ny) as (u & ty & Ey).
  assert (length (data x) = S (length w)) as Lx by (rewrite Ex, app_length; cbn [length]; lia).
  assert (length (data y) = S (length u)) as Ly by (rewrite Ey, app_length; cbn [length]; lia).
  assert (digits_ok B w) as Dw by (rewrite Ex in Dx; apply digits_ok_app in Dx; apply Dx).
  assert (digits_ok B u) as Du by (rewrite Ey in Dy; apply digits_ok_app in Dy; apply Dy).
  assert (1 <= fuel)%nat as Hf1 by (pose proof (Z.log2_nonneg (B ^ Z.of_nat (length (data x)))); lia).
  assert (tx <> 0 -> canonical (data x)) as Cx by (intros H; rewrite Ex; apply canonical_snoc; exact H).
  assert (ty <> 0 -> canonical (data y)) as Cy by (intros H; rewrite Ey; apply canonical_snoc; exact H).
  assert (enough_fuel (value B (data x)) fuel) as Hef.
  { unfold enough_fuel. assert (Z.log2 (value B (data x)) <= Z.log2 (B ^ Z.of_nat (length (data x)))); [|lia].
    apply Z.log2_le_mono. lia. }
  destruct (Z.eq_dec ty 0) as [->|Ty]; destruct (Z.eq_dec tx 0) as [->|Tx].
  - (* both padded *)
    eapply Weak; [|apply (div_assign_both_padded L HD fuel x y u w); auto].
    + intros z (G & _). apply G.
    + intros ->. apply Nx0. exact Ex.
    + rewrite Ey, value_snoc in Py. fold B. lia.
    + fold B. rewrite <- Lx. exact Hf.
  - (* only the divisor *)
    eapply Weak; [|apply (div_assign_pad_divisor L HD fuel x y u); auto].
    + intros z (G & _). apply G.
    + split; [exact Fx|]. split; [exact Dx|]. left. auto.
    + rewrite Ey, value_snoc in Py. fold B. lia.
  - (* only the dividend *)
    destruct (Nat.le_gt_cases (length (data y)) (length w)) as [H|H].
    + assert (exists k, 0 <= k /\ value B (data y) * 2 ^ k < B ^ Z.of_nat (length w) <= value B (data y) * 2 ^ (k + 1))
        as (k & Hk & Hb).
      { apply (bracket_exists L HD); [lia|].
        assert (B ^ Z.of_nat (length (data y)) <= B ^ Z.of_nat (length w)) by (apply Z.pow_le_mono_r; lia). lia. }
      eapply Weak; [|apply (div_assign_padded L HD fuel x y w k); auto].
      * intros z (G & _). apply G.
      * fold B. rewrite <- Lx. exact Hf.
    + eapply Weak; [|apply (div_assign_padded_short L HD fuel x y w); auto].
      * intros z (_ & -> & _). constructor; [lia|constructor].
      * intros ->. apply Nx0. exact Ex.
  - (* neither *)
    assert (good B x) as Gx by (split; [exact Fx|split; [exact Dx|left; auto]]).
    assert (good B y) as Gy by (split; [exact Fy|split; [exact Dy|left; auto]]).
    destruct (Z.eq_dec (value B (data x)) (value B (data y))) as [E|N].
    + assert (data x = data y) as Exy by (apply (value_inj B HB); auto).
      eapply Weak; [|apply (div_assign_same_magnitude L HD fuel x y); auto].
      * intros z ->. constructor; [lia|constructor].
      * rewrite Exy. exact N1.
    + eapply Weak; [|apply (div_assign_quot L HD fuel x y); auto].
      intros z (G & _). apply G.
Qed.
Print Assumptions C59_ends.

(** So, where no allocation fails: it ends exactly if the two are not of that kind. *)
Theorem C59_ends_iff : forall L x y, can_double L = true -> finite x -> finite y ->
  digits_ok (base L) (data x) -> digits_ok (base L) (data y) ->
  ((exists fuel z n, run (op_div_assign L false fuel x (Other y)) = Ret (z, None) n) <->
   ~ endless (base L) (data x) (data y)).
Proof.
  intros L x y HD Fx Fy Dx Dy. split.
  - intros (fuel & z & n & R) He. pose proof (C59_endless L x y HD Fx Dx Dy He fuel never_fails 0%nat) as K.
    unfold run in R. cbv beta in K. rewrite R in K. exact K.
  - intros He. set (N := Z.log2 (base L ^ Z.of_nat (length (data x))) + 3).
    pose proof (Z.log2_nonneg (base L ^ Z.of_nat (length (data x)))) as HN.
    pose proof (C59_ends L (Z.to_nat N) x y HD Fx Fy Dx Dy He ltac:(fold N; unfold N in *; lia) never_fails 0%nat) as K.
    exists (Z.to_nat N). unfold run.
    destruct (op_div_assign L false (Z.to_nat N) x (Other y) never_fails 0%nat) as [[z [e|]] n|e n|v|]; try contradiction.
    + destruct K as (_ & _ & i & _ & Hi). discriminate.
    + exists z, n. reflexivity.
Qed.
Print Assumptions C59_ends_iff.

(** 096 / -02 is -48; 06 / 02 is 2 although 6 / 2 is 3; 0096 / 02 is 5048 = 10096 / 2; 0030 / 009 is 1104; 09 / 002 is 0. *)
Example C59_examples :
  (exists n, run (op_div base10 false 20 (mkBN BN_POS [6; 9; 0]) (mkBN BN_NEG [2; 0])) = Ret (mkBN BN_NEG [8; 4]) n) /\
  (exists n, run (op_div base10 false 20 (mkBN BN_POS [6; 0]) (mkBN BN_POS [2; 0])) = Ret (mkBN BN_POS [2]) n) /\
  (exists n, run (op_div base10 false 20 (mkBN BN_POS [6; 9; 0; 0]) (mkBN BN_POS [2; 0])) = Ret (mkBN BN_POS [8; 4; 0; 5]) n) /\
  (exists n, run (op_div base10 false 20 (mkBN BN_POS [0; 3; 0; 0]) (mkBN BN_POS [9; 0; 0])) = Ret (mkBN BN_POS [4; 0; 1; 1]) n) /\
  (exists n, run (op_div base10 false 20 (mkBN BN_POS [9; 0]) (mkBN BN_POS [2; 0; 0])) = Ret (mkBN BN_POS [0]) n).
Proof. repeat split; eexists; vm_compute; reflexivity. Qed.

(** the formula on 0030 / 009: k = 6, the rest is 10030 - 576 = 9454, and j = 4 *)
Example C59_formula : 9 * 2 ^ 6 < 10 ^ 3 <= 9 * 2 ^ 7 /\ 30 < 9 * 2 ^ 6 /\ 30 - 9 * 2 ^ 6 + 10 ^ 4 = 9454 /\
  2 ^ 6 + 2 ^ 4 * (9454 / (9 * 2 ^ 4)) = 1104 /\ 9454 mod (9 * 2 ^ 4) < 10 ^ 2 <= 9454 mod (9 * 2 ^ 5) /\
  Z.log2 (base base10 ^ Z.of_nat (length [0; 3; 0; 0])) + 3 <= Z.of_nat 20.
Proof. vm_compute. intuition discriminate. Qed.

(** 6 / 00 with one digit too few ends, 06 / 00 and 6 / (no digits) do not, 00 / 00 does *)
Example C59_endless_cases :
  endless 10 [6; 0] [0; 0] /\ endless 10 [6] [] /\ endless 10 [0; 0; 0] [0; 0] /\
  ~ endless 10 [6] [0; 0] /\ ~ endless 10 [0; 0] [0; 0] /\ ~ endless 10 [6; 9] [0] /\
  run (op_div base10 false 200 (mkBN BN_POS [0; 0; 0]) (mkBN BN_POS [0; 0])) = NoFuel /\
  (exists n, run (op_div base10 false 20 (mkBN BN_POS [0; 0]) (mkBN BN_POS [0; 0])) = Ret (mkBN BN_POS [0]) n).
Proof.
  unfold endless. cbn [value length]. repeat split; try discriminate; try lia; try (intros (A & H & K & J & I); lia || congruence).
  - eexists. vm_compute. reflexivity.
Qed.
