(** * Property C55: sums, differences and comparisons of numbers with superfluous high-order zeros *)
From Verif Require Import Base Spec Limits Compare AddSub Bignum Outcome Wp ValueProof CompareProof AddSubProof BignumProof OperatorProof AnyDigitsProof PropAddSub.

(** the longer digit sequence has the smaller value; impossible without superfluous zeros *)
Definition misleading (B : Z) (a b : list Z) : Prop :=
  (length b < length a)%nat /\ value B a < value B b \/ (length a < length b)%nat /\ value B b < value B a.

Theorem C55_add_same_sign : forall L x y, limits_ok L = true -> finite x -> desc x = desc y ->
  digits_ok (base L) (data x) -> digits_ok (base L) (data y) ->
  assigns (op_add_assign L false x (Other y))
    (fun z => desc z = desc x /\ digits_ok (base L) (data z) /\
              signed_value (base L) z = signed_value (base L) x + signed_value (base L) y)
    (infinity_for (desc y)).
Proof. intros L x y HL. exact (add_any_same L HL x y). Qed.
Print Assumptions C55_add_same_sign.

(** Differences of magnitudes are right exactly if the lengths do not mislead; otherwise they are off by the power of
    the base that the longer operand falls short of, with that operand's sign. *)
Theorem C55_add_mixed_sign : forall L x y, limits_ok L = true -> finite x -> finite y -> desc x <> desc y ->
  digits_ok (base L) (data x) -> digits_ok (base L) (data y) -> (data x <> [] \/ data y <> []) ->
  assigns (op_add_assign L false x (Other y))
    (fun z => good (base L) z /\
       let sum := signed_value (base L) x + signed_value (base L) y in
       (signed_value (base L) z = sum <-> ~ misleading (base L) (data x) (data y)) /\
       (misleading (base L) (data x) (data y) ->
        signed_value (base L) z = sum +
          (if (length (data y) <? length (data x))%nat
           then (if desc_eqb (desc x) BN_POS then 1 else -1) * base L ^ Z.of_nat (length (data x))
           else (if desc_eqb (desc y) BN_POS then 1 else -1) * base L ^ Z.of_nat (length (data y)))))
    (infinity_for (desc y)).
Proof.
  intros L x y HL Fx Fy Ed Dx Dy Hn.
  eapply assigns_mono; [exact (add_any_mixed L HL x y Fx Fy Ed Dx Dy Hn)|].
  intros z (G & V). split; [exact G|]. cbv zeta. rewrite V. split.
  - unfold misleading. rewrite <- (offset_zero_iff L HL (sgn (desc x))) by (auto; destruct (desc x); auto). lia.
  - intros M. unfold offset. destruct M as [[M1 M2]|[M1 M2]].
    + rewrite (proj2 (Nat.ltb_lt _ _)) by lia. rewrite (proj2 (Z.ltb_lt _ _)) by lia. cbn [andb].
      destruct Fx as [-> | ->]; reflexivity.
    + rewrite (proj2 (Nat.ltb_ge _ _)) by lia. rewrite (proj2 (Nat.ltb_lt _ _)) by lia. cbn [andb]. rewrite (proj2 (Z.ltb_lt _ _)) by lia.
      cbn [andb]. destruct Fx as [E1|E1], Fy as [E2|E2]; rewrite E1, E2 in *; try congruence; reflexivity.
Qed.
Print Assumptions C55_add_mixed_sign.

Theorem C55_sub_same_sign : forall L x y, limits_ok L = true -> finite x -> desc x = desc y ->
  digits_ok (base L) (data x) -> digits_ok (base L) (data y) -> (data x <> [] \/ data y <> []) ->
  assigns (op_sub_assign L false x (Other y))
    (fun z => good (base L) z /\ canonical (data z) /\
       let difference := signed_value (base L) x - signed_value (base L) y in
       (signed_value (base L) z = difference <-> ~ misleading (base L) (data x) (data y)) /\
       (misleading (base L) (data x) (data y) ->
        signed_value (base L) z = difference +
          (if desc_eqb (desc x) BN_POS then 1 else -1) *
          (if (length (data y) <? length (data x))%nat then base L ^ Z.of_nat (length (data x))
           else - base L ^ Z.of_nat (length (data y)))))
    (infinity_for (desc y)).
Proof.
  intros L x y HL Fx Ed Dx Dy Hn.
  eapply assigns_mono; [exact (sub_any_same L HL x y Fx Ed Dx Dy Hn)|].
  intros z (G & C & V). split; [exact G|]. split; [exact C|]. cbv zeta. rewrite V. split.
  - unfold misleading. rewrite <- (offset_zero_iff L HL (sgn (desc x))) by (auto; destruct (desc x); auto). lia.
  - intros M. unfold offset. destruct M as [[M1 M2]|[M1 M2]].
    + rewrite (proj2 (Nat.ltb_lt _ _)) by lia. rewrite (proj2 (Z.ltb_lt _ _)) by lia. cbn [andb].
      destruct Fx as [-> | ->]; cbn [sgn desc_eqb]; lia.
    + rewrite (proj2 (Nat.ltb_ge _ _)) by lia. rewrite (proj2 (Nat.ltb_lt _ _)) by lia. cbn [andb]. rewrite (proj2 (Z.ltb_lt _ _)) by lia.
      cbn [andb]. destruct Fx as [-> | ->]; cbn [sgn desc_eqb]; lia.
Qed.
Print Assumptions C55_sub_same_sign.

(** Subtracting a number of the other sign: the defect of C05 on arbitrary digits. *)
Theorem C55_sub_mixed_sign : forall L x y, limits_ok L = true -> finite x -> finite y -> desc x <> desc y ->
  digits_ok (base L) (data x) -> digits_ok (base L) (data y) -> (data x <> [] \/ data y <> []) ->
  assigns (op_sub_assign L false x (Other y))
    (fun z =>
       let a := value (base L) (data x) in let b := value (base L) (data y) in
       let wrapped := base L ^ Z.of_nat (length (data x)) in
       good (base L) z /\ canonical (data z) /\ desc z = desc x /\
       (~ looks_greater (data x) (data y) -> value (base L) (data z) = 0) /\
       (looks_greater (data x) (data y) -> b <= a -> value (base L) (data z) = a - b) /\
       (looks_greater (data x) (data y) -> a < b -> value (base L) (data z) = wrapped + a - b) /\
       (signed_value (base L) z = signed_value (base L) x - signed_value (base L) y <->
        looks_greater (data x) (data y) /\ (b = 0 \/ a < b /\ 2 * b = wrapped) \/
        ~ looks_greater (data x) (data y) /\ a = 0 /\ b = 0))
    (infinity_for (desc y)).
Proof.
  intros L x y HL Fx Fy Hd Dx Dy Hn. pose proof (AddSubProof.HB L HL) as HB.
  eapply assigns_mono; [exact (sub_assign_mixed L HL x y Fx Fy Dx Dy Hd Hn)|].
  intros z (Gz & Cz & Ez & Vz) a b wrapped. split; [exact Gz|]. split; [exact Cz|]. split; [exact Ez|].
  pose proof (value_bounds (base L) HB _ Dx) as Ba. pose proof (value_bounds (base L) HB _ Dy) as Bb. fold a in Ba. fold b in Bb.
  assert (looks_greater (data x) (data y) <-> CompareProof.gtb (data x) (data y) = true) as G by (unfold looks_greater; rewrite gtb_iff; tauto).
  fold a b wrapped in Vz.
  assert (signed_value (base L) z = signed_value (base L) x - signed_value (base L) y <-> value (base L) (data z) = a + b) as Sv.
  { unfold signed_value. rewrite Ez. fold a b. destruct Fx as [E1|E1], Fy as [E2|E2]; rewrite E1, E2 in *; try congruence; cbn; lia. }
  rewrite Sv, G. destruct (CompareProof.gtb (data x) (data y)).
  - destruct (Z.leb_spec b a); repeat split; intros; try congruence; try lia.
  - repeat split; intros; try congruence; lia.
Qed.
Print Assumptions C55_sub_mixed_sign.

(** numbers without superfluous zeros never mislead *)
Theorem C55_canonical_not_misleading : forall B a b, 2 <= B -> digits_ok B a -> digits_ok B b ->
  weak_canonical a -> weak_canonical b -> ~ misleading B a b.
Proof.
  assert (forall B u v, 2 <= B -> digits_ok B u -> digits_ok B v -> weak_canonical v ->
    (length u < length v)%nat -> value B u <= value B v) as K.
  { intros B u v HB Du Dv [C| ->] H.
    - pose proof (length_lt_value B HB u v Du Dv C H). lia.
    - destruct u; [cbn; lia|cbn in H; lia]. }
  intros B a b HB Da Db Ca Cb [[H1 H2]|[H1 H2]];
    [pose proof (K B b a HB Db Da Ca H1)|pose proof (K B a b HB Da Db Cb H1)]; lia.
Qed.
Print Assumptions C55_canonical_not_misleading.

(** >= and <= between non-negative numbers compare lengths first *)
Theorem C55_ge_le : forall B x y, 2 <= B -> desc x = BN_POS -> desc y = BN_POS ->
  digits_ok B (data x) -> digits_ok B (data y) -> forall al n, exists c d,
  op_ge x y al n = Ret c n /\ op_le y x al n = Ret d n /\ c = d /\
  (c = true <-> (length (data y) < length (data x))%nat \/
                (length (data x) = length (data y) /\ value B (data y) <= value B (data x))) /\
  ((c = true <-> value B (data y) <= value B (data x)) \/ misleading B (data x) (data y) \/
   (length (data x) < length (data y))%nat /\ value B (data x) = value B (data y)).
Proof.
  intros B x y HB Ex Ey Dx Dy al n. exists (geb B (data x) (data y)), (geb B (data x) (data y)).
  rewrite (op_ge_pos B HB x y Ex Ey Dx Dy), (op_le_pos B HB y x Ey Ex Dy Dx).
  split; [reflexivity|]. split; [reflexivity|]. split; [reflexivity|]. unfold geb, misleading.
  destruct (Nat.ltb_spec (length (data y)) (length (data x))) as [H|H].
  - split; [split; auto|].
    destruct (Z.le_gt_cases (value B (data y)) (value B (data x))); [left; tauto|right; left; left; lia].
  - destruct (Nat.ltb_spec (length (data x)) (length (data y))) as [H'|H'].
    + split; [split; [discriminate|intros [|[]]; lia]|].
      destruct (Z.lt_trichotomy (value B (data x)) (value B (data y))) as [K|[K|K]].
      * left. split; [discriminate|lia].
      * right; right; lia.
      * right; left; right; lia.
    + rewrite Z.leb_le. split; [|left; tauto]. split; [intros K; right; split; [lia|exact K]|intros [|[]]; lia].
Qed.
Print Assumptions C55_ge_le.

(** 7 - 05 = -98, 05 - 7 = 98, 07 - 5 = 2; 7 - (-00) = 0; 09 - (-50) = 59 by accident; 6 >= 02 is false *)
Example C55_case :
  misleading 10 [7] [5; 0] /\ misleading 10 [5; 0] [7] /\ ~ misleading 10 [7; 0] [5] /\
  run (op_sub_assign base10 false (mkBN BN_POS [7]) (Other (mkBN BN_POS [5; 0]))) = Ret (mkBN BN_NEG [8; 9], None) 1%nat /\
  run (op_sub_assign base10 false (mkBN BN_POS [5; 0]) (Other (mkBN BN_POS [7]))) = Ret (mkBN BN_POS [8; 9], None) 0%nat /\
  run (op_sub_assign base10 false (mkBN BN_POS [7; 0]) (Other (mkBN BN_POS [5]))) = Ret (mkBN BN_POS [2], None) 0%nat /\
  run (op_add_assign base10 false (mkBN BN_NEG [5; 0]) (Other (mkBN BN_POS [7]))) = Ret (mkBN BN_NEG [8; 9], None) 0%nat /\
  run (op_add_assign base10 false (mkBN BN_POS [5; 0]) (Other (mkBN BN_POS [7]))) = Ret (mkBN BN_POS [2; 1], None) 0%nat /\
  run (op_sub_assign base10 false (mkBN BN_POS [7]) (Other (mkBN BN_NEG [0; 0]))) = Ret (mkBN BN_POS [], None) 1%nat /\
  run (op_sub_assign base10 false (mkBN BN_POS [9; 0]) (Other (mkBN BN_NEG [0; 5]))) = Ret (mkBN BN_POS [9; 5], None) 1%nat /\
  run (op_ge (mkBN BN_POS [6]) (mkBN BN_POS [2; 0])) = Ret false 0%nat.
Proof.
  unfold misleading. cbn [length value]. split; [right; lia|]. split; [left; lia|]. split; [lia|].
  repeat split; vm_compute; reflexivity.
Qed.
