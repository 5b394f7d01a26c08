(** * Property C32: printed text *)
From Verif Require Import Base Spec Limits Print Outcome Wp ValueProof OperatorProof.
From Coq Require Import String Ascii.
Notation length := Datatypes.length (only parsing).

(** ** Specification: positional numerals *)

(** the character codes of a text *)
Fixpoint codes (s : string) : list Z :=
  match s with EmptyString => [] | String c r => Z.of_nat (nat_of_ascii c) :: codes r end.

(** [s] is the numeral of [z] in base [B] <= 10, as people write it: digit characters only, at least one, no
    leading zero except in "0" itself, and reading it from left to right gives [z]. *)
Definition numeral (B : Z) (s : string) (z : Z) : Prop :=
  codes s <> [] /\ Forall (fun c => 48 <= c < 48 + B) (codes s) /\
  (hd 0 (codes s) = 48 -> codes s = [48]) /\
  fold_left (fun acc c => acc * B + (c - 48)) (codes s) 0 = z.

(** ** Proofs *)

Lemma codes_app s t : codes (s ++ t) = codes s ++ codes t.
Proof. induction s as [|c s IH]; cbn [append codes app]; [reflexivity|]. f_equal. exact IH. Qed.

Lemma codes_inj s : forall t, codes s = codes t -> s = t.
Proof.
  induction s as [|c s IH]; intros [|d t]; cbn; try discriminate; auto.
  intros H. assert (nat_of_ascii c = nat_of_ascii d) by (apply Nat2Z.inj; congruence).
  f_equal; [|apply IH; congruence].
  rewrite <- (ascii_nat_embedding c), <- (ascii_nat_embedding d). congruence.
Qed.

Lemma print_digit_dec L d : ws L <> 8 -> 0 <= d < 10 -> codes (print_digit L d) = [48 + d].
Proof.
  intros Hw Hd. unfold print_digit. rewrite (proj2 (Z.eqb_neq _ _) Hw).
  assert (d = 0 \/ d = 1 \/ d = 2 \/ d = 3 \/ d = 4 \/ d = 5 \/ d = 6 \/ d = 7 \/ d = 8 \/ d = 9) as H by lia.
  repeat destruct H as [->|H]; try reflexivity. subst. reflexivity.
Qed.

Lemma print_digit_raw L d : ws L = 8 -> 0 <= d < 256 -> codes (print_digit L d) = [d].
Proof.
  intros Hw Hd. unfold print_digit. rewrite Hw. cbn [Z.eqb codes Pos.eqb].
  f_equal. unfold nat_of_ascii. rewrite N_ascii_embedding by lia. lia.
Qed.

Lemma print_digits_codes L f v : (forall d, In d v -> codes (print_digit L d) = [f d]) ->
  codes (print_digits L v) = rev (map f v).
Proof.
  induction v as [|d v IH]; intros H; [reflexivity|]. cbn [print_digits map rev]. rewrite codes_app, IH by (intros; apply H; right; auto).
  rewrite H by (left; reflexivity). reflexivity.
Qed.

Definition body (L : limits) (v : list Z) : string := match v with [] => "0"%string | _ => print_digits L v end.

Lemma body_codes L v : ws L <> 8 -> 1 < base L <= 10 -> digits_ok (base L) v ->
  codes (body L v) = match v with [] => [48] | _ => rev (map (fun d => 48 + d) v) end.
Proof.
  intros Hw HB Hv. destruct v as [|d v]; [reflexivity|]. apply print_digits_codes.
  intros x Hx. apply print_digit_dec; auto. unfold digits_ok in Hv. rewrite Forall_forall in Hv. specialize (Hv x Hx). lia.
Qed.

Lemma body_numeral L v : ws L <> 8 -> 1 < base L <= 10 -> digits_ok (base L) v -> weak_canonical v ->
  numeral (base L) (body L v) (value (base L) v).
Proof.
  intros Hw HB Hv Hc. unfold numeral. rewrite (body_codes L v Hw HB Hv). destruct v as [|d0 v0].
  - split; [discriminate|]. split; [repeat constructor; lia|]. split; reflexivity.
  - remember (d0 :: v0) as v eqn:E. split; [|split; [|split]].
    + subst. cbn [map rev]. intros H. apply app_eq_nil in H. destruct H; discriminate.
    + apply Forall_rev. apply Forall_map. unfold digits_ok in Hv. eapply Forall_impl; [|exact Hv]. cbv beta. intros; lia.
    + destruct Hc as [Hc| Hc]; [|rewrite Hc; reflexivity].
      intros H. exfalso. assert (v <> []) as Ne by (subst; discriminate).
      destruct (exists_last Ne) as (u & x & Ev). rewrite Ev in H, Hc. rewrite map_app, rev_app_distr in H. cbn [map rev app hd] in H.
      unfold canonical in Hc. rewrite last_last in Hc. lia.
    + rewrite <- fold_left_rev_right, rev_involutive. clear. induction v as [|d v IH]; [reflexivity|].
      cbn [map fold_right value]. rewrite IH. ring.
Qed.

Lemma numeral_no_sign B s z : numeral B s z -> 1 < B <= 10 -> forall t, s <> String "-"%char t.
Proof. intros (_ & H & _) HB t ->. cbn [codes] in H. inversion H as [|a b Ha Hb]. change (48 <= 45 < 48 + B) in Ha. lia. Qed.

(** Reading is unambiguous: one text is the numeral of one number only. *)
Lemma numeral_fun B s z1 z2 : numeral B s z1 -> numeral B s z2 -> z1 = z2.
Proof. intros (_ & _ & _ & H1) (_ & _ & _ & H2). congruence. Qed.

(** bignum_base8, bignum_base10: the numeral of the magnitude, preceded by '-' iff the descriptor is BN_NEG. *)
Theorem C32_numeral : forall L x, ws L <> 8 -> 1 < base L <= 10 -> good (base L) x ->
  exists s, numeral (base L) s (value (base L) (data x)) /\
    print L x = match desc x with BN_NEG => String "-"%char s | _ => s end.
Proof.
  intros L [d v] Hw HB (F & D & C). exists (body L v). split; [apply body_numeral; auto|].
  unfold finite in F. cbn [desc] in *. destruct F as [-> | ->]; unfold print, body; cbn [desc data]; destruct v; reflexivity.
Qed.
Print Assumptions C32_numeral.

(** the two shipped types this applies to *)
Theorem C32_decimal_and_octal : forall x,
  (good 10 x -> exists s, numeral 10 s (value 10 (data x)) /\
     print base10 x = match desc x with BN_NEG => String "-"%char s | _ => s end) /\
  (good 8 x -> exists s, numeral 8 s (value 8 (data x)) /\
     print base8 x = match desc x with BN_NEG => String "-"%char s | _ => s end).
Proof.
  intros x. split; intros G; [apply (C32_numeral base10 x)|apply (C32_numeral base8 x)]; auto; cbn; lia.
Qed.
Print Assumptions C32_decimal_and_octal.

(** the numeral of a number is unique *)
Lemma read_digits B : 1 < B -> forall v, Forall (fun c => 48 <= c < 48 + B) v ->
  fold_left (fun acc c => acc * B + (c - 48)) v 0 = value B (rev (map (fun c => c - 48) v)) /\
  digits_ok B (rev (map (fun c => c - 48) v)).
Proof.
  intros HB v Hv. split.
  - rewrite <- fold_left_rev_right, <- map_rev. clear. induction (rev v) as [|d w IH]; [reflexivity|].
    cbn [fold_right map value]. rewrite IH. ring.
  - apply Forall_rev, Forall_map. eapply Forall_impl; [|exact Hv]. cbv beta. intros; lia.
Qed.

Lemma numeral_unique B s t z : 1 < B <= 10 -> numeral B s z -> numeral B t z -> s = t.
Proof.
  intros HB (Ns & Ds & Ls & Vs) (Nt & Dt & Lt & Vt). apply codes_inj.
  destruct (read_digits B ltac:(lia) _ Ds) as (Rs & Os). destruct (read_digits B ltac:(lia) _ Dt) as (Rt & Ot).
  rewrite Rs in Vs. rewrite Rt in Vt.
  set (f := fun c => c - 48) in *.
  assert (forall v, Forall (fun c => 48 <= c < 48 + B) v -> v <> [] -> (hd 0 v = 48 -> v = [48]) ->
     v = [48] \/ canonical (rev (map f v)) /\ rev (map f v) <> []) as K.
  { intros v Dv Nv Lv. destruct v as [|c v]; [congruence|]. cbn [hd] in Lv. destruct (Z.eq_dec c 48) as [->|H]; [left; auto|].
    right. cbn [map rev]. split; [|intros H2; apply app_eq_nil in H2; destruct H2; discriminate].
    apply canonical_snoc. unfold f. lia. }
  assert (forall v w, map f v = map f w -> v = w) as Inj.
  { induction v as [|a v IH]; intros [|b w]; cbn; try discriminate; auto. intros H. injection H as H1 H2.
    unfold f in H1. f_equal; [lia|auto]. }
  destruct (K _ Ds Ns Ls) as [E|[C1 N1]], (K _ Dt Nt Lt) as [E2|[C2 N2]].
  - congruence.
  - exfalso. rewrite E in Vs. cbn in Vs. pose proof (value_canonical_pos B ltac:(lia) _ Ot C2 N2). subst. lia.
  - exfalso. rewrite E2 in Vt. cbn in Vt. pose proof (value_canonical_pos B ltac:(lia) _ Os C1 N1). subst. lia.
  - apply Inj. rewrite <- (rev_involutive (map f (codes s))), <- (rev_involutive (map f (codes t))). f_equal.
    apply (value_inj B); auto; try lia.
Qed.

(** Hence two numbers print the same text exactly when they have the same sign and magnitude. *)
Theorem C32_same_text : forall L x y, ws L <> 8 -> 1 < base L <= 10 -> good (base L) x -> good (base L) y ->
  (print L x = print L y <-> desc x = desc y /\ value (base L) (data x) = value (base L) (data y)).
Proof.
  intros L x y Hw HB Gx Gy.
  destruct (C32_numeral L x Hw HB Gx) as (s & Ns & ->). destruct (C32_numeral L y Hw HB Gy) as (t & Nt & ->).
  destruct Gx as ([Ex|Ex] & Dx & Cx), Gy as ([Ey|Ey] & Dy & Cy); rewrite Ex, Ey.
  - split; [intros -> ; split; auto; eapply numeral_fun; eauto|]. intros (_ & E). rewrite E in Ns.
    eapply numeral_unique; eauto.
  - split; [|intros (H & _); discriminate]. intros H. exfalso. exact (numeral_no_sign _ _ _ Ns HB _ H).
  - split; [|intros (H & _); discriminate]. intros H. exfalso. exact (numeral_no_sign _ _ _ Nt HB _ (eq_sym H)).
  - split; [intros H; injection H as -> ; split; auto; eapply numeral_fun; eauto|]. intros (_ & E). rewrite E in Ns.
    f_equal. eapply numeral_unique; eauto.
Qed.
Print Assumptions C32_same_text.

(** Any type printed with decimal digits and a base above 10 (bignum_base16, bignum_medp, bignum): the
    one-digit number 10 and the two-digit number B have the same text. *)
Theorem C32_ambiguous : forall L, ws L <> 8 -> 10 < base L ->
  exists x y, good (base L) x /\ good (base L) y /\ signed_value (base L) x <> signed_value (base L) y /\
    print L x = print L y.
Proof.
  intros L Hw HB. exists (mkBN BN_POS [10]), (mkBN BN_POS [0; 1]). split; [|split; [|split]].
  - split; [left; reflexivity|]. split; [repeat constructor; lia|left; discriminate].
  - split; [left; reflexivity|]. split; [repeat constructor; lia|left; discriminate].
  - cbn [signed_value desc data value]. lia.
  - unfold print, print_digits, print_digit. cbn [desc data]. rewrite (proj2 (Z.eqb_neq _ _) Hw). reflexivity.
Qed.
Print Assumptions C32_ambiguous.

(** bignum_lowp and bignum_base2 have 8-bit digits, which are written as raw characters: the text of a number
    with digits is the digits themselves, most significant first. *)
Theorem C32_raw : forall L x, ws L = 8 -> digits_ok 256 (data x) -> data x <> [] -> finite x ->
  codes (print L x) = match desc x with BN_NEG => [45] | _ => [] end ++ rev (data x).
Proof.
  intros L [d v] Hw D N F. cbn [data desc] in *.
  assert (codes (print_digits L v) = rev v) as E.
  { rewrite (print_digits_codes L (fun d => d)); [rewrite map_id; reflexivity|].
    intros e He. apply print_digit_raw; auto. unfold digits_ok in D. rewrite Forall_forall in D. auto. }
  unfold print. cbn [data desc]. destruct v; [congruence|]. destruct F as [H|H]; cbn in H; subst d; cbn [append codes];
    rewrite E; reflexivity.
Qed.
Print Assumptions C32_raw.

Theorem C32_special : forall L v,
  print L (mkBN BN_NAN v) = "NaN"%string /\ print L (mkBN BN_POS_INF v) = "+INF"%string /\
  print L (mkBN BN_NEG_INF v) = "-INF"%string /\
  print L (mkBN BN_POS []) = "0"%string /\ print L (mkBN BN_NEG []) = "-0"%string.
Proof. repeat split. Qed.
Print Assumptions C32_special.

Example C32_cases :
  (ws base10 <> 8 /\ 1 < base base10 <= 10) /\ (ws base8 <> 8 /\ 1 < base base8 <= 10) /\
  Forall (fun L => ws L <> 8 /\ 10 < base L) [medp; highp; base16; base256] /\ ws lowp = 8 /\ ws base2 = 8 /\
  print base10 (mkBN BN_NEG [3; 2; 1]) = "-123"%string /\ print base8 (mkBN BN_POS [7; 0; 1]) = "107"%string /\
  good 10 (mkBN BN_NEG [3; 2; 1]).
Proof.
  repeat match goal with
         | |- _ /\ _ => split
         | |- Forall _ _ => constructor
         | |- good _ _ => split; [right; reflexivity|split; [repeat constructor; cbn; lia|left; discriminate]]
         | |- _ => first [reflexivity|discriminate|cbn; lia]
         end.
Qed.
