(** * Property C87: programs over the integer wrapper *)
From Coq Require Import Arith.
From Verif Require Import Base Limits BNInt IntMachine Outcome Wp PropInt.

(** ** Specification: the same programs over the integers *)

(** [z] is what an operator makes of the integers x and y.  Quotients, remainders and right shifts ask for numbers that fit; a left
    shift asks for a count below the width (of int, if that is wider), and in the narrow types for a result that int can hold;
    so do the products of 16-bit numbers.  The other operators take all integers. *)
Definition zbin (W : Z) (o : binop) (x y z : Z) : Prop :=
  match o with
  | BAdd => z = x + y
  | BSub => z = x - y
  | BMul => z = x * y /\ (W = 16 -> (x mod 2 ^ 16) * (y mod 2 ^ 16) < 2 ^ 31)
  | BDiv => fits W x /\ fits W y /\ y <> 0 /\ z = x / y
  | BRem => fits W x /\ fits W y /\ y <> 0 /\ z = x mod y
  | BAnd => z = Z.land x y
  | BOr => z = Z.lor x y
  | BXor => z = Z.lxor x y
  | BShr => fits W x /\ fits W y /\ y < Z.max 32 W /\ z = x / 2 ^ y
  | BShl => fits W y /\ y < Z.max 32 W /\ (W < 32 -> (x mod 2 ^ W) * 2 ^ y < 2 ^ 32) /\ z = x * 2 ^ y
  end.
Definition zun (W : Z) (u : unop) (x z : Z) : Prop :=
  match u with UNot => fits W x /\ z = (if x =? 0 then 1 else 0) | UPlus => z = x | UNeg => z = - x | UCompl => z = - x - 1 end.
Definition zrel (W : Z) (c : relop) (x y : Z) (b : bool) : Prop :=
  fits W x /\ fits W y /\
  (b = true <-> match c with REq => x = y | RNe => x <> y | RGt => x > y | RGe => x >= y | RLt => x < y | RLe => x <= y end).

Definition same (a b : loc) : {a = b} + {a <> b}.
Proof. repeat decide equality. Defined.
Definition zset (m : loc -> Z) (d : loc) (z : Z) : loc -> Z := fun l => if same l d then z else m l.

Inductive zrun (W : Z) : istmt -> (loc -> Z) -> (loc -> Z) -> Prop :=
| ZSkip m : zrun W NSkip m m
| ZSet d z m : zrun W (NSet d z) m (zset m d z)
| ZCopy d a m : zrun W (NCopy d a) m (zset m d (m a))
| ZBin o d a b m z : zbin W o (m a) (m b) z -> zrun W (NBin o d a b) m (zset m d z)
| ZAssign o d a m z : zbin W o (m d) (m a) z -> zrun W (NAssign o d a) m (zset m d z)
| ZUn u d a m z : zun W u (m a) z -> zrun W (NUn u d a) m (zset m d z)
| ZIncr d m : zrun W (NIncr d) m (zset m d (m d + 1))
| ZDecr d m : zrun W (NDecr d) m (zset m d (m d - 1))
| ZPostIncr d a m : zrun W (NPostIncr d a) m (zset (zset m a (m a + 1)) d (m a))
| ZPostDecr d a m : zrun W (NPostDecr d a) m (zset (zset m a (m a - 1)) d (m a))
| ZSeq p q m m1 m' : zrun W p m m1 -> zrun W q m1 m' -> zrun W (NSeq p q) m m'
| ZIf c a b p q t m m' : zrel W c (m a) (m b) t -> zrun W (if t then p else q) m m' -> zrun W (NIf c a b p q) m m'
| ZStop c a b p m : zrel W c (m a) (m b) false -> zrun W (NLoop c a b p) m m
| ZAgain c a b p m m1 m' : zrel W c (m a) (m b) true -> zrun W p m m1 -> zrun W (NLoop c a b p) m1 m' -> zrun W (NLoop c a b p) m m'.

(** ** Proofs *)

(** equal modulo 2^W *)
Definition modulo (W : Z) (s m : loc -> Z) : Prop := forall l, s l = m l mod 2 ^ W.

Lemma same_loc_same l d : same_loc l d = if same l d then true else false.
Proof.
  destruct (same l d) as [->|N]; [destruct d; cbn; apply Nat.eqb_refl|].
  destruct l, d; cbn; try reflexivity; apply Nat.eqb_neq; congruence.
Qed.

Lemma modulo_put W s m d v z : modulo W s m -> v = z mod 2 ^ W -> modulo W (put_at s d v) (zset m d z).
Proof. intros H E l. unfold put_at, zset. rewrite same_loc_same. destruct (same l d); [exact E|apply H]. Qed.

Lemma fits_mod W z : width W -> fits W (z mod 2 ^ W).
Proof. intros HW. apply Z.mod_pos_bound. destruct (width_pow W HW). lia. Qed.

Lemma mod_bits W x i : 0 <= W -> Z.testbit (x mod 2 ^ W) i = (i <? W) && Z.testbit x i.
Proof.
  intros HW. destruct (Z.ltb_spec i W); cbn [andb].
  - destruct (Z.lt_ge_cases i 0); [rewrite !Z.testbit_neg_r by assumption; reflexivity|]. apply Z.mod_pow2_bits_low. assumption.
  - apply Z.mod_pow2_bits_high. lia.
Qed.

Lemma bitwise_gives W m f z : width W -> bitwise W m f -> (forall i, 0 <= i < W -> f i = Z.testbit z i) -> gives W m z.
Proof.
  intros HW (v & E & Fv & B) H al n. destruct (width_pow W HW) as [Pw P]. rewrite E. f_equal. apply Z.bits_inj'. intros i Hi.
  rewrite mod_bits by lia. destruct (Z.ltb_spec i W); cbn [andb].
  - rewrite B, H by lia. reflexivity.
  - apply (high_bits W); [exact Fv|lia].
Qed.

Lemma bin_modulo W o x y z : width W -> zbin W o x y z -> gives W (apply_bin W o (x mod 2 ^ W) (y mod 2 ^ W)) z.
Proof.
  intros HW H. pose proof (fits_mod W x HW) as Fx. pose proof (fits_mod W y HW) as Fy. destruct (width_pow W HW) as [Pw P].
  assert (forall m z', gives W m z' -> z' mod 2 ^ W = z mod 2 ^ W -> gives W m z) as T by (intros m z' G E al n; rewrite G, E; reflexivity).
  destruct o; cbn [zbin apply_bin] in *.
  - subst z. apply (T _ _ (proj1 (C33_sums W _ _ HW Fx Fy))). symmetry. apply Z.add_mod. lia.
  - subst z. apply (T _ _ (proj1 (proj2 (C33_sums W _ _ HW Fx Fy)))). symmetry. apply Zminus_mod.
  - destruct H as [-> H]. refine (T _ _ (proj1 (C33_product W _ _ HW Fx Fy) _) _); [|symmetry; apply Z.mul_mod; lia].
    destruct (Z.eq_dec W 16) as [->|N]; [right; apply H; reflexivity|left; exact N].
  - destruct H as (Gx & Gy & N & ->). rewrite !Z.mod_small by assumption. intros al n.
    rewrite (proj1 (proj1 (C33_quotient W x y HW Gx Gy) N)). f_equal. symmetry. apply Z.mod_small. unfold fits in *.
    split; [apply Z.div_pos; lia|apply Z.div_lt_upper_bound; nia].
  - destruct H as (Gx & Gy & N & ->). rewrite !(Z.mod_small _ (2 ^ W)) by assumption. intros al n.
    rewrite (proj2 (proj1 (C33_quotient W x y HW Gx Gy) N)). f_equal. symmetry. apply Z.mod_small. unfold fits in *.
    pose proof (Z.mod_pos_bound x y ltac:(lia)). lia.
  - subst z. eapply bitwise_gives; [exact HW|apply (C33_bitwise W _ _ HW Fx Fy)|]. intros i Hi. cbv beta.
    rewrite Z.land_spec, !mod_bits, (proj2 (Z.ltb_lt _ _)) by lia. reflexivity.
  - subst z. eapply bitwise_gives; [exact HW|apply (C33_bitwise W _ _ HW Fx Fy)|]. intros i Hi. cbv beta.
    rewrite Z.lor_spec, !mod_bits, (proj2 (Z.ltb_lt _ _)) by lia. reflexivity.
  - subst z. eapply bitwise_gives; [exact HW|apply (C33_bitwise W _ _ HW Fx Fy)|]. intros i Hi. cbv beta.
    rewrite Z.lxor_spec, !mod_bits, (proj2 (Z.ltb_lt _ _)) by lia. reflexivity.
  - destruct H as (Gx & Gy & N & ->). rewrite !Z.mod_small by assumption. intros al n.
    unfold fits in *. rewrite (proj1 (C33_shift_right W x y HW Gx ltac:(lia)) N). f_equal. symmetry. apply Z.mod_small.
    assert (0 < 2 ^ y) by (apply Z.pow_pos_nonneg; lia). split; [apply Z.div_pos; lia|apply Z.div_lt_upper_bound; nia].
  - destruct H as (Gy & N & G & ->). rewrite (Z.mod_small y) by assumption. unfold fits in Gy.
    apply (T _ _ (proj1 (C33_shift_left W _ y HW Fx ltac:(lia)) N G)). apply Z.mul_mod_idemp_l. lia.
Qed.

Lemma un_modulo W u x z : width W -> zun W u x z -> gives W (apply_un W u (x mod 2 ^ W)) z.
Proof.
  intros HW H. pose proof (fits_mod W x HW) as Fx. destruct (width_pow W HW) as [Pw P].
  destruct u; cbn [zun apply_un] in *.
  - destruct H as [G ->]. rewrite Z.mod_small by exact G. intros al n. reflexivity.
  - subst z. intros al n. unfold bni_plus. rewrite arith_gives; [rewrite Z.mod_mod by lia; reflexivity|exact HW|unfold fits in *; small W].
  - subst z. intros al n. unfold bni_neg. rewrite arith_gives; [|exact HW|unfold fits in *; small W].
    f_equal. rewrite <- (Z.sub_0_l (x mod 2 ^ W)), <- (Z.sub_0_l x), Zminus_mod_idemp_r. reflexivity.
  - subst z. eapply bitwise_gives; [exact HW|apply (C33_bitwise W _ _ HW Fx Fx)|]. intros i Hi. cbv beta.
    rewrite mod_bits, (proj2 (Z.ltb_lt _ _)) by lia. cbn [andb]. replace (- x - 1) with (Z.lnot x) by (unfold Z.lnot; lia).
    rewrite Z.lnot_spec by lia. reflexivity.
Qed.

Lemma rel_modulo W c x y t : zrel W c x y t -> apply_rel c (x mod 2 ^ W) (y mod 2 ^ W) = t.
Proof.
  intros (Gx & Gy & H). rewrite !Z.mod_small by assumption.
  assert (forall b : bool, (b = true <-> t = true) -> b = t) as T.
  { intros b E. destruct b, t; try reflexivity; [symmetry; apply E; reflexivity|apply E; reflexivity]. }
  apply T. rewrite H. destruct c; cbn [apply_rel]; unfold bni_eq, bni_ne, bni_gt, bni_ge, bni_lt, bni_le.
  - apply Z.eqb_eq.
  - destruct (Z.eqb_spec x y); cbn; split; intros; congruence.
  - rewrite Z.ltb_lt. lia.
  - rewrite Z.leb_le. lia.
  - apply Z.ltb_lt.
  - apply Z.leb_le.
Qed.

Lemma incr_modulo W x : width W -> gives W (bni_inc W (x mod 2 ^ W)) (x + 1) /\ gives W (bni_dec W (x mod 2 ^ W)) (x - 1).
Proof.
  intros HW. pose proof (fits_mod W x HW) as Fx. destruct (width_pow W HW) as [Pw P]. unfold fits in Fx.
  split; intros al n; unfold bni_inc, bni_dec; (rewrite arith_gives; [f_equal|exact HW|small W]).
  - apply Z.add_mod_idemp_l. lia.
  - apply Zminus_mod_idemp_l.
Qed.

(** ** C87 *)

(** A program that runs over the integers runs in the type, with the same results modulo 2^W, without undefined behaviour, without
    exceptions and without a request for memory. *)
Theorem C87_programs : forall W p m m', width W -> zrun W p m m' ->
  exists enough, forall fuel s, (enough <= fuel)%nat -> modulo W s m ->
  exists s', (forall al n, nrun W fuel p s al n = Ret s' n) /\ modulo W s' m'.
Proof.
  intros W p m m' HW H. induction H.
  1-10, 13: exists 1%nat; intros [|f] s Hf R; [lia|]; cbn [nrun].
  - exists s. split; [reflexivity|exact R].
  - eexists. split; [reflexivity|]. apply modulo_put; [exact R|reflexivity].
  - eexists. split; [reflexivity|]. apply modulo_put; [exact R|apply R].
  - rewrite (R a), (R b). pose proof (bin_modulo W o _ _ z HW H) as G.
    eexists. split; [intros al n; unfold bind; rewrite G; reflexivity|]. apply modulo_put; [exact R|reflexivity].
  - rewrite (R d), (R a). pose proof (bin_modulo W o _ _ z HW H) as G.
    eexists. split; [intros al n; unfold bind; rewrite G; reflexivity|]. apply modulo_put; [exact R|reflexivity].
  - rewrite (R a). pose proof (un_modulo W u _ z HW H) as G.
    eexists. split; [intros al n; unfold bind; rewrite G; reflexivity|]. apply modulo_put; [exact R|reflexivity].
  - rewrite (R d). pose proof (proj1 (incr_modulo W (m d) HW)) as G.
    eexists. split; [intros al n; unfold bind; rewrite G; reflexivity|]. apply modulo_put; [exact R|reflexivity].
  - rewrite (R d). pose proof (proj2 (incr_modulo W (m d) HW)) as G.
    eexists. split; [intros al n; unfold bind; rewrite G; reflexivity|]. apply modulo_put; [exact R|reflexivity].
  - rewrite (R a). pose proof (proj1 (incr_modulo W (m a) HW)) as G.
    eexists. split; [intros al n; unfold bni_post_inc, bind; rewrite G; reflexivity|].
    apply modulo_put; [apply modulo_put; [exact R|reflexivity]|reflexivity].
  - rewrite (R a). pose proof (proj2 (incr_modulo W (m a) HW)) as G.
    eexists. split; [intros al n; unfold bni_post_dec, bind; rewrite G; reflexivity|].
    apply modulo_put; [apply modulo_put; [exact R|reflexivity]|reflexivity].
  - rewrite (R a), (R b), (rel_modulo W c _ _ false H). exists s. split; [reflexivity|exact R].
  - destruct IHzrun1 as [e1 I1], IHzrun2 as [e2 I2]. exists (S (e1 + e2)). intros [|f] s Hf R; [lia|]. cbn [nrun].
    destruct (I1 f s ltac:(lia) R) as (s1 & E1 & R1). destruct (I2 f s1 ltac:(lia) R1) as (s2 & E2 & R2).
    exists s2. split; [intros al n; unfold bind; rewrite E1; apply E2|exact R2].
  - destruct IHzrun as [e I]. exists (S e). intros [|f] s Hf R; [lia|]. cbn [nrun].
    rewrite (R a), (R b), (rel_modulo W c _ _ t H). destruct (I f s ltac:(lia) R) as (s' & E & R').
    exists s'. split; [|exact R']. destruct t; exact E.
  - destruct IHzrun1 as [e1 I1], IHzrun2 as [e2 I2]. exists (S (e1 + e2)). intros [|f] s Hf R; [lia|]. cbn [nrun].
    rewrite (R a), (R b), (rel_modulo W c _ _ true H).
    destruct (I1 f s ltac:(lia) R) as (s1 & E1 & R1). destruct (I2 f s1 ltac:(lia) R1) as (s2 & E2 & R2).
    exists s2. split; [intros al n; unfold bind; rewrite E1; apply E2|exact R2].
Qed.
Print Assumptions C87_programs.

Lemma modulo_self W s : (forall l, fits W (s l)) -> modulo W s s.
Proof. intros H l. symmetry. apply Z.mod_small. apply H. Qed.

Lemma zrel_ne W x y : fits W x -> fits W y -> zrel W RNe x y (negb (x =? y)).
Proof. intros Fx Fy. split; [exact Fx|split; [exact Fy|]]. destruct (Z.eqb_spec x y); cbn; split; intros; congruence. Qed.

Lemma gcd_run W : width W -> forall k a b m, (Z.to_nat b < k)%nat -> fits W a -> fits W b ->
  m (Wrapped 0) = a -> m (Wrapped 1) = b -> m (Plain 0) = 0 ->
  exists m', zrun W int_gcd m m' /\ m' (Wrapped 0) = Z.gcd a b /\ fits W (Z.gcd a b).
Proof.
  intros HW. destruct (width_pow W HW) as [Pw P]. induction k as [|k IH]; intros a b m Hk Fa Fb Ha Hb H0; [lia|].
  assert (fits W 0) as F0 by (unfold fits; lia). pose proof (zrel_ne W b 0 Fb F0) as R. unfold fits in Fa, Fb.
  destruct (Z.eqb_spec b 0) as [->|N]; cbn [negb] in R.
  - exists m. rewrite Z.gcd_0_r, Z.abs_eq by lia. split; [apply ZStop; rewrite Hb, H0; exact R|split; [exact Ha|exact Fa]].
  - pose proof (Z.mod_pos_bound a b ltac:(lia)) as B.
    set (m1 := zset m (Wrapped 2) (a mod b)). set (m2 := zset m1 (Wrapped 0) b). set (m3 := zset m2 (Wrapped 1) (a mod b)).
    destruct (IH b (a mod b) m3) as (m' & Z' & E & F); try reflexivity; try (unfold fits; lia); [exact H0|].
    exists m'. rewrite <- (Z.gcd_comm b a), <- (Z.gcd_mod a b) by lia. rewrite (Z.gcd_comm (a mod b) b). split; [|split; assumption].
    eapply ZAgain; [rewrite Hb, H0; exact R| |exact Z'].
    eapply ZSeq with (m1 := m1); [apply ZBin; rewrite Ha, Hb; cbn; unfold fits; intuition lia|].
    eapply ZSeq with (m1 := m2).
    + replace m2 with (zset m1 (Wrapped 0) (m1 (Wrapped 1))); [apply ZCopy|]. unfold m2. f_equal. exact Hb.
    + apply (ZCopy W (Wrapped 1) (Wrapped 2) m2).
Qed.

(** Euclid's algorithm gives the greatest common divisor of any two numbers of any of the four types. *)
Theorem C87_gcd : forall W a b s, width W -> fits W a -> fits W b -> (forall l, fits W (s l)) ->
  s (Wrapped 0) = a -> s (Wrapped 1) = b -> s (Plain 0) = 0 ->
  exists enough, forall fuel, (enough <= fuel)%nat ->
  exists s', (forall al n, nrun W fuel int_gcd s al n = Ret s' n) /\ s' (Wrapped 0) = Z.gcd a b.
Proof.
  intros W a b s HW Fa Fb Fs Ha Hb H0.
  destruct (gcd_run W HW (S (Z.to_nat b)) a b s ltac:(lia) Fa Fb Ha Hb H0) as (m' & Z' & E & Fg).
  destruct (C87_programs W _ _ _ HW Z') as [enough H]. exists enough. intros fuel Hf.
  destruct (H fuel s Hf (modulo_self W s Fs)) as (s' & R & M). exists s'. split; [exact R|].
  rewrite M, E. apply Z.mod_small. exact Fg.
Qed.
Print Assumptions C87_gcd.

Lemma power_run W : width W -> W <> 16 -> forall k e r x m, (Z.to_nat e < k)%nat -> fits W e ->
  m (Wrapped 0) = r -> m (Wrapped 1) = x -> m (Wrapped 2) = e -> m (Plain 0) = 0 -> m (Plain 1) = 1 ->
  exists m', zrun W int_power_loop m m' /\ m' (Wrapped 0) = r * x ^ e.
Proof.
  intros HW N16. destruct (width_pow W HW) as [Pw P]. induction k as [|k IH]; intros e r x m Hk Fe Hr Hx He H0 H1; [lia|].
  assert (2 <= 2 ^ W) as P2 by (destruct HW as [->|[->|[->|]]]; [..|subst W]; cbn; lia).
  assert (fits W 0) as F0 by (unfold fits; lia). assert (fits W 1) as F1 by (unfold fits; lia).
  pose proof (zrel_ne W e 0 Fe F0) as R.
  destruct (Z.eqb_spec e 0) as [->|N]; cbn [negb] in R.
  - exists m. split; [apply ZStop; rewrite He, H0; exact R|]. rewrite Z.pow_0_r, Hr. lia.
  - unfold fits in Fe. assert (e = 2 * (e / 2) + e mod 2) as D by (apply Z.div_mod; lia).
    pose proof (Z.mod_pos_bound e 2 ltac:(lia)) as B. assert (Z.land e 1 = e mod 2) as L.
    { change 1 with (Z.ones 1). rewrite Z.land_ones by lia. reflexivity. }
    set (b := e mod 2) in *. set (r' := if b =? 0 then r else r * x).
    set (m1 := zset m (Wrapped 3) b). set (m2 := if b =? 0 then m1 else zset m1 (Wrapped 0) (r * x)).
    set (m3 := zset m2 (Wrapped 1) (x * x)). set (m4 := zset m3 (Wrapped 2) (e / 2)).
    assert (m2 (Wrapped 0) = r' /\ m2 (Wrapped 1) = x /\ m2 (Wrapped 2) = e /\ m2 (Plain 0) = 0 /\ m2 (Plain 1) = 1) as (Q0 & Q1 & Q2 & Q3 & Q4).
    { unfold m2, r'. destruct (b =? 0); repeat split; assumption. }
    destruct (IH (e / 2) r' (x * x) m4) as (m' & Z' & E); try reflexivity; try (unfold fits; lia); try assumption.
    exists m'. split.
    + eapply ZAgain; [rewrite He, H0; exact R| |exact Z'].
      eapply ZSeq with (m1 := m1); [apply ZBin; cbn; rewrite He, H1; symmetry; exact L|].
      eapply ZSeq with (m1 := m2).
      { eapply ZIf with (t := negb (b =? 0)).
        - change (m1 (Wrapped 3)) with b. change (m1 (Plain 0)) with (m (Plain 0)). rewrite H0. apply zrel_ne; [unfold fits; lia|exact F0].
        - unfold m2. destruct (b =? 0); cbn [negb]; [apply ZSkip|]. apply ZAssign. cbn. rewrite Hr, Hx. split; [reflexivity|]. intros; contradiction. }
      eapply ZSeq with (m1 := m3).
      { apply ZAssign. cbn. rewrite Q1. split; [reflexivity|]. intros; contradiction. }
      apply ZAssign. change (m3 (Wrapped 2)) with (m2 (Wrapped 2)). change (m3 (Plain 1)) with (m2 (Plain 1)). rewrite Q2, Q4. cbn [zbin].
      rewrite Z.pow_1_r. unfold fits in *. intuition lia.
    + rewrite E. assert (x ^ e = x ^ b * (x * x) ^ (e / 2)) as ->.
      { rewrite D at 1. rewrite Z.pow_add_r, Z.pow_mul_r, Z.pow_2_r by lia. ring. }
      unfold r'. destruct (Z.eqb_spec b 0) as [->|]; [rewrite Z.pow_0_r; ring|]. replace b with 1 by lia. rewrite Z.pow_1_r. ring.
Qed.

(** Square and multiply gives the power modulo 2^W of any number to any exponent, in all types but the 16-bit one. *)
Theorem C87_power : forall W x e s, width W -> W <> 16 -> fits W x -> fits W e -> (forall l, fits W (s l)) ->
  s (Wrapped 1) = x -> s (Wrapped 2) = e ->
  exists enough, forall fuel, (enough <= fuel)%nat ->
  exists s', (forall al n, nrun W fuel int_power s al n = Ret s' n) /\ s' (Wrapped 0) = x ^ e mod 2 ^ W.
Proof.
  intros W x e s HW N Fx Fe Fs Hx He.
  set (m := zset (zset (zset s (Plain 0) 0) (Plain 1) 1) (Wrapped 0) 1).
  destruct (power_run W HW N (S (Z.to_nat e)) e 1 x m ltac:(lia) Fe eq_refl Hx He eq_refl eq_refl) as (m' & Z' & E).
  assert (zrun W int_power s m') as Z.
  { eapply ZSeq; [apply ZSet|]. eapply ZSeq; [apply ZSet|]. eapply ZSeq; [apply ZSet|exact Z']. }
  destruct (C87_programs W _ _ _ HW Z) as [enough H]. exists enough. intros fuel Hf.
  destruct (H fuel s Hf (modulo_self W s Fs)) as (s' & R & M). exists s'. split; [exact R|].
  rewrite M, E, Z.mul_1_l. reflexivity.
Qed.
Print Assumptions C87_power.

(** In the 16-bit type the same program multiplies two ints and overflows, though the power itself is the number it starts from. *)
Theorem C87_power_refuted : exists x e s,
  fits 16 x /\ fits 16 e /\ (forall l, fits 16 (s l)) /\ s (Wrapped 1) = x /\ s (Wrapped 2) = e /\ x ^ e < 2 ^ 16 /\
  forall fuel al n, (8 <= fuel)%nat -> nrun 16 fuel int_power s al n = Undef UB_signed_overflow.
Proof.
  exists 65535, 1, (fun l => match l with Wrapped 1 => 65535 | Wrapped 2 => 1 | _ => 0 end).
  split; [unfold fits; lia|]. split; [unfold fits; lia|]. split.
  { intros [r|r]; [destruct r as [|[|[|]]]|]; unfold fits; lia. }
  do 3 (split; [reflexivity|]). intros fuel al n H. do 8 (destruct fuel as [|fuel]; [lia|]). reflexivity.
Qed.
Print Assumptions C87_power_refuted.

(** The conditions are needed: on operands that fit, an operator does what the integers say or has undefined behaviour. *)
Theorem C87_operators : forall W o x y, width W -> fits W x -> fits W y ->
  (exists z, zbin W o x y z) \/ exists u, is_undefined (apply_bin W o x y) u.
Proof.
  intros W o x y HW Fx Fy. pose proof (proj1 (width_pow W HW)) as Pw. assert (0 <= y) as Y by apply Fy.
  destruct o; cbn [zbin apply_bin]; try (left; eexists; reflexivity).
  - destruct (Z.eq_dec W 16) as [->|N].
    + unfold fits in *. rewrite !Z.mod_small by assumption. destruct (Z.lt_ge_cases (x * y) (2 ^ 31)).
      * left. eexists. split; [reflexivity|]. intros _. assumption.
      * right. eexists. apply (proj2 (C33_product 16 x y HW Fx Fy)); [reflexivity|lia].
    + left. eexists. split; [reflexivity|]. intros; contradiction.
  - destruct (Z.eq_dec y 0) as [E|N]; [right; eexists; apply (C33_quotient W x y HW Fx Fy); exact E|left; eexists; repeat split; try assumption; apply Fx || apply Fy].
  - destruct (Z.eq_dec y 0) as [E|N]; [right; eexists; apply (C33_quotient W x y HW Fx Fy); exact E|left; eexists; repeat split; try assumption; apply Fx || apply Fy].
  - destruct (Z.lt_ge_cases y (Z.max 32 W)).
    + left. eexists. repeat split; try assumption; apply Fx || apply Fy.
    + right. eexists. apply (C33_shift_right W x y HW Fx Y). assumption.
  - rewrite (Z.mod_small x) by exact Fx.
    destruct (Z.lt_ge_cases y (Z.max 32 W)); [|right; eexists; apply (C33_shift_left W x y HW Fx Y); left; assumption].
    destruct (Z.lt_ge_cases W 32); [|left; eexists; repeat split; try assumption; try lia; apply Fy].
    destruct (Z.lt_ge_cases (x * 2 ^ y) (2 ^ 32)).
    + left. eexists. repeat split; try assumption; try lia; apply Fy.
    + right. eexists. apply (C33_shift_left W x y HW Fx Y). right. split; assumption.
Qed.
Print Assumptions C87_operators.

(** d = a++ with d and a the same variable leaves the old value in it. *)
Theorem C87_self_post : forall W a x s, width W -> fits W x -> s a = x ->
  exists s' t', (forall fuel al n, nrun W (S fuel) (NPostIncr a a) s al n = Ret s' n) /\
                (forall fuel al n, nrun W (S fuel) (NPostDecr a a) s al n = Ret t' n) /\ s' a = x /\ t' a = x.
Proof.
  intros W a x s HW Fx H. pose proof (incr_modulo W x HW) as [I D]. rewrite Z.mod_small in I, D by exact Fx.
  eexists. eexists. split; [|split].
  - intros fuel al n. cbn [nrun]. unfold bni_post_inc, bind. rewrite H, I. reflexivity.
  - intros fuel al n. cbn [nrun]. unfold bni_post_dec, bind. rewrite H, D. reflexivity.
  - cbn [fst snd]. unfold put_at. destruct a; cbn; rewrite Nat.eqb_refl; split; reflexivity.
Qed.
Print Assumptions C87_self_post.

(** ** The hypotheses can be met *)

(** 200 + 100 in eight bits: over the integers 300, in the type 44. *)
Example C87_case_sum : exists m m', zrun 8 (NBin BAdd (Wrapped 0) (Wrapped 1) (Plain 2)) m m' /\ m' (Wrapped 0) = 300.
Proof.
  exists (fun l => match l with Wrapped 1 => 200 | Plain 2 => 100 | _ => 0 end). eexists. split; [apply ZBin; reflexivity|reflexivity].
Qed.

(** Bitwise operators take negative integers: 0 - 1 and then & 6. *)
Example C87_case_negative : exists m m',
  zrun 8 (NSeq (NDecr (Wrapped 0)) (NAssign BAnd (Wrapped 0) (Plain 0))) m m' /\ m' (Wrapped 0) = 6.
Proof.
  exists (fun l => match l with Plain 0 => 6 | _ => 0 end). eexists. split; [eapply ZSeq; [apply ZDecr|apply ZAssign; reflexivity]|reflexivity].
Qed.

Example C87_case_gcd : match nrun 8 20 int_gcd (fun l => match l with Wrapped 0 => 252 | Wrapped 1 => 105 | _ => 0 end) (fun _ => true) 0%nat with
  Ret s _ => s (Wrapped 0) = 21 | _ => False end.
Proof. reflexivity. Qed.

Example C87_case_power : match nrun 32 40 int_power (fun l => match l with Wrapped 1 => 7 | Wrapped 2 => 13 | _ => 0 end) (fun _ => true) 0%nat with
  Ret s _ => s (Wrapped 0) = 7 ^ 13 mod 2 ^ 32 /\ 2 ^ 32 < 7 ^ 13 | _ => False end.
Proof. vm_compute. split; reflexivity. Qed.
