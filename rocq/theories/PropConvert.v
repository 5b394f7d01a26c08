(** * C64: conversion between bases with the operators of the library *)
From Coq Require Import ZArith Lia List Arith String Ascii.
From Verif Require Import Base Spec Limits Compare AddSub Division Bignum Fourier Multiplication Print Machine While Convert Outcome Wp ValueProof
  AddSubProof BignumProof OperatorProof DivisionProof DivOpProof Conv PropAddSub PropCompare PropObject PropDivision HistoryProof PropHistory
  Ieee IeeeProof MulOpProof PropMul PropProgram EuclidProof PropLaws PropPrint.
Import ListNotations.
Open Scope Z_scope.

(** ** Specification *)

(** A non-negative number; zero may be the lone digit 0. *)
Definition natural (B : Z) (x : bignum) (v : Z) : Prop := desc x = BN_POS /\ good B x /\ value B (data x) = v.

(** What the loop gives for v in base w: the digits [ds] of v, except that a leading 1 followed by 0 is one digit w. *)
Definition library_digits (w v : Z) (l : list Z) : Prop :=
  exists ds, digits_ok w ds /\ canonical ds /\ value w ds = v /\
    (forall u, ds = u ++ [0; 1] -> l = u ++ [w]) /\ ((forall u, ds <> u ++ [0; 1]) -> l = ds).

(** ** Proofs *)

Lemma assigns_may m Q (R : bignum -> Prop) bad : assigns m Q bad -> may m (fun a => snd a = None -> R (fst a)) -> assigns m (fun z => Q z /\ R z) bad.
Proof.
  intros H K al n. specialize (H al n). specialize (K al n). destruct (m al n) as [[z [e|]] n'|e n'|u|]; auto.
  cbn in K. destruct H. auto.
Qed.

Lemma natural_signed B x v : natural B x v -> signed_value B x = v.
Proof. intros (D & _ & V). unfold signed_value. rewrite D. exact V. Qed.
Lemma natural_nonneg B x v : 2 <= B -> natural B x v -> 0 <= v.
Proof. intros HB (_ & (_ & D & _) & V). subst v. apply (value_bounds B HB), D. Qed.
Lemma natural_is_nat B x v : natural B x v -> v <> 0 -> is_nat B x v.
Proof. intros (D & (_ & O & C) & V) H. rewrite <- V in H. destruct (canonical_of_weak B _ C H). repeat split; auto. Qed.
Lemma is_nat_natural B x v : is_nat B x v -> natural B x v.
Proof. intros H. destruct (is_nat_good B x v H) as (G & _ & _). destruct H as (D & _ & _ & V). repeat split; auto; apply G. Qed.
Lemma natural_nonempty B x v : natural B x v -> v <> 0 -> data x <> [].
Proof. intros (_ & _ & V) H E. rewrite E in V. cbn in V. lia. Qed.

Section Ops.
Context (ct : evaluation) (cosf sinf : _) (L : limits) (N m : Z) (HA : accurate cosf sinf) (Hin : In (L, N, m) safe_lengths) (HD : can_double L = true).
Notation B := (base L).
Context (fuel : nat) (keep : bool) (HfN : Z.log2_up N < Z.of_nat fuel).
Notation E := (mkEnv L false (ieee ct cosf sinf) fuel keep).

Let HL : limits_ok L = true := eL_ok L HD.
Let HB : 2 <= B := eHB L HD.

Lemma n_mul x y v w : natural B x v -> is_nat B y w -> 0 < w -> mul_fits B N m v w ->
  returns (binary (compound E OMul) x y) (fun z => is_nat B z (v * w)).
Proof.
  intros Hx Hy Hw (p & q & Hp & Hq & Hp1 & Hq1 & Hpq & Hmin).
  destruct (safe_lengths_numbers L N m Hin) as (_ & HN & Hprec & HM & Hm0 & Hc & _).
  destruct (is_nat_good B y w Hy) as (Gy & Sy & Fy). pose proof (natural_signed B x v Hx) as Sx. destruct Hx as (Dx & Gx & Vx).
  rewrite <- Sx in Hp. rewrite <- Sy in Hq.
  pose proof (length_fits B x p HB Gx Hp1 Hp) as Lx. pose proof (length_fits B y q HB Gy Hq1 Hq) as Ly.
  assert (0 < length (data x) + length (data y))%nat as P0.
  { pose proof (is_nat_nonempty B y w Hy ltac:(lia)). destruct (data y); [congruence|cbn; lia]. }
  assert (Z.of_nat (length (data x) + length (data y)) <= N) as Hlen by lia.
  eapply returns_mono.
  - eapply (binary_returns _ _ _ _ (infinity_for (desc y))). cbn [compound eL eP eFuel].
    apply (C17_product ct cosf sinf L fuel x y HA HL (proj1 Gx) Fy (proj1 (proj2 Gx)) (proj1 (proj2 Gy)) P0); [lia| | |].
    + pose proof (Z.log2_up_le_mono _ _ Hlen). lia.
    + apply (length_precision L _ _ N); auto; [unfold base; lia|apply Gx|apply Gy].
    + apply C16_columns_fit; auto; [apply Gx|apply Gy|]. eapply Z.le_trans; [|exact Hc].
      apply Z.mul_le_mono_nonneg_r; [unfold base; nia|]. lia.
  - intros z (Gz & Cz & Vz & Dz).
    assert (desc z = BN_POS) as Ed by (apply Dz; rewrite Dx; destruct Hy as [-> _]; reflexivity).
    split; [exact Ed|]. split; [apply Gz|]. split; [exact Cz|].
    unfold signed_value at 1 in Vz. rewrite Ed in Vz. congruence.
Qed.

Lemma n_add x y v w : natural B x v -> natural B y w -> returns (binary (compound E OAdd) x y) (fun z => natural B z (v + w)).
Proof.
  intros Hx Hy. pose proof (natural_signed B x v Hx) as Sx. pose proof (natural_signed B y w Hy) as Sy.
  destruct Hx as (Dx & Gx & Vx), Hy as (Dy & Gy & Vy). eapply returns_mono.
  - eapply (binary_returns _ _ _ _ (infinity_for (desc y))). cbn [compound eL eDbg].
    eapply assigns_may with (R := fun z => desc z = BN_POS); [apply (C01_add_assign L x y HL Gx Gy (or_introl (eq_trans Dx (eq_sym Dy))))|].
    apply add_desc; auto.
  - cbv beta. intros z ((Gz & Vz) & Dz). repeat split; auto; try apply Gz. unfold signed_value at 1 in Vz. rewrite Dz in Vz. lia.
Qed.

Lemma n_sub x y v w : natural B x v -> is_nat B y w -> w <= v -> 0 < v ->
  returns (binary (compound E OSub) x y) (fun z => is_nat B z (v - w)).
Proof.
  intros Hx Hy Hw Hv. pose proof (natural_nonempty B x v Hx ltac:(lia)) as Nx. pose proof (natural_signed B x v Hx) as Sx.
  destruct (is_nat_good B y w Hy) as (Gy & Sy & Fy). destruct Hx as (Dx & Gx & Vx), Hy as (Dy & Oy & Cy & Vy).
  assert (pure (abs_val_is_ge (data x) (data y)) true) as Hge.
  { replace true with (CompareProof.geb B (data x) (data y)); [apply (CompareProof.abs_val_is_ge_pure _ HB); [apply Gx|apply Gy]|].
    apply nat_ge; auto; try apply Gx; try apply Gy; lia. }
  eapply returns_mono.
  - eapply (binary_returns _ _ _ _ (infinity_for (desc y))). cbn [compound eL eDbg].
    eapply assigns_may with (R := fun z => desc z = BN_POS); [apply (C03_sub_assign L x y HL Gx Gy (eq_trans Dx (eq_sym Dy)) (or_introl Nx))|].
    apply (sub_desc L x (Other y)); auto.
  - cbv beta. intros z ((Gz & Cz & Vz) & Dz). repeat split; auto; try apply Gz. unfold signed_value at 1 in Vz. rewrite Dz in Vz. lia.
Qed.

(** a smaller dividend: the lone digit 0 *)
Lemma n_div_small x y v w : natural B x v -> is_nat B y w -> 0 < v < w -> 1 < w ->
  returns (binary (compound E ODiv) x y) (fun z => z = mkBN BN_POS [0]).
Proof.
  intros Hx Hy Hv Hw. pose proof (natural_is_nat B x v Hx ltac:(lia)) as (_ & Ox & Cx & _).
  destruct Hx as (Dx & Gx & Vx), Hy as (Dy & Oy & Cy & Vy).
  eapply (binary_returns _ _ _ _ (infinity_for (desc y))). cbn [compound eL eDbg eFuel].
  assert (0 < Z.of_nat fuel) as Hf by (pose proof (Z.log2_up_nonneg N); lia).
  rewrite (div_assign_main L HL).
  2: { split; intros Ee; rewrite Ee in Vx; cbn [value] in Vx; lia. }
  2: { split; intros Ee; rewrite Ee in Vy; cbn [value] in Vy; lia. }
  2: { left; exact Dx. }
  rewrite Dx, Dy. cbn [product_desc desc_eqb].
  assert (pure (abs_val_is_ge (data x) (data y)) false) as Hge.
  { replace false with (CompareProof.geb B (data x) (data y)); [apply (CompareProof.abs_val_is_ge_pure _ HB); auto|].
    rewrite (CompareProof.geb_canonical B HB) by auto. apply Z.leb_gt. lia. }
  apply guarded_yields. eapply yields_bind with (Q := fun _ => True).
  - eapply yields_pure; [apply CompareProof.abs_val_is_gt_pure|exact I].
  - intros c _. destruct c; (eapply yields_bind with (Q := fun u => u = [0]); [|intros ? ->; apply yields_ret; reflexivity]);
      [|apply yields_vcopy; reflexivity].
    unfold abs_val_div. eapply yields_bind with (Q := fun u => u = [0]); [apply yields_vcopy; reflexivity|]. intros ? ->.
    destruct fuel as [|f]; [lia|]. cbn [div_outer]. eapply yields_bind with (Q := fun c => c = false); [eapply yields_pure; [exact Hge|reflexivity]|].
    intros ? ->. apply yields_ret. reflexivity.
Qed.

Lemma n_div x y v w : natural B x v -> is_nat B y w -> 1 < w -> 0 < v -> Z.log2 v + 2 <= Z.of_nat fuel ->
  returns (binary (compound E ODiv) x y)
    (fun z => natural B z (if v =? w then 0 else v / w) /\ data z <> []).
Proof.
  intros Hx Hy Hw Hv Hf. destruct (is_nat_good B y w Hy) as (Gy & Sy & Fy).
  pose proof (natural_is_nat B x v Hx ltac:(lia)) as (_ & Ox & Cx & _).
  assert (natural B (mkBN BN_POS [0]) 0) as N0.
  { split; [reflexivity|]. split; [|cbn [data value]; lia]. split; [left; reflexivity|]. split; [repeat constructor; lia|right; reflexivity]. }
  destruct (Z.eqb_spec v w) as [Evw|Nvw].
  - pose proof (is_nat_unique B x y w HB (natural_is_nat B x w ltac:(rewrite <- Evw; exact Hx) ltac:(lia)) Hy) as <-.
    assert (data x <> []) as Nx by (apply (natural_nonempty B x v Hx); lia).
    assert (data x <> [1]) as N1 by (intros Ee; destruct Hx as (_ & _ & V); rewrite Ee in V; cbn [value] in V; lia).
    eapply returns_mono.
    + eapply (binary_returns _ _ _ _ (infinity_for (desc x))). cbn [compound eL eDbg eFuel].
      apply (C24_equal_magnitudes L fuel x x HD Fy Fy eq_refl Cx Nx N1).
    + cbv beta. intros [d l] (Dz & Ez & _). cbn [data] in *. cbn [desc] in Ez. rewrite Dz, (Ez eq_refl). split; [exact N0|discriminate].
  - destruct (Z.lt_ge_cases v w) as [Hlt|Hge].
    + rewrite Z.div_small by lia. eapply returns_mono; [apply (n_div_small x y v w Hx Hy); lia|].
      intros z ->. split; [exact N0|discriminate].
    + assert (0 < v / w) as Hq by (apply Z.div_str_pos; lia).
      pose proof (natural_signed B x v Hx) as Sx. destruct Hx as (Dx & Gx & Vx). destruct Hy as (Dy & Oy & Cy & Vy).
      eapply returns_mono.
      * eapply (binary_returns _ _ _ _ (infinity_for (desc y))). cbn [compound eL eDbg eFuel].
        apply (C24_division L fuel x y HD Gx Gy Cy); [|rewrite Vx; exact Hf|rewrite Vx, Vy; left; exact Nvw].
        intros Ee. rewrite Ee in Vy. cbn in Vy. lia.
      * cbv beta. intros z (Gz & Vz). rewrite Sx, Sy, Z.quot_div_nonneg in Vz by lia.
        assert (desc z = BN_POS) as Dz by (apply (desc_of_value B); auto; lia).
        assert (natural B z (v / w)) as Nz. { repeat split; auto; try apply Gz. unfold signed_value in Vz. rewrite Dz in Vz. exact Vz. }
        split; [exact Nz|]. apply (natural_nonempty B z _ Nz). lia.
Qed.

(** a round of the loop *)
Lemma round x b v w p q out (R : list bignum -> Prop) (k : bignum -> list bignum -> M (list bignum)) : natural B x v -> is_nat B b w -> 1 < w -> 0 < v ->
  v < B ^ p -> w < B ^ q -> 1 <= p -> 1 <= q -> p + q <= N -> Z.min p q <= m -> Z.log2 v + 2 <= Z.of_nat fuel ->
  (forall z r, natural B z (if v =? w then 0 else v / w) -> data z <> [] -> is_nat B r (if v =? w then w else v mod w) -> returns (k z (out ++ [r])) R) ->
  returns (z <- binary (compound E ODiv) x b ;; p <- binary (compound E OMul) z b ;; r <- binary (compound E OSub) x p ;;
           out <- vpush out r ;; k z out) R.
Proof.
  intros Hx Hb Hw Hv Hp Hq Hp1 Hq1 Hpq Hm Hf K. set (t := if v =? w then 0 else v / w) in *.
  assert (0 <= t /\ t * w <= v /\ v - t * w = (if v =? w then w else v mod w)) as (T0 & T1 & T2).
  { unfold t. destruct (Z.eqb_spec v w); [lia|]. pose proof (Z.div_pos v w ltac:(lia) ltac:(lia)). pose proof (Z.mul_div_le v w ltac:(lia)).
    rewrite Z.mod_eq by lia. lia. }
  eapply returns_bind; [apply (n_div x b v w Hx Hb Hw Hv Hf)|]. fold t. intros z [Hz Nz].
  eapply returns_bind; [apply (n_mul z b t w Hz Hb ltac:(lia))|].
  { exists p, q. rewrite !Z.abs_eq by lia. repeat split; auto. nia. }
  intros y Hy. eapply returns_bind; [apply (n_sub x y v (t * w) Hx Hy T1 Hv)|]. rewrite T2. intros r Hr.
  eapply returns_bind with (Q := fun o => o = out ++ [r]); [apply yields_returns, yields_vpush; reflexivity|].
  intros ? ->. apply K; auto.
Qed.

Definition values (l : list bignum) : list Z := map (fun r => value B (data r)) l.

Lemma library_digits_step v w l : 1 < w -> w < v -> library_digits w (v / w) l -> library_digits w v (v mod w :: l).
Proof.
  intros Hw Hv (ds & Dd & Cd & Vd & H1 & H2). pose proof (Z.mod_pos_bound v w ltac:(lia)) as Hr.
  assert (0 < v / w) as Hq by (apply Z.div_str_pos; lia).
  exists (v mod w :: ds). split; [constructor; auto|]. split; [|split; [|split]].
  - destruct ds as [|a r]; [cbn in Vd; lia|]. exact Cd.
  - cbn [value]. rewrite Vd. rewrite (Z.div_mod v w) at 3 by lia. lia.
  - intros [|a u] Eu; cbn [app] in Eu.
    + injection Eu as E1 E2. subst ds. cbn [value] in Vd. pose proof (Z.div_mod v w ltac:(lia)). nia.
    + injection Eu as E1 E2. rewrite (H1 u E2), E1. reflexivity.
  - intros Hn. rewrite H2; [reflexivity|]. intros u Eu. apply (Hn (v mod w :: u)). rewrite Eu. reflexivity.
Qed.

Lemma to_digits_spec b one w p q : is_nat B b w -> is_nat B one 1 -> 1 < w -> w < B ^ q -> 1 <= p -> 1 <= q -> p + q <= N -> Z.min p q <= m ->
  forall f x v out, natural B x v -> v < B ^ p -> Z.log2 v + 2 <= Z.of_nat fuel ->
  (if v =? 0 then 1 else Z.log2 v + 2) <= Z.of_nat f ->
  returns (to_digits E CGe one b x out f)
    (fun l => exists new, l = out ++ new /\ Forall (fun r => desc r = BN_POS /\ good B r /\ canonical (data r)) new /\ library_digits w v (values new)).
Proof.
  intros Hb H1 Hw Hq Hp1 Hq1 Hpq Hm. induction f as [|f IH]; intros x v out Hx Hp Hf Hl.
  - exfalso. pose proof (Z.log2_nonneg v). destruct (v =? 0); cbn in Hl; lia.
  - pose proof (natural_nonneg B x v HB Hx) as Hv0. cbn [to_digits compare].
    eapply returns_bind with (Q := fun t => t = (1 <=? v)).
    { eapply returns_pure; [|reflexivity]. pose proof (compare_trusted B CGe x one HB (proj1 (proj2 Hx))
        (proj1 (is_nat_good B one 1 H1))) as K.
      rewrite (natural_signed B x v Hx), (proj1 (proj2 (is_nat_good B one 1 H1))) in K.
      exact (K ltac:(cbv [trusted]; lia)). }
    intros t ->. destruct (Z.leb_spec 1 v) as [Hv|Hv].
    + apply (round x b v w p q out); auto; try lia. intros z r Hz Nz Hr.
      set (t := if v =? w then 0 else v / w) in *.
      assert (0 <= t /\ 2 * t <= v) as [T0 T1].
      { unfold t. destruct (Z.eqb_spec v w); [lia|]. pose proof (Z.div_pos v w ltac:(lia) ltac:(lia)). pose proof (Z.mul_div_le v w ltac:(lia)). nia. }
      assert (t <> 0 -> Z.log2 t + 1 <= Z.log2 v) as T2.
      { intros Ht. pose proof (Z.log2_double t ltac:(lia)). pose proof (Z.log2_le_mono (2 * t) v ltac:(lia)). lia. }
      destruct (Z.eqb_spec v 0) as [|_]; [lia|].
      eapply returns_mono; [apply (IH z t (out ++ [r]) Hz)|].
      * lia.
      * pose proof (Z.log2_nonneg v). destruct (Z.eq_dec t 0) as [E0|E0]; [rewrite E0; cbn; lia|specialize (T2 E0); lia].
      * destruct (Z.eqb_spec t 0) as [E0|E0]; [pose proof (Z.log2_nonneg v); lia|specialize (T2 E0); lia].
      * cbv beta. intros l (new & -> & Fn & Ln). exists (r :: new). rewrite <- app_assoc. split; [reflexivity|].
        destruct (is_nat_good B r _ Hr) as (Gr & _ & _). destruct Hr as (Dr & _ & Cr & Vr).
        split; [constructor; auto|]. cbn [values map]. rewrite Vr. fold (values new).
        unfold t in Ln. destruct (Z.eqb_spec v w) as [->|Nvw].
        -- destruct Ln as (ds & Dd & Cd & Vd & _ & L2). assert (values new = []) as ->.
           { assert (ds = []) as Ed. { destruct ds as [|a r']; [reflexivity|]. pose proof (value_canonical_pos w ltac:(lia) _ Dd Cd ltac:(discriminate)). lia. }
             rewrite L2, Ed; auto. intros u. rewrite Ed. destruct u; discriminate. }
           exists [0; 1]. split; [repeat constructor; lia|]. split; [unfold canonical; cbn; lia|]. split; [cbn [value]; lia|]. split.
           ++ intros u Eu. destruct u as [|? [|? [|? ?]]]; try discriminate. reflexivity.
           ++ intros Hn. exfalso. exact (Hn [] eq_refl).
        -- destruct (Z.lt_ge_cases v w) as [Hlt|Hge].
           ++ rewrite Z.div_small in Ln by lia. rewrite Z.mod_small by lia.
              assert (values new = []) as ->.
              { destruct Ln as (ds & Dd & Cd & Vd & _ & L2).
                assert (ds = []) as Ed. { destruct ds as [|a r']; [reflexivity|]. pose proof (value_canonical_pos w ltac:(lia) _ Dd Cd ltac:(discriminate)). lia. }
                rewrite L2, Ed; auto. intros u. rewrite Ed. destruct u; discriminate. }
              exists [v]. split; [repeat constructor; lia|]. split; [unfold canonical; cbn; lia|]. split; [cbn [value]; lia|]. split; [|reflexivity].
              intros u Eu. destruct u as [|? [|? ?]]; discriminate.
           ++ apply library_digits_step; auto; lia.
    + assert (v = 0) as -> by lia. apply returns_ret. exists []. rewrite app_nil_r. split; [reflexivity|]. split; [constructor|].
      exists []. split; [constructor|]. split; [unfold canonical; cbn; lia|]. split; [reflexivity|]. split; [|reflexivity].
      intros u Eu. destruct u; discriminate.
Qed.

(** Horner's rule *)
Lemma from_digits_spec b w p q : is_nat B b w -> 0 < w -> w < B ^ q -> 1 <= p -> 1 <= q -> p + q <= N -> Z.min p q <= m ->
  forall l, Forall (fun r => desc r = BN_POS /\ good B r) l -> value w (values l) < B ^ p ->
  returns (from_digits E b l) (fun z => natural B z (value w (values l))).
Proof.
  intros Hb Hw Hq Hp1 Hq1 Hpq Hm. induction l as [|x l IH]; intros Fl Hv; cbn [from_digits values map value] in *.
  - apply returns_ret, is_nat_natural, is_nat_zero.
  - inversion_clear Fl as [|? ? [Dx Gx] Fl']. fold (values l) in *.
    assert (0 <= value B (data x)) as X0 by (apply (value_bounds B HB), Gx).
    assert (0 <= value w (values l)) as L0.
    { clear - HB Fl' Hw. induction Fl' as [|r l [_ (_ & D & _)] _ IH]; cbn [values map value]; [lia|]. fold (values l).
      pose proof (value_bounds B HB _ D). nia. }
    eapply returns_bind; [apply IH; auto; nia|]. intros acc Ha.
    eapply returns_bind; [apply (n_mul acc b _ w Ha Hb Hw)|].
    { exists p, q. rewrite !Z.abs_eq by lia. repeat split; auto. nia. }
    intros t Ht. eapply returns_mono; [apply (n_add t x _ _ (is_nat_natural B t _ Ht) (conj Dx (conj Gx eq_refl)))|].
    intros z Hz. replace (value B (data x) + w * value w (values l)) with (value w (values l) * w + value B (data x)) by ring. exact Hz.
Qed.

(** the loop on a condition that a lone digit 0 meets *)
Lemma to_digits_endless c k b w p q : (forall x, desc x = BN_POS -> data x <> [] -> answers (compare c x k) true) ->
  is_nat B b w -> 1 < w -> w < B ^ q -> 1 <= p -> 1 <= q -> p + q <= N -> Z.min p q <= m ->
  forall f x v out, natural B x v -> data x <> [] -> v < B ^ p -> Z.log2 v + 2 <= Z.of_nat fuel ->
  forall al n, match to_digits E c k b x out f al n with NoFuel => True | Throw _ n' => refused al n n' | _ => False end.
Proof.
  intros Hc Hb Hw Hq Hp1 Hq1 Hpq Hm. induction f as [|f IH]; intros x v out Hx Nx Hp Hf al n; [exact I|].
  pose proof (natural_nonneg B x v HB Hx) as Hv0. cbn [to_digits].
  assert (forall {A} (a : M A) (k : A -> M (list bignum)) Q al n, returns a Q ->
    (forall y al n, Q y -> match k y al n with NoFuel => True | Throw _ n' => refused al n n' | _ => False end) ->
    match bind a k al n with NoFuel => True | Throw _ n' => refused al n n' | _ => False end) as Step.
  { clear. intros A a k Q al n Ha Hk. unfold bind. specialize (Ha al n). destruct (a al n) as [y n1|e n1|u|]; try contradiction.
    - destruct Ha as [Hy Hn]. specialize (Hk y al n1 Hy). destruct (k y al n1) as [| ? n2| |]; auto.
      destruct Hk as (j & Hj & Hal). exists j. split; auto. lia.
    - apply Ha. }
  eapply Step with (Q := fun t => t = true); [eapply returns_pure; [exact (Hc x (proj1 Hx) Nx)|reflexivity]|].
  intros ? al1 n1 ->.
  destruct (Z.eq_dec v 0) as [Ev|Ev].
  - (* zero *)
    assert (data x = [0]) as Ex.
    { destruct Hx as (_ & (_ & D & [C|C]) & V); [|exact C]. pose proof (value_canonical_pos B HB _ D C Nx). lia. }
    assert (x = mkBN BN_POS [0]) as -> by (destruct x as [dd ll]; cbn [desc data] in *; destruct Hx as (Dx & _); cbn [desc] in Dx; congruence).
    assert (returns (binary (compound E ODiv) (mkBN BN_POS [0]) b) (fun z => z = mkBN BN_POS [0])) as R1.
    { eapply (binary_returns _ _ _ _ (infinity_for (desc b))). cbn [compound eL eDbg eFuel]. destruct Hb as (Db & Ob & Cb & Vb).
      unfold op_div_assign. cbn [desc data adesc adata isComputable negb]. rewrite Db. cbn [product_desc desc_eqb]. cbv zeta. rewrite !(bmin_wrap L HL).
      replace (match data b with [a] => a =? 0 | _ => false end) with false.
      2: { destruct (data b) as [|a [|b' r]]; auto. symmetry; apply Z.eqb_neq. cbn [value] in Vb. lia. }
      replace (match data b with [a] => a =? wrap (ws L) 1 | _ => false end) with false.
      2: { destruct (data b) as [|a [|b' r]]; auto. symmetry; apply Z.eqb_neq. cbn [value] in Vb. rewrite (one_wrap L HL). lia. }
      cbn [Z.eqb]. intros a0 n0. cbn. auto. }
    eapply Step; [exact R1|]. intros ? al2 n2 ->.
    eapply Step; [apply (n_mul (mkBN BN_POS [0]) b v w Hx Hb ltac:(lia))|].
    { exists p, q. rewrite !Z.abs_eq by lia. repeat split; auto. }
    intros y al3 n3 Hy. rewrite Ev, Z.mul_0_l in Hy.
    assert (y = bn_default) as -> by (apply (is_nat_unique B _ _ 0 HB Hy), is_nat_zero).
    eapply Step with (Q := fun _ => True).
    { eapply returns_mono; [|intros; exact I]. eapply (binary_returns _ _ _ _ (infinity_for BN_POS)). cbn [compound eL eDbg].
      apply (C03_sub_assign L (mkBN BN_POS [0]) bn_default HL (proj1 (proj2 Hx)) (proj1 (is_nat_good B _ 0 (is_nat_zero B))) eq_refl (or_introl Nx)). }
    intros r al4 n4 _. eapply Step with (Q := fun _ => True); [apply yields_returns, yields_vpush; exact I|].
    intros o al5 n5 _. apply (IH (mkBN BN_POS [0]) v o Hx Nx Hp Hf).
  - assert (0 < v) as Hv by lia. set (t := if v =? w then 0 else v / w) in *.
    assert (0 <= t /\ t * w <= v) as (T0 & T1).
    { unfold t. destruct (Z.eqb_spec v w); [lia|]. pose proof (Z.div_pos v w ltac:(lia) ltac:(lia)). pose proof (Z.mul_div_le v w ltac:(lia)). lia. }
    eapply Step; [apply (n_div x b v w Hx Hb Hw Hv Hf)|]. fold t. intros z al2 n2 [Hz Nz].
    eapply Step; [apply (n_mul z b t w Hz Hb ltac:(lia))|].
    { exists p, q. rewrite !Z.abs_eq by lia. repeat split; auto. nia. }
    intros y al3 n3 Hy. eapply Step; [apply (n_sub x y v (t * w) Hx Hy T1 Hv)|]. intros r al4 n4 Hr.
    eapply Step with (Q := fun _ => True); [apply yields_returns, yields_vpush; exact I|].
    intros o al5 n5 _. apply (IH z t o Hz Nz); [nia|].
    destruct (Z.eq_dec t 0) as [->|]; [pose proof (Z.log2_nonneg v); cbn; lia|]. pose proof (Z.log2_le_mono t v ltac:(nia)). lia.
Qed.
End Ops.

(** ** C64 *)

(** The loop [while (x >= one)] gives the digits of x in base b, lowest first, except that a leading 1 followed by 0 becomes the
    single digit b: x / x is 0 (C24).  The library's numbers need at most p, b at most q digits. *)
Theorem C64_digits : forall ct cosf sinf L N m fuel keep f x b one v w p q, accurate cosf sinf -> In (L, N, m) safe_lengths -> can_double L = true ->
  natural (base L) x v -> is_nat (base L) b w -> is_nat (base L) one 1 -> 1 < w ->
  v < base L ^ p -> w < base L ^ q -> 1 <= p -> 1 <= q -> p + q <= N -> Z.min p q <= m ->
  Z.log2_up N < Z.of_nat fuel -> Z.log2 v + 2 <= Z.of_nat fuel -> Z.log2 v + 2 <= Z.of_nat f ->
  returns (to_digits (mkEnv L false (ieee ct cosf sinf) fuel keep) CGe one b x [] f)
    (fun l => Forall (fun r => desc r = BN_POS /\ good (base L) r /\ canonical (data r)) l /\
              library_digits w v (map (fun r => value (base L) (data r)) l)).
Proof.
  intros ct cosf sinf L N m fuel keep f x b one v w p q HA Hin HD Hx Hb H1 Hw Hp Hq Hp1 Hq1 Hpq Hm HfN Hf Hl.
  eapply returns_mono.
  - apply (to_digits_spec ct cosf sinf L N m HA Hin HD fuel keep HfN b one w p q Hb H1 Hw Hq Hp1 Hq1 Hpq Hm f x v [] Hx Hp Hf).
    pose proof (Z.log2_nonneg v). destruct (v =? 0); lia.
  - intros l (new & -> & Fn & Ln). exact (conj Fn Ln).
Qed.
Print Assumptions C64_digits.

(** So not every digit is below b, and the last one is b exactly if the number starts with 1 0. *)
Theorem C64_digits_below_base_refuted : ~ forall ct cosf sinf L N m x b one v w, accurate cosf sinf -> In (L, N, m) safe_lengths ->
  can_double L = true -> natural (base L) x v -> is_nat (base L) b w -> is_nat (base L) one 1 -> 1 < w ->
  v < base L -> w < base L ->
  exists enough : nat, forall fuel f, (enough <= fuel)%nat -> (enough <= f)%nat ->
  returns (to_digits (mkEnv L false (ieee ct cosf sinf) fuel false) CGe one b x [] f)
    (fun l => Forall (fun r => value (base L) (data r) < w) l).
Proof.
  intros H. specialize (H unfused libm_cos libm_sin base16 (2 ^ 32) 17895697 (mkBN BN_POS [10]) (mkBN BN_POS [10]) (mkBN BN_POS [1]) 10 10 libm_accurate
    ltac:(unfold safe_lengths; cbn [In]; auto 10) eq_refl).
  assert (forall d, 0 < d < 16 -> is_nat (base base16) (mkBN BN_POS [d]) d) as I.
  { intros d Hd. change (base base16) with 16. repeat split; [repeat constructor; lia|unfold canonical; cbn; lia|cbn [data value]; lia]. }
  destruct (H (is_nat_natural _ _ _ (I 10 ltac:(lia))) (I 10 ltac:(lia)) (I 1 ltac:(lia)) ltac:(lia) ltac:(reflexivity) ltac:(reflexivity)) as [e K].
  set (g := Nat.max e 40). specialize (K g g ltac:(lia) ltac:(lia)).
  pose proof (C64_digits unfused libm_cos libm_sin base16 (2 ^ 32) 17895697 g false g (mkBN BN_POS [10]) (mkBN BN_POS [10]) (mkBN BN_POS [1]) 10 10 1 1
    libm_accurate ltac:(unfold safe_lengths; cbn [In]; auto 10) eq_refl (is_nat_natural _ _ _ (I 10 ltac:(lia))) (I 10 ltac:(lia)) (I 1 ltac:(lia))
    ltac:(lia) ltac:(reflexivity) ltac:(reflexivity) ltac:(lia) ltac:(lia) ltac:(lia) ltac:(lia)) as D.
  assert (Z.of_nat g >= 40) as Hg by lia.
  specialize (D ltac:(change (Z.log2_up (2 ^ 32)) with 32; lia) ltac:(change (Z.log2 10) with 3; lia) ltac:(change (Z.log2 10) with 3; lia)).
  specialize (K never_fails 0%nat). specialize (D never_fails 0%nat).
  destruct (to_digits _ _ _ _ _ _ _ _ _) as [l n|e' n|u|]; try contradiction.
  - destruct K as [K _]. destruct D as [(_ & ds & Dd & Cd & Vd & D1 & D2) _].
    assert (ds = [0; 1]) as E. { apply (value_inj 10); auto; [lia|repeat constructor; lia|unfold canonical; cbn; lia]. }
    specialize (D1 [] E). cbn [app] in D1. destruct l as [|r l]; [discriminate|]. injection D1 as Er _. inversion_clear K. lia.
  - destruct K as [_ (k & _ & Hk)]. discriminate.
Qed.
Print Assumptions C64_digits_below_base_refuted.

(** Yet the text is right: written one after the other, highest first, in a type with digits up to 10 and more, the results of the
    loop with b = ten are the decimal numeral of x. *)
Theorem C64_decimal_text : forall L l v, ws L <> 8 -> 10 < base L -> 0 < v ->
  Forall (fun r => desc r = BN_POS /\ good (base L) r /\ canonical (data r)) l ->
  library_digits 10 v (map (fun r => value (base L) (data r)) l) ->
  numeral 10 (String.concat "" (map (print L) (rev l))) v.
Proof.
  intros L l v Hw HB Hv Fl (ds & Dd & Cd & Vd & H1 & H2). set (B := base L) in *.
  assert (forall s t, codes (String.concat "" (s :: t)) = codes s ++ codes (String.concat "" t)) as Cc.
  { intros s [|a t]; [cbn; rewrite app_nil_r; reflexivity|]. cbn [String.concat]. rewrite codes_app. reflexivity. }
  assert (forall r, desc r = BN_POS /\ good B r /\ canonical (data r) -> value B (data r) < B ->
    (value B (data r) = 0 /\ print L r = "0"%string) \/ print L r = print_digit L (value B (data r))) as One.
  { intros [d u] (Dr & (_ & Or & _) & Cr) Hr. cbn [desc data] in *. subst d. unfold print. cbn [desc data]. destruct u as [|a [|c u]].
    - left. auto.
    - right. cbn [print_digits value append]. f_equal. ring.
    - exfalso. pose proof (value_canonical_lb B ltac:(lia) _ Or Cr ltac:(discriminate)) as K. cbn [length] in K.
      pose proof (Z.pow_le_mono_r B 1 (Z.of_nat (S (S (length u))) - 1) ltac:(lia) ltac:(lia)). lia. }
  assert (forall u, Forall (fun r => desc r = BN_POS /\ good B r /\ canonical (data r)) u ->
    digits_ok 10 (map (fun r => value B (data r)) u) ->
    codes (String.concat "" (map (print L) (rev u))) = rev (map (fun d => 48 + d) (map (fun r => value B (data r)) u))) as Run.
  { intros u Fu Du. rewrite <- (rev_involutive u) in Fu, Du. rewrite <- (rev_involutive u) at 2. generalize dependent (rev u). clear u. intros u.
    rewrite !map_rev, rev_involutive. intros Fu Du. apply Forall_rev in Fu, Du. rewrite rev_involutive in Fu, Du.
    induction u as [|r u IH]; [reflexivity|]. cbn [map] in *. inversion_clear Fu as [|? ? Fr Fu']. inversion_clear Du as [|? ? Dr Du'].
    rewrite Cc, IH by auto. cbn [app]. destruct (One r Fr ltac:(lia)) as [[E ->]| ->]; [rewrite E; reflexivity|].
    rewrite print_digit_dec by lia. reflexivity. }
  assert (codes (String.concat "" (map (print L) (rev l))) = rev (map (fun d => 48 + d) ds)) as Key.
  { destruct (list_eq_dec Z.eq_dec (firstn 2 (rev ds)) [1; 0]) as [E|Hn].
    - assert (ds = rev (skipn 2 (rev ds)) ++ [0; 1]) as Ed.
      { rewrite <- (rev_involutive ds) at 1. rewrite <- (firstn_skipn 2 (rev ds)) at 1. rewrite E, rev_app_distr. reflexivity. }
      set (u := rev (skipn 2 (rev ds))) in *. specialize (H1 u Ed).
      destruct (map_eq_app _ _ _ _ H1) as (l1 & l2 & -> & E1 & E2). destruct l2 as [|r [|? ?]]; try discriminate. injection E2 as Er.
      apply Forall_app in Fl. destruct Fl as [F1 F2]. inversion_clear F2 as [|? ? Fr _].
      rewrite rev_app_distr. cbn [rev app map]. rewrite Cc, Run; auto.
      2: { rewrite E1. rewrite Ed in Dd. apply Forall_app in Dd. apply Dd. }
      rewrite E1, Ed, map_app, rev_app_distr. cbn [map rev app]. f_equal.
      destruct (One r Fr ltac:(lia)) as [[E0 _]| ->]; [lia|]. rewrite Er. unfold print_digit. rewrite (proj2 (Z.eqb_neq _ _) Hw). reflexivity.
    - assert (forall u, ds <> u ++ [0; 1]) as Hn'. { intros u ->. apply Hn. rewrite rev_app_distr. reflexivity. }
      rewrite (H2 Hn') in *. rewrite Run; auto; rewrite (H2 Hn'); auto. }
  assert (ds <> []) as Nd by (intros ->; cbn in Vd; lia).
  assert (String.concat "" (map (print L) (rev l)) = body base10 ds) as ->.
  { apply codes_inj. rewrite Key, body_codes; [destruct ds; [congruence|reflexivity]|discriminate|change (base base10) with 10; lia|exact Dd]. }
  rewrite <- Vd. change 10 with (base base10). apply body_numeral; [discriminate|change (base base10) with 10; lia|exact Dd|left; exact Cd].
Qed.
Print Assumptions C64_decimal_text.

(** Asking [x != zero] or [x > zero] instead, with a zero as the constructors make it, the loop never ends, for every number that
    has a digit: the last quotient is 0 with one digit, which is neither equal to nor not greater than a 0 without digits. *)
Theorem C64_endless : forall ct cosf sinf L N m fuel keep c x b v w p q, accurate cosf sinf -> In (L, N, m) safe_lengths -> can_double L = true ->
  c = CNe \/ c = CGt -> natural (base L) x v -> data x <> [] -> is_nat (base L) b w -> 1 < w ->
  v < base L ^ p -> w < base L ^ q -> 1 <= p -> 1 <= q -> p + q <= N -> Z.min p q <= m ->
  Z.log2_up N < Z.of_nat fuel -> Z.log2 v + 2 <= Z.of_nat fuel ->
  never_returns (to_digits (mkEnv L false (ieee ct cosf sinf) fuel keep) c bn_default b x []).
Proof.
  intros ct cosf sinf L N m fuel keep c x b v w p q HA Hin HD Hc Hx Nx Hb Hw Hp Hq Hp1 Hq1 Hpq Hm HfN Hf f al n.
  apply (fun H => to_digits_endless ct cosf sinf L N m HA Hin HD fuel keep HfN c bn_default b w p q H Hb Hw Hq Hp1 Hq1 Hpq Hm f x v [] Hx Nx Hp Hf al n).
  intros y Dy Ny. destruct Hc as [-> | ->]; cbn [compare].
  - intros a k. rewrite (op_ne_pure y bn_default a k). rewrite Dy. destruct (data y); [congruence|reflexivity].
  - intros a k. unfold op_gt. rewrite Dy. cbn [desc bn_default].
    destruct (data y) as [|d u] eqn:E; [congruence|]. reflexivity.
Qed.
Print Assumptions C64_endless.

(** Horner's rule: the number with the given digits, which need not be below b. *)
Theorem C64_from_digits : forall ct cosf sinf L N m fuel keep l b w p q, accurate cosf sinf -> In (L, N, m) safe_lengths -> can_double L = true ->
  Forall (fun r => desc r = BN_POS /\ good (base L) r) l -> is_nat (base L) b w -> 0 < w ->
  let v := value w (map (fun r => value (base L) (data r)) l) in
  v < base L ^ p -> w < base L ^ q -> 1 <= p -> 1 <= q -> p + q <= N -> Z.min p q <= m -> Z.log2_up N < Z.of_nat fuel ->
  returns (from_digits (mkEnv L false (ieee ct cosf sinf) fuel keep) b l) (fun z => natural (base L) z v).
Proof.
  intros ct cosf sinf L N m fuel keep l b w p q HA Hin HD Fl Hb Hw v Hp Hq Hp1 Hq1 Hpq Hm HfN.
  exact (from_digits_spec ct cosf sinf L N m HA Hin HD fuel keep HfN b w p q Hb Hw Hq Hp1 Hq1 Hpq Hm l Fl Hp).
Qed.
Print Assumptions C64_from_digits.

Lemma library_digits_value w v l : 1 < w -> library_digits w v l -> value w l = v.
Proof.
  intros Hw (ds & Dd & Cd & Vd & H1 & H2).
  destruct (list_eq_dec Z.eq_dec (firstn 2 (rev ds)) [1; 0]) as [E|Hn].
  - assert (ds = rev (skipn 2 (rev ds)) ++ [0; 1]) as Ed.
    { rewrite <- (rev_involutive ds) at 1. rewrite <- (firstn_skipn 2 (rev ds)) at 1. rewrite E, rev_app_distr. reflexivity. }
    rewrite (H1 _ Ed), <- Vd. rewrite Ed at 2. rewrite !value_app. cbn [value]. f_equal. ring.
  - rewrite H2; auto. intros u ->. apply Hn. rewrite rev_app_distr. reflexivity.
Qed.

(** There and back: the same number, digit for digit. *)
Theorem C64_roundtrip : forall ct cosf sinf L N m fuel keep f x b one v w p q, accurate cosf sinf -> In (L, N, m) safe_lengths -> can_double L = true ->
  is_nat (base L) x v -> 0 < v -> is_nat (base L) b w -> is_nat (base L) one 1 -> 1 < w ->
  v < base L ^ p -> w < base L ^ q -> 1 <= p -> 1 <= q -> p + q <= N -> Z.min p q <= m ->
  Z.log2_up N < Z.of_nat fuel -> Z.log2 v + 2 <= Z.of_nat fuel -> Z.log2 v + 2 <= Z.of_nat f ->
  let E := mkEnv L false (ieee ct cosf sinf) fuel keep in
  returns (l <- to_digits E CGe one b x [] f ;; from_digits E b l) (fun z => z = x).
Proof.
  intros ct cosf sinf L N m fuel keep f x b one v w p q HA Hin HD Hx Hv Hb H1 Hw Hp Hq Hp1 Hq1 Hpq Hm HfN Hf Hl E.
  eapply returns_bind.
  - apply (C64_digits ct cosf sinf L N m fuel keep f x b one v w p q); auto. apply is_nat_natural, Hx.
  - intros l [Fl Ll]. pose proof (library_digits_value w v _ Hw Ll) as V. eapply returns_mono.
    + apply (C64_from_digits ct cosf sinf L N m fuel keep l b w p q); auto; try lia.
      eapply Forall_impl; [|exact Fl]. cbv beta. tauto.
    + cbv beta zeta. rewrite V. intros z Hz. apply (is_nat_unique (base L) z x v (eHB L HD)); auto. apply natural_is_nat; auto. lia.
Qed.
Print Assumptions C64_roundtrip.

(** From one type to another with an equal or larger base. *)
Theorem C64_convert : forall ct cosf sinf L N m fuel keep L1 x b p q, accurate cosf sinf -> In (L, N, m) safe_lengths -> can_double L = true ->
  digits_ok (base L1) (data x) -> 2 <= base L1 <= base L -> is_nat (base L) b (base L1) ->
  let v := value (base L1) (data x) in
  v < base L ^ p -> base L1 < base L ^ q -> 1 <= p -> 1 <= q -> p + q <= N -> Z.min p q <= m -> Z.log2_up N < Z.of_nat fuel ->
  returns (convert (mkEnv L false (ieee ct cosf sinf) fuel keep) b x) (fun z => natural (base L) z v).
Proof.
  intros ct cosf sinf L N m fuel keep L1 x b p q HA Hin HD Dx HB1 Hb v Hp Hq Hp1 Hq1 Hpq Hm HfN. unfold convert. cbn [eL].
  pose proof (eL_ok L HD) as HL. destruct (limits_ok_facts L HL) as (_ & _ & Hmin & _).
  eapply returns_bind with (Q := fun l => Forall (fun r => desc r = BN_POS /\ good (base L) r) l /\ map (fun r => value (base L) (data r)) l = data x).
  - clear v Hp. induction (data x) as [|a r IH]; cbn [lift_digits]; [apply returns_ret; split; [constructor|reflexivity]|].
    inversion_clear Dx as [|? ? Ha Dr]. eapply returns_bind; [apply (C28_constructor L BN_POS [a] Hmin)|]. intros y (D & _ & V & C & O).
    eapply returns_bind; [apply IH, Dr|]. intros ys [Fy Ey]. apply returns_ret. split.
    + constructor; auto. split; [exact D|]. split; [left; exact D|]. split; [apply O; repeat constructor; lia|left; exact C].
    + cbn [map]. rewrite V, Ey. f_equal.
  - intros l [Fl El]. eapply returns_mono.
    + apply (C64_from_digits ct cosf sinf L N m fuel keep l b (base L1) p q); auto; [lia|]. cbv zeta. rewrite El. exact Hp.
    + cbv beta zeta. rewrite El. auto.
Qed.
Print Assumptions C64_convert.

(** 1005 of base 16 (decimal 4101) to base ten and its text; 255 of base 10 into base 16 *)
Example C64_case :
  natural 16 (mkBN BN_POS [5; 0; 0; 1]) 4101 /\ library_digits 10 4101 [1; 0; 1; 4] /\ library_digits 10 1054 [4; 5; 10] /\
  print base16 (mkBN BN_POS [10]) = "10"%string.
Proof.
  split; [|split; [|split; [|reflexivity]]].
  - split; [reflexivity|]. split; [|reflexivity]. split; [left; reflexivity|]. split; [repeat constructor; lia|left; discriminate].
  - exists [1; 0; 1; 4]. split; [repeat constructor; lia|]. split; [discriminate|]. split; [reflexivity|]. split; [|reflexivity].
    intros u Eu. apply (f_equal (@rev Z)) in Eu. rewrite rev_app_distr in Eu. discriminate.
  - exists [4; 5; 0; 1]. split; [repeat constructor; lia|]. split; [discriminate|]. split; [reflexivity|]. split.
    + intros u Eu. change [4; 5; 0; 1] with ([4; 5] ++ [0; 1]) in Eu. apply app_inv_tail in Eu. rewrite <- Eu. reflexivity.
    + intros Hn. exfalso. exact (Hn [4; 5] eq_refl).
Qed.
Example C64_case_runs : exists e : nat, forall g, (e <= g)%nat ->
  exists l n, run (to_digits (mkEnv base16 false (ieee unfused libm_cos libm_sin) g false) CGe (mkBN BN_POS [1]) (mkBN BN_POS [10])
                     (mkBN BN_POS [14; 1; 4]) [] g) = Ret l n /\
    String.concat "" (map (print base16) (rev l)) = "1054"%string.
Proof.
  assert (forall d, 0 < d < 16 -> is_nat (base base16) (mkBN BN_POS [d]) d) as I.
  { intros d Hd. change (base base16) with 16. repeat split; [repeat constructor; lia|unfold canonical; cbn; lia|cbn [data value]; lia]. }
  exists 40%nat. intros g Hg.
  destruct (BignumProof.returns_run _ _ (C64_digits unfused libm_cos libm_sin base16 (2 ^ 32) 17895697 g false g (mkBN BN_POS [14; 1; 4]) (mkBN BN_POS [10]) (mkBN BN_POS [1]) 1054 10 3 1
    libm_accurate ltac:(unfold safe_lengths; cbn [In]; auto 10) eq_refl
    ltac:(change (base base16) with 16; split; [reflexivity|]; split; [|reflexivity]; split; [left; reflexivity|]; split; [repeat constructor; lia|left; discriminate])
    (I 10 ltac:(lia)) (I 1 ltac:(lia))
    ltac:(lia) ltac:(reflexivity) ltac:(reflexivity) ltac:(lia) ltac:(lia) ltac:(lia) ltac:(lia) ltac:(change (Z.log2_up (2 ^ 32)) with 32; lia)
    ltac:(change (Z.log2 1054) with 10; lia) ltac:(change (Z.log2 1054) with 10; lia))) as (l & n & E & Fl & Ll).
  exists l, n. split; [exact E|].
  pose proof (C64_decimal_text base16 l 1054 ltac:(discriminate) ltac:(reflexivity) ltac:(lia) Fl Ll) as T.
  apply (numeral_unique 10 _ _ 1054); [lia|exact T|].
  split; [discriminate|]. split; [cbn; repeat constructor; lia|]. split; [discriminate|reflexivity].
Qed.
(** while (x != zero) with x = 7 never ends. *)
Example C64_endless_case : never_returns (to_digits (mkEnv base16 false (ieee unfused libm_cos libm_sin) 40 false) CNe bn_default (mkBN BN_POS [10])
                     (mkBN BN_POS [7]) []).
Proof.
  assert (forall d, 0 < d < 16 -> is_nat (base base16) (mkBN BN_POS [d]) d) as I.
  { intros d Hd. change (base base16) with 16. repeat split; [repeat constructor; lia|unfold canonical; cbn; lia|cbn [data value]; lia]. }
  apply (C64_endless unfused libm_cos libm_sin base16 (2 ^ 32) 17895697 40 false CNe (mkBN BN_POS [7]) (mkBN BN_POS [10]) 7 10 1 1
    libm_accurate ltac:(unfold safe_lengths; cbn [In]; auto 10) eq_refl (or_introl eq_refl) (is_nat_natural _ _ _ (I 7 ltac:(lia)))
    ltac:(discriminate) (I 10 ltac:(lia)) ltac:(lia) ltac:(reflexivity) ltac:(reflexivity) ltac:(lia) ltac:(lia) ltac:(lia) ltac:(lia)
    ltac:(change (Z.log2_up (2 ^ 32)) with 32; lia) ltac:(change (Z.log2 7) with 2; lia)).
Qed.
