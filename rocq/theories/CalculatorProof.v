(** * The calculator and the library: proofs *)
From Coq Require Import ZArith Lia List Bool Arith.
From Verif Require Import Base Spec Limits Compare AddSub Division Bignum Fourier Multiplication Machine While Calculator Outcome Wp ValueProof
  AddSubProof CompareProof BignumProof OperatorProof DivisionProof DivOpProof Conv PropNaive HistoryProof PropHistory Ieee IeeeProof MulOpProof PropMul
  PropProgram PaddedProof ZeroProof PropObject.
Import ListNotations.
Open Scope Z_scope.

(** What the calculator sees of an object. *)
Definition magof (B : Z) (v : list Z) : mag := match v with [] => None | _ => Some (value B v) end.
Definition shown (B : Z) (x : bignum) : cnum := mkC (desc x) (magof B (data x)).
Definition wf (B : Z) (v : list Z) : Prop := digits_ok B v /\ weak_canonical v.
Definition holds (B : Z) (x : bignum) (z : cnum) : Prop := wf B (data x) /\ shown B x = z.

Definition agrees {A C} (R : A -> C -> Prop) (o : outcome C) (r : res A) : Prop :=
  match o with
  | Is c => exists a n, r = Ret a n /\ R a c
  | Crash => exists u, r = Undef u
  | Endless => r = NoFuel
  | Unknown => True
  end.

Lemma agrees_mono {A C} (R S : A -> C -> Prop) o r : agrees R o r -> (forall a c, R a c -> S a c) -> agrees S o r.
Proof. destruct o; cbn; auto. intros (x & n & E & H) K. exists x, n. auto. Qed.

Section Mag.
Context (B : Z) (HB : 2 <= B).

Lemma wf_nil : wf B []. Proof. split; [constructor|left; discriminate]. Qed.
Lemma wf_zero : wf B [0]. Proof. split; [repeat constructor; lia|right; reflexivity]. Qed.

Lemma amount_mag v : amount (magof B v) = value B v.
Proof. destruct v; reflexivity. Qed.

Lemma mag_some v : v <> [] -> magof B v = Some (value B v).
Proof. destruct v; [congruence|reflexivity]. Qed.

Lemma mag_packed v z : digits_ok B v -> canonical v -> value B v = z -> magof B v = packed z.
Proof.
  intros D C <-. unfold packed. destruct (Z.eqb_spec (value B v) 0) as [E|E].
  - apply (value_zero_canonical B HB) in E; auto. subst. reflexivity.
  - destruct v; [cbn in E; lia|reflexivity].
Qed.

Lemma wf_tail d r : wf B (d :: r) -> r <> [] -> wf B r /\ canonical r.
Proof.
  intros [D W] N. inversion D as [|? ? Hd Hr]; subst.
  assert (canonical r) as C.
  { destruct W as [W|W]; [|injection W as -> ->; congruence]. unfold canonical in *. destruct r; [congruence|exact W]. }
  split; [split; [exact Hr|left; exact C]|exact C].
Qed.

Lemma digits_from_value v : forall f, wf B v -> v <> [] -> (length v <= f)%nat -> digits_from B f (value B v) = v.
Proof.
  induction v as [|d r IH]; intros f W N Hf; [congruence|]. destruct f as [|f]; [cbn in Hf; lia|]. cbn [digits_from].
  destruct W as [D W]. pose proof D as D'. inversion D' as [|? ? Hd Hr]; subst. cbn [value].
  assert ((d + B * value B r) mod B = d) as ->.
  { rewrite (Z.mul_comm B), Z.mod_add by lia. apply Z.mod_small. exact Hd. }
  assert ((d + B * value B r) / B = value B r) as ->.
  { rewrite (Z.mul_comm B), Z.div_add by lia. rewrite Z.div_small by exact Hd. lia. }
  f_equal. destruct r as [|e r]; [reflexivity|]. destruct (wf_tail d (e :: r) (conj D W) ltac:(discriminate)) as [W' C'].
  destruct (Z.eqb_spec (value B (e :: r)) 0) as [E|E].
  - apply (value_zero_canonical B HB) in E; auto; discriminate.
  - apply IH; auto; [discriminate|cbn [length] in *; lia].
Qed.

Lemma length_log2 v : digits_ok B v -> canonical v -> v <> [] -> Z.of_nat (length v) <= Z.log2 (value B v) + 1.
Proof.
  induction v as [|d r IH]; intros D C N; [congruence|]. inversion D as [|? ? Hd Hr]; subst. cbn [value].
  pose proof (value_bounds B HB r Hr) as V. destruct r as [|e r].
  - cbn [length value]. pose proof (Z.log2_nonneg (d + B * 0)). lia.
  - assert (canonical (e :: r)) as C' by exact C. specialize (IH Hr C' ltac:(discriminate)).
    assert (value B (e :: r) <> 0) as Nz by (intros E; apply (value_zero_canonical B HB) in E; auto; discriminate).
    assert (Z.log2 (2 * value B (e :: r)) <= Z.log2 (d + B * value B (e :: r))) as H.
    { apply Z.log2_le_mono. nia. }
    rewrite Z.log2_double in H by lia. cbn [length] in *. lia.
Qed.

Lemma digits_mag v : wf B v -> digits B (magof B v) = v.
Proof.
  intros [D W]. destruct v as [|d r]; [reflexivity|]. cbn [magof digits]. unfold digits_in. apply digits_from_value; [split; auto|discriminate|].
  destruct W as [C|E].
  - pose proof (length_log2 (d :: r) D C ltac:(discriminate)). lia.
  - injection E as -> ->. cbn. lia.
Qed.

Lemma above_gtb a b : wf B a -> wf B b -> above B (magof B a) (magof B b) = gtb a b.
Proof.
  intros Wa Wb. unfold above, gtb. rewrite !digits_mag by auto. fold (some_gt a b).
  destruct (Nat.ltb_spec (length b) (length a)); cbn [orb]; [reflexivity|].
  destruct (Nat.ltb_spec (length a) (length b)), (Nat.eqb_spec (length b) (length a)); cbn [andb]; auto; lia.
Qed.

Lemma at_least_geb a b : wf B a -> wf B b -> at_least (magof B a) (magof B b) = geb B a b.
Proof.
  intros [Da Wa] [Db Wb]. destruct a as [|d r], b as [|e t]; try reflexivity. cbn [magof at_least].
  set (a := d :: r) in *. set (b := e :: t) in *.
  pose proof (value_bounds B HB a Da) as Va. pose proof (value_bounds B HB b Db) as Vb.
  destruct Wa as [Ca|Ea], Wb as [Cb|Eb].
  - symmetry. apply geb_canonical; auto.
  - rewrite Eb in *. unfold geb. subst a. destruct r; cbn [length]; [reflexivity|].
    rewrite (proj2 (Nat.ltb_lt 1 _)) by lia. apply Z.leb_le. cbn [value] in *. lia.
  - rewrite Ea in *. unfold geb. subst b. destruct t; cbn [length]; [reflexivity|].
    rewrite (proj2 (Nat.ltb_ge _ 1)), (proj2 (Nat.ltb_lt 1 _)) by lia.
    apply Z.leb_gt. cbn [value] in *. assert (value B (e :: z :: t) <> 0) as Nz by (intros E; apply (value_zero_canonical B HB) in E; auto; discriminate).
    cbn [value] in Nz. lia.
  - rewrite Ea, Eb. reflexivity.
Qed.

Lemma same_mag_eqb a b : wf B a -> wf B b -> same_mag (magof B a) (magof B b) = eqb a b.
Proof.
  intros Wa Wb. apply eq_true_iff_eq. rewrite eqb_true. split.
  - intros H. rewrite <- (digits_mag a), <- (digits_mag b) by auto. f_equal.
    destruct (magof B a), (magof B b); cbn in H; try discriminate; auto. apply Z.eqb_eq in H. congruence.
  - intros ->. destruct (magof B b); cbn; [apply Z.eqb_refl|reflexivity].
Qed.

(** ** Comparisons *)
Lemma ask_run c x y : wf B (data x) -> wf B (data y) -> pure (compare c x y) (ask B c (shown B x) (shown B y)).
Proof.
  intros Wx Wy. pose proof (above_gtb _ _ Wx Wy) as G1. pose proof (above_gtb _ _ Wy Wx) as G2.
  pose proof (at_least_geb _ _ Wx Wy) as H1. pose proof (at_least_geb _ _ Wy Wx) as H2. pose proof (same_mag_eqb _ _ Wx Wy) as S.
  destruct c; cbn [compare]; unfold ask; cbn [shown csign cmag].
  - rewrite S. apply op_eq_pure.
  - rewrite S. apply op_ne_pure.
  - unfold op_gt. destruct (desc x), (desc y); cbn [desc_eqb andb]; rewrite ?G1, ?H2;
    first [apply pure_ret|apply abs_val_is_gt_pure|apply (abs_val_is_le_pure B HB); apply Wx || apply Wy].
  - unfold op_ge. destruct (desc x), (desc y); cbn [desc_eqb andb]; rewrite ?G2, ?H1;
    first [apply pure_ret|apply abs_val_is_lt_pure|apply (abs_val_is_ge_pure B HB); apply Wx || apply Wy].
  - unfold op_lt. destruct (desc x), (desc y); cbn [desc_eqb andb]; rewrite ?G1, ?G2;
    first [apply pure_ret|apply abs_val_is_gt_pure|apply abs_val_is_lt_pure].
  - unfold op_le. destruct (desc x), (desc y); cbn [desc_eqb andb]; rewrite ?G1, ?H2;
    first [apply pure_ret|apply abs_val_is_gt_pure|apply (abs_val_is_le_pure B HB); apply Wx || apply Wy].
Qed.
End Mag.

(** ** Operations *)
Lemma yields_run {A} (m : M A) Q al n : yields m Q -> (forall k, al k = true) -> exists a n', m al n = Ret a n' /\ Q a.
Proof.
  intros H Hal. specialize (H al n). destruct (m al n) as [a n'|e n'|u|]; try contradiction.
  - exists a, n'. split; [reflexivity|apply H].
  - destruct H as (_ & k & _ & K). rewrite Hal in K. discriminate.
Qed.

Definition settled {C} (R : bignum -> C -> Prop) (a : assigned) (c : C) : Prop := snd a = None /\ R (fst a) c.

Lemma agrees_guarded {C} (R : bignum -> C -> Prop) o m bad al n : agrees R o (m al n) -> agrees (settled R) o (guarded m bad al n).
Proof.
  unfold guarded. destruct o; cbn [agrees]; auto.
  - intros (x & k & -> & H). exists (x, None), k. split; [reflexivity|split; [reflexivity|exact H]].
  - intros (u & ->). exists u. reflexivity.
  - intros ->. reflexivity.
Qed.

(** the second operand, as the calculator sees it *)
Definition sees (B : Z) (x : bignum) (y : arg) : cnum := mkC (adesc x y) (magof B (adata x y)).

Section Op.
Context (L : limits) (HLk : limits_ok L = true).
Let B := base L.
Let HBk : 2 <= B := AddSubProof.HB L HLk.
Context (al : nat -> bool) (Hal : forall k, al k = true).

Lemma add_run x y d n : wf B (data x) -> wf B (adata x y) ->
  agrees (holds B) (Is (mkC d (Some (amount (magof B (data x)) + amount (magof B (adata x y))))))
    ((v <- abs_val_add L (data x) (aview y) ;; ret (mkBN d v)) al n).
Proof.
  intros [Dx Wx] [Dy Wy]. rewrite !amount_mag.
  assert (yields (abs_val_add L (data x) (aview y)) (fun r => digits_ok B r /\ value B r = value B (data x) + value B (adata x y) /\
     weak_canonical r /\ r <> [])) as K.
  { destruct y as [y|]; cbn [aview adata] in *.
    - eapply yields_mono; [apply (abs_val_add_other L HLk (data x) (data y) Dx Dy)|]. intros r (D & V & G). repeat split; auto.
      + eapply (grown_canonical L HLk (data x) (data y)); eauto.
      + intros ->. unfold grown in G. cbn [length] in G. lia.
    - eapply yields_mono; [apply (abs_val_add_same L HLk (data x) Dx)|]. intros r (D & V & G). fold B in V. repeat split; auto; [lia| |].
      + eapply (grown_canonical L HLk (data x) (data x)); eauto. fold B. lia.
      + intros ->. unfold grown in G. cbn [length] in G. lia. }
  destruct (yields_run _ _ al n K Hal) as (r & n' & E & D & V & W & N). cbn [agrees]. unfold bind. rewrite E.
  exists (mkBN d r), n'. split; [reflexivity|]. split; [split; auto|]. unfold shown. cbn [desc data]. rewrite (mag_some B r N), V. reflexivity.
Qed.

Lemma apart_run x y d n : wf B (data x) -> wf B (adata x y) ->
  agrees (holds B) (apart (shown B x) (sees B x y) d)
    ((c <- abs_val_is_ge (data x) (adata x y) ;;
      if (c : bool) then v <- abs_val_sub L false (data x) (aview y) ;; ret (mkBN (desc x) v)
      else t <- vcopy (adata x y) ;; v <- abs_val_sub L false t (other (data x)) ;; ret (mkBN d v)) al n).
Proof.
  intros Wx Wy. pose proof (at_least_geb B HBk _ _ Wx Wy) as G. destruct Wx as [Dx Wx], Wy as [Dy Wy].
  unfold apart, shown, sees. cbn [cmag csign]. unfold bind at 1. rewrite (abs_val_is_ge_pure B HBk _ _ Dx Dy).
  destruct (list_eq_dec Z.eq_dec (data x) []) as [Ex|Nx].
  { destruct (list_eq_dec Z.eq_dec (adata x y) []) as [Ey|Ny].
    - assert (geb B (data x) (adata x y) = true) as -> by (rewrite Ex, Ey; reflexivity). rewrite Ex, Ey. cbn [magof agrees]. exists UB_index. unfold bind.
      rewrite (abs_val_sub_nil L); [reflexivity|]. destruct y; cbn [aview adata] in *; [exact Ey|reflexivity].
    - destruct y as [y|]; cbn [adata] in *; [|congruence].
      assert (geb B (data x) (data y) = false) as Eg by (rewrite Ex; destruct (data y); [congruence|reflexivity]). rewrite Eg in *.
      assert (yields (vcopy (data y)) (fun t => t = data y)) as K by (apply yields_vcopy; reflexivity).
      destruct (yields_run _ _ al n K Hal) as (? & n1 & E1 & ->). unfold bind. rewrite E1.
      destruct (yields_run _ _ al n1 (sub_yields L HLk (data y) (data x) Dy Dx Ny ltac:(rewrite Ex; cbn; lia)
        ltac:(rewrite Ex; cbn [value]; apply (value_bounds B HBk), Dy)) Hal) as (r & n2 & E2 & D & C & V).
      rewrite E2. destruct (data y) as [|e t] eqn:Ey; [congruence|]. rewrite Ex in *. cbn [magof at_least agrees amount].
      eexists _, _. split; [reflexivity|]. split; [split; [exact D|left; exact C]|]. unfold shown. cbn [desc data].
      f_equal. apply (mag_packed B HBk r); auto. }
  replace (match magof B (data x) with None => match magof B (adata x y) with None => Crash | _ => _ end | _ => _ end)
    with (Is (if at_least (magof B (data x)) (magof B (adata x y))
              then mkC (desc x) (packed (amount (magof B (data x)) - amount (magof B (adata x y))))
              else mkC d (packed (amount (magof B (adata x y)) - amount (magof B (data x))))))
    by (destruct (data x); [congruence|reflexivity]).
  rewrite G, !amount_mag. cbn [agrees]. destruct (geb B (data x) (adata x y)) eqn:Eg.
  - assert ((length (adata x y) <= length (data x))%nat /\ value B (adata x y) <= value B (data x)) as [Hl Hv].
    { unfold geb in Eg. destruct (Nat.ltb_spec (length (adata x y)) (length (data x))) as [H|H].
      - split; [lia|]. destruct Wx as [Cx|Ex].
        + destruct Wy as [Cy|Ey]; [|rewrite Ey; cbn [value]; pose proof (value_bounds B HBk _ Dx); lia].
          pose proof (geb_canonical B HBk _ _ Dx Dy Cx Cy) as K. unfold geb in K. rewrite (proj2 (Nat.ltb_lt _ _) H) in K.
          symmetry in K. apply Z.leb_le in K. exact K.
        + rewrite Ex in *. destruct (adata x y); [cbn [value]; lia|cbn in H; lia].
      - destruct (Nat.ltb_spec (length (data x)) (length (adata x y))); [discriminate|]. apply Z.leb_le in Eg. split; [lia|exact Eg]. }
    destruct y as [y|]; cbn [aview adata] in *.
    + destruct (yields_run _ _ al n (sub_yields L HLk (data x) (data y) Dx Dy Nx Hl Hv) Hal) as (r & n2 & E2 & D & C & V).
      unfold bind. rewrite E2. eexists _, _. split; [reflexivity|]. split; [split; [exact D|left; exact C]|].
      unfold shown. cbn [desc data]. f_equal. apply (mag_packed B HBk); auto.
    + unfold bind. rewrite (abs_val_sub_same L HLk (data x) Nx Dx). eexists _, _. split; [reflexivity|].
      split; [apply wf_nil|]. unfold shown. cbn [desc data magof]. rewrite Z.sub_diag. reflexivity.
  - destruct y as [y|]; cbn [aview adata] in *.
    2:{ exfalso. unfold geb in Eg. rewrite Nat.ltb_irrefl, Z.leb_refl in Eg. discriminate. }
    assert ((length (data x) <= length (data y))%nat /\ value B (data x) <= value B (data y) /\ data y <> []) as (Hl & Hv & Ny).
    { unfold geb in Eg. destruct (Nat.ltb_spec (length (data y)) (length (data x))) as [H|H]; [discriminate|]. split; [lia|].
      assert (data y <> []) as Ny. { intros E. rewrite E in H. destruct (data x); [congruence|cbn in H; lia]. }
      split; [|exact Ny]. destruct (Nat.ltb_spec (length (data x)) (length (data y))) as [H'|H'].
      - destruct Wy as [Cy|Ey].
        + destruct Wx as [Cx|Ex]; [|rewrite Ex; cbn [value]; pose proof (value_bounds B HBk _ Dy); lia].
          pose proof (geb_canonical B HBk _ _ Dy Dx Cy Cx) as K. unfold geb in K. rewrite (proj2 (Nat.ltb_lt _ _) H') in K.
          symmetry in K. apply Z.leb_le in K. exact K.
        + rewrite Ey in H'. destruct (data x); [congruence|cbn in H'; lia].
      - apply Z.leb_gt in Eg. lia. }
    assert (yields (vcopy (data y)) (fun t => t = data y)) as K by (apply yields_vcopy; reflexivity).
    destruct (yields_run _ _ al n K Hal) as (? & n1 & E1 & ->). unfold bind. rewrite E1.
    destruct (yields_run _ _ al n1 (sub_yields L HLk (data y) (data x) Dy Dx Ny Hl Hv) Hal) as (r & n2 & E2 & D & C & V).
    rewrite E2. eexists _, _. split; [reflexivity|]. split; [split; [exact D|left; exact C]|].
    unfold shown. cbn [desc data]. f_equal. apply (mag_packed B HBk); auto.
Qed.

Lemma wrapping_run x y n : wf B (data x) -> wf B (data y) ->
  agrees (holds B) (wrapping B (shown B x) (shown B y)) (mixed_step L (data x) (data y) (desc x) al n).
Proof.
  intros Wx Wy. pose proof (above_gtb B HBk _ _ Wx Wy) as G. pose proof (digits_mag B HBk _ Wx) as Dg. destruct Wx as [Dx Wx], Wy as [Dy Wy].
  unfold wrapping, shown, mixed_step. cbn [cmag csign]. unfold bind at 1. rewrite (abs_val_is_gt_pure _ _ al n).
  assert (yields (vcopy (if gtb (data x) (data y) then data x else data y)) (fun t => t = if gtb (data x) (data y) then data x else data y)) as K
    by (apply yields_vcopy; reflexivity).
  destruct (yields_run _ _ al n K Hal) as (? & n1 & E1 & ->). unfold bind. rewrite E1.
  destruct (list_eq_dec Z.eq_dec (data x) []) as [Ex|Nx], (list_eq_dec Z.eq_dec (data y) []) as [Ey|Ny].
  - rewrite Ex, Ey. cbn [magof]. exists UB_index. rewrite gtb_refl, (abs_val_sub_nil L); reflexivity.
  - rewrite Ex in *. destruct (data y) as [|e t] eqn:E; [congruence|]. rewrite <- E in *. cbn [magof] in *.
    assert (gtb [] (data y) = false) as Eg by (rewrite E; reflexivity). rewrite Eg in *.
    destruct (yields_run _ _ al n1 (sub_yields L HLk (data y) (data y) Dy Dy Ny ltac:(lia) ltac:(lia)) Hal) as (r & n2 & E2 & D & C & V).
    rewrite E2. rewrite (mag_some B _ Ny) in *. rewrite G. cbn [agrees]. eexists _, _. split; [reflexivity|].
    split; [split; [exact D|left; exact C]|]. unfold shown. cbn [desc data]. f_equal. fold B in V. rewrite Z.sub_diag in V.
    apply (value_zero_canonical B HBk) in V; auto. subst. reflexivity.
  - rewrite Ey in *. rewrite (mag_some B _ Nx) in *. cbn [magof] in *. rewrite G.
    assert (gtb (data x) [] = true) as Eg by (destruct (data x); [congruence|reflexivity]). rewrite Eg.
    pose proof (value_bounds B HBk _ Dx) as Bx.
    destruct (yields_run _ _ al n1 (sub_yields L HLk (data x) [] Dx ltac:(constructor) Nx ltac:(cbn; lia) ltac:(cbn [value]; apply Bx)) Hal)
      as (r & n2 & E2 & D & C & V).
    rewrite E2. cbn [agrees]. eexists _, _. split; [reflexivity|]. split; [split; [exact D|left; exact C]|]. unfold shown. cbn [desc data amount].
    f_equal. apply (mag_packed B HBk); auto. fold B in V. rewrite V. cbn [value]. rewrite Dg, Z.mod_small; [lia|]. lia.
  - rewrite (mag_some B _ Nx), (mag_some B _ Ny) in *. cbn [agrees amount]. rewrite G, Dg.
    pose proof (value_bounds B HBk _ Dx) as Bx. pose proof (value_bounds B HBk _ Dy) as By.
    destruct (gtb (data x) (data y)) eqn:Eg.
    + destruct (gtb_length _ _ Eg) as [Hl _]. destruct (abs_val_sub_other L HLk (data x) (data y) Nx Hl) as (r & Hr & C & _ & Hv).
      destruct (Hv Dx Dy) as [D V]. fold B in D, V. rewrite (Hr al n1). eexists _, _. split; [reflexivity|]. split; [split; [exact D|left; exact C]|].
      unfold shown. cbn [desc data]. f_equal. apply (mag_packed B HBk); auto. rewrite V.
      assert (B ^ Z.of_nat (length (data y)) <= B ^ Z.of_nat (length (data x))) by (apply Z.pow_le_mono_r; lia).
      destruct (Z.leb_spec (value B (data y)) (value B (data x))).
      * rewrite Z.mod_small; lia.
      * rewrite <- (Z.mod_add _ 1) by lia. rewrite Z.mod_small; lia.
    + destruct (yields_run _ _ al n1 (sub_yields L HLk (data y) (data y) Dy Dy Ny ltac:(lia) ltac:(lia)) Hal) as (r & n2 & E2 & D & C & V).
      rewrite E2. eexists _, _. split; [reflexivity|].
      split; [split; [exact D|left; exact C]|]. unfold shown. cbn [desc data]. f_equal. fold B in V. rewrite Z.sub_diag in V.
      apply (value_zero_canonical B HBk) in V; auto. subst. reflexivity.
Qed.

Lemma special_left (f : M assigned) x y : number (desc x) = false -> f = ret (mkBN (adesc x y) [], None) -> forall n,
  agrees (settled (holds B)) (Is (mkC (csign (sees B x y)) None)) (f al n).
Proof.
  intros _ -> n. eexists _, _. split; [reflexivity|]. split; [reflexivity|]. split; [apply wf_nil|]. reflexivity.
Qed.

Lemma computable_number d : isComputable d = number d.
Proof. destruct d; reflexivity. Qed.

Theorem plus_run x y n : number (desc x) = true -> wf B (data x) -> wf B (adata x y) ->
  agrees (settled (holds B)) (plus (shown B x) (sees B x y)) (op_add_assign L false x y al n).
Proof.
  intros Nx Wx Wy. unfold op_add_assign. rewrite computable_number, Nx. cbn [negb]. apply agrees_guarded. unfold plus, opposites.
  change (csign (shown B x)) with (desc x). change (csign (sees B x y)) with (adesc x y).
  change (cmag (shown B x)) with (magof B (data x)). change (cmag (sees B x y)) with (magof B (adata x y)).
  destruct (desc x) eqn:Ex; try discriminate; destruct (adesc x y) eqn:Ey; cbn [desc_eqb andb]; try (apply add_run; auto);
  pose proof (apart_run x y) as K; rewrite Ex in K; apply K; auto.
Qed.

Theorem minus_run x y n : number (desc x) = true -> wf B (data x) -> wf B (adata x y) ->
  agrees (settled (holds B)) (minus B (shown B x) (sees B x y)) (op_sub_assign L false x y al n).
Proof.
  intros Nx Wx Wy. unfold op_sub_assign. rewrite computable_number, Nx. cbn [negb]. apply agrees_guarded. unfold minus, opposites.
  change (csign (shown B x)) with (desc x). change (csign (sees B x y)) with (adesc x y).
  destruct (desc x) eqn:Ex; try discriminate; destruct (adesc x y) eqn:Ey; cbn [desc_eqb andb orb];
  try (pose proof (apart_run x y) as K; rewrite Ex in K; apply K; auto; fail).
  - destruct y as [y|]; cbn [adesc adata] in *; [|congruence]. pose proof (wrapping_run x y n Wx Wy) as K. rewrite Ex in K. exact K.
  - destruct y as [y|]; cbn [adesc adata] in *; [|congruence]. pose proof (wrapping_run x y n Wx Wy) as K. rewrite Ex in K. exact K.
Qed.

Lemma product_desc_sign x y : number (desc x) = true -> product_desc (desc x) (adesc x y) = product_sign (shown B x) (sees B x y).
Proof.
  intros Nx. unfold product_desc, product_sign, opposites. cbn [shown sees csign].
  destruct (desc x); try discriminate; destruct (adesc x y); reflexivity.
Qed.
End Op.

(** An arithmetic that multiplies rightly up to the lengths N (in all) and m (of the shorter operand). *)
Definition multiplies_within (L : limits) (P : flops) (N m : Z) : Prop :=
  0 <= bmax L /\ m * (bmax L * base L) <= 2 ^ wd L /\
  forall fuel a b, digits_ok (base L) a -> digits_ok (base L) b -> (0 < length a + length b)%nat ->
    Z.of_nat (length a + length b) <= N -> Z.log2_up N < Z.of_nat fuel -> multiplies L P fuel a b.

Lemma ieee_within ct cosf sinf L N m : accurate cosf sinf -> In (L, N, m) safe_lengths -> multiplies_within L (ieee ct cosf sinf) N m.
Proof.
  intros HA Hin. destruct (safe_lengths_numbers L N m Hin) as (HL & HN & Hq & HM & Hm0 & Hc & _). split; [exact HM|]. split; [exact Hc|].
  intros fuel a b Da Db P F1 Hf. apply mul_ieee; auto; [lia| |].
  - pose proof (Z.log2_up_le_mono _ _ F1). lia.
  - apply (length_precision L _ _ N); auto. unfold base. lia.
Qed.

Section MulDiv.
Context (P : flops) (L : limits) (N m : Z) (HP : multiplies_within L P N m) (HD : can_double L = true).
Let B := base L.
Let HLk : limits_ok L = true := DivisionProof.HL L HD.
Let HBk : 2 <= B := AddSubProof.HB L HLk.
Context (al : nat -> bool) (Hal : forall k, al k = true).

Theorem times_run fuel x y n : number (desc x) = true -> wf B (data x) -> wf B (adata x y) -> Z.log2_up N < Z.of_nat fuel ->
  agrees (settled (holds B)) (times B N m (shown B x) (sees B x y)) (op_mul_assign L P fuel x y al n).
Proof.
  intros Nx Wx Wy Hf. unfold op_mul_assign. rewrite computable_number, Nx. cbn [negb]. apply agrees_guarded. unfold times.
  rewrite (product_desc_sign L x y Nx). change (base L) with B. generalize (product_sign (shown B x) (sees B x y)). intros d. unfold shown, sees. cbn [cmag].
  pose proof (digits_mag B HBk _ Wx) as Gx. pose proof (digits_mag B HBk _ Wy) as Gy. destruct Wx as [Dx Wx], Wy as [Dy Wy].
  assert ((0 < length (data x) + length (adata x y))%nat -> fits B N m (magof B (data x)) (magof B (adata x y)) = true ->
    agrees (holds B) (Is (mkC d (packed (amount (magof B (data x)) * amount (magof B (adata x y))))))
      ((v <- mul_strassen L P fuel (data x) (adata x y) ;; ret (mkBN d v)) al n)) as K.
  { intros Hp F. unfold fits in F. rewrite Gx, Gy in F. apply andb_true_iff in F. destruct F as [F1 F2]. apply Z.leb_le in F1, F2.
    destruct HP as (HM & Hc & HQ). destruct (HQ fuel _ _ Dx Dy Hp F1 Hf) as [K _].
    specialize (K ltac:(apply (C16_columns_fit L x (mkBN BN_POS (adata x y))); auto; eapply Z.le_trans; [|exact Hc];
      apply Z.mul_le_mono_nonneg_r; [unfold B, base in *; nia|exact F2])).
    destruct (yields_run _ _ al n K Hal) as (r & n' & E & D & C & V). unfold bind. rewrite E, !amount_mag. eexists _, _. split; [reflexivity|].
    split; [split; [exact D|left; exact C]|]. unfold shown. cbn [desc data]. f_equal. apply (mag_packed B HBk); auto. }
  destruct (list_eq_dec Z.eq_dec (data x) []) as [Ex|Ex].
  - destruct (list_eq_dec Z.eq_dec (adata x y) []) as [Ey|Ey].
    + rewrite Ex, Ey. cbn [magof agrees]. unfold bind. rewrite mul_strassen_nil, Hal. reflexivity.
    + destruct (adata x y) as [|e t] eqn:E; [congruence|]. rewrite <- E in *. rewrite (mag_some B _ Ey) in *.
      destruct (magof B (data x)); (destruct (fits B N m _ _); [|exact I]); apply K; auto; rewrite E; cbn; lia.
  - rewrite (mag_some B _ Ex) in *. destruct (fits B N m (Some (value B (data x))) (magof B (adata x y))) eqn:F; [|exact I].
    apply K; auto. destruct (data x); [congruence|cbn; lia].
Qed.

Lemma wf_digit d : wf B [d] -> value B [d] = d.
Proof. intros _. cbn [value]. lia. Qed.

Lemma wf_one v : wf B v -> value B v = 1 -> v = [1].
Proof.
  intros [D W] V. apply (value_inj B HBk); auto.
  - repeat constructor; lia.
  - destruct W as [W|W]; [exact W|subst; cbn in V; lia].
  - unfold canonical. cbn. lia.
  - rewrite V. cbn [value]. lia.
Qed.

Theorem over_run fuel x y n : number (desc x) = true -> wf B (data x) -> wf B (adata x y) -> Z.log2 (value B (data x)) + 2 <= Z.of_nat fuel ->
  agrees (settled (holds B)) (over (shown B x) (sees B x y)) (op_div_assign L false fuel x y al n).
Proof.
  intros Nx Wx Wy Hf. unfold op_div_assign. rewrite computable_number, Nx. cbn [negb]. cbv zeta.
  rewrite (product_desc_sign L x y Nx). change (base L) with B. unfold over.
  generalize (match y with Other n0 => desc n0 | Self => product_sign (shown B x) (sees B x y) end). intros nd.
  assert (product_sign (shown B x) (sees B x y) = BN_POS \/ product_sign (shown B x) (sees B x y) = BN_NEG) as Hd
    by (unfold product_sign; destruct (opposites _ _); auto).
  revert Hd. generalize (product_sign (shown B x) (sees B x y)). intros d Hd. unfold shown, sees. cbn [cmag].
  rewrite !(bmin_wrap L HLk), (one_wrap L HLk).
  assert (forall v : list Z, match v with [a] => a =? 0 | _ => false end = true <-> v = [0]) as T0.
  { intros [|a [|b r]]; split; intros H; try discriminate; [apply Z.eqb_eq in H; congruence|injection H as ->; reflexivity]. }
  assert (forall v : list Z, match v with [a] => a =? 1 | _ => false end = true <-> v = [1]) as T1.
  { intros [|a [|b r]]; split; intros H; try discriminate; [apply Z.eqb_eq in H; congruence|injection H as ->; reflexivity]. }
  set (t0 := match adata x y with [a] => a =? 0 | _ => false end).
  set (t1 := match adata x y with [a] => a =? 1 | _ => false end).
  pose proof (T0 (adata x y)) as U0. pose proof (T1 (adata x y)) as U1. fold t0 in U0. fold t1 in U1. clearbody t0 t1.
  pose proof (value_bounds B HBk _ (proj1 Wx)) as Vx. pose proof (value_bounds B HBk _ (proj1 Wy)) as Vy.
  destruct t0.
  { rewrite (proj1 U0 eq_refl). cbn [magof value]. replace (0 + B * 0) with 0 by lia. cbn [agrees].
    eexists _, _. split; [reflexivity|]. split; [reflexivity|]. split; [apply wf_nil|].
    unfold shown. cbn [fst desc data magof]. destruct Hd as [-> | ->]; reflexivity. }
  assert (adata x y <> [0]) as N0 by (intros E; apply U0 in E; discriminate). clear U0.
  destruct t1.
  { rewrite (proj1 U1 eq_refl). cbn [magof value]. replace (1 + B * 0) with 1 by lia. cbn [agrees].
    eexists _, _. split; [reflexivity|]. split; [reflexivity|]. split; [exact Wx|reflexivity]. }
  assert (adata x y <> [1]) as N1 by (intros E; apply U1 in E; discriminate). clear U1.
  assert (match magof B (adata x y) with Some 0 => Is (mkC (match d with BN_NEG => BN_NEG_INF | _ => BN_POS_INF end) None)
    | Some 1 => Is (mkC d (magof B (data x)))
    | b => if amount (magof B (data x)) =? 0 then Is (mkC d (magof B (data x)))
         else match b with None => Endless | Some q => Is (mkC d (Some (if amount (magof B (data x)) =? q then 0 else amount (magof B (data x)) / q))) end end
    = if value B (data x) =? 0 then Is (mkC d (magof B (data x))) else
      match adata x y with [] => Endless | _ => Is (mkC d (Some (if value B (data x) =? value B (adata x y) then 0 else value B (data x) / value B (adata x y)))) end) as Eo.
  { rewrite amount_mag. destruct (list_eq_dec Z.eq_dec (adata x y) []) as [E|E]; [rewrite E; reflexivity|].
    rewrite (mag_some B _ E). pose proof (wf_one _ Wy) as W1.
    assert (value B (adata x y) <> 0) as V0.
    { intros V. destruct (weak_zero L HLk _ (proj1 Wy) (proj2 Wy) V); contradiction. }
    destruct (adata x y) as [|e t]; [congruence|]. destruct (value B (e :: t)) as [|[p|p|]|p]; try congruence; try reflexivity. exfalso; auto. }
  rewrite Eo. clear Eo.
  destruct (Z.eqb_spec (value B (data x)) 0) as [Zx|NZx].
  { assert ((match data x with [] => true | [x0] => x0 =? 0 | _ => false end) = true) as ->.
    { destruct (weak_zero L HLk _ (proj1 Wx) (proj2 Wx) Zx) as [E|E]; rewrite E; reflexivity. }
    eexists _, _. split; [reflexivity|]. split; [reflexivity|]. split; [exact Wx|reflexivity]. }
  assert ((match data x with [] => true | [x0] => x0 =? 0 | _ => false end) = false) as ->.
  { destruct (data x) as [|a [|b r]]; [cbn in NZx; lia| |reflexivity]. apply Z.eqb_neq. intros ->. cbn [value] in NZx. lia. }
  apply agrees_guarded. unfold bind at 1. rewrite (abs_val_is_gt_pure _ _ al n).
  assert (canonical (data x)) as Cx by (apply (weak_nonzero L); [apply Wx|exact NZx]).
  assert (canonical (adata x y)) as Cy by (destruct (proj2 Wy); [assumption|contradiction]).
  destruct (list_eq_dec Z.eq_dec (adata x y) []) as [Ey|Ny].
  { rewrite Ey. assert (gtb (data x) [] = true) as -> by (destruct (data x); [cbn in NZx; lia|reflexivity]).
    cbn [agrees]. unfold bind. pose proof (abs_val_div_nil L HD (data x) fuel al n) as K.
    destruct (abs_val_div L false fuel (data x) [] al n); try contradiction; [|reflexivity].
    destruct K as (_ & k & _ & K). rewrite Hal in K. discriminate. }
  replace (match adata x y with [] => Endless | _ => _ end)
    with (Is (mkC d (Some (if value B (data x) =? value B (adata x y) then 0 else value B (data x) / value B (adata x y)))))
    by (destruct (adata x y); [congruence|reflexivity]).
  assert (0 < value B (adata x y)) as Py.
  { destruct (Z.eq_dec (value B (adata x y)) 0) as [E|]; [|lia]. apply (value_zero_canonical B HBk) in E; auto; [contradiction|apply Wy]. }
  cbn [agrees]. destruct (gtb (data x) (adata x y)) eqn:Eg.
  - destruct (yields_run _ _ al n (yields_may_and _ _ _ (abs_val_div_spec L HD (data x) (adata x y) fuel (conj (proj1 Wx) Cx) (conj (proj1 Wy) Cy) Py Hf)
      (div_nonempty L false fuel (data x) (adata x y))) Hal) as (r & n' & E & (D & W & V) & Nr).
    unfold bind. rewrite E. eexists _, _. split; [reflexivity|]. split; [split; auto|]. unfold shown. cbn [desc data]. rewrite (mag_some B _ Nr). repeat f_equal.
    fold B in V. rewrite V. destruct (Z.eqb_spec (value B (data x)) (value B (adata x y))) as [Q|Q]; [|reflexivity].
    apply (value_inj B HBk) in Q; auto; [|apply Wx|apply Wy]. rewrite Q, gtb_refl in Eg. discriminate.
  - pose proof (gtb_false_le B HBk _ _ (proj1 Wx) (proj1 Wy) Cy Eg) as Hle.
    assert (yields (vcopy [0]) (fun t => t = [0])) as K by (apply yields_vcopy; reflexivity).
    destruct (yields_run _ _ al n K Hal) as (? & n1 & E1 & ->). unfold bind. rewrite E1. eexists _, _. split; [reflexivity|].
    split; [apply wf_zero; exact HBk|]. unfold shown. cbn [desc data magof value]. repeat f_equal.
    destruct (Z.eqb_spec (value B (data x)) (value B (adata x y))) as [Q|Q]; [lia|]. rewrite Z.div_small; lia.
Qed.

Theorem calc_run fuel keep op x y n : wf B (data x) -> wf B (adata x y) ->
  Z.log2_up N < Z.of_nat fuel -> Z.log2 (value B (data x)) + 2 <= Z.of_nat fuel ->
  agrees (settled (holds B)) (calc B N m op (shown B x) (sees B x y)) (compound (mkEnv L false P fuel keep) op x y al n).
Proof.
  intros Wx Wy Hm Hf. unfold calc. change (csign (shown B x)) with (desc x). destruct (number (desc x)) eqn:Nx.
  - destruct op; cbn [compound eL eDbg eP eFuel].
    + apply plus_run; auto.
    + apply minus_run; auto.
    + apply times_run; auto.
    + apply over_run; auto.
  - destruct op; cbn [compound eL eDbg eP eFuel]; unfold op_add_assign, op_sub_assign, op_mul_assign, op_div_assign;
    rewrite computable_number, Nx; cbn [negb]; (eexists _, _; split; [reflexivity|]; split; [reflexivity|]; split; [apply wf_nil|]; reflexivity).
Qed.

(** ** Statements *)
Definition stored (s : regs) (v : cstate) : Prop := forall r, holds B (s r) (v r).

Lemma stored_upd s v r x z : stored s v -> holds B x z -> stored (upd s r x) (cset v r z).
Proof. intros H K i. unfold upd, cset. destruct (i =? r)%nat; auto. Qed.

Lemma agrees_then {A C D E} (R : A -> C -> Prop) (S : D -> E -> Prop) o f (mm : M A) k n :
  agrees R o (mm al n) -> (forall a c n', R a c -> agrees S (f c) (k a al n')) -> agrees S (andthen o f) (bind mm k al n).
Proof.
  unfold bind. destruct o; cbn [andthen agrees]; auto.
  - intros (x & n' & -> & H) K. apply K, H.
  - intros (u & ->) _. exists u. reflexivity.
  - intros -> _. reflexivity.
Qed.

Theorem cstep_run i v : exists enough : nat, forall fuel keep s n, (enough <= fuel)%nat -> stored s v ->
  agrees stored (cstep B N m i v) (step (mkEnv L false P fuel keep) i s al n).
Proof.
  pose proof (Z.log2_up_nonneg N) as LN.
  exists (Z.to_nat (Z.log2_up N + 1) + match i with
    | IAssign _ r _ => Z.to_nat (Z.log2 (amount (cmag (v r))) + 2) | IBinary _ _ t _ => Z.to_nat (Z.log2 (amount (cmag (v t))) + 2) | _ => 0 end)%nat.
  intros fuel keep s n Hf Hs.
  assert (forall r, v r = shown B (s r)) as Ev by (intros r; symmetry; apply Hs).
  assert (forall r, wf B (data (s r))) as Wv by (intros r; apply Hs).
  destruct i; cbn [cstep step eL eKeep] in *; try exact I.
  - destruct (forallb (digit_range B) l) eqn:El; [|exact I].
    assert (digits_ok B l) as Dl.
    { apply Forall_forall. intros z Hz. rewrite forallb_forall in El. specialize (El z Hz). unfold digit_range in El. apply andb_true_iff in El. lia. }
    unfold store. cbn [agrees]. unfold bind, attempt. rewrite make_spec by (pose proof (AddSubProof.limits_ok_facts L HLk); tauto).
    destruct (make_good L BN_POS l HLk (or_introl eq_refl) Dl) as [(_ & Gd & Gw) V]. unfold signed_value in V. cbn [desc data sign_of] in *.
    assert (holds B (mkBN d (rev (strip l))) (mkC d (packed (reading B l)))) as H.
    { split; [split; auto|]. unfold shown. cbn [desc data]. f_equal. apply (mag_packed B HBk); auto; [apply (canonical_strip L)|].
      change (reading B l) with (written_value (base L) l). unfold B. lia. }
    destruct l as [|e t].
    + eexists _, _. split; [reflexivity|]. apply stored_upd; auto.
    + rewrite Hal. eexists _, _. split; [reflexivity|]. apply stored_upd; auto.
  - unfold bind, operand. destruct (Nat.eqb_spec s0 r) as [->|Ne].
    + eexists _, n. split; [reflexivity|]. cbn [fst]. apply stored_upd; auto.
    + rewrite (proj1 (C40_copy_assign _ _ al n)), Hal. eexists _, _. split; [reflexivity|]. cbn [fst]. apply stored_upd; auto.
  - destruct (Nat.eqb_spec s0 r) as [->|Ne]; [exact I|]. eexists _, n. split; [reflexivity|]. apply stored_upd; auto. apply stored_upd; auto.
    split; [apply wf_nil|reflexivity].
  - rewrite (Ev r), (Ev s0) in *. eapply agrees_then with (R := settled (holds B)).
    + assert (shown B (s s0) = sees B (s r) (operand s r s0)) as ->.
      { unfold operand, sees, shown. destruct (Nat.eqb_spec s0 r) as [->|]; reflexivity. }
      apply calc_run; auto; try lia.
      * unfold operand. destruct (s0 =? r)%nat; cbn [adata]; auto.
      * unfold shown in Hf. cbn [cmag] in Hf. rewrite amount_mag in Hf. lia.
    + intros [b o] c n' [Eo Hb]. cbn [fst snd] in *. eexists _, _. split; [reflexivity|]. apply stored_upd; auto.
  - rewrite (Ev s0), (Ev t) in *. unfold shown in Hf. cbn [cmag] in Hf. rewrite amount_mag in Hf.
    pose proof (calc_run fuel keep op (s s0) (Other (s t)) (S n) (Wv s0) (Wv t) ltac:(lia) ltac:(lia)) as K.
    change (sees B (s s0) (Other (s t))) with (shown B (s t)) in K.
    unfold store, bind, attempt. rewrite binary_eq, Hal.
    destruct (calc B N m op (shown B (s s0)) (shown B (s t))) as [c| | |]; cbn [andthen agrees] in *; auto.
    + destruct K as ([b o] & n' & -> & Eo & Hb). cbn [fst snd] in *. subst o. eexists _, _. split; [reflexivity|]. apply stored_upd; auto.
    + destruct K as (u & ->). exists u. reflexivity.
    + rewrite K. reflexivity.
  - eexists _, n. split; [reflexivity|]. apply stored_upd; auto. rewrite (Ev r). unfold setDescriptor, shown.
    destruct d; (split; [first [apply Wv|apply wf_nil]|reflexivity]).
  - eexists _, n. split; [reflexivity|]. apply stored_upd; auto. split; [apply wf_nil|reflexivity].
  - (* push_front *) rewrite (Ev r). unfold shown. cbn [cmag csign]. destruct (Wv r) as [Dr Wr].
    assert (digit_range B d = true -> data (s r) <> [0] -> holds B (mkBN (desc (s r)) (d :: data (s r)))
      (mkC (desc (s r)) (Some (amount (magof B (data (s r))) * B + d)))) as H.
    { intros Hd Nz. unfold digit_range in Hd. apply andb_true_iff in Hd. rewrite amount_mag. split.
      - split; [constructor; [lia|exact Dr]|]. destruct Wr as [C|E]; [|contradiction]. destruct (data (s r)) as [|e t] eqn:Es.
        + destruct (Z.eq_dec d 0) as [-> |Nd]; [right; reflexivity|left; unfold canonical; cbn; exact Nd].
        + left. exact C.
      - unfold shown. cbn [desc data magof value]. do 2 f_equal. lia. }
    unfold store, bind, attempt, push_front, vinsert, alloc. cbn [Nat.leb firstn skipn app].
    destruct (magof B (data (s r))) as [z|] eqn:Em.
    + assert (data (s r) <> []) as Nn by (intros E; rewrite E in Em; discriminate).
      pose proof (mag_some B _ Nn) as Em'. rewrite Em in Em'. injection Em' as ->.
      destruct (Z.eq_dec (value B (data (s r))) 0) as [V|V]; [rewrite V; exact I|].
      assert (data (s r) <> [0]) as Nz by (intros E; rewrite E in V; cbn [value] in V; lia).
      assert (forall o : outcome cstate, match value B (data (s r)) with 0 => Unknown | _ => o end = o) as R0
        by (intros o; destruct (value B (data (s r))); [lia|reflexivity|reflexivity]).
      rewrite R0. clear R0.
      destruct (digit_range B d) eqn:Hd; [|exact I]. unfold bind. rewrite Hal. cbn. eexists _, _. split; [reflexivity|]. apply stored_upd; auto.
    + destruct (digit_range B d) eqn:Hd; [|exact I]. assert (data (s r) = []) as E by (destruct (data (s r)); [reflexivity|discriminate]).
      unfold bind. rewrite Hal. cbn. eexists _, _. split; [reflexivity|]. apply stored_upd; auto. apply H; auto. rewrite E. discriminate.
  - (* pop_front *) rewrite (Ev r). unfold shown. cbn [cmag csign]. destruct (Wv r) as [Dr Wr].
    unfold store, bind, attempt, pop_front, verase, undef, ret. destruct (data (s r)) as [|e t] eqn:Es; cbn [magof].
    + exists UB_iterator. unfold bind. reflexivity.
    + unfold bind. cbn. eexists _, _. split; [reflexivity|]. apply stored_upd; auto. inversion Dr as [|? ? He Ht]; subst.
      assert (canonical t) as Ct.
      { destruct t as [|e' t]; [unfold canonical; cbn; lia|]. destruct Wr as [C|E]; [exact C|discriminate]. }
      split; [split; [exact Ht|left; exact Ct]|]. unfold shown. cbn [desc data]. f_equal. apply (mag_packed B HBk); auto.
      rewrite (Z.mul_comm B), Z.div_add by lia. rewrite Z.div_small by exact He. lia.
Qed.

Theorem crun_run k : forall p v, exists enough : nat, forall fuel keep s n, (enough <= fuel)%nat -> stored s v ->
  agrees stored (crun B N m k p v) (srun (mkEnv L false P fuel keep) k p s al n).
Proof.
  assert (forall c x y s v n (T : Type) (a b : M T), stored s v ->
    (t <- compare c (s x) (s y) ;; if (t : bool) then a else b) al n = if ask B c (v x) (v y) then a al n else b al n) as Hc.
  { intros c x y s v n T a b Hs. unfold bind. destruct (Hs x) as [Wx <-], (Hs y) as [Wy <-]. rewrite (ask_run B HBk c _ _ Wx Wy).
    destruct (ask B c _ _); reflexivity. }
  induction k as [|k IH]; intros p v.
  - exists 0%nat. intros fuel keep s n _ _. reflexivity.
  - destruct p as [i|p q|c x y p q|c x y p]; cbn [crun srun].
    + apply cstep_run.
    + destruct (IH p v) as [e1 K1]. destruct (crun B N m k p v) as [w| | |] eqn:E.
      * destruct (IH q w) as [e2 K2]. exists (Nat.max e1 e2). intros fuel keep s n Hf Hs. cbn [andthen].
        destruct (K1 fuel keep s n ltac:(lia) Hs) as (s1 & n1 & E1 & S1). unfold bind. rewrite E1. apply K2; auto; lia.
      * exists e1. intros fuel keep s n Hf Hs. destruct (K1 fuel keep s n Hf Hs) as (u & E1). exists u. unfold bind. rewrite E1. reflexivity.
      * exists e1. intros fuel keep s n Hf Hs. pose proof (K1 fuel keep s n Hf Hs) as E1. cbn in E1 |- *. unfold bind. rewrite E1. reflexivity.
      * exists 0%nat. intros. exact I.
    + destruct (IH p v) as [e1 K1]. destruct (IH q v) as [e2 K2]. exists (Nat.max e1 e2). intros fuel keep s n Hf Hs. rewrite (Hc c x y s v) by exact Hs.
      destruct (ask B c (v x) (v y)); [apply K1|apply K2]; auto; lia.
    + destruct (IH p v) as [e1 K1]. destruct (crun B N m k p v) as [w| | |] eqn:E.
      * destruct (IH (While c x y p) w) as [e2 K2]. exists (Nat.max e1 e2). intros fuel keep s n Hf Hs. rewrite (Hc c x y s v) by exact Hs.
        destruct (ask B c (v x) (v y)); [|exists s, n; auto]. cbn [andthen].
        destruct (K1 fuel keep s n ltac:(lia) Hs) as (s1 & n1 & E1 & S1). unfold bind. rewrite E1. apply K2; auto; lia.
      * exists e1. intros fuel keep s n Hf Hs. rewrite (Hc c x y s v) by exact Hs. destruct (ask B c (v x) (v y)); [|exists s, n; auto].
        destruct (K1 fuel keep s n Hf Hs) as (u & E1). exists u. unfold bind. rewrite E1. reflexivity.
      * exists e1. intros fuel keep s n Hf Hs. rewrite (Hc c x y s v) by exact Hs. destruct (ask B c (v x) (v y)); [|exists s, n; auto].
        pose proof (K1 fuel keep s n Hf Hs) as E1. cbn in E1 |- *. unfold bind. rewrite E1. reflexivity.
      * exists 0%nat. intros fuel keep s n Hf Hs. rewrite (Hc c x y s v) by exact Hs. destruct (ask B c (v x) (v y)); [exact I|exists s, n; auto].
Qed.
End MulDiv.
