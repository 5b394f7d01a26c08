(** * abs_val_add and abs_val_sub are exact *)
From Verif Require Import Base Spec Limits Compare AddSub Wp ValueProof CompareProof.

Lemma limits_ok_facts L : limits_ok L = true ->
  0 < ws L /\ ws L <= wd L /\ bmin L = 0 /\ 2 <= base L /\ base L <= 2 ^ ws L /\ 2 * base L <= 2 ^ wd L.
Proof.
  unfold limits_ok, base. rewrite !Bool.andb_true_iff, !Z.leb_le, Z.ltb_lt, Z.eqb_eq. lia.
Qed.

Lemma wrap_small w z : 0 <= z < 2 ^ w -> wrap w z = z.
Proof. intros H; unfold wrap; apply Z.mod_small; auto. Qed.

Lemma nth_error_skipn {A} (v : list A) k : nth_error v k = hd_error (skipn k v).
Proof. revert v; induction k as [|k IH]; intros [|x v]; cbn; auto. Qed.

Lemma skipn_S_tl {A} (v : list A) k : skipn (S k) v = tl (skipn k v).
Proof. revert v; induction k as [|k IH]; intros [|x v]; cbn; auto. apply (IH v). Qed.

Lemma canonical_of_value B a : 2 <= B -> digits_ok B a -> a <> [] ->
  B ^ (Z.of_nat (length a) - 1) <= value B a -> canonical a.
Proof.
  intros HB Hd Hn Hv. destruct (list_snoc_case a) as [->|(u & x & ->)]; [congruence|].
  apply canonical_snoc. intros ->. apply digits_ok_app in Hd as [Hu _].
  rewrite value_snoc, app_length in Hv. cbn [length] in Hv.
  replace (Z.of_nat (length u + 1) - 1) with (Z.of_nat (length u)) in Hv by lia.
  pose proof (value_bounds B HB u Hu). lia.
Qed.

(** reading the second operand at the current position *)
Lemma in_digit_pure (b : list Z) k :
  pure (if (k <? length b)%nat then vget b k else ret 0) (hd 0 (skipn k b)).
Proof.
  intros al n. destruct (Nat.ltb_spec k (length b)) as [H|H].
  - unfold vget. rewrite nth_error_skipn. destruct (skipn k b) eqn:E; [|reflexivity].
    assert (length (skipn k b) = 0%nat) by (rewrite E; reflexivity). rewrite skipn_length in *. lia.
  - rewrite skipn_all2 by lia. reflexivity.
Qed.

Section Proof.
Context (L : limits) (HL : limits_ok L = true).
Let B := base L.

Lemma HB : 2 <= B.
Proof. unfold B. apply limits_ok_facts in HL. lia. Qed.

Lemma HBws : B <= 2 ^ ws L.
Proof. unfold B. apply limits_ok_facts in HL. lia. Qed.

Lemma HBwd : 2 * B <= 2 ^ wd L.
Proof. unfold B. apply limits_ok_facts in HL. lia. Qed.

(** one digit of an addition *)
Definition add_digit (s : Z) : M (Z * Z) :=
  if bmax L <? wrap (wd L) s then
    (if wrap (wd L) (bmax L + 1) =? 0 then undef UB_div_zero
     else ret (wrap (ws L) (wrap (wd L) s mod wrap (wd L) (bmax L + 1)), 1))
  else ret (wrap (ws L) (wrap (wd L) s), 0).

Lemma add_digit_total s : exists d c, pure (add_digit s) (d, c) /\ (c = 0 \/ c = 1) /\
  (0 <= s <= bmax L -> d = s /\ c = 0).
Proof.
  pose proof HB; pose proof HBws; pose proof HBwd. unfold B, base in *. unfold add_digit.
  assert (wrap (wd L) (bmax L + 1) = bmax L + 1) as E by (apply wrap_small; lia).
  rewrite E. rewrite (proj2 (Z.eqb_neq (bmax L + 1) 0)) by lia.
  destruct (Z.ltb_spec (bmax L) (wrap (wd L) s)) as [Hc|Hc]; do 2 eexists;
    (split; [apply pure_ret|split; [auto|]]).
  - intros Hs. rewrite wrap_small in Hc by lia. lia.
  - intros Hs. rewrite (wrap_small (wd L) s) by lia. rewrite wrap_small by lia. split; lia.
Qed.

Lemma add_digit_ok x y rem : 0 <= x < B -> 0 <= y < B -> 0 <= rem <= 1 ->
  exists d c, pure (add_digit (x + y + rem)) (d, c) /\ 0 <= d < B /\ 0 <= c <= 1 /\
              x + y + rem = d + B * c.
Proof.
  intros Hx Hy Hr. pose proof HB; pose proof HBws; pose proof HBwd. unfold add_digit.
  assert (bmax L + 1 = B) as E by reflexivity.
  rewrite (wrap_small (wd L) (x + y + rem)) by lia. rewrite E, (wrap_small (wd L) B) by lia.
  rewrite (proj2 (Z.eqb_neq B 0)) by lia.
  destruct (Z.ltb_spec (bmax L) (x + y + rem)) as [Hc|Hc].
  - assert ((x + y + rem) mod B = x + y + rem - B) as Em.
    { symmetry; apply Z.mod_unique with 1; lia. }
    exists (x + y + rem - B), 1. rewrite Em, wrap_small by lia. split; [apply pure_ret|]. lia.
  - exists (x + y + rem), 0. rewrite wrap_small by lia. split; [apply pure_ret|]. lia.
Qed.

Definition grown (rest inrest new : list Z) : Prop :=
  let n := Nat.max 1 (Nat.max (length rest) (length inrest)) in
  length new = n \/ (length new = S n /\ B ^ Z.of_nat n <= value B new).

(** The loop body after the push, with the two vectors split at the current position *)
Lemma add_step (inv : view) f done x rest b rem R :
  inv (done ++ x :: rest) = b ->
  (forall d c, pure (add_digit (x + hd 0 (skipn (length done) b) + rem)) (d, c) ->
     yields (if ((S (length done) =? length (done ++ d :: rest))%nat
                 && (length (inv (done ++ d :: rest)) <=? S (length done))%nat && (c =? 0))
             then ret (done ++ d :: rest)
             else add_loop L inv f (done ++ d :: rest) (S (length done)) (S (length done)) c) R) ->
  yields
    (inDigit <- (if (length done <? length (inv (done ++ x :: rest)))%nat
                 then vget (inv (done ++ x :: rest)) (length done) else ret 0) ;;
     o <- vget (done ++ x :: rest) (length done) ;;
     dr <- add_digit (o + inDigit + rem) ;;
     out <- vset (done ++ x :: rest) (length done) (fst dr) ;;
     if ((S (length done) =? length out)%nat && (length (inv out) <=? S (length done))%nat
         && (snd dr =? 0))
     then ret out
     else add_loop L inv f out (S (length done)) (S (length done)) (snd dr)) R.
Proof.
  intros Hinv H. rewrite Hinv.
  destruct (add_digit_total (x + hd 0 (skipn (length done) b) + rem)) as (d & c & Hp & _).
  eapply yields_bind with (Q := fun i => i = hd 0 (skipn (length done) b)).
  { eapply yields_pure; [apply in_digit_pure|reflexivity]. }
  intros i ->. rewrite vget_app. eapply yields_bind with (Q := fun o => o = x); [apply yields_ret; auto|].
  intros o ->. eapply yields_bind with (Q := fun dc => dc = (d, c)).
  { eapply yields_pure; [exact Hp|reflexivity]. }
  intros dc ->. cbn [fst snd]. rewrite vset_app.
  eapply yields_bind with (Q := fun o => o = done ++ d :: rest); [apply yields_ret; auto|].
  intros o ->. apply H; auto.
Qed.

(** unfolding of the loop into that shape *)
Lemma add_loop_unfold inv f out oi ii rem :
  add_loop L inv (S f) out oi ii rem =
  (out <- (if (oi =? length out)%nat then vpush out 0 else ret out) ;;
   inDigit <- (if (ii <? length (inv out))%nat then vget (inv out) ii else ret 0) ;;
   o <- vget out oi ;;
   dr <- add_digit (o + inDigit + rem) ;;
   out <- vset out oi (fst dr) ;;
   if ((S oi =? length out)%nat && (length (inv out) <=? S ii)%nat && (snd dr =? 0))
   then ret out
   else add_loop L inv f out (S oi) (S ii) (snd dr)).
Proof. reflexivity. Qed.

(** the push: afterwards there is a digit at the current position *)
Lemma push_step done rest (k : list Z -> M (list Z)) R :
  (forall x rest', (rest = x :: rest' \/ rest = [] /\ x = 0 /\ rest' = []) ->
     yields (k (done ++ x :: rest')) R) ->
  yields (out <- (if (length done =? length (done ++ rest))%nat then vpush (done ++ rest) 0
                  else ret (done ++ rest)) ;; k out) R.
Proof.
  intros H. destruct rest as [|x rest].
  - rewrite app_nil_r, Nat.eqb_refl. eapply yields_bind with (Q := fun o => o = done ++ [0]).
    + apply yields_vpush; auto.
    + intros o ->. apply H; auto.
  - rewrite (proj2 (Nat.eqb_neq _ _)) by (rewrite app_length; cbn; lia).
    eapply yields_bind with (Q := fun o => o = done ++ x :: rest); [apply yields_ret; auto|].
    intros o ->. apply H; auto.
Qed.

Lemma pure_det {A} (m : M A) a a' : pure m a -> pure m a' -> a = a'.
Proof.
  intros H1 H2. specialize (H1 never_fails 0%nat). specialize (H2 never_fails 0%nat). congruence.
Qed.

Lemma add_loop_other b : digits_ok B b -> forall fuel done rest rem,
  digits_ok B rest -> 0 <= rem <= 1 ->
  (Nat.max (length rest) (length (skipn (length done) b)) + 2 <= fuel)%nat ->
  yields (add_loop L (other b) fuel (done ++ rest) (length done) (length done) rem)
    (fun r => exists new, r = done ++ new /\ digits_ok B new /\
       value B new = value B rest + value B (skipn (length done) b) + rem /\
       grown rest (skipn (length done) b) new).
Proof.
  pose proof HB as HB.
  intros Hb. induction fuel as [|f IH]; intros done rest rem Hr Hrem Hf; [lia|].
  rewrite add_loop_unfold. apply push_step. intros x rest' Hx.
  assert (0 <= x < B /\ digits_ok B rest' /\ value B rest = x + B * value B rest' /\
          Nat.max 1 (length rest) = S (length rest')) as (Hx1 & Hr' & Hv & Hlen).
  { destruct Hx as [->|(-> & -> & ->)].
    - inversion_clear Hr; cbn [value length]; repeat split; auto; try tauto; lia.
    - cbn [value length]; repeat split; try lia. constructor. }
  assert (tl (skipn (length done) b) = skipn (S (length done)) b) as Htl by (symmetry; apply skipn_S_tl).
  pose proof (digits_ok_skipn B (length done) b Hb) as Hs.
  apply add_step with (b := b); [reflexivity|]. intros d c Hp.
  set (inr := skipn (length done) b) in *. set (inr' := skipn (S (length done)) b) in *.
  assert (0 <= hd 0 inr < B /\ digits_ok B inr' /\ value B inr = hd 0 inr + B * value B inr' /\
          Nat.max 1 (length inr) = S (length inr')) as (Hy & Hi' & Hvi & Hleni).
  { rewrite <- Htl. destruct inr as [|y inr0]; cbn [hd tl value length].
    - repeat split; try lia; constructor.
    - inversion_clear Hs; repeat split; auto; try tauto; lia. }
  destruct (add_digit_ok x (hd 0 inr) rem) as (d' & c' & Hp' & Hd & Hc & He); auto.
  pose proof (pure_det _ _ _ Hp Hp') as Edc. injection Edc as -> ->. clear Hp Hp'.
  assert (length b <= S (length done) <-> inr' = [])%nat as Hnil.
  { unfold inr'. split; intros H.
    - apply skipn_all2; lia.
    - apply (f_equal (@length Z)) in H. rewrite skipn_length in H. cbn in H. lia. }
  unfold other. rewrite app_length; cbn [length].
  destruct ((S (length done) =? length done + S (length rest'))%nat && (length b <=? S (length done))%nat
            && (c' =? 0)) eqn:Eexit.
  - rewrite !Bool.andb_true_iff, Nat.eqb_eq, Nat.leb_le, Z.eqb_eq in Eexit. destruct Eexit as [[E1 E2] ->].
    assert (rest' = []) as -> by (destruct rest'; cbn in E1; [auto|lia]).
    apply Hnil in E2. rewrite E2 in *. cbn [value length] in *.
    apply yields_ret. exists [d']. repeat split; auto.
    + constructor; [auto|constructor].
    + cbn [value]. lia.
    + left. cbn [length]. lia.
  - replace (done ++ d' :: rest') with ((done ++ [d']) ++ rest') by (rewrite <- app_assoc; reflexivity).
    replace (S (length done)) with (length (done ++ [d'])) by (rewrite app_length; cbn; lia).
    assert (skipn (length (done ++ [d'])) b = inr') as Einr.
    { unfold inr'. f_equal. rewrite app_length; cbn; lia. }
    eapply yields_mono.
    + apply IH; auto. rewrite Einr.
      assert (~ (rest' = [] /\ inr' = [] /\ c' = 0)) as Hne.
      { intros (-> & H2 & ->). apply Hnil in H2. cbn [length] in Eexit.
        rewrite (proj2 (Nat.eqb_eq _ _)), (proj2 (Nat.leb_le _ _)) in Eexit by lia. discriminate. }
      destruct (Nat.eq_dec (length rest) 0) as [Z1|Z1]; [destruct (Nat.eq_dec (length inr) 0) as [Z2|Z2]|].
      * (* both exhausted: no carry can remain *)
        exfalso. destruct rest; [|discriminate]. destruct inr; [|discriminate].
        destruct Hx as [Hx|(_ & -> & ->)]; [discriminate|]. cbn [hd] in *.
        apply Hne. repeat split; auto. nia.
      * lia.
      * lia.
    + intros r (new & -> & Hn & Hvn & Hg). rewrite Einr in *.
      exists (d' :: new). rewrite <- app_assoc. repeat split.
      * constructor; auto.
      * cbn [value]. rewrite Hvn, Hv, Hvi. nia.
      * unfold grown in *. cbn [length value].
        destruct (Nat.eq_dec (Nat.max (length rest') (length inr')) 0) as [Z0|Z0].
        -- assert (rest' = []) by (apply length_zero_iff_nil; lia).
           assert (inr' = []) as Hinr0 by (apply length_zero_iff_nil; lia). subst rest'.
           clear Htl Einr; clearbody inr'; subst inr'. cbn [value length] in *.
           assert (c' = 1) as ->.
           { destruct (Z.eq_dec c' 1) as [|H1]; auto. assert (c' = 0) as -> by lia.
             rewrite (proj2 (Nat.eqb_eq _ _)), (proj2 (Nat.leb_le _ _)) in Eexit; [discriminate| |lia].
             apply Hnil; reflexivity. }
           right. replace (Nat.max 1 (Nat.max (length rest) (length inr))) with 1%nat by lia.
           change (Z.of_nat 1) with 1. rewrite Z.pow_1_r.
           destruct Hg as [Hg|[Hg1 Hg2]].
           ++ split; [lia|]. rewrite Hvn. lia.
           ++ rewrite Hvn in Hg2. cbn [Nat.max] in Hg2. change (Z.of_nat 1) with 1 in Hg2. rewrite Z.pow_1_r in Hg2. lia.
        -- replace (Nat.max 1 (Nat.max (length rest) (length inr)))
             with (S (Nat.max 1 (Nat.max (length rest') (length inr')))) by lia.
           destruct Hg as [Hg|[Hg1 Hg2]]; [left; lia|right].
           split; [lia|]. rewrite pow_S. nia.
Qed.

Lemma add_loop_same : forall fuel done rest rem,
  digits_ok B rest -> 0 <= rem <= 1 -> (length rest + 2 <= fuel)%nat ->
  yields (add_loop L same fuel (done ++ rest) (length done) (length done) rem)
    (fun r => exists new, r = done ++ new /\ digits_ok B new /\
       value B new = 2 * value B rest + rem /\ grown rest rest new).
Proof.
  pose proof HB as HB.
  induction fuel as [|f IH]; intros done rest rem Hr Hrem Hf; [lia|].
  rewrite add_loop_unfold. apply push_step. intros x rest' Hx.
  assert (0 <= x < B /\ digits_ok B rest' /\ value B rest = x + B * value B rest' /\
          Nat.max 1 (length rest) = S (length rest')) as (Hx1 & Hr' & Hv & Hlen).
  { destruct Hx as [->|(-> & -> & ->)].
    - inversion_clear Hr; cbn [value length]; repeat split; auto; try tauto; lia.
    - cbn [value length]; repeat split; try lia. constructor. }
  apply add_step with (b := done ++ x :: rest'); [reflexivity|]. intros d c Hp.
  rewrite skipn_app, skipn_all, Nat.sub_diag in Hp. cbn [skipn app hd] in Hp.
  destruct (add_digit_ok x x rem) as (d' & c' & Hp' & Hd & Hc & He); auto.
  pose proof (pure_det _ _ _ Hp Hp') as Edc. injection Edc as -> ->. clear Hp Hp'.
  unfold same at 1. rewrite app_length; cbn [length].
  destruct ((S (length done) =? length done + S (length rest'))%nat
            && (length done + S (length rest') <=? S (length done))%nat && (c' =? 0)) eqn:Eexit.
  - rewrite !Bool.andb_true_iff, Nat.eqb_eq, Nat.leb_le, Z.eqb_eq in Eexit. destruct Eexit as [[E1 E2] ->].
    assert (rest' = []) as -> by (destruct rest'; cbn in E1; [auto|lia]).
    cbn [value length] in *.
    apply yields_ret. exists [d']. repeat split; auto.
    + constructor; [auto|constructor].
    + cbn [value]. lia.
    + left. cbn [length]. lia.
  - replace (done ++ d' :: rest') with ((done ++ [d']) ++ rest') by (rewrite <- app_assoc; reflexivity).
    replace (S (length done)) with (length (done ++ [d'])) by (rewrite app_length; cbn; lia).
    eapply yields_mono.
    + apply IH; auto.
      destruct (Nat.eq_dec (length rest) 0) as [Z1|Z1]; [|lia].
      exfalso. destruct rest; [|discriminate].
      destruct Hx as [Hx|(_ & -> & ->)]; [discriminate|].
      assert (c' = 0) as -> by nia. cbn [length] in Eexit.
      rewrite (proj2 (Nat.eqb_eq _ _)), (proj2 (Nat.leb_le _ _)) in Eexit by lia. discriminate.
    + intros r (new & -> & Hn & Hvn & Hg).
      exists (d' :: new). rewrite <- app_assoc. repeat split.
      * constructor; auto.
      * cbn [value]. rewrite Hvn, Hv. nia.
      * unfold grown in *. cbn [length value].
        destruct (Nat.eq_dec (length rest') 0) as [Z0|Z0].
        -- assert (rest' = []) by (destruct rest'; [auto|cbn in Z0; lia]). subst rest'.
           cbn [value length] in *.
           assert (c' = 1) as ->.
           { destruct (Z.eq_dec c' 1) as [|H1]; auto. assert (c' = 0) as -> by lia.
             rewrite (proj2 (Nat.eqb_eq _ _)), (proj2 (Nat.leb_le _ _)) in Eexit; [discriminate|lia|lia]. }
           right. replace (Nat.max 1 (Nat.max (length rest) (length rest))) with 1%nat by lia.
           change (Z.of_nat 1) with 1. rewrite Z.pow_1_r.
           destruct Hg as [Hg|[Hg1 Hg2]].
           ++ split; [lia|]. rewrite Hvn. lia.
           ++ rewrite Hvn in Hg2. cbn [Nat.max] in Hg2. change (Z.of_nat 1) with 1 in Hg2. rewrite Z.pow_1_r in Hg2. lia.
        -- replace (Nat.max 1 (Nat.max (length rest) (length rest)))
             with (S (Nat.max 1 (Nat.max (length rest') (length rest')))) by lia.
           destruct Hg as [Hg|[Hg1 Hg2]]; [left; lia|right].
           split; [lia|]. rewrite pow_S. nia.
Qed.

Theorem abs_val_add_other a b : digits_ok B a -> digits_ok B b ->
  yields (abs_val_add L a (other b))
    (fun r => digits_ok B r /\ value B r = value B a + value B b /\ grown a b r).
Proof.
  intros Ha Hb. unfold abs_val_add.
  eapply yields_mono; [apply (add_loop_other b Hb _ [] a 0); auto; try lia|].
  - cbn [length]. rewrite skipn_O. unfold other. lia.
  - intros r (new & -> & Hd & Hv & Hg). cbn [app length] in *. rewrite skipn_O in *.
    repeat split; auto; lia.
Qed.

Theorem abs_val_add_same a : digits_ok B a ->
  yields (abs_val_add L a same)
    (fun r => digits_ok B r /\ value B r = 2 * value B a /\ grown a a r).
Proof.
  intros Ha. unfold abs_val_add.
  eapply yields_mono; [apply (add_loop_same _ [] a 0); auto; lia|].
  intros r (new & -> & Hd & Hv & Hg). cbn [app length] in *.
    repeat split; auto; lia.
Qed.

(** absence of high-order zeros is kept *)
Lemma grown_canonical a b r : digits_ok B a -> digits_ok B b -> digits_ok B r ->
  weak_canonical a -> weak_canonical b -> value B r = value B a + value B b -> grown a b r ->
  weak_canonical r.
Proof.
  pose proof HB as HB.
  intros Da Db Dr Ca Cb Hv Hg. unfold grown in Hg.
  remember (Nat.max 1 (Nat.max (length a) (length b))) as n eqn:En.
  assert (r <> []) as Hr by (destruct Hg as [Hg|[Hg _]]; intros ->; cbn [length] in Hg; lia).
  pose proof (value_bounds B HB a Da) as Va. pose proof (value_bounds B HB b Db) as Vb.
  destruct Hg as [Hg|[Hg1 Hg2]].
  - destruct (Nat.eq_dec n 1) as [E|E].
    + assert (length r = 1%nat) by lia. destruct r as [|x [|]]; cbn in *; try lia.
      destruct (Z.eq_dec x 0) as [->|Hx]; [right; auto|left; exact Hx].
    + left. apply (canonical_of_value B); auto. rewrite Hg.
      assert (forall u, digits_ok B u -> weak_canonical u -> (length u = n) ->
              B ^ (Z.of_nat n - 1) <= value B u) as K.
      { intros u Du Cu Hu. destruct Cu as [Cu| ->]; [|cbn in Hu; lia].
        rewrite <- Hu. apply value_canonical_lb; auto. intros ->; cbn in Hu; lia. }
      destruct (Nat.le_gt_cases (length a) (length b)) as [Hab|Hab].
      * specialize (K b Db Cb ltac:(lia)). lia.
      * specialize (K a Da Ca ltac:(lia)). lia.
  - left. apply (canonical_of_value B); auto. rewrite Hg1.
    replace (Z.of_nat (S n) - 1) with (Z.of_nat n) by lia. auto.
Qed.

(** ** Digits of any kind: addition always ends, without undefined behaviour *)

Lemma add_loop_total_other b : forall fuel done rest rem, (rem = 0 \/ rem = 1) ->
  (Nat.max (length rest) (length (skipn (length done) b)) + 2 <= fuel)%nat ->
  yields (add_loop L (other b) fuel (done ++ rest) (length done) (length done) rem) (fun _ => True).
Proof.
  pose proof HB as HB. unfold B, base in HB.
  induction fuel as [|f IH]; intros done rest rem Hrem Hf; [lia|].
  rewrite add_loop_unfold. apply push_step. intros x rest' Hx.
  apply add_step with (b := b); [reflexivity|]. intros d c Hp.
  set (inr := skipn (length done) b) in *.
  destruct (add_digit_total (x + hd 0 inr + rem)) as (d' & c' & Hp' & Hc & Hsmall).
  pose proof (pure_det _ _ _ Hp Hp') as Edc. injection Edc as -> ->. clear Hp Hp'.
  destruct (((S (length done) =? length (done ++ d' :: rest'))%nat &&
      (length (other b (done ++ d' :: rest')) <=? S (length done))%nat && (c' =? 0))) eqn:Eexit;
    [apply yields_ret; auto|].
  replace (done ++ d' :: rest') with ((done ++ [d']) ++ rest') by (rewrite <- app_assoc; reflexivity).
  replace (S (length done)) with (length (done ++ [d'])) by (rewrite app_length; cbn; lia).
  apply IH; auto.
  replace (skipn (length (done ++ [d'])) b) with (tl inr).
  2:{ unfold inr. rewrite <- skipn_S_tl. f_equal. rewrite app_length; cbn; lia. }
  destruct Hx as [->|(-> & -> & ->)]; destruct inr as [|y inr'] eqn:Ei; cbn [tl length hd] in *; try lia.
  exfalso. destruct Hsmall as [-> ->]; [lia|].
  unfold other in Eexit. rewrite app_length in Eexit. cbn [length] in Eexit.
  rewrite (proj2 (Nat.eqb_eq _ _)), (proj2 (Nat.leb_le _ _)) in Eexit; [discriminate| |lia].
  assert (length (skipn (length done) b) = 0%nat) by (fold inr; rewrite Ei; reflexivity).
  rewrite skipn_length in *. lia.
Qed.

Theorem abs_val_add_total a b : yields (abs_val_add L a (other b)) (fun _ => True).
Proof.
  unfold abs_val_add. apply (add_loop_total_other b _ [] a 0); [auto|].
  cbn [length]. rewrite skipn_O. unfold other. lia.
Qed.

(** ** Subtraction *)

Lemma pow2_divide : (2 ^ ws L | 2 ^ wd L).
Proof.
  destruct (limits_ok_facts L HL) as (? & ? & _).
  exists (2 ^ (wd L - ws L)). rewrite <- Z.pow_add_r by lia. f_equal; lia.
Qed.

Definition sub_digit (s : Z) : Z * Z :=
  let outDigit := wrap (wd L) s in
  (if bmax L <? outDigit then wrap (ws L) (outDigit + bmax L + 1) else wrap (ws L) outDigit,
   if bmax L <? outDigit then 1 else 0).

Lemma sub_digit_ok x y nb : 0 <= x < B -> 0 <= y < B -> 0 <= nb <= 1 ->
  let (d, c) := sub_digit ((x - nb) - y) in
  0 <= d < B /\ 0 <= c <= 1 /\ x - y - nb = d - B * c.
Proof.
  intros Hx Hy Hn. pose proof HB; pose proof HBws; pose proof HBwd.
  destruct pow2_divide as [q Hq]. unfold sub_digit.
  assert (bmax L + 1 = B) as E by reflexivity.
  destruct (Z.lt_ge_cases (x - nb - y) 0) as [Hneg|Hpos].
  - assert (wrap (wd L) (x - nb - y) = 2 ^ wd L + (x - nb - y)) as Ew.
    { unfold wrap. symmetry. apply Z.mod_unique with (-1); lia. }
    rewrite Ew. rewrite (proj2 (Z.ltb_lt _ _)) by lia.
    assert (wrap (ws L) (2 ^ wd L + (x - nb - y) + bmax L + 1) = x - nb - y + B) as Ed.
    { unfold wrap. symmetry. apply Z.mod_unique with q; [lia|]. rewrite Hq. lia. }
    rewrite Ed. lia.
  - rewrite (wrap_small (wd L)) by lia. rewrite (proj2 (Z.ltb_ge _ _)) by lia.
    rewrite wrap_small by lia. lia.
Qed.

Lemma sub_loop_unfold inv f out oi ii nb :
  sub_loop L inv (S f) out oi ii nb =
  (inDigit <- (if (ii <? length (inv out))%nat then vget (inv out) ii else ret 0) ;;
   o <- vget out oi ;;
   out <- vset out oi (fst (sub_digit ((o - nb) - inDigit))) ;;
   if ((S oi =? length out)%nat && (length (inv out) <=? S ii)%nat)
   then ret out
   else sub_loop L inv f out (S oi) (S ii) (snd (sub_digit ((o - nb) - inDigit)))).
Proof. reflexivity. Qed.

Lemma sub_step (inv : view) f done x rest b nb r :
  inv (done ++ x :: rest) = b ->
  let s := (x - nb) - hd 0 (skipn (length done) b) in
  let out := done ++ fst (sub_digit s) :: rest in
  pure (if ((S (length done) =? length out)%nat && (length (inv out) <=? S (length done))%nat)
        then ret out
        else sub_loop L inv f out (S (length done)) (S (length done)) (snd (sub_digit s))) r ->
  pure (sub_loop L inv (S f) (done ++ x :: rest) (length done) (length done) nb) r.
Proof.
  intros Hinv s out H. rewrite sub_loop_unfold, Hinv.
  eapply pure_bind; [apply in_digit_pure|]. rewrite vget_app.
  eapply pure_bind; [apply pure_ret|]. rewrite vset_app.
  eapply pure_bind; [apply pure_ret|]. exact H.
Qed.

(** the subtrahend has at most as many digits left as the minuend *)
Lemma sub_loop_other b : forall fuel done rest nb,
  rest <> [] -> (length (skipn (length done) b) <= length rest)%nat -> (length rest <= fuel)%nat ->
  exists new, pure (sub_loop L (other b) fuel (done ++ rest) (length done) (length done) nb) (done ++ new) /\
    length new = length rest /\
    (digits_ok B b -> digits_ok B rest -> 0 <= nb <= 1 ->
     digits_ok B new /\ exists c, 0 <= c <= 1 /\
       value B new = value B rest - value B (skipn (length done) b) - nb + B ^ Z.of_nat (length rest) * c).
Proof.
  pose proof HB as HB.
  induction fuel as [|f IH]; intros done rest nb Hne Hlen Hf; [destruct rest; cbn in Hf; [congruence|lia]|].
  destruct rest as [|x rest]; [congruence|]. clear Hne.
  set (inr := skipn (length done) b) in *.
  set (s := (x - nb) - hd 0 inr). destruct (sub_digit s) as [d c] eqn:Edc.
  assert (skipn (S (length done)) b = tl inr) as Htl by apply skipn_S_tl.
  destruct ((S (length done) =? length (done ++ d :: rest))%nat && (length b <=? S (length done))%nat)
    eqn:Eexit.
  - exists [d]. rewrite Bool.andb_true_iff, Nat.eqb_eq, Nat.leb_le, app_length in Eexit.
    destruct Eexit as [E1 E2]. cbn [length] in E1.
    assert (rest = []) as -> by (destruct rest; cbn in E1; [auto|lia]).
    split; [|split].
    + apply sub_step with (b := b); [reflexivity|]. fold inr; fold s. rewrite Edc. cbn [fst snd].
      unfold other at 1. rewrite app_length. cbn [length].
      rewrite (proj2 (Nat.eqb_eq _ _)), (proj2 (Nat.leb_le _ _)) by lia. apply pure_ret.
    + reflexivity.
    + intros Db Dr Hnb. inversion_clear Dr as [|? ? Hx _].
      assert (0 <= hd 0 inr < B /\ value B inr = hd 0 inr) as [Hy Hvi].
      { pose proof (digits_ok_skipn B (length done) b Db) as Hs. fold inr in Hs.
        destruct inr as [|y [|z inr]]; cbn [hd value length] in *; try lia.
        inversion_clear Hs. lia. }
      pose proof (sub_digit_ok x (hd 0 inr) nb Hx Hy Hnb) as K. fold s in K. rewrite Edc in K.
      split; [constructor; [tauto|constructor]|]. exists c. split; [tauto|].
      cbn [value length]. change (Z.of_nat 1) with 1. rewrite Z.pow_1_r. lia.
  - destruct rest as [|x' rest].
    { exfalso. rewrite app_length in Eexit. cbn [length] in Eexit.
      rewrite (proj2 (Nat.eqb_eq _ _)) in Eexit by lia. cbn [andb] in Eexit.
      apply Nat.leb_gt in Eexit. unfold inr in Hlen. rewrite skipn_length in Hlen. cbn [length] in Hlen. lia. }
    assert (skipn (length (done ++ [d])) b = tl inr) as Htl'.
    { rewrite <- Htl. f_equal. rewrite app_length; cbn; lia. }
    destruct (IH (done ++ [d]) (x' :: rest) c) as (new & Hp & Hl & Hval).
    { congruence. }
    { rewrite Htl'. destruct inr; cbn [tl length] in *; lia. }
    { cbn [length] in *; lia. }
    exists (d :: new). split; [|split].
    + apply sub_step with (b := b); [reflexivity|]. fold inr; fold s. rewrite Edc. cbn [fst snd].
      unfold other at 1. rewrite Eexit.
      replace (done ++ d :: x' :: rest) with ((done ++ [d]) ++ x' :: rest) by (rewrite <- app_assoc; reflexivity).
      replace (S (length done)) with (length (done ++ [d])) by (rewrite app_length; cbn; lia).
      replace (done ++ d :: new) with ((done ++ [d]) ++ new) by (rewrite <- app_assoc; reflexivity).
      exact Hp.
    + cbn [length] in *; lia.
    + intros Db Dr Hnb. inversion_clear Dr as [|? ? Hx Dr'].
      pose proof (digits_ok_skipn B (length done) b Db) as Hs. fold inr in Hs.
      assert (0 <= hd 0 inr < B /\ value B inr = hd 0 inr + B * value B (tl inr)) as [Hy Hvi].
      { destruct inr as [|y inr]; cbn [hd tl value] in *; [lia|]. inversion_clear Hs. lia. }
      pose proof (sub_digit_ok x (hd 0 inr) nb Hx Hy Hnb) as K. fold s in K. rewrite Edc in K.
      destruct K as (Kd & Kc & Ke).
      destruct (Hval Db Dr' Kc) as (Dn & c' & Hc' & Hv). rewrite Htl' in Hv.
      split; [constructor; auto|]. exists c'. split; [auto|].
      remember (x' :: rest) as rest2 eqn:Er2. cbn [value length]. rewrite Hv, pow_S. nia.
Qed.

Lemma sub_loop_same : forall fuel done rest nb,
  rest <> [] -> (length rest <= fuel)%nat ->
  exists new, pure (sub_loop L same fuel (done ++ rest) (length done) (length done) nb) (done ++ new) /\
    length new = length rest /\ (digits_ok B rest -> nb = 0 -> Forall (fun d => d = 0) new).
Proof.
  pose proof HB as HB.
  induction fuel as [|f IH]; intros done rest nb Hne Hf; [destruct rest; cbn in Hf; [congruence|lia]|].
  destruct rest as [|x rest]; [congruence|]. clear Hne.
  assert (skipn (length done) (done ++ x :: rest) = x :: rest) as Hsk
    by (rewrite skipn_app, skipn_all, Nat.sub_diag; reflexivity).
  destruct (sub_digit ((x - nb) - x)) as [d c] eqn:Edc.
  assert (0 <= x < B -> nb = 0 -> d = 0 /\ c = 0) as Hdc.
  { intros Hx ->. pose proof (sub_digit_ok x x 0 Hx Hx ltac:(lia)) as K. rewrite Edc in K. assert (c = 0 \/ c = 1) as [-> | ->] by lia; lia. }
  destruct rest as [|x' rest].
  - exists [d]. split; [|split; [reflexivity|]].
    + apply sub_step with (b := done ++ [x]); [reflexivity|]. rewrite Hsk. cbn [hd]. rewrite Edc.
      cbn [fst snd]. unfold same at 1. rewrite app_length. cbn [length].
      rewrite (proj2 (Nat.eqb_eq _ _)), (proj2 (Nat.leb_le _ _)) by lia. apply pure_ret.
    + intros Dr Hnb. inversion_clear Dr. constructor; [|constructor]. apply Hdc; auto.
  - destruct (IH (done ++ [d]) (x' :: rest) c) as (new & Hp & Hl & Hval).
    { congruence. }
    { cbn [length] in *; lia. }
    exists (d :: new). split; [|split].
    + apply sub_step with (b := done ++ x :: x' :: rest); [reflexivity|]. rewrite Hsk. cbn [hd]. rewrite Edc.
      cbn [fst snd]. unfold same at 1. rewrite app_length. cbn [length].
      rewrite (proj2 (Nat.eqb_neq _ _)) by lia. cbn [andb].
      replace (done ++ d :: x' :: rest) with ((done ++ [d]) ++ x' :: rest) by (rewrite <- app_assoc; reflexivity).
      replace (S (length done)) with (length (done ++ [d])) by (rewrite app_length; cbn; lia).
      replace (done ++ d :: new) with ((done ++ [d]) ++ new) by (rewrite <- app_assoc; reflexivity).
      exact Hp.
    + cbn [length] in *; lia.
    + intros Dr Hnb. inversion_clear Dr as [|? ? Hx Dr']. destruct (Hdc Hx Hnb) as [-> ->].
      constructor; auto.
Qed.

Lemma pop_zeros_spec v : exists r k, pure (pop_zeros (length v) v) r /\ v = r ++ repeat 0 k /\ canonical r.
Proof.
  induction v as [|x u IH] using rev_ind.
  - exists [], 0%nat. split; [apply pure_ret|split; [reflexivity|apply canonical_nil]].
  - rewrite app_length, Nat.add_1_r. cbn [pop_zeros].
    destruct (Z.eqb_spec x 0) as [->|Hx].
    + destruct IH as (r & k & Hp & Hv & Hc). exists r, (S k). split; [|split; auto].
      * rewrite vget_app. eapply pure_bind; [apply pure_ret|]. cbn.
        eapply pure_bind with (a := u).
        { unfold vpop. destruct (u ++ [0]) eqn:E; [destruct u; discriminate|].
          rewrite <- E, removelast_last. apply pure_ret. }
        exact Hp.
      * rewrite Hv at 1. rewrite <- app_assoc. f_equal.
        change [0] with (repeat 0 1). rewrite <- repeat_app. f_equal. lia.
    + exists (u ++ [x]), 0%nat. split; [|split].
      * rewrite vget_app. eapply pure_bind; [apply pure_ret|].
        rewrite (proj2 (Z.eqb_neq _ _)) by auto. apply pure_ret.
      * cbn. rewrite app_nil_r. reflexivity.
      * apply canonical_snoc; auto.
Qed.

Lemma value_repeat_0 k : value B (repeat 0 k) = 0.
Proof. induction k as [|k IH]; cbn [repeat value]; [reflexivity|rewrite IH; lia]. Qed.

(** release build: exact subtraction modulo B^n, with a canonical result *)
Theorem abs_val_sub_other a b : a <> [] -> (length b <= length a)%nat ->
  exists r, pure (abs_val_sub L false a (other b)) r /\ canonical r /\ (length r <= length a)%nat /\
    (digits_ok B a -> digits_ok B b ->
     digits_ok B r /\
     value B r = (if value B b <=? value B a then value B a - value B b
                  else value B a - value B b + B ^ Z.of_nat (length a))).
Proof.
  pose proof HB as HB.
  intros Hne Hlen. unfold abs_val_sub.
  destruct (sub_loop_other b (3 + length a + length (other b a)) [] a 0) as (v & Hp & Hl & Hv).
  { exact Hne. } { cbn [length]. rewrite skipn_O. exact Hlen. } { lia. }
  destruct (pop_zeros_spec v) as (r & k & Hp2 & Hr & Hc).
  exists r. split; [|split; [exact Hc|split]].
  - eapply pure_bind; [apply pure_ret|]. eapply pure_bind; [exact Hp|exact Hp2].
  - rewrite <- Hl. rewrite Hr, app_length. lia.
  - intros Da Db. destruct (Hv Db Da ltac:(lia)) as (Dv & c & Hcc & Hval).
    cbn [length] in Hval. rewrite skipn_O in Hval.
    rewrite Hr in Dv. apply digits_ok_app in Dv as [Dr _]. split; [exact Dr|].
    assert (value B v = value B r) as Evr by (rewrite Hr at 1; rewrite value_app, value_repeat_0; ring).
    rewrite <- Evr.
    assert (0 <= value B v < B ^ Z.of_nat (length a)) as Bv.
    { rewrite <- Hl. apply value_bounds; auto. rewrite Hr. apply digits_ok_app; split; auto.
      apply Forall_forall. intros y Hy. apply repeat_spec in Hy. subst. lia. }
    pose proof (value_bounds B HB a Da). pose proof (value_bounds B HB b Db).
    assert (c = 0 \/ c = 1) as [-> | ->] by lia;
      destruct (Z.leb_spec (value B b) (value B a)) as [H1|H1]; lia.
Qed.

Theorem abs_val_sub_same a : a <> [] -> digits_ok B a -> pure (abs_val_sub L false a same) [].
Proof.
  intros Hne Da. unfold abs_val_sub.
  destruct (sub_loop_same (3 + length a + length (same a)) [] a 0) as (v & Hp & Hl & Hv).
  { exact Hne. } { lia. }
  destruct (pop_zeros_spec v) as (r & k & Hp2 & Hr & Hc).
  assert (r = []) as ->.
  { destruct (list_snoc_case r) as [?|(u & x & ->)]; auto. exfalso.
    apply canonical_snoc in Hc. specialize (Hv Da eq_refl). apply Hc.
    eapply Forall_forall in Hv; [exact Hv|]. rewrite Hr. rewrite !in_app_iff. cbn; auto. }
  eapply pure_bind; [apply pure_ret|]. eapply pure_bind; [exact Hp|exact Hp2].
Qed.

(** self-subtraction of digits of any kind returns *)
Theorem abs_val_sub_same_total a : a <> [] -> exists r, pure (abs_val_sub L false a same) r /\ canonical r.
Proof.
  intros Hne. unfold abs_val_sub.
  destruct (sub_loop_same (3 + length a + length (same a)) [] a 0) as (v & Hp & Hl & Hv).
  { exact Hne. } { lia. }
  destruct (pop_zeros_spec v) as (r & k & Hp2 & Hr & Hc). exists r; split; auto.
  eapply pure_bind; [apply pure_ret|]. eapply pure_bind; [exact Hp|exact Hp2].
Qed.

(** the out-of-bounds access *)
Theorem abs_val_sub_nil inv al n : inv [] = [] -> abs_val_sub L false [] inv al n = Undef UB_index.
Proof. intros H. unfold abs_val_sub. cbn -[sub_loop]. rewrite H. cbn. rewrite H. reflexivity. Qed.

(** BN_DEBUG: the extra test, then the same code *)
Theorem abs_val_sub_debug a inv :
  forall al n, abs_val_sub L true a inv al n =
    if (length a <? length (inv a))%nat || gtb (inv a) a then Throw ExUnderflow n
    else abs_val_sub L false a inv al n.
Proof.
  intros al n. unfold abs_val_sub, bind.
  destruct (length a <? length (inv a))%nat; [reflexivity|]. cbn [orb].
  rewrite abs_val_is_lt_pure. destruct (gtb (inv a) a); reflexivity.
Qed.

End Proof.
