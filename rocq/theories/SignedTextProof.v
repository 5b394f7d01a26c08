(** * The compression client with a signed char type: bytes from 128 on are digits outside the base *)
From Verif Require Import Base Spec Limits Compare AddSub Division Fourier Multiplication Bignum Outcome Compress SignedText.
From Verif Require Import Wp ValueProof CompareProof AddSubProof DivisionProof BignumProof OperatorProof DivOpProof PaddedProof PropObject CompressProof.

Local Notation B := 256.
Local Notation two := (mkBN BN_POS [2]).
Local Notation okc := (cok base256).
Local Notation nines := (nines base256).

Lemma signed_number_app a b : signed_number (a ++ b) = signed_number a + B ^ Z.of_nat (length a) * signed_number b.
Proof.
  induction a as [|c a IH]; cbn [app signed_number length]; [change (B ^ Z.of_nat 0) with 1; lia|].
  rewrite IH, pow_S. ring.
Qed.

Lemma signed_bounds a : Forall (fun c => 0 <= c < B) a ->
  - (128 * (B ^ Z.of_nat (length a) - 1)) <= 255 * signed_number a <= 127 * (B ^ Z.of_nat (length a) - 1).
Proof.
  induction 1 as [|c a Hc Ha IH]; cbn [signed_number length]; [change (B ^ Z.of_nat 0) with 1; lia|].
  rewrite pow_S. unfold as_signed. assert (0 < B ^ Z.of_nat (length a)) by (apply pow_pos; lia).
  destruct (Z.ltb_spec c 128); lia.
Qed.

(** ** Subtraction, digit by digit *)
Fixpoint sub_list (a b : list Z) (nb : Z) : list Z :=
  match a with
  | [] => []
  | x :: r => fst (sub_digit base256 ((x - nb) - hd 0 b)) :: sub_list r (tl b) (snd (sub_digit base256 ((x - nb) - hd 0 b)))
  end.

Lemma sub_loop_list b : forall fuel done rest nb,
  rest <> [] -> (length (skipn (length done) b) <= length rest)%nat -> (length rest <= fuel)%nat ->
  pure (sub_loop base256 (other b) fuel (done ++ rest) (length done) (length done) nb)
    (done ++ sub_list rest (skipn (length done) b) nb).
Proof.
  induction fuel as [|f IH]; intros done rest nb Hne Hlen Hf; [destruct rest; cbn in Hf; [congruence|lia]|].
  destruct rest as [|x rest]; [congruence|]. clear Hne. cbn [sub_list].
  set (inr := skipn (length done) b) in *.
  set (s := (x - nb) - hd 0 inr). destruct (sub_digit base256 s) as [d c] eqn:Edc. cbn [fst snd].
  assert (skipn (S (length done)) b = tl inr) as Htl by apply skipn_S_tl.
  apply sub_step with (b := b); [reflexivity|]. fold inr; fold s. rewrite Edc. cbn [fst snd]. unfold other at 1.
  destruct ((S (length done) =? length (done ++ d :: rest))%nat && (length b <=? S (length done))%nat) eqn:Eexit.
  - rewrite Bool.andb_true_iff, Nat.eqb_eq, Nat.leb_le, app_length in Eexit.
    destruct Eexit as [E1 E2]. cbn [length] in E1.
    assert (rest = []) as -> by (destruct rest; cbn in E1; [auto|lia]). cbn [sub_list]. apply pure_ret.
  - destruct rest as [|x' rest].
    { exfalso. rewrite app_length in Eexit. cbn [length] in Eexit.
      rewrite (proj2 (Nat.eqb_eq _ _)) in Eexit by lia. cbn [andb] in Eexit.
      apply Nat.leb_gt in Eexit. unfold inr in Hlen. rewrite skipn_length in Hlen. cbn [length] in Hlen. lia. }
    assert (skipn (length (done ++ [d])) b = tl inr) as Htl'.
    { rewrite <- Htl. f_equal. rewrite app_length; cbn; lia. }
    pose proof (IH (done ++ [d]) (x' :: rest) c ltac:(congruence)) as K. rewrite Htl' in K.
    specialize (K ltac:(destruct inr; cbn [tl length] in *; lia) ltac:(cbn [length] in *; lia)).
    rewrite <- !app_assoc in K. cbn [app] in K.
    replace (length (done ++ [d])) with (S (length done)) in K by (rewrite app_length; cbn; lia). exact K.
Qed.

Lemma abs_val_sub_list a b : a <> [] -> (length b <= length a)%nat -> last (sub_list a b 0) 0 <> 0 ->
  pure (abs_val_sub base256 false a (other b)) (sub_list a b 0).
Proof.
  intros Na Hl Hz. unfold abs_val_sub. eapply pure_bind; [apply pure_ret|].
  eapply pure_bind; [apply (sub_loop_list b _ [] a 0 Na); [exact Hl|lia]|]. cbn [app length skipn].
  destruct (pop_zeros_spec base256 (sub_list a b 0)) as (r & k & Hp & Hr & _).
  assert (k = 0%nat) as ->; [|rewrite Hr at 3; cbn [repeat]; rewrite app_nil_r; exact Hp].
  destruct k as [|k]; [reflexivity|]. exfalso. apply Hz. rewrite Hr.
  cbn [repeat]. rewrite repeat_cons, app_assoc. apply last_last.
Qed.

Lemma sub_digit_signed s : -1000 <= s < 0 -> sub_digit base256 s = (wrap 16 (s + 256), 1).
Proof.
  intros Hs. unfold sub_digit. change (wd base256) with 16. change (ws base256) with 16. change (bmax base256) with 255.
  assert (wrap 16 s = 65536 + s) as -> by (unfold wrap; symmetry; apply Z.mod_unique with (-1); lia).
  rewrite (proj2 (Z.ltb_lt _ _)) by lia. f_equal. unfold wrap. change (2 ^ 16) with 65536.
  replace (65536 + s + 255 + 1) with (s + 256 + 1 * 65536) by ring. apply Z.mod_add. lia.
Qed.

Lemma sub_digit_wrap s k : sub_digit base256 (s + k * 65536) = sub_digit base256 s.
Proof.
  unfold sub_digit. change (wd base256) with 16.
  assert (wrap 16 (s + k * 65536) = wrap 16 s) as -> by (apply Z.mod_add; lia). reflexivity.
Qed.

Lemma sub_digit_small s : 0 <= s < 256 -> sub_digit base256 s = (s, 0).
Proof.
  intros Hs. unfold sub_digit. change (wd base256) with 16. change (ws base256) with 16. change (bmax base256) with 255.
  rewrite !wrap_small by lia. rewrite (proj2 (Z.ltb_ge _ _)) by lia. reflexivity.
Qed.

Lemma sub_digit_byte c s : 0 <= c < B -> sub_digit base256 (to_u16 true c + s) = sub_digit base256 (as_signed c + s).
Proof.
  intros Hc. unfold to_u16, as_signed. cbn [andb]. destruct (Z.leb_spec 128 c); destruct (Z.ltb_spec c 128); try lia.
  - assert (wrap 16 (c - 256) = 65536 + (c - 256)) as -> by (unfold wrap; symmetry; apply Z.mod_unique with (-1); lia).
    rewrite <- (sub_digit_wrap (c - 256 + s) 1). f_equal. ring.
  - rewrite wrap_small by lia. reflexivity.
Qed.

(** zeros subtracted from signed chars: what is left are digits again *)
Lemma sub_list_signed rest b : forall v nb, Forall (fun c => 0 <= c < B) v -> 0 <= nb <= 1 ->
  exists (new : list Z) (c : Z), sub_list (map (to_u16 true) v ++ rest) (repeat 0 (length v) ++ b) nb = (new ++ sub_list rest b c)%list /\
    digits_ok B new /\ length new = length v /\ 0 <= c <= 1 /\
    value B new = signed_number v - nb + B ^ Z.of_nat (length v) * c.
Proof.
  induction v as [|x v IH]; intros nb Hv Hnb.
  - exists [], nb. cbn [map app length repeat value signed_number]. change (B ^ Z.of_nat 0) with 1. repeat split; auto; try lia.
  - inversion_clear Hv as [|? ? Hx Hv']. cbn [map app repeat length sub_list hd tl].
    replace (to_u16 true x - nb - 0) with (to_u16 true x + - nb) by ring. rewrite sub_digit_byte by exact Hx.
    assert (exists d c, sub_digit base256 (as_signed x + - nb) = (d, c) /\ 0 <= d < B /\ 0 <= c <= 1 /\ d - B * c = as_signed x - nb)
      as (d & c & E & Hd & Hc & He).
    { assert (-128 <= as_signed x < 128) as Ha by (unfold as_signed; destruct (Z.ltb_spec x 128); lia).
      destruct (Z.lt_ge_cases (as_signed x + - nb) 0).
      - rewrite sub_digit_signed by lia. rewrite wrap_small by lia. do 2 eexists. split; [reflexivity|]. lia.
      - rewrite sub_digit_small by lia. do 2 eexists. split; [reflexivity|]. lia. }
    rewrite E. cbn [fst snd]. destruct (IH c Hv' Hc) as (new & c' & En & Dn & Ln & Hc' & Vn).
    exists (d :: new), c'. rewrite En. cbn [app length]. repeat split; auto; try lia; [constructor; auto|].
    cbn [value signed_number]. rewrite Vn, pow_S. lia.
Qed.

(** zeros subtracted from digits *)
Lemma sub_list_zeros rest b : forall v, digits_ok B v ->
  sub_list (v ++ rest) (repeat 0 (length v) ++ b) 0 = v ++ sub_list rest b 0.
Proof.
  induction v as [|x v IH]; intros Hv; [reflexivity|]. inversion_clear Hv as [|? ? Hx Hv']. cbn [app repeat length sub_list hd tl].
  replace (x - 0 - 0) with x by ring. rewrite sub_digit_small by lia. cbn [fst snd]. rewrite IH by auto. reflexivity.
Qed.

(** ** The search in the division: which digits it takes the dividend for *)
Definition sees (w c : list Z) : Prop := forall b, okc b -> b <> [] -> pure (abs_val_is_ge w b) (geb B c b).

Lemma nines_geb m b : okc b -> b <> [] -> geb B (nines m) b = (length b <=? m)%nat.
Proof.
  intros [Db Cb] Nb. rewrite (geb_canonical B ltac:(lia) _ b (nines_ok base256 eq_refl m) Db (nines_canonical base256 eq_refl m) Cb).
  rewrite (nines_value base256). change (base base256) with B in *.
  pose proof (value_bounds B ltac:(lia) b Db). pose proof (value_canonical_lb B ltac:(lia) b Db Cb Nb).
  destruct (Nat.leb_spec (length b) m) as [H1|H1].
  - apply Z.leb_le. assert (B ^ Z.of_nat (length b) <= B ^ Z.of_nat m); [|lia]. apply Z.pow_le_mono_r; lia.
  - apply Z.leb_gt. assert (B ^ Z.of_nat m <= B ^ (Z.of_nat (length b) - 1)); [|lia]. apply Z.pow_le_mono_r; lia.
Qed.

Lemma ge_loop_snoc a b x y : length a = length b ->
  forall al n, ge_loop (a ++ [x]) (b ++ [y]) (length (a ++ [x])) al n =
    if y <? x then Ret true n else if x <? y then Ret false n else ge_loop (a ++ [x]) (b ++ [y]) (length a) al n.
Proof.
  intros Hl al n. rewrite app_length, Nat.add_1_r. cbn [ge_loop]. rewrite vget_app.
  assert (vget (b ++ [y]) (length a) = ret y) as -> by (rewrite Hl; apply vget_app).
  cbn. destruct (y <? x); [reflexivity|]. destruct (x <? y); reflexivity.
Qed.

Lemma okc_snoc b : okc b -> b <> [] -> exists v t, b = v ++ [t] /\ digits_ok B v /\ 0 < t < B.
Proof.
  intros [Db Cb] Nb. destruct (exists_last Nb) as (v & t & ->). exists v, t. apply Forall_app in Db.
  destruct Db as [Dv Dt]. inversion_clear Dt as [|? ? Ht _]. unfold canonical in Cb. rewrite last_last in Cb.
  change (base base256) with B in *. repeat split; auto; lia.
Qed.

(** a superfluous zero above anything *)
Lemma sees_padded w : sees (w ++ [0]) (nines (length w)).
Proof.
  intros b Hb Nb al n. rewrite nines_geb by auto. unfold abs_val_is_ge. rewrite app_length, Nat.add_1_r.
  destruct (okc_snoc b Hb Nb) as (v & t & -> & Dv & Ht). rewrite app_length, Nat.add_1_r.
  destruct (Nat.ltb_spec (S (length v)) (S (length w))) as [H1|H1].
  { rewrite (proj2 (Nat.leb_le _ _)) by lia. reflexivity. }
  rewrite (proj2 (Nat.leb_gt _ _)) by lia. destruct (Nat.ltb_spec (S (length w)) (S (length v))) as [H2|H2]; [reflexivity|].
  rewrite <- (Nat.add_1_r (length w)). change 1%nat with (length [0]). rewrite <- app_length.
  rewrite ge_loop_snoc by lia. rewrite (proj2 (Z.ltb_ge _ _)), (proj2 (Z.ltb_lt _ _)) by lia. reflexivity.
Qed.

(** the digit 65535 below the digit 255 *)
Lemma sees_wild w : sees (w ++ [65535; 255]) (nines (S (S (length w)))).
Proof.
  intros b Hb Nb al n. rewrite nines_geb by auto. unfold abs_val_is_ge. rewrite app_length. cbn [length].
  destruct (Nat.ltb_spec (length b) (length w + 2)) as [H1|H1].
  { rewrite (proj2 (Nat.leb_le _ _)) by lia. reflexivity. }
  destruct (Nat.ltb_spec (length w + 2) (length b)) as [H2|H2].
  { rewrite (proj2 (Nat.leb_gt _ _)) by lia. reflexivity. }
  rewrite (proj2 (Nat.leb_le _ _)) by lia.
  destruct (okc_snoc b Hb Nb) as (v & t & -> & Dv & Ht). rewrite app_length in *. cbn [length] in *.
  destruct (exists_last (l := v)) as (u & s & ->); [intros ->; cbn in *; lia|]. rewrite app_length in *. cbn [length] in *.
  apply Forall_app in Dv. destruct Dv as [Du Ds]. inversion_clear Ds as [|? ? Hs _].
  replace (w ++ [65535; 255]) with ((w ++ [65535]) ++ [255]) by (rewrite <- app_assoc; reflexivity).
  replace (length w + 2)%nat with (length ((w ++ [65535]) ++ [255])) by (rewrite !app_length; cbn; lia).
  rewrite ge_loop_snoc by (rewrite !app_length; cbn; lia).
  destruct (Z.ltb_spec t 255); [reflexivity|]. rewrite (proj2 (Z.ltb_ge 255 t)) by lia.
  rewrite app_length, Nat.add_1_r. cbn [ge_loop]. rewrite <- !app_assoc. cbn [app]. rewrite vget_app.
  replace (length w) with (length u) by lia. rewrite vget_app. cbn. rewrite (proj2 (Z.ltb_lt _ _)) by lia. reflexivity.
Qed.

Lemma sees_canonical c : okc c -> sees c c.
Proof. intros [Dc Cc] b [Db Cb] Nb. apply abs_val_is_ge_pure; auto. lia. Qed.

Lemma div_inner_sees w c : sees w c -> okc c -> forall fuel b0 b1 q al n, okc b1 -> b1 <> [] ->
  div_inner base256 fuel w b0 b1 q al n = div_inner base256 fuel c b0 b1 q al n.
Proof.
  intros S Hc. pose proof (sees_canonical c Hc) as Sc. induction fuel as [|f IH]; intros b0 b1 q al n Hb Nb; [reflexivity|]. cbn [div_inner].
  unfold bind. rewrite (S b1 Hb Nb al n), (Sc b1 Hb Nb al n). destruct (geb B c b1); [|reflexivity].
  destruct (vcopy b1 al n) as [b0' n1|e n1|e|]; try reflexivity.
  pose proof (shift_may base256 dbl256 b1 Hb Nb al n1) as K.
  destruct (shift_left_1 base256 b1 al n1) as [b1' n2|e n2|e|]; try reflexivity.
  destruct (shift_left_1 base256 q al n2) as [q' n3|e n3|e|]; try reflexivity.
  apply IH; tauto.
Qed.

(** one round of halving, on a dividend taken for the largest number of m digits *)
Lemma halving_round w m fi f r d Q : sees w (nines m) -> (1 <= m)%nat -> 8 * Z.of_nat m <= Z.of_nat fi ->
  digits_ok B r -> weak_canonical r -> pure (abs_val_sub base256 false w (other (repeat 0 (m - 1) ++ [128]))) d ->
  (forall r', digits_ok B r' -> weak_canonical r' -> value B r' = value B r + 2 ^ (8 * Z.of_nat m - 2) ->
    yields (div_outer base256 false fi f d [2] r') Q) ->
  yields (div_outer base256 false fi (S f) w [2] r) Q.
Proof.
  intros S Hm Hf Dr Cr Hp K. cbn [div_outer].
  assert (okc [2]) as H2 by (split; [repeat constructor; cbn; lia|unfold canonical; cbn; lia]).
  assert (okc [1]) as H1 by (split; [repeat constructor; cbn; lia|unfold canonical; cbn; lia]).
  assert (B ^ Z.of_nat m = 2 ^ (8 * Z.of_nat m)) as EB by (change B with (2 ^ 8); rewrite <- Z.pow_mul_r by lia; reflexivity).
  assert (2 ^ (8 * Z.of_nat m) = 2 * 2 ^ (8 * Z.of_nat m - 2 + 1)) as E1 by (rewrite <- Z.pow_succ_r by lia; f_equal; lia).
  assert (2 ^ (8 * Z.of_nat m - 2 + 1) = 2 * 2 ^ (8 * Z.of_nat m - 2)) as E2 by (rewrite <- Z.pow_succ_r by lia; f_equal; lia).
  assert (64 <= 2 ^ (8 * Z.of_nat m - 2)) as P64 by (change 64 with (2 ^ 6); apply Z.pow_le_mono_r; lia).
  eapply yields_bind with (Q := fun c => c = true).
  { eapply yields_pure; [apply S; auto; discriminate|]. rewrite nines_geb by (auto; discriminate). apply Nat.leb_le. cbn; lia. }
  intros ? ->.
  eapply yields_bind with (Q := fun v => v = [2]); [apply yields_vcopy; auto|]. intros ? ->.
  eapply yields_bind with (Q := fun v => v = [2]); [apply yields_vcopy; auto|]. intros ? ->.
  rewrite (one_wrap base256 eq_refl).
  eapply yields_bind with (Q := fun v => v = [1]); [apply yields_vcopy; auto|]. intros ? ->.
  eapply yields_bind; [apply (shift_left_1_spec base256 dbl256 [2] (proj1 H2) (proj2 H2))|].
  change (base base256) with B. intros b1 (D1 & C1 & V1). cbn [value] in V1.
  assert (b1 <> []) as N1 by (intros ->; cbn [value] in V1; lia).
  eapply yields_bind.
  { eapply (yields_may_and (div_inner base256 fi w [2] b1 [1])).
    - intros al n. rewrite (div_inner_sees w (nines m) S (nines_okc base256 eq_refl m)) by (auto; split; auto).
      revert al n.
      apply (div_inner_spec base256 dbl256 (nines m) [2] (nines_okc base256 eq_refl m) H2); auto;
        change (base base256) with B; rewrite ?(nines_value base256); change (base base256) with B; rewrite ?EB; cbn [value]; try lia;
        try (split; auto; fail).
      rewrite V1. assert (2 ^ (8 * Z.of_nat m) <= 2 ^ (2 + (Z.of_nat fi - 1))) as K2 by (apply Z.pow_le_mono_r; lia).
      rewrite Z.pow_add_r in K2 by lia. lia.
    - apply (div_inner_pow2 base256 dbl256); auto. exists 0. split; [lia|]. reflexivity. }
  rewrite (nines_value base256). change (base base256) with B. rewrite EB. cbn [value].
  intros [b0 q]. cbn [fst snd]. intros (([D0 C0] & [Dq Cq] & Vq & Vle) & (j & Hj & Ej)).
  change (base base256) with B in *. rewrite Ej in Vq.
  assert (j = 8 * Z.of_nat m - 2) as ->.
  { apply (pow2_bracket base256 2 (2 ^ (8 * Z.of_nat m))); try lia. }
  assert (b0 = repeat 0 (m - 1) ++ [128]) as ->.
  { apply (value_inj B ltac:(lia)); auto.
    - apply Forall_app. split; [apply Forall_forall; intros e He; apply repeat_spec in He; lia|repeat constructor; lia].
    - apply canonical_snoc. lia.
    - rewrite value_app, (value_repeat_0 base256), repeat_length. cbn [value]. rewrite Vq.
      replace (B ^ Z.of_nat (m - 1)) with (2 ^ (8 * Z.of_nat (m - 1))) by (change B with (2 ^ 8); rewrite <- Z.pow_mul_r by lia; reflexivity).
      replace (8 * Z.of_nat m - 2) with (8 * Z.of_nat (m - 1) + 6) by lia. rewrite Z.pow_add_r by lia. lia. }
  eapply yields_bind with (Q := fun v => v = d); [eapply yields_pure; [exact Hp|reflexivity]|]. intros ? ->.
  eapply yields_bind with (Q := fun r' => digits_ok B r' /\ weak_canonical r' /\ value B r' = value B r + 2 ^ (8 * Z.of_nat m - 2));
    [|intros r' (Dr' & Cr' & Vr'); apply (K r' Dr' Cr' Vr')].
  destruct (length q <=? length r)%nat.
  - eapply yields_mono; [apply (abs_val_add_other base256 eq_refl r q Dr Dq)|].
    change (base base256) with B. intros r' (Dr' & Vr' & Gr'). repeat split; auto; [|lia].
    eapply (grown_canonical base256 eq_refl r q); eauto. left; auto.
  - eapply yields_mono; [apply (abs_val_add_other base256 eq_refl q r Dq Dr)|].
    change (base base256) with B. intros r' (Dr' & Vr' & Gr'). repeat split; auto; [|lia].
    eapply (grown_canonical base256 eq_refl q r); eauto. left; auto.
Qed.

(** ** The first halving *)
Theorem abs_val_div_signed text fuel : Forall (fun c => 0 <= c < B) text -> text <> [] ->
  8 * Z.of_nat (length text) + 11 <= Z.of_nat fuel ->
  yields (abs_val_div base256 false fuel (map (to_u16 true) text ++ [0]) [2])
    (fun r => digits_ok B r /\ weak_canonical r /\
              value B r = (signed_number text + B ^ Z.of_nat (S (length text))) / 2).
Proof.
  intros Ht Hn Hf. destruct (exists_last Hn) as (v & t & E). rewrite E in *. clear E text Hn.
  rewrite app_length, Nat.add_1_r in *. apply Forall_app in Ht. destruct Ht as [Hv Ht]. inversion_clear Ht as [|? ? Htb _].
  set (P := B ^ Z.of_nat (length v)).
  assert (0 < P) as HP by (apply pow_pos; lia).
  assert (B ^ Z.of_nat (S (length v)) = 256 * P) as P1 by apply pow_S.
  assert (B ^ Z.of_nat (S (S (length v))) = 65536 * P) as P2 by (rewrite !pow_S; fold P; ring).
  assert (forall k, 0 <= k -> 2 ^ (8 * Z.of_nat (length v) + k) = P * 2 ^ k) as P3.
  { intros k Hk. rewrite Z.pow_add_r by lia. f_equal. unfold P. change B with (2 ^ 8). rewrite <- Z.pow_mul_r by lia. reflexivity. }
  rewrite P2. rewrite signed_number_app. cbn [signed_number]. fold P.
  assert (P * 2 ^ 18 <= 2 ^ Z.of_nat fuel) as HF by (rewrite <- P3 by lia; apply Z.pow_le_mono_r; lia).
  destruct fuel as [|[|f]]; [lia|lia|].
  assert (2 ^ Z.of_nat (S (S f)) = 4 * 2 ^ Z.of_nat f) as Ef by (rewrite !Nat2Z.inj_succ, !Z.pow_succ_r by lia; ring).
  unfold abs_val_div.
  eapply yields_bind with (Q := fun x => x = [0]); [apply yields_vcopy; auto|]. intros ? ->.
  assert (digits_ok B [0]) as D00 by (repeat constructor; lia).
  destruct (sub_list_signed [to_u16 true t; 0] [128] v 0 Hv ltac:(lia)) as (new & c & En & Dn & Ln & Hc & Vn). fold P in Vn.
  set (fi := S (S f)) at 1.
  assert (-128 <= as_signed t < 128) as Ha by (unfold as_signed; destruct (Z.ltb_spec t 128); lia).
  assert (sub_list [to_u16 true t; 0] [128] c = [wrap 16 (as_signed t + 128 - c); 255]) as E2.
  { cbn [sub_list hd tl]. replace (to_u16 true t - c - 128) with (to_u16 true t + (- c - 128)) by ring.
    rewrite sub_digit_byte by exact Htb. rewrite sub_digit_signed by lia. cbn [fst snd].
    rewrite (sub_digit_signed (0 - 1 - 0)) by lia. cbn [fst]. f_equal. f_equal. ring. }
  rewrite E2 in En.
  assert (pure (abs_val_sub base256 false (map (to_u16 true) (v ++ [t]) ++ [0]) (other (repeat 0 (S (length v) - 1) ++ [128])))
    (new ++ [wrap 16 (as_signed t + 128 - c); 255])) as Hp.
  { replace (S (length v) - 1)%nat with (length v) by lia. rewrite map_app, <- app_assoc. cbn [map app]. rewrite <- En.
    apply abs_val_sub_list.
    - destruct v; discriminate.
    - rewrite !app_length, map_length, repeat_length. cbn. lia.
    - rewrite En. replace (new ++ [wrap 16 (as_signed t + 128 - c); 255]) with ((new ++ [wrap 16 (as_signed t + 128 - c)]) ++ [255])
        by (rewrite <- app_assoc; reflexivity). rewrite last_last. discriminate. }
  assert (sees (map (to_u16 true) (v ++ [t]) ++ [0]) (nines (S (length v)))) as Sw.
  { pose proof (sees_padded (map (to_u16 true) (v ++ [t]))) as K. rewrite map_length, app_length, Nat.add_1_r in K. exact K. }
  assert (okc [2]) as H2 by (split; [repeat constructor; cbn; lia|unfold canonical; cbn; lia]).
  apply (halving_round _ (S (length v)) fi (S f) [0] _ _ Sw ltac:(lia) ltac:(unfold fi; lia) D00 weak_canonical_0 Hp).
  intros r Dr Cr Vr. cbn [value] in Vr.
  replace (8 * Z.of_nat (S (length v)) - 2) with (8 * Z.of_nat (length v) + 6) in Vr by lia. rewrite P3 in Vr by lia.
  destruct (Z.eq_dec (as_signed t + 128 - c) (-1)) as [Ew|Nw].
  - rewrite Ew. change (wrap 16 (-1)) with 65535.
    assert (pure (abs_val_sub base256 false (new ++ [65535; 255]) (other (repeat 0 (S (S (length v)) - 1) ++ [128])))
      (new ++ [255; 126])) as Hp2.
    { replace (S (S (length v)) - 1)%nat with (length v + 1)%nat by lia. rewrite repeat_app, <- app_assoc. cbn [repeat app].
      rewrite <- Ln.
      assert (new ++ [255; 126] = sub_list (new ++ [65535; 255]) (repeat 0 (length new) ++ [0; 128]) 0) as E3.
      { rewrite sub_list_zeros by exact Dn. f_equal. }
      rewrite E3. apply abs_val_sub_list.
      - destruct new; discriminate.
      - rewrite !app_length, repeat_length. cbn. lia.
      - rewrite <- E3. replace (new ++ [255; 126]) with ((new ++ [255]) ++ [126]) by (rewrite <- app_assoc; reflexivity).
        rewrite last_last. discriminate. }
    assert (sees (new ++ [65535; 255]) (nines (S (S (length v))))) as Sw2 by (rewrite <- Ln; apply sees_wild).
    apply (halving_round _ (S (S (length v))) fi f r _ _ Sw2 ltac:(lia) ltac:(unfold fi; lia) Dr Cr Hp2).
    intros r2 Dr2 Cr2 Vr2.
    replace (8 * Z.of_nat (S (S (length v))) - 2) with (8 * Z.of_nat (length v) + 14) in Vr2 by lia. rewrite P3 in Vr2 by lia.
    assert (okc (new ++ [255; 126])) as Hd.
    { split; [apply Forall_app; split; [exact Dn|repeat constructor; cbn; lia]|].
      replace (new ++ [255; 126]) with ((new ++ [255]) ++ [126]) by (rewrite <- app_assoc; reflexivity). apply canonical_snoc. lia. }
    assert (value B (new ++ [255; 126]) = signed_number v + P * (as_signed t + 256 * 0) + 32640 * P) as Vd.
    { rewrite value_app, Ln. fold P. cbn [value]. rewrite Vn. assert (c = 1) by lia. assert (as_signed t = -128) by lia. nia. }
    pose proof (value_bounds B ltac:(lia) _ (proj1 Hd)) as Bd. rewrite app_length, Ln in Bd. cbn [length] in Bd.
    replace (length v + 2)%nat with (S (S (length v))) in Bd by lia. rewrite P2 in Bd.
    eapply yields_mono.
    { apply (div_outer_spec base256 dbl256 [2] fi H2 ltac:(reflexivity) f _ r2 Hd Dr2 Cr2); change (base base256) with B; cbn [value].
      - destruct f; [change (2 ^ Z.of_nat 0) with 1 in Ef; lia|lia].
      - destruct f as [|f']; [change (2 ^ Z.of_nat 0) with 1 in Ef; lia|]. pose proof (pow2_S base256 f').
        replace (Z.of_nat (S f') - 1) with (Z.of_nat f') by lia. lia.
      - unfold fi; lia.
      - unfold fi. lia. }
    change (base base256) with B. cbn [value]. intros r3 (Dr3 & Cr3 & Vr3). repeat split; auto. rewrite Vr3, Vr2, Vr, Vd.
    replace (2 + B * 0) with 2 by lia.
    replace (signed_number v + P * (as_signed t + 256 * 0) + 65536 * P) with
      (signed_number v + P * (as_signed t + 256 * 0) + 32640 * P + (16448 * P) * 2) by ring.
    rewrite Z.div_add by lia. lia.
  - rewrite wrap_small by lia.
    assert (okc (new ++ [as_signed t + 128 - c; 255])) as Hd.
    { split; [apply Forall_app; split; [exact Dn|repeat constructor; cbn; lia]|].
      replace (new ++ [as_signed t + 128 - c; 255]) with ((new ++ [as_signed t + 128 - c]) ++ [255]) by (rewrite <- app_assoc; reflexivity).
      apply canonical_snoc. lia. }
    assert (value B (new ++ [as_signed t + 128 - c; 255]) = signed_number v + P * (as_signed t + 256 * 0) + 65408 * P) as Vd.
    { rewrite value_app, Ln. fold P. cbn [value]. rewrite Vn. ring. }
    pose proof (value_bounds B ltac:(lia) _ (proj1 Hd)) as Bd. rewrite app_length, Ln in Bd. cbn [length] in Bd.
    replace (length v + 2)%nat with (S (S (length v))) in Bd by lia. rewrite P2 in Bd.
    eapply yields_mono.
    { apply (div_outer_spec base256 dbl256 [2] fi H2 ltac:(reflexivity) (S f) _ r Hd Dr Cr); change (base base256) with B; cbn [value].
      - lia.
      - replace (Z.of_nat (S f) - 1) with (Z.of_nat f) by lia. lia.
      - unfold fi; lia.
      - unfold fi. lia. }
    change (base base256) with B. cbn [value]. intros r3 (Dr3 & Cr3 & Vr3). repeat split; auto. rewrite Vr3, Vr, Vd.
    replace (2 + B * 0) with 2 by lia.
    replace (signed_number v + P * (as_signed t + 256 * 0) + 65536 * P) with
      (signed_number v + P * (as_signed t + 256 * 0) + 65408 * P + (64 * P) * 2) by ring.
    rewrite Z.div_add by lia. lia.
Qed.

(** ** compress *)
Lemma push_chars_map cs : forall text x,
  returns (push_chars cs text x) (fun z => z = mkBN (desc x) (data x ++ map (to_u16 cs) text)).
Proof.
  induction text as [|c r IH]; intros x; cbn [push_chars map].
  - apply returns_ret. rewrite app_nil_r. destruct x; reflexivity.
  - eapply returns_bind; [apply yields_returns, push_back_yields|]. intros ? ->.
    eapply returns_mono; [apply IH|]. intros z ->. cbn [desc data]. rewrite <- app_assoc. reflexivity.
Qed.

(** the number of bits written *)
Definition signed_bits (text : list Z) : Z :=
  if signed_number text <? 0 then 8 * Z.of_nat (length text) + 8 else 8 * Z.of_nat (length text) + 9.

Theorem compress_signed_spec fuel text : Forall (fun c => 0 <= c < B) text -> text <> [] ->
  8 * Z.of_nat (length text) + 11 <= Z.of_nat fuel ->
  returns (compress false true fuel text) (packed (signed_bits text) (signed_number text mod B ^ Z.of_nat (S (length text)))).
Proof.
  intros Ht Hn Hf. set (n := Z.of_nat (length text)) in *. set (V := signed_number text).
  assert (exists c0 tx, text = c0 :: tx) as (c0 & tx & Etx) by (destruct text; [congruence|eauto]).
  assert (1 <= n) as Hn1 by (unfold n; rewrite Etx; cbn; lia).
  pose proof (signed_bounds text Ht) as HV. fold n V in HV.
  set (q := B ^ n) in *. assert (0 < q) as Hq by (apply Z.pow_pos_nonneg; lia).
  assert (q = 2 ^ (8 * n)) as E8 by (unfold q; change B with (2 ^ 8); rewrite <- Z.pow_mul_r by lia; reflexivity).
  assert (forall k, 0 <= k -> 2 ^ (8 * n + k) = q * 2 ^ k) as Hqk by (intros; rewrite E8; apply Z.pow_add_r; lia).
  assert (B ^ Z.of_nat (S (length text)) = q * 256) as E1 by (rewrite pow_S; fold n q; ring). rewrite E1.
  set (W := V + q * 256).
  set (T := if V <? 0 then 8 * n + 7 else 8 * n + 8).
  assert (2 ^ T <= W < 2 ^ (T + 1)) as HW.
  { unfold W, T. destruct (Z.ltb_spec V 0).
    - replace (8 * n + 7 + 1) with (8 * n + 8) by lia. rewrite !Hqk by lia. lia.
    - replace (8 * n + 8 + 1) with (8 * n + 9) by lia. rewrite !Hqk by lia. lia. }
  assert (1 <= T <= 8 * n + 8) as HT by (unfold T; destruct (_ <? _); lia).
  assert (rest W T = if V <? 0 then 1 else 0) as Hrest.
  { unfold rest, W, T. destruct (Z.ltb_spec V 0).
    - replace (8 * n + 7 - 1) with (8 * n + 6) by lia. rewrite Hqk by lia. rewrite (proj2 (Z.leb_le _ _)) by lia. reflexivity.
    - replace (8 * n + 8 - 1) with (8 * n + 7) by lia. rewrite Hqk by lia. rewrite (proj2 (Z.leb_gt _ _)) by lia. reflexivity. }
  assert (signed_bits text = T + 1) as -> by (unfold signed_bits, T; fold V n; destruct (V <? 0); lia).
  assert (V mod (q * 256) = W mod 2 ^ T + rest W T * 2 ^ T) as ->.
  { rewrite Hrest. unfold W, T. destruct (Z.ltb_spec V 0); rewrite Hqk by lia.
    - rewrite <- (Z.mod_unique_pos V (q * 256) (-1) (V + q * 256)) by lia.
      rewrite <- (Z.mod_unique_pos (V + q * 256) (q * 2 ^ 7) 1 (V + q * 128)) by lia. lia.
    - rewrite (Z.mod_small V) by lia. rewrite <- (Z.mod_unique_pos (V + q * 256) (q * 2 ^ 8) 1 V) by lia. lia. }
  unfold compress.
  eapply returns_bind; [apply make_returns; constructor|]. intros ? ->. cbn [strip rev].
  eapply returns_bind; [apply push_chars_map; auto|]. intros ? ->. cbn [desc data app].
  eapply returns_bind; [apply yields_returns, push_back_yields|]. intros ? ->. cbn [desc data].
  eapply returns_bind; [apply make_returns; repeat constructor; lia|]. intros ? ->. cbn [strip rev app].
  set (x0 := mkBN BN_POS (map (to_u16 true) text ++ [0])).
  assert (data x0 = to_u16 true c0 :: (map (to_u16 true) tx ++ [0])) as Ex0 by (unfold x0; rewrite Etx; reflexivity).
  eapply returns_bind with (Q := done W T).
  - destruct fuel as [|f]; [lia|]. cbn [compress_loop].
    eapply returns_bind with (Q := fun c => c = true).
    { eapply returns_pure; [|reflexivity]. intros al k. unfold not_yet_small, bn_size, x0. cbn [data].
      rewrite app_length, map_length. cbn [length]. destruct (Nat.eqb_spec (length text + 1) 1) as [E|E]; [|reflexivity].
      rewrite Etx in E. cbn in E. lia. }
    intros ? ->. apply returns_assoc.
    assert (written W 0 (mkBN BN_POS []) 0 0) as W0.
    { unfold written. cbn [desc data length value]. repeat split; auto; try (cbn; lia); try constructor.
      change (2 ^ 0) with 1. rewrite Z.mod_1_r. cbn. lia. }
    eapply returns_bind; [apply (written_bit W 1 ltac:(lia) 0 _ 0 0 x0 _ _ W0 Ex0)|].
    { change (2 ^ 0) with 1. rewrite Z.div_1_r. unfold W, V. rewrite Etx. cbn [signed_number].
      replace (as_signed c0 + 256 * signed_number tx + q * 256) with (as_signed c0 + (128 * signed_number tx + q * 128) * 2) by ring.
      rewrite Z.mod_add by lia. unfold to_u16, as_signed. cbn [andb]. rewrite Z.leb_antisym.
      rewrite Etx in Ht. inversion_clear Ht as [|? ? Hc0 _].
      destruct (c0 <? 128) eqn:E; cbn [negb].
      - rewrite wrap_small by lia. reflexivity.
      - unfold wrap. rewrite <- Znumtheory.Zmod_div_mod; try lia. exists (2 ^ 15). reflexivity. }
    intros s Hw. cbv beta. change (0 + 1) with 1 in Hw.
    eapply returns_bind with (Q := fun z => desc z = BN_POS /\ digits_ok B (data z) /\ weak_canonical (data z) /\ value B (data z) = W / 2).
    { eapply statement_returns. rewrite (div_assign_main base256 eq_refl false (S f) x0 two).
      - rewrite failed_infinity. apply guarded_yields.
        eapply yields_bind with (Q := fun c => c = true).
        { eapply yields_pure; [apply abs_val_is_gt_pure|]. unfold gtb, x0. cbn [data]. rewrite app_length, map_length. cbn [length].
          destruct (Nat.ltb_spec 1 (length text + 1)); [reflexivity|unfold n in Hn1; lia]. }
        intros ? ->. unfold x0. cbn [data desc]. eapply yields_bind; [apply (abs_val_div_signed text (S f) Ht Hn Hf)|].
        rewrite E1. fold V W. intros r (Dr & Cr & Vr). apply yields_ret. cbn [desc data]. repeat split; auto.
      - rewrite Ex0. split; [discriminate|]. destruct (map (to_u16 true) tx); discriminate.
      - cbn. split; discriminate.
      - left; reflexivity. }
    intros z (Pz & Dz & Cz & Vz).
    assert (T <> 1) as HT1 by (unfold T; destruct (_ <? _); lia).
    apply (compress_loop_spec W T ltac:(lia) HW (S f) ltac:(lia) f 1); auto; try lia.
    intros _. repeat split; auto. destruct Cz as [Cz|Cz]; auto. exfalso. rewrite Cz in Vz. cbn [value] in Vz.
    pose proof (W_ge W T ltac:(lia) HW 1 ltac:(lia)) as K. change (2 ^ 1) with 2 in K. lia.
  - intros [[[x out] digit] nbits] [Hx Hw]. cbn [fst snd] in *.
    apply (compress_end W T x out digit nbits (rest W T)); auto. rewrite Hrest. destruct (V <? 0); auto.
Qed.

(** what reading bytes from 128 on as negative numbers takes away *)
Fixpoint high (text : list Z) : Z := match text with [] => 0 | c :: r => (if c <? 128 then 0 else 1) + 256 * high r end.

Lemma value_high text : value B text = signed_number text + 256 * high text /\
  0 <= 255 * high text <= B ^ Z.of_nat (length text) - 1.
Proof.
  induction text as [|c r [E H]]; cbn [value signed_number high length]; [change (B ^ Z.of_nat 0) with 1; lia|].
  rewrite pow_S, E. unfold as_signed. destruct (c <? 128); lia.
Qed.

Lemma high_pos text : Exists (fun c => 128 <= c) text -> 0 < high text.
Proof.
  induction 1 as [c r Hc|c r H IH]; cbn [high]; pose proof (value_high r) as [_ K].
  - rewrite (proj2 (Z.ltb_ge _ _)) by lia. lia.
  - destruct (c <? 128); lia.
Qed.

Lemma high_zero text : Forall (fun c => c < 128) text -> signed_number text = value B text.
Proof.
  induction 1 as [|c r Hc H IH]; cbn [signed_number value]; [reflexivity|]. rewrite IH. unfold as_signed.
  rewrite (proj2 (Z.ltb_lt _ _)) by lia. reflexivity.
Qed.

Lemma signed_differs text : Exists (fun c => 128 <= c) text ->
  value B text <> signed_number text mod B ^ Z.of_nat (S (length text)).
Proof.
  intros H E. apply high_pos in H. destruct (value_high text) as [K H2]. rewrite K in E. rewrite pow_S in E.
  set (P := B ^ Z.of_nat (length text)) in *.
  assert ((signed_number text + 256 * high text) mod (256 * P) = signed_number text mod (256 * P)) as M.
  { rewrite E. apply Z.mod_mod. lia. }
  assert ((256 * high text) mod (256 * P) = 0) as M2.
  { replace (256 * high text) with (signed_number text + 256 * high text - signed_number text) by ring.
    rewrite Zminus_mod, M, Z.sub_diag. reflexivity. }
  rewrite Z.mod_small in M2; lia.
Qed.

(** the number of bits suffices *)
Lemma signed_fits text : Forall (fun c => 0 <= c < B) text ->
  1 <= signed_bits text <= 8 * Z.of_nat (length text) + 9 /\
  signed_number text mod B ^ Z.of_nat (S (length text)) < 2 ^ signed_bits text.
Proof.
  intros Ht. pose proof (signed_bounds text Ht) as HV. set (n := Z.of_nat (length text)) in *.
  pose proof (Z.mod_pos_bound (signed_number text) (B ^ Z.of_nat (S (length text))) ltac:(apply Z.pow_pos_nonneg; lia)) as Hm.
  assert (B ^ Z.of_nat (S (length text)) = 2 ^ (8 * n + 8)) as E.
  { change B with (2 ^ 8). rewrite <- Z.pow_mul_r by lia. f_equal. unfold n. lia. }
  rewrite E in *. assert (2 ^ (8 * n + 8) <= 2 ^ (8 * n + 9)) by (apply Z.pow_le_mono_r; lia).
  unfold signed_bits. fold n. destruct (signed_number text <? 0); lia.
Qed.
