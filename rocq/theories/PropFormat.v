(** * Property C63: numbers written with manipulators *)
From Coq Require Import String Ascii.
From Verif Require Import Base Spec Limits Print Format Outcome Wp ValueProof IntStream PropPrint PropIntStream.
Notation length := Datatypes.length (only parsing).
Local Open Scope string_scope.
Local Open Scope Z_scope.

(** ** Specification *)

Definition letter (up : bool) : Z := if up then 65 else 97.

(** [s] is the numeral of [z] in base [B] <= 16, with small or capital letters for the digits from 10 on: at least one digit, no
    leading zero except in "0" itself, and reading it from left to right gives [z]. *)
Definition hex_numeral (up : bool) (B : Z) (s : string) (z : Z) : Prop :=
  codes s <> [] /\
  Forall (fun c => 48 <= c < 48 + Z.min B 10 \/ letter up <= c < letter up + (B - 10)) (codes s) /\
  (hd 0 (codes s) = 48 -> codes s = [48]) /\
  fold_left (fun acc c => acc * B + (if c <? 58 then c - 48 else c - letter up + 10)) (codes s) 0 = z.

(** The radix that std::oct, std::dec and std::hex announce. *)
Definition announced (r : radix) : Z := match r with Oct => 8 | Dec => 10 | Hex => 16 end.

(** The part of the text that the width applies to. *)
Definition first_item (L : limits) (f : format) (x : bignum) : string :=
  match desc x with
  | BN_NEG => "-"
  | BN_POS => match data x with [] => "0" | v => fst (insert_digit (ws L) (no_width f) (last v 0)) end
  | BN_POS_INF => "+INF"
  | BN_NEG_INF => "-INF"
  | BN_NAN => "NaN"
  end.

(** ** Proofs *)

Lemma app_s_assoc (a b c : string) : (a ++ b) ++ c = a ++ b ++ c.
Proof. induction a as [|x a IH]; [reflexivity|cbn; rewrite IH; reflexivity]. Qed.
Lemma app_s_nil (a : string) : a ++ "" = a.
Proof. induction a as [|x a IH]; [reflexivity|cbn; rewrite IH; reflexivity]. Qed.
Lemma length_app_s (a b : string) : String.length (a ++ b) = (String.length a + String.length b)%nat.
Proof. induction a as [|x a IH]; [reflexivity|cbn; rewrite IH; reflexivity]. Qed.
Lemma length_filled c n : String.length (filled c n) = n.
Proof. induction n as [|n IH]; [reflexivity|cbn; rewrite IH; reflexivity]. Qed.

Local Open Scope Z_scope.

Definition dcode (up : bool) (d : Z) : Z := if d <? 10 then 48 + d else letter up + (d - 10).

Lemma digit_char_code up d : 0 <= d < 16 -> Z.of_nat (nat_of_ascii (digit_char up d)) = dcode up d.
Proof.
  intros Hd. assert (In d (map Z.of_nat (seq 0 16))) as H.
  { replace d with (Z.of_nat (Z.to_nat d)) by lia. apply in_map, in_seq. lia. }
  cbn [seq map In] in H. destruct up; repeat destruct H as [<-|H]; try reflexivity; destruct H.
Qed.

Lemma numeral_of_digits up B s v : 2 <= B <= 16 -> digits_ok B v -> weak_canonical v -> v <> [] ->
  codes s = rev (map (dcode up) v) -> hex_numeral up B s (value B v).
Proof.
  intros HB Dv Cv Nv E. unfold hex_numeral. rewrite E. unfold dcode, letter. split; [|split; [|split]].
  - destruct v; [congruence|]. cbn [map rev]. intros H. apply app_eq_nil in H. destruct H; discriminate.
  - apply Forall_rev, Forall_map. eapply Forall_impl; [|exact Dv]. cbv beta. intros d Hd.
    destruct (Z.ltb_spec d 10); [left|right]; destruct up; lia.
  - destruct (exists_last Nv) as (u & x & Ev). rewrite Ev in *. rewrite map_app, rev_app_distr. cbn [map rev app hd].
    intros H. destruct Cv as [Cv|Cv].
    + exfalso. unfold canonical in Cv. rewrite last_last in Cv. apply Forall_app in Dv. destruct Dv as [_ Dv].
      inversion Dv; subst. destruct (Z.ltb_spec x 10); destruct up; lia.
    + destruct u as [|? [|? ?]]; try discriminate. injection Cv as ->. reflexivity.
  - rewrite <- fold_left_rev_right, rev_involutive. clear E Nv Cv. induction v as [|d v IH]; [reflexivity|].
    inversion_clear Dv as [|? ? Hd Hv]. cbn [map fold_right value]. rewrite (IH Hv).
    destruct (Z.ltb_spec d 10); [rewrite (proj2 (Z.ltb_lt _ _)) by lia; ring|].
    rewrite (proj2 (Z.ltb_ge _ _)) by (destruct up; lia). ring.
Qed.

Lemma unsigned_digits_spec up b : 2 <= b <= 16 -> forall k n acc, 0 <= n < 2 ^ Z.of_nat (S k) ->
  exists v, codes (unsigned_digits up (S k) b n acc) = (rev (map (dcode up) v) ++ codes acc)%list /\
    digits_ok b v /\ weak_canonical v /\ v <> [] /\ value b v = n.
Proof.
  intros Hb. induction k as [|k IH]; intros n acc Hn.
  - assert (n / b = 0) as E by (apply Z.div_small; change (Z.of_nat 1) with 1 in Hn; lia).
    assert (n mod b = n) as Em by (apply Z.mod_small; change (Z.of_nat 1) with 1 in Hn; lia).
    cbn [unsigned_digits]. rewrite E, Em. cbn [Z.eqb codes]. rewrite digit_char_code by (change (Z.of_nat 1) with 1 in Hn; lia).
    exists [n]. cbn [map rev app value]. change (Z.of_nat 1) with 1 in Hn.
    repeat split; auto; try discriminate; try lia; [repeat constructor; lia|].
    destruct (Z.eq_dec n 0) as [->|]; [right; reflexivity|left; unfold canonical; cbn; lia].
  - remember (S k) as k1 eqn:Ek. cbn [unsigned_digits]. pose proof (Z.mod_pos_bound n b ltac:(lia)) as Hm.
    pose proof (Z.div_mod n b ltac:(lia)) as Dm.
    destruct (Z.eqb_spec (n / b) 0) as [E|E].
    + cbn [codes]. rewrite digit_char_code by lia. exists [n mod b]. cbn [map rev app value].
      repeat split; auto; try discriminate; try lia; [repeat constructor; lia|].
      destruct (Z.eq_dec (n mod b) 0) as [->|]; [right; reflexivity|left; unfold canonical; cbn; lia].
    + subst k1. destruct (IH (n / b) (String (digit_char up (n mod b)) acc)) as (v & Ev & Dv & Cv & Nv & Vv).
      { split; [apply Z.div_pos; lia|]. apply Z.div_lt_upper_bound; [lia|].
        rewrite Nat2Z.inj_succ, Z.pow_succ_r in Hn by lia. pose proof (Z.pow_pos_nonneg 2 (Z.of_nat (S k)) ltac:(lia) ltac:(lia)). nia. }
      exists (n mod b :: v). rewrite Ev. cbn [codes map rev value]. rewrite digit_char_code by lia. rewrite <- app_assoc.
      repeat split; auto; try discriminate; [constructor; auto|..].
      * destruct Cv as [Cv| ->]; [|cbn [value] in Vv; lia]. left. destruct (exists_last Nv) as (u & x & Eu).
        rewrite Eu in *. rewrite app_comm_cons. apply canonical_snoc. unfold canonical in Cv. rewrite last_last in Cv. lia.
      * rewrite Vv. lia.
Qed.

Lemma announced_radix r : announced r = radix_value r.
Proof. destruct r; reflexivity. Qed.

Lemma radix_bounds r : 2 <= radix_value r <= 16.
Proof. destruct r; cbn; lia. Qed.

Lemma unsigned_text_spec f n : 0 <= n ->
  exists v, codes (unsigned_text f n) = rev (map (dcode (uppercase f)) v) /\
    digits_ok (radix_value (basefield f)) v /\ weak_canonical v /\ v <> [] /\ value (radix_value (basefield f)) v = n.
Proof.
  intros Hn. unfold unsigned_text.
  destruct (unsigned_digits_spec (uppercase f) _ (radix_bounds (basefield f)) (Z.to_nat (Z.log2 n)) n "") as (v & E & H).
  - split; [lia|]. rewrite Nat2Z.inj_succ, Z2Nat.id by apply Z.log2_nonneg. destruct (Z.eq_dec n 0) as [->|]; [cbn; lia|].
    apply Z.log2_spec. lia.
  - cbn [codes] in E. rewrite app_nil_r in E. exists v. auto.
Qed.

Lemma put_plain f p b : width f = O -> put f p b = ((p ++ b)%string, no_width f).
Proof. intros E. unfold put. rewrite E. cbn [Nat.sub filled]. destruct (adjust f); cbn [append]; rewrite ?app_s_nil; reflexivity. Qed.

Lemma no_width_0 f : width f = O -> no_width f = f.
Proof. destruct f. cbn. intros ->. reflexivity. Qed.

(** every inserter leaves the width 0 and what else there was *)
Lemma insert_digit_format W f d : snd (insert_digit W f d) = no_width f.
Proof. unfold insert_digit, insert_unsigned, put. destruct (W =? 8); [reflexivity|]. destruct (basefield f); reflexivity. Qed.

Lemma insert_digits_format W f v : v <> [] -> snd (insert_digits W f v) = no_width f.
Proof.
  induction v as [|d r IH]; [congruence|]. intros _. cbn [insert_digits].
  destruct r as [|d' r'].
  - cbn [insert_digits]. pose proof (insert_digit_format W f d). destruct (insert_digit W f d). exact H.
  - specialize (IH ltac:(discriminate)). destruct (insert_digits W f (d' :: r')) as [s g]. cbn [snd] in IH. subst g.
    pose proof (insert_digit_format W (no_width f) d). destruct (insert_digit W (no_width f) d). exact H.
Qed.

(** The width applies to the last digit of the list only. *)
Lemma insert_digits_split W f v : v <> [] -> exists rest, forall w,
  fst (insert_digits W (mkFormat (basefield f) (showbase f) (uppercase f) (adjust f) (fill f) w) v) =
  (fst (insert_digit W (mkFormat (basefield f) (showbase f) (uppercase f) (adjust f) (fill f) w) (last v 0%Z)) ++ rest)%string.
Proof.
  induction v as [|d r IH]; [congruence|]. intros _. destruct r as [|d' r'].
  - exists ""%string. intros w. cbn [insert_digits last]. destruct (insert_digit _ _ d). cbn [fst]. rewrite app_s_nil. reflexivity.
  - destruct IH as [rest IH]; [discriminate|]. exists (rest ++ fst (insert_digit W (no_width f) d))%string. intros w. specialize (IH w).
    cbn [insert_digits] in *. fold (insert_digits W) in *.
    set (g := mkFormat (basefield f) (showbase f) (uppercase f) (adjust f) (fill f) w) in *.
    pose proof (insert_digits_format W g (d' :: r') ltac:(discriminate)) as Hf. cbn [insert_digits] in Hf.
    destruct (let '(s, f0) := insert_digits W g r' in let '(t, f1) := insert_digit W f0 d' in ((s ++ t)%string, f1)) as [s h].
    cbn [fst snd] in *. subst h. change (no_width g) with (no_width f).
    destruct (insert_digit W (no_width f) d) as [t h]. cbn [fst]. rewrite IH. change (last (d :: d' :: r') 0) with (last (d' :: r') 0).
    apply app_s_assoc.
Qed.

(** ** Theorems *)

(** With the default flags it is the text of C32. *)
Theorem C63_default : forall L x, Forall (fun d => 0 <= d) (data x) -> insert L default_format x = (print L x, default_format).
Proof.
  intros L x Hx.
  assert (forall d, 0 <= d -> insert_digit (ws L) default_format d = (print_digit L d, default_format)) as H1.
  { intros d Hd. unfold insert_digit, print_digit. destruct (ws L =? 8) eqn:W; [reflexivity|].
    unfold insert_unsigned. cbn [basefield default_format]. rewrite put_plain by reflexivity. cbn [append]. f_equal.
    destruct (unsigned_text_spec default_format d Hd) as (v & E & Dv & Cv & Nv & Vv).
    pose proof (written_numeral 16 d ltac:(lia) Hd) as N1. unfold bni_write in N1. cbn [Z.eqb Pos.eqb] in N1.
    apply (numeral_unique 10 _ _ d ltac:(lia)); [|exact N1].
    destruct (numeral_of_digits false 10 _ v ltac:(lia) Dv Cv Nv E) as (A & C & D & F). split; [exact A|]. split.
    - eapply Forall_impl; [|exact C]. cbv beta. intros c. lia.
    - split; [exact D|]. cbn [radix_value basefield default_format] in Vv. refine (eq_trans _ (eq_trans F Vv)).
      assert (Forall (fun c => c < 58) (codes (unsigned_text default_format d))) as K by (eapply Forall_impl; [|exact C]; cbv beta; intros; lia).
      clear - K. revert K. generalize 0. induction (codes (unsigned_text default_format d)) as [|c l IH]; intros a K; [reflexivity|].
      inversion_clear K as [|? ? K1 K2]. cbn [fold_left]. rewrite (proj2 (Z.ltb_lt _ _)) by exact K1. apply IH. exact K2. }
  assert (forall v, Forall (fun d => 0 <= d) v -> insert_digits (ws L) default_format v = (print_digits L v, default_format)) as H2.
  { induction v as [|d v IH]; intros Hv; [reflexivity|]. inversion_clear Hv as [|? ? Hd Hv']. cbn [insert_digits print_digits].
    rewrite (IH Hv'), (H1 d Hd). reflexivity. }
  unfold insert, insert_magnitude, print. destruct (desc x); cbn -[insert_digits print_digits]; try reflexivity;
    (destruct (data x) as [|d v]; [reflexivity|rewrite H2 by assumption; reflexivity]).
Qed.
Print Assumptions C63_default.

(** A digit of more than 8 bits is written as the numeral of its value in the radix of the stream. *)
Theorem C63_digit : forall L f d, ws L <> 8 -> showbase f = false -> width f = O -> 0 <= d ->
  exists s, hex_numeral (uppercase f) (announced (basefield f)) s d /\ insert_digit (ws L) f d = (s, f).
Proof.
  intros L f d Hw Hs Hz Hd. pose proof (radix_bounds (basefield f)) as Hr. exists (unsigned_text f d). split.
  - destruct (unsigned_text_spec f d Hd) as (v & E & Dv & Cv & Nv & Vv). rewrite announced_radix.
    rewrite <- Vv at 2. apply numeral_of_digits; auto.
  - unfold insert_digit. rewrite (proj2 (Z.eqb_neq _ _) Hw). unfold insert_unsigned. rewrite Hs. cbn [andb].
    destruct (basefield f); rewrite put_plain by exact Hz; cbn [append]; rewrite no_width_0 by exact Hz; reflexivity.
Qed.
Print Assumptions C63_digit.

(** For a type with a base up to the radix of the stream -- with std::hex, base 16 included -- the text is the numeral of the
    number, after a '-' if the descriptor is BN_NEG. *)
Theorem C63_numeral : forall L f x, ws L <> 8 -> 2 <= base L <= announced (basefield f) -> showbase f = false -> width f = O ->
  good (base L) x ->
  exists s, hex_numeral (uppercase f) (base L) s (value (base L) (data x)) /\
    fst (insert L f x) = match desc x with BN_NEG => String "-"%char s | _ => s end.
Proof.
  intros L f x Hw HB Hs Hz (Fx & Dx & Cx). rewrite announced_radix in HB. pose proof (radix_bounds (basefield f)) as Hr.
  assert (forall d, 0 <= d < base L -> exists t, insert_digit (ws L) f d = (t, f) /\ codes t = [dcode (uppercase f) d]) as H1.
  { intros d Hd. unfold insert_digit. rewrite (proj2 (Z.eqb_neq _ _) Hw). unfold insert_unsigned. rewrite Hs. cbn [andb].
    exists (unsigned_text f d). split.
    - destruct (basefield f); rewrite put_plain by exact Hz; cbn [append]; rewrite no_width_0 by exact Hz; reflexivity.
    - unfold unsigned_text. cbn [unsigned_digits]. rewrite Z.mod_small, Z.div_small by lia. cbn [Z.eqb codes].
      rewrite digit_char_code by lia. reflexivity. }
  assert (forall v, digits_ok (base L) v -> exists t, insert_digits (ws L) f v = (t, f) /\ codes t = rev (map (dcode (uppercase f)) v)) as H2.
  { induction v as [|d v IH]; intros Hv; [exists ""; split; reflexivity|]. inversion_clear Hv as [|? ? Hd Hv'].
    destruct (IH Hv') as (t & E1 & C1). destruct (H1 d Hd) as (t' & E2 & C2). exists (t ++ t')%string. cbn [insert_digits].
    rewrite E1, E2. split; [reflexivity|]. rewrite codes_app, C1, C2. reflexivity. }
  assert (exists s, hex_numeral (uppercase f) (base L) s (value (base L) (data x)) /\ insert_magnitude L f (data x) = (s, f)) as (s & Ns & Es).
  { unfold insert_magnitude. destruct (data x) as [|d v] eqn:E.
    - exists "0". rewrite put_plain by exact Hz. rewrite no_width_0 by exact Hz. split; [|reflexivity].
      replace (value (base L) []) with (value (base L) [0]) by (cbn [value]; lia).
      apply (numeral_of_digits (uppercase f) (base L) "0" [0]); try lia; try discriminate; [repeat constructor; lia|right; reflexivity|reflexivity].
    - rewrite <- E in *. destruct (H2 (data x) Dx) as (t & Et & Ct). exists t. split; [|exact Et].
      apply numeral_of_digits; auto; [lia|rewrite E; discriminate]. }
  exists s. split; [exact Ns|]. unfold insert. destruct Fx as [-> | ->].
  - rewrite Es. reflexivity.
  - rewrite put_plain by exact Hz. rewrite no_width_0 by exact Hz. rewrite Es. reflexivity.
Qed.
Print Assumptions C63_numeral.

(** Two numbers then have the same text exactly if they have the same sign and magnitude: std::hex removes the ambiguity of
    C32_ambiguous for base 16. *)
Theorem C63_same_text : forall L f x y, ws L <> 8 -> 2 <= base L <= announced (basefield f) -> showbase f = false -> width f = O ->
  good (base L) x -> good (base L) y ->
  (fst (insert L f x) = fst (insert L f y) <-> desc x = desc y /\ value (base L) (data x) = value (base L) (data y)).
Proof.
  intros L f x y Hw HB Hs Hz Gx Gy. rewrite announced_radix in HB.
  rewrite <- announced_radix in HB. destruct (C63_numeral L f x Hw HB Hs Hz Gx) as (s & Ns & Es). destruct (C63_numeral L f y Hw HB Hs Hz Gy) as (t & Nt & Et).
  assert (forall u z, hex_numeral (uppercase f) (base L) u z -> forall r, u <> String "-"%char r) as Nm.
  { intros u z (_ & H & _) r ->. cbn [codes] in H. inversion H as [|a b Ha Hb]. change (Z.of_nat (nat_of_ascii "-")) with 45 in Ha.
    unfold letter in Ha. destruct (uppercase f); lia. }
  split.
  - intros E. rewrite Es, Et in E. pose proof Ns as (_ & _ & _ & <-). pose proof Nt as (_ & _ & _ & <-).
    destruct Gx as ([Ex|Ex] & _), Gy as ([Ey|Ey] & _); rewrite Ex, Ey in *.
    + rewrite E. auto.
    + exfalso. exact (Nm _ _ Ns _ E).
    + exfalso. exact (Nm _ _ Nt _ (eq_sym E)).
    + injection E as ->. auto.
  - intros [Ed Ev]. destruct Gx as (Fx & Dx & Cx), Gy as (Fy & Dy & Cy).
    assert (data x = data y \/ (data x = [] \/ data x = [0]) /\ (data y = [] \/ data y = [0])) as H.
    { assert (2 <= base L) as HB' by lia.
      destruct Cx as [Cx|Cx], Cy as [Cy|Cy].
      - left. apply (value_inj (base L)); auto.
      - right. rewrite Cy in *. cbn [value] in Ev. destruct (data x) eqn:E; [auto|]. exfalso.
        pose proof (value_canonical_pos (base L) HB' _ Dx Cx ltac:(discriminate)). lia.
      - right. rewrite Cx in *. cbn [value] in Ev. destruct (data y) eqn:E; [auto|]. exfalso.
        pose proof (value_canonical_pos (base L) HB' _ Dy Cy ltac:(discriminate)). lia.
      - right. auto. }
    assert (forall g v, width g = O -> showbase g = false -> v = [] \/ v = [0] -> fst (insert_magnitude L g v) = "0") as K.
    { intros g v Gw Gs [-> | ->]; cbn [insert_magnitude insert_digits].
      - rewrite put_plain by exact Gw. reflexivity.
      - unfold insert_digit. rewrite (proj2 (Z.eqb_neq _ _) Hw). unfold insert_unsigned. rewrite Gs. cbn [andb].
        assert (unsigned_text g 0 = "0") as -> by (unfold unsigned_text; destruct (basefield g); reflexivity).
        destruct (basefield g); rewrite put_plain by exact Gw; reflexivity. }
    assert (fst (insert_magnitude L f (data x)) = fst (insert_magnitude L f (data y))) as E.
    { destruct H as [->|[H1 H2]]; [reflexivity|]. rewrite !K; auto. }
    unfold insert. rewrite Ed. destruct (desc y); try reflexivity; [exact E|].
    rewrite put_plain by exact Hz. rewrite no_width_0 by exact Hz.
    destruct (insert_magnitude L f (data x)), (insert_magnitude L f (data y)). cbn [fst] in *. rewrite E. reflexivity.
Qed.
Print Assumptions C63_same_text.

(** With a base above the radix the text is ambiguous: the digit equal to the radix looks like the digits 1 and 0. *)
Theorem C63_ambiguous : forall L f, ws L <> 8 -> announced (basefield f) < base L -> showbase f = false -> width f = O ->
  exists x y, good (base L) x /\ good (base L) y /\ signed_value (base L) x <> signed_value (base L) y /\
    fst (insert L f x) = fst (insert L f y).
Proof.
  intros L f Hw HB Hs Hz. rewrite announced_radix in HB. pose proof (radix_bounds (basefield f)) as Hr.
  exists (mkBN BN_POS [radix_value (basefield f)]), (mkBN BN_POS [0; 1]). split; [|split; [|split]].
  - split; [left; reflexivity|]. split; [repeat constructor; lia|left; unfold canonical; cbn; lia].
  - split; [left; reflexivity|]. split; [repeat constructor; lia|left; discriminate].
  - cbn [signed_value desc data value]. lia.
  - unfold insert. cbn [desc data insert_magnitude insert_digits]. unfold insert_digit. rewrite (proj2 (Z.eqb_neq _ _) Hw).
    unfold insert_unsigned. rewrite Hs. cbn [andb]. unfold unsigned_text.
    destruct f as [[] sb up ad fi w]; cbn [basefield showbase uppercase width] in *; subst w sb;
      rewrite !put_plain by reflexivity; cbn [basefield showbase uppercase width no_width adjust fill]; rewrite ?put_plain by reflexivity; reflexivity.
Qed.
Print Assumptions C63_ambiguous.

(** std::setw pads the sign or the first digit only: padding on the left comes before the number, which then takes more than the
    width if it has more digits; padding on the right comes between its first digit and the others.  Afterwards the width is 0. *)
Theorem C63_width : forall L f x, exists rest,
  let first := first_item L f x in
  let pad := filled (fill f) (width f - String.length first) in
  fst (insert L (no_width f) x) = (first ++ rest)%string /\
  match adjust f with
  | ToRight => fst (insert L f x) = (pad ++ first ++ rest)%string
  | ToLeft => fst (insert L f x) = (first ++ pad ++ rest)%string
  | Internal => exists p q, first = (p ++ q)%string /\ In p [""; "0x"; "0X"] /\ fst (insert L f x) = (p ++ pad ++ q ++ rest)%string
  end /\
  snd (insert L f x) = no_width f.
Proof.
  intros L f x.
  assert (forall p b r, In p [""; "0x"; "0X"] -> let pad := filled (fill f) (width f - String.length (p ++ b)) in
    fst (put (no_width f) p b) = (p ++ b)%string /\
    match adjust f with
    | ToRight => (fst (put f p b) ++ r)%string = (pad ++ (p ++ b) ++ r)%string
    | ToLeft => (fst (put f p b) ++ r)%string = ((p ++ b) ++ pad ++ r)%string
    | Internal => exists p' q, (p ++ b)%string = (p' ++ q)%string /\ In p' [""; "0x"; "0X"] /\ (fst (put f p b) ++ r)%string = (p' ++ pad ++ q ++ r)%string
    end) as HP.
  { intros p b r Hp. cbv zeta. rewrite put_plain by reflexivity. split; [reflexivity|]. unfold put. rewrite length_app_s. cbn [fst].
    destruct (adjust f); [rewrite !app_s_assoc; reflexivity|rewrite !app_s_assoc; reflexivity|].
    exists p, b. rewrite !app_s_assoc. auto. }
  assert (forall s, exists rest, let pad := filled (fill f) (width f - String.length s) in
    fst (put (no_width f) "" s) = (s ++ rest)%string /\
    match adjust f with
    | ToRight => fst (put f "" s) = (pad ++ s ++ rest)%string
    | ToLeft => fst (put f "" s) = (s ++ pad ++ rest)%string
    | Internal => exists p q, s = (p ++ q)%string /\ In p [""; "0x"; "0X"] /\ fst (put f "" s) = (p ++ pad ++ q ++ rest)%string
    end /\ snd (put f "" s) = no_width f) as HS.
  { intros s. exists "". destruct (HP "" s "" ltac:(left; reflexivity)) as [A B]. cbn [append] in *. rewrite !app_s_nil in *.
    split; [exact A|]. split; [|reflexivity]. destruct (adjust f); [exact B|exact B|].
    destruct B as (p & q & E & I & X). rewrite app_s_nil in X. exists p, q. rewrite app_s_nil. auto. }
  unfold insert, first_item. destruct (desc x).
  - (* BN_POS *)
    unfold insert_magnitude. destruct (data x) as [|d0 v0] eqn:Ev; [apply HS|]. rewrite <- Ev in *. assert (data x <> []) as Nv by congruence.
    destruct (insert_digits_split (ws L) f (data x) Nv) as [rest Hr]. exists rest. cbv zeta.
    assert (forall g, g = mkFormat (basefield g) (showbase g) (uppercase g) (adjust g) (fill g) (width g)) as Eta by (intros []; reflexivity).
    split; [exact (Hr O)|]. split; [|apply insert_digits_format; exact Nv].
    pose proof (Hr (width f)) as Hw. rewrite <- Eta in Hw. rewrite Hw.
    set (d := last (data x) 0). change (mkFormat _ _ _ _ _ 0) with (no_width f).
    assert (exists p b, In p [""; "0x"; "0X"] /\ insert_digit (ws L) f d = put f p b /\ insert_digit (ws L) (no_width f) d = put (no_width f) p b)
      as (p & b & Ip & E1 & E2).
    { unfold insert_digit. destruct (ws L =? 8); [do 2 eexists; split; [left; reflexivity|split; reflexivity]|].
      unfold insert_unsigned. cbn [no_width basefield showbase uppercase]. change (unsigned_text (no_width f) d) with (unsigned_text f d).
      destruct (basefield f); [do 2 eexists; split; [left; reflexivity|split; reflexivity]..|].
      destruct (showbase f && negb (d =? 0)); [|do 2 eexists; split; [left; reflexivity|split; reflexivity]].
      do 2 eexists. split; [|split; reflexivity]. destruct (uppercase f); cbn; auto. }
    destruct (HP p b rest Ip) as [A B]. rewrite E1, E2, A. exact B.
  - (* BN_NEG *)
    destruct (HP "" "-" (fst (insert_magnitude L (no_width f) (data x))) ltac:(left; reflexivity)) as [A B]. cbn [append] in *.
    exists (fst (insert_magnitude L (no_width f) (data x))). cbv zeta.
    rewrite (put_plain (no_width f) "" "-") by reflexivity. cbn [append]. change (no_width (no_width f)) with (no_width f).
    replace (put f "" "-") with (fst (put f "" "-"), no_width f) by reflexivity.
    assert (snd (insert_magnitude L (no_width f) (data x)) = no_width f) as S.
    { unfold insert_magnitude. destruct (data x) as [|d v] eqn:E; [reflexivity|]. apply (insert_digits_format (ws L) (no_width f)). discriminate. }
    destruct (insert_magnitude L (no_width f) (data x)) as [t g]. cbn [fst snd] in *. subst g. split; [reflexivity|]. split; [exact B|reflexivity].
  - apply HS.
  - apply HS.
  - apply HS.
Qed.
Print Assumptions C63_width.

(** So std::setw(w) gives a text of w characters only for texts of one item, and columns are not aligned. *)
Theorem C63_aligned_refuted : ~ forall L f x, good (base L) x ->
  (String.length (fst (insert L (no_width f) x)) <= width f)%nat -> String.length (fst (insert L f x)) = width f.
Proof.
  intros H. specialize (H base10 (mkFormat Dec false false ToRight " " 6) (mkBN BN_POS [3; 2; 1])).
  specialize (H ltac:(split; [left; reflexivity|split; [repeat constructor; cbn; lia|left; discriminate]]) ltac:(vm_compute; lia)).
  vm_compute in H. discriminate.
Qed.
Print Assumptions C63_aligned_refuted.

(** the length in general, with padding on either side *)
Theorem C63_length : forall L f x,
  String.length (fst (insert L f x)) =
  (Nat.max (width f) (String.length (first_item L f x)) +
   (String.length (fst (insert L (no_width f) x)) - String.length (first_item L f x)))%nat.
Proof.
  intros L f x. destruct (C63_width L f x) as (rest & A & B & _). cbv zeta in *. rewrite A.
  assert (String.length (fst (insert L f x)) =
    (String.length (filled (fill f) (width f - String.length (first_item L f x))) + String.length (first_item L f x) + String.length rest)%nat) as ->.
  { destruct (adjust f); [rewrite B, !length_app_s; lia..|]. destruct B as (p & q & -> & _ & ->). rewrite !length_app_s. lia. }
  rewrite length_filled, length_app_s. lia.
Qed.
Print Assumptions C63_length.

(** std::showbase gives every digit that is not 0 its own prefix. *)
Theorem C63_showbase_refuted : exists x, good 16 x /\ value 16 (data x) = 291 /\
  fst (insert base16 (mkFormat Hex true false ToRight " " 0) x) = "0x10x20x3" /\
  fst (insert base16 (mkFormat Hex false false ToRight " " 0) x) = "123".
Proof.
  exists (mkBN BN_POS [3; 2; 1]). split; [split; [left; reflexivity|split; [repeat constructor; lia|left; discriminate]]|].
  repeat split; vm_compute; reflexivity.
Qed.
Print Assumptions C63_showbase_refuted.

Example C63_cases :
  fst (insert base16 (mkFormat Hex false false ToRight " " 0) (mkBN BN_NEG [11; 10; 1])) = "-1ab" /\
  hex_numeral false 16 "1ab" (value 16 [11; 10; 1]) /\ good 16 (mkBN BN_NEG [11; 10; 1]) /\
  fst (insert base16 (mkFormat Dec false false ToRight " " 0) (mkBN BN_NEG [11; 10; 1])) = "-11011" /\
  fst (insert base10 (mkFormat Dec false false ToRight " " 6) (mkBN BN_POS [3; 2; 1])) = "     123" /\
  fst (insert base10 (mkFormat Dec false false ToRight "." 6) (mkBN BN_NEG [3; 2; 1])) = ".....-123" /\
  fst (insert base10 (mkFormat Dec false false ToLeft " " 4) (mkBN BN_POS [3; 2; 1])) = "1   23" /\
  fst (insert base256 (mkFormat Hex true true Internal "0" 6) (mkBN BN_POS [255; 16])) = "0X00100XFF".
Proof.
  repeat match goal with
         | |- _ /\ _ => split
         | |- good _ _ => split; [right; reflexivity|split; [repeat constructor; cbn; lia|left; discriminate]]
         end; try (vm_compute; reflexivity); try discriminate.
  split; [discriminate|split; [|split; [discriminate|reflexivity]]]. repeat apply Forall_cons; try apply Forall_nil; cbn; lia.
Qed.
