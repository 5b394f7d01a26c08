(** * Property C75: numbers written in a locale that groups digits *)
From Coq Require Import String Ascii.
From Verif Require Import Base Spec Limits Print Format Grouping Wp ValueProof PropPrint PropFormat.
Notation length := Datatypes.length (only parsing).
Local Open Scope string_scope.
Local Open Scope Z_scope.

(** ** Proofs *)

Lemma length_codes s : length (codes s) = String.length s.
Proof. induction s as [|c s IH]; [reflexivity|]. cbn. f_equal. exact IH. Qed.

Lemma length_list s : length (list_ascii_of_string s) = String.length s.
Proof. induction s as [|c s IH]; [reflexivity|]. cbn. f_equal. exact IH. Qed.

(** the number of characters of an integer *)
Lemma text_length f n g : 0 <= n -> (1 <= g)%nat ->
  ((String.length (unsigned_text f n) <= g)%nat <-> n < radix_value (basefield f) ^ Z.of_nat g).
Proof.
  intros Hn Hg. destruct (unsigned_text_spec f n Hn) as (v & E & Dv & Cv & Nv & Vv).
  pose proof (radix_bounds (basefield f)) as Hr. set (b := radix_value (basefield f)) in *.
  assert (length v = String.length (unsigned_text f n)) as EL by (rewrite <- length_codes, E, rev_length, map_length; reflexivity).
  rewrite <- EL. pose proof (value_bounds b ltac:(lia) v Dv) as Hv. split; intros H.
  - rewrite <- Vv. eapply Z.lt_le_trans; [apply Hv|]. apply Z.pow_le_mono_r; lia.
  - destruct Cv as [Cv| ->]; [|cbn; lia].
    destruct (exists_last Nv) as (u & x & Eu). rewrite Eu in *. unfold canonical in Cv. rewrite last_last in Cv.
    apply Forall_app in Dv. destruct Dv as [Du Dx]. inversion_clear Dx as [|? ? Hx _].
    rewrite value_app in Vv. cbn [value] in Vv. pose proof (value_bounds b ltac:(lia) u Du) as Hu.
    rewrite app_length. cbn [length]. destruct (Nat.le_gt_cases (length u + 1) g) as [|G]; [assumption|exfalso].
    assert (b ^ Z.of_nat g <= b ^ Z.of_nat (length u)) by (apply Z.pow_le_mono_r; lia). nia.
Qed.

Lemma group_short sep g rest : forall cs left, (length cs <= left)%nat -> group_from sep g left rest cs = cs.
Proof.
  induction cs as [|c t IH]; intros left H; [reflexivity|]. cbn [group_from]. destruct (g =? 0)%nat; [reflexivity|].
  cbn [length] in H. destruct left as [|l]; [lia|]. f_equal. apply IH. lia.
Qed.

Lemma group_zero sep left rest cs : group_from sep 0 left rest cs = cs.
Proof. destruct cs; reflexivity. Qed.

Lemma group_long sep g rest : (1 <= g)%nat -> forall cs left, (left < length cs)%nat -> In sep (group_from sep g left rest cs).
Proof.
  intros Hg. induction cs as [|c t IH]; intros left H; cbn [length] in H; [lia|]. cbn [group_from].
  rewrite (proj2 (Nat.eqb_neq g 0)) by lia. destruct left as [|l].
  - destruct rest; left; reflexivity.
  - right. apply IH. lia.
Qed.

(** the text without separators *)
Definition strip_of (sep : ascii) (cs : list ascii) : list ascii := filter (fun c => negb (Ascii.eqb c sep)) cs.

Lemma strip_cons_sep sep cs : strip_of sep (sep :: cs) = strip_of sep cs.
Proof. unfold strip_of. cbn [filter]. rewrite Ascii.eqb_refl. reflexivity. Qed.

Lemma strip_cons sep c cs cs' : strip_of sep cs = strip_of sep cs' -> strip_of sep (c :: cs) = strip_of sep (c :: cs').
Proof. unfold strip_of. cbn [filter]. intros ->. reflexivity. Qed.

Lemma group_strip sep : forall cs g left rest, strip_of sep (group_from sep g left rest cs) = strip_of sep cs.
Proof.
  induction cs as [|c t IH]; intros g left rest; [reflexivity|]. cbn [group_from]. destruct (g =? 0)%nat; [reflexivity|].
  destruct left as [|l].
  - destruct rest as [|h r]; rewrite strip_cons_sep; apply strip_cons, IH.
  - apply strip_cons, IH.
Qed.

Lemma list_app a b : list_ascii_of_string (a ++ b) = (list_ascii_of_string a ++ list_ascii_of_string b)%list.
Proof. induction a as [|c a IH]; [reflexivity|]. cbn. f_equal. exact IH. Qed.

Lemma list_string l : list_ascii_of_string (string_of_list_ascii l) = l.
Proof. apply list_ascii_of_string_of_list_ascii. Qed.

Lemma strip_app sep a b : strip_of sep (a ++ b)%list = (strip_of sep a ++ strip_of sep b)%list.
Proof. apply filter_app. Qed.

Lemma strip_rev sep a : strip_of sep (rev a) = rev (strip_of sep a).
Proof.
  induction a as [|c a IH]; [reflexivity|]. cbn [rev]. rewrite strip_app, IH. unfold strip_of. cbn [filter].
  destruct (negb (Ascii.eqb c sep)); cbn [rev]; rewrite ?app_nil_r; reflexivity.
Qed.

Lemma grouped_short p s : hd O (sizes p) = O \/ (String.length s <= hd O (sizes p))%nat -> grouped p s = s.
Proof.
  unfold grouped. destruct (sizes p) as [|g r]; [reflexivity|]. cbn [hd]. intros H.
  assert (group_from (separator p) g g r (rev (list_ascii_of_string s)) = rev (list_ascii_of_string s)) as ->.
  { destruct H as [->|H]; [apply group_zero|]. apply group_short. rewrite rev_length, length_list. exact H. }
  rewrite rev_involutive. apply string_of_list_ascii_of_string.
Qed.

Lemma grouped_long p s : (1 <= hd O (sizes p) < String.length s)%nat -> In (separator p) (list_ascii_of_string (grouped p s)).
Proof.
  unfold grouped. destruct (sizes p) as [|g r]; cbn [hd]; [lia|]. intros H. rewrite list_string, <- in_rev.
  apply group_long; [lia|]. rewrite rev_length, length_list. lia.
Qed.

Lemma grouped_strip p s : strip_of (separator p) (list_ascii_of_string (grouped p s)) = strip_of (separator p) (list_ascii_of_string s).
Proof.
  unfold grouped. destruct (sizes p) as [|g r]; [reflexivity|].
  rewrite list_string, strip_rev, group_strip, strip_rev, rev_involutive. reflexivity.
Qed.

(** ** Theorems *)

(** The size of the first group from the right; 0 if the locale does not group. *)
Definition first_group (p : punct) : nat := hd O (sizes p).

(** A digit that the locale leaves as it is: one written as a character, or one of no more characters than the first group. *)
Definition fits (p : punct) (L : limits) (f : format) (d : Z) : Prop :=
  ws L = 8 \/ first_group p = O \/ d < announced (basefield f) ^ Z.of_nat (first_group p).

(** The grouping is applied to each digit of the list by itself, so it changes nothing if each of them fits. *)
Theorem C75_unchanged : forall p L f x, Forall (fun d => 0 <= d /\ fits p L f d) (data x) -> insert_in p L f x = insert L f x.
Proof.
  intros p L f x H.
  assert (forall d g, basefield g = basefield f -> 0 <= d -> fits p L f d -> insert_digit_in p (ws L) g d = insert_digit (ws L) g d) as H1.
  { intros d g Eg Hd F. unfold insert_digit_in, insert_digit. destruct (Z.eqb_spec (ws L) 8) as [|N]; [reflexivity|].
    unfold insert_unsigned_in, insert_unsigned. rewrite grouped_short; [reflexivity|].
    destruct F as [F|[F|F]]; [congruence|left; exact F|]. unfold first_group in F.
    destruct (Nat.eq_dec (hd O (sizes p)) 0) as [E|E]; [left; exact E|right]. apply text_length; [exact Hd|lia|]. rewrite Eg, <- announced_radix. exact F. }
  assert (forall v, Forall (fun d => 0 <= d /\ fits p L f d) v -> forall g, basefield g = basefield f ->
            insert_digits_in p (ws L) g v = insert_digits (ws L) g v) as H2.
  { induction v as [|d v IH]; intros Hv g Eg; [reflexivity|]. inversion_clear Hv as [|? ? [Hd F] Hv'].
    cbn [insert_digits_in insert_digits]. rewrite (IH Hv' g Eg).
    destruct v as [|d' v'].
    - cbn [insert_digits]. rewrite (H1 d g Eg Hd F). reflexivity.
    - pose proof (insert_digits_format (ws L) g (d' :: v') ltac:(discriminate)) as Ef.
      destruct (insert_digits (ws L) g (d' :: v')) as [s h]. cbn [snd] in Ef. subst h. rewrite (H1 d (no_width g) Eg Hd F). reflexivity. }
  assert (forall g, basefield g = basefield f -> insert_magnitude_in p L g (data x) = insert_magnitude L g (data x)) as H3.
  { intros g Eg. unfold insert_magnitude_in, insert_magnitude. destruct (data x) as [|d v] eqn:E; [reflexivity|]. apply H2; auto. }
  unfold insert_in, insert. destruct (desc x); try reflexivity; [apply H3; reflexivity|].
  unfold put. rewrite (H3 (no_width f) eq_refl). reflexivity.
Qed.
Print Assumptions C75_unchanged.

(** So a type whose base is at most 10^3 with std::dec, 8^3 with std::oct or 16^3 with std::hex is written the same in every
    locale whose first group has three digits; in particular the numbers of BN_BASE10 are never grouped. *)
Theorem C75_types : forall p L f x, digits_ok (base L) (data x) ->
  ws L = 8 \/ first_group p = O \/ base L <= announced (basefield f) ^ Z.of_nat (first_group p) ->
  insert_in p L f x = insert L f x.
Proof.
  intros p L f x Dx H. apply C75_unchanged. eapply Forall_impl; [|exact Dx]. cbv beta. intros d Hd. split; [lia|].
  unfold fits. destruct H as [H|[H|H]]; auto. right. right. lia.
Qed.
Print Assumptions C75_types.

Definition contains (c : ascii) (s : string) : Prop := In c (list_ascii_of_string s).

(** what the grouped text is without its separators *)
Lemma texts_in p L f x : width f = O ->
  strip_of (separator p) (list_ascii_of_string (fst (insert_in p L f x))) =
  strip_of (separator p) (list_ascii_of_string (fst (insert L f x))).
Proof.
  intros Hz. set (sep := separator p).
  assert (forall d, snd (insert_digit_in p (ws L) f d) = f /\
    strip_of sep (list_ascii_of_string (fst (insert_digit_in p (ws L) f d))) = strip_of sep (list_ascii_of_string (fst (insert_digit (ws L) f d)))) as H1.
  { intros d. unfold insert_digit_in, insert_digit. destruct (ws L =? 8); [rewrite put_plain, no_width_0 by exact Hz; auto|].
    unfold insert_unsigned_in, insert_unsigned. destruct (basefield f); rewrite !put_plain, no_width_0 by exact Hz; cbn [fst snd];
      rewrite !list_app, !strip_app; unfold sep; rewrite grouped_strip; auto. }
  assert (forall d, snd (insert_digit (ws L) f d) = f) as H0 by (intros d; rewrite insert_digit_format; apply no_width_0, Hz).
  assert (forall v, snd (insert_digits_in p (ws L) f v) = f /\ snd (insert_digits (ws L) f v) = f /\
    strip_of sep (list_ascii_of_string (fst (insert_digits_in p (ws L) f v))) = strip_of sep (list_ascii_of_string (fst (insert_digits (ws L) f v)))) as H2.
  { induction v as [|d v IH]; [auto|]. destruct IH as (A & B & C). cbn [insert_digits_in insert_digits].
    destruct (insert_digits_in p (ws L) f v) as [s1 g1], (insert_digits (ws L) f v) as [s2 g2]. cbn [fst snd] in *. subst g1 g2.
    specialize (H1 d). specialize (H0 d). destruct (insert_digit_in p (ws L) f d) as [t1 h1], (insert_digit (ws L) f d) as [t2 h2].
    cbn [fst snd] in *. destruct H1 as [-> E]. rewrite !list_app, !strip_app, C, E. auto. }
  assert (strip_of sep (list_ascii_of_string (fst (insert_magnitude_in p L f (data x)))) =
          strip_of sep (list_ascii_of_string (fst (insert_magnitude L f (data x))))) as H3.
  { unfold insert_magnitude_in, insert_magnitude. destruct (data x) as [|d v]; [reflexivity|apply H2]. }
  unfold insert_in, insert. destruct (desc x); try reflexivity; [exact H3|].
  rewrite put_plain, no_width_0 by exact Hz.
  destruct (insert_magnitude_in p L f (data x)), (insert_magnitude L f (data x)). cbn [fst] in *. rewrite !list_app, !strip_app, H3. reflexivity.
Qed.

Lemma strip_absent sep cs : ~ In sep cs -> strip_of sep cs = cs.
Proof.
  induction cs as [|c t IH]; intros H; [reflexivity|]. unfold strip_of in *. cbn [filter]. destruct (Ascii.eqb_spec c sep) as [->|N].
  - exfalso. apply H. left. reflexivity.
  - cbn [negb]. f_equal. apply IH. intros I. apply H. right. exact I.
Qed.

(** Apart from the separators the text is that of the classic locale, in the same order. *)
Theorem C75_removing_separators : forall p L f x, width f = O -> ~ contains (separator p) (fst (insert L f x)) ->
  filter (fun c => negb (Ascii.eqb c (separator p))) (list_ascii_of_string (fst (insert_in p L f x))) =
  list_ascii_of_string (fst (insert L f x)).
Proof.
  intros p L f x Hz N. change (filter _ _) with (strip_of (separator p) (list_ascii_of_string (fst (insert_in p L f x)))).
  rewrite texts_in by exact Hz. apply strip_absent. exact N.
Qed.
Print Assumptions C75_removing_separators.

(** There are separators exactly if some digit does not fit. *)
Theorem C75_separators : forall p L f x, width f = O -> finite x -> Forall (fun d => 0 <= d) (data x) ->
  ~ contains (separator p) (fst (insert L f x)) ->
  (contains (separator p) (fst (insert_in p L f x)) <-> Exists (fun d => ~ fits p L f d) (data x)).
Proof.
  intros p L f x Hz Fx Dx N. split.
  - intros C. destruct (Forall_Exists_dec (fits p L f)) with (l := data x) as [A|A].
    { intros d. unfold fits. destruct (Z.eq_dec (ws L) 8); [left; auto|]. destruct (Nat.eq_dec (first_group p) 0); [left; auto|].
      destruct (Z_lt_dec d (announced (basefield f) ^ Z.of_nat (first_group p))); [left; auto|right; tauto]. }
    + exfalso. apply N. rewrite <- (C75_unchanged p L f x); [exact C|]. rewrite Forall_forall in *. intros d Hd. auto.
    + exact A.
  - intros E. unfold contains.
    assert (forall v, Exists (fun d => ~ fits p L f d) v -> Forall (fun d => 0 <= d) v ->
              In (separator p) (list_ascii_of_string (fst (insert_digits_in p (ws L) f v)))) as H.
    { clear E Dx. assert (forall d, snd (insert_digit_in p (ws L) f d) = f) as H1.
      { intros d. unfold insert_digit_in, insert_unsigned_in. destruct (ws L =? 8); [|destruct (basefield f)];
          rewrite put_plain, no_width_0 by exact Hz; reflexivity. }
      assert (forall v, snd (insert_digits_in p (ws L) f v) = f) as H2.
      { induction v as [|d v IH]; [reflexivity|]. cbn [insert_digits_in]. destruct (insert_digits_in p (ws L) f v) as [s g]. cbn [snd] in IH. subst g.
        specialize (H1 d). destruct (insert_digit_in p (ws L) f d). exact H1. }
      induction v as [|d v IH]; intros E Dv; [inversion E|]. inversion_clear Dv as [|? ? Hd Hv]. cbn [insert_digits_in].
      specialize (H2 v). destruct (insert_digits_in p (ws L) f v) as [s g] eqn:Es. cbn [snd] in H2. subst g.
      destruct (insert_digit_in p (ws L) f d) as [t h] eqn:Et. cbn [fst] in *. rewrite list_app, in_app_iff.
      inversion_clear E as [? ? Nd|? ? Ev]; [right|left; apply IH; auto].
      unfold fits in Nd. rewrite announced_radix in Nd. assert (t = fst (insert_digit_in p (ws L) f d)) as -> by (rewrite Et; reflexivity).
      unfold insert_digit_in. rewrite (proj2 (Z.eqb_neq (ws L) 8)) by tauto.
      assert (In (separator p) (list_ascii_of_string (grouped p (unsigned_text f d)))) as G.
      { apply grouped_long. unfold first_group in Nd. split; [lia|].
        destruct (Nat.le_gt_cases (String.length (unsigned_text f d)) (hd O (sizes p))) as [K|K]; [|exact K].
        exfalso. apply Nd. right. right. apply (text_length f d (hd O (sizes p))); [exact Hd|lia|exact K]. }
      unfold insert_unsigned_in. destruct (basefield f); rewrite put_plain by exact Hz; cbn [fst]; rewrite ?list_app, ?in_app_iff; auto. }
    assert (In (separator p) (list_ascii_of_string (fst (insert_magnitude_in p L f (data x))))) as HM.
    { unfold insert_magnitude_in. destruct (data x) as [|d v]; [inversion E|]. apply H; auto. }
    unfold insert_in. destruct Fx as [-> | ->]; [exact HM|].
    rewrite put_plain, no_width_0 by exact Hz. destruct (insert_magnitude_in p L f (data x)). cbn [fst] in *. rewrite list_app, in_app_iff. auto.
Qed.
Print Assumptions C75_separators.

(** *** Where the separators are *)

(** blocks of characters with separators between them *)
Fixpoint joined (sep : ascii) (blocks : list (list ascii)) : list ascii :=
  match blocks with
  | [] => []
  | b :: r => match r with [] => b | _ => (b ++ sep :: joined sep r)%list end
  end.

(** the size of the group number i from the right: the last one in the list repeats *)
Definition group_size (p : punct) (i : nat) : nat := nth i (sizes p) (last (sizes p) O).

Definition size_after (g : nat) (rest : list nat) (j : nat) : nat := nth j rest (last rest g).

Lemma joined_cons sep c b r : joined sep ((c :: b) :: r) = c :: joined sep (b :: r).
Proof. destruct r; reflexivity. Qed.

Lemma size_shift g h r j : size_after g (h :: r) (S j) = size_after h r j.
Proof.
  unfold size_after. cbn [nth]. f_equal. destruct r as [|a r]; [reflexivity|]. cbn [last].
  revert a. induction r as [|b r IH]; intros a; [reflexivity|]. apply IH.
Qed.

Lemma group_blocks sep : forall cs g left rest, g <> O -> exists b blocks,
  group_from sep g left rest cs = joined sep (b :: blocks) /\ cs = concat (b :: blocks) /\
  (length b <= left)%nat /\ (blocks <> [] -> length b = left) /\
  forall j, (j < length blocks)%nat -> let n := length (nth j blocks []) in let s := size_after g rest j in
    (1 <= n)%nat /\ (s <> O -> (n <= s)%nat) /\ ((S j < length blocks)%nat -> s <> O /\ n = s).
Proof.
  induction cs as [|c t IH]; intros g left rest Hg.
  - exists [], []. cbn. repeat split; try lia; try congruence.
  - cbn [group_from]. rewrite (proj2 (Nat.eqb_neq g 0)) by exact Hg. destruct left as [|l].
    + set (g' := match rest with [] => g | h :: _ => h end). set (rest' := match rest with [] => [] | _ :: r => r end).
      replace (let '(g', rest') := match rest with [] => (g, []) | h :: r => (h, r) end in sep :: c :: group_from sep g' (g' - 1) rest' t)
        with (sep :: c :: group_from sep g' (g' - 1) rest' t) by (unfold g', rest'; destruct rest; reflexivity).
      assert (size_after g rest 0 = g') as S0 by (unfold g', size_after; destruct rest; reflexivity).
      assert (forall j, size_after g rest (S j) = size_after g' rest' j) as SS.
      { intros j. unfold g', rest'. destruct rest as [|h r]; [unfold size_after; destruct j; reflexivity|apply size_shift]. }
      destruct (Nat.eq_dec g' 0) as [Z|NZ].
      * exists [], [c :: t]. rewrite Z, group_zero. cbn [joined app concat length]. rewrite app_nil_r. split; [reflexivity|]. split; [reflexivity|]. split; [lia|]. split; [reflexivity|].
        intros j Hj. assert (j = O) as -> by lia. rewrite S0. cbn [nth length]. split; [lia|]. split; [congruence|lia].
      * destruct (IH g' (g' - 1)%nat rest' NZ) as (b & blocks & E & Et & L1 & L2 & H). exists [], ((c :: b) :: blocks).
        split; [rewrite E; rewrite <- joined_cons; reflexivity|]. split; [rewrite Et; reflexivity|]. split; [cbn; lia|]. split; [reflexivity|].
        intros [|j] Hj; cbn [length nth] in *.
        -- rewrite S0. split; [lia|]. split; [lia|]. intros Hb. split; [exact NZ|]. rewrite L2; [lia|]. intros ->. cbn in Hb. lia.
        -- rewrite SS. destruct (H j ltac:(lia)) as (H1 & H2 & H3). repeat split; auto; intros; apply H3; lia.
    + destruct (IH g l rest Hg) as (b & blocks & E & Et & L1 & L2 & H). exists (c :: b), blocks.
      split; [rewrite E, joined_cons; reflexivity|]. split; [rewrite Et; reflexivity|]. split; [cbn; lia|].
      split; [intros Hb; cbn; rewrite L2 by exact Hb; reflexivity|exact H].
Qed.

(** An integer's text, read from the right, is cut into blocks: each is as long as its group but for the last, which is not longer;
    a group without a size takes the rest. *)
Theorem C75_positions : forall p s, s <> EmptyString -> exists blocks,
  rev (list_ascii_of_string (grouped p s)) = joined (separator p) blocks /\
  rev (list_ascii_of_string s) = concat blocks /\
  forall i, (i < length blocks)%nat -> let n := length (nth i blocks []) in
    (1 <= n)%nat /\ (group_size p i <> O -> (n <= group_size p i)%nat) /\
    ((S i < length blocks)%nat -> group_size p i <> O /\ n = group_size p i).
Proof.
  intros p s Hs. set (cs := rev (list_ascii_of_string s)).
  assert (1 <= length cs)%nat as Hc by (unfold cs; rewrite rev_length; destruct s; [congruence|cbn; lia]).
  destruct (Nat.eq_dec (first_group p) 0) as [Z|NZ].
  - exists [cs]. rewrite grouped_short by (left; exact Z). cbn [joined concat length]. rewrite app_nil_r. split; [reflexivity|]. split; [reflexivity|]. intros i Hi.
    assert (i = O) as -> by lia. cbn [nth]. split; [exact Hc|]. split; [|lia].
    intros Hn. unfold group_size, first_group in *. destruct (sizes p) as [|g r]; cbn in *; congruence.
  - unfold grouped, group_size, first_group in *. destruct (sizes p) as [|g r]; cbn [hd] in NZ; [congruence|].
    rewrite list_string, rev_involutive. fold cs.
    destruct (group_blocks (separator p) cs g g r NZ) as (b & blocks & E & Et & L1 & L2 & H). exists (b :: blocks).
    split; [exact E|]. split; [exact Et|]. intros [|j] Hj; cbn [length nth] in *.
    + split; [|split; [lia|]].
      * destruct b as [|x b]; [|cbn; lia]. destruct blocks as [|y blocks]; [rewrite Et in Hc; cbn in Hc; lia|]. specialize (L2 ltac:(discriminate)). cbn in L2. lia.
      * intros Hb. split; [exact NZ|]. apply L2. intros ->. cbn in Hb. lia.
    + destruct (H j ltac:(lia)) as (H1 & H2 & H3). change (nth j r (last (g :: r) O)) with (size_after O (g :: r) (S j)). rewrite size_shift.
      repeat split; auto; intros; apply H3; lia.
Qed.
Print Assumptions C75_positions.

(** So is each digit of a number, from the first to the last, after its prefix. *)
Theorem C75_text : forall p L f x, width f = O -> finite x -> data x <> [] -> ws L <> 8 ->
  exists texts, fst (insert_in p L f x) = (match desc x with BN_NEG => "-" | _ => "" end) ++ String.concat "" texts /\
  texts = map (fun d => (if showbase f && negb (d =? 0) then match basefield f with Hex => if uppercase f then "0X" else "0x" | Oct => "0" | Dec => "" end else "")
                        ++ grouped p (unsigned_text f d)) (rev (data x)).
Proof.
  intros p L f x Hz Fx Nx Hw. eexists. split; [|reflexivity].
  set (text := fun d => _ ++ grouped p (unsigned_text f d)).
  assert (forall d, insert_digit_in p (ws L) f d = (text d, f)) as H1.
  { intros d. unfold insert_digit_in, insert_unsigned_in, text. rewrite (proj2 (Z.eqb_neq _ _) Hw).
    destruct (basefield f); rewrite put_plain, no_width_0 by exact Hz; destruct (showbase f && negb (d =? 0)); reflexivity. }
  assert (forall a b, String.concat "" (a ++ b)%list = String.concat "" a ++ String.concat "" b) as HC.
  { intros a b. induction a as [|t a IH]; [reflexivity|]. destruct a as [|t' a]; [destruct b; [cbn; rewrite app_s_nil|cbn]; reflexivity|].
    cbn [List.app String.concat] in *. rewrite app_s_assoc. f_equal. cbn [append]. exact IH. }
  assert (forall v, insert_digits_in p (ws L) f v = (String.concat "" (map text (rev v)), f)) as H2.
  { induction v as [|d v IH]; [reflexivity|]. cbn [insert_digits_in rev]. rewrite IH, H1, map_app, HC. reflexivity. }
  assert (insert_magnitude_in p L f (data x) = (String.concat "" (map text (rev (data x))), f)) as H3
    by (unfold insert_magnitude_in; destruct (data x); [congruence|apply H2]).
  unfold insert_in. destruct Fx as [-> | ->]; [rewrite H3; reflexivity|].
  rewrite put_plain, no_width_0 by exact Hz. rewrite H3. reflexivity.
Qed.
Print Assumptions C75_text.

(** An integer of the language is grouped, a Bignum of the same value is not: with a base up to the radix and a group of at least
    one digit, an integer from radix ^ group on has a separator that the number has not. *)
Theorem C75_unlike_integers : forall p L f x, width f = O -> good (base L) x -> base L <= announced (basefield f) ->
  (1 <= first_group p)%nat -> ~ contains (separator p) (fst (insert L f x)) ->
  announced (basefield f) ^ Z.of_nat (first_group p) <= value (base L) (data x) ->
  contains (separator p) (fst (insert_unsigned_in p f (value (base L) (data x)))) /\
  ~ contains (separator p) (fst (insert_in p L f x)).
Proof.
  intros p L f x Hz (Fx & Dx & Cx) HB Hg N V. rewrite announced_radix in *. pose proof (radix_bounds (basefield f)) as Hr.
  assert (radix_value (basefield f) <= radix_value (basefield f) ^ Z.of_nat (first_group p)) as P.
  { rewrite <- (Z.pow_1_r (radix_value (basefield f))) at 1. apply Z.pow_le_mono_r; lia. }
  split.
  - assert (In (separator p) (list_ascii_of_string (grouped p (unsigned_text f (value (base L) (data x)))))) as G.
    { apply grouped_long. unfold first_group in *. split; [lia|].
      destruct (Nat.le_gt_cases (String.length (unsigned_text f (value (base L) (data x)))) (hd O (sizes p))) as [K|K]; [|exact K].
      exfalso. apply text_length in K; lia. }
    unfold contains, insert_unsigned_in. destruct (basefield f); rewrite put_plain by exact Hz; cbn [fst]; rewrite ?list_app, ?in_app_iff; auto.
  - rewrite C75_types; [exact N|exact Dx|]. right. right. rewrite announced_radix. lia.
Qed.
Print Assumptions C75_unlike_integers.

(** the locale of many languages: groups of three, and that of India: 3, 2, 2, ... *)
Definition thousands : punct := mkPunct "," [3%nat].
Definition lakhs : punct := mkPunct "," [3%nat; 2%nat].

Example C75_integers : grouped thousands "1234567" = "1,234,567" /\ grouped lakhs "123456789" = "12,34,56,789" /\
  grouped (mkPunct "," [3%nat; 0%nat]) "1234567" = "1234,567" /\ grouped classic "1234567" = "1234567" /\
  fst (insert_unsigned_in thousands default_format 1234567) = "1,234,567".
Proof. vm_compute. repeat split. Qed.

Example C75_cases :
  fst (insert_in thousands base10 default_format (mkBN BN_NEG [7; 6; 5; 4; 3; 2; 1])) = "-1234567" /\
  fst (insert_in thousands base256 default_format (mkBN BN_POS [255; 255; 255])) = "255255255" /\
  base base256 <= radix_value Dec ^ Z.of_nat (first_group thousands) /\
  fst (insert_in thousands highp default_format (mkBN BN_NEG [1000; 999; 12345678])) = "-12,345,6789991,000" /\
  fst (insert highp default_format (mkBN BN_NEG [1000; 999; 12345678])) = "-123456789991000" /\
  Exists (fun d => ~ fits thousands highp default_format d) [1000; 999; 12345678].
Proof.
  repeat split; try (vm_compute; congruence). apply Exists_cons_hd. unfold fits. intros [H|[H|H]]; [discriminate H..|].
  cbn in H. lia.
Qed.

(** the hypotheses of C75_unlike_integers *)
Example C75_unlike_integers_case : let x := mkBN BN_POS [7; 6; 5; 4; 3; 2; 1] in
  good (base base10) x /\ value (base base10) (data x) = 1234567 /\ ~ contains "," (fst (insert base10 default_format x)) /\
  fst (insert_in thousands base10 default_format x) = "1234567".
Proof.
  cbv zeta. split; [split; [left; reflexivity|split; [repeat constructor; cbn; lia|left; discriminate]]|].
  split; [reflexivity|split; [|vm_compute; reflexivity]]. vm_compute. intros H.
  repeat (destruct H as [H|H]; [discriminate H|]). exact H.
Qed.
