(** * Property C70: numbers written to a stream that fails *)
From Coq Require Import String Ascii.
From Verif Require Import Base Spec Limits Print Format Sink Outcome Wp ValueProof IntStream PropPrint PropIntStream PropFormat.
Notation length := Datatypes.length (only parsing).
Local Open Scope string_scope.
Local Open Scope Z_scope.

(** ** Specification *)

(** What becomes of a stream when the text [s] is sent to it character by character. *)
Fixpoint receive (s : string) (k : sink) : sink :=
  match s with
  | "" => k
  | String c s => if bad k then k else
      match room k with
      | O => mkSink (written k) 0 true
      | S n => receive s (mkSink (written k ++ String c "") n false)
      end
  end.

(** ** Proofs *)

(** the outcome of inserting what on a stream that never fails is the text and the flags [p] *)
Definition outcome_of (th mask : bool) (p : string * format) (k : sink) (o : inserted) : Prop :=
  sink_of o = receive (fst p) k /\
  (bad (receive (fst p) k) = false -> o = Inserted (snd p) (sink_of o)) /\
  (mask = false -> exists f, o = Inserted f (sink_of o)) /\
  (mask = true -> bad k = false -> bad (receive (fst p) k) = true -> o = Failure (if th then BuffersOwn else StreamFailure) (sink_of o)).

Lemma receive_bad s k : bad k = true -> receive s k = k.
Proof. intros H. destruct s; [reflexivity|]. cbn [receive]. rewrite H. reflexivity. Qed.

Lemma receive_app s : forall t k, receive (s ++ t) k = receive t (receive s k).
Proof.
  induction s as [|c s IH]; intros t k; [reflexivity|]. cbn [append receive].
  destruct (bad k) eqn:E; [symmetry; apply receive_bad; exact E|].
  destruct (room k); [symmetry; apply receive_bad; reflexivity|apply IH].
Qed.

Lemma receive_spec s : forall k, bad k = false ->
  receive s k = if Nat.leb (String.length s) (room k) then mkSink (written k ++ s) (room k - String.length s) false
                else mkSink (written k ++ String.substring 0 (room k) s) 0 true.
Proof.
  induction s as [|c s IH]; intros [w n b] H; cbn [bad] in H; subst b; cbn [receive bad room written String.length].
  - cbn [Nat.leb]. rewrite app_s_nil, Nat.sub_0_r. reflexivity.
  - destruct n as [|n]; cbn [Nat.leb String.substring].
    + rewrite app_s_nil. reflexivity.
    + rewrite IH by reflexivity. cbn [room written]. rewrite !app_s_assoc. cbn [append Nat.sub]. reflexivity.
Qed.

Lemma put_outcome th mask nb f p b k : outcome_of th mask (put f p b) k (sink_put th mask nb f p b k).
Proof.
  unfold outcome_of, sink_put. destruct (bad k) eqn:B.
  - rewrite receive_bad by exact B. destruct mask; cbn [sink_of]; repeat split; try congruence; eauto.
  - destruct (put f p b) as [s f'] eqn:E. cbn [fst snd] in *. rewrite receive_spec by exact B.
    destruct (Nat.leb (String.length s) (room k)); [|destruct mask]; cbn [sink_of bad]; repeat split; try congruence; eauto.
Qed.

(** on a stream that is bad already, whatever the text *)
Definition inert (mask : bool) (k : sink) (o : inserted) : Prop :=
  sink_of o = k /\ (mask = false -> exists f, o = Inserted f k).

Lemma inert_outcome th mask p k o : bad k = true -> inert mask k o -> outcome_of th mask p k o.
Proof.
  intros B (A & C). unfold outcome_of. rewrite receive_bad by exact B. split; [exact A|]. split; [congruence|].
  split; [|congruence]. rewrite A. exact C.
Qed.

Lemma put_inert th mask nb f p b k : bad k = true -> inert mask k (sink_put th mask nb f p b k).
Proof. intros B. unfold inert, sink_put. rewrite B. destruct mask; cbn [sink_of]; split; eauto; discriminate. Qed.

Lemma then_inert mask k o next : bad k = true -> inert mask k o -> (forall g, inert mask k (next g k)) -> inert mask k (and_then o next).
Proof.
  intros B (A & C) N. destruct o as [g k1|e1 k1]; cbn [and_then sink_of] in *; subst k1; [apply N|].
  split; [reflexivity|exact C].
Qed.

Lemma unsigned_inert th mask f n k : bad k = true -> inert mask k (sink_unsigned th mask f n k).
Proof. intros B. unfold sink_unsigned. destruct (basefield f); apply put_inert; exact B. Qed.
Lemma digit_inert th mask W f d k : bad k = true -> inert mask k (sink_digit th mask W f d k).
Proof. intros B. unfold sink_digit. destruct (W =? 8); [apply put_inert|apply unsigned_inert]; exact B. Qed.
Lemma digits_inert th mask W v : forall f k, bad k = true -> inert mask k (sink_digits th mask W f v k).
Proof.
  induction v as [|d v IH]; intros f k B; cbn [sink_digits]; [split; [reflexivity|eauto]|].
  apply then_inert; auto using digit_inert.
Qed.
Lemma magnitude_inert th mask L f v k : bad k = true -> inert mask k (sink_magnitude th mask L f v k).
Proof. intros B. destruct v; [apply put_inert; exact B|]. apply digits_inert, B. Qed.
Lemma insert_inert th mask L f x k : bad k = true -> inert mask k (sink_insert th mask L f x k).
Proof.
  intros B. unfold sink_insert. destruct (desc x); try (apply put_inert; exact B); [apply magnitude_inert, B|].
  apply then_inert; auto using put_inert, magnitude_inert.
Qed.
Lemma all_inert th mask L l : forall f k, bad k = true -> inert mask k (sink_all th mask L f l k).
Proof.
  induction l as [|[m x] l IH]; intros f k B; cbn [sink_all]; [split; [reflexivity|eauto]|].
  apply then_inert; auto using insert_inert.
Qed.

Lemma then_outcome th mask s f t f' k o next : outcome_of th mask (s, f) k o ->
  (forall k, outcome_of th mask (t, f') k (next f k)) -> (forall g k, bad k = true -> inert mask k (next g k)) ->
  outcome_of th mask ((s ++ t)%string, f') k (and_then o next).
Proof.
  intros (A & B & C & D) N1 N2. cbn [fst snd] in *. unfold outcome_of. cbn [fst snd]. rewrite receive_app.
  destruct (bad (receive s k)) eqn:E.
  - rewrite (receive_bad t _ E), E. destruct o as [g k1|e1 k1]; cbn [and_then sink_of] in *; subst k1.
    + destruct (N2 g _ E) as (I1 & I2). split; [exact I1|]. split; [discriminate|]. split; [rewrite I1; exact I2|].
      intros M Bk _. specialize (D M Bk eq_refl). discriminate.
    + split; [reflexivity|]. split; [discriminate|]. split; [exact C|auto].
  - rewrite (B eq_refl). cbn [and_then]. rewrite A. destruct (N1 (receive s k)) as (I1 & I2 & I3 & I4). cbn [fst snd] in *.
    split; [exact I1|]. split; [exact I2|]. split; [exact I3|]. intros M _. exact (I4 M E).
Qed.

Lemma unsigned_outcome th mask f n k : outcome_of th mask (insert_unsigned f n) k (sink_unsigned th mask f n k).
Proof. unfold insert_unsigned, sink_unsigned. destruct (basefield f); apply put_outcome. Qed.
Lemma digit_outcome th mask W f d k : outcome_of th mask (insert_digit W f d) k (sink_digit th mask W f d k).
Proof. unfold insert_digit, sink_digit. destruct (W =? 8); [apply put_outcome|apply unsigned_outcome]. Qed.
Lemma digits_outcome th mask W v : forall f k, outcome_of th mask (insert_digits W f v) k (sink_digits th mask W f v k).
Proof.
  induction v as [|d v IH]; intros f k; cbn [insert_digits sink_digits].
  - unfold outcome_of. cbn. repeat split; eauto; congruence.
  - specialize (IH f k). destruct (insert_digits W f v) as [s g]. destruct (insert_digit W g d) as [t h] eqn:E.
    apply (then_outcome th mask s g t h); [exact IH| |auto using digit_inert].
    intros k'. rewrite <- E. apply digit_outcome.
Qed.
Lemma magnitude_outcome th mask L f v k : outcome_of th mask (insert_magnitude L f v) k (sink_magnitude th mask L f v k).
Proof. destruct v; [apply put_outcome|apply digits_outcome]. Qed.
Lemma insert_outcome th mask L f x k : outcome_of th mask (insert L f x) k (sink_insert th mask L f x k).
Proof.
  unfold insert, sink_insert. destruct (desc x); try apply put_outcome; [apply magnitude_outcome|].
  pose proof (put_outcome th mask false f "" "-" k) as P. destruct (put f "" "-") as [s g].
  destruct (insert_magnitude L g (data x)) as [t h] eqn:E.
  apply (then_outcome th mask s g t h); [exact P| |auto using magnitude_inert].
  intros k'. rewrite <- E. apply magnitude_outcome.
Qed.
Lemma all_outcome th mask L l : forall f k, outcome_of th mask (insert_all L f l) k (sink_all th mask L f l k).
Proof.
  induction l as [|[m x] l IH]; intros f k; cbn [insert_all sink_all].
  - unfold outcome_of. cbn. repeat split; eauto; congruence.
  - pose proof (insert_outcome th mask L (m f) x k) as P. destruct (insert L (m f) x) as [s g].
    pose proof (IH g) as Q. destruct (insert_all L g l) as [t h].
    apply (then_outcome th mask s g t h); [exact P|exact Q|auto using all_inert].
Qed.

(** ** Theorems *)

(** One number.  The characters that arrive are those of the text the number has on a stream that never fails, as far as there is
    room; the stream is bad afterwards exactly if it was before or the text did not fit; and an exception leaves operator <<
    exactly if the mask asks for one and the stream is bad. *)
Theorem C70_number : forall th mask L f x k,
  let text := fst (insert L f x) in
  let o := sink_insert th mask L f x k in
  sink_of o = receive text k /\
  (bad (receive text k) = false -> o = Inserted (snd (insert L f x)) (receive text k)) /\
  ((exists e k', o = Failure e k') <-> mask = true /\ bad (receive text k) = true) /\
  (forall e k', o = Failure e k' -> e = if th && negb (bad k) then BuffersOwn else StreamFailure).
Proof.
  intros th mask L f x k. destruct (insert_outcome th mask L f x k) as (A & B & C & D). split; [exact A|]. split.
  - intros H. rewrite (B H) at 1. rewrite A. reflexivity.
  - assert (forall e k', sink_insert th mask L f x k = Failure e k' -> mask = true /\ bad (receive (fst (insert L f x)) k) = true) as F.
    { intros e k' E. destruct mask.
      - split; [reflexivity|]. destruct (bad (receive (fst (insert L f x)) k)) eqn:H; [reflexivity|]. specialize (B eq_refl). congruence.
      - destruct (C eq_refl) as (g & H). congruence. }
    assert (mask = true -> bad k = true -> sink_insert th mask L f x k = Failure StreamFailure k) as G.
    { intros -> Bk.
      assert (forall nb p b g, sink_put th true nb g p b k = Failure StreamFailure k) as P by (intros; unfold sink_put; rewrite Bk; reflexivity).
      assert (forall W v g, v <> [] -> sink_digits th true W g v k = Failure StreamFailure k) as Q.
      { intros W v. induction v as [|d v IH]; intros g Nv; [congruence|]. cbn [sink_digits].
        destruct v as [|e v]; [|rewrite IH by discriminate; reflexivity].
        cbn [sink_digits and_then]. unfold sink_digit, sink_unsigned. destruct (W =? 8); [apply P|].
        destruct (basefield g); apply P. }
      unfold sink_insert. destruct (desc x); rewrite ?P; try reflexivity.
      unfold sink_magnitude. destruct (data x); [apply P|]. apply Q. discriminate. }
    split; [split; [intros (e & k' & E); eauto|]|].
    + intros (M & H). destruct (bad k) eqn:Bk; [eauto|]. do 2 eexists. apply D; auto.
    + intros e k' E. destruct (F e k' E) as (M & H). destruct (bad k) eqn:Bk; cbn [negb].
      * rewrite andb_false_r. rewrite (G M eq_refl) in E. congruence.
      * rewrite andb_true_r. rewrite (D M eq_refl H) in E. congruence.
Qed.
Print Assumptions C70_number.

(** the flags afterwards, where no exception is asked for *)
Lemma no_width_twice f : no_width (no_width f) = no_width f.
Proof. reflexivity. Qed.
Lemma filled_length c n : String.length (filled c n) = n.
Proof. induction n; cbn; congruence. Qed.
Lemma put_length f p b : String.length (fst (put f p b)) = Nat.max (width f) (String.length (p ++ b)).
Proof. unfold put. cbn [fst]. destruct (adjust f); rewrite !length_app_s, filled_length; lia. Qed.
Definition left_flags (keep : bool) (f : format) (k : sink) (o : inserted) : Prop :=
  exists k', o = Inserted (if bad k || keep then f else no_width f) k' /\ (bad k = true -> k' = k) /\ (keep = true -> bad k' = true).
Definition some_flags (f : format) (k : sink) (o : inserted) : Prop := exists keep, left_flags keep f k o.

Lemma put_flags th nb f p b k :
  left_flags (th && negb nb && (room k <? Nat.max (width f) (String.length (p ++ b)))%nat) f k (sink_put th false nb f p b k).
Proof.
  rewrite <- put_length. unfold left_flags, sink_put. destruct (bad k) eqn:B; [eexists; cbn [orb]; auto|]. destruct (put f p b) as [s g] eqn:E.
  assert (g = no_width f) as -> by (unfold put in E; injection E as _ <-; reflexivity). cbn [fst orb].
  rewrite Nat.ltb_antisym. destruct (Nat.leb (String.length s) (room k)); cbn [negb].
  - rewrite andb_false_r. eexists. split; [reflexivity|]. split; discriminate.
  - rewrite andb_true_r. eexists. split; [reflexivity|]. split; [discriminate|reflexivity].
Qed.
Lemma then_flags keep f k o next : left_flags keep f k o -> (forall g k', some_flags g k' (next g k')) -> left_flags keep f k (and_then o next).
Proof.
  intros (k' & -> & H & H') N. cbn [and_then]. destruct (N (if bad k || keep then f else no_width f) k') as (keep' & k2 & -> & H2 & H3). unfold left_flags.
  destruct (bad k) eqn:B; cbn [orb] in *.
  - rewrite (H eq_refl) in *. rewrite B in *. cbn [orb]. exists k2. rewrite (H2 eq_refl). auto.
  - destruct keep.
    + rewrite (H' eq_refl) in *. cbn [orb]. exists k2. split; [reflexivity|]. split; [discriminate|]. intros _. rewrite (H2 eq_refl). apply H'. reflexivity.
    + exists k2. split; [|split; discriminate]. destruct (bad k' || keep'); rewrite ?no_width_twice; reflexivity.
Qed.
Lemma unsigned_flags th f d k : left_flags false f k (sink_unsigned th false f d k).
Proof.
  unfold sink_unsigned.
  assert (forall p b, left_flags false f k (sink_put th false true f p b k)) as P.
  { intros p b. pose proof (put_flags th true f p b k) as H. cbn [negb] in H. rewrite andb_false_r in H. exact H. }
  destruct (basefield f); apply P.
Qed.
Lemma digit_flags th W f d k : left_flags (th && (room k <? if (W =? 8)%Z then Nat.max (width f) 1 else O)%nat) f k (sink_digit th false W f d k).
Proof.
  unfold sink_digit. destruct (W =? 8).
  - pose proof (put_flags th false f "" (String (ascii_of_N (Z.to_N d)) "") k) as H. cbn [negb] in H. rewrite andb_true_r in H. exact H.
  - cbn. rewrite andb_false_r. apply unsigned_flags.
Qed.
Lemma digits_flags th W v : v <> [] -> forall f k,
  left_flags (th && (room k <? if (W =? 8)%Z then Nat.max (width f) 1 else O)%nat) f k (sink_digits th false W f v k).
Proof.
  induction v as [|d v IH]; intros H f k; [congruence|]. cbn [sink_digits]. destruct v as [|d' v].
  - cbn [sink_digits and_then]. apply digit_flags.
  - apply then_flags; [apply IH; discriminate|]. intros. eexists. apply digit_flags.
Qed.

(** How many characters the first insertion of operator << writes if it is one of characters (a sign, a word, a digit of eight bits,
    or the 0 of a number without digits); 0 if it is one of a number. *)
Definition first_characters (L : limits) (f : format) (x : bignum) : nat :=
  match desc x, data x with
  | BN_NEG, _ => Nat.max (width f) 1
  | BN_POS_INF, _ | BN_NEG_INF, _ => Nat.max (width f) 4
  | BN_NAN, _ => Nat.max (width f) 3
  | BN_POS, [] => Nat.max (width f) 1
  | BN_POS, _ => if (ws L =? 8)%Z then Nat.max (width f) 1 else O
  end.

Lemma characters_flags th f s k : left_flags (th && (room k <? Nat.max (width f) (String.length s))%nat) f k (sink_put th false false f "" s k).
Proof. pose proof (put_flags th false f "" s k) as H. cbn [negb] in H. rewrite andb_true_r in H. exact H. Qed.
Lemma magnitude_flags th L f v k : left_flags (th && (room k <? match v with [] => Nat.max (width f) 1 | _ => if (ws L =? 8)%Z then Nat.max (width f) 1 else O end)%nat) f k
  (sink_magnitude th false L f v k).
Proof. unfold sink_magnitude. destruct v; [apply (characters_flags th f "0")|apply digits_flags; discriminate]. Qed.

(** Where no exception is asked for, the stream keeps its flags; it keeps the width too if it was bad before.  Otherwise the width is
    0 afterwards, wherever the text was cut, unless the buffer threw and did so in the first insertion and that was one of
    characters: then the width stays and applies to what is written when the stream has been repaired. *)
Theorem C70_flags : forall th L f x k, exists g k', sink_insert th false L f x k = Inserted g k' /\
  (bad k = true -> g = f /\ k' = k) /\
  (bad k = false -> width g = if th && (room k <? first_characters L f x)%nat then width f else O) /\
  (basefield g, uppercase g, showbase g, adjust g, fill g) = (basefield f, uppercase f, showbase f, adjust f, fill f).
Proof.
  intros th L f x k. assert (left_flags (th && (room k <? first_characters L f x)%nat) f k (sink_insert th false L f x k)) as (k' & E & H & _).
  { unfold sink_insert, first_characters. destruct (desc x); [apply magnitude_flags| | | |].
    - apply then_flags; [apply (characters_flags th f "-")|]. intros. eexists. apply magnitude_flags.
    - apply (characters_flags th f "NaN").
    - apply (characters_flags th f "+INF").
    - apply (characters_flags th f "-INF"). }
  do 2 eexists. split; [exact E|]. split; [intros B; rewrite B; auto|]. split.
  - intros B. rewrite B. cbn [orb]. destruct (th && _); reflexivity.
  - destruct (bad k || _); reflexivity.
Qed.
Print Assumptions C70_flags.

(** The same in terms of the room there is. *)
Theorem C70_prefix : forall th mask L f x k, bad k = false ->
  let text := fst (insert L f x) in
  written (sink_of (sink_insert th mask L f x k)) = written k ++ String.substring 0 (Nat.min (room k) (String.length text)) text /\
  (bad (sink_of (sink_insert th mask L f x k)) = true <-> (room k < String.length text)%nat).
Proof.
  intros th mask L f x k B text. destruct (C70_number th mask L f x k) as (-> & _). fold text. rewrite receive_spec by exact B.
  destruct (Nat.leb_spec (String.length text) (room k)) as [H|H]; cbn [written bad].
  - rewrite Nat.min_r by exact H. split; [|split; [discriminate|lia]]. f_equal. clear. induction text as [|c s IH]; [reflexivity|].
    cbn [String.length String.substring]. congruence.
  - rewrite Nat.min_l by lia. split; [reflexivity|]. split; auto.
Qed.
Print Assumptions C70_prefix.

(** Any number of numbers, with manipulators between: nothing is skipped and nothing comes after the character that was refused. *)
Theorem C70_sequence : forall th mask L f l k, bad k = false ->
  let text := fst (insert_all L f l) in
  let o := sink_all th mask L f l k in
  written (sink_of o) = written k ++ String.substring 0 (Nat.min (room k) (String.length text)) text /\
  (bad (sink_of o) = true <-> (room k < String.length text)%nat) /\
  ((exists e k', o = Failure e k') <-> mask = true /\ (room k < String.length text)%nat) /\
  (forall e k', o = Failure e k' -> e = if th then BuffersOwn else StreamFailure) /\
  ((String.length text <= room k)%nat -> o = Inserted (snd (insert_all L f l)) (sink_of o)).
Proof.
  intros th mask L f l k B text o. destruct (all_outcome th mask L l f k) as (A & E & C & D). fold text o in A, E, C, D.
  rewrite receive_spec in A, E, D by exact B.
  destruct (Nat.leb_spec (String.length text) (room k)) as [H|H]; rewrite A; cbn [written bad] in *.
  - rewrite Nat.min_r by exact H. specialize (E eq_refl). rewrite A in E.
    split; [|split; [split; [discriminate|lia]|split; [|split; [intros; congruence|auto]]]].
    + f_equal. clear. induction text as [|c s IH]; [reflexivity|]. cbn [String.length String.substring]. congruence.
    + split; [intros (e & k' & F); congruence|lia].
  - rewrite Nat.min_l by lia. split; [reflexivity|]. split; [split; auto|].
    assert (forall e k', o = Failure e k' -> mask = true) as M.
    { intros e k' F. destruct mask; [reflexivity|]. destruct (C eq_refl) as (g & G). congruence. }
    split; [|split; [|lia]].
    + split; [intros (e & k' & F); eauto|]. intros (Mk & _). do 2 eexists. apply D; auto.
    + intros e k' F. specialize (D (M _ _ F) B eq_refl). congruence.
Qed.
Print Assumptions C70_sequence.

(** Nothing in the text tells that it is not all: what arrives of a non-negative number of bignum_base8 or bignum_base10 when n of
    its digits do not fit is the whole text of another number, namely of the quotient by B^n. *)
Theorem C70_truncated : forall L x n, ws L <> 8 -> 1 < base L <= 10 -> good (base L) x -> desc x = BN_POS ->
  (n < length (data x))%nat ->
  let y := mkBN BN_POS (skipn n (data x)) in
  good (base L) y /\ value (base L) (data y) = value (base L) (data x) / base L ^ Z.of_nat n /\
  forall th mask k, bad k = false -> room k = (String.length (print L x) - n)%nat ->
    written (sink_of (sink_insert th mask L default_format x k)) = written k ++ print L y.
Proof.
  intros L [d v] n Hw HB (Fx & Dx & Cx) Ex Hn y. cbn [desc data] in *. subst d.
  assert (digits_ok (base L) (skipn n v)) as Dy.
  { unfold digits_ok in *. rewrite Forall_forall in *. intros a Ha. apply Dx. rewrite <- (firstn_skipn n v). apply in_or_app. auto. }
  assert (skipn n v <> []) as Ny. { intros H. apply (f_equal (@List.length Z)) in H. rewrite skipn_length in H. cbn in H. lia. }
  assert (weak_canonical (skipn n v)) as Cy.
  { destruct n as [|n]; [exact Cx|]. destruct Cx as [Cx|Cx]; [|subst v; cbn in Hn; lia]. left. unfold canonical in *.
    rewrite <- (firstn_skipn (S n) v) in Cx. destruct (exists_last Ny) as (u & a & E). rewrite E in *.
    rewrite app_assoc, last_last in Cx. rewrite last_last. exact Cx. }
  assert (value (base L) v = value (base L) (firstn n v) + base L ^ Z.of_nat n * value (base L) (skipn n v)) as V.
  { rewrite <- (firstn_skipn n v) at 1. rewrite value_app, firstn_length_le by lia. reflexivity. }
  split; [|split].
  - split; [left; reflexivity|]. split; [exact Dy|exact Cy].
  - cbn [y data]. rewrite V. rewrite Z.mul_comm, Z.div_add by (apply Z.pow_nonzero; lia).
    rewrite Z.div_small; [lia|]. pose proof (value_bounds (base L) ltac:(lia) (firstn n v)) as VB. rewrite firstn_length_le in VB by lia.
    apply VB. unfold digits_ok in *. rewrite Forall_forall in *. intros a Ha. apply Dx. rewrite <- (firstn_skipn n v). apply in_or_app. auto.
  - intros th mask k B R. destruct (C70_prefix th mask L default_format (mkBN BN_POS v) k B) as (W & _). rewrite W. f_equal.
    rewrite C63_default by (cbn [data]; eapply Forall_impl; [|exact Dx]; cbv beta; intros; lia). cbn [fst].
    rewrite R, Nat.min_l by lia. clear W.
    assert (print L (mkBN BN_POS v) = print_digits L v) as P1 by (destruct v; [cbn in Hn; lia|reflexivity]).
    assert (print L y = print_digits L (skipn n v)) as P2.
    { unfold print, y. cbn [desc data]. destruct (skipn n v); [congruence|reflexivity]. }
    rewrite P1, P2.
    assert (forall u w, print_digits L (u ++ w) = print_digits L w ++ print_digits L u) as PA.
    { induction u as [|a u IH]; intros w; cbn [print_digits List.app]; [rewrite app_s_nil; reflexivity|]. rewrite IH, app_s_assoc. reflexivity. }
    assert (forall s, String.length s = List.length (codes s)) as LC by (induction s; cbn; congruence).
    assert (String.length (print_digits L (firstn n v)) = n) as LF.
    { rewrite LC, (print_digits_codes L (fun d => 48 + d)).
      - rewrite rev_length, map_length, firstn_length_le by lia. reflexivity.
      - intros a Ha. apply print_digit_dec; auto. unfold digits_ok in Dx. rewrite Forall_forall in Dx.
        assert (In a v) as Hv by (rewrite <- (firstn_skipn n v); apply in_or_app; auto). specialize (Dx a Hv). lia. }
    rewrite <- (firstn_skipn n v) at 1 2. rewrite PA, length_app_s, LF, Nat.add_sub.
    generalize (print_digits L (skipn n v)) (print_digits L (firstn n v)). clear. intros s t.
    induction s as [|c s IH]; [destruct t; reflexivity|]. cbn [append String.length String.substring]. congruence.
Qed.
Print Assumptions C70_truncated.

Example C70_cases :
  sink_insert false false base10 default_format (mkBN BN_NEG [3; 2; 1]) (mkSink "x = " 3 false)
    = Inserted default_format (mkSink "x = -12" 0 true) /\
  sink_insert false true base10 default_format (mkBN BN_NEG [3; 2; 1]) (mkSink "x = " 3 false) = Failure StreamFailure (mkSink "x = -12" 0 true) /\
  sink_insert false true base10 default_format (mkBN BN_NEG [3; 2; 1]) (mkSink "x = " 4 false)
    = Inserted default_format (mkSink "x = -123" 0 false) /\
  sink_insert true true base10 default_format (mkBN BN_NEG [3; 2; 1]) (mkSink "x = " 3 false) = Failure BuffersOwn (mkSink "x = -12" 0 true) /\
  sink_insert true false base10 (mkFormat Dec false false ToRight "*" 4) (mkBN BN_NEG [3; 2; 1]) (mkSink "" 3 false)
    = Inserted (mkFormat Dec false false ToRight "*" 4) (mkSink "***" 0 true) /\
  sink_insert true false base10 (mkFormat Dec false false ToRight "*" 4) (mkBN BN_POS [3; 2; 1]) (mkSink "" 3 false)
    = Inserted (mkFormat Dec false false ToRight "*" 0) (mkSink "***" 0 true) /\
  sink_all false false base10 default_format
    [(fun f => f, mkBN BN_POS [3; 2; 1]); (fun f => mkFormat (basefield f) (showbase f) (uppercase f) (adjust f) "*" 4, mkBN BN_POS [5; 4])]
    (mkSink "" 5 false) = Inserted (mkFormat Dec false false ToRight "*" 0) (mkSink "123**" 0 true) /\
  (ws base10 <> 8 /\ 1 < base base10 <= 10 /\ good 10 (mkBN BN_POS [3; 2; 1]) /\ (1 < 3)%nat).
Proof.
  do 7 (split; [vm_compute; reflexivity|]). cbn. repeat split; try lia; try discriminate; auto.
  - left; reflexivity.
  - repeat constructor; lia.
  - left; discriminate.
Qed.
