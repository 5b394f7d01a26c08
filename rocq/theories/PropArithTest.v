(** * Properties C56 and C61: what tests/arithmetic_test.cpp prints *)
From Coq Require Import String Ascii.
From Verif Require Import Base Spec Limits Compare AddSub Division Fourier Multiplication Bignum Print Program ArithTest Outcome.
From Verif Require Import Wp ValueProof BignumProof OperatorProof PropAddSub PropCompare PropDivision PropObject PropPrint PropHistory.
From Verif Require Import Conv Ieee IeeeProof MulOpProof PropMul PropProgram.
From Verif Require Import DivisionProof DebugDivProof PropFailure PropDebugDiv ProgramSpec ProgramProof.
Notation length := Datatypes.length (only parsing).

(** ** Specification *)

(** The row says what integer arithmetic says (division truncates). *)
Definition intended (B : Z) (r : row) : Prop :=
  let x := signed_value B (left r) in let y := signed_value B (right r) in
  match op r, result r with
  | Gt, Truth b => b = (y <? x)
  | Ge, Truth b => b = (y <=? x)
  | Lt, Truth b => b = (x <? y)
  | Le, Truth b => b = (x <=? y)
  | Plus, Number z => signed_value B z = x + y
  | Minus, Number z => signed_value B z = x - y
  | Times, Number z => signed_value B z = x * y
  | Divide, Number z => signed_value B z = Z.quot x y
  | _, _ => False
  end.

(** When a row is right.  Differences of numbers of different signs are right only by coincidence (see C05), quotients unless
    the magnitudes are equal (see C24), everything else always. *)
Definition right_when (B : Z) (r : row) : Prop :=
  let a := value B (data (left r)) in let b := value B (data (right r)) in
  match op r with
  | Minus => looks_greater (data (left r)) (data (right r)) /\ a < b /\ 2 * b = B ^ Z.of_nat (length (data (left r)))
  | Divide => a <> b \/ a = 1
  | _ => True
  end.

Definition question (r : row) : bignum * symbol * bignum := (left r, op r, right r).

(** The text of a row, of several rows, of a table with its heading. *)
Definition row_text (L : limits) (r : row) : string :=
  (print L (left r) ++ symbol_text (op r) ++ print L (right r) ++ ":" ++ tab ++ outcome_text L (result r) ++ newline)%string.
Definition rows_text (L : limits) (l : list row) : string := fold_right (fun r s => row_text L r ++ s)%string ""%string l.
Definition heading (name : string) : string :=
  ("------------------------------------------------------------------" ++ newline ++ tab ++ tab ++ tab ++ name ++ newline ++
   "------------------------------------------------------------------" ++ newline ++ newline)%string.
Definition test_text (L : limits) (name : string) (rows : list (list row)) : string :=
  match rows with
  | [r1; r2; r3; r4] => heading name ++ rows_text L r1 ++ newline ++ rows_text L r2 ++ newline ++ rows_text L r3 ++ newline
      ++ rows_text L r4 ++ newline ++ newline ++ newline
  | _ => ""
  end%string.

(** ** Proofs *)

(** the operands of a row *)
Definition pair_ok (L : limits) (N m : Z) (fuel : nat) (x y : bignum) : Prop :=
  good (base L) x /\ good (base L) y /\ 0 < value (base L) (data x) /\ 0 < value (base L) (data y) /\ desc x <> desc y /\
  Z.log2 (value (base L) (data x)) + 2 <= Z.of_nat fuel /\
  Z.of_nat (length (data x) + length (data y)) <= N /\ Z.of_nat (Nat.min (length (data x)) (length (data y))) <= m.

Lemma positive_parts B v : weak_canonical v -> 0 < value B v -> canonical v /\ v <> [].
Proof. intros W H. apply (canonical_of_weak B v W). lia. Qed.

Lemma answers_truth (m : M bool) b (Q : outcome -> Prop) : answers m b -> Q (Truth b) -> returns (truth m) Q.
Proof. intros H HQ al n. unfold truth, bind. rewrite H. split; [exact HQ|lia]. Qed.

Lemma returns_number (m : M bignum) P (Q : outcome -> Prop) : returns m P -> (forall z, P z -> Q (Number z)) -> returns (number m) Q.
Proof. intros H HQ. apply (returns_bind _ _ _ _ H). intros z Hz. apply returns_ret, HQ, Hz. Qed.

Lemma apply_right ct cosf sinf L N m fuel x y o : accurate cosf sinf -> In (L, N, m) safe_lengths -> can_double L = true ->
  Z.log2_up N < Z.of_nat fuel -> pair_ok L N m fuel x y ->
  returns (apply L false (ieee ct cosf sinf) fuel x o y)
    (fun z => intended (base L) (mkRow x o y z) <-> right_when (base L) (mkRow x o y z)).
Proof.
  intros HA Hin HD HN (Gx & Gy & Px & Py & Hd & Hf & Hlen & Hmin).
  assert (limits_ok L = true) as HL by (unfold can_double in HD; apply andb_true_iff in HD; apply HD).
  pose proof (AddSubProof.HB L HL) as HB.
  destruct (positive_parts _ _ (proj2 (proj2 Gx)) Px) as [Cx Nx]. destruct (positive_parts _ _ (proj2 (proj2 Gy)) Py) as [Cy Ny].
  assert (signed_value (base L) x <> 0 \/ signed_value (base L) y <> 0) as Hnz.
  { left. pose proof (abs_signed (base L) x HB (proj1 (proj2 Gx))). lia. }
  pose proof (C12_agrees_with_values (base L) x y HB (proj1 Gx) (proj1 Gy) Hd (proj1 (proj2 Gx)) (proj1 (proj2 Gy)) Hnz) as (K1 & K2 & K3 & K4).
  destruct o; cbn [apply]; unfold intended, right_when; cbn [left right op result].
  - apply (answers_truth _ _ _ K1). tauto.
  - apply (answers_truth _ _ _ K2). tauto.
  - apply (answers_truth _ _ _ K3). tauto.
  - apply (answers_truth _ _ _ K4). tauto.
  - apply (returns_number _ _ _ (C01_add L x y HL Gx Gy (or_intror (or_introl Nx)))). tauto.
  - apply (returns_number _ _ _ (binary_returns _ _ _ _ _ (C05_mixed_sign_sub L x y HL Gx Gy Hd (or_introl Nx)))).
    cbv zeta. intros z (_ & _ & _ & _ & _ & _ & K). rewrite K. intuition lia.
  - assert (0 < length (data x) + length (data y))%nat as P0 by (destruct (data x); [congruence|cbn; lia]).
    apply (returns_number _ _ _ (C17_per_type ct cosf sinf L N m fuel x y HA Hin (proj1 Gx) (proj1 Gy) (proj1 (proj2 Gx)) (proj1 (proj2 Gy)) P0 Hlen Hmin HN)).
    tauto.
  - destruct (Z.eq_dec (value (base L) (data x)) (value (base L) (data y))) as [E|E].
    + assert (data x = data y) as Ed by (apply (value_inj _ HB); auto; [apply Gx|apply Gy]).
      destruct (Z.eq_dec (value (base L) (data y)) 1) as [E1|E1].
      * apply (returns_number _ _ _ (C24_division_binary L fuel x y HD Gx Gy Cy Ny Hf (or_intror E1))). intros z (_ & V).
        split; intros _; [right; lia|exact V].
      * assert (data x <> [1]) as N1 by (intros Ex; rewrite <- Ed, Ex in E1; cbn [value] in E1; lia).
        apply (returns_number _ _ _ (binary_returns _ _ _ _ _ (C24_equal_magnitudes L fuel x y HD (proj1 Gx) (proj1 Gy) Ed Cx Nx N1))).
        intros z (Hz & _). split; [|intros [H|H]; lia]. intros V. exfalso.
        assert (signed_value (base L) z = 0) as Z0 by (unfold signed_value; rewrite Hz; destruct (desc z); cbn; lia).
        rewrite Z0 in V. unfold signed_value in V.
        destruct (proj1 Gx) as [Ex|Ex], (proj1 Gy) as [Ey|Ey]; rewrite Ex, Ey in *; try congruence; cbn [sign_of] in V; rewrite E in V.
        -- rewrite Z.quot_opp_r, Z.quot_same in V by lia. lia.
        -- rewrite Z.quot_opp_l, Z.quot_same in V by lia. lia.
    + apply (returns_number _ _ _ (C24_division_binary L fuel x y HD Gx Gy Cy Ny Hf (or_introl E))). intros z (_ & V).
      split; intros _; [left; exact E|exact V].
Qed.

Lemma each_right ct cosf sinf L N m fuel l : accurate cosf sinf -> In (L, N, m) safe_lengths -> can_double L = true ->
  Z.log2_up N < Z.of_nat fuel -> Forall (fun q => pair_ok L N m fuel (fst (fst q)) (snd q)) l ->
  returns (each L false (ieee ct cosf sinf) fuel l)
    (fun rows => map question rows = l /\ Forall (fun r => intended (base L) r <-> right_when (base L) r) rows).
Proof.
  intros HA Hin HD HN. induction l as [|[[x o] y] l IH]; intros Hl.
  - apply returns_ret. split; [reflexivity|constructor].
  - inversion Hl as [|q l' Hq Hl']; subst. cbn [each fst snd] in *.
    apply (returns_bind _ _ (fun r => question r = (x, o, y) /\ (intended (base L) r <-> right_when (base L) r))).
    + unfold log_debug_comp. apply (returns_bind _ _ _ _ (apply_right ct cosf sinf L N m fuel x y o HA Hin HD HN Hq)).
      intros z Hz. apply returns_ret. split; [reflexivity|exact Hz].
    + intros r (Er & Hr). apply (returns_bind _ _ _ _ (IH Hl')). intros rows (E & H). apply returns_ret.
      split; [cbn [map]; congruence|constructor; assumption].
Qed.

(** The table for any two digit lists written in lines 25-26 (positive magnitudes, within the length limits of C17): it is
    always printed in full, and a row is right exactly when [right_when] says so. *)
Theorem C56_table : forall ct cosf sinf L N m fuel da db, accurate cosf sinf -> In (L, N, m) safe_lengths -> can_double L = true ->
  digits_ok (base L) da -> digits_ok (base L) db ->
  let a := written_value (base L) da in let b := written_value (base L) db in
  0 < a -> 0 < b -> Z.log2 a + 2 <= Z.of_nat fuel -> Z.log2 b + 2 <= Z.of_nat fuel -> Z.log2_up N < Z.of_nat fuel ->
  Z.of_nat (length da + length db) <= N -> Z.of_nat (Nat.min (length da) (length db)) <= m ->
  returns (test_rows L false (ieee ct cosf sinf) fuel da db) (fun groups =>
    let x d := mkBN d (rev (strip da)) in let y d := mkBN d (rev (strip db)) in
    map (map question) groups =
      [comparisons (x BN_NEG) (y BN_POS); operations (x BN_NEG) (y BN_POS);
       comparisons (x BN_POS) (y BN_NEG); operations (x BN_POS) (y BN_NEG)] /\
    Forall (Forall (fun r => intended (base L) r <-> right_when (base L) r)) groups).
Proof.
  intros ct cosf sinf L N m fuel da db HA Hin HD Da Db a b Ha Hb Fa Fb HN Hlen Hmin.
  assert (limits_ok L = true) as HL by (unfold can_double in HD; apply andb_true_iff in HD; apply HD).
  assert (bmin L = 0) as Hmin0 by (apply AddSubProof.limits_ok_facts in HL; tauto).
  assert (forall d l, returns (bn_make L d l) (fun z => z = mkBN d (rev (strip l)))) as Mk.
  { intros d l. apply (returns_mono _ _ _ (C28_constructor L d l Hmin0)). intros [e v] (H1 & H2 & _). cbn [desc data] in *. congruence. }
  assert (forall l, (length (strip l) <= length l)%nat) as Sl.
  { intros l. destruct (strip_split l) as [k E]. rewrite E at 2. rewrite app_length. lia. }
  assert (forall d, d = BN_POS \/ d = BN_NEG -> forall l, digits_ok (base L) l ->
     good (base L) (mkBN d (rev (strip l))) /\ value (base L) (rev (strip l)) = written_value (base L) l) as Gd.
  { intros d Hd l Dl. split; [apply (make_good L d l HL Hd Dl)|].
    pose proof (proj2 (make_good L BN_POS l HL (or_introl eq_refl) Dl)) as V. unfold signed_value in V. cbn [desc data sign_of] in V. lia. }
  assert (forall d e, (d = BN_POS /\ e = BN_NEG \/ d = BN_NEG /\ e = BN_POS) ->
     pair_ok L N m fuel (mkBN d (rev (strip da))) (mkBN e (rev (strip db))) /\
     pair_ok L N m fuel (mkBN e (rev (strip db))) (mkBN d (rev (strip da)))) as Pk.
  { intros d e Hde. assert (d = BN_POS \/ d = BN_NEG) as Hd by tauto. assert (e = BN_POS \/ e = BN_NEG) as He by tauto.
    destruct (Gd d Hd da Da) as [G1 V1]. destruct (Gd e He db Db) as [G2 V2].
    pose proof (Sl da). pose proof (Sl db). unfold pair_ok. cbn [data desc]. rewrite V1, V2, !rev_length. fold a b.
    assert (d <> e) by (destruct Hde as [[-> ->]|[-> ->]]; discriminate).
    split; (repeat (split; [first [assumption|congruence|lia]|])); lia. }
  assert (forall d e, (d = BN_POS /\ e = BN_NEG \/ d = BN_NEG /\ e = BN_POS) ->
     Forall (fun q => pair_ok L N m fuel (fst (fst q)) (snd q)) (comparisons (mkBN d (rev (strip da))) (mkBN e (rev (strip db)))) /\
     Forall (fun q => pair_ok L N m fuel (fst (fst q)) (snd q)) (operations (mkBN d (rev (strip da))) (mkBN e (rev (strip db))))) as Fk.
  { intros d e Hde. destruct (Pk d e Hde) as [P1 P2]. unfold comparisons, operations.
    split; repeat (apply Forall_cons; [assumption|]); apply Forall_nil. }
  unfold test_rows. apply (returns_bind _ _ _ _ (Mk _ _)). intros x ->. apply (returns_bind _ _ _ _ (Mk _ _)). intros y ->.
  destruct (Fk BN_NEG BN_POS ltac:(tauto)) as [F1 F2]. destruct (Fk BN_POS BN_NEG ltac:(tauto)) as [F3 F4].
  apply (returns_bind _ _ _ _ (each_right ct cosf sinf L N m fuel _ HA Hin HD HN F1)). intros r1 (E1 & R1).
  apply (returns_bind _ _ _ _ (each_right ct cosf sinf L N m fuel _ HA Hin HD HN F2)). intros r2 (E2 & R2).
  cbn [setDescriptor data].
  apply (returns_bind _ _ _ _ (each_right ct cosf sinf L N m fuel _ HA Hin HD HN F3)). intros r3 (E3 & R3).
  apply (returns_bind _ _ _ _ (each_right ct cosf sinf L N m fuel _ HA Hin HD HN F4)). intros r4 (E4 & R4).
  apply returns_ret. cbn [map]. rewrite E1, E2, E3, E4. split; [reflexivity|]. repeat (apply Forall_cons; [assumption|]). apply Forall_nil.
Qed.
Print Assumptions C56_table.

(** ** The tables the program prints *)

(** With the digits of lines 25-26 the numbers are 2B^2-1 and B.  The results, for each base B = bmax + 1. *)
Definition expected (B : Z) : list (list row) :=
  let x d := mkBN d [B - 1; B - 1; 1] in            (* 2 B^2 - 1 *)
  let y d := mkBN d [0; 1] in                       (* B *)
  let sum := [B - 1; B - 2; 1] in                   (* 2 B^2 - 1 - B *)
  let product := [0; B - 1; B - 1; 1] in            (* (2 B^2 - 1) B *)
  let quotient := [B - 1; 1] in                     (* 2 B - 1 *)
  let table dx dy x y (lt : bool) :=
    let row o r := mkRow x o y r in let back o r := mkRow y o x r in
    [[row Gt (Truth (negb lt)); row Ge (Truth (negb lt)); row Lt (Truth lt); row Le (Truth lt)];
     [row Plus (Number (mkBN dx sum)); row Minus (Number (mkBN dx sum));
      row Times (Number (mkBN BN_NEG product)); row Divide (Number (mkBN BN_NEG quotient));
      back Plus (Number (mkBN dx sum)); back Minus (Number (mkBN dy []));
      back Times (Number (mkBN BN_NEG product)); back Divide (Number (mkBN BN_NEG [0]))]] in
  table BN_NEG BN_POS (x BN_NEG) (y BN_POS) true ++ table BN_POS BN_NEG (x BN_POS) (y BN_NEG) false.

(** a row and the question it answers *)
Definition answered L dbg P fuel (q : bignum * symbol * bignum) (r : row) : Prop :=
  question r = q /\ returns (apply L dbg P fuel (left r) (op r) (right r)) (fun v => v = result r).

Lemma each_answered L dbg P fuel l rows : Forall2 (answered L dbg P fuel) l rows -> returns (each L dbg P fuel l) (fun s => s = rows).
Proof.
  induction 1 as [|q r l rows [E H] _ IH]; [apply returns_ret; reflexivity|].
  destruct r as [x o y v]. cbn [question left op right result] in *. subst q. cbn [each].
  eapply returns_bind; [eapply returns_bind; [exact H|]; intros a ->; apply (returns_ret _ (fun s => s = mkRow x o y v)); reflexivity|].
  intros a ->. eapply returns_bind; [exact IH|]. intros b ->. apply returns_ret. reflexivity.
Qed.

Lemma write_row_written L dbg P fuel first x o y v : returns (apply L dbg P fuel x o y) (fun r => r = v) ->
  writes_last (write_row L dbg P fuel first x o y) (row_text L (mkRow x o y v)) (fun _ => True).
Proof.
  intros H. unfold write_row, row_text, question_text, answer_text. cbn [left op right result].
  assert (forall t : string, (t ++ newline)%string <> ""%string) as N by (intros []; discriminate).
  destruct first.
  - apply (writes_last_bind _ _ ""%string _ _ _ (writes_quiet _ _ H)).
    + repeat apply app_nonempty_s. discriminate.
    + intros r ->. match goal with |- writes_last (write ?s) ?t _ => replace t with s; [apply writes_last_write|] end.
      rewrite <- !app_assoc_s. reflexivity.
  - match goal with |- writes_last _ ?t _ =>
      replace t with ((print L x ++ symbol_text o ++ print L y ++ ":" ++ tab) ++ "" ++ outcome_text L v ++ newline)%string;
      [|rewrite <- !app_assoc_s; reflexivity] end.
    eapply writes_last_bind; [apply writes_write|apply N|]. intros _ _.
    eapply writes_last_bind; [apply writes_quiet, H|apply N|]. intros r ->. apply writes_last_write.
Qed.

Lemma write_answered L dbg P fuel first l rows : Forall2 (answered L dbg P fuel) l rows -> forall i,
  writes (write_rows L dbg P fuel first i l) (rows_text L rows) (fun _ => True).
Proof.
  induction 1 as [|q r l rows [E H] _ IH]; intros i; [apply writes_write|].
  destruct r as [x o y v]. cbn [question left op right result] in *. subst q. cbn [write_rows rows_text fold_right].
  eapply writes_bind; [apply writes_of_last, write_row_written, H|]. intros _ _. apply IH.
Qed.

(** The quotient of the tables is not rejected in any base: B 2^k ends in the digit 0, and its other digits are never greater. *)
Lemma low_borrow B c p : 2 <= B -> 0 <= p <= c -> c < B \/ B <= p /\ c = 2 * B - 1 -> ~ has_borrow B (B * c + (B - 1)) (B * p).
Proof.
  intros HB Hp Hc (n & i & Hn & Hi & _ & _ & K).
  assert (0 <= (B * c + (B - 1)) / B ^ i) as Pos by (apply Z.div_pos; [nia|apply Z.pow_pos_nonneg; lia]).
  pose proof (Z.mod_pos_bound ((B * c + (B - 1)) / B ^ i) B ltac:(lia)) as Q.
  destruct (Z.eq_dec i 0) as [->|N0].
  { rewrite Z.pow_0_r, !Z.div_1_r, (Z.mul_comm B p), Z.mod_mul in K by lia. rewrite Z.div_1_r in Q. lia. }
  destruct (Z.eq_dec i 1) as [->|N1].
  { rewrite Z.pow_1_r in *. rewrite (Z.mul_comm B p), Z.div_mul in K by lia.
    replace ((B * c + (B - 1)) / B) with c in K by (apply (Z.div_unique_pos _ _ _ (B - 1)); lia).
    destruct Hc as [Hc|[H1 ->]].
    - rewrite !Z.mod_small in K by lia. lia.
    - pose proof (Z.mod_pos_bound p B ltac:(lia)).
      replace ((2 * B - 1) mod B) with (B - 1) in K by (apply (Z.mod_unique_pos _ _ 1); lia). lia. }
  destruct (Z.eq_dec i 2) as [->|N2].
  - destruct Hc as [Hc|[H1 ->]].
    + rewrite (Z.div_small (B * p)) in K by nia. rewrite Z.mod_0_l in K by lia. lia.
    + replace (B * p / B ^ 2) with 1 in K by (apply (Z.div_unique_pos _ _ _ (B * (p - B))); nia).
      replace ((B * (2 * B - 1) + (B - 1)) / B ^ 2) with 1 in K by (apply (Z.div_unique_pos _ _ _ (B ^ 2 - 1)); nia). lia.
  - assert (B ^ 3 <= B ^ i) by (apply Z.pow_le_mono_r; lia).
    rewrite (Z.div_small (B * p)) in K by nia. rewrite Z.mod_0_l in K by lia. lia.
Qed.

Lemma not_rejected_small B : 2 <= B -> forall c, 0 <= c -> c < B -> ~ rejected B B (B * c + (B - 1)).
Proof.
  intros HB. apply (Z_lt_induction (fun c => c < B -> ~ rejected B B (B * c + (B - 1)))). intros c IH Hc R.
  inversion R as [v k Hk Hb K E|v k Hk Hb K E]; subst v; assert (0 < 2 ^ k) by (apply Z.pow_pos_nonneg; lia); assert (2 ^ k <= c) by nia.
  - revert K. apply low_borrow; lia.
  - replace (B * c + (B - 1) - B * 2 ^ k) with (B * (c - 2 ^ k) + (B - 1)) in K by ring. revert K. apply IH; lia.
Qed.

Lemma not_rejected B : 2 <= B -> ~ rejected B B (2 * B ^ 2 - 1).
Proof.
  intros HB R. replace (2 * B ^ 2 - 1) with (B * (2 * B - 1) + (B - 1)) in R by ring.
  inversion R as [v k Hk Hb K E|v k Hk Hb K E]; subst v; rewrite Z.pow_add_r, Z.pow_1_r in Hb by lia;
    assert (0 < 2 ^ k) by (apply Z.pow_pos_nonneg; lia); assert (2 ^ k <= 2 * B - 1 /\ B <= 2 ^ k) by nia.
  - revert K. apply low_borrow; [lia|lia|right; lia].
  - replace (B * (2 * B - 1) + (B - 1) - B * 2 ^ k) with (B * (2 * B - 1 - 2 ^ k) + (B - 1)) in K by ring. revert K. apply not_rejected_small; lia.
Qed.

(** a nonzero number has one representation *)
Lemma good_unique B x y : 2 <= B -> good B x -> good B y -> signed_value B y <> 0 -> signed_value B x = signed_value B y -> x = y.
Proof.
  intros HB Gx Gy Hn E. pose proof (abs_signed B x HB (proj1 (proj2 Gx))) as Ax. pose proof (abs_signed B y HB (proj1 (proj2 Gy))) as Ay.
  destruct (positive_parts B (data x) (proj2 (proj2 Gx)) ltac:(lia)) as [Cx _].
  destruct (positive_parts B (data y) (proj2 (proj2 Gy)) ltac:(lia)) as [Cy _].
  assert (data x = data y) as Ed by (apply (value_inj B HB); auto; [apply Gx|apply Gy|lia]).
  destruct x as [d v], y as [e w]. cbn [data desc] in *. subst w. f_equal. unfold signed_value in *. cbn [desc data] in *.
  destruct (proj1 Gx) as [Hd|Hd], (proj1 Gy) as [He|He]; cbn [desc] in Hd, He; subst d e; try reflexivity; cbn [sign_of] in *; lia.
Qed.

Lemma div_shorter L fuel x y : limits_ok L = true -> finite x -> finite y -> canonical (data x) -> data x <> [] ->
  (length (data x) < length (data y))%nat -> (2 <= length (data y))%nat ->
  returns (op_div L false fuel x y) (fun z => z = mkBN (product_desc (desc x) (desc y)) [0]).
Proof.
  intros HL Fx Fy Cx Nx Hlt H2. apply (binary_returns _ _ _ _ (failed (desc y))).
  rewrite (DivOpProof.div_assign_main L HL false fuel x y).
  - apply guarded_yields. eapply yields_bind with (Q := fun c => c = false).
    + eapply yields_pure; [apply CompareProof.abs_val_is_gt_pure|]. unfold CompareProof.gtb.
      rewrite (proj2 (Nat.ltb_ge _ _)) by lia. rewrite (proj2 (Nat.ltb_lt _ _)) by lia. reflexivity.
    + intros c ->. eapply yields_bind with (Q := fun v => v = [0]); [apply yields_vcopy; reflexivity|]. intros v ->.
      apply yields_ret. reflexivity.
  - split; [exact Nx|]. intros E. rewrite E in Cx. apply Cx. reflexivity.
  - split; intros E; rewrite E in H2; cbn in H2; lia.
  - exact Fx.
Qed.

Section Tables.
Context (ct : evaluation) (cosf sinf : double -> double) (L : limits) (dbg : bool) (N m : Z) (fuel : nat).
Context (HA : accurate cosf sinf) (Hin : In (L, N, m) safe_lengths) (HD : can_double L = true) (Hm : 2 <= m).
Context (HN : Z.log2_up N < Z.of_nat fuel) (Hf : Z.log2 (2 * base L ^ 2) + 2 <= Z.of_nat fuel).
Let B := base L.

Lemma HL : limits_ok L = true.
Proof. unfold can_double in HD. apply andb_true_iff in HD. apply HD. Qed.
Lemma B2 : 2 <= B.
Proof. exact (AddSubProof.HB L HL). Qed.

Definition X d := mkBN d [B - 1; B - 1; 1].
Definition Y d := mkBN d [0; 1].

Lemma good3 d a b c : d = BN_POS \/ d = BN_NEG -> 0 <= a < B -> 0 <= b < B -> 0 < c < B -> good B (mkBN d [a; b; c]).
Proof.
  intros Hd Ha Hb Hc. split; [exact Hd|]. cbn [data]. split; [|left; unfold canonical; cbn; lia].
  repeat (apply Forall_cons; [lia|]). apply Forall_nil.
Qed.
Lemma good2 d a b : d = BN_POS \/ d = BN_NEG -> 0 <= a < B -> 0 < b < B -> good B (mkBN d [a; b]).
Proof.
  intros Hd Ha Hb. split; [exact Hd|]. cbn [data]. split; [|left; unfold canonical; cbn; lia].
  repeat (apply Forall_cons; [lia|]). apply Forall_nil.
Qed.
Lemma good4 d a b c e : d = BN_POS \/ d = BN_NEG -> 0 <= a < B -> 0 <= b < B -> 0 <= c < B -> 0 < e < B -> good B (mkBN d [a; b; c; e]).
Proof.
  intros Hd Ha Hb Hc He. split; [exact Hd|]. cbn [data]. split; [|left; unfold canonical; cbn; lia].
  repeat (apply Forall_cons; [lia|]). apply Forall_nil.
Qed.

Definition opposite d e := d = BN_NEG /\ e = BN_POS \/ d = BN_POS /\ e = BN_NEG.

Lemma X_value d : value B (data (X d)) = 2 * B ^ 2 - 1.
Proof. unfold X. cbn [data value]. ring. Qed.
Lemma Y_value d : value B (data (Y d)) = B.
Proof. unfold Y. cbn [data value]. ring. Qed.

(** in a debug build the same as in a release build *)
Lemma not_looks d e : ~ looks_greater (data (Y e)) (data (X d)).
Proof. intros [K1|[K1 _]]; cbn in K1; lia. Qed.

Lemma digits_XY d e : digits_ok B (data (X d)) /\ digits_ok B (data (Y e)) /\ canonical (data (X d)) /\ canonical (data (Y e)).
Proof.
  pose proof B2. unfold canonical. cbn. repeat split; try lia; repeat (apply Forall_cons; [lia|]); apply Forall_nil.
Qed.

Lemma add_same d e : opposite d e -> forall al n,
  op_add L dbg (X d) (Y e) al n = op_add L false (X d) (Y e) al n /\ op_add L dbg (Y e) (X d) al n = op_add L false (Y e) (X d) al n.
Proof.
  intros Ho al n. destruct dbg; [|split; reflexivity]. pose proof B2. pose proof HL as Hl.
  destruct (digits_XY d e) as (D1 & D2 & C1 & C2).
  assert (d = BN_POS \/ d = BN_NEG) as Hd by (unfold opposite in Ho; tauto).
  assert (e = BN_POS \/ e = BN_NEG) as He by (unfold opposite in Ho; tauto).
  assert (d <> e) as Hde by (destruct Ho as [[-> ->]|[-> ->]]; discriminate).
  split; apply binary_same; intros [dr vr] al' n' E1 E2; cbn [data desc X Y] in E1, E2; subst dr vr.
  - change (mkBN d [B - 1; B - 1; 1]) with (X d).
    refine (proj2 (C39_debug_addition L (X d) (Y e) al' n' Hl Hd He Hde D1 D2 C1 C2) _).
    fold B. rewrite X_value, Y_value. rewrite (proj2 (Z.leb_le _ _)) by nia. apply not_looks.
  - change (mkBN e [0; 1]) with (Y e).
    refine (proj2 (C39_debug_addition L (Y e) (X d) al' n' Hl He Hd (not_eq_sym Hde) D2 D1 C2 C1) _).
    fold B. rewrite X_value, Y_value. rewrite (proj2 (Z.leb_gt _ _)) by nia. apply not_looks.
Qed.

Lemma sub_same d e : opposite d e -> forall al n,
  op_sub L dbg (X d) (Y e) al n = op_sub L false (X d) (Y e) al n /\ op_sub L dbg (Y e) (X d) al n = op_sub L false (Y e) (X d) al n.
Proof.
  intros Ho al n. destruct dbg; [|split; reflexivity].
  assert (d = BN_POS \/ d = BN_NEG) as Hd by (unfold opposite in Ho; tauto).
  assert (e = BN_POS \/ e = BN_NEG) as He by (unfold opposite in Ho; tauto).
  assert (d <> e) as Hde by (destruct Ho as [[-> ->]|[-> ->]]; discriminate).
  pose proof (not_looks d e).
  split; apply binary_same; intros [dr vr] al' n' E1 E2; cbn [data desc X Y] in E1, E2; subst dr vr.
  - change (mkBN d [B - 1; B - 1; 1]) with (X d).
    refine (proj2 (C39_debug_mixed_subtraction L (X d) (Y e) al' n' Hd He Hde) _). tauto.
  - change (mkBN e [0; 1]) with (Y e).
    refine (proj2 (C39_debug_mixed_subtraction L (Y e) (X d) al' n' He Hd (not_eq_sym Hde)) _). tauto.
Qed.

Lemma div_same d e : opposite d e -> forall al n,
  op_div L dbg fuel (X d) (Y e) al n = op_div L false fuel (X d) (Y e) al n /\
  op_div L dbg fuel (Y e) (X d) al n = op_div L false fuel (Y e) (X d) al n.
Proof.
  intros Ho al n. destruct dbg; [|split; reflexivity]. pose proof B2.
  assert (d = BN_POS \/ d = BN_NEG) as Hd by (unfold opposite in Ho; tauto).
  assert (e = BN_POS \/ e = BN_NEG) as He by (unfold opposite in Ho; tauto).
  destruct (digits_XY d e) as (D1 & D2 & C1 & C2).
  assert (good B (X d)) as GX by (split; [exact Hd|split; [exact D1|left; exact C1]]).
  assert (good B (Y e)) as GY by (split; [exact He|split; [exact D2|left; exact C2]]).
  assert (enough_fuel (2 * B ^ 2 - 1) fuel /\ enough_fuel B fuel) as [F1 F2].
  { unfold enough_fuel. fold B in Hf. assert (Z.log2 (2 * B ^ 2 - 1) <= Z.log2 (2 * B ^ 2)) by (apply Z.log2_le_mono; lia).
    assert (Z.log2 B <= Z.log2 (2 * B ^ 2)) by (apply Z.log2_le_mono; nia). lia. }
  split; apply binary_same; intros [dr vr] al' n' E1 E2; cbn [data desc X Y] in E1, E2; subst dr vr.
  - change (mkBN d [B - 1; B - 1; 1]) with (X d).
    refine (proj2 (C54_debug_division L fuel (X d) (Y e) HD GX GY C2 _ _) _ al' n'); fold B; rewrite ?X_value, ?Y_value; auto; [lia|apply not_rejected; lia].
  - change (mkBN e [0; 1]) with (Y e).
    refine (proj2 (C54_debug_division L fuel (Y e) (X d) HD GY GX C1 _ _) _ al' n'); fold B; rewrite ?X_value, ?Y_value; auto; [nia|].
    apply rejected_small; nia.
Qed.

Lemma add_release d e : opposite d e ->
  returns (op_add L false (X d) (Y e)) (fun z => z = mkBN d [B - 1; B - 2; 1]) /\
  returns (op_add L false (Y e) (X d)) (fun z => z = mkBN d [B - 1; B - 2; 1]).
Proof.
  intros Ho. pose proof B2. pose proof HL as Hl. assert (d = BN_POS \/ d = BN_NEG) as Hd by (unfold opposite in Ho; tauto).
  assert (e = BN_POS \/ e = BN_NEG) as He by (unfold opposite in Ho; tauto).
  pose proof (good3 d (B - 1) (B - 1) 1 Hd ltac:(lia) ltac:(lia) ltac:(lia)) as GX. fold (X d) in GX.
  pose proof (good2 e 0 1 He ltac:(lia) ltac:(lia)) as GY. fold (Y e) in GY.
  pose proof (good3 d (B - 1) (B - 2) 1 Hd ltac:(lia) ltac:(lia) ltac:(lia)) as GZ.
  assert (signed_value B (mkBN d [B - 1; B - 2; 1]) = signed_value B (X d) + signed_value B (Y e)) as V.
  { unfold signed_value, X, Y. cbn [desc data value]. destruct Ho as [[-> ->]|[-> ->]]; ring. }
  assert (signed_value B (mkBN d [B - 1; B - 2; 1]) <> 0) as Nz.
  { unfold signed_value. cbn [desc data value]. destruct Hd as [-> | ->]; nia. }
  split; (eapply returns_mono; [apply C01_add; [exact Hl|eassumption|eassumption|right; left; discriminate]|]);
    intros z (G & E); apply (good_unique B); auto; fold B in E; lia.
Qed.
Lemma add_row d e : opposite d e ->
  returns (op_add L dbg (X d) (Y e)) (fun z => z = mkBN d [B - 1; B - 2; 1]) /\
  returns (op_add L dbg (Y e) (X d)) (fun z => z = mkBN d [B - 1; B - 2; 1]).
Proof.
  intros Ho. destruct (add_release d e Ho) as [H1 H2].
  split; (eapply returns_same; [intros al n; apply (add_same d e Ho)|assumption]).
Qed.

Lemma sub_release d e : opposite d e ->
  returns (op_sub L false (X d) (Y e)) (fun z => z = mkBN d [B - 1; B - 2; 1]) /\
  returns (op_sub L false (Y e) (X d)) (fun z => z = mkBN e []).
Proof.
  intros Ho. pose proof B2. pose proof HL as Hl. assert (d = BN_POS \/ d = BN_NEG) as Hd by (unfold opposite in Ho; tauto).
  assert (e = BN_POS \/ e = BN_NEG) as He by (unfold opposite in Ho; tauto).
  pose proof (good3 d (B - 1) (B - 1) 1 Hd ltac:(lia) ltac:(lia) ltac:(lia)) as GX. fold (X d) in GX.
  pose proof (good2 e 0 1 He ltac:(lia) ltac:(lia)) as GY. fold (Y e) in GY.
  pose proof (good3 d (B - 1) (B - 2) 1 Hd ltac:(lia) ltac:(lia) ltac:(lia)) as GZ.
  assert (d <> e) as Hde by (destruct Ho as [[-> ->]|[-> ->]]; discriminate).
  split.
  - eapply returns_mono; [apply (binary_returns _ _ _ _ _ (C05_mixed_sign_sub L (X d) (Y e) Hl GX GY Hde ltac:(left; discriminate)))|].
    cbv zeta. intros [dz vz] (G & C & E & _ & K & _). rewrite X_value, Y_value in K.
    specialize (K ltac:(left; cbn; lia) ltac:(fold B; nia)). cbn [desc data X] in *. subst dz. f_equal.
    apply (value_inj B H); auto; [apply G|apply GZ|unfold canonical; cbn; lia|]. fold B in K. rewrite K. cbn [value]. ring.
  - eapply returns_mono; [apply (binary_returns _ _ _ _ _ (C05_mixed_sign_sub L (Y e) (X d) Hl GY GX (not_eq_sym Hde) ltac:(left; discriminate)))|].
    cbv zeta. intros [dz vz] (G & C & E & K & _). cbn [desc data] in *.
    assert (~ looks_greater (data (Y e)) (data (X d))) as Ng by (intros [K1|[K1 _]]; cbn in K1; lia).
    specialize (K Ng). subst dz. f_equal.
    apply (value_inj B H); auto; [apply G|constructor|apply canonical_nil].
Qed.
Lemma sub_row d e : opposite d e ->
  returns (op_sub L dbg (X d) (Y e)) (fun z => z = mkBN d [B - 1; B - 2; 1]) /\
  returns (op_sub L dbg (Y e) (X d)) (fun z => z = mkBN e []).
Proof.
  intros Ho. destruct (sub_release d e Ho) as [H1 H2].
  split; (eapply returns_same; [intros al n; apply (sub_same d e Ho)|assumption]).
Qed.

Lemma lengths d e : (0 < length (data (X d)) + length (data (Y e)))%nat /\
  Z.of_nat (length (data (X d)) + length (data (Y e))) <= N /\
  Z.of_nat (Nat.min (length (data (X d))) (length (data (Y e)))) <= m.
Proof.
  destruct (safe_lengths_numbers L N m Hin) as (_ & H & _). cbn. lia.
Qed.

Lemma mul_row d e : opposite d e ->
  returns (op_mul L (ieee ct cosf sinf) fuel (X d) (Y e)) (fun z => z = mkBN BN_NEG [0; B - 1; B - 1; 1]) /\
  returns (op_mul L (ieee ct cosf sinf) fuel (Y e) (X d)) (fun z => z = mkBN BN_NEG [0; B - 1; B - 1; 1]).
Proof.
  intros Ho. pose proof B2. pose proof HL as Hl. assert (d = BN_POS \/ d = BN_NEG) as Hd by (unfold opposite in Ho; tauto).
  assert (e = BN_POS \/ e = BN_NEG) as He by (unfold opposite in Ho; tauto).
  pose proof (good3 d (B - 1) (B - 1) 1 Hd ltac:(lia) ltac:(lia) ltac:(lia)) as GX. fold (X d) in GX.
  pose proof (good2 e 0 1 He ltac:(lia) ltac:(lia)) as GY. fold (Y e) in GY.
  pose proof (good4 BN_NEG 0 (B - 1) (B - 1) 1 (or_intror eq_refl) ltac:(lia) ltac:(lia) ltac:(lia) ltac:(lia)) as GZ.
  assert (signed_value B (mkBN BN_NEG [0; B - 1; B - 1; 1]) = signed_value B (X d) * signed_value B (Y e)) as V.
  { unfold signed_value, X, Y. cbn [desc data value]. destruct Ho as [[-> ->]|[-> ->]]; ring. }
  assert (signed_value B (mkBN BN_NEG [0; B - 1; B - 1; 1]) <> 0) as Nz.
  { unfold signed_value. cbn [desc data value]. nia. }
  destruct (lengths d e) as (L1 & L2 & L3).
  split.
  - eapply returns_mono; [exact (C17_per_type ct cosf sinf L N m fuel (X d) (Y e) HA Hin (proj1 GX) (proj1 GY) (proj1 (proj2 GX)) (proj1 (proj2 GY)) L1 L2 L3 HN)|].
    intros z (G & _ & E & _). apply (good_unique B); auto. fold B in E. lia.
  - rewrite Nat.add_comm in L1, L2. rewrite Nat.min_comm in L3.
    eapply returns_mono; [exact (C17_per_type ct cosf sinf L N m fuel (Y e) (X d) HA Hin (proj1 GY) (proj1 GX) (proj1 (proj2 GY)) (proj1 (proj2 GX)) L1 L2 L3 HN)|].
    intros z (G & _ & E & _). apply (good_unique B); auto. fold B in E. lia.
Qed.

Lemma div_release d e : opposite d e ->
  returns (op_div L false fuel (X d) (Y e)) (fun z => z = mkBN BN_NEG [B - 1; 1]) /\
  returns (op_div L false fuel (Y e) (X d)) (fun z => z = mkBN BN_NEG [0]).
Proof.
  intros Ho. pose proof B2. pose proof HL as Hl. assert (d = BN_POS \/ d = BN_NEG) as Hd by (unfold opposite in Ho; tauto).
  assert (e = BN_POS \/ e = BN_NEG) as He by (unfold opposite in Ho; tauto).
  pose proof (good3 d (B - 1) (B - 1) 1 Hd ltac:(lia) ltac:(lia) ltac:(lia)) as GX. fold (X d) in GX.
  pose proof (good2 e 0 1 He ltac:(lia) ltac:(lia)) as GY. fold (Y e) in GY.
  pose proof (good2 BN_NEG (B - 1) 1 (or_intror eq_refl) ltac:(lia) ltac:(lia)) as GZ.
  assert (Z.quot (2 * B ^ 2 - 1) B = 2 * B - 1) as Q.
  { rewrite Z.quot_div_nonneg by nia. symmetry. apply (Z.div_unique_pos _ _ _ (B - 1)); [lia|ring]. }
  split.
  - eapply returns_mono; [apply (C24_division_binary L fuel (X d) (Y e) HD GX GY)|].
    + unfold canonical; cbn; lia.
    + discriminate.
    + fold B. rewrite X_value. assert (Z.log2 (2 * B ^ 2 - 1) <= Z.log2 (2 * B ^ 2)) by (apply Z.log2_le_mono; lia). fold B in Hf. lia.
    + left. fold B. rewrite X_value, Y_value. nia.
    + intros z (G & E). fold B in E, G. apply (good_unique B); auto.
      * unfold signed_value. cbn [desc data value]. lia.
      * rewrite E. unfold signed_value. rewrite X_value, Y_value. cbn [desc data value X Y].
        destruct Ho as [[-> ->]|[-> ->]].
        -- rewrite Z.quot_opp_l, Q by lia. ring.
        -- rewrite Z.quot_opp_r, Q by lia. ring.
  - eapply returns_mono; [apply (div_shorter L fuel (Y e) (X d) Hl (proj1 GY) (proj1 GX))|].
    + unfold canonical; cbn; lia.
    + discriminate.
    + cbn; lia.
    + cbn; lia.
    + intros z ->. destruct Ho as [[-> ->]|[-> ->]]; reflexivity.
Qed.
Lemma div_row d e : opposite d e ->
  returns (op_div L dbg fuel (X d) (Y e)) (fun z => z = mkBN BN_NEG [B - 1; 1]) /\
  returns (op_div L dbg fuel (Y e) (X d)) (fun z => z = mkBN BN_NEG [0]).
Proof.
  intros Ho. destruct (div_release d e Ho) as [H1 H2].
  split; (eapply returns_same; [intros al n; apply (div_same d e Ho)|assumption]).
Qed.

Lemma cmp_rows d e (lt : bool) : opposite d e -> (lt = true <-> d = BN_NEG) ->
  Forall2 (answered L dbg (ieee ct cosf sinf) fuel) (comparisons (X d) (Y e))
    [mkRow (X d) Gt (Y e) (Truth (negb lt)); mkRow (X d) Ge (Y e) (Truth (negb lt));
     mkRow (X d) Lt (Y e) (Truth lt); mkRow (X d) Le (Y e) (Truth lt)].
Proof.
  intros Ho Hlt.
  assert (answers (op_gt (X d) (Y e)) (negb lt) /\ answers (op_ge (X d) (Y e)) (negb lt) /\
          answers (op_lt (X d) (Y e)) lt /\ answers (op_le (X d) (Y e)) lt) as (K1 & K2 & K3 & K4).
  { destruct Ho as [[-> ->]|[-> ->]], lt; try (exfalso; intuition congruence); repeat split. }
  unfold comparisons. repeat (apply Forall2_cons; [split; [reflexivity|eapply answers_truth; [eassumption|reflexivity]]|]). apply Forall2_nil.
Qed.

Lemma op_rows d e : opposite d e ->
  Forall2 (answered L dbg (ieee ct cosf sinf) fuel) (operations (X d) (Y e))
    [mkRow (X d) Plus (Y e) (Number (mkBN d [B - 1; B - 2; 1])); mkRow (X d) Minus (Y e) (Number (mkBN d [B - 1; B - 2; 1]));
     mkRow (X d) Times (Y e) (Number (mkBN BN_NEG [0; B - 1; B - 1; 1])); mkRow (X d) Divide (Y e) (Number (mkBN BN_NEG [B - 1; 1]));
     mkRow (Y e) Plus (X d) (Number (mkBN d [B - 1; B - 2; 1])); mkRow (Y e) Minus (X d) (Number (mkBN e []));
     mkRow (Y e) Times (X d) (Number (mkBN BN_NEG [0; B - 1; B - 1; 1])); mkRow (Y e) Divide (X d) (Number (mkBN BN_NEG [0]))].
Proof.
  intros Ho. destruct (add_row d e Ho) as [A1 A2], (sub_row d e Ho) as [S1 S2], (mul_row d e Ho) as [M1 M2], (div_row d e Ho) as [D1 D2].
  unfold operations.
  repeat (apply Forall2_cons; [split; [reflexivity|eapply returns_number; [eassumption|intros ? ->; reflexivity]]|]). apply Forall2_nil.
Qed.

Lemma makes : returns (bn_make L BN_NEG [1; bmax L; bmax L]) (fun z => z = X BN_NEG) /\
  returns (bn_make L BN_POS [bmin L; 1; bmin L]) (fun z => z = Y BN_POS).
Proof.
  pose proof HL as Hl. pose proof B2.
  assert (bmin L = 0) as Hmin0 by (apply AddSubProof.limits_ok_facts in Hl; tauto).
  assert (bmax L = B - 1) as Hmax by (unfold B, base; lia).
  assert (forall d l, returns (bn_make L d l) (fun z => z = mkBN d (rev (strip l)))) as Mk.
  { intros d l. apply (returns_mono _ _ _ (C28_constructor L d l Hmin0)). intros [e v] (H1 & H2 & _). cbn [desc data] in *. congruence. }
  rewrite Hmin0, Hmax. split; eapply returns_mono; [apply Mk| |apply Mk|]; intros z ->; reflexivity.
Qed.

(** The program's tables: four rows of the sixteen with numbers are wrong, the differences.  2B^2-1 + B is never printed. *)
Lemma tables : returns (test_rows L dbg (ieee ct cosf sinf) fuel [1; bmax L; bmax L] [bmin L; 1; bmin L])
  (fun groups => groups = expected (base L)).
Proof.
  destruct makes as [M1 M2]. unfold test_rows.
  eapply returns_bind; [exact M1|]. intros x ->. eapply returns_bind; [exact M2|]. intros y ->.
  change (setDescriptor (X BN_NEG) BN_POS) with (X BN_POS). change (setDescriptor (Y BN_POS) BN_NEG) with (Y BN_NEG).
  eapply returns_bind; [apply each_answered, (cmp_rows BN_NEG BN_POS true); [left; auto|tauto]|]. intros r1 ->.
  eapply returns_bind; [apply each_answered, (op_rows BN_NEG BN_POS); left; auto|]. intros r2 ->. cbv zeta.
  eapply returns_bind; [apply each_answered, (cmp_rows BN_POS BN_NEG false); [right; auto|split; discriminate]|]. intros r3 ->.
  eapply returns_bind; [apply each_answered, (op_rows BN_POS BN_NEG); right; auto|]. intros r4 ->.
  apply returns_ret. reflexivity.
Qed.

Lemma table_written first name : writes_last (test_bn L dbg (ieee ct cosf sinf) fuel first name)
  (test_text L name (expected (base L))) (fun _ => True).
Proof.
  destruct makes as [M1 M2]. unfold test_bn.
  change (test_text L name (expected (base L))) with (heading name ++ "" ++ "" ++
    rows_text L (nth 0 (expected B) []) ++ newline ++ rows_text L (nth 1 (expected B) []) ++ newline ++
    rows_text L (nth 2 (expected B) []) ++ newline ++ rows_text L (nth 3 (expected B) []) ++ newline ++ newline ++ newline)%string.
  assert (forall t : string, (t ++ newline ++ newline ++ newline)%string <> ""%string) as N1 by (intros []; discriminate).
  assert (forall t u : string, u <> ""%string -> (t ++ u)%string <> ""%string) as N2 by (intros [] u Hu; [exact Hu|discriminate]).
  apply (writes_last_bind _ _ (heading name) _ _ _ (writes_write _)); [repeat apply N2; discriminate|]. intros _ _.
  eapply writes_last_bind; [apply writes_quiet, M1|repeat apply N2; discriminate|]. intros x ->.
  eapply writes_last_bind; [apply writes_quiet, M2|repeat apply N2; discriminate|]. intros y ->.
  eapply writes_last_bind; [apply write_answered, (cmp_rows BN_NEG BN_POS true); [left; auto|tauto]|repeat apply N2; discriminate|]. intros _ _.
  eapply writes_last_bind; [apply writes_write|repeat apply N2; discriminate|]. intros _ _.
  eapply writes_last_bind; [apply write_answered, (op_rows BN_NEG BN_POS); left; auto|repeat apply N2; discriminate|]. intros _ _.
  eapply writes_last_bind; [apply writes_write|repeat apply N2; discriminate|]. intros _ _. cbv zeta.
  change (setDescriptor (X BN_NEG) BN_POS) with (X BN_POS). change (setDescriptor (Y BN_POS) BN_NEG) with (Y BN_NEG).
  eapply writes_last_bind; [apply write_answered, (cmp_rows BN_POS BN_NEG false); [right; auto|split; discriminate]|repeat apply N2; discriminate|]. intros _ _.
  eapply writes_last_bind; [apply writes_write|repeat apply N2; discriminate|]. intros _ _.
  eapply writes_last_bind; [apply write_answered, (op_rows BN_POS BN_NEG); right; auto|repeat apply N2; discriminate|]. intros _ _.
  apply writes_last_write.
Qed.
End Tables.

Definition printed_types : list limits := [base2; base8; base10; base16].

Lemma printed_type L : In L printed_types ->
  exists m, In (L, 2 ^ 32, m) safe_lengths /\ can_double L = true /\ 2 <= m /\ Z.log2 (2 * base L ^ 2) + 2 <= 40.
Proof.
  intros HL. unfold printed_types in HL. cbn [In] in HL. unfold safe_lengths. cbn [In].
  destruct HL as [<-|[<-|[<-|[<-|[]]]]]; [exists 128|exists 1170|exists 47721858|exists 17895697];
    (split; [tauto|]); repeat split; vm_compute; congruence.
Qed.

(** The results the program prints in its tables, in release and in debug builds. *)
Theorem C56_printed_rows : forall ct cosf sinf L dbg fuel, accurate cosf sinf -> In L printed_types -> (40 <= fuel)%nat ->
  returns (test_rows L dbg (ieee ct cosf sinf) fuel [1; bmax L; bmax L] [bmin L; 1; bmin L]) (fun groups => groups = expected (base L)).
Proof.
  intros ct cosf sinf L dbg fuel HA HL Hf. destruct (printed_type L HL) as (m & H1 & H2 & H3 & H4).
  refine (tables ct cosf sinf L dbg (2 ^ 32) m fuel HA H1 H2 H3 _ _).
  - change (Z.log2_up (2 ^ 32)) with 32. lia.
  - lia.
Qed.
Print Assumptions C56_printed_rows.

(** The text written for one type, whatever the order in which results are computed and operands written; when an allocation
    is refused, a beginning of it is written before the exception. *)
Theorem C56_table_text : forall ct cosf sinf L dbg fuel first name, accurate cosf sinf -> In L printed_types -> (40 <= fuel)%nat ->
  writes_last (test_bn L dbg (ieee ct cosf sinf) fuel first name) (test_text L name (expected (base L))) (fun _ => True).
Proof.
  intros ct cosf sinf L dbg fuel first name HA HL Hf. destruct (printed_type L HL) as (m & H1 & H2 & H3 & H4).
  refine (table_written ct cosf sinf L dbg (2 ^ 32) m fuel HA H1 H2 H3 _ _ first name).
  - change (Z.log2_up (2 ^ 32)) with 32. lia.
  - lia.
Qed.
Print Assumptions C56_table_text.

(** Exactly the four differences in each table are wrong. *)
Theorem C56_wrong_rows : forall B, 2 <= B -> Forall (Forall (fun r => intended B r <-> op r <> Minus)) (expected B).
Proof.
  intros B HB. unfold expected.
  assert (Z.quot (2 * B ^ 2 - 1) B = 2 * B - 1 /\ Z.quot B (2 * B ^ 2 - 1) = 0) as [Q1 Q2].
  { split; [|apply Z.quot_small; nia].
    rewrite Z.quot_div_nonneg by nia. symmetry. apply (Z.div_unique_pos _ _ _ (B - 1)); [lia|ring]. }
  assert (forall P Q : Prop, P -> Q -> (P <-> Q)) as Both by tauto.
  assert (forall P Q : Prop, ~ P -> ~ Q -> (P <-> Q)) as Neither by tauto.
  cbv zeta. cbn [app negb].
  repeat match goal with
         | |- Forall _ (_ :: _) => apply Forall_cons
         | |- Forall _ [] => apply Forall_nil
         end; cbn [op];
  first [ apply Both; [|discriminate] | apply Neither; [|intros H; apply H; reflexivity] ];
  unfold intended; cbn [op result left right]; unfold signed_value; cbn [desc data value];
  replace (B - 1 + B * (B - 1 + B * (1 + B * 0))) with (2 * B ^ 2 - 1) by ring;
  replace (0 + B * (1 + B * 0)) with B by ring;
  try (symmetry; first [apply Z.ltb_lt | apply Z.leb_le | apply Z.ltb_ge | apply Z.leb_gt]; nia);
  try (rewrite ?Z.quot_opp_l, ?Z.quot_opp_r, ?Q1, ?Q2 by nia); try ring; try nia.
Qed.
Print Assumptions C56_wrong_rows.

Local Open Scope string_scope.
Definition nl := String (ascii_of_nat 10) "".
Definition tb := String (ascii_of_nat 9) "".

(** The table of bignum_base10, character by character. *)
Theorem C56_decimal_table : forall ct cosf sinf dbg fuel first, accurate cosf sinf -> (40 <= fuel)%nat ->
  writes_last (test_bn base10 dbg (ieee ct cosf sinf) fuel first "bignum_base10") (
    "------------------------------------------------------------------" ++ nl ++
    tb ++ tb ++ tb ++ "bignum_base10" ++ nl ++
    "------------------------------------------------------------------" ++ nl ++ nl ++
    "-199>10:" ++ tb ++ "0" ++ nl ++
    "-199>=10:" ++ tb ++ "0" ++ nl ++
    "-199<10:" ++ tb ++ "1" ++ nl ++
    "-199<=10:" ++ tb ++ "1" ++ nl ++ nl ++
    "-199+10:" ++ tb ++ "-189" ++ nl ++
    "-199-10:" ++ tb ++ "-189" ++ nl ++
    "-199*10:" ++ tb ++ "-1990" ++ nl ++
    "-199/10:" ++ tb ++ "-19" ++ nl ++
    "10+-199:" ++ tb ++ "-189" ++ nl ++
    "10--199:" ++ tb ++ "0" ++ nl ++
    "10*-199:" ++ tb ++ "-1990" ++ nl ++
    "10/-199:" ++ tb ++ "-0" ++ nl ++ nl ++
    "199>-10:" ++ tb ++ "1" ++ nl ++
    "199>=-10:" ++ tb ++ "1" ++ nl ++
    "199<-10:" ++ tb ++ "0" ++ nl ++
    "199<=-10:" ++ tb ++ "0" ++ nl ++ nl ++
    "199+-10:" ++ tb ++ "189" ++ nl ++
    "199--10:" ++ tb ++ "189" ++ nl ++
    "199*-10:" ++ tb ++ "-1990" ++ nl ++
    "199/-10:" ++ tb ++ "-19" ++ nl ++
    "-10+199:" ++ tb ++ "189" ++ nl ++
    "-10-199:" ++ tb ++ "-0" ++ nl ++
    "-10*199:" ++ tb ++ "-1990" ++ nl ++
    "-10/199:" ++ tb ++ "-0" ++ nl ++ nl ++ nl ++ nl) (fun _ => True).
Proof.
  intros ct cosf sinf dbg fuel first HA Hf.
  pose proof (C56_table_text ct cosf sinf base10 dbg fuel first "bignum_base10" HA ltac:(cbn; tauto) Hf) as H.
  match goal with |- writes_last _ ?t _ => replace t with (test_text base10 "bignum_base10" (expected (base base10))); [exact H|] end.
  vm_compute. reflexivity.
Qed.
Print Assumptions C56_decimal_table.

(** ** The whole program *)

Lemma checked_returns m Q bad : assigns m Q bad -> returns (checked m) Q.
Proof.
  intros H al n. specialize (H al n). unfold checked, bind. destruct (m al n) as [[z [e|]] n'|e n'|u|]; auto; try contradiction.
  cbn [snd throw]. destruct H as (-> & _ & H). split; [left; reflexivity|exact H].
Qed.

(** the results of a computation that has only one possible result *)
Lemma returns_unique {A} (m : M A) (Q : A -> Prop) : returns m Q -> (forall a b, Q a -> Q b -> a = b) ->
  exists a, Q a /\ returns m (fun z => z = a).
Proof.
  intros H U. destruct (BignumProof.returns_run m Q H) as (a & n & _ & Qa). exists a. split; [exact Qa|].
  apply (returns_mono _ _ _ H). intros z Hz. apply U; assumption.
Qed.

Lemma checked_same m m' : (forall al n, m al n = m' al n) -> forall al n, checked m al n = checked m' al n.
Proof. intros E al n. unfold checked, bind. rewrite E. reflexivity. Qed.

Lemma sequence_writes ct cosf sinf L N m fuel da db : accurate cosf sinf -> In (L, N, m) safe_lengths -> can_double L = true ->
  digits_ok (base L) da -> digits_ok (base L) db ->
  let a := written_value (base L) da in let b := written_value (base L) db in
  (1 < a)%Z -> (1 < b)%Z -> (Z.log2 (a * b) + 2 <= Z.of_nat fuel)%Z -> (Z.log2_up N < Z.of_nat fuel)%Z ->
  (Z.of_nat (length da + length db) <= N)%Z -> (Z.of_nat (Nat.min (length da) (length db)) <= m)%Z ->
  exists xa xb xs xp,
    (good (base L) xa /\ signed_value (base L) xa = a) /\ (good (base L) xb /\ signed_value (base L) xb = b) /\
    (good (base L) xs /\ signed_value (base L) xs = (a + b)%Z) /\ (good (base L) xp /\ signed_value (base L) xp = (a * b)%Z) /\
    let five := (print L xa ++ newline) ++ (print L xb ++ newline) ++ (print L xs ++ newline) ++ (print L xa ++ newline) ++
      print L xp ++ newline in
    writes_last (sequence_text L false (ieee ct cosf sinf) fuel da db) (five ++ print L xa ++ newline) (fun _ => True) /\
    (rejected (base L) b (a * b) -> (base L ^ Z.of_nat (length db) <= a + b)%Z ->
     writes_then_throws (sequence_text L true (ieee ct cosf sinf) fuel da db) five).
Proof.
  intros HA Hin HD Da Db a b Ha Hb Hf HN Hlen Hmin.
  assert (limits_ok L = true) as HL by (unfold can_double in HD; apply andb_true_iff in HD; apply HD).
  pose proof (AddSubProof.HB L HL) as HB.
  assert (bmin L = 0%Z) as Hmin0 by (apply AddSubProof.limits_ok_facts in HL; tauto).
  assert (forall d l, returns (bn_make L d l) (fun z => z = mkBN d (rev (strip l)))) as Mk.
  { intros d l. apply (returns_mono _ _ _ (C28_constructor L d l Hmin0)). intros [e v] (H1 & H2 & _). cbn [desc data] in *. congruence. }
  assert (forall l, (length (strip l) <= length l)%nat) as Sl.
  { intros l. destruct (strip_split l) as [k E]. rewrite E at 2. rewrite app_length. lia. }
  destruct (make_good L BN_POS da HL (or_introl eq_refl) Da) as [Ga Va]. destruct (make_good L BN_POS db HL (or_introl eq_refl) Db) as [Gb Vb].
  cbn [sign_of] in Va, Vb. rewrite Z.mul_1_l in Va, Vb. fold a in Va. fold b in Vb.
  assert (length (data (mkBN BN_POS (rev (strip da)))) <= length da /\ length (data (mkBN BN_POS (rev (strip db)))) <= length db)%nat as [La Lb]
    by (cbn [data]; rewrite !rev_length; split; apply Sl).
  pose proof (Mk BN_POS da) as Ma. pose proof (Mk BN_POS db) as Mb. clear Mk.
  revert Ga Va Gb Vb La Lb Ma Mb. generalize (mkBN BN_POS (rev (strip da))) (mkBN BN_POS (rev (strip db))). intros x y Ga Va Gb Vb La Lb Ma Mb.
  assert (desc x = BN_POS) as Dx by (apply (desc_of_value (base L)); auto; lia).
  assert (desc y = BN_POS) as Dy by (apply (desc_of_value (base L)); auto; lia).
  assert (data x <> []) as Nx by (apply (nonzero_nonempty (base L)); lia).
  assert (value (base L) (data y) = b) as Vy by (unfold signed_value in Vb; rewrite Dy in Vb; exact Vb).
  destruct (positive_parts (base L) (data y) (proj2 (proj2 Gb)) ltac:(lia)) as [Cy Ny].
  (* the sum *)
  destruct (returns_unique _ _ (checked_returns _ _ _ (C01_add_assign L x y HL Ga Gb (or_introl (eq_trans Dx (eq_sym Dy))))))
    as (s & (Gs & Vs) & Rs).
  { intros u v [G1 V1] [G2 V2]. apply (good_unique (base L)); auto; try lia. }
  rewrite Va, Vb in Vs.
  assert (desc s = BN_POS) as Ds by (apply (desc_of_value (base L)); auto; lia).
  assert (value (base L) (data s) = a + b)%Z as Vs2 by (unfold signed_value in Vs; rewrite Ds in Vs; exact Vs).
  destruct (positive_parts (base L) (data s) (proj2 (proj2 Gs)) ltac:(lia)) as [Cs Ns].
  (* the difference *)
  assert (returns (checked (op_sub_assign L false s (Other y))) (fun z => z = x)) as Rd.
  { eapply returns_mono; [eapply checked_returns, (C03_sub_assign L s y HL Gs Gb (eq_trans Ds (eq_sym Dy)) (or_intror Ny))|].
    intros x2 (G2 & _ & V2). rewrite Vs, Vb in V2. apply (good_unique (base L)); auto; lia. }
  (* the product *)
  assert (0 < length (data x) + length (data y))%nat as P0 by (destruct (data x); [congruence|cbn; lia]).
  assert (Z.of_nat (length (data x) + length (data y)) <= N)%Z as Hlen' by lia.
  destruct (safe_lengths_numbers L N m Hin) as (_ & HN2 & Hq & HM & Hm0 & Hc & _).
  assert (exists p, (good (base L) p /\ signed_value (base L) p = (a * b)%Z) /\
    returns (checked (op_mul_assign L (ieee ct cosf sinf) fuel x (Other y))) (fun z => z = p)) as (p & (Gp & Vp) & Rp).
  { assert (returns (checked (op_mul_assign L (ieee ct cosf sinf) fuel x (Other y))) (fun z => good (base L) z /\ signed_value (base L) z = (a * b)%Z)) as R.
    { eapply returns_mono.
      { eapply checked_returns. apply (C17_product ct cosf sinf L fuel x y HA HL (proj1 Ga) (proj1 Gb) (proj1 (proj2 Ga)) (proj1 (proj2 Gb)) P0).
        - lia.
        - pose proof (Z.log2_up_le_mono _ _ Hlen'). lia.
        - apply (length_precision L _ _ N); auto; [unfold base; lia|apply Ga|apply Gb].
        - apply C16_columns_fit; auto; [apply Ga|apply Gb|]. eapply Z.le_trans; [|exact Hc].
          apply Z.mul_le_mono_nonneg_r; [unfold base; nia|]. lia. }
      intros p (Gp & _ & Vp & _). rewrite Va, Vb in Vp. auto. }
    apply (returns_unique _ _ R). intros u v [G1 V1] [G2 V2]. apply (good_unique (base L)); auto; try lia; nia. }
  assert (desc p = BN_POS) as Dp by (apply (desc_of_value (base L)); auto; nia).
  assert (value (base L) (data p) = a * b)%Z as Vp2 by (unfold signed_value in Vp; rewrite Dp in Vp; exact Vp).
  (* the quotient *)
  assert (returns (checked (op_div_assign L false fuel p (Other y))) (fun z => z = x)) as Rq.
  { eapply returns_mono.
    { eapply checked_returns. apply (C24_division L fuel p y HD Gp Gb Cy Ny).
      - rewrite Vp2. exact Hf.
      - rewrite Vp2, Vy. left. nia. }
    intros x4 (G4 & V4). rewrite Vp, Vb, Z.quot_mul in V4 by lia. apply (good_unique (base L)); auto; lia. }
  exists x, y, s, p. do 4 (split; [split; assumption|]). cbv zeta.
  assert (forall t : string, t ++ newline <> "") as NN by (intros []; discriminate).
  split.
  - unfold sequence_text, write_line. rewrite <- !app_assoc_s. rewrite !app_assoc_s. rewrite <- !app_assoc_s.
    repeat match goal with |- context [print L ?u ++ newline ++ ?t] => rewrite (app_assoc_s (print L u) newline t) end.
    apply (writes_last_bind _ _ "" _ _ _ (writes_quiet _ _ Ma)); [repeat apply app_nonempty_s; discriminate|]. intros ? ->.
    eapply writes_last_bind; [apply writes_write|repeat apply app_nonempty_s; discriminate|]. intros _ _.
    apply (writes_last_bind _ _ "" _ _ _ (writes_quiet _ _ Mb)); [repeat apply app_nonempty_s; discriminate|]. intros ? ->.
    eapply writes_last_bind; [apply writes_write|repeat apply app_nonempty_s; discriminate|]. intros _ _.
    apply (writes_last_bind _ _ "" _ _ _ (writes_quiet _ _ Rs)); [repeat apply app_nonempty_s; discriminate|]. intros ? ->.
    eapply writes_last_bind; [apply writes_write|repeat apply app_nonempty_s; discriminate|]. intros _ _.
    apply (writes_last_bind _ _ "" _ _ _ (writes_quiet _ _ Rd)); [repeat apply app_nonempty_s; discriminate|]. intros ? ->.
    eapply writes_last_bind; [apply writes_write|repeat apply app_nonempty_s; discriminate|]. intros _ _.
    apply (writes_last_bind _ _ "" _ _ _ (writes_quiet _ _ Rp)); [repeat apply app_nonempty_s; discriminate|]. intros ? ->.
    eapply writes_last_bind; [apply writes_write|repeat apply app_nonempty_s; discriminate|]. intros _ _.
    apply (writes_last_bind _ _ "" _ _ _ (writes_quiet _ _ Rq)); [repeat apply app_nonempty_s; discriminate|]. intros ? ->.
    apply writes_last_write.
  - intros Hr Hbig.
    assert (forall al n, op_add_assign L true x (Other y) al n = op_add_assign L false x (Other y) al n) as Ea.
    { intros al n. apply C39_debug_addition_same_sign; [left; exact Dx|cbn [adesc]; congruence]. }
    assert (~ looks_greater (data y) (data s)) as Nl.
    { assert (length (data y) < length (data s))%nat as Hl.
      { assert (base L ^ Z.of_nat (length db) < base L ^ Z.of_nat (length (data s)))%Z as K.
        { pose proof (value_bounds (base L) HB (data s) (proj1 (proj2 Gs))). lia. }
        apply Z.pow_lt_mono_r_iff in K; lia. }
      intros [K|[K _]]; lia. }
    assert (forall al n, op_sub_assign L true s (Other y) al n = op_sub_assign L false s (Other y) al n) as Es.
    { intros al n. refine (proj2 (C39_debug_subtraction L s y al n HL (or_introl Ds) (eq_trans Ds (eq_sym Dy)) (proj1 (proj2 Gs))
        (proj1 (proj2 Gb)) Cs Cy _) Nl). lia. }
    assert (forall al n, exists n', checked (op_div_assign L true fuel p (Other y)) al n = Throw ExStd n') as Ed.
    { intros al n. destruct (proj1 (C54_debug_division L fuel p y HD Gp Gb Cy ltac:(lia) ltac:(rewrite Vp2; exact Hf)) ltac:(rewrite Vy, Vp2; exact Hr) al n)
        as (n' & E). exists n'. unfold checked, bind. rewrite E. reflexivity. }
    pose proof (returns_same _ _ _ (checked_same _ _ Ea) Rs) as Rs'. pose proof (returns_same _ _ _ (checked_same _ _ Es) Rd) as Rd'.
    unfold sequence_text, write_line.
    apply (writes_then_throws_bind _ _ "" _ _ (writes_quiet _ _ Ma)); [repeat apply app_nonempty_s; discriminate|]. intros ? ->.
    eapply writes_then_throws_bind; [apply writes_write|repeat apply app_nonempty_s; discriminate|]. intros _ _.
    apply (writes_then_throws_bind _ _ "" _ _ (writes_quiet _ _ Mb)); [repeat apply app_nonempty_s; discriminate|]. intros ? ->.
    eapply writes_then_throws_bind; [apply writes_write|repeat apply app_nonempty_s; discriminate|]. intros _ _.
    apply (writes_then_throws_bind _ _ "" _ _ (writes_quiet _ _ Rs')); [repeat apply app_nonempty_s; discriminate|]. intros ? ->.
    eapply writes_then_throws_bind; [apply writes_write|repeat apply app_nonempty_s; discriminate|]. intros _ _.
    apply (writes_then_throws_bind _ _ "" _ _ (writes_quiet _ _ Rd')); [repeat apply app_nonempty_s; discriminate|]. intros ? ->.
    eapply writes_then_throws_bind; [apply writes_write|repeat apply app_nonempty_s; discriminate|]. intros _ _.
    apply (writes_then_throws_bind _ _ "" _ _ (writes_quiet _ _ Rp)); [repeat apply app_nonempty_s; discriminate|]. intros ? ->.
    match goal with |- writes_then_throws ?m ?t => refine (eq_rect (t ++ "") (writes_then_throws m) _ t (app_nil_s t)) end.
    eapply throws_bind_last; [apply writes_last_write|]. intros _ _.
    apply throws_now. exact Ed.
Qed.

(** The text of the four tables. *)
Definition four_tables : string :=
  test_text base2 "bignum_base2" (expected 2) ++ test_text base8 "bignum_base8" (expected 8) ++
  test_text base10 "bignum_base10" (expected 10) ++ test_text base16 "bignum_base16" (expected 16).

Definition caught (what : exn -> string) (e : exn) : string := "Exception caught: " ++ what e ++ nl.

(** the two numbers of lines 76 and 78, as they are written *)
Definition first_number : Z := 1981098309851092850192851029581029581209581092581209581209581029581209581209856120856120958120958120958120958.
Definition second_number : Z := 3924750513294856694362454036833164128464536472071648725652592612640419881740.

(** The program ended early because an allocation was refused: it has written a proper beginning of [text] and told so. *)
Definition cut_short (what : exn -> string) (text : string) (e : ended) : Prop :=
  (exists rest, rest <> "" /\ text = std_out e ++ rest) /\
  (exists x, (x = ExStd \/ x = ExBadAlloc) /\ std_err e = caught what x).

Lemma body_writes ct cosf sinf fuel : accurate cosf sinf -> (700 <= fuel)%nat ->
  exists sa sb ss sp, let a := first_number in let b := second_number in
    numeral 10 sa a /\ numeral 10 sb b /\ numeral 10 ss (a + b) /\ numeral 10 sp (a * b) /\
    let five := sa ++ nl ++ sb ++ nl ++ ss ++ nl ++ sa ++ nl ++ sp ++ nl in
    forall first, writes_last (arithmetic_body false (ieee ct cosf sinf) fuel first) (four_tables ++ five ++ sa ++ nl) (fun _ => True) /\
      writes_then_throws (arithmetic_body true (ieee ct cosf sinf) fuel first) (four_tables ++ five).
Proof.
  replace first_number with (written_value 10 digits_a) by (vm_compute; reflexivity).
  replace second_number with (written_value 10 digits_b) by (vm_compute; reflexivity).
  intros HA Hf.
  assert (digits_ok (base base10) digits_a /\ digits_ok (base base10) digits_b) as [Da Db].
  { split; apply Forall_forall; intros d Hd; cbn in Hd; change (base base10) with 10%Z; intuition lia. }
  destruct (sequence_writes ct cosf sinf base10 (2 ^ 32) 47721858 fuel digits_a digits_b HA) as
    (xa & xb & xs & xp & (Ga & Va) & (Gb & Vb) & (Gs & Vs) & (Gp & Vp) & Hr & Hd); try assumption.
  { unfold safe_lengths. cbn [In]. tauto. }
  { reflexivity. }
  { vm_compute. reflexivity. }
  { vm_compute. reflexivity. }
  { apply Z.le_trans with 700%Z; [vm_compute; discriminate|lia]. }
  { apply Z.lt_le_trans with 700%Z; [vm_compute; reflexivity|lia]. }
  { vm_compute. discriminate. }
  { vm_compute. discriminate. }
  change (base base10) with 10%Z in *.
  assert (rejected 10 (written_value 10 digits_b) (written_value 10 digits_a * written_value 10 digits_b)) as Rj.
  { apply (rejected_now _ _ _ 359); [lia|split; vm_compute; congruence|]. exists 183%Z, 3%Z. repeat split; vm_compute; congruence. }
  specialize (Hd Rj ltac:(vm_compute; discriminate)).
  assert (forall x z, good 10 x -> signed_value 10 x = z -> (0 < z)%Z -> exists s, numeral 10 s z /\ print base10 x = s) as Num.
  { intros x z G V Hz. destruct (proj1 (C32_decimal_and_octal x) G) as (s & Ns & Ps). exists s.
    assert (desc x = BN_POS) as D by (apply (desc_of_value 10); auto; lia).
    rewrite D in Ps. unfold signed_value in V. rewrite D in V. rewrite V in Ns. split; assumption. }
  assert (0 < written_value 10 digits_a)%Z as Pa by (vm_compute; reflexivity).
  assert (0 < written_value 10 digits_b)%Z as Pb by (vm_compute; reflexivity).
  destruct (Num _ _ Ga Va Pa) as (sa & Na & Ea). destruct (Num _ _ Gb Vb Pb) as (sb & Nb & Eb).
  destruct (Num _ _ Gs Vs ltac:(lia)) as (ss & Ns & Es). destruct (Num _ _ Gp Vp ltac:(nia)) as (sp & Np & Ep).
  rewrite Ea, Eb, Es, Ep in Hr, Hd. repeat rewrite <- app_assoc_s in Hr. repeat rewrite <- app_assoc_s in Hd. change newline with nl in Hr, Hd.
  exists sa, sb, ss, sp. cbv zeta. do 4 (split; [assumption|]). intros first.
  assert (forall L dbg f name, In L printed_types ->
    writes (test_bn L dbg (ieee ct cosf sinf) fuel f name) (test_text L name (expected (base L))) (fun _ => True)) as T.
  { intros L dbg f name HL. apply writes_of_last, C56_table_text; auto. lia. }
  unfold four_tables, arithmetic_body. rewrite <- !app_assoc_s. split.
  - eapply writes_last_bind; [apply (T base2); cbn; tauto|repeat apply app_nonempty_s; discriminate|]. intros _ _.
    eapply writes_last_bind; [apply (T base8); cbn; tauto|repeat apply app_nonempty_s; discriminate|]. intros _ _.
    eapply writes_last_bind; [apply (T base10); cbn; tauto|repeat apply app_nonempty_s; discriminate|]. intros _ _.
    eapply writes_last_bind; [apply (T base16); cbn; tauto|repeat apply app_nonempty_s; discriminate|]. intros _ _. exact Hr.
  - eapply writes_then_throws_bind; [apply (T base2); cbn; tauto|repeat apply app_nonempty_s; discriminate|]. intros _ _.
    eapply writes_then_throws_bind; [apply (T base8); cbn; tauto|repeat apply app_nonempty_s; discriminate|]. intros _ _.
    eapply writes_then_throws_bind; [apply (T base10); cbn; tauto|repeat apply app_nonempty_s; discriminate|]. intros _ _.
    eapply writes_then_throws_bind; [apply (T base16); cbn; tauto|repeat apply app_nonempty_s; discriminate|]. intros _ _. exact Hd.
Qed.

(** The whole program, compiled without BN_DEBUG: the four tables, then the numerals of a, b, a+b, a, a*b and a; exit status 0,
    also when memory runs out. *)
Theorem C56_output : forall ct cosf sinf fuel, accurate cosf sinf -> (700 <= fuel)%nat ->
  exists sa sb ss sp, let a := first_number in let b := second_number in
    numeral 10 sa a /\ numeral 10 sb b /\ numeral 10 ss (a + b) /\ numeral 10 sp (a * b) /\
    let text := four_tables ++ sa ++ nl ++ sb ++ nl ++ ss ++ nl ++ sa ++ nl ++ sp ++ nl ++ sa ++ nl in
    forall what first al n, exists e n', arithmetic_main what false (ieee ct cosf sinf) fuel first al n = Ret e n' /\ status e = Some 0%Z /\
      (std_out e = text /\ std_err e = "" \/ cut_short what text e /\ refused al n n').
Proof.
  intros ct cosf sinf fuel HA Hf. destruct (body_writes ct cosf sinf fuel HA Hf) as (sa & sb & ss & sp & Na & Nb & Ns & Np & H).
  exists sa, sb, ss, sp. cbv zeta in *. do 4 (split; [assumption|]). intros what first al n.
  destruct (H first) as [W _]. specialize (W al n). clear H. unfold arithmetic_main. repeat rewrite <- app_assoc_s in W.
  destruct (arithmetic_body false (ieee ct cosf sinf) fuel first al n) as [[out err] [u n'|x n'|u|]]; try contradiction.
  - destruct W as (-> & -> & _). eexists _, _. split; [reflexivity|]. split; [reflexivity|]. left. split; reflexivity.
  - destruct W as (Hout & (rest & Herr) & Hx & Hr). apply no_prefix in Herr. subst err. exists (mkEnded (Some 0%Z) out (caught what x)), n'.
    split; [destruct Hx as [-> | ->]; reflexivity|]. split; [reflexivity|]. right. split; [|exact Hr].
    split; [exact Hout|]. exists x. split; [exact Hx|reflexivity].
Qed.
Print Assumptions C56_output.

(** The same program compiled with BN_DEBUG: the tables are the same, but the last line never appears.  Dividing a*b by b
    throws whatever the allocator does (C54), the handler reports it, and the exit status is still 0. *)
Theorem C61_debug_output : forall ct cosf sinf fuel, accurate cosf sinf -> (700 <= fuel)%nat ->
  exists sa sb ss sp, let a := first_number in let b := second_number in
    numeral 10 sa a /\ numeral 10 sb b /\ numeral 10 ss (a + b) /\ numeral 10 sp (a * b) /\
    let text := four_tables ++ sa ++ nl ++ sb ++ nl ++ ss ++ nl ++ sa ++ nl ++ sp ++ nl in
    forall what first al n, exists e n', arithmetic_main what true (ieee ct cosf sinf) fuel first al n = Ret e n' /\ status e = Some 0%Z /\
      (std_out e = text /\ std_err e = caught what ExStd \/ cut_short what text e /\ refused al n n').
Proof.
  intros ct cosf sinf fuel HA Hf. destruct (body_writes ct cosf sinf fuel HA Hf) as (sa & sb & ss & sp & Na & Nb & Ns & Np & H).
  exists sa, sb, ss, sp. cbv zeta in *. do 4 (split; [assumption|]). intros what first al n.
  destruct (H first) as [_ W]. specialize (W al n). clear H. unfold arithmetic_main.
  destruct (arithmetic_body true (ieee ct cosf sinf) fuel first al n) as [[out err] [u n'|x n'|u|]]; try contradiction.
  destruct W as (-> & [(-> & ->)|(Hout & Hx & Hr)]).
  - eexists _, _. split; [reflexivity|]. split; [reflexivity|]. left. split; reflexivity.
  - exists (mkEnded (Some 0%Z) out (caught what x)), n'.
    split; [destruct Hx as [-> | ->]; reflexivity|]. split; [reflexivity|]. right. split; [|exact Hr].
    split; [exact Hout|]. exists x. split; [exact Hx|reflexivity].
Qed.
Print Assumptions C61_debug_output.

(** When memory never runs out the two builds end as follows, on the same tables. *)
Theorem C61_builds_differ : forall ct cosf sinf fuel what first first' n n', accurate cosf sinf -> (700 <= fuel)%nat ->
  exists e e' m m' line,
    arithmetic_main what false (ieee ct cosf sinf) fuel first (fun _ => true) n = Ret e m /\
    arithmetic_main what true (ieee ct cosf sinf) fuel first' (fun _ => true) n' = Ret e' m' /\
    status e = Some 0%Z /\ status e' = Some 0%Z /\ std_err e = "" /\ std_err e' = caught what ExStd /\
    numeral 10 line first_number /\ std_out e = std_out e' ++ line ++ nl.
Proof.
  intros ct cosf sinf fuel what first first' n n' HA Hf.
  destruct (body_writes ct cosf sinf fuel HA Hf) as (sa & sb & ss & sp & Na & Nb & Ns & Np & H). cbv zeta in H.
  destruct (H first) as [W _]. destruct (H first') as [_ W']. clear H.
  specialize (W (fun _ => true) n). specialize (W' (fun _ => true) n'). unfold arithmetic_main.
  destruct (arithmetic_body false (ieee ct cosf sinf) fuel first (fun _ => true) n) as [[out err] [u m|x m|u|]]; try contradiction;
    [|destruct W as (_ & _ & _ & k & _ & K); discriminate].
  destruct (arithmetic_body true (ieee ct cosf sinf) fuel first' (fun _ => true) n') as [[out' err'] [u' m'|x' m'|u'|]]; try contradiction.
  destruct W' as (-> & [(-> & ->)|(_ & _ & k & _ & K)]); [|discriminate]. destruct W as (-> & -> & _).
  eexists _, _, m, m', sa. split; [reflexivity|]. split; [reflexivity|]. cbn [status std_out std_err].
  do 4 (split; [reflexivity|]). split; [exact Na|]. rewrite <- !app_assoc_s. reflexivity.
Qed.
Print Assumptions C61_builds_differ.

(** the hypotheses of the general table are met by 1234 and 56, and by equal numbers *)
Example C56_case : exists m, In (base10, 2 ^ 32, m) safe_lengths /\ can_double base10 = true /\
  digits_ok 10 [1; 2; 3; 4]%Z /\ digits_ok 10 [0; 5; 6]%Z /\ (0 < written_value 10 [0; 5; 6] < written_value 10 [1; 2; 3; 4])%Z /\
  (Z.log2 (written_value 10 [1; 2; 3; 4]) + 2 <= 40)%Z.
Proof.
  exists 47721858%Z. split; [unfold safe_lengths; cbn [In]; tauto|]. split; [reflexivity|].
  split; [repeat constructor; lia|]. split; [repeat constructor; lia|]. vm_compute. repeat split; discriminate.
Qed.
